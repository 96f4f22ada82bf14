(* Rules for composing code fragments. *)
From Coq Require Import ZArith Lia Bool List.
From Verif Require Import Lib Word Machine MachineProofs VarModel VarSpec VarProofs SeqProofs OpsModel OpsSpec.
Import ListNotations.
Open Scope Z_scope.

Lemma placed_app w T k c1 c2 : placed w T k (c1 ++ c2) -> placed w T k c1 /\ placed w T (k + length c1) c2.
Proof.
  intros H. split; intros i t Hi.
  - apply H. rewrite nth_error_app1; auto. apply nth_error_Some. congruence.
  - replace (k + length c1 + i)%nat with (k + (length c1 + i))%nat by lia. apply H.
    rewrite nth_error_app2 by lia. replace (length c1 + i - length c1)%nat with i by lia. exact Hi.
Qed.
Lemma placed_one w T k t : placed w T k [t] -> W_P w (lbl T k) = Some t.
Proof. intros H. rewrite <- (Nat.add_0_r k). apply H. reflexivity. Qed.
Lemma placed_cons w T k t c : placed w T k (t :: c) -> W_P w (lbl T k) = Some t /\ placed w T (S k) c.
Proof.
  intros H. destruct (placed_app w T k [t] c H) as [A B]. split; [apply placed_one; exact A|].
  replace (S k) with (k + length [t])%nat by (cbn; lia). exact B.
Qed.

Lemma keeps_refl w m : keeps w m m.
Proof. intros v _ H. exact H. Qed.
Lemma keeps_trans w m1 m2 m3 : keeps w m1 m2 -> keeps w m2 m3 -> keeps w m1 m3.
Proof. intros A B v Hv H. apply B; auto. Qed.
Lemma runs_trans w s1 s2 s3 : runs w s1 s2 -> runs w s2 s3 -> runs w s1 s3.
Proof. apply steps_trans. Qed.

(* weakening *)
Lemma does_sub w T k code (S S' : Z -> Prop) m l : (forall a, S a -> S' a) -> does w T k code S m l -> does w T k code S' m l.
Proof.
  intros Hs (m' & A & [B1 B2] & C). exists m'. split; [exact A|]. split; [|exact C].
  split; [exact B1|]. intros b Hb Hl. apply B2; auto.
Qed.

Lemma tmp_sub vs cs vs' cs' a : incl vs vs' -> incl cs cs' -> tmp vs cs a -> tmp vs' cs' a.
Proof.
  intros H1 H2 [H|(c & Hc & E)]; [left; eapply scratch_incl; [|exact H]; auto|right; exists c; auto].
Qed.

(* changes that happen only inside S and the listed cells *)
Lemma changes_compose S m m1 m2 l1 l2 l :
  changes S m m1 l1 -> changes S m1 m2 l2 ->
  (forall a x, In (a, x) l -> In (a, x) l2 \/
     (In (a, x) l1 /\ ~ S a /\ forall b y, In (b, y) l2 -> idx b <> idx a)) ->
  (forall a x, In (a, x) l1 \/ In (a, x) l2 -> S a \/ exists b y, In (b, y) l /\ idx a = idx b) ->
  (forall a b, S a -> idx a = idx b -> S b) ->
  changes S m m2 l.
Proof.
  intros [A1 A2] [B1 B2] H1 H2 HS. split.
  - intros a x Hin. destruct (H1 a x Hin) as [Q|(Q1 & Q2 & Q3)]; [apply B1; exact Q|].
    rewrite B2; auto.
  - intros b Hb Hl. 
    assert (Hn : forall a x, In (a, x) l1 \/ In (a, x) l2 -> idx a <> idx b).
    { intros a x Hin E. destruct (H2 a x Hin) as [Q|(c & y & Q & E2)].
      - apply Hb. eapply HS; eauto.
      - apply (Hl c y Q). congruence. }
    rewrite B2, A2; eauto.
Qed.

Lemma tmp_idx vs cs a b : tmp vs cs a -> idx a = idx b -> tmp vs cs b.
Proof.
  intros [H|(c & Hc & E)] Hi; [left; eapply scratch_idx; eauto|right; exists c; split; auto; congruence].
Qed.

Section W.
Variable w : world.
Hypothesis Hw : world_ok w.
Notation vars := (W_vars w).

Lemma vsep v u f g : In v vars -> In u vars -> v <> u \/ f <> g -> idx (vc v f) <> idx (vc u g).
Proof. intros Hv Hu H E. destruct (wo_sep w Hw v u f g Hv Hu E) as [-> ->]. destruct H; congruence. Qed.

Lemma val_writable v f : In v vars -> writable w (vc v f).
Proof. intros. split; [apply (wo_plain w Hw)|apply (wo_prot w Hw)]; auto. Qed.

Lemma not_scratch_val vs v f : incl vs vars -> In v vars -> f = FVal \/ f = FMask -> ~ scratch vs (vc v f).
Proof. apply val_not_scratch. exact Hw. Qed.

Lemma sep_not_scratch vs a : incl vs vars -> sepcell w a -> ~ scratch vs a.
Proof. intros Hi Hs (v & f & H1 & _ & H3). apply (Hs v f (Hi v H1) H3). Qed.

(* a single raw trigger *)
Lemma raw_run T k cs acts m m' :
  placed w T k (Raw1 T k cs acts) -> conds_are m cs true -> acts_do (W_prot w) m acts m' ->
  runs w (lbl T k, m) (lbl T (k + length (Raw1 T k cs acts)), m').
Proof.
  intros Hp Hc Ha. eapply run_true; [apply placed_one; exact Hp|reflexivity|exact Hc|exact Ha|].
  cbn [rd length Raw1]. rewrite u32_lbl. f_equal. lia.
Qed.
Lemma raw_skip T k cs acts m :
  placed w T k (Raw1 T k cs acts) -> conds_are m cs false ->
  runs w (lbl T k, m) (lbl T (k + length (Raw1 T k cs acts)), m).
Proof.
  intros Hp Hc. eapply run_false; [apply placed_one; exact Hp|reflexivity|exact Hc|].
  cbn [rd length Raw1]. rewrite u32_lbl. f_equal. lia.
Qed.

(* ---- SeqCompute with ordinary destinations ---- *)
Definition good_dst (d : dst) : Prop :=
  match d with DVar v => In v vars | DExpr a => patchable w a | DInt _ => False end.
Definition good_list (l : list pair) : Prop :=
  forall d md s, In (d, md, s) l -> good_dst d /\ match s with SVar v => In v vars | SConst _ => True end.

Lemma good_srcs l : good_list l -> incl (srcs_of l) vars.
Proof.
  intros H v Hv. apply in_flat_map in Hv. destruct Hv as ([[d md] s] & Hin & Hs).
  destruct (H d md s Hin) as [_ Q]. destruct s; cbn in Hs; [destruct Hs|]. destruct Hs as [<-|[]]. exact Q.
Qed.
Lemma good_dst_facts d vs : good_dst d -> incl vs vars ->
  writable w (dst_epd d) /\ ~ scratch vs (dst_epd d) /\ truthy d = true /\
  (forall v f, In v vars -> f <> FVal -> idx (dst_epd d) <> idx (vc v f)).
Proof.
  intros Hd Hi. destruct d as [v|z|a]; cbn in Hd; [|destruct Hd|].
  - split; [apply val_writable; exact Hd|]. split; [apply not_scratch_val; auto|]. split; [reflexivity|].
    intros u f Hu Hf. cbn [dst_epd]. apply vsep; auto.
  - destruct Hd as [H1 H2]. split; [exact H1|]. split; [apply sep_not_scratch; auto|]. split; [reflexivity|].
    intros u f Hu _. apply H2. exact Hu.
Qed.
Lemma good_pairs_ok l : good_list l -> pairs_ok w (srcs_of l) l.
Proof.
  intros H d md s Hin. destruct (H d md s Hin) as [Hd Hs].
  destruct (good_dst_facts d (srcs_of l) Hd (good_srcs l H)) as (A & B & C & _).
  split; [exact A|]. split; [exact B|]. destruct s as [c|v]; auto. split; auto.
  apply in_flat_map. exists (d, md, SVar v). split; auto. left. reflexivity.
Qed.

Lemma resolve_dsts l : forall cur rl, resolve cur l = Some rl ->
  forall d md s, In (d, md, s) rl -> exists md', In (d, md', s) l.
Proof.
  induction l as [|[[d [md|]] [c|v]] l IH]; intros cur rl H d' md' s' Hin; cbn [resolve] in H.
  - injection H as <-. destruct Hin.
  - destruct (resolve cur l) as [r|] eqn:E; [|discriminate]. injection H as <-.
    destruct Hin as [Hin|Hin]; [injection Hin as <- <- <-; exists (Some md); left; reflexivity|].
    destruct (IH _ _ E _ _ _ Hin) as (x & Hx). exists x. right. exact Hx.
  - destruct (resolve _ l) as [r|] eqn:E; [|discriminate]. injection H as <-.
    destruct Hin as [Hin|Hin]; [injection Hin as <- <- <-; exists (Some md); left; reflexivity|].
    destruct (IH _ _ E _ _ _ Hin) as (x & Hx). exists x. right. exact Hx.
  - discriminate.
  - destruct (cur v) as [md|]; [|discriminate].
    destruct (resolve _ l) as [r|] eqn:E; [|discriminate]. injection H as <-.
    destruct Hin as [Hin|Hin]; [injection Hin as <- <- <-; exists None; left; reflexivity|].
    destruct (IH _ _ E _ _ _ Hin) as (x & Hx). exists x. right. exact Hx.
Qed.

Lemma assign_all_other rl : forall m b, (forall d md s, In (d, md, s) rl -> idx (dst_epd d) <> idx b) ->
  get (assign_all m rl) b = get m b.
Proof.
  induction rl as [|[[d md] s] rl IH]; intros m b H; [reflexivity|].
  cbn [assign_all fold_left]. change (fold_left assign1 rl ?x) with (assign_all x rl).
  rewrite IH; [|intros; eapply H; right; eauto].
  cbn [assign1]. destruct s; apply get_upd_ne; eapply H; left; reflexivity.
Qed.

Lemma seq_run same same_u T k l cur rl m :
  (forall a b, same a b = true -> u32 (dst_epd a) = u32 (dst_epd b)) ->
  good_list l -> (forall v, In v (srcs_of l) -> ordinary m v) ->
  placed w T k (SeqCompute same same_u T k l) ->
  resolve cur l = Some rl -> mods_known m cur (srcs_of l) ->
  exists m', runs w (lbl T k, m) (lbl T (k + length (SeqCompute same same_u T k l)), m') /\
    (forall b, ~ scratch (srcs_of l) b -> get m' b = get (assign_all m rl) b) /\
    keeps w m m' /\ mods_known m' (cur_after cur l) (srcs_of l).
Proof.
  intros Hsame Hg Ho Hpl Hres Hkn.
  destruct (SeqCompute_correct w same same_u T k l cur rl m) as (m' & A & B & C & D & D'); auto.
  - apply good_srcs, Hg.
  - apply good_pairs_ok, Hg.
  - intros v Hv. apply Ho. exact Hv.
  - exists m'. split; [exact A|]. split; [exact B|]. split; [|exact C].
    assert (Hoth : forall v f, In v vars -> f <> FVal -> get (assign_all m rl) (vc v f) = get m (vc v f)).
    { intros v f Hv Hf. apply assign_all_other. intros d md s Hin.
      destruct (resolve_dsts l cur rl Hres d md s Hin) as (md' & Hin').
      destruct (Hg _ _ _ Hin') as [Hd _]. destruct (good_dst_facts d [] Hd) as (_ & _ & _ & Q); auto.
      intros x []. }
    intros v Hv [O1 O2]. split.
    + rewrite B by (apply not_scratch_val; auto; apply good_srcs, Hg). rewrite Hoth by (auto; discriminate). exact O1.
    + destruct (in_dec Z.eq_dec v (srcs_of l)) as [Hin|Hnin]; [apply D; exact Hin|].
      rewrite B, Hoth; auto; [discriminate|].
      intros (u & g & H1 & H2 & H3).
      destruct (wo_sep w Hw v u FMod g Hv (good_srcs l Hg u H1) H3) as [-> _]. contradiction.
Qed.

(* an assignment from an ordinary variable *)
Lemma assign1_ord m d md s :
  match s with SVar v => get m (vc v FMask) = 0xFFFFFFFF | SConst _ => True end ->
  assign1 m (d, md, s) = upd m (dst_epd d) (do_mod md (get m (dst_epd d)) (sval m s)).
Proof.
  intros H. cbn [assign1]. destruct s as [c|v]; cbn [sval]; auto. rewrite H.
  change 0xFFFFFFFF with (Z.ones 32). rewrite do_modx_full by apply get_range. reflexivity.
Qed.

(* ---- VProc ---- *)
Definition nexts (vs : list Z) (a : Z) : Prop := exists v, In v vs /\ idx a = idx (vc v FNext).

Definition nonzero_acts (l : list act) : Prop := forall a, In a l -> forall m, act_type (rd m (a_w6 a)) <> 0.

Lemma acts_do_split prot l1 : forall l2 m m2, nonzero_acts l1 -> acts_do prot m (l1 ++ l2) m2 ->
  exists m1, acts_do prot m l1 m1 /\ acts_do prot m1 l2 m2.
Proof.
  induction l1 as [|a l1 IH]; intros l2 m m2 Hn H.
  - exists m. split; [apply do_nil|exact H].
  - cbn [app] in H. destruct H as [H1 H2]. cbn [acts_ok exec_acts] in H1, H2.
    pose proof (Hn a (or_introl eq_refl) m) as Hz.
    destruct H1 as [H1|[H1 H3]]; [contradiction|].
    destruct (Z.eqb_spec (act_type (rd m (a_w6 a))) 0); [contradiction|].
    destruct (IH l2 (exec_act m a) m2) as (m1 & A & B).
    { intros b Hb. apply Hn. right. exact Hb. }
    { split; auto. }
    exists m1. split; [|exact B]. destruct A as [A1 A2]. split.
    + cbn [acts_ok]. right. auto.
    + cbn [exec_acts]. destruct (Z.eqb_spec (act_type (rd m (a_w6 a))) 0); [contradiction|]. exact A2.
Qed.

Lemma chain_trigs_run T fin : forall l k m m',
  l <> [] -> placed w T k (chain_trigs T k l fin) -> nonzero_acts (concat l) ->
  acts_do (W_prot w) m (concat l) m' -> u32 fin = fin ->
  runs w (lbl T k, m) (fin, m').
Proof.
  induction l as [|a l IH]; intros k m m' Hne Hp Hn Ha Hf; [contradiction|].
  cbn [concat] in Ha, Hn. destruct l as [|b l].
  - cbn [chain_trigs concat] in *. rewrite app_nil_r in Ha. 
    eapply run_true; [apply placed_one; exact Hp|reflexivity|apply conds_nil|exact Ha|exact Hf].
  - destruct (acts_do_split _ a _ m m' ltac:(intros x Hx; apply Hn, in_or_app; auto) Ha) as (m1 & A & B).
    cbn [chain_trigs] in Hp. destruct (placed_cons _ _ _ _ _ Hp) as [P1 P2].
    eapply runs_trans.
    + eapply run_true; [exact P1|reflexivity|apply conds_nil|exact A|]. cbn [rd]. apply u32_lbl.
    + apply (IH (S k) m1 m'); auto; [discriminate|]. intros x Hx. apply Hn, in_or_app. auto.
Qed.

Lemma chain_trigs_length T fin : forall l k, length (chain_trigs T k l fin) = length l.
Proof.
  induction l as [|a l IH]; intros k; [reflexivity|]. destruct l as [|b l]; [reflexivity|].
  cbn [chain_trigs length] in *. rewrite IH. reflexivity.
Qed.

Lemma chunk64_concat n : forall acts, (length acts < n)%nat -> concat (chunk64 n acts) = acts.
Proof.
  induction n as [|n IH]; intros acts H; [lia|]. cbn [chunk64]. destruct acts as [|a r]; [reflexivity|].
  cbn [concat]. rewrite IH; [apply firstn_skipn|]. rewrite skipn_length. cbn [length] in *. lia.
Qed.
Lemma chunk64_len n : forall a b, length a = length b -> length (chunk64 n a) = length (chunk64 n b).
Proof.
  induction n as [|n IH]; intros a b H; [reflexivity|]. cbn [chunk64].
  destruct a as [|x a], b as [|y b]; try discriminate; [reflexivity|].
  cbn [length]. f_equal. apply IH. rewrite !skipn_length. lia.
Qed.
Lemma chunks_concat acts : concat (chunks acts) = acts.
Proof. apply chunk64_concat. lia. Qed.
Lemma chunks_len a b : length a = length b -> length (chunks a) = length (chunks b).
Proof. intros H. unfold chunks. rewrite H. apply chunk64_len. exact H. Qed.
Lemma vproc_links_len vs f g : length (vproc_links vs f) = length (vproc_links vs g).
Proof. induction vs as [|v [|u vs] IH]; auto. cbn [vproc_links length] in *. rewrite IH. reflexivity. Qed.
Lemma vproc_links_nz vs f : nonzero_acts (vproc_links vs f).
Proof.
  induction vs as [|v [|u vs] IH]; cbn [vproc_links]; intros a Ha m.
  - destruct Ha.
  - destruct Ha as [<-|[]]. apply type_SetM.
  - destruct Ha as [<-|Ha]; [apply type_SetM|]. apply IH. exact Ha.
Qed.
Lemma vproc_links_ne vs f : vs <> [] -> vproc_links vs f <> [].
Proof. destruct vs as [|v [|u vs]]; cbn; congruence. Qed.

Definition link_next (vs : list Z) (fin : Z) : Z := match vs with v :: _ => pa v | [] => fin end.
Fixpoint linked (m : mem) (vs : list Z) (fin : Z) : Prop :=
  match vs with [] => True | v :: r => get m (vc v FNext) = link_next r fin /\ linked m r fin end.

Lemma links_do fin : u32 fin = fin -> forall vs m, incl vs vars -> NoDup vs ->
  exists m', acts_do (W_prot w) m (vproc_links vs fin) m' /\ linked m' vs fin /\
    (forall b, ~ nexts vs b -> get m' b = get m b).
Proof.
  intros Hf. induction vs as [|v vs IH]; intros m Hi Hnd.
  - exists m. split; [apply do_nil|]. split; [exact I|auto].
  - inversion Hnd as [|x xs Hn Hnd']. subst.
    assert (Hv : In v vars) by (apply Hi; left; reflexivity).
    assert (Hcons : vproc_links (v :: vs) fin = SetNextPtr v (link_next vs fin) :: vproc_links vs fin).
    { destruct vs; reflexivity. }
    rewrite Hcons.
    assert (Hu : u32 (link_next vs fin) = link_next vs fin).
    { destruct vs; cbn [link_next]; [exact Hf|apply u32_pa]. }
    destruct (IH (upd m (vc v FNext) (link_next vs fin))) as (m' & A & B & C); auto.
    { intros x Hx. apply Hi. right. exact Hx. }
    exists m'. split; [|split; [split; [|exact B]|]].
    + unfold SetNextPtr. apply do_cons_M; [apply (wo_plain w Hw); auto|apply (wo_prot w Hw); auto|].
      cbn [do_mod]. rewrite Hu. exact A.
    + rewrite C, get_upd_eq; auto. intros (u & Hu1 & E).
      destruct (wo_sep w Hw v u FNext FNext Hv (Hi u (or_intror Hu1)) E) as [-> _]. contradiction.
    + intros b Hb. rewrite C.
      * apply get_upd_ne. intros E. apply Hb. exists v. split; [left; reflexivity|auto].
      * intros (u & Hu1 & E). apply Hb. exists u. split; [right; auto|auto].
Qed.

Lemma VProc_run T k vs acts (vl : list vpair) m m1 :
  placed w T k (VProc T k vs acts) ->
  vs <> [] -> vsrcs vl = vs -> NoDup vs -> incl vs vars ->
  nonzero_acts acts -> acts_do (W_prot w) m acts m1 ->
  (forall d md v, In (d, md, v) vl ->
     writable w (dst_epd d) /\ ~ scratch vs (dst_epd d) /\
     get m1 (vc v FDest) = u32 (dst_epd d) /\ get m1 (vc v FMod) = w6 md) ->
  exists m', runs w (lbl T k, m) (lbl T (k + length (VProc T k vs acts)), m') /\
    (forall b, ~ nexts vs b -> get m' b = get (assign_all m1 (map as_rpair vl)) b).
Proof.
  intros Hp Hne Hvl Hnd Hi Hnz Ha Hd. unfold VProc in *.
  set (n := length (chunks (acts ++ vproc_links vs 0))) in *.
  set (fin := lbl T (k + n)) in *.
  rewrite chain_trigs_length.
  assert (Hn : length (chunks (acts ++ vproc_links vs fin)) = n).
  { unfold n. apply chunks_len. rewrite !app_length. f_equal. apply vproc_links_len. }
  rewrite Hn. fold fin.
  assert (Hfu : u32 fin = fin) by apply u32_lbl.
  destruct (links_do fin Hfu vs m1 Hi Hnd) as (m2 & A & B & C).
  assert (Hall : acts_do (W_prot w) m (acts ++ vproc_links vs fin) m2).
  { eapply do_app; eauto. }
  exists (assign_all m2 (map as_rpair vl)). split.
  - eapply runs_trans.
    + eapply chain_trigs_run with (l := chunks (acts ++ vproc_links vs fin)); [|exact Hp| | |].
      * intros E. assert (Q : acts ++ vproc_links vs fin = []).
        { rewrite <- (chunks_concat (acts ++ vproc_links vs fin)), E. reflexivity. }
        apply app_eq_nil in Q. destruct Q as [_ Q]. apply (vproc_links_ne vs fin Hne Q).
      * rewrite chunks_concat. intros x Hx. apply in_app_or in Hx. destruct Hx; [apply Hnz; auto|].
        eapply vproc_links_nz; eauto.
      * rewrite chunks_concat. exact Hall.
      * apply u32_pa.
    + replace (pa (hd 0 vs)) with (next_addr fin vl).
      2:{ subst vs. destruct vl as [|[[d md] v] vl]; [contradiction|]. reflexivity. }
      apply (chain w Hw fin Hfu vl m2).
      * rewrite Hvl. exact Hi.
      * rewrite Hvl. intros d md v Hin. destruct (Hd d md v Hin) as (Q1 & Q2 & _). auto.
      * assert (Hfield : forall v f, In v vs -> f <> FNext -> get m2 (vc v f) = get m1 (vc v f)).
        { intros v f Hv Hf. apply C. intros (u & Hu & E).
          destruct (wo_sep w Hw v u f FNext (Hi v Hv) (Hi u Hu) E) as [_ Q]. contradiction. }
        clear - Hvl Hd B Hfield.
        assert (G : forall vs0, incl (vsrcs vl) vs0 ->
           (forall v f, In v vs0 -> f <> FNext -> get m2 (vc v f) = get m1 (vc v f)) ->
           (forall d md v, In (d, md, v) vl -> get m1 (vc v FDest) = u32 (dst_epd d) /\ get m1 (vc v FMod) = w6 md) ->
           linked m2 (vsrcs vl) fin -> ready m2 fin vl).
        { clear. induction vl as [|[[d md] v] vl IH]; intros vs0 Hi0 Hf0 Hd0 Hl0; [exact I|].
          cbn [vsrcs map snd linked] in Hl0. destruct Hl0 as [L1 L2].
          assert (Hv0 : In v vs0) by (apply Hi0; left; reflexivity).
          destruct (Hd0 d md v (or_introl eq_refl)) as [D1 D2].
          cbn [ready]. rewrite !Hf0 by (auto; discriminate). split; [exact D1|]. split; [exact D2|].
          split.
          - rewrite L1. destruct vl as [|[[d' md'] v'] vl']; reflexivity.
          - apply (IH vs0); auto.
            + intros x Hx. apply Hi0. right. exact Hx.
            + intros d' md' v' Hin. apply (Hd0 d' md' v'). right. exact Hin. }
        apply (G vs); auto.
        -- rewrite Hvl. apply incl_refl.
        -- intros d md v Hin. destruct (Hd d md v Hin) as (_ & _ & Q). exact Q.
        -- rewrite Hvl. exact B.
  - assert (Hag : agree (nexts vs) m2 m1) by (intros b Hb; auto).
    clear - Hw Hvl Hd Hag Hi.
    assert (G : forall vl0 ma mb, incl vl0 vl -> agree (nexts vs) ma mb ->
       agree (nexts vs) (assign_all ma (map as_rpair vl0)) (assign_all mb (map as_rpair vl0))).
    { induction vl0 as [|[[d md] v] vl0 IH]; intros ma mb Hinc Hag'; [exact Hag'|].
      cbn [map as_rpair fst snd assign_all fold_left]. apply IH.
      - intros x Hx. apply Hinc. right. exact Hx.
      - assert (Hin : In (d, md, v) vl) by (apply Hinc; left; reflexivity).
        destruct (Hd d md v Hin) as (_ & Q & _).
        assert (Hv : In v vs). { rewrite <- Hvl. apply (in_map snd) in Hin. exact Hin. }
        cbn [assign1]. apply agree_upd; auto. cbn [fst snd].
        rewrite (Hag' (dst_epd d)).
        2:{ intros (u & Hu & E). apply Q. exists u, FNext. auto. }
        rewrite (Hag' (vc v FMask)), (Hag' (vc v FVal)); [reflexivity| |];
          intros (u & Hu & E); destruct (wo_sep w Hw v u _ FNext (Hi v Hv) (Hi u Hu) E); discriminate. }
    intros b Hb. apply (G vl m2 m1); auto. apply incl_refl.
Qed.
End W.

(* ---------- tactics ---------- *)
Ltac sep := first
  [ assumption
  | match goal with H : sepcell _ ?a |- idx ?a <> idx (vc _ _) => apply H; assumption end
  | match goal with H : sepcell _ ?a |- idx (vc _ _) <> idx ?a => apply not_eq_sym, H; assumption end
  | match goal with |- idx (vc ?v ?f) <> idx (vc ?u ?g) =>
      eapply vsep; [eassumption|assumption|assumption|first [right; discriminate|left; assumption|left; apply not_eq_sym; assumption]] end ].
Ltac neq := match goal with |- ?a = ?b -> False => change (a <> b); sep end.
Ltac gs := repeat first [rewrite get_upd_eq | rewrite get_upd_ne by sep].
Ltac asg := unfold assign_all; cbn [fold_left];
  repeat (match goal with |- context [assign1 ?mm (?d, ?md, ?s)] =>
            lazymatch mm with context [assign1] => fail | _ => idtac end;
            rewrite (assign1_ord mm d md s) by (first [exact I | gs; assumption]) end;
          cbn [dst_epd sval]); gs.
Ltac good := let d := fresh "d" in let md := fresh "md" in let s := fresh "s" in let H := fresh "H" in
  intros d md s H; cbn [In] in H;
  repeat (destruct H as [H|H]; [injection H as <- <- <-; split; cbn [good_dst]; first [assumption|exact I|idtac]|]); try destruct H.
Ltac ords := let v := fresh "v" in let H := fresh "H" in
  intros v H; cbn [srcs_of flat_map snd app In] in H;
  repeat (destruct H as [<-|H]; [assumption|]); try destruct H.
Ltac noknown := let v := fresh in let md := fresh in let H1 := fresh in let H2 := fresh in
  intros v md H1 H2; discriminate H2.

Ltac inclv := let v := fresh "v" in let H := fresh "H" in
  intros v H; cbn [srcs_of flat_map snd app In svar] in *;
  repeat (destruct H as [<-|H]; [auto 10|]); try destruct H; auto.

Ltac cell := repeat first [rewrite get_upd_eq | rewrite get_upd_ne by assumption].

