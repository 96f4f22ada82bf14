(* Correctness of SeqCompute and NonSeqCompute. *)
From Coq Require Import ZArith Lia Bool List Permutation.
From Verif Require Import Word Machine MachineProofs VarModel VarSpec.
Import ListNotations.
Open Scope Z_scope.

(* ---------- addresses ---------- *)
Lemma u32_pa e : u32 (pa e) = pa e.
Proof. apply u32_idem. Qed.
Lemma u32_lbl T k : u32 (lbl T k) = lbl T k.
Proof. apply u32_pa. Qed.

(* ---------- agreement ---------- *)
Lemma agree_refl S m : agree S m m.
Proof. intros a _. reflexivity. Qed.
Lemma agree_trans S m1 m2 m3 : agree S m1 m2 -> agree S m2 m3 -> agree S m1 m3.
Proof. intros H1 H2 a Ha. rewrite H1, H2; auto. Qed.
Lemma agree_sym S m1 m2 : agree S m1 m2 -> agree S m2 m1.
Proof. intros H a Ha. symmetry. auto. Qed.
Lemma agree_sub (S S' : Z -> Prop) m1 m2 : (forall a, S a -> S' a) -> agree S m1 m2 -> agree S' m1 m2.
Proof. intros Hs H a Ha. apply H. auto. Qed.
Lemma agree_upd_in (S : Z -> Prop) m a v :
  (forall b, idx a = idx b -> S b) -> agree S (upd m a v) m.
Proof. intros H b Hb. apply get_upd_ne. intros E. apply Hb, H, E. Qed.
Lemma agree_upd S m m' a v v' : agree S m m' -> u32 v = u32 v' -> agree S (upd m a v) (upd m' a v').
Proof.
  intros H Hv b Hb. destruct (Z.eq_dec (idx a) (idx b)) as [E|E].
  - rewrite <- (get_cong _ a b E), <- (get_cong _ a b E), !get_upd_eq. exact Hv.
  - rewrite !get_upd_ne by exact E. auto.
Qed.

Lemma scratch_idx vs a b : idx a = idx b -> scratch vs a -> scratch vs b.
Proof. intros E (v & f & H1 & H2 & H3). exists v, f. repeat split; auto. congruence. Qed.
Lemma scratch_incl vs ws a : (forall v, In v vs -> In v ws) -> scratch vs a -> scratch ws a.
Proof. intros Hi (v & f & H1 & H2 & H3). exists v, f. auto. Qed.
Lemma scratch_app vs ws a : scratch (vs ++ ws) a <-> scratch vs a \/ scratch ws a.
Proof.
  split.
  - intros (v & f & H1 & H2 & H3). apply in_app_or in H1. destruct H1; [left|right]; exists v, f; auto.
  - intros [H|H]; eapply scratch_incl; try exact H; intros; apply in_or_app; auto.
Qed.

Section WithWorld.
Variable w : world.
Hypothesis Hw : world_ok w.
Let prot := W_prot w.
Let vars := W_vars w.

Lemma val_not_scratch vs v f : incl vs vars -> In v vars -> f = FVal \/ f = FMask -> ~ scratch vs (vc v f).
Proof.
  intros Hi Hv Hf (u & g & H1 & H2 & H3).
  destruct (wo_sep w Hw v u f g Hv (Hi u H1) H3) as [_ ->].
  destruct Hf; destruct H2 as [|[|]]; congruence.
Qed.

(* ---------- one hop through a variable trigger ---------- *)
Lemma hop m v a md nx :
  In v vars ->
  get m (vc v FMod) = w6 md -> get m (vc v FDest) = u32 a -> writable w a ->
  (forall f, f = FNext -> idx a <> idx (vc v f)) ->
  get m (vc v FNext) = nx ->
  runs w (pa v, m) (nx, upd m a (do_modx md (get m (vc v FMask)) (get m a) (get m (vc v FVal)))).
Proof.
  intros Hv Hm Hd [Hp Hpr] Hn Hx.
  eapply run_true; [apply (wo_prog w Hw); exact Hv|reflexivity|apply conds_nil| |].
  - eapply do_cons_gen with (a := a) (md := md); cbn [a_w6 a_w7 a_dest a_mask a_val rd]; eauto.
    apply do_nil.
  - cbn [rd]. rewrite get_upd_ne; auto.
Qed.

(* ---------- chain of variable triggers ---------- *)
Definition vpair := (dst * modifier * Z)%type.
Definition as_rpair (p : vpair) : rpair := (fst (fst p), snd (fst p), SVar (snd p)).
Definition next_addr (fin : Z) (l : list vpair) : Z :=
  match l with (_, _, u) :: _ => pa u | [] => fin end.

Fixpoint ready (m : mem) (fin : Z) (l : list vpair) : Prop :=
  match l with
  | [] => True
  | (d, md, v) :: r =>
      get m (vc v FDest) = u32 (dst_epd d) /\ get m (vc v FMod) = w6 md /\
      get m (vc v FNext) = next_addr fin r /\ ready m fin r
  end.

Definition vsrcs (l : list vpair) : list Z := map snd l.

Lemma ready_agree m m' fin l :
  (forall v f, In v (vsrcs l) -> f = FNext \/ f = FDest \/ f = FMod -> get m' (vc v f) = get m (vc v f)) ->
  ready m fin l -> ready m' fin l.
Proof.
  induction l as [|[[d md] v] r IH]; cbn [ready vsrcs map snd]; intros Hc H; auto.
  destruct H as (H1 & H2 & H3 & H4).
  rewrite !Hc by (cbn; auto). repeat split; auto.
  apply IH; auto. intros. apply Hc; auto. cbn; auto.
Qed.

Lemma chain fin : u32 fin = fin -> forall l m,
  incl (vsrcs l) vars ->
  (forall d md v, In (d, md, v) l -> writable w (dst_epd d) /\ ~ scratch (vsrcs l) (dst_epd d)) ->
  ready m fin l ->
  runs w (next_addr fin l, m) (fin, assign_all m (map as_rpair l)).
Proof.
  intros Hfin. induction l as [|[[d md] v] r IH]; intros m Hi Hd Hr.
  - cbn. apply steps_refl.
  - cbn [ready] in Hr. destruct Hr as (H1 & H2 & H3 & H4).
    destruct (Hd d md v (or_introl eq_refl)) as [Hwr Hns].
    assert (Hv : In v vars) by (apply Hi; cbn; auto).
    cbn [next_addr map as_rpair assign_all fold_left assign1 fst snd].
    eapply steps_trans.
    + apply (hop m v (dst_epd d) md (next_addr fin r)); auto.
      intros f -> E. apply Hns. exists v, FNext. cbn; auto.
    + apply IH.
      * intros u Hu. apply Hi. cbn; auto.
      * intros d' md' v' Hin. destruct (Hd d' md' v' (or_intror Hin)) as [Q1 Q2]. split; auto.
        intros Hs. apply Q2. eapply scratch_incl; [|exact Hs]. cbn; auto.
      * eapply ready_agree; [|exact H4]. intros u f Hu Hf. apply get_upd_ne.
        intros E. apply Hns. exists u, f. cbn; auto.
Qed.

(* ---------- memory changed only in scratch cells of vs ---------- *)
Lemma agree_field vs m m' u f :
  agree (scratch vs) m' m -> incl vs vars -> In u vars -> ~ In u vs ->
  get m' (vc u f) = get m (vc u f).
Proof.
  intros Ha Hi Hu Hn. apply Ha. intros (v & g & H1 & H2 & H3).
  destruct (wo_sep w Hw u v f g Hu (Hi v H1) H3) as [-> _]. contradiction.
Qed.

Section Dict.
Variable same : dst -> dst -> bool.
Hypothesis Hsame : forall a b, same a b = true -> u32 (dst_epd a) = u32 (dst_epd b).

(* what the generator remembers about variables is true of memory *)
Variable vs : list Z.
Hypothesis Hvs : incl vs vars.
Definition dict_ok (m : mem) (dc : dict) : Prop :=
  forall v pd pm nx, In v vs -> lookup v dc = Some (pd, pm, nx) ->
    (forall d, pd = Some d -> get m (vc v FDest) = u32 (dst_epd d)) /\
    (forall md, pm = Some md -> get m (vc v FMod) = w6 md) /\
    (forall u, nx = NVar u -> get m (vc v FNext) = pa u).

Lemma dict_ok_agree m m' dc :
  (forall v f, In v vs -> f = FNext \/ f = FDest \/ f = FMod ->
     get m' (vc v f) = get m (vc v f)) ->
  dict_ok m dc -> dict_ok m' dc.
Proof.
  intros Hc H v pd pm nx Hv Hl. destruct (H v pd pm nx Hv Hl) as (A & B & C).
  rewrite !Hc by auto. auto.
Qed.

Lemma setmod_val x md : x mod 2^24 = 45 * 2^16 -> 0 <= x < 2^32 ->
  do_modx SetTo (u32 0xFF000000) x (u32 (enc_mod md * 2^24)) = w6 md.
Proof.
  intros Hx Hr. cbn [do_modx]. unfold wset.
  assert (E1 : Z.ldiff x (u32 0xFF000000) = 45 * 2^16).
  { rewrite <- Hx. rewrite <- (Z.land_ones x 24) by lia.
    apply Z.bits_inj'. intros i Hi. rewrite Z.ldiff_spec, Z.land_spec.
    change (u32 0xFF000000) with (Z.shiftl (Z.ones 8) 24).
    rewrite Z.shiftl_spec by lia.
    destruct (Z.lt_ge_cases i 24).
    - rewrite (Z.testbit_neg_r _ (i - 24)) by lia. rewrite Z.ones_spec_low by lia. destruct (Z.testbit x i); reflexivity.
    - rewrite (Z.ones_spec_high 24 i) by lia. rewrite andb_false_r.
      destruct (Z.lt_ge_cases i 32).
      + rewrite Z.ones_spec_low by lia. apply andb_false_r.
      + rewrite (bounded_bits 32 x) by lia. reflexivity. }
  rewrite E1. destruct md; reflexivity.
Qed.

Lemma mod_eqb_eq a b : mod_eqb a b = true -> a = b.
Proof. destruct a, b; cbn; congruence. Qed.
Lemma omod_eqb_eq a b : omod_eqb a b = true -> a = b.
Proof. destruct a as [[]|], b as [[]|]; cbn; congruence. Qed.

Lemma plainv v f : In v vars -> plain (vc v f).
Proof. apply (wo_plain w Hw). Qed.
Lemma protv v f : In v vars -> prot (idx (vc v f)) = false.
Proof. apply (wo_prot w Hw). Qed.

(* a conditional single action *)
Lemma do_opt (c : bool) a r m (m1 : mem) m' :
  (c = true -> acts_do prot m [a] m1) -> (c = false -> m1 = m) ->
  (forall m, act_type (rd m (a_w6 a)) <> 0) ->
  acts_do prot m1 r m' -> acts_do prot m ((if c then [a] else []) ++ r) m'.
Proof.
  intros H1 H2 Hn H. destruct c; cbn [app].
  - change (a :: r) with ([a] ++ r). eapply do_app; [|apply H1; reflexivity|exact H].
    intros b [<-|[]]. apply Hn.
  - rewrite <- (H2 eq_refl). exact H.
Qed.

Lemma type_SetM a md v m : act_type (rd m (a_w6 (SetM a md v))) <> 0.
Proof. cbn [SetM SetD a_w6 rd]. rewrite w6_small, w6_type. discriminate. Qed.
Lemma type_SetMX a md v k m : act_type (rd m (a_w6 (SetMX a md v k))) <> 0.
Proof. cbn [SetMX SetDX a_w6 rd]. rewrite w6_small, w6_type. discriminate. Qed.

Lemma scratch1 v f b : f = FNext \/ f = FDest \/ f = FMod -> idx (vc v f) = idx b -> scratch [v] b.
Proof. intros Hf E. exists v, f. cbn. auto. Qed.

(* actions for one variable pair *)
Lemma pair_acts_ok fin v d omd md nx dc m :
  In v vs -> u32 fin = fin ->
  dict_ok m dc -> truthy d = true ->
  (omd = Some md \/ (omd = None /\ get m (vc v FMod) = w6 md)) ->
  (get m (vc v FMod)) mod 2^24 = 45 * 2^16 ->
  let (acts, dc') := pair_acts same fin v d omd nx dc in
  exists m1,
    (forall r m', acts_do prot m1 r m' -> acts_do prot m (acts ++ r) m') /\
    agree (scratch [v]) m1 m /\
    get m1 (vc v FDest) = u32 (dst_epd d) /\ get m1 (vc v FMod) = w6 md /\
    get m1 (vc v FNext) = nxt_addr fin nx /\ dict_ok m1 dc'.
Proof.
  intros Hvv Hfin Hdc Htr Hmd Hlow. pose proof (Hvs v Hvv) as Hv. unfold pair_acts.
  set (e := match lookup v dc with Some (a, b, c) => (a, b, Some c) | None => (None, None, None) end).
  destruct e as [[pd pm] pn] eqn:Ee.
  assert (Hpd : forall x, pd = Some x -> get m (vc v FDest) = u32 (dst_epd x)).
  { intros x ->. unfold e in Ee. destruct (lookup v dc) as [[[a b] c]|] eqn:El; [|congruence].
    injection Ee as E1 E2 E3. subst. destruct (Hdc v _ _ _ Hvv El) as (A & _). apply A. reflexivity. }
  assert (Hpm : forall x, pm = Some x -> get m (vc v FMod) = w6 x).
  { intros x ->. unfold e in Ee. destruct (lookup v dc) as [[[a b] c]|] eqn:El; [|congruence].
    injection Ee as E1 E2 E3. subst. destruct (Hdc v _ _ _ Hvv El) as (_ & B & _). apply B. reflexivity. }
  assert (Hpn : forall u, pn = Some (NVar u) -> get m (vc v FNext) = pa u).
  { intros u ->. unfold e in Ee. destruct (lookup v dc) as [[[a b] c]|] eqn:El; [|congruence].
    injection Ee as E1 E2 E3. subst. destruct (Hdc v _ _ _ Hvv El) as (_ & _ & C). apply C. reflexivity. }
  clear Ee e. rewrite Htr, andb_true_r.
  set (m1 := if negb (odst_same same d pd) then upd m (vc v FDest) (u32 (dst_epd d)) else m).
  set (c2 := match omd with Some _ => negb (omod_eqb omd pm) | None => false end).
  set (m2 := if c2 then upd m1 (vc v FMod) (w6 md) else m1).
  set (m3 := if nxt_is nx pn then m2 else upd m2 (vc v FNext) (nxt_addr fin nx)).
  assert (Hu : u32 (nxt_addr fin nx) = nxt_addr fin nx) by (destruct nx; cbn; [apply u32_pa|exact Hfin]).
  assert (S12 : idx (vc v FDest) <> idx (vc v FMod)).
  { intros E. destruct (wo_sep w Hw v v _ _ Hv Hv E). discriminate. }
  assert (S13 : idx (vc v FDest) <> idx (vc v FNext)).
  { intros E. destruct (wo_sep w Hw v v _ _ Hv Hv E). discriminate. }
  assert (S23 : idx (vc v FMod) <> idx (vc v FNext)).
  { intros E. destruct (wo_sep w Hw v v _ _ Hv Hv E). discriminate. }
  assert (G1d : get m1 (vc v FDest) = u32 (dst_epd d)).
  { unfold m1. destruct (odst_same same d pd) eqn:Eo; cbn [negb].
    - destruct pd as [y|]; [|discriminate]. cbn in Eo. rewrite (Hpd y eq_refl). symmetry. apply Hsame. exact Eo.
    - rewrite get_upd_eq. apply u32_idem. }
  assert (G1m : get m1 (vc v FMod) = get m (vc v FMod)).
  { unfold m1. destruct (negb _); [apply get_upd_ne; exact S12|reflexivity]. }
  assert (G1n : get m1 (vc v FNext) = get m (vc v FNext)).
  { unfold m1. destruct (negb _); [apply get_upd_ne; exact S13|reflexivity]. }
  assert (G2m : get m2 (vc v FMod) = w6 md).
  { unfold m2, c2. destruct omd as [x|].
    - assert (x = md) by (destruct Hmd as [E|[E _]]; congruence). subst x.
      destruct (omod_eqb (Some md) pm) eqn:Eo; cbn [negb].
      + apply omod_eqb_eq in Eo. rewrite G1m. apply Hpm. auto.
      + rewrite get_upd_eq. apply w6_small.
    - destruct Hmd as [E|[_ E]]; [discriminate|]. rewrite G1m. exact E. }
  assert (G2d : get m2 (vc v FDest) = u32 (dst_epd d)).
  { unfold m2. destruct c2; [rewrite get_upd_ne by auto|]; exact G1d. }
  assert (G2n : get m2 (vc v FNext) = get m (vc v FNext)).
  { unfold m2. destruct c2; [rewrite get_upd_ne by auto|]; exact G1n. }
  assert (G3n : get m3 (vc v FNext) = nxt_addr fin nx).
  { unfold m3. destruct (nxt_is nx pn) eqn:En.
    - unfold nxt_is in En. destruct nx as [x|]; [|discriminate]. destruct pn as [[y|]|]; try discriminate.
      apply Z.eqb_eq in En. subst y. cbn. rewrite G2n. apply Hpn. reflexivity.
    - rewrite get_upd_eq. exact Hu. }
  assert (G3d : get m3 (vc v FDest) = u32 (dst_epd d)).
  { unfold m3. destruct (nxt_is nx pn); [|rewrite get_upd_ne by auto]; exact G2d. }
  assert (G3m : get m3 (vc v FMod) = w6 md).
  { unfold m3. destruct (nxt_is nx pn); [|rewrite get_upd_ne by auto]; exact G2m. }
  assert (Ag : agree (scratch [v]) m3 m).
  { apply agree_trans with m2.
    - unfold m3. destruct (nxt_is nx pn); [apply agree_refl|].
      apply agree_upd_in. intros b Hb. apply (scratch1 v FNext); auto.
    - apply agree_trans with m1.
      + unfold m2. destruct c2; [|apply agree_refl].
        apply agree_upd_in. intros b Hb. apply (scratch1 v FMod); auto.
      + unfold m1. destruct (negb _); [|apply agree_refl].
        apply agree_upd_in. intros b Hb. apply (scratch1 v FDest); auto. }
  exists m3. split; [|split; [exact Ag|split; [exact G3d|split; [exact G3m|split; [exact G3n|]]]]].
  - intros r m' Hr. rewrite <- !app_assoc.
    apply do_opt with (m1 := m1).
    { intros Hc. unfold m1. rewrite Hc. apply do_cons_M; auto using plainv, protv. apply do_nil. }
    { intros Hc. unfold m1. rewrite Hc. reflexivity. }
    { intros. apply type_SetM. }
    assert (Em : (match omd with Some x => if negb (omod_eqb omd pm) then [SetModifier v x] else [] | None => [] end)
                 = if c2 then [SetModifier v md] else []).
    { unfold c2. destruct omd as [x|]; [|reflexivity].
      assert (x = md) by (destruct Hmd as [E|[E _]]; congruence). subst x. reflexivity. }
    rewrite Em. apply do_opt with (m1 := m2).
    { intros Hc. unfold m2. rewrite Hc. unfold SetModifier.
      apply do_cons_MX; auto using plainv, protv. rewrite setmod_val; [apply do_nil| |apply get_range].
      rewrite G1m. exact Hlow. }
    { intros Hc. unfold m2. rewrite Hc. reflexivity. }
    { intros. apply type_SetMX. }
    replace (if nxt_is nx pn then [] else [SetNextPtr v (nxt_addr fin nx)])
      with (if negb (nxt_is nx pn) then [SetNextPtr v (nxt_addr fin nx)] else [])
      by (destruct (nxt_is nx pn); reflexivity).
    apply do_opt with (m1 := m3).
    { intros Hc. unfold m3. apply negb_true_iff in Hc. rewrite Hc.
      unfold SetNextPtr. apply do_cons_M; auto using plainv, protv. cbn [do_mod]. rewrite Hu. apply do_nil. }
    { intros Hc. unfold m3. apply negb_false_iff in Hc. rewrite Hc. reflexivity. }
    { intros. apply type_SetM. }
    exact Hr.
  - intros u pd' pm' nx' Hu' Hl. cbn [lookup] in Hl. destruct (Z.eqb_spec v u) as [<-|Hne].
    + injection Hl as E1 E2 E3. subst pd' pm' nx'. split; [|split].
      * intros x Ex. injection Ex as <-. exact G3d.
      * intros x Ex. destruct omd as [y|].
        -- injection Ex as <-. assert (y = md) by (destruct Hmd as [E|[E _]]; congruence). subst y. exact G3m.
        -- rewrite G3m. rewrite <- (Hpm x Ex). destruct Hmd as [E|[_ E]]; [discriminate|]. auto.
      * intros x Ex. subst nx. exact G3n.
    + assert (Hf : forall f, get m3 (vc u f) = get m (vc u f)).
      { intros f. apply (agree_field [v]); auto.
        - intros x [<-|[]]. exact Hv.
        - intros [E|[]]. congruence. }
      destruct (Hdc u _ _ _ Hu' Hl) as (A & B & C). rewrite !Hf. auto.
Qed.

(* resolved form of a list of variable pairs *)
Fixpoint vresolved (m : mem) (l : list (dst * option modifier * Z)) (rl : list vpair) : Prop :=
  match l, rl with
  | [], [] => True
  | (d, omd, v) :: l', (d', md, v') :: rl' =>
      d = d' /\ v = v' /\ (omd = Some md \/ (omd = None /\ get m (vc v FMod) = w6 md)) /\ vresolved m l' rl'
  | _, _ => False
  end.

Lemma vresolved_agree m m' l rl :
  (forall v, In v (vsrcs rl) -> get m' (vc v FMod) = get m (vc v FMod)) ->
  vresolved m l rl -> vresolved m' l rl.
Proof.
  revert rl. induction l as [|[[d omd] v] l IH]; intros [|[[d' md] v'] rl] Hc H; cbn [vresolved] in *; auto.
  destruct H as (-> & -> & H & Hr). repeat split; auto.
  - destruct H as [H|[H1 H2]]; auto. right. split; auto. rewrite Hc; auto. cbn; auto.
  - apply IH; auto. intros. apply Hc. cbn; auto.
Qed.

Lemma var_acts_ok fin : u32 fin = fin -> forall l rl dc m,
  vresolved m l rl -> incl (vsrcs rl) vs -> NoDup (vsrcs rl) ->
  dict_ok m dc ->
  (forall d md v, In (d, md, v) rl -> truthy d = true) ->
  mods_wf m (vsrcs rl) ->
  let (acts, dc') := var_acts same fin l dc in
  exists m1,
    acts_do prot m acts m1 /\ agree (scratch (vsrcs rl)) m1 m /\
    ready m1 fin rl /\ dict_ok m1 dc'.
Proof.
  intros Hfin. induction l as [|[[d omd] v] l IH]; intros [|[[d' md] v'] rl] dc m Hres Hi Hnd Hdc Htr Hlow;
    cbn [vresolved] in Hres; try contradiction.
  - cbn. exists m. split; [apply do_nil|]. split; [apply agree_refl|]. split; [exact I|exact Hdc].
  - destruct Hres as (-> & -> & Hmd & Hr). cbn [var_acts].
    set (nx := match l with (_, _, u) :: _ => NVar u | [] => NEnd end).
    assert (Hvv : In v' vs) by (apply Hi; cbn; auto). pose proof (Hvs v' Hvv) as Hv.
    pose proof (pair_acts_ok fin v' d' omd md nx dc m Hvv Hfin Hdc (Htr d' md v' (or_introl eq_refl)) Hmd
                  (Hlow v' (or_introl eq_refl))) as HP.
    destruct (pair_acts same fin v' d' omd nx dc) as [a dc1].
    destruct HP as (m1 & HA & Hag & H1 & H2 & H3 & Hdc1).
    cbn [vsrcs map snd] in Hi, Hnd. inversion Hnd as [|x xs Hnin Hnd']. subst x xs.
    assert (Hf : forall u f, In u (vsrcs rl) -> get m1 (vc u f) = get m (vc u f)).
    { intros u f Hu. apply (agree_field [v']); auto.
      - intros x [<-|[]]. exact Hv.
      - apply Hvs, Hi. right. exact Hu.
      - intros [->|[]]. contradiction. }
    specialize (IH rl dc1 m1). destruct (var_acts same fin l dc1) as [b dc2].
    destruct IH as (m2 & B1 & B2 & B3 & B4).
    + eapply vresolved_agree; [|exact Hr]. auto.
    + intros x Hx. apply Hi. right. exact Hx.
    + exact Hnd'.
    + exact Hdc1.
    + intros. eapply Htr. right. eauto.
    + intros u Hu. rewrite Hf by exact Hu. apply Hlow. right. exact Hu.
    + exists m2. split; [apply HA; exact B1|]. split; [|split; [|exact B4]].
      * apply agree_trans with m1.
        -- eapply agree_sub; [|exact B2]. intros x. apply scratch_incl. cbn; auto.
        -- eapply agree_sub; [|exact Hag]. intros x. apply scratch_incl. cbn. intros y [->|[]]; auto.
      * cbn [ready].
        assert (Hg : forall f, get m2 (vc v' f) = get m1 (vc v' f)).
        { intros f. apply (agree_field (vsrcs rl)); auto. intros x Hx. apply Hvs, Hi. right. exact Hx. }
        rewrite !Hg. repeat split; auto.
        rewrite H3. unfold nx. destruct l as [|[[x y] z] l'], rl as [|[[x' y'] z'] rl']; cbn [vresolved] in Hr;
          try contradiction; cbn; auto. destruct Hr as (_ & -> & _). reflexivity.
Qed.
End Dict.

(* ---------- constant actions ---------- *)
Definition cpair := (dst * modifier * Z)%type.
Definition cas_rpair (p : cpair) : rpair := (fst (fst p), snd (fst p), SConst (snd p)).

Lemma const_acts_ok l : forall m,
  (forall d md c, In (d, md, c) l -> exists x, md = Some x /\ writable w (dst_epd d)) ->
  forall r m', acts_do prot (assign_all m (map (fun p => let '(d, md, c) := p in
                  (d, match md with Some x => x | None => SetTo end, SConst c)) l)) r m' ->
  acts_do prot m (const_acts l ++ r) m'.
Proof.
  induction l as [|[[d md] c] l IH]; intros m Hd r m' H; cbn [const_acts app map assign_all fold_left] in *; auto.
  destruct (Hd d md c (or_introl eq_refl)) as (x & -> & [Hp Hpr]).
  apply do_cons_M; auto. apply IH.
  - intros. eapply Hd. right. eauto.
  - cbn [assign1] in H. exact H.
Qed.

Lemma assign_scratch vs m rl :
  (forall d md s, In (d, md, s) rl -> ~ scratch vs (dst_epd d)) ->
  forall v f, In v vs -> f = FNext \/ f = FDest \/ f = FMod ->
  get (assign_all m rl) (vc v f) = get m (vc v f).
Proof.
  revert m. induction rl as [|[[d md] s] rl IH]; intros m Hd v f Hv Hf; [reflexivity|].
  cbn [assign_all fold_left]. change (fold_left assign1 rl ?x) with (assign_all x rl).
  rewrite IH; auto.
  - assert (idx (dst_epd d) <> idx (vc v f)).
    { intros E. apply (Hd d md s (or_introl eq_refl)). exists v, f. auto. }
    cbn [assign1]. destruct s; apply get_upd_ne; auto.
  - intros. eapply Hd. right. eauto.
Qed.

Lemma assign_agree vs : incl vs vars -> forall rl m m',
  (forall d md s, In (d, md, s) rl -> match s with SVar v => In v vars | SConst _ => True end) ->
  (forall d md s, In (d, md, s) rl -> ~ scratch vs (dst_epd d)) ->
  agree (scratch vs) m m' -> agree (scratch vs) (assign_all m rl) (assign_all m' rl).
Proof.
  intros Hi. induction rl as [|[[d md] s] rl IH]; intros m m' Hs Hd Ha; [exact Ha|].
  cbn [assign_all fold_left]. apply IH.
  - intros d' md' s' Hin. exact (Hs d' md' s' (or_intror Hin)).
  - intros d' md' s' Hin. exact (Hd d' md' s' (or_intror Hin)).
  - pose proof (Hs d md s (or_introl eq_refl)) as H1. pose proof (Hd d md s (or_introl eq_refl)) as H2.
    cbn [assign1]. destruct s as [c|v].
    + apply agree_upd; auto. rewrite (Ha _ H2). reflexivity.
    + apply agree_upd; auto. rewrite (Ha _ H2).
      rewrite (Ha (vc v FMask)), (Ha (vc v FVal)); [reflexivity| |];
        apply val_not_scratch; auto.
Qed.
End WithWorld.
