(* C23: Trigger with any number of conditions and actions. *)
From Coq Require Import ZArith Lia List Bool Permutation ZifyBool ZifyNat.
From Verif Require Import Word Machine MachineProofs VarModel VarSpec FuncModel ExWorld StruModel StruSpec StruProofs StruComp StruMain TrigModel TrigProofs PropStru.
Import ListNotations.
Open Scope Z_scope.

(* what Trigger(cs, acts) means: all actions in order if all conditions hold
   at entry, else nothing *)
Definition trigger_sem (cs : list cond) (acts : list act) (m m' : mem) : Prop :=
  forall b, get m' b = get (if forallb (eval_cond m) cs then fold_left exec_act acts m else m) b.
Definition trigger_leaf (cs : list cond) (acts : list act) : leaf := mkleaf (Trigger cs acts true) (trigger_sem cs acts).

Lemma groups_map {A B} (f : A -> B) n fu : forall l, groups_of n fu (map f l) = map (map f) (groups_of n fu l).
Proof. induction fu as [|fu IH]; intros [|x l]; try reflexivity. cbn [groups_of map]. rewrite <- IH, <- map_cons, firstn_map, skipn_map. reflexivity. Qed.
Lemma every_map {A B} (f : A -> B) n l : every n (map f l) = map (map f) (every n l).
Proof. unfold every. rewrite map_length. apply groups_map. Qed.

Section TG.
Variable w : world.
Variable L : lay.
Variable SF : bs.
Hypothesis HL : linked w L SF.
Hypothesis Hinit : NoDup (map fst (b_init SF)).
Notation R := (L_F L).
Notation TT := (L_T L).

Lemma conds_of_sim cs m1 m : (forall c, In c cs -> cgood L SF c) -> agree (priv L SF) m1 m -> forallb (eval_cond m1) cs = forallb (eval_cond m) cs.
Proof. intros Hc A. pose proof (holds_sim L SF false cs m1 m Hc A) as H. unfold holds in H. cbn [xorb] in H. destruct (forallb (eval_cond m1) cs), (forallb (eval_cond m) cs); auto. Qed.

Lemma sim_of m1 m2 m m' : rest L SF m1 -> (forall p, priv L SF p -> get m2 p = get m1 p) -> agree (priv L SF) m2 m -> (forall b, get m' b = get m b) -> sim L SF m2 m'.
Proof.
  intros Hr Hp A E. split; [intros a Ha; rewrite E; apply A; exact Ha|]. intros k l Hk. rewrite Hp; [apply Hr; exact Hk|]. left. exists k, l. auto.
Qed.

Theorem trigger_good cs acts : (forall c, In c cs -> cgood L SF c) -> (forall a, In a acts -> agood w L SF a) -> lgood w L SF (trigger_leaf cs acts).
Proof.
  intros Hc Ha e s. cbn [trigger_leaf lf_emit lf_sem]. unfold Trigger. cbn [NextTrigger]. set (s0 := mkbs (b_trs s) (b_pend s ++ [b_nf s]) (b_sets s) (S (b_nf s)) (b_nd s) (b_init s)).
  assert (X0 : ext s s0) by apply (ext_next s).
  destruct ((length cs <=? 16)%nat && (length acts <=? 64)%nat).
  - set (it := fun L => mktrig cs acts (Imm (pa (L_F L (b_nf s0)))) (Imm 4)).
    assert (Xe : ext s0 (snd (NextTrigger (emit it s0)))) by (eapply ext_trans; [apply ext_emit|apply ext_next]).
    split; [exact (ext_trans _ _ _ X0 Xe)|]. split; [intros _ _; discriminate|].
    intros E x Hx. exists (TT (pos s0)).
    assert (E1 : ext (emit it s0) SF) by (eapply ext_trans; [apply ext_next|exact E]).
    destruct (emit_at w L SF HL it s0 E1) as [P1 H1].
    split; [intros f Hf; apply H1; cbn; apply in_or_app; auto|].
    intros _ m o m' [-> Hsem] m1 [A Hr]. cbn [dest].
    assert (Hf : R (b_nf s0) = x) by (apply Hx; left; reflexivity).
    assert (HC : conds_are m1 cs (forallb (eval_cond m1) cs)) by (apply steady_conds with (L := L) (SF := SF); [intros c Hin; eapply cgood_steady; [apply Hc; exact Hin|exact A]|apply agree_refl]).
    rewrite (conds_of_sim cs m1 m Hc A) in HC. unfold trigger_sem in Hsem.
    destruct (acts_good_run w L SF acts Ha m1 m A) as (D & A1 & C1).
    destruct (forallb (eval_cond m) cs).
    + exists (acts_sem acts m1). split; [|split].
      * eapply run_true with (1 := P1); [reflexivity|exact HC|exact D|]. cbn [rd]. rewrite Hf. apply pa_u32.
      * eapply sim_of; [exact Hr|exact C1|exact A1|exact Hsem].
      * intros d Hd _. apply C1. right. exists d. auto.
    + exists m1. split; [|split].
      * eapply run_false with (1 := P1); [reflexivity|exact HC|]. cbn [rd]. rewrite Hf. apply pa_u32.
      * eapply sim_of; [exact Hr|reflexivity|exact A|exact Hsem].
      * apply keepD_refl.
  - cbn [Forward]. set (ce := b_nf s0). set (s1 := mkbs (b_trs s0) (b_pend s0) (b_sets s0) (S (b_nf s0)) (b_nd s0) (b_init s0)).
    match goal with |- context [cond_trigs ?a ?b ?c] => change (cond_trigs a b c) with (cond_trigs (every 16 cs) ce s1) end.
    pose proof (ext_cond_trigs (every 16 cs) ce s1) as X1. pose proof (cond_trigs_run w L SF HL (every 16 cs) ce s1) as RC.
    destruct (cond_trigs (every 16 cs) ce s1) as [ks s2] eqn:Q. cbn [fst snd] in X1, RC.
    set (s3 := s2). cbn match. rewrite app_nil_r, every_map. set (s4 := act_trigs (map (map (fun a (_ : lay) => a)) (every 64 acts)) s3). cbn [NextTrigger].
    set (s5 := fset ce (F (b_nf s4)) (mkbs (b_trs s4) (b_pend s4 ++ [b_nf s4]) (b_sets s4) (S (b_nf s4)) (b_nd s4) (b_init s4))).
    assert (X2 : ext s2 s3) by apply ext_refl.
    assert (X3 : ext s3 s4) by apply ext_act_trigs.
    assert (X4 : ext s4 s5) by (eapply ext_trans; [apply (ext_next s4)|apply ext_fset]).
    assert (X5 : ext s5 (revert_trigs (every 64 ks) ce s5)) by apply ext_revert_trigs.
    assert (X01 : ext s0 s1) by apply (ext_forward s0).
    split; [exact (ext_trans _ _ _ X0 (ext_trans _ _ _ X01 (ext_trans _ _ _ X1 (ext_trans _ _ _ X2 (ext_trans _ _ _ X3 (ext_trans _ _ _ X4 X5))))))|].
    assert (N5 : b_pend s5 <> []) by (cbn; destruct (b_pend s4); discriminate).
    split.
    { intros _ _. clear -N5. revert N5. generalize s5. induction (every 64 ks) as [|c r IH]; intros u H; [exact H|]. cbn [revert_trigs]. apply IH. cbn. discriminate. }
    intros E x Hx.
    pose proof (ext_trans _ _ _ X5 E) as E5. pose proof (ext_trans _ _ _ X4 E5) as E4. pose proof (ext_trans _ _ _ X3 E4) as E3. pose proof (ext_trans _ _ _ X2 E3) as E2.
    assert (KS : forall y, (forall g, In g (b_pend s2) -> R g = y) -> forall k, In k (concat (every 64 ks)) -> In (k, F ce) (b_init SF)).
    { intros y Hy k. rewrite every_concat by lia. destruct (RC E2 y Hy) as (K & _). apply K. }
    (* what the reverting code starts at does not depend on KS *)
    assert (AT : exists b, (forall g, In g (b_pend s5) -> R g = b) /\ ((forall k, In k (concat (every 64 ks)) -> In (k, F ce) (b_init SF)) ->
       forall m, rest_but L SF (concat (every 64 ks)) m -> exists m', runs w (pa b, m) (pa x, m') /\ agree (nxcell L SF) m' m /\ rest L SF m')).
    { destruct (every 64 ks) as [|c r] eqn:QE.
      - exists x. split; [exact Hx|]. intros Hk. destruct (revert_run w L SF HL Hinit ce [] s5 Hk E x Hx) as (b & Pb & Gb).
        intros m Hr. destruct (Gb m Hr) as (m' & G). exists m'.
        assert (EQ : b = x) by (rewrite <- (Pb (b_nf s4)); [apply Hx|]; cbn; apply in_or_app; right; left; reflexivity). rewrite EQ in G. exact G.
      - exists (TT (pos s5)). split.
        + destruct (raw_run w L SF HL [] (fun L => map (fun k => SetM (nx L k) SetTo (pa (L_F L ce))) c) s5) with (x := R (b_nf s5)) as [H _].
          * eapply ext_trans; [|exact E]. cbn [revert_trigs]. apply ext_revert_trigs.
          * intros g Hg. cbn in Hg. destruct Hg as [<-|[]]. reflexivity.
          * exact H.
        + intros Hk. destruct (revert_run w L SF HL Hinit ce (c :: r) s5 Hk E x Hx) as (b & Pb & Gb).
          destruct (raw_run w L SF HL [] (fun L => map (fun k => SetM (nx L k) SetTo (pa (L_F L ce))) c) s5) with (x := R (b_nf s5)) as [H _].
          * eapply ext_trans; [|exact E]. cbn [revert_trigs]. apply ext_revert_trigs.
          * intros g Hg. cbn in Hg. destruct Hg as [<-|[]]. reflexivity.
          * rewrite <- (H (b_nf s4)); [|cbn; apply in_or_app; right; left; reflexivity]. rewrite (Pb (b_nf s4)); [exact Gb|cbn; apply in_or_app; right; left; reflexivity]. }
    destruct AT as (b & Pb & Gb).
    assert (Hce : R ce = b).
    { rewrite (ext_set w L SF HL s5 ce (F (b_nf s4)) E5) by (left; reflexivity). cbn [lv]. apply Pb. cbn. apply in_or_app. right. left. reflexivity. }
    destruct (act_trigs_run w L SF HL (every 64 acts) s3 E4 b) as (c & Pc & Gc).
    { intros g Hg. apply Pb. cbn. apply in_or_app. auto. }
    destruct (RC E2 c Pc) as (K & a & Pa & Ga). specialize (Gb (KS c Pc)).
    exists a. split; [intros f Hf; apply Pa; cbn; apply in_or_app; auto|].
    intros Hne m o m' [-> Hsem] m1 [A Hr]. cbn [dest].
    destruct (Ga) with (ks := @nil nat) (m := m1) as (m2 & X & A2 & R2).
    { cbn. destruct (b_pend s); discriminate. }
    { intros k []. }
    { intros k l Hk _. apply Hr. exact Hk. }
    { rewrite every_concat by lia. intros y Hy. eapply cgood_steady; [apply Hc; exact Hy|exact A]. }
    rewrite every_concat in X by lia. rewrite (conds_of_sim cs m1 m Hc A) in X. cbn [app] in R2. rewrite (every_concat 64 acts) in Gc by lia. rewrite (every_concat 64 ks) in Gb by lia. unfold trigger_sem in Hsem.
    assert (A2' : agree (priv L SF) m2 m) by (eapply agree_trans; [apply nx_priv; exact A2|exact A]).
    destruct (forallb (eval_cond m) cs).
    + destruct (Gc m2 m A2') as (m3 & X3' & A3 & C3); [intros y Hy; apply Ha; exact Hy|].
      destruct (Gb m3) as (m4 & X4' & A4 & R4).
      { intros k l Hk Hn. rewrite C3; [apply R2; auto|]. left. exists k, l. auto. }
      exists m4. split; [eapply steps_trans; [exact X|]; eapply steps_trans; eauto|]. split.
      * split; [|exact R4]. intros p Hp. rewrite Hsem. change (fold_left exec_act acts m) with (acts_sem acts m). rewrite <- (A3 p Hp). apply (nx_priv L SF m4 m3 A4 p Hp).
      * intros d Hd _. rewrite (nx_db w L SF HL m4 m3 d A4 Hd), (C3 (L_D L d)), (nx_db w L SF HL m2 m1 d A2 Hd); [reflexivity|]. right. exists d. auto.
    + destruct (Gb m2 R2) as (m4 & X4' & A4 & R4). rewrite Hce in X.
      exists m4. split; [eapply steps_trans; eauto|]. split.
      * split; [|exact R4]. intros p Hp. rewrite Hsem. rewrite <- (A2' p Hp). apply (nx_priv L SF m4 m2 A4 p Hp).
      * intros d Hd _. rewrite (nx_db w L SF HL m4 m2 d A4 Hd), (nx_db w L SF HL m2 m1 d A2 Hd). reflexivity.
Qed.
End TG.

(* ---------- Forwards ---------- *)
Lemma inv_cond_trig h cs ce s : inv h s -> inv h (cond_trig cs ce s).
Proof.
  intros H. unfold cond_trig. cbn [Forward]. cbv zeta. unfold NextTrigger. apply inv_fset. apply (inv_next _ (selfnext _ _ _)).
  apply (inv_self _ _ _ (snd (Forward s))). apply inv_forward. exact H.
Qed.
Lemma inv_cond_trigs h ch ce : forall s, inv h s -> inv h (snd (cond_trigs ch ce s)).
Proof.
  induction ch as [|c r IH]; intros s H; [exact H|]. cbn [cond_trigs]. specialize (IH _ (inv_cond_trig h c ce s H)).
  destruct (cond_trigs r ce (cond_trig c ce s)). exact IH.
Qed.
Lemma inv_act_trigs h ch : forall s, inv h s -> inv h (act_trigs ch s).
Proof. induction ch as [|c r IH]; intros s H; [exact H|]. apply IH, inv_raw, H. Qed.
Lemma inv_revert_trigs h ch ce : forall s, inv h s -> inv h (revert_trigs ch ce s).
Proof. induction ch as [|c r IH]; intros s H; [exact H|]. apply IH, inv_raw, H. Qed.
Lemma inv_trigger h cs acts s : inv h s -> inv h (Trigger cs acts true s).
Proof.
  intros H. unfold Trigger. cbn [NextTrigger]. apply inv_next in H. cbn [NextTrigger snd] in H.
  set (s0 := mkbs (b_trs s) (b_pend s ++ [b_nf s]) (b_sets s) (S (b_nf s)) (b_nd s) (b_init s)) in *.
  destruct ((length cs <=? 16)%nat && (length acts <=? 64)%nat); [apply (inv_next _ (emit _ _)), inv_emit; exact H|].
  pose proof (inv_cond_trigs (b_nf s0 :: h) (every 16 cs) (b_nf s0) (snd (Forward s0)) (inv_forward _ _ H)) as I1.
  cbn [Forward snd] in *. destruct (cond_trigs _ _ _) as [ks s2]. cbn [snd] in I1. cbn match.
  set (s4 := act_trigs _ _). apply inv_revert_trigs. apply (inv_mark _ _ _ s4). apply inv_act_trigs. exact I1.
Qed.

(* Trigger(cs, acts), placed anywhere: started at its entry with memory m, it
   arrives after its end with memory m' = all actions done in order if all
   conditions held at the start, m if not; and it is ready to be run again. The
   last part of sim says that all next pointers of the code are as they were. *)
Theorem C23_trigger cs acts s w L x :
  Trigger cs acts true start = s -> linked w L s -> (forall f, In f (b_pend s) -> L_F L f = x) ->
  (forall c, In c cs -> cgood L s c) -> (forall a, In a acts -> agood w L s a) ->
  forall m m1, sim L s m1 m ->
  exists m1', runs w (pa (L_F L 0%nat), m1) (pa x, m1') /\
    sim L s m1' (if forallb (eval_cond m) cs then fold_left exec_act acts m else m).
Proof.
  intros HC HL Hx Hc Ha m m1 HS.
  assert (IV : leaf_inv (fst (parts (SLeaf (trigger_leaf cs acts))))) by (intros c [<-|[]] h u; apply inv_trigger).
  assert (CC : comp None (SLeaf (trigger_leaf cs acts)) start = Some s) by (cbn [comp trigger_leaf lf_emit]; rewrite HC; reflexivity).
  destruct (C20_generates (SLeaf (trigger_leaf cs acts))) as (_ & _ & GI). destruct (GI IV s CC) as (_ & ND & _).
  apply (C20_structured (SLeaf (trigger_leaf cs acts)) s w L x CC IV HL Hx) with (m := m); [|split; [reflexivity|intros b; reflexivity]|exact HS].
  split; [|intros c []]. intros c [<-|[]]. apply trigger_good; auto.
Qed.
Print Assumptions C23_trigger.

(* inside structured programs, any number of times *)
Theorem C23_trigger_in_programs w L s cs acts :
  linked w L s -> NoDup (map fst (b_init s)) -> (forall c, In c cs -> cgood L s c) -> (forall a, In a acts -> agood w L s a) ->
  lgood w L s (trigger_leaf cs acts) /\ leaf_inv [trigger_leaf cs acts].
Proof. intros HL ND Hc Ha. split; [apply trigger_good; auto|]. intros c [<-|[]] h u. apply inv_trigger. Qed.
Print Assumptions C23_trigger_in_programs.

(* each group fits into a trigger *)
Theorem C23_groups_fit {A} n (l g : list A) : (0 < n)%nat -> In g (every n l) -> (length g <= n)%nat /\ concat (every n l) = l.
Proof. intros H K. split; [apply (every_size n l g H K)|apply every_concat; exact H]. Qed.

(* ---------- an example: 20 conditions, 70 actions ---------- *)
Lemma setM_good w L s a md v : writable w a -> ~ priv L s a -> agood w L s (SetM a md v).
Proof.
  intros [Hp Hw] Hn m1 m A.
  assert (Q : forall u, acts_do (W_prot w) u [SetM a md v] (upd u a (do_mod md (get u a) (u32 v)))) by (intros u; apply do_cons_M; [exact Hp|exact Hw|apply do_nil]).
  assert (TY : forall u, act_type (rd u (a_w6 (SetM a md v))) = 45) by (intros u; destruct md; reflexivity).
  assert (EX : forall u, exec_act u (SetM a md v) = upd u a (do_mod md (get u a) (u32 v))).
  { intros u. destruct (Q u) as [_ E]. cbn [exec_acts] in E. rewrite (TY u) in E. exact E. }
  rewrite !EX. split; [|split].
  - destruct (Q m1) as [O _]. cbn [acts_ok] in O. rewrite (TY m1) in O. destruct O as [O|[O _]]; [discriminate|exact O].
  - intros b Hb. rewrite (A a Hn). destruct (Z.eq_dec (idx b) (idx a)) as [E|E]; [rewrite !get_upd_same by exact E; reflexivity|rewrite !get_upd_ne by congruence; apply A; exact Hb].
  - intros b Hb. apply get_upd_ne. intros E. apply Hn. destruct Hb as [(k0 & l & H & X)|(d & H & X)]; [left; exists k0, l|right; exists d]; split; auto; congruence.
Qed.
(* layouts for examples: triggers from exT, Db cells at 60, what follows at 200000 *)
Definition lay_of (c : bs) : lay := mklay exT (fun f => goto 200 (b_sets c) (F f)) (fun d => 60 + Z.of_nat d).
Definition world_of (c : bs) : world := exworld 0 (map (fun it => it (lay_of c)) (b_trs c)).
Definition mem_of (c : bs) (m : mem) : mem := fold_right (fun x m => upd m (nx (lay_of c) (fst x)) (pa (lv (lay_of c) (snd x)))) m (b_init c).
Definition layout_ok (c : bs) : bool :=
  forallb (fun x => L_F (lay_of c) (fst x) =? lv (lay_of c) (snd x)) (b_sets c) && (length (b_trs c) <? 1000)%nat &&
  forallb (fun x => (fst x <? 1000)%nat) (b_init c) && (b_nd c <? 40)%nat.
Lemma nx_of c k : (k < 1000)%nat -> idx (nx (lay_of c) k) = 100001 + 602 * Z.of_nat k.
Proof. intros H. unfold nx, idx, lay_of. cbn [L_T]. unfold exT. rewrite Z.mod_small; lia. Qed.
Lemma init_small c k l : layout_ok c = true -> In (k, l) (b_init c) -> (k < 1000)%nat.
Proof. unfold layout_ok. rewrite !andb_true_iff, !forallb_forall. intros (((_ & _) & H) & _) K. specialize (H _ K). cbn [fst] in H. lia. Qed.
Lemma linked_of c : layout_ok c = true -> linked (world_of c) (lay_of c) c.
Proof.
  intros OK. pose proof (fun k l => init_small c k l OK) as HB'. unfold layout_ok in OK. rewrite !andb_true_iff, !forallb_forall in OK. destruct OK as (((HS & HT) & _) & HD).
  assert (HD' : forall d, idx (L_D (lay_of c) d) = (60 + Z.of_nat d) mod 2^30) by reflexivity.
  constructor.
  - intros f l Hf. specialize (HS _ Hf). cbn [fst snd] in HS. lia.
  - intros k it H. apply (exworld_placed 0 (map (fun it => it (lay_of c)) (b_trs c))).
    + lia.
    + rewrite map_length. unfold item in *. lia.
    + apply (map_nth_error (fun it : item => it (lay_of c)) k (b_trs c) H).
  - intros k l H. specialize (HB' k l H). split; [|reflexivity]. apply plain_small. unfold nx, lay_of, exT; cbn [L_T]. lia.
  - intros d Hd. split; [|reflexivity]. apply plain_small. cbn [lay_of L_D]. lia.
  - intros k k' l l' H H' E. rewrite (nx_of c k), (nx_of c k') in E by (eapply HB'; eassumption). lia.
  - intros d d' H H' E. rewrite !HD' in E. rewrite (Z.mod_small (60 + Z.of_nat d)), (Z.mod_small (60 + Z.of_nat d')) in E by lia. lia.
  - intros k l d H Hd. rewrite nx_of by (eapply HB'; eassumption). rewrite HD', Z.mod_small; lia.
Qed.
Lemma not_priv_of c a : layout_ok c = true -> 30 < a < 60 -> ~ priv (lay_of c) c a.
Proof.
  intros OK H. pose proof (fun k l => init_small c k l OK) as HB. unfold layout_ok in OK. rewrite !andb_true_iff in OK. destruct OK as (_ & HD). intros [(k & l & Hk & E)|(d & Hd & E)].
  - rewrite nx_of in E by (eapply HB; exact Hk). unfold idx in E. rewrite Z.mod_small in E; lia.
  - unfold idx in E. cbn [lay_of L_D] in E. rewrite !Z.mod_small in E; lia.
Qed.
Lemma sim_of_mem c m : NoDup (map fst (b_init c)) -> layout_ok c = true -> sim (lay_of c) c (mem_of c m) m.
Proof.
  intros ND OK.
  assert (H : forall l, (forall x, In x l -> In x (b_init c)) -> NoDup (map fst l) ->
    let u := fold_right (fun x m => upd m (nx (lay_of c) (fst x)) (pa (lv (lay_of c) (snd x)))) m l in
    (forall a, ~ priv (lay_of c) c a -> get u a = get m a) /\ forall k z, In (k, z) l -> get u (nx (lay_of c) k) = pa (lv (lay_of c) z)).
  { induction l as [|[k z] l IH]; intros Hl N; cbv zeta; [split; [reflexivity|intros ? ? []]|]. cbn [fold_right fst snd map] in *.
    inversion N as [|? ? N1 N2]; subst. destruct (IH (fun x Hx => Hl x (or_intror Hx)) N2) as [A B]. split.
    - intros a Ha. rewrite get_upd_ne; [apply A; exact Ha|]. intros E. apply Ha. left. exists k, z. split; [apply Hl; left; reflexivity|exact (eq_sym E)].
    - intros k' z' [E|H'].
      + injection E as -> ->. rewrite get_upd_eq. apply pa_u32.
      + rewrite get_upd_ne; [apply B; exact H'|]. intros E. rewrite !nx_of in E by (eapply (init_small c); [exact OK|apply Hl; first [left; reflexivity|right; exact H']]).
        apply N1. apply in_map_iff. exists (k', z'). split; [cbn; lia|exact H']. }
  destruct (H (b_init c) (fun x Hx => Hx) ND) as [A B]. split; [exact A|exact B].
Qed.

Definition ex_cs : list cond := map (fun i => CondM (31 + Z.of_nat i) AtMost 100) (seq 0 20).
Definition ex_acts : list act := map (fun i => SetM 31 Add (Z.of_nat i)) (seq 0 70).
Definition trig_code : bs := Trigger ex_cs ex_acts true start.
Example trig_runs : let m := fun _ => 7 in
  exists m1, runs (world_of trig_code) (pa (exT 0), mem_of trig_code m) (pa 200000, m1) /\ get m1 31 = 2422 /\ get m1 32 = 7.
Proof.
  intros m.
  assert (OK : layout_ok trig_code = true) by (vm_compute; reflexivity).
  destruct (C23_trigger ex_cs ex_acts trig_code (world_of trig_code) (lay_of trig_code) 200000 eq_refl (linked_of _ OK)) with (m := m) (m1 := mem_of trig_code m) as (m1 & R1 & A & _).
  - assert (H : forallb (fun f => L_F (lay_of trig_code) f =? 200000) (b_pend trig_code) = true) by (vm_compute; reflexivity).
    rewrite forallb_forall in H. intros f Hf. specialize (H _ Hf). lia.
  - intros c H. apply in_map_iff in H. destruct H as (i & <- & Hi). apply in_seq in Hi. apply condM_good; [apply plain_small; lia|apply not_priv_of; [exact OK|lia]].
  - intros a H. apply in_map_iff in H. destruct H as (i & <- & Hi). apply setM_good; [split; [apply plain_small; lia|reflexivity]|apply not_priv_of; [exact OK|lia]].
  - apply sim_of_mem; [|exact OK]. assert (H : inv [] trig_code) by apply inv_trigger, start_inv. apply H.
  - exists m1. split; [exact R1|]. rewrite !A by (apply not_priv_of; [exact OK|lia]). split; vm_compute; reflexivity.
Qed.

(* ---------- preserved = False ---------- *)
(* An extended trigger with preserved=False is meant to run its actions at most
   once. Its code does not do that: when the conditions still hold, all actions
   are done again, since the first condition trigger rewrites the next pointer
   that was set to skip the code. *)
Definition once_code (cs : list cond) : bs := Trigger cs (map (fun i => SetM 31 Add (Z.of_nat i)) (seq 1 70)) false start.
Theorem C23_unpreserved_runs_again_refuted :
  exists cs, cs <> [] /\
    let c := once_code cs in
    let r1 := runN (W_P (world_of c)) 20 (pa (exT 0)) (mem_of c (fun _ => 0)) in
    let r2 := runN (W_P (world_of c)) 20 (pa (exT 0)) (snd r1) in
    fst r1 = pa 200000 /\ get (snd r1) 31 = 2485 /\ fst r2 = pa 200000 /\ get (snd r2) 31 = 2 * 2485.
Proof. exists (map (fun i => CondM 32 Exactly 0) (seq 0 17)). split; [discriminate|]. vm_compute. repeat split; reflexivity. Qed.

Print Assumptions C23_groups_fit.
Print Assumptions C23_unpreserved_runs_again_refuted.
