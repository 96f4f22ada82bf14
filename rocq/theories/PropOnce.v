(* C25: the body of an ExecuteOnce block runs once. *)
From Coq Require Import ZArith Lia List Bool Permutation ZifyBool ZifyNat.
From Verif Require Import Word Machine MachineProofs MachineRefine VarModel VarSpec FuncModel ExWorld.
From Verif Require Import StruModel StruSpec StruProofs StruComp StruMain OnceModel PropStru TrigModel TrigProofs PropTrig.
Import ListNotations.
Open Scope Z_scope.

(* The world as long as the first trigger, number k, is as generated: its flags
   (and its next pointer, unless the body's code itself rewrites it) are
   constants, in cells that are not written. *)
Definition fresh_prot (w : world) (L : lay) (k : nat) (t : trig) (i : Z) : bool :=
  W_prot w i || (i =? idx (L_T L k + 594)) || (match t_next t with Imm _ => i =? idx (L_T L k + 1) | Mem _ => false end).
Definition fresh (w : world) (L : lay) (k : nat) (t : trig) : world :=
  mkworld (fun pc => if pc =? lbl (L_T L) k then Some t else W_P w pc) (fresh_prot w L k t) (W_vars w).

Section Once.
Variable w : world.
Variable L : lay.
Variable k : nat.
Variable t : trig.
Notation TT := (L_T L).
Hypothesis Hst : W_P w (lbl TT k) = Some (stored L k t).
Hypothesis Hfl : t_flags t = Imm 4.
Hypothesis Hnx : (exists v, t_next t = Imm v) \/ t_next t = Mem (nx L k).

(* the two cells still hold what the trigger was generated with *)
Definition holds_first (m : mem) : Prop :=
  get m (TT k + 594) = 4 /\ get m (TT k + 1) = rd m (t_next t).

Lemma acts_intact prot m0 : forall l m, intact prot m0 m -> acts_ok prot m l -> intact prot m0 (exec_acts m l).
Proof.
  induction l as [|a l IH]; intros m Hi Ho; [exact Hi|]. cbn [acts_ok exec_acts] in *.
  destruct (Z.eqb_spec (act_type (rd m (a_w6 a))) 0); [exact Hi|]. destruct Ho as [?|[O1 O2]]; [contradiction|].
  apply IH; [apply exec_act_intact; auto|exact O2].
Qed.
Lemma acts_weaken (p p' : Z -> bool) : (forall i, p i = false -> p' i = false) -> forall l m, acts_ok p m l -> acts_ok p' m l.
Proof.
  intros Hp. induction l as [|a l IH]; intros m Ho; [exact I|]. cbn [acts_ok] in *. destruct Ho as [Q|[[O1 O1'] O2]]; [left; exact Q|].
  right. split; [|apply IH; exact O2]. split; [exact O1|]. intros Q. destruct (O1' Q) as (A & B & C). auto.
Qed.

Lemma fresh_step pc m pc' m' : holds_first m -> step (W_P (fresh w L k t)) (W_prot (fresh w L k t)) (pc, m) (pc', m') ->
  step (W_P w) (W_prot w) (pc, m) (pc', m') /\ holds_first m'.
Proof.
  intros [H1 H2] Hs. inversion Hs as [pc0 m1 u HP Hok E1 E2]. subst pc0 m1. clear Hs. cbn [fresh W_P W_prot] in *.
  set (m2 := exec_trig m u) in *.
  assert (WK : forall i, fresh_prot w L k t i = false -> W_prot w i = false) by (unfold fresh_prot; intros i Q; apply orb_false_iff in Q; destruct Q as [Q _]; apply orb_false_iff in Q; apply Q).
  assert (IN : intact (fresh_prot w L k t) m m2).
  { unfold m2, exec_trig, fires. destruct (Z.testbit (rd m (t_flags u)) 3) eqn:E3; cbn [negb andb]; [intros a _; reflexivity|].
    destruct (Hok E3) as [_ Hao]. destruct (eval_conds m (t_conds u)) eqn:Ec; [|intros a _; reflexivity].
    apply acts_intact; [intros a _; reflexivity|apply Hao; reflexivity]. }
  assert (I1 : get m2 (TT k + 594) = 4). { rewrite (IN (TT k + 594)); [exact H1|]. unfold fresh_prot. rewrite Z.eqb_refl, orb_true_r. reflexivity. }
  assert (I2 : get m2 (TT k + 1) = rd m2 (t_next t)).
  { destruct Hnx as [(v & Q)|Q]; rewrite Q in *; [|reflexivity]. rewrite (IN (TT k + 1)); [exact H2|]. unfold fresh_prot. rewrite Q, Z.eqb_refl, orb_true_r. reflexivity. }
  split; [|split; [exact I1|exact I2]].
  destruct (Z.eqb_spec pc (lbl TT k)) as [->|N].
  - injection HP as <-.
    assert (X : exec_trig m (stored L k t) = m2).
    { unfold m2, exec_trig, fires. cbn [stored t_flags t_conds t_acts]. rewrite Hfl. cbn [rd]. rewrite H1. reflexivity. }
    assert (NX : rd m2 (t_next (stored L k t)) = rd m2 (t_next t)) by (cbn [stored t_next rd]; exact I2).
    rewrite <- NX, <- X. apply step_intro; [exact Hst|].
    unfold trig_ok in *. cbn [stored t_flags t_conds t_acts]. rewrite Hfl in Hok. cbn [rd] in *. rewrite H1.
    intros Q. destruct (Hok Q) as [A B]. split; [exact A|]. intros C. destruct (B C) as [B1 B2]. split; [exact B1|]. eapply acts_weaken; eauto.
  - apply step_intro; [exact HP|]. intros Q. destruct (Hok Q) as [A B]. split; [exact A|]. intros C. destruct (B C) as [B1 B2]. split; [exact B1|]. eapply acts_weaken; eauto.
Qed.
Lemma fresh_steps s s' : runs (fresh w L k t) s s' -> holds_first (snd s) -> runs w s s' /\ holds_first (snd s').
Proof.
  unfold runs. induction 1 as [s|[pc m] [pc1 m1] s2 S1 S2 IH]; intros Hi; [split; [apply steps_refl|exact Hi]|].
  destruct (fresh_step _ _ _ _ Hi S1) as [Q1 Q2]. destruct (IH Q2) as [R1 R2]. split; [eapply steps_cons; eauto|exact R2].
Qed.
End Once.

(* the block is entered the first time: it does what its body means, and leaves
   a mark; entered with the mark, it does nothing *)
Theorem C25_once body s bstart w L x k it :
  ExecuteOnce body start = Some (bstart, s) -> leaf_inv (fst (parts body)) ->
  nth_error (b_trs s) k = Some it -> L_F L bstart = L_T L k ->
  W_P w (lbl (L_T L) k) = Some (stored L k (it L)) ->
  t_flags (it L) = Imm 4 -> ((exists v, t_next (it L) = Imm v) \/ t_next (it L) = Mem (nx L k)) ->
  writable w (L_T L k + 1) -> writable w (L_T L k + 594) -> idx (L_T L k + 1) <> idx (L_T L k + 594) ->
  linked (fresh w L k (it L)) L s -> (forall f, In f (b_pend s) -> L_F L f = x) -> good (fresh w L k (it L)) L s body ->
  let entry := pa (L_F L 0%nat) in
  let mark m := get m (L_T L k + 1) = pa x /\ get m (L_T L k + 594) = 8 in
  (* first time *)
  (forall m m', den body m Norm m' -> forall m1, sim L s m1 m -> holds_first L k (it L) m1 ->
    exists m1', runs w (entry, m1) (pa x, m1') /\ mark m1' /\
      forall a, ~ priv L s a -> idx a <> idx (L_T L k + 1) -> idx a <> idx (L_T L k + 594) -> get m1' a = get m' a) /\
  (* later *)
  (forall m, mark m -> runs w (entry, m) (pa x, m)).
Proof.
  intros HC HV Hit Hk Hst Hfl Hnx W1 W2 Hne HL Hx HG entry mark.
  unfold ExecuteOnce in HC. cbn [start NextTrigger Forward snd b_trs b_pend b_sets b_nf b_nd b_init app] in HC. cbn [start fset b_trs b_pend b_sets b_nf b_nd b_init] in HC.
  set (s1 := mkbs [] [0%nat; 3%nat] [(1%nat, F 3)] 4 0 []) in HC.
  assert (I1 : inv [2%nat] s1).
  { split; [split; [constructor|intros ? []]|]. unfold fw_inv. cbn.
    apply (perm_trans (l' := [0; 1; 3; 2]%nat)); [apply perm_swap|]. apply perm_skip, perm_skip, perm_swap. }
  apply bindo_inv in HC. destruct HC as (s2 & C2 & HC).
  set (acts := fun L => [SetM (L_F L 1%nat + 1) SetTo (pa (L_F L 2%nat)); SetM (L_F L 1%nat + 594) SetTo 8]) in HC.
  set (s3 := RawTrigger [] acts s2) in HC. unfold NextTrigger in HC.
  assert (HB : bstart = 1%nat) by congruence. assert (HS : s = fset 2 (F (b_nf s3)) (snd (NextTrigger s3))) by (cbn [NextTrigger snd]; congruence). clear HC. subst bstart.
  assert (I2 : inv [2%nat] s2) by (exact (comp_inv body HV None s1 s2 [2%nat] C2 I1)).
  assert (I3 : inv [2%nat] s3) by (apply inv_raw; exact I2).
  assert (IS : inv [] s) by (rewrite HS; apply inv_mark; exact I3).
  assert (ND : NoDup (map fst (b_init s))) by apply IS.
  assert (X3 : ext s3 s) by (rewrite HS; eapply ext_trans; [apply ext_next|apply ext_fset]).
  assert (X2 : ext s2 s) by (eapply ext_trans; [apply ext_raw|exact X3]).
  assert (Hb : L_F L 2%nat = x).
  { rewrite (ext_set _ L s HL s 2%nat (F (b_nf s3)) (ext_refl s)) by (rewrite HS; left; reflexivity). cbn [lv]. apply Hx. rewrite HS. cbn. right. left. reflexivity. }
  destruct (raw_run (fresh w L k (it L)) L s HL [] acts s2 X3 x) as [P2 WE].
  { intros g Hg. apply Hx. rewrite HS. cbn [NextTrigger snd fset b_pend]. apply in_or_app. left. exact Hg. }
  destruct (comp_ok (fresh w L k (it L)) L s HL ND body None s1 s2 HG C2) as (X1 & _ & HI).
  destruct (HI X2 (L_T L (pos s2)) P2) as (a & Pa & HA). specialize (HA ltac:(discriminate)).
  assert (X0 : ext s1 s) by (exact (ext_trans _ _ _ X1 X2)).
  assert (Ha : a = L_T L k).
  { rewrite <- Hk. rewrite (ext_set _ L s HL s1 1%nat (F 3) X0) by (left; reflexivity). cbn [lv]. symmetry. apply Pa. right. left. reflexivity. }
  assert (He : L_F L 0%nat = L_T L k) by (rewrite <- Ha; apply Pa; left; reflexivity).
  split.
  - intros m m' HD m1 HS1 HF. destruct (HA m Norm m' HD m1 HS1) as (m2 & R1 & [A2 _] & _). cbn [dest] in R1.
    destruct (fresh_steps w L k (it L) Hst Hfl Hnx _ _ R1 HF) as [R2 [F1 F2]]. cbn [snd] in F1, F2.
    set (m3 := upd (upd m2 (L_T L k + 1) (pa x)) (L_T L k + 594) 8).
    exists m3. split; [|split].
    + unfold entry. rewrite He, <- Ha. eapply steps_trans; [exact R2|].
      assert (AD : acts_do (W_prot w) m2 (acts L) m3).
      { unfold acts. rewrite Hk, Hb. destruct W1, W2. apply do_cons_M; auto. cbn [do_mod]. rewrite pa_u32. apply do_cons_M; auto. apply do_nil. }
      unfold fresh in WE. cbn [W_P] in WE. destruct (Z.eqb_spec (lbl (L_T L) (pos s2)) (lbl (L_T L) k)) as [EQ|NE].
      * change (pa (L_T L (pos s2))) with (lbl (L_T L) (pos s2)). rewrite EQ. injection WE as WE. unfold stored in Hst. rewrite WE in Hst. cbn [RawTrig t_conds t_acts] in Hst.
        eapply run_true with (1 := Hst); [cbn [rd]; exact F1|apply conds_nil|exact AD|]. cbn [rd]. unfold m3. rewrite get_upd_ne by congruence. rewrite get_upd_eq. apply pa_u32.
      * eapply run_true with (1 := WE); [reflexivity|apply conds_nil|exact AD|]. cbn [rd]. apply pa_u32.
    + unfold mark, m3. rewrite get_upd_eq. rewrite get_upd_ne by congruence. rewrite get_upd_eq. split; [apply pa_u32|reflexivity].
    + intros b Hb1 Hb2 Hb3. unfold m3. rewrite !get_upd_ne by congruence. apply A2. exact Hb1.
  - intros m [M1 M2]. unfold entry. rewrite He. eapply steps_cons; [|apply steps_refl].
    assert (EX : exec_trig m (stored L k (it L)) = m) by (unfold exec_trig, fires; cbn [stored t_flags rd]; rewrite M2; reflexivity).
    assert (Q : step (W_P w) (W_prot w) (lbl (L_T L) k, m) (rd (exec_trig m (stored L k (it L))) (t_next (stored L k (it L))), exec_trig m (stored L k (it L)))).
    { apply step_intro; [exact Hst|]. intros Q. cbn [stored t_flags rd] in Q. rewrite M2 in Q. discriminate. }
    rewrite EX in Q. cbn [stored t_next rd] in Q. rewrite M1 in Q. exact Q.
Qed.
Print Assumptions C25_once.

(* ---------- an example ---------- *)
Definition once_body : stmt :=
  SSeq (SLeaf (set_leaf 40 Add 5)) (SIf false SSkip [CondM 41 Exactly 0] (SLeaf (set_leaf 42 Add 1)) CEnd).
Definition once_c : bs := match ExecuteOnce once_body start with Some (_, s) => s | None => start end.
Lemma once_c_ok : ExecuteOnce once_body start = Some (1%nat, once_c).
Proof.
  unfold once_c. destruct (ExecuteOnce once_body start) as [[b s]|] eqn:E.
  2:{ assert (H : match ExecuteOnce once_body start with Some _ => true | None => false end = true) by (vm_compute; reflexivity).
      rewrite E in H. discriminate H. }
  f_equal. f_equal. assert (H : match ExecuteOnce once_body start with Some (b, _) => b | None => 9%nat end = 1%nat) by (vm_compute; reflexivity).
  rewrite E in H. exact H.
Qed.
Definition once_it : item := nth 0 (b_trs once_c) (fun _ => RawTrig [] [] 0).
Definition once_L := lay_of once_c.
Definition once_w : world :=
  mkworld (fun pc => if pc =? lbl exT 0 then Some (stored once_L 0 (once_it once_L)) else W_P (world_of once_c) pc) (fun _ => false) [].
Lemma once_it_eq : once_it once_L = RawTrig [] [SetM 40 Add 5] (pa (exT 1)).
Proof. vm_compute. reflexivity. Qed.
Lemma once_layout : layout_ok once_c = true.
Proof. vm_compute. reflexivity. Qed.
Lemma once_init k l : In (k, l) (b_init once_c) -> (1 <= k < 1000)%nat.
Proof.
  assert (H : forallb (fun x => (1 <=? fst x)%nat && (fst x <? 1000)%nat) (b_init once_c) = true) by (vm_compute; reflexivity).
  rewrite forallb_forall in H. intros K. specialize (H _ K). cbn [fst] in H. lia.
Qed.
Lemma once_nth : nth_error (b_trs once_c) 0 = Some once_it.
Proof.
  unfold once_it. assert (H : (0 <? length (b_trs once_c))%nat = true) by (vm_compute; reflexivity).
  destruct (b_trs once_c); [discriminate H|reflexivity].
Qed.
Lemma once_len : (length (b_trs once_c) <? 100)%nat = true.
Proof. vm_compute. reflexivity. Qed.
Lemma once_nd : b_nd once_c = 0%nat.
Proof. vm_compute. reflexivity. Qed.
Lemma once_pend f : In f (b_pend once_c) -> L_F once_L f = 200000.
Proof.
  assert (H : forallb (fun f => L_F once_L f =? 200000) (b_pend once_c) = true) by (vm_compute; reflexivity).
  rewrite forallb_forall in H. intros Hf. specialize (H _ Hf). lia.
Qed.
Lemma once_start : L_F once_L 1 = L_T once_L 0 /\ L_F once_L 0 = exT 0.
Proof. split; vm_compute; reflexivity. Qed.
Opaque once_c.
Lemma once_linked : linked (fresh once_w once_L 0 (once_it once_L)) once_L once_c.
Proof.
  pose proof (linked_of once_c once_layout) as K. pose proof once_len as LN.
  constructor; try apply K.
  - intros k it H. cbn [fresh W_P once_w]. assert (Hk : (k < length (b_trs once_c))%nat) by (apply nth_error_Some; congruence).
    destruct (Z.eqb_spec (lbl (L_T once_L) k) (lbl (L_T once_L) 0)) as [E|E].
    + assert (k = 0%nat). { unfold lbl, once_L, lay_of in E. cbn [L_T] in E. unfold exT in E. rewrite !pa_small in E by lia. lia. }
      subst k. rewrite once_nth in H. injection H as <-. reflexivity.
    + change (lbl exT 0) with (lbl (L_T once_L) 0). destruct (Z.eqb_spec (lbl (L_T once_L) k) (lbl (L_T once_L) 0)); [contradiction|].
      apply (lk_placed _ _ _ K k it H).
  - intros k l H. destruct (lk_cell _ _ _ K k l H) as [A _]. split; [exact A|]. apply once_init in H.
    cbn [fresh W_prot once_w]. unfold fresh_prot. cbn [W_prot once_w]. rewrite once_it_eq. cbn [RawTrig t_next orb].
    unfold once_L in *. rewrite nx_of by lia. unfold idx, lay_of. cbn [L_T]. unfold exT. rewrite !Z.mod_small by lia. lia.
  - intros d Hd. rewrite once_nd in Hd. lia.
Qed.
Lemma once_good : good (fresh once_w once_L 0 (once_it once_L)) once_L once_c once_body.
Proof.
  assert (WR : forall a, 30 < a < 60 -> writable (fresh once_w once_L 0 (once_it once_L)) a).
  { intros a Ha. split; [apply plain_small; lia|]. cbn [fresh W_prot once_w]. unfold fresh_prot. cbn [W_prot once_w orb]. rewrite once_it_eq. cbn [RawTrig t_next].
    unfold once_L, idx, lay_of. cbn [L_T]. unfold exT. rewrite !Z.mod_small by lia. lia. }
  split; cbn [once_body parts parts_chain fst snd app].
  - intros c H. repeat destruct H as [<-|H]; try contradiction; (apply set_leaf_good; [exact once_linked|apply WR; lia|apply not_priv_of; [exact once_layout|lia]]).
  - intros c H. repeat destruct H as [<-|H]; try contradiction; (apply condM_good; [apply plain_small; lia|apply not_priv_of; [exact once_layout|lia]]).
Qed.
(* three visits: the body's effect appears once *)
Definition once_base : mem := upd (upd (fun _ => 0) (exT 0 + 594) 4) (exT 0 + 1) (pa (exT 1)).
Definition once_m0 : mem := mem_of once_c once_base.
Lemma once_nodup : NoDup (map fst (b_init once_c)).
Proof.
  pose proof once_c_ok as E. unfold ExecuteOnce in E. cbn [start NextTrigger Forward snd b_trs b_pend b_sets b_nf b_nd b_init app fset] in E. apply bindo_inv in E. destruct E as (s2 & C2 & E).
  assert (I1 : inv [2%nat] (mkbs [] [0%nat; 3%nat] [(1%nat, F 3)] 4 0 [])).
  { split; [split; [constructor|intros ? []]|]. unfold fw_inv. cbn. apply (perm_trans (l' := [0; 1; 3; 2]%nat)); [apply perm_swap|]. apply perm_skip, perm_skip, perm_swap. }
  assert (HV : leaf_inv (fst (parts once_body))) by (intros c Hc; cbn [once_body parts parts_chain fst snd app] in Hc; repeat destruct Hc as [<-|Hc]; try contradiction; intros h s; apply set_leaf_inv).
  pose proof (comp_inv once_body HV None _ s2 [2%nat] C2 I1) as I2.
  assert (X : forall a b : nat * bs, Some a = Some b -> snd a = snd b) by congruence. apply X in E. cbn [snd] in E. rewrite <- E. apply I2.
Qed.
Example once_three_times : exists m1,
  runs once_w (pa (exT 0), once_m0) (pa 200000, m1) /\ get m1 40 = 5 /\ get m1 42 = 1 /\
  runs once_w (pa (exT 0), upd m1 40 77) (pa 200000, upd m1 40 77).
Proof.
  assert (CK : idx (exT 0 + 1) = 100001 /\ idx (exT 0 + 594) = 100594) by (split; reflexivity). destruct CK as [CK1 CK2].
  destruct once_start as [ST1 ST2].
  destruct (C25_once once_body once_c 1 once_w once_L 200000 0 once_it once_c_ok) as [FI LA].
  - intros c Hc. cbn [once_body parts parts_chain fst snd app] in Hc. repeat destruct Hc as [<-|Hc]; try contradiction; intros h s; apply set_leaf_inv.
  - exact once_nth.
  - exact ST1.
  - cbn [once_w W_P]. change (lbl (L_T once_L) 0) with (lbl exT 0). rewrite Z.eqb_refl. reflexivity.
  - rewrite once_it_eq. reflexivity.
  - left. rewrite once_it_eq. eexists. reflexivity.
  - split; [apply plain_small; unfold once_L, lay_of; cbn [L_T]; unfold exT; lia|reflexivity].
  - split; [apply plain_small; unfold once_L, lay_of; cbn [L_T]; unfold exT; lia|reflexivity].
  - change (L_T once_L 0) with (exT 0). rewrite CK1, CK2. lia.
  - exact once_linked.
  - exact once_pend.
  - exact once_good.
  - rewrite ST2 in FI, LA. change (L_T once_L 0) with (exT 0) in *.
    assert (NP : forall a, idx a = 100001 \/ idx a = 100594 -> ~ priv once_L once_c a).
    { intros a Ha [(k & l & Hk & E)|(d & Hd & _)]; [|rewrite once_nd in Hd; lia]. apply once_init in Hk. unfold once_L in E. rewrite nx_of in E by lia. lia. }
    destruct (sim_of_mem once_c once_base once_nodup once_layout) as [S1 S2].
    destruct (FI once_base (upd (upd once_base 40 5) 42 1)) with (m1 := once_m0) as (m1 & R1 & M1 & A1).
    + right. exists (upd once_base 40 5). split; [split; [reflexivity|intros b; reflexivity]|]. right. eexists. split; [split; reflexivity|]. split; [reflexivity|intros b; reflexivity].
    + split; [exact S1|exact S2].
    + unfold holds_first, once_m0. change (L_T once_L 0) with (exT 0). rewrite !S1 by (apply NP; first [left; exact CK1|right; exact CK2]). rewrite once_it_eq. split; vm_compute; reflexivity.
    + assert (V : forall a, 30 < a < 60 -> idx a = a) by (intros a Ha; unfold idx; apply Z.mod_small; lia).
      exists m1. split; [exact R1|]. split; [|split].
      * rewrite A1; [reflexivity|apply not_priv_of; [exact once_layout|lia]|rewrite CK1, V; lia|rewrite CK2, V; lia].
      * rewrite A1; [reflexivity|apply not_priv_of; [exact once_layout|lia]|rewrite CK1, V; lia|rewrite CK2, V; lia].
      * apply LA. destruct M1 as [M1 M2]. rewrite !get_upd_ne by (rewrite ?CK1, ?CK2, V; lia). auto.
Qed.
