(* Multiplication of two variables: the body of _eud_mul computes the product. *)
From Coq Require Import ZArith Lia Bool List Permutation ZifyBool ZifyNat.
From Verif Require Import Lib Word Machine MachineProofs VarModel VarSpec VarProofs SeqProofs NonSeqProofs
  OpsModel OpsSpec OpsBase OpsProofs OpsArith OpsBits OpsXor OpsShift OpsFinal FuncModel FuncSpec FuncProofs FuncBody MulModel MulArith MulConst.
Import ListNotations.
Open Scope Z_scope.

Lemma pair_of_idx (l : list (Z * Z)) p q : NoDup (map (fun p => idx (fst p)) l) -> In p l -> In q l -> idx (fst p) = idx (fst q) -> p = q.
Proof.
  induction l as [|x l IH]; intros Hn Hp Hq E; [destruct Hp|]. cbn [map] in Hn. inversion_clear Hn as [|? ? N1 N2].
  destruct Hp as [<-|Hp], Hq as [<-|Hq]; auto.
  - destruct N1. rewrite E. apply (in_map (fun p => idx (fst p)) l q Hq).
  - destruct N1. rewrite <- E. apply (in_map (fun p => idx (fst p)) l p Hp).
Qed.
Lemma NoDup_app_l {A} (l1 l2 : list A) : NoDup (l1 ++ l2) -> NoDup l1.
Proof. induction l1 as [|x l1 IH]; intros H; [constructor|]. inversion_clear H. constructor; auto. rewrite in_app_iff in *. tauto. Qed.
Lemma NoDup_app_disj {A} (l1 l2 : list A) x : NoDup (l1 ++ l2) -> In x l1 -> In x l2 -> False.
Proof.
  induction l1 as [|y l1 IH]; intros H H1 H2; [destruct H1|]. inversion_clear H as [|? ? N1 N2].
  destruct H1 as [<-|H1]; [apply N1, in_app_iff; auto|eauto].
Qed.

Section W.
Variable w : world.
Hypothesis Hw : world_ok w.
Notation vars := (W_vars w).

Lemma placed_blocks T (f : nat -> list trig) len hi : (forall i, (i < hi)%nat -> length (f i) = len) ->
  forall n i k, (i + n <= hi)%nat -> placed w T k (flat_map f (seq i n)) -> forall j, (j < n)%nat -> placed w T (k + len * j) (f (i + j)%nat).
Proof.
  intros Hl. induction n as [|n IH]; intros i k Hi Hp j Hj; [lia|]. cbn [seq flat_map] in Hp.
  apply placed_app in Hp. destruct Hp as [P1 P2]. destruct j as [|j].
  - rewrite Nat.mul_0_r, !Nat.add_0_r. exact P1.
  - rewrite Hl in P2 by lia. specialize (IH (S i) _ ltac:(lia) P2 j ltac:(lia)).
    replace (k + len * S j)%nat with (k + len + len * j)%nat by lia. replace (i + S j)%nat with (S i + j)%nat by lia. exact IH.
Qed.

Variable T : nat -> Z.
Variable a b ret : Z.
Hypothesis Ha : In a vars.
Hypothesis Hb : In b vars.
Hypothesis Hr : In ret vars.
Hypothesis Hab : a <> b.
Hypothesis Har : a <> ret.
Hypothesis Hbr : b <> ret.
Hypothesis Hp : placed w T 0 (eud_mul_body T a b ret).
Hypothesis Hcells : forall c, In c (mul_cells T) -> patchable w c.
Hypothesis Hnd : NoDup (map idx (mul_cells T)).

Notation c1 := (m_c1 T).
Notation c2 := (m_c2 T).
Notation rdc := (m_rd T).
Notation rvc := (m_rv T).

(* next pointers that the body rewrites, with their values between calls *)
Definition mul_rest : list (Z * Z) :=
  map (fun i => (c1 i, lbl T (m_p2 i))) (seq 0 32) ++ map (fun i => (c2 i, lbl T (m_p4 i))) (seq 0 31).
Definition mul_inv (m : mem) : Prop :=
  (exists c v, In (c, v) mul_rest /\ get m rdc = u32 c /\ get m rvc = v) /\
  forall c v, In (c, v) mul_rest -> get m c = v.

Lemma rest_fst : map fst mul_rest = map c1 (seq 0 32) ++ map c2 (seq 0 31).
Proof. unfold mul_rest. rewrite map_app, !map_map. reflexivity. Qed.
Lemma rest_cells c v : In (c, v) mul_rest -> In c (mul_cells T).
Proof.
  intros H. apply (in_map fst) in H. rewrite rest_fst in H. cbn [fst] in H. unfold mul_cells. rewrite app_assoc. apply in_app_iff. auto.
Qed.
Lemma rest_nd : NoDup (map (fun p => idx (fst p)) mul_rest).
Proof.
  rewrite <- map_map, rest_fst. unfold mul_cells in Hnd. rewrite app_assoc, map_app in Hnd. apply NoDup_app_l in Hnd. exact Hnd.
Qed.
Lemma rest_c1 i : (i < 32)%nat -> In (c1 i, lbl T (m_p2 i)) mul_rest.
Proof. intros H. apply in_app_iff. left. apply in_map_iff. exists i. split; [reflexivity|]. apply in_seq. lia. Qed.
Lemma rest_c2 i : (i < 31)%nat -> In (c2 i, lbl T (m_p4 i)) mul_rest.
Proof. intros H. apply in_app_iff. right. apply in_map_iff. exists i. split; [reflexivity|]. apply in_seq. lia. Qed.
Lemma rd_cells : In rdc (mul_cells T) /\ In rvc (mul_cells T).
Proof. unfold mul_cells. rewrite app_assoc. split; apply in_app_iff; right; cbn; auto. Qed.
Lemma rd_sep c v : In (c, v) mul_rest -> idx c <> idx rdc /\ idx c <> idx rvc.
Proof.
  intros H. pose proof Hnd as N. unfold mul_cells in N. rewrite app_assoc, map_app in N.
  assert (Hc : In (idx c) (map idx (map c1 (seq 0 32) ++ map c2 (seq 0 31)))).
  { rewrite <- rest_fst. apply in_map. apply (in_map fst) in H. exact H. }
  split; intros E; apply (NoDup_app_disj _ _ _ N Hc); rewrite E; cbn; auto.
Qed.
Lemma rd_rv : idx rdc <> idx rvc.
Proof.
  pose proof Hnd as N. unfold mul_cells in N. rewrite app_assoc, map_app in N. intros E.
  clear - N E. induction (map idx (map c1 (seq 0 32) ++ map c2 (seq 0 31))) as [|x l IH]; cbn [app] in N.
  - cbn in N. inversion_clear N as [|? ? N1 _]. apply N1. left. congruence.
  - inversion_clear N. auto.
Qed.
Lemma cell_sep c v f : In c (mul_cells T) -> In v vars -> idx c <> idx (vc v f).
Proof. intros Hc Hv. apply (proj2 (Hcells c Hc)). exact Hv. Qed.
Lemma cell_plain c : In c (mul_cells T) -> plain c /\ W_prot w (idx c) = false.
Proof. intros Hc. apply (proj1 (Hcells c Hc)). Qed.

(* ---- where the triggers are ---- *)
Lemma block_length i : (i < 31)%nat -> length (mul_block T a b ret i) = 4%nat.
Proof.
  intros H. unfold mul_block. destruct (i <=? 30)%nat eqn:E; [reflexivity|]. apply Nat.leb_gt in E. lia.
Qed.
Lemma pre_mul : placed w T 0 (Raw1 T 0 [] [SetNumber (val ret) 0; SetModifier b Add]) /\
  (forall i, (i < 31)%nat -> placed w T (1 + 4 * i) (mul_block T a b ret i)) /\
  placed w T 125 (mul_block T a b ret 31) /\ placed w T 127 [RawTrig [] [SetD (Mem rdc) SetTo (Mem rvc)] (lbl T 128)].
Proof.
  unfold eud_mul_body in Hp. apply placed_app in Hp. destruct Hp as [P1 P2]. split; [exact P1|].
  replace (seq 0 32) with (seq 0 31 ++ [31%nat]) in P2 by reflexivity.
  rewrite flat_map_app, <- app_assoc in P2. apply placed_app in P2. destruct P2 as [P2 P3].
  split; [intros i Hi; apply (placed_blocks T _ 4 31 block_length 31 0 1); [lia|exact P2|lia]|].
  replace (0 + length _ + length _)%nat with 125%nat in P3 by reflexivity.
  apply placed_app in P3. destruct P3 as [P3 P4]. cbn [flat_map] in P3. rewrite app_nil_r in P3. split; [exact P3|exact P4].
Qed.

Lemma place_add i : (i < 32)%nat ->
  W_P w (lbl T (m_p1 i)) = Some (mktrig [AtLeastX a 1 (2 ^ Z.of_nat i)] [SetM (c1 i) SetTo (lbl T (2 + 4 * i))] (Mem (c1 i)) (Imm 4)) /\
  placed w T (2 + 4 * i) (VProc T (2 + 4 * i) [b] [SetDest b (val ret); SetM (c1 i) SetTo (lbl T (m_p2 i))]).
Proof.
  intros Hi. destruct pre_mul as (_ & P & Q & _). destruct (Nat.eq_dec i 31) as [->|Hne].
  - unfold mul_block in Q. apply placed_cons in Q. destruct Q as [Q1 Q2]. split; [exact Q1|]. apply placed_app in Q2. apply Q2.
  - specialize (P i ltac:(lia)). unfold mul_block in P. apply placed_cons in P. destruct P as [Q1 Q2]. split; [exact Q1|]. apply placed_app in Q2. apply Q2.
Qed.
Lemma place_stop i : (i < 31)%nat ->
  W_P w (lbl T (m_p2 i)) = Some (mktrig [ExactlyX a 0 (remaining i)]
               [SetM (c2 i) SetTo (lbl T m_end); SetM rdc SetTo (c2 i); SetM rvc SetTo (lbl T (m_p4 i))]
               (Mem (c2 i)) (Imm 4)) /\
  placed w T (m_p4 i) (VProc T (m_p4 i) [b] [SetDest b (val b)]).
Proof.
  intros Hi. destruct pre_mul as (_ & P & _ & _). specialize (P i Hi). unfold mul_block in P.
  replace (i <=? 30)%nat with true in P by (symmetry; apply Nat.leb_le; lia).
  apply placed_cons in P. destruct P as [_ P]. apply placed_app in P. destruct P as [_ P].
  replace (S (1 + 4 * i) + length _)%nat with (m_p2 i) in P by (unfold m_p2, VProc; cbn; lia).
  apply placed_cons in P. destruct P as [P1 P2]. split; [exact P1|].
  replace (S (m_p2 i)) with (m_p4 i) in P2 by (unfold m_p2, m_p4; lia). exact P2.
Qed.

(* ---- one bit ---- *)
Lemma mul_add i m : (i < 32)%nat -> get m (c1 i) = lbl T (m_p2 i) ->
  get m (vc b FMask) = 0xFFFFFFFF -> get m (vc b FMod) = w6 Add ->
  exists m', runs w (lbl T (m_p1 i), m) (lbl T (m_p2 i), m') /\
    get m' (val ret) = (if Z.testbit (get m (val a)) (Z.of_nat i) then u32 (get m (val ret) + get m (val b)) else get m (val ret)) /\
    fr [vc b FNext; vc b FDest; val ret] m m'.
Proof.
  intros Hi Hc Hmask Hmod. destruct (place_add i Hi) as [P1 P2].
  pose proof (rest_cells _ _ (rest_c1 i Hi)) as Hc1. destruct (cell_plain _ Hc1) as [Hpl Hpr].
  pose proof (conds_one_MX m (val a) AtLeast 1 (2 ^ Z.of_nat i) (wo_plain w Hw a FVal Ha)) as Hcd.
  cbn [do_cmp] in Hcd. rewrite test_bit in Hcd by lia. destruct (Z.testbit (get m (val a)) (Z.of_nat i)).
  - pose (m1 := upd m (c1 i) (lbl T (2 + 4 * i))).
    pose (m2 := upd (upd m1 (vc b FDest) (u32 (val ret))) (c1 i) (lbl T (m_p2 i))).
    assert (S1 : forall v f, In v vars -> idx (c1 i) <> idx (vc v f)) by (intros; apply cell_sep; auto).
    destruct (vproc1 w Hw T (2 + 4 * i) _ b (val ret) Add m1 m2 P2 Hb) as (m' & A & B).
    { repeat (apply nz_cons; [intros; apply type_SetM|]). apply nz_nil. }
    { unfold SetDest. apply do_cons_M; [apply (wo_plain w Hw); auto|apply (wo_prot w Hw); auto|].
      apply do_cons_M; [exact Hpl|exact Hpr|]. cbn [do_mod]. rewrite u32_lbl. apply do_nil. }
    { apply (valcell_val w Hw); auto. }
    { unfold m2. rewrite get_upd_ne by auto. rewrite get_upd_eq, u32_idem. reflexivity. }
    { unfold m2, m1. rewrite get_upd_ne by auto. rewrite get_upd_ne by sep. rewrite get_upd_ne by auto. exact Hmod. }
    assert (G : forall v f, In v vars -> idx (vc v f) <> idx (vc b FDest) -> get m2 (vc v f) = get m (vc v f)).
    { intros v f Hv Hn. unfold m2, m1. rewrite get_upd_ne by auto. rewrite get_upd_ne by congruence. apply get_upd_ne; auto. }
    rewrite !G in B by (auto; apply (vsep w Hw); auto; right; discriminate).
    rewrite Hmask in B. change 0xFFFFFFFF with (Z.ones 32) in B. rewrite do_modx_full in B by apply get_range. cbn [do_mod] in B.
    exists m'. split; [|split].
    + eapply runs_trans; [|replace (m_p2 i) with (2 + 4 * i + length (VProc T (2 + 4 * i) [b] [SetDest b (val ret); SetM (c1 i) SetTo (lbl T (m_p2 i))]))%nat; [exact A|]].
      2:{ unfold m_p2, VProc. cbn. lia. }
      eapply run_true; [exact P1|reflexivity|exact Hcd| |].
      * apply do_cons_M; [exact Hpl|exact Hpr|]. cbn [do_mod]. rewrite u32_lbl. apply do_nil.
      * cbn [rd]. unfold m1. rewrite get_upd_eq. apply u32_lbl.
    + rewrite B by (apply (vsep w Hw); auto; right; discriminate). rewrite get_upd_eq. apply u32_idem.
    + intros x Hx. rewrite B by (apply not_eq_sym, Hx; cbn; auto). rewrite get_upd_ne by (apply Hx; cbn; auto).
      unfold m2, m1. destruct (Z.eq_dec (idx (c1 i)) (idx x)) as [E|E].
      * unfold get in *. rewrite <- E. fold (get (upd (upd (upd m (c1 i) (lbl T (2 + 4 * i))) (vc b FDest) (u32 (val ret))) (c1 i) (lbl T (m_p2 i))) (c1 i)).
        rewrite get_upd_eq, u32_lbl. symmetry. exact Hc.
      * rewrite get_upd_ne by exact E. rewrite get_upd_ne by (apply Hx; cbn; auto). apply get_upd_ne. exact E.
  - exists m. split; [|split; [reflexivity|apply fr_refl]].
    eapply run_false; [exact P1|reflexivity|exact Hcd|]. cbn [rd]. exact Hc.
Qed.

(* ---- are there more bits? ---- *)
Lemma remaining_zero A i : 0 <= A < 2^32 -> (i < 31)%nat ->
  (Z.land A (u32 (remaining i)) =? u32 0) = (A <? 2 ^ (Z.of_nat i + 1)).
Proof.
  intros HA Hi. pose proof (pow2_pos (Z.of_nat i + 1) ltac:(lia)).
  assert (Hlt : 2 ^ (Z.of_nat i + 1) < 2 ^ 32) by (apply Z.pow_lt_mono_r; lia).
  unfold remaining. rewrite u32_small by lia. change (u32 0) with 0.
  set (p := Z.of_nat i + 1) in *.
  assert (E : Z.land A (2 ^ 32 - 2 ^ p) = A - A mod 2 ^ p).
  { assert (Z.land A (2^32 - 2^p) = Z.ldiff A (Z.ones p)).
    { apply Z.bits_inj'. intros n Hn. rewrite Z.land_spec, Z.ldiff_spec.
      destruct (Z.ltb_spec n p).
      - rewrite Z.ones_spec_low by lia. cbn [negb]. rewrite andb_false_r. replace (2 ^ 32 - 2 ^ p) with (Z.ones (32 - p) * 2 ^ p).
        2:{ rewrite Z.ones_equiv. rewrite <- Z.sub_1_r, Z.mul_sub_distr_r, <- Z.pow_add_r by lia. replace (32 - p + p) with 32 by ring. ring. }
        rewrite Z.mul_pow2_bits_low by lia. apply andb_false_r.
      - rewrite Z.ones_spec_high by lia. cbn [negb]. rewrite andb_true_r.
        destruct (Z.ltb_spec n 32); [|rewrite (bounded_bits 32 A) by lia; reflexivity].
        replace (2 ^ 32 - 2 ^ p) with (Z.ones (32 - p) * 2 ^ p).
        2:{ rewrite Z.ones_equiv. rewrite <- Z.sub_1_r, Z.mul_sub_distr_r, <- Z.pow_add_r by lia. replace (32 - p + p) with 32 by ring. ring. }
        rewrite Z.mul_pow2_bits by lia. rewrite Z.ones_spec_low by lia. apply andb_true_r. }
    rewrite H0, Z.ldiff_ones_r by lia. rewrite Z.shiftl_mul_pow2, Z.shiftr_div_pow2 by lia.
    pose proof (Z.div_mod A (2 ^ p) ltac:(lia)). lia. }
  rewrite E. pose proof (Z.mod_pos_bound A (2 ^ p) ltac:(lia)).
  destruct (Z.ltb_spec A (2 ^ p)) as [L|L].
  - rewrite Z.mod_small by lia. rewrite Z.sub_diag. reflexivity.
  - apply Z.eqb_neq. lia.
Qed.

Lemma mul_stop i m : (i < 31)%nat -> get m (val a) < 2 ^ (Z.of_nat i + 1) ->
  exists m', runs w (lbl T (m_p2 i), m) (lbl T m_end, m') /\
    get m' rdc = u32 (c2 i) /\ get m' rvc = lbl T (m_p4 i) /\ fr [c2 i; rdc; rvc] m m'.
Proof.
  intros Hi HA. destruct (place_stop i Hi) as [P1 _].
  pose proof (conds_one_MX m (val a) Exactly 0 (remaining i) (wo_plain w Hw a FVal Ha)) as Hcd.
  cbn [do_cmp] in Hcd. rewrite remaining_zero in Hcd by (auto using get_range). replace (_ <? _) with true in Hcd by lia.
  pose proof (rest_cells _ _ (rest_c2 i Hi)) as Hc2. destruct (rd_sep _ _ (rest_c2 i Hi)) as [N1 N2]. destruct rd_cells as [Hrd Hrv].
  exists (upd (upd (upd m (c2 i) (lbl T m_end)) rdc (u32 (c2 i))) rvc (lbl T (m_p4 i))). split; [|split; [|split]].
  - eapply run_true; [exact P1|reflexivity|exact Hcd| |].
    + apply do_cons_M; [apply cell_plain; auto|apply cell_plain; auto|]. apply do_cons_M; [apply cell_plain; auto|apply cell_plain; auto|].
      apply do_cons_M; [apply cell_plain; auto|apply cell_plain; auto|]. cbn [do_mod]. rewrite !u32_lbl. apply do_nil.
    + cbn [rd]. rewrite !get_upd_ne by (apply not_eq_sym; auto). rewrite get_upd_eq. apply u32_lbl.
  - rewrite get_upd_ne by apply not_eq_sym, rd_rv. rewrite get_upd_eq. apply u32_idem.
  - rewrite get_upd_eq. apply u32_lbl.
  - intros x Hx. rewrite !get_upd_ne by (apply Hx; cbn; auto). reflexivity.
Qed.

Lemma mul_double i m : (i < 31)%nat -> 2 ^ (Z.of_nat i + 1) <= get m (val a) -> get m (c2 i) = lbl T (m_p4 i) ->
  get m (vc b FMask) = 0xFFFFFFFF -> get m (vc b FMod) = w6 Add ->
  exists m', runs w (lbl T (m_p2 i), m) (lbl T (m_p1 (S i)), m') /\
    get m' (val b) = u32 (get m (val b) + get m (val b)) /\ fr [vc b FNext; vc b FDest; val b] m m'.
Proof.
  intros Hi HA Hc Hmask Hmod. destruct (place_stop i Hi) as [P1 P2].
  pose proof (conds_one_MX m (val a) Exactly 0 (remaining i) (wo_plain w Hw a FVal Ha)) as Hcd.
  cbn [do_cmp] in Hcd. rewrite remaining_zero in Hcd by (auto using get_range). replace (_ <? _) with false in Hcd by lia.
  pose (m1 := upd m (vc b FDest) (u32 (val b))).
  destruct (vproc1 w Hw T (m_p4 i) _ b (val b) Add m m1 P2 Hb) as (m' & A & B).
  { repeat (apply nz_cons; [intros; apply type_SetM|]). apply nz_nil. }
  { unfold SetDest. apply do_cons_M; [apply (wo_plain w Hw); auto|apply (wo_prot w Hw); auto|]. apply do_nil. }
  { apply (valcell_val w Hw); auto. }
  { unfold m1. rewrite get_upd_eq. apply u32_idem. }
  { unfold m1. rewrite get_upd_ne by sep. exact Hmod. }
  unfold m1 in B. rewrite !(get_upd_ne m (vc b FDest)) in B by sep.
  rewrite Hmask in B. change 0xFFFFFFFF with (Z.ones 32) in B. rewrite do_modx_full in B by apply get_range. cbn [do_mod] in B.
  exists m'. split; [|split].
  - eapply runs_trans; [eapply run_false; [exact P1|reflexivity|exact Hcd|cbn [rd]; exact Hc]|].
    replace (m_p1 (S i)) with (m_p4 i + length (VProc T (m_p4 i) [b] [SetDest b (val b)]))%nat; [exact A|unfold m_p1, m_p4, VProc; cbn; lia].
  - rewrite B by sep. rewrite get_upd_eq. apply u32_idem.
  - intros x Hx. rewrite B by (apply not_eq_sym, Hx; cbn; auto). rewrite get_upd_ne by (apply Hx; cbn; auto).
    apply get_upd_ne. apply Hx. cbn; auto.
Qed.

(* ---- the chain of bits ---- *)
Definition mul_L : list Z := vc b FNext :: vc b FDest :: val ret :: val b :: mul_cells T.
Definition mul_S : list Z := vc b FMod :: mul_L.
Record mul_st (A B : Z) (i : nat) (m : mem) : Prop := {
  ms_a : get m (val a) = A;
  ms_b : get m (val b) = u32 (B * 2 ^ Z.of_nat i);
  ms_r : get m (val ret) = u32 ((A mod 2 ^ Z.of_nat i) * B);
  ms_mask : get m (vc b FMask) = 0xFFFFFFFF;
  ms_mod : get m (vc b FMod) = w6 Add;
  ms_inv : mul_inv m }.

Lemma fr_inv cs m m' : (forall c x, In c (mul_cells T) -> In x cs -> idx x <> idx c) -> fr cs m m' -> mul_inv m -> mul_inv m'.
Proof.
  intros Hd Hf ((c & v & H1 & H2 & H3) & H4). destruct rd_cells. split.
  - exists c, v. split; [exact H1|]. split; rewrite Hf; auto.
  - intros c' v' Hin. rewrite Hf; auto. intros x Hx. apply Hd; auto. eapply rest_cells; eauto.
Qed.
Lemma add_bit A B i : 0 <= A -> 0 <= i ->
  u32 (u32 ((A mod 2 ^ i) * B) + (if Z.testbit A i then u32 (B * 2 ^ i) else 0)) = u32 ((A mod 2 ^ (i + 1)) * B).
Proof.
  intros HA Hi. pose proof (pow2_pos i Hi).
  assert (E : A mod 2 ^ (i + 1) = A mod 2 ^ i + b2z (Z.testbit A i) * 2 ^ i).
  { rewrite testbit_b2z by lia. rewrite Z.pow_add_r by lia. change (2 ^ 1) with 2. rewrite Z.rem_mul_r by lia. ring. }
  rewrite E. unfold b2z. destruct (Z.testbit A i).
  - rewrite u32_add_l, u32_add_r. f_equal. ring.
  - rewrite Z.add_0_r, u32_idem. f_equal. ring.
Qed.

Lemma mul_loop A B : forall n i m, (i + n = 31)%nat -> mul_st A B i m ->
  exists m', runs w (lbl T (m_p1 i), m) (lbl T m_end, m') /\ get m' (val ret) = u32 (A * B) /\ fr mul_L m m' /\
    exists c v, In (c, v) mul_rest /\ get m' rdc = u32 c /\ get m' rvc = v /\
      forall c' v', In (c', v') mul_rest -> idx c' <> idx c -> get m' c' = v'.
Proof.
  induction n as [|n IH]; intros i m Hi [Sa Sb Sr Sk Sm Si].
  - assert (i = 31%nat) by lia. subst i. clear Hi.
    destruct (mul_add 31 m ltac:(lia) (proj2 Si _ _ (rest_c1 31 ltac:(lia))) Sk Sm) as (m1 & R1 & V1 & F1).
    assert (HA : 0 <= A < 2^32) by (rewrite <- Sa; apply get_range).
    assert (I1 : mul_inv m1).
    { eapply fr_inv; [|exact F1|exact Si]. intros c x Hc [<-|[<-|[<-|[]]]]; apply not_eq_sym; apply cell_sep; auto. }
    exists m1. split; [exact R1|]. split; [|split].
    + rewrite V1, Sa, Sb, Sr. change (Z.of_nat 31) with 31.
      transitivity (u32 (A mod 2 ^ (31 + 1) * B)); [|change (2 ^ (31 + 1)) with (2^32); rewrite Z.mod_small by lia; reflexivity].
      rewrite <- add_bit by lia. destruct (Z.testbit A 31); [reflexivity|]. rewrite Z.add_0_r, u32_idem. reflexivity.
    + eapply fr_incl; [|exact F1]. intros x [<-|[<-|[<-|[]]]]; cbn; auto.
    + destruct I1 as ((c & v & H1 & H2 & H3) & H4). exists c, v. auto 6.
  - destruct (mul_add i m ltac:(lia) (proj2 Si _ _ (rest_c1 i ltac:(lia))) Sk Sm) as (m1 & R1 & V1 & F1).
    assert (HA : 0 <= A < 2^32) by (rewrite <- Sa; apply get_range).
    assert (I1 : mul_inv m1).
    { eapply fr_inv; [|exact F1|exact Si]. intros c x Hc [<-|[<-|[<-|[]]]]; apply not_eq_sym; apply cell_sep; auto. }
    assert (Fa : get m1 (val a) = A).
    { rewrite F1; [exact Sa|]. intros x [<-|[<-|[<-|[]]]]; apply (vsep w Hw); auto. }
    assert (Fb : get m1 (val b) = u32 (B * 2 ^ Z.of_nat i)).
    { rewrite F1; [exact Sb|]. intros x [<-|[<-|[<-|[]]]]; apply (vsep w Hw); auto; right; discriminate. }
    assert (Fk : get m1 (vc b FMask) = 0xFFFFFFFF).
    { rewrite F1; [exact Sk|]. intros x [<-|[<-|[<-|[]]]]; apply (vsep w Hw); auto; right; discriminate. }
    assert (Fm : get m1 (vc b FMod) = w6 Add).
    { rewrite F1; [exact Sm|]. intros x [<-|[<-|[<-|[]]]]; apply (vsep w Hw); auto; right; discriminate. }
    assert (Vr : get m1 (val ret) = u32 ((A mod 2 ^ (Z.of_nat i + 1)) * B)).
    { rewrite V1, Sa, Sb, Sr. rewrite <- add_bit by lia. destruct (Z.testbit A (Z.of_nat i)); [reflexivity|]. rewrite Z.add_0_r, u32_idem. reflexivity. }
    assert (F1' : fr mul_L m m1) by (eapply fr_incl; [|exact F1]; intros x [<-|[<-|[<-|[]]]]; cbn; auto).
    destruct (Z.ltb_spec A (2 ^ (Z.of_nat i + 1))) as [L|L].
    + destruct (mul_stop i m1 ltac:(lia)) as (m2 & R2 & D1 & D2 & F2); [rewrite Fa; exact L|].
      pose proof (rest_c2 i ltac:(lia)) as Hc2. pose proof (rest_cells _ _ Hc2) as Hcc. destruct rd_cells as [Hrd Hrv].
      exists m2. split; [eapply runs_trans; eauto|]. split; [|split].
      * rewrite F2; [|intros x [<-|[<-|[<-|[]]]]; apply cell_sep; auto]. rewrite Vr. rewrite Z.mod_small by lia. reflexivity.
      * eapply fr_trans; [exact F1'|]. eapply fr_incl; [|exact F2]. unfold mul_L. intros x [<-|[<-|[<-|[]]]]; do 4 right; assumption.
      * exists (c2 i), (lbl T (m_p4 i)). split; [exact Hc2|]. split; [exact D1|]. split; [exact D2|].
        intros c' v' Hin Hne. rewrite F2; [apply (proj2 I1); exact Hin|]. destruct (rd_sep _ _ Hin).
        intros x [<-|[<-|[<-|[]]]]; apply not_eq_sym; auto.
    + destruct (mul_double i m1 ltac:(lia)) as (m2 & R2 & V2 & F2); [rewrite Fa; exact L|apply (proj2 I1), rest_c2; lia|exact Fk|exact Fm|].
      assert (F2' : fr mul_L m1 m2) by (eapply fr_incl; [|exact F2]; intros x [<-|[<-|[<-|[]]]]; cbn; auto).
      destruct (IH (S i) m2) as (m3 & R3 & V3 & F3 & Q3); [lia| |].
      { constructor.
        - rewrite F2; [exact Fa|]. intros x [<-|[<-|[<-|[]]]]; apply (vsep w Hw); auto.
        - rewrite V2, Fb. rewrite u32_add_l, u32_add_r. f_equal. rewrite Nat2Z.inj_succ, Z.pow_succ_r by lia. ring.
        - rewrite F2; [rewrite Vr; f_equal; rewrite Nat2Z.inj_succ, Z.add_1_r; reflexivity|]. intros x [<-|[<-|[<-|[]]]]; apply (vsep w Hw); auto.
        - rewrite F2; [exact Fk|]. intros x [<-|[<-|[<-|[]]]]; apply (vsep w Hw); auto; right; discriminate.
        - rewrite F2; [exact Fm|]. intros x [<-|[<-|[<-|[]]]]; apply (vsep w Hw); auto; right; discriminate.
        - eapply fr_inv; [|exact F2|exact I1]. intros c x Hc [<-|[<-|[<-|[]]]]; apply not_eq_sym; apply cell_sep; auto. }
      exists m3. split; [eapply runs_trans; [exact R1|eapply runs_trans; eauto]|]. split; [exact V3|]. split; [|exact Q3].
      eapply fr_trans; [exact F1'|]. eapply fr_trans; eauto.
Qed.

(* ---- the whole body ---- *)
Lemma mul_S_tmp x : ~ tmp [b] (val ret :: val b :: mul_cells T) x -> forall c, In c mul_S -> idx c <> idx x.
Proof.
  intros H c Hc E. apply H. destruct Hc as [<-|[<-|[<-|Hc]]].
  1-3: left; exists b; eexists; (split; [cbn; auto|split; [|symmetry; exact E]]); auto.
  right. exists c. split; [exact Hc|auto].
Qed.

Theorem mul_body_run m : mul_inv m -> ordinary m b ->
  exists m', runs w (lbl T 0, m) (lbl T 128, m') /\ mul_inv m' /\ fr mul_S m m' /\
    get m' (val ret) = u32 (get m (val a) * get m (val b)) /\ get m' (vc b FMod) = w6 Add.
Proof.
  intros HI [O1 O2]. destruct pre_mul as (P0 & _ & _ & P3).
  pose (m1 := upd (upd m (val ret) 0) (vc b FMod) (w6 Add)).
  assert (R0 : runs w (lbl T 0, m) (lbl T (m_p1 0), m1)).
  { apply (raw_run w T 0 [] [SetNumber (val ret) 0; SetModifier b Add]); [exact P0|apply conds_nil|]. unfold SetNumber, SetModifier.
    apply do_cons_M; [apply (wo_plain w Hw); auto|apply (wo_prot w Hw); auto|].
    apply do_cons_MX; [apply (wo_plain w Hw); auto|apply (wo_prot w Hw); auto|].
    rewrite setmod_val; [apply do_nil| |apply get_range]. rewrite get_upd_ne by sep. exact O2. }
  assert (F0 : fr [val ret; vc b FMod] m m1).
  { intros x Hx. unfold m1. rewrite !get_upd_ne by (apply Hx; cbn; auto). reflexivity. }
  assert (I1 : mul_inv m1).
  { eapply fr_inv; [|exact F0|exact HI]. intros c x Hc [<-|[<-|[]]]; apply not_eq_sym; apply cell_sep; auto. }
  destruct (mul_loop (get m (val a)) (get m (val b)) 31 0 m1 ltac:(lia)) as (m2 & R2 & V2 & F2 & c & v & Q1 & Q2 & Q3 & Q4).
  { constructor.
    - apply F0. intros x [<-|[<-|[]]]; apply (vsep w Hw); auto.
    - rewrite F0; [change (2 ^ Z.of_nat 0) with 1; rewrite Z.mul_1_r, u32_get; reflexivity|]. intros x [<-|[<-|[]]]; apply (vsep w Hw); auto; right; discriminate.
    - change (2 ^ Z.of_nat 0) with 1. rewrite Z.mod_1_r. unfold m1. rewrite get_upd_ne by sep. rewrite get_upd_eq. reflexivity.
    - rewrite F0; [exact O1|]. intros x [<-|[<-|[]]]; apply (vsep w Hw); auto; right; discriminate.
    - unfold m1. rewrite get_upd_eq. apply w6_small.
    - exact I1. }
  pose proof (rest_cells _ _ Q1) as Hc. destruct (rd_sep _ _ Q1) as [N1 N2]. destruct rd_cells as [Hrd Hrv].
  pose (m3 := upd m2 c (get m2 rvc)).
  assert (F3 : fr [c] m2 m3) by (apply fr_upd; cbn; auto).
  exists m3. split; [|split; [|split; [|split]]].
  - eapply runs_trans; [exact R0|]. eapply runs_trans; [exact R2|].
    eapply run_true; [apply placed_one; exact P3|reflexivity|apply conds_nil| |].
    + eapply do_cons_D with (a := c); [cbn [rd]; rewrite Q2; reflexivity|apply cell_plain; auto|apply cell_plain; auto|].
      cbn [do_mod rd]. apply do_nil.
    + cbn [rd]. apply u32_lbl.
  - split.
    + exists c, v. split; [exact Q1|]. split; rewrite F3; auto; intros x [<-|[]]; auto.
    + intros c' v' Hin. destruct (Z.eq_dec (idx c') (idx c)) as [E|E].
      * pose proof (pair_of_idx mul_rest (c', v') (c, v) rest_nd Hin Q1 E) as EE. injection EE as -> ->.
        unfold m3. rewrite get_upd_eq, u32_get. exact Q3.
      * rewrite F3; [apply Q4; auto|]. intros x [<-|[]]. congruence.
  - apply fr_trans with (m2 := m1); [eapply fr_incl; [|exact F0]; intros x [<-|[<-|[]]]; cbn; auto 6|].
    eapply fr_trans; [eapply fr_incl; [|exact F2]; unfold mul_S; apply incl_tl, incl_refl|]. eapply fr_incl; [|exact F3]. intros x [<-|[]]. unfold mul_S, mul_L. do 5 right. exact Hc.
  - rewrite F3; [exact V2|]. intros x [<-|[]]. apply cell_sep; auto.
  - rewrite F3 by (intros x [<-|[]]; apply cell_sep; auto).
    rewrite F2; [unfold m1; rewrite get_upd_eq; apply w6_small|].
    intros x [<-|[<-|[<-|[<-|Hx]]]]; [sep|sep|sep|sep|apply cell_sep; auto].
Qed.
End W.

Lemma patch_valcell w c : patchable w c -> valcell w c.
Proof. intros [A B]. split; [exact A|]. intros v f Hv _. apply B. exact Hv. Qed.

Lemma mul_private T : private (mul_inv T) (mul_cells T).
Proof.
  intros m m' H ((c & v & H1 & H2 & H3) & H4). destruct (rd_cells T). split.
  - exists c, v. split; [exact H1|]. split; rewrite H; auto.
  - intros c' v' Hin. rewrite H; auto. eapply rest_cells; eauto.
Qed.

Theorem eud_mul_computes w T a b ret :
  world_ok w ->
  let body := eud_mul_body T a b ret in
  let f := mkfunc T (length body) [DVar a; DVar b] [ret] in
  fn_wf w f -> a <> ret -> b <> ret ->
  (forall c, In c (mul_cells T) -> patchable w c) -> NoDup (map idx (fn_nptr f :: mul_cells T)) ->
  placed w T 0 body ->
  computes w f (mul_inv T) (tmp [b] (val ret :: val b :: mul_cells T)) (fun l => [u32 (nth 0 l 0 * nth 1 l 0)]).
Proof.
  intros Hw body f Hf Har Hbr Hcells Hnd Hp.
  change (length body) with 128%nat in *.
  assert (Ha : In a (W_vars w)) by (apply (fw_args _ _ Hf (DVar a)); cbn; auto).
  assert (Hb : In b (W_vars w)) by (apply (fw_args _ _ Hf (DVar b)); cbn; auto).
  assert (Hr : In ret (W_vars w)) by (apply (fw_rvars _ _ Hf); cbn; auto).
  assert (Hab : a <> b).
  { intros ->. pose proof (fw_sep _ _ Hf) as N. cbn [fn_args f map dst_epd] in N. inversion_clear N as [|? ? _ N1]. inversion_clear N1 as [|? ? N2 _].
    apply N2. left. reflexivity. }
  destruct (proj1 (NoDup_cons_iff (idx (fn_nptr f)) (map idx (mul_cells T))) Hnd) as [Hn1 Hn2]. clear Hnd.
  apply computes_intro.
  { apply (guard_tmp w Hw); auto.
    - intros x [<-|[]]; exact Hb.
    - intros x [<-|[]] [E|[]]. congruence.
    - intros c [<-|[<-|Hc]].
      + split; [apply (valcell_val w Hw); auto|apply (ret_nptr w); auto].
      + split; [apply (valcell_val w Hw); auto|apply (ret_nptr w); auto].
      + split; [apply patch_valcell; auto|]. intros E. apply Hn1. rewrite <- E. apply in_map. exact Hc. }
  intros m HI Ho _.
  destruct (mul_body_run w Hw T a b ret Ha Hb Hr Hab Har Hbr Hp Hcells Hn2 m HI (Ho b ltac:(cbn; auto))) as (m' & R & I' & F & V & Md).
  exists m'. split; [exact R|]. split; [exact I'|]. split; [|split].
  - intros x Hx. apply F. apply (mul_S_tmp T b ret). exact Hx.
  - cbn [f fn_rets fn_args map dst_epd nth]. rewrite V. reflexivity.
  - intros v Hv [O1 O2].
    assert (Hk : get m' (vc v FMask) = get m (vc v FMask)).
    { apply F. intros c [<-|[<-|[<-|[<-|[<-|Hc]]]]]; [apply (vsep w Hw); auto; right; discriminate..|]. apply (proj2 (Hcells c Hc)). exact Hv. }
    split; [rewrite Hk; exact O1|]. destruct (Z.eq_dec v b) as [->|Hne]; [rewrite Md; reflexivity|].
    rewrite F; [exact O2|]. intros c [<-|[<-|[<-|[<-|[<-|Hc]]]]]; [apply (vsep w Hw); auto; right; discriminate..|]. apply (proj2 (Hcells c Hc)). exact Hv.
Qed.
