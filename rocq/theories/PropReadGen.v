(* C66: generated readers. *)
From Coq Require Import ZArith Lia Bool List ZifyBool ZifyNat Permutation Sorted.
From Verif Require Import Lib Word Machine MachineProofs VarModel VarSpec VarProofs BinModel BinProofs OpsModel OpsSpec OpsBase CurplModel PropCurpl ReadModel PropRead SymExec ReadGenModel.
Import ListNotations.
Open Scope Z_scope.

(* ================= specification ================= *)
(* the sum of f over the bits that are set both in v and in the mask *)
Fixpoint sum_bits (n : nat) (v mask : Z) (f : Z -> Z) : Z :=
  match n with
  | O => 0
  | S n => sum_bits n v mask f + (if Z.testbit v (Z.of_nat n) && Z.testbit mask (Z.of_nat n) then f (2 ^ Z.of_nat n) else 0)
  end.
Definition weigh (v mask : Z) (f : Z -> Z) : Z := sum_bits 32 v mask f.
(* what a reader gives for the cell value v *)
Definition outcome (empty : bool) (v mask : Z) (a : Z * (Z -> Z)) : Z :=
  if empty && (v =? 0) then 0 else u32 (fst a + weigh v mask (snd a)).

(* ================= sums ================= *)
Lemma sum_bits_ext n v mask f g : (forall i, 0 <= i < Z.of_nat n -> Z.testbit mask i = true -> f (2^i) = g (2^i)) -> sum_bits n v mask f = sum_bits n v mask g.
Proof.
  induction n as [|n IH]; intros H; [reflexivity|]. cbn [sum_bits]. rewrite IH by (intros; apply H; [lia|assumption]). f_equal.
  destruct (Z.testbit v (Z.of_nat n)); [|reflexivity]. destruct (Z.testbit mask (Z.of_nat n)) eqn:B; [|reflexivity]. cbn [andb]. apply H; [lia|exact B].
Qed.
Lemma mod_succ_bit x n : 0 <= n -> x mod 2^(n + 1) = x mod 2^n + (if Z.testbit x n then 2^n else 0).
Proof.
  intros Hn. assert (P : 0 < 2^n) by (apply Z.pow_pos_nonneg; lia).
  rewrite Z.pow_add_r by lia. change (2^1) with 2. rewrite Z.rem_mul_r by lia.
  assert (E : (x / 2^n) mod 2 = Z.b2z (Z.testbit x n)) by (symmetry; rewrite Z.testbit_spec' by lia; reflexivity).
  rewrite E. destruct (Z.testbit x n); cbn [Z.b2z]; lia.
Qed.
(* sums of (multiples of) the bits themselves *)
Lemma sum_id n v mask : sum_bits n v mask (fun x => x) = Z.land v mask mod 2^Z.of_nat n.
Proof.
  induction n as [|n IH]; [cbn; rewrite Z.mod_1_r; reflexivity|]. cbn [sum_bits]. rewrite IH, <- Z.land_spec.
  replace (Z.of_nat (S n)) with (Z.of_nat n + 1) by lia. rewrite mod_succ_bit by lia. reflexivity.
Qed.
Lemma land32 v mask : 0 <= v < 2^32 -> Z.land v mask mod 2^32 = Z.land v mask.
Proof.
  intros H. rewrite <- Z.land_ones by lia. rewrite <- Z.land_assoc, (Z.land_comm mask), Z.land_assoc. rewrite Z.land_ones by lia. rewrite Z.mod_small by lia. reflexivity.
Qed.
Lemma weigh_id v mask : 0 <= v < 2^32 -> weigh v mask (fun x => x) = Z.land v mask.
Proof. intros H. unfold weigh. rewrite sum_id. apply land32, H. Qed.
Lemma weigh_mul v mask c : 0 <= v < 2^32 -> weigh v mask (fun x => x * c) = Z.land v mask * c.
Proof.
  intros H. rewrite <- (weigh_id v mask H). unfold weigh. generalize 32%nat as n. induction n as [|n IH]; [reflexivity|]. cbn [sum_bits]. rewrite IH.
  destruct (Z.testbit v (Z.of_nat n) && Z.testbit mask (Z.of_nat n)); lia.
Qed.
Lemma sum_div n v mask s : 0 <= s -> sum_bits n v mask (fun x => x / 2^s) = (Z.land v mask mod 2^Z.of_nat n) / 2^s.
Proof.
  intros Hs. assert (P : 0 < 2^s) by (apply Z.pow_pos_nonneg; lia).
  induction n as [|n IH]; [cbn; rewrite Z.mod_1_r; reflexivity|]. cbn [sum_bits]. rewrite IH, <- Z.land_spec.
  replace (Z.of_nat (S n)) with (Z.of_nat n + 1) by lia. rewrite mod_succ_bit by lia. set (x := Z.land v mask).
  destruct (Z.testbit x (Z.of_nat n)); [|rewrite !Z.add_0_r; reflexivity].
  assert (R : 0 <= x mod 2^Z.of_nat n < 2^Z.of_nat n) by (apply Z.mod_pos_bound, Z.pow_pos_nonneg; lia).
  destruct (Z.le_gt_cases s (Z.of_nat n)) as [L|L].
  - replace (2^Z.of_nat n) with (2^(Z.of_nat n - s) * 2^s) by (rewrite <- Z.pow_add_r by lia; f_equal; lia).
    rewrite Z.div_mul by lia. rewrite Z.div_add by lia. reflexivity.
  - assert (2^(Z.of_nat n + 1) <= 2^s) by (apply Z.pow_le_mono_r; lia). rewrite Z.pow_add_r in * by lia.
    rewrite !Z.div_small; lia.
Qed.
Lemma weigh_div v mask s : 0 <= v < 2^32 -> 0 <= s -> weigh v mask (fun x => x / 2^s) = Z.land v mask / 2^s.
Proof. intros H Hs. unfold weigh. rewrite sum_div by exact Hs. rewrite land32 by exact H. reflexivity. Qed.
Lemma sum_low n v mask s : 0 <= s -> sum_bits n v mask (fun x => if x <? 2^s then x else 0) = Z.land v mask mod 2^(Z.min s (Z.of_nat n)).
Proof.
  intros Hs. induction n as [|n IH].
  - cbn [sum_bits]. replace (Z.min s (Z.of_nat 0)) with 0 by lia. symmetry. apply Z.mod_1_r.
  - cbn [sum_bits]. rewrite IH, <- Z.land_spec. destruct (Z.le_gt_cases s (Z.of_nat n)) as [L|L].
    + rewrite !Z.min_l by lia. assert (2^s <= 2^Z.of_nat n) by (apply Z.pow_le_mono_r; lia).
      destruct (Z.ltb_spec (2^Z.of_nat n) (2^s)); [lia|]. destruct (Z.testbit _ _); lia.
    + rewrite !Z.min_r by lia. replace (Z.of_nat (S n)) with (Z.of_nat n + 1) by lia. rewrite mod_succ_bit by lia.
      assert (2^Z.of_nat n < 2^s) by (apply Z.pow_lt_mono_r; lia). destruct (Z.ltb_spec (2^Z.of_nat n) (2^s)); [|lia]. reflexivity.
Qed.
Lemma weigh_low v mask s : 0 <= s <= 32 -> weigh v mask (fun x => if x <? 2^s then x else 0) = Z.land v mask mod 2^s.
Proof. intros Hs. unfold weigh. rewrite sum_low by lia. f_equal. f_equal. lia. Qed.

(* sums over lists of rows *)
Fixpoint rsum (v : Z) (rs : list row) (j : nat) : Z :=
  match rs with
  | [] => 0
  | x :: rs => (if Z.land v (fst x) =? 0 then 0 else nth j (snd x) 0) + rsum v rs j
  end.
Lemma rsum_app v a b j : rsum v (a ++ b) j = rsum v a j + rsum v b j.
Proof. induction a as [|x a IH]; cbn [rsum app]; lia. Qed.
Lemma rsum_perm v a b j : Permutation a b -> rsum v a j = rsum v b j.
Proof. induction 1; cbn [rsum]; lia. Qed.
Lemma rsum_filter v (p : row -> bool) rs j : (forall x, In x rs -> p x = false -> nth j (snd x) 0 = 0) -> rsum v (filter p rs) j = rsum v rs j.
Proof.
  induction rs as [|x rs IH]; intros H; [reflexivity|]. cbn [filter rsum]. specialize (IH (fun y Hy => H y (or_intror Hy))). specialize (H x (or_introl eq_refl)).
  destruct (p x); cbn [rsum]; [lia|]. rewrite H by reflexivity. destruct (_ =? 0); lia.
Qed.
Lemma pow_row v i (h : Z -> list Z) j : 0 <= i -> (if Z.land v (2^i) =? 0 then 0 else nth j (h i) 0) = if Z.testbit v i then nth j (h i) 0 else 0.
Proof.
  intros Hi. rewrite Word.land_pow2 by exact Hi. assert (0 < 2^i) by (apply Z.pow_pos_nonneg; lia). destruct (Z.testbit v i); [|reflexivity].
  destruct (Z.eqb_spec (2^i) 0); [lia|reflexivity].
Qed.
(* rows for the bits 0 .. n - 1 *)
Lemma rsum_all v (h : Z -> list Z) j n mask f :
  (forall i, 0 <= i < Z.of_nat n -> nth j (h i) 0 = if Z.testbit mask i then f (2^i) else 0) ->
  rsum v (map (fun i => (2^i, h i)) (map Z.of_nat (seq 0 n))) j = sum_bits n v mask f.
Proof.
  induction n as [|n IH]; intros H; [reflexivity|]. rewrite seq_S, !map_app, rsum_app. cbn [sum_bits plus]. rewrite IH by (intros; apply H; lia). f_equal.
  cbn [map rsum fst snd]. rewrite pow_row by lia. rewrite H by lia. destruct (Z.testbit v (Z.of_nat n)), (Z.testbit mask (Z.of_nat n)); cbn [andb]; lia.
Qed.
Lemma u32_testbit m i : 0 <= i < 32 -> Z.testbit (u32 m) i = Z.testbit m i.
Proof. intros H. unfold u32. rewrite Z.mod_pow2_bits_low by lia. reflexivity. Qed.
Lemma rsum_filtered v mask args j a : nth_error args j = Some a -> forall n,
  rsum v (map (fun k => (2^k, map (fun a : arg => snd a (2^k)) args)) (filter (fun k => Z.testbit mask k) (map Z.of_nat (seq 0 n)))) j = sum_bits n v mask (snd a).
Proof.
  intros Ha n. induction n as [|n IH]; [reflexivity|]. rewrite seq_S, map_app, filter_app, map_app, rsum_app, IH. cbn [sum_bits plus]. f_equal.
  cbn [map filter]. destruct (Z.testbit mask (Z.of_nat n)); [|rewrite andb_false_r; reflexivity]. cbn [map rsum fst snd].
  rewrite (pow_row v (Z.of_nat n) (fun k => map (fun a => snd a (2^k)) args)) by lia. rewrite andb_true_r.
  rewrite (nth_error_nth (map _ args) j 0 (x := snd a (2 ^ Z.of_nat n))); [lia|]. rewrite nth_error_map, Ha. reflexivity.
Qed.
Lemma bits_perm mask : exists ks, bits mask = map (fun k => 2^k) ks /\ Permutation ks (filter (fun k => Z.testbit mask k) (map Z.of_nat (seq 0 32))).
Proof.
  destruct (bits_spec mask) as (ks & E & Hs & Hin). exists ks. split; [exact E|]. apply NoDup_Permutation.
  - clear Hin E. induction Hs as [|k ks Hs IH Hf]; constructor; [|exact IH]. intros H. rewrite Forall_forall in Hf. specialize (Hf _ H). lia.
  - apply NoDup_filter. apply FinFun.Injective_map_NoDup; [intros a1 a2; lia|apply seq_NoDup].
  - intros k. rewrite Hin, filter_In, in_map_iff. split.
    + intros [K B]. split; [exists (Z.to_nat k); split; [lia|apply in_seq; lia]|exact B].
    + intros [(i & <- & I) B]. apply in_seq in I. split; [lia|exact B].
Qed.
Lemma used_false args b j a : nth_error args j = Some a -> used (b, map (fun a : arg => snd a b) args) = false -> nth j (map (fun a : arg => snd a b) args) 0 = 0.
Proof.
  intros Ha Hu. unfold used in Hu. cbn [snd] in *. apply negb_false_iff in Hu. rewrite forallb_forall in Hu.
  assert (E : nth_error (map (fun a : arg => snd a b) args) j = Some (snd a b)) by (rewrite nth_error_map, Ha; reflexivity).
  rewrite (nth_error_nth _ _ _ E). symmetry. apply Z.eqb_eq, Hu. eapply nth_error_In; eauto.
Qed.
Lemma rsum_rows v mask args j a : nth_error args j = Some a -> rsum v (filter used (rows mask args)) j = weigh v (u32 mask) (snd a).
Proof.
  intros Ha. unfold rows. rewrite rsum_filter.
  - destruct (bits_perm (u32 mask)) as (ks & -> & P). rewrite map_map.
    etransitivity; [|exact (rsum_filtered v (u32 mask) args j a Ha 32)].
    apply rsum_perm. apply Permutation_map. exact P.
  - intros x Hx. apply in_map_iff in Hx as (b & <- & Hb). apply (used_false args b j a Ha).
Qed.

(* ================= running ================= *)
Lemma conds_cpu m cm n u k : 0 <= u < 2^16 ->
  conds_are m [DeathsX 13 cm n u k] (do_cmp cm (Z.land (get m (get m CPcell + 12 * u)) (u32 k)) (u32 n)).
Proof.
  intros Hu. set (w3 := u + enc_cmp cm * 2^16 + 15 * 2^24).
  assert (W0 : u32 w3 = w3) by (apply u32_small; unfold w3; destruct cm; cbn [enc_cmp]; lia).
  assert (W1 : w3 mod 2^16 = u) by (unfold w3; destruct cm; cbn [enc_cmp]; lia).
  assert (W2 : cond_type w3 = 15) by (unfold cond_type, w3; destruct cm; cbn [enc_cmp]; lia).
  assert (W3 : cond_cmp w3 = enc_cmp cm) by (unfold cond_cmp, w3; destruct cm; cbn [enc_cmp]; lia).
  assert (He : eval_cond m (DeathsX 13 cm n u k) = do_cmp cm (Z.land (get m (get m CPcell + 12 * u)) (u32 k)) (u32 n)).
  { unfold eval_cond, DeathsX. cbn [c_w3 c_w4 c_player c_mask c_amount rd]. fold w3. rewrite W0, W2, W3. change (cond_off (u32 0x43530000)) with false. cbn [Z.eqb Pos.eqb].
    rewrite compare_enc. unfold target, player_base. rewrite W1. change (u32 13) with 13. cbn [Z.eqb Pos.eqb]. reflexivity. }
  split; cbn [conds_ok eval_conds]; unfold DeathsX at 1; cbn [c_w3 rd]; fold w3; rewrite W0, W2.
  - right. split; [|intros; exact I]. unfold cond_ok, DeathsX. cbn [c_w3 c_w4 c_player rd]. fold w3. rewrite W0, W2, W3. right. right. right.
    split; [reflexivity|]. split; [destruct cm; auto|reflexivity].
  - cbn [Z.eqb Pos.eqb]. rewrite He. apply andb_true_r.
Qed.
Lemma conds_cpe m n : conds_are m [CondD (Imm 13) Exactly (Imm n)] (get m (get m CPcell) =? u32 n).
Proof.
  destruct (w3_facts Exactly) as (W1 & W2 & W3).
  assert (He : eval_cond m (CondD (Imm 13) Exactly (Imm n)) = (get m (get m CPcell) =? u32 n)).
  { unfold eval_cond, CondD. cbn [c_w3 c_w4 c_player c_mask c_amount rd]. rewrite W2, W3. change (cond_off (u32 0)) with false. cbn [Z.eqb Pos.eqb].
    rewrite compare_enc. unfold target, player_base. rewrite W1. change (u32 13) with 13. cbn [Z.eqb Pos.eqb]. rewrite Z.mul_0_r, Z.add_0_r. change (eff_mask (u32 0) (u32 0)) with (Z.ones 32).
    rewrite land_ones32, u32_get. reflexivity. }
  split; cbn [conds_ok eval_conds]; unfold CondD; cbn [c_w3 rd]; rewrite ?W2.
  - right. split; [|intros _; exact I]. unfold cond_ok. cbn [c_w3 c_w4 c_player rd]. right. right. right. rewrite W2, W3. split; [reflexivity|].
    split; [auto|reflexivity].
  - change (15 =? 0) with false. cbv iota. unfold CondD in He. rewrite He. apply andb_true_r.
Qed.

Section Run.
Variable w : world.
Variable T : nat -> Z.
Notation prot := (W_prot w).

(* the cells rets hold the values st; nothing else differs *)
Definition outside (rets : list Z) (m m' : mem) : Prop := forall b, ~ In (idx b) (map idx rets) -> get m' b = get m b.
Definition vals_of (rets : list Z) (m : mem) : list Z := map (get m) rets.
Lemma outside_trans rets m1 m2 m3 : outside rets m1 m2 -> outside rets m2 m3 -> outside rets m1 m3.
Proof. intros A B b Hb. rewrite (B b Hb). apply A, Hb. Qed.
Lemma outside_more rets rets' m m' : incl rets rets' -> outside rets m m' -> outside rets' m m'.
Proof. intros I A b Hb. apply A. intros H. apply Hb. apply in_map_iff in H as (x & E & Hx). rewrite <- E. apply in_map, I, Hx. Qed.
Lemma outside_vals r rets m m' : outside [r] m m' -> ~ In (idx r) (map idx rets) -> vals_of rets m' = vals_of rets m.
Proof.
  intros A N. apply map_ext_in. intros x Hx. apply A. cbn [map In]. intros [E|[]]. apply N. rewrite E. apply in_map, Hx.
Qed.

Lemma adds_do : forall rets vals m r m1, (forall a, In a rets -> writable w a) -> NoDup (map idx rets) -> length vals = length rets ->
  (forall m2, outside rets m m2 -> vals_of rets m2 = map (fun p => u32 (fst p + snd p)) (combine (vals_of rets m) vals) -> acts_do prot m2 r (m1 m2)) ->
  exists m2, outside rets m m2 /\ vals_of rets m2 = map (fun p => u32 (fst p + snd p)) (combine (vals_of rets m) vals) /\ acts_do prot m (adds rets vals ++ r) (m1 m2).
Proof.
  induction rets as [|x rets IH]; intros [|a vals] m r m1 HW HN HL H; try discriminate.
  - exists m. split; [intros b _; reflexivity|]. split; [reflexivity|]. apply H; [intros b _; reflexivity|reflexivity].
  - cbn [map] in HN. apply NoDup_cons_iff in HN as [HN1 HN2]. cbn [length] in HL.
    set (mx := if a =? 0 then m else upd m x (do_mod Add (get m x) (u32 a))).
    assert (Ox : outside [x] m mx).
    { unfold mx. destruct (a =? 0); intros b Hb; [reflexivity|]. apply get_upd_ne. cbn [map In] in Hb. intros E. apply Hb. left. exact E. }
    assert (Gx : get mx x = u32 (get m x + a)).
    { unfold mx. destruct (Z.eqb_spec a 0) as [->|]; [rewrite Z.add_0_r; symmetry; apply u32_get|]. rewrite get_upd_eq. cbn [do_mod]. rewrite u32_idem, u32_add_r. reflexivity. }
    assert (Step : forall m2, outside rets mx m2 -> vals_of rets m2 = map (fun p => u32 (fst p + snd p)) (combine (vals_of rets mx) vals) ->
       outside (x :: rets) m m2 /\ vals_of (x :: rets) m2 = map (fun p => u32 (fst p + snd p)) (combine (vals_of (x :: rets) m) (a :: vals))).
    { intros m2 O E. split.
      - eapply outside_trans; [eapply outside_more; [|exact Ox]|eapply outside_more; [|exact O]]; intros y Hy; cbn in *; tauto.
      - unfold vals_of in *. cbn [map combine fst snd]. f_equal; [rewrite (O x HN1); exact Gx|]. rewrite E. f_equal. f_equal. apply (outside_vals x); assumption. }
    destruct (IH vals mx r m1) as (m2 & O & E & D).
    + intros; apply HW; right; assumption.
    + exact HN2.
    + lia.
    + intros m2 O E. apply H; apply Step; assumption.
    + exists m2. split; [apply Step; assumption|]. split; [apply Step; assumption|].
      cbn [adds]. unfold mx in D. destruct (a =? 0); [exact D|]. cbn [app]. destruct (HW x (or_introl eq_refl)). apply do_cons_M; auto.
Qed.

(* ---- triggers that add to the results ---- *)
Section Bits.
Variables (rets : list Z) (cnd : Z -> cond) (good : mem -> Prop) (src : mem -> Z).
Hypothesis HW : forall a, In a rets -> writable w a.
Hypothesis HN : NoDup (map idx rets).
Hypothesis Hgood : forall m m', outside rets m m' -> good m -> good m' /\ src m' = src m.
Hypothesis Hcnd : forall m b, good m -> 0 <= b < 2^32 -> conds_are m [cnd b] (negb (Z.land (src m) b =? 0)).
Definition row_ok (x : row) : Prop := 0 <= fst x < 2^32 /\ length (snd x) = length rets.
Lemma bits_run : forall rs k m, placed w T k (seqtrigs T k (map (body cnd rets) rs)) -> good m -> Forall row_ok rs ->
  exists m', runs w (lbl T k, m) (lbl T (k + length rs), m') /\ outside rets m m' /\
    forall j, (j < length rets)%nat -> get m' (nth j rets 0) = u32 (get m (nth j rets 0) + rsum (src m) rs j).
Proof.
  induction rs as [|x rs IH]; intros k m Hp Hg Hok.
  - exists m. cbn [length]. rewrite Nat.add_0_r. split; [apply steps_refl|]. split; [intros b _; reflexivity|].
    intros j _. cbn [rsum]. rewrite Z.add_0_r. symmetry. apply u32_get.
  - cbn [map seqtrigs body] in Hp. inversion Hok as [|? ? [Hx1 Hx2] Hok']. subst.
    assert (P0 : W_P w (lbl T k) = Some (RawTrig [cnd (fst x)] (adds rets (snd x)) (lbl T (k + 1)))) by (rewrite <- (Nat.add_0_r k) at 1; apply Hp; reflexivity).
    assert (Pr : placed w T (k + 1) (seqtrigs T (k + 1) (map (body cnd rets) rs))) by (intros i t Hi; replace (k + 1 + i)%nat with (k + S i)%nat by lia; apply Hp; exact Hi).
    assert (One : exists m1, runs w (lbl T k, m) (lbl T (k + 1), m1) /\ outside rets m m1 /\
       forall j, (j < length rets)%nat -> get m1 (nth j rets 0) = u32 (get m (nth j rets 0) + (if Z.land (src m) (fst x) =? 0 then 0 else nth j (snd x) 0))).
    { pose proof (Hcnd m (fst x) Hg Hx1) as C. destruct (Z.land (src m) (fst x) =? 0) eqn:B; cbn [negb] in C.
      - exists m. split; [eapply run_false; [exact P0|reflexivity|exact C|apply u32_lbl]|]. split; [intros b _; reflexivity|].
        intros j _. rewrite Z.add_0_r. symmetry. apply u32_get.
      - destruct (adds_do rets (snd x) m [] (fun m => m) HW HN Hx2) as (m1 & O & E & D); [intros; apply do_nil|]. rewrite app_nil_r in D.
        exists m1. split; [eapply run_true; [exact P0|reflexivity|exact C|exact D|apply u32_lbl]|]. split; [exact O|].
        intros j Hj. assert (Q : nth j (vals_of rets m1) (get m1 0) = nth j (map (fun p => u32 (fst p + snd p)) (combine (vals_of rets m) (snd x))) (get m1 0)) by (rewrite E; reflexivity).
        unfold vals_of in Q at 1. rewrite map_nth in Q. rewrite Q.
        rewrite (nth_indep _ (get m1 0) ((fun p => u32 (fst p + snd p)) (get m 0, 0))) by (rewrite map_length, combine_length; unfold vals_of; rewrite map_length; lia).
        rewrite (map_nth (fun p : Z * Z => u32 (fst p + snd p))). rewrite combine_nth by (unfold vals_of; rewrite map_length; lia). cbn [fst snd]. unfold vals_of. rewrite map_nth. reflexivity. }
    destruct One as (m1 & R1 & O1 & V1). destruct (Hgood m m1 O1 Hg) as [Hg1 S1].
    destruct (IH (k + 1)%nat m1 Pr Hg1 Hok') as (m2 & R2 & O2 & V2). exists m2. cbn [length]. replace (k + S (length rs))%nat with (k + 1 + length rs)%nat by lia.
    split; [eapply runs_trans; eauto|]. split; [eapply outside_trans; eauto|].
    intros j Hj. rewrite V2, V1, S1 by exact Hj. cbn [rsum]. rewrite u32_add_l. f_equal. lia.
Qed.
End Bits.
End Run.

Lemma sets_do w : forall l m r (Q : mem -> Prop), (forall p, In p l -> writable w (fst p)) -> NoDup (map idx (map fst l)) ->
  (forall m2, outside (map fst l) m m2 -> (forall p, In p l -> get m2 (fst p) = u32 (snd p)) -> exists m3, acts_do (W_prot w) m2 r m3 /\ Q m3) ->
  exists m3, acts_do (W_prot w) m (map (fun p => SetM (fst p) SetTo (snd p)) l ++ r) m3 /\ Q m3.
Proof.
  induction l as [|p l IH]; intros m r Q HW HN H.
  - apply H; [intros b _; reflexivity|intros p []].
  - cbn [map] in HN. apply NoDup_cons_iff in HN as [N1 N2]. destruct (HW p (or_introl eq_refl)) as [W1 W2].
    destruct (IH (upd m (fst p) (do_mod SetTo (get m (fst p)) (u32 (snd p)))) r Q) as (m3 & A & B).
    + intros; apply HW; right; assumption.
    + exact N2.
    + intros m2 O E. apply H.
      * intros b Hb. cbn [map In] in Hb. rewrite O by tauto. apply get_upd_ne. intros X. apply Hb. left. exact X.
      * intros q [<-|Hq]; [|apply E, Hq]. rewrite (O (fst p) N1), get_upd_eq. cbn [do_mod]. apply u32_idem.
    + exists m3. split; [|exact B]. cbn [map app]. apply do_cons_M; auto.
Qed.

(* ================= whole readers ================= *)
Definition pristine (m : mem) (v : Z) : Prop := get m (vc v FMask) = 0xFFFFFFFF /\ get m (vc v FMod) = w6 SetTo.

Section Restore.
Variables (w : world) (T : nat -> Z) (k : nat) (K N x : Z).
Definition rcells1 : list Z := CPcell :: vcells K ++ [N].
Definition rcells0 : list Z := CPcell :: vcells K.
Hypothesis PK : W_P w (pa K) = Some (vtrig K).
Ltac len := cbn; lia.
Ltac rd1 := cbn [setn nth do_mod Nat.add].
Lemma restore1 m : (forall a, In a rcells1 -> writable w a) -> NoDup (map idx rcells1) ->
  placed w T k (f_setcurpl2cpcache T k K [SetM N SetTo x]) -> pristine m K ->
  exists m', runs w (lbl T k, m) (lbl T (k + 1), m') /\ others rcells1 m m' /\ get m' CPcell = get m (vc K FVal) /\
    get m' N = u32 x /\ pristine m' K /\ get m' (vc K FVal) = get m (vc K FVal).
Proof.
  intros Hwr Hnd Hp [Kk Km].
  assert (P : W_P w (lbl T k) = Some (RawTrig [] [SetM N SetTo x; SetDest K CPcell; SetNextPtr K (lbl T (k + 1))] (pa K))).
  { rewrite <- (Nat.add_0_r k) at 1. apply Hp. reflexivity. }
  unfold SetDest, SetNextPtr in P.
  assert (H0 : holds rcells1 m [get m CPcell; get m (vc K FNext); 0xFFFFFFFF; get m (vc K FDest); get m (vc K FVal); w6 SetTo; get m N]).
  { unfold holds, rcells1. cbn [map app vcells]. rewrite Kk, Km. reflexivity. }
  assert (St : exists st', Runs w rcells1 (lbl T k) [get m CPcell; get m (vc K FNext); 0xFFFFFFFF; get m (vc K FDest); get m (vc K FVal); w6 SetTo; get m N] (lbl T (k + 1)) st' /\
     map (fun i => nth i st' 0) [0; 2; 4; 5; 6]%nat = [get m (vc K FVal); 0xFFFFFFFF; get m (vc K FVal); w6 SetTo; u32 x]).
  { eexists. split.
    - eapply Runs_trans.
      { eapply Runs_raw; [exact P|apply u32_pa|].
        eapply (aM w rcells1 Hwr Hnd 6%nat); [len|reflexivity|rd1]. eapply (aM w rcells1 Hwr Hnd 3%nat); [len|reflexivity|rd1]. eapply (aM w rcells1 Hwr Hnd 1%nat); [len|reflexivity|rd1]. apply Acts_nil. }
      eapply (rHop w rcells1 Hwr Hnd 1 K 0 SetTo); [exact PK|len|len|reflexivity|reflexivity|reflexivity|reflexivity|lia|apply u32_lbl].
    - reflexivity. }
  destruct St as (st' & R & E). destruct (R m H0) as (m' & R1 & H1 & O). exists m'. split; [exact R1|]. split; [exact O|].
  unfold holds in H1. rewrite <- H1 in E. cbn [map nth rcells1 app vcells] in E. injection E as A1 A2 A3 A4 A5. unfold pristine. auto.
Qed.
Lemma restore0 m : (forall a, In a rcells0 -> writable w a) -> NoDup (map idx rcells0) ->
  placed w T k (f_setcurpl2cpcache T k K []) -> pristine m K ->
  exists m', runs w (lbl T k, m) (lbl T (k + 1), m') /\ others rcells0 m m' /\ get m' CPcell = get m (vc K FVal) /\
    pristine m' K /\ get m' (vc K FVal) = get m (vc K FVal).
Proof.
  intros Hwr Hnd Hp [Kk Km].
  assert (P : W_P w (lbl T k) = Some (RawTrig [] [SetDest K CPcell; SetNextPtr K (lbl T (k + 1))] (pa K))).
  { rewrite <- (Nat.add_0_r k) at 1. apply Hp. reflexivity. }
  unfold SetDest, SetNextPtr in P.
  assert (H0 : holds rcells0 m [get m CPcell; get m (vc K FNext); 0xFFFFFFFF; get m (vc K FDest); get m (vc K FVal); w6 SetTo]).
  { unfold holds, rcells0. cbn [map app vcells]. rewrite Kk, Km. reflexivity. }
  assert (St : exists st', Runs w rcells0 (lbl T k) [get m CPcell; get m (vc K FNext); 0xFFFFFFFF; get m (vc K FDest); get m (vc K FVal); w6 SetTo] (lbl T (k + 1)) st' /\
     map (fun i => nth i st' 0) [0; 2; 4; 5]%nat = [get m (vc K FVal); 0xFFFFFFFF; get m (vc K FVal); w6 SetTo]).
  { eexists. split.
    - eapply Runs_trans.
      { eapply Runs_raw; [exact P|apply u32_pa|].
        eapply (aM w rcells0 Hwr Hnd 3%nat); [len|reflexivity|rd1]. eapply (aM w rcells0 Hwr Hnd 1%nat); [len|reflexivity|rd1]. apply Acts_nil. }
      eapply (rHop w rcells0 Hwr Hnd 1 K 0 SetTo); [exact PK|len|len|reflexivity|reflexivity|reflexivity|reflexivity|lia|apply u32_lbl].
    - reflexivity. }
  destruct St as (st' & R & E). destruct (R m H0) as (m' & R1 & H1 & O). exists m'. split; [exact R1|]. split; [exact O|].
  unfold holds in H1. rewrite <- H1 in E. cbn [map nth rcells0 app vcells] in E. injection E as A1 A2 A3 A4. unfold pristine. auto.
Qed.
End Restore.

Lemma weigh_u32 v mask f : weigh v (u32 mask) f = weigh v mask f.
Proof.
  unfold weigh. assert (Q : forall n, (n <= 32)%nat -> sum_bits n v (u32 mask) f = sum_bits n v mask f); [|apply Q; lia].
  induction n as [|n IH]; intros Hn; [reflexivity|]. cbn [sum_bits]. rewrite IH by lia. rewrite u32_testbit by lia. reflexivity.
Qed.
Lemma NoDup_front {A} (l1 l2 : list A) : NoDup (l1 ++ l2) -> NoDup l1 /\ NoDup l2 /\ forall x, In x l1 -> ~ In x l2.
Proof.
  induction l1 as [|a l1 IH]; cbn [app]; intros H; [split; [constructor|]; split; [exact H|intros x []]|].
  apply NoDup_cons_iff in H as [N H]. destruct (IH H) as (A1 & A2 & A3). rewrite in_app_iff in N. split; [constructor; tauto|]. split; [exact A2|].
  intros x [<-|Hx]; [tauto|apply A3, Hx].
Qed.
Lemma bits_range mask b : In b (bits mask) -> 0 <= b < 2^32.
Proof.
  intros Hb. destruct (bits_spec mask) as (ks & E & _ & Hin). rewrite E in Hb. apply in_map_iff in Hb as (i & <- & Hi). apply Hin in Hi as [Hi _].
  split; [apply Z.pow_nonneg; lia|apply Z.pow_lt_mono_r; lia].
Qed.
Lemma NoDup_snoc {A} (l : list A) x : NoDup l -> ~ In x l -> NoDup (l ++ [x]).
Proof.
  induction l as [|y l IH]; cbn [app]; intros H N; [constructor; [intros []|constructor]|]. apply NoDup_cons_iff in H as [H1 H2]. cbn [In] in N.
  constructor; [rewrite in_app_iff; intros [Q|[Q|[]]]; [tauto|apply N; left; congruence]|apply IH; tauto].
Qed.
Lemma rows_ok_gen rets args l : length args = length rets -> (forall b, In b l -> 0 <= b < 2^32) ->
  Forall (row_ok rets) (filter used (map (fun b => (b, map (fun a : arg => snd a b) args)) l)).
Proof.
  intros HL Hl. apply Forall_forall. intros x Hx. apply filter_In in Hx as [Hx _]. apply in_map_iff in Hx as (b & <- & Hb).
  split; cbn [fst snd]; [apply Hl, Hb|rewrite map_length; exact HL].
Qed.
Lemma rows_ok rets mask args : length args = length rets -> Forall (row_ok rets) (filter used (rows mask args)).
Proof. intros HL. apply rows_ok_gen; [exact HL|apply bits_range]. Qed.
(* reading at the current player *)
Lemma cnd0_true m b : 0 <= b < 2^32 -> conds_are m [cnd0 b] (negb (Z.land (get m (get m CPcell)) b =? 0)).
Proof.
  intros Hb. pose proof (conds_cp m AtLeast 1 b) as C. rewrite (u32_small b) in C by lia. cbn [do_cmp] in C. change (u32 1) with 1 in C.
  replace (negb (Z.land (get m (get m CPcell)) b =? 0)) with (1 <=? Z.land (get m (get m CPcell)) b); [exact C|].
  assert (0 <= Z.land (get m (get m CPcell)) b) by (apply Z.land_nonneg; left; apply get_range). lia.
Qed.

Section Fill.
Variables (w : world) (T : nat -> Z) (rets : list Z) (mask : Z) (args : list arg).
Hypothesis HL : length args = length rets.
Hypothesis HW : forall a, In a rets -> writable w a.
Hypothesis HN : NoDup (map idx rets).
Hypothesis HC : ~ In (idx CPcell) (map idx rets).
Definition starts : list (Z * Z) := map (fun p : Z * arg => (fst p, fst (snd p))) (combine rets args).
Lemma starts_fst : map fst starts = rets.
Proof. unfold starts. rewrite map_map. cbn [fst]. clear HW HN HC. revert args HL. induction rets as [|r l IH]; intros [|a args'] H; try discriminate; [reflexivity|]. cbn [combine map fst]. f_equal. apply IH. cbn in H. lia. Qed.
Lemma in_starts j r a : nth_error rets j = Some r -> nth_error args j = Some a -> In (r, fst a) starts.
Proof.
  intros Hr Ha. unfold starts. apply in_map_iff. exists (r, a). split; [reflexivity|]. clear HL HW HN HC. revert j args Hr Ha. induction rets as [|x l IH]; intros [|j] [|y args'] Hr Ha; try discriminate.
  - injection Hr as ->. injection Ha as ->. left. reflexivity.
  - right. eapply IH; eauto.
Qed.
(* the bits, with the results at their start values *)
Lemma bodies_gen rs k m : Forall (row_ok rets) rs -> (forall v j a, nth_error args j = Some a -> rsum v rs j = weigh v mask (snd a)) ->
  placed w T k (seqtrigs T k (map (body cnd0 rets) rs)) -> ~ In (idx (get m CPcell)) (map idx rets) ->
  (forall j r a, nth_error rets j = Some r -> nth_error args j = Some a -> get m r = u32 (fst a)) ->
  exists m', runs w (lbl T k, m) (lbl T (k + length rs), m') /\ outside rets m m' /\
    forall j r a, nth_error rets j = Some r -> nth_error args j = Some a -> get m' r = u32 (fst a + weigh (get m (get m CPcell)) mask (snd a)).
Proof.
  intros Hok Hsum Hp Hs Hst.
  destruct (bits_run w T rets cnd0 (fun m => ~ In (idx (get m CPcell)) (map idx rets)) (fun m => get m (get m CPcell)) HW HN) with (rs := rs) (k := k) (m := m) as (m' & R & O & V).
  - intros m1 m2 O G. rewrite (O CPcell HC). split; [exact G|]. apply O, G.
  - intros m1 b _ Hb. apply cnd0_true, Hb.
  - exact Hp.
  - exact Hs.
  - exact Hok.
  - exists m'. split; [exact R|]. split; [exact O|]. intros j r a Hr Ha. assert (Lj : (j < length rets)%nat) by (apply nth_error_Some; congruence).
    specialize (V j Lj). rewrite (nth_error_nth _ _ 0 Hr) in V. rewrite V, (Hst j r a Hr Ha), (Hsum _ j a Ha), u32_add_l. reflexivity.
Qed.
Lemma rsum_rows' v j a : nth_error args j = Some a -> rsum v (filter used (rows mask args)) j = weigh v mask (snd a).
Proof. intros Ha. etransitivity; [exact (rsum_rows v mask args j a Ha)|apply weigh_u32]. Qed.
Lemma bodies_run k m : placed w T k (seqtrigs T k (bodies rets mask args)) -> ~ In (idx (get m CPcell)) (map idx rets) ->
  (forall j r a, nth_error rets j = Some r -> nth_error args j = Some a -> get m r = u32 (fst a)) ->
  exists m', runs w (lbl T k, m) (lbl T (k + length (bodies rets mask args)), m') /\ outside rets m m' /\
    forall j r a, nth_error rets j = Some r -> nth_error args j = Some a -> get m' r = u32 (fst a + weigh (get m (get m CPcell)) mask (snd a)).
Proof.
  unfold bodies. rewrite map_length. apply bodies_gen; [apply rows_ok, HL|exact rsum_rows'].
Qed.
Lemma starts_do m r (Q : mem -> Prop) :
  (forall m2, outside rets m m2 -> (forall j r a, nth_error rets j = Some r -> nth_error args j = Some a -> get m2 r = u32 (fst a)) -> exists m3, acts_do (W_prot w) m2 r m3 /\ Q m3) ->
  exists m3, acts_do (W_prot w) m (map (fun p => SetM (fst p) SetTo (fst (snd p))) (combine rets args) ++ r) m3 /\ Q m3.
Proof.
  intros H. replace (map (fun p => SetM (fst p) SetTo (fst (snd p))) (combine rets args)) with (map (fun p => SetM (fst p) SetTo (snd p)) starts) by (unfold starts; rewrite map_map; reflexivity).
  apply sets_do.
  - intros p Hp. apply HW. rewrite <- starts_fst. apply in_map, Hp.
  - rewrite starts_fst. exact HN.
  - rewrite starts_fst. intros m2 O E. apply H; [exact O|]. intros j x a Hr Ha. apply (E (x, fst a)). eapply in_starts; eauto.
Qed.
Lemma fill_run k m : W_P w (lbl T k) = Some (RawTrig [] (map (fun p => SetM (fst p) SetTo (fst (snd p))) (combine rets args)) (lbl T (k + 1))) ->
  placed w T (k + 1) (seqtrigs T (k + 1) (bodies rets mask args)) -> ~ In (idx (get m CPcell)) (map idx rets) ->
  exists m', runs w (lbl T k, m) (lbl T (k + 1 + length (bodies rets mask args)), m') /\ outside rets m m' /\
    forall j r a, nth_error rets j = Some r -> nth_error args j = Some a -> get m' r = u32 (fst a + weigh (get m (get m CPcell)) mask (snd a)).
Proof.
  intros P0 Pb Hs.
  destruct (starts_do m [] (fun m3 => outside rets m m3 /\ forall j r a, nth_error rets j = Some r -> nth_error args j = Some a -> get m3 r = u32 (fst a))) as (m1 & D & O1 & S1).
  { intros m2 O E. exists m2. split; [apply do_nil|auto]. }
  rewrite app_nil_r in D.
  destruct (bodies_run (k + 1) m1 Pb) as (m2 & R2 & O2 & V2).
  { rewrite (O1 CPcell HC). exact Hs. }
  { exact S1. }
  exists m2. split; [eapply runs_trans; [eapply run_true; [exact P0|reflexivity|apply conds_nil|exact D|apply u32_lbl]|exact R2]|].
  split; [eapply outside_trans; eauto|]. intros j r a Hr Ha. rewrite (V2 j r a Hr Ha). rewrite (O1 CPcell HC). rewrite (O1 (get m CPcell) Hs). reflexivity.
Qed.
End Fill.

Section Epd.
Variables (w : world) (T : nat -> Z) (K : Z) (rets : list Z) (mask : Z) (args : list arg) (k : nat) (empty : bool).
Definition ecells : list Z := rets ++ (if empty then rcells1 K (T k + 1) else rcells0 K).
Lemma reader_epd_gen bs : (~ In (idx CPcell) (map idx rets) -> forall k m, W_P w (lbl T k) = Some (RawTrig [] (map (fun p => SetM (fst p) SetTo (fst (snd p))) (combine rets args)) (lbl T (k + 1))) ->
  placed w T (k + 1) (seqtrigs T (k + 1) bs) -> ~ In (idx (get m CPcell)) (map idx rets) ->
  exists m', runs w (lbl T k, m) (lbl T (k + 1 + length bs), m') /\ outside rets m m' /\
    forall j r a, nth_error rets j = Some r -> nth_error args j = Some a -> get m' r = u32 (fst a + weigh (get m (get m CPcell)) mask (snd a))) -> forall m,
  let code := reader_epd_of T k K rets args empty bs in
  placed w T k code -> W_P w (pa K) = Some (vtrig K) ->
  length args = length rets ->
  (forall a, In a ecells -> writable w a) -> NoDup (map idx ecells) ->
  pristine m K -> (empty = true -> get m (T k + 1) = lbl T (k + 1)) ->
  ~ In (idx (get m CPcell)) (map idx rets) ->
  exists m', runs w (lbl T k, m) (lbl T (k + length code), m') /\
    (forall j r a, nth_error rets j = Some r -> nth_error args j = Some a -> get m' r = outcome empty (get m (get m CPcell)) mask a) /\
    get m' CPcell = get m (vc K FVal) /\ (empty = true -> get m' (T k + 1) = lbl T (k + 1)) /\
    pristine m' K /\ get m' (vc K FVal) = get m (vc K FVal) /\ outside ecells m m'.
Proof.
  intros FR m code Hp PK HL HW HN HK Hnp Hs. unfold code, reader_epd_of in Hp |- *. unfold ecells in HW, HN |- *. rewrite map_app in HN. apply NoDup_front in HN as (HN1 & HN2 & HN3).
  assert (HWr : forall a, In a rets -> writable w a) by (intros; apply HW, in_or_app; auto).
  assert (HW2 : forall a, In a (if empty then rcells1 K (T k + 1) else rcells0 K) -> writable w a) by (intros; apply HW, in_or_app; auto).
  set (v := get m (get m CPcell)) in *.
  assert (Rin : forall j r, nth_error rets j = Some r -> In (idx r) (map idx rets)) by (intros j r Hr; apply in_map; eapply nth_error_In; eauto).
  destruct empty.
  - (* with check *)
    assert (NC : forall c, In c (rcells1 K (T k + 1)) -> ~ In (idx c) (map idx rets)) by (intros c Hc Q; apply (HN3 (idx c) Q); apply in_map, Hc).
    assert (NCP := NC CPcell ltac:(cbn; tauto)). assert (NNP := NC (T k + 1) ltac:(cbn; tauto)).
    assert (NK : forall f, In (vc K f) (vcells K) -> ~ In (idx (vc K f)) (map idx rets)) by (intros f Hf; apply NC; unfold rcells1; cbn [app]; right; apply in_or_app; left; exact Hf).
    assert (KP : forall m1, outside rets m m1 -> pristine m1 K /\ get m1 (vc K FVal) = get m (vc K FVal)).
    { intros m1 O. unfold pristine. rewrite !O by (apply NK; cbn; tauto). split; [exact HK|reflexivity]. }
    cbn [app] in Hp. apply placed_cons in Hp as [P0 Hp]. replace (S k) with (k + 1)%nat in Hp by lia. apply placed_cons in Hp as [P1 Hp]. replace (S (k + 1)) with (k + 1 + 1)%nat in Hp by lia.
    apply placed_app in Hp as [P2 P3]. assert (SL : length (seqtrigs T (k + 1 + 1) bs) = length bs).
    { generalize (k + 1 + 1)%nat. clear. induction bs as [|[c a] l IH]; intros n; [reflexivity|]. cbn [seqtrigs length]. f_equal. apply IH. }
    rewrite SL in P3.
    assert (Mid : exists m1, runs w (lbl T k, m) (lbl T (k + 1 + 1 + length bs), m1) /\ outside (rets ++ [T k + 1]) m m1 /\
        (forall j r a, nth_error rets j = Some r -> nth_error args j = Some a -> get m1 r = outcome true v mask a) /\ pristine m1 K /\ get m1 (vc K FVal) = get m (vc K FVal)).
    { pose proof (conds_cpe m 0) as C. change (u32 0) with 0 in C. fold v in C. destruct (Z.eqb_spec v 0) as [V0|V0].
      - set (l := map (fun r => (r, 0)) rets ++ [(T k + 1, lbl T (k + 1 + 1 + length bs))]).
        assert (FE : map fst l = rets ++ [T k + 1]) by (unfold l; rewrite map_app, map_map; cbn [fst map]; rewrite map_id; reflexivity).
        destruct (sets_do w l m [] (fun m3 => outside (rets ++ [T k + 1]) m m3 /\ forall p, In p l -> get m3 (fst p) = u32 (snd p))) as (m1 & D & O & E).
        { intros p Hpp. assert (In (fst p) (rets ++ [T k + 1])) as Hi by (rewrite <- FE; apply in_map, Hpp). apply in_app_iff in Hi as [Hi|[<-|[]]]; [auto|apply HW2; cbn; tauto]. }
        { rewrite FE, map_app. cbn [map]. apply NoDup_snoc; assumption. }
        { intros m2 O E. exists m2. split; [apply do_nil|]. rewrite FE in O. auto. }
        assert (E1 := E (T k + 1, lbl T (k + 1 + 1 + length bs)) ltac:(unfold l; rewrite in_app_iff; right; left; reflexivity)). cbn [fst snd] in E1. rewrite u32_lbl in E1.
        exists m1. split.
        + eapply run_true; [exact P0|reflexivity|exact C| |cbn [rd]; exact E1]. rewrite app_nil_r in D. unfold l in D. rewrite map_app, map_map in D. exact D.
        + split; [exact O|]. split; [|].
          * intros j r a Hr Ha. assert (E2 := E (r, 0) ltac:(unfold l; rewrite in_app_iff; left; apply in_map_iff; exists r; split; [reflexivity|eapply nth_error_In; eauto])). cbn [fst snd] in E2. rewrite E2. unfold outcome. rewrite V0. reflexivity.
          * assert (NK2 : forall f, In (vc K f) (vcells K) -> get m1 (vc K f) = get m (vc K f)).
            { intros f Hf. apply O. rewrite map_app, in_app_iff. intros [Q|[Q|[]]]; [exact (NK f Hf Q)|].
              assert (HN2' := HN2). unfold rcells1 in HN2'. rewrite app_comm_cons, map_app in HN2'. apply NoDup_front in HN2' as (_ & _ & N4). apply (N4 (idx (vc K f))); [apply in_map; right; exact Hf|left; exact Q]. }
            unfold pristine. rewrite !NK2 by (cbn; tauto). split; [exact HK|reflexivity].
      - destruct (FR NCP (k + 1)%nat m P1 P2 Hs) as (m1 & R1 & O1 & V1). exists m1. destruct (KP m1 O1) as [K1 K2].
        split; [eapply runs_trans; [eapply run_false; [exact P0|reflexivity|exact C|cbn [rd]; apply Hnp; reflexivity]|exact R1]|].
        split; [eapply outside_more; [|exact O1]; intros x Hx; apply in_or_app; auto|]. split; [|split; assumption].
        intros j r a Hr Ha. rewrite (V1 j r a Hr Ha). fold v. unfold outcome. destruct (Z.eqb_spec v 0); [contradiction|reflexivity]. }
    destruct Mid as (m1 & R1 & O1 & V1 & K1 & K2).
    destruct (restore1 w T (k + 1 + 1 + length bs) K (T k + 1) (lbl T (k + 1)) PK m1 HW2 HN2 P3 K1) as (m2 & R2 & O2 & C2 & N2 & K3 & K4).
    exists m2. split.
    + eapply runs_trans; [exact R1|]. cbn [app length]. rewrite app_length, SL. replace (length (f_setcurpl2cpcache _ _ _ _)) with 1%nat by reflexivity. replace (k + S (S (length bs + 1)))%nat with (k + 1 + 1 + length bs + 1)%nat by lia. exact R2.
    + split; [|split; [congruence|split; [intros _; rewrite N2; apply u32_lbl|split; [exact K3|split; [congruence|]]]]].
      * intros j r a Hr Ha. rewrite O2; [apply V1 with (j := j); assumption|]. intros Q. exact (HN3 _ (Rin j r Hr) Q).
      * intros b Hb. rewrite map_app, in_app_iff in Hb. rewrite O2 by (intros X; apply Hb; right; exact X). apply O1. rewrite map_app, in_app_iff. intros [Q|[Q|[]]]; apply Hb; [left; exact Q|right; rewrite <- Q; apply in_map; unfold rcells1; rewrite app_comm_cons; apply in_or_app; right; left; reflexivity].
  - (* without *)
    assert (NC : forall c, In c (rcells0 K) -> ~ In (idx c) (map idx rets)) by (intros c Hc Q; apply (HN3 (idx c) Q); apply in_map, Hc).
    assert (NCP := NC CPcell ltac:(cbn; tauto)).
    cbn [app] in Hp. apply placed_cons in Hp as [P1 Hp]. replace (S k) with (k + 1)%nat in Hp by lia.
    apply placed_app in Hp as [P2 P3]. assert (SL : length (seqtrigs T (k + 1) bs) = length bs).
    { generalize (k + 1)%nat. clear. induction bs as [|[c a] l IH]; intros n; [reflexivity|]. cbn [seqtrigs length]. f_equal. apply IH. }
    rewrite SL in P3.
    destruct (FR NCP k m P1 P2 Hs) as (m1 & R1 & O1 & V1).
    assert (K1 : pristine m1 K /\ get m1 (vc K FVal) = get m (vc K FVal)).
    { unfold pristine. rewrite !O1 by (apply NC; cbn; tauto). split; [exact HK|reflexivity]. }
    destruct K1 as [K1 K2].
    destruct (restore0 w T (k + 1 + length bs) K 0 PK m1 HW2 HN2 P3 K1) as (m2 & R2 & O2 & C2 & K3 & K4).
    exists m2. split.
    + eapply runs_trans; [exact R1|]. cbn [app length]. rewrite app_length, SL. replace (length (f_setcurpl2cpcache _ _ _ _)) with 1%nat by reflexivity. replace (k + S (length bs + 1))%nat with (k + 1 + length bs + 1)%nat by lia. exact R2.
    + split; [|split; [congruence|split; [discriminate|split; [exact K3|split; [congruence|]]]]].
      * intros j r a Hr Ha. rewrite O2; [rewrite (V1 j r a Hr Ha); reflexivity|]. intros Q. exact (HN3 _ (Rin j r Hr) Q).
      * intros b Hb. rewrite map_app, in_app_iff in Hb. rewrite O2 by (intros X; apply Hb; right; exact X). apply O1. intros X; apply Hb; left; exact X.
Qed.
Lemma ecells_rets a : In a rets -> In a ecells.
Proof. intros H. apply in_or_app. auto. Qed.
Theorem C66_reader_epd : forall m,
  let code := reader_epd T k K rets mask args empty in
  placed w T k code -> W_P w (pa K) = Some (vtrig K) ->
  length args = length rets ->
  (forall a, In a ecells -> writable w a) -> NoDup (map idx ecells) ->
  pristine m K -> (empty = true -> get m (T k + 1) = lbl T (k + 1)) ->
  ~ In (idx (get m CPcell)) (map idx rets) ->
  exists m', runs w (lbl T k, m) (lbl T (k + length code), m') /\
    (forall j r a, nth_error rets j = Some r -> nth_error args j = Some a -> get m' r = outcome empty (get m (get m CPcell)) mask a) /\
    get m' CPcell = get m (vc K FVal) /\ (empty = true -> get m' (T k + 1) = lbl T (k + 1)) /\
    pristine m' K /\ get m' (vc K FVal) = get m (vc K FVal) /\ outside ecells m m'.
Proof.
  intros m code Hp PK HL HW HN. apply (reader_epd_gen (bodies rets mask args)); [|exact Hp|exact PK|exact HL|exact HW|exact HN].
  apply fill_run; [exact HL|intros a Ha; apply HW, ecells_rets, Ha|]. unfold ecells in HN. rewrite map_app in HN. apply (NoDup_front _ _ HN).
Qed.
End Epd.
Print Assumptions C66_reader_epd.

Section Cp.
Variables (w : world) (T : nat -> Z) (rets : list Z) (mask : Z) (args : list arg) (k : nat) (empty : bool).
Definition ccells : list Z := rets ++ (if empty then [T (k + 1)%nat + 1] else []).
Lemma reader_cp_gen bs :
  (forall k m, placed w T k (seqtrigs T k bs) -> ~ In (idx (get m CPcell)) (map idx rets) ->
    (forall j r a, nth_error rets j = Some r -> nth_error args j = Some a -> get m r = u32 (fst a)) ->
    exists m', runs w (lbl T k, m) (lbl T (k + length bs), m') /\ outside rets m m' /\
      forall j r a, nth_error rets j = Some r -> nth_error args j = Some a -> get m' r = u32 (fst a + weigh (get m (get m CPcell)) mask (snd a))) ->
  forall m, let code := reader_cp_of T k rets args empty bs in
  placed w T k code -> length args = length rets ->
  (forall a, In a ccells -> writable w a) -> NoDup (map idx ccells) -> ~ In (idx CPcell) (map idx ccells) ->
  ~ In (idx (get m CPcell)) (map idx ccells) ->
  exists m', runs w (lbl T k, m) (lbl T (k + length code), m') /\
    (forall j r a, nth_error rets j = Some r -> nth_error args j = Some a -> get m' r = outcome empty (get m (get m CPcell)) mask a) /\
    outside ccells m m'.
Proof.
  intros BR m code Hp HL HW HN HC Hs. unfold code, reader_cp_of in Hp |- *. unfold ccells in HW, HN, HC, Hs |- *. rewrite map_app in HN, HC, Hs. rewrite in_app_iff in HC, Hs. apply NoDup_front in HN as (HN1 & HN2 & HN3).
  assert (HWr : forall a, In a rets -> writable w a) by (intros; apply HW, in_or_app; auto).
  assert (SL : forall n, length (seqtrigs T n bs) = length bs).
  { clear. induction bs as [|[c a] l IH]; intros n; [reflexivity|]. cbn [seqtrigs length]. f_equal. apply IH. }
  assert (Rin : forall j r, nth_error rets j = Some r -> In (idx r) (map idx rets)) by (intros j r Hr; apply in_map; eapply nth_error_In; eauto).
  set (v := get m (get m CPcell)) in *.
  destruct empty.
  - set (N := T (k + 1)%nat + 1) in *.
    assert (NN : ~ In (idx N) (map idx rets)) by (intros Q; apply (HN3 _ Q); left; reflexivity).
    assert (WN : writable w N) by (apply HW, in_or_app; right; left; reflexivity).
    cbn [app] in Hp. apply placed_cons in Hp as [P0 Hp]. replace (S k) with (k + 1)%nat in Hp by lia. apply placed_cons in Hp as [P1 P2]. replace (S (k + 1)) with (k + 2)%nat in P2 by lia.
    destruct (starts_do w rets args HL HWr HN1 m [SetM N SetTo (lbl T (k + 2))]
      (fun m3 => outside (rets ++ [N]) m m3 /\ get m3 N = lbl T (k + 2) /\ forall j r a, nth_error rets j = Some r -> nth_error args j = Some a -> get m3 r = u32 (fst a))) as (m1 & D & O1 & N1 & S1).
    { intros m2 O E. exists (upd m2 N (do_mod SetTo (get m2 N) (u32 (lbl T (k + 2))))). destruct WN as [W1 W2]. split; [apply do_cons_M; auto; apply do_nil|]. split; [|split].
      - intros b Hb. rewrite map_app, in_app_iff in Hb. rewrite get_upd_ne by (intros Q; apply Hb; right; left; exact Q). apply O. tauto.
      - rewrite get_upd_eq. cbn [do_mod]. rewrite !u32_lbl. reflexivity.
      - intros j r a Hr Ha. rewrite get_upd_ne; [apply (E j r a Hr Ha)|]. intros Q. apply NN. rewrite Q. apply (Rin j r Hr). }
    assert (C1 : get m1 CPcell = get m CPcell) by (apply O1; rewrite map_app, in_app_iff; exact HC).
    assert (V1 : get m1 (get m1 CPcell) = v) by (rewrite C1; apply O1; rewrite map_app, in_app_iff; exact Hs).
    assert (R0 : runs w (lbl T k, m) (lbl T (k + 1), m1)) by (eapply run_true; [exact P0|reflexivity|apply conds_nil|exact D|apply u32_lbl]).
    cbn [app length]. rewrite SL. replace (k + S (S (length bs)))%nat with (k + 2 + length bs)%nat by lia.
    pose proof (conds_cpe m1 0) as C. change (u32 0) with 0 in C. rewrite V1 in C. destruct (Z.eqb_spec v 0) as [V0|V0].
    + set (zs := filter (fun p : Z * arg => negb (fst (snd p) =? 0)) (combine rets args)) in *.
      set (l := map (fun p : Z * arg => (fst p, 0)) zs ++ [(N, lbl T (k + 2 + length bs))]).
      assert (Zin : forall p, In p zs -> In (fst p) rets) by (intros [r a] Hq; apply filter_In in Hq as [Hq _]; apply in_combine_l in Hq; exact Hq).
      assert (Lin : forall p, In p l -> In (fst p) (rets ++ [N])).
      { intros p Hq. unfold l in Hq. apply in_app_iff in Hq as [Hq|[<-|[]]]; [|apply in_or_app; right; left; reflexivity]. apply in_map_iff in Hq as (q & <- & Hq). apply in_or_app. left. apply Zin, Hq. }
      assert (NDz : NoDup (map idx (map fst l))).
      { assert (FL : map fst l = map (fun x : Z * arg => fst x) zs ++ [N]) by (unfold l; rewrite map_app, map_map; reflexivity). rewrite FL, map_app.
        assert (A : NoDup (map idx (map (fun x : Z * arg => fst x) zs))).
        { unfold zs. clear - HN1. generalize args as al. induction rets as [|r rs IH]; intros al; [constructor|]. cbn [map] in HN1. apply NoDup_cons_iff in HN1 as [A B]. destruct al as [|a al]; [constructor|].
          cbn [combine filter]. destruct (negb _); [|apply IH, B]. cbn [map fst]. constructor; [|apply IH, B]. intros Q. apply A. apply in_map_iff in Q as (x & E & Hx). apply in_map_iff in Hx as ([p q] & <- & Hq). apply filter_In in Hq as [Hq _]. apply in_combine_l in Hq. rewrite <- E. apply in_map, Hq. }
        assert (B : ~ In (idx N) (map idx (map (fun x : Z * arg => fst x) zs))).
        { intros Q. apply NN. apply in_map_iff in Q as (x & E & Hx). apply in_map_iff in Hx as (q & <- & Hq). rewrite <- E. apply in_map, Zin, Hq. }
        apply NoDup_snoc; assumption. }
      destruct (sets_do w l m1 [] (fun m3 => outside (map fst l) m1 m3 /\ forall p, In p l -> get m3 (fst p) = u32 (snd p))) as (m2 & D2 & O2 & E2).
      { intros p Hq. apply Lin in Hq. apply HW. exact Hq. }
      { exact NDz. }
      { intros m2 O E. exists m2. split; [apply do_nil|auto]. }
      assert (N2 := E2 (N, lbl T (k + 2 + length bs)) ltac:(unfold l; rewrite in_app_iff; right; left; reflexivity)). cbn [fst snd] in N2. rewrite u32_lbl in N2.
      exists m2. split.
      * eapply runs_trans; [exact R0|]. eapply run_true; [exact P1|reflexivity|exact C| |cbn [rd]; exact N2].
        rewrite app_nil_r in D2. unfold l in D2. rewrite map_app, map_map in D2. exact D2.
      * split.
        -- intros j r a Hr Ha. unfold outcome. rewrite V0. cbn [andb Z.eqb]. destruct (Z.eqb_spec (fst a) 0) as [A0|A0].
           ++ rewrite O2; [rewrite (S1 j r a Hr Ha), A0; reflexivity|].
              unfold l. rewrite !map_app, map_map, in_app_iff. cbn [map fst In]. intros [Q|[Q|[]]]; [|apply NN; rewrite Q; apply (Rin j r Hr)].
              apply in_map_iff in Q as (x & E & Hx). apply in_map_iff in Hx as ([p q] & <- & Hq). cbn [fst] in E. apply filter_In in Hq as [Hq Hz]. cbn [snd] in Hz.
              assert (q = a); [|subst; rewrite A0 in Hz; discriminate].
              clear - HN1 Hr Ha Hq E. revert j Hr Ha Hq. generalize args as al. induction rets as [|y rs IH]; intros [|b al] [|j] Hr Ha Hq; try discriminate; cbn [map] in HN1; apply NoDup_cons_iff in HN1 as [A B].
              ** injection Hr as ->. injection Ha as ->. destruct Hq as [Hq|Hq]; [congruence|]. exfalso. apply A. apply in_combine_l in Hq. rewrite <- E. apply in_map, Hq.
              ** destruct Hq as [Hq|Hq]; [|eapply IH; eauto]. exfalso. injection Hq as -> ->. apply A. rewrite E. apply in_map. eapply nth_error_In; eauto.
           ++ assert (Q := E2 (r, 0)). cbn [fst snd] in Q. rewrite Q; [reflexivity|]. unfold l. apply in_or_app. left. apply in_map_iff. exists (r, a). split; [reflexivity|].
              apply filter_In. cbn [snd]. split; [|destruct (Z.eqb_spec (fst a) 0); [contradiction|reflexivity]].
              clear - Hr Ha. revert j Hr Ha. generalize args as al. induction rets as [|y rs IH]; intros [|b al] [|j] Hr Ha; try discriminate; [injection Hr as ->; injection Ha as ->; left; reflexivity|right; eapply IH; eauto].
        -- intros b Hb. rewrite O2; [apply O1, Hb|]. intros Q. apply Hb. apply in_map_iff in Q as (x & E & Hx). apply in_map_iff in Hx as (p & <- & Hq). rewrite <- E. apply in_map, Lin, Hq.
    + destruct (BR (k + 2)%nat m1 P2) as (m2 & R2 & O2 & E2).
      { rewrite C1. tauto. }
      { exact S1. }
      exists m2. split; [|split].
      * eapply runs_trans; [exact R0|]. eapply runs_trans; [|exact R2]. eapply run_false; [exact P1|reflexivity|exact C|cbn [rd]; exact N1].
      * intros j r a Hr Ha. rewrite (E2 j r a Hr Ha), V1. unfold outcome. destruct (Z.eqb_spec v 0); [contradiction|reflexivity].
      * intros b Hb. rewrite O2; [apply O1, Hb|]. intros Q. apply Hb. rewrite map_app, in_app_iff. left. exact Q.
  - cbn [app] in Hp. rewrite app_nil_r in Hp. apply placed_cons in Hp as [P0 P2]. replace (S k) with (k + 1)%nat in P2 by lia.
    destruct (starts_do w rets args HL HWr HN1 m []
      (fun m3 => outside rets m m3 /\ forall j r a, nth_error rets j = Some r -> nth_error args j = Some a -> get m3 r = u32 (fst a))) as (m1 & D & O1 & S1).
    { intros m2 O E. exists m2. split; [apply do_nil|auto]. }
    rewrite app_nil_r in D.
    assert (C1 : get m1 CPcell = get m CPcell) by (apply O1; tauto).
    assert (V1 : get m1 (get m1 CPcell) = v) by (rewrite C1; apply O1; tauto).
    destruct (BR (k + 1)%nat m1 P2) as (m2 & R2 & O2 & E2).
    { rewrite C1. tauto. }
    { exact S1. }
    cbn [app length]. rewrite SL. replace (k + S (length bs))%nat with (k + 1 + length bs)%nat by lia. exists m2. split; [|split].
    + eapply runs_trans; [|exact R2]. eapply run_true; [exact P0|reflexivity|apply conds_nil|exact D|apply u32_lbl].
    + intros j r a Hr Ha. rewrite (E2 j r a Hr Ha), V1. reflexivity.
    + rewrite app_nil_r. eapply outside_trans; eauto.
Qed.
Theorem C66_reader_cp : forall m,
  let code := reader_cp T k rets mask args empty in
  placed w T k code -> length args = length rets ->
  (forall a, In a ccells -> writable w a) -> NoDup (map idx ccells) -> ~ In (idx CPcell) (map idx ccells) ->
  ~ In (idx (get m CPcell)) (map idx ccells) ->
  exists m', runs w (lbl T k, m) (lbl T (k + length code), m') /\
    (forall j r a, nth_error rets j = Some r -> nth_error args j = Some a -> get m' r = outcome empty (get m (get m CPcell)) mask a) /\
    outside ccells m m'.
Proof.
  intros m code Hp HL HW HN HC. apply (reader_cp_gen (bodies rets mask args)); [|exact Hp|exact HL|exact HW|exact HN|exact HC].
  unfold ccells in HW, HN, HC. rewrite map_app in HN, HC. apply bodies_run; [exact HL| | |].
  - intros a Ha. apply HW, in_or_app. left. exact Ha.
  - apply (NoDup_front _ _ HN).
  - intros Q. apply HC. apply in_or_app. left. exact Q.
Qed.
End Cp.
Print Assumptions C66_reader_cp.

(* readerfunc of f_readgen_cp: the cell cpo further on, and the current player afterwards as before *)
Theorem C66_readerfunc_cp : forall w T rets mask args k empty cpo m,
  let code := readerfunc_cp T k rets mask args empty cpo in
  let cells := ccells T rets (if cpo =? 0 then k else (k + 1)%nat) empty in
  placed w T k code -> length args = length rets ->
  (forall a, In a (CPcell :: cells) -> writable w a) -> NoDup (map idx (CPcell :: cells)) ->
  ~ In (idx (get m CPcell + cpo)) (map idx (CPcell :: cells)) ->
  exists m', runs w (lbl T k, m) (lbl T (k + length code), m') /\
    (forall j r a, nth_error rets j = Some r -> nth_error args j = Some a -> get m' r = outcome empty (get m (get m CPcell + cpo)) mask a) /\
    outside cells m m'.
Proof.
  intros w T rets mask args k empty cpo m code cells Hp HL HW HN Hs. unfold code, readerfunc_cp in Hp |- *.
  cbn [map] in HN. apply NoDup_cons_iff in HN as [HC HN]. cbn [map In] in Hs.
  assert (WC : writable w CPcell) by (apply HW; left; reflexivity). assert (HWc : forall a, In a cells -> writable w a) by (intros a Ha; apply HW; right; exact Ha).
  unfold cells in *. destruct (Z.eqb_spec cpo 0) as [->|Hc].
  - cbn [app length] in Hp |- *. rewrite app_nil_r in Hp. rewrite Nat.add_0_r in *. rewrite Z.add_0_r in Hs |- *. rewrite app_nil_r.
    apply (C66_reader_cp w T rets mask args k empty m); auto.
  - cbn [app length] in Hp |- *. apply placed_cons in Hp as [P0 Hp]. replace (S k) with (k + 1)%nat in Hp by lia. apply placed_app in Hp as [P1 P2]. apply placed_one in P2.
    set (rdc := reader_cp T (k + 1) rets mask args empty) in *. destruct WC as [W1 W2].
    set (m0 := upd m CPcell (do_mod Add (get m CPcell) (u32 cpo))).
    assert (G0 : get m0 CPcell = u32 (get m CPcell + cpo)) by (unfold m0; rewrite get_upd_eq; cbn [do_mod]; rewrite u32_idem, u32_add_r; reflexivity).
    assert (S0 : get m0 (get m0 CPcell) = get m (get m CPcell + cpo)).
    { rewrite G0, get_u32. unfold m0. apply get_upd_ne. intros Q. apply Hs. left. exact Q. }
    destruct (C66_reader_cp w T rets mask args (k + 1) empty m0) as (m1 & R1 & V1 & O1); auto.
    { rewrite G0, idx_u32. tauto. }
    assert (G1 : get m1 CPcell = u32 (get m CPcell + cpo)) by (rewrite O1 by exact HC; exact G0).
    exists (upd m1 CPcell (do_mod Add (get m1 CPcell) (u32 (- cpo)))). split; [|split].
    + eapply runs_trans; [eapply run_true; [exact P0|reflexivity|apply conds_nil| |apply u32_lbl]; apply do_cons_M; auto; apply do_nil|].
      eapply runs_trans; [exact R1|]. rewrite app_length. cbn [length]. replace (k + S (length rdc + 1))%nat with (k + 1 + length rdc + 1)%nat by lia.
      eapply run_true; [exact P2|reflexivity|apply conds_nil| |apply u32_lbl]. apply do_cons_M; auto. apply do_nil.
    + intros j r a Hr Ha. rewrite get_upd_ne.
      * rewrite (V1 j r a Hr Ha), S0. reflexivity.
      * intros Q. apply HC. rewrite Q. apply in_map. unfold ccells. apply in_or_app. left. eapply nth_error_In; eauto.
    + intros b Hb. destruct (Z.eq_dec (idx CPcell) (idx b)) as [Q|Q].
      * rewrite (get_cong _ b CPcell) by auto. rewrite get_upd_eq, G1. cbn [do_mod]. rewrite u32_idem, u32_add_l, u32_add_r.
        rewrite (get_cong m b CPcell) by auto. replace (get m CPcell + cpo + - cpo) with (get m CPcell) by lia. apply u32_get.
      * rewrite get_upd_ne by exact Q. rewrite O1 by exact Hb. unfold m0. apply get_upd_ne. exact Q.
Qed.
Print Assumptions C66_readerfunc_cp.

(* ================= what the particular readers give ================= *)
Lemma land_block x lo hi : 0 <= lo <= hi -> Z.land x (2^hi - 2^lo) = x mod 2^hi - x mod 2^lo.
Proof.
  intros H. assert (E : 2^hi - 2^lo = Z.shiftl (Z.ones (hi - lo)) lo).
  { rewrite Z.shiftl_mul_pow2, Z.ones_equiv by lia. replace (2^hi) with (2^(hi - lo) * 2^lo) by (rewrite <- Z.pow_add_r by lia; f_equal; lia). lia. }
  rewrite E. assert (L : Z.land x (Z.shiftl (Z.ones (hi - lo)) lo) = Z.shiftl (Z.land (Z.shiftr x lo) (Z.ones (hi - lo))) lo).
  { apply Z.bits_inj'. intros n Hn. rewrite Z.land_spec. destruct (Z.lt_ge_cases n lo) as [G|G].
    - rewrite !Z.shiftl_spec_low by lia. apply andb_false_r.
    - rewrite !Z.shiftl_spec by lia. rewrite Z.land_spec, Z.shiftr_spec by lia. replace (n - lo + lo) with n by lia. reflexivity. }
  rewrite L, Z.shiftl_mul_pow2, Z.land_ones, Z.shiftr_div_pow2 by lia.
  replace (2^hi) with (2^lo * 2^(hi - lo)) by (rewrite <- Z.pow_add_r by lia; f_equal; lia).
  assert (0 < 2^lo) by (apply Z.pow_pos_nonneg; lia). assert (0 < 2^(hi - lo)) by (apply Z.pow_pos_nonneg; lia).
  rewrite Z.rem_mul_r by lia. lia.
Qed.
Definition results (empty : bool) (v mask : Z) (args : list arg) : list Z := map (outcome empty v mask) args.
Definition EPD (a : Z) : Z := (a - 0x58A364) / 4.

(* empty: no unit, no sprite *)
Theorem C66_empty : forall mask args, results true 0 mask args = map (fun _ => 0) args.
Proof. reflexivity. Qed.
Print Assumptions C66_empty.
Lemma cunit_land p : p mod 16 = 8 -> 0x400000 <= p < 0x800000 -> Z.land p cunit_mask + 0x400008 = p.
Proof. intros H1 H2. change cunit_mask with (2^22 - 2^4). rewrite land_block by lia. change (2^22) with 0x400000. change (2^4) with 16. lia. Qed.
Lemma cunit_outcomes p : p mod 16 = 8 -> 0x400000 <= p < 0x800000 ->
  results true p cunit_mask cunitread_args = [p] /\ results true p cunit_mask cunitepdread_args = [p; u32 (EPD p)] /\ results true p cunit_mask epdcunitread_args = [u32 (EPD p)].
Proof.
  intros H1 H2. pose proof (cunit_land p H1 H2) as L. assert (R : 0 <= p < 2^32) by lia.
  assert (A : outcome true p cunit_mask (0x400008, fun x => x) = p).
  { unfold outcome. destruct (Z.eqb_spec p 0); [lia|]. cbn [andb fst snd]. rewrite weigh_id by exact R. rewrite Z.add_comm, L. apply u32_small; lia. }
  assert (B : outcome true p cunit_mask (0x100002 - EPD0, fun y => y / 4) = u32 (EPD p)).
  { unfold outcome. destruct (Z.eqb_spec p 0); [lia|]. cbn [andb fst snd]. change 4 with (2^2) at 1. rewrite weigh_div by lia. f_equal. change (2^2) with 4. unfold EPD, EPD0. change (0x58A364 / 4) with 1452249. lia. }
  unfold results. cbn [map cunitread_args cunitepdread_args epdcunitread_args]. rewrite A, B. auto.
Qed.
(* unit number i of the 1700 *)
Theorem C66_cunit_readers : forall i, 0 <= i < 1700 ->
  let p := 0x59CCA8 + 336 * i in
  results true p cunit_mask cunitread_args = [p] /\ results true p cunit_mask cunitepdread_args = [p; EPD p] /\ results true p cunit_mask epdcunitread_args = [EPD p].
Proof.
  intros i Hi p. destruct (cunit_outcomes p) as (A & B & C); [unfold p; lia|unfold p; lia|].
  rewrite (u32_small (EPD p)) in B, C by (unfold EPD, p; lia). auto.
Qed.
Print Assumptions C66_cunit_readers.
Theorem C66_sprite_readers : forall i, 0 <= i < 2500 ->
  let p := 0x629D98 + 36 * i in
  results true p sprite_mask epdspriteread_args = [EPD p] /\ results true p sprite_mask spriteepdread_args = [p; EPD p].
Proof.
  intros i Hi p. assert (R : 0 <= p < 2^32) by (unfold p; lia).
  assert (L : Z.land p sprite_mask + 0x620000 = p).
  { change sprite_mask with (2^17 - 2^2). rewrite land_block by lia. change (2^17) with 0x20000. change (2^2) with 4. unfold p. lia. }
  assert (N : p <> 0) by (unfold p; lia).
  assert (A : outcome true p sprite_mask (0x620000, fun x => x) = p).
  { unfold outcome. destruct (Z.eqb_spec p 0); [contradiction|]. cbn [andb fst snd]. rewrite weigh_id by exact R. rewrite Z.add_comm, L. apply u32_small; lia. }
  assert (B : outcome true p sprite_mask (0x188000 - EPD0, fun y => y / 4) = EPD p).
  { unfold outcome. destruct (Z.eqb_spec p 0); [contradiction|]. cbn [andb fst snd]. change 4 with (2^2) at 1. rewrite weigh_div by lia. change (2^2) with 4.
    replace (0x188000 - EPD0 + Z.land p sprite_mask / 4) with (EPD p) by (unfold EPD, EPD0; change (0x58A364 / 4) with 1452249; lia). apply u32_small. unfold EPD, p. lia. }
  unfold results. cbn [map epdspriteread_args spriteepdread_args]. rewrite A, B. auto.
Qed.
Print Assumptions C66_sprite_readers.

(* positions on a map of w x h tiles (32 pixels each) *)
Lemma axis_ones n : 1 <= n <= 2048 -> exists b, axis_mask n = Z.ones b /\ 5 <= b <= 16 /\ 32 * n <= 2^b.
Proof.
  intros Hn. exists (bit_length (n - 1) + 5). unfold axis_mask. rewrite Z.ones_equiv. split; [lia|].
  unfold bit_length. destruct (Z.eqb_spec (n - 1) 0) as [E|E]; [split; [lia|]; change (2^(0 + 5)) with 32; lia|].
  assert (L := Z.log2_spec (n - 1) ltac:(lia)). assert (Z.log2 (n - 1) <= 10).
  { change 10 with (Z.log2 2047). apply Z.log2_le_mono. lia. }
  assert (0 <= Z.log2 (n - 1)) by apply Z.log2_nonneg. split; [lia|]. rewrite Z.pow_add_r by lia. change (2^5) with 32. replace (Z.log2 (n - 1) + 1) with (Z.succ (Z.log2 (n - 1))) by lia. lia.
Qed.
Theorem C66_posread : forall w h x y, 1 <= w <= 2048 -> 1 <= h <= 2048 -> 0 <= x < 32 * w -> 0 <= y < 32 * h ->
  results false (x + 65536 * y) (pos_mask w h) posread_args = [x; y].
Proof.
  intros w h x y Hw Hh Hx Hy. destruct (axis_ones w Hw) as (bw & Ew & Bw & Lw). destruct (axis_ones h Hh) as (bh & Eh & Bh & Lh).
  assert (Hx2 : x < 65536) by lia. assert (Hy2 : y < 65536) by lia. set (v := x + 65536 * y). assert (R : 0 <= v < 2^32) by (unfold v; lia).
  assert (Ow : 0 <= Z.ones bw < 65536) by (rewrite Z.ones_equiv; assert (2^bw <= 2^16) by (apply Z.pow_le_mono_r; lia); assert (0 < 2^bw) by (apply Z.pow_pos_nonneg; lia); lia).
  unfold results, posread_args, outcome. cbn [map andb fst snd]. unfold pos_mask. rewrite Ew, Eh. set (mk := Z.ones bw + 65536 * Z.ones bh).
  assert (A : weigh v mk (fun x0 => if x0 <=? 65535 then x0 else 0) = x).
  { transitivity (weigh v mk (fun x0 => if x0 <? 2^16 then x0 else 0)).
    - unfold weigh. apply sum_bits_ext. intros i Hi _. change (2^16) with 65536. destruct (Z.leb_spec (2^i) 65535), (Z.ltb_spec (2^i) 65536); lia.
    - rewrite weigh_low by lia. rewrite <- Z.land_ones by lia.
      replace (Z.land (Z.land v mk) (Z.ones 16)) with (Z.land (Z.land v (Z.ones 16)) (Z.land mk (Z.ones 16))).
      + rewrite !Z.land_ones by lia. change (2^16) with 65536. replace (v mod 65536) with x by (unfold v; lia). replace (mk mod 65536) with (Z.ones bw) by (unfold mk; lia).
        rewrite Z.land_ones by lia. apply Z.mod_small. lia.
      + apply Z.bits_inj'. intros i Hi. rewrite !Z.land_spec. destruct (Z.testbit v i), (Z.testbit mk i), (Z.testbit (Z.ones 16) i); reflexivity. }
  assert (B : weigh v mk (fun y0 => Z.shiftr y0 16) = y).
  { transitivity (weigh v mk (fun x0 => x0 / 2^16)).
    - unfold weigh. apply sum_bits_ext. intros i Hi _. apply Z.shiftr_div_pow2. lia.
    - rewrite weigh_div by lia. rewrite <- Z.shiftr_div_pow2 by lia. rewrite Z.shiftr_land. rewrite !Z.shiftr_div_pow2 by lia. change (2^16) with 65536.
      replace (v / 65536) with y by (unfold v; lia). replace (mk / 65536) with (Z.ones bh) by (unfold mk; lia). rewrite Z.land_ones by lia. apply Z.mod_small. lia. }
  rewrite A, B. rewrite !u32_small by lia. reflexivity.
Qed.
Print Assumptions C66_posread.

(* ================= the choice of the reader ================= *)
Lemma pow2_coef c : 0 < c -> Z.land c (c - 1) = 0 -> c = 2^Z.log2 c.
Proof.
  intros Hc H. set (n := Z.log2 c). assert (Hn : 0 <= n) by apply Z.log2_nonneg. assert (L := Z.log2_spec c Hc). fold n in L. replace (Z.succ n) with (n + 1) in L by lia. rewrite Z.pow_add_r in L by lia. change (2^1) with 2 in L.
  destruct (Z.eq_dec c (2^n)) as [E|E]; [exact E|exfalso].
  assert (Z.testbit (Z.land c (c - 1)) n = true); [|rewrite H, Z.bits_0 in *; discriminate].
  rewrite Z.land_spec. apply andb_true_iff. split; apply Z.testbit_true; auto; [rewrite <- (Z.div_unique c (2^n) 1 (c - 2^n)) by lia|rewrite <- (Z.div_unique (c - 1) (2^n) 1 (c - 1 - 2^n)) by lia]; reflexivity.
Qed.
Lemma all2_ok p : forall l f, all2 p l (map f l) = true -> forall b, In b l -> p b (f b) = true.
Proof. induction l as [|x l IH]; intros f H b Hb; [destruct Hb|]. cbn [map all2] in H. apply andb_true_iff in H as [H1 H2]. destruct Hb as [<-|Hb]; [exact H1|apply IH; assumption]. Qed.
Lemma in_bits mask i : 0 <= i < 32 -> Z.testbit mask i = true -> In (2^i) (bits mask).
Proof. intros Hi B. destruct (bits_spec mask) as (ks & E & _ & Hin). rewrite E. apply in_map_iff. exists i. split; [reflexivity|]. apply Hin. auto. Qed.
Lemma bits_nonempty mask : 0 < mask < 2^32 -> exists b l, bits mask = b :: l /\ 0 < b /\ (exists i, 0 <= i < 32 /\ b = 2^i).
Proof.
  intros H. assert (Hl : In (2^Z.log2 mask) (bits mask)).
  { apply in_bits; [split; [apply Z.log2_nonneg|apply Z.log2_lt_pow2; lia]|apply Z.bit_log2; lia]. }
  destruct (bits_spec mask) as (ks & E & _ & Hin). rewrite E in *. destruct ks as [|i ks]; [destruct Hl|]. exists (2^i), (map (fun k => 2^k) ks). split; [reflexivity|].
  assert (Hi := proj1 (Hin i) (or_introl eq_refl)). split; [apply Z.pow_pos_nonneg; lia|]. exists i. split; [lia|reflexivity].
Qed.
Lemma shift_pos x n : 0 <= n -> signed_shift x n = x * 2^n.
Proof. intros Hn. unfold signed_shift. destruct (Z.leb_spec 0 n); [apply Z.shiftl_mul_pow2; lia|lia]. Qed.
Lemma shift_neg x n : 0 <= n -> signed_shift x (- n) = x / 2^n.
Proof.
  intros Hn. unfold signed_shift. destruct (Z.leb_spec 0 (- n)).
  - assert (n = 0) by lia. subst. change (- 0) with 0. rewrite Z.shiftl_0_r. change (2^0) with 1. rewrite Z.div_1_r. reflexivity.
  - rewrite Z.opp_involutive. apply Z.shiftr_div_pow2. exact Hn.
Qed.
(* a reader is taken from the shared table only if the table gives the same *)
Lemma choose_table bs f b0 l sh : bs = b0 :: l -> 0 < b0 -> choose bs f = Table sh ->
  exists n, 0 <= n /\ ((sh = n /\ forall b, In b bs -> f b = b * 2^n) \/ (sh = - n /\ forall b, In b bs -> b = f b * 2^n)).
Proof.
  intros Eb Hb. subst bs. unfold choose. cbn [map hd tl]. cbv zeta. set (lsh := b0 <? f b0). set (coef := if lsh then f b0 / b0 else b0 / f b0).
  destruct (negb lsh && (f b0 =? 0)) eqn:HZ; [discriminate|].
  match goal with |- (if ?c then _ else _) = _ -> _ => destruct c eqn:H end; [|discriminate]. intros Q. assert (Esh : sh = if lsh then Z.log2 coef else - Z.log2 coef) by congruence. clear Q.
  apply andb_true_iff in H as [H H4]. apply andb_true_iff in H as [H H3]. apply andb_true_iff in H as [H1 H2]. apply Z.eqb_eq in H1, H2. apply negb_true_iff in H3. apply Z.eqb_neq in H3.
  assert (Hc : 0 < coef).
  { destruct (Z.lt_ge_cases 0 coef) as [|G]; [assumption|exfalso]. assert (coef < 0) by lia. assert (Z.land coef (coef - 1) < 0) by (apply Z.land_neg; lia). lia. }
  assert (Ec := pow2_coef coef Hc H2). exists (Z.log2 coef). split; [apply Z.log2_nonneg|]. rewrite <- Ec.
  assert (F : forall b, b0 = b \/ In b l -> if lsh then f b = b * coef else b = f b * coef).
  { intros b [<-|Hin].
    - clear Esh Ec H2 H3 H4 Hc. subst coef lsh. destruct (Z.ltb_spec b0 (f b0)) as [G|G].
      + pose proof (Z.div_mod (f b0) b0 ltac:(lia)) as Q. rewrite H1 in Q. lia.
      + cbn [negb andb] in HZ. apply Z.eqb_neq in HZ. pose proof (Z.div_mod b0 (f b0) HZ) as Q. rewrite H1 in Q. lia.
    - pose proof (all2_ok _ l f H4 b Hin) as Q. cbn beta in Q. destruct lsh; apply Z.eqb_eq in Q; lia. }
  clear HZ H1 H4. clearbody coef lsh. destruct lsh; [left|right]; auto.
Qed.
Lemma choose_raises bs f b0 l : bs = b0 :: l -> 0 < b0 -> (choose bs f = Raises <-> f (hd 0 bs) = 0).
Proof.
  intros -> Hb. unfold choose. cbn [map hd tl]. cbv zeta. split.
  - destruct (negb (b0 <? f b0) && (f b0 =? 0)) eqn:HZ; [|match goal with |- (if ?c then _ else _) = _ -> _ => destruct c; discriminate end].
    apply andb_true_iff in HZ as [_ HZ]. intros _. apply Z.eqb_eq, HZ.
  - intros ->. destruct (Z.ltb_spec b0 0); [lia|reflexivity].
Qed.
Lemma table_gen bs f b0 l sh mask v : bs = b0 :: l -> 0 < b0 -> choose bs f = Table sh ->
  (forall i, 0 <= i < 32 -> Z.testbit mask i = true -> In (2^i) bs) -> 0 <= v < 2^32 -> weigh v mask f = signed_shift (Z.land v mask) sh.
Proof.
  intros Eb Hb H Hin Hv. destruct (choose_table bs f b0 l sh Eb Hb H) as (n & Hn & [[-> Hf]|[-> Hf]]).
  - rewrite shift_pos by exact Hn. rewrite <- weigh_mul by exact Hv. unfold weigh. apply sum_bits_ext. intros i Hi B. apply Hf. apply Hin; [lia|exact B].
  - rewrite shift_neg by exact Hn. rewrite <- weigh_div by assumption. unfold weigh. apply sum_bits_ext. intros i Hi B.
    pose proof (Hf (2^i) (Hin i ltac:(lia) B)) as Q. rewrite Q at 2. symmetry. apply Z.div_mul.
    assert (CP : 0 < 2^n) by (apply Z.pow_pos_nonneg; lia). lia.
Qed.
Lemma readgen_single mask f : readgen mask [(0, f)] false = if u32 mask =? 0 then Raises else if negb (is_consecutive (u32 mask)) then Generic else choose (bits (u32 mask)) f.
Proof. reflexivity. Qed.
Lemma readgen_shape mask args empty : readgen mask args empty <> Generic -> empty = false /\ exists f, args = [(0, f)].
Proof.
  intros H. destruct empty; [exfalso; apply H; reflexivity|]. split; [reflexivity|]. destruct args as [|[z f] l]; [exfalso; apply H; reflexivity|].
  destruct z; [|exfalso; apply H; reflexivity|exfalso; apply H; reflexivity]. destruct l; [exists f; reflexivity|exfalso; apply H; reflexivity].
Qed.
Lemma three (a b : bool) (c r : choice) : (if a then Raises else if negb b then Generic else c) = r -> r <> Generic -> (a = true /\ r = Raises) \/ (a = false /\ b = true /\ c = r).
Proof. destruct a, b; cbn; intros; subst; auto; congruence. Qed.
Theorem C66_readgen_table : forall mask args empty sh, readgen mask args empty = Table sh ->
  empty = false /\ exists f, args = [(0, f)] /\ is_consecutive (u32 mask) = true /\ 0 < u32 mask /\
  forall v, 0 <= v < 2^32 -> weigh v mask f = signed_shift (Z.land v (u32 mask)) sh.
Proof.
  intros mask args empty sh H. destruct (readgen_shape mask args empty) as [-> [f ->]]; [rewrite H; discriminate|]. split; [reflexivity|]. exists f. split; [reflexivity|].
  rewrite readgen_single in H. destruct (three _ _ _ _ H ltac:(discriminate)) as [[_ Q]|(N0 & C & Hc)]; [discriminate Q|]. clear H. apply Z.eqb_neq in N0. split; [exact C|].
  assert (R := u32_range mask). split; [lia|]. intros v Hv. destruct (bits_nonempty (u32 mask) ltac:(lia)) as (b0 & l & Eb & Hb & _).
  rewrite <- (weigh_u32 v mask f). exact (table_gen (bits (u32 mask)) f b0 l sh (u32 mask) v Eb Hb Hc (in_bits (u32 mask)) Hv).
Qed.
Print Assumptions C66_readgen_table.
(* The generator itself fails exactly for an empty mask and for a function that
   is 0 on the lowest bit (division by zero, memifgen.py 113-116), although such
   a reader makes sense: 4-aligned pointers read as EPD differences, for instance. *)
Theorem C66_readgen_raises : forall mask args empty, readgen mask args empty = Raises <->
  empty = false /\ exists f, args = [(0, f)] /\ (u32 mask = 0 \/ is_consecutive (u32 mask) = true /\ f (hd 0 (bits (u32 mask))) = 0).
Proof.
  intros mask args empty. split.
  - intros H. destruct (readgen_shape mask args empty) as [-> [f ->]]; [rewrite H; discriminate|]. split; [reflexivity|]. exists f. split; [reflexivity|].
    rewrite readgen_single in H. destruct (three _ _ _ _ H ltac:(discriminate)) as [[Q _]|(N0 & C & Hc)]; [left; apply Z.eqb_eq, Q|]. clear H. apply Z.eqb_neq in N0. right. split; [exact C|].
    assert (R := u32_range mask). destruct (bits_nonempty (u32 mask) ltac:(lia)) as (b0 & l & Eb & Hb & _). exact (proj1 (choose_raises _ f b0 l Eb Hb) Hc).
  - intros [-> (f & -> & Q)]. rewrite readgen_single. destruct (Z.eqb_spec (u32 mask) 0) as [|N0]; [reflexivity|]. destruct Q as [Q|[C F]]; [contradiction|]. rewrite C. unfold negb.
    assert (R := u32_range mask). destruct (bits_nonempty (u32 mask) ltac:(lia)) as (b0 & l & Eb & Hb & _). exact (proj2 (choose_raises _ f b0 l Eb Hb) F).
Qed.
Print Assumptions C66_readgen_raises.
Theorem C66_readgen_total_refuted : ~ forall mask f, 0 < mask < 2^32 -> readgen mask [(0, f)] false <> Raises.
Proof. intros H. apply (H 0xFFFFFFFF (fun x => x / 4)); [lia|]. vm_compute. reflexivity. Qed.
Print Assumptions C66_readgen_total_refuted.

(* ================= f_dwepdread_epd, f_flagread_epd ================= *)
Definition dcells (K ptr epd : Z) : list Z := [ptr; epd] ++ rcells0 K.
Lemma seqtrigs_len T bs : forall n, length (seqtrigs T n bs) = length bs.
Proof. induction bs as [|[c a] l IH]; intros n; [reflexivity|]. cbn [seqtrigs length]. f_equal. apply IH. Qed.
Lemma weigh_def v mask f : sum_bits 32 v mask f = weigh v mask f.
Proof. unfold weigh. reflexivity. Qed.
Lemma dwepd_sum0 v : 0 <= v < 2^32 -> rsum v dwepd_rows 0 = v.
Proof.
  intros Hv. unfold dwepd_rows. rewrite (rsum_all v (fun i => [2^i; if 2 <=? i then 2^(i - 2) else 0]) 0 32 (Z.ones 32) (fun x => x)).
  - rewrite weigh_def. rewrite weigh_id by exact Hv. rewrite Z.land_ones by lia. apply Z.mod_small. exact Hv.
  - intros i Hi. rewrite Z.ones_spec_low by lia. reflexivity.
Qed.
Lemma dwepd_sum1 v : 0 <= v < 2^32 -> rsum v dwepd_rows 1 = v / 4.
Proof.
  intros Hv. unfold dwepd_rows. rewrite (rsum_all v (fun i => [2^i; if 2 <=? i then 2^(i - 2) else 0]) 1 32 (Z.ones 32) (fun x => x / 2^2)).
  - rewrite weigh_def. rewrite weigh_div by lia. rewrite Z.land_ones by lia. rewrite Z.mod_small by exact Hv. reflexivity.
  - intros i Hi. rewrite Z.ones_spec_low by lia. cbn [nth]. destruct (Z.leb_spec 2 i).
    + replace i with (i - 2 + 2) at 2 by lia. rewrite Z.pow_add_r by lia. rewrite Z.div_mul by lia. reflexivity.
    + assert (i = 0 \/ i = 1) as [-> | ->] by lia; reflexivity.
Qed.
Lemma dwepd_gen w T k K ptr epd u rs m : 0 <= u < 2^16 -> Forall (row_ok [ptr; epd]) rs ->
  placed w T k ([RawTrig [] [SetM ptr SetTo 0; SetM epd SetTo (- EPD0); SetM CPcell Add (- 12 * u)] (lbl T (k + 1))] ++
    seqtrigs T (k + 1) (map (body (cndu u) [ptr; epd]) rs) ++ f_setcurpl2cpcache T (k + 1 + length rs) K []) ->
  W_P w (pa K) = Some (vtrig K) ->
  (forall a, In a (dcells K ptr epd) -> writable w a) -> NoDup (map idx (dcells K ptr epd)) -> pristine m K ->
  ~ In (idx (get m CPcell)) (map idx [CPcell; ptr; epd]) ->
  exists m', runs w (lbl T k, m) (lbl T (k + 1 + length rs + 1), m') /\
    get m' ptr = u32 (rsum (get m (get m CPcell)) rs 0) /\ get m' epd = u32 (rsum (get m (get m CPcell)) rs 1 - EPD0) /\
    get m' CPcell = get m (vc K FVal) /\ pristine m' K /\ get m' (vc K FVal) = get m (vc K FVal) /\ outside (dcells K ptr epd) m m'.
Proof.
  intros Hu Hok Hp PK HW HN HK Hs. unfold dcells in *. rewrite map_app in HN. apply NoDup_front in HN as (HN1 & HN2 & HN3).
  assert (HWr : forall a, In a [ptr; epd] -> writable w a) by (intros; apply HW, in_or_app; auto).
  assert (HW2 : forall a, In a (rcells0 K) -> writable w a) by (intros; apply HW, in_or_app; auto).
  assert (NC : forall c, In c (rcells0 K) -> ~ In (idx c) (map idx [ptr; epd])) by (intros c Hc Q; apply (HN3 (idx c) Q); apply in_map, Hc).
  assert (NCP := NC CPcell ltac:(cbn; tauto)).
  cbn [app] in Hp. apply placed_cons in Hp as [P0 Hp]. replace (S k) with (k + 1)%nat in Hp by lia. apply placed_app in Hp as [P1 P2]. rewrite seqtrigs_len, map_length in P2.
  set (v := get m (get m CPcell)) in *.
  set (m1 := upd m ptr (do_mod SetTo (get m ptr) (u32 0))). set (m2 := upd m1 epd (do_mod SetTo (get m1 epd) (u32 (- EPD0)))).
  set (m3 := upd m2 CPcell (do_mod Add (get m2 CPcell) (u32 (- 12 * u)))).
  assert (Dpe : idx ptr <> idx epd) by (cbn [map] in HN1; apply NoDup_cons_iff in HN1 as [A _]; cbn [In] in A; intros Q; apply A; left; auto).
  cbn [map In] in NCP, Hs.
  assert (D1 : idx ptr <> idx CPcell) by tauto. assert (D2 : idx epd <> idx CPcell) by tauto.
  assert (G3 : get m3 CPcell = u32 (get m CPcell - 12 * u)).
  { unfold m3. rewrite get_upd_eq. cbn [do_mod]. rewrite u32_idem, u32_add_r. f_equal. unfold m2, m1. rewrite !get_upd_ne by assumption. lia. }
  assert (Fr : forall b, idx b <> idx ptr -> idx b <> idx epd -> idx b <> idx CPcell -> get m3 b = get m b).
  { intros b B1 B2 B3. unfold m3, m2, m1. rewrite !get_upd_ne by congruence. reflexivity. }
  assert (G1 : get m3 ptr = 0) by (unfold m3, m2, m1; rewrite !get_upd_ne by congruence; rewrite get_upd_eq; reflexivity).
  assert (G2 : get m3 epd = u32 (- EPD0)) by (unfold m3, m2; rewrite get_upd_ne by congruence; rewrite get_upd_eq; cbn [do_mod]; apply u32_idem).
  assert (Ci : idx (get m3 CPcell + 12 * u) = idx (get m CPcell)) by (rewrite G3; apply unit_idx).
  assert (S3 : get m3 (get m3 CPcell + 12 * u) = v) by (rewrite (get_cong m3 _ _ Ci); apply Fr; intros Q; apply Hs; auto).
  assert (R0 : runs w (lbl T k, m) (lbl T (k + 1), m3)).
  { eapply run_true; [exact P0|reflexivity|apply conds_nil| |apply u32_lbl].
    destruct (HWr ptr ltac:(cbn; tauto)), (HWr epd ltac:(cbn; tauto)), (HW2 CPcell ltac:(cbn; tauto)). apply do_cons_M; auto. fold m1. apply do_cons_M; auto. fold m2. apply do_cons_M; auto. fold m3. apply do_nil. }
  destruct (bits_run w T [ptr; epd] (cndu u) (fun m => ~ In (idx (get m CPcell + 12 * u)) (map idx [ptr; epd])) (fun m => get m (get m CPcell + 12 * u)) HWr HN1) with (rs := rs) (k := (k + 1)%nat) (m := m3) as (m4 & R4 & O4 & V4).
  - intros a b O G. rewrite (O CPcell NCP). split; [exact G|]. apply O, G.
  - intros a b _ Hb. pose proof (conds_cpu a AtLeast 1 u b Hu) as C. rewrite (u32_small b) in C by lia. cbn [do_cmp] in C. change (u32 1) with 1 in C. unfold cndu.
    replace (negb (Z.land (get a (get a CPcell + 12 * u)) b =? 0)) with (1 <=? Z.land (get a (get a CPcell + 12 * u)) b); [exact C|].
    assert (0 <= Z.land (get a (get a CPcell + 12 * u)) b) by (apply Z.land_nonneg; left; apply get_range). lia.
  - exact P1.
  - rewrite Ci. cbn [map In]. tauto.
  - exact Hok.
  - assert (V0 := V4 0%nat ltac:(cbn; lia)). assert (V1 := V4 1%nat ltac:(cbn; lia)). cbn [nth] in V0, V1. cbv beta in V0, V1. rewrite S3 in V0, V1. rewrite G1, Z.add_0_l in V0. rewrite G2, u32_add_l in V1.
    assert (K4 : forall f, In (vc K f) (vcells K) -> get m4 (vc K f) = get m (vc K f)).
    { intros f Hf. assert (Hin : In (vc K f) (rcells0 K)) by (right; exact Hf). rewrite O4 by (apply NC, Hin). assert (Q := NC _ Hin). cbn [map In] in Q. apply Fr; try (intros E; apply Q; rewrite E; tauto).
      intros E. unfold rcells0 in HN2. cbn [map] in HN2. apply NoDup_cons_iff in HN2 as [A _]. apply A. rewrite <- E. apply in_map, Hf. }
    assert (KP : pristine m4 K) by (unfold pristine; rewrite !K4 by (cbn; tauto); exact HK).
    destruct (restore0 w T (k + 1 + length rs) K 0 PK m4 HW2 HN2 P2 KP) as (m5 & R5 & O5 & C5 & K5 & F5).
    exists m5. split; [eapply runs_trans; [exact R0|eapply runs_trans; [exact R4|exact R5]]|].
    assert (Keep : forall r, In r [ptr; epd] -> get m5 r = get m4 r) by (intros r Hr; apply O5; intros Q; exact (HN3 _ (in_map idx _ _ Hr) Q)).
    rewrite !Keep by (cbn; tauto). split; [exact V0|]. split; [rewrite V1; f_equal; lia|]. split; [rewrite C5; apply K4; cbn; tauto|]. split; [exact K5|]. split; [rewrite F5; apply K4; cbn; tauto|].
    intros b Hb. rewrite map_app, in_app_iff in Hb. rewrite O5 by tauto. rewrite O4 by tauto. cbn [map In] in Hb. apply Fr; intros E; apply Hb; [left; left; auto|left; right; left; auto|right; rewrite E; left; reflexivity].
Qed.
Lemma dwepd_rows_ok : Forall (row_ok [0; 0]) dwepd_rows.
Proof.
  unfold dwepd_rows. apply Forall_forall. intros x Hx. apply in_map_iff in Hx as (i & <- & Hi). apply in_map_iff in Hi as (n & <- & Hn). apply in_seq in Hn.
  split; [|reflexivity]. cbn [fst]. split; [apply Z.pow_nonneg; lia|apply Z.pow_lt_mono_r; lia].
Qed.
(* both results, whatever the random unit number *)
Theorem C66_dwepdread : forall w T k K ptr epd u m, 0 <= u < 2^16 ->
  placed w T k (f_dwepdread_epd T k K ptr epd u) -> W_P w (pa K) = Some (vtrig K) ->
  (forall a, In a (dcells K ptr epd) -> writable w a) -> NoDup (map idx (dcells K ptr epd)) -> pristine m K ->
  ~ In (idx (get m CPcell)) (map idx [CPcell; ptr; epd]) ->
  let v := get m (get m CPcell) in
  exists m', runs w (lbl T k, m) (lbl T (k + 34), m') /\ get m' ptr = v /\ get m' epd = u32 (EPD v) /\
    get m' CPcell = get m (vc K FVal) /\ pristine m' K /\ get m' (vc K FVal) = get m (vc K FVal) /\ outside (dcells K ptr epd) m m'.
Proof.
  intros w T k K ptr epd u m Hu Hp PK HW HN HK Hs v. assert (R : 0 <= v < 2^32) by apply get_range.
  assert (L : length dwepd_rows = 32%nat) by reflexivity.
  destruct (dwepd_gen w T k K ptr epd u dwepd_rows m Hu dwepd_rows_ok) as (m' & R1 & V0 & V1 & Rest); auto.
  { rewrite L. replace (k + 1 + 32)%nat with (k + 33)%nat by lia. exact Hp. }
  fold v in V0, V1. rewrite (dwepd_sum0 v R) in V0. rewrite (dwepd_sum1 v R) in V1. rewrite L in R1. replace (k + 1 + 32 + 1)%nat with (k + 34)%nat in R1 by lia.
  exists m'. split; [exact R1|]. rewrite u32_small in V0 by exact R. split; [exact V0|]. split; [|exact Rest]. rewrite V1. f_equal. unfold EPD, EPD0. change (0x58A364 / 4) with 1452249. lia.
Qed.
Print Assumptions C66_dwepdread.
(* ---- f_flagread_epd ---- *)
Lemma flag_bit f i : 0 <= i -> Z.land f (2^i) = if Z.testbit f i then 2^i else 0.
Proof.
  intros Hi. apply Z.bits_inj'. intros n Hn. rewrite Z.land_spec, Z.pow2_bits_eqb by exact Hi. destruct (Z.eqb_spec i n) as [->|N].
  - destruct (Z.testbit f n); rewrite ?Z.pow2_bits_true by exact Hn; rewrite ?Z.bits_0; reflexivity.
  - rewrite andb_false_r. destruct (Z.testbit f i); [rewrite Z.pow2_bits_false by congruence|rewrite Z.bits_0]; reflexivity.
Qed.
Lemma sum_nonneg_zero l : Forall (fun x => 0 <= x) l -> 0 <= fold_right Z.add 0 l /\ (fold_right Z.add 0 l = 0 -> forall j, nth j l 0 = 0).
Proof.
  induction 1 as [|x l Hx Hl [IH1 IH2]]; [split; [cbn; lia|intros _ [|j]; reflexivity]|]. cbn [fold_right]. split; [lia|]. intros E j. destruct j; cbn [nth]; [lia|]. apply IH2. lia.
Qed.
Lemma flag_sum v flags j f : nth_error flags j = Some f -> 0 <= v < 2^32 ->
  rsum v (flag_used flags) j = Z.land v f.
Proof.
  intros Hj Hv. unfold flag_used. rewrite rsum_filter.
  - unfold flag_rows. set (h := fun i => map (fun f => Z.land f (2^i)) flags).
    rewrite (rsum_perm v _ (map (fun i => (2^i, h i)) (map Z.of_nat (seq 0 32))) j).
    + rewrite (rsum_all v h j 32 f (fun x => x)).
      * rewrite weigh_def. apply weigh_id, Hv.
      * intros i Hi. unfold h. rewrite <- flag_bit by lia. apply nth_error_nth. rewrite nth_error_map, Hj. reflexivity.
    + apply Permutation_map. change (map (fun i => 31 - Z.of_nat i) (seq 0 32)) with (rev (map Z.of_nat (seq 0 32))). apply Permutation_sym, Permutation_rev.
  - intros x Hx Px. apply in_map_iff in Hx as (i & <- & Hi). cbn [snd] in *. apply negb_false_iff, Z.eqb_eq in Px.
    refine (proj2 (sum_nonneg_zero _ _) Px j). apply Forall_forall. intros y Hy. apply in_map_iff in Hy as (q & <- & _). apply Z.land_nonneg. right. apply Z.pow_nonneg. lia.
Qed.
Definition fcells (K : Z) (rets : list Z) : list Z := rets ++ rcells0 K.
Lemma flag_gen w T k K rets rs m : Forall (row_ok rets) rs ->
  placed w T k ([RawTrig [] (map (fun r => SetM r SetTo 0) rets) (lbl T (k + 1))] ++
    seqtrigs T (k + 1) (map (body cnd0 rets) rs) ++ f_setcurpl2cpcache T (k + 1 + length rs) K []) ->
  W_P w (pa K) = Some (vtrig K) ->
  (forall a, In a (fcells K rets) -> writable w a) -> NoDup (map idx (fcells K rets)) -> pristine m K ->
  ~ In (idx (get m CPcell)) (map idx rets) ->
  exists m', runs w (lbl T k, m) (lbl T (k + 1 + length rs + 1), m') /\
    (forall j r, nth_error rets j = Some r -> get m' r = u32 (rsum (get m (get m CPcell)) rs j)) /\
    get m' CPcell = get m (vc K FVal) /\ pristine m' K /\ get m' (vc K FVal) = get m (vc K FVal) /\ outside (fcells K rets) m m'.
Proof.
  intros Hok Hp PK HW HN HK Hs. unfold fcells in *. rewrite map_app in HN. apply NoDup_front in HN as (HN1 & HN2 & HN3).
  assert (HWr : forall a, In a rets -> writable w a) by (intros; apply HW, in_or_app; auto).
  assert (HW2 : forall a, In a (rcells0 K) -> writable w a) by (intros; apply HW, in_or_app; auto).
  assert (NC : forall c, In c (rcells0 K) -> ~ In (idx c) (map idx rets)) by (intros c Hc Q; apply (HN3 (idx c) Q); apply in_map, Hc).
  assert (NCP := NC CPcell ltac:(cbn; tauto)).
  cbn [app] in Hp. apply placed_cons in Hp as [P0 Hp]. replace (S k) with (k + 1)%nat in Hp by lia. apply placed_app in Hp as [P1 P2]. rewrite seqtrigs_len, map_length in P2.
  assert (EF : map fst (map (fun r : Z => (r, 0)) rets) = rets) by (rewrite map_map; apply map_id).
  destruct (sets_do w (map (fun r => (r, 0)) rets) m [] (fun m1 => outside rets m m1 /\ forall r, In r rets -> get m1 r = 0)) as (m1 & D & O1 & Z1).
  - intros p Hp'. apply in_map_iff in Hp' as (r & <- & Hr). apply HWr, Hr.
  - rewrite EF. exact HN1.
  - rewrite EF. intros m2 O E. exists m2. split; [apply do_nil|]. split; [exact O|]. intros r Hr. exact (E (r, 0) (in_map (fun r => (r, 0)) _ _ Hr)).
  - rewrite app_nil_r, map_map in D. cbn [fst snd] in D.
    assert (R1 : runs w (lbl T k, m) (lbl T (k + 1), m1)) by (eapply run_true; [exact P0|reflexivity|apply conds_nil|exact D|apply u32_lbl]).
    assert (C1 : get m1 CPcell = get m CPcell) by (apply O1, NCP). assert (S1 : get m1 (get m1 CPcell) = get m (get m CPcell)) by (rewrite C1; apply O1, Hs).
    destruct (bits_run w T rets cnd0 (fun m => ~ In (idx (get m CPcell)) (map idx rets)) (fun m => get m (get m CPcell)) HWr HN1) with (rs := rs) (k := (k + 1)%nat) (m := m1) as (m4 & R4 & O4 & V4).
    + intros a b O G. rewrite (O CPcell NCP). split; [exact G|]. apply O, G.
    + intros a b _ Hb. apply cnd0_true, Hb.
    + exact P1.
    + rewrite C1. exact Hs.
    + exact Hok.
    + cbv beta in V4. rewrite S1 in V4.
      assert (K4 : forall f, In (vc K f) (vcells K) -> get m4 (vc K f) = get m (vc K f)).
      { intros f Hf. assert (Hin : In (vc K f) (rcells0 K)) by (right; exact Hf). rewrite O4 by (apply NC, Hin). apply O1, NC, Hin. }
      assert (KP : pristine m4 K) by (unfold pristine; rewrite !K4 by (cbn; tauto); exact HK).
      destruct (restore0 w T (k + 1 + length rs) K 0 PK m4 HW2 HN2 P2 KP) as (m5 & R5 & O5 & C5 & K5 & F5).
      exists m5. split; [eapply runs_trans; [exact R1|eapply runs_trans; [exact R4|exact R5]]|].
      split; [|split; [rewrite C5; apply K4; cbn; tauto|split; [exact K5|split; [rewrite F5; apply K4; cbn; tauto|]]]].
      * intros j r Hr. assert (Ir := nth_error_In _ _ Hr). rewrite O5 by (intros Q; exact (HN3 _ (in_map idx _ _ Ir) Q)).
        assert (Lj : (j < length rets)%nat) by (apply nth_error_Some; congruence). rewrite <- (nth_error_nth _ _ 0 Hr). rewrite V4 by exact Lj. rewrite (nth_error_nth _ _ 0 Hr), Z1 by exact Ir. reflexivity.
      * intros b Hb. rewrite map_app, in_app_iff in Hb. rewrite O5 by tauto. rewrite O4 by tauto. apply O1. tauto.
Qed.
Lemma filter_ok (p : row -> bool) rets rs : Forall (row_ok rets) rs -> Forall (row_ok rets) (filter p rs).
Proof. intros H. apply Forall_forall. intros x Hx. apply filter_In in Hx as [Hx _]. rewrite Forall_forall in H. apply H, Hx. Qed.
Lemma pow_rows_ok rets (h : Z -> list Z) ks : (forall i, length (h i) = length rets) -> Forall (fun i => 0 <= i < 32) ks -> Forall (row_ok rets) (map (fun i => (2^i, h i)) ks).
Proof.
  intros L H. apply Forall_forall. intros x Hx. apply in_map_iff in Hx as (i & <- & Hi). rewrite Forall_forall in H. specialize (H i Hi).
  split; cbn [fst snd]; [split; [apply Z.pow_nonneg; lia|apply Z.pow_lt_mono_r; lia]|apply L].
Qed.
Lemma flag_rows_ok rets flags : length flags = length rets -> Forall (row_ok rets) (flag_used flags).
Proof.
  intros L. unfold flag_used. apply filter_ok. unfold flag_rows. apply (pow_rows_ok rets (fun i => map (fun f => Z.land f (2^i)) flags)).
  - intros i. rewrite map_length. exact L.
  - apply Forall_forall. intros i Hi. apply in_map_iff in Hi as (n & <- & Hn). apply in_seq in Hn. lia.
Qed.
Theorem C66_flagread : forall w T k K rets flags m, length flags = length rets ->
  let code := f_flagread_epd T k K rets flags in
  placed w T k code -> W_P w (pa K) = Some (vtrig K) ->
  (forall a, In a (fcells K rets) -> writable w a) -> NoDup (map idx (fcells K rets)) -> pristine m K ->
  ~ In (idx (get m CPcell)) (map idx rets) ->
  exists m', runs w (lbl T k, m) (lbl T (k + length code), m') /\
    (forall j r f, nth_error rets j = Some r -> nth_error flags j = Some f -> get m' r = Z.land (get m (get m CPcell)) f) /\
    get m' CPcell = get m (vc K FVal) /\ pristine m' K /\ get m' (vc K FVal) = get m (vc K FVal) /\ outside (fcells K rets) m m'.
Proof.
  intros w T k K rets flags m HL code Hp PK HW HN HK Hs. unfold code, f_flagread_epd in *. clear code. cbv zeta in Hp |- *.
  assert (Hok := flag_rows_ok rets flags HL). assert (Sum := flag_sum (get m (get m CPcell)) flags).
  set (rs := flag_used flags) in *. clearbody rs. rewrite map_length in Hp.
  destruct (flag_gen w T k K rets rs m Hok Hp PK HW HN HK Hs) as (m' & R & V & Rest). exists m'. split; [|split; [|exact Rest]].
  - rewrite !app_length, seqtrigs_len, !map_length. cbn [length]. match goal with |- runs _ _ (lbl _ ?n, _) => replace n with (k + 1 + length rs + 1)%nat end; [exact R|]. change (length (f_setcurpl2cpcache T (k + 1 + length rs) K [])) with 1%nat. lia.
  - intros j r f Hr Hf. rewrite (V j r Hr). assert (G := get_range m (get m CPcell)). rewrite (Sum j f Hf G). apply u32_small.
    split; [apply Z.land_nonneg; lia|]. rewrite <- (Z.mod_small _ _ G) at 1. rewrite <- Z.land_ones by lia. rewrite <- Z.land_assoc, (Z.land_comm (Z.ones 32)), Z.land_assoc, Z.land_ones by lia. apply Z.mod_pos_bound. lia.
Qed.
Print Assumptions C66_flagread.

(* ================= concrete cases ================= *)
From Verif Require Import VbufModel VbufWorld ExWorld ExTools.
From Verif Require PropLoc.
Definition rgm (v : Z) : mem := upd (upd (upd (exmem 1 [3]) CPcell 300000) 300000 v) (exT 0 + 1) (lbl exT 1).
Definition rg_unit : Z := 0x59CCA8 + 336 * 7.
Definition rg_code : list trig := reader_epd exT 0 (PropLoc.lv 0) [200000; 200001] cunit_mask cunitepdread_args true.
Definition rg_end : nat := Eval vm_compute in length rg_code.
Example C66_unit_example : exists m', runs (exworld 1 rg_code) (lbl exT 0, rgm rg_unit) (lbl exT rg_end, m') /\
  get m' 200000 = rg_unit /\ get m' 200001 = EPD rg_unit /\ get m' CPcell = 3.
Proof.
  destruct (C66_reader_epd (exworld 1 rg_code) exT (PropLoc.lv 0) [200000; 200001] cunit_mask cunitepdread_args 0 true (rgm rg_unit)) as (m' & R & E & F & _).
  - apply exworld_placed; vm_compute; reflexivity.
  - apply (wo_prog _ (exworld_ok 1 rg_code eq_refl)). vm_compute. auto.
  - reflexivity.
  - apply PropLoc.exw_all; vm_compute; reflexivity.
  - apply PropLoc.ndb_ok; vm_compute; reflexivity.
  - split; vm_compute; reflexivity.
  - intros _. vm_compute. reflexivity.
  - vm_compute. intuition discriminate.
  - exists m'. split; [exact R|]. split; [|split].
    + rewrite (E 0%nat 200000 _ eq_refl eq_refl). vm_compute. reflexivity.
    + rewrite (E 1%nat 200001 _ eq_refl eq_refl). vm_compute. reflexivity.
    + rewrite F. vm_compute. reflexivity.
Qed.
Example C66_no_unit_example : exists m', runs (exworld 1 rg_code) (lbl exT 0, rgm 0) (lbl exT rg_end, m') /\
  get m' 200000 = 0 /\ get m' 200001 = 0 /\ get m' CPcell = 3.
Proof.
  destruct (C66_reader_epd (exworld 1 rg_code) exT (PropLoc.lv 0) [200000; 200001] cunit_mask cunitepdread_args 0 true (rgm 0)) as (m' & R & E & F & _).
  - apply exworld_placed; vm_compute; reflexivity.
  - apply (wo_prog _ (exworld_ok 1 rg_code eq_refl)). vm_compute. auto.
  - reflexivity.
  - apply PropLoc.exw_all; vm_compute; reflexivity.
  - apply PropLoc.ndb_ok; vm_compute; reflexivity.
  - split; vm_compute; reflexivity.
  - intros _. vm_compute. reflexivity.
  - vm_compute. intuition discriminate.
  - exists m'. split; [exact R|]. split; [|split].
    + rewrite (E 0%nat 200000 _ eq_refl eq_refl). vm_compute. reflexivity.
    + rewrite (E 1%nat 200001 _ eq_refl eq_refl). vm_compute. reflexivity.
    + rewrite F. vm_compute. reflexivity.
Qed.
(* the position of a unit on a 128x96 map, 10 dwords above the current player *)
Definition rp_code : list trig := readerfunc_cp exT 0 [200000; 200001] (pos_mask 128 96) posread_args false 10.
Definition rp_end : nat := Eval vm_compute in length rp_code.
Definition rpm : mem := upd (upd (exmem 1 [3]) CPcell 300000) 300010 (1000 + 65536 * 2000).
Example C66_pos_example : exists m', runs (exworld 1 rp_code) (lbl exT 0, rpm) (lbl exT rp_end, m') /\
  get m' 200000 = 1000 /\ get m' 200001 = 2000 /\ get m' CPcell = 300000.
Proof.
  destruct (C66_readerfunc_cp (exworld 1 rp_code) exT [200000; 200001] (pos_mask 128 96) posread_args 0 false 10 rpm) as (m' & R & E & O).
  - apply exworld_placed; vm_compute; reflexivity.
  - reflexivity.
  - apply PropLoc.exw_all; vm_compute; reflexivity.
  - apply PropLoc.ndb_ok; vm_compute; reflexivity.
  - vm_compute. intuition discriminate.
  - exists m'. split; [exact R|]. split; [|split].
    + rewrite (E 0%nat 200000 _ eq_refl eq_refl). vm_compute. reflexivity.
    + rewrite (E 1%nat 200001 _ eq_refl eq_refl). vm_compute. reflexivity.
    + rewrite O; [vm_compute; reflexivity|vm_compute; intuition discriminate].
Qed.
Definition rd_code : list trig := f_dwepdread_epd exT 0 (PropLoc.lv 0) 200000 200001 777.
Example C66_dwepd_example : exists m', runs (exworld 1 rd_code) (lbl exT 0, rgm 0x59CCA9) (lbl exT 34, m') /\
  get m' 200000 = 0x59CCA9 /\ get m' 200001 = 0x4A51 /\ get m' CPcell = 3.
Proof.
  destruct (C66_dwepdread (exworld 1 rd_code) exT 0 (PropLoc.lv 0) 200000 200001 777 (rgm 0x59CCA9)) as (m' & R & E1 & E2 & F & _).
  - lia.
  - apply exworld_placed; vm_compute; reflexivity.
  - apply (wo_prog _ (exworld_ok 1 rd_code eq_refl)). vm_compute. auto.
  - apply PropLoc.exw_all; vm_compute; reflexivity.
  - apply PropLoc.ndb_ok; vm_compute; reflexivity.
  - split; vm_compute; reflexivity.
  - vm_compute. intuition discriminate.
  - exists m'. split; [exact R|]. rewrite E1, E2, F. vm_compute. auto.
Qed.
Definition rf_code : list trig := f_flagread_epd exT 0 (PropLoc.lv 0) [200000; 200001] [0x11; 0x80000001].
Definition rf_end : nat := Eval vm_compute in length rf_code.
Example C66_flag_example : exists m', runs (exworld 1 rf_code) (lbl exT 0, rgm 0x80000010) (lbl exT rf_end, m') /\
  get m' 200000 = 0x10 /\ get m' 200001 = 0x80000000 /\ get m' CPcell = 3.
Proof.
  destruct (C66_flagread (exworld 1 rf_code) exT 0 (PropLoc.lv 0) [200000; 200001] [0x11; 0x80000001] (rgm 0x80000010)) as (m' & R & E & F & _).
  - reflexivity.
  - apply exworld_placed; vm_compute; reflexivity.
  - apply (wo_prog _ (exworld_ok 1 rf_code eq_refl)). vm_compute. auto.
  - apply PropLoc.exw_all; vm_compute; reflexivity.
  - apply PropLoc.ndb_ok; vm_compute; reflexivity.
  - split; vm_compute; reflexivity.
  - vm_compute. intuition discriminate.
  - exists m'. split; [exact R|]. rewrite (E 0%nat 200000 _ eq_refl eq_refl), (E 1%nat 200001 _ eq_refl eq_refl), F. vm_compute. auto.
Qed.
(* which reader: x -> x >> 4 on 0xFF0 comes from the table, the unit pointers do not *)
Example C66_choice_example : readgen 0xFF0 [(0, fun x => x / 16)] false = Table (-4) /\ readgen 0xFF0 [(0, fun x => 4 * x)] false = Table 2 /\
  readgen cunit_mask cunitread_args true = Generic /\ readgen 0xFF0 [(0, fun x => 3 * x)] false = Generic.
Proof. vm_compute. auto. Qed.
