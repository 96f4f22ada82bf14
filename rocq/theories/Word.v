(* 32-bit words as integers in [0, 2^32): arithmetic and bit lemmas. *)
From Coq Require Import ZArith Lia Bool List.
Open Scope Z_scope.

Definition u32 (x : Z) : Z := x mod 2^32.

Lemma u32_range x : 0 <= u32 x < 2^32.
Proof. apply Z.mod_pos_bound. lia. Qed.

Lemma u32_small x : 0 <= x < 2^32 -> u32 x = x.
Proof. apply Z.mod_small. Qed.

Lemma u32_idem x : u32 (u32 x) = u32 x.
Proof. apply Z.mod_mod. lia. Qed.

Lemma u32_add_l x y : u32 (u32 x + y) = u32 (x + y).
Proof. unfold u32. apply Z.add_mod_idemp_l. lia. Qed.
Lemma u32_add_r x y : u32 (x + u32 y) = u32 (x + y).
Proof. unfold u32. apply Z.add_mod_idemp_r. lia. Qed.
Lemma u32_sub_l x y : u32 (u32 x - y) = u32 (x - y).
Proof. unfold u32. apply Zminus_mod_idemp_l. Qed.
Lemma u32_sub_r x y : u32 (x - u32 y) = u32 (x - y).
Proof. unfold u32. apply Zminus_mod_idemp_r. Qed.
Lemma u32_mul_l x y : u32 (u32 x * y) = u32 (x * y).
Proof. unfold u32. apply Z.mul_mod_idemp_l. lia. Qed.
Lemma u32_mul_r x y : u32 (x * u32 y) = u32 (x * y).
Proof. unfold u32. apply Z.mul_mod_idemp_r. lia. Qed.

(* x and y agree modulo 2^32 iff they differ by a multiple *)
Lemma u32_eq x y k : x = y + k * 2^32 -> u32 x = u32 y.
Proof. intros ->. unfold u32. apply Z.mod_add. lia. Qed.

Lemma u32_eq_inv x y : u32 x = u32 y -> exists k, x = y + k * 2^32.
Proof.
  unfold u32. intros H. exists (x / 2^32 - y / 2^32).
  pose proof (Z.div_mod x (2^32) ltac:(lia)). pose proof (Z.div_mod y (2^32) ltac:(lia)). lia.
Qed.

Ltac u32norm :=
  repeat first [rewrite u32_idem | rewrite u32_add_l | rewrite u32_add_r | rewrite u32_sub_l
               | rewrite u32_sub_r | rewrite u32_mul_l | rewrite u32_mul_r].

Lemma land_ones32 x : Z.land x (Z.ones 32) = u32 x.
Proof. rewrite Z.land_ones by lia. reflexivity. Qed.

Lemma bounded_bits n x : 0 <= n -> 0 <= x < 2^n -> forall i, n <= i -> Z.testbit x i = false.
Proof.
  intros Hn Hx i Hi. rewrite <- (Z.mod_small x (2^n)) by assumption.
  apply Z.mod_pow2_bits_high. lia.
Qed.

Lemma bits_bounded n x : 0 <= n -> 0 <= x -> (forall i, n <= i -> Z.testbit x i = false) -> x < 2^n.
Proof.
  intros Hn Hx H. destruct (Z.lt_ge_cases x (2^n)) as [|Hge]; auto.
  exfalso. assert (Hp : 0 < 2^n) by (apply Z.pow_pos_nonneg; lia).
  assert (Hl : n <= Z.log2 x).
  { rewrite <- (Z.log2_pow2 n) by lia. apply Z.log2_le_mono. lia. }
  specialize (H (Z.log2 x) Hl). rewrite Z.bit_log2 in H by lia. discriminate.
Qed.

Lemma land_range n x y : 0 <= n -> 0 <= x -> 0 <= y < 2^n -> 0 <= Z.land x y < 2^n.
Proof.
  intros Hn Hx Hy. split; [apply Z.land_nonneg; lia|].
  apply bits_bounded; [lia|apply Z.land_nonneg; lia|].
  intros i Hi. rewrite Z.land_spec, (bounded_bits n y Hn Hy i Hi), andb_false_r. reflexivity.
Qed.

Lemma land_range_l n x y : 0 <= n -> 0 <= y -> 0 <= x < 2^n -> 0 <= Z.land x y < 2^n.
Proof. intros. rewrite Z.land_comm. apply land_range; auto. Qed.

Lemma ldiff_range n x y : 0 <= n -> 0 <= x < 2^n -> 0 <= Z.ldiff x y < 2^n.
Proof.
  intros Hn Hx. assert (H0 : 0 <= Z.ldiff x y) by (apply Z.ldiff_nonneg; lia).
  split; auto. apply bits_bounded; auto.
  intros i Hi. rewrite Z.ldiff_spec, (bounded_bits n x Hn Hx i Hi). reflexivity.
Qed.

Lemma lor_range n x y : 0 <= n -> 0 <= x < 2^n -> 0 <= y < 2^n -> 0 <= Z.lor x y < 2^n.
Proof.
  intros Hn Hx Hy. assert (H0 : 0 <= Z.lor x y) by (apply Z.lor_nonneg; lia).
  split; auto. apply bits_bounded; auto.
  intros i Hi. rewrite Z.lor_spec, (bounded_bits n x Hn Hx i Hi), (bounded_bits n y Hn Hy i Hi). reflexivity.
Qed.

Lemma lxor_range n x y : 0 <= n -> 0 <= x < 2^n -> 0 <= y < 2^n -> 0 <= Z.lxor x y < 2^n.
Proof.
  intros Hn Hx Hy. assert (H0 : 0 <= Z.lxor x y) by (apply Z.lxor_nonneg; lia).
  split; auto. apply bits_bounded; auto.
  intros i Hi. rewrite Z.lxor_spec, (bounded_bits n x Hn Hx i Hi), (bounded_bits n y Hn Hy i Hi). reflexivity.
Qed.

(* Bitwise extensionality on n-bit numbers. *)
Lemma bits_ext n x y : 0 <= n -> 0 <= x < 2^n -> 0 <= y < 2^n ->
  (forall i, 0 <= i < n -> Z.testbit x i = Z.testbit y i) -> x = y.
Proof.
  intros Hn Hx Hy H. apply Z.bits_inj'. intros i Hi.
  destruct (Z.lt_ge_cases i n); [apply H; lia|].
  rewrite (bounded_bits n x), (bounded_bits n y); auto.
Qed.

Lemma ones_bit32 i : 0 <= i < 32 -> Z.testbit (Z.ones 32) i = true.
Proof. intros. apply Z.ones_spec_low. lia. Qed.

(* disjoint or is addition *)
Lemma lor_add x y : Z.land x y = 0 -> Z.lor x y = x + y.
Proof. intros H. rewrite <- Z.lxor_lor, <- Z.add_nocarry_lxor; auto. Qed.

Lemma ldiff_land_disjoint x y m : Z.land (Z.ldiff x m) (Z.land y m) = 0.
Proof.
  apply Z.bits_inj'. intros i Hi.
  rewrite !Z.land_spec, Z.ldiff_spec, Z.bits_0.
  destruct (Z.testbit x i), (Z.testbit y i), (Z.testbit m i); reflexivity.
Qed.

Lemma ldiff_land_split x m : Z.ldiff x m + Z.land x m = x.
Proof.
  rewrite <- lor_add by apply ldiff_land_disjoint.
  apply Z.bits_inj'. intros i Hi.
  rewrite Z.lor_spec, Z.land_spec, Z.ldiff_spec.
  destruct (Z.testbit x i), (Z.testbit m i); reflexivity.
Qed.

Lemma land_pow2 x k : 0 <= k -> Z.land x (2^k) = if Z.testbit x k then 2^k else 0.
Proof.
  intros Hk. apply Z.bits_inj'. intros i Hi. rewrite Z.land_spec, Z.pow2_bits_eqb by lia.
  destruct (Z.eqb_spec k i) as [->|Hne].
  - destruct (Z.testbit x i); [rewrite Z.pow2_bits_true by lia|rewrite Z.bits_0]; reflexivity.
  - rewrite andb_false_r. destruct (Z.testbit x k); [rewrite Z.pow2_bits_false by lia|rewrite Z.bits_0]; reflexivity.
Qed.
