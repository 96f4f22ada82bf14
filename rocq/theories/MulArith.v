(* Arithmetic behind the multiplication and division code. *)
From Coq Require Import ZArith Lia Bool List ZifyBool ZifyNat.
From Verif Require Import Word.
Open Scope Z_scope.

Lemma pow2_pos n : 0 <= n -> 0 < 2 ^ n.
Proof. intros. apply Z.pow_pos_nonneg; lia. Qed.

(* the test AtLeastX(1, 2^i) reads bit i *)
Lemma test_bit A i : 0 <= i < 32 -> (u32 1 <=? Z.land A (u32 (2 ^ i))) = Z.testbit A i.
Proof.
  intros Hi. pose proof (pow2_pos i ltac:(lia)).
  assert (2 ^ i < 2 ^ 32) by (apply Z.pow_lt_mono_r; lia).
  rewrite (u32_small (2 ^ i)) by lia. rewrite land_pow2 by lia. change (u32 1) with 1.
  destruct (Z.testbit A i); lia.
Qed.

Definition b2z (b : bool) : Z := if b then 1 else 0.
Lemma testbit_b2z A i : 0 <= i -> b2z (Z.testbit A i) = (A / 2 ^ i) mod 2.
Proof. intros Hi. rewrite <- Z.testbit_spec' by lia. destruct (Z.testbit A i); reflexivity. Qed.

(* bits i, i+1, ..., i+n-1 of A *)
Definition field (A i n : Z) : Z := 2 ^ i * ((A / 2 ^ i) mod 2 ^ n).
Lemma field_0 A i : field A i 0 = 0.
Proof. unfold field. change (2 ^ 0) with 1. rewrite Z.mod_1_r. lia. Qed.
Lemma field_S A i n : 0 <= i -> 0 <= n -> field A i (n + 1) = 2 ^ i * b2z (Z.testbit A i) + field A (i + 1) n.
Proof.
  intros Hi Hn. unfold field. rewrite testbit_b2z by lia.
  pose proof (pow2_pos i Hi). pose proof (pow2_pos n Hn).
  rewrite Z.pow_add_r, (Z.pow_add_r 2 i 1), Z.pow_1_r by lia.
  rewrite (Z.mul_comm (2 ^ n) 2), Z.rem_mul_r by lia. rewrite (Z.div_div A) by lia.
  ring.
Qed.
Lemma field_all A n : 0 <= A < 2 ^ n -> field A 0 n = A.
Proof. intros H. unfold field. change (2 ^ 0) with 1. rewrite Z.div_1_r, Z.mod_small by lia. lia. Qed.

Lemma pow2_log number : 0 < number -> Z.land number (number - 1) = 0 -> number = 2 ^ Z.log2 number.
Proof.
  intros Hn H. destruct (Z.log2_spec number Hn) as [L1 L2].
  destruct (Z.eq_dec number (2 ^ Z.log2 number)) as [|Hne]; [assumption|].
  assert (Hb : Z.testbit (Z.land number (number - 1)) (Z.log2 number) = true); [|rewrite H, Z.bits_0 in Hb; discriminate].
  rewrite Z.land_spec, Z.bit_log2 by lia. cbn [andb].
  replace (Z.log2 number) with (Z.log2 (number - 1)); [apply Z.bit_log2|].
  - pose proof (pow2_pos (Z.log2 number) (Z.log2_nonneg _)). lia.
  - apply Z.log2_unique; [apply Z.log2_nonneg|]. lia.
Qed.
Lemma pow2_is p : 0 <= p -> Z.land (2 ^ p) (2 ^ p - 1) = 0.
Proof. intros Hp. rewrite Z.sub_1_r, <- Z.ones_equiv. rewrite Z.land_ones by lia. apply Z.mod_same. pose proof (pow2_pos p Hp). lia. Qed.

Lemma div_step_down A N number : 0 < number -> (A - N * number) / number = A / number - N /\ (A - N * number) mod number = A mod number.
Proof.
  intros Hn. replace (A - N * number) with (A + (- N) * number) by ring. rewrite Z.div_add, Z.mod_add by lia. split; [lia|reflexivity].
Qed.
