(* Masked arithmetic on words: the bit tricks used by the operators. *)
From Coq Require Import ZArith Lia Bool List.
From Verif Require Import Word Machine MachineProofs.
Open Scope Z_scope.

Ltac u32lia := unfold u32 in *; Z.div_mod_to_equations; lia.

Lemma u32_add_ll x y z : u32 (u32 x + y + z) = u32 (x + y + z).
Proof. u32lia. Qed.
Lemma u32_add_lr x y z : u32 (x + u32 y + z) = u32 (x + y + z).
Proof. u32lia. Qed.
Lemma u32_sub_ll x y z : u32 (u32 x - y + z) = u32 (x - y + z).
Proof. u32lia. Qed.

Lemma add_xor_and x y : x + y = Z.lxor x y + 2 * Z.land x y.
Proof.
  assert (E : Z.lxor x y = Z.ldiff x y + Z.ldiff y x).
  { rewrite <- lor_add.
    - apply Z.bits_inj'. intros i Hi. rewrite Z.lxor_spec, Z.lor_spec, !Z.ldiff_spec.
      destruct (Z.testbit x i), (Z.testbit y i); reflexivity.
    - apply Z.bits_inj'. intros i Hi. rewrite Z.land_spec, !Z.ldiff_spec, Z.bits_0.
      destruct (Z.testbit x i), (Z.testbit y i); reflexivity. }
  pose proof (ldiff_land_split x y). pose proof (ldiff_land_split y x) as H2.
  rewrite (Z.land_comm y x) in H2. lia.
Qed.

(* adding under a mask without adjacent bits is exclusive or *)
Lemma masked_add_xor k d v : Z.land k (2 * k) = 0 ->
  Z.land (Z.land d k + Z.land v k) k = Z.land (Z.lxor d v) k.
Proof.
  intros Hk. rewrite add_xor_and.
  set (x := Z.lxor (Z.land d k) (Z.land v k)). set (y := 2 * Z.land (Z.land d k) (Z.land v k)).
  assert (Hky : forall i, 0 <= i -> Z.testbit k i = true -> Z.testbit y i = false).
  { intros i Hi Hb. unfold y. change 2 with (2^1). rewrite Z.mul_comm, <- Z.shiftl_mul_pow2, Z.shiftl_spec by lia.
    destruct (Z.eq_dec i 0) as [->|]; [apply Z.testbit_neg_r; lia|].
    assert (Hbb : Z.testbit (Z.land k (2 * k)) i = false) by (rewrite Hk; apply Z.bits_0).
    rewrite Z.land_spec, Hb in Hbb. change 2 with (2^1) in Hbb.
    rewrite Z.mul_comm, <- Z.shiftl_mul_pow2, Z.shiftl_spec in Hbb by lia. cbn [andb] in Hbb.
    rewrite !Z.land_spec, Hbb, !andb_false_r. reflexivity. }
  rewrite <- lor_add.
  - apply Z.bits_inj'. intros i Hi. rewrite !Z.land_spec, Z.lor_spec.
    unfold x. rewrite !Z.lxor_spec, !Z.land_spec.
    destruct (Z.testbit k i) eqn:E; [|rewrite !andb_false_r; reflexivity].
    rewrite (Hky i Hi E). rewrite !andb_true_r, orb_false_r. reflexivity.
  - apply Z.bits_inj'. intros i Hi. rewrite Z.land_spec, Z.bits_0.
    destruct (Z.testbit k i) eqn:E; [rewrite (Hky i Hi E); apply andb_false_r|].
    unfold x. rewrite Z.lxor_spec, !Z.land_spec, E, !andb_false_r. reflexivity.
Qed.

Definition k5 : Z := 0x55555555.
Definition kA : Z := 0xAAAAAAAA.

Lemma wadd_xor k d v : Z.land k (2 * k) = 0 -> wadd k d v = Z.lor (Z.ldiff d k) (Z.land (Z.lxor d v) k).
Proof. intros. unfold wadd. rewrite masked_add_xor by assumption. reflexivity. Qed.

Lemma k5A i : 0 <= i < 32 -> Z.testbit kA i = negb (Z.testbit k5 i).
Proof.
  intros Hi. assert (E : kA = Z.lxor k5 (Z.ones 32)) by reflexivity.
  rewrite E, Z.lxor_spec, Z.ones_spec_low by lia. apply xorb_true_r.
Qed.

Lemma xor_two_adds d v : 0 <= d < 2^32 -> 0 <= v < 2^32 -> wadd kA (wadd k5 d v) v = Z.lxor d v.
Proof.
  intros Hd Hv. rewrite !wadd_xor by reflexivity.
  apply (bits_ext 32); [lia| | |].
  - apply lor_range; [lia| |].
    + apply ldiff_range; [lia|]. apply lor_range; [lia|apply ldiff_range; lia|].
      apply land_range_l; [lia|unfold k5; lia|]. apply lxor_range; lia.
    + apply land_range; [lia| |unfold kA; lia]. apply Z.lxor_nonneg.
      split; intros _; [lia|]. apply Z.lor_nonneg. split; [apply Z.ldiff_nonneg; lia|].
      apply Z.land_nonneg. right. unfold k5. lia.
  - apply lxor_range; lia.
  - intros i Hi. rewrite !Z.lor_spec, !Z.ldiff_spec, !Z.land_spec, !Z.lxor_spec, !Z.lor_spec, !Z.ldiff_spec, !Z.land_spec, !Z.lxor_spec.
    rewrite (k5A i Hi). destruct (Z.testbit d i), (Z.testbit v i), (Z.testbit k5 i); reflexivity.
Qed.

Lemma xor_ones d : 0 <= d < 2^32 -> Z.lxor d 0xFFFFFFFF = 0xFFFFFFFF - d.
Proof.
  intros Hd. change 0xFFFFFFFF with (Z.ones 32) at 1.
  assert (E : Z.lxor d (Z.ones 32) + d = Z.ones 32).
  { rewrite <- lor_add.
    - apply (bits_ext 32); [lia| |unfold Z.ones; cbn; lia|].
      + apply lor_range; [lia| |lia]. apply lxor_range; [lia|lia|cbn; lia].
      + intros i Hi. rewrite Z.lor_spec, Z.lxor_spec, ones_bit32 by lia. destruct (Z.testbit d i); reflexivity.
    - apply Z.bits_inj'. intros i Hi. rewrite Z.land_spec, Z.lxor_spec, Z.bits_0.
      destruct (Z.lt_ge_cases i 32); [rewrite ones_bit32 by lia; destruct (Z.testbit d i); reflexivity|].
      rewrite (bounded_bits 32 d) by lia. apply andb_false_r. }
  change (Z.ones 32) with 0xFFFFFFFF in E at 2. lia.
Qed.

Lemma wset_or d v : 0 <= d < 2^32 -> 0 <= v < 2^32 -> wset v d 0xFFFFFFFF = Z.lor d v.
Proof.
  intros Hd Hv. unfold wset. apply Z.bits_inj'. intros i Hi.
  rewrite !Z.lor_spec, Z.ldiff_spec, Z.land_spec. change 0xFFFFFFFF with (Z.ones 32).
  destruct (Z.lt_ge_cases i 32).
  - rewrite ones_bit32 by lia. destruct (Z.testbit d i), (Z.testbit v i); reflexivity.
  - rewrite (bounded_bits 32 d), (bounded_bits 32 v) by lia. rewrite andb_false_r. reflexivity.
Qed.
Lemma wset_and d v : 0 <= d < 2^32 -> 0 <= v < 2^32 -> wset (0xFFFFFFFF - v) d 0 = Z.land d v.
Proof.
  intros Hd Hv. rewrite <- xor_ones by lia. unfold wset. rewrite Z.land_0_l, Z.lor_0_r.
  apply Z.bits_inj'. intros i Hi. rewrite Z.ldiff_spec, Z.land_spec, Z.lxor_spec. change 0xFFFFFFFF with (Z.ones 32).
  destruct (Z.lt_ge_cases i 32).
  - rewrite ones_bit32 by lia. destruct (Z.testbit d i), (Z.testbit v i); reflexivity.
  - rewrite (bounded_bits 32 d), (bounded_bits 32 v) by lia. reflexivity.
Qed.
Lemma u32_lnot c : u32 (Z.lnot c) = 0xFFFFFFFF - u32 c.
Proof. unfold Z.lnot. u32lia. Qed.
