(* Properties C16 - C19: signed division, power, binary search, square root. *)
From Coq Require Import ZArith Zquot Lia List Bool ZifyBool.
From Verif Require Import Word MathModel.
Import ListNotations.
Open Scope Z_scope.

(* ---------- C16 ---------- *)
(* the signed number a 32-bit word stands for *)
Definition s32 (x : Z) : Z := if x <? 2^31 then x else x - 2^32.
(* the number a divisor stands for; a Python int stands for itself *)
Definition dval (b : divisor) : Z := match b with DVar v => s32 v | DConst n => n end.
Definition divisor_ok (b : divisor) : Prop :=
  match b with DVar v => 0 <= v < 2^32 | DConst n => - 2^32 < n < 2^32 end.

Lemma split_signs_is a b : 0 <= a < 2^32 -> divisor_ok b ->
  split_signs a b = ((if s32 a <? 0 then 1 else 0) + (if dval b <? 0 then 2 else 0), Z.abs (s32 a), Z.abs (dval b)).
Proof.
  intros Ha Hb. unfold split_signs, dval, s32, add, ineg.
  assert (Hn : forall x, 0 <= x < 2^32 -> 2^31 <= x -> u32 (- x) = Z.abs (x - 2^32)).
  { intros x H H'. rewrite (u32_eq (- x) (2^32 - x) (-1)) by lia. rewrite u32_small by lia. lia. }
  destruct b as [v|n]; cbn [divisor_ok] in Hb.
  - destruct (2^31 <=? a) eqn:E1, (2^31 <=? v) eqn:E2;
      repeat match goal with |- context [if ?c then _ else _] => destruct c eqn:?; try lia end;
      repeat rewrite Hn by lia; repeat f_equal; try lia; try (rewrite u32_small by lia; lia).
  - destruct (2^31 <=? a) eqn:E1;
      repeat match goal with |- context [if ?c then _ else _] => destruct c eqn:?; try lia end;
      repeat rewrite Hn by lia; repeat f_equal; try lia; try (rewrite u32_small by lia; lia).
Qed.

Lemma abs_div x y : y <> 0 -> exists q r, Z.abs x = Z.abs y * q + r /\ 0 <= r < Z.abs y /\ 0 <= q /\
  f_div (Z.abs x) (Z.abs y) = (q, r) /\ q <= Z.abs x.
Proof.
  intros Hy. exists (Z.abs x / Z.abs y), (Z.abs x mod Z.abs y). unfold f_div.
  destruct (Z.eqb_spec (Z.abs y) 0); [lia|].
  pose proof (Z.div_mod (Z.abs x) (Z.abs y) ltac:(lia)). pose proof (Z.mod_pos_bound (Z.abs x) (Z.abs y) ltac:(lia)).
  pose proof (Z.div_pos (Z.abs x) (Z.abs y) ltac:(lia) ltac:(lia)).
  repeat split; try lia. apply Z.div_le_upper_bound; nia.
Qed.
Lemma s32_range a : 0 <= a < 2^32 -> - 2^31 <= s32 a < 2^31.
Proof. unfold s32. destruct (Z.ltb_spec a (2^31)); lia. Qed.

Ltac ifs := repeat match goal with |- context [if ?c then _ else _] => destruct c eqn:?; try lia end.
Ltac signs a b Ha Hb Hz q r E R Q QA :=
  rewrite (split_signs_is a b Ha Hb);
  destruct (abs_div (s32 a) (dval b) Hz) as (q & r & E & R & Q & -> & QA);
  pose proof (s32_range a Ha);
  assert (Z.abs (dval b) < 2^32) by (destruct b as [v|n]; cbn [divisor_ok dval] in *; [pose proof (s32_range v Hb)|]; lia).

Lemma quot_rem_is x y q r : Z.abs x = Z.abs y * q + r -> 0 <= r < Z.abs y ->
  Z.quot x y = Z.sgn x * Z.sgn y * q /\ Z.rem x y = Z.sgn x * r.
Proof.
  intros E R. destruct (Zquot_mod_unique_full x y (Z.sgn x * Z.sgn y * q) (Z.sgn x * r)) as [A B]; [| |auto].
  - unfold Remainder. destruct (Z.lt_trichotomy x 0) as [C|[C|C]].
    + right. rewrite Z.sgn_neg by lia. lia.
    + subst. cbn. lia.
    + left. rewrite Z.sgn_pos by lia. lia.
  - assert (Y : y * Z.sgn y = Z.abs y) by (destruct y; lia).
    assert (X : x = Z.sgn x * Z.abs x) by (destruct x; lia). rewrite X at 1. rewrite E, <- Y. ring.
Qed.

Lemma neg32 x : u32 (- u32 x) = u32 (- x).
Proof. exact (u32_sub_r 0 x). Qed.
Ltac pr := rewrite ?neg32; apply (f_equal2 pair); try (apply f_equal; lia); rewrite ?u32_small by lia; lia.
(* the truncated quotient: towards zero, remainder with the sign of a *)
Theorem C16_towards_zero : forall a b, 0 <= a < 2^32 -> divisor_ok b -> dval b <> 0 ->
  div_towards_zero a b = (u32 (Z.quot (s32 a) (dval b)), u32 (Z.rem (s32 a) (dval b))).
Proof.
  intros a b Ha Hb Hz. unfold div_towards_zero. signs a b Ha Hb Hz q r E R Q QA.
  destruct (quot_rem_is (s32 a) (dval b) q r E R) as [-> ->].
  assert (Hs : forall x, 0 <= x < 2^32 -> u32 x = x) by (intros; apply u32_small; lia).
  assert (Hz0 : s32 a = 0 -> q = 0 /\ r = 0) by (intros F; rewrite F in *; split; nia).
  destruct (Z.ltb_spec (s32 a) 0) as [C|C], (Z.ltb_spec (dval b) 0) as [D|D]; cbn [Z.add]; unfold one_negative, ExactlyX, ineg; cbn.
  - rewrite !(Z.sgn_neg (s32 a)), (Z.sgn_neg (dval b)) by lia. pr.
  - rewrite !(Z.sgn_neg (s32 a)), (Z.sgn_pos (dval b)) by lia. pr.
  - rewrite (Z.sgn_neg (dval b)) by lia. destruct (Z.eq_dec (s32 a) 0) as [F|F].
    + destruct (Hz0 F) as [-> ->]. rewrite F. reflexivity.
    + rewrite !(Z.sgn_pos (s32 a)) by lia. pr.
  - rewrite (Z.sgn_pos (dval b)) by lia. destruct (Z.eq_dec (s32 a) 0) as [F|F].
    + destruct (Hz0 F) as [-> ->]. rewrite F. reflexivity.
    + rewrite !(Z.sgn_pos (s32 a)) by lia. pr.
Qed.

(* the floored quotient: remainder with the sign of b *)
Theorem C16_floor : forall a b, 0 <= a < 2^32 -> divisor_ok b -> dval b <> 0 ->
  div_floor a b = (u32 (s32 a / dval b), u32 (s32 a mod dval b)).
Proof.
  intros a b Ha Hb Hz. unfold div_floor. signs a b Ha Hb Hz q r E R Q QA.
  assert (U : forall q' r', s32 a = dval b * q' + r' -> (0 <= r' < dval b \/ dval b < r' <= 0) ->
    s32 a / dval b = q' /\ s32 a mod dval b = r').
  { intros q' r' E' R'. split; [symmetry; eapply Z.div_unique; eauto|symmetry; eapply Z.mod_unique; eauto]. }
  destruct (Z.ltb_spec (s32 a) 0) as [C|C], (Z.ltb_spec (dval b) 0) as [D|D]; cbn [Z.add]; unfold one_negative, ExactlyX, adjust, ineg, add; cbn.
  - destruct (U q (- r)) as [-> ->]; [lia|lia|]. pr.
  - destruct (Z.leb_spec 1 r) as [G|G].
    + destruct (U (- (q + 1)) (dval b - r)) as [-> ->]; [lia|lia|]. u32norm. pr.
    + destruct (U (- q) 0) as [-> ->]; [lia|lia|]. pr.
  - destruct (Z.leb_spec 1 r) as [G|G].
    + destruct (U (- (q + 1)) (dval b + r)) as [-> ->]; [lia|lia|]. u32norm. pr.
    + destruct (U (- q) 0) as [-> ->]; [lia|lia|]. pr.
  - destruct (U q r) as [-> ->]; [lia|lia|]. pr.
Qed.

(* the Euclidean quotient: remainder never negative *)
Definition euclid (x y q r : Z) : Prop := x = y * q + r /\ 0 <= r < Z.abs y.
Theorem C16_euclid : forall a b, 0 <= a < 2^32 -> divisor_ok b -> dval b <> 0 ->
  exists q r, euclid (s32 a) (dval b) q r /\ div_euclid a b = (u32 q, u32 r).
Proof.
  intros a b Ha Hb Hz. unfold div_euclid. signs a b Ha Hb Hz q r E R Q QA. unfold euclid.
  destruct (Z.ltb_spec (s32 a) 0) as [C|C], (Z.ltb_spec (dval b) 0) as [D|D]; cbn [Z.add]; unfold one_negative, ExactlyX, adjust, ineg, add; cbn.
  - destruct (Z.leb_spec 1 r) as [G|G].
    + exists (q + 1), (Z.abs (dval b) - r). split; [lia|]. u32norm. pr.
    + exists q, r. split; [lia|]. pr.
  - destruct (Z.leb_spec 1 r) as [G|G].
    + exists (- (q + 1)), (Z.abs (dval b) - r). split; [lia|]. u32norm. pr.
    + exists (- q), r. split; [lia|]. pr.
  - exists (- q), r. split; [lia|]. pr.
  - exists q, r. split; [lia|]. pr.
Qed.
Theorem C16_euclid_unique : forall x y q r q' r', euclid x y q r -> euclid x y q' r' -> q = q' /\ r = r'.
Proof. unfold euclid. intros x y q r q' r' [A B] [A' B']. assert (q = q') by nia. lia. Qed.

Example C16_examples :
  div_towards_zero (2^32 - 7) (DVar 2) = (2^32 - 3, 2^32 - 1) /\ div_floor (2^32 - 7) (DVar 2) = (2^32 - 4, 1) /\
  div_euclid (2^32 - 7) (DConst (-2)) = (4, 1) /\ div_floor 7 (DConst (-2)) = (2^32 - 4, 2^32 - 1).
Proof. repeat split. Qed.
(* A constant divisor written as an unsigned word is not read as signed: the
   word of -1 gives different results as a constant and as a variable. *)
Theorem C16_const_word_refuted : exists a n, 0 <= n < 2^32 /\ div_towards_zero a (DConst n) <> div_towards_zero a (DVar n).
Proof. exists 5, (2^32 - 1). split; [lia|]. vm_compute. discriminate. Qed.

(* ---------- C17 ---------- *)
Lemma testbit_land b k : 0 <= b -> 0 <= k -> AtLeastX b 1 (2^k) = Z.testbit b k.
Proof.
  intros Hb Hk. unfold AtLeastX. destruct (Z.testbit b k) eqn:T.
  - replace (Z.land b (2^k)) with (2^k); [apply Z.leb_le; pose proof (Z.pow_pos_nonneg 2 k); lia|].
    apply Z.bits_inj'. intros i Hi. rewrite Z.land_spec, Z.pow2_bits_eqb by lia.
    destruct (Z.eqb_spec k i); [subst; rewrite T; reflexivity|rewrite andb_false_r; reflexivity].
  - replace (Z.land b (2^k)) with 0; [reflexivity|].
    apply Z.bits_inj'. intros i Hi. rewrite Z.land_spec, Z.pow2_bits_eqb, Z.bits_0 by lia.
    destruct (Z.eqb_spec k i); [subst; rewrite T; reflexivity|rewrite andb_false_r; reflexivity].
Qed.
Lemma mod_succ b k : 0 <= b -> 0 <= k -> b mod 2^(k+1) = b mod 2^k + (if Z.testbit b k then 2^k else 0).
Proof.
  intros Hb Hk. rewrite Z.pow_add_r by lia. change (2^1) with 2. rewrite Z.rem_mul_r by lia.
  rewrite Z.testbit_odd, Z.shiftr_div_pow2 by lia. rewrite Zmod_odd. destruct (Z.odd (b / 2^k)); lia.
Qed.
Lemma u32_pow_sq a e : 0 <= e -> u32 (u32 (a^e) * u32 (a^e)) = u32 (a^(2*e)).
Proof. intros He. u32norm. f_equal. rewrite <- Z.pow_add_r by lia. f_equal. lia. Qed.

Lemma pow_run a b : 0 <= b < 2^31 -> forall n k, Z.of_nat n = 31 - k -> 0 <= k ->
  pow_loop b (mkpow (u32 (a^(b mod 2^k))) (2^k) (u32 (a^(2^k)))) (u32 (a^b)).
Proof.
  intros Hb. induction n as [|n IH]; intros k Hn Hk.
  - assert (k = 31) by lia. subst k. rewrite Z.mod_small by lia. apply pow_exit. unfold pow_pass. cbn [p_2n].
    replace (2^31 <=? b) with false by lia. reflexivity.
  - destruct (Z.leb_spec (2^k) b) as [G|G].
    + eapply pow_more.
      { unfold pow_pass. cbn [p_2n p_ret p_a]. destruct (Z.leb_spec (2^k) b); [|lia]. reflexivity. }
      assert (K : 2^k < 2^31) by (apply Z.pow_lt_mono_r; lia). pose proof (Z.pow_pos_nonneg 2 k ltac:(lia) ltac:(lia)).
      unfold add. replace (2^k + 2^k) with (2^(k+1)) by (rewrite Z.pow_add_r by lia; change (2^1) with 2; lia).
      rewrite (u32_small (2^(k+1))) by (rewrite Z.pow_add_r by lia; change (2^1) with 2; lia).
      rewrite u32_pow_sq by lia. replace (2 * 2^k) with (2^(k+1)) by (rewrite Z.pow_add_r by lia; change (2^1) with 2; lia).
      match goal with |- pow_loop _ (mkpow ?x _ _) _ => replace x with (u32 (a^(b mod 2^(k+1)))); [apply IH; lia|] end.
      rewrite testbit_land by lia. rewrite mod_succ by lia. destruct (Z.testbit b k); [|rewrite Z.add_0_r; reflexivity].
      u32norm. rewrite Z.pow_add_r; [reflexivity|apply Z.mod_pos_bound; lia|lia].
    + replace (b mod 2^k) with b by (symmetry; apply Z.mod_small; lia). apply pow_exit. unfold pow_pass. cbn [p_2n].
      replace (2^k <=? b) with false by lia. reflexivity.
Qed.
Lemma pow_det b s r : pow_loop b s r -> forall r', pow_loop b s r' -> r = r'.
Proof.
  induction 1 as [s E|s s' r E H IH]; intros r' H'; inversion H'; subst; try congruence.
  apply IH. congruence.
Qed.

(* For exponents below 2^31 the loop ends, with exactly one result: the power
   modulo 2^32. Missing from C17: exponents from 2^31 on, see the refutation. *)
Theorem C17_pow_partial : forall a b, 0 <= a < 2^32 -> 0 <= b < 2^31 ->
  forall r, f_pow a b r <-> r = (a^b) mod 2^32.
Proof.
  intros a b Ha Hb. assert (H : f_pow a b (u32 (a^b))).
  { unfold f_pow. pose proof (pow_run a b Hb 31 0 eq_refl ltac:(lia)) as H.
    change (2^0) with 1 in H. rewrite Z.mod_1_r, Z.pow_1_r, (u32_small a) in H by lia. exact H. }
  intros r. split; [|intros ->; exact H]. intros H'. exact (pow_det _ _ _ H' _ H).
Qed.
Lemma pow_stuck b s r : pow_loop b s r -> 0 <= b -> p_2n s = 0 -> False.
Proof.
  induction 1 as [s E|s s' r E H IH]; intros Hb H0; unfold pow_pass in E; rewrite H0 in E;
    (destruct (Z.leb_spec 0 b); [|lia]); [discriminate|]. injection E as <-. apply IH; auto.
Qed.
(* For larger exponents 2^n wraps to 0, which never exceeds b. *)
Theorem C17_pow_hangs_refuted : forall a b r, 2^31 <= b < 2^32 -> ~ f_pow a b r.
Proof.
  intros a b r Hb. unfold f_pow.
  assert (G : forall n k s, Z.of_nat n = 32 - k -> 0 <= k -> p_2n s = u32 (2^k) -> pow_loop b s r -> False).
  { induction n as [|n IH]; intros k s Hn Hk Hs H.
    - assert (k = 32) by lia. subst k. eapply pow_stuck; [exact H|lia|]. rewrite Hs. reflexivity.
    - assert (K : 2^k <= 2^31) by (apply Z.pow_le_mono_r; lia). pose proof (Z.pow_pos_nonneg 2 k ltac:(lia) ltac:(lia)).
      rewrite u32_small in Hs by lia.
      inversion H as [s0 E|s0 s' r0 E H']; subst; unfold pow_pass in E; rewrite Hs in E; (destruct (Z.leb_spec (2^k) b); [|lia]); [discriminate|].
      injection E as <-. apply (IH (k + 1) _) in H'; auto; try lia. cbn [p_2n]. unfold add.
      f_equal. rewrite Z.pow_add_r by lia. change (2^1) with 2. lia. }
  intros H. apply (G 32%nat 0 _) in H; auto; reflexivity || lia.
Qed.
Example C17_example : f_pow 7 13 (7^13 mod 2^32).
Proof. apply C17_pow_partial; lia. Qed.

(* ---------- C18 ---------- *)
Fixpoint down (n : nat) : list Z := match n with O => [] | S k => Z.of_nat k :: down k end.
Lemma down_is n : map Z.of_nat (rev (seq 0 n)) = down n.
Proof.
  induction n as [|n IH]; [reflexivity|]. cbn [down]. rewrite <- IH.
  replace (S n) with (n + 1)%nat by lia. rewrite seq_app, rev_app_distr. reflexivity.
Qed.
Lemma down_filter f n m : (m <= n)%nat -> (forall i, (i < n)%nat -> f (Z.of_nat i) = true <-> (i < m)%nat) ->
  filter f (down n) = down m.
Proof.
  induction n as [|n IH]; intros Hm H.
  - assert (m = 0)%nat by lia. subst. reflexivity.
  - cbn [down filter]. destruct (Nat.eq_dec m (S n)) as [->|N].
    + replace (f (Z.of_nat n)) with true by (symmetry; apply H; lia). cbn [down]. f_equal.
      clear IH Hm. assert (G : forall k, (k <= n)%nat -> filter f (down k) = down k).
      { induction k as [|k IHk]; intros Hk; [reflexivity|]. cbn [down filter].
        replace (f (Z.of_nat k)) with true by (symmetry; apply H; lia). f_equal. apply IHk. lia. }
      apply G. lia.
    + destruct (f (Z.of_nat n)) eqn:E; [apply H in E; lia|]. apply IH; [lia|]. intros i Hi. apply H. lia.
Qed.
(* the steps tried for constant bounds: from the largest power of two within
   the range *)
Lemma steps_const a b : 0 < b - a < 2^32 -> steps_of (BConst a) (BConst b) = down (S (Z.to_nat (Z.log2 (b - a)))).
Proof.
  intros H. unfold steps_of, down32. rewrite down_is. cbn [span skipped].
  pose proof (Z.log2_spec (b - a) ltac:(lia)) as L. pose proof (Z.log2_nonneg (b - a)).
  assert (L32 : Z.log2 (b - a) < 32) by (apply Z.log2_lt_pow2; lia).
  apply down_filter; [lia|]. intros i Hi. destruct (Z.eqb_spec (b - a) 0); [lia|]. cbn [negb andb].
  destruct (Z.ltb_spec (b - a) (2^(Z.of_nat i))) as [G|G]; cbn [negb]; split; intros Q; try discriminate; try reflexivity.
  - exfalso. assert (2^(Z.of_nat i) <= 2^(Z.log2 (b - a))) by (apply Z.pow_le_mono_r; lia). lia.
  - assert (Z.of_nat i <= Z.log2 (b - a)) by (apply Z.log2_le_pow2; lia). lia.
Qed.
Lemma steps_all minv maxv : span minv maxv = None \/ span minv maxv = Some 0 -> steps_of minv maxv = down 32.
Proof. intros H. unfold steps_of, down32. rewrite down_is. destruct H as [-> | ->]; reflexivity. Qed.

Lemma search_cons f b i l x : search f b (i :: l) x = search f false l (f b i x).
Proof. reflexivity. Qed.
(* N is the greatest satisfying value of the range; cond need not be looked at
   at minv itself *)
Definition greatest (cond : Z -> bool) (lo hi N : Z) : Prop :=
  lo <= N <= hi /\ (forall v, lo < v <= N -> cond v = true) /\ (forall v, N < v <= hi -> cond v = false).
Definition least (cond : Z -> bool) (lo hi N : Z) : Prop :=
  lo <= N <= hi /\ (forall v, lo <= v < N -> cond v = false) /\ (forall v, N <= v < hi -> cond v = true).

Lemma max_rest cond minv maxv N : 0 <= bval minv -> bval maxv < 2^32 -> greatest cond (bval minv) (bval maxv) N ->
  forall n x, bval minv <= x <= N -> N < x + 2^(Z.of_nat n) -> x + 2^(Z.of_nat n) <= 2^32 ->
  search (max_step cond minv maxv) false (down n) x = N.
Proof.
  intros H0 Hm (Hr & Ht & Hf). induction n as [|n IH]; intros x Hx Hn Hw; cbn [down search].
  - change (2^Z.of_nat 0) with 1 in *. lia.
  - rewrite Nat2Z.inj_succ, Z.pow_succ_r in Hn, Hw by lia. pose proof (Z.pow_pos_nonneg 2 (Z.of_nat n) ltac:(lia) ltac:(lia)).
    unfold max_step. unfold add. rewrite u32_small by lia.
    destruct (Z.leb_spec (x + 2^(Z.of_nat n)) N) as [G|G].
    + destruct (Z.leb_spec (x + 2^(Z.of_nat n)) (bval maxv)); [|lia]. rewrite Ht by lia. cbn [andb negb]. apply IH; lia.
    + assert (E : (x + 2^(Z.of_nat n) <=? bval maxv) && cond (x + 2^(Z.of_nat n)) = false).
      { destruct (Z.leb_spec (x + 2^(Z.of_nat n)) (bval maxv)); [|reflexivity]. cbn [andb]. apply Hf. lia. }
      rewrite E. cbn [negb]. unfold sub_sat. replace (Z.max 0 (x + 2^Z.of_nat n - 2^Z.of_nat n)) with x by lia. apply IH; lia.
Qed.

(* EUDBinaryMax with constant bounds minv < maxv returns the greatest
   satisfying value, or minv if none satisfies - provided minv plus the powers
   of two tried stays within 32 bits, which holds whenever minv = 0. *)
Theorem C18_max_partial : forall cond lo hi N, 0 <= lo < hi -> hi < 2^32 ->
  lo + 2 * 2^(Z.log2 (hi - lo)) <= 2^32 -> greatest cond lo hi N ->
  EUDBinaryMax cond (BConst lo) (BConst hi) = N.
Proof.
  intros cond lo hi N Hlo Hhi Hw HN. unfold EUDBinaryMax. rewrite steps_const by lia.
  pose proof (Z.log2_spec (hi - lo) ltac:(lia)) as L. pose proof (Z.log2_nonneg (hi - lo)).
  rewrite Z.pow_succ_r in L by lia. set (k := Z.to_nat (Z.log2 (hi - lo))).
  assert (K : Z.of_nat k = Z.log2 (hi - lo)) by (unfold k; lia). cbn [down search]. rewrite <- K in *.
  pose proof (Z.pow_pos_nonneg 2 (Z.of_nat k) ltac:(lia) ltac:(lia)). destruct HN as (Hr & Ht & Hf).
  unfold max_step at 2. cbn [bval]. rewrite u32_small by lia.
  destruct (cond (lo + 2^Z.of_nat k)) eqn:C; cbn [negb].
  - apply max_rest; cbn [bval]; try lia; [split; [lia|auto]|]. split; [lia|].
    destruct (Z.le_gt_cases (lo + 2^Z.of_nat k) N); [lia|]. rewrite Hf in C by lia. discriminate.
  - unfold sub_sat. replace (Z.max 0 (lo + 2^Z.of_nat k - 2^Z.of_nat k)) with lo by lia.
    apply max_rest; cbn [bval]; try lia; [split; [lia|auto]|].
    destruct (Z.le_gt_cases (lo + 2^Z.of_nat k) N); [|lia]. rewrite Ht in C by lia. discriminate.
Qed.
(* whatever the predicate, the result then lies in the range *)
Lemma max_range cond minv maxv : 0 <= bval minv -> bval maxv < 2^32 ->
  forall n x, bval minv <= x <= bval maxv -> x + 2^(Z.of_nat n) <= 2^32 ->
  bval minv <= search (max_step cond minv maxv) false (down n) x <= bval maxv.
Proof.
  intros H0 Hm. induction n as [|n IH]; intros x Hx Hw; cbn [down search]; [exact Hx|].
  rewrite Nat2Z.inj_succ, Z.pow_succ_r in Hw by lia. pose proof (Z.pow_pos_nonneg 2 (Z.of_nat n) ltac:(lia) ltac:(lia)).
  unfold max_step at 2 4, add, sub_sat. rewrite u32_small by lia.
  destruct (Z.leb_spec (x + 2^(Z.of_nat n)) (bval maxv)) as [G|G]; cbn [andb negb].
  - destruct (cond _); cbn [negb]; [apply IH; lia|]. apply IH; lia.
  - apply IH; lia.
Qed.
Theorem C18_max_in_range_partial : forall cond lo hi, 0 <= lo < hi -> hi < 2^32 ->
  lo + 2 * 2^(Z.log2 (hi - lo)) <= 2^32 -> lo <= EUDBinaryMax cond (BConst lo) (BConst hi) <= hi.
Proof.
  intros cond lo hi Hlo Hhi Hw. unfold EUDBinaryMax. rewrite steps_const by lia.
  pose proof (Z.log2_spec (hi - lo) ltac:(lia)) as L. pose proof (Z.log2_nonneg (hi - lo)).
  rewrite Z.pow_succ_r in L by lia. set (k := Z.to_nat (Z.log2 (hi - lo))).
  assert (K : Z.of_nat k = Z.log2 (hi - lo)) by (unfold k; lia). cbn [down search]. rewrite <- K in *.
  pose proof (Z.pow_pos_nonneg 2 (Z.of_nat k) ltac:(lia) ltac:(lia)).
  unfold max_step at 2 4, sub_sat. cbn [bval]. rewrite u32_small by lia.
  destruct (cond _); cbn [negb]; apply (max_range cond (BConst lo) (BConst hi)); cbn [bval]; lia.
Qed.
(* Any kind of bounds with minv = 0, if the predicate is false beyond N on all
   32-bit values, as the documentation asks. *)
Theorem C18_max_full : forall cond minv maxv N, bval minv = 0 -> 0 <= bval maxv < 2^32 ->
  span minv maxv = None \/ span minv maxv = Some 0 ->
  greatest cond 0 (bval maxv) N -> (forall v, N < v < 2^32 -> cond v = false) ->
  EUDBinaryMax cond minv maxv = N.
Proof.
  intros cond minv maxv N H0 Hm Hs HN Hc. unfold EUDBinaryMax. rewrite steps_all by exact Hs.
  assert (D : down 32 = 31 :: down 31) by reflexivity. rewrite D, search_cons. clear D. unfold max_step at 2. rewrite H0.
  assert (U : u32 (0 + 2^31) = 2^31) by reflexivity. rewrite U.
  assert (HN' : greatest cond (bval minv) (bval maxv) N) by (rewrite H0; exact HN).
  destruct HN as (Hr & Ht & Hf). destruct (cond (2^31)) eqn:C; cbn [negb].
  - apply max_rest; [lia|lia|exact HN'| |change (Z.of_nat 31) with 31; lia|change (Z.of_nat 31) with 31; lia]. rewrite H0. split; [lia|].
    destruct (Z.le_gt_cases (2^31) N); [lia|]. rewrite Hc in C by lia. discriminate.
  - assert (U2 : sub_sat (2^31) (2^31) = 0) by reflexivity. rewrite U2. apply max_rest; [lia|lia|exact HN'|lia| |change (Z.of_nat 31) with 31; lia].
    change (Z.of_nat 31) with 31. destruct (Z.le_gt_cases (2^31) N); [|lia]. rewrite Ht in C by lia. discriminate.
Qed.

Lemma min_rest cond minv maxv N : 0 <= bval minv -> bval maxv < 2^32 -> least cond (bval minv) (bval maxv) N ->
  forall n x, N <= x <= bval maxv -> x - 2^(Z.of_nat n) < N ->
  search (min_step cond minv maxv) false (down n) x = N.
Proof.
  intros H0 Hm (Hr & Hf & Ht). induction n as [|n IH]; intros x Hx Hn; cbn [down search].
  - change (2^Z.of_nat 0) with 1 in *. lia.
  - rewrite Nat2Z.inj_succ, Z.pow_succ_r in Hn by lia. pose proof (Z.pow_pos_nonneg 2 (Z.of_nat n) ltac:(lia) ltac:(lia)).
    unfold min_step at 2. destruct (Z.leb_spec (2^(Z.of_nat n)) x) as [B|B]; [|apply IH; lia].
    unfold sub_sat. replace (Z.max 0 (x - 2^Z.of_nat n)) with (x - 2^Z.of_nat n) by lia.
    destruct (Z.le_gt_cases N (x - 2^(Z.of_nat n))) as [G|G].
    + destruct (Z.leb_spec (bval minv) (x - 2^(Z.of_nat n))); [|lia]. rewrite Ht by lia. cbn [andb negb]. apply IH; lia.
    + assert (E : (bval minv <=? x - 2^(Z.of_nat n)) && cond (x - 2^(Z.of_nat n)) = false).
      { destruct (Z.leb_spec (bval minv) (x - 2^(Z.of_nat n))); [|reflexivity]. cbn [andb]. apply Hf. lia. }
      rewrite E. cbn [negb]. unfold add. rewrite u32_small by lia. replace (x - 2^Z.of_nat n + 2^Z.of_nat n) with x by lia. apply IH; lia.
Qed.
(* EUDBinaryMin with constant bounds minv < maxv: the least satisfying value,
   or maxv if none satisfies. *)
Theorem C18_min_partial : forall cond lo hi N, 0 <= lo < hi -> hi < 2^32 -> least cond lo hi N ->
  EUDBinaryMin cond (BConst lo) (BConst hi) = N.
Proof.
  intros cond lo hi N Hlo Hhi HN. unfold EUDBinaryMin. rewrite steps_const by lia.
  pose proof (Z.log2_spec (hi - lo) ltac:(lia)) as L. pose proof (Z.log2_nonneg (hi - lo)).
  rewrite Z.pow_succ_r in L by lia. set (k := Z.to_nat (Z.log2 (hi - lo))).
  assert (K : Z.of_nat k = Z.log2 (hi - lo)) by (unfold k; lia). cbn [down search]. rewrite <- K in *.
  pose proof (Z.pow_pos_nonneg 2 (Z.of_nat k) ltac:(lia) ltac:(lia)). destruct HN as (Hr & Hf & Ht).
  unfold min_step at 2. cbn [bval]. rewrite u32_small by lia.
  destruct (cond (hi - 2^Z.of_nat k)) eqn:C; cbn [negb].
  - apply min_rest; cbn [bval]; try lia; [split; [lia|auto]|]. split; [|lia].
    destruct (Z.le_gt_cases N (hi - 2^Z.of_nat k)); [lia|]. rewrite Hf in C by lia. discriminate.
  - unfold add. replace (hi - 2^Z.of_nat k + 2^Z.of_nat k) with hi by lia. rewrite u32_small by lia.
    apply min_rest; cbn [bval]; try lia; [split; [lia|auto]|].
    destruct (Z.le_gt_cases N (hi - 2^Z.of_nat k)); [|lia]. rewrite Ht in C by lia. discriminate.
Qed.

(* What goes wrong outside those hypotheses. *)
(* the range is one value: the first step is not limited to the range *)
Theorem C18_single_refuted : exists cond v, greatest cond v v v /\ (forall x, cond x = (x <=? 2^31 + 9)) /\
  ~ EUDBinaryMax cond (BConst v) (BConst v) <= v.
Proof.
  exists (fun x => x <=? 2^31 + 9), 5. split; [|split; [reflexivity|vm_compute; auto]].
  unfold greatest. split; [lia|]. split; intros; lia.
Qed.
Theorem C18_min_single_refuted : exists cond v, least cond v v v /\ (forall x, cond x = (3 <=? x)) /\
  ~ EUDBinaryMin cond (BConst v) (BConst v) <= v.
Proof.
  exists (fun x => 3 <=? x), 5. split; [|split; [reflexivity|vm_compute; auto]].
  unfold least. split; [lia|]. split; intros; lia.
Qed.
(* bounds held in variables: the first step is not limited to the range *)
Theorem C18_variable_refuted : exists cond lo hi N, greatest cond lo hi N /\
  (forall x, cond x = true) /\ EUDBinaryMax cond (BVar lo) (BVar hi) > hi.
Proof.
  exists (fun _ => true), 0, 10, 10. split; [|split; [reflexivity|vm_compute; auto]].
  unfold greatest. split; [lia|]. split; [reflexivity|]. intros; lia.
Qed.
(* the sum wraps around: 1 .. 2^32-1, everything satisfies, and the answer is 0 *)
Theorem C18_wrap_refuted : exists cond lo hi, 0 <= lo < hi /\ hi < 2^32 /\
  greatest cond lo hi hi /\ EUDBinaryMax cond (BConst lo) (BConst hi) < lo.
Proof.
  exists (fun _ => true), 1, (2^32 - 1). split; [lia|]. split; [lia|]. split; [|vm_compute; auto].
  unfold greatest. split; [lia|]. split; [reflexivity|]. intros; lia.
Qed.
(* the documentation says maxv is returned when nothing satisfies *)
Theorem C18_none_refuted : exists cond, (forall x, cond x = false) /\ EUDBinaryMax cond (BConst 0) (BConst 100) <> 100.
Proof. exists (fun _ => false). split; [reflexivity|]. vm_compute. discriminate. Qed.

Example C18_examples :
  EUDBinaryMax (fun x => x * x <=? 1000) (BConst 7) (BConst 90) = 31 /\
  EUDBinaryMin (fun x => 1000 <=? x * x) (BConst 7) (BConst 90) = 32 /\
  greatest (fun x => x * x <=? 1000) 7 90 31 /\ least (fun x => 1000 <=? x * x) 7 90 32 /\ 7 + 2 * 2^(Z.log2 (90 - 7)) <= 2^32.
Proof.
  split; [reflexivity|]. split; [reflexivity|]. unfold greatest, least.
  split; [|split; [|vm_compute; discriminate]]; (split; [lia|]; split; intros v Hv; nia).
Qed.

(* ---------- C19 ---------- *)
Theorem C19_sqrt : forall n, 0 <= n < 2^32 -> 0 <= f_sqrt n /\ f_sqrt n * f_sqrt n <= n < (f_sqrt n + 1) * (f_sqrt n + 1).
Proof.
  intros n Hn. pose proof (Z.sqrt_spec n ltac:(lia)) as S0. cbv zeta in S0.
  pose proof (Z.sqrt_nonneg n) as S1.
  assert (S2 : Z.sqrt n <= 65535) by nia.
  assert (E : f_sqrt n = Z.sqrt n).
  { unfold f_sqrt. apply C18_max_partial; [lia|lia|vm_compute; discriminate|].
    assert (U : forall v, 0 <= v <= 65535 -> u32 (v * v) = v * v) by (intros v Hv; apply u32_small; nia).
    split; [lia|]. split; intros v Hv; rewrite U by lia.
    - apply Z.leb_le. nia.
    - apply Z.leb_gt. nia. }
  rewrite E. unfold Z.succ in S0. lia.
Qed.

Print Assumptions C16_towards_zero. Print Assumptions C16_floor. Print Assumptions C16_euclid. Print Assumptions C16_euclid_unique.
Print Assumptions C17_pow_partial. Print Assumptions C17_pow_hangs_refuted.
Print Assumptions C18_max_partial. Print Assumptions C18_max_in_range_partial. Print Assumptions C18_max_full. Print Assumptions C18_min_partial.
Print Assumptions C19_sqrt.

Print Assumptions C16_floor.
Print Assumptions C16_euclid.
Print Assumptions C16_euclid_unique.
Print Assumptions C16_const_word_refuted.
Print Assumptions C17_pow_hangs_refuted.
Print Assumptions C18_max_in_range_partial.
Print Assumptions C18_max_full.
Print Assumptions C18_min_partial.
Print Assumptions C18_single_refuted.
Print Assumptions C18_min_single_refuted.
Print Assumptions C18_variable_refuted.
Print Assumptions C18_wrap_refuted.
Print Assumptions C18_none_refuted.
