From Coq Require Import ZArith Lia List Bool Sorted ZifyBool ZifyNat.
From Verif Require Import Lib Word WordX BinModel.
Import ListNotations.
Open Scope Z_scope.

Definition byte (x : Z) : Prop := 0 <= x < 256.

Lemma land_ff x : Z.land x 0xFF = x mod 256.
Proof. change 0xFF with (Z.ones 8). rewrite Z.land_ones by lia. reflexivity. Qed.
Lemma land_ffff x : Z.land x 0xFFFF = x mod 65536.
Proof. change 0xFFFF with (Z.ones 16). rewrite Z.land_ones by lia. reflexivity. Qed.
Lemma land_ffffffff x : Z.land x 0xFFFFFFFF = x mod 4294967296.
Proof. change 0xFFFFFFFF with (Z.ones 32). rewrite Z.land_ones by lia. reflexivity. Qed.
Lemma lor_shift a b n : 0 <= n -> 0 <= a < 2^n -> Z.lor a (Z.shiftl b n) = a + b * 2^n.
Proof.
  intros Hn Ha.
  assert (D : Z.land a (Z.shiftl b n) = 0).
  { apply Z.bits_inj'; intros i Hi; rewrite Z.land_spec, Z.bits_0; destruct (Z.ltb_spec i n);
      [rewrite Z.shiftl_spec_low by lia; apply andb_false_r|].
    destruct (Z.eq_dec a 0) as [->|]; [rewrite Z.bits_0; reflexivity|].
    rewrite (Z.bits_above_log2 a i); [reflexivity|lia|].
    apply Z.lt_le_trans with n; [apply Z.log2_lt_pow2; lia|lia]. }
  rewrite <- (Z.lxor_lor _ _ D), <- (Z.add_nocarry_lxor _ _ D), Z.shiftl_mul_pow2 by lia. reflexivity.
Qed.

Lemma i2b2_eq i : i2b2 i = [i mod 256; (i / 256) mod 256].
Proof.
  unfold i2b2. rewrite !land_ff, land_ffff, Z.shiftr_div_pow2 by lia. change (2^8) with 256.
  f_equal; [|f_equal]; lia.
Qed.
Lemma i2b4_eq i : i2b4 i = [i mod 256; (i / 256) mod 256; (i / 65536) mod 256; (i / 16777216) mod 256].
Proof.
  unfold i2b4. rewrite !land_ff, land_ffffffff, !Z.shiftr_div_pow2 by lia. change (2^8) with 256. change (2^16) with 65536.
  change (2^24) with 16777216. f_equal; [|f_equal; [|f_equal; [|f_equal]]]; lia.
Qed.
Lemma b2i2_eq b i b0 b1 : byte b0 -> nth_error b i = Some b0 -> nth_error b (i + 1) = Some b1 ->
  b2i2 b i = Some (b0 + 256 * b1).
Proof. unfold byte. intros H H0 H1. unfold b2i2. rewrite H0, H1, lor_shift by lia. f_equal. lia. Qed.
Lemma b2i4_eq b i b0 b1 b2 b3 : byte b0 -> byte b1 -> byte b2 ->
  nth_error b i = Some b0 -> nth_error b (i + 1) = Some b1 -> nth_error b (i + 2) = Some b2 -> nth_error b (i + 3) = Some b3 ->
  b2i4 b i = Some (b0 + 256 * b1 + 65536 * b2 + 16777216 * b3).
Proof.
  unfold byte. intros ? ? ? H0 H1 H2 H3. unfold b2i4. rewrite H0, H1, H2, H3.
  rewrite (lor_shift b0 b1 8), (lor_shift (b0 + b1 * 2^8) b2 16), (lor_shift (b0 + b1 * 2 ^ 8 + b2 * 2 ^ 16) b3 24) by lia.
  f_equal. lia.
Qed.
Lemma at_app {A} (p l q : list A) k x : nth_error l k = Some x -> nth_error (p ++ l ++ q) (length p + k) = Some x.
Proof.
  intros H. rewrite nth_error_app2 by lia. replace (length p + k - length p)%nat with k by lia.
  rewrite nth_error_app1; auto. apply nth_error_Some. congruence.
Qed.
Lemma b2i4_i2b4 p i q : b2i4 (p ++ i2b4 i ++ q) (length p) = Some (i mod 2^32).
Proof.
  rewrite i2b4_eq.
  rewrite (b2i4_eq _ _ (i mod 256) ((i / 256) mod 256) ((i / 65536) mod 256) ((i / 16777216) mod 256)); try (unfold byte; lia).
  - f_equal. lia.
  - rewrite <- (Nat.add_0_r (length p)). apply at_app. reflexivity.
  - apply at_app. reflexivity.
  - apply at_app. reflexivity.
  - apply at_app. reflexivity.
Qed.
Lemma b2i2_i2b2 p i q : b2i2 (p ++ i2b2 i ++ q) (length p) = Some (i mod 2^16).
Proof.
  rewrite i2b2_eq.
  rewrite (b2i2_eq _ _ (i mod 256) ((i / 256) mod 256)); try (unfold byte; lia).
  - f_equal. lia.
  - rewrite <- (Nat.add_0_r (length p)). apply at_app. reflexivity.
  - apply at_app. reflexivity.
Qed.
Lemma b2i1_i2b1 p i q : b2i1 (p ++ i2b1 i ++ q) (length p) = Some (i mod 2^8).
Proof. unfold b2i1, i2b1. rewrite land_ff, <- (Nat.add_0_r (length p)). apply at_app. reflexivity. Qed.

Lemma nth_error_skip {A} (l : list A) i k : nth_error (skipn i l) k = nth_error l (i + k).
Proof. revert l. induction i as [|i IH]; intros [|a l]; cbn; auto. destruct k; reflexivity. Qed.

(* what a reader returns, and what it accepts *)
Lemma b2i4_some b i v : Forall byte b -> b2i4 b i = Some v ->
  (i + 4 <= length b)%nat /\ 0 <= v < 2^32 /\ firstn 4 (skipn i b) = i2b4 v.
Proof.
  intros Hb H. unfold b2i4 in H.
  destruct (nth_error b i) as [b0|] eqn:E0; [|discriminate]. destruct (nth_error b (i + 1)) as [b1|] eqn:E1; [|discriminate].
  destruct (nth_error b (i + 2)) as [b2|] eqn:E2; [|discriminate]. destruct (nth_error b (i + 3)) as [b3|] eqn:E3; [|discriminate].
  assert (R : forall k x, nth_error b k = Some x -> byte x).
  { intros k x Hk. rewrite Forall_forall in Hb. apply Hb. eapply nth_error_In; eauto. }
  pose proof (R _ _ E0) as R0. pose proof (R _ _ E1) as R1. pose proof (R _ _ E2) as R2. pose proof (R _ _ E3) as R3.
  pose proof (b2i4_eq b i b0 b1 b2 b3 R0 R1 R2 E0 E1 E2 E3) as E. unfold b2i4 in E. rewrite E0, E1, E2, E3 in E.
  rewrite H in E. assert (Ev : v = b0 + 256 * b1 + 65536 * b2 + 16777216 * b3) by congruence. clear E H. subst v. unfold byte in *.
  split; [assert (nth_error b (i + 3) <> None) as Q by congruence; apply nth_error_Some in Q; lia|]. split; [lia|].
  assert (S0 : forall k x, nth_error b (i + k) = Some x -> nth_error (skipn i b) k = Some x) by (intros; rewrite nth_error_skip; auto).
  assert (E0' : nth_error b (i + 0) = Some b0) by (rewrite Nat.add_0_r; exact E0).
  apply S0 in E0', E1, E2, E3. destruct (skipn i b) as [|c0 [|c1 [|c2 [|c3 r]]]]; try discriminate.
  injection E0' as ->. injection E1 as ->. injection E2 as ->. injection E3 as ->. cbn [firstn].
  rewrite i2b4_eq. repeat (f_equal; try lia).
Qed.
Lemma b2i2_some b i v : Forall byte b -> b2i2 b i = Some v ->
  (i + 2 <= length b)%nat /\ 0 <= v < 2^16 /\ firstn 2 (skipn i b) = i2b2 v.
Proof.
  intros Hb H. unfold b2i2 in H.
  destruct (nth_error b i) as [b0|] eqn:E0; [|discriminate]. destruct (nth_error b (i + 1)) as [b1|] eqn:E1; [|discriminate].
  assert (R : forall k x, nth_error b k = Some x -> byte x).
  { intros k x Hk. rewrite Forall_forall in Hb. apply Hb. eapply nth_error_In; eauto. }
  pose proof (R _ _ E0) as R0. pose proof (R _ _ E1) as R1.
  pose proof (b2i2_eq b i b0 b1 R0 E0 E1) as E. unfold b2i2 in E. rewrite E0, E1 in E.
  rewrite H in E. assert (Ev : v = b0 + 256 * b1) by congruence. clear E H. subst v. unfold byte in *.
  split; [assert (nth_error b (i + 1) <> None) as Q by congruence; apply nth_error_Some in Q; lia|]. split; [lia|].
  assert (S0 : forall k x, nth_error b (i + k) = Some x -> nth_error (skipn i b) k = Some x) by (intros; rewrite nth_error_skip; auto).
  assert (E0' : nth_error b (i + 0) = Some b0) by (rewrite Nat.add_0_r; exact E0).
  apply S0 in E0', E1. destruct (skipn i b) as [|c0 [|c1 r]]; try discriminate.
  injection E0' as ->. injection E1 as ->. cbn [firstn].
  rewrite i2b2_eq. repeat (f_equal; try lia).
Qed.
Lemma b2i4_none b i : (length b < i + 4)%nat -> b2i4 b i = None.
Proof.
  intros H. unfold b2i4. assert (E : nth_error b (i + 3) = None) by (apply nth_error_None; lia). rewrite E.
  destruct (nth_error b i), (nth_error b (i+1)), (nth_error b (i+2)); reflexivity.
Qed.
Lemma b2i4_total b i : (i + 4 <= length b)%nat -> exists v, b2i4 b i = Some v.
Proof.
  intros H. unfold b2i4.
  destruct (nth_error b i) eqn:E0; [|apply nth_error_None in E0; lia].
  destruct (nth_error b (i + 1)) eqn:E1; [|apply nth_error_None in E1; lia].
  destruct (nth_error b (i + 2)) eqn:E2; [|apply nth_error_None in E2; lia].
  destruct (nth_error b (i + 3)) eqn:E3; [|apply nth_error_None in E3; lia]. eauto.
Qed.
Lemma i2b4_byte i : Forall byte (i2b4 i).
Proof. rewrite i2b4_eq. repeat constructor; lia. Qed.
Lemma i2b4_len i : length (i2b4 i) = 4%nat.
Proof. reflexivity. Qed.
Lemma i2b2_byte i : Forall byte (i2b2 i).
Proof. rewrite i2b2_eq. repeat constructor; lia. Qed.

(* ---------- bits ---------- *)
Lemma low_bit n : 0 < n -> exists k, 0 <= k /\ Z.testbit n k = true /\ (forall j, 0 <= j < k -> Z.testbit n j = false) /\
  Z.land n (Z.lnot n + 1) = 2^k.
Proof.
  intros Hn.
  assert (H : forall p : positive, exists k, 0 <= k /\ Z.testbit (Zpos p) k = true /\ (forall j, 0 <= j < k -> Z.testbit (Zpos p) j = false) /\
    Z.land (Zpos p) (- Zpos p) = 2^k).
  { induction p as [p IH|p IH|].
    - exists 0. split; [lia|]. split; [reflexivity|]. split; [lia|].
      apply Z.bits_inj'. intros i Hi. rewrite Z.land_spec. change (2^0) with 1.
      destruct (Z.eq_dec i 0) as [->|].
      + rewrite Z.bit0_odd, Z.bit0_odd. rewrite Z.odd_opp. reflexivity.
      + replace i with (Z.succ (i - 1)) by lia.
        replace (- Zpos p~1) with (2 * (Z.lnot (Zpos p)) + 1) by (unfold Z.lnot; lia).
        replace (Zpos p~1) with (2 * Zpos p + 1) by lia.
        rewrite !Z.testbit_odd_succ by lia. rewrite Z.lnot_spec by lia.
        rewrite andb_negb_r. symmetry. apply (Z.bits_above_log2 1); cbn; lia.
    - destruct IH as (k & Hk & H1 & H2 & H3). exists (k + 1). split; [lia|].
      replace (Zpos p~0) with (2 * Zpos p) by lia. split; [|split].
      + rewrite Z.add_1_r, Z.testbit_even_succ by lia. exact H1.
      + intros j Hj. destruct (Z.eq_dec j 0) as [->|]; [apply Z.testbit_even_0|].
        replace j with (Z.succ (j - 1)) by lia. rewrite Z.testbit_even_succ by lia. apply H2. lia.
      + replace (- (2 * Zpos p)) with (2 * - Zpos p) by lia.
        replace (2 * Zpos p) with (Z.shiftl (Zpos p) 1) by (rewrite Z.shiftl_mul_pow2; lia).
        replace (2 * - Zpos p) with (Z.shiftl (- Zpos p) 1) by (rewrite Z.shiftl_mul_pow2; lia).
        rewrite <- Z.shiftl_land, H3, Z.shiftl_mul_pow2, Z.pow_add_r by lia. lia.
    - exists 0. split; [lia|]. split; [reflexivity|]. split; [lia|reflexivity]. }
  destruct n as [|p|p]; try lia. replace (Z.lnot (Zpos p) + 1) with (- Zpos p) by (unfold Z.lnot; lia). apply H.
Qed.

(* sum of powers of two, strictly increasing, exactly the set bits *)
Lemma bits_loop_spec f : forall n lo, 0 <= lo <= 32 -> 0 <= n < 2^32 -> (forall j, 0 <= j < lo -> Z.testbit n j = false) ->
  (32 - lo < Z.of_nat f) ->
  exists ks, bits_loop f n = map (fun k => 2^k) ks /\ (forall k, In k ks <-> 0 <= k /\ Z.testbit n k = true) /\
    (forall k, In k ks -> lo <= k < 32) /\ StronglySorted Z.lt ks.
Proof.
  induction f as [|f IH]; intros n lo Hlo Hn Hz Hf; [lia|].
  cbn [bits_loop]. destruct (Z.eqb_spec n 0) as [->|Hn0].
  - exists []. split; [reflexivity|]. split; [|split; [intros k []|constructor]].
    intros k. rewrite Z.bits_0. split; [intros []|intros [_ Q]; discriminate].
  - destruct (low_bit n ltac:(lia)) as (k & Hk & H1 & H2 & H3).
    assert (Hk32 : k < 32).
    { destruct (Z.ltb_spec k 32); auto. rewrite (bounded_bits 32) in H1; [discriminate|lia|lia|lia]. }
    assert (Hlk : lo <= k). { destruct (Z.leb_spec lo k); auto. rewrite Hz in H1 by lia. discriminate. }
    rewrite H3.
    assert (Hb : forall i, 0 <= i -> Z.testbit (Z.lxor n (2^k)) i = (Z.testbit n i && negb (i =? k))).
    { intros i Hi. rewrite Z.lxor_spec, Z.pow2_bits_eqb by lia. rewrite Z.eqb_sym.
      destruct (Z.eqb_spec i k) as [->|]; [rewrite H1; reflexivity|]. rewrite xorb_false_r, andb_true_r. reflexivity. }
    destruct (IH (Z.lxor n (2^k)) (k + 1)) as (ks & E & Hin & Hr & Hs).
    + lia.
    + apply lxor_range; [lia|lia|]. split; [lia|]. apply Z.pow_lt_mono_r; lia.
    + intros j Hj. rewrite Hb by lia. destruct (Z.eqb_spec j k); [apply andb_false_r|]. rewrite H2 by lia. reflexivity.
    + lia.
    + exists (k :: ks). split; [cbn [map]; rewrite E; reflexivity|]. split; [|split].
      * intros j. split.
        -- intros [<-|Hj]; [auto|]. apply Hin in Hj. destruct Hj as [Hj1 Hj2]. rewrite Hb in Hj2 by lia. split; auto.
           destruct (Z.testbit n j); auto.
        -- intros [Hj1 Hj2]. destruct (Z.eq_dec j k) as [->|]; [left; reflexivity|right]. apply Hin. split; auto.
           rewrite Hb by lia. rewrite Hj2. destruct (Z.eqb_spec j k); auto.
      * intros j [<-|Hj]; [lia|]. specialize (Hr j Hj). lia.
      * constructor; auto. apply Forall_forall. intros j Hj. specialize (Hr j Hj). lia.
Qed.
Lemma bits_spec n : exists ks, bits n = map (fun k => 2^k) ks /\ StronglySorted Z.lt ks /\
  forall k, In k ks <-> 0 <= k < 32 /\ Z.testbit n k = true.
Proof.
  unfold bits. destruct (bits_loop_spec 33 (Z.land n 0xFFFFFFFF) 0) as (ks & E & H1 & H2 & H3); try lia.
  - rewrite land_ffffffff. lia.
  - exists ks. split; [exact E|]. split; [exact H3|]. intros k. rewrite H1.
    change 0xFFFFFFFF with (Z.ones 32). rewrite Z.land_spec. split.
    + intros [Hk Hb]. apply andb_prop in Hb. destruct Hb as [Hb1 Hb2].
      assert (k < 32). { destruct (Z.ltb_spec k 32); auto. rewrite Z.ones_spec_high in Hb2 by lia. discriminate. }
      split; auto.
    + intros [Hk Hb]. split; [lia|]. rewrite Hb, Z.ones_spec_low by lia. reflexivity.
Qed.
