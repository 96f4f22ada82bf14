(* Correctness of the shifts by a constant on light variables (vbase.py). *)
From Coq Require Import ZArith Lia Bool List.
From Verif Require Import Lib Word Machine MachineProofs VarModel VarSpec VarProofs SeqProofs WordX OpsModel OpsSpec OpsBase OpsProofs.
Import ListNotations.
Open Scope Z_scope.

(* ---------- bits of windows ---------- *)
Lemma shmask_ones n : 0 <= n -> shmask n = Z.ones (n + 1).
Proof. intros. unfold shmask. rewrite Z.ones_equiv, Z.shiftl_mul_pow2 by lia. lia. Qed.
Lemma shmask_half n : 0 <= n -> Z.shiftr (shmask n) 1 = Z.ones n.
Proof.
  intros. rewrite shmask_ones by lia. apply Z.bits_inj'. intros i Hi.
  rewrite Z.shiftr_spec, !Z.testbit_ones by lia.
  destruct (Z.leb_spec 0 (i + 1)), (Z.leb_spec 0 i), (Z.ltb_spec (i + 1) (n + 1)), (Z.ltb_spec i n); try lia; reflexivity.
Qed.
Lemma window_bit n t i : 0 <= n -> 0 <= t -> 0 <= i ->
  Z.testbit (Z.shiftl (Z.ones n) t) i = (t <=? i) && (i <? t + n).
Proof.
  intros Hn Ht Hi. destruct (Z.leb_spec t i); cbn [andb].
  - rewrite Z.shiftl_spec_high by lia. rewrite Z.testbit_ones by lia.
    destruct (Z.leb_spec 0 (i - t)), (Z.ltb_spec (i - t) n), (Z.ltb_spec i (t + n)); try lia; reflexivity.
  - rewrite Z.shiftl_spec_low by lia. reflexivity.
Qed.
Lemma window_u32 n t : 0 <= n -> 0 <= t -> n + t <= 32 -> u32 (Z.shiftl (Z.ones n) t) = Z.shiftl (Z.ones n) t.
Proof.
  intros. apply u32_small. rewrite Z.shiftl_mul_pow2, Z.ones_equiv by lia.
  assert (2^n * 2^t <= 2^32) by (rewrite <- Z.pow_add_r by lia; apply Z.pow_le_mono_r; lia).
  pose proof (Z.pow_pos_nonneg 2 n). pose proof (Z.pow_pos_nonneg 2 t). nia.
Qed.

(* a number whose bits from t on are zero except bit i *)
Lemma one_bit x i : 0 <= i -> (forall j, 0 <= j -> j <> i -> Z.testbit x j = false) ->
  x = if Z.testbit x i then 2^i else 0.
Proof.
  intros Hi H. apply Z.bits_inj'. intros j Hj.
  destruct (Z.eq_dec j i) as [->|Hne].
  - destruct (Z.testbit x i) eqn:E; rewrite ?Z.bits_0; [rewrite Z.pow2_bits_true by lia|]; reflexivity.
  - rewrite H by auto. destruct (Z.testbit x i); [rewrite Z.pow2_bits_false by lia|rewrite Z.bits_0]; reflexivity.
Qed.

Lemma wset0_bit k d i : 0 <= i -> Z.testbit (wset k d 0) i = Z.testbit d i && negb (Z.testbit k i).
Proof. intros. unfold wset. rewrite Z.land_0_l, Z.lor_0_r, Z.ldiff_spec. reflexivity. Qed.

(* adding n ones at t to a window of n+1 bits at t of which only bit t may be
   set moves that bit n places up *)
Lemma add_window n t d i :
  0 <= n -> 0 <= t -> 0 <= i ->
  (forall j, t < j <= t + n -> Z.testbit d j = false) ->
  i < t \/ t + n <= i ->
  Z.testbit (wadd (Z.shiftl (Z.ones (n + 1)) t) d (Z.shiftl (Z.ones n) t)) i
  = if i =? t + n then Z.testbit d t else Z.testbit d i.
Proof.
  intros Hn Ht Hi Hz Hr. unfold wadd.
  rewrite Z.lor_spec, Z.ldiff_spec, (Z.land_spec (_ + _)), window_bit by lia.
  assert (E1 : Z.land d (Z.shiftl (Z.ones (n + 1)) t) = (if Z.testbit d t then 1 else 0) * 2^t).
  { rewrite (one_bit (Z.land d (Z.shiftl (Z.ones (n + 1)) t)) t Ht).
    - rewrite Z.land_spec, window_bit by lia. destruct (Z.leb_spec t t); [|lia]. destruct (Z.ltb_spec t (t + (n + 1))); [|lia].
      cbn [andb]. rewrite andb_true_r. destruct (Z.testbit d t); lia.
    - intros j Hj Hne. rewrite Z.land_spec, window_bit by lia.
      destruct (Z.leb_spec t j); [|apply andb_false_r]. destruct (Z.ltb_spec j (t + (n + 1))); [|apply andb_false_r].
      rewrite Hz by lia. reflexivity. }
  assert (E2 : Z.land (Z.shiftl (Z.ones n) t) (Z.shiftl (Z.ones (n + 1)) t) = (2^n - 1) * 2^t).
  { replace ((2^n - 1) * 2^t) with (Z.shiftl (Z.ones n) t) by (rewrite Z.shiftl_mul_pow2, Z.ones_equiv by lia; lia).
    apply Z.bits_inj'. intros j Hj. rewrite Z.land_spec, !window_bit by lia.
    destruct (Z.leb_spec t j), (Z.ltb_spec j (t + n)), (Z.ltb_spec j (t + (n + 1))); try lia; reflexivity. }
  rewrite E1, E2. rewrite <- Z.mul_add_distr_r.
  destruct (Z.eqb_spec i (t + n)) as [->|Hne].
  - destruct (Z.leb_spec t (t + n)); [|lia]. destruct (Z.ltb_spec (t + n) (t + (n + 1))); [|lia]. cbn [andb negb].
    rewrite andb_false_r, andb_true_r. cbn [orb]. rewrite Z.mul_pow2_bits by lia. replace (t + n - t) with n by lia.
    destruct (Z.testbit d t).
    + replace (1 + (2^n - 1)) with (2^n) by lia. apply Z.pow2_bits_true. lia.
    + replace (0 + (2^n - 1)) with (Z.ones n) by (rewrite Z.ones_equiv; lia). apply Z.ones_spec_high. lia.
  - destruct (Z.leb_spec t i), (Z.ltb_spec i (t + (n + 1))); try lia; cbn [andb negb];
      rewrite ?andb_true_r, ?andb_false_r, ?orb_false_r; reflexivity.
Qed.

(* subtracting n ones at t from a window of n+1 bits at t of which only the
   top one may be set moves that bit n places down *)
Lemma sub_window n t d i :
  0 <= n -> 0 <= t -> 0 <= i ->
  (forall j, t <= j < t + n -> Z.testbit d j = false) ->
  Z.testbit (wsub (Z.shiftl (Z.ones (n + 1)) t) d (Z.shiftl (Z.ones n) t)) i
  = if i =? t then Z.testbit d (t + n) else if (t <? i) && (i <=? t + n) then false else Z.testbit d i.
Proof.
  intros Hn Ht Hi Hz. unfold wsub.
  rewrite Z.lor_spec, Z.ldiff_spec, (Z.land_spec (Z.max _ _)), window_bit by lia.
  assert (E1 : Z.land d (Z.shiftl (Z.ones (n + 1)) t) = (if Z.testbit d (t + n) then 1 else 0) * 2^(t + n)).
  { rewrite (one_bit (Z.land d (Z.shiftl (Z.ones (n + 1)) t)) (t + n) ltac:(lia)).
    - rewrite Z.land_spec, window_bit by lia. destruct (Z.leb_spec t (t + n)); [|lia]. destruct (Z.ltb_spec (t + n) (t + (n + 1))); [|lia].
      cbn [andb]. rewrite andb_true_r. destruct (Z.testbit d (t + n)); lia.
    - intros j Hj Hne. rewrite Z.land_spec, window_bit by lia.
      destruct (Z.leb_spec t j); [|apply andb_false_r]. destruct (Z.ltb_spec j (t + (n + 1))); [|apply andb_false_r].
      rewrite Hz by lia. reflexivity. }
  assert (E2 : Z.land (Z.shiftl (Z.ones n) t) (Z.shiftl (Z.ones (n + 1)) t) = (2^n - 1) * 2^t).
  { replace ((2^n - 1) * 2^t) with (Z.shiftl (Z.ones n) t) by (rewrite Z.shiftl_mul_pow2, Z.ones_equiv by lia; lia).
    apply Z.bits_inj'. intros j Hj. rewrite Z.land_spec, !window_bit by lia.
    destruct (Z.leb_spec t j), (Z.ltb_spec j (t + n)), (Z.ltb_spec j (t + (n + 1))); try lia; reflexivity. }
  rewrite E1, E2.
  assert (Hp : 0 < 2^t) by (apply Z.pow_pos_nonneg; lia). assert (Hp2 : 0 < 2^n) by (apply Z.pow_pos_nonneg; lia).
  assert (E3 : Z.max 0 ((if Z.testbit d (t + n) then 1 else 0) * 2^(t + n) - (2^n - 1) * 2^t)
               = (if Z.testbit d (t + n) then 2^t else 0)).
  { rewrite Z.pow_add_r by lia. destruct (Z.testbit d (t + n)); nia. }
  rewrite E3.
  assert (E4 : Z.testbit (if Z.testbit d (t + n) then 2^t else 0) i = Z.testbit d (t + n) && (i =? t)).
  { destruct (Z.testbit d (t + n)); [rewrite Z.pow2_bits_eqb by lia; rewrite Z.eqb_sym|rewrite Z.bits_0]; reflexivity. }
  rewrite E4.
  destruct (Z.eqb_spec i t), (Z.ltb_spec t i), (Z.leb_spec i (t + n)), (Z.leb_spec t i), (Z.ltb_spec i (t + (n + 1)));
    try lia; cbn [andb negb]; rewrite ?andb_true_r, ?andb_false_r, ?orb_false_r, ?orb_false_l; try reflexivity.
Qed.

(* ---------- masked writes on one cell ---------- *)
Definition runx (d : Z) (ops : list (modifier * Z * Z)) : Z :=
  fold_left (fun d p => let '(md, c, k) := p in do_modx md (u32 k) d (u32 c)) ops d.
Definition xacts (a : Z) (ops : list (modifier * Z * Z)) : list act :=
  map (fun p => let '(md, c, k) := p in SetMX a md c k) ops.

Lemma runx_range ops : forall d, 0 <= d < 2^32 -> 0 <= runx d ops < 2^32.
Proof.
  induction ops as [|[[md c] k] ops IH]; intros d Hd; cbn [runx fold_left]; auto.
  apply IH. apply do_modx_range; auto using u32_range.
Qed.
Lemma xacts_do prot a : plain a -> prot (idx a) = false -> forall ops m, exists m',
  acts_do prot m (xacts a ops) m' /\ get m' a = runx (get m a) ops /\
  (forall b, idx a <> idx b -> get m' b = get m b).
Proof.
  intros Hp Hq. induction ops as [|[[md c] k] ops IH]; intros m; cbn [xacts map].
  - exists m. split; [apply do_nil|]. split; [reflexivity|auto].
  - destruct (IH (upd m a (do_modx md (u32 k) (get m a) (u32 c)))) as (m' & A & B & C).
    exists m'. split; [apply do_cons_MX; auto|]. split.
    + rewrite B, get_upd_eq. cbn [runx fold_left]. fold (runx (do_modx md (u32 k) (get m a) (u32 c)) ops).
      f_equal. apply u32_small. apply do_modx_range; auto using u32_range, get_range.
    + intros b Hb. rewrite C, get_upd_ne by auto. reflexivity.
Qed.

Fixpoint il_ops (n : Z) (t : nat) : list (modifier * Z * Z) :=
  match t with
  | O => []
  | S t' => (SetTo, 0, Z.shiftl (Z.ones n) (Z.of_nat t' + 1))
            :: (Add, Z.shiftl (Z.ones n) (Z.of_nat t'), Z.shiftl (Z.ones (n + 1)) (Z.of_nat t')) :: il_ops n t'
  end.
Lemma il_acts a n t : 0 <= n -> ilshift_loop a n t = xacts a (il_ops n t).
Proof.
  intros Hn. induction t as [|t IH]; [reflexivity|]. cbn [ilshift_loop il_ops xacts map].
  rewrite shmask_half, shmask_ones, IH by lia. reflexivity.
Qed.

Lemma il_ops_bits n t : 0 <= n -> Z.of_nat t + n <= 32 -> forall d i, 0 <= i -> 0 <= d < 2^32 ->
  n <= i -> Z.testbit (runx d (il_ops n t)) i = if i <? Z.of_nat t + n then Z.testbit d (i - n) else Z.testbit d i.
Proof.
  intros Hn. induction t as [|t IH]; intros Ht d i Hi Hd Hr; cbn [il_ops runx fold_left].
  - destruct (Z.ltb_spec i (Z.of_nat 0 + n)); [lia|]. reflexivity.
  - fold (runx (do_modx Add (u32 (Z.shiftl (Z.ones (n + 1)) (Z.of_nat t))) (do_modx SetTo (u32 (Z.shiftl (Z.ones n) (Z.of_nat t + 1))) d (u32 0)) (u32 (Z.shiftl (Z.ones n) (Z.of_nat t)))) (il_ops n t)).
    rewrite !window_u32 by lia. cbn [do_modx]. change (u32 0) with 0.
    set (d1 := wset (Z.shiftl (Z.ones n) (Z.of_nat t + 1)) d 0).
    assert (Hd1 : forall j, 0 <= j -> Z.testbit d1 j = Z.testbit d j && negb ((Z.of_nat t + 1 <=? j) && (j <? Z.of_nat t + 1 + n))).
    { intros j Hj. unfold d1. rewrite wset0_bit, window_bit by lia. reflexivity. }
    assert (Hd1r : 0 <= d1 < 2^32).
    { unfold d1. rewrite <- (window_u32 n (Z.of_nat t + 1)) by lia. apply (do_modx_range SetTo); auto using u32_range. lia. }
    set (d2 := wadd (Z.shiftl (Z.ones (n + 1)) (Z.of_nat t)) d1 (Z.shiftl (Z.ones n) (Z.of_nat t))).
    assert (Hd2r : 0 <= d2 < 2^32).
    { unfold d2. rewrite <- (window_u32 (n + 1) (Z.of_nat t)), <- (window_u32 n (Z.of_nat t)) by lia. apply (do_modx_range Add); auto using u32_range. }
    assert (Hd2 : forall j, 0 <= j -> j < Z.of_nat t \/ Z.of_nat t + n <= j ->
              Z.testbit d2 j = if j =? Z.of_nat t + n then Z.testbit d1 (Z.of_nat t) else Z.testbit d1 j).
    { intros j Hj Hjr. apply add_window; try lia. }
    rewrite IH by lia.
    destruct (Z.ltb_spec i (Z.of_nat t + n)).
    + destruct (Z.ltb_spec i (Z.of_nat (S t) + n)); [|lia].
      rewrite Hd2 by lia. destruct (Z.eqb_spec (i - n) (Z.of_nat t + n)); [lia|].
      rewrite Hd1 by lia. destruct (Z.leb_spec (Z.of_nat t + 1) (i - n)); [lia|]. apply andb_true_r.
    + rewrite Hd2 by lia. destruct (Z.eqb_spec i (Z.of_nat t + n)) as [->|Hne].
      * destruct (Z.ltb_spec (Z.of_nat t + n) (Z.of_nat (S t) + n)); [|lia].
        rewrite Hd1 by lia. destruct (Z.leb_spec (Z.of_nat t + 1) (Z.of_nat t)); [lia|].
        replace (Z.of_nat t + n - n) with (Z.of_nat t) by lia. apply andb_true_r.
      * destruct (Z.ltb_spec i (Z.of_nat (S t) + n)); [lia|].
        rewrite Hd1 by lia. destruct (Z.ltb_spec i (Z.of_nat t + 1 + n)); [lia|]. rewrite andb_false_r. apply andb_true_r.
Qed.

Lemma u32_ones n : 32 <= n -> u32 (Z.ones n) = Z.ones 32.
Proof.
  intros. rewrite <- land_ones32. apply Z.bits_inj'. intros i Hi. rewrite Z.land_spec, !Z.testbit_ones by lia.
  destruct (Z.leb_spec 0 i), (Z.ltb_spec i n), (Z.ltb_spec i 32); try lia; reflexivity.
Qed.

Lemma ilshift_val n d : 0 <= n -> 0 <= d < 2^32 ->
  runx d (il_ops n (Z.to_nat (32 - n)) ++ [(SetTo, 0, Z.ones n)]) = u32 (Z.shiftl d n).
Proof.
  intros Hn Hd. unfold runx. rewrite fold_left_app. fold (runx d (il_ops n (Z.to_nat (32 - n)))). cbn [fold_left do_modx].
  change (u32 0) with 0.
  apply (bits_ext 32); [lia| |apply u32_range|].
  - apply (do_modx_range SetTo); [apply u32_range|apply runx_range; lia|lia].
  - intros i Hi. rewrite wset0_bit by lia. rewrite <- (land_ones32 (Z.shiftl d n)), Z.land_spec, Z.shiftl_spec, ones_bit32, andb_true_r by lia.
    destruct (Z.lt_ge_cases n 32).
    + assert (Hm : u32 (Z.ones n) = Z.ones n).
      { apply u32_small. rewrite Z.ones_equiv. pose proof (Z.pow_pos_nonneg 2 n).
        assert (2^n <= 2^32) by (apply Z.pow_le_mono_r; lia). lia. }
      rewrite Hm, Z.testbit_ones by lia. destruct (Z.leb_spec 0 i); [|lia]. cbn [andb].
      destruct (Z.ltb_spec i n).
      * cbn [negb]. rewrite andb_false_r. symmetry. apply Z.testbit_neg_r. lia.
      * cbn [negb]. rewrite andb_true_r, il_ops_bits by lia. destruct (Z.ltb_spec i (Z.of_nat (Z.to_nat (32 - n)) + n)); [reflexivity|lia].
    + rewrite u32_ones, ones_bit32 by lia. cbn [negb]. rewrite andb_false_r. symmetry. apply Z.testbit_neg_r. lia.
Qed.

Definition ir_ops (n : Z) (t k : nat) : list (modifier * Z * Z) :=
  map (fun t => (Subtract, Z.shiftl (Z.ones n) (Z.of_nat t), Z.shiftl (Z.ones (n + 1)) (Z.of_nat t))) (seq t k).

Lemma ir_ops_bits n k : 0 <= n -> forall t d i, Z.of_nat (t + k) + n <= 32 -> 0 <= i -> 0 <= d < 2^32 ->
  (forall j, Z.of_nat t <= j < Z.of_nat t + n -> Z.testbit d j = false) ->
  Z.testbit (runx d (ir_ops n t k)) i =
    if (Z.of_nat t <=? i) && (i <? Z.of_nat (t + k)) then Z.testbit d (i + n)
    else if (Z.of_nat (t + k) <=? i) && (i <? Z.of_nat (t + k) + n) then false else Z.testbit d i.
Proof.
  intros Hn. unfold ir_ops. induction k as [|k IH]; intros t d i Hb Hi Hd Hz; cbn [seq map].
  - rewrite Nat.add_0_r in *. cbn [runx fold_left].
    destruct (Z.leb_spec (Z.of_nat t) i), (Z.ltb_spec i (Z.of_nat t)), (Z.ltb_spec i (Z.of_nat t + n)); try lia; cbn [andb]; auto.
  - cbn [runx fold_left]. rewrite !window_u32 by lia. cbn [do_modx].
    set (d1 := wsub (Z.shiftl (Z.ones (n + 1)) (Z.of_nat t)) d (Z.shiftl (Z.ones n) (Z.of_nat t))).
    fold (runx d1 (map (fun t => (Subtract, Z.shiftl (Z.ones n) (Z.of_nat t), Z.shiftl (Z.ones (n + 1)) (Z.of_nat t))) (seq (S t) k))).
    assert (Hd1r : 0 <= d1 < 2^32).
    { unfold d1. rewrite <- (window_u32 (n + 1) (Z.of_nat t)), <- (window_u32 n (Z.of_nat t)) by lia. apply (do_modx_range Subtract); auto using u32_range. }
    assert (Hd1 : forall j, 0 <= j -> Z.testbit d1 j = if j =? Z.of_nat t then Z.testbit d (Z.of_nat t + n)
        else if (Z.of_nat t <? j) && (j <=? Z.of_nat t + n) then false else Z.testbit d j).
    { intros j Hj. apply sub_window; auto; lia. }
    rewrite IH; auto; try lia.
    2:{ intros j Hj. rewrite Hd1 by lia. destruct (Z.eqb_spec j (Z.of_nat t)); [lia|].
        destruct (Z.ltb_spec (Z.of_nat t) j), (Z.leb_spec j (Z.of_nat t + n)); try lia. reflexivity. }
    replace (S t + k)%nat with (t + S k)%nat by lia.
    rewrite !Hd1 by lia.
    destruct (Z.leb_spec (Z.of_nat (S t)) i), (Z.ltb_spec i (Z.of_nat (t + S k))), (Z.leb_spec (Z.of_nat t) i),
      (Z.leb_spec (Z.of_nat (t + S k)) i), (Z.ltb_spec i (Z.of_nat (t + S k) + n)); try lia; cbn [andb]; try reflexivity;
    destruct (Z.eqb_spec (i + n) (Z.of_nat t)), (Z.ltb_spec (Z.of_nat t) (i + n)), (Z.leb_spec (i + n) (Z.of_nat t + n)),
      (Z.eqb_spec i (Z.of_nat t)), (Z.ltb_spec (Z.of_nat t) i), (Z.leb_spec i (Z.of_nat t + n)); try lia; cbn [andb]; try reflexivity; f_equal; lia.
Qed.

Lemma irshift_val n d : 0 <= n -> 0 <= d < 2^32 ->
  runx d ((SetTo, 0, Z.ones n) :: ir_ops n 0 (Z.to_nat (32 - n))) = Z.shiftr d n.
Proof.
  intros Hn Hd. cbn [runx fold_left do_modx]. change (u32 0) with 0. set (d1 := wset (u32 (Z.ones n)) d 0).
  fold (runx d1 (ir_ops n 0 (Z.to_nat (32 - n)))).
  assert (Hd1r : 0 <= d1 < 2^32) by (apply (do_modx_range SetTo); [apply u32_range|lia|lia]).
  assert (Hsr : 0 <= Z.shiftr d n < 2^32).
  { rewrite Z.shiftr_div_pow2 by lia. pose proof (Z.pow_pos_nonneg 2 n). split; [apply Z.div_pos; lia|].
    apply Z.div_lt_upper_bound; nia. }
  apply (bits_ext 32); [lia|apply runx_range; lia|exact Hsr|].
  intros i Hi. rewrite Z.shiftr_spec by lia.
  destruct (Z.lt_ge_cases n 32).
  - assert (Hm : u32 (Z.ones n) = Z.ones n).
    { apply u32_small. rewrite Z.ones_equiv. pose proof (Z.pow_pos_nonneg 2 n).
      assert (2^n <= 2^32) by (apply Z.pow_le_mono_r; lia). lia. }
    assert (Hb : forall j, 0 <= j -> Z.testbit d1 j = Z.testbit d j && negb (j <? n)).
    { intros j Hj. unfold d1. rewrite wset0_bit, Hm, Z.testbit_ones by lia. destruct (Z.leb_spec 0 j); [|lia]. reflexivity. }
    rewrite ir_ops_bits; auto; try lia.
    + rewrite !Hb by lia.
      destruct (Z.leb_spec (Z.of_nat 0) i); [|lia].
      destruct (Z.ltb_spec i (Z.of_nat (0 + Z.to_nat (32 - n)))); cbn [andb].
      * destruct (Z.ltb_spec (i + n) n); [lia|]. apply andb_true_r.
      * destruct (Z.leb_spec (Z.of_nat (0 + Z.to_nat (32 - n))) i), (Z.ltb_spec i (Z.of_nat (0 + Z.to_nat (32 - n)) + n)); try lia.
        cbn [andb]. symmetry. apply (bounded_bits 32); lia.
  - replace (Z.to_nat (32 - n)) with 0%nat by lia. cbn [ir_ops seq map runx fold_left].
    unfold d1. rewrite wset0_bit, u32_ones, ones_bit32 by lia. rewrite andb_false_r. symmetry. apply (bounded_bits 32); lia.
Qed.

Section W.
Variable w : world.
Variable T : nat -> Z.
Variable a : Z.
Hypothesis Ha : valcell w a.

Lemma xacts_does k acts ops m : acts = xacts a ops -> placed w T k (Raw1 T k [] acts) ->
  does w T k (Raw1 T k [] acts) (tmp [] []) m [(a, runx (get m a) ops)].
Proof.
  intros -> Hp. destruct (xacts_do (W_prot w) a (proj1 (proj1 Ha)) (proj2 (proj1 Ha)) ops m) as (m' & A & B & C).
  eapply cell_does; eauto. apply conds_nil.
Qed.

Lemma lv_ilshift_does k n m : 0 <= n -> placed w T k (lv_ilshift T k a n) ->
  does w T k (lv_ilshift T k a n) (tmp [] []) m [(a, u32 (Z.shiftl (get m a) n))].
Proof.
  intros Hn Hp. rewrite <- ilshift_val by (auto; apply get_range). apply xacts_does; auto.
  unfold ilshift_acts, xacts. rewrite map_app. rewrite il_acts, shmask_half by lia. reflexivity.
Qed.
Lemma lv_irshift_does k n m : 0 <= n -> placed w T k (lv_irshift T k a n) ->
  does w T k (lv_irshift T k a n) (tmp [] []) m [(a, Z.shiftr (get m a) n)].
Proof.
  intros Hn Hp. rewrite <- irshift_val by (auto; apply get_range). apply xacts_does; auto.
  unfold irshift_acts, xacts, ir_ops. cbn [map]. rewrite map_map. rewrite shmask_half, shmask_ones by lia. reflexivity.
Qed.
End W.

(* number of actions: a trigger holds at most 64 (rawtriggerdef.py 134-138) *)
Lemma ilshift_loop_len a n t : length (ilshift_loop a n t) = (2 * t)%nat.
Proof. induction t as [|t IH]; auto. cbn [ilshift_loop length]. rewrite IH. lia. Qed.
Lemma ilshift_fits a n : 1 <= n -> (length (ilshift_acts a n) <= 64)%nat.
Proof. intros. unfold ilshift_acts. rewrite app_length, ilshift_loop_len. cbn [length]. lia. Qed.
Lemma ilshift_zero a : length (ilshift_acts a 0) = 65%nat.
Proof. unfold ilshift_acts. rewrite app_length, ilshift_loop_len. reflexivity. Qed.
Lemma irshift_fits a n : 0 <= n -> (length (irshift_acts a n) <= 64)%nat.
Proof. intros. unfold irshift_acts. cbn [length]. rewrite map_length, seq_length. lia. Qed.
