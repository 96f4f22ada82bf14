(* Property C52: angles and lengths. *)
From Coq Require Import ZArith Lia List Bool ZifyBool ZifyNat.
From Verif Require Import Word Machine MachineProofs WordX MathModel TrigoModel.
Import ListNotations.
Open Scope Z_scope.

(* 32-bit words read as signed numbers *)
Definition sgn (x : Z) : Z := if x <? 2^31 then x else x - 2^32.

Lemma flip_add_eq x n : 0 <= x < 2^32 -> flip_add x n = u32 (n - 1 - x).
Proof.
  intros H. unfold flip_add, addx, do_modx, add. change 0x55555555 with k5. change 0xAAAAAAAA with kA. rewrite xor_two_adds by lia. rewrite xor_ones by exact H.
  unfold u32. replace (0xFFFFFFFF - x + n) with (n - 1 - x + 1 * 2^32) by lia. apply Z.mod_add. lia.
Qed.
Lemma at_signs_eq y x : 0 <= y < 2^32 -> 0 <= x < 2^32 ->
  let X := Z.abs (sgn x) in let Y := Z.abs (sgn y) in
  at_signs y x = ((if sgn x <? 0 then 1 else 0) + (if sgn y <? 0 then 2 else 0) + (if X <=? Y then 4 else 0), Z.max X Y, Z.min X Y).
Proof.
  intros Hy Hx. unfold at_signs.
  assert (N : forall f k z, 0 <= z < 2^32 -> 0 <= f -> 0 <= k -> f + k < 8 -> (if 0x80000000 <=? z then (add f k, flip_add z 1) else (f, z)) = (f + (if sgn z <? 0 then k else 0), Z.abs (sgn z))).
  { intros f k z Hz Hf Hk Hfk. unfold sgn. destruct (Z.leb_spec 0x80000000 z), (Z.ltb_spec z (2^31)); try lia.
    - replace (z - 2^32 <? 0) with true by lia. rewrite flip_add_eq by lia. unfold add. rewrite u32_small by lia. f_equal.
      unfold u32. rewrite <- (Z.mod_add _ 1) by lia. rewrite Z.mod_small; lia.
    - replace (z <? 0) with false by lia. f_equal; lia. }
  cbv zeta. rewrite N by lia. rewrite N by (destruct (sgn x <? 0); lia). set (f := 0 + _ + _). assert (0 <= f <= 3) by (subst f; destruct (sgn x <? 0), (sgn y <? 0); lia).
  destruct (Z.leb_spec (Z.abs (sgn x)) (Z.abs (sgn y))).
  - unfold add. rewrite u32_small by lia. rewrite Z.max_r, Z.min_l by lia. reflexivity.
  - rewrite Z.max_l, Z.min_r by lia. rewrite Z.add_0_r. reflexivity.
Qed.
Lemma at_norm_spec n x y : 2 <= n < 2^31 -> 0 <= y <= x -> x <= 2^31 -> 0 < x ->
  0 <= snd (at_norm n x y) <= fst (at_norm n x y) /\ 0 < fst (at_norm n x y) < n.
Proof.
  intros Hn Hy Hx Hp. unfold at_norm. destruct (Z.leb_spec n x) as [L|L]; [|cbn [fst snd]; lia].
  unfold quo, f_div, add. replace (n =? 0) with false by lia. cbn [fst].
  assert (D : 0 <= x / n) by (apply Z.div_pos; lia). assert (D2 : x / n <= x / 2) by (apply Z.div_le_compat_l; lia).
  assert (D3 : 2 * (x / 2) <= x) by (apply Z.mul_div_le; lia).
  rewrite u32_small by lia. set (d := x / n + 1) in *. replace (d =? 0) with false by lia. cbn [fst snd].
  assert (x < d * n) by (unfold d; pose proof (Z.mod_pos_bound x n ltac:(lia)); pose proof (Z.div_mod x n ltac:(lia)); nia).
  split; [split; [apply Z.div_pos; lia|apply Z.div_le_mono; lia]|].
  split; [|apply Z.div_lt_upper_bound; lia]. apply Z.div_str_pos. unfold d in *. lia.
Qed.
(* the cubic the code evaluates, as a rational number with denominator x^3 *)
Definition cubic (x y : Z) : Z := 59 * (y * x * x) - 10 * (y * y * x) - 4 * (y * y * y).
Lemma cubic_range x y : 0 <= y <= x -> 0 <= cubic x y <= 45 * (x * x * x).
Proof.
  intros H. unfold cubic. set (d := x - y). assert (0 <= d) by lia. assert (0 <= y) by lia. assert (E : x = y + d) by lia. clearbody d. subst x. clear H.
  assert (0 <= y * y * y) by nia. assert (0 <= y * y * d) by nia. assert (0 <= y * d * d) by nia. assert (0 <= d * d * d) by nia. nia.
Qed.
Lemma at_value_eq x y : 0 <= y <= x -> 0 < x < 400 -> at_value x y = cubic x y / (x * x * x).
Proof.
  intros Hy Hx. unfold at_value, mul32, sub32, add. pose proof (cubic_range x y Hy) as R.
  assert (X3 : x * x * x <= 399 * 399 * 399) by nia. assert (X1 : 1 <= x * x * x) by nia. assert (X2 : 0 <= x * x <= 399 * 399) by nia.
  rewrite (u32_small (x * x)), (u32_small (x * (x * x))), (u32_small (45 * (x * x))), (u32_small (14 * x)), (u32_small (4 * y)), (u32_small (14 * x + 4 * y)) by lia.
  rewrite u32_mul_l, u32_sub_r. rewrite (u32_small (45 * (x * x) - _)) by nia.
  replace (y * _) with (cubic x y) by (unfold cubic; ring). rewrite u32_small by lia.
  unfold quo, f_div. replace (x * (x * x)) with (x * x * x) by ring. replace (x * x * x =? 0) with false by lia. reflexivity.
Qed.
Lemma at_value_256_eq x y : 0 <= y <= x -> 0 < x < 128 -> at_value_256 x y = 32 * cubic x y / (45 * (x * x * x)).
Proof.
  intros Hy Hx. unfold at_value_256, mul32, sub32, add. pose proof (cubic_range x y Hy) as R.
  assert (X3 : x * x * x <= 127 * 127 * 127) by nia. assert (X1 : 1 <= x * x * x) by nia. assert (X2 : 0 <= x * x <= 127 * 127) by nia.
  rewrite (u32_small (x * x)), (u32_small (45 * (x * x))), (u32_small (x * (45 * (x * x)))), (u32_small (14 * x)), (u32_small (4 * y)), (u32_small (14 * x + 4 * y)) by lia.
  rewrite u32_mul_l, u32_sub_r. rewrite (u32_small (45 * (x * x) - _)) by nia. rewrite (u32_small (32 * _)) by nia.
  replace (y * _) with (32 * cubic x y) by (unfold cubic; ring). rewrite u32_small by lia.
  unfold quo, f_div. replace (x * (45 * (x * x))) with (45 * (x * x * x)) by ring. replace (45 * (x * x * x) =? 0) with false by lia. reflexivity.
Qed.
Lemma at_value_range x y : 0 <= y <= x -> 0 < x < 400 -> 0 <= at_value x y <= 45.
Proof.
  intros Hy Hx. rewrite at_value_eq by assumption. pose proof (cubic_range x y Hy). assert (0 < x * x * x) by nia.
  split; [apply Z.div_pos; lia|]. apply Z.lt_succ_r, Z.div_lt_upper_bound; nia.
Qed.
Lemma at_value_256_range x y : 0 <= y <= x -> 0 < x < 128 -> 0 <= at_value_256 x y <= 32.
Proof.
  intros Hy Hx. rewrite at_value_256_eq by assumption. pose proof (cubic_range x y Hy). assert (0 < x * x * x) by nia.
  split; [apply Z.div_pos; lia|]. apply Z.lt_succ_r, Z.div_lt_upper_bound; nia.
Qed.
(* where the direction (X, Y) lies, in eighths of the full turn, anticlockwise from
   the positive X axis; the cases with |X| = |Y| belong to the sector next to the Y axis *)
Definition sector (X Y : Z) : Z :=
  if Z.abs Y <? Z.abs X then (if 0 <? X then (if 0 <=? Y then 0 else 7) else (if 0 <=? Y then 3 else 4))
  else (if 0 <=? Y then (if 0 <=? X then 1 else 2) else (if 0 <=? X then 6 else 5)).
Lemma sector_range X Y : let s := sector X Y in s = 0 \/ s = 1 \/ s = 2 \/ s = 3 \/ s = 4 \/ s = 5 \/ s = 6 \/ s = 7.
Proof. unfold sector. destruct (Z.abs Y <? Z.abs X), (0 <? X), (0 <=? Y), (0 <=? X); cbv zeta; lia. Qed.
(* the angle of the code: floor of the cubic from the nearer axis *)
Lemma at_turn_eq full x y v : (full = 360 \/ full = 256) -> 0 <= v <= full / 8 ->
  let X := sgn x in let Y := sgn y in
  at_turn full ((if X <? 0 then 1 else 0) + (if Y <? 0 then 2 else 0) + (if Z.abs X <=? Z.abs Y then 4 else 0)) v =
  match sector X Y with 0 => v | 1 => full / 4 - v | 2 => full / 4 + v | 3 => full / 2 - v | 4 => full / 2 + v | 5 => full * 3 / 4 - v | 6 => full * 3 / 4 + v | _ => full - v end.
Proof.
  intros Hf Hv X Y. assert (F : 0 <= v <= 45 /\ full <= 360) by (destruct Hf as [-> | ->]; [change (360 / 8) with 45 in Hv|change (256 / 8) with 32 in Hv]; lia).
  unfold sector. 
  destruct (Z.ltb_spec X 0), (Z.ltb_spec Y 0), (Z.leb_spec (Z.abs X) (Z.abs Y)), (Z.ltb_spec (Z.abs Y) (Z.abs X)), (Z.ltb_spec 0 X), (Z.leb_spec 0 Y), (Z.leb_spec 0 X); try lia;
    cbn [Z.add Pos.add]; unfold at_turn; match goal with |- context [Z.land ?a 7] => let z := eval vm_compute in (Z.land a 7) in change (Z.land a 7) with z end; cbv iota;
    try reflexivity; rewrite ?flip_add_eq by lia; unfold add; destruct Hf as [-> | ->];
    repeat match goal with |- context [?a / ?b] => let z := eval vm_compute in (a / b) in change (a / b) with z end; rewrite u32_small; lia.
Qed.
Lemma sgn_nz x y : 0 <= x < 2^32 -> 0 <= y < 2^32 -> y <> 0 \/ x <> 0 -> sgn x <> 0 \/ sgn y <> 0.
Proof. intros Hx Hy H. unfold sgn. destruct (Z.ltb_spec x (2^31)), (Z.ltb_spec y (2^31)); lia. Qed.
Lemma abs_sgn x : 0 <= x < 2^32 -> -2^31 <= sgn x < 2^31.
Proof. unfold sgn. destruct (Z.ltb_spec x (2^31)); lia. Qed.
(* f_atan2: for every pair of words except (0, 0) the result lies in the right
   eighth of the circle (borders included). *)
Theorem C52_atan2_sector : forall y x, 0 <= y < 2^32 -> 0 <= x < 2^32 -> (y <> 0 \/ x <> 0) ->
  let s := sector (sgn x) (sgn y) in 45 * s <= f_atan2 y x <= 45 * s + 45.
Proof.
  intros y x Hy Hx Hn s. unfold f_atan2. rewrite at_signs_eq by assumption. pose proof (abs_sgn x Hx). pose proof (abs_sgn y Hy).
  pose proof (sgn_nz x y Hx Hy Hn) as NZ.
  destruct (at_norm_spec 400 (Z.max (Z.abs (sgn x)) (Z.abs (sgn y))) (Z.min (Z.abs (sgn x)) (Z.abs (sgn y)))) as [N1 N2]; try lia.
  destruct (at_norm _ _ _) as [x' y']. cbn [fst snd] in *. pose proof (at_value_range x' y' N1 N2) as V. set (v := at_value x' y') in *. clearbody v.
  rewrite at_turn_eq by (try (left; reflexivity); change (360 / 8) with 45; lia). fold s. change (360 / 4) with 90. change (360 / 2) with 180. change (360 * 3 / 4) with 270.
  assert (S8 : s = 0 \/ s = 1 \/ s = 2 \/ s = 3 \/ s = 4 \/ s = 5 \/ s = 6 \/ s = 7).
  { apply sector_range. }
  destruct S8 as [-> |[-> |[-> |[-> |[-> |[-> |[-> | ->]]]]]]]; lia.
Qed.

(* arguments below 400 are not scaled: the exact angle *)
Theorem C52_atan2_value : forall y x, 0 <= y < 2^32 -> 0 <= x < 2^32 -> (y <> 0 \/ x <> 0) ->
  Z.abs (sgn x) < 400 -> Z.abs (sgn y) < 400 ->
  let hi := Z.max (Z.abs (sgn x)) (Z.abs (sgn y)) in let lo := Z.min (Z.abs (sgn x)) (Z.abs (sgn y)) in
  let v := (59 * lo * hi^2 - 10 * lo^2 * hi - 4 * lo^3) / hi^3 in
  f_atan2 y x = match sector (sgn x) (sgn y) with 0 => v | 1 => 90 - v | 2 => 90 + v | 3 => 180 - v | 4 => 180 + v | 5 => 270 - v | 6 => 270 + v | _ => 360 - v end.
Proof.
  intros y x Hy Hx Hn Bx By hi lo v. unfold f_atan2. rewrite at_signs_eq by assumption. fold hi lo.
  pose proof (sgn_nz x y Hx Hy Hn) as NZ.
  assert (HL : 0 <= lo <= hi /\ 0 < hi < 400) by (clear v; lia). clearbody hi lo. destruct HL as [HL1 HL2].
  unfold at_norm. replace (400 <=? hi) with false by lia.
  assert (V := at_value_eq hi lo HL1 HL2). pose proof (at_value_range hi lo HL1 HL2) as R.
  rewrite at_turn_eq by (try (left; reflexivity); change (360 / 8) with 45; lia).
  replace (at_value hi lo) with v; [reflexivity|]. rewrite V. unfold v, cubic. f_equal; ring.
Qed.
Theorem C52_atan2_256_sector : forall y x, 0 <= y < 2^32 -> 0 <= x < 2^32 -> (y <> 0 \/ x <> 0) ->
  let s := sector (sgn x) (sgn y) in
  exists v, 32 * s <= v <= 32 * s + 32 /\ f_atan2_256 y x = if v =? 256 then 320 else (v + 64) mod 256.
Proof.
  intros y x Hy Hx Hn s. unfold f_atan2_256. rewrite at_signs_eq by assumption. pose proof (abs_sgn x Hx). pose proof (abs_sgn y Hy).
  pose proof (sgn_nz x y Hx Hy Hn) as NZ.
  destruct (at_norm_spec 128 (Z.max (Z.abs (sgn x)) (Z.abs (sgn y))) (Z.min (Z.abs (sgn x)) (Z.abs (sgn y)))) as [N1 N2]; try lia.
  destruct (at_norm _ _ _) as [x' y']. cbn [fst snd] in *. pose proof (at_value_256_range x' y' N1 N2) as V. set (v := at_value_256 x' y') in *. clearbody v.
  rewrite at_turn_eq by (try (right; reflexivity); change (256 / 8) with 32; lia). fold s. change (256 / 4) with 64. change (256 / 2) with 128. change (256 * 3 / 4) with 192.
  eexists. split; [|].
  2:{ assert (A : forall u, 0 <= u <= 256 -> addx u 64 255 = if u =? 256 then 320 else (u + 64) mod 256).
      { intros u Hu. destruct (Z.eqb_spec u 256) as [->|Nu]; [reflexivity|]. unfold addx, do_modx, wadd.
        change 255 with (Z.ones 8). rewrite !Z.land_ones by lia. rewrite Z.ldiff_ones_r, Z.shiftr_div_pow2 by lia. change (2^8) with 256. rewrite (Z.div_small u) by lia. rewrite Z.shiftl_0_l, Z.lor_0_l.
        rewrite (Z.mod_small u) by lia. reflexivity. }
      apply A. destruct (sector_range (sgn x) (sgn y)) as [E|[E|[E|[E|[E|[E|[E|E]]]]]]]; unfold s; rewrite E; lia. }
  destruct (sector_range (sgn x) (sgn y)) as [E|[E|[E|[E|[E|[E|[E|E]]]]]]]; unfold s; rewrite E; lia.
Qed.
(* The range claim fails just below the positive X axis: the result is 360 (320 of
   256) and not 0 (64). *)
Theorem C52_atan2_range_refuted : f_atan2 (2^32 - 1) 1000 = 360 /\ f_atan2_256 (2^32 - 1) 1000 = 320.
Proof. split; vm_compute; reflexivity. Qed.
Theorem C52_atan2_zero_refuted : f_atan2 0 0 = 91 /\ f_atan2_256 0 0 = 129.
Proof. split; vm_compute; reflexivity. Qed.

(* ---------- lengthdir ---------- *)
(* The tables are the rounded sines: at every index the point is on the circle and
   the next index is one step of the same rotation further, up to rounding. *)
Definition step_ok (t : list Z) (i : Z) : bool :=
  (Z.abs (tab t i * tab t i + cos_tab t i * cos_tab t i - 2^32) <=? 72284) &&
  (Z.abs (tab t i * cos_tab t 1 + cos_tab t i * tab t 1 - 2^16 * tab t (i + 1)) <=? 2^17) && (0 <=? tab t i) && (tab t i <=? tab t (i + 1)).
Definition range_ok (t : list Z) (i : Z) : bool :=
  (0 <=? tab t i) && (tab t i <=? 65536) && (0 <=? cos_tab t i) && (cos_tab t i <=? 65536) && (tab t i * tab t i + cos_tab t i * cos_tab t i - 2^32 <=? 67177) && (-72284 <=? tab t i * tab t i + cos_tab t i * cos_tab t i - 2^32).
Lemma below n i (f : Z -> bool) : forallb (fun k => f (Z.of_nat k)) (seq 0 n) = true -> 0 <= i < Z.of_nat n -> f i = true.
Proof. intros H Hi. rewrite forallb_forall in H. specialize (H (Z.to_nat i)). rewrite Z2Nat.id in H by lia. apply H, in_seq. lia. Qed.
Theorem C52_tables :
  (forall i, 0 <= i < 90 -> step_ok sin_table i = true) /\ (forall i, 0 <= i < 64 -> step_ok sin_table_256 i = true) /\
  tab sin_table 0 = 0 /\ tab sin_table 30 = 2^15 /\ tab sin_table 90 = 2^16 /\ tab sin_table_256 0 = 0 /\ tab sin_table_256 64 = 2^16 /\ tab sin_table_256 32 = cos_tab sin_table_256 32.
Proof.
  split; [|split; [|repeat split; vm_compute; reflexivity]].
  - intros i Hi. apply (below 90); [vm_compute; reflexivity|exact Hi].
  - intros i Hi. apply (below 64); [vm_compute; reflexivity|exact Hi].
Qed.
Lemma range_90 i : 0 <= i <= 90 -> range_ok sin_table i = true.
Proof. intros Hi. apply (below 91); [vm_compute; reflexivity|lia]. Qed.
Lemma range_64 i : 0 <= i <= 64 -> range_ok sin_table_256 i = true.
Proof. intros Hi. apply (below 65); [vm_compute; reflexivity|lia]. Qed.
(* q: quarter turn; a: reduced angle *)
Definition quad (q a : Z) : Z := a / q.
Lemma ld_quadrant_eq q a : (q = 90 \/ q = 64) -> 0 <= a < 4 * q ->
  ld_quadrant q a = match quad q a with 0 => (0, a) | 1 => (1, 2 * q - a) | 2 => (3, a - 2 * q) | _ => (2, 4 * q - a) end.
Proof.
  intros Hq Ha. unfold ld_quadrant, quad, sub_sat, add.
  destruct (Z.leb_spec a (q - 1)); [rewrite (Z.div_small a q) by lia; reflexivity|].
  destruct (Z.leb_spec a (2 * q - 1)); [replace (a / q) with 1 by (apply (Z.div_unique_pos _ _ _ (a - q)); lia); f_equal; lia|].
  destruct (Z.leb_spec a (3 * q - 1)); [replace (a / q) with 2 by (apply (Z.div_unique_pos _ _ _ (a - 2 * q)); lia); f_equal; rewrite u32_add_l, u32_small; lia|].
  replace (a / q) with 3 by (apply (Z.div_unique_pos _ _ _ (a - 3 * q)); lia). f_equal. lia.
Qed.
(* the length scaled by a table value, rounded down *)
Lemma scaled c l : 0 <= c <= 65536 -> 0 <= l < 65536 -> quo (mul32 c l) 65536 = c * l / 65536 /\ 0 <= c * l / 65536 <= l.
Proof.
  intros Hc Hl. unfold quo, f_div, mul32. assert (0 <= c * l <= 65536 * 65535) by nia. rewrite u32_small by lia. split; [reflexivity|].
  split; [apply Z.div_pos; lia|]. apply Z.div_le_upper_bound; nia.
Qed.
Lemma sgn_flip x : 0 <= x < 65536 -> sgn x = x /\ sgn (flip_add x 1) = - x.
Proof.
  intros H. rewrite flip_add_eq by lia. unfold sgn. replace (x <? 2^31) with true by lia. split; [reflexivity|]. destruct (Z.eq_dec x 0) as [->|N]; [reflexivity|].
  unfold u32. rewrite <- (Z.mod_add _ 1) by lia. rewrite Z.mod_small by lia. destruct (Z.ltb_spec (1 - 1 - x + 1 * 2^32) (2^31)); lia.
Qed.
Definition mirror (q a : Z) : Z := match quad q a with 0 => a | 1 => 2 * q - a | 2 => a - 2 * q | _ => 4 * q - a end.
Definition xneg (q a : Z) : bool := (quad q a =? 1) || (quad q a =? 2).
Definition yneg (q a : Z) : bool := 2 <=? quad q a.
Lemma ld_main q t l a : (q = 90 \/ q = 64) -> (forall i, 0 <= i <= q -> range_ok t i = true) -> 0 <= a < 4 * q -> 0 <= l < 65536 ->
  let '(sign, k) := ld_quadrant q a in
  let '(x, y) := ld_xy t l sign k in
  let X := cos_tab t (mirror q a) * l / 65536 in let Y := tab t (mirror q a) * l / 65536 in
  sgn x = (if xneg q a then - X else X) /\ sgn y = (if yneg q a then - Y else Y) /\
  0 <= X <= l /\ 0 <= Y <= l /\ X * X + Y * Y < (l + 1) * (l + 1) /\ (8 <= l -> (l - 3) * (l - 3) <= X * X + Y * Y).
Proof.
  intros Hq Ht Ha Hl. rewrite ld_quadrant_eq by assumption.
  assert (Q : quad q a = 0 /\ a < q \/ quad q a = 1 /\ q <= a < 2 * q \/ quad q a = 2 /\ 2 * q <= a < 3 * q \/ quad q a = 3 /\ 3 * q <= a < 4 * q).
  { unfold quad. destruct (Z.lt_ge_cases a q); [left; split; [apply Z.div_small; lia|lia]|]. right. destruct (Z.lt_ge_cases a (2 * q)); [left; split; [symmetry; apply (Z.div_unique_pos _ _ _ (a - q)); lia|lia]|].
    right. destruct (Z.lt_ge_cases a (3 * q)); [left; split; [symmetry; apply (Z.div_unique_pos _ _ _ (a - 2 * q)); lia|lia]|]. right. split; [symmetry; apply (Z.div_unique_pos _ _ _ (a - 3 * q)); lia|lia]. }
  assert (M : 0 <= mirror q a <= q) by (unfold mirror; destruct Q as [[-> ?]|[[-> ?]|[[-> ?]|[-> ?]]]]; lia).
  specialize (Ht _ M). unfold range_ok in Ht. repeat (apply andb_true_iff in Ht as [Ht ?]).
  assert (BND : let X := cos_tab t (mirror q a) * l / 65536 in let Y := tab t (mirror q a) * l / 65536 in
    0 <= X <= l /\ 0 <= Y <= l /\ X * X + Y * Y < (l + 1) * (l + 1) /\ (8 <= l -> (l - 3) * (l - 3) <= X * X + Y * Y)).
  { set (c := cos_tab t (mirror q a)) in *. set (s := tab t (mirror q a)) in *. intros X Y.
    destruct (scaled c l) as [_ X0]; [lia|lia|]. destruct (scaled s l) as [_ Y0]; [lia|lia|]. fold X in X0. fold Y in Y0. split; [exact X0|]. split; [exact Y0|].
    assert (X1 : 65536 * X <= c * l) by (apply Z.mul_div_le; lia). assert (Y1 : 65536 * Y <= s * l) by (apply Z.mul_div_le; lia).
    assert (X2 : c * l < 65536 * (X + 1)) by (unfold X; pose proof (Z.mod_pos_bound (c * l) 65536 ltac:(lia)); pose proof (Z.div_mod (c * l) 65536 ltac:(lia)); lia).
    assert (Y2 : s * l < 65536 * (Y + 1)) by (unfold Y; pose proof (Z.mod_pos_bound (s * l) 65536 ltac:(lia)); pose proof (Z.div_mod (s * l) 65536 ltac:(lia)); lia).
    clearbody X Y c s. assert (LL : l * l <= 65535 * l) by (apply Z.mul_le_mono_nonneg_r; lia). split.
    - assert (65536 * X * (65536 * X) <= c * l * (c * l)) by (apply Z.mul_le_mono_nonneg; lia). assert (65536 * Y * (65536 * Y) <= s * l * (s * l)) by (apply Z.mul_le_mono_nonneg; lia).
      assert ((c * c + s * s) * (l * l) <= (2^32 + 67177) * (l * l)) by (apply Z.mul_le_mono_nonneg_r; [apply Z.square_nonneg|lia]). lia.
    - intros L8. assert (U : X * X + Y * Y < (l + 1) * (l + 1)).
      { assert (65536 * X * (65536 * X) <= c * l * (c * l)) by (apply Z.mul_le_mono_nonneg; lia). assert (65536 * Y * (65536 * Y) <= s * l * (s * l)) by (apply Z.mul_le_mono_nonneg; lia).
        assert ((c * c + s * s) * (l * l) <= (2^32 + 67177) * (l * l)) by (apply Z.mul_le_mono_nonneg_r; [apply Z.square_nonneg|lia]). lia. }
      assert (SUM : 2 * (X + Y) <= 3 * (l + 1)).
      { apply Z.le_ngt. intros K. assert (3 * (l + 1) * (3 * (l + 1)) < 2 * (X + Y) * (2 * (X + Y))) by (apply Z.mul_lt_mono_nonneg; lia). pose proof (Z.square_nonneg (X - Y)). nia. }
      assert (c * l * (c * l) <= 65536 * (X + 1) * (65536 * (X + 1))) by (apply Z.mul_le_mono_nonneg; nia). assert (s * l * (s * l) <= 65536 * (Y + 1) * (65536 * (Y + 1))) by (apply Z.mul_le_mono_nonneg; nia).
      assert ((2^32 - 72284) * (l * l) <= (c * c + s * s) * (l * l)) by (apply Z.mul_le_mono_nonneg_r; [apply Z.square_nonneg|lia]). lia. }
  assert (XS : forall l', 0 <= l' <= l -> sgn l' = l' /\ sgn (flip_add l' 1) = - l') by (intros; apply sgn_flip; lia).
  assert (GEN : forall sign k, k = mirror q a -> ExactlyX sign 1 1 = xneg q a -> ExactlyX sign 2 2 = yneg q a ->
    let '(x, y) := ld_xy t l sign k in
    let X := cos_tab t (mirror q a) * l / 65536 in let Y := tab t (mirror q a) * l / 65536 in
    sgn x = (if xneg q a then - X else X) /\ sgn y = (if yneg q a then - Y else Y)).
  { intros sign k -> E1 E2. unfold ld_xy. rewrite E1, E2. destruct (scaled (cos_tab t (mirror q a)) l) as [-> X0]; [lia|lia|]. destruct (scaled (tab t (mirror q a)) l) as [-> Y0]; [lia|lia|].
    cbv zeta. destruct (XS _ X0), (XS _ Y0). destruct (xneg q a), (yneg q a); auto. }
  cbv zeta in BND.
  destruct Q as [[Q ?]|[[Q ?]|[[Q ?]|[Q ?]]]]; rewrite Q;
    match goal with |- let '(x, y) := ld_xy t l ?sg ?k in _ => specialize (GEN sg k) end;
    destruct (ld_xy _ _ _ _) as [x y]; cbv zeta in GEN |- *;
    (destruct GEN as [G1 G2]; [unfold mirror; rewrite Q; reflexivity|unfold xneg; rewrite Q; reflexivity|unfold yneg; rewrite Q; reflexivity|tauto]).
Qed.
(* f_lengthdir for a length below 65536 and any angle: the coordinates are the
   length times the table values, rounded towards zero, with the signs of the
   quadrant; neither exceeds the length, and the magnitude is within the length + 1. *)
Theorem C52_lengthdir : forall l a, 0 <= l < 65536 -> 0 <= a < 2^32 ->
  let '(x, y) := f_lengthdir l a in
  let a := a mod 360 in
  let X := cos_tab sin_table (mirror 90 a) * l / 65536 in let Y := tab sin_table (mirror 90 a) * l / 65536 in
  sgn x = (if xneg 90 a then - X else X) /\ sgn y = (if yneg 90 a then - Y else Y) /\
  0 <= X <= l /\ 0 <= Y <= l /\ X * X + Y * Y < (l + 1) * (l + 1) /\ (8 <= l -> (l - 3) * (l - 3) <= X * X + Y * Y).
Proof.
  intros l a Hl Ha. unfold f_lengthdir.
  replace (if 360 <=? a then snd (f_div a 360) else a) with (a mod 360).
  2:{ destruct (Z.leb_spec 360 a); [reflexivity|apply Z.mod_small; lia]. }
  assert (B := ld_main 90 sin_table l (a mod 360) (or_introl eq_refl) range_90 ltac:(pose proof (Z.mod_pos_bound a 360 ltac:(lia)); lia) Hl).
  destruct (ld_quadrant 90 (a mod 360)) as [sg k]. exact B.
Qed.
Theorem C52_lengthdir_256 : forall l a, 0 <= l < 65536 -> 0 <= a < 2^32 ->
  let '(x, y) := f_lengthdir_256 l a in
  let a := (a - 64) mod 256 in
  let X := cos_tab sin_table_256 (mirror 64 a) * l / 65536 in let Y := tab sin_table_256 (mirror 64 a) * l / 65536 in
  sgn x = (if xneg 64 a then - X else X) /\ sgn y = (if yneg 64 a then - Y else Y) /\
  0 <= X <= l /\ 0 <= Y <= l /\ X * X + Y * Y < (l + 1) * (l + 1) /\ (8 <= l -> (l - 3) * (l - 3) <= X * X + Y * Y).
Proof.
  intros l a Hl Ha. unfold f_lengthdir_256.
  replace (do_modx SetTo (u32 (Z.lnot 255)) (add a 192) 0) with ((a - 64) mod 256).
  2:{ unfold do_modx, wset, add. rewrite Z.land_0_l, Z.lor_0_r. change (u32 (Z.lnot 255)) with 0xFFFFFF00.
      apply (bits_ext 32); [lia| | |].
      - pose proof (Z.mod_pos_bound (a - 64) 256 ltac:(lia)). lia.
      - apply ldiff_range; [lia|apply u32_range].
      - intros i Hi. rewrite Z.ldiff_spec. change 0xFFFFFF00 with (Z.lxor (Z.ones 32) (Z.ones 8)). rewrite Z.lxor_spec, !Z.testbit_ones_nonneg by lia.
        replace (a - 64) with (a + 192 + (-1) * 256) by lia. rewrite Z.mod_add by lia. unfold u32. change 256 with (2^8).
        destruct (Z.lt_ge_cases i 8).
        + rewrite !Z.mod_pow2_bits_low by lia. replace (i <? 8) with true by lia. replace (i <? 32) with true by lia. rewrite andb_true_r. reflexivity.
        + rewrite Z.mod_pow2_bits_high by lia. replace (i <? 8) with false by lia. replace (i <? 32) with true by lia. rewrite andb_false_r. reflexivity. }
  assert (B := ld_main 64 sin_table_256 l ((a - 64) mod 256) (or_intror eq_refl) range_64 ltac:(pose proof (Z.mod_pos_bound (a - 64) 256 ltac:(lia)); lia) Hl).
  destruct (ld_quadrant 64 ((a - 64) mod 256)) as [sg k]. exact B.
Qed.
(* The magnitude can exceed the length: rounding of the table (5 degrees, length
   2892: 2881^2 + 252^2 = 2892^2 + 1). *)
Theorem C52_lengthdir_magnitude_refuted : exists l a, 0 <= l < 65536 /\ 0 <= a < 360 /\ let '(x, y) := f_lengthdir l a in l * l < x * x + y * y.
Proof. exists 2892, 5. repeat split; vm_compute; congruence. Qed.
(* lengths from 65536 on overflow; a negative angle is reduced modulo 2^32 first,
   which is not a multiple of 360: -90 degrees acts as 166 *)
Theorem C52_lengthdir_overflow_refuted : f_lengthdir 65536 0 = (0, 0) /\ f_lengthdir 1000 (2^32 - 90) = f_lengthdir 1000 166.
Proof. split; vm_compute; reflexivity. Qed.
Example C52_example : f_atan2 3 4 = 36 /\ sector 4 3 = 0 /\ f_atan2 (2^32 - 3) (2^32 - 4) = 216 /\ f_lengthdir 1000 150 = (2^32 - 866, 500) /\ f_lengthdir_256 100 0 = (0, 2^32 - 100).
Proof. repeat split; vm_compute; reflexivity. Qed.
Print Assumptions C52_atan2_sector.
Print Assumptions C52_atan2_value.
Print Assumptions C52_atan2_256_sector.
Print Assumptions C52_atan2_range_refuted.
Print Assumptions C52_atan2_zero_refuted.
Print Assumptions C52_tables.
Print Assumptions C52_lengthdir.
Print Assumptions C52_lengthdir_256.
Print Assumptions C52_lengthdir_magnitude_refuted.
Print Assumptions C52_lengthdir_overflow_refuted.
