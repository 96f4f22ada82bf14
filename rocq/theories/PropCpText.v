(* Property C63: texts and numbers printed at the current player. *)
From Coq Require Import ZArith Lia List Bool ZifyBool ZifyNat.
From Verif Require Import Word Machine MachineProofs VarModel ReadModel BwModel PropBw BlkModel PropBlk PropMem ParseModel PropParse TextModel PropText CpTextModel.
Import ListNotations.
Open Scope Z_scope.

(* ---------- specification ---------- *)
(* texts are filled up to whole cells of four bytes with '\r' *)
Definition pad4 (t : list Z) : list Z := t ++ repeat 13 (Z.to_nat ((- len t) mod 4)).
Definition cell_addr (e : Z) : Z := 0x58A364 + 4 * e.
(* the bytes s appear from A on; apart from the cell after them nothing else changes *)
Definition shown (m m' : mem) (A : Z) (s : list Z) : Prop :=
  (forall i, (i < length s)%nat -> byte m' (A + Z.of_nat i) = nth i s 0) /\
  (forall x, (forall i, 0 <= i < len s + 4 -> u32 x <> u32 (A + i)) -> byte m' x = byte m x).
(* the text of an argument; a CPString made from a number n shows n times '\r' *)
Inductive citem_text (m : mem) (d n : Z) : citem -> list Z -> Prop :=
| ct_of : forall it s, item_text m d n it s -> citem_text m d n (COf it) s
| ct_bytes : forall b, Forall isbyte b -> citem_text m d n (CCps (SrcBytes b)) b
| ct_int : forall k, citem_text m d n (CCps (SrcInt k)) (repeat 13 (Z.to_nat k)).

(* ---------- addresses ---------- *)
Lemma byte_cong m x y : u32 x = u32 y -> byte m x = byte m y.
Proof. intros H. apply same_addr_iff in H as [H1 H2]. unfold byte. rewrite (get_cong m _ _ H1), H2. reflexivity. Qed.
Lemma cell_split e i : (cell_addr e + i) / 4 - 0x58A364 / 4 = e + i / 4 /\ (cell_addr e + i) mod 4 = i mod 4.
Proof. unfold cell_addr. split; Z.div_mod_to_equations; lia. Qed.
Lemma byte_cell m e i : byte m (cell_addr e + i) = ebyte m e i.
Proof. unfold byte, ebyte. destruct (cell_split e i) as [-> ->]. reflexivity. Qed.
Lemma cell_cong e e' : u32 e = u32 e' -> u32 (cell_addr e) = u32 (cell_addr e').
Proof. unfold cell_addr, u32. intros H. Z.div_mod_to_equations. lia. Qed.
Lemma cell_add e n : cell_addr (e + n) = cell_addr e + 4 * n.
Proof. unfold cell_addr. lia. Qed.
Lemma idx_cell e x k : idx (x / 4 - 0x58A364 / 4) = idx (e + k) -> u32 x = u32 (cell_addr e + (4 * k + x mod 4)).
Proof. intros H. apply (same_addr_iff x). destruct (cell_split e (4 * k + x mod 4)) as [-> ->]. split; [rewrite H; f_equal|]; Z.div_mod_to_equations; lia. Qed.
Lemma out_byte m m' e q x : (forall a, (forall k, 0 <= k < q -> idx a <> idx (e + k)) -> get m' a = get m a) ->
  (forall i, 0 <= i < 4 * q -> u32 x <> u32 (cell_addr e + i)) -> byte m' x = byte m x.
Proof.
  intros H Hx. unfold byte. rewrite H; [reflexivity|]. intros k Hk E. apply idx_cell in E. revert E. apply Hx. pose proof (Z.mod_pos_bound x 4). lia.
Qed.
Lemma shown_cong m m' A A' s : u32 A = u32 A' -> shown m m' A s -> shown m m' A' s.
Proof.
  intros E [H1 H2]. split.
  - intros i Hi. rewrite <- H1 by exact Hi. apply byte_cong. apply u32_eq_add. symmetry. exact E.
  - intros x Hx. apply H2. intros i Hi Q. apply (Hx i Hi). rewrite Q. apply u32_eq_add, E.
Qed.
Lemma shown_app m0 m1 m2 A s1 s2 : shown m0 m1 A s1 -> shown m1 m2 (A + len s1) s2 -> len s1 + len s2 + 4 <= 2^32 -> shown m0 m2 A (s1 ++ s2).
Proof.
  intros [A1 A2] [B1 B2] HL. split.
  - intros i Hi. rewrite app_length in Hi. destruct (Nat.lt_ge_cases i (length s1)) as [L|L].
    + rewrite app_nth1 by lia. rewrite B2; [apply A1; exact L|]. intros j Hj. replace (A + len s1 + j) with (A + Z.of_nat i + (len s1 + j - Z.of_nat i)) by lia. apply u32_far. lia.
    + rewrite app_nth2 by lia. rewrite <- B1 by lia. f_equal. lia.
  - intros x Hx. rewrite app_length in Hx. rewrite B2; [apply A2; intros i Hi; apply Hx; lia|].
    intros i Hi. specialize (Hx (len s1 + i) ltac:(lia)). rewrite Z.add_assoc in Hx. exact Hx.
Qed.
Lemma shown_nil m A : shown m m A [].
Proof. split; [intros i Hi; cbn in Hi; lia|reflexivity]. Qed.
Lemma pad4_len t : len (pad4 t) = len t + (- len t) mod 4 /\ len (pad4 t) mod 4 = 0 /\ len t <= len (pad4 t) <= len t + 3.
Proof. unfold pad4. rewrite app_length, repeat_length. pose proof (Z.mod_pos_bound (- len t) 4 ltac:(lia)). rewrite Nat2Z.inj_add, Z2Nat.id by lia. split; [reflexivity|]. split; Z.div_mod_to_equations; lia. Qed.
Lemma pad4_nth t i : (i < length (pad4 t))%nat -> nth i (pad4 t) 0 = nth i t 13.
Proof.
  unfold pad4. intros H. rewrite (nth_indep _ 0 13 H). clear H. destruct (Nat.lt_ge_cases i (length t)) as [L|L]; [apply app_nth1; lia|].
  rewrite app_nth2, (nth_overflow t) by lia. apply nth_repeat.
Qed.

(* ---------- the byte writer ---------- *)
Lemma cw_run_init e m bs : Forall isbyte bs -> len bs < 2^32 -> len bs mod 4 = 0 -> fst (fst (cw_run e m bs)) = cw_init.
Proof.
  destruct bs as [|x bs _] using rev_ind; [reflexivity|]. intros HF HL HM. apply Forall_app in HF as [HF Hx]. apply Forall_inv in Hx. rewrite app_length in *. cbn [length] in *.
  pose proof (cw_step e m bs HF ltac:(lia)) as I. unfold cw_run in *. rewrite fold_left_app. cbn [fold_left]. destruct (fold_left cw_write bs (cw_init, e, m)) as [[c e'] m']. destruct I as (I1 & _ & I3 & _).
  unfold cw_write. assert (R : cw_sub c = 3) by (rewrite I1; Z.div_mod_to_equations; lia). rewrite R. cbn [Z.leb Z.ltb Z.compare Pos.compare Pos.compare_cont andb Z.eqb Pos.eqb].
  destruct (cw_flush_step (mkcpw 3 (setb (cw_b c) 3 x)) e' m') as (m2 & E & _); [cbn; lia| |rewrite E; reflexivity].
  cbn [cw_b]. intros j Hj. unfold setb. destruct (Nat.eqb j 3); [exact Hx|apply (I3 j Hj)].
Qed.
Lemma piece e m bs : Forall isbyte bs -> len bs + 8 <= 2^32 ->
  exists e' m', cw_flush (cw_run e m bs) = (cw_init, e', m') /\ u32 e' = u32 (e + len (pad4 bs) / 4) /\ shown m m' (cell_addr e) (pad4 bs).
Proof.
  intros HF HL. destruct (pad4_len bs) as (P1 & P2 & P3).
  assert (SH : forall m' n, 4 * n = len (pad4 bs) -> (forall i, 0 <= i < 4 * n -> ebyte m' e i = nth (Z.to_nat i) bs 13) ->
    (forall a, (forall k, 0 <= k < n + 1 -> idx a <> idx (e + k)) -> get m' a = get m a) -> shown m m' (cell_addr e) (pad4 bs)).
  { intros m' n Hn H1 H2. split.
    - intros i Hi. rewrite byte_cell, H1 by lia. rewrite Nat2Z.id. symmetry. apply pad4_nth. exact Hi.
    - intros x Hx. apply (out_byte m m' e (n + 1) x H2). intros i Hi. apply Hx. lia. }
  destruct (Z.eq_dec (len bs mod 4) 0) as [M|M].
  - pose proof (cw_step e m bs HF ltac:(lia)) as I. pose proof (cw_run_init e m bs HF ltac:(lia) M) as IN. destruct (cw_run e m bs) as [[c e'] m']. cbn [fst] in IN. subst c. destruct I as (_ & I2 & _ & I4 & I5).
    assert (IE : idx e' = idx (e + len bs / 4)) by (rewrite <- (idx_u32 e'), I2, idx_u32; reflexivity).
    unfold cw_flush. cbn [cw_init cw_sub Z.eqb]. exists e', (upd m' e' 0). split; [reflexivity|]. assert (L4 : len (pad4 bs) = len bs) by (rewrite P1; Z.div_mod_to_equations; lia).
    split; [rewrite L4; exact I2|]. apply (SH _ (len bs / 4)); [rewrite L4; Z.div_mod_to_equations; lia| |].
    + intros i Hi. unfold ebyte. rewrite get_upd_ne; [apply I4; exact Hi|]. rewrite IE. intros K. apply near_idx in K; Z.div_mod_to_equations; lia.
    + intros a Ha. rewrite get_upd_ne; [apply I5; intros k Hk; apply Ha; lia|]. rewrite IE. intros E. apply (Ha (len bs / 4)); [Z.div_mod_to_equations; lia|congruence].
  - destruct (C28_cpwriter e m bs HF ltac:(lia) M) as (m' & E & B & C). assert (L4 : 4 * (len bs / 4 + 1) = len (pad4 bs)) by (rewrite P1; Z.div_mod_to_equations; lia).
    exists (u32 (e + (len bs / 4 + 1))), m'. split; [exact E|]. split; [rewrite u32_idem; f_equal; Z.div_mod_to_equations; lia|].
    apply (SH _ (len bs / 4 + 1) L4 B). intros a Ha. apply C. intros k Hk. apply Ha. lia.
Qed.
(* what the memory looks like in the middle of a piece *)
Lemma run_safe e m bs n p k : Forall isbyte bs -> len bs < 2^32 -> apart (cell_addr e) n p k -> len bs <= n -> forall j, 0 <= j < k -> byte (snd (cw_run e m bs)) (p + j) = byte m (p + j).
Proof.
  intros HF HL HA Hn j Hj. pose proof (cw_step e m bs HF HL) as I. destruct (cw_run e m bs) as [[c e'] m']. destruct I as (_ & _ & _ & _ & I5). cbn [snd].
  apply (out_byte m m' e (len bs / 4) _ I5). intros i Hi E. apply (HA i j); [Z.div_mod_to_equations; lia|exact Hj|]. symmetry. exact E.
Qed.
Lemma cw_run_snoc e m bs b : cw_write (cw_run e m bs) b = cw_run e m (bs ++ [b]).
Proof. unfold cw_run. rewrite fold_left_app. reflexivity. Qed.
Lemma cp_str_ok e m n p : forall s done fuel r, Forall isbyte done -> len done + len s < 2^32 -> len done + len s <= n -> (length s < fuel)%nat ->
  at_addr r (p + len done) -> string_at m p (done ++ s) -> apart (cell_addr e) n p (len (done ++ s) + 1) ->
  cp_str fuel r (cw_run e m done) = Some (cw_flush (cw_run e m (done ++ s))).
Proof.
  induction s as [|c s IH]; intros done fuel r HF HL Hn Hf Hr HS HA; (destruct fuel as [|fuel]; [lia|]); cbn [cp_str];
    destruct (readbyte_at (snd (cw_run e m done)) r _ Hr) as [R1 R2]; destruct (readbyte (snd (cw_run e m done)) r) as [b r1]; cbn [fst snd length] in *; subst b.
  - rewrite app_nil_r in *. rewrite (run_safe e m done n p (len done + 1)) by (auto; lia). rewrite (proj2 HS). reflexivity.
  - assert (L : (length done < length (done ++ c :: s))%nat) by (rewrite app_length; cbn [length]; lia).
    rewrite (run_safe e m done n p (len (done ++ c :: s) + 1)) by (auto; lia). destruct (proj1 HS (length done) L) as [B1 B2]. rewrite app_nth2, Nat.sub_diag in B1, B2 by lia. cbn [nth] in B1, B2.
    rewrite B1. replace (c =? 0) with false by lia. rewrite cw_run_snoc.
    replace (done ++ c :: s) with ((done ++ [c]) ++ s) in * by (rewrite <- app_assoc; reflexivity).
    apply IH; auto; try (rewrite ?app_length; cbn [length]; lia).
    + apply Forall_app. split; [exact HF|]. constructor; [rewrite <- B1; apply byte_range|constructor].
    + eapply at_addr_eq; [|exact R2]. rewrite app_length. cbn [length]. lia.
Qed.
Lemma cp_text_ok e m n key k1 k2 add L : isbyte key -> Z.land k1 255 = key -> Z.land k2 255 = key -> 0 < add -> add * (L - 1) < 2^31 <= add * L -> add * L < 2^32 ->
  forall s done fuel r p, (length s < fuel)%nat -> Forall isbyte s -> Forall isbyte done -> len done + len s = L -> L <= n -> at_addr r p ->
  (forall j, (j < length s)%nat -> byte m (p - Z.of_nat j) = Z.lxor (nth j s 0) key) ->
  (forall j, (j < length s)%nat -> apart (cell_addr e) n (p - Z.of_nat j) 1) ->
  cp_text_loop fuel add k1 k2 (add * len done) r (cw_run e m done) = Some (cw_flush (cw_run e m (done ++ s))).
Proof.
  intros Hkey HK1 HK2 Hadd HL HL2. assert (L32 : L < 2^32) by nia.
  induction s as [|c s IH]; intros done fuel r p Hf HF HD Hsum Hn Hr Hb Hap; (destruct fuel as [|fuel]; [lia|]); cbn [cp_text_loop].
  - cbn [length] in *. replace (0x80000000 <=? add * len done) with true by (replace (len done) with L by lia; lia). rewrite app_nil_r. reflexivity.
  - cbn [length] in *. pose proof (Forall_inv HF) as Hc. pose proof (Forall_inv_tail HF) as HF'. assert (KL : add * len done <= add * (L - 1)) by (apply Z.mul_le_mono_nonneg_l; lia).
    assert (KL' : add * (len done + 1) <= add * L) by (apply Z.mul_le_mono_nonneg_l; lia). assert (0 <= add * len done) by nia.
    replace (0x80000000 <=? add * len done) with false by lia.
    destruct (readbyte_at (snd (cw_run e m done)) r p Hr) as [R1 R2]. destruct (readbyte (snd (cw_run e m done)) r) as [b r1]. cbn [fst snd] in *. subst b.
    pose proof (Hb 0%nat ltac:(lia)) as B0. pose proof (Hap 0%nat ltac:(lia)) as A0. change (Z.of_nat 0) with 0 in *. rewrite Z.sub_0_r in *. cbn [nth] in B0.
    pose proof (run_safe e m done n p 1 HD ltac:(lia) A0 ltac:(lia) 0 ltac:(lia)) as RS. rewrite Z.add_0_r in RS. rewrite RS, B0.
    rewrite decode by assumption. rewrite cw_run_snoc.
    replace (u32 (add * len done + add)) with (add * len (done ++ [c])) by (rewrite u32_small by lia; rewrite app_length; cbn [length]; lia).
    replace (done ++ c :: s) with ((done ++ [c]) ++ s) by (rewrite <- app_assoc; reflexivity).
    apply (IH _ _ _ (p - 1)); auto; try lia.
    + apply Forall_app. split; [exact HD|]. constructor; [exact Hc|constructor].
    + rewrite app_length. cbn [length]. lia.
    + apply step_back_at, R2.
    + intros j Hj. replace (p - 1 - Z.of_nat j) with (p - Z.of_nat (S j)) by lia. rewrite Hb by lia. reflexivity.
    + intros j Hj. replace (p - 1 - Z.of_nat j) with (p - Z.of_nat (S j)) by lia. apply Hap. lia.
Qed.

(* ---------- hexadecimal digits ---------- *)
Definition nib (number j : Z) : Z := number / 2 ^ (4 * j) mod 16.
Lemma nib_bits number j : 0 <= j -> nib number j =
  Z.b2z (Z.testbit number (4 * j)) + 2 * Z.b2z (Z.testbit number (4 * j + 1)) + 4 * Z.b2z (Z.testbit number (4 * j + 2)) + 8 * Z.b2z (Z.testbit number (4 * j + 3)).
Proof.
  intros Hj. unfold nib. rewrite !Z.testbit_spec' by lia. set (x := number / 2 ^ (4 * j)).
  assert (P : forall k, 0 <= k -> number / 2 ^ (4 * j + k) = x / 2 ^ k) by (intros k Hk; unfold x; rewrite Z.pow_add_r, Z.div_div by (try apply Z.pow_pos_nonneg; try apply Z.pow_nonzero; lia); reflexivity).
  rewrite !P by lia. change (2^1) with 2. change (2^2) with 4. change (2^3) with 8. clearbody x. clear P. Z.div_mod_to_equations. lia.
Qed.
Lemma hex_digit_ok number j : 0 <= j -> hex_digit number j = nib number j.
Proof.
  intros Hj. rewrite nib_bits by exact Hj. unfold hex_digit, bit_list. cbn [seq map fold_left].
  replace (4 * j + 3 - Z.of_nat 0) with (4 * j + 3) by lia. replace (4 * j + 3 - Z.of_nat 1) with (4 * j + 2) by lia. replace (4 * j + 3 - Z.of_nat 2) with (4 * j + 1) by lia. replace (4 * j + 3 - Z.of_nat 3) with (4 * j) by lia.
  replace ((4 * j + 3) mod 4) with 3 by (Z.div_mod_to_equations; lia). replace ((4 * j + 2) mod 4) with 2 by (Z.div_mod_to_equations; lia).
  replace ((4 * j + 1) mod 4) with 1 by (Z.div_mod_to_equations; lia). replace ((4 * j) mod 4) with 0 by (Z.div_mod_to_equations; lia).
  destruct (Z.testbit number (4 * j)), (Z.testbit number (4 * j + 1)), (Z.testbit number (4 * j + 2)), (Z.testbit number (4 * j + 3)); reflexivity.
Qed.
Lemma nib_range number j : 0 <= nib number j < 16.
Proof. apply Z.mod_pos_bound. lia. Qed.
Lemma nib_fold number c h q : 0 <= h -> 0 <= q <= 3 ->
  fold_left (fun c i => if Z.testbit number i then u32 (c + hex_weight i) else c) (bit_list (16 * h + 4 * q + 3) 4) (u32 c) = u32 (c + nib number (4 * h + q) * 256 ^ (3 - q)).
Proof.
  intros Hh Hq. unfold bit_list. cbn [seq map fold_left]. rewrite nib_bits by lia.
  replace (4 * (4 * h + q)) with (16 * h + 4 * q) by lia.
  replace (16 * h + 4 * q + 3 - Z.of_nat 0) with (16 * h + 4 * q + 3) by lia. replace (16 * h + 4 * q + 3 - Z.of_nat 1) with (16 * h + 4 * q + 2) by lia.
  replace (16 * h + 4 * q + 3 - Z.of_nat 2) with (16 * h + 4 * q + 1) by lia. replace (16 * h + 4 * q + 3 - Z.of_nat 3) with (16 * h + 4 * q) by lia.
  assert (W : forall r, 0 <= r <= 3 -> hex_weight (16 * h + 4 * q + r) = 2 ^ r * 256 ^ (3 - q)).
  { intros r Hr. unfold hex_weight. replace ((16 * h + 4 * q + r) mod 16) with (4 * q + r) by (Z.div_mod_to_equations; lia).
    replace ((4 * q + r) mod 4) with r by (Z.div_mod_to_equations; lia). replace ((4 * q + r) / 4) with q by (Z.div_mod_to_equations; lia).
    rewrite Z.pow_add_r by lia. f_equal. change 256 with (2^8). rewrite <- Z.pow_mul_r by lia. reflexivity. }
  pose proof (W 0 ltac:(lia)) as W0. rewrite Z.add_0_r in W0. rewrite (W 3), (W 2), (W 1), W0 by lia. clear W W0.
  change (2^3) with 8. change (2^2) with 4. change (2^1) with 2. change (2^0) with 1. set (K := 256 ^ (3 - q)). clearbody K.
  destruct (Z.testbit number (16 * h + 4 * q)), (Z.testbit number (16 * h + 4 * q + 1)), (Z.testbit number (16 * h + 4 * q + 2)), (Z.testbit number (16 * h + 4 * q + 3));
    unfold Z.b2z; repeat (rewrite u32_add_l, <- ?Z.add_assoc); f_equal; lia.
Qed.
Lemma bit_list_split h : 0 <= h -> bit_list (16 * h + 15) 16 = bit_list (16 * h + 4 * 3 + 3) 4 ++ bit_list (16 * h + 4 * 2 + 3) 4 ++ bit_list (16 * h + 4 * 1 + 3) 4 ++ bit_list (16 * h + 4 * 0 + 3) 4.
Proof. intros H. unfold bit_list. cbn [seq map app]. repeat (f_equal; [lia|]). f_equal. lia. Qed.
Lemma hex_cell_ok number h : 0 <= h -> hex_cell number h =
  ptr_char (nib number (4 * h + 3)) + 2^8 * ptr_char (nib number (4 * h + 2)) + 2^16 * ptr_char (nib number (4 * h + 1)) + 2^24 * ptr_char (nib number (4 * h)).
Proof.
  intros Hh. unfold hex_cell. cbv zeta. rewrite bit_list_split, !fold_left_app by exact Hh.
  change 0x30303030 with (u32 0x30303030). rewrite !nib_fold by lia. replace (4 * h + 0) with (4 * h) by lia.
  change (256 ^ (3 - 3)) with 1. change (256 ^ (3 - 2)) with 256. change (256 ^ (3 - 1)) with 65536. change (256 ^ (3 - 0)) with 16777216.
  cbn [fold_left]. rewrite !hex_digit_ok by lia. replace (0 + 4 * h) with (4 * h) by lia. replace (1 + 4 * h) with (4 * h + 1) by lia. replace (2 + 4 * h) with (4 * h + 2) by lia. replace (3 + 4 * h) with (4 * h + 3) by lia.
  change (256 ^ (3 - 3)) with 1. change (256 ^ (3 - 2)) with 256. change (256 ^ (3 - 1)) with 65536. change (256 ^ (3 - 0)) with 16777216.
  pose proof (nib_range number (4 * h)) as N0. pose proof (nib_range number (4 * h + 1)) as N1. pose proof (nib_range number (4 * h + 2)) as N2. pose proof (nib_range number (4 * h + 3)) as N3.
  set (a := nib number (4 * h)) in *. set (b := nib number (4 * h + 1)) in *. set (c := nib number (4 * h + 2)) in *. set (d := nib number (4 * h + 3)) in *. clearbody a b c d.
  assert (PC : forall x, 0 <= x < 16 -> ptr_char x = 48 + x + if 10 <=? x then 7 else 0).
  { intros x Hx. unfold ptr_char. rewrite (u32_small (x + 48)) by lia. replace (48 + 10 <=? x + 48) with (10 <=? x) by lia. destruct (10 <=? x); [rewrite u32_small by lia|]; lia. }
  rewrite !PC by lia. change (2^8) with 256. change (2^16) with 65536. change (2^24) with 16777216.
  destruct (10 <=? a), (10 <=? b), (10 <=? c), (10 <=? d); repeat (rewrite u32_add_l, <- ?Z.add_assoc); rewrite u32_small; lia.
Qed.
Lemma hex_chars v : 0 <= v < 2^32 -> map ptr_char (ptr_digits 8 v []) = map (fun j => ptr_char (nib v j)) [7; 6; 5; 4; 3; 2; 1; 0].
Proof.
  intros Hv. cbn [ptr_digits map]. unfold nib. rewrite !Z.div_div by lia.
  change (4 * 7) with 28. change (4 * 6) with 24. change (4 * 5) with 20. change (4 * 4) with 16. change (4 * 3) with 12. change (4 * 2) with 8. change (4 * 1) with 4. change (4 * 0) with 0.
  change (2^28) with 268435456. change (2^24) with 16777216. change (2^20) with 1048576. change (2^16) with 65536. change (2^12) with 4096. change (2^8) with 256. change (2^4) with 16. change (2^0) with 1. rewrite Z.div_1_r. reflexivity.
Qed.
Lemma ptr_char_byte d : 0 <= d < 16 -> isbyte (ptr_char d).
Proof. intros H. destruct (ptr_char_ok d H) as [A B]. unfold isbyte. set (c := ptr_char d) in *. clearbody c. destruct A; lia. Qed.
Lemma get_upd_ne' m a b v : idx b <> idx a -> get (upd m a v) b = get m b.
Proof. intros H. apply get_upd_ne. congruence. Qed.
Lemma cp_hex_ok e m v s : 0 <= v < 2^32 -> hex8 v s -> exists e' m', cp_hex v (cw_init, e, m) = (cw_init, e', m') /\ u32 e' = u32 (e + 2) /\ shown m m' (cell_addr e) s.
Proof.
  intros Hv (S1 & S2 & S3). pose proof (hex8_exists v Hv) as (X1 & X2 & X3). pose proof (hex_unique 8 _ _ _ X2 S2 X1 S1 X3 S3) as <-. clear S1 S2 S3 X1 X3.
  unfold cp_hex. eexists. eexists. split; [reflexivity|]. split; [rewrite u32_idem, u32_add_l; f_equal; lia|].
  assert (NI : idx e <> idx (u32 (e + 1))). { rewrite idx_u32. intros K. replace e with (e + 0) in K at 1 by lia. apply near_idx in K; lia. }
  split.
  - intros i Hi. rewrite X2 in Hi. rewrite byte_cell. unfold ebyte. rewrite hex_chars by exact Hv. rewrite !hex_cell_ok by lia.
    assert (PB : forall j, isbyte (ptr_char (nib v j))) by (intros; apply ptr_char_byte, nib_range).
    assert (RNG : forall h, 0 <= ptr_char (nib v (4 * h + 3)) + 2^8 * ptr_char (nib v (4 * h + 2)) + 2^16 * ptr_char (nib v (4 * h + 1)) + 2^24 * ptr_char (nib v (4 * h)) < 2^32).
    { intros h. pose proof (PB (4 * h + 3)). pose proof (PB (4 * h + 2)). pose proof (PB (4 * h + 1)). pose proof (PB (4 * h)). unfold isbyte in *. change (2^8) with 256. change (2^16) with 65536. change (2^24) with 16777216. change (2^32) with 4294967296. lia. }
    destruct (Nat.lt_ge_cases i 4) as [L|L].
    + replace (Z.of_nat i / 4) with 0 by (Z.div_mod_to_equations; lia). replace (Z.of_nat i mod 4) with (Z.of_nat i) by (Z.div_mod_to_equations; lia). rewrite Z.add_0_r.
      rewrite get_upd_ne' by exact NI. rewrite get_upd_eq, u32_small by apply RNG. rewrite fld_pack by (auto; lia).
      change (4 * 1 + 3) with 7. change (4 * 1 + 2) with 6. change (4 * 1 + 1) with 5. change (4 * 1) with 4. do 4 (destruct i as [|i]; [reflexivity|]). lia.
    + replace (Z.of_nat i / 4) with 1 by (Z.div_mod_to_equations; lia). replace (Z.of_nat i mod 4) with (Z.of_nat i - 4) by (Z.div_mod_to_equations; lia).
      rewrite (get_cong _ (e + 1) (u32 (e + 1))) by (rewrite idx_u32; reflexivity). rewrite get_upd_eq, u32_small by apply RNG. rewrite fld_pack by (auto; lia).
      change (4 * 0 + 3) with 3. change (4 * 0 + 2) with 2. change (4 * 0 + 1) with 1. change (4 * 0) with 0. do 4 (destruct i as [|i]; [lia|]). do 4 (destruct i as [|i]; [reflexivity|]). lia.
  - intros x Hx. rewrite X2 in Hx. apply (out_byte _ _ e 2).
    + intros a Ha. rewrite !get_upd_ne'; [reflexivity|specialize (Ha 0 ltac:(lia)); rewrite Z.add_0_r in Ha; congruence|rewrite idx_u32; apply Ha; lia].
    + intros i Hi. apply Hx. lia.
Qed.

(* ---------- CPString ---------- *)
Lemma sets_exec v : forall K cp ca m, (Z.of_nat K) * 12 < 2^30 -> exists m', cpexec (map (fun k => CSet (v k) (Z.of_nat k)) (seq 0 K)) (cp, ca, m) = (cp, ca, m') /\
  (forall k, (k < K)%nat -> get m' (cp + 12 * Z.of_nat k) = u32 (v k)) /\ (forall a, (forall k, (k < K)%nat -> idx a <> idx (cp + 12 * Z.of_nat k)) -> get m' a = get m a).
Proof.
  induction K as [|K IH]; intros cp ca m HK; [exists m; split; [reflexivity|split; [intros; lia|reflexivity]]|].
  rewrite seq_S, map_app. unfold cpexec in *. rewrite fold_left_app. destruct (IH cp ca m ltac:(lia)) as (m' & E & A & B). rewrite E. cbn [map fold_left cpexec1 Nat.add].
  eexists. split; [reflexivity|]. split.
  - intros k Hk. destruct (Nat.eq_dec k K) as [->|N]; [apply get_upd_eq|]. rewrite get_upd_ne'; [apply A; lia|]. intros Q. apply near_idx in Q; lia.
  - intros a Ha. rewrite get_upd_ne' by (apply Ha; lia). apply B. intros k Hk. apply Ha. lia.
Qed.
Lemma cps_sets_map content mod_ : (mod_ < 12)%nat -> cps_sets content mod_ = map (fun k => CSet (b2i4 content (4 * (mod_ + 12 * k))) (Z.of_nat k)) (seq 0 (cps_count (length content / 4) mod_)).
Proof.
  intros H. unfold cps_sets. apply map_ext. intros k. cbv zeta. f_equal; [f_equal; lia|]. f_equal. replace (4 * mod_ + 48 * k)%nat with (4 * mod_ + k * 48)%nat by lia. rewrite Nat.div_add by lia. rewrite Nat.div_small by lia. reflexivity.
Qed.
Lemma cps_count_lt n mod_ k : (k < cps_count n mod_ <-> mod_ + 12 * k < n)%nat.
Proof. unfold cps_count. pose proof (Nat.div_mod (n - mod_ + 11) 12 ltac:(lia)) as D. pose proof (Nat.mod_upper_bound (n - mod_ + 11) 12 ltac:(lia)). set (q := ((n - mod_ + 11) / 12)%nat) in *. clearbody q. lia. Qed.
Lemma cps_sets_nil content mod_ : (mod_ < 12)%nat -> match cps_sets content mod_ with [] => (length content / 4 <= mod_)%nat | _ => (mod_ < length content / 4)%nat end.
Proof.
  intros H. rewrite cps_sets_map by exact H. pose proof (cps_count_lt (length content / 4) mod_ 0) as C. destruct (cps_count (length content / 4) mod_) as [|k]; cbn [seq map]; lia.
Qed.
Section Cps.
Variables (content : list Z) (e ca : Z) (m : mem) (n : nat).
Hypotheses (Hn : (length content / 4)%nat = n) (Hbig : Z.of_nat n < 2^30 - 12).
Lemma blocks_exec j : (j <= 12)%nat -> exists cp m', cpexec (concat (map (cps_block content) (seq 0 j))) (e, ca, m) = (cp, ca, m') /\
  u32 cp = u32 (e + Z.of_nat (min (min j n) 11)) /\ list_sum (map (cps_adds content) (seq 0 j)) = min (min j n) 11 /\
  (forall c, (c < n)%nat -> (c mod 12 < j)%nat -> get m' (e + Z.of_nat c) = u32 (b2i4 content (4 * c))) /\
  (forall a, (forall c, (c < n)%nat -> idx a <> idx (e + Z.of_nat c)) -> get m' a = get m a).
Proof.
  induction j as [|j IH]; intros Hj.
  - exists e, m. split; [reflexivity|]. cbn [Nat.min]. split; [f_equal; lia|]. split; [reflexivity|]. split; [intros; lia|reflexivity].
  - destruct (IH ltac:(lia)) as (cp & m1 & E & U & A & G & O). rewrite seq_S, !map_app, concat_app, list_sum_app. cbn [map concat Nat.add]. rewrite app_nil_r.
    unfold cpexec in *. rewrite fold_left_app, E. unfold cps_block, cps_adds at 2. cbv zeta. rewrite fold_left_app.
    pose proof (cps_sets_nil content j ltac:(lia)) as NIL. rewrite Hn in NIL.
    assert (LK : Z.of_nat (cps_count n j) * 12 < 2^30). { destruct (cps_count n j) as [|k] eqn:Q; [lia|]. pose proof (cps_count_lt n j k) as C. rewrite Q in C. lia. }
    destruct (Nat.lt_ge_cases j n) as [L|L].
    + assert (IC : forall k, idx (cp + 12 * Z.of_nat k) = idx (e + Z.of_nat (j + 12 * k))).
      { intros k. rewrite <- (idx_u32 (cp + _)), (u32_eq_add _ _ _ U), idx_u32. f_equal. lia. }
      destruct (sets_exec (fun k => b2i4 content (4 * (j + 12 * k))) (cps_count n j) cp ca m1 LK) as (m2 & E2 & G2 & O2). rewrite <- Hn in E2. rewrite <- cps_sets_map in E2 by lia. unfold cpexec in E2. rewrite E2.
      assert (G' : forall c, (c < n)%nat -> (c mod 12 < S j)%nat -> get m2 (e + Z.of_nat c) = u32 (b2i4 content (4 * c))).
      { intros c Hc Hm. pose proof (Nat.div_mod c 12 ltac:(lia)) as D. set (k := (c / 12)%nat) in *. destruct (Nat.eq_dec (c mod 12) j) as [Q|Q].
        - assert (Ek : c = (j + 12 * k)%nat) by lia. assert (Hk : (k < cps_count n j)%nat) by (apply cps_count_lt; lia).
          rewrite Ek. rewrite <- (get_cong m2 _ _ (IC k)). apply G2. exact Hk.
        - rewrite O2; [apply G; [exact Hc|lia]|]. intros k' Hk'. rewrite IC. apply cps_count_lt in Hk'. intros K. apply near_idx in K; [|lia|lia].
          apply Q. assert (c = j + 12 * k')%nat as -> by lia. replace (j + 12 * k')%nat with (j + k' * 12)%nat by lia. rewrite Nat.mod_add, Nat.mod_small by lia. reflexivity. }
      assert (O' : forall a, (forall c, (c < n)%nat -> idx a <> idx (e + Z.of_nat c)) -> get m2 a = get m a).
      { intros a Ha. rewrite O2; [apply O; exact Ha|]. intros k Hk. rewrite IC. apply Ha. apply cps_count_lt in Hk. exact Hk. }
      destruct (cps_sets content j) as [|s l]; [lia|]. rewrite A. destruct (Nat.ltb_spec j 11) as [J|J]; cbn [fold_left cpexec1 list_sum fold_right].
      * exists (u32 (cp + 1)), m2. split; [reflexivity|]. split; [rewrite u32_idem, (u32_eq_add _ _ 1 U); f_equal; lia|]. split; [cbn [Nat.add]; lia|]. split; [exact G'|exact O'].
      * exists cp, m2. split; [reflexivity|]. split; [rewrite U; f_equal; lia|]. split; [cbn [Nat.add]; lia|]. split; [exact G'|exact O'].
    + destruct (cps_sets content j) as [|s l]; [|lia]. cbn [fold_left list_sum fold_right]. exists cp, m1. split; [reflexivity|]. split; [rewrite U; f_equal; lia|]. split; [rewrite A; cbn [Nat.add]; lia|]. split; [|exact O].
      intros c Hc Hm. apply G; [exact Hc|]. pose proof (Nat.mod_le c 12 ltac:(lia)). lia.
Qed.
End Cps.
(* CPString.Display: the content appears in the cells from the current player
   on, the current player and its cache both advance by the number of cells *)
Theorem C63_cpstring : forall content e ca m, Forall isbyte content -> len content mod 4 = 0 -> len content < 2^32 - 64 ->
  exists cp ca' m', cpexec (cps_actions content) (e, ca, m) = (cp, ca', m') /\ u32 cp = u32 (e + len content / 4) /\ u32 ca' = u32 (ca + len content / 4) /\
    shown m m' (cell_addr e) content.
Proof.
  intros content e ca m HF HM HL. set (n := (length content / 4)%nat). assert (EN : Z.of_nat n = len content / 4) by (unfold n; rewrite Nat2Z.inj_div; reflexivity).
  assert (L4 : length content = (4 * n)%nat) by (Z.div_mod_to_equations; lia). assert (NB : Z.of_nat n < 2^30 - 12) by lia.
  destruct (blocks_exec content e ca m n eq_refl NB 12 ltac:(lia)) as (cp & m' & E & U & A & G & O).
  unfold cps_actions, cpexec in *. rewrite !fold_left_app, E. fold n.
  assert (ML : cps_modlength content = Z.of_nat n - Z.of_nat (min (min 12 n) 11)) by (unfold cps_modlength; fold n; rewrite A; reflexivity). rewrite ML.
  assert (SH : shown m m' (cell_addr e) content).
  { split.
    - intros i Hi. rewrite byte_cell. unfold ebyte. replace (Z.of_nat i / 4) with (Z.of_nat (i / 4)) by (rewrite Nat2Z.inj_div; reflexivity).
      assert (I4 : (i / 4 < n)%nat) by (apply Nat.div_lt_upper_bound; lia). rewrite G; [|exact I4|apply Nat.mod_upper_bound; lia].
      assert (NB' : forall k, isbyte (nth k content 0)). { intros k. destruct (nth_in_or_default k content 0) as [Q|Q]; [rewrite Forall_forall in HF; apply HF, Q|rewrite Q; unfold isbyte; lia]. }
      pose proof (NB' (4 * (i / 4))%nat) as N0. pose proof (NB' (4 * (i / 4) + 1)%nat) as N1. pose proof (NB' (4 * (i / 4) + 2)%nat) as N2. pose proof (NB' (4 * (i / 4) + 3)%nat) as N3.
      unfold b2i4. rewrite u32_small by (unfold isbyte in *; change (2^8) with 256; change (2^16) with 65536; change (2^24) with 16777216; lia).
      pose proof (Z.mod_pos_bound (Z.of_nat i) 4 ltac:(lia)). rewrite fld_pack by (auto; lia).
      assert (D : (i = 4 * (i / 4) + i mod 4)%nat) by (apply Nat.div_mod; lia). pose proof (Nat.mod_upper_bound i 4 ltac:(lia)).
      replace (Z.of_nat i mod 4) with (Z.of_nat (i mod 4)) by (rewrite Nat2Z.inj_mod; reflexivity). set (r := (i mod 4)%nat) in *. rewrite D at 5. clearbody r. clear D.
      do 4 (destruct r as [|r]; [cbn [Z.of_nat Z.eqb Pos.of_succ_nat Pos.succ Pos.eqb]; f_equal; lia|]). lia.
    - intros x Hx. apply (out_byte m m' e (Z.of_nat n)); [|intros i Hi; apply Hx; lia]. intros a Ha. apply O. intros c Hc. apply Ha. lia. }
  destruct (Z.eqb_spec (Z.of_nat n - Z.of_nat (min (min 12 n) 11)) 0) as [Z0|Z0]; cbn [fold_left cpexec1]; eexists; eexists; exists m'; (split; [reflexivity|]).
  - split; [rewrite U; f_equal; lia|]. split; [rewrite u32_idem; f_equal; lia|exact SH].
  - split; [rewrite u32_idem, (u32_eq_add _ _ _ U); f_equal; lia|]. split; [rewrite u32_idem; f_equal; lia|exact SH].
Qed.
Lemma cps_addr_len content : forall i, (i <= 12)%nat -> cps_addr content i = length (concat (map (cps_block content) (seq 0 i))).
Proof.
  induction i as [|i IH]; intros Hi; [reflexivity|]. cbn [cps_addr]. rewrite IH, seq_S, map_app, concat_app, app_length by lia. cbn [map concat Nat.add]. rewrite app_nil_r.
  unfold cps_block. rewrite app_length. unfold cps_adds. destruct (cps_sets content i); [cbn [length]; lia|]. destruct (Nat.ltb i 11); cbn [length]; lia.
Qed.
(* valueAddr[cell] is the action that sets this cell, and its value holds the cell's bytes *)
Theorem C63_cpstring_values : forall content cell, (cell < length content / 4)%nat ->
  nth_error (cps_actions content) (cps_value content cell) = Some (CSet (b2i4 content (4 * cell)) (Z.of_nat (cell / 12))).
Proof.
  intros content cell H. unfold cps_actions, cps_value. pose proof (Nat.mod_upper_bound cell 12 ltac:(lia)) as M. pose proof (Nat.div_mod cell 12 ltac:(lia)) as D.
  set (i := (cell mod 12)%nat) in *. set (k := (cell / 12)%nat) in *. rewrite cps_addr_len by lia.
  assert (HK : (k < cps_count (length content / 4) i)%nat) by (apply cps_count_lt; lia).
  assert (SEQ : forall i, (i < 12)%nat -> seq 0 12 = seq 0 i ++ i :: seq (S i) (11 - i)) by (intros i0 H0; do 12 (destruct i0 as [|i0]; [reflexivity|]); lia). rewrite (SEQ i M).
  rewrite map_app, concat_app. cbn [map concat]. rewrite <- !app_assoc. rewrite nth_error_app2 by lia. replace (_ + k - _)%nat with k by lia.
  unfold cps_block at 1. cbv zeta. rewrite cps_sets_map by lia. rewrite <- app_assoc. rewrite nth_error_app1 by (rewrite map_length, seq_length; exact HK).
  rewrite nth_error_map. rewrite (nth_error_nth' _ 0%nat) by (rewrite seq_length; exact HK). rewrite seq_nth by exact HK. cbn [option_map Nat.add]. do 3 f_equal. lia.
Qed.
Lemma content_pad m d n src s : citem_text m d n (CCps src) s -> cps_content src = pad4 s /\ Forall isbyte s.
Proof.
  intros H. inversion H; subst; unfold cps_content, pad4.
  - split; [|assumption]. cbv zeta. do 2 f_equal. Z.div_mod_to_equations. lia.
  - rewrite repeat_length, <- repeat_app. split; [f_equal; destruct (Z.le_gt_cases k 0)|].
    + replace (Z.to_nat k) with 0%nat by lia. cbn. assert (- (- k / 4) <= 0) by (Z.div_mod_to_equations; lia). lia.
    + rewrite Z2Nat.id by lia. Z.div_mod_to_equations. lia.
    + apply Forall_forall. intros x Hx. apply repeat_spec in Hx. subst x. unfold isbyte. lia.
Qed.

(* ---------- f_cpstr_print ---------- *)
Lemma cemit_data key key3 key4 : forall items data ds steps data', cemit key key3 key4 data items ds = Some (steps, data') -> exists ext, data' = data ++ ext.
Proof.
  induction items as [|it items IH]; intros data ds steps data' H; [injection H as <- <-; exists []; rewrite app_nil_r; reflexivity|].
  assert (PUT : forall s, match cemit key key3 key4 data items ds with None => None | Some (steps, data) => Some (s :: steps, data) end = Some (steps, data') -> exists ext, data' = data ++ ext).
  { intros s E. destruct (cemit key key3 key4 data items ds) as [[st dd]|] eqn:X; [|discriminate]. injection E as <- <-. eauto. }
  assert (TXT : forall b, match b, ds with
        | [], _ => cemit key key3 key4 data items ds
        | _ :: _, [] => None
        | _ :: _, d :: ds =>
            match dbstr_print key key3 key4 data b d with
            | None => None
            | Some (j, data) => match cemit key key3 key4 data items ds with
                | None => None | Some (steps, data) => Some (KOf (SText j) :: steps, data) end
            end
        end = Some (steps, data') -> exists ext, data' = data ++ ext).
  { intros b E. destruct b as [|c b]; [eauto|]. destruct ds as [|d ds]; [discriminate|]. unfold dbstr_print in E.
    destruct (find_or_add key data (c :: b)) as [off d1] eqn:F. destruct (add_count _ _); [|discriminate].
    destruct (cemit key key3 key4 d1 items ds) as [[st dd]|] eqn:X; [|discriminate]. injection E as <- <-.
    apply find_or_add_ok in F as [[e1 ->] _]; [|discriminate]. apply IH in X as [e2 ->]. exists (e1 ++ e2). rewrite app_assoc. reflexivity. }
  destruct it as [[]|]; cbn [cemit] in H; eauto.
Qed.
Definition shown_text (texts : list (list Z)) : list Z := concat (map pad4 texts).
Section CPrint.
Variables (key key3 key4 D N e0 : Z) (m0 : mem) (final : list Z) (fuel : nat).
Hypotheses (Hkey : isbyte key) (Hkey3 : isbyte key3) (Hkey4 : isbyte key4) (HD : D mod 4 = 0) (HN : N + 60 < 2^32)
  (Hfin : holds m0 D final) (Hap : apart (cell_addr e0) N D (len final)).
(* after the cells of the text out, at the current player e *)
Definition at_cell (out : list Z) (e : Z) (m : mem) : Prop := shown m0 m (cell_addr e0) out /\ len out mod 4 = 0 /\ u32 e = u32 (e0 + len out / 4).
Lemma at_cell_addr out e m : at_cell out e m -> u32 (cell_addr e0 + len out) = u32 (cell_addr e).
Proof. intros (_ & M & U). apply cell_cong in U. rewrite U, cell_add. f_equal. Z.div_mod_to_equations. lia. Qed.
Lemma safe_rest out e m p k : at_cell out e m -> apart (cell_addr e0) N p k -> len out + 4 <= N ->
  (forall j, 0 <= j < k -> byte m (p + j) = byte m0 (p + j)) /\ apart (cell_addr e) (N - len out) p k.
Proof.
  intros HO HA HL. split.
  - intros j Hj. apply (proj2 (proj1 HO)). intros i Hi Q. apply (HA i j); [lia|exact Hj|]. symmetry. exact Q.
  - intros i j Hi Hj Q. apply (HA (len out + i) j); [lia|exact Hj|]. rewrite <- Q, Z.add_assoc. apply u32_eq_add. apply (at_cell_addr _ _ _ HO).
Qed.
Lemma add_shown out e m s e' m' : at_cell out e m -> shown m m' (cell_addr e) s -> len s mod 4 = 0 -> u32 e' = u32 (e + len s / 4) -> len out + len s + 4 <= N -> at_cell (out ++ s) e' m'.
Proof.
  intros HO HS HM HU HL. destruct HO as (S0 & M0 & U0). split; [|split].
  - apply shown_app with m; [exact S0|apply shown_cong with (cell_addr e); [symmetry; apply (at_cell_addr out e m); split; auto|exact HS]|lia].
  - rewrite app_length, Nat2Z.inj_add. Z.div_mod_to_equations. lia.
  - rewrite HU, app_length, (u32_eq_add _ _ _ U0). f_equal. Z.div_mod_to_equations. lia.
Qed.
Lemma bytes_step out e m bs : Forall isbyte bs -> at_cell out e m -> len out + len (pad4 bs) + 4 <= N ->
  exists e' m', cw_flush (cw_run e m bs) = (cw_init, e', m') /\ at_cell (out ++ pad4 bs) e' m'.
Proof.
  intros HF HO HL. destruct (pad4_len bs) as (P1 & P2 & P3). destruct (piece e m bs HF ltac:(lia)) as (e' & m' & E & U & S). exists e', m'. split; [exact E|]. apply add_shown with e m; auto.
Qed.
Lemma step_ok it t k out e m : citem_text m0 (cell_addr e0) N it t -> (length t < fuel)%nat -> at_cell out e m -> len out + len (pad4 t) + 4 <= N ->
  match it with
  | COf (IBytes _) | COf (IInt _) => exists data d j data', Forall isbyte t /\ t <> [] /\ dbstr_print key key3 key4 data t d = Some (j, data') /\ extends final data' /\ k = KOf (SText j)
  | COf (IPtr p) => k = KOf (SStr (seekoffset p))
  | COf (IEpd x) => k = KOf (SStr (u32 x, 0))
  | COf (IHex v) => k = KOf (SHex v)
  | COf (INum v) => k = KOf (SNum v)
  | CCps src => k = KCps (cps_content src)
  end ->
  exists e' m', crun1 fuel D key3 key4 k (cw_init, e, m) = Some (cw_init, e', m') /\ at_cell (out ++ pad4 t) e' m'.
Proof.
  intros HT Hf HO HL HK. destruct (pad4_len t) as (P1 & P2 & P3).
  assert (TXT : (exists data d j data', Forall isbyte t /\ t <> [] /\ dbstr_print key key3 key4 data t d = Some (j, data') /\ extends final data' /\ k = KOf (SText j)) ->
     exists e' m', crun1 fuel D key3 key4 k (cw_init, e, m) = Some (cw_init, e', m') /\ at_cell (out ++ pad4 t) e' m').
  { intros (data & d & j & data' & HF & Hb & P & [rest Hrest] & ->). unfold dbstr_print in P. destruct (find_or_add key data t) as [off d1] eqn:F. destruct (add_count (len t) (d_add d)) as [a|] eqn:AC; [|discriminate].
    injection P as <- <-. apply find_or_add_ok in F as [_ F]; [|exact Hb]. assert (B0 : 0 < len t) by (destruct t; [congruence|cbn [length]; lia]).
    apply add_count_ok in AC as (A1 & A2 & A3); [|exact B0].
    assert (FOUND : forall i, (i < length t)%nat -> exists q, (q < length final)%nat /\ D + off - Z.of_nat i = D + Z.of_nat q /\ nth q final 0 = Z.lxor (nth i t 0) key).
    { intros i Hi. destruct (F i Hi) as (F1 & F2 & F3). exists (Z.to_nat off - i)%nat. rewrite Hrest, app_length. split; [lia|]. split; [lia|]. rewrite app_nth1 by lia. exact F3. }
    destruct (safe_rest out e m D (len final) HO Hap ltac:(lia)) as [SF SA].
    pose proof (cp_text_ok e m (N - len out) key (start_key (junk_key key key3 (d_r1 d)) key3) (start_key (junk_key key key4 (d_r2 d)) key4) a (len t)
              Hkey (start_key_low _ _ _ Hkey Hkey3) (start_key_low _ _ _ Hkey Hkey4) A1 A2 A3 t [] fuel (text_pos D off) (D + off) Hf HF ltac:(constructor) ltac:(cbn; lia) ltac:(lia) (text_pos_at D off HD)) as R.
    destruct (bytes_step out e m t HF HO ltac:(lia)) as (e' & m' & E & A'). exists e', m'. split; [|exact A']. cbn [crun1]. unfold cp_text_run. cbn [j_add j_k1 j_k2 j_off].
    cbn [length app] in R. change (Z.of_nat 0) with 0 in R. rewrite Z.mul_0_r in R. change (cw_run e m []) with (cw_init, e, m) in R. rewrite R, E; [reflexivity| |].
    - intros i Hi. destruct (FOUND i Hi) as (q & K1 & K2 & K3). rewrite K2, <- K3, SF by lia. apply Hfin, K1.
    - intros i Hi. destruct (FOUND i Hi) as (q & K1 & K2 & K3). rewrite K2. intros a' b' Ha' Hb'. replace b' with 0 by lia. rewrite Z.add_0_r. apply SA; lia. }
  assert (STR : forall r p, at_addr r p -> string_at m0 p t -> apart (cell_addr e0) N p (len t + 1) -> k = KOf (SStr r) ->
     exists e' m', crun1 fuel D key3 key4 k (cw_init, e, m) = Some (cw_init, e', m') /\ at_cell (out ++ pad4 t) e' m').
  { intros r p Hr HS HA ->. destruct (safe_rest out e m p (len t + 1) HO HA ltac:(lia)) as [SF SA].
    assert (HS' : string_at m p t) by (destruct HS as [S1 S2]; split; [intros i Hi; rewrite SF by lia; auto|rewrite SF by lia; exact S2]).
    assert (HF : Forall isbyte t). { apply Forall_forall. intros x Hx. apply (In_nth _ _ 0) in Hx as (i & Hi & <-). rewrite <- (proj1 (proj1 HS' i Hi)). apply byte_range. }
    destruct (bytes_step out e m t HF HO ltac:(lia)) as (e' & m' & E & A'). exists e', m'. split; [|exact A']. cbn [crun1]. rewrite <- E.
    apply (cp_str_ok e m (N - len out) p t [] fuel r); cbn [length app]; auto; try lia. rewrite Z.add_0_r. exact Hr. }
  inversion HT as [it' s HI|b HB|n']; subst; [inversion HI as [b Fb|z s Hd|p s HSt HA|x s HSt HA|v s Hv Hh|v s Hv Hd]; subst| |].
  - apply TXT, HK.
  - apply TXT, HK.
  - apply (STR (seekoffset p) p (seek_at p)); assumption.
  - apply (STR (u32 x, 0) (0x58A364 + 4 * x)); try assumption. unfold at_addr. cbn [fst snd]. rewrite idx_u32. split; [f_equal|]; Z.div_mod_to_equations; lia.
  - subst k. cbn [crun1]. destruct (cp_hex_ok e m v t Hv Hh) as (e' & m' & E & U & S). exists e', m'. rewrite E. split; [reflexivity|].
    destruct Hh as (_ & L8 & _). assert (PE : pad4 t = t) by (unfold pad4; rewrite L8; apply app_nil_r). rewrite PE in *. apply add_shown with e m; auto; rewrite L8; first [reflexivity|exact U].
  - subst k. cbn [crun1]. destruct (dw_chars_ok 9 v []) as (s' & X1 & X2); [change (10 ^ Z.of_nat 10) with 10000000000; lia|].
    rewrite app_nil_r in X1. rewrite (decimal_unique _ _ _ X2 Hd) in X1. unfold cp_num. rewrite X1. change (fold_left cw_write t (cw_init, e, m)) with (cw_run e m t).
    destruct (bytes_step out e m t (decimal_byte _ _ Hd) HO ltac:(lia)) as (e' & m' & E & A'). exists e', m'. rewrite E. auto.
  - subst k. cbn [crun1 cp_display]. destruct (content_pad _ _ _ _ _ HT) as [CP FB]. rewrite CP.
    destruct (C63_cpstring (pad4 t) e e m) as (cp & ca & m' & E & U & _ & S); [apply Forall_app; split; [exact FB|apply Forall_forall; intros x Hx; apply repeat_spec in Hx; subst x; unfold isbyte; lia]|exact P2|lia|].
    exists cp, m'. rewrite E. split; [reflexivity|]. apply add_shown with e m; auto.
  - subst k. cbn [crun1 cp_display]. destruct (content_pad _ _ _ _ _ HT) as [CP FB]. rewrite CP.
    destruct (C63_cpstring (pad4 (repeat 13 (Z.to_nat n'))) e e m) as (cp & ca & m' & E & U & _ & S); [apply Forall_app; split; [exact FB|apply Forall_forall; intros x Hx; apply repeat_spec in Hx; subst x; unfold isbyte; lia]|exact P2|lia|].
    exists cp, m'. rewrite E. split; [reflexivity|]. apply add_shown with e m; auto.
Qed.
Lemma csteps_ok : forall items data ds steps data' texts out e m,
  cemit key key3 key4 data items ds = Some (steps, data') -> extends final data' ->
  Forall2 (citem_text m0 (cell_addr e0) N) items texts -> short fuel texts -> at_cell out e m -> len out + len (shown_text texts) + 4 <= N ->
  exists e' m', crun fuel D key3 key4 steps (cw_init, e, m) = Some (cw_init, e', m') /\ at_cell (out ++ shown_text texts) e' m'.
Proof.
  unfold shown_text. induction items as [|it items IH]; intros data ds steps data' texts out e m H Hext HT HS HO HL.
  - inversion HT; subst. injection H as <- <-. cbn [crun map concat]. exists e, m. rewrite app_nil_r. auto.
  - inversion HT as [|? t ? texts' Ht HT']; subst. inversion HS as [|? ? Hs HS']; subst. cbn [map concat] in *. rewrite app_length in HL. rewrite app_assoc.
    assert (NEXT : forall k steps' ds' d1, cemit key key3 key4 d1 items ds' = Some (steps', data') -> steps = k :: steps' ->
       (exists e1 m1, crun1 fuel D key3 key4 k (cw_init, e, m) = Some (cw_init, e1, m1) /\ at_cell (out ++ pad4 t) e1 m1) ->
       exists e' m', crun fuel D key3 key4 steps (cw_init, e, m) = Some (cw_init, e', m') /\ at_cell ((out ++ pad4 t) ++ concat (map pad4 texts')) e' m').
    { intros k steps' ds' d1 E -> (e1 & m1 & R & O1). cbn [crun]. rewrite R. apply (IH d1 ds' steps' data' texts'); auto. rewrite app_length. lia. }
    assert (PUT : forall k, match cemit key key3 key4 data items ds with None => None | Some (steps, data) => Some (k :: steps, data) end = Some (steps, data') ->
       exists steps', cemit key key3 key4 data items ds = Some (steps', data') /\ steps = k :: steps').
    { intros k E. destruct (cemit key key3 key4 data items ds) as [[st dd]|] eqn:X; [|discriminate]. injection E as <- <-. eauto. }
    assert (TXT : forall b, Forall isbyte b -> b = t -> (match it with COf (IBytes _) | COf (IInt _) => True | _ => False end) -> match b, ds with
        | [], _ => cemit key key3 key4 data items ds
        | _ :: _, [] => None
        | _ :: _, d :: ds =>
            match dbstr_print key key3 key4 data b d with
            | None => None
            | Some (j, data) => match cemit key key3 key4 data items ds with
                | None => None | Some (steps, data) => Some (KOf (SText j) :: steps, data) end
            end
        end = Some (steps, data') ->
       exists e' m', crun fuel D key3 key4 steps (cw_init, e, m) = Some (cw_init, e', m') /\ at_cell ((out ++ pad4 t) ++ concat (map pad4 texts')) e' m').
    { intros b Fb <- Hit E. destruct b as [|c b'].
      - change (pad4 []) with (@nil Z) in *. rewrite app_nil_r. apply (IH data ds steps data' texts'); auto.
      - set (b := c :: b') in *. destruct ds as [|d ds]; [discriminate|]. destruct (dbstr_print key key3 key4 data b d) as [[j d1]|] eqn:P; [|discriminate].
        destruct (cemit key key3 key4 d1 items ds) as [[st d2]|] eqn:X; [|discriminate]. injection E as <- <-.
        destruct (cemit_data _ _ _ _ _ _ _ _ X) as [ext Ed].
        apply (NEXT (KOf (SText j)) st ds d1 X eq_refl). apply (step_ok it b); auto; [lia|].
        assert (G : exists data0 d0 j0 data'0, Forall isbyte b /\ b <> [] /\ dbstr_print key key3 key4 data0 b d0 = Some (j0, data'0) /\ extends final data'0 /\ KOf (SText j) = KOf (SText j0)).
        { exists data, d, j, d1. split; [exact Fb|]. split; [discriminate|]. split; [exact P|]. split; [|reflexivity]. destruct Hext as [rest Er]. exists (ext ++ rest). rewrite Er, Ed, <- app_assoc. reflexivity. }
        destruct it as [[]|]; try contradiction; exact G. }
    destruct it as [[b|z|p|x|v|v]|src]; cbn [cemit] in H.
    + inversion Ht as [? ? HI| |]; subst. inversion HI; subst. apply (TXT t); auto.
    + inversion Ht as [? ? HI| |]; subst. inversion HI as [|? ? Hd| | | |]; subst.
      assert (PS : decimal (z mod 2^32) (py_str 10 (z mod 2^32))) by (apply (py_str_ok 9); pose proof (Z.mod_pos_bound z (2^32) ltac:(lia)); change (10 ^ Z.of_nat 10) with 10000000000; lia).
      apply (TXT (py_str 10 (z mod 2^32)) (decimal_byte _ _ PS) (decimal_unique _ _ _ PS Hd) I H).
    + apply PUT in H as (steps' & X & ->). apply (NEXT _ _ _ _ X eq_refl). apply (step_ok _ _ _ out e m Ht); auto; lia.
    + apply PUT in H as (steps' & X & ->). apply (NEXT _ _ _ _ X eq_refl). apply (step_ok _ _ _ out e m Ht); auto; lia.
    + apply PUT in H as (steps' & X & ->). apply (NEXT _ _ _ _ X eq_refl). apply (step_ok _ _ _ out e m Ht); auto; lia.
    + apply PUT in H as (steps' & X & ->). apply (NEXT _ _ _ _ X eq_refl). apply (step_ok _ _ _ out e m Ht); auto; lia.
    + apply PUT in H as (steps' & X & ->). apply (NEXT _ _ _ _ X eq_refl). apply (step_ok _ _ _ out e m Ht); auto; lia.
Qed.
End CPrint.
(* The texts of the arguments appear one after the other in the cells from the
   current player on, each filled up with '\r' to whole cells; the current
   player ends at the cell after them, which is zero if EOS is set; no cell
   other than these changes; the byte writer is left empty. *)
Theorem C63_print : forall key key3 key4 data items ds steps data' more D e m texts fuel (EOS : bool),
  isbyte key -> isbyte key3 -> isbyte key4 ->
  cemit key key3 key4 data items ds = Some (steps, data') ->
  D mod 4 = 0 -> holds m D (data' ++ more) ->
  let text := shown_text texts in
  len text < 2^32 - 64 -> apart (cell_addr e) (len text + 4) D (len (data' ++ more)) ->
  Forall2 (citem_text m (cell_addr e) (len text + 4)) items texts -> short fuel texts ->
  exists e' m', f_cpstr_print fuel D key3 key4 steps EOS (cw_init, e, m) = Some (cw_init, e', m') /\
    u32 e' = u32 (e + len text / 4) /\ len text mod 4 = 0 /\ shown m m' (cell_addr e) text /\ (EOS = true -> get m' e' = 0).
Proof.
  intros key key3 key4 data items ds steps data' more D e m texts fuel EOS Hk H3 H4 HE HD Hh text HL HA HT HS.
  assert (O0 : at_cell e m [] e m) by (split; [apply shown_nil|split; [reflexivity|f_equal; cbn; lia]]).
  destruct (csteps_ok key key3 key4 D (len text + 4) e m (data' ++ more) fuel Hk H3 H4 HD ltac:(lia) Hh HA items data ds steps data' texts [] e m HE (ex_intro _ more eq_refl) HT HS O0) as (e' & m' & R & O).
  { cbn [length]. fold text. lia. }
  cbn [app] in O. fold text in O. pose proof (at_cell_addr D _ _ _ _ _ O) as AD. destruct O as (S & M & U). unfold f_cpstr_print. rewrite R. destruct EOS.
  - exists e', (upd m' e' 0). split; [reflexivity|]. split; [exact U|]. split; [exact M|]. split; [|intros _; apply get_upd_eq]. split.
    + intros i Hi. rewrite <- (proj1 S i Hi). apply (out_byte m' _ e' 1).
      * intros a Ha. apply get_upd_ne'. specialize (Ha 0 ltac:(lia)). rewrite Z.add_0_r in Ha. exact Ha.
      * intros j Hj Q. rewrite <- (u32_eq_add _ _ j AD) in Q. replace (cell_addr e + len text + j) with (cell_addr e + Z.of_nat i + (len text + j - Z.of_nat i)) in Q by lia. apply u32_far in Q; [exact Q|lia].
    + intros x Hx. rewrite <- (proj2 S x Hx). apply (out_byte m' _ e' 1).
      * intros a Ha. apply get_upd_ne'. specialize (Ha 0 ltac:(lia)). rewrite Z.add_0_r in Ha. exact Ha.
      * intros j Hj Q. apply (Hx (len text + j)); [lia|]. rewrite Q, Z.add_assoc. symmetry. apply u32_eq_add, AD.
  - exists e', m'. split; [reflexivity|]. split; [exact U|]. split; [exact M|]. split; [exact S|discriminate].
Qed.
(* without EOS the cell after the text can be cleared all the same *)
Theorem C63_next_cell_refuted : exists m e' m', f_cpstr_print 6 0 0 0 [KOf (SStr (1, 0))] false (cw_init, 0, m) = Some (cw_init, e', m') /\
  string_at m (cell_addr 1) [] /\ e' = 0 /\ get m 0 = 5 /\ get m' 0 = 0.
Proof.
  exists (fun a => if a =? 0 then 5 else 0). eexists. eexists. split; [reflexivity|]. split; [split; [intros i Hi; cbn in Hi; lia|vm_compute; reflexivity]|]. split; [reflexivity|]. split; vm_compute; reflexivity.
Qed.
(* not vacuous: a text, a number, an address and a CPString, one after the other *)
Definition ex_items : list citem := [COf (IBytes [72; 105; 33]); COf (INum 4070); COf (IHex 0xC0FFEE); CCps (SrcBytes [65; 66; 67; 68; 69])].
Definition ex_draws : list draw := [{| d_r1 := 3; d_r2 := 9; d_add := 7 |}].
Definition ex_out : option (list Z * Z) :=
  match cemit 0x5A 0x11 0x22 [] ex_items ex_draws with
  | None => None
  | Some (steps, data') =>
      let m := fun a => if (2000 <=? a) && (a <? 2002) then b2i4 (data' ++ [0;0;0;0;0;0;0;0]) (4 * Z.to_nat (a - 2000)) else 0 in
      match f_cpstr_print 12 (cell_addr 2000) 0x11 0x22 steps true (cw_init, 40, m) with
      | None => None
      | Some (_, e', m') => Some (map (fun i => byte m' (cell_addr 40 + Z.of_nat i)) (seq 0 28), e')
      end
  end.
Example C63_example : ex_out = Some ([72; 105; 33; 13; 52; 48; 55; 48; 48; 48; 67; 48; 70; 70; 69; 69; 65; 66; 67; 68; 69; 13; 13; 13; 0; 0; 0; 0], 46).
Proof. vm_compute. reflexivity. Qed.

Print Assumptions C63_cpstring.
Print Assumptions C63_cpstring_values.
Print Assumptions C63_print.
Print Assumptions C63_next_cell_refuted.
Print Assumptions C63_example.
