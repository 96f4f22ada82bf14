(* Properties C44 (pseudo random numbers) and C45 (tables of multiples). *)
From Coq Require Import ZArith Lia List Bool ZifyBool ZifyNat.
From Verif Require Import Word RandModel.
Import ListNotations.
Open Scope Z_scope.

(* ---------- sums of bits ---------- *)
Definition bit (s i : Z) : Z := if Z.testbit s i then 1 else 0.
Lemma bit_b2z s i : bit s i = Z.b2z (Z.testbit s i).
Proof. unfold bit. destruct (Z.testbit s i); reflexivity. Qed.
Fixpoint sumbits (s : Z) (n : nat) : Z := match n with O => 0 | S k => sumbits s k + bit s (Z.of_nat k) * 2^Z.of_nat k end.
Lemma mod_pow_succ s n : 0 <= n -> s mod 2^(n + 1) = s mod 2^n + bit s n * 2^n.
Proof.
  intros Hn. rewrite bit_b2z, Z.testbit_spec' by exact Hn. rewrite Z.pow_add_r by lia. change (2^1) with 2.
  rewrite Z.rem_mul_r by (try lia; apply Z.pow_nonzero; lia). lia.
Qed.
Lemma sumbits_mod s n : sumbits s n = s mod 2^Z.of_nat n.
Proof.
  induction n as [|n IH]; [cbn; rewrite Z.mod_1_r; reflexivity|]. cbn [sumbits]. rewrite IH.
  replace (Z.of_nat (S n)) with (Z.of_nat n + 1) by lia. rewrite mod_pow_succ by lia. reflexivity.
Qed.
Lemma land_bit s i : 0 <= i -> (1 <=? Z.land s (2^i)) = Z.testbit s i.
Proof.
  intros Hi. rewrite land_pow2 by exact Hi. pose proof (Z.pow_pos_nonneg 2 i ltac:(lia) Hi).
  destruct (Z.testbit s i); lia.
Qed.

(* ---------- C44 ---------- *)
(* The generator, as in the C standard's example implementation of rand *)
Definition lcg (s : Z) : Z := (1103515245 * s + 12345) mod 2^32.
Fixpoint state (n : nat) (s : Z) : Z := match n with O => s | S k => lcg (state k s) end.
(* n-th output (from 1): the high word of the n-th state *)
Definition output (n : nat) (s : Z) : Z := state n s / 2^16.

Lemma lcg_u32 s : u32 (u32 (s * 1103515245) + 12345) = lcg s.
Proof. rewrite u32_add_l. unfold u32, lcg. f_equal. lia. Qed.
Lemma lcg_range s : 0 <= lcg s < 2^32.
Proof. apply u32_range. Qed.
Lemma f_rand_eq s : f_rand s = (lcg s / 2^16, lcg s).
Proof. unfold f_rand. rewrite lcg_u32. rewrite Z.shiftr_div_pow2 by lia. reflexivity. Qed.
Lemma dw_fold s n : (n <= 16)%nat -> 0 <= s -> forall d, 0 <= d -> d + 2^Z.of_nat n <= 2^32 ->
  fold_left (dw_step s) (map Z.of_nat (seq 16 n)) d = d + sumbits (s / 2^16) n.
Proof.
  intros Hn Hs. induction n as [|n IH]; intros d Hd Hl; [cbn; lia|].
  rewrite List.seq_S, map_app, fold_left_app. pose proof (Z.pow_succ_r 2 (Z.of_nat n) ltac:(lia)) as P. rewrite Nat2Z.inj_succ in Hl.
  pose proof (Z.pow_pos_nonneg 2 (Z.of_nat n) ltac:(lia) ltac:(lia)).
  rewrite IH by lia. cbn [map fold_left sumbits]. unfold dw_step. rewrite land_bit by lia.
  assert (B : bit (s / 2^16) (Z.of_nat n) = if Z.testbit s (Z.of_nat (16 + n)) then 1 else 0).
  { unfold bit. rewrite <- Z.shiftr_div_pow2, Z.shiftr_spec by lia. replace (Z.of_nat n + 16) with (Z.of_nat (16 + n)) by lia. reflexivity. }
  rewrite B. replace (Z.of_nat (16 + n) - 16) with (Z.of_nat n) by lia.
  assert (0 <= sumbits (s / 2^16) n < 2^Z.of_nat n) by (rewrite sumbits_mod; apply Z.mod_pos_bound; lia).
  destruct (Z.testbit s _); [|lia]. rewrite u32_small by lia. lia.
Qed.
Lemma f_dwrand_eq s : f_dwrand s = (lcg s / 2^16 * 2^16 + lcg (lcg s) / 2^16, lcg (lcg s)).
Proof.
  unfold f_dwrand. rewrite !lcg_u32. f_equal. pose proof (lcg_range s) as R1. pose proof (lcg_range (lcg s)) as R2.
  assert (E : Z.ldiff (lcg s) 0xFFFF = lcg s / 2^16 * 2^16).
  { change 0xFFFF with (Z.ones 16). rewrite Z.ldiff_ones_r, Z.shiftr_div_pow2, Z.shiftl_mul_pow2 by lia. reflexivity. }
  rewrite E. assert (0 <= lcg s / 2^16 <= 2^16 - 1) by (split; [apply Z.div_pos; lia|assert (lcg s / 2^16 < 2^16) by (apply Z.div_lt_upper_bound; lia); lia]).
  change dw_range with (map Z.of_nat (seq 16 16)). rewrite dw_fold by lia. f_equal. rewrite sumbits_mod. apply Z.mod_small.
  split; [apply Z.div_pos; lia|apply Z.div_lt_upper_bound; lia].
Qed.

(* A program's draws: true = f_dwrand, false = f_rand *)
Fixpoint draws (l : list bool) (seed : Z) : list Z * Z :=
  match l with
  | [] => ([], seed)
  | b :: r => let (x, seed) := if b then f_dwrand seed else f_rand seed in
              let (xs, seed) := draws r seed in (x :: xs, seed)
  end.
(* the outputs they should be: [n] outputs of the generator were used already *)
Fixpoint expected (l : list bool) (n : nat) (s : Z) : list Z :=
  match l with
  | [] => []
  | false :: r => output (n + 1) s :: expected r (n + 1) s
  | true :: r => output (n + 1) s * 2^16 + output (n + 2) s :: expected r (n + 2) s
  end.
Theorem C44_draws : forall l v s0, fst (draws l (f_srand v s0)) = expected l 0 (v mod 2^32).
Proof.
  intros l v s0. unfold f_srand. change (u32 v) with (v mod 2^32). set (s := v mod 2^32).
  assert (G : forall l n, fst (draws l (state n s)) = expected l n s); [|exact (G l 0%nat)].
  induction l0 as [|b r IH]; intros n; [reflexivity|]. cbn [draws expected]. destruct b.
  - rewrite f_dwrand_eq. replace (lcg (lcg (state n s))) with (state (n + 2) s) by (replace (n + 2)%nat with (S (S n)) by lia; reflexivity).
    destruct (draws r (state (n + 2) s)) as [xs z] eqn:E. cbn [fst]. rewrite <- (IH (n + 2)%nat), E. cbn [fst]. unfold output.
    replace (n + 1)%nat with (S n) by lia. reflexivity.
  - rewrite f_rand_eq. replace (lcg (state n s)) with (state (n + 1) s) by (replace (n + 1)%nat with (S n) by lia; reflexivity).
    destruct (draws r (state (n + 1) s)) as [xs z] eqn:E. cbn [fst]. rewrite <- (IH (n + 1)%nat), E. reflexivity.
Qed.
(* ranges: a word, a double word *)
Theorem C44_ranges : forall s, 0 <= fst (f_rand s) < 2^16 /\ 0 <= fst (f_dwrand s) < 2^32.
Proof.
  intros s. rewrite f_rand_eq, f_dwrand_eq. cbn [fst]. pose proof (lcg_range s). pose proof (lcg_range (lcg s)).
  assert (forall z, 0 <= z < 2^32 -> 0 <= z / 2^16 < 2^16) as Q by (intros z Hz; split; [apply Z.div_pos; lia|apply Z.div_lt_upper_bound; lia]).
  pose proof (Q _ H). pose proof (Q _ H0). lia.
Qed.
(* f_randomize: the seed is the number whose binary digits are the 32 coins, so
   every seed is equally likely; the switch used for the coins is restored. *)
Theorem C44_randomize : forall coin sw,
  f_randomize coin sw = (fold_left (fun a i => 2 * a + (if coin i then 1 else 0)) (seq 0 32) 0, sw).
Proof.
  intros coin sw. unfold f_randomize. f_equal; [|destruct sw; reflexivity].
  assert (G : forall n i a, (n <= 32)%nat -> 0 <= a -> (a + 1) * 2^Z.of_nat n <= 2^32 ->
    randomize_loop coin n i a = fold_left (fun a i => 2 * a + (if coin i then 1 else 0)) (seq i n) a); [|apply G; lia].
  induction n as [|n IH]; intros i a Hn Ha Hl; [reflexivity|].
  rewrite Nat2Z.inj_succ, Z.pow_succ_r in Hl by lia. pose proof (Z.pow_pos_nonneg 2 (Z.of_nat n) ltac:(lia) ltac:(lia)).
  cbn [randomize_loop seq fold_left]. assert (A : 2 * (a + 1) <= 2^32) by nia.
  rewrite (u32_small (a + a)) by lia. replace (a + a) with (2 * a) by lia.
  destruct (coin i); [rewrite u32_small by lia|replace (2 * a) with (2 * a + 0) at 1 by lia]; apply IH; nia.
Qed.
Example C44_example : fst (draws [false; true; false] (f_srand 1 0)) = [16838; 38526 * 65536 + 10113; 50283].
Proof. reflexivity. Qed.

(* ---------- C45 ---------- *)
(* Results for one stride after another: quotient, and remainder if the stride
   is no multiple of 4. *)
Definition layout (f g : Z -> Z) (strides : list Z) : list Z :=
  flat_map (fun k => if k mod 4 =? 0 then [f k] else [f k; g k]) strides.
Lemma layout_len f g l : length (layout f g l) = varcount l.
Proof. induction l as [|k r IH]; [reflexivity|]. cbn. rewrite app_length. fold (layout f g r). rewrite IH. destruct (k mod 4 =? 0); reflexivity. Qed.
Lemma layout_add f g f' g' l : forall j, nth j (layout (fun k => f k + f' k) (fun k => g k + g' k) l) 0 = nth j (layout f g l) 0 + nth j (layout f' g' l) 0.
Proof.
  induction l as [|k r IH]; intros j; [destruct j; reflexivity|]. cbn [layout flat_map]. fold (layout f g r) (layout f' g' r).
  fold (layout (fun k => f k + f' k) (fun k => g k + g' k) r). destruct (k mod 4 =? 0); cbn [app].
  - destruct j as [|j]; [reflexivity|apply IH].
  - destruct j as [|[|j]]; [reflexivity|reflexivity|apply IH].
Qed.
Definition qx (x k : Z) : Z := Z.shiftl k x / 4.
Definition rx (x k : Z) : Z := Z.shiftl k x mod 4.
Definition inr (c : cells) : Prop := forall j, 0 <= c j < 2^32.
Definition cadds (l : list (nat * Z)) (c : cells) : cells := fold_left (fun c a => cadd (fst a) (snd a) c) l c.
Lemma cadds_app l r c : cadds (l ++ r) c = cadds r (cadds l c).
Proof. apply fold_left_app. Qed.
Lemma cadds_one b t i c j : (b = true -> t = 0) -> inr c -> cadds (if b then [] else [(i, t)]) c j = if (j =? i)%nat then u32 (c j + t) else c j.
Proof.
  intros Hb Hc. destruct b; [|reflexivity]. rewrite (Hb eq_refl), Z.add_0_r, u32_small by apply Hc. cbn.
  destruct (j =? i)%nat; reflexivity.
Qed.
Lemma cadds_inr l : forall c, inr c -> inr (cadds l c).
Proof.
  induction l as [|a l IH]; intros c H; [exact H|]. apply IH. intros j. unfold cadd. destruct (j =? fst a)%nat; [apply u32_range|apply H].
Qed.
Lemma actions_ok x l : forall i c, inr c ->
  (forall j, (j < i)%nat -> cadds (md4_actions x l i) c j = c j) /\
  (forall j, cadds (md4_actions x l i) c (i + j)%nat = u32 (c (i + j)%nat + nth j (layout (qx x) (rx x) l) 0)).
Proof.
  induction l as [|k r IH]; intros i c Hc; cbn [md4_actions].
  - split; [reflexivity|]. intros j. replace (nth j (layout (qx x) (rx x) []) 0) with 0 by (destruct j; reflexivity).
    rewrite Z.add_0_r, u32_small by apply Hc. reflexivity.
  - fold (qx x k) (rx x k). cbn [layout flat_map]. fold (layout (qx x) (rx x) r).
    set (c1 := cadds (if qx x k =? 0 then [] else [(i, qx x k)]) c).
    assert (H1 : inr c1) by (apply cadds_inr; exact Hc).
    assert (E1 : forall j, c1 j = if (j =? i)%nat then u32 (c j + qx x k) else c j) by (intros j; apply cadds_one; [lia|exact Hc]).
    destruct (k mod 4 =? 0).
    + rewrite cadds_app. fold c1. destruct (IH (S i) c1 H1) as [A B]. split.
      * intros j Hj. rewrite A, E1 by lia. destruct (Nat.eqb_spec j i); [lia|reflexivity].
      * intros [|j]; cbn [app nth].
        -- rewrite A, E1 by lia. rewrite Nat.add_0_r, Nat.eqb_refl. reflexivity.
        -- replace (i + S j)%nat with (S i + j)%nat by lia. rewrite B, E1. destruct (Nat.eqb_spec (S i + j) i); [lia|reflexivity].
    + rewrite cadds_app, cadds_app. fold c1. set (c2 := cadds (if rx x k =? 0 then [] else [(S i, rx x k)]) c1).
      assert (H2 : inr c2) by (apply cadds_inr; exact H1).
      assert (E2 : forall j, c2 j = if (j =? S i)%nat then u32 (c1 j + rx x k) else c1 j) by (intros j; apply cadds_one; [lia|exact H1]).
      destruct (IH (S (S i)) c2 H2) as [A B]. split.
      * intros j Hj. rewrite A, E2, E1 by lia. destruct (Nat.eqb_spec j (S i)); [lia|]. destruct (Nat.eqb_spec j i); [lia|reflexivity].
      * intros [|[|j]]; cbn [app nth].
        -- rewrite A, E2, E1 by lia. rewrite Nat.add_0_r, Nat.eqb_refl. destruct (Nat.eqb_spec i (S i)); [lia|reflexivity].
        -- rewrite A, E2, E1 by lia. replace (i + 1)%nat with (S i) by lia. rewrite Nat.eqb_refl. destruct (Nat.eqb_spec (S i) i); [lia|reflexivity].
        -- replace (i + S (S j))%nat with (S (S i) + j)%nat by lia. rewrite B, E2, E1.
           destruct (Nat.eqb_spec (S (S i) + j) (S i)); [lia|]. destruct (Nat.eqb_spec (S (S i) + j) i); [lia|reflexivity].
Qed.
(* what all bits add up to *)
Fixpoint sumx (lv : Z) (f : Z -> Z -> Z) (xs : list Z) (k : Z) : Z :=
  match xs with [] => 0 | x :: r => bit lv x * f x k + sumx lv f r k end.
Lemma layout_scale b f g l : forall j, nth j (layout (fun k => b * f k) (fun k => b * g k) l) 0 = b * nth j (layout f g l) 0.
Proof.
  induction l as [|k r IH]; intros j; [destruct j; cbn; lia|]. cbn [layout flat_map]. fold (layout f g r).
  fold (layout (fun k => b * f k) (fun k => b * g k) r). destruct (k mod 4 =? 0); cbn [app].
  - destruct j as [|j]; [reflexivity|apply IH].
  - destruct j as [|[|j]]; [reflexivity|reflexivity|apply IH].
Qed.
Lemma bits_ok lv l : forall xs c, (forall x, In x xs -> 0 <= x) -> inr c ->
  inr (fold_left (md4_bit l lv) xs c) /\
  forall j, fold_left (md4_bit l lv) xs c j = u32 (c j + nth j (layout (sumx lv qx xs) (sumx lv rx xs) l) 0).
Proof.
  induction xs as [|x xs IH]; intros c Hx Hc.
  - split; [exact Hc|]. intros j. cbn [fold_left]. change (sumx lv qx []) with (fun k : Z => 0). change (sumx lv rx []) with (fun k : Z => 0).
    replace (nth j _ 0) with 0; [rewrite Z.add_0_r, u32_small by apply Hc; reflexivity|].
    pose proof (layout_scale 0 (fun k => 0) (fun k => 0) l j) as E. cbn in E. rewrite E. reflexivity.
  - cbn [fold_left]. set (c1 := md4_bit l lv c x). pose proof (Hx x (or_introl eq_refl)) as H0.
    assert (E1 : inr c1 /\ forall j, c1 j = u32 (c j + bit lv x * nth j (layout (qx x) (rx x) l) 0)).
    { unfold c1, md4_bit. rewrite Z.shiftl_1_l, land_bit by exact H0. unfold bit. destruct (Z.testbit lv x).
      - fold (cadds (md4_actions x l 0) c). split; [apply cadds_inr; exact Hc|]. intros j. destruct (actions_ok x l 0 c Hc) as [_ B].
        rewrite Z.mul_1_l. exact (B j).
      - split; [exact Hc|]. intros j. rewrite Z.mul_0_l, Z.add_0_r, u32_small by apply Hc. reflexivity. }
    destruct E1 as [R1 E1]. destruct (IH c1) as [A B]; [intros y Hy; apply Hx; right; exact Hy|exact R1|].
    split; [exact A|]. intros j. rewrite B, E1, u32_add_l. f_equal. rewrite <- Z.add_assoc. f_equal.
    change (sumx lv qx (x :: xs)) with (fun k => bit lv x * qx x k + sumx lv qx xs k).
    change (sumx lv rx (x :: xs)) with (fun k => bit lv x * rx x k + sumx lv rx xs k).
    rewrite layout_add, layout_scale. reflexivity.
Qed.
Lemma md4_bits_nonneg n x : In x (md4_bits n) -> 0 <= x.
Proof. induction n; cbn [md4_bits In]; intros [<-|H]; try lia; auto. Qed.
(* the two sums *)
Lemma sums_total lv k n : 4 * sumx lv qx (md4_bits n) k + sumx lv rx (md4_bits n) k = (lv mod 2^(Z.of_nat n + 1)) * k.
Proof.
  assert (G : forall xs, (forall x, In x xs -> 0 <= x) -> 4 * sumx lv qx xs k + sumx lv rx xs k = sumx lv (fun x k => 2^x * k) xs k).
  { induction xs as [|x xs IH]; intros Hx; [reflexivity|]. cbn [sumx]. rewrite <- IH by (intros y Hy; apply Hx; right; exact Hy).
    unfold qx, rx. rewrite Z.shiftl_mul_pow2 by (apply Hx; left; reflexivity). pose proof (Z.div_mod (k * 2^x) 4). nia. }
  rewrite G by apply md4_bits_nonneg. clear G.
  assert (G : sumx lv (fun x k => 2^x * k) (md4_bits n) k = sumbits lv (S n) * k).
  { induction n as [|n IH]; [cbn [md4_bits sumx sumbits]; change (2^0) with 1; change (Z.of_nat 0) with 0; change (2^0) with 1; lia|].
    cbn [md4_bits sumx]. rewrite IH. cbn [sumbits]. lia. }
  rewrite G, sumbits_mod. replace (Z.of_nat (S n)) with (Z.of_nat n + 1) by lia. reflexivity.
Qed.
Lemma rx_hi x k : 2 <= x -> rx x k = 0.
Proof.
  intros H. unfold rx. rewrite Z.shiftl_mul_pow2 by lia. replace (2^x) with (2^(x - 2) * 4) by (change 4 with (2^2); rewrite <- Z.pow_add_r by lia; f_equal; lia).
  rewrite Z.mul_assoc. apply Z.mod_mul. lia.
Qed.
Lemma sum_r lv k n : sumx lv rx (md4_bits n) k = bit lv 0 * (k mod 4) + (if (n =? 0)%nat then 0 else bit lv 1 * ((2 * k) mod 4)).
Proof.
  induction n as [|n IH]; [cbn [md4_bits sumx Nat.eqb]; unfold rx; rewrite Z.shiftl_0_r; lia|].
  cbn [md4_bits sumx]. rewrite IH. destruct n as [|n].
  - cbn [Nat.eqb]. change (Z.of_nat 1) with 1. unfold rx. rewrite Z.shiftl_mul_pow2 by lia. change (2^1) with 2. rewrite (Z.mul_comm k 2). lia.
  - cbn [Nat.eqb]. rewrite rx_hi by lia. lia.
Qed.
Lemma bit01 s i : bit s i = 0 \/ bit s i = 1.
Proof. unfold bit. destruct (Z.testbit s i); auto. Qed.
(* the carry triggers never fire *)
Lemma carry_idle lv n l : forall i c, inr c ->
  (forall j, c (i + j)%nat = u32 (nth j (layout (sumx lv qx (md4_bits n)) (sumx lv rx (md4_bits n)) l) 0)) -> md4_carry l i c = c.
Proof.
  induction l as [|k r IH]; intros i c Hc H; [reflexivity|]. cbn [md4_carry]. cbn [layout flat_map] in H.
  fold (layout (sumx lv qx (md4_bits n)) (sumx lv rx (md4_bits n)) r) in H.
  destruct (k mod 4 =? 0) eqn:E0; cbn [app] in H.
  - apply IH; [exact Hc|]. intros j. replace (S i + j)%nat with (i + S j)%nat by lia. apply H.
  - assert (T : (if negb (k mod 4 =? 3) then if 4 <=? c (S i) then cadd i 1 (fun j => if (j =? S i)%nat then c j - 4 else c j) else c else c) = c).
    { destruct (k mod 4 =? 3) eqn:E3; [reflexivity|]. cbn [negb]. specialize (H 1%nat). cbn [nth] in H. replace (i + 1)%nat with (S i) in H by lia.
      rewrite sum_r in H.
      assert (R : 0 <= bit lv 0 * (k mod 4) + (if (n =? 0)%nat then 0 else bit lv 1 * ((2 * k) mod 4)) < 4).
      { pose proof (Z.mod_pos_bound k 4 ltac:(lia)). pose proof (bit01 lv 0). pose proof (bit01 lv 1).
        assert ((2 * k) mod 4 = (2 * (k mod 4)) mod 4) as -> by (rewrite Z.mul_mod_idemp_r by lia; reflexivity).
        assert (k mod 4 = 1 \/ k mod 4 = 2) as [-> | ->] by lia; cbn -[Z.mul Z.add]; destruct (n =? 0)%nat; lia. }
      rewrite u32_small in H by lia. destruct (Z.leb_spec 4 (c (S i))); [lia|reflexivity]. }
    rewrite T. apply IH; [exact Hc|]. intros j. replace (S (S i) + j)%nat with (i + S (S j))%nat by lia. apply H.
Qed.
Lemma nth_map_seq (c : cells) l n : length l = n -> (forall j, c j = u32 (nth j l 0)) -> map c (seq 0 n) = map u32 l.
Proof.
  intros Hl H. apply (nth_ext _ _ 0 0); [rewrite !map_length, List.seq_length; lia|]. intros j Hj. rewrite map_length, List.seq_length in Hj.
  rewrite (nth_indep _ 0 (c 0%nat)) by (rewrite map_length, List.seq_length; exact Hj). rewrite map_nth, seq_nth by exact Hj.
  rewrite (nth_indep _ 0 (u32 0)) by (rewrite map_length; lia). rewrite map_nth. apply H.
Qed.
Lemma md4_run_eq lv n l c : (forall j, c j = 0) ->
  fst (md4_run n l lv c) = map u32 (layout (sumx lv qx (md4_bits n)) (sumx lv rx (md4_bits n)) l) /\ (forall j, snd (md4_run n l lv c) j = 0).
Proof.
  intros Hc. unfold md4_run. cbn [fst snd].
  destruct (bits_ok lv l (md4_bits n) c (md4_bits_nonneg n) ltac:(intros j; rewrite Hc; lia)) as [A B].
  assert (B' : forall j, fold_left (md4_bit l lv) (md4_bits n) c j = u32 (nth j (layout (sumx lv qx (md4_bits n)) (sumx lv rx (md4_bits n)) l) 0))
    by (intros j; rewrite B, Hc; reflexivity).
  rewrite (carry_idle lv n l 0) by (try exact A; intros j; apply B').
  split; [apply nth_map_seq; [apply layout_len|exact B']|].
  intros j. destruct (Nat.ltb_spec j (varcount l)); [reflexivity|]. rewrite B', nth_overflow by (rewrite layout_len; lia). reflexivity.
Qed.

(* Strides not congruent 3: exact quotient and remainder.  The hypothesis on
   the cells is re-established by every use, so the table can be used again. *)
Theorem C45_exact_partial : forall (msb : nat) strides index c, (forall j, c j = 0) ->
  0 <= index < 2^(Z.of_nat msb + 1) -> Forall (fun k => k mod 4 <> 3) strides ->
  fst (md4_run msb strides index c) =
    flat_map (fun k => if k mod 4 =? 0 then [index * k / 4 mod 2^32] else [index * k / 4 mod 2^32; index * k mod 4]) strides /\
  forall j, snd (md4_run msb strides index c) j = 0.
Proof.
  intros n l idx c Hc Hi HF. destruct (md4_run_eq idx n l c Hc) as [A B]. split; [|exact B]. rewrite A. clear A B Hc.
  induction HF as [|k r Hk _ IH]; [reflexivity|]. cbn [layout flat_map]. fold (layout (sumx idx qx (md4_bits n)) (sumx idx rx (md4_bits n)) r).
  rewrite map_app, IH. f_equal.
  pose proof (sums_total idx k n) as T. rewrite (Z.mod_small idx) in T by exact Hi.
  assert (R : 0 <= sumx idx rx (md4_bits n) k < 4).
  { rewrite sum_r. pose proof (Z.mod_pos_bound k 4 ltac:(lia)). pose proof (bit01 idx 0). pose proof (bit01 idx 1).
    assert ((2 * k) mod 4 = (2 * (k mod 4)) mod 4) as -> by (rewrite Z.mul_mod_idemp_r by lia; reflexivity).
    assert (k mod 4 = 0 \/ k mod 4 = 1 \/ k mod 4 = 2) as [-> | [-> | ->]] by lia; cbn -[Z.mul Z.add]; destruct (n =? 0)%nat; lia. }
  rewrite (Z.div_mod (idx * k) 4) in T by lia. pose proof (Z.mod_pos_bound (idx * k) 4 ltac:(lia)).
  assert (sumx idx qx (md4_bits n) k = idx * k / 4) as -> by lia.
  assert (sumx idx rx (md4_bits n) k = idx * k mod 4) as -> by lia.
  destruct (k mod 4 =? 0); cbn [map]; [reflexivity|]. rewrite (u32_small (_ mod 4)) by lia. reflexivity.
Qed.
(* All strides: 4*epd + subp is the product, but subp may be 5 *)
Theorem C45_total_partial : forall (msb : nat) strides index c, (forall j, c j = 0) ->
  0 <= index < 2^(Z.of_nat msb + 1) ->
  exists q r, fst (md4_run msb strides index c) = map u32 (layout q r strides) /\
    forall k, 4 * q k + r k = index * k /\ 0 <= r k <= 5.
Proof.
  intros n l idx c Hc Hi. destruct (md4_run_eq idx n l c Hc) as [A _].
  eexists _, _. split; [exact A|]. intros k. split; [rewrite sums_total, (Z.mod_small idx) by exact Hi; reflexivity|].
  rewrite sum_r. pose proof (Z.mod_pos_bound k 4 ltac:(lia)). pose proof (bit01 idx 0). pose proof (bit01 idx 1).
  assert ((2 * k) mod 4 = (2 * (k mod 4)) mod 4) as -> by (rewrite Z.mul_mod_idemp_r by lia; reflexivity).
  assert (k mod 4 = 0 \/ k mod 4 = 1 \/ k mod 4 = 2 \/ k mod 4 = 3) as [-> | [-> | [-> | ->]]] by lia; cbn -[Z.mul Z.add]; destruct (n =? 0)%nat; lia.
Qed.
(* Finding: the carry is emitted for strides that never need it and left out
   for the one residue that does.  Stride 3, index 3: 9 = 4*1 + 5. *)
Theorem C45_stride3_refuted : exists strides index c, (forall j : nat, c j = 0) /\ 0 <= index < 2^8 /\
  fst (md4_run 7 strides index c) = [1; 5] /\ strides = [3] /\ index = 3.
Proof. exists [3], 3, (fun _ => 0). repeat split; vm_compute; congruence. Qed.
Example C45_example : fst (md4_run 11 [1; 6; 336] 1001 (fun _ => 0)) = [250; 1; 1501; 2; 84084].
Proof. vm_compute. reflexivity. Qed.

Print Assumptions C44_draws. Print Assumptions C44_ranges. Print Assumptions C44_randomize.
Print Assumptions C45_exact_partial. Print Assumptions C45_total_partial. Print Assumptions C45_stride3_refuted.

Print Assumptions C44_ranges.
Print Assumptions C44_randomize.
Print Assumptions C45_total_partial.
Print Assumptions C45_stride3_refuted.
