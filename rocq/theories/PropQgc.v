(* Final theorems: commands in the packet queue (C70). *)
From Coq Require Import ZArith Lia List Bool ZifyBool ZifyNat.
From Verif Require Import Word Machine MachineProofs VarModel ReadModel PropRead BwModel PropBw BlkModel PropBlk PropMem QgcModel.
From Verif Require Lib PropMember.
Import ListNotations.
Open Scope Z_scope.

(* ================= specification ================= *)
(* the dword at a multiple of 4 *)
Definition dword (m : mem) (a : Z) : Z := get m (a / 4 - 0x58A364 / 4).
(* the queue is at 0x654880, its length at 0x654AA0, the greatest length at 0x57F0D8 *)
Definition qlen (m : mem) : Z := dword m 0x654AA0.
Definition qmax (m : mem) : Z := dword m 0x57F0D8.
(* the packet is at the end of the queue, the length counts it, no other byte changed *)
Definition queued (m m' : mem) (pkt : list Z) : Prop :=
  let size := Z.of_nat (length pkt) in
  (forall i, 0 <= i < size -> byte m' (0x654880 + qlen m + i) = nth (Z.to_nat i) pkt 0) /\
  qlen m' = qlen m + size /\
  (forall x, (forall i, 0 <= i < size -> u32 x <> 0x654880 + qlen m + i) -> (forall i, 0 <= i < 4 -> u32 x <> 0x654AA0 + i) ->
     byte m' x = byte m x).
(* there is room for so many bytes; the limit of the game keeps the queue below its length *)
Definition fits (m : mem) (size : Z) : Prop := qlen m + size + 1 < qmax m.
Definition sane (m : mem) (size : Z) : Prop := qmax m <= 0x220 /\ 0 <= size /\ qlen m + size + 1 < 2^32.
(* the cached length is only used when it is the one in memory *)
Definition good (s : qst) : Prop := cache s = cmdqlen s.
(* an address outside the queue and its length *)
Definition outside (x : Z) : Prop := u32 x < 0x654880 \/ 0x654AA4 <= u32 x.
(* the bytes of a 16 bit and of a 32 bit number *)
Definition le2 (v : Z) : list Z := [v mod 256; v / 256 mod 256].
Definition le4 (v : Z) : list Z := [v mod 256; v / 256 mod 256; v / 65536 mod 256; v / 16777216 mod 256].
(* the number by which the game's packets name unit k of the unit table *)
Definition alphaid (m : mem) (k : Z) : Z := k + 1 + 2048 * byte m (0x59CCA8 + 336 * k + 0xA5).

(* ================= memory ================= *)
Lemma get_u32 m e : u32 (get m e) = get m e.
Proof. apply u32_small, get_range. Qed.
Lemma cell_addr x a : a mod 4 = 0 -> idx (x / 4 - 0x58A364 / 4) = idx (a / 4 - 0x58A364 / 4) -> u32 x = u32 (a + x mod 4).
Proof.
  intros A H. pose proof (Z.mod_pos_bound x 4 eq_refl). apply same_addr_iff. replace ((a + x mod 4) / 4) with (a / 4) by (Z.div_mod_to_equations; lia).
  split; [exact H|]. Z.div_mod_to_equations; lia.
Qed.
Lemma byte_upd m a v x : a mod 4 = 0 -> 0 <= a -> a + 4 <= 2^32 -> 0 <= v < 2^32 ->
  byte (upd m (a / 4 - 0x58A364 / 4) v) x =
    (if (a <=? u32 x) && (u32 x <? a + 4) then nth (Z.to_nat (u32 x - a)) (le4 v) 0 else byte m x).
Proof.
  intros A A0 A1 V. pose proof (Z.mod_pos_bound x 4 eq_refl) as X. unfold byte at 1.
  destruct (Z.eq_dec (idx (x / 4 - 0x58A364 / 4)) (idx (a / 4 - 0x58A364 / 4))) as [E|E].
  - pose proof (cell_addr x a A E) as C. rewrite (u32_small (a + x mod 4)) in C by lia. rewrite C.
    replace ((a <=? a + x mod 4) && (a + x mod 4 <? a + 4)) with true by lia.
    rewrite (get_cong _ _ _ E), get_upd_eq, u32_small by lia.
    replace (a + x mod 4 - a) with (x mod 4) by lia. unfold fld.
    assert (K : x mod 4 = 0 \/ x mod 4 = 1 \/ x mod 4 = 2 \/ x mod 4 = 3) by lia.
    destruct K as [K|[K|[K|K]]]; rewrite K; cbn [Z.to_nat Pos.to_nat Pos.iter_op Nat.add nth le4].
    + change (2 ^ (8 * 0)) with 1. rewrite Z.div_1_r. reflexivity.
    + reflexivity.
    + reflexivity.
    + reflexivity.
  - rewrite get_upd_ne by (intro Q; apply E; symmetry; exact Q). fold (byte m x).
    destruct (Z.leb_spec a (u32 x)); cbn [andb]; [|reflexivity]. destruct (Z.ltb_spec (u32 x) (a + 4)); [|reflexivity].
    exfalso. apply E. assert (S : same_addr x (u32 x)) by (unfold same_addr; symmetry; apply u32_idem). apply same_addr_iff in S as [S1 S2]. rewrite S1. f_equal.
    replace (u32 x / 4) with (a / 4) by (Z.div_mod_to_equations; lia). reflexivity.
Qed.
Lemma writebyte_get m q p b e : at_addr q p -> idx e <> idx (p / 4 - 0x58A364 / 4) -> get (fst (writebyte m q b)) e = get m e.
Proof.
  destruct q as [c i]. intros [H1 _] N. cbn [fst] in H1. unfold writebyte. cbn [fst]. apply get_upd_ne. congruence.
Qed.
Lemma get_upd_self m a e : get (upd m a (get m a)) e = get m e.
Proof.
  destruct (Z.eq_dec (idx e) (idx a)) as [E|E]; [|apply get_upd_ne; congruence].
  rewrite (get_cong _ _ _ E), get_upd_eq, (get_cong m _ _ E). apply get_u32.
Qed.
Lemma byte_get m m' : (forall e, get m' e = get m e) -> forall x, byte m' x = byte m x.
Proof. intros H x. unfold byte. rewrite H. reflexivity. Qed.
(* bytes with a list written at p *)
Definition put (p : Z) (l : list Z) (f : Z -> Z) (x : Z) : Z :=
  if (p <=? u32 x) && (u32 x <? p + Z.of_nat (length l)) then nth (Z.to_nat (u32 x - p)) l 0 else f x.
Lemma put_nil p f x : put p [] f x = f x.
Proof. unfold put. cbn [length]. replace ((p <=? u32 x) && (u32 x <? p + Z.of_nat 0)) with false by lia. reflexivity. Qed.
Lemma put_cons p b l f x : put (p + 1) l (fun y => if Z.eq_dec (u32 y) p then b else f y) x = put p (b :: l) f x.
Proof.
  unfold put. cbn [length]. destruct (Z.eq_dec (u32 x) p) as [E|E].
  - rewrite E. replace (p + 1 <=? p) with false by lia. cbn [andb]. replace ((p <=? p) && (p <? p + Z.of_nat (S (length l)))) with true by lia.
    rewrite Z.sub_diag. reflexivity.
  - destruct ((p + 1 <=? u32 x) && (u32 x <? p + 1 + Z.of_nat (length l))) eqn:C.
    + replace ((p <=? u32 x) && (u32 x <? p + Z.of_nat (S (length l)))) with true by lia.
      replace (Z.to_nat (u32 x - p)) with (S (Z.to_nat (u32 x - (p + 1)))) by lia. reflexivity.
    + replace ((p <=? u32 x) && (u32 x <? p + Z.of_nat (S (length l)))) with false by lia. reflexivity.
Qed.
Lemma put_ext p l f g x : (forall y, f y = g y) -> put p l f x = put p l g x.
Proof. intros H. unfold put. destruct (_ && _); auto. Qed.

(* ================= the length ================= *)
Lemma update_ok s : good s -> let s' := update_cmdqlen s in good s' /\ cmdqlen s' = qlen (qm s) /\ qm s' = qm s.
Proof.
  intros G. unfold good in *. unfold update_cmdqlen, qlen, dword. change (qepd 0x654AA0) with (0x654AA0 / 4 - 0x58A364 / 4).
  destruct (Z.eqb_spec (get (qm s) (0x654AA0 / 4 - 0x58A364 / 4)) (cache s)) as [E|E]; cbn [cache cmdqlen qm]; [|auto].
  rewrite E. auto.
Qed.
Lemma helper_no size body s : good s -> sane (qm s) size -> ~ fits (qm s) size ->
  good (helper size body s) /\ qm (helper size body s) = qm s.
Proof.
  intros G (S1 & S2 & S3) F. unfold fits in F. destruct (update_ok s G) as (U1 & U2 & U3). unfold helper. cbv zeta. rewrite U2, U3.
  pose proof (get_range (qm s) (0x654AA0 / 4 - 0x58A364 / 4)) as R. fold (dword (qm s) 0x654AA0) in R. fold (qlen (qm s)) in R.
  rewrite (u32_small (qlen (qm s) + size)), u32_small by lia.
  change (get (qm s) (qepd 0x57F0D8)) with (qmax (qm s)). replace (qmax (qm s) <=? qlen (qm s) + size + 1) with true by lia.
  cbn [negb]. auto.
Qed.
Lemma helper_yes size body pkt s : good s -> size = Z.of_nat (length pkt) -> sane (qm s) size -> fits (qm s) size ->
  (forall x, byte (body (qlen (qm s)) (qm s)) x = put (0x654880 + qlen (qm s)) pkt (byte (qm s)) x) ->
  good (helper size body s) /\ queued (qm s) (qm (helper size body s)) pkt.
Proof.
  intros G Hs (S1 & S2 & S3) F B. unfold fits in F. destruct (update_ok s G) as (U1 & U2 & U3). unfold helper. cbv zeta. rewrite U2, U3.
  pose proof (get_range (qm s) (0x654AA0 / 4 - 0x58A364 / 4)) as R. fold (dword (qm s) 0x654AA0) in R. fold (qlen (qm s)) in R.
  rewrite (u32_small (qlen (qm s) + size)), u32_small by lia.
  change (get (qm s) (qepd 0x57F0D8)) with (qmax (qm s)). replace (qmax (qm s) <=? qlen (qm s) + size + 1) with false by lia.
  cbn [negb]. unfold set_cmdqlen. cbn [qm]. split; [reflexivity|]. set (m := qm s) in *. set (L := qlen m) in *. set (m1 := body L m) in *.
  change (qepd 0x654AA0) with (0x654AA0 / 4 - 0x58A364 / 4).
  unfold queued. fold L. rewrite <- Hs. split; [|split].
  - intros i Hi. rewrite byte_upd by (try reflexivity; lia). rewrite (u32_small (0x654880 + L + i)) by lia.
    replace ((0x654AA0 <=? 0x654880 + L + i) && (0x654880 + L + i <? 0x654AA0 + 4)) with false by lia.
    rewrite B. unfold put. rewrite (u32_small (0x654880 + L + i)) by lia.
    replace ((0x654880 + L <=? 0x654880 + L + i) && (0x654880 + L + i <? 0x654880 + L + Z.of_nat (length pkt))) with true by lia.
    f_equal. lia.
  - unfold qlen at 1, dword. rewrite get_upd_eq, u32_small; lia.
  - intros x X1 X2. rewrite byte_upd by (try reflexivity; lia).
    destruct (Z.leb_spec 0x654AA0 (u32 x)); cbn [andb]; [destruct (Z.ltb_spec (u32 x) (0x654AA0 + 4))|].
    + exfalso. apply (X2 (u32 x - 0x654AA0)); lia.
    + rewrite B. unfold put. destruct ((0x654880 + L <=? u32 x) && (u32 x <? 0x654880 + L + Z.of_nat (length pkt))) eqn:C; [|reflexivity].
      exfalso. apply (X1 (u32 x - (0x654880 + L))); lia.
    + rewrite B. unfold put. destruct ((0x654880 + L <=? u32 x) && (u32 x <? 0x654880 + L + Z.of_nat (length pkt))) eqn:C; [|reflexivity].
      exfalso. apply (X1 (u32 x - (0x654880 + L))); lia.
Qed.

(* ================= C70 ================= *)
Theorem C70_queue : forall data size pkt s,
  good s -> size = Z.of_nat (length pkt) -> sane (qm s) size ->
  (forall i, 0 <= i < size -> outside (data + i) /\ byte (qm s) (data + i) = nth (Z.to_nat i) pkt 0) ->
  let s' := QueueGameCommand data size s in
  good s' /\ (fits (qm s) size -> queued (qm s) (qm s') pkt) /\ (~ fits (qm s) size -> qm s' = qm s).
Proof.
  intros data size pkt s G Hs S D. cbv zeta. unfold QueueGameCommand.
  assert (Dec : fits (qm s) size \/ ~ fits (qm s) size) by (unfold fits; lia). destruct Dec as [F|F].
  2:{ destruct (helper_no size (fun len m => f_memcpy (PVar (u32 (0x654880 + len))) (PVar data) (PVar size) m) s G S F) as [H1 H2]. tauto. }
  destruct (helper_yes size (fun len m => f_memcpy (PVar (u32 (0x654880 + len))) (PVar data) (PVar size) m) pkt s G Hs S F) as [H1 H2]; [|tauto].
  pose proof S as (S1 & S2 & S3). unfold fits in F.
  pose proof (get_range (qm s) (0x654AA0 / 4 - 0x58A364 / 4)) as R. fold (dword (qm s) 0x654AA0) in R. fold (qlen (qm s)) in R.
  set (m := qm s) in *. set (L := qlen m) in *. rewrite (u32_small (0x654880 + L)) by lia.
  destruct (C28_memcpy_plain (PVar (0x654880 + L)) (PVar data) (PVar size) m) as [M1 M2]; cbn [pval] in *.
  - lia.
  - intros i j Hij. destruct (D (Z.of_nat j) ltac:(lia)) as [O _]. unfold outside in O. rewrite (u32_small (0x654880 + L + Z.of_nat i)) by lia. lia.
  - intros x. unfold put. destruct ((0x654880 + L <=? u32 x) && (u32 x <? 0x654880 + L + Z.of_nat (length pkt))) eqn:C.
    + rewrite (byte_same _ x (0x654880 + L + (u32 x - (0x654880 + L)))).
      * rewrite M1 by lia. apply D. lia.
      * unfold same_addr. replace (0x654880 + L + (u32 x - (0x654880 + L))) with (u32 x) by lia. symmetry. apply u32_idem.
    + apply M2. intros i Hi. rewrite (u32_small (0x654880 + L + i)) by lia. lia.
Qed.

(* ---- selections ---- *)
Lemma alpha_bits_ok n : forall j rest ui b0 b1, (n <= 11)%nat -> 0 <= j < 2 ^ Z.of_nat n ->
  0 <= rest < 2^30 -> 0 <= ui < 2^30 -> 0 <= b0 < 2^30 -> 0 <= b1 < 2^30 ->
  alpha_bits n (mkalpha (0x59CCA8 + 336 * j) rest ui b0 b1) =
  mkalpha 0x59CCA8 (rest + 336 * j) (ui + 84 * j) (b0 + j mod 256) (b1 + j / 256).
Proof.
  assert (G : forall n j rest ui b0 b1, (n <= 11)%nat -> 0 <= j < 2 ^ Z.of_nat n ->
    0 <= rest -> 0 <= ui -> 0 <= b0 -> 0 <= b1 -> rest + 336 * j < 2^32 -> ui + 84 * j < 2^32 -> b0 + j < 2^32 -> b1 + j < 2^32 ->
    alpha_bits n (mkalpha (0x59CCA8 + 336 * j) rest ui b0 b1) =
    mkalpha 0x59CCA8 (rest + 336 * j) (ui + 84 * j) (b0 + j mod 256) (b1 + j / 256)).
  { clear n. intros n. induction n as [|i IH]; intros j rest ui b0 b1 Hn Hj H1 H2 H3 H4 K1 K2 K3 K4.
    - change (2 ^ Z.of_nat 0) with 1 in Hj. assert (j = 0) by lia. subst j. cbn [alpha_bits]. change (0 mod 256) with 0. change (0 / 256) with 0. f_equal; lia.
    - cbn [alpha_bits av arest aui ab0 ab1]. set (k := Z.of_nat i) in *. rewrite Nat2Z.inj_succ in Hj. fold k in Hj. rewrite Z.pow_succ_r in Hj by lia.
      rewrite !Z.shiftl_mul_pow2 by lia. pose proof (Z.pow_pos_nonneg 2 k ltac:(lia) ltac:(lia)) as P.
      destruct (Z.leb_spec (0x59CCA8 + 336 * 2 ^ k) (0x59CCA8 + 336 * j)) as [C|C].
      + replace (0x59CCA8 + 336 * j - 336 * 2 ^ k) with (0x59CCA8 + 336 * (j - 2 ^ k)) by lia.
        rewrite (u32_small (rest + _)), (u32_small (ui + _)) by lia.
        destruct (Z.ltb_spec k 8) as [K|K].
        * rewrite u32_small by lia. rewrite IH by lia.
          assert (2 ^ k <= 2 ^ 7) by (apply Z.pow_le_mono_r; lia). change (2 ^ 7) with 128 in *.
          rewrite !(Z.mod_small j), !(Z.mod_small (j - 2 ^ k)), !(Z.div_small j), !(Z.div_small (j - 2 ^ k)) by lia. f_equal; lia.
        * rewrite Z.shiftl_mul_pow2 by lia.
          assert (E : 2 ^ k = 2 ^ (k - 8) * 256) by (change 256 with (2 ^ 8); rewrite <- Z.pow_add_r by lia; f_equal; lia).
          pose proof (Z.pow_pos_nonneg 2 (k - 8) ltac:(lia) ltac:(lia)) as P8.
          rewrite (u32_small (b1 + 1 * 2 ^ (k - 8))) by lia. rewrite IH by lia.
          replace (j mod 256) with ((j - 2 ^ k) mod 256) by (rewrite E; replace (j - 2 ^ (k - 8) * 256) with (j + - (2 ^ (k - 8)) * 256) by lia; apply Z_mod_plus_full).
          replace (j / 256) with ((j - 2 ^ k) / 256 + 2 ^ (k - 8)) by (rewrite E; replace (j - 2 ^ (k - 8) * 256) with (j + - (2 ^ (k - 8)) * 256) by lia; rewrite Z_div_plus_full by lia; lia).
          f_equal; lia.
      + apply IH; lia. }
  intros. apply G; try lia.
  all: assert (2 ^ Z.of_nat n <= 2 ^ 11) by (apply Z.pow_le_mono_r; lia); change (2 ^ 11) with 2048 in *; lia.
Qed.
Lemma uniq_bits_ok n dw b1 : (n <= 8)%nat -> 0 <= b1 < 2^20 -> uniq_bits n dw b1 = b1 + 8 * fld dw 8 (Z.of_nat n).
Proof.
  intros Hn Hb. induction n as [|i IH]; [cbn [uniq_bits]; change (Z.of_nat 0) with 0; rewrite fld_0; lia|].
  cbn [uniq_bits]. rewrite IH by lia. rewrite PropMember.bit_cond by lia. rewrite Nat2Z.inj_succ. unfold Z.succ. rewrite fld_S by lia.
  rewrite (Z.add_comm (Z.of_nat i) 8). pose proof (fld_range dw 8 (Z.of_nat i) ltac:(lia)) as FR.
  assert (2 ^ Z.of_nat i <= 2 ^ 8) by (apply Z.pow_le_mono_r; lia). change (2 ^ 8) with 256 in *.
  destruct (Z.testbit dw (8 + Z.of_nat i)); cbn [Z.b2z]; [|lia].
  rewrite Z.shiftl_mul_pow2, Z.pow_add_r by lia. change (2 ^ 3) with 8. rewrite u32_small; lia.
Qed.
Lemma qcell_addr a e : 0x654880 <= a < 0x654AA0 -> idx e = idx (a / 4 - 0x58A364 / 4) -> ~ outside (0x58A364 + 4 * e).
Proof.
  intros Ha E. unfold outside.
  assert (S : same_addr (0x58A364 + 4 * e) (4 * (a / 4))).
  { apply same_addr_iff. replace ((0x58A364 + 4 * e) / 4 - 0x58A364 / 4) with e by (Z.div_mod_to_equations; lia).
    rewrite (Z.mul_comm 4 (a / 4)), Z_div_mult, Z_mod_mult by lia. split; [exact E|]. Z.div_mod_to_equations; lia. }
  unfold same_addr in S. rewrite S. rewrite u32_small; Z.div_mod_to_equations; lia.
Qed.
Lemma alpha_loop_ok us : forall arr q m p, at_addr q p -> 0x654880 <= p -> p + 2 * Z.of_nat (length us) <= 0x654AA0 ->
  (forall i, 0 <= i < Z.of_nat (length us) -> outside (0x58A364 + 4 * (arr + i)) /\
     0 <= nth (Z.to_nat i) us 0 < 1700 /\ get m (arr + i) = 0x59CCA8 + 336 * nth (Z.to_nat i) us 0) ->
  forall x, byte (alpha_loop (length us) arr q m) x = put p (flat_map (fun k => le2 (alphaid m k)) us) (byte m) x.
Proof.
  induction us as [|k us IH]; intros arr q m p Hq P0 P1 A x; [cbn [alpha_loop length flat_map]; symmetry; apply put_nil|].
  cbn [length] in *. rewrite Nat2Z.inj_succ in *. unfold Z.succ in *.
  destruct (A 0 ltac:(lia)) as (A1 & A2 & A3). rewrite Z.add_0_r in A1, A3. change (Z.to_nat 0) with O in A2, A3. cbn [nth] in A2, A3.
  cbn [alpha_loop]. rewrite A3. rewrite alpha_bits_ok by (try (vm_compute; split; congruence); try lia; change (2 ^ Z.of_nat 11) with 2048; lia).
  cbn [av arest aui ab0 ab1]. rewrite Z.add_0_l. rewrite u32_small by lia. rewrite <- A3.
  set (m1 := upd m arr (get m arr)). assert (M1 : forall e, get m1 e = get m e) by (intros e; apply get_upd_self).
  rewrite M1. replace (get m (qepd 0x59CCA8 + 0xA5 / 4 + 84 * k)) with (get m ((0x59CCA8 + 336 * k + 0xA5) / 4 - 0x58A364 / 4))
    by (f_equal; unfold qepd; Z.div_mod_to_equations; lia).
  set (dw := get m ((0x59CCA8 + 336 * k + 0xA5) / 4 - 0x58A364 / 4)).
  set (b0 := if 256 <=? 1 + k mod 256 then 1 + k mod 256 - 256 else 1 + k mod 256).
  set (b1 := if 256 <=? 1 + k mod 256 then u32 (0 + k / 256 + 1) else 0 + k / 256).
  assert (B : b0 = (k + 1) mod 256 /\ b1 = (k + 1) / 256).
  { subst b0 b1. pose proof (Z.mod_pos_bound k 256 eq_refl). assert (0 <= k / 256 < 7) by (Z.div_mod_to_equations; lia). rewrite u32_small by lia. destruct (Z.leb_spec 256 (1 + k mod 256)); Z.div_mod_to_equations; lia. }
  destruct B as [-> ->]. rewrite uniq_bits_ok by (try lia; Z.div_mod_to_equations; lia).
  assert (U : fld dw 8 (Z.of_nat 8) = byte m (0x59CCA8 + 336 * k + 0xA5)).
  { unfold byte. fold dw. replace ((0x59CCA8 + 336 * k + 0xA5) mod 4) with 1 by (Z.div_mod_to_equations; lia). reflexivity. }
  rewrite U. set (un := byte m (0x59CCA8 + 336 * k + 0xA5)) in *. pose proof (byte_range m (0x59CCA8 + 336 * k + 0xA5)) as UR. fold un in UR.
  destruct (writebyte_at m1 q p ((k + 1) mod 256) Hq) as [W1 W2].
  pose proof (fun e N => writebyte_get m1 q p ((k + 1) mod 256) e Hq N) as W3.
  destruct (writebyte m1 q ((k + 1) mod 256)) as [m2 q2]. cbn [fst snd] in *.
  destruct (writebyte_at m2 q2 (p + 1) ((k + 1) / 256 + 8 * un) W2) as [V1 V2].
  pose proof (fun e N => writebyte_get m2 q2 (p + 1) ((k + 1) / 256 + 8 * un) e W2 N) as V3.
  destruct (writebyte m2 q2 ((k + 1) / 256 + 8 * un)) as [m3 q3]. cbn [fst snd] in *.
  assert (F3 : forall e, outside (0x58A364 + 4 * e) -> get m3 e = get m e).
  { intros e O. rewrite V3, W3, M1; [reflexivity| |]; intros Q; revert O; [apply (qcell_addr p)|apply (qcell_addr (p + 1))]; try exact Q; lia. }
  rewrite (IH (u32 (arr + 1)) q3 m3 (p + 1 + 1)).
  - cbn [flat_map]. change (le2 (alphaid m k)) with [alphaid m k mod 256; alphaid m k / 256 mod 256]. cbn [app].
    rewrite <- !put_cons.
    assert (FM : flat_map (fun k0 => le2 (alphaid m3 k0)) us = flat_map (fun k0 => le2 (alphaid m k0)) us).
    { assert (R : forall k0, In k0 us -> 0 <= k0 < 1700).
      { intros k0 I. apply (In_nth _ _ 0) in I as (j & J1 & J2). destruct (A (Z.of_nat j + 1) ltac:(lia)) as (_ & R & _).
        replace (Z.to_nat (Z.of_nat j + 1)) with (S j) in R by lia. cbn [nth] in R. rewrite J2 in R. exact R. }
      revert R. clear - F3. intros R. induction us as [|c us IHu]; [reflexivity|]. cbn [flat_map]. rewrite IHu by (intros; apply R; right; assumption). do 2 f_equal.
      unfold alphaid. do 2 f_equal. specialize (R c (or_introl eq_refl)). unfold byte. rewrite F3; [reflexivity|]. unfold outside. left.
      rewrite u32_small; Z.div_mod_to_equations; lia. }
    rewrite FM. apply put_ext. intros y. rewrite V1, (u32_small (p + 1)) by lia. unfold alphaid. fold un.
    assert (EL : (k + 1 + 2048 * un) mod 256 = (k + 1) mod 256) by (replace (k + 1 + 2048 * un) with (k + 1 + (8 * un) * 256) by lia; apply Z_mod_plus_full).
    assert (EH : (k + 1 + 2048 * un) / 256 = (k + 1) / 256 + 8 * un) by (replace (k + 1 + 2048 * un) with (k + 1 + (8 * un) * 256) by lia; rewrite Z_div_plus_full; lia).
    rewrite EL, EH. destruct (Z.eq_dec (u32 y) (p + 1)); [reflexivity|]. rewrite W1, (u32_small p) by lia.
    destruct (Z.eq_dec (u32 y) p); [apply Z.mod_mod; lia|]. apply byte_get, M1.
  - exact V2.
  - lia.
  - lia.
  - intros i Hi. destruct (A (i + 1) ltac:(lia)) as (B1 & B2 & B3). replace (Z.to_nat (i + 1)) with (S (Z.to_nat i)) in B2, B3 by lia. cbn [nth] in B2, B3.
    assert (EI : idx (u32 (arr + 1) + i) = idx (arr + (i + 1))) by (replace (arr + (i + 1)) with (arr + 1 + i) by lia; apply idx_add, idx_u32).
    assert (EO : u32 (0x58A364 + 4 * (u32 (arr + 1) + i)) = u32 (0x58A364 + 4 * (arr + (i + 1)))).
    { apply same_addr_iff. replace ((0x58A364 + 4 * (u32 (arr + 1) + i)) / 4 - 0x58A364 / 4) with (u32 (arr + 1) + i) by (Z.div_mod_to_equations; lia).
      replace ((0x58A364 + 4 * (arr + (i + 1))) / 4 - 0x58A364 / 4) with (arr + (i + 1)) by (Z.div_mod_to_equations; lia). split; [exact EI|].
      Z.div_mod_to_equations; lia. }
    unfold outside in *. rewrite EO. split; [exact B1|]. split; [exact B2|]. rewrite (get_cong _ _ _ EI), F3; [exact B3|exact B1].
Qed.
Lemma flat2 (f : Z -> Z) us : length (flat_map (fun k => le2 (f k)) us) = (2 * length us)%nat.
Proof. induction us as [|k us IH]; [reflexivity|]. cbn [flat_map]. rewrite app_length, IH. cbn [le2 length]. lia. Qed.
Theorem C70_alphaids : forall id us arr s, 0 <= id < 256 ->
  let n := Z.of_nat (length us) in
  let pkt := id :: n :: flat_map (fun k => le2 (alphaid (qm s) k)) us in
  n < 256 -> good s -> sane (qm s) (2 + 2 * n) ->
  (forall i, 0 <= i < n -> outside (0x58A364 + 4 * (arr + i)) /\
     0 <= nth (Z.to_nat i) us 0 < 1700 /\ dword (qm s) (0x58A364 + 4 * (arr + i)) = 0x59CCA8 + 336 * nth (Z.to_nat i) us 0) ->
  let s' := qgc_alphaids id n arr s in
  good s' /\ (fits (qm s) (2 + 2 * n) -> queued (qm s) (qm s') pkt) /\ (~ fits (qm s) (2 + 2 * n) -> qm s' = qm s).
Proof.
  intros id us arr s Hid n pkt Hn256 G S A. cbv zeta. pose proof S as (S1 & S2 & S3). unfold qgc_alphaids.
  pose proof (get_range (qm s) (0x654AA0 / 4 - 0x58A364 / 4)) as R. fold (dword (qm s) 0x654AA0) in R. fold (qlen (qm s)) in R.
  rewrite (u32_small (2 + 2 * n)) by lia. set (body := fun (len : Z) (m : mem) => _).
  assert (Dec : fits (qm s) (2 + 2 * n) \/ ~ fits (qm s) (2 + 2 * n)) by (unfold fits; lia). destruct Dec as [F|F].
  2:{ destruct (helper_no (2 + 2 * n) body s G S F). tauto. }
  destruct (helper_yes (2 + 2 * n) body pkt s G) as [H1 H2]; [| | | |tauto].
  - unfold pkt. cbn [length]. rewrite flat2. unfold n. lia.
  - exact S.
  - exact F.
  - unfold fits in F. unfold body. set (m := qm s) in *. set (L := qlen m) in *. rewrite (u32_small (0x654880 + L)) by lia. intros x.
    pose proof (seek_at (0x654880 + L)) as Hq. set (q := seekoffset (0x654880 + L)) in *. set (p := 0x654880 + L) in *.
    assert (Hp : p = 0x654880 + L) by reflexivity. assert (Hn : 0 <= n) by (unfold n; lia). clearbody p.
    destruct (writebyte_at m q p id Hq) as [W1 W2].
    pose proof (fun e N => writebyte_get m q p id e Hq N) as W3.
    destruct (writebyte m q id) as [m2 q2]. cbn [fst snd] in *.
    destruct (writebyte_at m2 q2 (p + 1) n W2) as [V1 V2].
    pose proof (fun e N => writebyte_get m2 q2 (p + 1) n e W2 N) as V3.
    destruct (writebyte m2 q2 n) as [m3 q3]. cbn [fst snd] in *.
    assert (F3 : forall e, outside (0x58A364 + 4 * e) -> get m3 e = get m e).
    { intros e O. rewrite V3, W3; [reflexivity| |]; intros Q; revert O; [apply (qcell_addr p)|apply (qcell_addr (p + 1))]; try exact Q; lia. }
    replace (Z.to_nat n) with (length us) by (unfold n; lia).
    rewrite (alpha_loop_ok us arr q3 m3 (p + 1 + 1)); [|exact V2|lia|fold n; lia|].
    + unfold pkt. rewrite <- !put_cons.
      assert (FM : flat_map (fun k0 => le2 (alphaid m3 k0)) us = flat_map (fun k0 => le2 (alphaid m k0)) us).
      { assert (RR : forall k0, In k0 us -> 0 <= k0 < 1700).
        { intros k0 I. apply (In_nth _ _ 0) in I as (j & J1 & J2). destruct (A (Z.of_nat j) ltac:(lia)) as (_ & RR & _). rewrite Nat2Z.id, J2 in RR. exact RR. }
        revert RR. clear - F3. intros RR. induction us as [|c us IHu]; [reflexivity|]. cbn [flat_map]. rewrite IHu by (intros; apply RR; right; assumption). do 2 f_equal.
        unfold alphaid. do 2 f_equal. specialize (RR c (or_introl eq_refl)). unfold byte. rewrite F3; [reflexivity|]. unfold outside. left.
        rewrite u32_small; Z.div_mod_to_equations; lia. }
      rewrite FM. apply put_ext. intros y. rewrite V1, (u32_small (p + 1)) by lia. rewrite (Z.mod_small n) by lia.
      destruct (Z.eq_dec (u32 y) (p + 1)); [reflexivity|]. rewrite W1, (u32_small p), (Z.mod_small id) by lia. reflexivity.
    + intros i Hi. destruct (A i Hi) as (A1 & A2 & A3). split; [exact A1|]. split; [exact A2|]. rewrite F3 by exact A1. unfold dword in A3.
      replace ((0x58A364 + 4 * (arr + i)) / 4 - 0x58A364 / 4) with (arr + i) in A3 by (Z.div_mod_to_equations; lia). exact A3.
Qed.

(* the three commands that name units *)
Definition selects (cmd : Z -> Z -> qst -> qst) (id : Z) : Prop :=
  forall us arr s, let n := Z.of_nat (length us) in
  n < 256 -> good s -> sane (qm s) (2 + 2 * n) ->
  (forall i, 0 <= i < n -> outside (0x58A364 + 4 * (arr + i)) /\
     0 <= nth (Z.to_nat i) us 0 < 1700 /\ dword (qm s) (0x58A364 + 4 * (arr + i)) = 0x59CCA8 + 336 * nth (Z.to_nat i) us 0) ->
  good (cmd n arr s) /\
  (fits (qm s) (2 + 2 * n) -> queued (qm s) (qm (cmd n arr s)) (id :: n :: flat_map (fun k => le2 (alphaid (qm s) k)) us)) /\
  (~ fits (qm s) (2 + 2 * n) -> qm (cmd n arr s) = qm s).
Theorem C70_select : selects QueueGameCommand_Select 9 /\ selects QueueGameCommand_AddSelect 10 /\ selects QueueGameCommand_RemoveSelect 11.
Proof. split; [|split]; intros us arr s n; apply C70_alphaids; lia. Qed.

(* the length cannot be cached wrongly: what the game does to memory does not matter *)
Theorem C70_good : (forall m, good (mkqst 0 0 m)) /\
  (forall s m, good s -> good (mkqst (cache s) (cmdqlen s) m)) /\
  forall size body s, good s -> good (helper size body s).
Proof.
  split; [reflexivity|]. split; [intros s m G; exact G|]. intros size body s G.
  destruct (update_ok s G) as (U1 & _). unfold helper. cbv zeta. destruct (negb _); [reflexivity|exact U1].
Qed.

(* ---- commands with a dword ---- *)
Definition db_at (m : mem) (D : Z) (db : list Z) : Prop := forall i, 0 <= i < Z.of_nat (length db) -> byte m (D + i) = nth (Z.to_nat i) db 0.
Definition db_place (D : Z) (n : Z) : Prop := D mod 4 = 0 /\ 0 <= D /\ D + n <= 2^32 /\ (D + n <= 0x57F0D8 \/ 0x654AA4 <= D).
Lemma db_command_ok D size v db rest s :
  good s -> 0 <= v < 2^32 -> (8 <= length db)%nat -> rest = firstn (Z.to_nat size) (nth 3 db 0 :: le4 v ++ skipn 8 db) ->
  0 <= size <= Z.of_nat (length db) - 3 -> db_place D (Z.of_nat (length db)) -> db_at (qm s) D db -> sane (qm s) size ->
  let m := upd (qm s) (qepd (D + 4)) v in
  let s' := db_command D size v s in
  good s' /\ qlen m = qlen (qm s) /\ qmax m = qmax (qm s) /\
  (forall x, byte m x = if (D + 4 <=? u32 x) && (u32 x <? D + 8) then nth (Z.to_nat (u32 x - (D + 4))) (le4 v) 0 else byte (qm s) x) /\
  (fits (qm s) size -> queued m (qm s') rest) /\ (~ fits (qm s) size -> qm s' = m).
Proof.
  intros G Hv Hl Hr Hs (P1 & P2 & P3 & P4) Hd Sa m s'.
  assert (E : qepd (D + 4) = (D + 4) / 4 - 0x58A364 / 4) by (unfold qepd; Z.div_mod_to_equations; lia).
  assert (B : forall x, byte m x = if (D + 4 <=? u32 x) && (u32 x <? D + 8) then nth (Z.to_nat (u32 x - (D + 4))) (le4 v) 0 else byte (qm s) x).
  { intros x. unfold m. rewrite E, byte_upd by (try lia; Z.div_mod_to_equations; lia). replace (D + 4 + 4) with (D + 8) by lia. reflexivity. }
  assert (Q : forall a, a mod 4 = 0 -> 0 <= a < 2^32 -> a <> D + 4 -> dword m a = dword (qm s) a).
  { intros a A1 A2 A3. unfold dword, m. rewrite E. apply get_upd_ne. intros I. apply A3.
    pose proof (cell_addr a (D + 4)) as C. rewrite A1, !Z.add_0_r in C. specialize (C ltac:(Z.div_mod_to_equations; lia) (eq_sym I)).
    rewrite !u32_small in C by lia. exact C. }
  assert (QL : qlen m = qlen (qm s)) by (apply Q; [reflexivity|lia|lia]).
  assert (QM : qmax m = qmax (qm s)) by (apply Q; [reflexivity|lia|lia]).
  assert (LR : Z.of_nat (length rest) = size).
  { rewrite Hr, firstn_length. cbn [length]. rewrite app_length, skipn_length. cbn [le4 length]. lia. }
  unfold s', db_command. pose proof (C70_queue (D + 3) size rest (mkqst (cache s) (cmdqlen s) m) G (eq_sym LR)) as C. cbn [qm] in C.
  destruct C as (C1 & C2 & C3).
  - unfold sane in *. rewrite QL, QM. exact Sa.
  - intros i Hi. split; [unfold outside; rewrite u32_small; lia|]. rewrite B, (u32_small (D + 3 + i)) by lia. rewrite Hr, Lib.nth_firstn by lia.
    destruct (Z.eq_dec i 0) as [->|N].
    + replace ((D + 4 <=? D + 3 + 0) && (D + 3 + 0 <? D + 8)) with false by lia. rewrite Z.add_0_r, Hd by lia. reflexivity.
    + replace (Z.to_nat i) with (S (Z.to_nat (i - 1))) by lia. cbn [nth]. destruct (Z.ltb_spec i 5).
      * replace ((D + 4 <=? D + 3 + i) && (D + 3 + i <? D + 8)) with true by lia. rewrite app_nth1 by (cbn [le4 length]; lia). f_equal. lia.
      * replace ((D + 4 <=? D + 3 + i) && (D + 3 + i <? D + 8)) with false by lia. rewrite app_nth2 by (cbn [le4 length]; lia). cbn [le4 length].
        rewrite Lib.nth_skipn. replace (D + 3 + i) with (D + (3 + i)) by lia. rewrite Hd by lia. f_equal. lia.
  - split; [exact C1|]. split; [exact QL|]. split; [exact QM|]. split; [exact B|]. unfold fits in *. rewrite QL, QM in C2, C3. split; assumption.
Qed.

(* what a command with a dword does: the dword is stored at D + 4, and then the packet is queued *)
Definition db_sent (D v : Z) (m m' : mem) (pkt : list Z) : Prop :=
  exists m1, (forall x, byte m1 x = if (D + 4 <=? u32 x) && (u32 x <? D + 8) then nth (Z.to_nat (u32 x - (D + 4))) (le4 v) 0 else byte m x) /\
    qlen m1 = qlen m /\
    let size := Z.of_nat (length pkt) in (fits m size -> queued m1 m' pkt) /\ (~ fits m size -> m' = m1).
Lemma db_sent_ok D size v db pkt s :
  good s -> 0 <= v < 2^32 -> (8 <= length db)%nat -> pkt = firstn (Z.to_nat size) (nth 3 db 0 :: le4 v ++ skipn 8 db) -> size = Z.of_nat (length pkt) ->
  0 <= size <= Z.of_nat (length db) - 3 -> db_place D (Z.of_nat (length db)) -> db_at (qm s) D db -> sane (qm s) size ->
  good (db_command D size v s) /\ db_sent D v (qm s) (qm (db_command D size v s)) pkt.
Proof.
  intros G Hv Hl Hr Hz Hs P A S. destruct (db_command_ok D size v db pkt s G Hv Hl Hr Hs P A S) as (H1 & H2 & H3 & H4 & H5 & H6).
  split; [exact H1|]. exists (upd (qm s) (qepd (D + 4)) v). split; [exact H4|]. split; [exact H2|]. cbv zeta. rewrite <- Hz. auto.
Qed.
Ltac db f d n := let D := fresh in let x := fresh in let s := fresh in let G := fresh in let V := fresh in let P := fresh in let A := fresh in let S := fresh in
  intros D x s G V P A S; unfold f; refine (db_sent_ok D n x d _ s G V _ _ _ _ P A S); [cbn; lia|reflexivity|reflexivity|cbn; lia].
Theorem C70_RightClick : forall D xy s, good s -> 0 <= xy < 2^32 -> db_place D 13 -> db_at (qm s) D db_RightClick -> sane (qm s) 10 ->
  good (RightClick D xy s) /\ db_sent D xy (qm s) (qm (RightClick D xy s)) (0x14 :: le4 xy ++ [0; 0; 0xE4; 0; 0]).
Proof. db RightClick db_RightClick 10. Qed.
Theorem C70_QueuedRightClick : forall D xy s, good s -> 0 <= xy < 2^32 -> db_place D 13 -> db_at (qm s) D db_QueuedRightClick -> sane (qm s) 10 ->
  good (QueuedRightClick D xy s) /\ db_sent D xy (qm s) (qm (QueuedRightClick D xy s)) (0x14 :: le4 xy ++ [0; 0; 0xE4; 0; 1]).
Proof. db QueuedRightClick db_QueuedRightClick 10. Qed.
Theorem C70_MinimapPing : forall D xy s, good s -> 0 <= xy < 2^32 -> db_place D 8 -> db_at (qm s) D db_MinimapPing -> sane (qm s) 5 ->
  good (MinimapPing D xy s) /\ db_sent D xy (qm s) (qm (MinimapPing D xy s)) (0x58 :: le4 xy).
Proof. db MinimapPing db_MinimapPing 5. Qed.
Theorem C70_TrainUnit : forall D u s, good s -> 0 <= u < 2^32 -> db_place D 8 -> db_at (qm s) D db_TrainUnit -> sane (qm s) 3 ->
  good (TrainUnit D u s) /\ db_sent D u (qm s) (qm (TrainUnit D u s)) (0x1F :: le2 u).
Proof. db TrainUnit db_TrainUnit 3. Qed.
Theorem C70_UseCheat : forall D f s, good s -> 0 <= f < 2^32 -> db_place D 8 -> db_at (qm s) D db_UseCheat -> sane (qm s) 5 ->
  good (UseCheat D f s) /\ db_sent D f (qm s) (qm (UseCheat D f s)) (0x12 :: le4 f).
Proof. db UseCheat db_UseCheat 5. Qed.

(* ---- many packets ---- *)
(* the packets that find room, one after the other, from length L *)
Fixpoint accepted (M L : Z) (pkts : list (list Z)) : list Z :=
  match pkts with
  | [] => []
  | p :: r => let n := Z.of_nat (length p) in if L + n + 1 <? M then p ++ accepted M (L + n) r else accepted M L r
  end.
Lemma qmax_bytes m m' : (forall i, 0 <= i < 4 -> byte m' (0x57F0D8 + i) = byte m (0x57F0D8 + i)) -> qmax m' = qmax m.
Proof.
  intros H. unfold qmax, dword.
  assert (D : forall v, 0 <= v < 2^32 -> v = fld v (8 * 0) 8 + 256 * fld v (8 * 1) 8 + 65536 * fld v (8 * 2) 8 + 16777216 * fld v (8 * 3) 8).
  { intros v Hv. unfold fld. change (2 ^ (8 * 0)) with 1. change (2 ^ (8 * 1)) with 256. change (2 ^ (8 * 2)) with 65536. change (2 ^ (8 * 3)) with 16777216. change (2 ^ 8) with 256. Z.div_mod_to_equations. lia. }
  rewrite (D (get m' _) (get_range _ _)), (D (get m _) (get_range _ _)).
  pose proof (H 0 ltac:(lia)) as H0. pose proof (H 1 ltac:(lia)) as H1. pose proof (H 2 ltac:(lia)) as H2. pose proof (H 3 ltac:(lia)) as H3.
  unfold byte in *. 
  change ((0x57F0D8 + 0) / 4) with (0x57F0D8 / 4) in H0. change ((0x57F0D8 + 1) / 4) with (0x57F0D8 / 4) in H1.
  change ((0x57F0D8 + 2) / 4) with (0x57F0D8 / 4) in H2. change ((0x57F0D8 + 3) / 4) with (0x57F0D8 / 4) in H3.
  change ((0x57F0D8 + 0) mod 4) with 0 in H0. change ((0x57F0D8 + 1) mod 4) with 1 in H1.
  change ((0x57F0D8 + 2) mod 4) with 2 in H2. change ((0x57F0D8 + 3) mod 4) with 3 in H3.
  rewrite H0, H1, H2, H3. reflexivity.
Qed.
Theorem C70_many : forall cmds s, good s -> qmax (qm s) <= 0x220 -> qlen (qm s) < 0x220 ->
  (forall d p, In (d, p) cmds -> Z.of_nat (length p) < 2^31 /\
     forall i, 0 <= i < Z.of_nat (length p) -> outside (d + i) /\ byte (qm s) (d + i) = nth (Z.to_nat i) p 0) ->
  let s' := fold_left (fun s c => QueueGameCommand (fst c) (Z.of_nat (length (snd c))) s) cmds s in
  good s' /\
  (forall i, 0 <= i < Z.of_nat (length (accepted (qmax (qm s)) (qlen (qm s)) (map snd cmds))) ->
     byte (qm s') (0x654880 + qlen (qm s) + i) = nth (Z.to_nat i) (accepted (qmax (qm s)) (qlen (qm s)) (map snd cmds)) 0) /\
  qlen (qm s') = qlen (qm s) + Z.of_nat (length (accepted (qmax (qm s)) (qlen (qm s)) (map snd cmds))) /\
  (forall x, (forall i, 0 <= i < Z.of_nat (length (accepted (qmax (qm s)) (qlen (qm s)) (map snd cmds))) -> u32 x <> 0x654880 + qlen (qm s) + i) ->
     (forall i, 0 <= i < 4 -> u32 x <> 0x654AA0 + i) -> byte (qm s') x = byte (qm s) x).
Proof.
  induction cmds as [|[d p] cmds IH]; intros s G M0 L0 D s'.
  - unfold s'. cbn [fold_left map accepted length]. change (Z.of_nat 0) with 0. split; [exact G|]. split; [lia|]. split; [lia|reflexivity].
  - destruct (D d p (or_introl eq_refl)) as [Dl Db].
    pose proof (get_range (qm s) (0x654AA0 / 4 - 0x58A364 / 4)) as R. fold (dword (qm s) 0x654AA0) in R. fold (qlen (qm s)) in R.
    assert (S : sane (qm s) (Z.of_nat (length p))) by (unfold sane; lia).
    destruct (C70_queue d (Z.of_nat (length p)) p s G eq_refl S Db) as (C1 & C2 & C3).
    unfold s'. cbn [fold_left fst snd map accepted]. cbv zeta in C1, C2, C3. set (s1 := QueueGameCommand d (Z.of_nat (length p)) s) in *.
    destruct (Z.ltb_spec (qlen (qm s) + Z.of_nat (length p) + 1) (qmax (qm s))) as [F|F].
    + destruct (C2 F) as (Q1 & Q2 & Q3).
      assert (QM : qmax (qm s1) = qmax (qm s)).
      { apply qmax_bytes. intros i Hi. apply Q3; intros j Hj; rewrite u32_small; lia. }
      destruct (IH s1 C1) as (I1 & I3 & I4 & I5); [lia|lia| |].
      { intros d' p' I. destruct (D d' p' (or_intror I)) as [D1 D2]. split; [exact D1|]. intros i Hi. destruct (D2 i Hi) as [O E]. split; [exact O|].
        rewrite <- E. unfold outside in O. apply Q3; intros j Hj; lia. }
      rewrite QM, Q2 in *. set (acc := accepted (qmax (qm s)) (qlen (qm s) + Z.of_nat (length p)) (map snd cmds)) in *.
      rewrite !app_length, Nat2Z.inj_add.
      split; [exact I1|]. split; [|split].
      * intros i Hi. destruct (Z.ltb_spec i (Z.of_nat (length p))).
        -- rewrite app_nth1 by lia. rewrite <- Q1 by lia. apply I5; intros j Hj; rewrite u32_small; lia.
        -- rewrite app_nth2 by lia. replace (0x654880 + qlen (qm s) + i) with (0x654880 + (qlen (qm s) + Z.of_nat (length p)) + (i - Z.of_nat (length p))) by lia.
           rewrite I3 by lia. f_equal. lia.
      * lia.
      * intros x X1 X2. rewrite I5; [apply Q3; [|exact X2]| |exact X2].
        -- intros i Hi. apply X1. lia.
        -- intros i Hi. specialize (X1 (i + Z.of_nat (length p)) ltac:(lia)). lia.
    + assert (E : qm s1 = qm s) by (apply C3; unfold fits; lia).
      destruct (IH s1 C1) as (I1 & I3 & I4 & I5); rewrite ?E in *; [lia|lia| |].
      { intros d' p' I. apply D. right. exact I. }
      split; [exact I1|]. split; [exact I3|]. split; [exact I4|exact I5].
Qed.

(* ================= cases ================= *)
(* limit 512, 7 bytes in the queue, the array of two units (0 and 1699) at dword 2000000, unit 1699 has
   the identifier 5 *)
Definition ex_m : mem :=
  upd (upd (upd (upd (upd (fun _ => 0) (qepd 0x57F0D8) 512) (qepd 0x654AA0) 7) 2000000 0x59CCA8) 2000001 (0x59CCA8 + 336 * 1699))
    (qepd (0x59CCA8 + 336 * 1699 + 0xA4)) (5 * 256).
Example ex_alphaids_hyps :
  sane ex_m (2 + 2 * 2) /\ fits ex_m (2 + 2 * 2) /\
  forall i, 0 <= i < 2 -> outside (0x58A364 + 4 * (2000000 + i)) /\
    0 <= nth (Z.to_nat i) [0; 1699] 0 < 1700 /\ dword ex_m (0x58A364 + 4 * (2000000 + i)) = 0x59CCA8 + 336 * nth (Z.to_nat i) [0; 1699] 0.
Proof.
  split; [vm_compute; intuition congruence|]. split; [vm_compute; congruence|]. intros i Hi. assert (K : i = 0 \/ i = 1) by lia.
  destruct K as [-> | ->]; vm_compute; intuition congruence.
Qed.
Example ex_alphaids : let s' := qgc_alphaids 0x09 2 2000000 (mkqst 0 0 ex_m) in
  map (fun i => byte (qm s') (0x654880 + 7 + i)) [0; 1; 2; 3; 4; 5; 6] = [9; 2; 1; 0; 164; 46; 0] /\ qlen (qm s') = 13 /\ alphaid ex_m 1699 = 164 + 256 * 46.
Proof. vm_compute. auto. Qed.
Definition ex_d : mem := upd (upd (upd (upd (fun _ => 0) (qepd 0x57F0D8) 512) (qepd 0x654AA0) 500) 2000000 0x142E2E2E) 2000002 0xE40000.
Example ex_rightclick_hyps : db_place (0x58A364 + 4 * 2000000) 13 /\ db_at (upd ex_d 2000001 0x59595858) (0x58A364 + 4 * 2000000) db_RightClick /\
  sane ex_d 10 /\ fits ex_d 10 /\ ~ fits ex_d 11.
Proof.
  split; [vm_compute; intuition congruence|]. split; [|split; [vm_compute; intuition congruence|split; vm_compute; congruence]].
  intros i Hi. cbn [length db_RightClick] in Hi. change (Z.of_nat 13) with 13 in Hi.
  assert (K : i = 0 \/ i = 1 \/ i = 2 \/ i = 3 \/ i = 4 \/ i = 5 \/ i = 6 \/ i = 7 \/ i = 8 \/ i = 9 \/ i = 10 \/ i = 11 \/ i = 12) by lia.
  repeat (destruct K as [-> | K]; [reflexivity|]). subst i. reflexivity.
Qed.
Example ex_rightclick : let s' := RightClick (0x58A364 + 4 * 2000000) 0x02000100 (mkqst 0 0 ex_d) in
  map (fun i => byte (qm s') (0x654880 + 500 + i)) [0; 1; 2; 3; 4; 5; 6; 7; 8; 9] = [0x14; 0; 1; 0; 2; 0; 0; 0xE4; 0; 0] /\ qlen (qm s') = 510.
Proof. vm_compute. auto. Qed.
Example ex_accepted : accepted 512 500 [[1; 2; 3; 4; 5; 6]; [7; 7; 7; 7; 7]; [8; 9]; [5; 5; 5]] = [1; 2; 3; 4; 5; 6; 8; 9].
Proof. reflexivity. Qed.

Print Assumptions C70_queue.
Print Assumptions C70_alphaids.
Print Assumptions C70_select.
Print Assumptions C70_good.
Print Assumptions C70_RightClick.
Print Assumptions C70_QueuedRightClick.
Print Assumptions C70_MinimapPing.
Print Assumptions C70_TrainUnit.
Print Assumptions C70_UseCheat.
Print Assumptions C70_many.
