(* C79: images given as GRP files. *)
From Coq Require Import ZArith List Bool Lia.
From Verif Require Import Word Machine BinModel BinProofs GrpModel.
Import ListNotations.
Open Scope Z_scope.

(* ---------- specification: bytes, words and dwords of a byte list ---------- *)
Definition at1 (t : list Z) (k : nat) : Z := nth k t 0.
Definition at2 (t : list Z) (k : nat) : Z := at1 t k + 256 * at1 t (k + 1).
Definition at4 (t : list Z) (k : nat) : Z := at2 t k + 65536 * at2 t (k + 2).
Definition frames (b : list Z) : nat := Z.to_nat (at2 b 0).
(* byte k of the file belongs to the offset of the lines of a frame *)
Definition is_lines (b : list Z) (k : nat) : Prop := exists i j, (i < frames b)%nat /\ (j < 4)%nat /\ k = (10 + 8 * i + j)%nat.

(* ================= proofs ================= *)
Lemma w2 b k v : Forall byte b -> b2i2 b k = Some v -> v = at2 b k /\ (k + 1 < length b)%nat /\ i2b2 v = [at1 b k; at1 b (k + 1)].
Proof.
  intros HB H. pose proof (b2i2_some b k v HB H) as (L & R & F). unfold b2i2 in H. destruct (nth_error b k) as [b0|] eqn:E0; [|discriminate]. destruct (nth_error b (k + 1)) as [b1|] eqn:E1; [|discriminate].
  assert (B0 : byte b0) by (apply (proj1 (Forall_forall _ _) HB); eapply nth_error_In; eauto). assert (B1 : byte b1) by (apply (proj1 (Forall_forall _ _) HB); eapply nth_error_In; eauto).
  assert (E : b2i2 b k = Some v) by (unfold b2i2; rewrite E0, E1; exact H). rewrite (b2i2_eq b k b0 b1 B0 E0 E1) in E. assert (EV : v = b0 + 256 * b1) by congruence.
  unfold at2, at1. rewrite (nth_error_nth _ _ 0 E0), (nth_error_nth _ _ 0 E1). split; [exact EV|]. split; [lia|]. rewrite i2b2_eq, EV. unfold byte in *. repeat f_equal; lia.
Qed.
Lemma w4 b k v : Forall byte b -> b2i4 b k = Some v -> v = at4 b k /\ (k + 3 < length b)%nat.
Proof.
  intros HB H. pose proof (b2i4_some b k v HB H) as (L & _ & _). split; [|lia].
  assert (G : forall j, (j < 4)%nat -> exists x, nth_error b (k + j) = Some x /\ byte x).
  { intros j Hj. destruct (nth_error b (k + j)) as [x|] eqn:E; [|apply nth_error_None in E; lia]. exists x. split; [reflexivity|]. apply (proj1 (Forall_forall _ _) HB). eapply nth_error_In; eauto. }
  destruct (G 0%nat ltac:(lia)) as (b0 & E0 & B0). destruct (G 1%nat ltac:(lia)) as (b1 & E1 & B1). destruct (G 2%nat ltac:(lia)) as (b2 & E2 & B2). destruct (G 3%nat ltac:(lia)) as (b3 & E3 & B3).
  rewrite Nat.add_0_r in E0. rewrite (b2i4_eq b k b0 b1 b2 b3 B0 B1 B2 E0 E1 E2 E3) in H. assert (EV : v = b0 + 256 * b1 + 65536 * b2 + 16777216 * b3) by congruence.
  unfold at4, at2, at1. replace (k + 2 + 1)%nat with (k + 3)%nat by lia. rewrite (nth_error_nth _ _ 0 E0), (nth_error_nth _ _ 0 E1), (nth_error_nth _ _ 0 E2), (nth_error_nth _ _ 0 E3). lia.
Qed.
Lemma fh_spec b sa : Forall byte b -> forall n i fh, frame_headers b sa i n = Some fh ->
  length fh = (8 * n)%nat /\ (n <> O -> (6 + 8 * (i + n) <= length b)%nat) /\
  forall q, (q < n)%nat -> (forall j, (j < 4)%nat -> nth (8 * q + j) fh 0 = at1 b (6 + 8 * (i + q) + j)) /\
    forall j, (j < 4)%nat -> nth (8 * q + 4 + j) fh 0 = nth j (i2b4 (at4 b (10 + 8 * (i + q)) + sa)) 0.
Proof.
  intros HB. induction n as [|n IH]; intros i fh H.
  - cbn in H. assert (E : fh = []) by congruence. subst fh. split; [reflexivity|]. split; [congruence|]. intros q Hq. lia.
  - cbn [frame_headers] in H. cbv zeta in H. set (o := (6 + 8 * i)%nat) in *. unfold b2i1 in H.
    destruct (nth_error b o) as [x0|] eqn:E0; [|discriminate]. destruct (nth_error b (o + 1)) as [x1|] eqn:E1; [|discriminate]. destruct (nth_error b (o + 2)) as [x2|] eqn:E2; [|discriminate]. destruct (nth_error b (o + 3)) as [x3|] eqn:E3; [|discriminate].
    destruct (b2i4 b (o + 4)) as [l|] eqn:E4; [|discriminate]. destruct (frame_headers b sa (i + 1) n) as [r|] eqn:ER; [|discriminate].
    destruct (IH _ _ ER) as (L & LB & Q). destruct (w4 b _ _ HB E4) as (V & L4). assert (EF : fh = x0 :: x1 :: x2 :: x3 :: i2b4 (l + sa) ++ r) by congruence.
    assert (L8 : length (i2b4 (l + sa)) = 4%nat) by (rewrite i2b4_eq; reflexivity).
    split; [rewrite EF; cbn [length]; rewrite app_length, L8, L; lia|]. split; [intros _; destruct n; [lia|]; specialize (LB ltac:(discriminate)); lia|].
    intros [|q] Hq.
    + split; intros j Hj.
      * rewrite EF. replace (8 * 0 + j)%nat with j by lia. replace (6 + 8 * (i + 0) + j)%nat with (o + j)%nat by lia. unfold at1.
        destruct j as [|[|[|[|j]]]]; try lia; cbn [nth]; symmetry; apply nth_error_nth; rewrite ?Nat.add_0_r; assumption.
      * rewrite EF. replace (8 * 0 + 4 + j)%nat with (S (S (S (S j)))) by lia. cbn [nth]. rewrite app_nth1 by lia. rewrite V. replace (o + 4)%nat with (10 + 8 * (i + 0))%nat by lia. reflexivity.
    + destruct (Q q ltac:(lia)) as (Q1 & Q2).
      assert (SH : forall x, nth (8 + x) fh 0 = nth x r 0).
      { intros x. rewrite EF. change (nth (4 + x) (i2b4 (l + sa) ++ r) 0 = nth x r 0). rewrite app_nth2 by (rewrite L8; lia). rewrite L8. f_equal. lia. }
      split; intros j Hj.
      * replace (8 * S q + j)%nat with (8 + (8 * q + j))%nat by lia. rewrite SH, Q1 by lia. f_equal. lia.
      * replace (8 * S q + 4 + j)%nat with (8 + (8 * q + 4 + j))%nat by lia. rewrite SH, Q2 by lia. replace (i + 1 + q)%nat with (i + S q)%nat by lia. reflexivity.
Qed.

(* C79: the object holds the file, two bytes after its start, with the offsets of the lines turned into addresses *)
Theorem C79_image b a out : Forall (fun x => 0 <= x < 256) b -> WritePayload b a = Some out ->
  length out = GetDataSize b /\ length out = (length b + 2)%nat /\ at2 out 0 = 0 /\
  (forall k, (k < length b)%nat -> ~ is_lines b k -> at1 out (2 + k) = at1 b k) /\
  (forall i, (i < frames b)%nat -> at4 out (2 + (10 + 8 * i)) = (Evaluate a + at4 b (10 + 8 * i)) mod 2 ^ 32) /\
  Evaluate a = a + 2 /\ forall i, a mod 4 = 0 -> (Evaluate a + Z.of_nat (10 + 8 * i)) mod 4 = 0.
Proof.
  intros HB H. change (Forall byte b) in HB. unfold WritePayload in H.
  destruct (b2i2 b 0) as [fn|] eqn:E0; [|discriminate]. destruct (b2i2 b 2) as [w|] eqn:E1; [|discriminate]. destruct (b2i2 b 4) as [h|] eqn:E2; [|discriminate].
  destruct (w2 b _ _ HB E0) as (V0 & L0 & I0). destruct (w2 b _ _ HB E1) as (V1 & L1 & I1). destruct (w2 b _ _ HB E2) as (V2 & L2 & I2).
  destruct (frame_headers b (Evaluate a) 0 (Z.to_nat fn)) as [fh|] eqn:EF; [|discriminate]. destruct (fh_spec b _ HB _ _ _ EF) as (LF & LB & Q).
  assert (NF : Z.to_nat fn = frames b) by (unfold frames; rewrite <- V0; reflexivity). rewrite NF in *. set (n := frames b) in *.
  assert (LN : (6 + 8 * n <= length b)%nat) by (destruct n; [cbn in *; lia|apply LB; discriminate]).
  rewrite I0, I1, I2 in H. set (rest := skipn (6 + 8 * n) b) in *.
  assert (EO : out = 0 :: 0 :: at1 b 0 :: at1 b 1 :: at1 b 2 :: at1 b 3 :: at1 b 4 :: at1 b 5 :: fh ++ rest) by (cbn [app Nat.add] in H; congruence).
  assert (LR : length rest = (length b - (6 + 8 * n))%nat) by (unfold rest; apply skipn_length).
  assert (LO : length out = (length b + 2)%nat) by (rewrite EO; cbn [length]; rewrite app_length, LF, LR; lia).
  assert (SH : forall x, (x < 8 * n)%nat -> nth (8 + x) out 0 = nth x fh 0).
  { intros x Hx. rewrite EO. change (8 + x)%nat with (S (S (S (S (S (S (S (S x)))))))). cbn [nth]. apply app_nth1. lia. }
  assert (SR : forall x, nth (8 + (8 * n + x)) out 0 = nth x rest 0).
  { intros x. rewrite EO. change (8 + (8 * n + x))%nat with (S (S (S (S (S (S (S (S (8 * n + x))))))))). cbn [nth]. rewrite app_nth2 by lia. f_equal. lia. }
  split; [exact LO|]. split; [exact LO|]. split; [rewrite EO; reflexivity|]. split; [|split; [|split; [reflexivity|]]].
  - intros k Hk NL. unfold at1 at 1. destruct (Nat.lt_ge_cases k 6) as [K6|K6].
    + rewrite EO. destruct k as [|[|[|[|[|[|k]]]]]]; try lia; reflexivity.
    + destruct (Nat.lt_ge_cases k (6 + 8 * n)) as [KN|KN].
      * pose proof (Nat.div_mod (k - 6) 8 ltac:(lia)) as D. pose proof (Nat.mod_upper_bound (k - 6) 8 ltac:(lia)) as U. set (q := ((k - 6) / 8)%nat) in *. set (j := ((k - 6) mod 8)%nat) in *.
        assert (Hq : (q < n)%nat) by lia. replace (2 + k)%nat with (8 + (8 * q + j))%nat by lia. rewrite SH by lia.
        destruct (Nat.lt_ge_cases j 4) as [J|J]; [|exfalso; apply NL; exists q, (j - 4)%nat; lia].
        destruct (Q q Hq) as (Q1 & _). rewrite Q1 by lia. f_equal. lia.
      * replace (2 + k)%nat with (8 + (8 * n + (k - (6 + 8 * n))))%nat by lia. rewrite SR. unfold rest, at1. rewrite <- (firstn_skipn (6 + 8 * n) b) at 2. rewrite app_nth2; rewrite firstn_length_le by lia; [reflexivity|lia].
  - intros i Hi. destruct (Q i Hi) as (_ & Q2). set (v := at4 b (10 + 8 * (0 + i)) + Evaluate a) in *.
    assert (N : forall j, (j < 4)%nat -> nth (2 + (10 + 8 * i) + j) out 0 = nth j (i2b4 v) 0).
    { intros j Hj. replace (2 + (10 + 8 * i) + j)%nat with (8 + (8 * i + 4 + j))%nat by lia. rewrite SH by lia. apply Q2. exact Hj. }
    unfold at4 at 1, at2, at1. pose proof (N 0%nat ltac:(lia)) as N0. rewrite Nat.add_0_r in N0. rewrite N0, (N 1%nat), (N 2%nat) by lia. replace (2 + (10 + 8 * i) + 2 + 1)%nat with (2 + (10 + 8 * i) + 3)%nat by lia. rewrite (N 3%nat) by lia.
    rewrite i2b4_eq. cbn [nth]. rewrite (Z.add_comm (Evaluate a)). change (at4 b (10 + 8 * i) + Evaluate a) with v. clearbody v. clear. lia.
  - intros i Ha. unfold Evaluate. lia.
Qed.
Print Assumptions C79_image.
(* C79: an error exactly for a file too short for its header or its headers of frames *)
Theorem C79_total b a : Forall (fun x => 0 <= x < 256) b ->
  ((exists out, WritePayload b a = Some out) <-> (6 + 8 * frames b <= length b /\ 6 <= length b)%nat).
Proof.
  intros HB. change (Forall byte b) in HB. split.
  - intros (out & H). unfold WritePayload in H.
    destruct (b2i2 b 0) as [fn|] eqn:E0; [|discriminate]. destruct (b2i2 b 2) as [w|] eqn:E1; [|discriminate]. destruct (b2i2 b 4) as [h|] eqn:E2; [|discriminate].
    destruct (w2 b _ _ HB E0) as (V0 & _ & _). destruct (w2 b _ _ HB E2) as (_ & L2 & _).
    destruct (frame_headers b (Evaluate a) 0 (Z.to_nat fn)) as [fh|] eqn:EF; [|discriminate]. destruct (fh_spec b _ HB _ _ _ EF) as (_ & LB & _).
    unfold frames. rewrite <- V0. split; [|lia]. destruct (Z.to_nat fn) eqn:E; [lia|]. specialize (LB ltac:(discriminate)). lia.
  - intros (L & L6). unfold WritePayload.
    assert (T : forall k, (k + 1 < length b)%nat -> exists v, b2i2 b k = Some v).
    { intros k Hk. unfold b2i2. destruct (nth_error b k) eqn:E0; [|apply nth_error_None in E0; lia]. destruct (nth_error b (k + 1)) eqn:E1; [|apply nth_error_None in E1; lia]. eauto. }
    destruct (T 0%nat ltac:(lia)) as [fn E0]. destruct (T 2%nat ltac:(lia)) as [w ->]. destruct (T 4%nat ltac:(lia)) as [h ->]. rewrite E0. destruct (w2 b _ _ HB E0) as (V0 & _ & _).
    assert (G : forall n i, (i + n = frames b)%nat -> exists fh, frame_headers b (Evaluate a) i n = Some fh).
    { induction n as [|n IH]; intros i Hi; [exists []; reflexivity|]. cbn [frame_headers]. cbv zeta. destruct (IH (i + 1)%nat ltac:(lia)) as [r ->]. destruct (b2i4_total b (6 + 8 * i + 4) ltac:(lia)) as [l ->]. unfold b2i1.
      assert (N : forall k, (k < length b)%nat -> exists x, nth_error b k = Some x) by (intros k Hk; destruct (nth_error b k) eqn:E; [eauto|apply nth_error_None in E; lia]).
      destruct (N (6 + 8 * i)%nat ltac:(lia)) as [x0 ->]. destruct (N (6 + 8 * i + 1)%nat ltac:(lia)) as [x1 ->]. destruct (N (6 + 8 * i + 2)%nat ltac:(lia)) as [x2 ->]. destruct (N (6 + 8 * i + 3)%nat ltac:(lia)) as [x3 ->]. eauto. }
    destruct (G (Z.to_nat fn) 0%nat) as [fh ->]; [unfold frames; rewrite <- V0; reflexivity|]. eauto.
Qed.
Print Assumptions C79_total.

(* ---------- a concrete case: one frame of one line ---------- *)
Example ex_grp : let b := [1; 0; 8; 0; 1; 0; 2; 0; 3; 1; 14; 0; 0; 0; 2; 0; 0x43; 7] in
  Forall (fun x => 0 <= x < 256) b /\ frames b = 1%nat /\ ~ is_lines b 14 /\ is_lines b 10 /\
  WritePayload b 0x600100 = Some [0; 0; 1; 0; 8; 0; 1; 0; 2; 0; 3; 1; 0x10; 1; 0x60; 0; 2; 0; 0x43; 7].
Proof.
  split; [repeat constructor; lia|]. split; [reflexivity|]. split; [|split].
  - intros (i & j & Hi & Hj & E). change (i < 1)%nat in Hi. lia.
  - exists 0%nat, 0%nat. split; [change (0 < 1)%nat; lia|]. split; lia.
  - reflexivity.
Qed.
