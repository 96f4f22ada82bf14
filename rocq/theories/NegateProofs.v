From Coq Require Import ZArith Lia List Bool ZifyBool ZifyNat.
From Verif Require Import Word WordX BinProofs NegateModel.
Import ListNotations.
Open Scope Z_scope.

(* ---------- specification: truth of a condition in a game state ---------- *)
(* A game state gives a 32-bit quantity to each kind of counting condition; for
   Bring and Command (types 2, 3) AtMost counts differently, hence the boolean.
   It also gives the state of each switch (restype is the switch number), and an
   unspecified truth value for the remaining kinds. *)
Record game := mk_game {
  quantity : forall (atmost : bool) (condtype player unitid locid restype : Z), Z;
  switches : Z -> bool;
  others : condition -> bool }.
Definition game_ok (g : game) : Prop := forall b t p u l r,
  0 <= quantity g b t p u l r < 2^32 /\
  (t <> 2 -> t <> 3 -> quantity g true t p u l r = quantity g false t p u l r).
Definition compare (cmp q a : Z) : bool :=
  if cmp =? 0 then a <=? q else if cmp =? 1 then q <=? a else q =? a.
Definition holds (g : game) (c : condition) : bool :=
  if mem (condtype c) [0; 22] then true
  else if mem (condtype c) [13; 23] then false
  else if condtype c =? 11 then
    (if comparison c =? 2 then switches g (restype c) else negb (switches g (restype c)))
  else if mem (condtype c) [1; 2; 3; 4; 5; 12; 14; 15; 21] then
    let masked := (condtype c =? 15) && (eudx c =? SC) in
    let q := quantity g (comparison c =? 1) (condtype c) (player c) (unitid c) (if masked then 0 else locid c) (restype c) in
    compare (comparison c) (if masked then Z.land q (locid c) else q) (amount c mod 2^32)
  else others g c.
(* comparison 2/3 of a switch condition are set/cleared *)
Definition cond_ok (c : condition) : Prop :=
  (condtype c = 11 -> comparison c = 2 \/ comparison c = 3) /\
  (condtype c <> 11 -> comparison c = 0 \/ comparison c = 1 \/ comparison c = 10).
(* the two failing cases *)
Definition overflowing (c : condition) : Prop :=
  mem (condtype c) [1; 4; 5; 12; 14; 15; 21] = true /\ comparison c = 1 /\ amount c mod 2^32 = 2^32 - 1.
Definition outside_mask (c : condition) : Prop :=
  condtype c = 15 /\ eudx c = SC /\ comparison c = 10 /\
  Z.land (amount c mod 2^32) (Z.lnot (locid c mod 2^32)) <> 0.

Lemma mem_In x l : mem x l = true <-> In x l.
Proof. unfold mem. rewrite existsb_exists. split; [intros (y & H & E); apply Z.eqb_eq in E; congruence|]. intros H. exists x. split; [exact H|apply Z.eqb_refl]. Qed.
Ltac bool_of := repeat match goal with
  | H : mem _ _ = true |- _ => apply mem_In in H; cbn [In] in H
  | H : (_ =? _) = true |- _ => apply Z.eqb_eq in H
  | H : (_ =? _) = false |- _ => apply Z.eqb_neq in H
  | H : _ && _ = true |- _ => apply andb_prop in H; destruct H
  | H : negb _ = true |- _ => apply negb_true_iff in H
  | H : negb _ = false |- _ => apply negb_false_iff in H
  end.
Lemma land_mask_le q m : 0 <= q < 2^32 -> Z.land q m = Z.land q (m mod 2^32).
Proof.
  intros H. rewrite <- (Z.land_ones m 32), (Z.land_comm m), Z.land_assoc by lia.
  rewrite (Z.land_ones q), Z.mod_small by lia. reflexivity.
Qed.
Lemma land_le q m : 0 <= m -> 0 <= Z.land q m <= m.
Proof.
  intros H. split; [apply Z.land_nonneg; auto|]. pose proof (ldiff_land_split m q) as E. rewrite (Z.land_comm q m).
  assert (0 <= Z.ldiff m q) by (apply Z.ldiff_nonneg; auto). lia.
Qed.

Lemma compare_0 q a : compare 0 q a = (a <=? q).
Proof. reflexivity. Qed.
Lemma compare_1 q a : compare 1 q a = (q <=? a).
Proof. reflexivity. Qed.
Lemma compare_10 q a : compare 10 q a = (q =? a).
Proof. reflexivity. Qed.
Lemma holds_cmp g c : mem (condtype c) [1; 2; 3; 4; 5; 12; 14; 15; 21] = true -> holds g c =
  let masked := (condtype c =? 15) && (eudx c =? SC) in
  let q := quantity g (comparison c =? 1) (condtype c) (player c) (unitid c) (if masked then 0 else locid c) (restype c) in
  compare (comparison c) (if masked then Z.land q (locid c) else q) (amount c mod 2^32).
Proof.
  intros H. unfold holds. rewrite H. apply mem_In in H. cbn [In] in H.
  destruct (mem (condtype c) [0; 22]) eqn:E1; [apply mem_In in E1; cbn [In] in E1; lia|].
  destruct (mem (condtype c) [13; 23]) eqn:E2; [apply mem_In in E2; cbn [In] in E2; lia|].
  destruct (Z.eqb_spec (condtype c) 11); [lia|]. reflexivity.
Qed.
Lemma holds_never g c : holds g (set_condtype c 23) = false.
Proof. reflexivity. Qed.

Theorem negate_ok g c c' : game_ok g -> cond_ok c -> negate c = Some c' -> ~ overflowing c -> ~ outside_mask c ->
  holds g c' = negb (holds g c).
Proof.
  intros G [K1 K2] N O1 O2. unfold negate in N.
  destruct (mem (condtype c) [0; 22]) eqn:E1.
  { injection N as <-. unfold holds at 2. rewrite E1. reflexivity. }
  destruct (mem (condtype c) [13; 23]) eqn:E2.
  { injection N as <-. unfold holds at 2. rewrite E1, E2. reflexivity. }
  destruct (condtype c =? 11) eqn:E3.
  { injection N as <-. unfold holds. cbn [condtype set_comparison comparison restype]. rewrite E1, E2, E3.
    apply Z.eqb_eq in E3. destruct (K1 E3) as [-> | ->]; cbn; destruct (switches g (restype c)); reflexivity. }
  destruct (mem (condtype c) [1; 2; 3; 4; 5; 12; 14; 15; 21]) eqn:E4; [|discriminate].
  apply Z.eqb_neq in E3. specialize (K2 E3). rewrite land_ffffffff in N.
  rewrite (holds_cmp g c E4). cbv zeta.
  set (M := (condtype c =? 15) && (eudx c =? SC)) in *.
  set (qf := fun b => quantity g b (condtype c) (player c) (unitid c) (if M then 0 else locid c) (restype c)).
  change (quantity g (comparison c =? 1) (condtype c) (player c) (unitid c) (if M then 0 else locid c) (restype c)) with (qf (comparison c =? 1)).
  set (vf := fun b => if M then Z.land (qf b) (locid c) else qf b).
  change (if M then Z.land (qf (comparison c =? 1)) (locid c) else qf (comparison c =? 1)) with (vf (comparison c =? 1)).
  assert (H' : forall x a, holds g (set_amount (set_comparison c x) a) = compare x (vf (x =? 1)) (a mod 2^32)).
  { intros x a. rewrite holds_cmp by exact E4. reflexivity. }
  assert (Rq : forall b, 0 <= qf b < 2^32) by (intros b; apply G).
  assert (Rv : forall b, 0 <= vf b < 2^32).
  { intros b. unfold vf. destruct M; [|apply Rq]. rewrite land_mask_le by apply Rq. pose proof (Rq b). apply land_range; try lia. }
  assert (Q : condtype c <> 2 -> condtype c <> 3 -> vf true = vf false).
  { intros T2 T3. unfold vf, qf. rewrite (proj2 (G true _ _ _ _ _) T2 T3). reflexivity. }
  pose proof (Rv true) as R1. pose proof (Rv false) as R0. change 4294967296 with (2^32) in N.
  destruct ((comparison c =? 10) && (amount c mod 2^32 =? 0)) eqn:B1.
  { bool_of. injection N as <-. rewrite H', H, H0. cbn. lia. }
  destruct ((comparison c =? 0) && (amount c mod 2^32 =? 1)) eqn:B2.
  { bool_of. injection N as <-. rewrite H', H, H0. cbn. lia. }
  destruct ((comparison c =? 0) && (amount c mod 2^32 =? 0)) eqn:B3.
  { bool_of. injection N as <-. rewrite holds_never, H, H0. cbn. lia. }
  destruct (mem (condtype c) [2; 3]) eqn:B4; [discriminate|].
  assert (T2 : condtype c <> 2). { intros T. rewrite T in B4. discriminate. }
  assert (T3 : condtype c <> 3). { intros T. rewrite T in B4. discriminate. }
  specialize (Q T2 T3).
  destruct (mem (comparison c) [0; 1]) eqn:B5.
  { injection N as <-. rewrite H'. bool_of. destruct B5 as [B5|[B5|[]]]; rewrite <- B5 in *.
    - change (compare (Z.lxor 0 1) (vf (Z.lxor 0 1 =? 1)) ((amount c + (if 0 =? 0 then -1 else 1)) mod 2^32)) with (vf true <=? (amount c + -1) mod 2^32).
      change (compare 0 (vf (0 =? 1)) (amount c mod 2 ^ 32)) with (amount c mod 2^32 <=? vf false). rewrite Q.
      assert (E : (amount c + -1) mod 2^32 = amount c mod 2^32 - 1).
      { assert (amount c mod 2^32 <> 0) by lia. pose proof (Z.mod_pos_bound (amount c) (2^32)). lia. }
      rewrite E. lia.
    - change (compare (Z.lxor 1 1) (vf (Z.lxor 1 1 =? 1)) ((amount c + (if 1 =? 0 then -1 else 1)) mod 2^32)) with ((amount c + 1) mod 2^32 <=? vf false).
      change (compare 1 (vf (1 =? 1)) (amount c mod 2 ^ 32)) with (vf true <=? amount c mod 2^32). rewrite Q.
      assert (E : (amount c + 1) mod 2^32 = amount c mod 2^32 + 1).
      { assert (amount c mod 2^32 <> 2^32 - 1).
        { intros W. apply O1. repeat split; auto. apply mem_In. cbn [In] in *. lia. }
        pose proof (Z.mod_pos_bound (amount c) (2^32)). lia. }
      rewrite E. lia. }
  destruct (negb (comparison c =? 10)) eqn:B6; [discriminate|]. bool_of.
  assert (C10 : compare (comparison c) (vf (comparison c =? 1)) (amount c mod 2^32) = (vf false =? amount c mod 2^32)) by (rewrite B6; reflexivity).
  rewrite C10. clear C10. assert (A0 : amount c mod 2^32 <> 0) by lia.
  destruct M eqn:EM.
  - unfold M in EM. apply andb_prop in EM. destruct EM as [EM1 EM2]. bool_of.
    rewrite land_ffffffff in N. change 4294967296 with (2^32) in N.
    destruct (negb (Z.land (amount c mod 2 ^ 32) (Z.lnot (locid c mod 2 ^ 32)) =? 0)) eqn:B7.
    { exfalso. apply O2. unfold outside_mask. bool_of. auto. }
    destruct (amount c mod 2^32 =? locid c mod 2^32) eqn:B8; [|discriminate]. injection N as <-. rewrite H'. bool_of.
    assert (L : 0 <= vf false <= locid c mod 2^32).
    { unfold vf. rewrite land_mask_le by apply Rq. apply land_le. apply Z.mod_pos_bound. lia. }
    rewrite B8 in *.     pose proof (Z.mod_pos_bound (locid c) (2^32) ltac:(lia)).
    rewrite (Z.mod_small (locid c mod 2^32 - 1)) by lia.
    change (compare 1 (vf (1 =? 1)) (locid c mod 2 ^ 32 - 1)) with (vf true <=? locid c mod 2 ^ 32 - 1). lia.
  - destruct (amount c mod 2^32 =? 4294967295) eqn:B8; [|discriminate]. injection N as <-. rewrite H'. bool_of. rewrite B8.
    change (compare 1 (vf (1 =? 1)) (4294967294 mod 2 ^ 32)) with (vf true <=? 4294967294). lia.
Qed.

(* in the failing cases the "negation" always has the same truth value *)
Theorem negate_overflow g c : game_ok g -> overflowing c ->
  exists c', negate c = Some c' /\ holds g c = true /\ holds g c' = true.
Proof.
  intros G (T & C & A). assert (T' : mem (condtype c) [1; 2; 3; 4; 5; 12; 14; 15; 21] = true).
  { apply mem_In. apply mem_In in T. cbn [In] in *. lia. }
  exists (set_amount (set_comparison c 0) (amount c + 1)).
  split; [|split].
  - unfold negate. apply mem_In in T. cbn [In] in T. rewrite T'.
    destruct (mem (condtype c) [0; 22]) eqn:E1; [apply mem_In in E1; cbn [In] in E1; lia|].
    destruct (mem (condtype c) [13; 23]) eqn:E2; [apply mem_In in E2; cbn [In] in E2; lia|].
    destruct (Z.eqb_spec (condtype c) 11); [lia|].
    destruct (mem (condtype c) [2; 3]) eqn:E3; [apply mem_In in E3; cbn [In] in E3; lia|].
    rewrite C. reflexivity.
  - rewrite holds_cmp by exact T'. cbv zeta. rewrite C, A, compare_1.
    set (M := (condtype c =? 15) && (eudx c =? SC)). apply Z.leb_le.
    pose proof (proj1 (G (1 =? 1) (condtype c) (player c) (unitid c) (if M then 0 else locid c) (restype c))) as R.
    destruct M; [|lia]. rewrite land_mask_le by exact R. pose proof (Z.mod_pos_bound (locid c) (2^32) ltac:(lia)).
    eapply Z.le_trans; [apply land_le; lia|lia].
  - rewrite holds_cmp by exact T'. cbv zeta. cbn [amount set_amount comparison condtype set_comparison eudx locid].
    replace ((amount c + 1) mod 2^32) with 0 by lia. rewrite compare_0.
    set (M := (condtype c =? 15) && (eudx c =? SC)). apply Z.leb_le.
    match goal with |- context[quantity g ?a ?b ?d ?e ?f ?h] => pose proof (proj1 (G a b d e f h)) as R end.
    destruct M; [|lia]. rewrite land_mask_le by exact R. apply land_le. apply Z.mod_pos_bound. lia.
Qed.
Theorem negate_outside g c : game_ok g -> outside_mask c ->
  exists c', negate c = Some c' /\ holds g c = false /\ holds g c' = false.
Proof.
  intros G (T & S & C & A). exists (set_condtype c 23).
  assert (A0 : amount c mod 2^32 <> 0). { intros W. rewrite W, Z.land_0_l in A. lia. }
  split; [|split; [|reflexivity]].
  - unfold negate. rewrite T, S, C, !land_ffffffff. change 4294967296 with (2^32).
    cbn [mem existsb Z.eqb orb andb Pos.eqb]. apply Z.eqb_neq in A0, A. rewrite A0, A. reflexivity.
  - rewrite holds_cmp by (rewrite T; reflexivity). cbv zeta. rewrite T, S, C. cbn [Z.eqb andb Pos.eqb].
    change (SC =? SC) with true. cbn [andb]. rewrite compare_10.
    match goal with |- context[quantity g ?a ?b ?d ?e ?f ?h] => pose proof (proj1 (G a b d e f h)) as R; set (q := quantity g a b d e f h) in * end.
    apply Z.eqb_neq. intros W. apply A. rewrite <- W, (land_mask_le q) by exact R.
    apply Z.bits_inj'. intros i Hi. rewrite !Z.land_spec, Z.lnot_spec, Z.bits_0 by lia. destruct (Z.testbit q i), (Z.testbit (locid c mod 2^32) i); reflexivity.
Qed.
