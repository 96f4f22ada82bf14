From Coq Require Import ZArith Lia List Bool ZifyBool ZifyNat.
From Verif Require Import Lib Word Dict BinModel BinProofs ChkModel ChkProofs PrpModel.
Import ListNotations.
Open Scope Z_scope.

(* ---------- specification: what a property does ---------- *)
(* a percentage, amount or flag is None when the game ignores the field or when
   it asks for what a unit has anyway (100% hit points or shields, an empty
   hangar, a flag that is not set) *)
Record effect := mk_effect {
  e_cloaked : bool; e_burrowed : bool; e_transit : bool; e_hallucination : bool; e_invincible : bool;
  e_owner : bool; e_hp : option Z; e_shield : option Z; e_energy : option Z; e_resource : option Z; e_hanger : option Z }.
Definition when {A} (b : bool) (v : A) : option A := if b then Some v else None.
Definition effect_of (x : prp) : effect :=
  let special k := Z.testbit (x0 x) k && Z.testbit (x8 x) k in
  mk_effect (special 0) (special 1) (special 2) (special 3) (special 4)
    (Z.testbit (x1 x) 0)
    (when (Z.testbit (x1 x) 1 && negb (x3 x =? 100)) (x3 x))
    (when (Z.testbit (x1 x) 2 && negb (x4 x =? 100)) (x4 x))
    (when (Z.testbit (x1 x) 3) (x5 x))
    (when (Z.testbit (x1 x) 4) (x6 x))
    (when (Z.testbit (x1 x) 5 && negb (x7 x =? 0)) (x7 x)).

Definition prp_ok (x : prp) : Prop :=
  0 <= x0 x < 2^16 /\ 0 <= x1 x < 2^16 /\ 0 <= x2 x < 2^8 /\ 0 <= x3 x < 2^8 /\ 0 <= x4 x < 2^8 /\ 0 <= x5 x < 2^8 /\
  0 <= x6 x < 2^32 /\ 0 <= x7 x < 2^16 /\ 0 <= x8 x < 2^16 /\ 0 <= x9 x < 2^32.

(* ---------- the canonical form encodes the effect ---------- *)
Definition enc (e : effect) : prp :=
  let w := Z.b2z (e_cloaked e) + 2 * Z.b2z (e_burrowed e) + 4 * Z.b2z (e_transit e) + 8 * Z.b2z (e_hallucination e) + 16 * Z.b2z (e_invincible e) in
  let has (o : option Z) := match o with Some _ => 1 | None => 0 end in
  let get (o : option Z) := match o with Some v => v | None => 0 end in
  mk_prp w (Z.b2z (e_owner e) + 2 * has (e_hp e) + 4 * has (e_shield e) + 8 * has (e_energy e) + 16 * has (e_resource e) + 32 * has (e_hanger e))
    0 (get (e_hp e)) (get (e_shield e)) (get (e_energy e)) (get (e_resource e)) (get (e_hanger e)) w 0.
Definition range (n : nat) : list Z := map Z.of_nat (seq 0 n).
Lemma range_In n z : 0 <= z < Z.of_nat n -> In z (range n).
Proof. intros H. unfold range. apply in_map_iff. exists (Z.to_nat z). split; [lia|]. apply in_seq. lia. Qed.

Definition f0out (f0 f8 : Z) : Z :=
  let f0 := clear_if (off f8 1) f0 1 in let f0 := clear_if (off f8 2) f0 2 in let f0 := clear_if (off f8 4) f0 4 in
  let f0 := clear_if (off f8 8) f0 8 in clear_if (off f8 16) f0 16.
Definition f8out (f0 f8 : Z) : Z :=
  let f0 := f0out f0 f8 in
  let f8 := clear_if (off f0 1) f8 1 in let f8 := clear_if (off f0 2) f8 2 in let f8 := clear_if (off f0 4) f8 4 in
  let f8 := clear_if (off f0 8) f8 8 in clear_if (off f0 16) f8 16.
Definition f1out (f1 : Z) (p q r : bool) : Z := clear_if r (clear_if q (clear_if p f1 2) 4) 32.
Definition sp (a b k : Z) : Z := Z.b2z (Z.testbit a k && Z.testbit b k).
Definition sum5 (a b : Z) : Z := sp a b 0 + 2 * sp a b 1 + 4 * sp a b 2 + 8 * sp a b 3 + 16 * sp a b 4.
Lemma special_all : forallb (fun a => forallb (fun b => (f0out a b =? sum5 a b) && (f8out a b =? sum5 a b)) (range 32)) (range 32) = true.
Proof. vm_compute. reflexivity. Qed.
Definition hasb (b : bool) : Z := if b then 1 else 0.
Definition bools := [true; false].
Lemma valid_all : forallb (fun c => forallb (fun p => forallb (fun q => forallb (fun r =>
   let o := f1out c p q r in
   (o =? Z.b2z (Z.testbit c 0) + 2 * hasb (Z.testbit c 1 && negb p) + 4 * hasb (Z.testbit c 2 && negb q) + 8 * hasb (Z.testbit c 3) +
         16 * hasb (Z.testbit c 4) + 32 * hasb (Z.testbit c 5 && negb r)) &&
   Bool.eqb (off o 2) (negb (Z.testbit c 1 && negb p)) && Bool.eqb (off o 4) (negb (Z.testbit c 2 && negb q)) &&
   Bool.eqb (off o 8) (negb (Z.testbit c 3)) && Bool.eqb (off o 16) (negb (Z.testbit c 4)) &&
   Bool.eqb (off o 32) (negb (Z.testbit c 5 && negb r))) bools) bools) bools) (range 64) = true.
Proof. vm_compute. reflexivity. Qed.
Lemma low_bits n v k : 0 <= k < n -> Z.testbit (Z.land v (Z.ones n)) k = Z.testbit v k.
Proof. intros H. rewrite Z.land_spec, Z.ones_spec_low by lia. apply andb_true_r. Qed.

Lemma canon_enc x : canon x = enc (effect_of x).
Proof.
  set (a := Z.land (x0 x) 31). set (b := Z.land (x8 x) 31). set (c := Z.land (x1 x) 63).
  set (p := x3 x =? 100). set (q := x4 x =? 100). set (r := x7 x =? 0).
  assert (Ta : forall k, 0 <= k < 5 -> Z.testbit a k = Z.testbit (x0 x) k) by (intros; apply (low_bits 5); lia).
  assert (Tb : forall k, 0 <= k < 5 -> Z.testbit b k = Z.testbit (x8 x) k) by (intros; apply (low_bits 5); lia).
  assert (Tc : forall k, 0 <= k < 6 -> Z.testbit c k = Z.testbit (x1 x) k) by (intros; apply (low_bits 6); lia).
  assert (Ra : In a (range 32)). { apply range_In. unfold a. change 31 with (Z.ones 5). rewrite Z.land_ones by lia. apply Z.mod_pos_bound. lia. }
  assert (Rb : In b (range 32)). { apply range_In. unfold b. change 31 with (Z.ones 5). rewrite Z.land_ones by lia. apply Z.mod_pos_bound. lia. }
  assert (Rc : In c (range 64)). { apply range_In. unfold c. change 63 with (Z.ones 6). rewrite Z.land_ones by lia. apply Z.mod_pos_bound. lia. }
  assert (Rbool : forall b, In b bools) by (intros []; cbn; auto).
  pose proof special_all as H. rewrite forallb_forall in H. specialize (H a Ra). rewrite forallb_forall in H. specialize (H b Rb).
  apply andb_prop in H. destruct H as [H0 H8]. apply Z.eqb_eq in H0, H8.
  pose proof valid_all as V. rewrite forallb_forall in V. specialize (V c Rc). rewrite forallb_forall in V. specialize (V p (Rbool p)).
  rewrite forallb_forall in V. specialize (V q (Rbool q)). rewrite forallb_forall in V. specialize (V r (Rbool r)). cbv zeta in V.
  repeat (apply andb_prop in V; destruct V as [V ?V]). apply Z.eqb_eq in V. rewrite eqb_true_iff in V0, V1, V2, V3, V4.
  change (canon x) with (mk_prp (f0out a b) (f1out c p q r) 0 (if off (f1out c p q r) 2 then 0 else x3 x) (if off (f1out c p q r) 4 then 0 else x4 x)
    (if off (f1out c p q r) 8 then 0 else x5 x) (if off (f1out c p q r) 16 then 0 else x6 x) (if off (f1out c p q r) 32 then 0 else x7 x) (f8out a b) 0).
  rewrite H0, H8, V0, V1, V2, V3, V4, V.
  unfold sum5, sp, enc, effect_of. cbn [e_cloaked e_burrowed e_transit e_hallucination e_invincible e_owner e_hp e_shield e_energy e_resource e_hanger].
  rewrite !Ta, !Tb, !Tc by (split; [discriminate|reflexivity]). fold p q r.
  set (h1 := Z.testbit (x1 x) 1 && negb p). set (h2 := Z.testbit (x1 x) 2 && negb q). set (h5 := Z.testbit (x1 x) 5 && negb r).
  unfold when, hasb. destruct h1, h2, h5, (Z.testbit (x1 x) 3), (Z.testbit (x1 x) 4); reflexivity.
Qed.

Lemma b2z_bits (a b c d e : bool) (a' b' c' d' e' : bool) :
  Z.b2z a + 2 * Z.b2z b + 4 * Z.b2z c + 8 * Z.b2z d + 16 * Z.b2z e = Z.b2z a' + 2 * Z.b2z b' + 4 * Z.b2z c' + 8 * Z.b2z d' + 16 * Z.b2z e' ->
  a = a' /\ b = b' /\ c = c' /\ d = d' /\ e = e'.
Proof. destruct a, b, c, d, e, a', b', c', d', e'; cbn; intros H; try discriminate H; auto. Qed.
Lemma b2z_le b : 0 <= Z.b2z b <= 1.
Proof. destruct b; cbn; lia. Qed.
Lemma has_le (o : option Z) : 0 <= match o with Some _ => 1 | None => 0 end <= 1.
Proof. destruct o; lia. Qed.
Lemma six_bits a b c d e f a' b' c' d' e' f' :
  0 <= a <= 1 -> 0 <= b <= 1 -> 0 <= c <= 1 -> 0 <= d <= 1 -> 0 <= e <= 1 -> 0 <= f <= 1 ->
  0 <= a' <= 1 -> 0 <= b' <= 1 -> 0 <= c' <= 1 -> 0 <= d' <= 1 -> 0 <= e' <= 1 -> 0 <= f' <= 1 ->
  a + 2 * b + 4 * c + 8 * d + 16 * e + 32 * f = a' + 2 * b' + 4 * c' + 8 * d' + 16 * e' + 32 * f' ->
  a = a' /\ b = b' /\ c = c' /\ d = d' /\ e = e' /\ f = f'.
Proof.
  intros. assert (a = a') by lia. subst a'. assert (b = b') by lia. subst b'. assert (c = c') by lia. subst c'.
  assert (d = d') by lia. subst d'. assert (e = e') by lia. subst e'. assert (f = f') by lia. subst f'. auto 10.
Qed.
Lemma opt_eq (h h' : option Z) : match h with Some _ => 1 | None => 0 end = match h' with Some _ => 1 | None => 0 end ->
  match h with Some v => v | None => 0 end = match h' with Some v => v | None => 0 end -> h = h'.
Proof. destruct h, h'; intros; congruence || discriminate. Qed.
Lemma enc_inj e e' : enc e = enc e' -> e = e'.
Proof.
  intros H. pose proof (f_equal x0 H) as H0. pose proof (f_equal x1 H) as H1. pose proof (f_equal x3 H) as H3. pose proof (f_equal x4 H) as H4.
  pose proof (f_equal x5 H) as H5. pose proof (f_equal x6 H) as H6. pose proof (f_equal x7 H) as H7.
  destruct e as [a b c d f o h s n r g], e' as [a' b' c' d' f' o' h' s' n' r' g'].
  cbn [enc x0 x1 x3 x4 x5 x6 x7 e_cloaked e_burrowed e_transit e_hallucination e_invincible e_owner e_hp e_shield e_energy e_resource e_hanger] in *.
  apply b2z_bits in H0. destruct H0 as (-> & -> & -> & -> & ->). clear H.
  apply six_bits in H1; try apply b2z_le; try apply has_le. destruct H1 as (Ho & Hh & Hs & Hn & Hr & Hg).
  assert (o = o') by (destruct o, o'; auto; discriminate). subst o'.
  rewrite (opt_eq h h' Hh H3), (opt_eq s s' Hs H4), (opt_eq n n' Hn H5), (opt_eq r r' Hr H6), (opt_eq g g' Hg H7). reflexivity.
Qed.
Lemma canon_eq x y : canon x = canon y <-> effect_of x = effect_of y.
Proof. rewrite !canon_enc. split; [apply enc_inj|congruence]. Qed.

Lemma land_le_r a n : 0 <= n -> 0 <= Z.land a (Z.ones n) < 2^n.
Proof. intros H. rewrite Z.land_ones by lia. apply Z.mod_pos_bound. lia. Qed.
Lemma when_range b v lo hi : lo <= 0 < hi -> lo <= v < hi -> lo <= match when b v with Some v => v | None => 0 end < hi.
Proof. destruct b; cbn; lia. Qed.
Lemma enc_ok x : prp_ok x -> prp_ok (enc (effect_of x)).
Proof.
  intros (R0 & R1 & R2 & R3 & R4 & R5 & R6 & R7 & R8 & R9). unfold prp_ok, enc, effect_of.
  cbn [x0 x1 x2 x3 x4 x5 x6 x7 x8 x9 e_cloaked e_burrowed e_transit e_hallucination e_invincible e_owner e_hp e_shield e_energy e_resource e_hanger].
  repeat match goal with |- context[Z.b2z ?b] => let z := fresh "z" in pose proof (b2z_le b); set (z := Z.b2z b) in *; clearbody z end.
  repeat match goal with |- context[match ?o with Some _ => 1 | None => 0 end] => let z := fresh "z" in pose proof (has_le o); set (z := match o with Some _ => 1 | None => 0 end) in *; clearbody z end.
  repeat (split; [first [lia | apply when_range; lia]|]). lia.
Qed.
Lemma effect_enc x : effect_of (enc (effect_of x)) = effect_of x.
Proof.
  unfold effect_of at 2 3.
  set (h1 := Z.testbit (x1 x) 1 && negb (x3 x =? 100)). set (h2 := Z.testbit (x1 x) 2 && negb (x4 x =? 100)).
  set (h3 := Z.testbit (x1 x) 3). set (h4 := Z.testbit (x1 x) 4). set (h5 := Z.testbit (x1 x) 5 && negb (x7 x =? 0)).
  assert (E1 : h1 = true -> (x3 x =? 100) = false) by (unfold h1; destruct (x3 x =? 100); [rewrite andb_false_r; discriminate|reflexivity]).
  assert (E2 : h2 = true -> (x4 x =? 100) = false) by (unfold h2; destruct (x4 x =? 100); [rewrite andb_false_r; discriminate|reflexivity]).
  assert (E5 : h5 = true -> (x7 x =? 0) = false) by (unfold h5; destruct (x7 x =? 0); [rewrite andb_false_r; discriminate|reflexivity]).
  set (a0 := Z.testbit (x0 x) 0 && Z.testbit (x8 x) 0). set (a1 := Z.testbit (x0 x) 1 && Z.testbit (x8 x) 1).
  set (a2 := Z.testbit (x0 x) 2 && Z.testbit (x8 x) 2). set (a3 := Z.testbit (x0 x) 3 && Z.testbit (x8 x) 3).
  set (a4 := Z.testbit (x0 x) 4 && Z.testbit (x8 x) 4). set (o := Z.testbit (x1 x) 0).
  clearbody h1 h2 h3 h4 h5 a0 a1 a2 a3 a4 o.
  unfold effect_of, enc. cbn [x0 x1 x2 x3 x4 x5 x6 x7 x8 x9 e_cloaked e_burrowed e_transit e_hallucination e_invincible e_owner e_hp e_shield e_energy e_resource e_hanger].
  f_equal.
  1-5: destruct a0, a1, a2, a3, a4; reflexivity.
  - destruct o, h1, h2, h3, h4, h5; reflexivity.
  - destruct h1; [specialize (E1 eq_refl); cbn [when]; rewrite E1|]; destruct o, h2, h3, h4, h5; reflexivity.
  - destruct h2; [specialize (E2 eq_refl); cbn [when]; rewrite E2|]; destruct o, h1, h3, h4, h5; reflexivity.
  - destruct o, h1, h2, h3, h4, h5; reflexivity.
  - destruct o, h1, h2, h3, h4, h5; reflexivity.
  - destruct h5; [specialize (E5 eq_refl); cbn [when]; rewrite E5|]; destruct o, h1, h2, h3, h4; reflexivity.
Qed.

(* ---------- bytes ---------- *)
Lemma unpack_pack pre x post : prp_ok x -> unpack (pre ++ pack x ++ post) (length pre) = Some x.
Proof.
  intros (R0 & R1 & R2 & R3 & R4 & R5 & R6 & R7 & R8 & R9). unfold unpack.
  set (c0 := i2b2 (x0 x)). set (c1 := i2b2 (x1 x)). set (c2 := i2b1 (x2 x)). set (c3 := i2b1 (x3 x)). set (c4 := i2b1 (x4 x)).
  set (c5 := i2b1 (x5 x)). set (c6 := i2b4 (x6 x)). set (c7 := i2b2 (x7 x)). set (c8 := i2b2 (x8 x)). set (c9 := i2b4 (x9 x)).
  assert (E : pack x = c0 ++ c1 ++ c2 ++ c3 ++ c4 ++ c5 ++ c6 ++ c7 ++ c8 ++ c9) by reflexivity.
  assert (H0 : b2i2 (pre ++ pack x ++ post) (length pre) = Some (x0 x)).
  { rewrite E, <- !app_assoc. unfold c0. rewrite b2i2_i2b2, Z.mod_small by lia. reflexivity. }
  assert (H1 : b2i2 (pre ++ pack x ++ post) (length pre + 2) = Some (x1 x)).
  { replace (pre ++ pack x ++ post) with ((pre ++ c0) ++ c1 ++ (c2 ++ c3 ++ c4 ++ c5 ++ c6 ++ c7 ++ c8 ++ c9 ++ post)) by (rewrite E, <- !app_assoc; reflexivity).
    replace (length pre + 2)%nat with (length (pre ++ c0)) by (rewrite app_length; reflexivity).
    unfold c1. rewrite b2i2_i2b2, Z.mod_small by lia. reflexivity. }
  assert (H2 : b2i1 (pre ++ pack x ++ post) (length pre + 4) = Some (x2 x)).
  { replace (pre ++ pack x ++ post) with ((pre ++ c0 ++ c1) ++ c2 ++ (c3 ++ c4 ++ c5 ++ c6 ++ c7 ++ c8 ++ c9 ++ post)) by (rewrite E, <- !app_assoc; reflexivity).
    replace (length pre + 4)%nat with (length (pre ++ c0 ++ c1)) by (rewrite !app_length; reflexivity).
    unfold c2. rewrite b2i1_i2b1, Z.mod_small by lia. reflexivity. }
  assert (H3 : b2i1 (pre ++ pack x ++ post) (length pre + 5) = Some (x3 x)).
  { replace (pre ++ pack x ++ post) with ((pre ++ c0 ++ c1 ++ c2) ++ c3 ++ (c4 ++ c5 ++ c6 ++ c7 ++ c8 ++ c9 ++ post)) by (rewrite E, <- !app_assoc; reflexivity).
    replace (length pre + 5)%nat with (length (pre ++ c0 ++ c1 ++ c2)) by (rewrite !app_length; reflexivity).
    unfold c3. rewrite b2i1_i2b1, Z.mod_small by lia. reflexivity. }
  assert (H4 : b2i1 (pre ++ pack x ++ post) (length pre + 6) = Some (x4 x)).
  { replace (pre ++ pack x ++ post) with ((pre ++ c0 ++ c1 ++ c2 ++ c3) ++ c4 ++ (c5 ++ c6 ++ c7 ++ c8 ++ c9 ++ post)) by (rewrite E, <- !app_assoc; reflexivity).
    replace (length pre + 6)%nat with (length (pre ++ c0 ++ c1 ++ c2 ++ c3)) by (rewrite !app_length; reflexivity).
    unfold c4. rewrite b2i1_i2b1, Z.mod_small by lia. reflexivity. }
  assert (H5 : b2i1 (pre ++ pack x ++ post) (length pre + 7) = Some (x5 x)).
  { replace (pre ++ pack x ++ post) with ((pre ++ c0 ++ c1 ++ c2 ++ c3 ++ c4) ++ c5 ++ (c6 ++ c7 ++ c8 ++ c9 ++ post)) by (rewrite E, <- !app_assoc; reflexivity).
    replace (length pre + 7)%nat with (length (pre ++ c0 ++ c1 ++ c2 ++ c3 ++ c4)) by (rewrite !app_length; reflexivity).
    unfold c5. rewrite b2i1_i2b1, Z.mod_small by lia. reflexivity. }
  assert (H6 : b2i4 (pre ++ pack x ++ post) (length pre + 8) = Some (x6 x)).
  { replace (pre ++ pack x ++ post) with ((pre ++ c0 ++ c1 ++ c2 ++ c3 ++ c4 ++ c5) ++ c6 ++ (c7 ++ c8 ++ c9 ++ post)) by (rewrite E, <- !app_assoc; reflexivity).
    replace (length pre + 8)%nat with (length (pre ++ c0 ++ c1 ++ c2 ++ c3 ++ c4 ++ c5)) by (rewrite !app_length; reflexivity).
    unfold c6. rewrite b2i4_i2b4, Z.mod_small by lia. reflexivity. }
  assert (H7 : b2i2 (pre ++ pack x ++ post) (length pre + 12) = Some (x7 x)).
  { replace (pre ++ pack x ++ post) with ((pre ++ c0 ++ c1 ++ c2 ++ c3 ++ c4 ++ c5 ++ c6) ++ c7 ++ (c8 ++ c9 ++ post)) by (rewrite E, <- !app_assoc; reflexivity).
    replace (length pre + 12)%nat with (length (pre ++ c0 ++ c1 ++ c2 ++ c3 ++ c4 ++ c5 ++ c6)) by (rewrite !app_length; reflexivity).
    unfold c7. rewrite b2i2_i2b2, Z.mod_small by lia. reflexivity. }
  assert (H8 : b2i2 (pre ++ pack x ++ post) (length pre + 14) = Some (x8 x)).
  { replace (pre ++ pack x ++ post) with ((pre ++ c0 ++ c1 ++ c2 ++ c3 ++ c4 ++ c5 ++ c6 ++ c7) ++ c8 ++ (c9 ++ post)) by (rewrite E, <- !app_assoc; reflexivity).
    replace (length pre + 14)%nat with (length (pre ++ c0 ++ c1 ++ c2 ++ c3 ++ c4 ++ c5 ++ c6 ++ c7)) by (rewrite !app_length; reflexivity).
    unfold c8. rewrite b2i2_i2b2, Z.mod_small by lia. reflexivity. }
  assert (H9 : b2i4 (pre ++ pack x ++ post) (length pre + 16) = Some (x9 x)).
  { replace (pre ++ pack x ++ post) with ((pre ++ c0 ++ c1 ++ c2 ++ c3 ++ c4 ++ c5 ++ c6 ++ c7 ++ c8) ++ c9 ++ post) by (rewrite E, <- !app_assoc; reflexivity).
    replace (length pre + 16)%nat with (length (pre ++ c0 ++ c1 ++ c2 ++ c3 ++ c4 ++ c5 ++ c6 ++ c7 ++ c8)) by (rewrite !app_length; reflexivity).
    unfold c9. rewrite b2i4_i2b4, Z.mod_small by lia. reflexivity. }
  rewrite H0, H1, H2, H3, H4, H5, H6, H7, H8, H9. destruct x; reflexivity.
Qed.
Lemma pack_len x : length (pack x) = 20%nat.
Proof. reflexivity. Qed.
Lemma pack_inj x y : prp_ok x -> prp_ok y -> pack x = pack y -> x = y.
Proof.
  intros Hx Hy E. pose proof (unpack_pack [] x [] Hx) as Ex. pose proof (unpack_pack [] y [] Hy) as Ey. rewrite E in Ex. congruence.
Qed.
Lemma byte_nth b k v : Forall byte b -> nth_error b k = Some v -> 0 <= v < 2^8.
Proof. intros H E. rewrite Forall_forall in H. apply H. eapply nth_error_In. exact E. Qed.
Lemma unpack_ok b i x : Forall byte b -> unpack b i = Some x -> prp_ok x.
Proof.
  intros Hb H. unfold unpack in H.
  destruct (b2i2 b i) as [v0|] eqn:E0; [|discriminate]. destruct (b2i2 b (i + 2)) as [v1|] eqn:E1; [|discriminate].
  destruct (b2i1 b (i + 4)) as [v2|] eqn:E2; [|discriminate]. destruct (b2i1 b (i + 5)) as [v3|] eqn:E3; [|discriminate].
  destruct (b2i1 b (i + 6)) as [v4|] eqn:E4; [|discriminate]. destruct (b2i1 b (i + 7)) as [v5|] eqn:E5; [|discriminate].
  destruct (b2i4 b (i + 8)) as [v6|] eqn:E6; [|discriminate]. destruct (b2i2 b (i + 12)) as [v7|] eqn:E7; [|discriminate].
  destruct (b2i2 b (i + 14)) as [v8|] eqn:E8; [|discriminate]. destruct (b2i4 b (i + 16)) as [v9|] eqn:E9; [|discriminate].
  injection H as <-. unfold prp_ok. cbn [x0 x1 x2 x3 x4 x5 x6 x7 x8 x9].
  apply b2i2_some in E0, E1, E7, E8; auto. apply b2i4_some in E6, E9; auto. unfold b2i1 in *.
  apply byte_nth in E2, E3, E4, E5; auto. tauto.
Qed.

(* the effect of the bytes at an offset *)
Definition effect_at (b : bytes) (i : nat) : option effect := option_map effect_of (unpack b i).

Lemma key_effect b i k : Forall byte b -> property_key b i = Some k ->
  exists e, effect_at b i = Some e /\ k = pack (enc e) /\ prp_ok (enc e) /\ effect_of (enc e) = e.
Proof.
  intros Hb H. unfold property_key in H. unfold effect_at. destruct (unpack b i) as [x|] eqn:E; [|discriminate]. injection H as <-.
  exists (effect_of x). split; [reflexivity|]. rewrite canon_enc. split; [reflexivity|]. apply unpack_ok in E; auto.
  split; [apply enc_ok; exact E|apply effect_enc].
Qed.
Lemma key_iff b i k b' i' k' : Forall byte b -> Forall byte b' -> property_key b i = Some k -> property_key b' i' = Some k' ->
  (k = k' <-> effect_at b i = effect_at b' i').
Proof.
  intros Hb Hb' H H'. apply key_effect in H, H'; auto. destruct H as (e & -> & -> & R & _), H' as (e' & -> & -> & R' & _).
  split; [|congruence]. intros P. apply pack_inj in P; auto. apply enc_inj in P. congruence.
Qed.
Lemma key_nonempty b i k : property_key b i = Some k -> length k = 20%nat.
Proof. unfold property_key. destruct (unpack b i); [|discriminate]. intros [= <-]. apply pack_len. Qed.

(* ---------- slots ---------- *)
Definition tab_ok (t : prptable) : Prop :=
  length (uprptable t) = 64%nat /\
  (forall k i, dget bytes_dec k (uprpdict t) = Some i -> nth_error (uprptable t) i = Some k /\ length k = 20%nat) /\
  (forall k i, nth_error (uprptable t) i = Some k -> k = [] \/ (length k = 20%nat /\ exists j, dget bytes_dec k (uprpdict t) = Some j)).

Lemma list_set_len {A} i (x : A) l : length (list_set i x l) = length l.
Proof. revert i. induction l as [|a l IH]; intros [|i]; cbn; auto. Qed.
Lemma list_set_same {A} i (x : A) l : (i < length l)%nat -> nth_error (list_set i x l) i = Some x.
Proof. revert i. induction l as [|a l IH]; intros [|i] H; cbn in *; auto; try lia. apply IH. lia. Qed.
Lemma list_set_other {A} i j (x : A) l : i <> j -> nth_error (list_set i x l) j = nth_error l j.
Proof. revert i j. induction l as [|a l IH]; intros [|i] [|j] H; cbn; auto; try congruence. Qed.

Lemma tab_set t k i : tab_ok t -> length k = 20%nat -> nth_error (uprptable t) i = Some [] ->
  tab_ok (mk_prptable (dset bytes_dec k i (uprpdict t)) (list_set i k (uprptable t))).
Proof.
  intros (L & D & T) Hk E. assert (Hi : (i < length (uprptable t))%nat) by (apply nth_error_Some; congruence).
  unfold tab_ok. cbn [uprptable uprpdict]. split; [rewrite list_set_len; exact L|]. split.
  - intros k' j H. destruct (bytes_dec k' k) as [->|N].
    + rewrite dget_dset_same in H. injection H as <-. split; [apply list_set_same; exact Hi|exact Hk].
    + rewrite dget_dset_other in H by exact N. destruct (D k' j H) as [D1 D2]. split; [|exact D2].
      destruct (Nat.eq_dec i j) as [<-|M]; [|rewrite list_set_other by exact M; exact D1].
      rewrite E in D1. injection D1 as <-. discriminate.
  - intros k' j H. destruct (Nat.eq_dec i j) as [<-|M].
    + rewrite list_set_same in H by exact Hi. injection H as <-. right. split; [exact Hk|]. exists i. apply dget_dset_same.
    + rewrite list_set_other in H by exact M. destruct (T k' j H) as [->|[T1 [j' T2]]]; [left; reflexivity|]. right. split; [exact T1|].
      destruct (bytes_dec k' k) as [->|N]; [exists i; apply dget_dset_same|]. exists j'. rewrite dget_dset_other by exact N. exact T2.
Qed.
Lemma find_free_some is tb i : find_free is tb = Some i -> In i is /\ nth_error tb i = Some [].
Proof.
  induction is as [|a is IH]; cbn; [discriminate|]. destruct (nth_error tb a) as [[|z l]|] eqn:E.
  - intros [= <-]. auto.
  - intros H. apply IH in H. tauto.
  - intros H. apply IH in H. tauto.
Qed.
Lemma find_free_none is tb : find_free is tb = None <-> forall i, In i is -> nth_error tb i <> Some [].
Proof.
  induction is as [|a is IH]; cbn; [split; [intros _ i []|reflexivity]|]. destruct (nth_error tb a) as [[|z l]|] eqn:E.
  - split; [discriminate|]. intros H. exfalso. apply (H a); auto.
  - rewrite IH. split; [intros H i [<-|I]; [congruence|auto]|auto].
  - rewrite IH. split; [intros H i [<-|I]; [congruence|auto]|auto].
Qed.

Lemma get_ok b t n t' : tab_ok t -> GetPropertyIndex b t = Some (n, t') ->
  tab_ok t' /\ (1 <= n <= 64)%nat /\
  (exists k, property_key b 0 = Some k /\ nth_error (uprptable t') (n - 1) = Some k /\ dget bytes_dec k (uprpdict t') = Some (n - 1)%nat) /\
  (forall i d, nth_error (uprptable t) i = Some d -> d <> [] -> nth_error (uprptable t') i = Some d) /\
  (forall k i, dget bytes_dec k (uprpdict t) = Some i -> dget bytes_dec k (uprpdict t') = Some i).
Proof.
  intros Ht H. pose proof Ht as (L & D & T). unfold GetPropertyIndex in H. destruct (property_key b 0) as [k|] eqn:K; [|discriminate].
  destruct (dget bytes_dec k (uprpdict t)) as [i|] eqn:E.
  - injection H as <- <-. destruct (D k i E) as [D1 D2]. assert (i < 64)%nat. { rewrite <- L. apply nth_error_Some. congruence. }
    split; [exact Ht|]. split; [lia|]. split; [|auto]. exists k. replace (i + 1 - 1)%nat with i by lia. auto.
  - destruct (find_free (seq 0 64) (uprptable t)) as [i|] eqn:F; [|discriminate]. injection H as <- <-. apply find_free_some in F. destruct F as [F1 F2].
    apply in_seq in F1. split; [apply tab_set; auto; eapply key_nonempty; exact K|]. split; [lia|]. cbn [uprptable uprpdict].
    replace (i + 1 - 1)%nat with i by lia. split; [|split].
    + exists k. split; [reflexivity|]. split; [apply list_set_same; lia|apply dget_dset_same].
    + intros j d Hj Hd. rewrite list_set_other; [exact Hj|]. intros <-. congruence.
    + intros k' j Hj. rewrite dget_dset_other; [exact Hj|]. intros ->. congruence.
Qed.
Lemma get_fails b t : tab_ok t -> (GetPropertyIndex b t = None <->
  property_key b 0 = None \/
  exists k, property_key b 0 = Some k /\ ~ In k (uprptable t) /\ ~ In [] (uprptable t)).
Proof.
  intros (L & D & T). unfold GetPropertyIndex. destruct (property_key b 0) as [k|] eqn:K; [|split; [left; reflexivity|reflexivity]].
  assert (F : find_free (seq 0 64) (uprptable t) = None <-> ~ In [] (uprptable t)).
  { rewrite find_free_none. split.
    - intros H I. apply In_nth_error in I. destruct I as [i I]. apply (H i); [|exact I]. apply in_seq. split; [lia|]. assert (i < length (uprptable t))%nat; [|lia]. apply nth_error_Some. intros Q. unfold bytes in *. congruence.
    - intros H i _ Q. apply H. eapply nth_error_In. exact Q. }
  destruct (dget bytes_dec k (uprpdict t)) as [i|] eqn:E.
  - split; [discriminate|]. intros [Q|(k' & Q & N & _)]; [discriminate|]. injection Q as <-. exfalso. apply N. eapply nth_error_In. apply (D _ _ E).
  - assert (N : ~ In k (uprptable t)).
    { intros I. apply In_nth_error in I. destruct I as [i I]. destruct (T k i I) as [->|[_ [j Q]]]; [|congruence]. apply key_nonempty in K. discriminate. }
    destruct (find_free (seq 0 64) (uprptable t)) as [i|].
    + split; [discriminate|]. intros [Q|(k' & _ & _ & Q)]; [discriminate|]. apply F in Q. discriminate.
    + split; [|reflexivity]. intros _. right. exists k. split; [reflexivity|]. split; [exact N|]. apply F. reflexivity.
Qed.

Fixpoint requests (bs : list bytes) (t : prptable) : option (list nat * prptable) :=
  match bs with
  | [] => Some ([], t)
  | b :: r => match GetPropertyIndex b t with
              | Some (n, t') => match requests r t' with Some (ns, t'') => Some (n :: ns, t'') | None => None end
              | None => None
              end
  end.
Lemma requests_ok bs : forall t ns t', tab_ok t -> requests bs t = Some (ns, t') ->
  tab_ok t' /\
  Forall2 (fun b n => (1 <= n <= 64)%nat /\ exists k, property_key b 0 = Some k /\ nth_error (uprptable t') (n - 1) = Some k /\ dget bytes_dec k (uprpdict t') = Some (n - 1)%nat) bs ns /\
  (forall i d, nth_error (uprptable t) i = Some d -> d <> [] -> nth_error (uprptable t') i = Some d) /\
  (forall k i, dget bytes_dec k (uprpdict t) = Some i -> dget bytes_dec k (uprpdict t') = Some i).
Proof.
  induction bs as [|b bs IH]; intros t ns t' Ht H; cbn [requests] in H.
  - injection H as <- <-. split; [exact Ht|]. split; [constructor|auto].
  - destruct (GetPropertyIndex b t) as [[n t1]|] eqn:E; [|discriminate]. destruct (requests bs t1) as [[ns' t2]|] eqn:R; [|discriminate]. injection H as <- <-.
    destruct (get_ok b t n t1 Ht E) as (H1 & H2 & (k & K1 & K2 & K3) & H4 & H5). destruct (IH t1 ns' t2 H1 R) as (G1 & G2 & G3 & G4).
    split; [exact G1|]. split; [|split; eauto]. constructor; [|exact G2]. split; [exact H2|]. exists k. split; [exact K1|]. split; [|auto].
    apply G3; [exact K2|]. intros ->. apply key_nonempty in K1. discriminate.
Qed.
Lemma requests_same bs t ns t' i j b b' n n' : tab_ok t -> requests bs t = Some (ns, t') -> Forall (Forall byte) bs ->
  nth_error bs i = Some b -> nth_error bs j = Some b' -> nth_error ns i = Some n -> nth_error ns j = Some n' ->
  (n = n' <-> effect_at b 0 = effect_at b' 0).
Proof.
  intros Ht R Hb Bi Bj Ni Nj. destruct (requests_ok bs t ns t' Ht R) as (G1 & G2 & _).
  assert (P : forall i b n, nth_error bs i = Some b -> nth_error ns i = Some n ->
    (1 <= n <= 64)%nat /\ exists k, property_key b 0 = Some k /\ nth_error (uprptable t') (n - 1) = Some k /\ dget bytes_dec k (uprpdict t') = Some (n - 1)%nat).
  { clear - G2. induction G2 as [|x y l l' H G IH]; intros [|i] b n Hb Hn; cbn in *; try discriminate.
    - injection Hb as <-. injection Hn as <-. exact H.
    - eapply IH; eauto. }
  destruct (P i b n Bi Ni) as (R1 & k & K1 & K2 & K3). destruct (P j b' n' Bj Nj) as (R2 & k' & K1' & K2' & K3').
  rewrite Forall_forall in Hb. rewrite <- (key_iff b 0 k b' 0 k'); auto; try (apply Hb; eapply nth_error_In; eassumption).
  split; [intros <-; congruence|]. intros <-. rewrite K3 in K3'. injection K3' as K3'. lia.
Qed.

(* the section written to the map *)
Lemma apply_slot t i k : tab_ok t -> nth_error (uprptable t) i = Some k -> k <> [] ->
  exists pre post, apply_property_map t = pre ++ k ++ post /\ length pre = (20 * i)%nat.
Proof.
  intros (L & D & T) E N. unfold apply_property_map. apply nth_error_split in E. destruct E as (l1 & l2 & E & El).
  assert (P : forall l, (forall k, In k l -> k = [] \/ length k = 20%nat) -> length (concat (map (fun d => match d with [] => repeat 0 20 | _ :: _ => d end) l)) = (20 * length l)%nat).
  { induction l as [|d l IH]; intros H; [reflexivity|]. cbn [map concat]. rewrite app_length, IH by (intros; apply H; right; assumption).
    destruct (H d (or_introl eq_refl)) as [->|Hd]; [cbn [length]; rewrite repeat_length; lia|]. destruct d; [discriminate|]. cbn [length] in *. lia. }
  exists (concat (map (fun d => match d with [] => repeat 0 20 | _ :: _ => d end) l1)), (concat (map (fun d => match d with [] => repeat 0 20 | _ :: _ => d end) l2)).
  split.
  - rewrite E, map_app, concat_app. cbn [map concat]. destruct k; [congruence|]. reflexivity.
  - rewrite P; [rewrite <- El; reflexivity|]. intros d Hd. assert (I : In d (uprptable t)) by (rewrite E; apply in_or_app; left; exact Hd).
    apply In_nth_error in I. destruct I as [j I]. destruct (T d j I) as [->|[Q _]]; auto.
Qed.
Lemma apply_effect t i b j k : tab_ok t -> Forall byte b -> property_key b j = Some k -> nth_error (uprptable t) i = Some k ->
  effect_at (apply_property_map t) (20 * i) = effect_at b j.
Proof.
  intros Ht Hb K E. pose proof (key_nonempty b j k K) as Hl. apply key_effect in K; [|exact Hb]. destruct K as (e & -> & -> & R & Q).
  destruct (apply_slot t i (pack (enc e)) Ht E) as (pre & post & -> & Hp); [intros Z; rewrite Z in Hl; discriminate|].
  unfold effect_at. rewrite <- Hp, unpack_pack by exact R. cbn [option_map]. rewrite Q. reflexivity.
Qed.

(* ---------- initial table ---------- *)
Lemma init_loop_ok uprp upus n : forall a t t', (a + n = 64)%nat -> tab_ok t -> (forall i, (a <= i < 64)%nat -> nth_error (uprptable t) i = Some []) ->
  init_loop (seq a n) uprp upus t = Some t' ->
  tab_ok t' /\
  (forall i, (i < a)%nat -> nth_error (uprptable t') i = nth_error (uprptable t) i) /\
  (forall i, (a <= i < 64)%nat -> exists u, nth_error upus i = Some u /\
     (if u =? 0 then nth_error (uprptable t') i = Some [] else exists k, property_key uprp (20 * i) = Some k /\ nth_error (uprptable t') i = Some k)).
Proof.
  induction n as [|n IH]; intros a t t' Ha Ht He H; cbn [seq init_loop] in H.
  - injection H as <-. split; [exact Ht|]. split; [auto|]. intros; lia.
  - destruct (nth_error upus a) as [u|] eqn:U; [|discriminate]. destruct (u =? 0) eqn:Eu.
    + apply IH in H; [|lia|exact Ht|intros; apply He; lia]. destruct H as (H1 & H2 & H3). split; [exact H1|]. split; [intros; apply H2; lia|].
      intros i Hi. destruct (Nat.eq_dec i a) as [->|]; [|apply H3; lia]. exists u. split; [exact U|]. rewrite Eu, H2 by lia. apply He. lia.
    + destruct (property_key uprp (20 * a)) as [k|] eqn:K; [|discriminate].
      pose proof (key_nonempty _ _ _ K) as Hk. assert (Ea : nth_error (uprptable t) a = Some []) by (apply He; lia).
      apply IH in H; [|lia|apply tab_set; auto|].
      2:{ intros i Hi. cbn [uprptable]. rewrite list_set_other by lia. apply He. lia. }
      destruct H as (H1 & H2 & H3). cbn [uprptable] in H2. split; [exact H1|]. split; [intros i Hi; rewrite H2, list_set_other by lia; reflexivity|].
      intros i Hi. destruct (Nat.eq_dec i a) as [->|]; [|apply H3; lia]. exists u. split; [exact U|]. rewrite Eu. exists k. split; [exact K|].
      rewrite H2 by lia. apply list_set_same. destruct Ht as (L & _). lia.
Qed.
Lemma nth_repeat' {A} (x : A) n i : (i < n)%nat -> nth_error (repeat x n) i = Some x.
Proof. revert i. induction n as [|n IH]; intros [|i] H; cbn; auto; try lia. apply IH. lia. Qed.
Lemma init_ok' uprp us t : init_loop (seq 0 64) uprp us (mk_prptable [] (repeat [] 64)) = Some t ->
  tab_ok t /\ (forall i, (i < 64)%nat -> exists u, nth_error us i = Some u /\
     (if u =? 0 then nth_error (uprptable t) i = Some [] else exists k, property_key uprp (20 * i) = Some k /\ nth_error (uprptable t) i = Some k)).
Proof.
  intros H.
  pose proof (fun A B => init_loop_ok uprp us 64 0 (mk_prptable [] (repeat [] 64)) t eq_refl A B H) as Q. clear H. destruct Q as (H1 & _ & H3).
  3:{ split; [exact H1|]. intros i Hi. apply H3. lia. }
  - split; [apply repeat_length|]. cbn [uprpdict uprptable]. split; [discriminate|]. intros k i E. left. apply nth_error_In, repeat_spec in E. exact E.
  - intros i Hi. apply nth_repeat'. lia.
Qed.
Lemma init_ok uprp upus t : init_property_map uprp upus = Some t ->
  tab_ok t /\ (forall i, (i < 64)%nat -> exists u, nth_error (match upus with Some u => u | None => repeat 1 64 end) i = Some u /\
     (if u =? 0 then nth_error (uprptable t) i = Some [] else exists k, property_key uprp (20 * i) = Some k /\ nth_error (uprptable t) i = Some k)).
Proof. exact (init_ok' uprp _ t). Qed.
