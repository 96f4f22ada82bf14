(* Final theorems: conversion of text to UTF-8 (C75). *)
From Coq Require Import ZArith Lia List Bool ZifyBool ZifyNat.
From Verif Require Import Word Machine MachineProofs VarModel ReadModel PropRead BwModel PropBw BlkModel PropBlk PropMem CpuModel.
Import ListNotations.
Open Scope Z_scope.

(* ================= specification ================= *)
(* UTF-8, for code points below 0x10000; None for malformed or overlong text *)
Definition trail (b : Z) : bool := (128 <=? b) && (b <? 192).
Fixpoint utf8 (l : list Z) : option (list Z) :=
  match l with
  | [] => Some []
  | a :: r =>
      if a <? 128 then match utf8 r with Some t => Some (a :: t) | None => None end
      else match r with
      | [] => None
      | b :: r =>
          if negb (trail b) || (a <? 192) then None
          else if a <? 224 then
            if (a - 192) * 64 + (b - 128) <? 128 then None
            else match utf8 r with Some t => Some ((a - 192) * 64 + (b - 128) :: t) | None => None end
          else match r with
          | [] => None
          | c :: r =>
              if negb (trail c) || (240 <=? a) || ((a - 224) * 4096 + (b - 128) * 64 + (c - 128) <? 2048) then None
              else match utf8 r with Some t => Some ((a - 224) * 4096 + (b - 128) * 64 + (c - 128) :: t) | None => None end
          end
      end
  end.
(* a character of code page 949: one byte, or a pair *)
Inductive char := One (c : Z) | Two (b1 b2 : Z).
Definition valid (c : char) : Prop := match c with One c => 0 < c < 128 | Two b1 b2 => 128 <= b1 < 256 /\ 0 < b2 < 256 end.
Definition coded (c : char) : list Z := match c with One c => [c] | Two b1 b2 => [b1; b2] end.
(* the code point the table gives to a character *)
Definition point (table : list (Z * Z * Z)) (c : char) (u : Z) : Prop :=
  match c with One c => u = c | Two b1 b2 => In (b1, b2, u) table end.
(* every pair of bytes at most once *)
Definition functional (table : list (Z * Z * Z)) : Prop :=
  forall b1 b2 u v, In (b1, b2, u) table -> In (b1, b2, v) table -> u = v.
Definition byte_pairs (table : list (Z * Z * Z)) : Prop := forall b1 b2 u, In (b1, b2, u) table -> 0 <= b1 < 256 /\ 0 <= b2 < 256.
(* bytes l from address p on *)
Definition bytes_at (m : mem) (p : Z) (l : list Z) : Prop := forall i, (i < length l)%nat -> byte m (p + Z.of_nat i) = nth i l 0.

(* ================= proofs ================= *)
Lemma cvtb_in table : forall f b1 b2, 0 <= b1 < 256 -> 0 <= b2 < 256 -> byte_pairs table ->
  let g := fold_left (fun f e => let '(ch1, ch2, tab) := e in fun k => if k =? ch1 + ch2 * 256 then tab else f k) table f in
  (exists u, In (b1, b2, u) table /\ g (b2 * 256 + b1) = u) \/ ((forall u, ~ In (b1, b2, u) table) /\ g (b2 * 256 + b1) = f (b2 * 256 + b1)).
Proof.
  induction table as [|[[c1 c2] t] table IH]; intros f b1 b2 H1 H2 HB; cbn [fold_left]; [right; split; [intros u []|reflexivity]|].
  assert (HB' : byte_pairs table) by (intros x y u K; apply (HB x y u); right; exact K).
  destruct (IH (fun k => if k =? c1 + c2 * 256 then t else f k) b1 b2 H1 H2 HB') as [(u & U1 & U2)|[U1 U2]].
  - left. exists u. split; [right; exact U1|exact U2].
  - rewrite U2. destruct (HB c1 c2 t (or_introl eq_refl)). destruct (Z.eqb_spec (b2 * 256 + b1) (c1 + c2 * 256)) as [E|N].
    + left. exists t. split; [left; f_equal; f_equal; lia|reflexivity].
    + right. split; [|reflexivity]. intros u [K|K]; [injection K as -> -> ->; lia|apply (U1 u K)].
Qed.
Theorem C75_table : forall table b1 b2, byte_pairs table -> functional table -> 0 <= b1 < 256 -> 0 <= b2 < 256 ->
  (forall u, In (b1, b2, u) table -> cvtb table (b2 * 256 + b1) = u) /\ ((forall u, ~ In (b1, b2, u) table) -> cvtb table (b2 * 256 + b1) = 0).
Proof.
  intros table b1 b2 HB HF H1 H2. destruct (cvtb_in table (fun _ => 0) b1 b2 H1 H2 HB) as [(u & U1 & U2)|[U1 U2]]; fold (cvtb table) in U2; split.
  - intros v Hv. rewrite U2. apply (HF b1 b2); assumption.
  - intros N. exfalso. apply (N u U1).
  - intros u K. exfalso. apply (U1 u K).
  - intros _. exact U2.
Qed.
(* the bytes the loop writes for a code *)
Definition enc2 (u : Z) : list Z := if u <=? 0x7FF then [u / 64 + 192; u mod 64 + 128] else [u / 4096 + 224; (u / 64) mod 64 + 128; u mod 64 + 128].
Definition enc (tab : Z -> Z) (c : char) : list Z := match c with One c => [c] | Two b1 b2 => enc2 (tab (b2 * 256 + b1)) end.
Lemma enc2_utf8 u r t : 128 <= u < 0x10000 -> utf8 r = Some t -> utf8 (enc2 u ++ r) = Some (u :: t).
Proof.
  intros Hu Hr. unfold enc2. pose proof (Z.mod_pos_bound u 64). pose proof (Z.div_mod u 64). destruct (Z.leb_spec u 0x7FF) as [L|L].
  - assert (2 <= u / 64 < 32) by (split; [apply Z.div_le_lower_bound; lia|apply Z.div_lt_upper_bound; lia]).
    cbn [app utf8]. rewrite Hr. unfold trail. replace (u / 64 + 192 <? 128) with false by lia.
    replace (negb ((128 <=? u mod 64 + 128) && (u mod 64 + 128 <? 192)) || (u / 64 + 192 <? 192)) with false by lia.
    replace (u / 64 + 192 <? 224) with true by lia. replace ((u / 64 + 192 - 192) * 64 + (u mod 64 + 128 - 128)) with u by lia. replace (u <? 128) with false by lia. reflexivity.
  - pose proof (Z.mod_pos_bound (u / 64) 64). pose proof (Z.div_mod (u / 64) 64). replace (u / 4096) with (u / 64 / 64) by (rewrite Z.div_div by lia; reflexivity).
    assert (32 <= u / 64 < 1024) by (split; [apply Z.div_le_lower_bound; lia|apply Z.div_lt_upper_bound; lia]).
    assert (0 <= u / 64 / 64 < 16) by (split; [apply Z.div_le_lower_bound; lia|apply Z.div_lt_upper_bound; lia]).
    cbn [app utf8]. rewrite Hr. unfold trail. replace (u / 64 / 64 + 224 <? 128) with false by lia.
    replace (negb ((128 <=? (u / 64) mod 64 + 128) && ((u / 64) mod 64 + 128 <? 192)) || (u / 64 / 64 + 224 <? 192)) with false by lia.
    replace (u / 64 / 64 + 224 <? 224) with false by lia.
    replace ((u / 64 / 64 + 224 - 224) * 4096 + ((u / 64) mod 64 + 128 - 128) * 64 + (u mod 64 + 128 - 128)) with u by lia.
    replace (negb ((128 <=? u mod 64 + 128) && (u mod 64 + 128 <? 192)) || (240 <=? u / 64 / 64 + 224) || (u <? 2048)) with false by lia. reflexivity.
Qed.
(* text put at p *)
Definition put (p : Z) (l : list Z) (f : Z -> Z) (x : Z) : Z :=
  if (p <=? u32 x) && (u32 x <? p + Z.of_nat (length l)) then nth (Z.to_nat (u32 x - p)) l 0 else f x.
Lemma put_cons p b l f x : put (p + 1) l (fun y => if Z.eq_dec (u32 y) p then b else f y) x = put p (b :: l) f x.
Proof.
  unfold put. cbn [length]. destruct (Z.eq_dec (u32 x) p) as [E|E].
  - replace ((p + 1 <=? u32 x) && (u32 x <? p + 1 + Z.of_nat (length l))) with false by lia.
    replace ((p <=? u32 x) && (u32 x <? p + Z.of_nat (S (length l)))) with true by lia. rewrite E, Z.sub_diag. reflexivity.
  - replace ((p <=? u32 x) && (u32 x <? p + Z.of_nat (S (length l)))) with ((p + 1 <=? u32 x) && (u32 x <? p + 1 + Z.of_nat (length l))) by lia.
    destruct ((p + 1 <=? u32 x) && (u32 x <? p + 1 + Z.of_nat (length l))) eqn:C; [|reflexivity].
    replace (Z.to_nat (u32 x - p)) with (S (Z.to_nat (u32 x - (p + 1)))) by lia. reflexivity.
Qed.
Lemma put_ext p l f g x : (forall y, f y = g y) -> put p l f x = put p l g x.
Proof. intros H. unfold put. destruct (_ && _); auto. Qed.
(* one byte *)
Lemma wstep m q p b l : at_addr q p -> 0 <= p -> p < 2 ^ 32 -> 0 <= b < 256 ->
  at_addr (snd (writebyte m q b)) (p + 1) /\ forall x, put (p + 1) l (byte (fst (writebyte m q b))) x = put p (b :: l) (byte m) x.
Proof.
  intros Hq P0 P1 Hb. destruct (writebyte_at m q p b Hq) as [W1 W2]. split; [exact W2|]. intros x. rewrite <- put_cons. apply put_ext. intros y.
  rewrite W1, (u32_small p) by lia. rewrite Z.mod_small by lia. reflexivity.
Qed.
Definition apart (src : Z) (n : nat) (p : Z) (k : nat) : Prop :=
  forall i, (i < n)%nat -> ~ (p <= u32 (src + Z.of_nat i) < p + Z.of_nat k).
Lemma keeps m m' src p n l k : (forall x, byte m' x = put p l (byte m) x) -> apart src n p k -> (length l <= k)%nat ->
  forall i, (i < n)%nat -> byte m' (src + Z.of_nat i) = byte m (src + Z.of_nat i).
Proof.
  intros HM HA HL i Hi. rewrite HM. unfold put. specialize (HA i Hi).
  replace ((p <=? u32 (src + Z.of_nat i)) && (u32 (src + Z.of_nat i) <? p + Z.of_nat (length l))) with false by lia. reflexivity.
Qed.
Lemma apart_mono src n p k src' n' p' k' : apart src n p k -> src <= src' -> src' + Z.of_nat n' <= src + Z.of_nat n -> p <= p' -> p' + Z.of_nat k' <= p + Z.of_nat k -> apart src' n' p' k'.
Proof.
  intros H H1 H2 H3 H4 i Hi K. specialize (H (Z.to_nat (src' - src) + i)%nat ltac:(lia)). apply H.
  replace (src + Z.of_nat (Z.to_nat (src' - src) + i)) with (src' + Z.of_nat i) by lia. lia.
Qed.
Definition good (tab : Z -> Z) (c : char) : Prop := match c with One _ => True | Two b1 b2 => 0 <= tab (b2 * 256 + b1) < 0x10000 end.
Lemma enc_len tab c : (1 <= length (enc tab c))%nat.
Proof. destruct c as [c|b1 b2]; cbn [enc length]; [lia|]. unfold enc2. destruct (_ <=? _); cbn; lia. Qed.
Lemma put_put p l l' f x : put (p + Z.of_nat (length l)) l' (put p l f) x = put p (l ++ l') f x.
Proof.
  unfold put. rewrite app_length. destruct ((p <=? u32 x) && (u32 x <? p + Z.of_nat (length l + length l'))) eqn:A.
  - destruct ((p + Z.of_nat (length l) <=? u32 x) && (u32 x <? p + Z.of_nat (length l) + Z.of_nat (length l'))) eqn:B.
    + rewrite app_nth2 by lia. f_equal. lia.
    + replace ((p <=? u32 x) && (u32 x <? p + Z.of_nat (length l))) with true by lia. rewrite app_nth1 by lia. reflexivity.
  - replace ((p + Z.of_nat (length l) <=? u32 x) && (u32 x <? p + Z.of_nat (length l) + Z.of_nat (length l'))) with false by lia.
    replace ((p <=? u32 x) && (u32 x <? p + Z.of_nat (length l))) with false by lia. reflexivity.
Qed.
Lemma put_nil p f x : put p [] f x = f x.
Proof. unfold put. cbn [length]. replace ((p <=? u32 x) && (u32 x <? p + Z.of_nat 0)) with false by lia. reflexivity. Qed.
(* the text ends with 0, or with the first byte of a pair and 0 *)
Definition ending (e : list Z) : Prop := e = [0] \/ exists b, e = [b; 0] /\ 128 <= b < 256.
Lemma at_app m p l l' : bytes_at m p (l ++ l') -> bytes_at m p l /\ bytes_at m (p + Z.of_nat (length l)) l'.
Proof.
  intros H. split; intros i Hi.
  - rewrite H by (rewrite app_length; lia). apply app_nth1. exact Hi.
  - replace (p + Z.of_nat (length l) + Z.of_nat i) with (p + Z.of_nat (length l + i)) by lia. rewrite H by (rewrite app_length; lia). rewrite app_nth2 by lia. f_equal. lia.
Qed.
Lemma loop_ok tab e : ending e -> forall text fuel r q src p m,
  Forall valid text -> Forall (good tab) text -> (length text < fuel)%nat ->
  at_addr r src -> at_addr q p -> 0 <= p -> p + Z.of_nat (length (flat_map (enc tab) text)) < 2 ^ 32 ->
  bytes_at m src (flat_map coded text ++ e) ->
  apart src (length (flat_map coded text ++ e)) p (length (flat_map (enc tab) text) + 1) ->
  exists m', cvt_loop fuel tab r q p m = Some (p + Z.of_nat (length (flat_map (enc tab) text)), m') /\
    forall x, byte m' x = put p (flat_map (enc tab) text ++ [0]) (byte m) x.
Proof.
  intros HE. induction text as [|c text IH]; intros fuel r q src p m HV HG HF Hr Hq P0 P1 HB HA; (destruct fuel as [|fuel]; [cbn [length] in HF; lia|]).
  - cbn [flat_map app length] in *. cbn [cvt_loop]. destruct (readbyte_at m r src Hr) as [R1 R2]. destruct (readbyte m r) as [b1 r1]. cbn [fst snd] in *. subst b1.
    destruct (wstep m q p 0 [] Hq P0 ltac:(lia) ltac:(lia)) as [_ W]. setoid_rewrite put_nil in W. rewrite Z.add_0_r.
    pose proof (HB 0%nat) as B0. change (Z.of_nat 0) with 0 in B0. rewrite Z.add_0_r in B0. destruct HE as [->|(b & -> & Hb)].
    + cbn [length nth] in B0. rewrite B0 by lia. cbn [Z.eqb]. eexists. split; [reflexivity|exact W].
    + cbn [length nth] in B0. rewrite B0 by lia. replace (b =? 0) with false by lia. replace (b <? 128) with false by lia.
      destruct (readbyte_at m r1 _ R2) as [S1 _]. destruct (readbyte m r1) as [b2 r2]. cbn [fst snd] in *. subst b2.
      pose proof (HB 1%nat) as B1. change (Z.of_nat 1) with 1 in B1. cbn [length nth] in B1. rewrite B1 by lia. cbn [Z.eqb]. eexists. split; [reflexivity|exact W].
  - inversion HV as [|? ? V1 V2]; subst. inversion HG as [|? ? G1 G2]; subst. cbn [flat_map length] in *. rewrite <- app_assoc in HB, HA.
    rewrite app_length in P1. rewrite (app_length (coded c)), (app_length (enc tab c)) in HA. rewrite (app_length (enc tab c)).
    destruct (at_app _ _ _ _ HB) as [BC BR]. pose proof (enc_len tab c) as EL.
    (* after this character *)
    assert (NEXT : forall m' r' q', (forall x, byte m' x = put p (enc tab c) (byte m) x) -> at_addr r' (src + Z.of_nat (length (coded c))) -> at_addr q' (p + Z.of_nat (length (enc tab c))) ->
      exists m'', cvt_loop fuel tab r' q' (u32 (p + Z.of_nat (length (enc tab c)))) m' = Some (p + Z.of_nat (length (enc tab c) + length (flat_map (enc tab) text)), m'') /\
        forall x, byte m'' x = put p ((enc tab c ++ flat_map (enc tab) text) ++ [0]) (byte m) x).
    { intros m' r' q' HM Hr' Hq'. rewrite u32_small by lia.
      destruct (IH fuel r' q' (src + Z.of_nat (length (coded c))) (p + Z.of_nat (length (enc tab c))) m' V2 G2 ltac:(lia) Hr' Hq' ltac:(lia) ltac:(lia)) as (m'' & E1 & E2).
      - intros i Hi. rewrite <- BR by exact Hi. replace (src + Z.of_nat (length (coded c)) + Z.of_nat i) with (src + Z.of_nat (length (coded c) + i)) by lia.
        apply (keeps m m' src p (length (coded c) + length (flat_map coded text ++ e)) (enc tab c) _ HM HA); lia.
      - apply (apart_mono _ _ _ _ _ _ _ _ HA); lia.
      - exists m''. split; [rewrite E1; f_equal; f_equal; lia|]. intros x. rewrite E2, <- app_assoc, <- (put_put p (enc tab c)). apply put_ext. exact HM. }
    cbn [cvt_loop]. destruct (readbyte_at m r src Hr) as [R1 R2]. destruct (readbyte m r) as [b1 r1]. cbn [fst snd] in *. subst b1.
    pose proof (BC 0%nat) as B0. change (Z.of_nat 0) with 0 in B0. rewrite Z.add_0_r in B0.
    destruct c as [c|b1 b2]; cbn [valid coded length nth enc good] in *.
    + rewrite B0 by lia. replace (c =? 0) with false by lia. replace (c <? 128) with true by lia.
      destruct (wstep m q p c [] Hq P0 ltac:(lia) ltac:(lia)) as [W1 W2]. destruct (writebyte m q c) as [m1 q1]. cbn [fst snd] in *. setoid_rewrite put_nil in W2.
      apply (NEXT m1 r1 q1 W2 R2 W1).
    + rewrite B0 by lia. replace (b1 =? 0) with false by lia. replace (b1 <? 128) with false by lia.
      destruct (readbyte_at m r1 _ R2) as [S1 S2]. destruct (readbyte m r1) as [x2 r2]. cbn [fst snd] in *. subst x2.
      pose proof (BC 1%nat ltac:(cbn [length]; lia)) as B1. change (Z.of_nat 1) with 1 in B1. cbn [nth] in B1. rewrite B1. replace (b2 =? 0) with false by lia.
      set (u := tab (b2 * 256 + b1)) in *. rewrite (u32_small u) by lia. unfold enc2 in *. clearbody u.
      replace (Z.land u 63) with (u mod 64) by (symmetry; apply (Z.land_ones u 6); lia). replace (Z.land (u / 64) 63) with ((u / 64) mod 64) by (symmetry; apply (Z.land_ones (u / 64) 6); lia).
      pose proof (Z.mod_pos_bound u 64). pose proof (Z.mod_pos_bound (u / 64) 64).
      replace (src + 1 + 1) with (src + Z.of_nat 2) in S2 by lia.
      destruct (Z.leb_spec u 0x7FF) as [L|L].
      * assert (0 <= u / 64 < 32) by (split; [apply Z.div_le_lower_bound; lia|apply Z.div_lt_upper_bound; lia]).
        rewrite !u32_small by lia. cbn [length] in *.
        destruct (wstep m q p (u / 64 + 192) [u mod 64 + 128] Hq P0 ltac:(lia) ltac:(lia)) as [W1 W2]. destruct (writebyte m q _) as [m1 q1]. cbn [fst snd] in *.
        destruct (wstep m1 q1 (p + 1) (u mod 64 + 128) [] W1 ltac:(lia) ltac:(lia) ltac:(lia)) as [W3 W4]. destruct (writebyte m1 q1 _) as [m2 q2]. cbn [fst snd] in *. setoid_rewrite put_nil in W4.
        replace (p + 1 + 1) with (p + Z.of_nat 2) in W3 by lia. replace (p + 2) with (p + Z.of_nat 2) by lia.
        apply (NEXT m2 r2 q2); [|exact S2|exact W3]. intros x. rewrite W4. apply W2.
      * assert (0 <= u / 4096 < 16) by (split; [apply Z.div_le_lower_bound; lia|apply Z.div_lt_upper_bound; lia]).
        rewrite !u32_small by lia. cbn [length] in *.
        destruct (wstep m q p (u / 4096 + 224) [(u / 64) mod 64 + 128; u mod 64 + 128] Hq P0 ltac:(lia) ltac:(lia)) as [W1 W2]. destruct (writebyte m q _) as [m1 q1]. cbn [fst snd] in *.
        destruct (wstep m1 q1 (p + 1) ((u / 64) mod 64 + 128) [u mod 64 + 128] W1 ltac:(lia) ltac:(lia) ltac:(lia)) as [W3 W4]. destruct (writebyte m1 q1 _) as [m2 q2]. cbn [fst snd] in *.
        destruct (wstep m2 q2 (p + 1 + 1) (u mod 64 + 128) [] W3 ltac:(lia) ltac:(lia) ltac:(lia)) as [W5 W6]. destruct (writebyte m2 q2 _) as [m3 q3]. cbn [fst snd] in *. setoid_rewrite put_nil in W6.
        replace (p + 1 + 1 + 1) with (p + Z.of_nat 3) in W5 by lia. replace (p + 3) with (p + Z.of_nat 3) by lia.
        apply (NEXT m3 r2 q3); [|exact S2|exact W5]. intros x. rewrite W6, W4. apply W2.
Qed.
(* the text at dst is the UTF-8 of the code points of the characters; a first byte of a pair at the very end is dropped *)
Theorem C75_convert : forall table text points e m dst src fuel,
  byte_pairs table -> functional table -> Forall valid text -> Forall2 (point table) text points -> Forall (fun u => 0 < u < 0x10000) points ->
  (forall b1 b2, In (Two b1 b2) text -> forall u, In (b1, b2, u) table -> 128 <= u) ->
  ending e -> bytes_at m src (flat_map coded text ++ e) -> (length text < fuel)%nat ->
  exists out,
    utf8 out = Some points /\
    (0 <= dst -> dst + Z.of_nat (length out) < 2 ^ 32 -> apart src (length (flat_map coded text ++ e)) dst (length out + 1) ->
     exists m', f_cp949_to_utf8_cpy fuel table dst src m = Some (dst + Z.of_nat (length out), m') /\
       bytes_at m' dst (out ++ [0]) /\
       forall x, ~ (dst <= u32 x <= dst + Z.of_nat (length out)) -> byte m' x = byte m x).
Proof.
  intros table text points e m dst src fuel HT HF HV HP HR HN HE HB Hf. exists (flat_map (enc (cvtb table)) text).
  assert (TAB : forall b1 b2 u, In (Two b1 b2) text -> In (b1, b2, u) table -> cvtb table (b2 * 256 + b1) = u).
  { intros b1 b2 u I1 I2. destruct (HT _ _ _ I2). apply (C75_table table b1 b2); auto. }
  assert (G : utf8 (flat_map (enc (cvtb table)) text) = Some points /\ Forall (good (cvtb table)) text).
  { clear HB Hf. revert HV HR HN TAB. induction HP as [|c u text points Pc HP IH]; intros HV HR HN TAB; [split; [reflexivity|constructor]|].
    inversion HV as [|? ? V1 V2]; subst. inversion HR as [|? ? R1 R2]; subst.
    destruct IH as [I1 I2]; auto; [intros; eapply HN; [right|]; eassumption|intros; apply TAB; [right|]; assumption|].
    cbn [flat_map]. destruct c as [c|b1 b2]; cbn [enc point valid good] in *.
    - subst u. split; [cbn [app utf8]; replace (c <? 128) with true by lia; rewrite I1; reflexivity|constructor; [exact I|exact I2]].
    - rewrite (TAB b1 b2 u) by (auto; left; reflexivity). pose proof (HN b1 b2 (or_introl eq_refl) u Pc). split; [apply enc2_utf8; [lia|exact I1]|].
      constructor; [|exact I2]. cbn [good]. rewrite (TAB b1 b2 u) by (auto; left; reflexivity). lia. }
  destruct G as [G1 G2]. split; [exact G1|]. intros D0 D1 HA. set (out := flat_map (enc (cvtb table)) text) in *.
  destruct (loop_ok (cvtb table) e HE text fuel (seekoffset src) (seekoffset dst) src dst m HV G2 Hf (seek_at src) (seek_at dst) D0 D1 HB HA) as (m' & E1 & E2).
  exists m'. split; [exact E1|]. fold out in E2. split.
  - intros i Hi. rewrite app_length in Hi. cbn [length] in Hi. rewrite E2. unfold put. rewrite app_length. cbn [length]. rewrite u32_small by lia.
    replace ((dst <=? dst + Z.of_nat i) && (dst + Z.of_nat i <? dst + Z.of_nat (length out + 1))) with true by lia. f_equal. lia.
  - intros x Hx. rewrite E2. unfold put. rewrite app_length. cbn [length].
    replace ((dst <=? u32 x) && (u32 x <? dst + Z.of_nat (length out + 1))) with false by lia. reflexivity.
Qed.

(* ================= cases ================= *)
Definition table0 := [(0x81, 0x41, 0xAC02); (0xA1, 0xC0, 0xB1)].
Definition ld (src : list Z) (a : Z) : mem := fun k => fold_right (fun b v => b + 256 * v) 0 (firstn 4 (skipn (Z.to_nat (4 * (k - (a / 4 - 0x58A364 / 4)))) src)).
(* "a", a syllable, a degree sign *)
Example ex_convert :
  let text := [One 0x61; Two 0x81 0x41; Two 0xA1 0xC0] in
  let m := ld [0x61; 0x81; 0x41; 0xA1; 0xC0; 0; 0; 0] 0x59000000 in
  bytes_at m 0x59000000 (flat_map coded text ++ [0]) /\ Forall valid text /\ Forall2 (point table0) text [0x61; 0xAC02; 0xB1] /\ byte_pairs table0 /\ functional table0 /\
  match f_cp949_to_utf8_cpy 4 table0 0x59000101 0x59000000 m with
  | Some (d, m') => d = 0x59000107 /\ map (fun i => byte m' (0x59000101 + i)) [0; 1; 2; 3; 4; 5; 6] = [0x61; 0xEA; 0xB0; 0x82; 0xC2; 0xB1; 0]
  | None => False
  end /\ utf8 [0x61; 0xEA; 0xB0; 0x82; 0xC2; 0xB1] = Some [0x61; 0xAC02; 0xB1].
Proof.
  split; [intros i Hi; cbn [flat_map coded app length] in Hi; do 6 (destruct i as [|i]; [vm_compute; reflexivity|]); lia|].
  split; [repeat constructor; lia|]. split; [repeat constructor; cbn; tauto|].
  split; [intros b1 b2 u [K|[K|[]]]; injection K as <- <- <-; lia|].
  split; [intros b1 b2 u v [K|[K|[]]] [L|[L|[]]]; injection K as <- <- <-; injection L; congruence|]. vm_compute. auto.
Qed.
(* pairs outside the table become the two bytes C0 80, which are not UTF-8 *)
Theorem C75_unmapped_refuted : exists table text m dst src fuel m' d,
  byte_pairs table /\ functional table /\ Forall valid text /\ bytes_at m src (flat_map coded text ++ [0]) /\
  f_cp949_to_utf8_cpy fuel table dst src m = Some (d, m') /\ forall out, bytes_at m' dst (out ++ [0]) -> dst + Z.of_nat (length out) = d -> utf8 out = None.
Proof.
  pose (m := ld [0x81; 0x20; 0; 0] 0x59000000).
  assert (E : match f_cp949_to_utf8_cpy 2 table0 0x59000100 0x59000000 m with
    | Some (d, m') => d = 0x59000102 /\ byte m' 0x59000100 = 0xC0 /\ byte m' 0x59000101 = 0x80 | None => False end) by (vm_compute; auto).
  destruct (f_cp949_to_utf8_cpy 2 table0 0x59000100 0x59000000 m) as [[d m']|] eqn:F; [|destruct E]. destruct E as (E1 & E2 & E3).
  exists table0, [Two 0x81 0x20], m, 0x59000100, 0x59000000, 2%nat, m', d.
  split; [intros b1 b2 u [K|[K|[]]]; injection K as <- <- <-; lia|].
  split; [intros b1 b2 u v [K|[K|[]]] [L|[L|[]]]; injection K as <- <- <-; injection L; congruence|].
  split; [repeat constructor; lia|]. split; [intros i Hi; cbn [flat_map coded app length] in Hi; do 3 (destruct i as [|i]; [vm_compute; reflexivity|]); lia|].
  split; [exact F|]. intros out HO HL. assert (L : length out = 2%nat) by lia. destruct out as [|a [|b [|]]]; try discriminate.
  pose proof (HO 0%nat ltac:(cbn; lia)) as A. pose proof (HO 1%nat ltac:(cbn; lia)) as B. cbn [app nth] in A, B.
  change (0x59000100 + Z.of_nat 0) with 0x59000100 in A. change (0x59000100 + Z.of_nat 1) with 0x59000101 in B. rewrite E2 in A. rewrite E3 in B. subst a b. reflexivity.
Qed.

Print Assumptions C75_table.
Print Assumptions C75_convert.
Print Assumptions C75_unmapped_refuted.
