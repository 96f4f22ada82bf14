(* Final theorems: repairs of the map's data (C74). *)
From Coq Require Import ZArith Lia List Bool ZifyBool ZifyNat.
From Verif Require Import FixModel.
Import ListNotations.
Open Scope Z_scope.

(* ================= specification ================= *)
(* what the game makes of an entry: bit k of byte 14 says that a property is given *)
Definition given (u : urec) (k : Z) : bool := Z.testbit (u14 u) k.
Definition hp (u : urec) : Z := if given u 1 then u17 u else 100.
Definition shield (u : urec) : Z := if given u 2 then u18 u else 100.
Definition energy (u : urec) : option Z := if given u 3 then Some (u19 u) else None.
Definition resource (u : urec) : option (Z * Z * Z * Z) := if given u 4 then Some (u20 u, u21 u, u22 u, u23 u) else None.
Definition hangar (u : urec) : Z * Z := if given u 5 then (u24 u, u25 u) else (0, 0).
(* cloaked, burrowed, in transit, hallucinated, invincible *)
Definition state (u : urec) (k : Z) : bool := Z.testbit (u12 u) k && Z.testbit (u26 u) k.
Definition same_unit (u v : urec) : Prop :=
  hp u = hp v /\ shield u = shield v /\ energy u = energy v /\ resource u = resource v /\ hangar u = hangar v /\ forall k, 0 <= k -> state u k = state v k.
(* nothing is kept that the game does not look at, no default is given *)
Definition normal (u : urec) : Prop :=
  (given u 1 = true -> u17 u <> 100) /\ (given u 2 = true -> u18 u <> 100) /\ (given u 5 = true -> (u24 u, u25 u) <> (0, 0)) /\
  (given u 1 = false -> u17 u = 0) /\ (given u 2 = false -> u18 u = 0) /\ (given u 3 = false -> u19 u = 0) /\
  (given u 4 = false -> (u20 u, u21 u, u22 u, u23 u) = (0, 0, 0, 0)) /\ (given u 5 = false -> (u24 u, u25 u) = (0, 0)) /\
  (forall k, 0 <= k < 5 -> Z.testbit (u12 u) k = Z.testbit (u26 u) k).

(* ================= proofs ================= *)
Lemma land_bit x k : 0 <= k -> (Z.land x (2 ^ k) =? 0) = negb (Z.testbit x k).
Proof.
  intros Hk. destruct (Z.testbit x k) eqn:B; cbn [negb].
  - apply Z.eqb_neq. intros E. assert (C : Z.testbit (Z.land x (2 ^ k)) k = true) by (rewrite Z.land_spec, B, Z.pow2_bits_true by lia; reflexivity).
    rewrite E, Z.bits_0 in C. discriminate.
  - apply Z.eqb_eq. apply Z.bits_inj'. intros j Hj. rewrite Z.land_spec, Z.bits_0. destruct (Z.eq_dec j k) as [->|N]; [rewrite B; reflexivity|].
    rewrite Z.pow2_bits_false by lia. apply andb_false_r.
Qed.
Lemma off_bit x k j : 0 <= k -> 0 <= j -> Z.testbit (off x (2 ^ k)) j = Z.testbit x j && negb (j =? k).
Proof.
  intros. unfold off. rewrite Z.land_spec, Z.lnot_spec by lia. f_equal. f_equal. destruct (Z.eqb_spec j k) as [->|N]; [apply Z.pow2_bits_true; lia|apply Z.pow2_bits_false; lia].
Qed.
Lemma off_loop_bit n a b j : 0 <= j -> Z.testbit (off_loop n a b) j = Z.testbit b j && (negb (j <? Z.of_nat n) || Z.testbit a j).
Proof.
  intros Hj. induction n as [|n IH].
  - cbn [off_loop]. replace (j <? Z.of_nat 0) with false by lia. cbn. rewrite andb_true_r. reflexivity.
  - cbn [off_loop]. rewrite land_bit by lia. destruct (Z.testbit a (Z.of_nat n)) eqn:B; cbn [negb].
    + rewrite IH. destruct (Z.eq_dec j (Z.of_nat n)) as [->|N]; [rewrite B, !orb_true_r; reflexivity|].
      replace (j <? Z.of_nat (S n)) with (j <? Z.of_nat n) by lia. reflexivity.
    + rewrite off_bit, IH by lia. destruct (Z.eqb_spec j (Z.of_nat n)) as [->|N]; cbn [negb].
      * rewrite B. replace (Z.of_nat n <? Z.of_nat (S n)) with true by lia. cbn. rewrite !andb_false_r. reflexivity.
      * rewrite andb_true_r. replace (j <? Z.of_nat (S n)) with (j <? Z.of_nat n) by lia. reflexivity.
Qed.
Definition flags (u : urec) : Z :=
  let f := u14 u in
  let f := if u17 u =? 100 then off f (2 ^ 1) else f in
  let f := if u18 u =? 100 then off f (2 ^ 2) else f in
  if (u24 u =? 0) && (u25 u =? 0) then off f (2 ^ 5) else f.
Lemma flags_bit u j : 0 <= j -> Z.testbit (flags u) j =
  Z.testbit (u14 u) j && negb ((j =? 1) && (u17 u =? 100)) && negb ((j =? 2) && (u18 u =? 100)) && negb ((j =? 5) && ((u24 u =? 0) && (u25 u =? 0))).
Proof.
  intros Hj. unfold flags. destruct (u17 u =? 100), (u18 u =? 100), ((u24 u =? 0) && (u25 u =? 0)); rewrite ?off_bit by lia; rewrite ?andb_false_r, ?andb_true_r; cbn [negb]; rewrite ?andb_true_r; reflexivity.
Qed.
Lemma fix_entry_eq u : fix_entry u =
  let f := flags u in let s := off_loop 5 (u26 u) (u12 u) in
  mkurec s f (if Z.testbit f 1 then u17 u else 0) (if Z.testbit f 2 then u18 u else 0) (if Z.testbit f 3 then u19 u else 0)
    (if Z.testbit f 4 then u20 u else 0) (if Z.testbit f 4 then u21 u else 0) (if Z.testbit f 4 then u22 u else 0) (if Z.testbit f 4 then u23 u else 0)
    (if Z.testbit f 5 then u24 u else 0) (if Z.testbit f 5 then u25 u else 0) (off_loop 5 s (u26 u)).
Proof.
  unfold fix_entry. change (if (u24 u =? 0) && (u25 u =? 0) then _ else _) with (flags u). cbv zeta.
  change 2 with (2 ^ 1) at 1. change 4 with (2 ^ 2) at 1. change 8 with (2 ^ 3) at 1. change 16 with (2 ^ 4). change 32 with (2 ^ 5).
  rewrite !land_bit by lia. 
  f_equal; match goal with |- context [negb ?b] => destruct b; reflexivity | _ => idtac end.
Qed.
Theorem C74_same_unit : forall u, same_unit (fix_entry u) u.
Proof.
  intros u. rewrite fix_entry_eq. cbv zeta. unfold same_unit, hp, shield, energy, resource, hangar, state, given. cbn [u12 u14 u17 u18 u19 u20 u21 u22 u23 u24 u25 u26].
  rewrite !flags_bit by lia. cbn [Z.eqb Pos.eqb andb negb]. rewrite ?andb_true_r.
  split; [|split; [|split; [|split; [|split]]]].
  - destruct (Z.testbit (u14 u) 1); cbn [andb]; [|reflexivity]. destruct (Z.eqb_spec (u17 u) 100); cbn [negb]; lia.
  - destruct (Z.testbit (u14 u) 2); cbn [andb]; [|reflexivity]. destruct (Z.eqb_spec (u18 u) 100); cbn [negb]; lia.
  - destruct (Z.testbit (u14 u) 3); reflexivity.
  - destruct (Z.testbit (u14 u) 4); reflexivity.
  - destruct (Z.testbit (u14 u) 5); cbn [andb]; [|reflexivity]. destruct (Z.eqb_spec (u24 u) 0) as [->|], (Z.eqb_spec (u25 u) 0) as [->|]; reflexivity.
  - intros k Hk. rewrite !off_loop_bit by lia. destruct (Z.testbit (u12 u) k), (Z.testbit (u26 u) k), (negb (k <? Z.of_nat 5)); reflexivity.
Qed.
Theorem C74_normal : forall u, normal (fix_entry u).
Proof.
  intros u. rewrite fix_entry_eq. cbv zeta. unfold normal, given. cbn [u12 u14 u17 u18 u19 u20 u21 u22 u23 u24 u25 u26].
  split; [|split; [|split; [|split; [|split; [|split; [|split; [|split]]]]]]]; try (intros H; rewrite H; reflexivity).
  - intros H. rewrite H. rewrite flags_bit in H by lia. cbn [Z.eqb Pos.eqb andb negb] in H. lia.
  - intros H. rewrite H. rewrite flags_bit in H by lia. cbn [Z.eqb Pos.eqb andb negb] in H. lia.
  - intros H. rewrite H. rewrite flags_bit in H by lia. cbn [Z.eqb Pos.eqb andb negb] in H. intros Q. injection Q as Q1 Q2. rewrite Q1, Q2 in H. rewrite !andb_false_r in H. discriminate.
  - intros k Hk. rewrite !off_loop_bit by lia. replace (k <? Z.of_nat 5) with true by lia. cbn [negb orb]. destruct (Z.testbit (u12 u) k), (Z.testbit (u26 u) k); reflexivity.
Qed.
(* an entry that is normal stays as it is; so a second repair changes nothing *)
Theorem C74_keeps_normal : forall u, normal u -> fix_entry u = u.
Proof.
  intros u (N1 & N2 & N3 & N4 & N5 & N6 & N7 & N8 & N9). unfold given in *. rewrite fix_entry_eq. cbv zeta.
  assert (F : flags u = u14 u).
  { apply Z.bits_inj'. intros j Hj. rewrite flags_bit by lia. destruct (Z.testbit (u14 u) j) eqn:B; [|reflexivity]. cbn [andb].
    destruct (Z.eqb_spec j 1) as [->|]; [specialize (N1 B); replace (u17 u =? 100) with false by lia; reflexivity|].
    destruct (Z.eqb_spec j 2) as [->|]; [specialize (N2 B); replace (u18 u =? 100) with false by lia; reflexivity|].
    destruct (Z.eqb_spec j 5) as [->|]; [|reflexivity]. specialize (N3 B). destruct (Z.eqb_spec (u24 u) 0) as [E|], (Z.eqb_spec (u25 u) 0) as [E'|]; try reflexivity.
    exfalso. apply N3. congruence. }
  assert (S : off_loop 5 (u26 u) (u12 u) = u12 u).
  { apply Z.bits_inj'. intros j Hj. rewrite off_loop_bit by lia. destruct (Z.ltb_spec j (Z.of_nat 5)); cbn [negb orb]; [|apply andb_true_r].
    rewrite <- N9 by lia. destruct (Z.testbit (u12 u) j); reflexivity. }
  assert (T : off_loop 5 (u12 u) (u26 u) = u26 u).
  { apply Z.bits_inj'. intros j Hj. rewrite off_loop_bit by lia. destruct (Z.ltb_spec j (Z.of_nat 5)); cbn [negb orb]; [|apply andb_true_r].
    rewrite N9 by lia. destruct (Z.testbit (u26 u) j); reflexivity. }
  rewrite F, S, T. destruct u as [a b c d e f g h i j k l]. cbn [u12 u14 u17 u18 u19 u20 u21 u22 u23 u24 u25 u26] in *.
  f_equal.
  - destruct (Z.testbit b 1); [reflexivity|rewrite N4 by reflexivity; reflexivity].
  - destruct (Z.testbit b 2); [reflexivity|rewrite N5 by reflexivity; reflexivity].
  - destruct (Z.testbit b 3); [reflexivity|rewrite N6 by reflexivity; reflexivity].
  - destruct (Z.testbit b 4); [reflexivity|specialize (N7 eq_refl); injection N7 as -> -> -> ->; reflexivity].
  - destruct (Z.testbit b 4); [reflexivity|specialize (N7 eq_refl); injection N7 as -> -> -> ->; reflexivity].
  - destruct (Z.testbit b 4); [reflexivity|specialize (N7 eq_refl); injection N7 as -> -> -> ->; reflexivity].
  - destruct (Z.testbit b 4); [reflexivity|specialize (N7 eq_refl); injection N7 as -> -> -> ->; reflexivity].
  - destruct (Z.testbit b 5); [reflexivity|specialize (N8 eq_refl); injection N8 as -> ->; reflexivity].
  - destruct (Z.testbit b 5); [reflexivity|specialize (N8 eq_refl); injection N8 as -> ->; reflexivity].
Qed.
(* ---- the section ---- *)
Definition touched (o : Z) : bool := existsb (Z.eqb o) [12; 14; 17; 18; 19; 20; 21; 22; 23; 24; 25; 26].
Lemma store_load b i u : load_entry (store_entry b i u) i = u.
Proof.
  unfold load_entry, store_entry, set. destruct u as [a b0 c d e f g h i0 j k l]. cbn [u12 u14 u17 u18 u19 u20 u21 u22 u23 u24 u25 u26].
  f_equal; repeat (match goal with |- context [?x =? ?y] => first [replace (x =? y) with true by lia | replace (x =? y) with false by lia] end; cbv iota); reflexivity.
Qed.
Lemma store_other b i u x : touched (x - i) = false -> store_entry b i u x = b x.
Proof.
  unfold touched. cbn [existsb]. intros H. rewrite !orb_false_iff in H. unfold store_entry, set.
  repeat (match goal with |- context [x =? ?y] => replace (x =? y) with false by lia end; cbv iota). reflexivity.
Qed.
Lemma touched_range o : touched o = true -> 0 <= o < 36.
Proof. unfold touched. cbn [existsb]. lia. Qed.
Lemma load_cong b b' i : (forall o, 0 <= o < 36 -> b (i + o) = b' (i + o)) -> load_entry b i = load_entry b' i.
Proof. intros H. unfold load_entry. rewrite !H by lia. reflexivity. Qed.
Theorem C74_units : forall n i b,
  (forall k, 0 <= k < Z.of_nat n -> load_entry (fix_unit_map n i b) (i + 36 * k) = fix_entry (load_entry b (i + 36 * k))) /\
  (forall x, (forall k, 0 <= k < Z.of_nat n -> touched (x - (i + 36 * k)) = false) -> fix_unit_map n i b x = b x).
Proof.
  induction n as [|n IH]; intros i b; [split; [lia|reflexivity]|]. cbn [fix_unit_map]. set (b1 := store_entry b i (fix_entry (load_entry b i))).
  destruct (IH (i + 36) b1) as [I1 I2]. split.
  - intros k Hk. destruct (Z.eq_dec k 0) as [->|N].
    + replace (i + 36 * 0) with i by lia. rewrite (load_cong _ b1).
      * unfold b1. apply store_load.
      * intros o Ho. apply I2. intros k Hk'. destruct (touched (i + o - (i + 36 + 36 * k))) eqn:T; [|reflexivity]. apply touched_range in T. lia.
    + replace (i + 36 * k) with (i + 36 + 36 * (k - 1)) by lia. rewrite I1 by lia. f_equal. apply load_cong. intros o Ho. unfold b1. apply store_other.
      destruct (touched (i + 36 + 36 * (k - 1) + o - i)) eqn:T; [|reflexivity]. apply touched_range in T. lia.
  - intros x Hx. rewrite I2.
    + unfold b1. apply store_other. specialize (Hx 0 ltac:(lia)). rewrite Z.mul_0_r, Z.add_0_r in Hx. exact Hx.
    + intros k Hk. specialize (Hx (k + 1) ltac:(lia)). replace (i + 36 + 36 * k) with (i + 36 * (k + 1)) by lia. exact Hx.
Qed.

(* ---- settings ---- *)
(* byte x is one of those of item i, in one of the tables that follow offset *)
Fixpoint of_item (settings : list Z) (count offset i x : Z) : Prop :=
  match settings with
  | [] => False
  | s :: r => (offset + s * i <= x < offset + s * i + s) \/ of_item r count (offset + s * count) i x
  end.
Lemma of_item_dec settings count i x : forall o, of_item settings count o i x \/ ~ of_item settings count o i x.
Proof.
  induction settings as [|t r IH]; intros o; cbn [of_item]; [tauto|]. destruct (IH (o + t * count)); [tauto|].
  assert (D : (o + t * i <= x < o + t * i + t) \/ ~ (o + t * i <= x < o + t * i + t)) by lia. tauto.
Qed.
Lemma zero_bytes_ok n : forall o b x, zero_bytes n o b x = if (o <=? x) && (x <? o + Z.of_nat n) then 0 else b x.
Proof.
  induction n as [|n IH]; intros o b x; cbn [zero_bytes]; [replace ((o <=? x) && (x <? o + Z.of_nat 0)) with false by lia; reflexivity|].
  rewrite IH. unfold set. destruct (Z.eqb_spec x o) as [->|N].
  - replace ((o <=? o) && (o <? o + Z.of_nat (S n))) with true by lia. destruct (_ && _); reflexivity.
  - replace ((o <=? x) && (x <? o + Z.of_nat (S n))) with ((o + 1 <=? x) && (x <? o + 1 + Z.of_nat n)) by lia. reflexivity.
Qed.
Lemma zero_settings_ok settings : forall count offset i b x, Forall (fun s => 0 <= s) settings ->
  (of_item settings count offset i x -> zero_settings settings count offset i b x = 0) /\
  (~ of_item settings count offset i x -> zero_settings settings count offset i b x = b x).
Proof.
  induction settings as [|s r IH]; intros count offset i b x HS; [split; [intros []|reflexivity]|]. inversion HS as [|? ? S0 SR]; subst. cbn [of_item zero_settings].
  destruct (IH count (offset + s * count) i (zero_bytes (Z.to_nat s) (offset + s * i) b) x SR) as [I1 I2].
  pose proof (of_item_dec r count i x (offset + s * count)) as DEC.
  destruct DEC as [D|D]; [split; [intros _; apply I1, D|tauto]|]. rewrite (I2 D), zero_bytes_ok.
  split; [intros [H|H]; [|contradiction]|intros H].
  - replace ((offset + s * i <=? x) && (x <? offset + s * i + Z.of_nat (Z.to_nat s))) with true by lia. reflexivity.
  - replace ((offset + s * i <=? x) && (x <? offset + s * i + Z.of_nat (Z.to_nat s))) with false by lia. reflexivity.
Qed.
Lemma of_item_ge settings count : forall offset i x, Forall (fun s => 0 <= s) settings -> 0 <= i -> 0 <= count -> of_item settings count offset i x -> offset <= x.
Proof.
  induction settings as [|s r IH]; intros offset i x HS Hi Hc H; [destruct H|]. inversion HS; subst. cbn [of_item] in H. destruct H as [H|H]; [nia|].
  apply IH in H; try assumption. nia.
Qed.
Lemma fix_items_ok n : forall i count base settings b, Forall (fun s => 0 <= s) settings -> 0 <= i -> i + Z.of_nat n <= count -> count <= base ->
  forall x,
  ((exists j, i <= j < i + Z.of_nat n /\ b j <> 0 /\ of_item settings count base j x) -> fix_items n i count base settings b x = 0) /\
  ((forall j, i <= j < i + Z.of_nat n -> b j <> 0 -> ~ of_item settings count base j x) -> fix_items n i count base settings b x = b x).
Proof.
  induction n as [|n IH]; intros i count base settings b HS Hi Hn Hb x; [split; [intros (j & H & _); lia|reflexivity]|]. cbn [fix_items].
  set (b1 := if b i =? 0 then b else zero_settings settings count base i b).
  assert (HEAD : forall j, j < base -> b1 j = b j).
  { intros j Hj. unfold b1. destruct (b i =? 0); [reflexivity|]. apply zero_settings_ok; [exact HS|]. intros O. apply of_item_ge in O; try assumption; lia. }
  destruct (IH (i + 1) count base settings b1 HS ltac:(lia) ltac:(lia) Hb x) as [I1 I2].
  assert (Z0 : b i <> 0 -> of_item settings count base i x -> b1 x = 0).
  { intros B O. unfold b1. replace (b i =? 0) with false by lia. apply zero_settings_ok; assumption. }
  assert (DEC : forall j, of_item settings count base j x \/ ~ of_item settings count base j x).
  { intros j. apply of_item_dec. }
  split.
  - intros (j & J1 & J2 & J3). destruct (Z.eq_dec j i) as [->|N].
    + assert (K : (exists j, i + 1 <= j < i + 1 + Z.of_nat n /\ b1 j <> 0 /\ of_item settings count base j x) \/
                  (forall j, i + 1 <= j < i + 1 + Z.of_nat n -> b1 j <> 0 -> ~ of_item settings count base j x)).
      { clear - DEC. generalize (i + 1). induction n as [|n IHn]; intros a; [right; intros; lia|]. destruct (IHn (a + 1)) as [(j & H & H')|H].
        - left. exists j. split; [lia|exact H'].
        - destruct (DEC a) as [D|D].
          + destruct (Z.eq_dec (b1 a) 0) as [E|E]; [right|left; exists a; split; [lia|auto]]. intros j Hj B. destruct (Z.eq_dec j a) as [->|]; [contradiction|apply H; [lia|exact B]].
          + right. intros j Hj B. destruct (Z.eq_dec j a) as [->|]; [exact D|apply H; [lia|exact B]]. }
      destruct K as [K|K]; [apply I1, K|]. etransitivity; [exact (I2 K)|]. apply Z0; assumption.
    + apply I1. exists j. split; [lia|]. split; [rewrite HEAD by lia; exact J2|exact J3].
  - intros H. etransitivity; [apply I2|].
    2: unfold b1; destruct (Z.eqb_spec (b i) 0); [reflexivity|]; apply zero_settings_ok; [exact HS|]; apply H; [lia|assumption].
    intros j Hj B. apply H; [lia|]. rewrite HEAD in B by lia. exact B.
Qed.
(* items that use the defaults of the game lose their settings, no other byte changes *)
Definition cleared (count : Z) (tables : list (Z * Z)) (b b' : bytes) : Prop :=
  forall x,
  ((exists i o s, 0 <= i < count /\ b i <> 0 /\ In (o, s) tables /\ o + s * i <= x < o + s * i + s) -> b' x = 0) /\
  ((forall i o s, 0 <= i < count -> b i <> 0 -> In (o, s) tables -> ~ (o + s * i <= x < o + s * i + s)) -> b' x = b x).
Ltac clr n c base ss :=
  let b := fresh "b" in let x := fresh "x" in intros b x; destruct (fix_items_ok n 0 c base ss b ltac:(repeat constructor; lia) ltac:(lia) ltac:(lia) ltac:(lia) x) as [F1 F2]; cbn [of_item] in F1, F2; split;
  [ intros (i & o & s & H1 & H2 & H3 & H4); apply F1; exists i; split; [lia|]; split; [exact H2|]; cbn [In] in H3;
    repeat (destruct H3 as [H3|H3]; [injection H3 as <- <-; lia|]); destruct H3
  | intros H; apply F2; intros j J1 J2 J3;
    repeat (destruct J3 as [J3|J3]; [match type of J3 with ?o + ?s * _ <= _ < _ => let o' := eval vm_compute in o in apply (H j o' s); [lia|exact J2|cbn [In]; tauto|lia] end|]); destruct J3 ].
(* hit points, shields, armor, build time, minerals, gas, name *)
Theorem C74_unix : forall b, cleared 228 [(228, 4); (1140, 2); (1596, 1); (1824, 2); (2280, 2); (2736, 2); (3192, 2)] b (fix_unix b).
Proof. clr 228%nat 228 228 [4; 2; 1; 2; 2; 2; 2]. Qed.
(* mineral cost and factor, gas cost and factor, time and factor *)
Theorem C74_upgx : forall b, cleared 61 [(62, 2); (184, 2); (306, 2); (428, 2); (550, 2); (672, 2)] b (fix_upgx b).
Proof. clr 61%nat 61 (61 + 1) [2; 2; 2; 2; 2; 2]. Qed.
(* mineral cost, gas cost, time, energy *)
Theorem C74_tecx : forall b, cleared 44 [(44, 2); (132, 2); (220, 2); (308, 2)] b (fix_tecx b).
Proof. clr 44%nat 44 44 [2; 2; 2; 2]. Qed.

(* ---- tiles ---- *)
Definition tile (b : bytes) (t : Z) : Z := b (2 * t) + 256 * b (2 * t + 1).
Theorem C74_tiles : forall n a b, let '(b', l) := fix_mtxm n (2 * a) b in
  (forall t, a <= t < a + Z.of_nat n -> (b (2 * t) = 0 /\ b (2 * t + 1) = 0 -> tile b' t = 1 /\ In t l) /\
                                        (~ (b (2 * t) = 0 /\ b (2 * t + 1) = 0) -> tile b' t = tile b t /\ ~ In t l)) /\
  (forall x, ~ (2 * a <= x < 2 * (a + Z.of_nat n)) -> b' x = b x) /\ (forall t, In t l -> a <= t < a + Z.of_nat n).
Proof.
  induction n as [|n IH]; intros a b; cbn [fix_mtxm]; [split; [lia|split; [reflexivity|intros t []]]|].
  replace (2 * a + 2) with (2 * (a + 1)) by lia. unfold tile in *.
  destruct ((b (2 * a) =? 0) && (b (2 * a + 1) =? 0)) eqn:C.
  - specialize (IH (a + 1) (set (set b (2 * a) 1) (2 * a + 1) 0)). destruct (fix_mtxm n (2 * (a + 1)) _) as [b' l]. destruct IH as (I1 & I2 & I3).
    assert (E : forall x, 2 * (a + 1) <= x -> set (set b (2 * a) 1) (2 * a + 1) 0 x = b x) by (intros x Hx; unfold set; replace (x =? 2 * a + 1) with false by lia; replace (x =? 2 * a) with false by lia; reflexivity).
    replace (2 * a / 2) with a by (rewrite Z.mul_comm, Z_div_mult; lia). split; [|split].
    + intros t Ht. destruct (Z.eq_dec t a) as [->|N].
      * split; [intros _|intros Q; exfalso; apply Q; lia]. rewrite !I2 by lia. unfold set.
        replace (2 * a =? 2 * a + 1) with false by lia. rewrite !Z.eqb_refl. split; [reflexivity|left; reflexivity].
      * specialize (I1 t ltac:(lia)). rewrite !E in I1 by lia. destruct I1 as [J1 J2]. split; intros Q; [destruct (J1 Q) as [K1 K2]; split; [exact K1|right; exact K2]|].
        destruct (J2 Q) as [K1 K2]. split; [exact K1|]. intros [K|K]; [congruence|contradiction].
    + intros x Hx. rewrite I2 by lia. unfold set. replace (x =? 2 * a + 1) with false by lia. replace (x =? 2 * a) with false by lia. reflexivity.
    + intros t [<-|K]; [lia|]. apply I3 in K. lia.
  - specialize (IH (a + 1) b). destruct (fix_mtxm n (2 * (a + 1)) b) as [b' l]. destruct IH as (I1 & I2 & I3). split; [|split].
    + intros t Ht. destruct (Z.eq_dec t a) as [->|N]; [|apply I1; lia]. split; [lia|]. intros _. rewrite !I2 by lia. split; [reflexivity|]. intros K. apply I3 in K. lia.
    + intros x Hx. apply I2. lia.
    + intros t K. apply I3 in K. lia.
Qed.

(* ================= cases ================= *)
(* 100 % hit points given, shield 50 % not given, cloak set but not valid *)
Example ex_entry : fix_entry (mkurec 2 (2 + 8) 100 50 30 1 2 3 4 5 6 (1 + 2)) = mkurec 2 8 0 0 30 0 0 0 0 0 0 2 /\
  same_unit (mkurec 2 8 0 0 30 0 0 0 0 0 0 2) (mkurec 2 (2 + 8) 100 50 30 1 2 3 4 5 6 (1 + 2)).
Proof. split; [reflexivity|]. apply (C74_same_unit (mkurec 2 (2 + 8) 100 50 30 1 2 3 4 5 6 (1 + 2))). Qed.
Example ex_tecx : let b := fun x => if x <? 44 then (if x =? 3 then 1 else 0) else 7 in
  map (fix_tecx b) [3; 44 + 5; 44 + 6; 44 + 7; 44 + 8; 132 + 6; 308 + 7; 308 + 8] = [1; 7; 0; 0; 7; 0; 0; 7].
Proof. vm_compute. reflexivity. Qed.
Example ex_mtxm : let (b, l) := fix_mtxm 3 0 (fun x => nth (Z.to_nat x) [5; 0; 0; 0; 0; 1] 9) in map b [0; 1; 2; 3; 4; 5; 6] = [5; 0; 1; 0; 0; 1; 9] /\ l = [1].
Proof. vm_compute. auto. Qed.

Print Assumptions C74_same_unit.
Print Assumptions C74_normal.
Print Assumptions C74_keeps_normal.
Print Assumptions C74_units.
Print Assumptions C74_unix.
Print Assumptions C74_upgx.
Print Assumptions C74_tecx.
Print Assumptions C74_tiles.
