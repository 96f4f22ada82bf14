(* Property C43: numbers in texts. *)
From Coq Require Import ZArith Lia List Bool ZifyBool ZifyNat.
From Verif Require Import Word ParseModel.
Import ListNotations.
Open Scope Z_scope.

(* ---------- specification ---------- *)
Definition whitespace (b : Z) : Prop := b = 32 \/ b = 9 \/ b = 10 \/ b = 12 \/ b = 13.
(* value of a digit character in bases up to 36 *)
Inductive digit : Z -> Z -> Prop :=
| d_num : forall v, 0 <= v <= 9 -> digit (48 + v) v
| d_low : forall v, 10 <= v <= 35 -> digit (97 + (v - 10)) v
| d_up : forall v, 10 <= v <= 35 -> digit (65 + (v - 10)) v.
(* the characters are digits of the base with this value *)
Inductive numeral (r : Z) : list Z -> Z -> Prop :=
| n_nil : numeral r [] 0
| n_snoc : forall l n b v, numeral r l n -> digit b v -> v < r -> numeral r (l ++ [b]) (r * n + v).
Definition stops (r : Z) (rest : list Z) : Prop := match rest with [] => True | b :: _ => forall v, digit b v -> r <= v end.
Inductive sign : list Z -> Z -> Prop := s_none : sign [] 1 | s_plus : sign [43] 1 | s_minus : sign [45] (-1).
Definition sign_char (b : Z) : Prop := b = 43 \/ b = 45.
(* text = white space, sign, digits, anything else *)
Inductive reading (r : Z) (text : list Z) (sg : Z) (ds : list Z) (n : Z) (rest : list Z) : Prop :=
| mkreading : forall ws sgn,
    text = ws ++ sgn ++ ds ++ rest -> Forall whitespace ws -> sign sgn sg -> numeral r ds n -> stops r rest ->
    (sgn = [] -> ds = [] -> match rest with [] => True | b :: _ => ~ whitespace b /\ ~ sign_char b end) ->
    reading r text sg ds n rest.
(* number of significant digits: none only if there is no digit, one for zero *)
Definition significant (r : Z) (ds : list Z) (n c : Z) : Prop :=
  (ds = [] /\ n = 0 /\ c = 0) \/ (ds <> [] /\ n = 0 /\ c = 1) \/ (ds <> [] /\ 1 <= c /\ r^(c - 1) <= n < r^c).

(* ---------- the digits variable ---------- *)
Definition D (s f : bool) (c : Z) : Z := Z.b2z s * 2^31 + Z.b2z f * 2^30 + c.
Lemma setx_eq x v k : setx x v k = x - Z.land x k + Z.land v k.
Proof.
  unfold setx. rewrite lor_add by apply ldiff_land_disjoint. pose proof (ldiff_land_split x k). lia.
Qed.
Lemma D_mod30 s f c : 0 <= c < 2^30 -> D s f c mod 2^30 = c.
Proof. intros H. unfold D. replace (_ + c) with (c + (2 * Z.b2z s + Z.b2z f) * 2^30) by lia. rewrite Z.mod_add by lia. apply Z.mod_small. exact H. Qed.
Lemma D_mod31 s f c : 0 <= c < 2^30 -> D s f c mod 2^31 = Z.b2z f * 2^30 + c.
Proof.
  intros H. unfold D. replace (_ + c) with (Z.b2z f * 2^30 + c + Z.b2z s * 2^31) by lia. rewrite Z.mod_add by lia. apply Z.mod_small.
  destruct f; cbn [Z.b2z]; lia.
Qed.
Lemma land30 s f c : 0 <= c < 2^30 -> Z.land (D s f c) (b30 - 1) = c.
Proof. intros H. change (b30 - 1) with (Z.ones 30). rewrite Z.land_ones by lia. apply D_mod30, H. Qed.
Lemma land31 s f c : 0 <= c < 2^30 -> Z.land (D s f c) (b31 - 1) = Z.b2z f * 2^30 + c.
Proof. intros H. change (b31 - 1) with (Z.ones 31). rewrite Z.land_ones by lia. apply D_mod31, H. Qed.
Lemma D_div s f c i : 0 <= c < 2^30 -> i = 30 \/ i = 31 -> Z.testbit (D s f c) i = if i =? 30 then f else s.
Proof.
  intros H [-> | ->]; cbn [Z.eqb Pos.eqb]; rewrite Z.testbit_odd, Z.shiftr_div_pow2 by lia.
  - assert (D s f c / 2^30 = 2 * Z.b2z s + Z.b2z f) as -> by (symmetry; apply Z.div_unique with c; [lia|unfold D; lia]).
    destruct s, f; reflexivity.
  - assert (D s f c / 2^31 = Z.b2z s) as -> by (symmetry; apply Z.div_unique with (Z.b2z f * 2^30 + c); [destruct f; cbn [Z.b2z]; lia|unfold D; lia]).
    destruct s; reflexivity.
Qed.
Lemma landb30 s f c : 0 <= c < 2^30 -> Z.land (D s f c) b30 = Z.b2z f * 2^30.
Proof. intros H. change b30 with (2^30). rewrite land_pow2, D_div by (auto; lia). destruct f; reflexivity. Qed.
Lemma landb31 s f c : 0 <= c < 2^30 -> Z.land (D s f c) b31 = Z.b2z s * 2^31.
Proof. intros H. change b31 with (2^31). rewrite land_pow2, D_div by (auto; lia). destruct s; reflexivity. Qed.
Lemma set_flag s f c : 0 <= c < 2^30 -> setx (D s f c) b30 b30 = D s true c.
Proof. intros H. rewrite setx_eq, landb30 by exact H. rewrite Z.land_diag. unfold D, b30. cbn [Z.b2z]. lia. Qed.
Lemma set_count s f c v : 0 <= c < 2^30 -> 0 <= v < 2^30 -> setx (D s f c) v (b30 - 1) = D s f v.
Proof.
  intros H Hv. rewrite setx_eq, land30 by exact H. change (b30 - 1) with (Z.ones 30). rewrite Z.land_ones, Z.mod_small by lia. unfold D. lia.
Qed.
Lemma set_clear s f c : 0 <= c < 2^30 -> setx (D s f c) 0 (3 * b30) = c.
Proof.
  intros H. rewrite setx_eq. change (3 * b30) with (Z.lor b30 b31). rewrite Z.land_lor_distr_r, landb30, landb31 by exact H.
  rewrite Z.land_0_l, lor_add; [unfold D; lia|]. destruct s, f; reflexivity.
Qed.
Lemma D_range s f c : 0 <= c < 2^30 -> 0 <= D s f c < 2^32.
Proof. intros H. unfold D. destruct s, f; cbn [Z.b2z]; lia. Qed.
Lemma finish_D number s f c : 0 <= c < 2^30 ->
  finish (number, D s f c) = ((if s then u32 (- (if f then 0x7FFFFFFF else number)) else if f then 0x7FFFFFFF else number), c).
Proof.
  intros H. unfold finish, atleastx. rewrite landb30, landb31, set_clear by exact H. destruct s, f; reflexivity.
Qed.

(* ---------- characters ---------- *)
Lemma digit_fun b v w : digit b v -> digit b w -> v = w.
Proof. intros H K. inversion H; inversion K; lia. Qed.
Lemma alnum_digit b v : alnum b = Some v <-> digit b v.
Proof.
  unfold alnum, is_digit. split.
  - destruct ((48 <=? b) && (b <=? 57)) eqn:E1; [intros [= <-]; replace b with (48 + (b - 48)) at 1 by lia; constructor; lia|].
    destruct ((97 <=? b) && (b <=? 122)) eqn:E2; [intros [= <-]; replace b with (97 + ((b - 87) - 10)) at 1 by lia; constructor; lia|].
    destruct ((65 <=? b) && (b <=? 90)) eqn:E3; [intros [= <-]; replace b with (65 + ((b - 55) - 10)) at 1 by lia; constructor; lia|discriminate].
  - intros H. inversion H; subst.
    + replace ((48 <=? 48 + v) && (48 + v <=? 57)) with true by lia. f_equal. lia.
    + replace ((48 <=? 97 + (v - 10)) && (97 + (v - 10) <=? 57)) with false by lia.
      replace ((97 <=? 97 + (v - 10)) && (97 + (v - 10) <=? 122)) with true by lia. f_equal. lia.
    + replace ((48 <=? 65 + (v - 10)) && (65 + (v - 10) <=? 57)) with false by lia.
      replace ((97 <=? 65 + (v - 10)) && (65 + (v - 10) <=? 122)) with false by lia.
      replace ((65 <=? 65 + (v - 10)) && (65 + (v - 10) <=? 90)) with true by lia. f_equal. lia.
Qed.
Lemma is_digit_10 b v : digit b v -> v < 10 -> is_digit b = true /\ b - 48 = v.
Proof. intros H Hv. inversion H; subst; unfold is_digit; lia. Qed.
Lemma not_digit_10 b : (forall v, digit b v -> 10 <= v) -> is_digit b = false.
Proof.
  intros H. destruct (is_digit b) eqn:E; [|reflexivity]. unfold is_digit in E. exfalso.
  assert (digit b (b - 48)) as K by (replace b with (48 + (b - 48)) at 1 by lia; constructor; lia). apply H in K. lia.
Qed.
Lemma trim_ws b d : whitespace b -> trim_digits b d = b31.
Proof. intros [-> | [-> | [-> | [-> | ->]]]]; reflexivity. Qed.
Lemma trim_other b d : ~ whitespace b -> trim_digits b d = d.
Proof.
  intros H. unfold whitespace in H. unfold trim_digits. cbn [fold_left].
  destruct (Z.eqb_spec b 32); [tauto|]. destruct (Z.eqb_spec b 9); [tauto|]. destruct (Z.eqb_spec b 10); [tauto|].
  destruct (Z.eqb_spec b 12); [tauto|]. destruct (Z.eqb_spec b 13); [tauto|reflexivity].
Qed.
Lemma digit_plain b v : digit b v -> ~ whitespace b /\ b <> 43 /\ b <> 45.
Proof. unfold whitespace. intros H. inversion H; lia. Qed.
(* a numeral from the left *)
Lemma numeral_digits r ds n : numeral r ds n -> Forall (fun b => exists v, digit b v /\ v < r) ds.
Proof. induction 1; [constructor|]. apply Forall_app. split; [assumption|]. constructor; [eauto|constructor]. Qed.
Lemma numeral_nonneg r ds n : 0 <= r -> numeral r ds n -> 0 <= n.
Proof. intros Hr. induction 1; [lia|]. assert (0 <= v) by (inversion H0; lia). nia. Qed.
(* digits are processed one by one *)
Fixpoint valr (r : Z) (ds : list Z) (n : Z) : option Z :=
  match ds with [] => Some n | b :: t => match alnum b with Some v => if v <? r then valr r t (r * n + v) else None | None => None end end.
Lemma valr_app r a : forall b n, valr r (a ++ b) n = match valr r a n with Some k => valr r b k | None => None end.
Proof. induction a as [|x a IH]; intros b n; [reflexivity|]. cbn. destruct (alnum x) as [v|]; [|reflexivity]. destruct (v <? r); [apply IH|reflexivity]. Qed.
Lemma numeral_valr r ds n : numeral r ds n -> valr r ds 0 = Some n.
Proof.
  induction 1 as [|l n b v H IH K L]; [reflexivity|]. rewrite valr_app, IH. cbn. apply alnum_digit in K. rewrite K.
  destruct (Z.ltb_spec v r); [reflexivity|lia].
Qed.

(* ---------- decimal ---------- *)
Definition count (r n c : Z) : Prop := (n = 0 /\ 0 <= c <= 1) \/ (1 <= c /\ r^(c - 1) <= n < r^c).
Definition inv10 (n number c : Z) (f : bool) : Prop :=
  0 <= n /\ 0 <= c <= 10 /\ 0 <= number < 2^32 /\
  if f then 2147483640 <= n else number = n /\ n < 2147483640 /\ count 10 n c.
Lemma count_step r n c v : 2 <= r -> 0 <= v < r -> 0 <= n -> count r n c -> count r (r * n + v) ((if n =? 0 then 0 else c) + 1).
Proof.
  intros Hr Hv Hn H. destruct (Z.eqb_spec n 0) as [->|N].
  - destruct (Z.eqb_spec v 0) as [->|V]; [left; lia|right]. split; [lia|]. replace (0 + 1 - 1) with 0 by lia. rewrite Z.pow_0_r, Z.pow_1_r. lia.
  - destruct H as [[? _]|(C & L & U)]; [lia|]. right. split; [lia|].
    replace (c + 1 - 1) with (Z.succ (c - 1)) by lia. rewrite Z.pow_succ_r by lia. replace (c + 1) with (Z.succ c) by lia. rewrite Z.pow_succ_r by lia. nia.
Qed.
Lemma count_lt c n : count 10 n c -> 0 < n -> 10^9 <= n -> 10 <= c.
Proof.
  intros HC Hn H; destruct HC as [[? _]|(C & L & U)]; [lia|]. destruct (Z.leb_spec 10 c); [assumption|]. exfalso.
  assert (10^c <= 10^9) by (apply Z.pow_le_mono_r; lia). lia.
Qed.
Lemma count_le c n : count 10 n c -> n < 10^10 -> c <= 10.
Proof.
  intros HC H; destruct HC as [[-> ?]|(C & L & U)]; [lia|]. destruct (Z.leb_spec c 10); [assumption|]. exfalso.
  assert (10^10 <= 10^(c - 1)) by (apply Z.pow_le_mono_r; lia). lia.
Qed.
Lemma dw_digit_ok n number s f c v : inv10 n number c f -> 0 <= v < 10 ->
  exists number' f' c', dw_digit number (D s f c) v = (number', D s f' c') /\ inv10 (10 * n + v) number' c' f' /\ 1 <= c'.
Proof.
  intros (N0 & C0 & M0 & H) Hv. unfold dw_digit. cbv zeta. change (0x7FFFFFFF / 10) with 214748364. change (0x7FFFFFFF mod 10 + 1) with 8.
  change (214748364 + 1) with 214748365.
  assert (A31 : atleastx (D s f c) 8 (b31 - 1) = (8 <=? Z.b2z f * 2^30 + c)) by (unfold atleastx; rewrite land31 by lia; reflexivity). rewrite A31.
  (* the flag *)
  set (f1 := f || (number =? 214748364) && (8 <=? Z.b2z f * 2^30 + c) || (214748365 <=? number)).
  replace (if 214748365 <=? number then setx (if (number =? 214748364) && (8 <=? Z.b2z f * 2^30 + c) then setx (D s f c) b30 b30 else D s f c) b30 b30
           else if (number =? 214748364) && (8 <=? Z.b2z f * 2^30 + c) then setx (D s f c) b30 b30 else D s f c) with (D s f1 c).
  2:{ unfold f1. destruct ((number =? 214748364) && (8 <=? Z.b2z f * 2^30 + c)); destruct (214748365 <=? number); rewrite ?orb_true_r, ?orb_false_r, ?orb_true_l;
      rewrite ?set_flag by lia; reflexivity. }
  set (n1 := u32 (number * 10)).
  replace (if n1 =? 0 then setx (D s f1 c) 0 (b30 - 1) else D s f1 c) with (D s f1 (if n1 =? 0 then 0 else c))
    by (destruct (n1 =? 0); [rewrite set_count by lia; reflexivity|reflexivity]).
  set (c1 := if n1 =? 0 then 0 else c). assert (0 <= c1 <= 10) by (unfold c1; destruct (n1 =? 0); lia).
  rewrite (u32_small (D s f1 c1 + 1)) by (pose proof (D_range s f1 (c1 + 1) ltac:(lia)); unfold D in *; lia).
  replace (D s f1 c1 + 1) with (D s f1 (c1 + 1)) by (unfold D; lia).
  unfold atleastx. rewrite land30 by lia.
  replace (if 11 <=? c1 + 1 then setx (D s f1 (c1 + 1)) 10 (b30 - 1) else D s f1 (c1 + 1)) with (D s f1 (if 11 <=? c1 + 1 then 10 else c1 + 1))
    by (destruct (11 <=? c1 + 1); [rewrite set_count by lia; reflexivity|reflexivity]).
  eexists _, _, _. split; [reflexivity|]. split; [|destruct (11 <=? c1 + 1); lia].
  split; [lia|]. split; [destruct (Z.leb_spec 11 (c1 + 1)); lia|]. split; [apply u32_range|].
  destruct f; [unfold f1; cbn [orb]; lia|]. destruct H as (-> & H1 & H2).
  assert (F1 : f1 = ((n =? 214748364) && (8 <=? c) || (214748365 <=? n))) by reflexivity. clearbody f1.
  destruct (Z.le_gt_cases n 214748363) as [L|G].
  - assert (f1 = false) as -> by (rewrite F1; lia). assert (n1 = 10 * n) as E1 by (unfold n1; rewrite u32_small; lia).
    rewrite E1, u32_small by lia. split; [lia|]. split; [lia|].
    assert (K : c1 = if n =? 0 then 0 else c) by (unfold c1; rewrite E1; destruct (Z.eqb_spec n 0), (Z.eqb_spec (10 * n) 0); lia).
    assert (C1 : count 10 (10 * n + v) (c1 + 1)) by (rewrite K; apply count_step; auto; lia).
    pose proof (count_le _ _ C1 ltac:(lia)). destruct (Z.leb_spec 11 (c1 + 1)); [lia|exact C1].
  - assert (C9 : 8 <= c).
    { destruct H2 as [[? _]|(A & B & C)]; [lia|]. destruct (Z.leb_spec 8 c); [assumption|]. exfalso.
      assert (10^c <= 10^8) by (apply Z.pow_le_mono_r; lia). lia. }
    assert (f1 = true) as -> by (rewrite F1; destruct (Z.eqb_spec n 214748364); lia). lia.
Qed.
Lemma dw_digits_ok ds : forall rest n number s f c, inv10 n number c f -> stops 10 rest -> (exists k, valr 10 ds n = Some k) ->
  exists number' f' c' k, dw_digits (ds ++ rest) number (D s f c) = (number', D s f' c') /\ valr 10 ds n = Some k /\
    inv10 k number' c' f' /\ (c' = 0 -> c = 0 /\ ds = []) /\ (ds = [] -> c' = c).
Proof.
  induction ds as [|b ds IH]; intros rest n number s f c Hi Hs [k Hk].
  - exists number, f, c, n. split; [|split; [reflexivity|]; split; [exact Hi|]; split; auto]. cbn [app].
    destruct rest as [|b rest]; [reflexivity|]. cbn [dw_digits]. cbn in Hs. rewrite not_digit_10 by exact Hs. reflexivity.
  - cbn [valr] in Hk |- *. destruct (alnum b) as [v|] eqn:Eb; [|discriminate]. destruct (Z.ltb_spec v 10) as [Lv|]; [|discriminate].
    apply alnum_digit in Eb. pose proof (is_digit_10 b v Eb Lv) as [E1 E2]. cbn [app dw_digits]. rewrite E1, E2.
    destruct (dw_digit_ok n number s f c v Hi) as (n1 & f1 & c1 & A & B & C); [inversion Eb; lia|]. rewrite A.
    destruct (IH rest (10 * n + v) n1 s f1 c1 B Hs (ex_intro _ k Hk)) as (n2 & f2 & c2 & k2 & A2 & B2 & C2 & D2 & E3).
    exists n2, f2, c2, k2. split; [exact A2|]. split; [exact B2|]. split; [exact C2|]. split; [|discriminate].
    intros Hz. destruct (D2 Hz). lia.
Qed.
(* after white space and sign *)
Lemma dw_start_ws ws : forall t number, Forall whitespace ws -> dw_start (ws ++ t) number 0 = dw_start t number 0.
Proof.
  induction ws as [|b ws IH]; intros t number H; [reflexivity|]. inversion H; subst. cbn [app dw_start]. rewrite trim_ws by assumption.
  rewrite Z.eqb_refl. apply IH. assumption.
Qed.
Definition neg (sg : Z) : bool := sg =? -1.
Lemma start_split r sgn sg ds rest n : sign sgn sg -> numeral r ds n ->
  (sgn = [] -> ds = [] -> match rest with [] => True | b :: _ => ~ whitespace b /\ ~ sign_char b end) ->
  sgn = [] /\ sg = 1 /\ match ds ++ rest with [] => True | b :: _ => ~ whitespace b /\ b <> 43 /\ b <> 45 end \/ (exists b, sgn = [b] /\ (b = 43 /\ sg = 1 \/ b = 45 /\ sg = -1)).
Proof.
  intros Hs Hn Hst. destruct Hs; [|right; exists 43; auto|right; exists 45; auto]. left. split; [reflexivity|]. split; [reflexivity|].
  destruct ds as [|b ds].
  - cbn [app]. specialize (Hst eq_refl eq_refl). destruct rest as [|b rest]; [exact I|]. unfold sign_char in Hst. tauto.
  - apply numeral_digits in Hn. inversion Hn as [|? ? (v & Hd & _) _]; subst. cbn [app]. exact (digit_plain b v Hd).
Qed.
Lemma D_sign s : D s false 0 = if s then b31 else 0.
Proof. destruct s; reflexivity. Qed.
Lemma dw_start_ok sgn sg ds rest n : sign sgn sg -> numeral 10 ds n ->
  (sgn = [] -> ds = [] -> match rest with [] => True | b :: _ => ~ whitespace b /\ ~ sign_char b end) ->
  dw_start (sgn ++ ds ++ rest) 0 0 = dw_digits (ds ++ rest) 0 (D (neg sg) false 0).
Proof.
  intros Hs Hn Hst. destruct (start_split 10 sgn sg ds rest n Hs Hn Hst) as [(-> & -> & H)|(b & -> & H)].
  - cbn [app]. change (D (neg 1) false 0) with 0. destruct (ds ++ rest) as [|b t]; [reflexivity|]. destruct H as (W & P & M).
    cbn [dw_start]. rewrite trim_other by exact W. change (0 =? b31) with false. cbv iota. unfold sign_step.
    destruct (Z.eqb_spec b 45); [contradiction|]. destruct (Z.eqb_spec b 43); [contradiction|reflexivity].
  - destruct H as [[-> ->]|[-> ->]]; reflexivity.
Qed.

(* The number and its digit count, for every text whose number is in range; the
   range is slightly smaller than that of 32-bit signed numbers. *)
Theorem C43_decimal_partial : forall text sg ds n rest, reading 10 text sg ds n rest -> n < 2147483640 \/ n = 2147483647 ->
  fst (f_parse text 10) = u32 (sg * n) /\ (n < 2147483640 -> significant 10 ds n (snd (f_parse text 10))).
Proof.
  intros text sg ds n rest [ws sgn -> Hw Hsg Hds Hst Hb] Hn. unfold f_parse, parse_dw. cbn [Z.eqb Pos.eqb].
  rewrite dw_start_ws by exact Hw. rewrite (dw_start_ok _ _ _ _ _ Hsg Hds Hb).
  destruct (dw_digits_ok ds rest 0 0 (neg sg) false 0) as (number & f & c & k & A & B & C & E1 & E2);
    [repeat split; try lia; left; lia|exact Hst|exists n; apply numeral_valr; exact Hds|].
  rewrite A. rewrite (numeral_valr _ _ _ Hds) in B. injection B as <-. destruct C as (C1 & C2 & C3 & C4). rewrite finish_D by lia. cbn [fst snd].
  assert (S1 : sg = 1 /\ neg sg = false \/ sg = -1 /\ neg sg = true) by (destruct Hsg; auto).
  destruct f.
  - assert (n = 2147483647) as -> by lia. split; [|lia]. destruct S1 as [[-> ->]|[-> ->]]; reflexivity.
  - destruct C4 as (-> & C5 & C6). split.
    + destruct S1 as [[-> ->]|[-> ->]]; [rewrite u32_small; lia|f_equal; lia].
    + intros _. unfold significant. destruct ds as [|b ds].
      * left. rewrite (E2 eq_refl). split; [reflexivity|]. split; [|reflexivity]. apply numeral_valr in Hds. injection Hds as <-. reflexivity.
      * right. destruct C6 as [[-> C6]|C6].
        -- left. split; [discriminate|]. split; [reflexivity|]. assert (c <> 0) by (intros Hz; destruct (E1 Hz); discriminate). lia.
        -- right. split; [discriminate|exact C6].
Qed.
(* Beyond: saturation, at -2147483647 for negative numbers *)
Theorem C43_saturation : forall text sg ds n rest, reading 10 text sg ds n rest -> 2147483640 <= n ->
  fst (f_parse text 10) = u32 (sg * 0x7FFFFFFF).
Proof.
  intros text sg ds n rest [ws sgn -> Hw Hsg Hds Hst Hb] Hn. unfold f_parse, parse_dw. cbn [Z.eqb Pos.eqb].
  rewrite dw_start_ws by exact Hw. rewrite (dw_start_ok _ _ _ _ _ Hsg Hds Hb).
  destruct (dw_digits_ok ds rest 0 0 (neg sg) false 0) as (number & f & c & k & A & B & C & E1 & E2);
    [repeat split; try lia; left; lia|exact Hst|exists n; apply numeral_valr; exact Hds|].
  rewrite A. rewrite (numeral_valr _ _ _ Hds) in B. injection B as <-. destruct C as (C1 & C2 & C3 & C4). rewrite finish_D by lia. cbn [fst snd].
  assert (S1 : sg = 1 /\ neg sg = false \/ sg = -1 /\ neg sg = true) by (destruct Hsg; auto).
  destruct f; [|lia]. destruct S1 as [[-> ->]|[-> ->]]; reflexivity.
Qed.
(* every text has a reading, so the two theorems cover all texts *)
Lemma digits_prefix r text : forall pre n, numeral r pre n -> exists ds rest k, text = ds ++ rest /\ numeral r (pre ++ ds) k /\ stops r rest.
Proof.
  induction text as [|b t IH]; intros pre n Hp.
  - exists [], [], n. rewrite (app_nil_r pre). repeat split; auto.
  - destruct (alnum b) as [v|] eqn:Eb.
    + apply alnum_digit in Eb. destruct (Z.lt_ge_cases v r) as [L|G].
      * destruct (IH (pre ++ [b]) (r * n + v)) as (ds & rest & k & -> & A & B); [constructor; assumption|].
        exists (b :: ds), rest, k. split; [reflexivity|]. rewrite <- app_assoc in A. auto.
      * exists [], (b :: t), n. rewrite (app_nil_r pre). repeat split; auto. intros w Hw. rewrite (digit_fun _ _ _ Hw Eb). lia.
    + exists [], (b :: t), n. rewrite (app_nil_r pre). repeat split; auto. intros w Hw. apply alnum_digit in Hw. congruence.
Qed.
Lemma whitespace_dec b : {whitespace b} + {~ whitespace b}.
Proof.
  unfold whitespace. destruct (Z.eq_dec b 32); [left; tauto|]. destruct (Z.eq_dec b 9); [left; tauto|]. destruct (Z.eq_dec b 10); [left; tauto|].
  destruct (Z.eq_dec b 12); [left; tauto|]. destruct (Z.eq_dec b 13); [left; tauto|right; tauto].
Qed.
Theorem C43_reading_exists : forall r text, exists sg ds n rest, reading r text sg ds n rest.
Proof.
  intros r text.
  assert (W : exists ws t, text = ws ++ t /\ Forall whitespace ws /\ match t with [] => True | b :: _ => ~ whitespace b end).
  { induction text as [|b t (ws & t' & -> & A & B)].
    - exists [], []. auto.
    - destruct (whitespace_dec b) as [w|w]; [exists (b :: ws), t'; auto|]. exists [], (b :: ws ++ t'). auto. }
  destruct W as (ws & t & -> & Hw & Hb).
  destruct t as [|b t].
  - exists 1, [], 0, []. apply mkreading with (ws := ws) (sgn := []); auto; try constructor.
  - destruct (Z.eq_dec b 43) as [->|P]; [|destruct (Z.eq_dec b 45) as [->|M]].
    + destruct (digits_prefix r t [] 0 (n_nil r)) as (ds & rest & k & -> & A & B). exists 1, ds, k, rest.
      apply mkreading with (ws := ws) (sgn := [43]); auto; [constructor|discriminate].
    + destruct (digits_prefix r t [] 0 (n_nil r)) as (ds & rest & k & -> & A & B). exists (-1), ds, k, rest.
      apply mkreading with (ws := ws) (sgn := [45]); auto; [constructor|discriminate].
    + destruct (digits_prefix r (b :: t) [] 0 (n_nil r)) as (ds & rest & k & E & A & B). exists 1, ds, k, rest.
      apply mkreading with (ws := ws) (sgn := []); auto; [rewrite <- E; reflexivity|constructor|].
      intros _ ->. cbn in E. rewrite <- E. unfold sign_char. tauto.
Qed.
(* Findings *)
Theorem C43_near_limit_refuted : fst (f_parse [50;49;52;55;52;56;51;54;52;48] 10) = 2147483647.  (* "2147483640" *)
Proof. reflexivity. Qed.
Theorem C43_lowest_refuted : fst (f_parse [45;50;49;52;55;52;56;51;54;52;56] 10) = u32 (-2147483647).  (* "-2147483648" *)
Proof. reflexivity. Qed.
Theorem C43_digit_count_refuted : f_parse [50;49;52;55;52;56;51;54;52;56;48] 10 = (2147483647, 1).  (* "21474836480": one digit *)
Proof. reflexivity. Qed.
Example C43_example : f_parse [32;9;45;48;48;52;50;120] 10 = (u32 (-42), 2).  (* " \t-0042x" *)
Proof. reflexivity. Qed.

(* ---------- other bases ---------- *)
Definition prefix_for (r b : Z) : Prop := r = 2 /\ (b = 98 \/ b = 66) \/ r = 8 /\ (b = 111 \/ b = 79) \/ r = 16 /\ (b = 120 \/ b = 88).
Lemma literals_ok r b : 2 <= r -> fold_left (literal_step b) literals (r, false) = (r, true) /\ prefix_for r b \/ fold_left (literal_step b) literals (r, false) = (r, false) /\ ~ prefix_for r b.
Proof.
  intros Hr. assert (R : r =? 0 = false) by lia.
  assert (ST : forall l b0 r0, literal_step b (r, l) (b0, r0) = (r, l || (b =? b0) && (r =? r0))).
  { intros l b0 r0. unfold literal_step. cbn [fst snd]. rewrite R, andb_false_r. f_equal. destruct ((b =? b0) && (r =? r0)), l; reflexivity. }
  unfold literals, prefix_for. cbn [fold_left]. rewrite !ST. cbn [orb].
  match goal with |- (_, ?q) = _ /\ _ \/ _ => destruct q eqn:Q end; [left; split; [reflexivity|]|right; split; [reflexivity|]].
  - rewrite !orb_true_iff, !andb_true_iff, !Z.eqb_eq in Q. tauto.
  - rewrite <- not_true_iff_false, !orb_true_iff, !andb_true_iff, !Z.eqb_eq in Q. tauto.
Qed.
Definition invr (r n number c : Z) : Prop := number = n /\ 0 <= n /\ 0 <= c <= 32 /\ count r n c.
Lemma count_32 r n c : 2 <= r -> n < 2^32 -> count r n c -> c <= 32.
Proof.
  intros Hr Hn [[_ H]|(A & B & C)]; [lia|]. destruct (Z.leb_spec c 32); [assumption|]. exfalso.
  assert (2^32 <= 2^(c - 1)) by (apply Z.pow_le_mono_r; lia). assert (2^(c - 1) <= r^(c - 1)) by (apply Z.pow_le_mono_l; lia). lia.
Qed.
Lemma rx_digit_ok r n number s c v lim : 2 <= r <= 36 -> invr r n number c -> 0 <= v < r -> n < 0xFFFFFFFF / r ->
  exists c', rx_digit r (0xFFFFFFFF / r) lim number (D s false c) v = (r * n + v, D s false c') /\ invr r (r * n + v) (r * n + v) c' /\ 1 <= c'.
Proof.
  intros Hr (-> & N0 & C0 & H) Hv Hn. unfold rx_digit. pose proof (Z.div_mod 0xFFFFFFFF r ltac:(lia)) as DM. pose proof (Z.mod_pos_bound 0xFFFFFFFF r ltac:(lia)) as MB.
  assert (B : r * n + v < 2^32 - 1) by nia.
  assert (AB : atleastx (D s false c) 1 b30 = false) by (unfold atleastx; rewrite landb30 by lia; reflexivity). rewrite AB.
  replace (n =? 0xFFFFFFFF / r) with false by lia. cbn [andb].
  rewrite (u32_small (0xFFFFFFFF / r + 1)) by nia. replace (0xFFFFFFFF / r + 1 <=? n) with false by lia.
  rewrite (u32_small (n * r)) by nia.
  replace (if n * r =? 0 then setx (D s false c) 0 (b30 - 1) else D s false c) with (D s false (if n =? 0 then 0 else c)).
  2:{ destruct (Z.eqb_spec n 0) as [->|Nn].
      - rewrite Z.mul_0_l. cbn [Z.eqb]. rewrite set_count by lia. reflexivity.
      - destruct (Z.eqb_spec (n * r) 0); [nia|reflexivity]. }
  set (c1 := if n =? 0 then 0 else c). assert (0 <= c1 <= 32) by (unfold c1; destruct (n =? 0); lia).
  rewrite (u32_small (n * r + v)) by lia.
  rewrite (u32_small (D s false c1 + 1)) by (pose proof (D_range s false (c1 + 1) ltac:(lia)); unfold D in *; lia).
  assert (C1 : count r (r * n + v) (c1 + 1)) by (apply count_step; auto; lia).
  exists (c1 + 1). split; [f_equal; [lia|unfold D; lia]|]. split; [|lia]. split; [reflexivity|]. split; [nia|]. split; [|exact C1].
  assert (c1 + 1 <= 32) by (apply (count_32 r (r * n + v)); [lia|lia|exact C1]). lia.
Qed.
Lemma valr_mono r ds : forall n k, 2 <= r -> 0 <= n -> valr r ds n = Some k -> n <= k /\ (ds <> [] -> r * n <= k).
Proof.
  induction ds as [|b ds IH]; intros n k Hr Hn H; [injection H as <-; split; [lia|congruence]|].
  cbn in H. destruct (alnum b) as [v|] eqn:Eb; [|discriminate]. apply alnum_digit in Eb. assert (0 <= v) by (inversion Eb; lia).
  destruct (v <? r); [|discriminate]. destruct (IH (r * n + v) k Hr) as [A _]; [nia|exact H|]. split; [nia|]. intros _. lia.
Qed.
Lemma rx_digits_ok r lim ds : 2 <= r <= 36 -> forall rest n s c k, invr r n n c -> stops r rest -> valr r ds n = Some k -> k < r * (0xFFFFFFFF / r) ->
  exists c', rx_digits r (0xFFFFFFFF / r) lim (ds ++ rest) n (D s false c) = (k, D s false c') /\
    invr r k k c' /\ (c' = 0 -> c = 0 /\ ds = []) /\ (ds = [] -> c' = c).
Proof.
  intros Hr. induction ds as [|b ds IH]; intros rest n s c k Hi Hs Hk Hl.
  - cbn in Hk. injection Hk as <-. exists c. split; [|split; [exact Hi|]; split; auto]. cbn [app].
    destruct rest as [|b rest]; [reflexivity|]. cbn [rx_digits]. cbn in Hs. destruct (alnum b) as [v|] eqn:Eb; [|reflexivity].
    apply alnum_digit in Eb. apply Hs in Eb. destruct (Z.leb_spec r v); [reflexivity|lia].
  - pose proof (valr_mono r (b :: ds) n k ltac:(lia) ltac:(destruct Hi; lia) Hk) as [_ M]. specialize (M ltac:(discriminate)).
    cbn [valr] in Hk. destruct (alnum b) as [v|] eqn:Eb; [|discriminate]. destruct (Z.ltb_spec v r) as [Lv|]; [|discriminate].
    cbn [app rx_digits]. rewrite Eb. destruct (Z.leb_spec r v); [lia|]. apply alnum_digit in Eb. assert (0 <= v) by (inversion Eb; lia).
    destruct (rx_digit_ok r n n s c v lim Hr Hi) as (c1 & A & B & C); [lia|nia|]. rewrite A.
    destruct (IH rest (r * n + v) s c1 k B Hs Hk Hl) as (c2 & A2 & B2 & C2 & D2).
    exists c2. split; [exact A2|]. split; [exact B2|]. split; [|discriminate]. intros Hz. destruct (C2 Hz). lia.
Qed.
Lemma rx_start_ws r ws : forall t number, Forall whitespace ws -> rx_start r (ws ++ t) number 0 = rx_start r t number 0.
Proof.
  induction ws as [|b ws IH]; intros t number H; [reflexivity|]. inversion H; subst. cbn [app rx_start]. rewrite trim_ws by assumption.
  rewrite Z.eqb_refl. apply IH. assumption.
Qed.
Lemma rx_zero_nil r : rx_zero r [] 0 0 = (0, 0). Proof. reflexivity. Qed.
Lemma rx_start_ok r sgn sg t : sign sgn sg -> (sgn = [] -> match t with [] => True | b :: _ => ~ whitespace b /\ ~ sign_char b end) ->
  rx_start r (sgn ++ t) 0 0 = rx_zero r t 0 (D (neg sg) false 0).
Proof.
  intros Hs Ht. destruct Hs; [|reflexivity|reflexivity]. cbn [app]. change (D (neg 1) false 0) with 0. specialize (Ht eq_refl).
  destruct t as [|b t]; [reflexivity|]. destruct Ht as [W S]. unfold sign_char in S. cbn [rx_start]. rewrite trim_other by exact W.
  change (0 =? b31) with false. cbv iota. unfold sign_step. destruct (Z.eqb_spec b 45); [tauto|]. destruct (Z.eqb_spec b 43); [tauto|reflexivity].
Qed.
Lemma D_one s : u32 (D s false 0 + 1) = D s false 1.
Proof. destruct s; reflexivity. Qed.
Lemma finish_N n s c sg : (sg = 1 /\ s = false \/ sg = -1 /\ s = true) -> 0 <= n < 2^32 -> 0 <= c < 2^30 -> finish (n, D s false c) = (u32 (sg * n), c).
Proof.
  intros H Hn Hc. rewrite finish_D by exact Hc. f_equal. destruct H as [[-> ->]|[-> ->]]; [rewrite u32_small; lia|f_equal; lia].
Qed.
(* Bases 2 to 36 (10 is handled by the decimal parser above), numbers without
   prefix; the only exception is a single 0 followed by b, o or x, which would
   be a prefix. *)
Theorem C43_radix_partial : forall r text sg ds n rest, reading r text sg ds n rest -> 2 <= r <= 36 -> r <> 10 ->
  (ds = [48] -> match rest with [] => True | b :: _ => ~ prefix_for r b end) ->
  n < r * (0xFFFFFFFF / r) ->
  fst (f_parse text r) = u32 (sg * n) /\ significant r ds n (snd (f_parse text r)).
Proof.
  intros r text sg ds n rest [ws sgn -> Hw Hsg Hds Hst Hb] Hr Hr10 Hp Hn. unfold f_parse, parse_radix.
  destruct (Z.eqb_spec r 10); [contradiction|]. rewrite rx_start_ws by exact Hw.
  rewrite (rx_start_ok r sgn sg).
  2: exact Hsg.
  2:{ intros ->. destruct (start_split r [] sg ds rest n Hsg Hds Hb) as [(_ & _ & H)|(b & E & _)]; [|discriminate].
      destruct (ds ++ rest); [exact I|]. unfold sign_char. tauto. }
  assert (S1 : sg = 1 /\ neg sg = false \/ sg = -1 /\ neg sg = true) by (destruct Hsg; auto).
  pose proof (Z.div_mod 0xFFFFFFFF r ltac:(lia)) as DM. pose proof (Z.mod_pos_bound 0xFFFFFFFF r ltac:(lia)) as MB.
  pose proof (numeral_nonneg r ds n ltac:(lia) Hds) as Hn0.
  pose proof (numeral_valr _ _ _ Hds) as Hv. set (s := neg sg) in *.
  assert (FIN : forall c, invr r n n c -> (ds = [] -> c = 0) -> (c = 0 -> ds = []) -> forall p, p = (n, D s false c) ->
    fst (finish p) = u32 (sg * n) /\ significant r ds n (snd (finish p))).
  { intros c (_ & _ & C & CN) E1 E2 p ->. rewrite (finish_N n s c sg S1) by lia. cbn [fst snd]. split; [reflexivity|].
    unfold significant. destruct ds as [|b ds].
    - left. split; [reflexivity|]. split; [injection Hv as <-; reflexivity|exact (E1 eq_refl)].
    - right. destruct CN as [[-> CN]|CN]; [left|right; split; [discriminate|exact CN]]. split; [discriminate|]. split; [reflexivity|].
      assert (c <> 0) by (intros Hz; discriminate (E2 Hz)). lia. }
  assert (I0 : forall c, 0 <= c <= 1 -> invr r 0 0 c) by (intros c Hc; repeat split; try lia; left; lia).
  assert (NZ : r =? 0 = false) by lia.
  destruct (ds ++ rest) as [|b t] eqn:Et.
  - apply app_eq_nil in Et. destruct Et as [-> ->]. injection Hv as <-. apply (FIN 0); auto. apply I0. lia.
  - cbn [rx_zero]. destruct (Z.eqb_spec b 48) as [->|Nz].
    + (* a leading zero *)
      destruct ds as [|b0 ds].
      { exfalso. cbn in Et. rewrite Et in Hst. cbn in Hst. assert (K : digit 48 0) by (change 48 with (48 + 0); constructor; lia). apply Hst in K. lia. }
      injection Et as -> Et. rewrite D_one. cbn [valr] in Hv. change (alnum 48) with (Some 0) in Hv. cbv iota beta in Hv. replace (0 <? r) with true in Hv by lia.
      replace (r * 0 + 0) with 0 in Hv by lia.
      destruct (rx_digits_ok r (u32 (0xFFFFFFFF mod r + 1)) ds Hr rest 0 s 1 n (I0 1 ltac:(lia)) Hst Hv Hn) as (c & A & B & C1 & C2).
      apply (FIN c); [exact B|discriminate|intros Hz; exfalso; destruct (C1 Hz); lia|]. rewrite <- A, Et.
      destruct t as [|b t]; [reflexivity|]. cbn [rx_literal].
      destruct (literals_ok r b ltac:(lia)) as [[L P]|[L P]]; rewrite L; unfold rx_decimal; rewrite NZ; [|reflexivity].
      exfalso. destruct ds as [|b1 ds].
      * cbn in Et. subst rest. apply (Hp eq_refl). exact P.
      * injection Et as -> _. cbn [valr] in Hv. destruct (alnum b) as [v|] eqn:Eb; [|discriminate]. destruct (Z.ltb_spec v r) as [Lv|]; [|discriminate].
        apply alnum_digit in Eb. unfold prefix_for in P. inversion Eb; subst; lia.
    + unfold rx_decimal. rewrite NZ. rewrite <- Et.
      destruct (rx_digits_ok r (u32 (0xFFFFFFFF mod r + 1)) ds Hr rest 0 s 0 n (I0 0 ltac:(lia)) Hst Hv Hn) as (c & A & B & C1 & C2).
      apply (FIN c); [exact B|exact C2|intros Hz; apply C1; exact Hz|exact A].
Qed.
(* with prefix 0b, 0o, 0x: in the matching base and, with radix 0, in the base it names *)
Theorem C43_prefix_partial : forall r b ws sgn sg ds rest n radix, prefix_for r b -> (radix = r \/ radix = 0) ->
  Forall whitespace ws -> sign sgn sg -> numeral r ds n -> stops r rest -> n < r * (0xFFFFFFFF / r) ->
  fst (f_parse (ws ++ sgn ++ [48; b] ++ ds ++ rest) radix) = u32 (sg * n).
Proof.
  intros r b ws sgn sg ds rest n radix Hp Hrad Hw Hsg Hds Hst Hn. assert (Hr : 2 <= r <= 36) by (unfold prefix_for in Hp; lia).
  unfold f_parse, parse_radix. destruct (Z.eqb_spec radix 10); [unfold prefix_for in Hp; lia|]. rewrite rx_start_ws by exact Hw.
  rewrite (rx_start_ok radix sgn sg) by (auto; intros _; cbn; unfold whitespace, sign_char; lia).
  cbn [app rx_zero rx_literal]. rewrite Z.eqb_refl, D_one.
  assert (L : fold_left (literal_step b) literals (radix, false) = (r, true)).
  { destruct Hrad as [-> | ->].
    - destruct (literals_ok r b ltac:(lia)) as [[L _]|[_ N]]; [exact L|contradiction].
    - unfold prefix_for in Hp. destruct Hp as [[-> [-> | ->]]|[[-> [-> | ->]]|[-> [-> | ->]]]]; reflexivity. }
  rewrite L. unfold rx_decimal. replace (r =? 0) with false by lia.
  assert (S1 : sg = 1 /\ neg sg = false \/ sg = -1 /\ neg sg = true) by (destruct Hsg; auto).
  pose proof (Z.div_mod 0xFFFFFFFF r ltac:(lia)) as DM. pose proof (Z.mod_pos_bound 0xFFFFFFFF r ltac:(lia)) as MB.
  pose proof (numeral_nonneg r ds n ltac:(lia) Hds) as Hn0.
  destruct (rx_digits_ok r (u32 (0xFFFFFFFF mod r + 1)) ds Hr rest 0 (neg sg) 1 n) as (c & A & (_ & _ & B & _) & _); auto.
  { repeat split; try lia. left. lia. }
  { apply numeral_valr, Hds. }
  rewrite A, (finish_N n (neg sg) c sg S1) by lia. reflexivity.
Qed.
(* Findings in other bases: 32 binary digits saturate, in base 13 the number
   wraps silently, and 0xFFFFFFFF is not saturated at all. *)
Theorem C43_binary_refuted : fst (f_parse (repeat 49 32) 2) = 2147483647.
Proof. reflexivity. Qed.
Theorem C43_base13_wrap_refuted : exists text, numeral 13 text 4294967299 /\ fst (f_parse text 13) = 3.
Proof.
  exists [53; 51; 53; 97; 55; 57; 56; 56; 99]. split; [|vm_compute; reflexivity].
  replace 4294967299 with (13 * 330382099 + 12) by reflexivity.
  apply (n_snoc 13 [53; 51; 53; 97; 55; 57; 56; 56] 330382099 99 12); [|change 99 with (97 + (12 - 10)); constructor; lia|lia].
  apply (n_snoc 13 [53; 51; 53; 97; 55; 57; 56] 25414007 56 8); [|change 56 with (48 + 8); constructor; lia|lia].
  apply (n_snoc 13 [53; 51; 53; 97; 55; 57] 1954923 56 8); [|change 56 with (48 + 8); constructor; lia|lia].
  apply (n_snoc 13 [53; 51; 53; 97; 55] 150378 57 9); [|change 57 with (48 + 9); constructor; lia|lia].
  apply (n_snoc 13 [53; 51; 53; 97] 11567 55 7); [|change 55 with (48 + 7); constructor; lia|lia].
  apply (n_snoc 13 [53; 51; 53] 889 97 10); [|change 97 with (97 + (10 - 10)); constructor; lia|lia].
  apply (n_snoc 13 [53; 51] 68 53 5); [|change 53 with (48 + 5); constructor; lia|lia].
  apply (n_snoc 13 [53] 5 51 3); [|change 51 with (48 + 3); constructor; lia|lia].
  apply (n_snoc 13 [] 0 53 5); [constructor|change 53 with (48 + 5); constructor; lia|lia].
Qed.
Theorem C43_unsaturated_refuted : fst (f_parse [48; 120; 102; 102; 102; 102; 102; 102; 102; 102] 16) = 0xFFFFFFFF.  (* "0xffffffff" *)
Proof. reflexivity. Qed.
Example C43_radix_example : f_parse [43; 48; 48; 55; 102; 70; 103] 16 = (0x7FF, 3).  (* "+007fFg" *)
Proof. reflexivity. Qed.

Print Assumptions C43_decimal_partial. Print Assumptions C43_saturation. Print Assumptions C43_reading_exists.
Print Assumptions C43_radix_partial. Print Assumptions C43_prefix_partial.
Print Assumptions C43_near_limit_refuted. Print Assumptions C43_lowest_refuted. Print Assumptions C43_digit_count_refuted.
Print Assumptions C43_binary_refuted. Print Assumptions C43_base13_wrap_refuted. Print Assumptions C43_unsaturated_refuted.

Print Assumptions C43_saturation.
Print Assumptions C43_reading_exists.
Print Assumptions C43_prefix_partial.
Print Assumptions C43_lowest_refuted.
Print Assumptions C43_digit_count_refuted.
Print Assumptions C43_base13_wrap_refuted.
Print Assumptions C43_unsaturated_refuted.
