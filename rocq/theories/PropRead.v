(* Property C26: reads through the shared trigger table. *)
From Coq Require Import ZArith Lia List Bool ZifyBool ZifyNat Permutation.
From Verif Require Import Word Machine MachineProofs VarModel VarSpec VarProofs OpsSpec NonSeqProofs OpsProofs VbufModel VbufWorld SeqRefute ExWorld ExTools ReadModel.
Import ListNotations.
Open Scope Z_scope.

(* ---------- the table ---------- *)
Inductive req := RInsert (mask sh : Z) (dec : option bool) | RGet (mask sh : Z) | RInsertOrGet (mask sh : Z) (dec : option bool).
Definition req_mask (q : req) : Z := match q with RInsert k _ _ | RGet k _ | RInsertOrGet k _ _ => k end.
Definition req_shift (q : req) : Z := match q with RInsert _ s _ | RGet _ s | RInsertOrGet _ s _ => s end.
(* a request that raises an exception leaves the table as it was *)
Definition do_req (q : req) (t : rtab) : option nat * rtab :=
  match match q with RInsert k s d => rt_insert k s d t | RGet k s => option_map (fun l => (l, t)) (rt_get k s t)
        | RInsertOrGet k s d => rt_insert_or_get k s d t end with
  | Some (l, t') => (Some l, t') | None => (None, t) end.
Fixpoint do_reqs (qs : list req) (t : rtab) : list (option nat) * rtab :=
  match qs with [] => ([], t) | q :: r => let (a, t) := do_req q t in let (l, t) := do_reqs r t in (a :: l, t) end.

Lemma key_eqb_eq a b : key_eqb a b = true <-> a = b.
Proof. destruct a as [[s e] x], b as [[s' e'] x']. unfold key_eqb. rewrite !andb_true_iff, !Z.eqb_eq. split; [intros [[-> ->] ->]; reflexivity|intros [= -> -> ->]; auto]. Qed.
Lemma rfind_app k l r : rfind k (l ++ r) = match rfind k l with Some n => Some n | None => rfind k r end.
Proof. induction l as [|[k' n] l IH]; [reflexivity|]. cbn. destruct (key_eqb k k'); [reflexivity|exact IH]. Qed.
Definition entry_ok (t : rtab) (k : Z * Z * Z) (n : nat) : Prop :=
  let '(sh, e, x) := k in 0 <= e /\ 0 <= x /\
  exists nx, nth_error (rt_trigs t) n = Some (x, sh, nx) /\ (x = e -> nx = REnd) /\
    (e < x -> exists l, rfind (sh, e, x - 1) (rt_map t) = Some l /\ nx = RTrig l) /\
    (x < e -> exists l, rfind (sh, e, x + 1) (rt_map t) = Some l /\ nx = RTrig l).
Definition tab_ok (t : rtab) : Prop := forall k n, rfind k (rt_map t) = Some n -> entry_ok t k n.
Definition ext (t t' : rtab) : Prop :=
  (forall k n, rfind k (rt_map t) = Some n -> rfind k (rt_map t') = Some n) /\
  (forall n x, nth_error (rt_trigs t) n = Some x -> nth_error (rt_trigs t') n = Some x).
Lemma ext_refl t : ext t t.
Proof. split; auto. Qed.
Lemma ext_trans a b c : ext a b -> ext b c -> ext a c.
Proof. intros [A B] [C D]. split; auto. Qed.
Lemma entry_ext t t' k n : ext t t' -> entry_ok t k n -> entry_ok t' k n.
Proof.
  intros [A B]. destruct k as [[sh e] x]. intros (E & X & nx & N & H1 & H2 & H3). split; [exact E|]. split; [exact X|]. exists nx.
  split; [apply B, N|]. split; [exact H1|]. split; intros L; [destruct (H2 L) as (l & F & ->)|destruct (H3 L) as (l & F & ->)]; exists l; auto.
Qed.
Lemma rins_ok sh e step t x : tab_ok t -> 0 <= e -> 0 <= x ->
  x = e \/ (step = 1 /\ e < x /\ rfind (sh, e, x - 1) (rt_map t) <> None) \/ (step = -1 /\ x < e /\ rfind (sh, e, x + 1) (rt_map t) <> None) ->
  exists t', rins sh e step t x = Some t' /\ tab_ok t' /\ ext t t' /\ rfind (sh, e, x) (rt_map t') <> None.
Proof.
  intros Ht He Hx Hc. unfold rins. destruct (rfind (sh, e, x) (rt_map t)) as [n|] eqn:F.
  - exists t. split; [reflexivity|]. split; [exact Ht|]. split; [apply ext_refl|congruence].
  - assert (NX : exists nx, (if x =? e then Some REnd else option_map RTrig (rfind (sh, e, x - step) (rt_map t))) = Some nx /\
      (x = e -> nx = REnd) /\ (e < x -> exists l, rfind (sh, e, x - 1) (rt_map t) = Some l /\ nx = RTrig l) /\
      (x < e -> exists l, rfind (sh, e, x + 1) (rt_map t) = Some l /\ nx = RTrig l)).
    { destruct Hc as [->|[(-> & L & N)|(-> & L & N)]].
      - rewrite Z.eqb_refl. exists REnd. repeat split; auto; lia.
      - destruct (Z.eqb_spec x e); [lia|]. destruct (rfind (sh, e, x - 1) (rt_map t)) as [l|]; [|congruence]. exists (RTrig l).
        repeat split; [lia|intros _; exists l; auto|lia].
      - destruct (Z.eqb_spec x e); [lia|]. replace (x - -1) with (x + 1) by lia. destruct (rfind (sh, e, x + 1) (rt_map t)) as [l|]; [|congruence]. exists (RTrig l).
        repeat split; [lia|lia|intros _; exists l; auto]. }
    destruct NX as (nx & -> & N1 & N2 & N3). eexists. split; [reflexivity|].
    set (t' := mkrtab _ _).
    assert (X : ext t t').
    { split; cbn [rt_map rt_trigs t'].
      - intros k n Hk. rewrite rfind_app, Hk. reflexivity.
      - intros n y Hy. rewrite nth_error_app1; [exact Hy|]. apply nth_error_Some. congruence. }
    split; [|split; [exact X|]].
    + intros k n Hk. cbn [rt_map t'] in Hk. rewrite rfind_app in Hk. destruct (rfind k (rt_map t)) as [n0|] eqn:Fk.
      * injection Hk as <-. eapply entry_ext; [exact X|apply Ht, Fk].
      * cbn [rfind] in Hk. destruct (key_eqb k (sh, e, x)) eqn:K; [|discriminate]. injection Hk as <-.
        apply key_eqb_eq in K. subst k. split; [exact He|]. split; [exact Hx|]. exists nx. cbn [rt_trigs t'].
        split; [rewrite nth_error_app2, Nat.sub_diag by lia; reflexivity|]. split; [exact N1|].
        split; intros L; [destruct (N2 L) as (l & G & ->)|destruct (N3 L) as (l & G & ->)]; exists l; (split; [apply X, G|reflexivity]).
    + cbn [rt_map t']. rewrite rfind_app, F. cbn [rfind]. rewrite (proj2 (key_eqb_eq _ _) eq_refl). discriminate.
Qed.
Lemma rins_all_app sh e step xs : forall t ys, rins_all sh e step t (xs ++ ys) =
  match rins_all sh e step t xs with Some t' => rins_all sh e step t' ys | None => None end.
Proof. induction xs as [|x xs IH]; intros t ys; [reflexivity|]. cbn. destruct (rins sh e step t x); [apply IH|reflexivity]. Qed.
Lemma rins_all_ok sh e step t n : tab_ok t -> 0 <= e -> step = 1 \/ (step = -1 /\ Z.of_nat n <= e + 1) ->
  exists t', rins_all sh e step t (rrange e step n) = Some t' /\ tab_ok t' /\ ext t t' /\
    forall i, 0 <= i < Z.of_nat n -> rfind (sh, e, e + step * i) (rt_map t') <> None.
Proof.
  intros Ht He Hs. induction n as [|n IH].
  - exists t. split; [reflexivity|]. split; [exact Ht|]. split; [apply ext_refl|]. lia.
  - destruct IH as (t1 & A & B & C & D0); [lia|]. unfold rrange. rewrite List.seq_S, map_app, rins_all_app. fold (rrange e step n). rewrite A. cbn [map rins_all].
    destruct (rins_ok sh e step t1 (e + step * Z.of_nat (0 + n)) B He) as (t2 & A2 & B2 & C2 & D2); [lia| |].
    + destruct (Nat.eq_dec n 0) as [->|N]; [left; lia|right]. pose proof (D0 (Z.of_nat n - 1) ltac:(lia)) as D1.
      destruct Hs as [->|[-> Hs]]; [left|right]; (split; [reflexivity|]; split; [lia|]).
      * replace (e + 1 * Z.of_nat (0 + n) - 1) with (e + 1 * (Z.of_nat n - 1)) by lia. exact D1.
      * replace (e + -1 * Z.of_nat (0 + n) + 1) with (e + -1 * (Z.of_nat n - 1)) by lia. exact D1.
    + rewrite A2. exists t2. split; [reflexivity|]. split; [exact B2|]. split; [eapply ext_trans; eauto|].
      intros i Hi. destruct (Z.eq_dec i (Z.of_nat n)) as [->|N]; [exact D2|]. pose proof (D0 i ltac:(lia)) as D1.
      destruct (rfind (sh, e, e + step * i) (rt_map t1)) as [l|] eqn:F; [|congruence]. rewrite (proj1 C2 _ _ F). discriminate.
Qed.

(* masks of consecutive bits *)
Definition block (k lo hi : Z) : Prop := 0 <= lo <= hi /\ k = 2^(hi + 1) - 2^lo.
Lemma lsb_spec n : 0 < n -> exists q, n = (2 * q + 1) * 2^lsb_index n /\ 0 <= lsb_index n /\ 0 <= q.
Proof.
  intros Hn. assert (E : exists q i, n = (2 * q + 1) * 2^i /\ 0 <= i /\ 0 <= q).
  { destruct n as [|p|p]; try lia. clear Hn. induction p as [p IH|p IH|].
    - exists (Z.pos p), 0. lia.
    - destruct IH as (q & i & E & Hi & Hq). exists q, (i + 1). rewrite Z.pow_add_r by lia. split; [|lia]. change (Z.pos p~0) with (2 * Z.pos p). lia.
    - exists 0, 0. lia. }
  destruct E as (q & i & E & Hi & Hq). exists q. assert (lsb_index n = i) as ->; [|auto].
  unfold lsb_index. assert (Z.land n (- n) = 2^i) as ->; [|apply Z.log2_pow2; exact Hi].
  assert (P : 0 < 2^i) by (apply Z.pow_pos_nonneg; lia).
  apply Z.bits_inj'. intros j Hj. rewrite Z.land_spec, Z.pow2_bits_eqb by lia.
  assert (NEG : - n = (2 * (- q - 1) + 1) * 2^i) by lia. rewrite NEG, E.
  destruct (Z.lt_trichotomy j i) as [L|[->|G]].
  - rewrite !Z.mul_pow2_bits_low by lia. destruct (Z.eqb_spec i j); [lia|reflexivity].
  - rewrite !Z.mul_pow2_bits by lia. rewrite Z.sub_diag, !Z.testbit_odd_0, Z.eqb_refl. reflexivity.
  - rewrite !Z.mul_pow2_bits by lia. destruct (Z.eqb_spec i j); [lia|].
    replace (j - i) with (Z.succ (j - i - 1)) by lia. rewrite !Z.testbit_odd_succ by lia.
    replace (- q - 1) with (Z.lnot q) by (unfold Z.lnot; lia). rewrite Z.lnot_spec by lia. apply andb_negb_r.
Qed.
Lemma ones_of n : 0 < n -> Z.land n (n + 1) = 0 -> n = 2^(Z.log2 n + 1) - 1.
Proof.
  intros Hn H. pose proof (Z.log2_spec n Hn) as [L U]. unfold Z.succ in U. destruct (Z.eq_dec n (2^(Z.log2 n + 1) - 1)) as [E|N]; [exact E|exfalso].
  pose proof (Z.log2_nonneg n). assert (B1 : Z.testbit n (Z.log2 n) = true) by (apply Z.bit_log2; exact Hn).
  assert (B2 : Z.log2 (n + 1) = Z.log2 n) by (apply Z.log2_unique; [lia|unfold Z.succ; lia]).
  assert (B3 : Z.testbit (n + 1) (Z.log2 n) = true) by (rewrite <- B2; apply Z.bit_log2; lia).
  assert (Z.testbit (Z.land n (n + 1)) (Z.log2 n) = true) by (rewrite Z.land_spec, B1, B3; reflexivity). rewrite H, Z.bits_0 in *. discriminate.
Qed.
Lemma consecutive_block n : 0 < n -> is_consecutive n = true -> block n (lsb_index n) (msb_index n).
Proof.
  intros Hn H. destruct (lsb_spec n Hn) as (q & E & L & Q). unfold is_consecutive in H. apply Z.eqb_eq in H. unfold block, msb_index.
  set (i := lsb_index n) in *. assert (P : 0 < 2^i) by (apply Z.pow_pos_nonneg; lia).
  assert (S1 : Z.shiftr n i = 2 * q + 1) by (rewrite Z.shiftr_div_pow2, E at 1 by lia; apply Z.div_mul; lia). rewrite S1 in H.
  apply ones_of in H; [|lia]. assert (LG : Z.log2 n = Z.log2 (2 * q + 1) + i) by (rewrite E at 1; rewrite Z.log2_mul_pow2 by lia; lia).
  pose proof (Z.log2_nonneg (2 * q + 1)). split; [lia|]. rewrite LG. rewrite E at 1. rewrite H at 1.
  replace (Z.log2 (2 * q + 1) + i + 1) with (Z.log2 (2 * q + 1) + 1 + i) by lia. rewrite (Z.pow_add_r 2 (Z.log2 (2 * q + 1) + 1) i) by lia. lia.
Qed.

(* A request that succeeds gives a trigger of the table that reads its bits. *)
Definition answers (t : rtab) (k sh : Z) (l : nat) : Prop :=
  exists lo hi, block k lo hi /\ (rfind (sh, lo, hi) (rt_map t) = Some l \/ rfind (sh, hi, lo) (rt_map t) = Some l).
Lemma answers_ext t t' k sh l : ext t t' -> answers t k sh l -> answers t' k sh l.
Proof. intros [A _] (lo & hi & B & [F|F]); exists lo, hi; (split; [exact B|]); [left|right]; auto. Qed.
Lemma rt_insert_ok k sh d t : tab_ok t -> match rt_insert k sh d t with
  | Some (l, t') => tab_ok t' /\ ext t t' /\ answers t' k sh l | None => k <= 0 \/ is_consecutive k = false end.
Proof.
  intros Ht. unfold rt_insert. destruct (Z.leb_spec k 0) as [|K]; [left; assumption|]. cbn [orb].
  destruct (is_consecutive k) eqn:C; [|right; reflexivity]. cbn [negb]. pose proof (consecutive_block k K C) as B.
  set (dec := match d with Some b => b | None => _ end). set (lo := lsb_index k) in *. set (hi := msb_index k) in *. destruct B as [B1 B2].
  assert (ANS : forall t l, (rfind (sh, lo, hi) (rt_map t) = Some l \/ rfind (sh, hi, lo) (rt_map t) = Some l) -> answers t k sh l)
    by (intros t0 l F; exists lo, hi; split; [split; assumption|exact F]).
  destruct dec.
  - destruct (rfind (sh, lo, hi) (rt_map t)) as [l|] eqn:F; [split; [exact Ht|]; split; [apply ext_refl|]; apply ANS; auto|].
    destruct (rins_all_ok sh lo 1 t (Z.to_nat (hi - lo + 1)) Ht) as (t' & A & T & X & R); [lia|left; reflexivity|]. rewrite A.
    specialize (R (hi - lo) ltac:(lia)). replace (lo + 1 * (hi - lo)) with hi in R by lia.
    destruct (rfind (sh, lo, hi) (rt_map t')) as [l|] eqn:F'; [|congruence]. split; [exact T|]. split; [exact X|]. apply ANS. auto.
  - destruct (rfind (sh, hi, lo) (rt_map t)) as [l|] eqn:F; [split; [exact Ht|]; split; [apply ext_refl|]; apply ANS; auto|].
    destruct (rins_all_ok sh hi (-1) t (Z.to_nat (hi - lo + 1)) Ht) as (t' & A & T & X & R); [lia|right; lia|]. rewrite A.
    specialize (R (hi - lo) ltac:(lia)). replace (hi + -1 * (hi - lo)) with lo in R by lia.
    destruct (rfind (sh, hi, lo) (rt_map t')) as [l|] eqn:F'; [|congruence]. split; [exact T|]. split; [exact X|]. apply ANS. auto.
Qed.
Lemma rt_get_ok k sh t : match rt_get k sh t with Some l => answers t k sh l | None => True end.
Proof.
  unfold rt_get. destruct (Z.leb_spec k 0) as [|K]; [exact I|]. cbn [orb]. destruct (is_consecutive k) eqn:C; [|exact I]. cbn [negb].
  pose proof (consecutive_block k K C) as B. destruct (has_table sh (lsb_index k) t).
  - destruct (rfind _ _) as [l|] eqn:F; [|exact I]. exists (lsb_index k), (msb_index k). auto.
  - destruct (rfind _ _) as [l|] eqn:F; [|exact I]. exists (lsb_index k), (msb_index k). auto.
Qed.
Lemma do_req_ok q t : tab_ok t -> let (a, t') := do_req q t in tab_ok t' /\ ext t t' /\ forall l, a = Some l -> answers t' (req_mask q) (req_shift q) l.
Proof.
  intros Ht. assert (NO : tab_ok t /\ ext t t /\ forall l, @None nat = Some l -> answers t (req_mask q) (req_shift q) l) by (split; [exact Ht|]; split; [apply ext_refl|discriminate]).
  unfold do_req. destruct q as [k s d|k s|k s d]; cbn [req_mask req_shift] in *.
  - pose proof (rt_insert_ok k s d t Ht) as H. destruct (rt_insert k s d t) as [[l t']|]; [|exact NO]. destruct H as (A & B & C).
    split; [exact A|]. split; [exact B|]. intros l' [= <-]. exact C.
  - pose proof (rt_get_ok k s t) as H. destruct (rt_get k s t) as [l|]; cbn [option_map]; [|exact NO]. split; [exact Ht|]. split; [apply ext_refl|].
    intros l' [= <-]. exact H.
  - unfold rt_insert_or_get. pose proof (rt_get_ok k s t) as G. destruct (rt_get k s t) as [l|].
    + split; [exact Ht|]. split; [apply ext_refl|]. intros l' [= <-]. exact G.
    + pose proof (rt_insert_ok k s d t Ht) as H. destruct (rt_insert k s d t) as [[l t']|]; [|exact NO]. destruct H as (A & B & C).
      split; [exact A|]. split; [exact B|]. intros l' [= <-]. exact C.
Qed.
Lemma do_reqs_ok qs : forall t, tab_ok t -> let (a, t') := do_reqs qs t in tab_ok t' /\ ext t t' /\
  forall i q l, nth_error qs i = Some q -> nth_error a i = Some (Some l) -> answers t' (req_mask q) (req_shift q) l.
Proof.
  induction qs as [|q qs IH]; intros t Ht; cbn [do_reqs].
  - split; [exact Ht|]. split; [apply ext_refl|]. intros [|i] q l H; discriminate.
  - pose proof (do_req_ok q t Ht) as H. destruct (do_req q t) as [a t1]. destruct H as (A & B & C).
    pose proof (IH t1 A) as H. destruct (do_reqs qs t1) as [al t2]. destruct H as (A2 & B2 & C2).
    split; [exact A2|]. split; [eapply ext_trans; eauto|]. intros [|i] q' l Hq Ha; cbn in Hq, Ha.
    + injection Hq as <-. injection Ha as ->. eapply answers_ext; [exact B2|apply C; reflexivity].
    + eapply C2; eauto.
Qed.

(* ---------- sums of selected bits ---------- *)
Definition bitv (v i : Z) : Z := if Z.testbit v i then 1 else 0.
Fixpoint bsum (v sh a : Z) (n : nat) : Z := match n with O => 0 | S n => bsum v sh a n + bitv v (a + Z.of_nat n) * signed_shift 1 (a + Z.of_nat n + sh) end.
Lemma bsum_front v sh n : forall a, bsum v sh a (S n) = bitv v a * signed_shift 1 (a + sh) + bsum v sh (a + 1) n.
Proof.
  induction n as [|n IH]; intros a; [cbn; rewrite Z.add_0_r; lia|]. cbn [bsum] in IH |- *. rewrite IH.
  replace (a + 1 + Z.of_nat n) with (a + Z.of_nat (S n)) by lia. lia.
Qed.
Lemma ss_step v sh n : 0 <= n -> 0 <= v ->
  signed_shift (v mod 2^(n + 1)) sh = signed_shift (v mod 2^n) sh + bitv v n * signed_shift 1 (n + sh).
Proof.
  intros Hn Hv. assert (P : 0 < 2^n) by (apply Z.pow_pos_nonneg; lia).
  assert (M : v mod 2^(n + 1) = v mod 2^n + bitv v n * 2^n).
  { assert (B : bitv v n = (v / 2^n) mod 2) by (rewrite <- Z.testbit_spec' by exact Hn; unfold bitv; destruct (Z.testbit v n); reflexivity).
    rewrite B, Z.pow_add_r by lia. change (2^1) with 2. rewrite Z.rem_mul_r by lia. lia. }
  pose proof (Z.mod_pos_bound v (2^n) P) as R. assert (B01 : bitv v n = 0 \/ bitv v n = 1) by (unfold bitv; destruct (Z.testbit v n); auto).
  rewrite M. unfold signed_shift. destruct (Z.leb_spec 0 sh) as [S0|S0].
  - destruct (Z.leb_spec 0 (n + sh)); [|lia]. rewrite !Z.shiftl_mul_pow2 by lia. rewrite Z.pow_add_r by lia. lia.
  - rewrite !Z.shiftr_div_pow2 by lia. assert (PS : 0 < 2^(- sh)) by (apply Z.pow_pos_nonneg; lia). destruct (Z.leb_spec 0 (n + sh)) as [N0|N0].
    + rewrite Z.shiftl_mul_pow2 by lia. assert (E : 2^n = 2^(n + sh) * 2^(- sh)) by (rewrite <- Z.pow_add_r by lia; f_equal; lia).
      rewrite E at 2. rewrite Z.mul_assoc, Z.div_add by lia. lia.
    + rewrite Z.shiftr_div_pow2 by lia. rewrite (Z.div_small 1) by (split; [lia|apply Z.pow_gt_1; lia]).
      assert (Z1 : 2^n * 2 <= 2^(- sh)) by (change 2 with (2^1) at 2; rewrite <- Z.pow_add_r by lia; apply Z.pow_le_mono_r; lia).
      rewrite !Z.div_small by nia. lia.
Qed.
Lemma bsum_ss v sh a n : 0 <= a -> 0 <= v -> bsum v sh a n = signed_shift (v mod 2^(a + Z.of_nat n)) sh - signed_shift (v mod 2^a) sh.
Proof.
  intros Ha Hv. induction n as [|n IH]; [cbn [bsum]; rewrite Z.add_0_r; lia|]. cbn [bsum]. rewrite IH.
  replace (a + Z.of_nat (S n)) with (a + Z.of_nat n + 1) by lia. rewrite (ss_step v sh (a + Z.of_nat n)) by lia. lia.
Qed.
Lemma block_bits k lo hi i : block k lo hi -> 0 <= i -> Z.testbit k i = (lo <=? i) && (i <=? hi).
Proof.
  intros [[L H] ->] Hi. replace (2^(hi + 1) - 2^lo) with (Z.shiftl (Z.ones (hi + 1 - lo)) lo).
  2:{ rewrite Z.shiftl_mul_pow2, Z.ones_equiv by lia. replace (2^(hi + 1)) with (2^(hi + 1 - lo) * 2^lo) by (rewrite <- Z.pow_add_r by lia; f_equal; lia). lia. }
  destruct (Z.leb_spec lo i); cbn [andb].
  - rewrite Z.shiftl_spec by lia. destruct (Z.leb_spec i hi); [rewrite Z.ones_spec_low by lia; reflexivity|rewrite Z.ones_spec_high by lia; reflexivity].
  - rewrite Z.shiftl_spec_low by lia. reflexivity.
Qed.
Lemma bsum_ext v v' sh a n : (forall i, a <= i < a + Z.of_nat n -> Z.testbit v i = Z.testbit v' i) -> bsum v sh a n = bsum v' sh a n.
Proof.
  intros H. induction n as [|n IH]; [reflexivity|]. cbn [bsum]. rewrite IH by (intros i Hi; apply H; lia). unfold bitv. rewrite H by lia. reflexivity.
Qed.
Lemma bsum_block v sh k lo hi : 0 <= v -> block k lo hi -> bsum v sh lo (Z.to_nat (hi - lo + 1)) = signed_shift (Z.land v k) sh.
Proof.
  intros Hv Hb. pose proof Hb as [[L H] _]. rewrite (bsum_ext v (Z.land v k)).
  2:{ intros i Hi. rewrite Z.land_spec, (block_bits k lo hi) by (auto; lia). replace ((lo <=? i) && (i <=? hi)) with true by lia. rewrite andb_true_r. reflexivity. }
  assert (N : 0 <= Z.land v k) by (apply Z.land_nonneg; left; exact Hv).
  rewrite bsum_ss by (auto; lia). rewrite Z2Nat.id by lia. replace (lo + (hi - lo + 1)) with (hi + 1) by lia.
  assert (Z.land v k mod 2^lo = 0) as ->.
  { rewrite <- Z.land_ones by lia. apply Z.bits_inj'. intros i Hi. rewrite !Z.land_spec, (block_bits k lo hi), Z.bits_0 by auto.
    destruct (Z.leb_spec lo i); cbn [andb]; [rewrite Z.ones_spec_high by lia; apply andb_false_r|rewrite andb_false_r; reflexivity]. }
  assert (Z.land v k mod 2^(hi + 1) = Z.land v k) as ->.
  { rewrite <- Z.land_ones by lia. apply Z.bits_inj'. intros i Hi. rewrite !Z.land_spec, (block_bits k lo hi) by auto.
    destruct (Z.leb_spec i hi); [rewrite (Z.ones_spec_low (hi + 1)) by lia; apply andb_true_r|rewrite andb_false_r, andb_false_r; reflexivity]. }
  assert (signed_shift 0 sh = 0) as -> by (unfold signed_shift; destruct (0 <=? sh); [apply Z.shiftl_0_l|apply Z.shiftr_0_l]). lia.
Qed.

(* ---------- running ---------- *)
Lemma conds_cp m cm n k : conds_are m [CondDX (Imm 13) cm (Imm n) (Imm k)] (do_cmp cm (Z.land (get m (get m CPcell)) (u32 k)) (u32 n)).
Proof.
  destruct (w3_facts cm) as (W1 & W2 & W3).
  assert (He : eval_cond m (CondDX (Imm 13) cm (Imm n) (Imm k)) = do_cmp cm (Z.land (get m (get m CPcell)) (u32 k)) (u32 n)).
  { unfold eval_cond, CondDX. cbn [c_w3 c_w4 c_player c_mask c_amount rd]. rewrite W2, W3. change (cond_off (u32 0x43530000)) with false. cbn [Z.eqb Pos.eqb].
    rewrite compare_enc. unfold target, player_base. rewrite W1. change (u32 13) with 13. cbn [Z.eqb Pos.eqb]. rewrite Z.mul_0_r, Z.add_0_r. reflexivity. }
  split; cbn [conds_ok eval_conds]; unfold CondDX; cbn [c_w3 rd]; rewrite ?W2.
  - right. split; [|intros _; exact I]. unfold cond_ok. cbn [c_w3 c_w4 c_player rd]. right. right. right. rewrite W2, W3. split; [reflexivity|].
    split; [destruct cm; auto|reflexivity].
  - change (15 =? 0) with false. cbv iota. unfold CondDX in He. rewrite He. apply andb_true_r.
Qed.
Section W.
Variable w : world.
Variable E : Z.
Variable A : nat -> Z.
Variable t : rtab.
Hypothesis Ht : tab_ok t.
(* the table is in the program *)
Definition table_placed : Prop :=
  (forall l x, nth_error (rt_trigs t) l = Some x -> W_P w (pa (A l)) = Some (rtrig E A x)) /\
  W_P w (pa E) = Some (read_end E).
Hypothesis Hpl : table_placed.
Hypothesis HV : writable w (cr_val E).
Hypothesis HCP : idx CPcell <> idx (cr_val E).
Definition accum (m m' : mem) (d : Z) : Prop :=
  get m' (cr_val E) = u32 (get m (cr_val E) + d) /\ forall b, idx (cr_val E) <> idx b -> get m' b = get m b.
Lemma one_trigger x sh nx l m : 0 <= x < 32 -> nth_error (rt_trigs t) l = Some (x, sh, nx) ->
  exists m', runs w (pa (A l), m) (rnext_addr E A nx, m') /\ accum m m' (bitv (get m (get m CPcell)) x * signed_shift 1 (x + sh)).
Proof.
  intros Hx Hl. destruct Hpl as [P _]. specialize (P l _ Hl). cbn [rtrig] in P.
  set (v := get m (get m CPcell)).
  assert (C : conds_are m [CondDX (Imm 13) AtLeast (Imm 1) (Imm (Z.shiftl 1 x))] (Z.testbit v x)).
  { pose proof (conds_cp m AtLeast 1 (Z.shiftl 1 x)) as C. fold v in C. rewrite Z.shiftl_1_l in *.
    assert (R : 0 < 2^x < 2^32) by (split; [apply Z.pow_pos_nonneg; lia|apply Z.pow_lt_mono_r; lia]).
    rewrite (u32_small (2^x)), land_pow2 in C by lia. cbn [do_cmp] in C. change (u32 1) with 1 in C.
    replace (1 <=? (if Z.testbit v x then 2^x else 0)) with (Z.testbit v x) in C by (destruct (Z.testbit v x); lia). exact C. }
  assert (N : forall m2, rd m2 (Imm (rnext_addr E A nx)) = rnext_addr E A nx) by (intros; cbn [rd]; destruct nx; apply u32_idem).
  unfold bitv. destruct (Z.testbit v x) eqn:B.
  - exists (upd m (cr_val E) (do_mod Add (get m (cr_val E)) (u32 (signed_shift 1 (x + sh))))). split.
    + eapply run_true; [exact P|reflexivity|exact C| |apply N]. apply do_cons_M; [apply HV|apply HV|apply do_nil].
    + split; [rewrite get_upd_eq; cbn [do_mod]; rewrite u32_idem, u32_add_r, Z.mul_1_l; reflexivity|]. intros b Hb. apply get_upd_ne, Hb.
  - exists m. split; [eapply run_false; [exact P|reflexivity|exact C|apply N]|]. split; [|auto].
    rewrite Z.mul_0_l, Z.add_0_r. symmetry. apply u32_small, get_range.
Qed.
Lemma accum_trans m1 m2 m3 a b : accum m1 m2 a -> accum m2 m3 b -> accum m1 m3 (a + b).
Proof.
  intros [A1 B1] [A2 B2]. split; [rewrite A2, A1, u32_add_l; f_equal; lia|]. intros c Hc. rewrite B2, B1 by exact Hc. reflexivity.
Qed.
Definition src_ok (m : mem) : Prop := idx (get m CPcell) <> idx (cr_val E).
Lemma src_same m m' d : src_ok m -> accum m m' d -> src_ok m' /\ get m' (get m' CPcell) = get m (get m CPcell).
Proof.
  intros S0 [_ B]. unfold src_ok. rewrite (B CPcell) by congruence. split; [exact S0|]. apply B. congruence.
Qed.
Lemma chain_down sh e : forall n l m, 0 <= e -> e + Z.of_nat n < 32 -> rfind (sh, e, e + Z.of_nat n) (rt_map t) = Some l -> src_ok m ->
  exists m', runs w (pa (A l), m) (pa E, m') /\ accum m m' (bsum (get m (get m CPcell)) sh e (S n)).
Proof.
  induction n as [|n IH]; intros l m He Hn Hl Hs; destruct (Ht _ _ Hl) as (_ & _ & nx & N & H1 & H2 & _).
  - rewrite H1 in N by lia. assert (ONE := fun H => one_trigger _ _ _ _ m H N); destruct ONE as (m' & R & C); [lia|]. exists m'. split; [exact R|]. cbn [bsum].
    rewrite Z.add_0_l. exact C.
  - destruct H2 as (l' & F & ->); [lia|]. assert (ONE := fun H => one_trigger _ _ _ _ m H N); destruct ONE as (m1 & R & C); [lia|]. cbn [rnext_addr] in R.
    replace (e + Z.of_nat (S n) - 1) with (e + Z.of_nat n) in F by lia. destruct (src_same _ _ _ Hs C) as [Hs1 Ev].
    destruct (IH l' m1 He ltac:(lia) F Hs1) as (m' & R' & C'). exists m'. split; [eapply steps_trans; eauto|].
    rewrite Ev in C'. replace (bsum (get m (get m CPcell)) sh e (S (S n))) with (bitv (get m (get m CPcell)) (e + Z.of_nat (S n)) * signed_shift 1 (e + Z.of_nat (S n) + sh) + bsum (get m (get m CPcell)) sh e (S n)) by (cbn [bsum]; lia).
    eapply accum_trans; eauto.
Qed.
Lemma chain_up sh x : forall n l m, 0 <= x -> x + Z.of_nat n < 32 -> rfind (sh, x + Z.of_nat n, x) (rt_map t) = Some l -> src_ok m ->
  exists m', runs w (pa (A l), m) (pa E, m') /\ accum m m' (bsum (get m (get m CPcell)) sh x (S n)).
Proof.
  intros n. revert x. induction n as [|n IH]; intros x l m He Hn Hl Hs; destruct (Ht _ _ Hl) as (_ & _ & nx & N & H1 & _ & H2).
  - rewrite H1 in N by lia. assert (ONE := fun H => one_trigger _ _ _ _ m H N); destruct ONE as (m' & R & C); [lia|]. exists m'. split; [exact R|]. cbn [bsum].
    rewrite Z.add_0_l, Z.add_0_r. exact C.
  - destruct H2 as (l' & F & ->); [lia|]. assert (ONE := fun H => one_trigger _ _ _ _ m H N); destruct ONE as (m1 & R & C); [lia|]. cbn [rnext_addr] in R.
    replace (x + Z.of_nat (S n)) with (x + 1 + Z.of_nat n) in F by lia. destruct (src_same _ _ _ Hs C) as [Hs1 Ev].
    destruct (IH (x + 1) l' m1 ltac:(lia) ltac:(lia) F Hs1) as (m' & R' & C'). exists m'. split; [eapply steps_trans; eauto|].
    rewrite Ev in C'. rewrite bsum_front. eapply accum_trans; eauto.
Qed.
(* From the trigger that answers a request: the selected bits, shifted, are
   stored (or added, according to copy_ret's modifier) at the destination. *)
Theorem C26_table_read : forall k sh l m md, k < 2^32 -> answers t k sh l -> src_ok m ->
  get m (cr_mod E) = w6 md ->
  idx (cr_dest E) <> idx (cr_val E) -> idx (cr_mod E) <> idx (cr_val E) -> idx (E + 1) <> idx (cr_val E) ->
  writable w (get m (cr_dest E)) -> idx (get m (cr_dest E)) <> idx (E + 1) -> idx (get m (cr_dest E)) <> idx (cr_val E) ->
  exists m', runs w (pa (A l), m) (get m (E + 1), m') /\
    get m' (get m (cr_dest E)) = do_mod md (get m (get m (cr_dest E)))
                                   (u32 (get m (cr_val E) + signed_shift (Z.land (get m (get m CPcell)) k) sh)) /\
    get m' (cr_val E) = 0 /\
    forall b, idx (get m (cr_dest E)) <> idx b -> idx (cr_val E) <> idx b -> get m' b = get m b.
Proof.
  intros k sh l m md Hk (lo & hi & Hb & Hl) Hs Hm D1 D2 D3 W1 W2 W3. pose proof Hb as [[L0 L1] Ek].
  assert (H32 : hi < 32).
  { destruct (Z.lt_ge_cases hi 32) as [|G]; [assumption|exfalso].
    assert (2^lo <= 2^hi) by (apply Z.pow_le_mono_r; lia). assert (2^32 <= 2^hi) by (apply Z.pow_le_mono_r; lia).
    assert (2^(hi + 1) = 2 * 2^hi) by (rewrite Z.pow_add_r by lia; lia). lia. }
  assert (C : exists m1, runs w (pa (A l), m) (pa E, m1) /\ accum m m1 (signed_shift (Z.land (get m (get m CPcell)) k) sh)).
  { rewrite <- (bsum_block (get m (get m CPcell)) sh k lo hi (proj1 (get_range _ _)) Hb).
    replace (Z.to_nat (hi - lo + 1)) with (S (Z.to_nat (hi - lo))) by lia. destruct Hl as [Hl|Hl].
    - apply chain_down; auto; [lia|]. replace (lo + Z.of_nat (Z.to_nat (hi - lo))) with hi by lia. exact Hl.
    - apply chain_up; auto; [lia|]. replace (lo + Z.of_nat (Z.to_nat (hi - lo))) with hi by lia. exact Hl. }
  destruct C as (m1 & R & C1 & C2). set (r := u32 (get m (cr_val E) + signed_shift (Z.land (get m (get m CPcell)) k) sh)) in *.
  set (d := get m (cr_dest E)) in *. assert (Ed : get m1 (cr_dest E) = d) by (apply C2; congruence).
  set (m2 := upd m1 d (do_mod md (get m1 d) r)). set (m3 := upd m2 (cr_val E) 0).
  exists m3. destruct Hpl as [_ PE].
  assert (Edv : get m1 d = get m d) by (apply C2; congruence).
  split; [|split; [|split]].
  - eapply steps_trans; [exact R|]. eapply run_true; [exact PE|reflexivity|apply conds_nil| |].
    + eapply do_cons_gen with (a := d) (md := md) (k := Z.ones 32) (v := r); cbn [a_w6 a_w7 a_dest a_mask a_val rd].
      * rewrite C2 by congruence. exact Hm.
      * reflexivity.
      * rewrite Ed. symmetry. apply u32_get.
      * apply W1.
      * apply W1.
      * reflexivity.
      * exact C1.
      * rewrite do_modx_full by (try apply get_range; apply u32_range). fold m2. apply do_cons_M; [apply HV|apply HV|]. cbn [do_mod]. change (u32 0) with 0. fold m3. apply do_nil.
    + cbn [rd]. unfold m3, m2. rewrite get_upd_ne by congruence. rewrite get_upd_ne by congruence. apply C2. congruence.
  - unfold m3, m2. rewrite get_upd_ne by congruence. rewrite get_upd_eq, Edv. apply u32_small, do_mod_range; [apply get_range|apply u32_range].
  - unfold m3. apply get_upd_eq.
  - intros b Hb1 Hb2. unfold m3, m2. rewrite get_upd_ne by exact Hb2. rewrite get_upd_ne by exact Hb1. apply C2. exact Hb2.
Qed.
End W.

(* ---------- the callers ---------- *)
Section Call.
Variable w : world.
Hypothesis Hw : world_ok w.
Variables (E : Z) (A : nat -> Z) (t : rtab).
Hypothesis Ht : tab_ok t.
Hypothesis Hpl : table_placed w E A t.
(* cells that a read uses: the end trigger's next pointer, copy_ret, the current player *)
Definition rcells : list Z := [E + 1; cr_dest E; cr_val E; CPcell].
Hypothesis Hcell : forall c, In c rcells -> patchable w c.
Hypothesis Hmod : sepcell w (cr_mod E).
Hypothesis Hdist : NoDup (map idx (cr_mod E :: rcells)).
Variables (same same_u : dst -> dst -> bool) (perm : list pair -> list pair).
Hypothesis Hsame : forall a b, same a b = true -> u32 (dst_epd a) = u32 (dst_epd b).
Hypothesis Hperm : forall x, Permutation (perm x) x.
(* readers are idle: copy_ret adds nothing of its own and sets its destination *)
Definition idle (m : mem) : Prop := get m (cr_val E) = 0 /\ get m (cr_mod E) = w6 SetTo.

Lemma rdist : idx (cr_dest E) <> idx (cr_val E) /\ idx (cr_mod E) <> idx (cr_val E) /\ idx (E + 1) <> idx (cr_val E) /\
  idx CPcell <> idx (cr_val E) /\ idx (E + 1) <> idx (cr_dest E) /\ idx (E + 1) <> idx CPcell /\ idx (cr_dest E) <> idx CPcell /\
  idx (cr_mod E) <> idx (E + 1) /\ idx (cr_mod E) <> idx (cr_dest E) /\ idx (cr_mod E) <> idx CPcell.
Proof.
  pose proof Hdist as H. cbn [rcells map] in H.
  apply NoDup_cons_iff in H as [N1 H]. apply NoDup_cons_iff in H as [N2 H]. apply NoDup_cons_iff in H as [N3 H]. apply NoDup_cons_iff in H as [N4 _].
  cbn [In] in N1, N2, N3, N4. repeat apply conj; intros Q; symmetry in Q; tauto || (symmetry in Q; tauto).
Qed.
Definition init_of (i : option Z) : Z := match i with Some c => c | None => 0 end.
Definition extra_of (i : option Z) : list rpair := match i with Some c => [(DExpr (cr_val E), SetTo, SConst c)] | None => [] end.

Theorem C26_read_from : forall i cpc nx ret epd T n l k sh m,
  let code := SeqCompute same same_u T n (nonseq_order perm (map with_mod (epd_ops E cpc nx ret epd (extra_of i)))) in
  placed w T n code -> lbl T (n + length code) = pa (A l) ->
  k < 2^32 -> answers t k sh l -> idle m ->
  In cpc (W_vars w) -> ordinary m cpc -> get m (vc cpc FMod) = w6 SetTo ->
  ord_src w m epd -> ~ In cpc (svar epd) ->
  valcell w ret -> (forall c, In c (cr_mod E :: rcells) -> idx c <> idx ret) -> idx ret <> idx (vc cpc FVal) ->
  ~ tmp (cpc :: svar epd) rcells (sval m epd) ->
  exists m', runs w (lbl T n, m) (u32 nx, m') /\
    get m' ret = u32 (init_of i + signed_shift (Z.land (get m (sval m epd)) k) sh) /\
    get m' CPcell = get m (vc cpc FVal) /\ idle m' /\
    forall b, ~ tmp (cpc :: svar epd) (ret :: rcells) b -> get m' b = get m b.
Proof.
  intros i cpc nx ret epd T n l k sh m code Hcode Hjump Hk Hans [I1 I2] Hcpc Ocpc Mcpc Hepd Hne Vret Dret Dfv Hsrc.
  destruct rdist as (X1 & X2 & X3 & X4 & X5 & X6 & X7 & X8 & X9 & X10).
  set (ops := epd_ops E cpc nx ret epd (extra_of i)) in *.
  assert (PC : forall c, In c rcells -> writable w c /\ sepcell w c) by (intros c Hc; exact (Hcell c Hc)).
  assert (P1 := PC (E + 1) ltac:(cbn; tauto)). assert (P2 := PC (cr_dest E) ltac:(cbn; tauto)).
  assert (P3 := PC (cr_val E) ltac:(cbn; tauto)). assert (P4 := PC CPcell ltac:(cbn; tauto)).
  assert (CF : forall f g, f <> g -> idx (vc cpc f) <> idx (vc cpc g)).
  { intros f g N Q. destruct (wo_sep w Hw cpc cpc f g Hcpc Hcpc Q). contradiction. }
  assert (SR : srcs_of (map with_mod ops) = svar epd) by (unfold ops, epd_ops; destruct i, epd; reflexivity).
  assert (SV : incl (svar epd) (W_vars w)) by (intros v Hv; destruct epd; cbn in Hv; [tauto|destruct Hv as [<-|[]]; apply Hepd]).
  assert (CV : forall v f g, In v (svar epd) -> idx (vc cpc f) <> idx (vc v g)).
  { intros v f g Hv Q. destruct (wo_sep w Hw cpc v f g Hcpc (SV v Hv) Q) as [<- _]. contradiction. }
  assert (PV : forall c v f, In c rcells -> In v (svar epd) -> idx c <> idx (vc v f)) by (intros c v f Hc Hv; apply (PC c Hc), SV, Hv).
  assert (NSc : forall c, In c rcells -> ~ scratch (svar epd) c) by (intros c Hc (v & f & Hv & _ & Q); exact (PV c v f Hc Hv Q)).
  assert (NSv : forall f, ~ scratch (svar epd) (vc cpc f)) by (intros f (v & g & Hv & _ & Q); exact (CV v f g Hv Q)).
  assert (WV : forall f, writable w (vc cpc f)) by (intros f; split; [apply (wo_plain w Hw), Hcpc|apply (wo_prot w Hw), Hcpc]).
  assert (POK : pairs_ok w (srcs_of (map with_mod ops)) (map with_mod ops)).
  { rewrite SR. intros d md s Hin. apply in_map_iff in Hin. destruct Hin as ([[d' md'] s'] & Q & Hin). cbn in Q. injection Q as -> <- ->.
    unfold ops, epd_ops in Hin. apply in_app_or in Hin. cbn [In] in Hin.
    assert (Hin' : (d, md', s) = (DExpr (E + 1), SetTo, SConst (pa cpc)) \/ (d, md', s) = (DExpr (vc cpc FNext), SetTo, SConst nx) \/
      (d, md', s) = (DExpr (vc cpc FDest), SetTo, SConst CPcell) \/ (d, md', s) = (DExpr (cr_dest E), SetTo, SConst ret) \/
      (d, md', s) = (DInt CPcell, SetTo, epd) \/ (d, md', s) = (DExpr (cr_val E), SetTo, SConst (init_of i))).
    { destruct Hin as [[<-|[<-|[<-|[<-|[<-|[]]]]]]|Hin]; auto 7. destruct i as [c|]; [|destruct Hin]. destruct Hin as [<-|[]]. cbn [init_of]. tauto. }
    destruct Hin' as [Q|[Q|[Q|[Q|[Q|Q]]]]]; injection Q as -> -> ->; cbn [dst_epd truthy].
    - split; [apply P1|]. split; [apply NSc; cbn; tauto|exact I].
    - split; [apply WV|]. split; [apply NSv|exact I].
    - split; [apply WV|]. split; [apply NSv|exact I].
    - split; [apply P2|]. split; [apply NSc; cbn; tauto|exact I].
    - split; [apply P4|]. split; [apply NSc; cbn; tauto|]. destruct epd; [exact I|]. split; [left; reflexivity|reflexivity].
    - split; [apply P3|]. split; [apply NSc; cbn; tauto|exact I]. }
  assert (CC : forall c f, In c rcells -> idx c <> idx (vc cpc f)) by (intros c f Hc; apply (PC c Hc), Hcpc).
  assert (CC' : forall c f, In c rcells -> idx (vc cpc f) <> idx c) by (intros c f Hc Q; symmetry in Q; exact (CC c f Hc Q)).
  assert (K1 : In (E + 1) rcells) by (cbn; tauto). assert (K2 : In (cr_dest E) rcells) by (cbn; tauto).
  assert (K3 : In (cr_val E) rcells) by (cbn; tauto). assert (K4 : In CPcell rcells) by (cbn; tauto).
  assert (IND : ForallOrdPairs indep ops).
  { assert (RC : forall c a, In c rcells -> In a (match epd with SConst _ => [] | SVar v => [vc v FMask; vc v FVal] end) -> idx c <> idx a).
    { intros c a Hc Ha. destruct epd as [|v]; [destruct Ha|]. destruct Ha as [<-|[<-|[]]]; apply PV; auto; left; reflexivity. }
    assert (RV : forall f a, In a (match epd with SConst _ => [] | SVar v => [vc v FMask; vc v FVal] end) -> idx (vc cpc f) <> idx a).
    { intros f a Ha. destruct epd as [|v]; [destruct Ha|]. destruct Ha as [<-|[<-|[]]]; apply CV; left; reflexivity. }
    unfold ops, epd_ops. destruct i as [c|]; cbn [app extra_of];
    repeat (constructor; [repeat (constructor; [split; [cbn [rpair_dst fst snd dst_epd]; auto; try (apply CF; discriminate); try (intros Q; symmetry in Q; tauto)|split; cbn [rpair_dst rpair_reads fst snd dst_epd In]; auto; intros ? []]|]); constructor|]); constructor. }
  destruct (NonSeqCompute_correct w same same_u perm T n ops m Hw Hsame Hperm) as (m1 & R1 & AG & _); auto.
  { rewrite SR. exact SV. }
  { rewrite SR. intros v Hv. destruct epd as [|u]; [destruct Hv|]. destruct Hv as [<-|[]]. apply Hepd. }
  fold code in R1. rewrite Hjump in R1. rewrite SR in AG.
  assert (NE : forall a b, idx a <> idx b -> idx b <> idx a) by (intros a b N Q; congruence).
  set (mm := upd (upd (upd (upd m (E + 1) (pa cpc)) (vc cpc FNext) (u32 nx)) (vc cpc FDest) (u32 CPcell)) (cr_dest E) (u32 ret)).
  assert (AS : exists x, u32 x = sval m epd /\ assign_all m ops = match i with Some c => upd (upd mm CPcell x) (cr_val E) (u32 c) | None => upd mm CPcell x end).
  { destruct epd as [c|v].
    - exists (u32 c). split; [apply u32_idem|]. unfold ops, epd_ops, mm. destruct i; cbn [app extra_of assign_all fold_left assign1 dst_epd do_mod]; rewrite u32_pa; reflexivity.
    - exists (do_modx SetTo (get mm (vc v FMask)) (get mm CPcell) (get mm (vc v FVal))).
      assert (Iv : In v (svar (SVar v))) by (left; reflexivity).
      assert (GM : forall f, get mm (vc v f) = get m (vc v f)).
      { intros f. unfold mm. rewrite !get_upd_ne; auto. }
      destruct Hepd as [Hv [O1 O2]]. split.
      + rewrite (GM FMask), (GM FVal), O1. change 0xFFFFFFFF with (Z.ones 32). rewrite do_modx_full by apply get_range. cbn [do_mod sval]. apply u32_small, get_range.
      + unfold ops, epd_ops, mm. destruct i; cbn [app extra_of assign_all fold_left assign1 dst_epd do_mod]; rewrite u32_pa; reflexivity. }
  destruct AS as (x & Ex & AS).
  assert (G1 : get m1 (E + 1) = pa cpc).
  { rewrite AG by (apply NSc; exact K1). rewrite AS. unfold mm. destruct i; rewrite ?get_upd_ne by auto; rewrite get_upd_eq; apply u32_pa. }
  assert (G2 : get m1 (vc cpc FNext) = u32 nx).
  { rewrite AG by apply NSv. rewrite AS. unfold mm. destruct i; rewrite ?get_upd_ne by (auto; apply CF; discriminate); rewrite get_upd_eq; apply u32_idem. }
  assert (G3 : get m1 (vc cpc FDest) = u32 CPcell).
  { rewrite AG by apply NSv. rewrite AS. unfold mm. destruct i; rewrite ?get_upd_ne by auto; rewrite get_upd_eq; apply u32_idem. }
  assert (G4 : get m1 (cr_dest E) = u32 ret).
  { rewrite AG by (apply NSc; exact K2). rewrite AS. unfold mm. destruct i; rewrite ?get_upd_ne by auto; rewrite get_upd_eq; apply u32_idem. }
  assert (G5 : get m1 CPcell = sval m epd).
  { rewrite AG by (apply NSc; exact K4). rewrite AS. destruct i; rewrite ?get_upd_ne by auto; rewrite get_upd_eq; exact Ex. }
  assert (G7 : forall b, ~ scratch (svar epd) b -> idx (E + 1) <> idx b -> idx (vc cpc FNext) <> idx b -> idx (vc cpc FDest) <> idx b ->
    idx (cr_dest E) <> idx b -> idx CPcell <> idx b -> (i = None \/ idx (cr_val E) <> idx b) -> get m1 b = get m b).
  { intros b B0 B1 B2 B3 B4 B5 B6. rewrite AG by exact B0. rewrite AS. unfold mm. destruct i; [destruct B6 as [B6|B6]; [discriminate|]|]; rewrite !get_upd_ne by auto; reflexivity. }
  assert (G6 : get m1 (cr_val E) = u32 (init_of i)).
  { destruct i as [c|].
    - rewrite AG by (apply NSc; exact K3). rewrite AS. rewrite get_upd_eq. apply u32_idem.
    - rewrite G7; auto. }
  assert (IR : idx (u32 ret) = idx ret) by apply idx_u32.
  assert (WR : writable w (u32 ret)) by (destruct Vret as [[W1 W2] _]; split; [unfold plain in *; rewrite ?u32_idem; exact W1|rewrite IR; exact W2]).
  assert (SRC : get m1 (sval m epd) = get m (sval m epd)).
  { assert (NT : forall c, In c rcells -> idx c <> idx (sval m epd)) by (intros c Hc Q; apply Hsrc; right; exists c; auto).
    apply G7; auto.
    - intros B. apply Hsrc. left. eapply scratch_incl; [|exact B]. intros v Hv. right. exact Hv.
    - intros B. apply Hsrc. left. exists cpc, FNext. cbn. auto.
    - intros B. apply Hsrc. left. exists cpc, FDest. cbn. auto. }
  assert (Mret : forall b, idx b <> idx ret -> idx (u32 ret) <> idx b) by (intros b Hb; rewrite IR; auto).
  destruct (C26_table_read w E A t Ht Hpl (proj1 P3) X4 k sh l m1 SetTo) as (m2 & R2 & D1 & D2 & D3); auto.
  { unfold src_ok. rewrite G5. intros Q. apply Hsrc. right. exists (cr_val E). auto. }
  { rewrite G7; auto.
    intros (v & f & Hv & _ & Q). exact (Hmod v f (SV v Hv) Q). }
  { rewrite G4. exact WR. }
  { rewrite G4, IR. apply NE, Dret. cbn; auto. }
  { rewrite G4, IR. apply NE, Dret. cbn; auto. }
  rewrite G4 in D1, D3. rewrite (get_cong _ _ _ IR) in D1. cbn [do_mod] in D1. rewrite G5, G6, SRC, G1 in *. rewrite u32_add_l in D1.
  assert (RF : forall f, idx (u32 ret) <> idx (vc cpc f)).
  { intros f. rewrite IR. destruct f; try exact Dfv; (apply (proj2 Vret); [exact Hcpc|discriminate]). }
  assert (VF : forall f, get m2 (vc cpc f) = get m1 (vc cpc f)) by (intros f; apply D3; auto).
  assert (GF : forall f, f <> FNext -> f <> FDest -> get m1 (vc cpc f) = get m (vc cpc f)).
  { intros f F1 F2. apply G7; auto; apply CF; auto. }
  pose proof (hop w Hw m2 cpc CPcell SetTo (u32 nx) Hcpc) as HOP.
  rewrite !VF, G2, G3, (GF FMod), (GF FMask), (GF FVal) in HOP by discriminate. destruct Ocpc as [O1 O2].
  specialize (HOP Mcpc eq_refl (proj1 P4) ltac:(intros; auto) eq_refl). rewrite O1 in HOP. change 0xFFFFFFFF with (Z.ones 32) in HOP.
  rewrite do_modx_full in HOP by apply get_range. cbn [do_mod] in HOP.
  eexists. split; [eapply steps_trans; [exact R1|]; eapply steps_trans; [exact R2|exact HOP]|].
  split; [|split; [|split]].
  - rewrite get_upd_ne; [exact D1|]. apply Dret. cbn; auto.
  - rewrite get_upd_eq. apply u32_small, get_range.
  - split; rewrite get_upd_ne by auto; [exact D2|]. rewrite D3; auto.
    + rewrite G7; auto.
      intros (v & f & Hv & _ & Q). exact (Hmod v f (SV v Hv) Q).
    + apply Mret, Dret. cbn; auto.
  - intros b Hb. assert (NB : forall c, In c (ret :: rcells) -> idx c <> idx b) by (intros c Hc Q; apply Hb; right; exists c; auto).
    assert (NS : forall v f, In v (cpc :: svar epd) -> f = FNext \/ f = FDest \/ f = FMod -> idx (vc v f) <> idx b) by (intros v f Hv Hf Q; apply Hb; left; exists v, f; auto).
    rewrite get_upd_ne by (apply NB; right; exact K4). rewrite D3 by (rewrite ?IR; apply NB; cbn; auto).
    apply G7; try (apply NB; right; assumption); try (apply NS; cbn; auto).
    + intros (v & f & Hv & Hf & Q). symmetry in Q. exact (NS v f (or_intror Hv) Hf Q).
    + right. apply NB. right. exact K3.
Qed.

(* Reading relative to the current player; the current player is restored. *)
Theorem C26_read_cp : forall i nx fin ret cpo T n l k sh m,
  let code := SeqCompute same same_u T n (nonseq_order perm (map with_mod (cp_ops E (lbl nx 0) ret cpo (extra_of i)))) in
  placed w T n code -> lbl T (n + length code) = pa (A l) ->
  placed w nx 0 (cp_restore cpo fin) -> (cpo = 0 -> fin = lbl nx 0) ->
  k < 2^32 -> answers t k sh l -> idle m ->
  patchable w ret \/ (exists v, In v (W_vars w) /\ ret = vc v FVal) ->
  (forall c, In c (cr_mod E :: rcells) -> idx c <> idx ret) ->
  let src := u32 (get m CPcell + cpo) in
  (forall c, In c rcells -> idx src <> idx c) ->
  exists m', runs w (lbl T n, m) (u32 fin, m') /\
    get m' ret = u32 (init_of i + signed_shift (Z.land (get m src) k) sh) /\
    get m' CPcell = get m CPcell /\ idle m' /\
    forall b, (forall c, In c (ret :: E + 1 :: cr_dest E :: cr_val E :: CPcell :: nil) -> idx c <> idx b) -> get m' b = get m b.
Proof.
  intros i nx fin ret cpo T n l k sh m code Hcode Hjump Hrest Hfin Hk Hans [I1 I2] Vret Dret src Hsrc.
  destruct rdist as (X1 & X2 & X3 & X4 & X5 & X6 & X7 & X8 & X9 & X10).
  set (ops := cp_ops E (lbl nx 0) ret cpo (extra_of i)) in *.
  assert (PC : forall c, In c rcells -> writable w c /\ sepcell w c) by (intros c Hc; exact (Hcell c Hc)).
  assert (K1 : In (E + 1) rcells) by (cbn; tauto). assert (K2 : In (cr_dest E) rcells) by (cbn; tauto).
  assert (K3 : In (cr_val E) rcells) by (cbn; tauto). assert (K4 : In CPcell rcells) by (cbn; tauto).
  assert (NE : forall a b, idx a <> idx b -> idx b <> idx a) by (intros a b N Q; congruence).
  assert (SR : srcs_of (map with_mod ops) = []) by (unfold ops, cp_ops; destruct i, (cpo =? 0); reflexivity).
  assert (NS : forall a, ~ scratch [] a) by (intros a (v & f & [] & _)).
  assert (POK : pairs_ok w (srcs_of (map with_mod ops)) (map with_mod ops)).
  { rewrite SR. intros d md s Hin. apply in_map_iff in Hin. destruct Hin as ([[d' md'] s'] & Q & Hin). cbn in Q. injection Q as -> <- ->.
    assert (Hin' : In (dst_epd d) rcells /\ exists c, s = SConst c).
    { unfold ops, cp_ops in Hin. apply in_app_or in Hin. destruct Hin as [Hin|Hin]; [destruct (cpo =? 0); [destruct Hin|]; destruct Hin as [Q|[]]; injection Q as <- <- <-; split; [exact K4|eauto]|].
      destruct Hin as [Q|[Q|Hin]]; [injection Q as <- <- <-; split; [exact K1|eauto]|injection Q as <- <- <-; split; [exact K2|eauto]|].
      destruct i as [c|]; [|destruct Hin]. destruct Hin as [Q|[]]. injection Q as <- <- <-. split; [exact K3|eauto]. }
    destruct Hin' as [Hc [c ->]]. split; [apply PC, Hc|]. split; [apply NS|exact I]. }
  assert (IND : ForallOrdPairs indep ops).
  { unfold ops, cp_ops. destruct i as [c|], (cpo =? 0); cbn [app extra_of];
    repeat (constructor; [repeat (constructor; [split; [cbn [rpair_dst fst snd dst_epd]; auto|split; intros ? []]|]); constructor|]); constructor. }
  destruct (NonSeqCompute_correct w same same_u perm T n ops m Hw Hsame Hperm) as (m1 & R1 & AG & _); auto.
  { rewrite SR. intros v []. }
  { rewrite SR. intros v []. }
  fold code in R1. rewrite Hjump in R1. rewrite SR in AG.
  set (m0 := if cpo =? 0 then m else upd m CPcell (do_mod Add (get m CPcell) (u32 cpo))).
  set (mm := upd (upd m0 (E + 1) (u32 (lbl nx 0))) (cr_dest E) (u32 ret)).
  assert (AS : assign_all m ops = match i with Some c => upd mm (cr_val E) (u32 c) | None => mm end).
  { unfold ops, cp_ops, mm, m0. destruct i, (cpo =? 0); reflexivity. }
  assert (G0 : forall b, get m0 b = if idx b =? idx CPcell then u32 (get m CPcell + cpo) else get m b).
  { intros b. unfold m0. destruct (Z.eqb_spec (idx b) (idx CPcell)) as [Q|Q]; destruct (Z.eqb_spec cpo 0) as [->|].
    - rewrite Z.add_0_r, u32_small by apply get_range. apply get_cong, Q.
    - rewrite (get_cong _ _ _ Q), get_upd_eq. cbn [do_mod]. rewrite u32_idem, u32_add_r. reflexivity.
    - reflexivity.
    - apply get_upd_ne. auto. }
  assert (G1 : get m1 (E + 1) = lbl nx 0).
  { rewrite AG by apply NS. rewrite AS. unfold mm. destruct i; rewrite ?get_upd_ne by auto; rewrite get_upd_eq, u32_idem; apply u32_lbl. }
  assert (G4 : get m1 (cr_dest E) = u32 ret).
  { rewrite AG by apply NS. rewrite AS. unfold mm. destruct i; rewrite ?get_upd_ne by auto; rewrite get_upd_eq; apply u32_idem. }
  assert (G7 : forall b, idx (E + 1) <> idx b -> idx (cr_dest E) <> idx b -> (i = None \/ idx (cr_val E) <> idx b) -> get m1 b = get m0 b).
  { intros b B1 B2 B6. rewrite AG by apply NS. rewrite AS. unfold mm. destruct i; [destruct B6 as [B6|B6]; [discriminate|]|]; rewrite !get_upd_ne by auto; reflexivity. }
  assert (G8 : forall b, idx (E + 1) <> idx b -> idx (cr_dest E) <> idx b -> (i = None \/ idx (cr_val E) <> idx b) -> idx CPcell <> idx b -> get m1 b = get m b).
  { intros b B1 B2 B3 B4. rewrite G7, G0 by auto. destruct (Z.eqb_spec (idx b) (idx CPcell)) as [Q|]; [symmetry in Q; contradiction|reflexivity]. }
  assert (G5 : get m1 CPcell = src).
  { rewrite G7 by auto. rewrite G0, Z.eqb_refl. reflexivity. }
  assert (G6 : get m1 (cr_val E) = u32 (init_of i)).
  { destruct i as [c|].
    - rewrite AG by apply NS. rewrite AS. rewrite get_upd_eq. apply u32_idem.
    - rewrite G8; auto. }
  assert (IR : idx (u32 ret) = idx ret) by apply idx_u32.
  assert (WR : writable w (u32 ret)).
  { assert (W0 : writable w ret) by (destruct Vret as [V|(v & Hv & ->)]; [apply V|split; [apply (wo_plain w Hw), Hv|apply (wo_prot w Hw), Hv]]).
    destruct W0 as [W1 W2]. split; [unfold plain in *; rewrite ?u32_idem; exact W1|rewrite IR; exact W2]. }
  assert (SRC : get m1 src = get m src) by (apply G8; auto; right; auto).
  destruct (C26_table_read w E A t Ht Hpl (proj1 (PC _ K3)) X4 k sh l m1 SetTo) as (m2 & R2 & D1 & D2 & D3); auto.
  { unfold src_ok. rewrite G5. auto. }
  { rewrite G8; auto. }
  { rewrite G4. exact WR. }
  { rewrite G4, IR. apply NE, Dret. cbn; auto. }
  { rewrite G4, IR. apply NE, Dret. cbn; auto. }
  rewrite G4 in D1, D3. rewrite (get_cong _ _ _ IR) in D1. cbn [do_mod] in D1. rewrite G5, G6, SRC, G1 in *. rewrite u32_add_l in D1.
  assert (M2cp : get m2 CPcell = src) by (rewrite D3; [exact G5|rewrite IR; apply NE, Dret; cbn; auto|auto]).
  assert (FIN : exists m3, runs w (lbl nx 0, m2) (u32 fin, m3) /\ get m3 CPcell = get m CPcell /\ forall b, idx CPcell <> idx b -> get m3 b = get m2 b).
  { unfold cp_restore in Hrest. destruct (Z.eqb_spec cpo 0) as [C0|C0].
    - exists m2. rewrite (Hfin C0), u32_lbl. split; [constructor|]. split; [|auto]. rewrite M2cp. unfold src. rewrite C0, Z.add_0_r. apply u32_small, get_range.
    - specialize (Hrest 0%nat _ eq_refl). exists (upd m2 CPcell (do_mod Add (get m2 CPcell) (u32 (- cpo)))). split; [|split].
      + eapply run_true; [exact Hrest|reflexivity|apply conds_nil|apply do_cons_M; [apply PC, K4|apply PC, K4|apply do_nil]|reflexivity].
      + rewrite get_upd_eq, M2cp. cbn [do_mod]. rewrite u32_idem, u32_add_r. unfold src. rewrite u32_add_l. replace (get m CPcell + cpo + - cpo) with (get m CPcell) by lia. apply u32_small, get_range.
      + intros b Hb. apply get_upd_ne, Hb. }
  destruct FIN as (m3 & R3 & F1 & F2). exists m3. split; [eapply steps_trans; [exact R1|]; eapply steps_trans; [exact R2|exact R3]|].
  split; [|split; [|split]].
  - rewrite F2; [exact D1|]. apply Dret. cbn; auto.
  - exact F1.
  - split; rewrite F2 by auto; [exact D2|]. rewrite D3; auto; [rewrite G8; auto|]. rewrite IR. apply NE, Dret. cbn; auto.
  - intros b Hb. rewrite F2 by (apply Hb; cbn; tauto). rewrite D3 by (rewrite ?IR; apply Hb; cbn; tauto).
    apply G8; try right; apply Hb; cbn; tauto.
Qed.
End Call.

(* ---------- for every order of requests ---------- *)
Definition history (qs : list req) : list (option nat) * rtab :=
  match rt_init with Some t => do_reqs qs t | None => ([], mkrtab [] []) end.
Lemma empty_ok : tab_ok (mkrtab [] []).
Proof. intros k n H. discriminate. Qed.
Lemma init_ok : exists t, rt_init = Some t /\ tab_ok t.
Proof.
  unfold rt_init. pose proof (rt_insert_ok 0xFFFFFFFF 0 (Some true) _ empty_ok) as H.
  destruct (rt_insert _ _ _ _) as [[l t]|]; [|exfalso; destruct H as [H|H]; [lia|vm_compute in H; discriminate]]. destruct H as (H & _).
  pose proof (rt_insert_ok 0xFFFFFF00 0 (Some false) _ H) as H1.
  destruct (rt_insert 0xFFFFFF00 _ _ _) as [[l1 t1]|]; [|exfalso; destruct H1 as [Q|Q]; [lia|vm_compute in Q; discriminate]]. destruct H1 as (H1 & _).
  pose proof (rt_insert_ok 0xFF00 (-8) (Some true) _ H1) as H2.
  destruct (rt_insert 0xFF00 _ _ _) as [[l2 t2]|]; [|exfalso; destruct H2 as [Q|Q]; [lia|vm_compute in Q; discriminate]]. destruct H2 as (H2 & _).
  pose proof (rt_insert_ok 0xFF0000 (-16) (Some true) _ H2) as H3.
  destruct (rt_insert 0xFF0000 _ _ _) as [[l3 t3]|]; [|exfalso; destruct H3 as [Q|Q]; [lia|vm_compute in Q; discriminate]]. destruct H3 as (H3 & _).
  pose proof (rt_insert_ok 0xFF000000 (-24) (Some true) _ H3) as H4.
  destruct (rt_insert 0xFF000000 _ _ _) as [[l4 t4]|]; [|exfalso; destruct H4 as [Q|Q]; [lia|vm_compute in Q; discriminate]]. destruct H4 as (H4 & _).
  exists t4. split; [reflexivity|exact H4].
Qed.
Lemma history_from : exists t, tab_ok t /\ forall qs, history qs = do_reqs qs t.
Proof. destruct init_ok as (t & E & Ht). exists t. split; [exact Ht|]. intros qs. unfold history. rewrite E. reflexivity. Qed.
(* Whatever was requested before or after, the trigger given for a request
   belongs to the final table's reading chain for exactly the requested bits. *)
Theorem C26_history : forall qs i q l, nth_error qs i = Some q -> nth_error (fst (history qs)) i = Some (Some l) ->
  tab_ok (snd (history qs)) /\ answers (snd (history qs)) (req_mask q) (req_shift q) l.
Proof.
  intros qs i q l Hq. destruct history_from as (t & Ht & E). rewrite E.
  pose proof (do_reqs_ok qs t Ht) as H. destruct (do_reqs qs t) as [a t']. destruct H as (T & _ & C). intros Ha. split; [exact T|eapply C; eauto].
Qed.
(* insert and insert_or_get never fail for masks of consecutive bits *)
Theorem C26_insert_total : forall qs k lo hi sh d, block k lo hi ->
  fst (do_req (RInsert k sh d) (snd (history qs))) <> None /\ fst (do_req (RInsertOrGet k sh d) (snd (history qs))) <> None.
Proof.
  intros qs k lo hi sh d Hb.
  assert (Ht : tab_ok (snd (history qs))).
  { destruct history_from as (t & Ht & E). rewrite E. pose proof (do_reqs_ok qs t Ht) as H. destruct (do_reqs qs t). apply H. }
  assert (K : 0 < k).
  { destruct Hb as [[L H] ->]. assert (2^lo < 2^(hi + 1)) by (apply Z.pow_lt_mono_r; lia). lia. }
  assert (C : is_consecutive k = true).
  { unfold is_consecutive. apply Z.eqb_eq. destruct (lsb_spec k K) as (q & E & L & Q). destruct Hb as [[L0 H0] Ek].
    assert (S1 : Z.shiftr k (lsb_index k) = 2^(hi + 1 - lo) - 1).
    { assert (lsb_index k = lo) as ->.
      { assert (T1 : forall j, 0 <= j -> Z.testbit k j = true -> lsb_index k <= j).
        { intros j Hj B. destruct (Z.lt_ge_cases j (lsb_index k)) as [G|]; [|assumption]. rewrite E, Z.mul_pow2_bits_low in B by lia. discriminate. }
        assert (T2 : Z.testbit k (lsb_index k) = true).
        { rewrite E at 1. rewrite Z.mul_pow2_bits by lia. rewrite Z.sub_diag. apply Z.testbit_odd_0. }
        rewrite (block_bits k lo hi) in T2 by (auto; split; auto). specialize (T1 lo ltac:(lia)).
        rewrite (block_bits k lo hi) in T1 by (auto; try lia; split; auto). lia. }
      rewrite Z.shiftr_div_pow2 by lia. rewrite Ek. replace (hi + 1) with (hi + 1 - lo + lo) at 1 by lia. rewrite Z.pow_add_r by lia.
      assert (0 < 2^lo) by (apply Z.pow_pos_nonneg; lia).
      replace (2^(hi + 1 - lo) * 2^lo - 2^lo) with ((2^(hi + 1 - lo) - 1) * 2^lo) by lia. apply Z.div_mul. lia. }
    rewrite S1. replace (2^(hi + 1 - lo) - 1 + 1) with (2^(hi + 1 - lo)) by lia.
    replace (2^(hi + 1 - lo) - 1) with (Z.ones (hi + 1 - lo)) by (rewrite Z.ones_equiv; lia). rewrite Z.land_comm, Z.land_ones by lia. apply Z.mod_same.
    assert (0 < 2^(hi + 1 - lo)) by (apply Z.pow_pos_nonneg; lia). lia. }
  pose proof (rt_insert_ok k sh d _ Ht) as H. unfold do_req, rt_insert_or_get. split.
  - destruct (rt_insert k sh d (snd (history qs))) as [[l t']|]; [discriminate|]. destruct H as [H|H]; [lia|congruence].
  - destruct (rt_get k sh (snd (history qs))); [discriminate|].
    destruct (rt_insert k sh d (snd (history qs))) as [[l t']|]; [discriminate|]. destruct H as [H|H]; [lia|congruence].
Qed.
(* cpmemio.py 48-52: f_epdread_cp asks with _get, so it fails unless something
   else has put the chain into the table. *)
Theorem C26_epdread_cp_order_refuted :
  fst (history [RGet 0xFFFFFFFC (-2)]) = [None] /\
  fst (history [RInsertOrGet 0xFFFFFFFC (-2) (Some true); RGet 0xFFFFFFFC (-2)]) = [Some 109%nat; Some 109%nat].
Proof. split; vm_compute; reflexivity. Qed.

(* f_dwread_epd and f_epdread_epd *)
Section Readers.
Variables (w : world) (E : Z) (A : nat -> Z) (qs : list req).
Hypothesis Hw : world_ok w.
Hypothesis Hpl : table_placed w E A (snd (history qs)).
Hypothesis Hcell : forall c, In c (rcells E) -> patchable w c.
Hypothesis Hmod : sepcell w (cr_mod E).
Hypothesis Hdist : NoDup (map idx (cr_mod E :: rcells E)).
Variables (same same_u : dst -> dst -> bool) (perm : list pair -> list pair).
Hypothesis Hsame : forall a b, same a b = true -> u32 (dst_epd a) = u32 (dst_epd b).
Hypothesis Hperm : forall x, Permutation (perm x) x.
Definition reads (ops : Z -> Z -> Z -> Z -> src -> list rpair) (f : Z -> Z) : Prop :=
  forall cpc nx ret epd T n l m,
  let code := SeqCompute same same_u T n (nonseq_order perm (map with_mod (ops E cpc nx ret epd))) in
  placed w T n code -> lbl T (n + length code) = pa (A l) ->
  (exists i q, nth_error qs i = Some q /\ nth_error (fst (history qs)) i = Some (Some l) /\
     (ops = dwread_ops /\ q = RGet 0xFFFFFFFF 0 \/ ops = epdread_ops /\ q = RInsertOrGet 0xFFFFFFFC (-2) (Some true))) ->
  idle E m -> In cpc (W_vars w) -> ordinary m cpc -> get m (vc cpc FMod) = w6 SetTo ->
  ord_src w m epd -> ~ In cpc (svar epd) ->
  valcell w ret -> (forall c, In c (cr_mod E :: rcells E) -> idx c <> idx ret) -> idx ret <> idx (vc cpc FVal) ->
  ~ tmp (cpc :: svar epd) (rcells E) (sval m epd) ->
  exists m', runs w (lbl T n, m) (u32 nx, m') /\
    get m' ret = f (get m (sval m epd)) /\
    get m' CPcell = get m (vc cpc FVal) /\ idle E m' /\
    forall b, ~ tmp (cpc :: svar epd) (ret :: rcells E) b -> get m' b = get m b.
Theorem C26_dwread_epd : reads dwread_ops (fun v => v).
Proof.
  intros cpc nx ret epd T n l m code P J (i & q & Hq & Ha & Hk) I0 H1 H2 H3 H4 H5 H6 H7 H8 H9.
  destruct (C26_history qs i q l Hq Ha) as [Ht An].
  assert (q = RGet 0xFFFFFFFF 0) as ->.
  { destruct Hk as [[_ ->]|[Q _]]; [reflexivity|]. exfalso. pose proof (f_equal (fun g => length (g 0 0 0 0 (SConst 0))) Q). discriminate. }
  destruct (C26_read_from w Hw E A _ Ht Hpl Hcell Hmod Hdist same same_u perm Hsame Hperm None cpc nx ret epd T n l 0xFFFFFFFF 0 m) as (m' & R & V & C & D & F); auto; [lia|].
  exists m'. split; [exact R|]. split; [|auto]. rewrite V. cbn [init_of]. change (signed_shift ?x 0) with (Z.shiftl x 0). rewrite Z.shiftl_0_r, Z.add_0_l.
  change 0xFFFFFFFF with (Z.ones 32). rewrite Z.land_ones by lia. unfold u32. rewrite Z.mod_mod by lia. apply Z.mod_small, get_range.
Qed.
Theorem C26_epdread_epd : reads epdread_ops (fun v => u32 (v / 4 - 0x58A364 / 4)).
Proof.
  intros cpc nx ret epd T n l m code P J (i & q & Hq & Ha & Hk) I0 H1 H2 H3 H4 H5 H6 H7 H8 H9.
  destruct (C26_history qs i q l Hq Ha) as [Ht An].
  assert (q = RInsertOrGet 0xFFFFFFFC (-2) (Some true)) as ->.
  { destruct Hk as [[Q _]|[_ ->]]; [|reflexivity]. exfalso. pose proof (f_equal (fun g => length (g 0 0 0 0 (SConst 0))) Q). discriminate. }
  destruct (C26_read_from w Hw E A _ Ht Hpl Hcell Hmod Hdist same same_u perm Hsame Hperm (Some (- (0x58A364 / 4))) cpc nx ret epd T n l 0xFFFFFFFC (-2) m) as (m' & R & V & C & D & F); auto; [lia|].
  exists m'. split; [exact R|]. split; [|auto]. rewrite V. cbn [init_of]. set (v := get m (sval m epd)).
  assert (signed_shift (Z.land v 0xFFFFFFFC) (-2) = v / 4) as ->.
  { unfold signed_shift. change (0 <=? -2) with false. cbv iota. change (- -2) with 2. rewrite Z.shiftr_land. change (Z.shiftr 0xFFFFFFFC 2) with (Z.ones 30).
    rewrite Z.land_ones, Z.shiftr_div_pow2 by lia. change (2^2) with 4. assert (0 <= v < 2^32) by apply get_range. apply Z.mod_small. split; [apply Z.div_pos; lia|apply Z.div_lt_upper_bound; lia]. }
  f_equal. lia.
Qed.
End Readers.

(* a concrete program: the whole initial table, a read through a variable *)
Definition ex_qs : list req := [RInsertOrGet 0x3FF0 3 None; RGet 0xFFFFFFFF 0; RInsert 0xFF0 3 (Some true)].
Notation ex_t := (snd (history ex_qs)).
Definition ex_len : nat := 1.
Definition ex_A (l : nat) : Z := exT (ex_len + l).
Definition ex_E : Z := exT (ex_len + length (rt_trigs ex_t)).
Definition ex_T (k : nat) : Z := if Nat.eqb k ex_len then ex_A 31 else exT k.
Definition ex_cpc : Z := vb_var 1000 0.
Definition ex_epd : Z := vb_var 1000 1.
Definition ex_ret : Z := vc (vb_var 1000 2) FVal.
Definition ex_code : list trig := SeqCompute fresh_same user_same ex_T 0
  (nonseq_order (@rev pair) (map with_mod (dwread_ops ex_E ex_cpc 77 ex_ret (SVar ex_epd)))).
Definition ex_w : world := exworld 3 (ex_code ++ map (rtrig ex_E ex_A) (rt_trigs ex_t) ++ [read_end ex_E]).
Definition ex_m : mem := upd (upd (exmem 3 [7; 250000]) 250000 0x89ABCDEF) (cr_mod ex_E) (w6 SetTo).
Example C26_example : exists m', runs ex_w (lbl ex_T 0, ex_m) (77, m') /\ get m' ex_ret = 0x89ABCDEF /\ get m' CPcell = 7.
Proof.
  assert (LEN : length ex_code = ex_len) by (vm_compute; reflexivity).
  assert (PL : placed ex_w exT 0 (ex_code ++ map (rtrig ex_E ex_A) (rt_trigs ex_t) ++ [read_end ex_E])) by (apply exworld_placed; vm_compute; reflexivity).
  assert (HP : forall e, 100000 <= e < 2^28 -> patchable ex_w e) by (intros e He; apply exworld_patchable; [reflexivity|exact He]).
  assert (HE : ex_E = 100000 + 602 * 91) by (vm_compute; reflexivity).
  assert (RC : forall c, In c (cr_mod ex_E :: rcells ex_E) -> 100000 <= c < 2^28).
  { unfold rcells, cr_mod, cr_dest, cr_val. rewrite HE. intros c Hc. cbn [In] in Hc. decompose [or] Hc; subst; try contradiction; try (split; [apply Z.leb_le|apply Z.ltb_lt]; reflexivity). }
  assert (TP : table_placed ex_w ex_E ex_A ex_t).
  { split.
    + intros l x Hl. apply (PL (ex_len + l)%nat).
      rewrite <- LEN, nth_error_app2 by lia. replace (length ex_code + l - length ex_code)%nat with l by lia.
      assert (l < length (rt_trigs ex_t))%nat by (apply nth_error_Some; congruence).
      rewrite nth_error_app1 by (rewrite map_length; lia). apply map_nth_error, Hl.
    + apply (PL (ex_len + length (rt_trigs ex_t))%nat).
      rewrite <- LEN, nth_error_app2 by lia. replace (length ex_code + length (rt_trigs ex_t) - length ex_code)%nat with (length (rt_trigs ex_t)) by lia.
      rewrite nth_error_app2 by (rewrite map_length; lia). rewrite map_length, Nat.sub_diag. reflexivity. }
  destruct (C26_dwread_epd ex_w ex_E ex_A ex_qs) with (same := fresh_same) (same_u := user_same) (perm := @rev pair) (cpc := ex_cpc) (nx := 77) (ret := ex_ret) (epd := SVar ex_epd) (T := ex_T) (n := 0%nat) (l := 31%nat) (m := ex_m)
    as (m' & R & V & C & _).
  - apply exworld_ok. reflexivity.
  - exact TP.
  - intros c Hc. apply HP, RC. right. exact Hc.
  - apply HP, RC. left. reflexivity.
  - unfold rcells, cr_mod, cr_dest, cr_val. rewrite HE. vm_compute. repeat constructor; cbn; intuition discriminate.
  - apply fresh_same_ok.
  - intros x. apply Permutation_sym, Permutation_rev.
  - intros i tr Hi. fold ex_code in Hi. assert (i < ex_len)%nat by (rewrite <- LEN; apply nth_error_Some; congruence).
    replace (lbl ex_T (0 + i)) with (lbl exT (0 + i)).
    2:{ unfold lbl, ex_T. cbn [Nat.add]. destruct (Nat.eqb_spec i ex_len); [lia|reflexivity]. }
    apply PL. rewrite nth_error_app1 by lia. exact Hi.
  - fold ex_code. rewrite LEN. vm_compute. reflexivity.
  - exists 1%nat, (RGet 0xFFFFFFFF 0). split; [reflexivity|]. split; [vm_compute; reflexivity|]. left. split; reflexivity.
  - split; vm_compute; reflexivity.
  - vm_compute. auto.
  - split; vm_compute; reflexivity.
  - vm_compute; reflexivity.
  - split; [vm_compute; auto|]. split; vm_compute; reflexivity.
  - vm_compute. intuition discriminate.
  - apply valcell_val; [apply exworld_ok; reflexivity|]. vm_compute. auto.
  - intros c Hc. pose proof (RC c Hc). unfold idx. rewrite !Z.mod_small; [|split; vm_compute; congruence|lia]. assert (ex_ret < 90000) by (vm_compute; reflexivity). lia.
  - vm_compute. discriminate.
  - change (sval ex_m (SVar ex_epd)) with 250000. intros [(v & f & Hv & _ & Q)|(c & Hc & Q)].
    + destruct Hv as [<-|[<-|[]]]; destruct f; vm_compute in Q; discriminate.
    + unfold rcells, cr_dest, cr_val in Hc. rewrite HE in Hc. cbn [In] in Hc. decompose [or] Hc; subst; try contradiction; vm_compute in Q; discriminate.
  - exists m'. split; [exact R|]. split; [exact V|exact C].
Qed.
Print Assumptions C26_table_read.
Print Assumptions C26_read_from.
Print Assumptions C26_read_cp.
Print Assumptions C26_history.
Print Assumptions C26_insert_total.
Print Assumptions C26_epdread_cp_order_refuted.
Print Assumptions C26_dwread_epd.
Print Assumptions C26_epdread_epd.
