(* Final theorems: members of game data objects (C68, C69). *)
From Coq Require Import ZArith Lia Bool List Permutation ZifyBool ZifyNat.
From Verif Require Import Lib Word ReadGenModel MemberModel.
Import ListNotations.
Open Scope Z_scope.

(* ================= specification ================= *)
(* dword number epd (counted from 0x58A364) and byte subp in it, for a byte address *)
Definition points (p : Z * Z) (a : Z) : Prop :=
  0 <= snd p < 4 /\ u32 (0x58A364 + 4 * fst p + snd p) = u32 a.
(* whenever an access runs, the variable is in the range of the class *)
Definition in_range (rg : Z) (c : cst) (s : rst) (os : list op) : Prop :=
  forall pre post, os = pre ++ Access :: post -> 0 <= value (run c pre s) <= rg.
(* before the map starts: the update trigger has cached 0, the derived variables are 0 *)
Definition initial (s : rst) : Prop := cached s = 0 /\ 0 <= value s < 2^32 /\ forall x, vars s x = 0.
(* the bytes subp .. subp + size - 1 of a dword *)
Definition field (size subp dw : Z) : Z := (dw / 2 ^ (8 * subp)) mod 2 ^ (8 * size).

(* ================= products ================= *)
Definition flat (ks : list Z) (Q R : Z -> Z) : list Z :=
  flat_map (fun k => if k mod 4 =? 0 then [Q k] else [Q k; R k]) ks.
Fixpoint sq (v : Z) (n : nat) (k : Z) : Z :=
  match n with O => 0 | S x => sq v x k + if Z.testbit v (Z.of_nat x) then k * 2 ^ Z.of_nat x / 4 else 0 end.
Fixpoint sr (v : Z) (n : nat) (k : Z) : Z :=
  match n with O => 0 | S x => sr v x k + if Z.testbit v (Z.of_nat x) then (k * 2 ^ Z.of_nat x) mod 4 else 0 end.

Lemma flat_ext ks Q R Q' R' : (forall k, In k ks -> Q k = Q' k) ->
  (forall k, In k ks -> k mod 4 <> 0 -> R k = R' k) -> flat ks Q R = flat ks Q' R'.
Proof.
  unfold flat. intros HQ HR. induction ks as [|k ks IH]; [reflexivity|]. cbn [flat_map].
  rewrite IH by (intros; (apply HQ || apply HR); cbn; auto). rewrite (HQ k) by (left; reflexivity).
  destruct (Z.eqb_spec (k mod 4) 0) as [E|E]; [reflexivity|]. rewrite (HR k) by (cbn; auto). reflexivity.
Qed.
Lemma vadd_flat ks Q R A B :
  vadd (flat ks Q R) (flat ks A B) = flat ks (fun k => u32 (Q k + A k)) (fun k => u32 (R k + B k)).
Proof.
  unfold flat. induction ks as [|k ks IH]; [reflexivity|]. cbn [flat_map].
  destruct (k mod 4 =? 0); cbn [app vadd]; rewrite IH; reflexivity.
Qed.
Lemma bit_adds_flat ks x : 0 <= x -> bit_adds ks x = flat ks (fun k => k * 2 ^ x / 4) (fun k => (k * 2 ^ x) mod 4).
Proof.
  intros Hx. unfold bit_adds, flat. apply flat_map_ext. intros k. cbv zeta.
  rewrite Z.shiftl_mul_pow2 by lia. reflexivity.
Qed.
Lemma bit_cond v x : 0 <= x -> (1 <=? Z.land v (Z.shiftl 1 x)) = Z.testbit v x.
Proof.
  intros Hx. rewrite Z.shiftl_mul_pow2 by lia. rewrite Z.mul_1_l, land_pow2 by lia.
  pose proof (Z.pow_pos_nonneg 2 x). destruct (Z.testbit v x); lia.
Qed.
Lemma bit_triggers_flat ks v n : forall Q R,
  (forall k, 0 <= Q k < 2^32) -> (forall k, 0 <= R k < 2^32) ->
  bit_triggers ks v n (flat ks Q R) = flat ks (fun k => u32 (Q k + sq v n k)) (fun k => u32 (R k + sr v n k)).
Proof.
  induction n as [|x IH]; intros Q R HQ HR.
  - cbn [bit_triggers sq sr]. apply flat_ext; intros; rewrite Z.add_0_r, u32_small; auto.
  - cbn [bit_triggers]. rewrite bit_cond by lia. cbn [sq sr]. destruct (Z.testbit v (Z.of_nat x)).
    + rewrite bit_adds_flat by lia. rewrite vadd_flat. rewrite IH by (intros; apply u32_range).
      apply flat_ext; intros; rewrite u32_add_l; f_equal; lia.
    + rewrite IH by assumption. apply flat_ext; intros; f_equal; lia.
Qed.
Lemma zeros_flat ks : repeat 0 (varcount ks) = flat ks (fun _ => 0) (fun _ => 0).
Proof.
  unfold flat. induction ks as [|k ks IH]; [reflexivity|]. cbn [varcount flat_map].
  destruct (k mod 4 =? 0); cbn [Nat.add repeat app]; rewrite IH; reflexivity.
Qed.
Lemma carries_flat ks Q R : 
  carries ks (flat ks Q R) =
  flat ks (fun k => if negb (k mod 4 =? 0) && (negb (k mod 4 =? 3) && (4 <=? R k)) then u32 (Q k + 1) else Q k)
          (fun k => if negb (k mod 4 =? 3) && (4 <=? R k) then R k - 4 else R k).
Proof.
  unfold flat. induction ks as [|k ks IH]; [reflexivity|]. cbn [flat_map carries].
  destruct (k mod 4 =? 0) eqn:E; cbn [app negb andb].
  - rewrite IH. reflexivity.
  - destruct (negb (k mod 4 =? 3) && (4 <=? R k)); rewrite IH; reflexivity.
Qed.
Lemma mod_pow2_S v x : 0 <= x -> v mod 2 ^ (x + 1) = v mod 2 ^ x + if Z.testbit v x then 2 ^ x else 0.
Proof.
  intros Hx. pose proof (Z.pow_pos_nonneg 2 x ltac:(lia) Hx) as HP.
  assert (E : 2 ^ (x + 1) = 2 ^ x * 2) by (rewrite Z.pow_add_r by lia; reflexivity).
  rewrite E, Z.rem_mul_r by lia. f_equal.
  assert (H := Z.testbit_spec' v x Hx). destruct (Z.testbit v x); cbn [Z.b2z] in H; rewrite <- H; lia.
Qed.
Lemma sq_sr v n k : 4 * sq v n k + sr v n k = k * (v mod 2 ^ Z.of_nat n).
Proof.
  induction n as [|x IH].
  - cbn [sq sr Z.of_nat]. change (2^0) with 1. rewrite Z.mod_1_r. lia.
  - cbn [sq sr]. rewrite Nat2Z.inj_succ, <- Z.add_1_r, mod_pow2_S by lia.
    destruct (Z.testbit v (Z.of_nat x)); [|lia].
    pose proof (Z.div_mod (k * 2 ^ Z.of_nat x) 4 ltac:(lia)). lia.
Qed.
Lemma sr_bound v n k : sr v n k =
   (if (1 <=? Z.of_nat n) && Z.testbit v 0 then k mod 4 else 0)
 + (if (2 <=? Z.of_nat n) && Z.testbit v 1 then (2 * k) mod 4 else 0).
Proof.
  induction n as [|x IH]; [reflexivity|]. cbn [sr]. rewrite IH.
  destruct x as [|[|x]].
  - change (Z.of_nat 0) with 0. change (Z.of_nat 1) with 1. change (2^0) with 1. rewrite Z.mul_1_r.
    change (1 <=? 0) with false. change (2 <=? 0) with false. change (1 <=? 1) with true. change (2 <=? 1) with false.
    cbn [andb]. lia.
  - change (Z.of_nat 1) with 1. change (Z.of_nat 2) with 2. change (2^1) with 2.
    change (1 <=? 1) with true. change (2 <=? 1) with false. change (1 <=? 2) with true. change (2 <=? 2) with true.
    cbn [andb]. rewrite (Z.mul_comm k 2). lia.
  - replace ((k * 2 ^ Z.of_nat (S (S x))) mod 4) with 0.
    + replace (1 <=? Z.of_nat (S (S (S x)))) with true by lia. replace (2 <=? Z.of_nat (S (S (S x)))) with true by lia.
      replace (1 <=? Z.of_nat (S (S x))) with true by lia. replace (2 <=? Z.of_nat (S (S x))) with true by lia.
      destruct (Z.testbit v (Z.of_nat (S (S x)))); lia.
    + rewrite !Nat2Z.inj_succ, !Z.pow_succ_r by lia.
      replace (k * (2 * (2 * 2 ^ Z.of_nat x))) with (k * 2 ^ Z.of_nat x * 4) by lia. rewrite Z.mod_mul; lia.
Qed.
Lemma sr_range v n k : 0 <= sr v n k <= 5 /\ (k mod 4 <> 3 -> sr v n k < 4) /\ (k mod 4 = 0 -> sr v n k = 0).
Proof.
  rewrite sr_bound. pose proof (Z.mod_pos_bound k 4 ltac:(lia)).
  assert (D := Z.div_mod k 4 ltac:(lia)). assert (D2 := Z.div_mod (2 * k) 4 ltac:(lia)).
  pose proof (Z.mod_pos_bound (2 * k) 4 ltac:(lia)).
  destruct ((1 <=? Z.of_nat n) && Z.testbit v 0), ((2 <=? Z.of_nat n) && Z.testbit v 1); lia.
Qed.

(* The products that the table computes: for every set of strides and every number that
   fits the bits, 4 q + r is the product; r < 4 unless the stride leaves 3 mod 4. *)
Theorem C68_muldiv ks n v : (forall k, In k ks -> 0 <= k /\ k mod 4 <> 3) -> 0 <= v < 2 ^ Z.of_nat n ->
  muldiv ks n v = flat ks (fun k => u32 (v * k / 4)) (fun k => (v * k) mod 4).
Proof.
  intros Hk Hv. unfold muldiv. rewrite zeros_flat, bit_triggers_flat by (intros; lia). rewrite carries_flat.
  apply flat_ext.
  - intros k Hi. destruct (Hk k Hi) as [K0 K3]. destruct (sr_range v n k) as (B & B3 & B0).
    rewrite !Z.add_0_l, (u32_small (sr v n k)) by lia.
    replace (4 <=? sr v n k) with false by (specialize (B3 K3); lia). rewrite !andb_false_r.
    f_equal. pose proof (sq_sr v n k) as E. rewrite Z.mod_small in E by lia. rewrite Z.mul_comm, <- E.
    specialize (B3 K3). apply Z.div_unique with (sr v n k); lia.
  - intros k Hi H0. destruct (Hk k Hi) as [K0 K3]. destruct (sr_range v n k) as (B & B3 & B0).
    rewrite !Z.add_0_l, (u32_small (sr v n k)) by lia.
    replace (4 <=? sr v n k) with false by (specialize (B3 K3); lia). rewrite !andb_false_r.
    pose proof (sq_sr v n k) as E. rewrite Z.mod_small in E by lia. rewrite (Z.mul_comm v k), <- E.
    specialize (B3 K3). apply Z.mod_unique with (sq v n k); lia.
Qed.
Example C68_muldiv_ex : muldiv [1; 2; 8] 8 201 = [50; 1; 100; 2; 402].
Proof. reflexivity. Qed.
(* a stride that leaves 3 mod 4 is left out of the carries although only it needs them *)
Theorem C68_muldiv_stride3_refuted : ~ (forall k n v, 0 < k -> 0 <= v < 2 ^ Z.of_nat n ->
  muldiv [k] n v = flat [k] (fun k => u32 (v * k / 4)) (fun k => (v * k) mod 4)).
Proof. intros H. specialize (H 3 2%nat 3 ltac:(lia) ltac:(cbn; lia)). discriminate H. Qed.

(* ================= the cache ================= *)
Lemma setv_same f x v : setv f x v x = v.
Proof. unfold setv. rewrite Nat.eqb_refl. reflexivity. Qed.
Lemma setv_other f x v y : x <> y -> setv f x v y = f y.
Proof. unfold setv. intros H. apply Nat.eqb_neq in H. rewrite H. reflexivity. Qed.
Lemma setvs_other xs : forall f vs y, ~ In y xs -> setvs f xs vs y = f y.
Proof.
  induction xs as [|x xs IH]; intros f vs y H; [reflexivity|]. destruct vs as [|v vs]; [reflexivity|].
  cbn [setvs]. cbn in H. rewrite IH by tauto. apply setv_other. tauto.
Qed.

Lemma nodup_app_r {A} (l r : list A) : NoDup (l ++ r) -> NoDup r.
Proof. induction l as [|x l IH]; cbn; intros H; [exact H|]. inversion H; auto. Qed.
Lemma nodup_app_l {A} (l r : list A) : NoDup (l ++ r) -> NoDup l.
Proof.
  induction l as [|x l IH]; cbn; intros H; [constructor|]. inversion H; subst. constructor; [|auto].
  rewrite in_app_iff in *. tauto.
Qed.
Definition evars (e : Z * (var * option var)) : list var :=
  match snd (snd e) with Some r => [fst (snd e); r] | None => [fst (snd e)] end.
Definition wfe (e : Z * (var * option var)) : Prop := snd (snd e) = None <-> fst e mod 4 = 0.
Lemma derived_cons e d : derived (e :: d) = evars e ++ derived d.
Proof. reflexivity. Qed.
(* the entry holds the product with n *)
Definition holds (n : Z) (f : var -> Z) (e : Z * (var * option var)) : Prop :=
  f (fst (snd e)) = u32 (n * fst e / 4) /\
  match snd (snd e) with Some r => f r = (n * fst e) mod 4 | None => True end.

Lemma wfe_cases e : wfe e -> (exists r, snd (snd e) = Some r /\ (fst e mod 4 =? 0) = false) \/
                             (snd (snd e) = None /\ (fst e mod 4 =? 0) = true).
Proof.
  unfold wfe. intros W. destruct (snd (snd e)) as [r|].
  - left. exists r. split; [reflexivity|]. apply Z.eqb_neq. intros H. apply W in H. discriminate.
  - right. split; [reflexivity|]. apply Z.eqb_eq. apply W. reflexivity.
Qed.
Lemma in_derived e d x : In e d -> In x (evars e) -> In x (derived d).
Proof. intros H Hx. unfold derived. apply in_flat_map. exists e. split; assumption. Qed.

Lemma setvs_holds d : forall f Q R, NoDup (derived d) -> Forall wfe d ->
  forall e, In e d -> setvs f (derived d) (flat (map fst d) Q R) (fst (snd e)) = Q (fst e) /\
    match snd (snd e) with Some r => setvs f (derived d) (flat (map fst d) Q R) r = R (fst e) | None => True end.
Proof.
  induction d as [|a d IH]; intros f Q R ND W e Hi; [destruct Hi|].
  rewrite derived_cons in *. inversion W as [|? ? Wa Wd]; subst.
  assert (NDd : NoDup (derived d)) by (apply nodup_app_r in ND; exact ND).
  unfold flat. cbn [map flat_map]. fold (flat (map fst d) Q R). unfold evars in *.
  destruct (wfe_cases a Wa) as [(r & Er & Em) | (Er & Em)]; rewrite Er, Em in *; cbn [app setvs] in *.
  - inversion ND as [|? ? N1 ND1]; subst. inversion ND1 as [|? ? N2 ND2]; subst. cbn in N1.
    destruct Hi as [<-|Hi].
    + rewrite Er. rewrite !setvs_other by tauto. rewrite setv_same. split; [|reflexivity].
      rewrite setv_other by (intros ->; tauto). apply setv_same.
    + apply IH; assumption.
  - inversion ND as [|? ? N1 ND1]; subst. destruct Hi as [<-|Hi].
    + rewrite Er. rewrite setvs_other by tauto. split; [apply setv_same|exact I].
    + apply IH; assumption.
Qed.

(* x += 1 *)
Lemma fold_add_other d : forall f x, ~ In x (derived d) -> fold_left adv_add d f x = f x.
Proof.
  induction d as [|e d IH]; intros f x H; [reflexivity|]. cbn [fold_left]. rewrite derived_cons, in_app_iff in H.
  rewrite IH by tauto. unfold adv_add, evars in *. destruct (snd (snd e)); cbn in H; rewrite !setv_other by tauto; reflexivity.
Qed.
Lemma fold_carry_other d : forall f x, ~ In x (derived d) -> fold_left adv_carry d f x = f x.
Proof.
  induction d as [|e d IH]; intros f x H; [reflexivity|]. cbn [fold_left]. rewrite derived_cons, in_app_iff in H.
  rewrite IH by tauto. unfold adv_carry, evars in *. destruct (snd (snd e)) as [r|]; [|reflexivity].
  cbn in H. destruct (4 <=? f r); [|reflexivity]. rewrite !setv_other by tauto; reflexivity.
Qed.
Lemma adv_add_own e f : NoDup (evars e) ->
  adv_add f e (fst (snd e)) = u32 (f (fst (snd e)) + fst e / 4) /\
  match snd (snd e) with Some r => adv_add f e r = u32 (f r + fst e mod 4) | None => True end.
Proof.
  unfold adv_add, evars. destruct (snd (snd e)) as [r|]; intros ND.
  - inversion ND as [|? ? N _]; subst. cbn in N. rewrite !setv_same.
    rewrite (setv_other _ r) by tauto. rewrite setv_same. rewrite setv_other by (intros HH; apply N; auto). split; reflexivity.
  - split; [apply setv_same|exact I].
Qed.
Lemma fold_add_own d : forall f, NoDup (derived d) -> forall e, In e d ->
  fold_left adv_add d f (fst (snd e)) = u32 (f (fst (snd e)) + fst e / 4) /\
  match snd (snd e) with Some r => fold_left adv_add d f r = u32 (f r + fst e mod 4) | None => True end.
Proof.
  induction d as [|a d IH]; intros f ND e Hi; [destruct Hi|]. rewrite derived_cons in ND. cbn [fold_left].
  assert (NDd : NoDup (derived d)) by (apply nodup_app_r in ND; exact ND).
  assert (NDa : NoDup (evars a)) by (apply nodup_app_l in ND; exact ND).
  assert (AP : forall x, In x (evars a) -> ~ In x (derived d)).
  { clear -ND. induction (evars a) as [|y l IHl]; intros x Hx; [destruct Hx|]. cbn in ND. inversion ND; subst.
    destruct Hx as [<-|Hx]; [rewrite in_app_iff in *; tauto|auto]. }
  destruct Hi as [<-|Hi].
  - destruct (adv_add_own a f NDa) as [H1 H2]. unfold evars in AP. destruct (snd (snd a)) as [r|].
    + rewrite !fold_add_other by (apply AP; cbn; auto). auto.
    + rewrite !fold_add_other by (apply AP; cbn; auto). auto.
  - assert (AP' : forall x, In x (evars e) -> ~ In x (evars a)).
    { intros x Hx Ha. apply (AP x Ha). apply (in_derived e d); assumption. }
    assert (NO : forall x, In x (evars e) -> adv_add f a x = f x).
    { intros x Hx. specialize (AP' x Hx). unfold adv_add, evars in *.
      destruct (snd (snd a)); cbn in AP'; rewrite !setv_other by tauto; reflexivity. }
    destruct (IH (adv_add f a) NDd e Hi) as [H1 H2]. rewrite H1. unfold evars in NO.
    destruct (snd (snd e)) as [r|]; [rewrite H2|]; rewrite !NO by (cbn; auto); auto.
Qed.
Lemma adv_carry_own e f : NoDup (evars e) ->
  let c := match snd (snd e) with Some r => 4 <=? f r | None => false end in
  adv_carry f e (fst (snd e)) = (if c then u32 (f (fst (snd e)) + 1) else f (fst (snd e))) /\
  match snd (snd e) with Some r => adv_carry f e r = (if c then f r - 4 else f r) | None => True end.
Proof.
  unfold adv_carry, evars. destruct (snd (snd e)) as [r|]; intros ND; cbv zeta; [|split; [reflexivity|exact I]].
  inversion ND as [|? ? N _]; subst. cbn in N. destruct (4 <=? f r); [|split; reflexivity].
  assert (N1 : r <> fst (snd e)) by (intros HH; apply N; auto).
  split.
  - rewrite setv_same, setv_other by exact N1. reflexivity.
  - rewrite setv_other by (intros HH; apply N1; auto). apply setv_same.
Qed.
Lemma fold_carry_own d : forall f, NoDup (derived d) -> forall e, In e d ->
  let c := match snd (snd e) with Some r => 4 <=? f r | None => false end in
  fold_left adv_carry d f (fst (snd e)) = (if c then u32 (f (fst (snd e)) + 1) else f (fst (snd e))) /\
  match snd (snd e) with Some r => fold_left adv_carry d f r = (if c then f r - 4 else f r) | None => True end.
Proof.
  induction d as [|a d IH]; intros f ND e Hi; [destruct Hi|]. rewrite derived_cons in ND. cbn [fold_left].
  assert (NDd : NoDup (derived d)) by (apply nodup_app_r in ND; exact ND).
  assert (NDa : NoDup (evars a)) by (apply nodup_app_l in ND; exact ND).
  assert (AP : forall x, In x (evars a) -> ~ In x (derived d)).
  { clear -ND. induction (evars a) as [|y l IHl]; intros x Hx; [destruct Hx|]. cbn in ND. inversion ND; subst.
    destruct Hx as [<-|Hx]; [rewrite in_app_iff in *; tauto|auto]. }
  destruct Hi as [<-|Hi].
  - destruct (adv_carry_own a f NDa) as [H1 H2]. cbv zeta in *. unfold evars in AP. destruct (snd (snd a)) as [r|].
    + rewrite !fold_carry_other by (apply AP; cbn; auto). auto.
    + rewrite !fold_carry_other by (apply AP; cbn; auto). auto.
  - assert (AP' : forall x, In x (evars e) -> ~ In x (evars a)).
    { intros x Hx Ha. apply (AP x Ha). apply (in_derived e d); assumption. }
    assert (NO : forall x, In x (evars e) -> adv_carry f a x = f x).
    { intros x Hx. specialize (AP' x Hx). unfold adv_carry, evars in *.
      destruct (snd (snd a)) as [r|]; [|reflexivity]. cbn in AP'. destruct (4 <=? f r); [|reflexivity].
      rewrite !setv_other by tauto; reflexivity. }
    destruct (IH (adv_carry f a) NDd e Hi) as [H1 H2]. cbv zeta in *. rewrite H1. unfold evars in NO.
    destruct (snd (snd e)) as [r|]; [rewrite H2|]; rewrite !NO by (cbn; auto); auto.
Qed.
Lemma advance_holds d f n e : NoDup (derived d) -> Forall wfe d -> In e d -> 0 <= fst e -> 0 <= n ->
  holds n f e -> holds (n + 1) (fold_left adv_carry d (fold_left adv_add d f)) e.
Proof.
  intros ND W Hi Hk Hn [H1 H2].
  destruct (fold_add_own d f ND e Hi) as [A1 A2].
  destruct (fold_carry_own d (fold_left adv_add d f) ND e Hi) as [C1 C2]. cbv zeta in *.
  unfold holds. rewrite Z.mul_add_distr_r, Z.mul_1_l. set (t := n * fst e) in *. set (k := fst e) in *.
  assert (We : wfe e) by (rewrite Forall_forall in W; auto).
  pose proof (Z.div_mod t 4 ltac:(lia)) as Dt. pose proof (Z.mod_pos_bound t 4 ltac:(lia)) as Bt.
  pose proof (Z.div_mod k 4 ltac:(lia)) as Dk. pose proof (Z.mod_pos_bound k 4 ltac:(lia)) as Bk.
  destruct (wfe_cases e We) as [(r & Er & Em) | (Er & Em)]; rewrite Er in *; fold k in Em.
  - rewrite C1, C2, A1, A2, H1, H2. rewrite (u32_small (t mod 4 + k mod 4)) by lia.
    destruct (Z.leb_spec 4 (t mod 4 + k mod 4)).
    + assert (E : (t + k) / 4 = t / 4 + k / 4 + 1) by (symmetry; apply Z.div_unique with (t mod 4 + k mod 4 - 4); lia).
      split.
      * rewrite E, u32_add_l. replace (u32 (t / 4) + k / 4 + 1) with (u32 (t / 4) + (k / 4 + 1)) by lia.
        rewrite u32_add_l. f_equal. lia.
      * apply Z.mod_unique with ((t + k) / 4); lia.
    + assert (E : (t + k) / 4 = t / 4 + k / 4) by (symmetry; apply Z.div_unique with (t mod 4 + k mod 4); lia).
      split.
      * rewrite E, u32_add_l. reflexivity.
      * apply Z.mod_unique with ((t + k) / 4); lia.
  - rewrite C1, A1, H1. split; [|exact I]. rewrite u32_add_l.
    f_equal. apply Z.div_unique with (t mod 4); lia.
Qed.

(* ---- what code generation builds ---- *)
Lemma lookup_put_same k v d : lookup k (put k v d) = Some v.
Proof.
  induction d as [|[k' v'] d IH]; cbn [put lookup]; [rewrite Z.eqb_refl; reflexivity|].
  destruct (Z.eqb_spec k k') as [->|N]; [cbn [lookup]; rewrite Z.eqb_refl; reflexivity|].
  destruct (k <? k'); cbn [lookup]; [rewrite Z.eqb_refl; reflexivity|].
  apply Z.eqb_neq in N. rewrite N. exact IH.
Qed.
Lemma lookup_put_other k k1 v d : k1 <> k -> lookup k1 (put k v d) = lookup k1 d.
Proof.
  intros N. apply Z.eqb_neq in N.
  induction d as [|[k' v'] d IH]; cbn [put lookup]; [rewrite N; reflexivity|].
  destruct (Z.eqb_spec k k') as [<-|N']; [cbn [lookup]; rewrite N; reflexivity|].
  destruct (k <? k'); cbn [lookup]; [rewrite N; reflexivity|]. rewrite IH. reflexivity.
Qed.
Lemma put_new k v d : lookup k d = None -> Permutation (put k v d) ((k, v) :: d).
Proof.
  induction d as [|[k' v'] d IH]; cbn [put lookup]; intros H; [constructor; constructor|].
  destruct (k =? k'); [discriminate|]. destruct (k <? k'); [apply Permutation_refl|].
  eapply Permutation_trans; [apply perm_skip; apply IH; exact H|]. apply perm_swap.
Qed.
Lemma lookup_in k v d : lookup k d = Some v -> In (k, v) d.
Proof.
  induction d as [|[k' v'] d IH]; cbn [lookup]; intros H; [discriminate|].
  destruct (Z.eqb_spec k k') as [->|N]; [left; congruence|right; auto].
Qed.

Record good (rg : Z) (c : cst) : Prop := mkgood {
  g_wf : Forall wfe (dict c);
  g_nd : NoDup (derived (dict c));
  g_fr : forall x, In x (derived (dict c)) -> (x < fresh c)%nat;
  g_k : forall e, In e (dict c) -> 0 < fst e /\ fst e mod 4 <> 3;
  g_b : dict c <> [] -> bits c = Z.to_nat (bit_length rg);
  g_m : rg <= maxv c }.

Lemma bit_length_spec n : 0 <= n -> 0 <= bit_length n /\ n < 2 ^ bit_length n.
Proof.
  intros H. unfold bit_length. destruct (Z.eqb_spec n 0) as [->|N]; [cbn; lia|].
  pose proof (Z.log2_spec n ltac:(lia)). pose proof (Z.log2_nonneg n). unfold Z.succ in *. lia.
Qed.
Lemma shiftl_max n : 0 <= n -> Z.shiftl 1 (bit_length n) - 1 = 2 ^ bit_length n - 1.
Proof. intros H. destruct (bit_length_spec n H). rewrite Z.shiftl_mul_pow2, Z.mul_1_l by lia. reflexivity. Qed.

Lemma flat_map_perm {A B} (f : A -> list B) l l' : Permutation l l' -> Permutation (flat_map f l) (flat_map f l').
Proof. apply Permutation_flat_map. Qed.

Lemma cache_good rg k c qr c1 : 0 < rg -> 0 < k -> k mod 4 <> 3 ->
  match c with Some c0 => good rg c0 | None => True end ->
  get_stride_cache rg k c = Some (qr, c1) ->
  good rg c1 /\ lookup k (dict c1) = Some qr /\
  (forall c0 k1 v, c = Some c0 -> lookup k1 (dict c0) = Some v -> lookup k1 (dict c1) = Some v).
Proof.
  intros Hrg Hk Hk3 Hc H. unfold get_stride_cache in H.
  destruct (bit_length_spec rg ltac:(lia)) as [B1 B2]. pose proof (shiftl_max rg ltac:(lia)) as SM.
  assert (G : exists c0, stride_dict rg c = Some c0 /\ good rg c0 /\ (forall c', c = Some c' -> c' = c0)).
  { destruct c as [c0|]; cbn [stride_dict] in *.
    - exists c0. split; [reflexivity|]. split; [exact Hc|]. intros c' E. congruence.
    - destruct (Z.shiftl 1 (bit_length rg) - 1 <? 1024); [|discriminate].
      eexists. split; [reflexivity|]. split; [|discriminate].
      constructor; cbn [dict maxv bits fresh derived flat_map].
      + constructor.
      + constructor.
      + intros x [].
      + intros e [].
      + intros HH. destruct (HH eq_refl).
      + rewrite SM. lia. }
  destruct G as (c0 & E0 & G0 & Hold). rewrite E0 in H. clear E0. cbv zeta in H.
  destruct (lookup k (dict c0)) as [v|] eqn:L.
  - assert (M := g_m _ _ G0). replace (maxv c0 <? rg) with false in H by lia. injection H as <- <-.
    split; [exact G0|]. split; [exact L|]. intros c' k1 v1 E. rewrite (Hold _ E). auto.
  - destruct (Z.eqb_spec (bit_length rg) 0) as [Z0|_]; [discriminate|]. injection H as <- <-.
    set (r := if k mod 4 =? 0 then None else Some (S (fresh c0))).
    assert (P := put_new k (fresh c0, r) (dict c0) L).
    assert (PD : Permutation (derived (put k (fresh c0, r) (dict c0))) (evars (k, (fresh c0, r)) ++ derived (dict c0))).
    { exact (flat_map_perm evars _ _ P). }
    split; [|split].
    + destruct G0 as [g1 g2 g3 g4 g5 g6]. constructor; cbn [dict maxv bits fresh].
      * apply Forall_forall. intros e He. apply (Permutation_in _ P) in He. destruct He as [<-|He].
        -- unfold wfe, r. cbn [fst snd]. destruct (Z.eqb_spec (k mod 4) 0); split; intros; (assumption || reflexivity || discriminate || lia).
        -- rewrite Forall_forall in g1. auto.
      * apply (Permutation_NoDup (Permutation_sym PD)). unfold evars, r. cbn [fst snd].
        destruct (k mod 4 =? 0); cbn [app].
        -- constructor; [|exact g2]. intros HI. apply g3 in HI. lia.
        -- constructor; [|constructor; [|exact g2]].
           ++ intros [HI|HI]; [lia|]. apply g3 in HI. lia.
           ++ intros HI. apply g3 in HI. lia.
      * intros x Hx. apply (Permutation_in _ PD) in Hx. unfold evars, r in Hx. cbn [fst snd] in Hx.
        apply in_app_iff in Hx. destruct Hx as [Hx|Hx]; [|apply g3 in Hx; lia].
        destruct (k mod 4 =? 0); cbn in Hx; lia.
      * intros e He. apply (Permutation_in _ P) in He. destruct He as [<-|He]; [cbn [fst]; lia|auto].
      * reflexivity.
      * rewrite SM. lia.
    + cbn [dict]. apply lookup_put_same.
    + intros c' k1 v1 E L1. rewrite (Hold _ E) in L1. cbn [dict]. rewrite lookup_put_other; [exact L1|].
      intros ->. congruence.
Qed.
Lemma compile_good rg accs : forall c qrs c', 0 < rg ->
  (forall a, In a accs -> fst a = rg /\ 0 < snd a /\ snd a mod 4 <> 3) ->
  match c with Some c0 => good rg c0 | None => True end ->
  compile accs c = Some (qrs, c') ->
  match c' with Some c1 => good rg c1 | None => True end /\
  (forall k v, (exists c0, c = Some c0 /\ lookup k (dict c0) = Some v) ->
     exists c1, c' = Some c1 /\ lookup k (dict c1) = Some v) /\
  (forall i a qr, nth_error accs i = Some a -> nth_error qrs i = Some qr ->
     exists c1, c' = Some c1 /\ lookup (snd a) (dict c1) = Some qr).
Proof.
  induction accs as [|[r k] accs IH]; intros c qrs c' Hrg Ha Hc H.
  - injection H as <- <-. split; [exact Hc|]. split; [auto|]. intros i a qr E. destruct i; discriminate.
  - cbn [compile] in H. destruct (Ha (r, k) (or_introl eq_refl)) as (E & K0 & K3). cbn [fst snd] in *. subst r.
    destruct (get_stride_cache rg k c) as [[qr c1]|] eqn:G; [|discriminate].
    destruct (compile accs (Some c1)) as [[qrs1 c2]|] eqn:C; [|discriminate]. injection H as <- <-.
    destruct (cache_good rg k c qr c1 Hrg K0 K3 Hc G) as (G1 & L1 & O1).
    destruct (IH (Some c1) qrs1 c2 Hrg (fun a I => Ha a (or_intror I)) G1 C) as (G2 & O2 & N2).
    split; [exact G2|]. split.
    + intros k1 v (c0 & E0 & L0). apply O2. exists c1. split; [reflexivity|]. apply (O1 c0); assumption.
    + intros i a q E1 E2. destruct i as [|i]; cbn [nth_error] in *.
      * injection E1 as <-. injection E2 as <-. cbn [snd]. apply O2. exists c1. auto.
      * apply (N2 i); assumption.
Qed.

(* ---- running ---- *)
Definition inv (c : cst) (N : Z) (s : rst) : Prop :=
  0 <= N /\ cached s = u32 N /\ 0 <= value s < 2^32 /\ forall e, In e (dict c) -> holds N (vars s) e.
Lemma update_inv rg c N s : 0 < rg -> good rg c -> inv c N s -> N < 2^32 -> 0 <= value s <= rg ->
  inv c (value s) (update c s) /\ value (update c s) = value s.
Proof.
  intros Hrg G (I1 & I2 & I3 & I4) HN Hv. unfold update. destruct (Z.eqb_spec (value s) (cached s)) as [E|E].
  - split; [|reflexivity]. rewrite u32_small in I2 by lia. rewrite E, I2. split; [exact I1|].
    split; [|split; assumption]. rewrite u32_small; lia.
  - split; [|reflexivity]. unfold inv. cbn [value cached vars]. split; [lia|].
    split; [symmetry; apply u32_small; lia|]. split; [lia|].
    intros e He. destruct G as [g1 g2 g3 g4 g5 g6].
    assert (B : bits c = Z.to_nat (bit_length rg)) by (apply g5; intros Hd; rewrite Hd in He; destruct He).
    destruct (bit_length_spec rg ltac:(lia)) as [B1 B2].
    rewrite C68_muldiv.
    + apply (setvs_holds (dict c) (vars s) (fun k => u32 (value s * k / 4)) (fun k => (value s * k) mod 4) g2 g1 e He).
    + intros k Hk. apply in_map_iff in Hk. destruct Hk as (e' & <- & He'). specialize (g4 e' He'). lia.
    + rewrite B, Z2Nat.id by lia. lia.
Qed.
Lemma advance_inv c rg N s : good rg c -> inv c N s -> inv c (if dict c then N else N + 1) (advance c s).
Proof.
  intros G (I1 & I2 & I3 & I4). destruct G as [g1 g2 g3 g4 g5 g6].
  unfold advance. destruct (dict c) as [|e0 d] eqn:D.
  - repeat split; cbn [value cached vars]; try assumption; try apply u32_range.
    + rewrite D in *. destruct H.
    + rewrite D in *. destruct H.
  - split; [lia|]. cbn [value cached vars]. split; [rewrite I2, u32_add_l; reflexivity|].
    split; [apply u32_range|]. rewrite D. intros e He. apply advance_holds; auto.
    specialize (g4 e He). lia.
Qed.
Lemma run_inv rg c : 0 < rg -> good rg c -> forall os N s, inv c N s ->
  (forall pre post, os = pre ++ Access :: post -> 0 <= value (run c pre s) <= rg) ->
  Z.max N rg + Z.of_nat (length os) < 2^32 ->
  exists N', inv c N' (run c os s) /\ N' <= Z.max N rg + Z.of_nat (length os).
Proof.
  intros Hrg G. induction os as [|o os IH]; intros N s I R L.
  - exists N. split; [exact I|]. cbn. lia.
  - cbn [length] in L. rewrite Nat2Z.inj_succ in L.
    assert (HR : forall pre post, os = pre ++ Access :: post -> 0 <= value (run c pre (step c s o)) <= rg).
    { intros pre post E. apply (R (o :: pre) post). rewrite E. reflexivity. }
    assert (S1 : exists N1, inv c N1 (step c s o) /\ N1 <= Z.max N rg + 1 /\ (N1 <= rg \/ N1 <= N + 1)).
    { destruct o as [v| |]; cbn [step].
      - exists N. split; [|lia]. destruct I as (I1 & I2 & I3 & I4). split; [exact I1|]. cbn [cached value vars].
        split; [exact I2|]. split; [apply u32_range|exact I4].
      - assert (V : 0 <= value s <= rg) by (apply (R [] os); reflexivity).
        exists (value s). destruct (update_inv rg c N s Hrg G I ltac:(lia) V) as [U _]. split; [exact U|]. lia.
      - eexists. split; [apply (advance_inv c rg N s G I)|]. destruct (dict c); lia. }
    destruct S1 as (N1 & I1 & B1 & B1').
    destruct (IH N1 (step c s o) I1 HR ltac:(lia)) as (N' & I' & B').
    exists N'. split; [exact I'|]. cbn [length]. rewrite Nat2Z.inj_succ. lia.
Qed.

(* ================= addresses ================= *)
Lemma points_cache offset k n q r : 0 < k -> k mod 4 <> 3 -> 0 <= n -> q = u32 (n * k / 4) ->
  r = (n * k) mod 4 -> points (get_epd_cache offset k q r) (offset + n * k).
Proof.
  intros Hk Hk3 Hn -> ->. unfold get_epd_cache, EPDc. cbv zeta.
  pose proof (Z.div_mod (n * k) 4 ltac:(lia)) as D. pose proof (Z.mod_pos_bound (n * k) 4 ltac:(lia)) as B.
  set (t := n * k) in *.
  pose proof (Z.div_mod offset 4 ltac:(lia)) as Do. pose proof (Z.mod_pos_bound offset 4 ltac:(lia)) as Bo.
  replace (offset - 0x58A364) with (offset + (-1452249) * 4) by lia. rewrite Z.div_add by lia.
  rewrite u32_add_r.
  destruct (Z.eqb_spec (offset mod 4) 0) as [Eo|Eo].
  - split; cbn [fst snd]; [exact B|].
    rewrite <- (u32_add_l (_ + _)), <- (u32_add_r _ (4 * _)), <- u32_mul_r.
    rewrite u32_idem, u32_mul_r, u32_add_r, u32_add_l. f_equal. lia.
  - rewrite (u32_small (offset mod 4 + t mod 4)) by lia.
    destruct ((4 <=? offset mod 4 + (4 - k) mod 4) && (4 <=? offset mod 4 + t mod 4)) eqn:C.
    + split; cbn [fst snd]; [lia|]. rewrite u32_add_l.
      rewrite <- (u32_add_l (_ + _)), <- (u32_add_r _ (4 * _)), <- u32_mul_r.
      rewrite u32_idem, u32_mul_r, u32_add_r, u32_add_l. f_equal. lia.
    + assert (S : offset mod 4 + t mod 4 < 4).
      { apply andb_false_iff in C. destruct C as [C|C]; [|lia].
        (* the largest rest of a multiple of k *)
        assert (K : k mod 4 = 0 \/ k mod 4 = 1 \/ k mod 4 = 2) by (pose proof (Z.mod_pos_bound k 4 ltac:(lia)); lia).
        assert (E4 : (4 - k) mod 4 = (4 - k mod 4) mod 4) by (rewrite Zminus_mod_idemp_r; reflexivity).
        rewrite E4 in C. assert (T : t mod 4 = (n mod 4 * (k mod 4)) mod 4) by (unfold t; apply Z.mul_mod; lia).
        pose proof (Z.mod_pos_bound n 4 ltac:(lia)) as Bn.
        assert (NN : n mod 4 = 0 \/ n mod 4 = 1 \/ n mod 4 = 2 \/ n mod 4 = 3) by lia.
        destruct K as [K|[K|K]]; rewrite K in C, T;
          [change ((4 - 0) mod 4) with 0 in C | change ((4 - 1) mod 4) with 3 in C | change ((4 - 2) mod 4) with 2 in C];
          destruct NN as [NN|[NN|[NN|NN]]]; rewrite NN in T; cbn in T; lia. }
      split; cbn [fst snd]; [lia|].
      rewrite <- (u32_add_l (_ + _)), <- (u32_add_r _ (4 * _)), <- u32_mul_r.
      rewrite u32_idem, u32_mul_r, u32_add_r, u32_add_l. f_equal. lia.
Qed.

(* Constant object number. *)
Theorem C68_member_const offset stride n :
  points (get_epd_const offset stride n) (offset + n * stride).
Proof.
  unfold get_epd_const, points, EPDc. cbv zeta. cbn [fst snd]. set (a := offset + n * stride).
  change ((0 - 5808996) / 4) with (-1452249). pose proof (Z.div_mod a 4 ltac:(lia)).
  pose proof (Z.mod_pos_bound a 4 ltac:(lia)). split; [lia|]. f_equal. lia.
Qed.
(* Stride 4: the address is computed without the cache. *)
Theorem C68_member_dword offset v : points (get_epd_dword offset v) (offset + v * 4).
Proof.
  unfold get_epd_dword, points, EPDc. cbn [fst snd].
  replace (offset - 0x58A364) with (offset + (-1452249) * 4) by lia. rewrite Z.div_add by lia.
  pose proof (Z.div_mod offset 4 ltac:(lia)). pose proof (Z.mod_pos_bound offset 4 ltac:(lia)).
  split; [lia|]. rewrite <- (u32_add_l (_ + _)), <- (u32_add_r _ (4 * _)), u32_mul_r, u32_add_r, u32_add_l.
  f_equal. lia.
Qed.
(* Struct members: e is the EPD of the object. *)
Theorem C68_member_struct offset e : points (get_epd_struct offset e) (0x58A364 + 4 * e + offset).
Proof.
  unfold get_epd_struct, points. cbn [fst snd]. pose proof (Z.div_mod offset 4 ltac:(lia)).
  pose proof (Z.mod_pos_bound offset 4 ltac:(lia)). split; [lia|]. f_equal. lia.
Qed.
(* Variable object number: whatever accesses to members of one class the program has
   (before or after the one looked at), and whatever the program does with the variable
   before the access, as long as its accesses happen in range. *)
Theorem C68_member_var rg accs qrs c i stride qr offset os s :
  0 < rg -> (forall a, In a accs -> fst a = rg /\ 0 < snd a /\ snd a mod 4 <> 3) ->
  compile accs None = Some (qrs, Some c) ->
  nth_error accs i = Some (rg, stride) -> nth_error qrs i = Some qr ->
  initial s -> in_range rg c s (os ++ [Access]) -> rg + Z.of_nat (length os) < 2^32 ->
  points (get_epd_var offset stride qr c (run c os s)) (offset + value (run c os s) * stride).
Proof.
  intros Hrg Ha HC E1 E2 (I1 & I2 & I3) HR HL.
  destruct (compile_good rg accs None qrs (Some c) Hrg Ha I HC) as (G & _ & NT).
  destruct (NT i _ _ E1 E2) as (c1 & Ec & L). injection Ec as <-. cbn [snd] in L.
  unfold get_epd_var. destruct (Z.eqb_spec stride 4) as [->|N4]; [apply C68_member_dword|]. cbv zeta.
  destruct (Ha _ (nth_error_In _ _ E1)) as (_ & K0 & K3). cbn [snd] in K0, K3.
  assert (I0 : inv c 0 s).
  { split; [lia|]. split; [rewrite I1; reflexivity|]. split; [exact I2|]. intros e _. unfold holds. rewrite !I3.
    split; [reflexivity|]. destruct (snd (snd e)); [apply I3|exact I]. }
  assert (R0 : forall pre post, os = pre ++ Access :: post -> 0 <= value (run c pre s) <= rg).
  { intros pre post E. apply (HR pre (post ++ [Access])). rewrite E, <- app_assoc. reflexivity. }
  destruct (run_inv rg c Hrg G os 0 s I0 R0 ltac:(lia)) as (N' & IN & BN).
  assert (V : 0 <= value (run c os s) <= rg) by (apply (HR os []); reflexivity).
  destruct (update_inv rg c N' _ Hrg G IN ltac:(lia) V) as [(_ & _ & _ & U) EV].
  specialize (U _ (lookup_in _ _ _ L)). destruct U as [U1 U2]. cbn [fst snd] in U1, U2.
  apply points_cache; try assumption; try lia.
  destruct (snd qr) eqn:Er; [exact U2|].
  assert (W := g_wf _ _ G). rewrite Forall_forall in W. specialize (W _ (lookup_in _ _ _ L)).
  unfold wfe in W. cbn [fst snd] in W. destruct W as [W _]. specialize (W Er).
  rewrite Z.mul_mod, W, Z.mul_0_r by lia. reflexivity.
Qed.
(* code generation succeeds for every class whose numbers fit ten bits *)
Theorem C68_compiles rg accs c : 0 < rg < 1024 -> (forall a, In a accs -> fst a = rg) ->
  exists r, compile accs c = Some r.
Proof.
  intros Hrg. revert c. induction accs as [|[r k] accs IH]; intros c Ha; [eexists; reflexivity|].
  cbn [compile]. assert (E := Ha (r, k) (or_introl eq_refl)). cbn [fst] in E. subst r.
  assert (G : exists x, get_stride_cache rg k c = Some x).
  { unfold get_stride_cache.
    assert (S : exists c0, stride_dict rg c = Some c0).
    { destruct c as [c0|]; cbn [stride_dict]; [eauto|].
      rewrite shiftl_max by lia. destruct (Z.ltb_spec (2 ^ bit_length rg - 1) 1024) as [_|B]; [eauto|exfalso].
      unfold bit_length in B. replace (rg =? 0) with false in B by lia.
      assert (Z.log2 rg <= 9) by (apply Z.lt_succ_r; apply Z.log2_lt_pow2; [lia|cbn; lia]).
      assert (2 ^ (Z.log2 rg + 1) <= 2 ^ 10) by (apply Z.pow_le_mono_r; lia). change (2^10) with 1024 in *. lia. }
    destruct S as [c0 ->]. cbv zeta.
    replace (bit_length rg =? 0) with false.
    - destruct (lookup k (dict c0)); [destruct (maxv c0 <? rg)|]; eauto.
    - unfold bit_length. replace (rg =? 0) with false by lia. pose proof (Z.log2_nonneg rg). lia. }
  destruct G as [[qr c1] ->]. destruct (IH (Some c1) (fun a I => Ha a (or_intror I))) as [[qrs c2] ->]. eauto.
Qed.
(* all members of the library meet the hypotheses, the constructors accept them, and their
   bytes lie in one dword for every object of the class *)
Theorem C68_library cls size offset stride : In cls library -> In (size, offset, stride) (snd cls) ->
  0 < fst cls < 1024 /\ 0 < stride /\ stride mod 4 <> 3 /\ member_ok size offset stride = true /\
  forall n, (offset + n * stride) mod 4 + size <= 4.
Proof.
  assert (T : forallb (fun cls => (0 <? fst cls) && (fst cls <? 1024) && forallb (fun m =>
     let '(size, offset, stride) := m in
     (0 <? stride) && negb (stride mod 4 =? 3) && member_ok size offset stride &&
     forallb (fun n => (offset + n * stride) mod 4 + size <=? 4) [0; 1; 2; 3]) (snd cls)) library = true) by reflexivity.
  intros H1 H2. rewrite forallb_forall in T. specialize (T _ H1). apply andb_true_iff in T. destruct T as [T1 T2].
  rewrite forallb_forall in T2. specialize (T2 _ H2). cbv beta iota in T2.
  rewrite !andb_true_iff in T2. destruct T2 as [[[T2 T3] T4] T5].
  split; [lia|]. split; [lia|]. split; [lia|]. split; [exact T4|]. intros n.
  assert (E : (offset + n * stride) mod 4 = (offset + (n mod 4) * stride) mod 4).
  { rewrite <- (Z.add_mod_idemp_r offset (n mod 4 * stride)), Z.mul_mod_idemp_l, Z.add_mod_idemp_r by lia. reflexivity. }
  rewrite E. rewrite forallb_forall in T5. pose proof (Z.mod_pos_bound n 4 ltac:(lia)).
  assert (NN : In (n mod 4) [0; 1; 2; 3]) by (cbn; lia). specialize (T5 _ NN). lia.
Qed.
(* a program with three accesses, a loop over the units, and an assignment *)
Definition ex_accs : list (Z * Z) := [(227, 1); (227, 2); (227, 1)].
Definition ex_c : cst :=
  match compile ex_accs None with Some (_, Some c) => c | _ => mkcst [] 0 0%nat 0%nat end.
Definition ex_ops : list op := [Access; Advance; Access; Advance; Assign 200; Advance; Access; Advance].
Definition ex_s : rst := mkrst 0 0 (fun _ => 0).
Example C68_member_var_ex :
  compile ex_accs None = Some ([(0, Some 1); (2, Some 3); (0, Some 1)]%nat, Some ex_c) /\
  initial ex_s /\ in_range 227 ex_c ex_s (ex_ops ++ [Access]) /\
  get_epd_var 0x660FC8 1 (0, Some 1)%nat ex_c (run ex_c ex_ops ex_s) = (EPDc 0x660FC8 + 50, 2) /\
  value (run ex_c ex_ops ex_s) = 202.
Proof.
  split; [reflexivity|]. split; [unfold initial; cbn; split; [reflexivity|]; split; [lia|reflexivity]|].
  split; [|split; reflexivity].
  intros pre post E. unfold ex_ops in E.
  do 9 (destruct pre as [|? pre]; [try discriminate; vm_compute; split; intro; discriminate|injection E as <- E]).
  destruct pre; discriminate.
Qed.
(* Objects of two classes that share a variable (made with cast, epdoffsetmap.py 34-39):
   the second class rebuilds the cache, the first access is left with variables that
   nothing updates (range grows) or with too few bits (range shrinks). *)
Definition shared_ok (accs : list (Z * Z)) (i : nat) : Prop :=
  forall qrs c rg stride qr offset v, compile accs None = Some (qrs, Some c) ->
    nth_error accs i = Some (rg, stride) -> nth_error qrs i = Some qr -> 0 <= v <= rg ->
    points (get_epd_var offset stride qr c (mkrst v 0 (fun _ => 0))) (offset + v * stride).
Theorem C68_shared_variable_refuted :
  ~ shared_ok [(129, 1); (998, 1)] 0 /\ ~ shared_ok [(998, 1); (129, 2)] 0.
Proof.
  split; intros H.
  - specialize (H _ _ 129 1 _ 0x657258 5 eq_refl eq_refl eq_refl ltac:(lia)). destruct H as [_ H]. vm_compute in H. discriminate H.
  - specialize (H _ _ 998 1 _ 0x66E860 256 eq_refl eq_refl eq_refl ltac:(lia)). destruct H as [_ H]. vm_compute in H. discriminate H.
Qed.

(* ================= comparing, bits and flags ================= *)
Lemma size_mask_bits size subp i : 0 <= size -> 0 <= subp -> 0 <= i ->
  Z.testbit (size_mask size subp) i = (8 * subp <=? i) && (i <? 8 * subp + 8 * size).
Proof.
  intros Hs Hp Hi. unfold size_mask. rewrite Z.shiftl_spec by lia.
  rewrite Z.shiftl_mul_pow2, Z.mul_1_l by lia. rewrite Z.sub_1_r, <- Z.ones_equiv.
  destruct (Z.leb_spec (8 * subp) i).
  - rewrite Z.testbit_ones by lia. lia.
  - rewrite Z.testbit_neg_r by lia. reflexivity.
Qed.
Lemma masked_field size subp dw : 0 <= size -> 0 <= subp ->
  Z.land dw (size_mask size subp) = field size subp dw * 2 ^ (8 * subp).
Proof.
  intros Hs Hp. unfold field. apply Z.bits_inj'. intros i Hi. rewrite Z.land_spec, size_mask_bits by lia.
  rewrite <- Z.shiftl_mul_pow2, Z.shiftl_spec by lia.
  destruct (Z.leb_spec (8 * subp) i); [|rewrite (Z.testbit_neg_r _ (i - _)), andb_false_r by lia; reflexivity].
  destruct (Z.ltb_spec i (8 * subp + 8 * size)).
  - rewrite Z.mod_pow2_bits_low, <- Z.shiftr_div_pow2, Z.shiftr_spec by lia. rewrite andb_true_r. f_equal. lia.
  - rewrite Z.mod_pow2_bits_high by lia. apply andb_false_r.
Qed.
Definition compares (c : cmp) (x y : Z) : Prop :=
  match c with Exactly => x = y | AtMost => x <= y | AtLeast => y <= x end.
Lemma memoryx_spec c dw value size subp : 0 <= size -> 0 <= subp ->
  memoryx c dw (value * 2 ^ (8 * subp)) (size_mask size subp) = true <-> compares c (field size subp dw) value.
Proof.
  intros Hs Hp. pose proof (Z.pow_pos_nonneg 2 (8 * subp) ltac:(lia) ltac:(lia)) as P.
  destruct c; unfold memoryx, compares; rewrite masked_field by lia; rewrite ?Z.eqb_eq, ?Z.leb_le.
  - split; [apply Z.mul_reg_r; lia|intros ->; reflexivity].
  - symmetry. apply Z.mul_le_mono_pos_r. exact P.
  - symmetry. apply Z.mul_le_mono_pos_r. exact P.
Qed.
(* Comparing a member with a constant: accepted exactly for values that fit the member,
   and then it compares the member's bytes. *)
Theorem C69_compare_const c size subp value dw : 0 < size -> 0 <= subp -> subp + size <= 4 ->
  match cmpattr_const c size subp value dw with
  | Some b => 0 <= value < 2 ^ (8 * size) /\ (b = true <-> compares c (field size subp dw) value)
  | None => ~ (0 <= value < 2 ^ (8 * size))
  end.
Proof.
  intros Hs Hp _. unfold cmpattr_const. cbv zeta.
  assert (EV : (if subp =? 0 then value else Z.shiftl value (8 * subp)) = value * 2 ^ (8 * subp)).
  { destruct (Z.eqb_spec subp 0) as [->|N]; [change (2 ^ (8 * 0)) with 1; lia|]. apply Z.shiftl_mul_pow2. lia. }
  rewrite EV. pose proof (Z.pow_pos_nonneg 2 (8 * subp) ltac:(lia) ltac:(lia)) as P.
  pose proof (Z.pow_pos_nonneg 2 (8 * size) ltac:(lia) ltac:(lia)) as P2.
  assert (F : Z.land (value * 2 ^ (8 * subp)) (size_mask size subp) = (value mod 2 ^ (8 * size)) * 2 ^ (8 * subp)).
  { rewrite masked_field by lia. unfold field. rewrite Z.div_mul by lia. reflexivity. }
  rewrite <- Z.ldiff_land. pose proof (ldiff_land_split (value * 2 ^ (8 * subp)) (size_mask size subp)) as SP.
  rewrite F in SP.
  destruct (Z.eqb_spec (Z.ldiff (value * 2 ^ (8 * subp)) (size_mask size subp)) 0) as [E|E].
  - rewrite E, Z.add_0_l in SP. apply Z.mul_reg_r in SP; [|lia].
    split; [rewrite <- SP; apply Z.mod_pos_bound; lia|]. apply memoryx_spec; lia.
  - intros B. apply E. rewrite Z.mod_small in SP by lia. lia.
Qed.
(* With a variable value or offset: for values that fit. *)
Theorem C69_compare_var c size subp value dw : 0 < size -> 0 <= subp -> subp + size <= 4 ->
  0 <= value < 2 ^ (8 * size) ->
  (cmpattr_var c size subp value dw = true <-> compares c (field size subp dw) value).
Proof.
  intros Hs Hp H4 Hv. unfold cmpattr_var.
  pose proof (Z.pow_pos_nonneg 2 (8 * subp) ltac:(lia) ltac:(lia)) as P.
  pose proof (Z.pow_pos_nonneg 2 (8 * size) ltac:(lia) ltac:(lia)) as P2.
  assert (PP : 2 ^ (8 * size) * 2 ^ (8 * subp) <= 2 ^ 32).
  { rewrite <- Z.pow_add_r by lia. apply Z.pow_le_mono_r; lia. }
  rewrite Z.shiftl_mul_pow2 by lia. rewrite !u32_small.
  - apply memoryx_spec; lia.
  - unfold size_mask. rewrite !Z.shiftl_mul_pow2 by lia. nia.
  - nia.
Qed.
(* a variable that does not fit can equal a smaller field *)
Theorem C69_compare_wide_refuted : ~ (forall size subp value dw, 0 < size -> 0 <= subp -> subp + size <= 4 ->
  0 <= value < 2^32 -> 0 <= dw < 2^32 ->
  (cmpattr_var Exactly size subp value dw = true <-> compares Exactly (field size subp dw) value)).
Proof.
  intros H. specialize (H 1 3 0x105 0x05000000 ltac:(lia) ltac:(lia) ltac:(lia) ltac:(lia) ltac:(lia)).
  destruct H as [H _]. specialize (H eq_refl). discriminate H.
Qed.

Definition bitpos (j subp : Z) : Z := 8 * subp + j.
Lemma shift_bit j subp : 0 <= j -> 0 <= subp -> Z.shiftl (2 ^ j) (8 * subp) = 2 ^ bitpos j subp.
Proof. intros. rewrite Z.shiftl_mul_pow2 by lia. rewrite <- Z.pow_add_r by lia. f_equal. unfold bitpos. lia. Qed.
Lemma maskwrite_bits dw v m i : 0 <= i ->
  Z.testbit (maskwrite dw v m) i = if Z.testbit m i then Z.testbit v i else Z.testbit dw i.
Proof.
  intros Hi. unfold maskwrite. rewrite Z.lor_spec, Z.ldiff_spec, Z.land_spec.
  destruct (Z.testbit m i), (Z.testbit v i), (Z.testbit dw i); reflexivity.
Qed.
(* Bit members (bit j of the byte: 0 for BoolMember, 1 for Bit1Member). *)
Theorem C69_bit_read j subp dw : 0 <= j -> 0 <= subp ->
  bit_read (2 ^ j) subp dw = Z.b2z (Z.testbit dw (bitpos j subp)).
Proof.
  intros Hj Hp. unfold bit_read. rewrite shift_bit, land_pow2 by (unfold bitpos; lia).
  pose proof (Z.pow_pos_nonneg 2 (bitpos j subp) ltac:(lia) ltac:(unfold bitpos; lia)).
  destruct (Z.testbit dw (bitpos j subp)); cbn [Z.b2z].
  - replace (1 <=? 2 ^ bitpos j subp) with true by lia. reflexivity.
  - reflexivity.
Qed.
Theorem C69_bit_write j subp b dw i : 0 <= j -> 0 <= subp -> 0 <= b -> 0 <= i ->
  Z.testbit (bit_write (2 ^ j) subp b dw) i = if i =? bitpos j subp then negb (b =? 0) else Z.testbit dw i.
Proof.
  intros Hj Hp Hb Hi. unfold bit_write. cbv zeta. rewrite shift_bit by lia.
  assert (PB : Z.testbit (2 ^ bitpos j subp) i = (i =? bitpos j subp)).
  { rewrite Z.pow2_bits_eqb by (unfold bitpos; lia). apply Z.eqb_sym. }
  destruct (Z.leb_spec 1 b).
  - replace (b =? 0) with false by lia. rewrite !maskwrite_bits, PB by lia.
    destruct (i =? bitpos j subp); reflexivity.
  - replace (b =? 0) with true by lia. rewrite maskwrite_bits, PB by lia.
    destruct (i =? bitpos j subp); [apply Z.testbit_0_l|reflexivity].
Qed.
(* A flag is read as 1 exactly when all bits of its mask are set. *)
Lemma flag_all m x : 0 < m -> 
  (if Z.land x m <=? m - 1 then 0 else 1) = 1 <-> forall i, Z.testbit m i = true -> Z.testbit x i = true.
Proof.
  intros Hm.
  assert (Le : Z.land x m <= m).
  { pose proof (ldiff_land_split m x) as S. rewrite (Z.land_comm m x) in S.
    assert (0 <= Z.ldiff m x) by (apply Z.ldiff_nonneg; lia). lia. }
  assert (E : Z.land x m = m <-> forall i, Z.testbit m i = true -> Z.testbit x i = true).
  { split.
    - intros E i Hi. rewrite <- E, Z.land_spec in Hi. apply andb_true_iff in Hi. tauto.
    - intros H. apply Z.bits_inj'. intros i _. rewrite Z.land_spec. specialize (H i).
      destruct (Z.testbit m i); [rewrite H; reflexivity|apply andb_false_r]. }
  rewrite <- E. destruct (Z.leb_spec (Z.land x m) (m - 1)); split; intros; lia.
Qed.
Theorem C69_flag_get_array mask flags : 0 < mask ->
  flag_get_array mask flags = 1 <-> forall i, Z.testbit mask i = true -> Z.testbit flags i = true.
Proof. apply flag_all. Qed.
Theorem C69_flag_get_struct mask subp dw : 0 < mask -> 0 <= subp ->
  flag_get_struct mask subp dw = 1 <-> forall i, Z.testbit mask i = true -> Z.testbit dw (i + 8 * subp) = true.
Proof.
  intros Hm Hp. unfold flag_get_struct. cbv zeta. rewrite flag_all.
  - split; intros H i Hi.
    + destruct (Z.ltb_spec i 0); [rewrite Z.testbit_neg_r in Hi by lia; discriminate|].
      apply H. rewrite Z.shiftl_spec by lia. rewrite Z.add_simpl_r. exact Hi.
    + destruct (Z.ltb_spec i 0); [rewrite Z.testbit_neg_r in Hi by lia; discriminate|].
      rewrite Z.shiftl_spec in Hi by lia. specialize (H _ Hi). rewrite Z.sub_add in H. exact H.
  - rewrite Z.shiftl_mul_pow2 by lia. pose proof (Z.pow_pos_nonneg 2 (8 * subp)). nia.
Qed.
Lemma flag_mask mask size subp i : 0 < mask < 2 ^ (8 * size) -> 0 <= size -> 0 <= subp -> subp + size <= 4 -> 0 <= i ->
  Z.testbit (u32 (Z.shiftl mask (8 * subp))) i = Z.testbit mask (i - 8 * subp) /\
  (Z.testbit (u32 (Z.shiftl mask (8 * subp))) i = true -> i < 32).
Proof.
  intros Hm Hs Hp H4 Hi.
  pose proof (Z.pow_pos_nonneg 2 (8 * subp) ltac:(lia) ltac:(lia)) as P.
  assert (PP : 2 ^ (8 * size) * 2 ^ (8 * subp) <= 2 ^ 32).
  { rewrite <- Z.pow_add_r by lia. apply Z.pow_le_mono_r; lia. }
  assert (R : 0 <= Z.shiftl mask (8 * subp) < 2^32) by (rewrite Z.shiftl_mul_pow2 by lia; nia).
  rewrite u32_small by exact R. split; [apply Z.shiftl_spec; lia|].
  intros T. destruct (Z.ltb_spec i 32); [assumption|]. rewrite (bounded_bits 32 _ ltac:(lia) R) in T by lia. discriminate.
Qed.
(* Writing a flag sets or clears all bits of its mask and no other. *)
Theorem C69_flag_set mask size subp value dw i : 0 < mask < 2 ^ (8 * size) -> 0 <= size -> 0 <= subp ->
  subp + size <= 4 -> 0 <= i ->
  Z.testbit (flag_set_var mask subp value dw) i =
    (if Z.testbit mask (i - 8 * subp) then negb (value =? 0) else Z.testbit dw i) /\
  match flag_set_const mask subp value dw with
  | Some dw' => (value = 0 \/ value = 1) /\
      Z.testbit dw' i = (if Z.testbit mask (i - 8 * subp) then negb (value =? 0) else Z.testbit dw i)
  | None => value <> 0 /\ value <> 1
  end.
Proof.
  intros Hm Hs Hp H4 Hi. destruct (flag_mask mask size subp i Hm Hs Hp H4 Hi) as [M1 M2].
  assert (F : Z.testbit mask (i - 8 * subp) = true -> Z.testbit 0xFFFFFFFF i = true).
  { intros T. rewrite <- M1 in T. apply (ones_bit32 i). split; [exact Hi|]. apply M2. exact T. }
  unfold flag_set_var, flag_set_const. cbv zeta. split.
  - destruct (Z.eqb_spec value 0); cbn [negb]; rewrite !maskwrite_bits, M1 by lia;
      destruct (Z.testbit mask (i - 8 * subp)); auto using Z.testbit_0_l.
  - destruct (Z.eqb_spec value 0) as [->|N0]; [|destruct (Z.eqb_spec value 1) as [->|N1]; [|auto]].
    + split; [auto|]. rewrite maskwrite_bits, M1 by lia. cbn [negb].
      destruct (Z.testbit mask (i - 8 * subp)); auto using Z.testbit_0_l.
    + split; [auto|]. rewrite maskwrite_bits, M1 by lia. cbn [negb].
      destruct (Z.testbit mask (i - 8 * subp)); auto.
Qed.
Example C69_compare_ex : cmpattr_const AtLeast 1 2 0x12 0x00133456 = Some true /\
  cmpattr_const AtLeast 1 2 0x112 0x00133456 = None /\ cmpattr_var AtMost 2 2 0x12 0x00133456 = false.
Proof. repeat split. Qed.
Example C69_flag_ex : flag_get_struct 0xC1 1 0xC100 = 1 /\ flag_get_struct 0xC1 1 0x8100 = 0 /\
  flag_set_var 0xC1 1 0 0xFFFF = 0x3EFF /\ flag_set_const 0xC1 1 1 0x0200 = Some 0xC300 /\
  bit_write 2 3 1 5 = 0x02000005 /\ bit_read 2 3 0x02000005 = 1.
Proof. repeat split. Qed.

Print Assumptions C68_muldiv.
Print Assumptions C68_muldiv_stride3_refuted.
Print Assumptions C68_member_const.
Print Assumptions C68_member_dword.
Print Assumptions C68_member_struct.
Print Assumptions C68_member_var.
Print Assumptions C68_compiles.
Print Assumptions C68_library.
Print Assumptions C68_shared_variable_refuted.
Print Assumptions C69_compare_const.
Print Assumptions C69_compare_var.
Print Assumptions C69_compare_wide_refuted.
Print Assumptions C69_bit_read.
Print Assumptions C69_bit_write.
Print Assumptions C69_flag_get_array.
Print Assumptions C69_flag_get_struct.
Print Assumptions C69_flag_set.
