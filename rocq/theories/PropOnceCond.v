(* Final theorems: EUDExecuteOnce with conditions (C77). *)
From Coq Require Import ZArith Lia List Bool.
From Verif Require Import Word Machine MachineProofs VarModel VarSpec VarProofs StruModel StruProofs OpsSpec OpsBase ExWorld ExTools RunDec OnceCondModel.
Import ListNotations.
Open Scope Z_scope.

(* ================= specification ================= *)
Definition same_mem (m m' : mem) : Prop := forall b, get m' b = get m b.
(* the condition is one the engine can evaluate, whatever representation memory has *)
Definition usable (m : mem) (c : cond) : Prop := forall m2, same_mem m m2 ->
  cond_ok m2 c /\ cond_type (rd m2 (c_w3 c)) <> 0 /\ eval_cond m2 c = eval_cond m c.
(* number of triggers of the header: two for every 16 conditions *)
Definition groups (n : nat) : nat := (n + 15) / 16.
(* the block has run / has not run yet *)
Definition marked (T : nat -> Z) (bend : Z) (m : mem) : Prop := get m (T 0%nat + 594) = 8 /\ get m (T 0%nat + 1) = bend.
Definition unmarked (T : nat -> Z) (n : nat) (init : Z) (m : mem) : Prop :=
  get m (T 0%nat + 594) = 4 /\ forall i, (i < groups n)%nat -> get m (T (2 * i)%nat + 1) = init.

(* ================= proofs ================= *)
Fixpoint wr (m : mem) (l : list (Z * Z)) : mem := match l with [] => m | (a, v) :: r => wr (upd m a (u32 v)) r end.
Lemma wr_ne l : forall m m1 b c, (forall b, idx b <> idx c -> get m1 b = get m b) -> idx b <> idx c -> get (wr m1 l) b = get (wr m l) b.
Proof.
  induction l as [|[a v] l IH]; intros m m1 b c H N; cbn [wr]; [apply H; exact N|].
  apply (IH _ _ b c); [|exact N]. intros x Hx. destruct (Z.eq_dec (idx x) (idx a)) as [E|E].
  - unfold upd, get. unfold idx in *. rewrite <- !E, !Z.eqb_refl. reflexivity.
  - rewrite !get_upd_ne by congruence. apply H. exact Hx.
Qed.
Lemma wr_keep l : forall m c f, get m c = f -> (forall a v, In (a, v) l -> idx a = idx c -> u32 v = f) -> get (wr m l) c = f.
Proof.
  induction l as [|[a v] l IH]; intros m c f H HL; cbn [wr]; [exact H|]. apply IH; [|intros a' v' Hi; apply HL; right; exact Hi].
  destruct (Z.eq_dec (idx a) (idx c)) as [E|E]; [|rewrite get_upd_ne by exact E; exact H].
  pose proof (HL a v (or_introl eq_refl) E) as Q. rewrite <- Q.
  assert (G : get (upd m a (u32 v)) c = get (upd m a (u32 v)) a) by (unfold get; rewrite E; reflexivity).
  rewrite G, get_upd_eq. apply u32_idem.
Qed.
Section W.
Variable w : world.
Lemma do_writes l : forall m r m', (forall a v, In (a, v) l -> writable w a) -> acts_do (W_prot w) (wr m l) r m' -> acts_do (W_prot w) m (writes l ++ r) m'.
Proof.
  induction l as [|[a v] l IH]; intros m r m' HW H; [exact H|]. cbn [writes map app fst snd wr] in *.
  destruct (HW a v (or_introl eq_refl)) as [W1 W2]. apply do_cons_M; [exact W1|exact W2|]. cbn [do_mod]. apply IH; [|exact H]. intros x y Hi. apply (HW x y). right. exact Hi.
Qed.
Lemma usable_conds m m2 cs : (forall c, In c cs -> usable m c) -> same_mem m m2 -> conds_are m2 cs (forallb (eval_cond m) cs).
Proof.
  intros H A. induction cs as [|c r IH]; [apply conds_nil|].
  destruct (H c (or_introl eq_refl) m2 A) as (X & Y & Z). destruct IH as [I1 I2]; [intros; apply H; right; auto|].
  split; cbn [conds_ok eval_conds forallb].
  - right. split; [exact X|]. intros _. exact I1.
  - rewrite I2, Z. destruct (Z.eqb_spec (cond_type (rd m2 (c_w3 c))) 0); [contradiction|reflexivity].
Qed.
Lemma usable_same m m2 c : usable m c -> same_mem m m2 -> usable m2 c /\ eval_cond m2 c = eval_cond m c.
Proof.
  intros H A. destruct (H m2 A) as (_ & _ & E). split; [|exact E]. intros m3 A3. destruct (H m3) as (X & Y & Z); [intros b; rewrite A3; apply A|].
  rewrite E. auto.
Qed.

Lemma branch_code_run T t f l : u32 t = t -> u32 f = f -> (forall a v, In (a, v) l -> writable w a) ->
  forall ch k flag m, ch <> [] -> placed w T k (branch_code T k flag ch t f (writes l)) -> rd m flag = 4 ->
  (forall i, (i < length ch)%nat -> get m (T (k + 2 * i)%nat + 1) = f /\ writable w (T (k + 2 * i)%nat + 1)) ->
  (forall a v i, In (a, v) l -> (i < length ch)%nat -> idx a = idx (T (k + 2 * i)%nat + 1) -> u32 v = f) ->
  (forall c, In c (concat ch) -> usable m c) ->
  exists m', runs w (lbl T k, m) (if forallb (eval_cond m) (concat ch) then t else f, m') /\
    same_mem (if forallb (eval_cond m) (concat ch) then wr m l else m) m'.
Proof.
  intros Ut Uf HW. induction ch as [|c r IH]; intros k flag m NE HP HF HN HL HU; [contradiction|].
  cbn [branch_code] in HP. apply placed_cons in HP. destruct HP as [P1 HP]. apply placed_cons in HP. destruct HP as [P2 P3].
  destruct (HN 0%nat ltac:(cbn; lia)) as [N1 [N2 N3]]. replace (k + 2 * 0)%nat with k in * by lia.
  pose proof (usable_conds m m c (fun x Hx => HU x (in_or_app _ _ _ (or_introl Hx))) (fun b => eq_refl)) as CA.
  cbn [concat]. rewrite forallb_app. destruct (forallb (eval_cond m) c).
  2:{ exists m. cbn [andb]. split; [|intros b; reflexivity]. eapply run_false; [exact P1|exact HF|exact CA|]. cbn [rd]. exact N1. }
  cbn [andb].
  set (m1 := upd m (T k + 1) (lbl T (k + 1))).
  assert (R1 : runs w (lbl T k, m) (lbl T (k + 1), m1)).
  { eapply run_true; [exact P1|exact HF|exact CA|apply do_cons_M; [exact N2|exact N3|cbn [do_mod]; rewrite u32_lbl; apply do_nil]|]. cbn [rd]. unfold m1. rewrite get_upd_eq. apply u32_lbl. }
  assert (NEm1 : forall b, idx b <> idx (T k + 1) -> get m1 b = get m b) by (intros b Hb; unfold m1; apply get_upd_ne; congruence).
  destruct r as [|c' r'].
  - set (m2 := upd (wr m1 l) (T k + 1) f). exists m2. cbn [concat forallb]. split.
    + eapply runs_trans; [exact R1|]. replace (S k) with (k + 1)%nat in P2 by lia. eapply run_true; [exact P2|reflexivity|apply conds_nil| |cbn [rd]; exact Ut].
      apply do_writes; [exact HW|]. apply do_cons_M; [exact N2|exact N3|]. cbn [do_mod]. rewrite Uf. apply do_nil.
    + intros b. destruct (Z.eq_dec (idx b) (idx (T k + 1))) as [E|E].
      * assert (G : forall x, get x b = get x (T k + 1)) by (intros x; unfold get; rewrite E; reflexivity). rewrite !G. unfold m2. rewrite get_upd_eq, Uf. symmetry. apply wr_keep; [exact N1|].
        intros a v Hi Ha. apply (HL a v 0%nat Hi); [cbn; lia|]. replace (k + 2 * 0)%nat with k by lia. exact Ha.
      * unfold m2. rewrite get_upd_ne by congruence. apply (wr_ne l m m1 b (T k + 1)); auto.
  - set (m2 := upd m1 (T k + 1) f).
    assert (S2 : same_mem m m2).
    { intros b. destruct (Z.eq_dec (idx b) (idx (T k + 1))) as [E|E].
      - assert (G : forall x, get x b = get x (T k + 1)) by (intros x; unfold get; rewrite E; reflexivity). rewrite !G. unfold m2. rewrite get_upd_eq, Uf. auto.
      - unfold m2. rewrite get_upd_ne by congruence. auto. }
    assert (R2 : runs w (lbl T k, m) (lbl T (k + 2), m2)).
    { eapply runs_trans; [exact R1|]. replace (S k) with (k + 1)%nat in P2 by lia. eapply run_true; [exact P2|reflexivity|apply conds_nil| |cbn [rd]; apply u32_lbl].
      cbn [app]. apply do_cons_M; [exact N2|exact N3|]. cbn [do_mod]. rewrite Uf. apply do_nil. }
    destruct (IH (k + 2)%nat (Imm 4) m2) as (m3 & R3 & S3).
    + discriminate.
    + replace (k + 2)%nat with (S (S k)) by lia. replace (S (S k)) with (k + 2)%nat in * by lia. exact P3.
    + reflexivity.
    + intros i Hi. rewrite S2. specialize (HN (S i) ltac:(cbn [length] in *; lia)). replace (k + 2 * S i)%nat with (k + 2 + 2 * i)%nat in HN by lia. exact HN.
    + intros a v i Hi Hl. specialize (HL a v (S i) Hi ltac:(cbn [length] in *; lia)). replace (k + 2 * S i)%nat with (k + 2 + 2 * i)%nat in HL by lia. exact HL.
    + intros x Hx. apply (usable_same m); [apply HU; cbn [concat]; apply in_or_app; right; exact Hx|exact S2].
    + assert (EV : forallb (eval_cond m2) (concat (c' :: r')) = forallb (eval_cond m) (concat (c' :: r'))).
      { assert (HU' : forall x, In x (concat (c' :: r')) -> eval_cond m2 x = eval_cond m x).
        { intros x Hx. apply (usable_same m m2 x); [apply HU; cbn [concat]; apply in_or_app; right; exact Hx|exact S2]. }
        revert HU'. generalize (concat (c' :: r')). induction l0 as [|y l0 IHl]; intros HU'; [reflexivity|]. cbn [forallb]. rewrite (HU' y), IHl; auto; [intros; apply HU'; right; auto|left; reflexivity]. }
      rewrite EV in *. exists m3. split; [eapply runs_trans; [exact R2|exact R3]|]. intros b. rewrite S3.
      destruct (forallb (eval_cond m) (concat (c' :: r'))); [|apply S2].
      destruct (Z.eq_dec (idx b) (idx (T k + 1))) as [E|E].
      * assert (G : forall x, get x b = get x (T k + 1)) by (intros x; unfold get; rewrite E; reflexivity). rewrite !G.
        assert (HK : forall a v, In (a, v) l -> idx a = idx (T k + 1) -> u32 v = f).
        { intros a v Hi Ha. apply (HL a v 0%nat Hi); [cbn; lia|]. replace (k + 2 * 0)%nat with k by lia. exact Ha. }
        rewrite !(wr_keep l _ (T k + 1) f); auto. rewrite S2. exact N1.
      * apply (wr_ne l m m2 b (T k + 1)); [|exact E]. intros x _. apply S2.
Qed.
End W.
Lemma groups_len {A} : forall fuel (l : list A), (length l <= fuel)%nat -> length (groups_of 16 fuel l) = groups (length l).
Proof.
  unfold groups. induction fuel as [|fu IH]; intros l H; [destruct l; [reflexivity|cbn in H; lia]|]. destruct l as [|x l]; [reflexivity|].
  cbn [groups_of length]. rewrite IH by (rewrite skipn_length; cbn [length] in *; lia). rewrite skipn_length. cbn [length] in *.
  destruct (le_lt_dec (S (length l)) 16) as [Hs|Hs].
  - replace (S (length l) - 16)%nat with 0%nat by lia. change ((0 + 15) / 16)%nat with 0%nat.
    apply (Nat.div_unique (S (length l) + 15) 16 1 (S (length l) - 1)); lia.
  - replace (S (length l) + 15)%nat with ((S (length l) - 16 + 15) + 1 * 16)%nat by lia. rewrite Nat.div_add by lia. lia.
Qed.
Lemma every_len {A} (l : list A) : length (every 16 l) = groups (length l).
Proof. apply groups_len. lia. Qed.
Lemma header_cons T neg c cs bend : once_header T neg (c :: cs) bend =
  let ch := every 16 (c :: cs) in let body := lbl T (2 * groups (length (c :: cs))) in
  branch_code T 0 (Mem (T 0%nat + 594)) ch (if neg then bend else body) (if neg then body else bend) (writes (if neg then [] else skip_writes (T 0%nat) bend)).
Proof. unfold once_header. cbv zeta. rewrite every_len. destruct neg; reflexivity. Qed.

Section Once.
Variable w : world.
Variable T : nat -> Z.
Variable bend : Z.
Hypothesis Ub : u32 bend = bend.
Variable cs : list cond.
Notation n := (length cs).
Hypothesis W1 : forall i, (i < groups n)%nat -> writable w (T (2 * i)%nat + 1).
Hypothesis W2 : writable w (T 0%nat + 594).
Hypothesis NE : forall i, (i < groups n)%nat -> idx (T 0%nat + 594) <> idx (T (2 * i)%nat + 1).

Lemma groups_pos : cs <> [] -> (0 < groups n)%nat.
Proof. intros H. unfold groups. destruct cs; [contradiction|]. cbn [length]. apply Nat.div_str_pos. lia. Qed.

(* C77: the block is entered when it has not run yet *)
Theorem C77_first m : cs <> [] -> placed w T 0 (once_header T false cs bend) -> unmarked T n bend m -> (forall c, In c cs -> usable m c) ->
  if forallb (eval_cond m) cs
  then exists m', runs w (lbl T 0, m) (lbl T (2 * groups n), m') /\ marked T bend m' /\ (forall b, idx b <> idx (T 0%nat + 594) -> get m' b = get m b)
  else exists m', runs w (lbl T 0, m) (bend, m') /\ same_mem m m'.
Proof.
  intros HC HP [U1 U2] HU. pose proof (groups_pos HC) as GP. destruct cs as [|c0 cs0] eqn:EC; [contradiction|]. rewrite <- EC in *.
  rewrite EC in HP. rewrite header_cons in HP. rewrite <- EC in HP. cbv zeta in HP.
  destruct (branch_code_run w T (lbl T (2 * groups n)) bend (skip_writes (T 0%nat) bend) (u32_lbl _ _) Ub) with (ch := every 16 cs) (k := 0%nat) (flag := Mem (T 0%nat + 594)) (m := m) as (m' & R & Q).
  - intros a v [E|[E|[]]]; injection E as <- <-; [apply (W1 0%nat GP)|exact W2].
  - apply every_nonempty. exact HC.
  - exact HP.
  - exact U1.
  - intros i Hi. rewrite every_len in Hi. split; [apply U2; exact Hi|apply W1; exact Hi].
  - intros a v i [E|[E|[]]] Hi Ha; injection E as <- <-; [exact Ub|]. rewrite every_len in Hi. exfalso. apply (NE i Hi). exact Ha.
  - rewrite every_concat by lia. exact HU.
  - rewrite every_concat in R, Q by lia. destruct (forallb (eval_cond m) cs); exists m'; (split; [exact R|]); [|exact Q].
    cbn [skip_writes wr] in Q. split; [split|].
    + rewrite Q, get_upd_eq. reflexivity.
    + rewrite Q, get_upd_ne by (apply (NE 0%nat GP)). rewrite get_upd_eq, u32_idem. exact Ub.
    + intros b Hb. rewrite Q, get_upd_ne by congruence. destruct (Z.eq_dec (idx b) (idx (T 0%nat + 1))) as [E|E]; [|apply get_upd_ne; congruence].
      assert (G : forall x, get x b = get x (T 0%nat + 1)) by (intros x; unfold get; rewrite E; reflexivity). rewrite !G, get_upd_eq, u32_idem, Ub. symmetry. apply (U2 0%nat GP).
Qed.
(* a block with neg: the conditions must fail *)
Theorem C77_first_neg m : cs <> [] -> placed w T 0 (once_header T true cs bend) -> unmarked T n (lbl T (2 * groups n)) m -> (forall c, In c cs -> usable m c) ->
  exists m', runs w (lbl T 0, m) (if forallb (eval_cond m) cs then bend else lbl T (2 * groups n), m') /\ same_mem m m'.
Proof.
  intros HC HP [U1 U2] HU. pose proof (groups_pos HC) as GP. destruct cs as [|c0 cs0] eqn:EC; [contradiction|]. rewrite <- EC in *.
  rewrite EC in HP. rewrite header_cons in HP. rewrite <- EC in HP. cbv zeta in HP.
  destruct (branch_code_run w T bend (lbl T (2 * groups n)) [] Ub (u32_lbl _ _)) with (ch := every 16 cs) (k := 0%nat) (flag := Mem (T 0%nat + 594)) (m := m) as (m' & R & Q).
  - intros a v [].
  - apply every_nonempty. exact HC.
  - exact HP.
  - exact U1.
  - intros i Hi. rewrite every_len in Hi. split; [apply U2; exact Hi|apply W1; exact Hi].
  - intros a v i [].
  - rewrite every_concat by lia. exact HU.
  - rewrite every_concat in R, Q by lia. exists m'. split; [exact R|]. destruct (forallb (eval_cond m) cs); exact Q.
Qed.
(* its last trigger marks it *)
Theorem C77_end_neg e m : cs <> [] -> W_P w (lbl T e) = Some (once_end T bend) ->
  exists m', runs w (lbl T e, m) (bend, m') /\ marked T bend m' /\
    (forall b, idx b <> idx (T 0%nat + 594) -> idx b <> idx (T 0%nat + 1) -> get m' b = get m b).
Proof.
  intros HC HP. pose proof (groups_pos HC) as GP. exists (wr m (skip_writes (T 0%nat) bend)). split; [|split; [split|]].
  - eapply run_true; [exact HP|reflexivity|apply conds_nil| |cbn [rd]; exact Ub]. rewrite <- (app_nil_r (writes _)). apply do_writes; [|apply do_nil].
    intros a v [E|[E|[]]]; injection E as <- <-; [apply (W1 0%nat GP)|exact W2].
  - cbn [skip_writes wr]. rewrite get_upd_eq. reflexivity.
  - cbn [skip_writes wr]. rewrite get_upd_ne by (apply (NE 0%nat GP)). rewrite get_upd_eq, u32_idem. exact Ub.
  - intros b B1 B2. cbn [skip_writes wr]. rewrite !get_upd_ne by congruence. reflexivity.
Qed.
(* a marked block is skipped, whatever the conditions say *)
Theorem C77_later neg m : cs <> [] -> placed w T 0 (once_header T neg cs bend) -> marked T bend m -> runs w (lbl T 0, m) (bend, m).
Proof.
  intros HC HP [M1 M2]. destruct cs as [|c0 cs0]; [contradiction|]. rewrite header_cons in HP. cbv zeta in HP.
  destruct (every 16 (c0 :: cs0)) as [|g r] eqn:EG; [exfalso; revert EG; apply every_nonempty; discriminate|].
  cbn [branch_code] in HP. apply placed_cons in HP. destruct HP as [P1 _].
  set (t := mktrig _ _ _ _) in P1.
  assert (EX : exec_trig m t = m) by (unfold exec_trig, fires; cbn [t t_flags rd]; rewrite M1; reflexivity).
  eapply steps_cons; [|apply steps_refl].
  assert (Q : step (W_P w) (W_prot w) (lbl T 0, m) (rd (exec_trig m t) (t_next t), exec_trig m t)).
  { apply step_intro; [exact P1|]. intros Q. cbn [t t_flags rd] in Q. rewrite M1 in Q. discriminate. }
  rewrite EX in Q. cbn [t t_next rd] in Q. rewrite M2 in Q. exact Q.
Qed.
End Once.
(* an empty list of conditions: the body, at address body, is not entered at the first visit
   although no condition fails, and the block is marked *)
Theorem C77_empty_refuted w T bend m body : u32 bend = bend -> writable w (T 0%nat + 1) -> writable w (T 0%nat + 594) -> idx (T 0%nat + 594) <> idx (T 0%nat + 1) ->
  placed w T 0 (once_header T false [] bend) -> get m (T 0%nat + 594) = 4 -> get m (T 0%nat + 1) = body ->
  exists m', step (W_P w) (W_prot w) (lbl T 0, m) (bend, m') /\ marked T bend m'.
Proof.
  intros Ub W1 W2 NE HP M1 _. cbn [once_header] in HP. apply placed_one in HP.
  set (m' := wr m (skip_writes (T 0%nat) bend)).
  assert (AD : acts_do (W_prot w) m (writes (skip_writes (T 0%nat) bend)) m').
  { rewrite <- (app_nil_r (writes _)). apply do_writes; [|apply do_nil]. intros a v [E|[E|[]]]; injection E as <- <-; assumption. }
  assert (MK : marked T bend m').
  { unfold m'. cbn [skip_writes wr]. split; [rewrite get_upd_eq; reflexivity|]. rewrite get_upd_ne by exact NE. rewrite get_upd_eq, u32_idem. exact Ub. }
  exists m'. split; [|exact MK]. destruct AD as [Ha1 Ha2]. set (t := mktrig _ _ _ _) in HP.
  assert (EX : exec_trig m t = m') by (unfold exec_trig, fires; cbn [t t_conds t_acts t_flags rd eval_conds]; rewrite M1; exact Ha2).
  assert (Q : step (W_P w) (W_prot w) (lbl T 0, m) (rd (exec_trig m t) (t_next t), exec_trig m t)).
  { apply step_intro; [exact HP|]. unfold trig_ok. cbn [t t_conds t_acts t_flags rd]. intros _. split; [exact I|]. intros _. rewrite M1. split; [reflexivity|exact Ha1]. }
  rewrite EX in Q. cbn [t t_next rd] in Q. rewrite (proj2 MK) in Q. exact Q.
Qed.
Print Assumptions C77_first.
Print Assumptions C77_first_neg.
Print Assumptions C77_end_neg.
Print Assumptions C77_later.
Print Assumptions C77_empty_refuted.

(* ---------- a concrete case: 17 conditions, two groups ---------- *)
Lemma usable_M m a cm n : plain a -> usable m (CondM a cm n).
Proof.
  intros Hp m2 S. pose proof (conds_one_M m2 a cm n Hp) as [A1 A2]. pose proof (conds_one_M m a cm n Hp) as [_ B2].
  assert (TY : forall x, cond_type (rd x (c_w3 (CondM a cm n))) <> 0).
  { intros x. unfold CondM, CondD. cbn [c_w3 rd]. destruct (w3_facts cm) as (_ & -> & _). discriminate. }
  cbn [conds_ok eval_conds] in *. split; [destruct A1 as [E|[E _]]; [destruct (TY m2 E)|exact E]|]. split; [apply TY|].
  destruct (Z.eqb_spec (cond_type (rd m2 (c_w3 (CondM a cm n)))) 0) as [E|_]; [destruct (TY m2 E)|].
  destruct (Z.eqb_spec (cond_type (rd m (c_w3 (CondM a cm n)))) 0) as [E|_]; [destruct (TY m E)|].
  rewrite !andb_true_r in *. rewrite A2, B2, S. reflexivity.
Qed.
Definition o_cs : list cond := map (fun i => CondM (300000 + Z.of_nat i) AtLeast (Z.of_nat i)) (seq 0 17).
Definition o_w : world := exworld 0 (once_header exT false o_cs (lbl exT 50)).
Definition o_m (x : Z) : mem := fun a => if a =? exT 0 + 594 then 4 else if a =? exT 0 + 1 then lbl exT 50 else if a =? exT 2 + 1 then lbl exT 50
  else if a =? 300016 then x else 20.
Example ex_once : placed o_w exT 0 (once_header exT false o_cs (lbl exT 50)) /\
  (exists m', runs o_w (lbl exT 0, o_m 16) (lbl exT 4, m') /\ marked exT (lbl exT 50) m') /\
  (exists m', runs o_w (lbl exT 0, o_m 15) (lbl exT 50, m') /\ same_mem (o_m 15) m').
Proof.
  assert (HP : placed o_w exT 0 (once_header exT false o_cs (lbl exT 50))) by (apply exworld_placed; vm_compute; reflexivity).
  split; [exact HP|].
  assert (WR : forall e, 100000 <= e < 2 ^ 28 -> writable o_w e) by (intros e He; apply exworld_patchable; [reflexivity|exact He]).
  assert (G : groups (length o_cs) = 2%nat) by reflexivity.
  assert (X : forall x, unmarked exT (length o_cs) (lbl exT 50) (o_m x)).
  { intros x. split; [reflexivity|]. rewrite G. intros [|[|i]] Hi; [reflexivity|reflexivity|lia]. }
  assert (Y : forall m c, In c o_cs -> usable m c).
  { intros m c Hc. apply in_map_iff in Hc. destruct Hc as (i & <- & Hi). apply in_seq in Hi. apply usable_M. apply (WR (300000 + Z.of_nat i)). lia. }
  assert (Z1 : forall i, (i < groups (length o_cs))%nat -> writable o_w (exT (2 * i) + 1)) by (intros i Hi; rewrite G in Hi; apply WR; unfold exT; lia).
  assert (Z2 : writable o_w (exT 0 + 594)) by (apply WR; unfold exT; lia).
  assert (Z3 : forall i, (i < groups (length o_cs))%nat -> idx (exT 0 + 594) <> idx (exT (2 * i) + 1)).
  { intros i Hi. rewrite G in Hi. unfold idx, exT. rewrite !Z.mod_small by lia. lia. }
  split.
  - pose proof (C77_first o_w exT (lbl exT 50) (u32_lbl _ _) o_cs Z1 Z2 Z3 (o_m 16) ltac:(discriminate) HP (X 16) (Y _)) as H.
    assert (E : forallb (eval_cond (o_m 16)) o_cs = true) by (vm_compute; reflexivity). rewrite E in H. destruct H as (m' & R & K & _). exists m'. split; [exact R|exact K].
  - pose proof (C77_first o_w exT (lbl exT 50) (u32_lbl _ _) o_cs Z1 Z2 Z3 (o_m 15) ltac:(discriminate) HP (X 15) (Y _)) as H.
    assert (E : forallb (eval_cond (o_m 15)) o_cs = false) by (vm_compute; reflexivity). rewrite E in H. exact H.
Qed.
