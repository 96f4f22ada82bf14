(* The stored-program machine: every field of every trigger is read from memory.
   A program with constant fields (used in all other proofs) runs exactly like
   the stored program, as long as memory holds those constants and the run never
   writes the cells that hold them (which [act_ok] enforces step by step). *)
From Coq Require Import ZArith Lia Bool List.
From Verif Require Import Word Machine MachineProofs.
Import ListNotations.
Open Scope Z_scope.

(* Layout of a trigger, in dwords from its start (condition.py 49-66,
   action.py 83-103, rawtriggerdef.py 184-203): next pointer at 1, sixteen
   conditions of 5 dwords from 2, 64 actions of 8 dwords from 82, flags at 594. *)
Definition raw_cond (b i : Z) : cond :=
  let c := b + 2 + 5 * i in mkcond (Mem c) (Mem (c + 1)) (Mem (c + 2)) (Mem (c + 3)) (Mem (c + 4)).
Definition raw_act (b i : Z) : act :=
  let c := b + 82 + 8 * i in mkact (Mem c) (Mem (c + 4)) (Mem (c + 5)) (Mem (c + 6)) (Mem (c + 7)).
Definition zseq (n : nat) : list Z := map Z.of_nat (seq 0 n).
Definition raw_trig (b : Z) : trig :=
  mktrig (map (raw_cond b) (zseq 16)) (map (raw_act b) (zseq 64)) (Mem (b + 1)) (Mem (b + 594)).
Definition epd_of (pc : Z) : Z := (pc - 0x58A364) / 4.
(* any dword-aligned address may hold a trigger *)
Definition RawP : prog := fun pc => if pc mod 4 =? 0 then Some (raw_trig (epd_of pc)) else None.

Section Refine.
Variable prot : Z -> bool.
Variable m0 : mem.            (* the program image *)

Definition op_matches (raw o : operand) : Prop :=
  match raw, o with
  | Mem a, Mem b => idx a = idx b
  | Mem a, Imm z => prot (idx a) = true /\ get m0 a = u32 z
  | Imm _, _ => False
  end.
Definition cond_matches (r c : cond) : Prop :=
  op_matches (c_mask r) (c_mask c) /\ op_matches (c_player r) (c_player c) /\
  op_matches (c_amount r) (c_amount c) /\ op_matches (c_w3 r) (c_w3 c) /\ op_matches (c_w4 r) (c_w4 c).
Definition act_matches (r a : act) : Prop :=
  op_matches (a_mask r) (a_mask a) /\ op_matches (a_dest r) (a_dest a) /\
  op_matches (a_val r) (a_val a) /\ op_matches (a_w6 r) (a_w6 a) /\ op_matches (a_w7 r) (a_w7 a).

(* the list of conditions (actions) ends where the stored list has a protected
   entry of type 0, or at 16 (64) entries *)
Fixpoint conds_match (rs cs : list cond) : Prop :=
  match rs, cs with
  | r :: rs', c :: cs' => cond_matches r c /\ conds_match rs' cs'
  | r :: _, [] => exists a, c_w3 r = Mem a /\ prot (idx a) = true /\ cond_type (get m0 a) = 0
  | [], [] => True
  | [], _ :: _ => False
  end.
Fixpoint acts_match (rs cs : list act) : Prop :=
  match rs, cs with
  | r :: rs', c :: cs' => act_matches r c /\ acts_match rs' cs'
  | r :: _, [] => exists a, a_w6 r = Mem a /\ prot (idx a) = true /\ act_type (get m0 a) = 0
  | [], [] => True
  | [], _ :: _ => False
  end.
Definition trig_matches (b : Z) (t : trig) : Prop :=
  conds_match (t_conds (raw_trig b)) (t_conds t) /\ acts_match (t_acts (raw_trig b)) (t_acts t) /\
  op_matches (t_next (raw_trig b)) (t_next t) /\ op_matches (t_flags (raw_trig b)) (t_flags t).

(* memory still holds the program text *)
Definition intact (m : mem) : Prop := forall a, prot (idx a) = true -> get m a = get m0 a.

Lemma rd_matches m r o : intact m -> op_matches r o -> rd m r = rd m o.
Proof.
  intros Hi H. destruct r as [z|a], o as [z'|b]; cbn in H; try contradiction; cbn [rd].
  - destruct H as [H1 H2]. rewrite (Hi a H1). exact H2.
  - apply get_cong. exact H.
Qed.

Lemma eval_cond_matches m r c : intact m -> cond_matches r c -> eval_cond m r = eval_cond m c.
Proof.
  intros Hi (H1 & H2 & H3 & H4 & H5). unfold eval_cond.
  rewrite (rd_matches m _ _ Hi H1), (rd_matches m _ _ Hi H2), (rd_matches m _ _ Hi H3),
    (rd_matches m _ _ Hi H4), (rd_matches m _ _ Hi H5). reflexivity.
Qed.

Lemma cond_ok_matches m r c : intact m -> cond_matches r c -> cond_ok m c -> cond_ok m r.
Proof.
  intros Hi (H1 & H2 & H3 & H4 & H5). unfold cond_ok.
  rewrite (rd_matches m _ _ Hi H2), (rd_matches m _ _ Hi H4), (rd_matches m _ _ Hi H5). auto.
Qed.

Lemma conds_matches m : intact m -> forall cs rs, conds_match rs cs -> conds_ok m cs ->
  conds_ok m rs /\ eval_conds m rs = eval_conds m cs.
Proof.
  intros Hi. induction cs as [|c cs IH]; intros [|r rs] Hm Hok; cbn [conds_match] in Hm; try contradiction.
  - split; [exact I|reflexivity].
  - destruct Hm as (w & Hw & Hp & H0).
    assert (E : rd m (c_w3 r) = get m0 w) by (rewrite Hw; cbn [rd]; apply Hi; exact Hp).
    cbn [conds_ok eval_conds]. rewrite E, H0. split; [left; reflexivity|reflexivity].
  - destruct Hm as [Hc Hr]. cbn [conds_ok eval_conds] in *.
    assert (E : rd m (c_w3 r) = rd m (c_w3 c)) by (apply rd_matches; auto; apply Hc).
    rewrite E, (eval_cond_matches m r c Hi Hc).
    destruct (Z.eqb_spec (cond_type (rd m (c_w3 c))) 0) as [Z0|Z0].
    + split; [left; exact Z0|reflexivity].
    + destruct Hok as [?|[Ho1 Ho2]]; [contradiction|].
      destruct (eval_cond m c) eqn:Ec.
      * destruct (IH rs Hr (Ho2 eq_refl)) as [Q1 Q2]. split; [right; split; auto|].
        -- eapply cond_ok_matches; eauto.
        -- cbn [andb]. exact Q2.
      * split; [right; split; [eapply cond_ok_matches; eauto|discriminate]|reflexivity].
Qed.

Lemma exec_act_matches m r a : intact m -> act_matches r a -> exec_act m r = exec_act m a.
Proof.
  intros Hi (H1 & H2 & H3 & H4 & H5). unfold exec_act.
  rewrite (rd_matches m _ _ Hi H1), (rd_matches m _ _ Hi H2), (rd_matches m _ _ Hi H3),
    (rd_matches m _ _ Hi H4), (rd_matches m _ _ Hi H5). reflexivity.
Qed.

Lemma act_ok_matches m r a : intact m -> act_matches r a -> act_ok prot m a -> act_ok (fun _ => false) m r.
Proof.
  intros Hi (H1 & H2 & H3 & H4 & H5). unfold act_ok.
  rewrite (rd_matches m _ _ Hi H2), (rd_matches m _ _ Hi H4), (rd_matches m _ _ Hi H5).
  intros (Q1 & Q2). split; auto. intros Hoff. destruct (Q2 Hoff) as (A & B & C). auto.
Qed.

Lemma exec_act_intact m a : intact m -> act_ok prot m a -> intact (exec_act m a).
Proof.
  intros Hi [_ Hok]. unfold exec_act. destruct (act_off (rd m (a_w7 a))); [exact Hi|].
  destruct (Hok eq_refl) as (_ & _ & Hp). intros b Hb.
  rewrite get_upd_ne by congruence. apply Hi. exact Hb.
Qed.

Lemma acts_matches : forall cs rs m, intact m -> acts_match rs cs -> acts_ok prot m cs ->
  acts_ok (fun _ => false) m rs /\ exec_acts m rs = exec_acts m cs /\ intact (exec_acts m cs).
Proof.
  induction cs as [|c cs IH]; intros [|r rs] m Hi Hm Hok; cbn [acts_match] in Hm; try contradiction.
  - repeat split; auto.
  - destruct Hm as (w & Hw & Hp & H0).
    assert (E : rd m (a_w6 r) = get m0 w) by (rewrite Hw; cbn [rd]; apply Hi; exact Hp).
    cbn [acts_ok exec_acts]. rewrite E, H0. repeat split; auto.
  - destruct Hm as [Hc Hr]. cbn [acts_ok exec_acts] in *.
    assert (E : rd m (a_w6 r) = rd m (a_w6 c)) by (apply rd_matches; auto; apply Hc).
    rewrite E, (exec_act_matches m r c Hi Hc).
    destruct (Z.eqb_spec (act_type (rd m (a_w6 c))) 0) as [Z0|Z0].
    + repeat split; auto.
    + destruct Hok as [?|[Ho1 Ho2]]; [contradiction|].
      destruct (IH rs (exec_act m c) (exec_act_intact m c Hi Ho1) Hr Ho2) as (Q1 & Q2 & Q3).
      repeat split; auto. right. split; auto. eapply act_ok_matches; eauto.
Qed.

Variable P : prog.
Hypothesis Pmatches : forall pc t, P pc = Some t -> pc mod 4 = 0 /\ trig_matches (epd_of pc) t.

Lemma step_refines pc m pc' m' : intact m -> step P prot (pc, m) (pc', m') ->
  step RawP (fun _ => false) (pc, m) (pc', m') /\ intact m'.
Proof.
  intros Hi Hs. inversion Hs as [pc0 m1 t HP Hok E1 E2]. subst pc0 m1. clear Hs.
  destruct (Pmatches pc t HP) as [Hal (Hc & Ha & Hn & Hf)].
  set (b := epd_of pc) in *.
  assert (Ef : rd m (t_flags (raw_trig b)) = rd m (t_flags t)) by (apply rd_matches; auto).
  assert (Ex : exec_trig m (raw_trig b) = exec_trig m t /\ intact (exec_trig m t) /\
               trig_ok (fun _ => false) m (raw_trig b)).
  { unfold exec_trig, fires, trig_ok in *. rewrite Ef.
    destruct (Z.testbit (rd m (t_flags t)) 3) eqn:E3; cbn [negb andb].
    - split; [reflexivity|split; [exact Hi|intros; discriminate]].
    - destruct (Hok eq_refl) as [Hco Hao].
      destruct (conds_matches m Hi _ _ Hc Hco) as [Q1 Q2]. rewrite Q2.
      destruct (eval_conds m (t_conds t)) eqn:Ec.
      + destruct (Hao eq_refl) as [Hp Hao'].
        destruct (acts_matches _ _ m Hi Ha Hao') as (R1 & R2 & R3). auto 10.
      + split; [reflexivity|split; [exact Hi|]]. intros _. split; auto. intros; discriminate. }
  destruct Ex as (Ex1 & Ex2 & Ex3).
  split; [|exact Ex2].
  assert (En : rd (exec_trig m t) (t_next (raw_trig b)) = rd (exec_trig m t) (t_next t)).
  { apply rd_matches; auto. }
  rewrite <- En, <- Ex1. apply step_intro; auto.
  unfold RawP. rewrite Hal. reflexivity.
Qed.

Theorem steps_refine s s' : steps P prot s s' -> intact (snd s) ->
  steps RawP (fun _ => false) s s' /\ intact (snd s').
Proof.
  induction 1 as [s|[pc m] [pc1 m1] s2 Hst Hsts IH]; intros Hi.
  - split; [apply steps_refl|exact Hi].
  - destruct (step_refines _ _ _ _ Hi Hst) as [Q1 Q2].
    destruct (IH Q2) as [R1 R2]. split; auto. eapply steps_cons; eauto.
Qed.
End Refine.
