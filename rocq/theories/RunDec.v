(* A decidable check that a run of the trigger machine is legal, used to show
   what concrete programs do. *)
From Coq Require Import ZArith Lia Bool List.
From Verif Require Import Word Machine MachineProofs.
Import ListNotations.
Open Scope Z_scope.

Definition act_okb (prot : Z -> bool) (m : mem) (a : act) : bool :=
  let w6 := rd m (a_w6 a) in let w7 := rd m (a_w7 a) in
  (act_type w6 =? 45) &&
  (act_off w7 ||
   (((act_mod w6 =? 7) || (act_mod w6 =? 8) || (act_mod w6 =? 9)) &&
    negb (special (rd m (a_dest a))) && negb (prot (idx (target m (rd m (a_dest a)) w6))))).
Fixpoint acts_okb (prot : Z -> bool) (m : mem) (l : list act) : bool :=
  match l with
  | [] => true
  | a :: r => (act_type (rd m (a_w6 a)) =? 0) || (act_okb prot m a && acts_okb prot (exec_act m a) r)
  end.
Definition cond_okb (m : mem) (c : cond) : bool :=
  let w3 := rd m (c_w3 c) in let w4 := rd m (c_w4 c) in
  cond_off w4 || (cond_type w3 =? 22) || (cond_type w3 =? 23) ||
  ((cond_type w3 =? 15) && ((cond_cmp w3 =? 0) || (cond_cmp w3 =? 1) || (cond_cmp w3 =? 10))
   && negb (special (rd m (c_player c)))).
Fixpoint conds_okb (m : mem) (l : list cond) : bool :=
  match l with
  | [] => true
  | c :: r => (cond_type (rd m (c_w3 c)) =? 0) || (cond_okb m c && conds_okb m r)
  end.
Definition trig_okb (prot : Z -> bool) (m : mem) (t : trig) : bool :=
  Z.testbit (rd m (t_flags t)) 3 ||
  (conds_okb m (t_conds t) &&
   (negb (eval_conds m (t_conds t)) || (Z.testbit (rd m (t_flags t)) 2 && acts_okb prot m (t_acts t)))).

Ltac bools := repeat match goal with
  | H : _ && _ = true |- _ => apply andb_prop in H; destruct H
  | H : _ || _ = true |- _ => apply orb_prop in H; destruct H
  | H : negb _ = true |- _ => apply negb_true_iff in H
  | H : (_ =? _) = true |- _ => apply Z.eqb_eq in H
  end.

Lemma act_okb_ok prot m a : act_okb prot m a = true -> act_ok prot m a.
Proof. unfold act_okb, act_ok. intros H. bools; (split; [auto|intros; try congruence; auto 8]). Qed.
Lemma acts_okb_ok prot l : forall m, acts_okb prot m l = true -> acts_ok prot m l.
Proof.
  induction l as [|a l IH]; intros m H; cbn [acts_okb acts_ok] in *; auto. bools; auto using act_okb_ok.
Qed.
Lemma cond_okb_ok m c : cond_okb m c = true -> cond_ok m c.
Proof. unfold cond_okb, cond_ok. intros H. bools; auto 8. Qed.
Lemma conds_okb_ok m l : conds_okb m l = true -> conds_ok m l.
Proof. induction l as [|c l IH]; intros H; cbn [conds_okb conds_ok] in *; auto. bools; auto using cond_okb_ok. Qed.
Lemma trig_okb_ok prot m t : trig_okb prot m t = true -> trig_ok prot m t.
Proof.
  unfold trig_okb, trig_ok. intros H Hf. bools; try congruence; (split; [apply conds_okb_ok; auto|]); intros E; try congruence.
  split; auto. apply acts_okb_ok. auto.
Qed.

Fixpoint runD (P : prog) (prot : Z -> bool) (n : nat) (pc : Z) (m : mem) : option (Z * mem) :=
  match n with
  | O => Some (pc, m)
  | S n' => match P pc with
            | Some t => if trig_okb prot m t then let m' := exec_trig m t in runD P prot n' (rd m' (t_next t)) m' else None
            | None => None
            end
  end.
Lemma runD_steps P prot n : forall pc m pc' m', runD P prot n pc m = Some (pc', m') -> steps P prot (pc, m) (pc', m').
Proof.
  induction n as [|n IH]; intros pc m pc' m' H; cbn [runD] in H.
  - injection H as <- <-. apply steps_refl.
  - destruct (P pc) as [t|] eqn:E; [|discriminate]. destruct (trig_okb prot m t) eqn:Et; [|discriminate].
    eapply steps_cons; [apply step_intro; [exact E|apply trig_okb_ok; exact Et]|]. apply IH. exact H.
Qed.

(* what a run ends in: program counter and the content of some cells *)
Definition ends (r : option (Z * mem)) (cells : list Z) : option (Z * list Z) :=
  match r with Some (pc, m) => Some (pc, map (get m) cells) | None => None end.
Lemma ends_steps P prot n pc m cells pc' xs : ends (runD P prot n pc m) cells = Some (pc', xs) ->
  exists m', steps P prot (pc, m) (pc', m') /\ map (get m') cells = xs.
Proof.
  destruct (runD P prot n pc m) as [[p m']|] eqn:E; cbn [ends]; [|discriminate].
  intros H. injection H as <- <-. exists m'. split; auto. eapply runD_steps; eauto.
Qed.
