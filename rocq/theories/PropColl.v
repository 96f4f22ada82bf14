(* Properties C29 - C34: patch stack, stack, queue, deque, object pool, unit
   group. *)
From Coq Require Import ZArith Lia List Bool Permutation ZifyBool ZifyNat.
From Verif Require Import Word MathModel CollModel.
Import ListNotations.
Open Scope Z_scope.

Lemma set_eq m a v : set m a v a = v.
Proof. unfold set. rewrite Z.eqb_refl. reflexivity. Qed.
Lemma set_ne m a v b : b <> a -> set m a v b = m b.
Proof. unfold set. intros H. destruct (Z.eqb_spec b a); [contradiction|reflexivity]. Qed.
Lemma add_small x n : 0 <= x + n < 2^32 -> add x n = x + n.
Proof. apply u32_small. Qed.

(* ---------- C30 ---------- *)
Inductive sop := Push (v : Z) | Pop.
(* the abstract stack: a list, top first. None: overflow or underflow. *)
Fixpoint stack_spec (cap : nat) (ops : list sop) (l : list Z) : option (list Z * list Z) :=
  match ops with
  | [] => Some ([], l)
  | Push v :: r => if (length l <? cap)%nat then stack_spec cap r (v :: l) else None
  | Pop :: r => match l with
                | [] => None
                | x :: l => match stack_spec cap r l with Some (o, l') => Some (x :: o, l') | None => None end
                end
  end.
Fixpoint stack_run (data : Z) (ops : list sop) (s : stack) : list Z * stack :=
  match ops with
  | [] => ([], s)
  | Push v :: r => stack_run data r (stk_push data v s)
  | Pop :: r => let (x, s) := stk_pop data s in let (o, s) := stack_run data r s in (x :: o, s)
  end.
Definition stack_rep (data : Z) (l : list Z) (s : stack) : Prop :=
  k_pos s = Z.of_nat (length l) /\
  forall i x, nth_error (rev l) i = Some x -> k_mem s (data + Z.of_nat i) = x.

Lemma push_rep data v l s : Z.of_nat (length l) + 1 < 2^32 -> stack_rep data l s -> stack_rep data (v :: l) (stk_push data v s).
Proof.
  intros Hl [A B]. unfold stack_rep, stk_push. cbn [k_pos k_mem length rev]. split.
  - rewrite add_small by lia. lia.
  - intros i x H. rewrite A. destruct (Nat.eq_dec i (length l)) as [->|N].
    + rewrite set_eq. rewrite nth_error_app2 in H by (rewrite rev_length; lia). rewrite rev_length, Nat.sub_diag in H. cbn in H. congruence.
    + assert (i < length l)%nat.
      { assert (i < length (rev l ++ [v]))%nat by (apply nth_error_Some; congruence). rewrite app_length, rev_length in H0. cbn in H0. lia. }
      rewrite set_ne by lia. apply B. rewrite nth_error_app1 in H by (rewrite rev_length; lia). exact H.
Qed.
Lemma pop_rep data x l s : Z.of_nat (length l) + 1 < 2^32 -> stack_rep data (x :: l) s ->
  fst (stk_pop data s) = x /\ stack_rep data l (snd (stk_pop data s)).
Proof.
  intros Hl [A B]. cbn [length rev] in *. unfold stk_pop. cbn [fst snd]. rewrite A. rewrite add_small by lia.
  replace (Z.of_nat (S (length l)) + -1) with (Z.of_nat (length l)) by lia. split.
  - apply B. rewrite nth_error_app2 by (rewrite rev_length; lia). rewrite rev_length, Nat.sub_diag. reflexivity.
  - split; cbn [k_pos k_mem]; [reflexivity|]. intros i y H. apply B. rewrite nth_error_app1; [exact H|]. apply nth_error_Some. congruence.
Qed.
(* Any sequence of pushes and pops within the capacity gives what a stack gives;
   empty() agrees; nothing outside the array is written. *)
Theorem C30_stack : forall cap data ops l s o l', Z.of_nat cap < 2^32 -> (length l <= cap)%nat ->
  stack_rep data l s -> stack_spec cap ops l = Some (o, l') ->
  let (o', s') := stack_run data ops s in
  o' = o /\ stack_rep data l' s' /\ (stk_empty s' = true <-> l' = []) /\
  forall a, ~ data <= a < data + Z.of_nat cap -> k_mem s' a = k_mem s a.
Proof.
  intros cap data ops. induction ops as [|[v|] r IH]; intros l s o l' Hc Hl HR HS; cbn [stack_spec stack_run] in *.
  - injection HS as <- <-. split; [reflexivity|]. split; [exact HR|]. split; [|reflexivity].
    unfold stk_empty. destruct HR as [-> _]. destruct l; cbn; split; intros; try reflexivity; try discriminate.
  - destruct (Nat.ltb_spec (length l) cap) as [G|G]; [|discriminate].
    pose proof (IH (v :: l) (stk_push data v s) o l' Hc ltac:(cbn; lia) (push_rep data v l s ltac:(lia) HR) HS) as K.
    destruct (stack_run data r (stk_push data v s)) as [o2 s2]. destruct K as (K1 & K2 & K3 & K4).
    split; [exact K1|]. split; [exact K2|]. split; [exact K3|]. intros a Ha. rewrite K4 by exact Ha.
    unfold stk_push. cbn [k_mem]. apply set_ne. destruct HR as [-> _]. lia.
  - destruct l as [|x l]; [discriminate|]. cbn [length] in Hl.
    destruct (pop_rep data x l s ltac:(lia) HR) as [P1 P2]. destruct (stk_pop data s) as [y s1] eqn:E. cbn [fst snd] in *. subst y.
    destruct (stack_spec cap r l) as [[o1 l1]|] eqn:HS1; [|discriminate]. injection HS as <- <-.
    pose proof (IH l s1 o1 l1 Hc ltac:(lia) P2 HS1) as K. destruct (stack_run data r s1) as [o2 s2]. destruct K as (K1 & K2 & K3 & K4).
    split; [congruence|]. split; [exact K2|]. split; [exact K3|]. intros a Ha. rewrite K4 by exact Ha.
    unfold stk_pop in E. injection E as _ <-. reflexivity.
Qed.
Example C30_example : exists o l', stack_spec 3 [Push 5; Push 6; Pop; Push 7; Pop; Pop] [] = Some (o, l') /\ o = [6; 7; 5] /\
  stack_rep 1000 [] (mkstack (fun _ => 9) 0) /\ fst (stack_run 1000 [Push 5; Push 6; Pop; Push 7; Pop; Pop] (mkstack (fun _ => 9) 0)) = [6; 7; 5].
Proof. eexists _, _. split; [reflexivity|]. split; [reflexivity|]. split; [|reflexivity]. split; [reflexivity|]. intros [|i] x H; discriminate. Qed.

(* ---------- C31 ---------- *)
Inductive qop := Append (v : Z) | PopLeft | Clear.
(* collections.deque(maxlen=cap) seen from append and popleft: oldest first *)
Definition q_append (cap : nat) (v : Z) (l : list Z) : list Z := if (length l <? cap)%nat then l ++ [v] else tl l ++ [v].
Fixpoint queue_spec (cap : nat) (ops : list qop) (l : list Z) : option (list Z * list Z) :=
  match ops with
  | [] => Some ([], l)
  | Append v :: r => queue_spec cap r (q_append cap v l)
  | PopLeft :: r => match l with
                    | [] => None
                    | x :: l => match queue_spec cap r l with Some (o, l') => Some (x :: o, l') | None => None end
                    end
  | Clear :: r => queue_spec cap r []
  end.
Fixpoint queue_run (pl : place) (cap : Z) (ops : list qop) (q : queue) : list Z * queue :=
  match ops with
  | [] => ([], q)
  | Append v :: r => queue_run pl cap r (queue_append pl cap v q)
  | PopLeft :: r => let q := queue_popleft pl cap q in let (o, q') := queue_run pl cap r q in (q_ret q :: o, q')
  | Clear :: r => queue_run pl cap r (queue_clear pl q)
  end.
(* the array lies in the address space without wrapping around *)
Definition place_ok (pl : place) (cap : Z) : Prop :=
  0 < cap /\ 0 <= qe pl + 87 /\ qe pl + 87 + 18 * (cap + 1) < 2^32 /\ 72 <= qb pl /\ qb pl + 72 * (cap + 1) < 2^32.
Definition wrap (cap i : Z) : Z := if i <? cap then i else i - cap.
Definition slot (pl : place) (cap i : Z) : Z := qe pl + 87 + 18 * wrap cap i.
Definition holds_at (pl : place) (cap t : Z) (m : memory) (l : list Z) : Prop :=
  forall j x, nth_error l j = Some x -> m (slot pl cap (t + Z.of_nat j)) = x.
Definition queue_rep (pl : place) (cap : Z) (l : list Z) (q : queue) : Prop :=
  exists t, 0 <= t < cap /\ Z.of_nat (length l) <= cap /\ q_len q = Z.of_nat (length l) /\
    q_act q = slot pl cap (t + Z.of_nat (length l)) /\ q_jl q = qb pl - 72 + 72 * t /\
    q_i348 q = qe pl + 87 + 18 * t /\ q_i380 q = qb pl - 72 + 72 * t /\ holds_at pl cap t (q_mem q) l.

Lemma cell_slot pl t : cell_of pl (qb pl + 72 * t) = qe pl + 87 + 18 * t.
Proof. unfold cell_of. replace (qb pl + 72 * t - qb pl) with (18 * t * 4) by lia. rewrite Z.div_mul by lia. reflexivity. Qed.
(* adding an element behind the others *)
Lemma holds_snoc pl cap t m l v : 0 <= t < cap -> Z.of_nat (length l) < cap -> holds_at pl cap t m l ->
  holds_at pl cap t (set m (slot pl cap (t + Z.of_nat (length l))) v) (l ++ [v]).
Proof.
  intros Ht Hl H j x Hj. destruct (Nat.eq_dec j (length l)) as [->|N].
  - rewrite set_eq. rewrite nth_error_app2, Nat.sub_diag in Hj by lia. cbn in Hj. congruence.
  - assert (j < length l)%nat.
    { assert (j < length (l ++ [v]))%nat by (apply nth_error_Some; congruence). rewrite app_length in *. cbn in *. lia. }
    rewrite set_ne.
    + apply H. rewrite nth_error_app1 in Hj by lia. exact Hj.
    + unfold slot, wrap. destruct (Z.ltb_spec (t + Z.of_nat j) cap), (Z.ltb_spec (t + Z.of_nat (length l)) cap); lia.
Qed.
(* dropping the first *)
Lemma holds_tl pl cap t m x l : 0 <= t < cap -> Z.of_nat (length l) < cap -> holds_at pl cap t m (x :: l) -> holds_at pl cap (wrap cap (t + 1)) m l.
Proof.
  intros Ht Hl H j y Hj. rewrite <- (H (S j) y Hj). f_equal. unfold slot, wrap.
  assert (j < length l)%nat by (apply nth_error_Some; congruence).
  destruct (Z.ltb_spec (t + 1) cap); repeat match goal with |- context [?a <? ?b] => destruct (Z.ltb_spec a b) end; lia.
Qed.
(* a full array: the new element takes the place of the first *)
Lemma holds_replace pl cap t m l v : 0 <= t < cap -> Z.of_nat (length l) = cap -> holds_at pl cap t m l ->
  holds_at pl cap (wrap cap (t + 1)) (set m (slot pl cap (t + Z.of_nat (length l))) v) (tl l ++ [v]).
Proof.
  intros Ht Hl H. destruct l as [|x l]; [cbn in Hl; lia|]. cbn [tl length] in *.
  pose proof (holds_tl pl cap t m x l Ht ltac:(lia) H) as H1.
  pose proof (holds_snoc pl cap (wrap cap (t + 1)) m l v ltac:(unfold wrap; destruct (Z.ltb_spec (t + 1) cap); lia) ltac:(lia) H1) as H2.
  replace (slot pl cap (t + Z.of_nat (S (length l)))) with (slot pl cap (wrap cap (t + 1) + Z.of_nat (length l))); [exact H2|].
  unfold slot, wrap. destruct (Z.ltb_spec (t + 1) cap); repeat match goal with |- context [?a <? ?b] => destruct (Z.ltb_spec a b) end; lia.
Qed.
Ltac adds := repeat match goal with |- context [add ?x ?n] => rewrite (add_small x n) by lia end.
Ltac cases := repeat match goal with |- context [?a <=? ?b] => destruct (Z.leb_spec a b) | |- context [?a <? ?b] => destruct (Z.ltb_spec a b) end.

Lemma append_rep pl cap v l q : place_ok pl (Z.of_nat cap) -> queue_rep pl (Z.of_nat cap) l q ->
  queue_rep pl (Z.of_nat cap) (q_append cap v l) (queue_append pl (Z.of_nat cap) v q).
Proof.
  intros (P0 & P1 & P2 & P3 & P4) (t & Ht & Hl & EL & EA & EJ & E1 & E2 & H). unfold queue_append. rewrite EL.
  assert (Hw : 0 <= wrap (Z.of_nat cap) (t + Z.of_nat (length l)) < Z.of_nat cap) by (unfold wrap; cases; lia).
  assert (EA' : add (q_act q) 18 = q_act q + 18) by (apply add_small; rewrite EA; unfold slot; lia). rewrite EA'.
  rewrite (add_small (Z.of_nat (length l)) 1) by lia.
  unfold q_append. destruct (Nat.ltb_spec (length l) cap) as [G|G].
  - destruct (Z.leb_spec (Z.of_nat cap + 1) (Z.of_nat (length l) + 1)); [lia|].
    replace (q_wt q && (qb pl + 72 * (Z.of_nat cap - 1) <=? q_jl q)) with false
      by (symmetry; apply andb_false_iff; right; rewrite EJ; lia).
    exists t. cbn [q_mem q_act q_jl q_i348 q_i380 q_len]. rewrite app_length. cbn [length].
    split; [lia|]. split; [lia|]. split; [lia|]. split; [|split; [exact EJ|split; [exact E1|split; [exact E2|]]]].
    + rewrite EA. unfold slot in *. destruct (Z.leb_spec (qe pl + 87 + 18 * Z.of_nat cap) (qe pl + 87 + 18 * wrap (Z.of_nat cap) (t + Z.of_nat (length l)) + 18)) as [C|C].
      * rewrite add_small by lia. unfold wrap in *. revert Hw C. cases; lia.
      * unfold wrap in *. revert Hw C. cases; lia.
    + rewrite EA. apply holds_snoc; [exact Ht|lia|exact H].
  - assert (Hc : Z.of_nat (length l) = Z.of_nat cap) by lia.
    destruct (Z.leb_spec (Z.of_nat cap + 1) (Z.of_nat (length l) + 1)); [|lia].
    assert (HL : length (tl l ++ [v]) = length l) by (destruct l; [cbn in *; lia|rewrite app_length; cbn; lia]).
    rewrite ?E1, ?E2. adds. cbn [andb]. rewrite EJ.
    exists (wrap (Z.of_nat cap) (t + 1)). rewrite HL. unfold sub_sat.
    assert (Hs : slot pl (Z.of_nat cap) (t + Z.of_nat (length l)) = qe pl + 87 + 18 * t) by (unfold slot, wrap; cases; lia).
    pose proof (holds_replace pl (Z.of_nat cap) t (q_mem q) l v Ht Hc H) as HR. rewrite Hs in HR, EA.
    destruct (Z.leb_spec (qb pl + 72 * (Z.of_nat cap - 1)) (qb pl - 72 + 72 * t + 72)) as [C|C]; cbn [q_mem q_act q_jl q_i348 q_i380 q_len].
    + assert (t + 1 = Z.of_nat cap) by lia.
      split; [unfold wrap; cases; lia|]. split; [lia|]. split; [lia|]. rewrite ?E1, ?E2. adds.
      split; [|split; [unfold wrap; cases; lia|split; [unfold wrap; cases; lia|split; [unfold wrap; cases; lia|rewrite EA; exact HR]]]].
      rewrite EA. destruct (Z.leb_spec (qe pl + 87 + 18 * Z.of_nat cap) (qe pl + 87 + 18 * t + 18)); [|lia].
      adds. unfold slot, wrap. cases; lia.
    + split; [unfold wrap; cases; lia|]. split; [lia|]. split; [lia|].
      split; [|split; [unfold wrap; cases; lia|split; [unfold wrap; cases; lia|split; [unfold wrap; cases; lia|rewrite EA; exact HR]]]].
      rewrite EA. destruct (Z.leb_spec (qe pl + 87 + 18 * Z.of_nat cap) (qe pl + 87 + 18 * t + 18)); [lia|].
      unfold slot, wrap. cases; lia.
Qed.
Lemma popleft_rep pl cap x l q : place_ok pl cap -> queue_rep pl cap (x :: l) q ->
  q_ret (queue_popleft pl cap q) = x /\ queue_rep pl cap l (queue_popleft pl cap q).
Proof.
  intros (P0 & P1 & P2 & P3 & P4) (t & Ht & Hl & EL & EA & EJ & E1 & E2 & H). cbn [length] in *.
  unfold queue_popleft. rewrite EL, EJ. rewrite ?E1, ?E2. adds.
  replace (qb pl - 72 + 72 * t + 72) with (qb pl + 72 * t) by lia. rewrite cell_slot.
  assert (X : q_mem q (qe pl + 87 + 18 * t) = x).
  { rewrite <- (H 0%nat x eq_refl). f_equal. unfold slot, wrap. cases; lia. }
  pose proof (holds_tl pl cap t (q_mem q) x l Ht ltac:(lia) H) as HT. unfold sub_sat.
  assert (HA : q_act q = slot pl cap (wrap cap (t + 1) + Z.of_nat (length l))) by (rewrite EA; unfold slot, wrap; cases; lia).
  destruct (Z.leb_spec (qb pl + 72 * (cap - 1)) (qb pl + 72 * t)) as [C|C]; (split; [exact X|]);
    exists (wrap cap (t + 1)); cbn [q_mem q_act q_jl q_i348 q_i380 q_len].
  - split; [unfold wrap; cases; lia|]. split; [lia|]. split; [lia|]. split; [exact HA|]. rewrite ?E1, ?E2. adds.
    split; [unfold wrap; cases; lia|]. split; [unfold wrap; cases; lia|]. split; [unfold wrap; cases; lia|exact HT].
  - split; [unfold wrap; cases; lia|]. split; [lia|]. split; [lia|]. split; [exact HA|].
    split; [unfold wrap; cases; lia|]. split; [unfold wrap; cases; lia|]. split; [unfold wrap; cases; lia|exact HT].
Qed.
Lemma clear_rep pl cap l q : place_ok pl cap -> queue_rep pl cap l q -> queue_rep pl cap [] (queue_clear pl q).
Proof.
  intros (P0 & P1 & P2 & P3 & P4) _. exists 0. cbn. split; [lia|]. split; [lia|]. split; [reflexivity|].
  split; [unfold slot, wrap; cases; lia|]. split; [lia|]. split; [lia|]. split; [lia|]. intros [|j] x Hj; discriminate.
Qed.
(* Every sequence of append, popleft (on a non-empty queue) and clear returns
   what the bounded queue returns, and length and empty() agree afterwards. *)
Theorem C31_queue : forall cap pl ops l q o l', place_ok pl (Z.of_nat cap) -> queue_rep pl (Z.of_nat cap) l q ->
  queue_spec cap ops l = Some (o, l') ->
  let (o', q') := queue_run pl (Z.of_nat cap) ops q in
  o' = o /\ queue_rep pl (Z.of_nat cap) l' q' /\ q_len q' = Z.of_nat (length l') /\ (queue_empty q' = true <-> l' = []).
Proof.
  intros cap pl ops. induction ops as [|[v| |] r IH]; intros l q o l' Hp HR HS; cbn [queue_spec queue_run] in *.
  - injection HS as <- <-. split; [reflexivity|]. split; [exact HR|]. destruct HR as (t & _ & _ & EL & _). split; [exact EL|].
    unfold queue_empty. rewrite EL. destruct l; cbn; split; intros; try reflexivity; discriminate.
  - apply (IH (q_append cap v l)); auto. apply append_rep; auto.
  - destruct l as [|x l]; [discriminate|]. destruct (queue_spec cap r l) as [[o1 l1]|] eqn:HS1; [|discriminate]. injection HS as <- <-.
    destruct (popleft_rep pl _ x l q Hp HR) as [P1 P2].
    pose proof (IH l _ o1 l1 Hp P2 HS1) as K. destruct (queue_run pl (Z.of_nat cap) r (queue_popleft pl (Z.of_nat cap) q)) as [o2 q2].
    destruct K as (K1 & K2). split; [congruence|exact K2].
  - apply (IH []); auto. eapply clear_rep; eauto.
Qed.
Theorem C31_new : forall pl cap m, place_ok pl cap -> queue_rep pl cap [] (queue_new pl m).
Proof.
  intros pl cap m (P0 & P1 & P2 & P3 & P4). exists 0. cbn. split; [lia|]. split; [lia|]. split; [reflexivity|].
  split; [unfold slot, wrap; cases; lia|]. split; [lia|]. split; [lia|]. split; [lia|]. intros [|j] x Hj; discriminate.
Qed.
Example C31_example : let pl := mkplace 0x1000000 0x29D6E7 in place_ok pl 2 /\
  queue_spec 2 [Append 5; Append 6; Append 7; PopLeft; Append 8; PopLeft; PopLeft] [] = Some ([6; 7; 8], []) /\
  fst (queue_run pl 2 [Append 5; Append 6; Append 7; PopLeft; Append 8; PopLeft; PopLeft] (queue_new pl (fun _ => 0))) = [6; 7; 8].
Proof. split; [unfold place_ok; cbn; lia|]. split; reflexivity. Qed.
(* popleft of an empty queue is not harmless: it moves the read position, and
   the next element appended is not the next one read *)
Theorem C31_popleft_empty_refuted : exists pl m, place_ok pl 2 /\
  let q := queue_append pl 2 7 (queue_popleft pl 2 (queue_new pl m)) in
  q_len q = 1 /\ q_ret (queue_popleft pl 2 q) <> 7.
Proof. exists (mkplace 0x1000000 0x29D6E7), (fun _ => 0). split; [unfold place_ok; cbn; lia|]. vm_compute. split; [reflexivity|discriminate]. Qed.

(* ---------- C32 ---------- *)
Inductive dop := DAppend (v : Z) | DAppendLeft (v : Z) | DPop | DPopLeft.
(* collections.deque(maxlen=cap), leftmost first *)
Definition d_appendleft (cap : nat) (v : Z) (l : list Z) : list Z := if (length l <? cap)%nat then v :: l else v :: removelast l.
Definition d_step (cap : nat) (op : dop) (l : list Z) : option (option Z * list Z) :=
  match op with
  | DAppend v => Some (None, q_append cap v l)
  | DAppendLeft v => Some (None, d_appendleft cap v l)
  | DPop => match l with [] => None | _ => Some (Some (last l 0), removelast l) end
  | DPopLeft => match l with [] => None | x :: r => Some (Some x, r) end
  end.
Definition deque_step (pl : place) (cap : Z) (op : dop) (d : deque) : option Z * deque :=
  match op with
  | DAppend v => (None, deque_append pl cap v d)
  | DAppendLeft v => (None, deque_appendleft pl cap v d)
  | DPop => let d := deque_pop pl cap d in (Some (d_ret d), d)
  | DPopLeft => let d := deque_popleft pl cap d in (Some (d_ret d), d)
  end.
Fixpoint deque_run (pl : place) (cap : Z) (ops : list dop) (d : deque) : list (option Z) * deque :=
  match ops with
  | [] => ([], d)
  | op :: r => let (x, d) := deque_step pl cap op d in let (o, d) := deque_run pl cap r d in (x :: o, d)
  end.
(* the operation is not appendleft on a full deque - the case the code gets
   wrong, see the refutation *)
Definition room (cap : nat) (op : dop) (l : list Z) : bool :=
  match op with DAppendLeft _ => (length l <? cap)%nat | _ => true end.
Fixpoint deque_spec (guard : dop -> list Z -> bool) (cap : nat) (ops : list dop) (l : list Z) : option (list (option Z) * list Z) :=
  match ops with
  | [] => Some ([], l)
  | op :: r =>
      if guard op l then
        match d_step cap op l with
        | None => None
        | Some (x, l) => match deque_spec guard cap r l with Some (o, l') => Some (x :: o, l') | None => None end
        end
      else None
  end.
Definition deque_rep (pl : place) (cap : Z) (l : list Z) (d : deque) : Prop :=
  exists t, 0 <= t < cap /\ Z.of_nat (length l) <= cap /\ d_len d = Z.of_nat (length l) /\
    d_act d = slot pl cap (t + Z.of_nat (length l)) /\ d_jp d = qb pl + 72 * wrap cap (t + Z.of_nat (length l)) /\
    d_al d = qe pl + 87 + 18 * t /\ d_jl d = qb pl - 72 + 72 * t /\
    d_i348 d = qe pl + 87 + 18 * t /\ d_i380 d = qb pl - 72 + 72 * t /\ holds_at pl cap t (d_mem d) l.

Lemma pair_eq A B (a a' : A) (b b' : B) : a = a' -> b = b' -> (a, b) = (a', b').
Proof. congruence. Qed.
Lemma d_append_rep pl cap v l d : place_ok pl (Z.of_nat cap) -> deque_rep pl (Z.of_nat cap) l d ->
  deque_rep pl (Z.of_nat cap) (q_append cap v l) (deque_append pl (Z.of_nat cap) v d).
Proof.
  intros (P0 & P1 & P2 & P3 & P4) (t & Ht & Hl & EL & EA & EP & EQ & EJ & E1 & E2 & H). unfold deque_append.
  set (h := wrap (Z.of_nat cap) (t + Z.of_nat (length l))) in *.
  assert (Hw : 0 <= h < Z.of_nat cap) by (unfold h, wrap; cases; lia).
  assert (EA2 : d_act d = qe pl + 87 + 18 * h) by (rewrite EA; reflexivity).
  rewrite EL, EP, EA2. rewrite EA in EA2. unfold q_append. adds.
  assert (HH : wrap (Z.of_nat cap) (h + 1) = wrap (Z.of_nat cap) (t + Z.of_nat (length l) + 1) \/ Z.of_nat (length l) = Z.of_nat cap)
    by (unfold h, wrap; cases; lia).
  assert (HX : (if qe pl + 87 + 18 * Z.of_nat cap <=? qe pl + 87 + 18 * h + 18
        then (add (qe pl + 87 + 18 * h + 18) (- (18 * Z.of_nat cap)), add (qb pl + 72 * h + 72) (- (72 * Z.of_nat cap)))
        else (qe pl + 87 + 18 * h + 18, qb pl + 72 * h + 72)) =
        (qe pl + 87 + 18 * wrap (Z.of_nat cap) (h + 1), qb pl + 72 * wrap (Z.of_nat cap) (h + 1))).
  { unfold wrap. destruct (Z.leb_spec (qe pl + 87 + 18 * Z.of_nat cap) (qe pl + 87 + 18 * h + 18)); destruct (Z.ltb_spec (h + 1) (Z.of_nat cap)); try lia; adds; apply pair_eq; lia. }
  rewrite HX. clear HX.
  destruct (Nat.ltb_spec (length l) cap) as [G|G].
  - destruct (Z.leb_spec (Z.of_nat cap + 1) (Z.of_nat (length l) + 1)); [lia|].
    destruct HH as [HH|HH]; [|lia]. rewrite HH.
    exists t. cbn [d_mem d_act d_jp d_al d_jl d_i348 d_i380 d_len]. rewrite app_length. cbn [length].
    replace (t + Z.of_nat (length l + 1)) with (t + Z.of_nat (length l) + 1) by lia.
    split; [lia|]. split; [lia|]. split; [lia|]. split; [reflexivity|]. split; [reflexivity|]. split; [exact EQ|]. split; [exact EJ|].
    split; [exact E1|]. split; [exact E2|]. rewrite <- EA2. apply holds_snoc; [exact Ht|lia|exact H].
  - assert (Hc : Z.of_nat (length l) = Z.of_nat cap) by lia.
    destruct (Z.leb_spec (Z.of_nat cap + 1) (Z.of_nat (length l) + 1)); [|lia].
    assert (HL : length (tl l ++ [v]) = length l) by (destruct l; [cbn in *; lia|rewrite app_length; cbn; lia]).
    assert (Hh : h = t) by (unfold h, wrap; cases; lia). rewrite EQ, EJ, E1, E2. adds. unfold sub_sat.
    pose proof (holds_replace pl (Z.of_nat cap) t (d_mem d) l v Ht Hc H) as HR. rewrite EA2 in HR.
    assert (HX : (if qb pl + 72 * (Z.of_nat cap - 1) <=? qb pl - 72 + 72 * t + 72
      then (add (qe pl + 87 + 18 * t + 18) (- (18 * Z.of_nat cap)), add (qb pl - 72 + 72 * t + 72) (- (72 * Z.of_nat cap)),
            add (qe pl + 87 + 18 * t + 18) (- (18 * Z.of_nat cap)), add (qb pl - 72 + 72 * t + 72) (- (72 * Z.of_nat cap)),
            Z.max 0 (Z.of_nat (length l) + 1 - 1))
      else (qe pl + 87 + 18 * t + 18, qb pl - 72 + 72 * t + 72, qe pl + 87 + 18 * t + 18, qb pl - 72 + 72 * t + 72,
            Z.max 0 (Z.of_nat (length l) + 1 - 1))) =
      let t' := wrap (Z.of_nat cap) (t + 1) in
      (qe pl + 87 + 18 * t', qb pl - 72 + 72 * t', qe pl + 87 + 18 * t', qb pl - 72 + 72 * t', Z.of_nat (length l))).
    { cbv zeta. unfold wrap. destruct (Z.leb_spec (qb pl + 72 * (Z.of_nat cap - 1)) (qb pl - 72 + 72 * t + 72)); destruct (Z.ltb_spec (t + 1) (Z.of_nat cap)); try lia; adds; repeat match goal with |- (_, _) = (_, _) => apply pair_eq end; lia. }
    rewrite HX. clear HX. cbv zeta. exists (wrap (Z.of_nat cap) (t + 1)). rewrite HL. cbn [d_mem d_act d_jp d_al d_jl d_i348 d_i380 d_len].
    assert (HW : wrap (Z.of_nat cap) (h + 1) = wrap (Z.of_nat cap) (wrap (Z.of_nat cap) (t + 1) + Z.of_nat (length l))).
    { rewrite Hh. unfold wrap. cases; lia. }
    split; [unfold wrap; cases; lia|]. split; [lia|]. split; [reflexivity|]. rewrite HW. repeat (split; [reflexivity|]). exact HR.
Qed.
Lemma d_popleft_rep pl cap x l d : place_ok pl cap -> deque_rep pl cap (x :: l) d ->
  d_ret (deque_popleft pl cap d) = x /\ deque_rep pl cap l (deque_popleft pl cap d).
Proof.
  intros (P0 & P1 & P2 & P3 & P4) (t & Ht & Hl & EL & EA & EP & EQ & EJ & E1 & E2 & H). cbn [length] in *.
  unfold deque_popleft. rewrite EL, EJ, EQ, E1, E2. adds.
  replace (qb pl - 72 + 72 * t + 72) with (qb pl + 72 * t) by lia. rewrite cell_slot.
  assert (X : d_mem d (qe pl + 87 + 18 * t) = x).
  { rewrite <- (H 0%nat x eq_refl). f_equal. unfold slot, wrap. cases; lia. }
  pose proof (holds_tl pl cap t (d_mem d) x l Ht ltac:(lia) H) as HT. unfold sub_sat.
  assert (HW : wrap cap (t + Z.of_nat (S (length l))) = wrap cap (wrap cap (t + 1) + Z.of_nat (length l))) by (unfold wrap; cases; lia).
  destruct (Z.leb_spec (qb pl + 72 * (cap - 1)) (qb pl + 72 * t)) as [C|C]; (split; [exact X|]);
    exists (wrap cap (t + 1)); cbn [d_mem d_act d_jp d_al d_jl d_i348 d_i380 d_len]; unfold slot in *; rewrite <- HW; adds.
  - split; [unfold wrap; cases; lia|]. split; [lia|]. split; [lia|]. split; [exact EA|]. split; [exact EP|].
    split; [unfold wrap; cases; lia|]. split; [unfold wrap; cases; lia|]. split; [unfold wrap; cases; lia|]. split; [unfold wrap; cases; lia|exact HT].
  - split; [unfold wrap; cases; lia|]. split; [lia|]. split; [lia|]. split; [exact EA|]. split; [exact EP|].
    split; [unfold wrap; cases; lia|]. split; [unfold wrap; cases; lia|]. split; [unfold wrap; cases; lia|]. split; [unfold wrap; cases; lia|exact HT].
Qed.
Lemma removelast_app' (l : list Z) x : removelast (l ++ [x]) = l.
Proof. rewrite removelast_app by discriminate. cbn. apply app_nil_r. Qed.
Lemma d_pop_rep pl cap l d : place_ok pl cap -> l <> [] -> deque_rep pl cap l d ->
  d_ret (deque_pop pl cap d) = last l 0 /\ deque_rep pl cap (removelast l) (deque_pop pl cap d).
Proof.
  intros (P0 & P1 & P2 & P3 & P4) Hne (t & Ht & Hl & EL & EA & EP & EQ & EJ & E1 & E2 & H).
  destruct (exists_last Hne) as (l0 & x & ->). rewrite last_last, removelast_app'. rewrite app_length in *. cbn [length] in *.
  unfold deque_pop. unfold slot in EA. set (h := wrap cap (t + Z.of_nat (length l0 + 1))) in *.
  assert (Hw : 0 <= h < cap) by (unfold h, wrap; cases; lia). rewrite EL, EA, EP.
  assert (HH : (if h =? 0 then cap - 1 else h - 1) = wrap cap (t + Z.of_nat (length l0))).
  { unfold h, wrap. destruct (Z.ltb_spec (t + Z.of_nat (length l0 + 1)) cap); destruct (Z.ltb_spec (t + Z.of_nat (length l0)) cap);
    match goal with |- context [?a =? ?b] => destruct (Z.eqb_spec a b) end; lia. }
  assert (HX : (if qb pl + 72 * h <=? qb pl then (add (qe pl + 87 + 18 * h) (18 * cap), add (qb pl + 72 * h) (72 * cap))
     else (qe pl + 87 + 18 * h, qb pl + 72 * h)) =
     (qe pl + 87 + 18 * (wrap cap (t + Z.of_nat (length l0)) + 1), qb pl + 72 * (wrap cap (t + Z.of_nat (length l0)) + 1))).
  { rewrite <- HH. destruct (Z.leb_spec (qb pl + 72 * h) (qb pl)); destruct (Z.eqb_spec h 0); try lia; adds; apply pair_eq; lia. }
  rewrite HX. clear HX. set (h' := wrap cap (t + Z.of_nat (length l0))) in *.
  assert (Hw' : 0 <= h' < cap) by (unfold h', wrap; cases; lia). adds.
  replace (qb pl + 72 * (h' + 1) + -72) with (qb pl + 72 * h') by lia. rewrite cell_slot. cbn [d_ret]. split.
  - apply (H (length l0)). rewrite nth_error_app2, Nat.sub_diag by lia. reflexivity.
  - exists t. unfold sub_sat. cbn [d_mem d_act d_jp d_al d_jl d_i348 d_i380 d_len]. unfold slot. fold h'.
    split; [exact Ht|]. split; [lia|]. split; [lia|]. split; [lia|]. split; [reflexivity|]. split; [exact EQ|]. split; [exact EJ|].
    split; [exact E1|]. split; [exact E2|]. intros j y Hj. apply H. rewrite nth_error_app1; [exact Hj|]. apply nth_error_Some. congruence.
Qed.
Lemma d_appendleft_rep pl cap v l d : place_ok pl (Z.of_nat cap) -> (length l < cap)%nat -> deque_rep pl (Z.of_nat cap) l d ->
  deque_rep pl (Z.of_nat cap) (v :: l) (deque_appendleft pl (Z.of_nat cap) v d).
Proof.
  intros (P0 & P1 & P2 & P3 & P4) G (t & Ht & Hl & EL & EA & EP & EQ & EJ & E1 & E2 & H). unfold deque_appendleft. rewrite EL.
  destruct (Z.leb_spec (Z.of_nat cap) (Z.of_nat (length l))); [lia|]. rewrite EQ, EJ, E1, E2.
  set (t' := if t =? 0 then Z.of_nat cap - 1 else t - 1).
  assert (Ht' : 0 <= t' < Z.of_nat cap) by (unfold t'; destruct (Z.eqb_spec t 0); lia).
  assert (HX : (if qe pl + 87 + 18 * t <=? qe pl + 87
     then (add (qe pl + 87 + 18 * t) (18 * Z.of_nat cap), add (qb pl - 72 + 72 * t) (72 * Z.of_nat cap),
           add (qe pl + 87 + 18 * t) (18 * Z.of_nat cap), add (qb pl - 72 + 72 * t) (72 * Z.of_nat cap))
     else (qe pl + 87 + 18 * t, qb pl - 72 + 72 * t, qe pl + 87 + 18 * t, qb pl - 72 + 72 * t)) =
     (qe pl + 87 + 18 * (t' + 1), qb pl - 72 + 72 * (t' + 1), qe pl + 87 + 18 * (t' + 1), qb pl - 72 + 72 * (t' + 1))).
  { unfold t'. destruct (Z.leb_spec (qe pl + 87 + 18 * t) (qe pl + 87)); destruct (Z.eqb_spec t 0); try lia; adds; repeat match goal with |- (_, _) = (_, _) => apply pair_eq end; lia. }
  rewrite HX. clear HX. adds.
  assert (HW : forall j, 0 <= j < Z.of_nat cap -> wrap (Z.of_nat cap) (t' + (1 + j)) = wrap (Z.of_nat cap) (t + j)).
  { intros j Hj. unfold t', wrap. destruct (Z.eqb_spec t 0); cases; lia. }
  exists t'. cbn [d_mem d_act d_jp d_al d_jl d_i348 d_i380 d_len length].
  replace (t' + Z.of_nat (S (length l))) with (t' + (1 + Z.of_nat (length l))) by lia. unfold slot. rewrite HW by lia.
  split; [exact Ht'|]. split; [lia|]. split; [lia|]. split; [exact EA|]. split; [exact EP|]. split; [lia|]. split; [lia|]. split; [lia|]. split; [lia|].
  intros [|j] x Hj.
  - injection Hj as ->. replace (slot pl (Z.of_nat cap) (t' + Z.of_nat 0)) with (qe pl + 87 + 18 * (t' + 1) + -18); [apply set_eq|].
    unfold slot, wrap. cases; lia.
  - assert (j < length l)%nat by (apply nth_error_Some; cbn in Hj; congruence).
    replace (slot pl (Z.of_nat cap) (t' + Z.of_nat (S j))) with (slot pl (Z.of_nat cap) (t + Z.of_nat j)).
    + rewrite set_ne; [apply H; exact Hj|]. unfold slot. rewrite <- HW by lia. unfold wrap. cases; lia.
    + unfold slot. rewrite <- HW by lia. do 3 f_equal. lia.
Qed.
(* Every sequence of operations that pops only non-empty deques and never calls
   appendleft on a full one returns what collections.deque(maxlen=cap) returns. *)
Theorem C32_deque_partial : forall cap pl ops l d o l', place_ok pl (Z.of_nat cap) -> deque_rep pl (Z.of_nat cap) l d ->
  deque_spec (room cap) cap ops l = Some (o, l') ->
  let (o', d') := deque_run pl (Z.of_nat cap) ops d in
  o' = o /\ deque_rep pl (Z.of_nat cap) l' d' /\ d_len d' = Z.of_nat (length l').
Proof.
  intros cap pl ops. induction ops as [|op r IH]; intros l d o l' Hp HR HS; cbn [deque_spec deque_run] in *.
  - injection HS as <- <-. split; [reflexivity|]. split; [exact HR|]. destruct HR as (t & _ & _ & EL & _). exact EL.
  - destruct (room cap op l) eqn:HG; [|discriminate].
    destruct (d_step cap op l) as [[x l1]|] eqn:E; [|discriminate].
    destruct (deque_spec (room cap) cap r l1) as [[o1 l2]|] eqn:HS1; [|discriminate]. injection HS as <- <-.
    assert (K : fst (deque_step pl (Z.of_nat cap) op d) = x /\ deque_rep pl (Z.of_nat cap) l1 (snd (deque_step pl (Z.of_nat cap) op d))).
    { destruct op as [v|v| |]; cbn [d_step deque_step fst snd room] in *.
      - injection E as <- <-. split; [reflexivity|]. apply d_append_rep; auto.
      - injection E as <- <-. split; [reflexivity|]. unfold d_appendleft. rewrite HG. apply d_appendleft_rep; auto. lia.
      - destruct l as [|y l]; [discriminate|]. destruct (d_pop_rep pl (Z.of_nat cap) (y :: l) d Hp ltac:(discriminate) HR) as [A B].
        rewrite A. injection E as <- <-. split; [reflexivity|exact B].
      - destruct l as [|y l]; [discriminate|]. destruct (d_popleft_rep pl (Z.of_nat cap) y l d Hp HR) as [A B].
        rewrite A. injection E as <- <-. split; [reflexivity|exact B]. }
    destruct (deque_step pl (Z.of_nat cap) op d) as [y d1]. cbn [fst snd] in K. destruct K as [K1 K2].
    pose proof (IH l1 d1 o1 l2 Hp K2 HS1) as Q. destruct (deque_run pl (Z.of_nat cap) r d1) as [o2 d2].
    destruct Q as (Q1 & Q2). split; [congruence|exact Q2].
Qed.
Theorem C32_new : forall pl cap m, place_ok pl cap -> deque_rep pl cap [] (deque_new pl m).
Proof.
  intros pl cap m (P0 & P1 & P2 & P3 & P4). exists 0. cbn. split; [lia|]. split; [lia|]. split; [reflexivity|].
  split; [unfold slot, wrap; cases; lia|]. split; [unfold wrap; cases; lia|]. repeat (split; [lia|]). intros [|j] x Hj; discriminate.
Qed.
Example C32_example : let pl := mkplace 0x1000000 0x29D6E7 in let ops := [DAppend 5; DAppendLeft 6; DPop; DAppend 7; DAppend 8; DPopLeft; DAppendLeft 9; DPop] in
  place_ok pl 2 /\ deque_spec (room 2) 2 ops [] = Some ([None; None; Some 5; None; None; Some 7; None; Some 8], [9]) /\
  fst (deque_run pl 2 ops (deque_new pl (fun _ => 0))) = [None; None; Some 5; None; None; Some 7; None; Some 8].
Proof. cbv zeta. split; [unfold place_ok; cbn; lia|]. split; reflexivity. Qed.
(* appendleft on a full deque can leave the write position one past the end of
   the array: the next append stores outside the array and its element is lost. *)
Theorem C32_appendleft_full_refuted : exists pl m ops, place_ok pl 2 /\
  deque_spec (fun _ _ => true) 2 ops [] = Some ([None; None; None; None; None; Some 5], [3]) /\
  fst (deque_run pl 2 ops (deque_new pl m)) = [None; None; None; None; None; Some 4] /\
  d_mem (snd (deque_run pl 2 ops (deque_new pl m))) (qe pl + 87 + 18 * 2) = 5.
Proof.
  exists (mkplace 0x1000000 0x29D6E7), (fun _ => 0), [DAppend 1; DAppend 2; DAppendLeft 3; DAppendLeft 4; DAppend 5; DPop].
  split; [unfold place_ok; cbn; lia|]. vm_compute. auto.
Qed.

(* ---------- C33 ---------- *)
Inductive oop := OAlloc | OFree (x : Z).
(* the addresses returned by the allocations *)
Fixpoint pool_run (base : Z) (ops : list oop) (p : pool) : list Z * pool :=
  match ops with
  | [] => ([], p)
  | OAlloc :: r => let (x, p) := pool_alloc base p in let (o, p) := pool_run base r p in (x :: o, p)
  | OFree x :: r => pool_run base r (pool_free base x p)
  end.
(* the objects: [size] slots of [fieldn] variables each *)
Definition objects (base size fieldn : Z) : list Z := map (fun i => base + 72 * fieldn * Z.of_nat i) (seq 0 (Z.to_nat size)).
(* What the results must be, given the live objects: an allocation returns an
   object that is not live while there is one and 0 otherwise; frees of live
   objects only. *)
Fixpoint pool_good (objs live : list Z) (ops : list oop) (outs : list Z) : Prop :=
  match ops with
  | [] => outs = []
  | OAlloc :: r =>
      match outs with
      | [] => False
      | x :: o =>
          if (length live <? length objs)%nat then In x objs /\ ~ In x live /\ pool_good objs (x :: live) r o
          else x = 0 /\ pool_good objs live r o
      end
  | OFree x :: r => In x live -> pool_good objs (remove Z.eq_dec x live) r outs
  end.
Definition avail (base : Z) (p : pool) : list Z := map (fun i => o_data p (Z.of_nat i) + base) (seq 0 (Z.to_nat (o_rem p))).
Definition pool_inv (base size fieldn : Z) (live : list Z) (p : pool) : Prop :=
  0 <= o_rem p <= size /\ Permutation (avail base p ++ live) (objects base size fieldn).
Definition pool_ok (base size fieldn : Z) : Prop := 0 < base /\ 0 < fieldn /\ 0 <= size /\ base + 72 * fieldn * size < 2^32.
Lemma objects_nodup base size fieldn : pool_ok base size fieldn -> NoDup (objects base size fieldn).
Proof.
  intros (H0 & H1 & H2 & H3). unfold objects. apply FinFun.Injective_map_NoDup; [|apply seq_NoDup].
  intros i j E. nia.
Qed.
Lemma objects_range base size fieldn x : pool_ok base size fieldn -> In x (objects base size fieldn) -> base <= x < 2^32.
Proof.
  intros (H0 & H1 & H2 & H3) H. apply in_map_iff in H. destruct H as (i & <- & Hi). apply in_seq in Hi. nia.
Qed.
Lemma remove_notin x (l : list Z) : ~ In x l -> remove Z.eq_dec x l = l.
Proof. apply notin_remove. Qed.
Lemma remove_perm x (l : list Z) : NoDup l -> In x l -> Permutation l (x :: remove Z.eq_dec x l).
Proof.
  induction l as [|y l IH]; intros N H; [destruct H|]. inversion_clear N. cbn [remove].
  destruct (Z.eq_dec x y) as [->|Hn].
  - rewrite notin_remove by assumption. reflexivity.
  - destruct H as [->|H]; [contradiction|]. rewrite (IH H1 H) at 1. apply perm_swap.
Qed.
Lemma seq_snoc n : seq 0 (S n) = seq 0 n ++ [n].
Proof. rewrite seq_S. reflexivity. Qed.
Theorem C33_pool : forall base size fieldn ops live p, pool_ok base size fieldn -> pool_inv base size fieldn live p ->
  pool_good (objects base size fieldn) live ops (fst (pool_run base ops p)).
Proof.
  intros base size fieldn ops. induction ops as [|op r IH]; intros live p Hok [Hr HP]; cbn [pool_run pool_good].
  - reflexivity.
  - assert (LEN : length (objects base size fieldn) = Z.to_nat size) by (unfold objects; rewrite map_length, seq_length; reflexivity).
    assert (LL : (length (avail base p) = Z.to_nat (o_rem p))%nat) by (unfold avail; rewrite map_length, seq_length; reflexivity).
    pose proof (Permutation_length HP) as PL. rewrite app_length in PL.
    pose proof (objects_nodup _ _ _ Hok) as ND. apply (Permutation_NoDup (Permutation_sym HP)) in ND.
    destruct op as [|x].
    + unfold pool_alloc. destruct (Z.eqb_spec (o_rem p) 0) as [Z0|Z0].
      * specialize (IH live p Hok (conj Hr HP)). destruct (pool_run base r p) as [o p']. cbn [fst] in *.
        destruct (Nat.ltb_spec (length live) (length (objects base size fieldn))); [lia|]. auto.
      * assert (AV : avail base p = avail base (mkpool (o_data p) (o_rem p - 1)) ++ [o_data p (o_rem p - 1) + base]).
        { unfold avail. cbn [o_rem o_data]. replace (Z.to_nat (o_rem p)) with (S (Z.to_nat (o_rem p - 1))) by lia.
          rewrite seq_snoc, map_app. cbn [map]. rewrite Z2Nat.id by lia. reflexivity. }
        assert (HIn : In (o_data p (o_rem p - 1) + base) (objects base size fieldn)).
        { apply (Permutation_in _ HP). rewrite AV. rewrite !in_app_iff. cbn. auto. }
        assert (Hnl : ~ In (o_data p (o_rem p - 1) + base) live).
        { rewrite AV, <- app_assoc in ND. apply NoDup_remove_2 in ND. rewrite in_app_iff in ND. tauto. }
        pose proof (objects_range _ _ _ _ Hok HIn) as HX. destruct Hok as (K0 & K1 & K2 & K3).
        assert (o_rem p < 2^32) by nia.
        rewrite (add_small (o_rem p) (-1)) by lia. replace (o_rem p + -1) with (o_rem p - 1) by lia.
        rewrite (add_small (o_data p (o_rem p - 1)) base) by lia.
        assert (INV : pool_inv base size fieldn ((o_data p (o_rem p - 1) + base) :: live) (mkpool (o_data p) (o_rem p - 1))).
        { split; [cbn; lia|]. rewrite <- HP, AV, <- app_assoc. reflexivity. }
        specialize (IH _ _ (conj K0 (conj K1 (conj K2 K3))) INV).
        destruct (pool_run base r (mkpool (o_data p) (o_rem p - 1))) as [o p']. cbn [fst] in *.
        destruct (Nat.ltb_spec (length live) (length (objects base size fieldn))); [auto|lia].
    + intros HL. apply IH; [exact Hok|].
      assert (HIn : In x (objects base size fieldn)) by (apply (Permutation_in _ HP); apply in_or_app; auto).
      pose proof (objects_range _ _ _ _ Hok HIn) as HX. destruct Hok as (K0 & K1 & K2 & K3).
      assert (NDl : NoDup live) by (clear - ND; induction (avail base p) as [|a l I]; [exact ND|inversion ND; auto]).
      assert (0 < length live)%nat by (destruct live; [destruct HL|cbn; lia]).
      assert (o_rem p < size) by lia. assert (size < 2^32) by nia.
      unfold pool_free. rewrite add_small by lia. rewrite u32_small by lia.
      split; [cbn; lia|]. rewrite <- HP. rewrite (remove_perm x live NDl HL) at 2.
      unfold avail. cbn [o_rem o_data]. replace (Z.to_nat (o_rem p + 1)) with (S (Z.to_nat (o_rem p))) by lia.
      rewrite seq_snoc, map_app. cbn [map]. rewrite <- app_assoc. cbn [app].
      rewrite Z2Nat.id by lia. rewrite set_eq. replace (x - base + base) with x by lia.
      apply Permutation_app_tail. erewrite map_ext_in; [reflexivity|]. intros i Hi. apply in_seq in Hi. rewrite set_ne by lia. reflexivity.
Qed.
Theorem C33_new : forall base size fieldn, pool_ok base size fieldn -> pool_inv base size fieldn [] (pool_new size fieldn).
Proof.
  intros base size fieldn (K0 & K1 & K2 & K3). split; [cbn; lia|]. rewrite app_nil_r. unfold avail, objects, pool_new. cbn [o_rem o_data].
  erewrite map_ext; [reflexivity|]. intros i. cbn beta. lia.
Qed.
(* an allocation from an exhausted pool changes nothing *)
Theorem C33_full : forall base size fieldn live p, pool_ok base size fieldn -> pool_inv base size fieldn live p ->
  length live = Z.to_nat size -> pool_alloc base p = (0, p).
Proof.
  intros base size fieldn live p Hok [Hr HP] HL. unfold pool_alloc.
  pose proof (Permutation_length HP) as PL. unfold avail, objects in PL. rewrite app_length, !map_length, !seq_length in PL.
  destruct (Z.eqb_spec (o_rem p) 0); [reflexivity|lia].
Qed.
Example C33_example : pool_ok 0x1000000 2 8 /\
  fst (pool_run 0x1000000 [OAlloc; OAlloc; OAlloc; OFree 0x1000240; OAlloc] (pool_new 2 8)) = [0x1000240; 0x1000000; 0; 0x1000240].
Proof. split; [unfold pool_ok; lia|reflexivity]. Qed.
(* free does not check that the object is live: after freeing an object twice,
   two allocations in a row return the same object *)
Theorem C33_double_free_refuted : exists base size fieldn x, pool_ok base size fieldn /\
  fst (pool_run base [OAlloc; OFree x; OFree x; OAlloc; OAlloc] (pool_new size fieldn)) = [x; x; x].
Proof. exists 0x1000000, 2, 8, 0x1000240. split; [unfold pool_ok; lia|reflexivity]. Qed.

(* ---------- C34 ---------- *)
Inductive gop := GAdd (u : Z) | GLoop (body : nat -> Z -> list Z * bool).
(* entries kept and added by one iteration over [l] *)
Fixpoint outcome (body : nat -> Z -> list Z * bool) (k : nat) (l : list Z) : list Z :=
  match l with
  | [] => []
  | x :: r => map (fun u => u32 (u + 19)) (fst (body k x)) ++ (if snd (body k x) then [] else [x]) ++ outcome body (S k) r
  end.
Fixpoint added (body : nat -> Z -> list Z * bool) (k : nat) (l : list Z) : nat :=
  match l with [] => O | x :: r => (length (fst (body k x)) + added body (S k) r)%nat end.
Fixpoint group_run (va : place) (cap : nat) (ops : list gop) (g : group) : option (list (list Z) * group) :=
  match ops with
  | [] => Some ([], g)
  | GAdd u :: r => group_run va cap r (group_add u g)
  | GLoop body :: r =>
      match group_cploop va (Z.of_nat cap) body cap g with
      | None => None
      | Some (v, g) => match group_run va cap r g with Some (vs, g') => Some (v :: vs, g') | None => None end
      end
  end.
(* [vis]: what the iterations saw; [ms]: the entries, in any order. As long as
   the capacity is not exceeded, each iteration sees each entry once. *)
Fixpoint group_good (cap : nat) (ops : list gop) (ms : list Z) (vis : list (list Z)) (final : list Z) : Prop :=
  match ops with
  | [] => vis = [] /\ Permutation final ms
  | GAdd u :: r => group_good cap r (u32 (u + 19) :: ms) vis final
  | GLoop body :: r =>
      match vis with
      | [] => False
      | v :: vs => Permutation v ms /\ group_good cap r (outcome body 0 v) vs final
      end
  end.
Fixpoint group_fits (cap : nat) (ops : list gop) (ms : list Z) : Prop :=
  match ops with
  | [] => True
  | GAdd u :: r => (length ms < cap)%nat /\ group_fits cap r (u32 (u + 19) :: ms)
  | GLoop body :: r => forall v, Permutation v ms -> (length ms + added body 0 v <= cap)%nat /\ group_fits cap r (outcome body 0 v)
  end.
(* the entries, from the first used slot to the end of the array *)
Definition group_rep (va : place) (cap : nat) (l : list Z) (g : group) : Prop :=
  (length l <= cap)%nat /\ g_trg g = qb va + 72 * (Z.of_nat cap - Z.of_nat (length l)) /\
  g_pos g = qe va + 87 + 18 * (Z.of_nat cap - Z.of_nat (length l)) /\ g_len g = Z.of_nat (length l) /\
  forall j x, nth_error l j = Some x -> g_mem g (qe va + 87 + 18 * (Z.of_nat cap - Z.of_nat (length l) + Z.of_nat j)) = x.

Lemma nth_len A (l : list A) j x : nth_error l j = Some x -> (j < length l)%nat.
Proof. intros H. apply nth_error_Some. congruence. Qed.
Lemma group_add_rep va cap l g u : place_ok va (Z.of_nat cap) -> (length l < cap)%nat -> group_rep va cap l g ->
  group_rep va cap (u32 (u + 19) :: l) (group_add u g).
Proof.
  intros (P0 & P1 & P2 & P3 & P4) HL (R1 & R2 & R3 & R4 & R5). unfold group_add. rewrite R2, R3, R4. adds.
  split; [cbn; lia|]. cbn [g_trg g_pos g_len g_mem length]. split; [lia|]. split; [lia|]. split; [lia|].
  intros [|j] x Hj.
  - injection Hj as <-. rewrite <- (set_eq (g_mem g) (qe va + 87 + 18 * (Z.of_nat cap - Z.of_nat (length l)) + -18) (u32 (u + 19))). f_equal; lia.
  - cbn in Hj. rewrite set_ne by lia. rewrite <- (R5 j x Hj). f_equal. lia.
Qed.
Lemma group_adds_rep va cap us : forall l g, place_ok va (Z.of_nat cap) -> (length l + length us <= cap)%nat -> group_rep va cap l g ->
  group_rep va cap (rev (map (fun u => u32 (u + 19)) us) ++ l) (fold_left (fun g u => group_add u g) us g).
Proof.
  induction us as [|u r IH]; intros l g Hp HL HR; [exact HR|]. cbn [fold_left map rev length] in *. rewrite <- app_assoc. cbn [app].
  apply IH; [exact Hp|cbn; lia|]. apply group_add_rep; [exact Hp|lia|exact HR].
Qed.
Lemma group_remove_rep va cap d x r g : place_ok va (Z.of_nat cap) -> group_rep va cap (d ++ x :: r) g ->
  group_rep va cap (match d with [] => r | e :: d' => d' ++ e :: r end)
    (group_remove va (qe va + 87 + 18 * (Z.of_nat cap - Z.of_nat (S (length r)))) g).
Proof.
  intros (P0 & P1 & P2 & P3 & P4) (R1 & R2 & R3 & R4 & R5). rewrite app_length in *. cbn [length] in *.
  unfold group_remove. rewrite R2, R3, R4, cell_slot. unfold sub_sat. adds.
  destruct d as [|e d]; cbn [length app] in *.
  - split; [lia|]. cbn [g_trg g_pos g_len g_mem]. split; [lia|]. split; [lia|]. split; [lia|].
    intros j y Hj. rewrite set_ne by lia. rewrite <- (R5 (S j) y Hj). f_equal. lia.
  - split; [rewrite app_length; cbn; lia|]. cbn [g_trg g_pos g_len g_mem]. rewrite app_length. cbn [length]. split; [lia|]. split; [lia|]. split; [lia|].
    intros j y Hj. destruct (Nat.eq_dec j (length d)) as [->|Hn].
    + rewrite nth_error_app2, Nat.sub_diag in Hj by lia. injection Hj as <-.
      match goal with |- set ?m ?a ?v ?b = _ => replace b with a by lia end. rewrite set_eq. rewrite <- (R5 O e eq_refl). f_equal. lia.
    + rewrite set_ne by lia. rewrite <- (R5 (S j) y); [f_equal; lia|]. cbn [nth_error].
      destruct (Nat.lt_ge_cases j (length d)).
      * rewrite nth_error_app1 in * by lia. exact Hj.
      * rewrite nth_error_app2 in * by lia. replace (j - length d)%nat with (S (j - length d - 1)) in * by lia. exact Hj.
Qed.
Lemma group_loop_ok va cap body rest : forall fuel k done g, place_ok va (Z.of_nat cap) -> group_rep va cap (done ++ rest) g ->
  (length done + length rest + added body k rest <= cap)%nat -> (length rest <= fuel)%nat ->
  exists g' l, group_loop va (Z.of_nat cap) body fuel k (qb va + 72 * (Z.of_nat cap - Z.of_nat (length rest)))
     (qe va + 87 + 18 * (Z.of_nat cap - Z.of_nat (length rest))) g = Some (rest, g') /\
    group_rep va cap l g' /\ Permutation l (done ++ outcome body k rest).
Proof.
  induction rest as [|x r IH]; intros fuel k done g Hp HR HA HF.
  - exists g, done. rewrite app_nil_r in *. split; [|split; [exact HR|reflexivity]]. destruct fuel; cbn [group_loop length];
    (destruct (Z.leb_spec (qb va + 72 * Z.of_nat cap) (qb va + 72 * (Z.of_nat cap - Z.of_nat 0))); [reflexivity|lia]).
  - destruct fuel as [|fu]; [cbn in HF; lia|]. cbn [group_loop].
    pose proof HR as (R1 & R2 & R3 & R4 & R5). rewrite app_length in *. cbn [length added outcome] in *. pose proof Hp as (P0 & P1 & P2 & P3 & P4).
    destruct (Z.leb_spec (qb va + 72 * Z.of_nat cap) (qb va + 72 * (Z.of_nat cap - Z.of_nat (S (length r))))); [lia|].
    rewrite cell_slot.
    assert (EX : g_mem g (qe va + 87 + 18 * (Z.of_nat cap - Z.of_nat (S (length r)))) = x).
    { rewrite <- (R5 (length done) x); [f_equal; lia|]. rewrite nth_error_app2, Nat.sub_diag by lia. reflexivity. }
    rewrite EX. destruct (body k x) as [us rm] eqn:EB. cbn [fst snd] in *.
    pose proof (group_adds_rep va cap us (done ++ x :: r) g Hp ltac:(rewrite app_length; cbn; lia) HR) as HR1.
    rewrite app_assoc in HR1. set (D := rev (map (fun u => u32 (u + 19)) us) ++ done) in *.
    set (g1 := fold_left (fun g u => group_add u g) us g) in *. adds.
    replace (qb va + 72 * (Z.of_nat cap - Z.of_nat (S (length r))) + 72) with (qb va + 72 * (Z.of_nat cap - Z.of_nat (length r))) by lia.
    replace (qe va + 87 + 18 * (Z.of_nat cap - Z.of_nat (S (length r))) + 18) with (qe va + 87 + 18 * (Z.of_nat cap - Z.of_nat (length r))) by lia.
    assert (HD : length D = (length us + length done)%nat) by (unfold D; rewrite app_length, rev_length, map_length; reflexivity).
    assert (PD : Permutation D (done ++ map (fun u => u32 (u + 19)) us)).
    { unfold D. rewrite Permutation_app_comm. apply Permutation_app_head. symmetry. apply Permutation_rev. }
    destruct rm.
    + pose proof (group_remove_rep va cap D x r g1 Hp HR1) as HR2. set (g2 := group_remove va _ g1) in *.
      assert (Q : exists D2, Permutation D2 D /\ length D2 = length D /\ group_rep va cap (D2 ++ r) g2).
      { destruct D as [|e D']; [exists []; auto|]. exists (D' ++ [e]). split; [symmetry; apply Permutation_cons_append|].
        split; [rewrite app_length; cbn; lia|]. rewrite <- app_assoc. exact HR2. }
      destruct Q as (D2 & PD2 & LD2 & HR3).
      destruct (IH fu (S k) D2 g2 Hp HR3 ltac:(lia) ltac:(lia)) as (g' & l & E & HG & HPm).
      rewrite E. exists g', l. split; [reflexivity|]. split; [exact HG|]. rewrite HPm, PD2, PD, <- app_assoc. reflexivity.
    + replace (D ++ x :: r) with ((D ++ [x]) ++ r) in HR1 by (rewrite <- app_assoc; reflexivity).
      destruct (IH fu (S k) (D ++ [x]) g1 Hp HR1 ltac:(rewrite app_length; cbn; lia) ltac:(lia)) as (g' & l & E & HG & HPm).
      rewrite E. exists g', l. split; [reflexivity|]. split; [exact HG|]. rewrite HPm, PD, <- !app_assoc. reflexivity.
Qed.
Lemma group_good_perm cap ops : forall ms ms' vis f, Permutation ms ms' -> group_good cap ops ms vis f -> group_good cap ops ms' vis f.
Proof.
  induction ops as [|[u|body] r IH]; intros ms ms' vis f HP H; cbn [group_good] in *.
  - destruct H as [A B]. split; [exact A|]. rewrite B. exact HP.
  - apply (IH (u32 (u + 19) :: ms)); [apply perm_skip; exact HP|exact H].
  - destruct vis; [exact H|]. destruct H as [A B]. split; [rewrite A; exact HP|exact B].
Qed.
(* Whatever is added, between and during iterations, and whichever entries the
   iterations remove: every iteration terminates and sees exactly the entries
   present when it starts, each once, and exactly the removed ones go away. *)
Theorem C34_group : forall va cap ops l g, place_ok va (Z.of_nat cap) -> group_rep va cap l g -> group_fits cap ops l ->
  exists vis g' l', group_run va cap ops g = Some (vis, g') /\ group_rep va cap l' g' /\ group_good cap ops l vis l' /\
    g_len g' = Z.of_nat (length l').
Proof.
  intros va cap ops. induction ops as [|[u|body] r IH]; intros l g Hp HR HF; cbn [group_run group_fits group_good] in *.
  - exists [], g, l. split; [reflexivity|]. split; [exact HR|]. split; [auto|]. apply HR.
  - destruct HF as [HF1 HF2]. exact (IH _ _ Hp (group_add_rep va cap l g u Hp HF1 HR) HF2).
  - destruct (HF l (Permutation_refl l)) as [HF1 HF2].
    pose proof HR as (R1 & R2 & R3 & R4 & R5).
    destruct (group_loop_ok va cap body l cap 0 [] g Hp HR ltac:(cbn; lia) R1) as (g1 & l1 & E & HR1 & HP1). cbn [app] in HP1.
    unfold group_cploop. rewrite R2, R3, E.
    assert (HF3 : group_fits cap r l1).
    { clear - HF2 HP1. assert (HP : Permutation (outcome body 0 l) l1) by (symmetry; exact HP1). revert HF2 HP. generalize (outcome body 0 l). clear. revert l1.
      induction r as [|[u|b] r IH]; intros l1 m H HP; cbn [group_fits] in *; [exact I| |].
      - destruct H as [A B]. rewrite <- (Permutation_length HP). split; [exact A|]. apply (IH _ _ B). apply perm_skip. exact HP.
      - intros v Hv. rewrite <- (Permutation_length HP). apply H. rewrite Hv. symmetry. exact HP. }
    destruct (IH l1 g1 Hp HR1 HF3) as (vis & g2 & l2 & E2 & HR2 & HG & HL). rewrite E2.
    exists (l :: vis), g2, l2. split; [reflexivity|]. split; [exact HR2|]. split; [|exact HL]. split; [reflexivity|].
    apply (group_good_perm cap r l1); [exact HP1|exact HG].
Qed.
Theorem C34_new : forall va cap m, group_rep va cap [] (group_new va (Z.of_nat cap) m).
Proof.
  intros va cap m. split; [cbn; lia|]. cbn [group_new g_trg g_pos g_len g_mem length]. split; [lia|]. split; [lia|]. split; [lia|].
  intros [|j] x Hj; discriminate.
Qed.
(* third pass removes the first entry and adds unit 100 *)
Example C34_example : let va := mkplace 0x1000000 0x29D6E7 in
  let ops := [GAdd 1; GAdd 2; GAdd 3; GLoop (fun k x => ((if (k =? 2)%nat then [100] else []), x =? 22)); GLoop (fun _ _ => ([], false))] in
  place_ok va 4 /\ group_fits 4 ops [] /\
  option_map fst (group_run va 4 ops (group_new va 4 (fun _ => 0))) = Some [[22; 21; 20]; [119; 21; 20]].
Proof.
  cbv zeta. split; [unfold place_ok; cbn; lia|]. split; [|reflexivity].
  cbn [group_fits length]. repeat (split; [lia|]). intros v Hv. pose proof (Permutation_length Hv) as L. cbn [length] in L.
  destruct v as [|a [|b [|c [|]]]]; try discriminate. cbn [added length fst snd Nat.eqb Nat.add outcome]. split; [lia|].
  intros w Hw. split; [|repeat split]. assert (A : forall k, added (fun _ _ => ([], false)) k w = O) by (clear; induction w as [|y w IH]; intros k; [reflexivity|exact (IH (S k))]).
  rewrite A. destruct (a =? 22), (b =? 22), (c =? 22); cbn; lia.
Qed.
(* add does not check the capacity: one unit too many is stored before the array *)
Theorem C34_overflow_refuted : exists va g, group_rep va 1 [20] g /\ place_ok va 1 /\
  g_mem (group_add 2 g) (qe va + 87 - 18) <> g_mem g (qe va + 87 - 18).
Proof.
  exists (mkplace 0x1000000 0x29D6E7), (group_add 1 (group_new (mkplace 0x1000000 0x29D6E7) 1 (fun _ => 0))).
  split; [|split; [unfold place_ok; cbn; lia|vm_compute; discriminate]].
  change [20] with [u32 (1 + 19)]. apply (group_add_rep _ 1 []); [unfold place_ok; cbn; lia|cbn; lia|apply (C34_new _ 1)].
Qed.

(* ---------- C29 ---------- *)
Inductive pop_ := PDw (dst v : Z) | PBlock (dst src n : Z).
Fixpoint patch_run (ps dws tmp : Z) (ops : list pop_) (x : patches) : option patches :=
  match ops with
  | [] => Some x
  | PDw dst v :: r => patch_run ps dws tmp r (dwpatch ps dws dst v x)
  | PBlock dst src n :: r =>
      match blockpatch ps tmp dst src n (Z.to_nat n) x with Some x => patch_run ps dws tmp r x | None => None end
  end.
Definition within (a b n : Z) : Prop := b <= a < b + n.
(* the cells a patch writes to, and the buffer given to a block patch *)
Definition target_ (op : pop_) (a : Z) : Prop := match op with PDw dst _ => a = dst | PBlock dst _ n => within a dst n end.
Definition buffer (op : pop_) (a : Z) : Prop := match op with PDw _ _ => False | PBlock _ src n => within a src n end.
(* cells of the patch machinery: the two stacks (_patch_max = 8192) and the swap buffer *)
Definition machinery (ps dws tmp a : Z) : Prop := within a ps (3 * 8192) \/ within a dws 8192 \/ within a tmp 256.
Fixpoint buffers (ops : list pop_) (a : Z) : Prop := match ops with [] => False | op :: r => buffer op a \/ buffers r a end.
Fixpoint apart (ops : list pop_) : Prop := match ops with [] => True | op :: r => (forall a, buffer op a -> ~ buffers r a) /\ apart r end.
Definition patches_ok (ps dws tmp : Z) (ops : list pop_) : Prop :=
  (forall a, within a ps (3 * 8192) -> ~ within a dws 8192 /\ ~ within a tmp 256) /\
  (forall a, within a dws 8192 -> ~ within a tmp 256) /\
  (Z.of_nat (length ops) <= 8192) /\
  (forall op a, In op ops -> target_ op a -> ~ machinery ps dws tmp a /\ ~ buffers ops a) /\
  (forall a, buffers ops a -> ~ machinery ps dws tmp a) /\ apart ops.
Definition small_blocks (ops : list pop_) : Prop := forall dst src n, In (PBlock dst src n) ops -> 0 <= n <= 256.

Lemma repmovsd_spec n : forall dst src m a, (forall b, within b dst (Z.of_nat n) -> ~ within b src (Z.of_nat n)) ->
  repmovsd dst src n m a = if (dst <=? a) && (a <? dst + Z.of_nat n) then m (src + (a - dst)) else m a.
Proof.
  induction n as [|n IH]; intros dst src m a HD; cbn [repmovsd].
  - destruct (Z.leb_spec dst a); destruct (Z.ltb_spec a (dst + Z.of_nat 0)); cbn [andb]; try reflexivity; lia.
  - assert (ND : forall i, 0 <= i < Z.of_nat (S n) -> src + i <> dst).
    { intros i Hi E. apply (HD dst); unfold within; lia. }
    rewrite IH.
    + destruct (Z.leb_spec (dst + 1) a); destruct (Z.ltb_spec a (dst + 1 + Z.of_nat n)); destruct (Z.leb_spec dst a);
      destruct (Z.ltb_spec a (dst + Z.of_nat (S n))); cbn [andb]; try lia.
      * rewrite set_ne; [f_equal; lia|]. intros E. apply (ND (1 + (a - (dst + 1)))); lia.
      * rewrite set_ne by lia. reflexivity.
      * assert (a = dst) as -> by lia. rewrite set_eq. f_equal. lia.
      * rewrite set_ne by lia. reflexivity.
    + intros b H1 H2. apply (HD b); unfold within in *; lia.
Qed.
Lemma repmovsd_out n : forall dst src m a, ~ within a dst (Z.of_nat n) -> repmovsd dst src n m a = m a.
Proof.
  induction n as [|n IH]; intros dst src m a H; cbn [repmovsd]; [reflexivity|].
  rewrite IH by (unfold within in *; lia). apply set_ne. unfold within in H. lia.
Qed.
Definition entry := (Z * Z * Z)%type.
(* entries, most recent first *)
Fixpoint restore (es : list entry) (m : memory) : memory :=
  match es with [] => m | (dst, src, n) :: r => restore r (repmovsd dst src (Z.to_nat n) m) end.
Fixpoint stacked (ps : Z) (es : list entry) (m : memory) : Prop :=
  match es with
  | [] => True
  | (dst, src, n) :: r => let t := 3 * Z.of_nat (length r) in
      m (ps + t) = dst /\ m (ps + t + 1) = src /\ m (ps + t + 2) = n /\ 0 <= n /\ stacked ps r m
  end.
(* no entry writes into E's complement... : the cells entries write and read *)
Definition e_dst (e : entry) (a : Z) : Prop := let '(dst, _, n) := e in within a dst n.
Definition e_src (e : entry) (a : Z) : Prop := let '(_, src, n) := e in within a src n.

Lemma stacked_agree ps es : forall m m', (forall a, within a ps (3 * Z.of_nat (length es)) -> m a = m' a) -> stacked ps es m -> stacked ps es m'.
Proof.
  induction es as [|[[dst src] n] r IH]; intros m m' HA H; cbn [stacked length] in *; [exact I|].
  destruct H as (A & B & C & D & E). rewrite <- !HA by (unfold within; lia). repeat (split; [assumption|]).
  apply (IH m); [|exact E]. intros a Ha. apply HA. unfold within in *. lia.
Qed.
Lemma unpatch_restore ps es : forall fuel x, stacked ps es (x_mem x) -> x_ps x = 3 * Z.of_nat (length es) -> x_dws x = Z.of_nat (length es) ->
  Z.of_nat (length es) <= 8192 -> (length es <= fuel)%nat ->
  (forall e a, In e es -> e_dst e a -> ~ within a ps (3 * 8192)) ->
  unpatchall ps fuel x = Some (mkpatches (restore es (x_mem x)) 0 0).
Proof.
  induction es as [|[[dst src] n] r IH]; intros fuel x HS EP ED HL HF HD.
  - destruct x as [m p d]. cbn in *. subst. destruct fuel; reflexivity.
  - destruct fuel as [|fu]; [cbn in HF; lia|]. cbn [unpatchall length stacked restore] in *.
    destruct HS as (A & B & C & D & E).
    destruct (Z.leb_spec 1 (x_ps x)); [|lia]. unfold popps. cbn [x_mem x_ps x_dws].
    rewrite EP, ED. adds.
    replace (ps + (3 * Z.of_nat (S (length r)) + -1)) with (ps + 3 * Z.of_nat (length r) + 2) by lia.
    replace (ps + (3 * Z.of_nat (S (length r)) + -1 + -1)) with (ps + 3 * Z.of_nat (length r) + 1) by lia.
    replace (ps + (3 * Z.of_nat (S (length r)) + -1 + -1 + -1)) with (ps + 3 * Z.of_nat (length r)) by lia.
    rewrite A, B, C. rewrite IH; cbn [x_mem x_ps x_dws]; [reflexivity| |lia|lia|lia|lia|].
    + apply (stacked_agree ps r (x_mem x)); [|exact E]. intros a Ha. symmetry. apply repmovsd_out. intros Hw.
      apply (HD (dst, src, n) a (or_introl eq_refl)); [cbn; rewrite Z2Nat.id in Hw by lia; exact Hw|]. unfold within in *. lia.
    + intros e a Hin. apply HD. right. exact Hin.
Qed.
(* two memories that agree outside K and on the buffers are restored to
   memories that agree outside K *)
Lemma restore_agree (K : Z -> Prop) es : forall m m',
  (forall e a, In e es -> e_dst e a -> ~ K a) -> (forall e a, In e es -> e_src e a -> K a) -> (forall e, In e es -> 0 <= snd e) ->
  (forall a, ~ K a \/ (exists e, In e es /\ e_src e a) -> m a = m' a) ->
  forall a, ~ K a -> restore es m a = restore es m' a.
Proof.
  induction es as [|[[dst src] n] r IH]; intros m m' HD HSK HN HA a Ha; cbn [restore]; [apply HA; auto|].
  pose proof (HN (dst, src, n) (or_introl eq_refl)) as Hn. cbn [snd] in Hn.
  apply IH; try (intros; solve [eauto using in_cons]).
  assert (DJ : forall b, within b dst (Z.of_nat (Z.to_nat n)) -> ~ within b src (Z.of_nat (Z.to_nat n))).
  { intros b H1 H2. rewrite Z2Nat.id in * by lia. apply (HD (dst, src, n) b (or_introl eq_refl) H1). apply (HSK (dst, src, n) b (or_introl eq_refl) H2). }
  intros b Hb. rewrite !repmovsd_spec by exact DJ. rewrite Z2Nat.id by lia.
  destruct (Z.leb_spec dst b); destruct (Z.ltb_spec b (dst + n)); cbn [andb].
  - apply HA. right. exists (dst, src, n). split; [left; reflexivity|]. cbn. unfold within. lia.
  - apply HA. destruct Hb as [Hb|(e & He & Hb)]; [auto|right; exists e; cbn; auto].
  - apply HA. destruct Hb as [Hb|(e & He & Hb)]; [auto|right; exists e; cbn; auto].
  - apply HA. destruct Hb as [Hb|(e & He & Hb)]; [auto|right; exists e; cbn; auto].
Qed.

Section Patch.
Variables (ps dws tmp : Z) (all : list pop_).
Let K (a : Z) : Prop := machinery ps dws tmp a \/ buffers all a.
Definition patch_inv (m0 : memory) (es : list entry) (r : list pop_) (x : patches) : Prop :=
  x_ps x = 3 * Z.of_nat (length es) /\ x_dws x = Z.of_nat (length es) /\ stacked ps es (x_mem x) /\
  Z.of_nat (length es) + Z.of_nat (length r) <= 8192 /\
  (forall e, In e es -> 0 <= snd e /\ (forall a, e_dst e a -> ~ K a) /\
     (forall a, e_src e a -> K a /\ ~ within a ps (3 * 8192) /\ ~ within a tmp 256 /\ ~ buffers r a /\
        ~ (dws + Z.of_nat (length es) <= a < dws + 8192))) /\
  (forall a, ~ K a -> restore es (x_mem x) a = m0 a).
Lemma patch_step m0 es op r x e m' :
  patch_inv m0 es (op :: r) x -> (forall a, buffer op a -> buffers all a) ->
  0 <= snd e -> (forall a, e_dst e a -> ~ K a) ->
  (forall a, e_src e a -> K a /\ ~ within a ps (3 * 8192) /\ ~ within a tmp 256 /\ ~ buffers r a /\
     ~ (dws + (Z.of_nat (length es) + 1) <= a < dws + 8192)) ->
  stacked ps (e :: es) m' ->
  (forall i, 0 <= i < snd e -> m' (snd (fst e) + i) = x_mem x (fst (fst e) + i)) ->
  (forall a, ~ within a ps (3 * 8192) -> ~ within a tmp 256 -> ~ buffer op a -> a <> dws + Z.of_nat (length es) -> ~ e_dst e a ->
     m' a = x_mem x a) ->
  patch_inv m0 (e :: es) r (mkpatches m' (3 * Z.of_nat (length (e :: es))) (Z.of_nat (length (e :: es)))).
Proof.
  destruct e as [[dst src] n]. cbn [fst snd]. intros (I1 & I2 & I3 & I4 & I5 & I6) HB Hn HD HS HST HV HC.
  split; [reflexivity|]. split; [reflexivity|]. split; [exact HST|]. cbn [length x_mem] in *. split; [lia|]. split.
  - intros e [<-|He].
    + split; [exact Hn|]. split; [exact HD|]. intros a Ha. specialize (HS a Ha).
      replace (Z.of_nat (S (length es))) with (Z.of_nat (length es) + 1) by lia. exact HS.
    + destruct (I5 e He) as (A & B & C). split; [exact A|]. split; [exact B|]. intros a Ha. destruct (C a Ha) as (C1 & C2 & C3 & C4 & C5).
      cbn [buffers] in C4. repeat split; try tauto. lia.
  - intros a Ha. rewrite <- I6 by exact Ha. cbn [restore].
    assert (DJ : forall b, within b dst (Z.of_nat (Z.to_nat n)) -> ~ within b src (Z.of_nat (Z.to_nat n))).
    { intros b H1 H2. rewrite Z2Nat.id in * by lia. apply (HD b H1). apply (HS b H2). }
    apply (restore_agree K); [intros e b He; apply I5; exact He|intros e b He Hb; apply (I5 e He); exact Hb|intros e He; apply I5; exact He| |exact Ha].
    intros b Hb. rewrite repmovsd_spec by exact DJ. rewrite Z2Nat.id by lia.
    assert (OUT : ~ within b dst n -> m' b = x_mem x b).
    { intros Hnd. destruct Hb as [Hb|(e & He & Hb)].
      - apply HC; [intros H; apply Hb; unfold K, machinery; auto|intros H; apply Hb; unfold K, machinery; auto| | |exact Hnd].
        + intros H. apply Hb. right. exact (HB b H).
        + intros ->. apply Hb. left. right. left. unfold within. lia.
      - destruct (I5 e He) as (A & B & C). destruct (C b Hb) as (C1 & C2 & C3 & C4 & C5). cbn [buffers] in C4.
        apply HC; try tauto. intros ->. apply C5. cbn [length] in I4. lia. }
    destruct (Z.leb_spec dst b); destruct (Z.ltb_spec b (dst + n)); cbn [andb]; try (apply OUT; unfold within; lia).
    rewrite HV by lia. f_equal. lia.
Qed.

Hypothesis OK : patches_ok ps dws tmp all.
Hypothesis SMALL : small_blocks all.
Lemma push3 d1 d2 d3 x n : x_ps x = 3 * Z.of_nat n -> Z.of_nat n < 8192 ->
  let y := pushps ps d3 (pushps ps d2 (pushps ps d1 x)) in
  x_ps y = 3 * Z.of_nat (S n) /\ x_dws y = x_dws x /\
  x_mem y (ps + 3 * Z.of_nat n) = d1 /\ x_mem y (ps + 3 * Z.of_nat n + 1) = d2 /\ x_mem y (ps + 3 * Z.of_nat n + 2) = d3 /\
  (forall a, ~ (ps + 3 * Z.of_nat n <= a < ps + 3 * Z.of_nat n + 3) -> x_mem y a = x_mem x a).
Proof.
  intros E HL. cbv zeta. unfold pushps. cbn [x_ps x_mem x_dws]. rewrite E. adds.
  replace (ps + (3 * Z.of_nat n + 1)) with (ps + 3 * Z.of_nat n + 1) by lia.
  replace (ps + (3 * Z.of_nat n + 1 + 1)) with (ps + 3 * Z.of_nat n + 2) by lia.
  split; [lia|]. split; [reflexivity|]. split; [rewrite !set_ne by lia; apply set_eq|]. split; [rewrite set_ne by lia; apply set_eq|].
  split; [apply set_eq|]. intros a Ha. rewrite !set_ne by lia. reflexivity.
Qed.
Lemma patches_run m0 r : forall es x, patch_inv m0 es r x ->
  (forall op, In op r -> In op all) -> (forall a, buffers r a -> buffers all a) -> apart r ->
  exists es' x', patch_run ps dws tmp r x = Some x' /\ patch_inv m0 es' [] x' /\ length es' = (length es + length r)%nat.
Proof.
  destruct OK as (O1 & O2 & O3 & O4 & O5 & O6).
  induction r as [|op r IH]; intros es x HI Hin Hbuf Hap.
  - exists es, x. split; [reflexivity|]. split; [exact HI|cbn; lia].
  - assert (Hb : forall a, buffer op a -> buffers all a) by (intros a Ha; apply Hbuf; left; exact Ha).
    assert (Hin' : forall o, In o r -> In o all) by (intros o Ho; apply Hin; right; exact Ho).
    assert (Hbuf' : forall a, buffers r a -> buffers all a) by (intros a Ha; apply Hbuf; right; exact Ha).
    destruct Hap as [Hap1 Hap2]. pose proof HI as (I1 & I2 & I3 & I4 & I5 & I6). cbn [length] in I4.
    assert (HT : forall a, target_ op a -> ~ K a).
    { intros a Ha [H|H]; destruct (O4 op a (Hin op (or_introl eq_refl)) Ha); auto. }
    assert (HTm : forall a, target_ op a -> ~ within a ps (3 * 8192) /\ ~ within a dws 8192 /\ ~ within a tmp 256 /\ ~ buffers all a).
    { intros a Ha. specialize (HT a Ha). unfold K, machinery in HT. tauto. }
    destruct op as [dst v|dst src n].
    + cbn [patch_run]. unfold dwpatch. rewrite I2.
      set (x1 := mkpatches _ (x_ps x) (Z.of_nat (length es))).
      destruct (push3 dst (dws + Z.of_nat (length es)) 1 x1 (length es) I1 ltac:(lia)) as (Q1 & Q2 & Q3 & Q4 & Q5 & Q6).
      set (y := pushps ps 1 _) in *. rewrite Q2. unfold x1. cbn [x_dws]. rewrite add_small by lia. rewrite Q1.
      assert (Hd : dst <> dws + Z.of_nat (length es)).
      { intros ->. destruct (HTm (dws + Z.of_nat (length es)) eq_refl) as (_ & A & _). apply A. unfold within. lia. }
      assert (Hdp : ~ within (dws + Z.of_nat (length es)) ps (3 * 8192)).
      { intros H. destruct (O1 _ H) as [A _]. apply A. unfold within. lia. }
      assert (HI2 : patch_inv m0 ((dst, dws + Z.of_nat (length es), 1) :: es) r
          (mkpatches (x_mem y) (3 * Z.of_nat (S (length es))) (Z.of_nat (length es) + 1))).
      { replace (Z.of_nat (length es) + 1) with (Z.of_nat (S (length es))) by lia.
        apply (patch_step m0 es (PDw dst v) r x (dst, dws + Z.of_nat (length es), 1) (x_mem y) HI Hb); cbn [fst snd e_dst e_src].
        - lia.
        - intros a Ha. apply HT. cbn. unfold within in Ha. lia.
        - intros a Ha. assert (a = dws + Z.of_nat (length es)) as -> by (unfold within in Ha; lia).
          split; [left; right; left; unfold within; lia|]. split; [exact Hdp|]. split; [apply O2; unfold within; lia|].
          split; [|lia]. intros H. apply (O5 _ (Hbuf' _ H)). right. left. unfold within. lia.
        - cbn [stacked]. cbv zeta. split; [exact Q3|]. split; [exact Q4|]. split; [exact Q5|]. split; [lia|].
          apply (stacked_agree ps es (x_mem x)); [|exact I3]. intros a Ha. rewrite Q6 by (unfold within in Ha; lia).
          unfold x1. cbn [x_mem]. rewrite !set_ne; [reflexivity| |].
          + intros ->. destruct (HTm dst eq_refl) as (A & _). apply A. unfold within in *. lia.
          + intros ->. apply Hdp. unfold within in *. lia.
        - intros i Hi. assert (i = 0) as -> by lia. rewrite !Z.add_0_r. rewrite Q6 by (unfold within in Hdp; lia). unfold x1. cbn [x_mem]. apply set_eq.
        - intros a A1 A2 A3 A4 A5. rewrite Q6 by (unfold within in A1; lia). unfold x1. cbn [x_mem]. rewrite set_ne by exact A4.
          apply set_ne. unfold within in A5. lia. }
      destruct (IH _ _ HI2 Hin' Hbuf' Hap2) as (es' & x' & E & HE & HL). exists es', x'. split; [exact E|]. split; [exact HE|]. cbn [length] in *. lia.
    + cbn [patch_run]. unfold blockpatch. pose proof (SMALL dst src n (Hin _ (or_introl eq_refl))) as Hn.
      destruct (push3 dst src n x (length es) I1 ltac:(lia)) as (Q1 & Q2 & Q3 & Q4 & Q5 & Q6).
      set (y := pushps ps n _) in *. rewrite Q1, Q2, I2. rewrite add_small by lia.
      assert (HSb : forall a, within a src n -> ~ within a ps (3 * 8192) /\ ~ within a dws 8192 /\ ~ within a tmp 256).
      { intros a Ha. pose proof (O5 a (Hb a Ha)) as H. unfold machinery in H. tauto. }
      assert (HDS : forall a, within a dst n -> ~ within a src n).
      { intros a Ha Hs. destruct (HTm a Ha) as (_ & _ & _ & A). apply A. apply Hb. exact Hs. }
      assert (HB : exists m', block_loop tmp dst src (Z.to_nat n) 256 n (x_mem y) = Some m' /\
         (forall i, 0 <= i < n -> m' (src + i) = x_mem y (dst + i)) /\
         (forall a, ~ within a dst n -> ~ within a src n -> ~ within a tmp 256 -> m' a = x_mem y a)).
      { destruct (Z.eq_dec n 0) as [->|Hn0].
        - exists (x_mem y). split; [reflexivity|]. split; [intros; lia|reflexivity].
        - replace (Z.to_nat n) with (S (Z.to_nat (n - 1))) by lia. cbn [block_loop].
          destruct (Z.eqb_spec n 0); [contradiction|].
          replace (if n <=? 255 then n else 256) with n by (destruct (Z.leb_spec n 255); lia).
          replace (sub_sat n 256) with 0 by (unfold sub_sat; lia).
          set (m1 := repmovsd tmp dst (Z.to_nat n) (x_mem y)). set (m2 := repmovsd dst src (Z.to_nat n) m1). set (m3 := repmovsd src tmp (Z.to_nat n) m2).
          exists m3. split; [destruct (Z.to_nat (n - 1)); reflexivity|].
          assert (NN : Z.of_nat (Z.to_nat n) = n) by lia. split.
          + intros i Hi. unfold m3. rewrite repmovsd_spec; rewrite NN.
            2:{ intros b H1 H2. destruct (HSb b H1) as (_ & _ & A). apply A. unfold within in *. lia. }
            replace ((src <=? src + i) && (src + i <? src + n)) with true by lia. replace (src + i - src) with i by lia.
            unfold m2. rewrite repmovsd_out; rewrite ?NN.
            2:{ intros H1. destruct (HTm _ H1) as (_ & _ & A & _). apply A. unfold within. lia. }
            unfold m1. rewrite repmovsd_spec; rewrite NN.
            2:{ intros b H1 H2. destruct (HTm b H2) as (_ & _ & A & _). apply A. unfold within in *. lia. }
            replace ((tmp <=? tmp + i) && (tmp + i <? tmp + n)) with true by lia. f_equal. lia.
          + intros a A1 A2 A3. unfold m3. rewrite repmovsd_out by (rewrite NN; exact A2). unfold m2. rewrite repmovsd_out by (rewrite NN; exact A1).
            unfold m1. apply repmovsd_out. rewrite NN. unfold within in *. lia. }
      destruct HB as (m' & EB & HB1 & HB2). rewrite EB.
      assert (HI2 : patch_inv m0 ((dst, src, n) :: es) r (mkpatches m' (3 * Z.of_nat (S (length es))) (Z.of_nat (length es) + 1))).
      { replace (Z.of_nat (length es) + 1) with (Z.of_nat (S (length es))) by lia.
        assert (HPS : forall a, within a ps (3 * 8192) -> m' a = x_mem y a).
        { intros a Ha. apply HB2; [intros H; destruct (HTm a H); auto|intros H; destruct (HSb a H); auto|apply O1; exact Ha]. }
        apply (patch_step m0 es (PBlock dst src n) r x (dst, src, n) m' HI Hb); cbn [fst snd e_dst e_src].
        - lia.
        - exact HT.
        - intros a Ha. destruct (HSb a Ha) as (A & B & C). split; [right; apply Hb; exact Ha|]. split; [exact A|]. split; [exact C|].
          split; [apply Hap1; exact Ha|]. unfold within in B. lia.
        - cbn [stacked]. cbv zeta. rewrite !HPS by (unfold within; lia). split; [exact Q3|]. split; [exact Q4|]. split; [exact Q5|]. split; [lia|].
          apply (stacked_agree ps es (x_mem x)); [|exact I3]. intros a Ha. rewrite HPS by (unfold within in *; lia). rewrite Q6 by (unfold within in Ha; lia). reflexivity.
        - intros i Hi. rewrite HB1 by exact Hi. apply Q6. intros H. destruct (HTm (dst + i)) as (A & _); [cbn; unfold within; lia|]. apply A. unfold within. lia.
        - intros a A1 A2 A3 A4 A5. rewrite HB2; [|exact A5|exact A3|exact A2]. apply Q6. unfold within in A1. lia. }
      destruct (IH _ _ HI2 Hin' Hbuf' Hap2) as (es' & x' & E & HE & HL). exists es', x'. split; [exact E|]. split; [exact HE|]. cbn [length] in *. lia.
Qed.
End Patch.
(* After any patches (block patches of at most 256 dwords), f_unpatchall gives
   back every cell outside the patch machinery and the buffers handed to block
   patches its old value, and empties the stacks.
   Missing for the full claim: blocks of more than 256 dwords, where it is false. *)
Theorem C29_unpatch_partial : forall ps dws tmp ops m0, patches_ok ps dws tmp ops -> small_blocks ops ->
  exists x x', patch_run ps dws tmp ops (mkpatches m0 0 0) = Some x /\ unpatchall ps (length ops) x = Some x' /\
    x_ps x' = 0 /\ x_dws x' = 0 /\
    forall a, ~ machinery ps dws tmp a -> ~ buffers ops a -> x_mem x' a = m0 a.
Proof.
  intros ps dws tmp ops m0 HO HS. pose proof HO as (O1 & O2 & O3 & O4 & O5 & O6).
  assert (HI : patch_inv ps dws tmp ops m0 [] ops (mkpatches m0 0 0)).
  { split; [reflexivity|]. split; [reflexivity|]. split; [exact I|]. split; [cbn [length]; lia|]. split; [intros e []|reflexivity]. }
  destruct (patches_run ps dws tmp ops HO HS m0 ops [] _ HI ltac:(auto) ltac:(auto) O6) as (es & x & E & (I1 & I2 & I3 & I4 & I5 & I6) & HL).
  exists x. eexists. split; [exact E|]. cbn [length] in HL. split.
  - replace (length ops) with (length es) by lia. apply unpatch_restore; [exact I3|exact I1|exact I2|lia|lia|].
    intros e a He Ha H. destruct (I5 e He) as (_ & B & _). apply (B a Ha). left. left. exact H.
  - cbn [x_ps x_dws x_mem]. split; [reflexivity|]. split; [reflexivity|]. intros a A B. apply I6. tauto.
Qed.
Example C29_example : let ops := [PDw 100 7; PBlock 99 200 3; PDw 100 8; PDw 101 9] in
  patches_ok 1000000 2000000 3000000 ops /\ small_blocks ops /\
  option_map (fun x => (x_mem x 100, x_mem x 101)) (patch_run 1000000 2000000 3000000 ops (mkpatches (fun a => a) 0 0)) = Some (8, 9).
Proof.
  cbv zeta. split; [|split; [|reflexivity]].
  - unfold patches_ok, machinery, within, apart, buffers, buffer, within. split; [lia|]. split; [lia|]. split; [cbn; lia|].
    split; [|split; [lia|]].
    + intros op a Hin Ha. cbn in Hin. repeat destruct Hin as [<-|Hin]; try contradiction; unfold target_, within in Ha; lia.
    + repeat split; intros; lia.
  - intros dst src n Hin. cbn in Hin. repeat destruct Hin as [Hin|Hin]; try discriminate; try contradiction. injection Hin as <- <- <-. lia.
Qed.
(* A block of 300 dwords: the loop never advances the pointers, the first 44
   dwords are swapped twice and f_unpatchall puts the patch there. *)
Theorem C29_big_block_refuted : exists ps dws tmp ops m0 x x' a, patches_ok ps dws tmp ops /\
  patch_run ps dws tmp ops (mkpatches m0 0 0) = Some x /\ unpatchall ps (length ops) x = Some x' /\
  ~ machinery ps dws tmp a /\ ~ buffers ops a /\ x_mem x' a <> m0 a.
Proof.
  exists 1000000, 2000000, 3000000, [PBlock 0 1000 300], (fun a => a). eexists. eexists. exists 0.
  split.
  { unfold patches_ok, machinery, within, apart, buffers, buffer, within. split; [lia|]. split; [lia|]. split; [cbn; lia|].
    split; [|split; [lia|]]; [|split; [tauto|exact I]].
    intros op a Hin Ha. cbn in Hin. destruct Hin as [<-|[]]. unfold target_, within in Ha. lia. }
  split; [unfold patch_run, blockpatch; replace (Z.to_nat 300) with (2 + 298)%nat by lia; reflexivity|].
  split; [reflexivity|]. split; [unfold machinery, within; lia|]. split; [cbn; unfold within; lia|]. vm_compute. discriminate.
Qed.

Print Assumptions C29_unpatch_partial. Print Assumptions C29_big_block_refuted.
Print Assumptions C30_stack. Print Assumptions C31_queue. Print Assumptions C31_popleft_empty_refuted.
Print Assumptions C32_deque_partial. Print Assumptions C32_appendleft_full_refuted.
Print Assumptions C33_pool. Print Assumptions C33_full. Print Assumptions C33_double_free_refuted.
Print Assumptions C34_group. Print Assumptions C34_overflow_refuted.

Print Assumptions C29_big_block_refuted.
Print Assumptions C31_queue.
Print Assumptions C31_new.
Print Assumptions C31_popleft_empty_refuted.
Print Assumptions C32_new.
Print Assumptions C32_appendleft_full_refuted.
Print Assumptions C33_new.
Print Assumptions C33_full.
Print Assumptions C33_double_free_refuted.
Print Assumptions C34_new.
Print Assumptions C34_overflow_refuted.
