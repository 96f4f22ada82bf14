(* C59: the run-time fields of a trigger are the fields of that trigger's own
   record. The models name the cells that a trigger reads at run time (next
   pointer, mask, destination, value ...) by their EPD; here every generated
   trigger is checked to name only cells of its own record, each at the offset
   where the engine looks for that field. *)
From Coq Require Import ZArith Lia Bool List ZifyBool ZifyNat.
From Verif Require Import Word Machine MachineProofs MachineRefine VarModel FuncModel OpsModel MulModel BwModel InplModel
  ReadModel BlkModel EpdModel CurplModel VarrModel StruModel TrigModel OnceModel PatchModel InjModel OpsBits DivVar.
Import ListNotations.
Open Scope Z_scope.

(* ---------- specification ---------- *)
(* The record of a trigger at EPD e: next pointer at dword 1, 16 conditions of 5
   dwords from dword 2, 64 actions of 8 dwords from dword 82, flags at 594
   (condition.py 49-66, action.py 83-103, rawtriggerdef.py 184-203). *)
Definition at_cell (e : Z) (o : operand) : Prop := match o with Mem a => a = e | Imm _ => True end.
Definition cond_at (e : Z) (c : cond) : Prop :=
  at_cell e (c_mask c) /\ at_cell (e + 1) (c_player c) /\ at_cell (e + 2) (c_amount c) /\
  at_cell (e + 3) (c_w3 c) /\ at_cell (e + 4) (c_w4 c).
Definition act_at (e : Z) (a : act) : Prop :=
  at_cell e (a_mask a) /\ at_cell (e + 4) (a_dest a) /\ at_cell (e + 5) (a_val a) /\
  at_cell (e + 6) (a_w6 a) /\ at_cell (e + 7) (a_w7 a).
Definition trig_at (e : Z) (t : trig) : Prop :=
  (forall i c, nth_error (t_conds t) i = Some c -> cond_at (e + 2 + 5 * Z.of_nat i) c) /\
  (forall i a, nth_error (t_acts t) i = Some a -> act_at (e + 82 + 8 * Z.of_nat i) a) /\
  at_cell (e + 1) (t_next t) /\ at_cell (e + 594) (t_flags t).
(* trigger i of the code is placed at T (k + i) *)
Definition code_at (T : nat -> Z) (k : nat) (code : list trig) : Prop :=
  forall i t, nth_error code i = Some t -> trig_at (T (k + i)%nat) t.

(* ---------- recursive forms ---------- *)
Fixpoint conds_at (e : Z) (l : list cond) : Prop :=
  match l with [] => True | c :: r => cond_at e c /\ conds_at (e + 5) r end.
Fixpoint acts_at (e : Z) (l : list act) : Prop :=
  match l with [] => True | c :: r => act_at e c /\ acts_at (e + 8) r end.
Fixpoint code_rec (T : nat -> Z) (k : nat) (l : list trig) : Prop :=
  match l with [] => True | t :: r => trig_at (T k) t /\ code_rec T (S k) r end.

Lemma conds_at_nth l : forall e, conds_at e l -> forall i c, nth_error l i = Some c -> cond_at (e + 5 * Z.of_nat i) c.
Proof.
  induction l as [|x l IH]; intros e H [|i] c Hn; cbn [nth_error] in Hn; try discriminate.
  - injection Hn as <-. replace (e + 5 * Z.of_nat 0) with e by lia. apply H.
  - replace (e + 5 * Z.of_nat (S i)) with (e + 5 + 5 * Z.of_nat i) by lia. apply IH; [apply H|exact Hn].
Qed.
Lemma acts_at_nth l : forall e, acts_at e l -> forall i c, nth_error l i = Some c -> act_at (e + 8 * Z.of_nat i) c.
Proof.
  induction l as [|x l IH]; intros e H [|i] c Hn; cbn [nth_error] in Hn; try discriminate.
  - injection Hn as <-. replace (e + 8 * Z.of_nat 0) with e by lia. apply H.
  - replace (e + 8 * Z.of_nat (S i)) with (e + 8 + 8 * Z.of_nat i) by lia. apply IH; [apply H|exact Hn].
Qed.
Lemma trig_at_rec e cs l n f : conds_at (e + 2) cs -> acts_at (e + 82) l -> at_cell (e + 1) n -> at_cell (e + 594) f ->
  trig_at e (mktrig cs l n f).
Proof.
  intros H1 H2 H3 H4. split; [|split; [|split]]; cbn [t_conds t_acts t_next t_flags]; auto; intros.
  - apply conds_at_nth with (1 := H1). assumption.
  - apply acts_at_nth with (1 := H2). assumption.
Qed.
Lemma code_rec_at T l : forall k, code_rec T k l -> code_at T k l.
Proof.
  induction l as [|t l IH]; intros k H [|i] x Hn; cbn in Hn; try discriminate.
  - injection Hn as <-. rewrite Nat.add_0_r. apply H.
  - rewrite <- plus_n_Sm. apply (IH (S k)); [apply H|exact Hn].
Qed.
Lemma code_at_rec T l : forall k, code_at T k l -> code_rec T k l.
Proof.
  induction l as [|t l IH]; intros k H; cbn; [exact I|]. split.
  - specialize (H 0%nat t eq_refl). rewrite Nat.add_0_r in H. exact H.
  - apply IH. intros i x Hn. specialize (H (S i) x Hn). rewrite <- plus_n_Sm in H. exact H.
Qed.
Lemma code_at_app T k a b : code_at T k a -> code_at T (k + length a) b -> code_at T k (a ++ b).
Proof.
  intros Ha Hb i t Hn. destruct (Nat.lt_ge_cases i (length a)) as [H|H].
  - rewrite nth_error_app1 in Hn by exact H. apply Ha. exact Hn.
  - rewrite nth_error_app2 in Hn by exact H. apply Hb in Hn. replace (k + i)%nat with (k + length a + (i - length a))%nat by lia. exact Hn.
Qed.
Lemma code_at_nil T k : code_at T k [].
Proof. intros [|i] t; discriminate. Qed.
Lemma code_at_cons T k t r : trig_at (T k) t -> code_at T (S k) r -> code_at T k (t :: r).
Proof. intros H1 H2. apply code_rec_at. split; [exact H1|]. apply code_at_rec. exact H2. Qed.

(* a trigger without run-time fields can be anywhere *)
Definition imm (o : operand) : Prop := match o with Imm _ => True | Mem _ => False end.
Definition icond (c : cond) : Prop := imm (c_mask c) /\ imm (c_player c) /\ imm (c_amount c) /\ imm (c_w3 c) /\ imm (c_w4 c).
Definition iact (a : act) : Prop := imm (a_mask a) /\ imm (a_dest a) /\ imm (a_val a) /\ imm (a_w6 a) /\ imm (a_w7 a).
Definition itrig (t : trig) : Prop := Forall icond (t_conds t) /\ Forall iact (t_acts t) /\ imm (t_next t) /\ imm (t_flags t).
Lemma imm_at e o : imm o -> at_cell e o.
Proof. destruct o; cbn; tauto. Qed.
Lemma iconds_at l : Forall icond l -> forall e, conds_at e l.
Proof. induction 1 as [|c l (A & B & C & D & E) _ IH]; intro e; cbn; auto. split; [repeat split; apply imm_at; assumption|apply IH]. Qed.
Lemma iacts_at l : Forall iact l -> forall e, acts_at e l.
Proof. induction 1 as [|c l (A & B & C & D & E) _ IH]; intro e; cbn; auto. split; [repeat split; apply imm_at; assumption|apply IH]. Qed.
Lemma itrig_at t e : itrig t -> trig_at e t.
Proof. destruct t as [cs l n f]. intros (A & B & C & D). apply trig_at_rec; auto using iconds_at, iacts_at, imm_at. Qed.
Lemma icode_at T k l : Forall itrig l -> code_at T k l.
Proof.
  intros H i t Hn. apply itrig_at. rewrite Forall_forall in H. apply H. apply nth_error_In with (1 := Hn).
Qed.
Lemma acts_at_app a b : forall e, acts_at e a -> acts_at (e + 8 * Z.of_nat (length a)) b -> acts_at e (a ++ b).
Proof.
  induction a as [|x a IH]; intros e Ha Hb; cbn [app acts_at length] in *; [replace (e + 8 * Z.of_nat 0) with e in Hb by lia; exact Hb|].
  split; [apply Ha|]. apply IH; [apply Ha|]. replace (e + 8 + 8 * Z.of_nat (length a)) with (e + 8 * Z.of_nat (S (length a))) by lia. exact Hb.
Qed.

Ltac imms := unfold ixor_acts, ineg_acts, QueueAddTo, QueueAssignTo, QueueSubtractTo in *; repeat match goal with
  | |- Forall _ [] => constructor
  | |- Forall _ (_ :: _) => constructor
  | |- Forall _ (_ ++ _) => apply Forall_app; split
  | |- Forall _ (map _ _) => apply Forall_map, Forall_forall; intros
  | |- Forall _ (if ?b then _ else _) => destruct b
  | |- Forall _ (match ?b with _ => _ end) => destruct b
  | |- icond _ => repeat split; exact I
  | |- iact _ => repeat split; exact I
  | |- itrig (RawTrig _ _ _) => split; [|split; [|split; exact I]]; cbn [RawTrig t_conds t_acts]
  | |- itrig (mktrig _ _ (Imm _) (Imm _)) => split; [|split; [|split; exact I]]; cbn [t_conds t_acts]
  end.

(* ---------- VProc, SeqCompute ---------- *)
Lemma i_links vs : forall fin, Forall iact (vproc_links vs fin).
Proof.
  induction vs as [|v vs IH]; intro fin; cbn; [constructor|]. destruct vs; imms. apply IH.
Qed.
Lemma i_chunk n : forall acts, Forall iact acts -> Forall (Forall iact) (chunk64 n acts).
Proof.
  induction n as [|n IH]; intros acts H; cbn [chunk64]; [constructor|]. destruct acts as [|a l]; [constructor|].
  constructor; [|apply IH]; apply Forall_forall; intros x Hx; rewrite Forall_forall in H; apply H;
    rewrite <- (firstn_skipn 64 (a :: l)); apply in_or_app; [left|right]; exact Hx.
Qed.
Lemma i_chain T l : forall k fin, Forall (Forall iact) l -> Forall itrig (chain_trigs T k l fin).
Proof.
  induction l as [|a l IH]; intros k fin H; cbn; [constructor|]. inversion H; subst. destruct l as [|b l].
  - imms. assumption.
  - constructor; [imms; assumption|]. apply IH. assumption.
Qed.
Lemma i_vproc T k vs acts : Forall iact acts -> Forall itrig (VProc T k vs acts).
Proof. intro H. apply i_chain, i_chunk, Forall_app. split; [exact H|apply i_links]. Qed.

Section Seq.
Variable same same_u : dst -> dst -> bool.
Lemma i_pair fin v d md nx dc : Forall iact (fst (pair_acts same fin v d md nx dc)).
Proof.
  unfold pair_acts. destruct (match lookup v dc with Some _ => _ | None => _ end) as [[pd pm] pn]. cbn [fst].
  imms; destruct (negb _); imms.
Qed.
Lemma i_vars fin l : forall dc, Forall iact (fst (var_acts same fin l dc)).
Proof.
  induction l as [|[[d md] v] l IH]; intro dc; cbn [var_acts]; [constructor|].
  match goal with |- context [pair_acts ?a ?b ?c ?d ?e ?f ?g] => pose proof (i_pair b c d e f g) as Q; destruct (pair_acts a b c d e f g) as [a' dc'] end.
  pose proof (IH dc') as R. destruct (var_acts same fin l dc') as [b dc'']. cbn in *. apply Forall_app. auto.
Qed.
Lemma i_consts l : Forall iact (VarModel.const_acts l).
Proof. induction l as [|[[d md] v] l IH]; cbn; imms. exact IH. Qed.
Lemma i_sub T k l dc : itrig (fst (seq_sub same T k l dc)).
Proof.
  unfold seq_sub. destruct (split_pairs l) as [cs vs]. pose proof (i_vars (lbl T (S k)) vs dc) as Q.
  destruct (var_acts same _ vs dc) as [va dc']. cbn [fst] in *. imms; [apply i_consts|exact Q].
Qed.
Lemma i_flush T k s : Forall itrig (q_out s) -> Forall itrig (q_out (flush same T k s)).
Proof.
  intro H. unfold flush. destruct (q_count s =? 0); [exact H|].
  pose proof (i_sub T (k + length (q_out s)) (q_sub s) (q_dict s)) as Q. destruct (seq_sub _ _ _ _ _) as [t dc]. cbn in *. imms; assumption.
Qed.
Lemma i_step T k s p : Forall itrig (q_out s) -> Forall itrig (q_out (seq_step same same_u T k s p)).
Proof.
  intro H. destruct p as [[d md] [c|v]]; cbn [seq_step q_out].
  - destruct (negb _); [apply i_flush, H|]. destruct (61 <=? _); [apply i_flush, H|exact H].
  - destruct (memZ _ _); [apply i_flush, H|]. destruct (61 <=? _); [apply i_flush, H|exact H].
Qed.
Lemma i_seq T k l : Forall itrig (SeqCompute same same_u T k l).
Proof.
  apply i_flush. assert (H : Forall itrig (q_out (mksst [] [] true 0 [] [] []))) by constructor. revert H.
  generalize (mksst [] [] true 0 [] [] []). induction l as [|p l IH]; intros s H; cbn [fold_left]; [exact H|]. apply IH, i_step, H.
Qed.
End Seq.

(* ---------- variables and functions ---------- *)
Theorem C59_variable : forall v, trig_at v (vtrig v).
Proof.
  intro v. apply trig_at_rec; [exact I| |reflexivity|exact I]. unfold vc; cbn [acts_at foff].
  split; [|exact I]. repeat split; cbn; lia.
Qed.

Lemma nth_firstn {A} n : forall (l : list A) j x, nth_error (firstn n l) j = Some x -> (j < n)%nat /\ nth_error l j = Some x.
Proof.
  induction n as [|n IH]; intros [|y l] [|j] x H; cbn in *; try discriminate; try (split; [lia|assumption]).
  destruct (IH l j x H). split; [lia|assumption].
Qed.
Lemma nth_skipn {A} n : forall (l : list A) j, nth_error (skipn n l) j = nth_error l (n + j).
Proof. induction n as [|n IH]; intros [|y l] j; cbn; auto. destruct j; reflexivity. Qed.

Lemma chain_at T fin n : forall l k, (length l < n)%nat ->
  (forall j a, nth_error l j = Some a -> act_at (T (k + j / 64)%nat + 82 + 8 * Z.of_nat (j mod 64)) a) ->
  code_at T k (chain_trigs T k (chunk64 n l) fin).
Proof.
  induction n as [|n IH]; intros l k Hn Ha; [lia|]. cbn [chunk64]. destruct l as [|a l]; [apply code_at_nil|].
  set (L := a :: l) in *.
  assert (H0 : forall nx, trig_at (T k) (RawTrig [] (firstn 64 L) nx)).
  { intro nx. split; [intros [|i] c; discriminate|]. split; [|split; exact I]. cbn [RawTrig t_acts]. intros i b Hb.
    apply nth_firstn in Hb. destruct Hb as [Hi Hb]. apply Ha in Hb.
    rewrite Nat.div_small, Nat.mod_small, Nat.add_0_r in Hb by exact Hi. exact Hb. }
  assert (H1 : code_at T (S k) (chain_trigs T (S k) (chunk64 n (skipn 64 L)) fin)).
  { apply IH; [rewrite skipn_length; subst L; cbn [length] in *; lia|]. intros j b Hb. rewrite nth_skipn in Hb. apply Ha in Hb.
    replace (64 + j)%nat with (j + 1 * 64)%nat in Hb by lia. rewrite Nat.div_add, Nat.mod_add in Hb by lia.
    replace (S k + j / 64)%nat with (k + (j / 64 + 1))%nat by lia. exact Hb. }
  destruct (chunk64 n (skipn 64 L)) as [|c r] eqn:E; cbn [chain_trigs] in *.
  - apply code_at_cons; [apply H0|apply code_at_nil].
  - apply code_at_cons; [apply H0|exact H1].
Qed.

Lemma ret_links_nth nptr : forall vs j a, nth_error (ret_links vs nptr) j = Some a ->
  iact a \/ (S j = length vs /\ exists v, a = SetD (Imm (vc v FNext)) SetTo (Mem nptr)).
Proof.
  induction vs as [|v vs IH]; intros j a H; [destruct j; discriminate|]. cbn [ret_links] in H. destruct vs as [|u vs].
  - destruct j as [|j]; [|destruct j; discriminate]. injection H as <-. right. split; [reflexivity|]. exists v. reflexivity.
  - destruct j as [|j]; cbn [nth_error] in H.
    + injection H as <-. left. repeat split.
    + destruct (IH j a H) as [Q|[Q1 Q2]]; [left; exact Q|right]. split; [cbn [length] in *; lia|exact Q2].
Qed.

(* the last trigger (or the last action of VProc) of a function holds the return
   address where the caller stores it *)
Theorem C59_func_end : forall f, code_at (fn_T f) (fn_len f) (func_end f).
Proof.
  intro f. unfold func_end, fn_nptr. destruct (fn_rets f) as [|r0 rs] eqn:E.
  - apply code_at_cons; [|apply code_at_nil]. apply trig_at_rec; try exact I. reflexivity.
  - set (vs := r0 :: rs). apply chain_at; [lia|]. intros j a Hj. apply ret_links_nth in Hj.
    destruct Hj as [(A & B & C & D & F)|[Hj [v ->]]]; [repeat split; apply imm_at; assumption|].
    replace (length vs - 1)%nat with j by lia. repeat split.
Qed.
(* ... and it does hold it: one field of the end is that cell *)
Definition has_mem (a : Z) (t : trig) : Prop :=
  t_next t = Mem a \/ exists x, In x (t_acts t) /\ a_val x = Mem a.
Theorem C59_func_end_used : forall f, exists t, In t (func_end f) /\ has_mem (fn_nptr f) t.
Proof.
  intro f. unfold func_end. destruct (fn_rets f) as [|r0 rs] eqn:E.
  - eexists. split; [left; reflexivity|]. left. reflexivity.
  - generalize (fn_nptr f). intro np. set (vs := r0 :: rs).
    assert (H : exists x, In x (ret_links vs np) /\ a_val x = Mem np).
    { subst vs. clear E. revert r0. induction rs as [|r1 rs IH]; intro r0; cbn [ret_links].
      - eexists. split; [left; reflexivity|reflexivity].
      - destruct (IH r1) as (x & H1 & H2). exists x. split; [right; exact H1|exact H2]. }
    destruct H as (x & H1 & H2).
    assert (Q : forall n l, (length l < n)%nat -> In x l -> forall k fin, exists t, In t (chain_trigs (fn_T f) k (chunk64 n l) fin) /\ In x (t_acts t)).
    { induction n as [|n IH]; intros l Hl Hx k fin; [lia|]. destruct l as [|a l]; [destruct Hx|]. cbn [chunk64].
      rewrite <- (firstn_skipn 64 (a :: l)) in Hx. apply in_app_or in Hx. destruct Hx as [Hx|Hx].
      - destruct (chunk64 n (skipn 64 (a :: l))); cbn [chain_trigs]; eexists; (split; [left; reflexivity|exact Hx]).
      - destruct (IH (skipn 64 (a :: l)) ltac:(rewrite skipn_length; cbn [length] in *; lia) Hx (S k) fin) as (t & Q1 & Q2).
        destruct (chunk64 n (skipn 64 (a :: l))) as [|c r]; [destruct Q1|]. exists t. split; [right; exact Q1|exact Q2]. }
    destruct (Q _ _ (Nat.lt_succ_diag_r _) H1 (fn_len f) (pa (hd 0 vs))) as (t & T1 & T2).
    exists t. split; [exact T1|]. right. exists x. auto.
Qed.

(* ---------- operators ---------- *)
Ltac icode := apply icode_at; imms; auto using i_seq, i_vproc.
Section Ops.
Variable same same_u : dst -> dst -> bool.
Hypothesis Hsame : forall a b, same a b = true -> u32 (dst_epd a) = u32 (dst_epd b).
Variable T : nat -> Z.

Lemma andthen_at k c1 c2 : code_at T k c1 -> code_at T (k + length c1) (c2 (k + length c1)%nat) -> code_at T k (andthen k c1 c2).
Proof. apply code_at_app. Qed.
Lemma seq_at k l : code_at T k (SeqCompute same same_u T k l).
Proof. apply icode_at, i_seq. Qed.
Lemma vproc_at k vs acts : Forall iact acts -> code_at T k (VProc T k vs acts).
Proof. intro. apply icode_at, i_vproc. assumption. Qed.
Lemma raw1_at k cs acts : Forall icond cs -> Forall iact acts -> code_at T k (Raw1 T k cs acts).
Proof. intros. apply icode_at. constructor; [|constructor]. split; [assumption|]. split; [assumption|split; exact I]. Qed.

Theorem C59_iand_expr : forall k a c, code_at T k (lv_iand_expr T k a c).
Proof.
  intros. apply code_at_cons; [|apply code_at_nil]. apply trig_at_rec; try exact I.
  cbn [acts_at]. repeat split. cbn. lia.
Qed.
Lemma patched_at k l a c : (forall x y, map snd (l x) = map snd (l y)) -> (length (l 0%Z) <= 19)%nat ->
  code_at T k (patched same same_u T k l a c).
Proof.
  intros H1 H2. unfold patched. set (j := (k + length (SeqCompute same same_u T k (l 0%Z)))%nat).
  apply code_at_app; [apply seq_at|].
  rewrite <- (seq_len_small same same_u Hsame T k k (l 0) (l (wmask T j)) (H1 _ _) H2). fold j.
  apply code_at_cons; [|apply code_at_nil]. apply trig_at_rec; try exact I. cbn [acts_at]. repeat split.
Qed.
Lemma v_ior_at k self other : code_at T k (v_ior same same_u T k self other).
Proof. destruct other; cbn [v_ior]; [apply raw1_at; imms|]. apply patched_at; [reflexivity|cbn; lia]. Qed.
Lemma v_iand_at k self other : code_at T k (v_iand same same_u T k self other).
Proof. destruct other; cbn [v_iand]; [apply raw1_at; imms|]. apply patched_at; [reflexivity|cbn; lia]. Qed.
Lemma v_ixor_at k self other : code_at T k (v_ixor T k self other).
Proof.
  destruct other; cbn [v_ixor]; [apply raw1_at; imms|]. apply andthen_at; [apply vproc_at; unfold QueueAddTo; imms|].
  apply andthen_at; [apply vproc_at; imms|apply raw1_at; imms].
Qed.
Lemma v_isub_at k addor self other : code_at T k (v_isub same same_u addor T k self other).
Proof. destruct other; apply seq_at. Qed.
Lemma v_and_at k a b self other t : code_at T k (fst (v_and same same_u T k a b self other t)).
Proof.
  unfold v_and. destruct a; [apply v_iand_at|]. destruct other; cbn [fst].
  - apply andthen_at; [apply seq_at|apply v_iand_at].
  - destruct b; cbn [fst]; [apply v_iand_at|]. apply patched_at; [reflexivity|cbn; lia].
Qed.
Lemma v_or_at k a b self other t : code_at T k (fst (v_or same same_u T k a b self other t)).
Proof.
  unfold v_or. destruct a; [apply v_ior_at|]. destruct other; cbn [fst].
  - apply andthen_at; [apply seq_at|apply v_ior_at].
  - destruct b; cbn [fst]; [apply v_ior_at|]. apply patched_at; [reflexivity|cbn; lia].
Qed.
Lemma v_xor_at k a b self other t : code_at T k (fst (v_xor same same_u T k a b self other t)).
Proof.
  unfold v_xor. destruct a; [apply v_ixor_at|]. destruct other; cbn [fst].
  - apply andthen_at; [apply seq_at|apply v_ixor_at].
  - destruct b; cbn [fst]; [apply v_ixor_at|].
    apply andthen_at; [apply vproc_at; unfold QueueAddTo, QueueAssignTo; imms|].
    apply andthen_at; [apply vproc_at; imms|apply raw1_at; imms].
Qed.
Lemma v_rxor_at k a self other t : code_at T k (fst (v_rxor same same_u T k a self other t)).
Proof.
  unfold v_rxor. destruct a; [apply v_ixor_at|]. destruct other; cbn [fst].
  - apply andthen_at; [apply seq_at|apply v_ixor_at].
  - apply andthen_at; [apply seq_at|]. apply andthen_at; [apply vproc_at; imms|apply raw1_at; imms].
Qed.
Lemma v_add_at k a b self other t : code_at T k (fst (v_add same same_u T k a b self other t)).
Proof. unfold v_add. destruct a; [apply seq_at|]. destruct other; [apply seq_at|]. destruct b; apply seq_at. Qed.
Lemma v_radd_at k a self other t : code_at T k (fst (v_radd same same_u T k a self other t)).
Proof. unfold v_radd. destruct a; apply seq_at. Qed.
Lemma v_sub_at k addor a b self other t : code_at T k (fst (v_sub same same_u addor T k a b self other t)).
Proof.
  unfold v_sub. destruct other; [destruct a; [apply v_isub_at|apply seq_at]|].
  destruct b; cbn [fst]; [apply vproc_at; unfold QueueAddTo; imms|]. destruct a; [apply v_isub_at|apply seq_at].
Qed.
Lemma v_rsub_at k a self other t : code_at T k (fst (v_rsub same same_u T k a self other t)).
Proof. unfold v_rsub. destruct other; [destruct a; [apply raw1_at; imms|apply seq_at]|apply seq_at]. Qed.
Lemma v_neg_at k a self t : code_at T k (fst (v_neg same same_u T k a self t)).
Proof. unfold v_neg. destruct a; [apply raw1_at; unfold ineg_acts; imms|apply v_rsub_at]. Qed.
Lemma v_invert_at k a self t : code_at T k (fst (v_invert same same_u T k a self t)).
Proof. unfold v_invert. destruct a; [apply raw1_at; unfold ixor_acts; imms|apply seq_at]. Qed.
Lemma i_ilshift a n t : Forall iact (ilshift_loop a n t).
Proof. induction t as [|t IH]; cbn [ilshift_loop]; imms. exact IH. Qed.

(* operators on values: x @= y and x @ y, with constants and variables *)
Theorem C59_operators : forall k addor a b self other t,
  code_at T k (v_assign same same_u T k self other) /\ code_at T k (v_iadd same same_u T k self other) /\
  code_at T k (v_isub same same_u addor T k self other) /\ code_at T k (v_iand same same_u T k self other) /\
  code_at T k (v_ior same same_u T k self other) /\ code_at T k (v_ixor T k self other) /\
  code_at T k (fst (v_add same same_u T k a b self other t)) /\ code_at T k (fst (v_radd same same_u T k a self other t)) /\
  code_at T k (fst (v_sub same same_u addor T k a b self other t)) /\ code_at T k (fst (v_rsub same same_u T k a self other t)) /\
  code_at T k (fst (v_neg same same_u T k a self t)) /\ code_at T k (fst (v_invert same same_u T k a self t)) /\
  code_at T k (fst (v_and same same_u T k a b self other t)) /\ code_at T k (fst (v_or same same_u T k a b self other t)) /\
  code_at T k (fst (v_xor same same_u T k a b self other t)) /\ code_at T k (fst (v_rxor same same_u T k a self other t)).
Proof.
  intros. repeat apply conj; try apply seq_at; auto using v_isub_at, v_iand_at, v_ior_at, v_ixor_at, v_add_at, v_radd_at, v_sub_at, v_rsub_at,
    v_neg_at, v_invert_at, v_and_at, v_or_at, v_xor_at, v_rxor_at.
Qed.
Theorem C59_constants : forall k a c n,
  code_at T k (lv_assign T k a c) /\ code_at T k (lv_iadd T k a c) /\ code_at T k (lv_isub T k a c) /\
  code_at T k (lv_ior T k a c) /\ code_at T k (lv_iand T k a c) /\ code_at T k (lv_ixor T k a c) /\
  code_at T k (lv_ineg T k a) /\ code_at T k (lv_iabs T k a) /\
  code_at T k (lv_ilshift T k a n) /\ code_at T k (lv_irshift T k a n).
Proof.
  intros. unfold lv_iabs, lv_ineg, lv_ixor, ineg_acts, ixor_acts, lv_ilshift, lv_irshift, ilshift_acts, irshift_acts.
  repeat apply conj; (apply raw1_at; imms; auto using i_ilshift).
Qed.
(* conditions: cell is the place of the condition in its trigger *)
Theorem C59_comparisons : forall k cm self other cell,
  code_at T k (fst (v_cmp same same_u T k cm self other cell)) /\ cond_at cell (snd (v_cmp same same_u T k cm self other cell)) /\
  code_at T k (fst (v_lt same same_u T k self other cell)) /\ cond_at cell (snd (v_lt same same_u T k self other cell)) /\
  code_at T k (fst (v_gt same same_u T k self other cell)) /\ cond_at cell (snd (v_gt same same_u T k self other cell)).
Proof.
  intros. repeat apply conj; destruct other; cbn [v_cmp v_lt v_gt fst snd]; auto using code_at_nil, seq_at;
    try (destruct (_ <=? _); cbn [fst snd]; auto using code_at_nil); repeat split.
Qed.
End Ops.

(* ---------- multiplication, division, shifts ---------- *)
Lemma code_at_flat T (f : nat -> list trig) c : forall n a k,
  (forall i, (i < n)%nat -> length (f (a + i)%nat) = c /\ code_at T (k + c * i) (f (a + i)%nat)) ->
  code_at T k (flat_map f (seq a n)).
Proof.
  induction n as [|n IH]; intros a k H; cbn [seq flat_map]; [apply code_at_nil|].
  destruct (H 0%nat ltac:(lia)) as [L C]. rewrite Nat.add_0_r in L, C. rewrite Nat.mul_0_r, Nat.add_0_r in C.
  apply code_at_app; [exact C|]. rewrite L. apply IH. intros i Hi. destruct (H (S i) ltac:(lia)) as [L' C'].
  replace (S a + i)%nat with (a + S i)%nat by lia. replace (k + c + c * i)%nat with (k + c * S i)%nat by lia. auto.
Qed.
Lemma flat_len {A} (f : nat -> list A) c n : forall a, (forall i, (a <= i < a + n)%nat -> length (f i) = c) -> length (flat_map f (seq a n)) = (c * n)%nat.
Proof.
  induction n as [|n IH]; intros a H; cbn [seq flat_map]; [cbn; lia|].
  rewrite app_length, H, IH by (try lia; intros; apply H; lia). lia.
Qed.
Lemma i_straight T l : Forall (fun p => Forall icond (fst p) /\ Forall iact (snd p)) l -> forall k, Forall itrig (straight T k l).
Proof.
  induction 1 as [|[cs a] l [H1 H2] _ IH]; intro k; cbn [straight]; [constructor|]. constructor; [|apply IH]. imms; assumption.
Qed.
Lemma Forall_flat {A B} (P : B -> Prop) (f : A -> list B) l : (forall x, Forall P (f x)) -> Forall P (flat_map f l).
Proof. intro H. induction l as [|x l IH]; cbn; [constructor|]. apply Forall_app. auto. Qed.
(* a trigger that rewrites its own next pointer *)
Lemma selfnext_at e cs acts : Forall icond cs -> Forall iact acts -> trig_at e (mktrig cs acts (Mem (e + 1)) (Imm 4)).
Proof. intros. apply trig_at_rec; auto using iconds_at, iacts_at; cbn; auto. Qed.

Section Mul.
Variable same same_u : dst -> dst -> bool.
Variable perm : list pair -> list pair.
Variable T : nat -> Z.

Lemma ret_at k f vals : code_at T k (func_return same same_u perm T k f vals).
Proof. apply icode_at, i_seq. Qed.
Lemma straight_at k l : Forall (fun p => Forall icond (fst p) /\ Forall iact (snd p)) l -> code_at T k (straight T k l).
Proof. intro. apply icode_at, i_straight. assumption. Qed.

Lemma i_mulstep a ret n i : Forall (fun p => Forall icond (fst p) /\ Forall iact (snd p)) (mul_step a ret n i).
Proof. unfold mul_step. destruct (_ =? _); constructor; [|constructor]. split; cbn [fst snd]; imms. Qed.
Lemma i_divstep a q n i : Forall (fun p => Forall icond (fst p) /\ Forall iact (snd p)) (div_step a q n i).
Proof. unfold div_step. destruct (_ <=? _); constructor; [|constructor]. split; cbn [fst snd]; imms. Qed.
Lemma i_divstep2 a q n i : Forall (fun p => Forall icond (fst p) /\ Forall iact (snd p)) (div_step2 a q n i).
Proof. unfold div_step2. destruct (_ <=? _); constructor; [|constructor]. split; cbn [fst snd]; imms. Qed.

Theorem C59_const_mul_div : forall a q x_r x t n f,
  code_at T 0 (mul_m1_body same same_u perm T x_r x t f) /\ code_at T 0 (mul0_body same same_u perm T f) /\
  code_at T 0 (mul1_body same same_u perm T x f) /\ code_at T 0 (mulf_body same same_u T a q n) /\
  code_at T 0 (div0_body same same_u perm T x f) /\ code_at T 0 (div1_body same same_u perm T x f) /\
  code_at T 0 (quot0_body same same_u perm T f) /\ code_at T 0 (divf_body same same_u T a q n) /\
  code_at T 0 (quotf2_body T q n) /\ code_at T 0 (quotf_body same same_u T a q n) /\
  code_at T 0 (remf2_body T a n) /\ code_at T 0 (remf_body T a n).
Proof.
  intros. repeat apply conj; try apply ret_at.
  - unfold mul_m1_body. pose proof (v_neg_at same same_u T 0 x_r x t) as Q. destruct (v_neg _ _ _ _ _ _ _) as [c r]. cbn [fst] in Q.
    apply code_at_app; [exact Q|apply ret_at].
  - apply code_at_app; [apply seq_at|]. apply straight_at, Forall_flat, i_mulstep.
  - apply code_at_app; [apply seq_at|]. destruct (is_pow2 n).
    + apply code_at_app; [apply straight_at, Forall_flat, i_divstep2|apply raw1_at; imms].
    + apply straight_at, Forall_flat, i_divstep.
  - apply raw1_at; unfold irshift_acts; imms.
  - apply code_at_app; [apply seq_at|]. apply straight_at, Forall_flat, i_divstep.
  - apply raw1_at; imms.
  - apply straight_at, Forall_flat, i_divstep.
Qed.

Lemma mul_block_len a b ret i : length (mul_block T a b ret i) = if (i <=? 30)%nat then 4%nat else 2%nat.
Proof. unfold mul_block. destruct (i <=? 30)%nat; reflexivity. Qed.
Lemma mul_block_at a b ret i : (i <= 31)%nat -> code_at T (1 + 4 * i) (mul_block T a b ret i).
Proof.
  intro Hi. unfold mul_block, m_c1, m_c2, m_p1, m_p2, m_p4.
  apply code_at_cons; [apply selfnext_at; imms|].
  change (S (1 + 4 * i)) with (2 + 4 * i)%nat.
  apply code_at_app; [apply vproc_at; imms|].
  match goal with |- code_at _ (_ + length ?x) _ => change (length x) with 1%nat end.
  destruct (i <=? 30)%nat; [|apply code_at_nil]. replace (2 + 4 * i + 1)%nat with (3 + 4 * i)%nat by lia.
  apply code_at_cons; [apply selfnext_at; imms|]. apply vproc_at; imms.
Qed.
Theorem C59_mul : forall a b ret, code_at T 0 (eud_mul_body T a b ret).
Proof.
  intros. unfold eud_mul_body. apply code_at_app; [apply raw1_at; imms|]. change (0 + length _)%nat with 1%nat.
  change 32%nat with (31 + 1)%nat. rewrite seq_app, flat_map_app, <- app_assoc.
  assert (L : length (flat_map (mul_block T a b ret) (seq 0 31)) = 124%nat).
  { rewrite (flat_len _ 4); [reflexivity|]. intros i Hi. rewrite mul_block_len. destruct (Nat.leb_spec i 30); [reflexivity|lia]. }
  apply code_at_app.
  - apply (code_at_flat T _ 4). intros i Hi. split; [|apply mul_block_at; lia]. rewrite mul_block_len. destruct (Nat.leb_spec (0 + i) 30); [reflexivity|lia].
  - rewrite L. apply code_at_app; [cbn [seq flat_map]; rewrite app_nil_r; apply (mul_block_at a b ret 31); lia|].
    change (length (flat_map _ (seq _ 1))) with 2%nat.
    apply code_at_cons; [|apply code_at_nil]. unfold m_rd, m_rv. apply trig_at_rec; try exact I. cbn [acts_at]. repeat split.
Qed.

Lemma div_block_len x i : length (div_block same same_u T x i) = 5%nat.
Proof.
  unfold div_block. rewrite !app_length. rewrite two_len. reflexivity.
Qed.

Theorem C59_div : forall a b ret x f, code_at T 0 (eud_div_body same same_u perm T a b ret x f).
Proof.
  intros. unfold eud_div_body. apply code_at_app; [apply seq_at|]. change (0 + length _)%nat with 1%nat.
  assert (L : length (flat_map (div_block same same_u T x) (seq 0 32)) = 160%nat).
  { rewrite (flat_len _ 5); [reflexivity|]. intros. apply div_block_len. }
  apply code_at_app.
  - apply (code_at_flat T _ 5). intros i Hi. split; [apply div_block_len|]. cbn [Nat.add]. unfold div_block.
    apply code_at_app; [apply seq_at|]. rewrite two_len.
    apply code_at_app; [|apply icode_at, i_seq]. unfold d_c1, d_p1. apply code_at_cons.
    + replace (S (5 * i) + 2)%nat with (3 + 5 * i)%nat by lia. apply selfnext_at; imms.
    + apply icode_at; imms.
  - rewrite L. apply code_at_app; [|apply ret_at]. change (1 + 160)%nat with 161%nat.
    intros j t Hj. rewrite nth_error_map in Hj. unfold down32 in Hj.
    destruct (Nat.lt_ge_cases j 32) as [Hl|Hl].
    + assert (E : nth_error (rev (seq 0 32)) j = Some (31 - j)%nat).
      { clear -Hl. do 32 (destruct j as [|j]; [reflexivity|]). lia. }
      rewrite E in Hj. assert (Et : t = div_chain T a ret (31 - j)) by (cbn [option_map] in Hj; congruence). rewrite Et. unfold div_chain, d_x0, d_x1, d_chain.
      replace (192 - (31 - j))%nat with (161 + j)%nat by lia. apply trig_at_rec; try exact I.
      * cbn [conds_at]. repeat split; try exact I; unfold at_cell; cbn [c_amount CondD]; lia.
      * cbn [acts_at]. repeat split; try exact I; unfold at_cell; cbn [a_val SetD]; lia.
    + assert (E : nth_error (rev (seq 0 32)) j = None) by (apply nth_error_None; rewrite rev_length, seq_length; exact Hl).
      rewrite E in Hj. discriminate.
Qed.
Theorem C59_shifts : forall n ret a b f cnt adder,
  code_at T 0 (exp2_body same same_u T n ret) /\ code_at T 0 (bitlshift_body same same_u perm T a b f) /\
  code_at T 0 (shn_body T cnt adder).
Proof.
  intros. repeat apply conj.
  - apply code_at_app; [apply seq_at|]. apply straight_at. apply Forall_map, Forall_forall. intros. split; cbn [fst snd]; imms.
  - unfold bitlshift_body. apply code_at_app; [|apply ret_at]. unfold lsh_c.
    apply code_at_cons; [apply itrig_at; imms|]. apply code_at_cons; [apply selfnext_at; imms|]. apply code_at_cons; [apply itrig_at; imms|apply code_at_nil].
  - unfold shn_body. assert (L : length (flat_map (fun i => VProc T i [adder] []) (seq 0 cnt)) = cnt).
    { rewrite (flat_len _ 1); [lia|]. reflexivity. }
    apply code_at_app; [apply (code_at_flat T _ 1); intros; split; [reflexivity|apply icode_at, i_vproc; constructor]|].
    rewrite L. apply code_at_app; [|apply icode_at; imms].
    unfold VProc, sh_ret. cbn [length chunks chunk64 app vproc_links firstn skipn chain_trigs].
    apply code_at_cons; [|apply code_at_nil]. apply trig_at_rec; try exact I. cbn [acts_at]. repeat split.
Qed.
Lemma call_at k f args rds : code_at T k (func_call same same_u perm T k f args rds).
Proof. apply icode_at, i_seq. Qed.
Theorem C59_rshift : forall exp2 dv a b ret e q r f, code_at T 0 (bitrshift_body same same_u perm T exp2 dv a b ret e q r f).
Proof.
  intros. unfold bitrshift_body, rsh_c. cbv zeta.
  apply code_at_cons; [apply selfnext_at; imms|]. apply code_at_cons; [apply itrig_at; imms|].
  cbn [app]. apply code_at_app; [|apply icode_at, i_seq].
  apply code_at_app; [apply call_at|]. apply code_at_app; [apply call_at|apply seq_at].
Qed.
End Mul.

Ltac conjs := repeat match goal with |- _ /\ _ => split end.

(* ---------- memory items, reading, writing ---------- *)
Lemma i_dacts d ops : Forall iact (dacts d ops).
Proof. apply Forall_map, Forall_forall. intros [[md c] k] _. repeat split. Qed.
Lemma i_addr X a b : Forall iact (addr_acts X a b).
Proof. destruct a, b; cbn [addr_acts]; imms. Qed.
Section Inpl.
Variable T : nat -> Z.
Lemma setdw_at k p md v : code_at T k (setdw_epd T k p md v).
Proof.
  destruct p as [p|p], v as [v|v]; cbn [setdw_epd]; [apply icode_at; imms|apply vproc_at; imms|apply code_at_nil|].
  destruct (p =? v); [|apply vproc_at; imms]. apply code_at_app; apply vproc_at; imms.
Qed.
Lemma cpset_at k a b : code_at T k (cpset T k a b).
Proof.
  unfold cpset. destruct (both_const a b); [apply code_at_nil|]. destruct (same_var a b); [|apply vproc_at, i_addr].
  destruct a; [apply code_at_nil|]. apply code_at_app; apply vproc_at; imms.
Qed.
Lemma cptrg_at k K a b acts : Forall iact acts -> code_at T k (cptrg T k K a b acts).
Proof. intro H. unfold cptrg. destruct (both_const a b); [apply icode_at; imms; assumption|apply vproc_at; imms; assumption]. Qed.
Lemma and_then_at c f k : code_at T k c -> code_at T (k + length c) (f (k + length c)%nat) -> code_at T k (and_then c f k).
Proof. apply code_at_app. Qed.
Lemma iset_at k a b md v : code_at T k (iset T k a b md v).
Proof.
  unfold iset. destruct (both_const a b); [apply setdw_at|]. destruct v as [v|v].
  - apply and_then_at; [apply vproc_at, i_addr|]. apply code_at_cons; [|apply code_at_nil].
    apply trig_at_rec; try exact I. cbn [acts_at]. repeat split; try exact I. unfold at_cell; cbn [a_dest SetD]. lia.
  - apply vproc_at; imms; apply i_addr.
Qed.
Lemma i_ilops d n t : Forall iact (dacts d (ilshift_ops n t)).
Proof. apply i_dacts. Qed.
Theorem C59_inplace : forall k K a b md v n,
  code_at T k (iset T k a b md v) /\ code_at T k (isub T k K a b v) /\ code_at T k (InplModel.iand T k a b v) /\
  code_at T k (InplModel.ior T k a b v) /\ code_at T k (InplModel.ixor T k K a b v) /\
  code_at T k (InplModel.ilshift T k K a b n) /\ code_at T k (InplModel.irshift T k K a b n).
Proof.
  intros.
  assert (C : forall c m, code_at T k (ibit_const T k a b c m)).
  { intros. unfold ibit_const. destruct (both_const a b); [apply icode_at; imms|].
    apply and_then_at; [apply vproc_at, i_addr|]. apply code_at_cons; [|apply code_at_nil].
    apply trig_at_rec; try exact I. cbn [acts_at]. repeat split; try exact I. unfold at_cell; cbn [a_dest SetDX]. lia. }
  assert (V : forall c u ng, code_at T k (ibit_var T k a b c u ng)).
  { intros. unfold ibit_var. apply and_then_at; [apply vproc_at; imms; apply i_addr|]. apply code_at_cons; [|apply code_at_nil].
    destruct ng; apply trig_at_rec; try exact I; cbn [app acts_at]; repeat split; try exact I; destruct (both_const a b); try exact I;
      unfold at_cell; cbn [a_dest a_mask SetDX]; try exact I; lia. }
  conjs.
  - apply iset_at.
  - destruct v as [v|v]; cbn [isub]; [apply iset_at|]. apply and_then_at; [apply cpset_at|]. apply and_then_at.
    + apply vproc_at; imms; apply i_dacts.
    + apply cptrg_at; imms; apply i_dacts.
  - destruct v; cbn [InplModel.iand]; auto.
  - destruct v; cbn [InplModel.ior]; auto.
  - destruct v as [v|v]; cbn [InplModel.ixor].
    + apply and_then_at; [apply cpset_at|apply cptrg_at, i_dacts].
    + apply and_then_at; [destruct a, b; apply vproc_at; imms|]. apply and_then_at; [apply vproc_at; imms|apply icode_at; imms].
  - unfold InplModel.ilshift. destruct (n =? 0); [apply code_at_nil|]. apply and_then_at; [apply cpset_at|apply cptrg_at, i_dacts].
  - unfold InplModel.irshift. destruct (n =? 0); [apply code_at_nil|]. apply and_then_at; [apply cpset_at|apply cptrg_at, i_dacts].
Qed.
End Inpl.

Ltac fields := repeat split; try exact I; unfold at_cell; cbn [a_dest a_val a_mask a_w6 a_w7 c_mask c_player c_amount c_w3 c_w4 SetD SetDX SetM SetMX CondD CondDX CondM CondMX]; try exact I; lia.
Ltac rec_at := apply trig_at_rec; [cbn [conds_at]; fields|cbn [app acts_at]; fields|unfold at_cell; first [exact I|reflexivity|lia]|exact I].

(* reading a dword (readtable.py) *)
Theorem C59_read : forall E A x l, trig_at E (read_end E) /\ trig_at (A l) (rtrig E A x).
Proof.
  intros E A [[x s] nx] l. split; [|apply itrig_at; unfold rtrig; imms]. unfold read_end, cr_dest, cr_val, cr_mod. rec_at.
Qed.
(* copying dwords, byte readers and writers, string length *)
Theorem C59_blocks : forall E L Ct cpc rd fend R C br i W W2 sub F K T B epd ret subp e,
  trig_at e (rep_head E L Ct cpc rd fend) /\ trig_at L (rep_loop L cpc) /\ trig_at Ct (rep_cont E L) /\
  trig_at R (br_read R) /\ trig_at (C i) (br_case R C br i) /\
  trig_at W (bw_write W W2 sub) /\ trig_at W2 (bw_wrap W F sub) /\ trig_at F (bw_end F) /\ trig_at (K i) (bw_const W sub K i) /\
  trig_at (T i) (sl_enter T B E subp i) /\ trig_at (T 4%nat) (sl_go T epd ret) /\ trig_at (B i) (sl_byte B E ret i).
Proof.
  intros. conjs; try (apply itrig_at; unfold br_case, sl_enter, bw_wrap, rep_cont, rep_head; imms; fail).
  - unfold rep_loop, rep_cnt. rec_at.
  - unfold br_read. rec_at.
  - unfold bw_write. rec_at.
  - unfold bw_end. rec_at.
  - unfold bw_const. rec_at.
  - unfold sl_go, sl_jump. rec_at.
  - unfold sl_byte. apply trig_at_rec; [cbn [conds_at]; fields|apply iacts_at; imms|reflexivity|exact I].
Qed.
(* EPD(variable) *)
Theorem C59_epd : forall f, trig_at f (EPD_ftrg f).
Proof.
  intro f. unfold EPD_ftrg, setter. apply trig_at_rec; [exact I| |reflexivity|exact I].
  apply acts_at_app; [apply iacts_at; unfold EPD_acts; imms|].
  change (length (EPD_acts _)) with 32%nat. cbn [acts_at]. fields.
Qed.
(* current player: the condition cpcond is the first one of trigger 0 *)
Theorem C59_curpl : forall T K r0 l k A cp acts sm, Forall iact acts ->
  code_at T 0 (f_getcurpl T K r0 l) /\ code_at T k (f_setcurpl T k K A cp acts sm) /\ code_at T k (f_addcurpl T k K A cp).
Proof.
  intros T K r0 l k A cp acts sm Ha. conjs.
  - unfold f_getcurpl. cbv zeta. apply code_at_cons; [unfold cpcond; rec_at|]. apply code_at_cons; [apply itrig_at; imms|].
    apply icode_at. unfold f_updatecpcache. apply Forall_app. split.
    + constructor; [imms|]. generalize 3%nat. induction l as [|r l IH]; intro n; cbn [update_bits]; [constructor|]. constructor; [unfold update_bit; imms|apply IH].
    + apply Forall_app. split; apply i_vproc; imms.
  - destruct cp; cbn [f_setcurpl]; [apply icode_at; unfold SetCurrentPlayer; imms|].
    apply code_at_app; apply vproc_at; destruct sm; imms; assumption.
  - destruct cp; cbn [f_addcurpl]; [apply icode_at; unfold AddCurrentPlayer; imms|].
    apply code_at_app; [apply vproc_at; imms|]. apply code_at_app; apply vproc_at; imms.
Qed.
(* arrays of variables *)
Theorem C59_vararray : forall h i T k size self index value dst,
  trig_at (va_G h) (getter_trig h) /\ trig_at (va_GI h) (get_index_trig h) /\ trig_at (va_SI h) (set_index_trig h) /\
  trig_at (va_ig h i) (index_for_get h i) /\ trig_at (va_is h i) (index_for_set h i) /\
  code_at T k (varr_get h T k size self index dst) /\ code_at T k (varr_set h T k size self index value).
Proof.
  intros. conjs.
  - unfold getter_trig. rec_at.
  - unfold get_index_trig. rec_at.
  - unfold set_index_trig. rec_at.
  - apply itrig_at; unfold index_for_get; imms.
  - apply itrig_at; unfold index_for_set; imms.
  - apply icode_at. unfold varr_get. destruct index, self; imms.
  - apply icode_at. unfold varr_set. destruct (negb _); [unfold Raw1; imms|]. destruct (same_src index value).
    + destruct index; [constructor|]. destruct self; (apply Forall_app; split; [apply i_vproc; imms|imms]).
    + assert (Q : forall l, Forall iact (links l)).
      { induction l as [|v l IH]; [constructor|]. destruct l as [|u l]; [constructor|].
        change (Forall iact (SetNextPtr v (pa u) :: links (u :: l))). constructor; [repeat split|exact IH]. }
      imms; auto; destruct (_ || _); imms.
Qed.
(* variables in fields of conditions and actions *)
Theorem C59_patch : forall same same_u lof lsf bf param T k t conds acts,
  code_at T k (patch_trigger same same_u lof lsf bf param T k t conds acts).
Proof.
  intros. apply icode_at. unfold patch_trigger.
  assert (A : forall ops k pend, Forall itrig (emit_ops same same_u bf param T k ops pend)).
  { induction ops as [|[p|b v] ops IH]; intros; cbn [emit_ops]; [apply i_seq|apply IH|].
    apply Forall_app; split; [apply i_seq|]. apply Forall_app; split; [|apply IH].
    unfold fill_call. apply Forall_app; split; [apply i_seq|]. unfold fill_body, Raw1. apply Forall_app; split; [imms|].
    clear. generalize 0 8%nat. match goal with |- forall z n, Forall _ (fill_bits _ _ _ ?k _ _ _) => generalize k end.
    intros j z n. revert j z. induction n as [|n IH]; intros; cbn [fill_bits]; [constructor|]. unfold Raw1. cbn [app]. constructor; [imms|apply IH]. }
  assert (B : forall pt size l k e, Forall itrig (patch_list same same_u lof lsf bf param pt size T k e l)).
  { induction l as [|f l IH]; intros; cbn [patch_list]; [constructor|]. apply Forall_app; split; [apply A|apply IH]. }
  apply Forall_app; split; apply B.
Qed.
(* the triggers in the location section that relocate the payload *)
Theorem C59_relocator : forall B v, trig_at B (mrgn_trig B v).
Proof.
  intros. unfold mrgn_trig, nxc. apply trig_at_rec; [exact I| |reflexivity|exact I].
  apply acts_at_app; [|apply iacts_at; imms]. unfold plc, packn. cbn [seq map acts_at].
  fields.
Qed.

(* ---------- structured programs ---------- *)
Definition wf (s : bs) : Prop := forall L, code_at (L_T L) 0 (map (fun it : item => it L) (b_trs s)).
Lemma wf_same s s' : b_trs s' = b_trs s -> wf s -> wf s'.
Proof. intros E H L. rewrite E. apply H. Qed.
Lemma emit_wf it s : wf s -> (forall L, trig_at (L_T L (StruModel.pos s)) (it L)) -> wf (emit it s).
Proof.
  intros H Hi L. unfold emit. cbn [SetNextTrigger b_trs]. rewrite map_app. apply code_at_app; [apply H|].
  rewrite map_length. apply code_at_cons; [apply Hi|apply code_at_nil].
Qed.
Lemma emit_i it s : wf s -> (forall L, itrig (it L)) -> wf (emit it s).
Proof. intros H Hi. apply emit_wf; [exact H|]. intro. apply itrig_at, Hi. Qed.
Lemma pos_emit it s : StruModel.pos (emit it s) = S (StruModel.pos s).
Proof. unfold StruModel.pos, emit. cbn [SetNextTrigger b_trs]. rewrite app_length. cbn. lia. Qed.
Definition icnd (c : cnd) : Prop := forall L, icond (c L).
Lemma i_at_lay L cs : Forall icnd cs -> Forall icond (at_lay L cs).
Proof. intro H. apply Forall_map. apply Forall_forall. intros c Hc. rewrite Forall_forall in H. apply (H c Hc). Qed.
Lemma branch_sub_wf cs ot of xa s : wf s -> Forall icnd cs -> (forall L, Forall iact (xa L)) -> wf (branch_sub cs ot of xa s).
Proof.
  intros H Hc Hx. unfold branch_sub, Forward, nx. cbv zeta.
  match goal with |- wf (fset _ _ (emit ?it ?x)) => apply (wf_same (emit it x)); [reflexivity|] end.
  apply emit_i; [|intro L; imms; apply Hx].
  match goal with |- wf (selfnext _ _ ?x) => apply (wf_same x); [reflexivity|] end.
  apply emit_wf; [exact H|]. intro L. apply selfnext_at; [apply i_at_lay, Hc|imms].
Qed.
Lemma branch_chunks_wf ot of xa (Hx : forall L, Forall iact (xa L)) ch : forall s, wf s -> Forall (Forall icnd) ch -> wf (branch_chunks ch ot of xa s).
Proof.
  induction ch as [|c r IH]; intros s H Hc; cbn [branch_chunks]; [exact H|]. inversion Hc; subst. destruct r as [|c' r].
  - unfold Forward. cbn [fst snd]. match goal with |- wf (fset _ _ ?x) => apply (wf_same x); [reflexivity|] end. apply branch_sub_wf; auto.
  - unfold Forward, NextTrigger. apply IH; [|assumption].
    match goal with |- wf (fset _ _ (mkbs (b_trs ?x) _ _ _ _ _)) => apply (wf_same x); [reflexivity|] end.
    apply branch_sub_wf; auto. intro. constructor.
Qed.
Lemma i_groups n fuel : forall cs : list cnd, Forall icnd cs -> Forall (Forall icnd) (groups_of n fuel cs).
Proof.
  induction fuel as [|f IH]; intros [|c cs] H; cbn [groups_of]; try constructor.
  - apply Forall_forall. intros x Hx. rewrite Forall_forall in H. apply H. rewrite <- (firstn_skipn n (c :: cs)). apply in_or_app. left. exact Hx.
  - apply IH. apply Forall_forall. intros x Hx. rewrite Forall_forall in H. apply H. rewrite <- (firstn_skipn n (c :: cs)). apply in_or_app. right. exact Hx.
Qed.
Lemma EUDBranch_wf cs ot of s : wf s -> Forall icnd cs -> wf (EUDBranch cs ot of s).
Proof.
  intros H Hc. unfold EUDBranch. destruct cs as [|c cs]; [exact H|]. apply branch_chunks_wf; [intro; constructor|exact H|].
  apply i_groups, Hc.
Qed.
Lemma jump_if_wf neg cs l s : wf s -> Forall icnd cs -> wf (jump_if neg cs l s).
Proof.
  intros H Hc. unfold jump_if, EUDJumpIf, EUDJumpIfNot, Forward, NextTrigger.
  destruct neg; match goal with |- wf (fset _ _ (mkbs (b_trs ?x) _ _ _ _ _)) => apply (wf_same x); [reflexivity|] end;
    apply EUDBranch_wf; auto.
Qed.
Lemma i_konst cs : Forall icond cs -> Forall icnd (konst cs).
Proof. intro H. apply Forall_map. apply Forall_forall. intros c Hc L. rewrite Forall_forall in H. apply (H c Hc). Qed.

(* code made by the program itself is in place, conditions are constants *)
Definition leaf_wf (c : leaf) : Prop := forall s, wf s -> wf (lf_emit c s).
Fixpoint stmt_wf (p : stmt) : Prop :=
  match p with
  | SLeaf c => leaf_wf c
  | SSkip | SBreak | SContinue => True
  | SSeq a b => stmt_wf a /\ stmt_wf b
  | SIf _ pre cs body rest => stmt_wf pre /\ Forall icond cs /\ stmt_wf body /\ chain_wf rest
  | SWhile _ pre cs body step => stmt_wf pre /\ Forall icond cs /\ stmt_wf body /\ match step with Some s => stmt_wf s | None => True end
  | SInf body step => stmt_wf body /\ match step with Some s => stmt_wf s | None => True end
  | SLoopN _ body step => stmt_wf body /\ match step with Some s => stmt_wf s | None => True end
  | SBreakIf _ cs | SContinueIf _ cs => Forall icond cs
  end
with chain_wf (c : chain) : Prop :=
  match c with
  | CEnd => True
  | CElse s => stmt_wf s
  | CElif _ pre cs body rest => stmt_wf pre /\ Forall icond cs /\ stmt_wf body /\ chain_wf rest
  end.
Ltac trs := match goal with
  | H : wf ?x |- wf ?y => apply (wf_same x); [reflexivity|exact H] end.
Ltac ob H := let s' := fresh "s" in let E := fresh "E" in
  lazymatch type of H with bindo ?x _ = Some _ => destruct x as [s'|] eqn:E; cbn [bindo] in H; [|discriminate H] end.

Fixpoint comp_wf (p : stmt) : stmt_wf p -> forall e s s', wf s -> comp e p s = Some s' -> wf s'
with chain_comp_wf (c : chain) : chain_wf c -> forall e a b s s', wf s -> comp_chain e a b c s = Some s' -> wf s'.
Proof.
  - destruct p as [c| |a b|neg pre cs body rest|neg pre cs body step|body step|n body step| | |neg cs|neg cs]; intros Hp e s s' Hs Hc; cbn [comp stmt_wf] in *.
    + injection Hc as <-. apply Hp, Hs.
    + injection Hc as <-. exact Hs.
    + ob Hc. destruct Hp as [H1 H2]. apply (comp_wf a H1) in E; [|exact Hs]. exact (comp_wf b H2 e _ _ E Hc).
    + unfold Forward in Hc. destruct Hp as (H1 & H2 & H3 & H4). ob Hc. apply (comp_wf pre H1) in E; [|trs].
      ob Hc. apply (comp_wf body H3) in E0; [|apply jump_if_wf; [exact E|apply i_konst, H2]].
      exact (chain_comp_wf rest H4 e _ _ _ _ E0 Hc).
    + unfold Forward, NextTrigger in Hc. destruct Hp as (H1 & H2 & H3 & H4). ob Hc. apply (comp_wf pre H1) in E; [|trs].
      ob Hc. apply (comp_wf body H3) in E0; [|apply jump_if_wf; [exact E|apply i_konst, H2]].
      ob Hc. assert (Q : wf s2).
      { destruct step as [st|]; [apply (comp_wf st H4) in E1; [exact E1|trs]|injection E1 as <-; trs]. }
      injection Hc as <-. trs.
    + unfold Forward, NextTrigger in Hc. destruct Hp as (H3 & H4).
      ob Hc. apply (comp_wf body H3) in E; [|trs].
      ob Hc. assert (Q : wf s1).
      { destruct step as [st|]; [apply (comp_wf st H4) in E0; [exact E0|trs]|injection E0 as <-; trs]. }
      injection Hc as <-. trs.
    + unfold Forward, NextTrigger, Db4 in Hc. destruct Hp as (H3 & H4).
      ob Hc. apply (comp_wf body H3) in E.
      2:{ apply jump_if_wf with (neg := true).
          - unfold RawTrigger, NextTrigger. cbn [snd]. match goal with |- wf (mkbs (b_trs ?x) _ _ _ _ _) => apply (wf_same (RawTrigger [] (fun L => [SetM (L_D L (b_nd s)) SetTo n]) (snd (Db4 s)))); [reflexivity|] end.
            unfold RawTrigger, NextTrigger, Db4. cbn [snd]. match goal with |- wf (mkbs (b_trs (emit ?it ?x)) _ _ _ _ _) => apply (wf_same (emit it x)); [reflexivity|] end.
            apply emit_i; [trs|]. intro L. imms.
          - constructor; [|constructor]. intro L. repeat split. }
      ob Hc. assert (Q : wf s1).
      { destruct step as [st|]; [apply (comp_wf st H4) in E0; [exact E0|trs]|injection E0 as <-; trs]. }
      injection Hc as <-. unfold RawTriggerTo.
      apply (wf_same (emit (fun L => RawTrig [] [SetM (L_D L (b_nd s)) Subtract 1] (pa (L_F L (S (b_nf s))))) s1)); [reflexivity|].
      apply emit_i; [exact Q|]. intro L. imms.
    + destruct e as [[brk cont]|]; [|discriminate]. injection Hc as <-. unfold jump_warn, EUDJump. destruct (b_pend s); [exact Hs|trs].
    + destruct e as [[brk cont]|]; [|discriminate]. injection Hc as <-. unfold jump_warn, EUDJump. destruct (b_pend s); [exact Hs|trs].
    + destruct e as [[brk cont]|]; [|discriminate]. injection Hc as <-. apply jump_if_wf; [exact Hs|apply i_konst, Hp].
    + destruct e as [[brk cont]|]; [|discriminate]. injection Hc as <-. apply jump_if_wf; [exact Hs|apply i_konst, Hp].
  - destruct c as [|p|neg pre cs body rest]; intros Hp e a b s s' Hs Hc; cbn [comp_chain chain_wf] in *.
    + injection Hc as <-. unfold end_if, NextTrigger. trs.
    + unfold NextTrigger in Hc. ob Hc. apply (comp_wf p Hp) in E; [|trs]. injection Hc as <-. unfold end_if, NextTrigger. trs.
    + unfold Forward, NextTrigger in Hc. destruct Hp as (H1 & H2 & H3 & H4). ob Hc. apply (comp_wf pre H1) in E; [|trs].
      ob Hc. apply (comp_wf body H3) in E0; [|apply jump_if_wf; [exact E|apply i_konst, H2]].
      exact (chain_comp_wf rest H4 e _ _ _ _ E0 Hc).
Qed.
(* straight-line code given by a generator *)
Lemma emit_code_wf n code s : wf s -> (forall T k, length (code T k) = n /\ code_at T k (code T k)) -> wf (emit_code n code s).
Proof.
  intros H Hc L. unfold emit_code, NextTrigger. cbn [snd b_trs SetNextTrigger]. rewrite map_app. apply code_at_app; [apply H|].
  rewrite map_length, map_map. intros i t Hi. rewrite nth_error_map in Hi.
  destruct (nth_error (seq 0 n) i) as [j|] eqn:Ej; [|discriminate]. cbn [option_map] in Hi.
  assert (Hl : (i < n)%nat) by (apply nth_error_Some in Hi || (rewrite <- (seq_length n 0); apply nth_error_Some; congruence); auto).
  assert (j = i) by (apply nth_error_nth with (d := 0%nat) in Ej; rewrite seq_nth in Ej by exact Hl; lia). subst j.
  injection Hi as <-. set (T' := jump_to _ _ _). destruct (Hc T' (StruModel.pos s)) as [Hn Hp].
  specialize (Hp i _ (nth_error_nth' (code T' (StruModel.pos s)) (RawTrig [] [] 0) ltac:(rewrite Hn; exact Hl))).
  replace (L_T L (0 + length (b_trs s) + i)%nat) with (T' (StruModel.pos s + i)%nat); [exact Hp|].
  unfold T', jump_to, StruModel.pos. destruct (Nat.eqb_spec (length (b_trs s) + i) (length (b_trs s) + n)); [lia|reflexivity].
Qed.
Lemma start_wf : wf (mkbs [] [] [] 0 0 []).
Proof. intro L. apply code_at_nil. Qed.

(* Trigger(conditions, actions, preserved) *)
Lemma rawtrigger_wf cs acts s : wf s -> Forall icond cs -> (forall L, Forall iact (acts L)) -> wf (RawTrigger cs acts s).
Proof.
  intros H Hc Ha. unfold RawTrigger, NextTrigger. cbn [snd].
  match goal with |- wf (mkbs (b_trs (emit ?it ?x)) _ _ _ _ _) => apply (wf_same (emit it x)); [reflexivity|] end.
  apply emit_i; [exact H|]. intro L. imms; auto.
Qed.
Lemma cond_trig_wf cs cend s : wf s -> Forall icond cs -> wf (cond_trig cs cend s).
Proof.
  intros H Hc. unfold cond_trig, Forward, NextTrigger, nx.
  match goal with |- wf (fset _ _ (mkbs (b_trs (selfnext _ _ (emit ?it ?x))) _ _ _ _ _)) => apply (wf_same (emit it x)); [reflexivity|] end.
  apply emit_wf; [trs|]. intro L. apply selfnext_at; [exact Hc|imms].
Qed.
Lemma cond_trigs_wf cend ch : forall s, wf s -> Forall (Forall icond) ch -> wf (snd (cond_trigs ch cend s)).
Proof.
  induction ch as [|c r IH]; intros s H Hc; cbn [cond_trigs]; [exact H|]. inversion Hc; subst.
  specialize (IH (cond_trig c cend s) (cond_trig_wf c cend s H ltac:(assumption)) ltac:(assumption)).
  destruct (cond_trigs r cend (cond_trig c cend s)). exact IH.
Qed.
Lemma act_trigs_wf ch : forall s, wf s -> Forall (Forall (fun a : lay -> act => forall L, iact (a L))) ch -> wf (act_trigs ch s).
Proof.
  induction ch as [|a r IH]; intros s H Ha; cbn [act_trigs]; [exact H|]. inversion Ha; subst. apply IH; [|assumption].
  apply rawtrigger_wf; [exact H|constructor|]. intro L. apply Forall_map. eapply Forall_impl; [|eassumption]. intros x Hx. apply Hx.
Qed.
Lemma revert_trigs_wf cend ch : forall s, wf s -> wf (revert_trigs ch cend s).
Proof.
  induction ch as [|a r IH]; intros s H; cbn [revert_trigs]; [exact H|]. apply IH.
  apply rawtrigger_wf; [exact H|constructor|]. intro L. imms.
Qed.
Lemma groups_all {A} (P : A -> Prop) n fuel : forall cs : list A, Forall P cs -> Forall (Forall P) (groups_of n fuel cs).
Proof.
  induction fuel as [|f IH]; intros [|c cs] H; cbn [groups_of]; try constructor.
  - apply Forall_forall. intros x Hx. rewrite Forall_forall in H. apply H. rewrite <- (firstn_skipn n (c :: cs)). apply in_or_app. left. exact Hx.
  - apply IH. apply Forall_forall. intros x Hx. rewrite Forall_forall in H. apply H. rewrite <- (firstn_skipn n (c :: cs)). apply in_or_app. right. exact Hx.
Qed.
Lemma trigger_wf cs acts pres s : wf s -> Forall icond cs -> Forall iact acts -> wf (Trigger cs acts pres s).
Proof.
  intros H Hc Ha. unfold Trigger, NextTrigger. cbn [b_nf b_trs].
  destruct (_ && _).
  - cbn [snd]. match goal with |- wf (mkbs (b_trs (emit ?it ?x)) _ _ _ _ _) => apply (wf_same (emit it x)); [reflexivity|] end.
    apply emit_i; [trs|]. intro L. imms; auto.
  - unfold Forward. match goal with |- context [cond_trigs ?a ?b ?c] => pose proof (cond_trigs_wf b a c) as Q; destruct (cond_trigs a b c) as [ks s1] end.
    cbn [snd] in Q. assert (W : wf s1) by (apply Q; [trs|apply groups_all; exact Hc]). clear Q.
    assert (Hm : forall tl, Forall (fun a : lay -> act => forall L, iact (a L)) tl -> Forall (fun a : lay -> act => forall L, iact (a L)) (map (fun (a : act) (_ : lay) => a) acts ++ tl)).
    { intros tl Ht. apply Forall_app. split; [|exact Ht]. apply Forall_map. eapply Forall_impl; [|exact Ha]. intros a Q L. exact Q. }
    destruct pres; cbn [fst snd].
    + apply revert_trigs_wf. match goal with |- wf (fset _ _ (mkbs (b_trs ?x) _ _ _ _ _)) => apply (wf_same x); [reflexivity|] end.
      apply act_trigs_wf; [exact W|]. apply groups_all, Hm. constructor.
    + match goal with |- wf (fset _ _ (mkbs (b_trs ?x) _ _ _ _ _)) => apply (wf_same x); [reflexivity|] end.
      apply revert_trigs_wf. match goal with |- wf (fset _ _ (mkbs (b_trs (SetNextTrigger _ ?x)) _ _ _ _ _)) => apply (wf_same x); [reflexivity|] end.
      apply act_trigs_wf; [trs|]. apply groups_all, Hm. constructor; [|constructor]. intro L. repeat split.
Qed.

(* programs: blocks, loops, branches, extended triggers *)
Theorem C59_program : forall p e s', stmt_wf p -> comp e p (mkbs [] [] [] 0 0 []) = Some s' ->
  forall L, code_at (L_T L) 0 (map (fun it : item => it L) (b_trs s')).
Proof. intros p e s' Hp Hc. exact (comp_wf p Hp e _ _ start_wf Hc). Qed.
Theorem C59_branch : forall cs ot of s, Forall icond cs -> wf s -> wf (EUDBranch (konst cs) ot of s).
Proof. intros. apply EUDBranch_wf; [assumption|]. apply i_konst. assumption. Qed.
Theorem C59_trigger : forall cs acts pres s, Forall icond cs -> Forall iact acts -> wf s -> wf (Trigger cs acts pres s).
Proof. intros. apply trigger_wf; assumption. Qed.
(* leaves made of operators, function calls, ... *)
Theorem C59_leaf : forall n code sem, (forall T k, length (code T k) = n /\ code_at T k (code T k)) -> leaf_wf (mkleaf (emit_code n code) sem).
Proof. intros n code sem H s Hs. apply emit_code_wf; assumption. Qed.
(* the first trigger of an execute-once block *)
Theorem C59_once : forall L k t, itrig t -> trig_at (L_T L k) (stored L k t).
Proof. intros L k [cs l n f] (A & B & C & D). apply trig_at_rec; auto using iconds_at, iacts_at; reflexivity. Qed.

(* ---------- the stored program ---------- *)
(* The image: constant fields are in memory, in cells that are not written;
   a list shorter than its table is ended by an entry of type 0. *)
Section Stored.
Variable prot : Z -> bool.
Variable m0 : mem.
Definition const_in (c : Z) (o : operand) : Prop := match o with Imm z => prot (idx c) = true /\ get m0 c = u32 z | Mem _ => True end.
Definition cond_in (e : Z) (c : cond) : Prop :=
  const_in e (c_mask c) /\ const_in (e + 1) (c_player c) /\ const_in (e + 2) (c_amount c) /\
  const_in (e + 3) (c_w3 c) /\ const_in (e + 4) (c_w4 c).
Definition act_in (e : Z) (a : act) : Prop :=
  const_in e (a_mask a) /\ const_in (e + 4) (a_dest a) /\ const_in (e + 5) (a_val a) /\
  const_in (e + 6) (a_w6 a) /\ const_in (e + 7) (a_w7 a).
Definition ends (c : Z) (ty : Z -> Z) : Prop := prot (idx c) = true /\ ty (get m0 c) = 0.
Definition image (e : Z) (t : trig) : Prop :=
  (length (t_conds t) <= 16)%nat /\ (length (t_acts t) <= 64)%nat /\
  (forall i c, nth_error (t_conds t) i = Some c -> cond_in (e + 2 + 5 * Z.of_nat i) c) /\
  (forall i a, nth_error (t_acts t) i = Some a -> act_in (e + 82 + 8 * Z.of_nat i) a) /\
  ((length (t_conds t) < 16)%nat -> ends (e + 2 + 5 * Z.of_nat (length (t_conds t)) + 3) cond_type) /\
  ((length (t_acts t) < 64)%nat -> ends (e + 82 + 8 * Z.of_nat (length (t_acts t)) + 6) act_type) /\
  const_in (e + 1) (t_next t) /\ const_in (e + 594) (t_flags t).

Lemma op_in c o : at_cell c o -> const_in c o -> op_matches prot m0 (Mem c) o.
Proof. destruct o; cbn; [tauto|]. intros ->. reflexivity. Qed.
Lemma conds_match_in e : forall cs s n, (length cs <= n)%nat ->
  (forall i c, nth_error cs i = Some c -> cond_at (e + 2 + 5 * Z.of_nat (s + i)) c /\ cond_in (e + 2 + 5 * Z.of_nat (s + i)) c) ->
  ((length cs < n)%nat -> ends (e + 2 + 5 * Z.of_nat (s + length cs) + 3) cond_type) ->
  conds_match prot m0 (map (raw_cond e) (map Z.of_nat (seq s n))) cs.
Proof.
  induction cs as [|c cs IH]; intros s n Hn Hc He.
  - destruct n as [|n]; [exact I|]. cbn [seq map conds_match length] in *. rewrite Nat.add_0_r in He.
    eexists. split; [reflexivity|]. apply He. lia.
  - destruct n as [|n]; [cbn in Hn; lia|]. cbn [seq map conds_match length] in *.
    destruct (Hc 0%nat c eq_refl) as [(A1 & A2 & A3 & A4 & A5) (B1 & B2 & B3 & B4 & B5)]. rewrite Nat.add_0_r in *. split.
    + repeat split; apply op_in; assumption.
    + apply IH; [lia| |].
      * intros i x Hi. replace (S s + i)%nat with (s + S i)%nat by lia. apply Hc. exact Hi.
      * intro Hl. replace (S s + length cs)%nat with (s + S (length cs))%nat by lia. apply He. lia.
Qed.
Lemma acts_match_in e : forall cs s n, (length cs <= n)%nat ->
  (forall i c, nth_error cs i = Some c -> act_at (e + 82 + 8 * Z.of_nat (s + i)) c /\ act_in (e + 82 + 8 * Z.of_nat (s + i)) c) ->
  ((length cs < n)%nat -> ends (e + 82 + 8 * Z.of_nat (s + length cs) + 6) act_type) ->
  acts_match prot m0 (map (raw_act e) (map Z.of_nat (seq s n))) cs.
Proof.
  induction cs as [|c cs IH]; intros s n Hn Hc He.
  - destruct n as [|n]; [exact I|]. cbn [seq map acts_match length] in *. rewrite Nat.add_0_r in He.
    eexists. split; [reflexivity|]. apply He. lia.
  - destruct n as [|n]; [cbn in Hn; lia|]. cbn [seq map acts_match length] in *.
    destruct (Hc 0%nat c eq_refl) as [(A1 & A2 & A3 & A4 & A5) (B1 & B2 & B3 & B4 & B5)]. rewrite Nat.add_0_r in *. split.
    + repeat split; apply op_in; assumption.
    + apply IH; [lia| |].
      * intros i x Hi. replace (S s + i)%nat with (s + S i)%nat by lia. apply Hc. exact Hi.
      * intro Hl. replace (S s + length cs)%nat with (s + S (length cs))%nat by lia. apply He. lia.
Qed.
Lemma placed_matches e t : trig_at e t -> image e t -> trig_matches prot m0 e t.
Proof.
  intros (A1 & A2 & A3 & A4) (B1 & B2 & B3 & B4 & B5 & B6 & B7 & B8). unfold trig_matches, raw_trig. cbn [t_conds t_acts t_next t_flags].
  split; [|split; [|split; apply op_in; assumption]].
  - apply (conds_match_in e (t_conds t) 0 16 B1); [intros i c Hi; split; [apply A1|apply B3]; exact Hi|exact B5].
  - apply (acts_match_in e (t_acts t) 0 64 B2); [intros i c Hi; split; [apply A2|apply B4]; exact Hi|exact B6].
Qed.
End Stored.

(* Triggers in place whose constants are in memory run, as stored data, exactly
   as the models run them. *)
Theorem C59_stored : forall prot m0 P,
  (forall pc t, P pc = Some t -> pc mod 4 = 0 /\ trig_at (epd_of pc) t /\ image prot m0 (epd_of pc) t) ->
  forall s s', steps P prot s s' -> intact prot m0 (snd s) -> steps RawP (fun _ => false) s s'.
Proof.
  intros prot m0 P HP s s' Hs Hi. eapply steps_refine; [|exact Hs|exact Hi].
  intros pc t Ht. destruct (HP pc t Ht) as (A & B & C). split; [exact A|]. apply placed_matches; assumption.
Qed.

(* ---------- examples ---------- *)
(* a function with 66 results: the return address is in the second action of the
   second trigger of its end *)
Example C59_func_example :
  let f := mkfunc (fun k => 1000 * Z.of_nat k) 3 [] (map (fun i => 100000 + Z.of_nat i) (seq 0 66)) in
  fn_nptr f = 4000 + 82 + 8 + 5 /\ length (func_end f) = 2%nat.
Proof. vm_compute. split; reflexivity. Qed.
(* while (x >= 3) { x += y; if (x == 5) break } *)
Definition pl_leaf : leaf :=
  mkleaf (emit_code 1 (fun T k => v_iadd (fun _ _ => false) (fun _ _ => false) T k 2000 (SVar 3000))) (fun _ _ => True).
Definition pl_prog : stmt := SWhile false SSkip [CondM 2087 AtLeast 3] (SSeq (SLeaf pl_leaf) (SBreakIf false [CondM 2087 Exactly 5])) None.
Example C59_program_example : stmt_wf pl_prog /\ exists s', comp None pl_prog (mkbs [] [] [] 0 0 []) = Some s' /\ length (b_trs s') = 5%nat.
Proof.
  split; [|eexists; split; [reflexivity|reflexivity]].
  cbn [pl_prog stmt_wf]. split; [exact I|]. split; [constructor; [repeat split|constructor]|].
  split; [|exact I]. split; [|constructor; [repeat split|constructor]].
  apply C59_leaf. intros T k. split; [reflexivity|apply seq_at].
Qed.
(* a variable trigger as stored data *)
Definition st_m0 : mem := fun a => if a =? 1089 then 0x43530000 else if a =? 1594 then 4 else 0.
Definition st_prot (a : Z) : bool := (a =? 1005) || (a =? 1089) || (a =? 1096) || (a =? 1594).
Definition st_pc : Z := 0x58A364 + 4000.
Definition st_P : prog := fun pc => if pc =? st_pc then Some (vtrig 1000) else None.
Definition st_m : mem := fun a =>
  if a =? 1001 then 0x600000 else if a =? 1082 then 0xFFFFFFFF else if a =? 1086 then 5000 else if a =? 1087 then 7
  else if a =? 1088 then 7 * 2^24 + 45 * 2^16 else st_m0 a.
Example C59_stored_example :
  (forall pc t, st_P pc = Some t -> pc mod 4 = 0 /\ trig_at (epd_of pc) t /\ image st_prot st_m0 (epd_of pc) t) /\
  intact st_prot st_m0 st_m /\
  exists m', steps RawP (fun _ => false) (st_pc, st_m) (0x600000, m') /\ get m' 5000 = 7.
Proof.
  assert (H : forall pc t, st_P pc = Some t -> pc mod 4 = 0 /\ trig_at (epd_of pc) t /\ image st_prot st_m0 (epd_of pc) t).
  { intros pc t Hp. unfold st_P in Hp. destruct (Z.eqb_spec pc st_pc) as [->|]; [|discriminate]. injection Hp as <-.
    split; [reflexivity|]. split; [exact (C59_variable 1000)|].
    change (epd_of st_pc) with 1000. unfold image. cbn [vtrig t_conds t_acts length].
    split; [lia|]. split; [lia|]. split; [intros [|i] c; discriminate|].
    split; [intros [|[|i]] a; cbn [nth_error]; try discriminate; intro E; injection E as <-; repeat split|].
    split; [intros _; split; reflexivity|]. split; [intros _; split; reflexivity|]. split; [exact I|split; reflexivity]. }
  assert (I0 : intact st_prot st_m0 st_m).
  { intros a Ha. unfold get, st_m. unfold st_prot in Ha.
    repeat match goal with |- context [if ?x =? ?y then _ else _] => destruct (Z.eqb_spec x y); [exfalso; lia|] end. reflexivity. }
  split; [exact H|]. split; [exact I0|].
  assert (S1 : step st_P st_prot (st_pc, st_m) (rd (exec_trig st_m (vtrig 1000)) (t_next (vtrig 1000)), exec_trig st_m (vtrig 1000))).
  { constructor; [reflexivity|]. intros _. split; [exact I|]. intros _. split; [reflexivity|]. right. split; [|exact I].
    split; [reflexivity|]. intros _. split; [left; reflexivity|]. split; reflexivity. }
  exists (exec_trig st_m (vtrig 1000)). split.
  - refine (C59_stored st_prot st_m0 st_P H (st_pc, st_m) _ _ I0).
    replace 0x600000 with (rd (exec_trig st_m (vtrig 1000)) (t_next (vtrig 1000))) by (vm_compute; reflexivity).
    eapply steps_cons; [exact S1|apply steps_refl].
  - vm_compute. reflexivity.
Qed.

Print Assumptions C59_variable.
Print Assumptions C59_func_end.
Print Assumptions C59_func_end_used.
Print Assumptions C59_iand_expr.
Print Assumptions C59_operators.
Print Assumptions C59_constants.
Print Assumptions C59_comparisons.
Print Assumptions C59_const_mul_div.
Print Assumptions C59_mul.
Print Assumptions C59_div.
Print Assumptions C59_shifts.
Print Assumptions C59_rshift.
Print Assumptions C59_inplace.
Print Assumptions C59_read.
Print Assumptions C59_blocks.
Print Assumptions C59_epd.
Print Assumptions C59_curpl.
Print Assumptions C59_vararray.
Print Assumptions C59_patch.
Print Assumptions C59_relocator.
Print Assumptions C59_program.
Print Assumptions C59_branch.
Print Assumptions C59_trigger.
Print Assumptions C59_leaf.
Print Assumptions C59_once.
Print Assumptions C59_stored.
