(* The cells that operators patch lie in their own triggers; which variable
   holds a result. *)
From Coq Require Import ZArith Lia Bool List ZifyNat.
From Verif Require Import Lib Word Machine MachineProofs VarModel VarSpec VarProofs SeqProofs WordX OpsModel OpsSpec OpsBase
  OpsProofs OpsArith OpsBits OpsXor.
Import ListNotations.
Open Scope Z_scope.

Section W.
Variable same same_u : dst -> dst -> bool.
Hypothesis Hsame : forall a b, same a b = true -> u32 (dst_epd a) = u32 (dst_epd b).
Variable T : nat -> Z.
Variable addor : Z.
Notation Seq := (SeqCompute same same_u T).
Notation val v := (vc v FVal).

Lemma in_masks k code i : (i < length code)%nat -> In (T (k + i) + 82) (code_masks T k code).
Proof. intros. unfold code_masks. apply in_map_iff. exists (k + i)%nat. split; auto. apply in_seq. lia. Qed.

Lemma patched_masks k (l : Z -> list pair) a c :
  (forall e e', map snd (l e) = map snd (l e')) -> (length (l 0%Z) <= 19)%nat -> (forall e, length (l e) = length (l 0%Z)) ->
  In (wmask T (k + length (Seq k (l 0%Z)))) (code_masks T k (patched same same_u T k l a c)).
Proof.
  intros H1 H2 H3. unfold wmask, patched. apply in_masks. rewrite app_length. cbn [Raw1 length].
  pose proof (seq_len_small same same_u Hsame T k k (l 0) (l (wmask T (k + length (Seq k (l 0%Z))))) (H1 _ _) H2) as E.
  unfold wmask in *. lia.
Qed.

Lemma ior_masks k self other : incl (ior_cells same same_u T k other) (code_masks T k (v_ior same same_u T k self other)).
Proof.
  destruct other as [c|o]; intros e He; [destruct He|]. destruct He as [<-|[]].
  unfold ior_cell, v_ior. apply (patched_masks k (fun e => [(DExpr e, Some SetTo, SVar o)])); cbn; auto; lia.
Qed.
Lemma iand_masks k self other : incl (iand_cells same same_u T k other) (code_masks T k (v_iand same same_u T k self other)).
Proof.
  destruct other as [c|o]; intros e He; [destruct He|]. destruct He as [<-|[]].
  unfold iand_cell, v_iand.
  apply (patched_masks k (fun e => [(DExpr e, Some SetTo, SConst 4294967295); (DExpr e, Some Subtract, SVar o)])); cbn; auto; lia.
Qed.
Lemma and_masks k self_r other_r self other t :
  incl (and_cells same same_u T k self_r other_r self other t) (code_masks T k (fst (v_and same same_u T k self_r other_r self other t))).
Proof.
  unfold and_cells, v_and. destruct self_r; [apply iand_masks|]. destruct other as [c|o]; [intros e []|].
  destruct other_r; [apply iand_masks|]. intros e [<-|[]]. cbn [fst].
  apply (patched_masks k (fun e => and_list e t self o)); cbn; auto; lia.
Qed.
Lemma or_masks k self_r other_r self other t :
  incl (or_cells same same_u T k self_r other_r self other t) (code_masks T k (fst (v_or same same_u T k self_r other_r self other t))).
Proof.
  unfold or_cells, v_or. destruct self_r; [apply ior_masks|]. destruct other as [c|o]; [intros e []|].
  destruct other_r; [apply ior_masks|]. intros e [<-|[]]. cbn [fst].
  apply (patched_masks k (fun e => or_list e t self o)); cbn; auto; lia.
Qed.
Lemma masks_app k c d : incl (code_masks T k c) (code_masks T k (c ++ d)).
Proof.
  unfold code_masks. intros e He. apply in_map_iff in He. destruct He as (j & <- & Hj). apply in_seq in Hj.
  apply in_map_iff. exists j. split; auto. apply in_seq. rewrite app_length. lia.
Qed.
Lemma nand_masks k self_r other_r self other t :
  incl (and_cells same same_u T k self_r other_r self other t) (code_masks T k (fst (f_bitnand same same_u T k self_r other_r self other t))).
Proof.
  unfold f_bitnand. pose proof (and_masks k self_r other_r self other t) as H.
  destruct (v_and same same_u T k self_r other_r self other t) as [c r]. cbn [fst] in *.
  eapply incl_tran; [exact H|]. apply masks_app.
Qed.
Lemma nor_masks k self_r other_r self other t :
  incl (or_cells same same_u T k self_r other_r self other t) (code_masks T k (fst (f_bitnor same same_u T k self_r other_r self other t))).
Proof.
  unfold f_bitnor. pose proof (or_masks k self_r other_r self other t) as H.
  destruct (v_or same same_u T k self_r other_r self other t) as [c r]. cbn [fst] in *.
  eapply incl_tran; [exact H|]. apply masks_app.
Qed.

(* use with: code and cells of an operator *)
Lemma with_masks w k (cells : list Z) code vs m l :
  incl cells (code_masks T k code) ->
  ((forall e, In e cells -> patchable w e) -> placed w T k code -> does w T k code (tmp vs cells) m l) ->
  (forall e, In e (code_masks T k code) -> patchable w e) -> placed w T k code ->
  does w T k code (tmp vs (code_masks T k code)) m l.
Proof.
  intros Hi H He Hp. apply does_tmp with (vs := vs) (cs := cells); auto; apply incl_refl.
Qed.
End W.
Ltac fresh_tac := unfold fresh_result, f_bitnand, f_bitnor; unfold v_add, v_radd, v_sub, v_rsub, v_neg, v_invert, v_and, v_or, v_xor, v_rxor;
  repeat match goal with
  | |- context[if ?b then _ else _] => is_var b; destruct b
  | |- context[match ?o with SConst _ => _ | SVar _ => _ end] => is_var o; destruct o
  end; cbv iota beta; cbn [fst snd]; try tauto; auto 8.
