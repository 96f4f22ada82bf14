(* C85: line tables of compiled epScript modules on Python 3.10. *)
From Coq Require Import ZArith List Bool Lia.
From Verif Require Import LnotabModel.
Import ListNotations.
Open Scope Z_scope.

(* ---------- specification ---------- *)
Definition signed8 (b : Z) : Z := if b <? 128 then b else b - 256.
(* co_lnotab (Objects/lnotab_notes.txt): code bytes before each step of the line; the lines of these bytes and the line of the rest *)
Fixpoint lnotab (line : Z) (l : list Z) : list Z * Z :=
  match l with
  | b :: a :: r => let '(x, y) := lnotab (line + signed8 a) r in (repeat line (Z.to_nat b) ++ x, y)
  | _ => ([], line)
  end.
(* co_linetable of Python 3.10: a step of the line and then the code bytes of that line *)
Fixpoint linetable310 (line : Z) (l : list Z) : list Z :=
  match l with
  | b :: a :: r => repeat (line + signed8 a) (Z.to_nat b) ++ linetable310 (line + signed8 a) r
  | _ => []
  end.
(* the steps of the source lines and of the epScript lines go forward by less than 128 *)
Fixpoint forward (m : Z -> Z) (line : Z) (l : list Z) : Prop :=
  match l with
  | b :: a :: r => 0 <= a < 128 /\ 0 <= m (line + a) - m line < 128 /\ forward m (line + a) r
  | [_] => False
  | [] => True
  end.

(* ================= proofs ================= *)
Lemma pairs_ind (P : list Z -> Prop) : P [] -> (forall a, P [a]) -> (forall a b l, P l -> P (a :: b :: l)) -> forall l, P l.
Proof. intros H0 H1 H2. assert (G : forall l, P l /\ forall a, P (a :: l)) by (induction l as [|x l (A & B)]; split; auto). intros l. apply G. Qed.
Lemma steps_small f y : 0 <= y < 128 -> steps_loop f y = ([], y).
Proof. intros H. destruct f; [reflexivity|]. cbn [steps_loop]. replace (0xFF <=? y) with false by (symmetry; apply Z.leb_gt; lia). reflexivity. Qed.
(* C85: read as co_lnotab, the new table maps the line of every code byte, as long as lines go forward by less than 128.
   Missing: other steps, and the format that Python 3.10 reads (both refuted below) *)
Theorem C85_lnotab_partial m : forall tab first, forward m first tab ->
  exists t, modify_lnotab m first tab = Some t /\ lnotab (m first) t = (map m (fst (lnotab first tab)), m (snd (lnotab first tab))).
Proof.
  intros tab. induction tab as [|a|b a r IH] using pairs_ind; intros first H.
  - exists []. split; reflexivity.
  - destruct H.
  - cbn [forward] in H. destruct H as (Ha & Hs & Hr). destruct (IH _ Hr) as (t & E & L). cbn [modify_lnotab]. cbv zeta. rewrite steps_small by exact Hs.
    replace (m (first + a) - m first <? 0) with false by (symmetry; apply Z.ltb_ge; lia). rewrite E. eexists. split; [reflexivity|]. cbn [app lnotab].
    assert (S1 : signed8 a = a) by (unfold signed8; replace (a <? 128) with true by (symmetry; apply Z.ltb_lt; lia); reflexivity).
    assert (S2 : signed8 (m (first + a) - m first) = m (first + a) - m first) by (unfold signed8; match goal with |- (if ?c then _ else _) = _ => replace c with true by (symmetry; apply Z.ltb_lt; lia) end; reflexivity).
    rewrite S1, S2. replace (m first + (m (first + a) - m first)) with (m (first + a)) by lia. rewrite L. destruct (lnotab (first + a) r) as [x y]. cbn [fst snd]. rewrite map_app. f_equal. f_equal.
    clear. induction (Z.to_nat b) as [|n IH]; [reflexivity|]. cbn [repeat map]. f_equal. exact IH.
Qed.
Print Assumptions C85_lnotab_partial.
(* Python 3.10 takes the table as co_linetable: the code bytes of line 1 get line 2 *)
Theorem C85_format_refuted : let m := fun x => x in forward m 1 [4; 1; 2; 1] /\ lnotab 1 [4; 1; 2; 1] = ([1; 1; 1; 1; 2; 2], 3) /\
  exists t, modify_lnotab m 1 [4; 1; 2; 1] = Some t /\ linetable310 (m 1) t = [2; 2; 2; 2; 3; 3].
Proof. split; [cbn; lia|]. split; [reflexivity|]. eexists. split; reflexivity. Qed.
Print Assumptions C85_format_refuted.
(* a step back by one line, the byte 255, is taken for a step by 255 lines *)
Theorem C85_back_refuted : let m := fun x => Z.min x 40 in lnotab 7 [2; 255; 2; 1] = ([7; 7; 6; 6], 7) /\
  exists t, modify_lnotab m 7 [2; 255; 2; 1] = Some t /\ lnotab (m 7) t = ([7; 7; 40; 40], 40).
Proof. split; [reflexivity|]. eexists. split; reflexivity. Qed.
Print Assumptions C85_back_refuted.
(* a step by 300 epScript lines is written as 255 and 45 and read as -1 and 45 *)
Theorem C85_far_refuted : let m := fun x => 300 * x in lnotab 0 [2; 1] = ([0; 0], 1) /\
  exists t, modify_lnotab m 0 [2; 1] = Some t /\ lnotab (m 0) t = ([-1; -1], 44) /\ m 1 = 300.
Proof. split; [reflexivity|]. eexists. split; [reflexivity|]. split; reflexivity. Qed.
Print Assumptions C85_far_refuted.
(* the module cannot be loaded when epScript lines go back *)
Theorem C85_error_refuted : let m := fun x => 10 - x in lnotab 1 [2; 1] = ([1; 1], 2) /\ modify_lnotab m 1 [2; 1] = None.
Proof. split; reflexivity. Qed.
Print Assumptions C85_error_refuted.
(* ---------- a concrete case ---------- *)
Example ex_lnotab : let m := fun x => x / 2 * 3 in forward m 1 [4; 1; 2; 3; 6; 1] /\ modify_lnotab m 1 [4; 1; 2; 3; 6; 1] = Some [4; 3; 2; 3; 6; 3].
Proof. split; [cbn; lia|reflexivity]. Qed.
