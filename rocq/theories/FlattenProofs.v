From Coq Require Import ZArith Lia List Bool.
From Verif Require Import FlattenModel.
Import ListNotations.
Open Scope Z_scope.

(* ---------- specification ---------- *)
(* well-behaved values: iterables that stop normally, and values that are not
   iterable at all *)
Fixpoint tame (v : val) : bool :=
  match v with
  | Whole _ => true
  | Iter _ items Stop => forallb tame items
  | Iter _ [] TypeErr => true
  | Iter _ _ _ => false
  end.
(* the leaves, left to right, as a relation on positions: path p leads to leaf x *)
Inductive leaf_at : val -> list nat -> val -> Prop :=
| la_whole i : leaf_at (Whole i) [] (Whole i)
| la_atom i : leaf_at (Iter i [] TypeErr) [] (Iter i [] TypeErr)
| la_in i items k v p x : nth_error items k = Some v -> leaf_at v p x -> leaf_at (Iter i items Stop) (k :: p) x.
(* left-to-right order of positions *)
Inductive before : list nat -> list nat -> Prop :=
| b_here a b p q : (a < b)%nat -> before (a :: p) (b :: q)
| b_deep a p q : before p q -> before (a :: p) (a :: q).
Inductive ordered : list (list nat) -> Prop :=
| o_nil : ordered []
| o_cons p l : Forall (before p) l -> ordered l -> ordered (p :: l).

(* ---------- induction principle ---------- *)
Section Ind.
Context (P : val -> Prop) (HW : forall i, P (Whole i)) (HI : forall i items e, Forall P items -> P (Iter i items e)).
Fixpoint val_rect' (v : val) : P v :=
  match v with
  | Whole i => HW i
  | Iter i items e => HI i items e ((fix all (l : list val) : Forall P l :=
      match l with [] => Forall_nil P | x :: r => Forall_cons x (val_rect' x) (all r) end) items)
  end.
End Ind.

Fixpoint iter_items (items : list val) : list val * bool :=
  match items with
  | [] => ([], false)
  | item :: rest => let (ys, ex) := FlattenIter item in
      if ex then (ys, true) else let (zs, ex') := iter_items rest in (ys ++ zs, ex')
  end.
Lemma FlattenIter_eq i items e : FlattenIter (Iter i items e) =
  let (ys, ex) := iter_items items in
  if ex then (ys, true) else match e with Stop => (ys, false) | TypeErr => (ys ++ [Iter i items e], false) | OtherErr => (ys, true) end.
Proof.
  cbn [FlattenIter]. match goal with |- context[?f items] => assert (E : forall l, f l = iter_items l) end.
  { induction l as [|x l IH]; [reflexivity|]. cbn [iter_items]. rewrite <- IH. reflexivity. }
  rewrite E. reflexivity.
Qed.
Fixpoint list_items (items : list val) (ret : list val) : option (list val) :=
  match items with
  | [] => Some ret
  | item :: rest => match FlattenList item ret with Some ret => list_items rest ret | None => None end
  end.
Lemma FlattenList_eq i items e ret : FlattenList (Iter i items e) ret =
  match list_items items ret with
  | None => None
  | Some ret => match e with Stop => Some ret | TypeErr => Some (ret ++ [Iter i items e]) | OtherErr => None end
  end.
Proof.
  cbn [FlattenList]. match goal with |- match ?f items ret with _ => _ end = _ => assert (E : forall l r, f l r = list_items l r) end.
  { induction l as [|x l IH]; intros r; [reflexivity|]. cbn [list_items]. destruct (FlattenList x r); [apply IH|reflexivity]. }
  rewrite E. reflexivity.
Qed.

Lemma flatten_list_iter v : forall ret, FlattenList v ret = let (ys, ex) := FlattenIter v in if ex then None else Some (ret ++ ys).
Proof.
  induction v as [i|i items e H] using val_rect'; intros ret; [reflexivity|].
  rewrite FlattenList_eq, FlattenIter_eq.
  assert (E : forall ret, list_items items ret = let (ys, ex) := iter_items items in if ex then None else Some (ret ++ ys)).
  { induction H as [|x items Hx H IH]; intros r; [cbn; rewrite app_nil_r; reflexivity|]. cbn [list_items iter_items]. rewrite Hx.
    destruct (FlattenIter x) as [ys [|]]; [reflexivity|]. rewrite IH. destruct (iter_items items) as [zs [|]]; [reflexivity|].
    rewrite app_assoc. reflexivity. }
  rewrite E. destruct (iter_items items) as [ys [|]]; [reflexivity|]. destruct e; [reflexivity| |reflexivity].
  rewrite app_assoc. reflexivity.
Qed.

Lemma ordered_app a b : ordered a -> ordered b -> (forall p q, In p a -> In q b -> before p q) -> ordered (a ++ b).
Proof.
  induction 1 as [|p l H1 H2 IH]; intros Hb Hab; [exact Hb|]. cbn. constructor.
  - apply Forall_app. split; [exact H1|]. apply Forall_forall. intros q Hq. apply Hab; [left; reflexivity|exact Hq].
  - apply IH; auto. intros x y Hx Hy. apply Hab; [right; exact Hx|exact Hy].
Qed.
Lemma ordered_map k l : ordered l -> ordered (map (cons k) l).
Proof.
  induction 1 as [|p l H1 H2 IH]; cbn; constructor; auto. apply Forall_map. eapply Forall_impl; [|exact H1]. intros q Hq. apply b_deep. exact Hq.
Qed.

Lemma flatten_tame v : tame v = true -> exists ps, ordered ps /\ (forall p x, leaf_at v p x -> In p ps) /\
  snd (FlattenIter v) = false /\ Forall2 (leaf_at v) ps (fst (FlattenIter v)).
Proof.
  induction v as [i|i items e H] using val_rect'; intros T.
  - exists [[]]. split; [constructor; constructor|]. split; [intros p x Q; inversion Q; left; reflexivity|].
    split; [reflexivity|]. constructor; constructor.
  - destruct e.
    + assert (T' : forallb tame items = true) by (destruct items; exact T). clear T. rename T' into T. rewrite FlattenIter_eq.
      assert (E : forall pre, exists ps, ordered ps /\
        (forall p x, leaf_at (Iter i (pre ++ items) Stop) p x -> In p ps \/ exists k q, p = k :: q /\ (k < length pre)%nat) /\
        (forall p, In p ps -> exists k q, p = k :: q /\ (length pre <= k)%nat) /\
        snd (iter_items items) = false /\ Forall2 (leaf_at (Iter i (pre ++ items) Stop)) ps (fst (iter_items items))).
      { induction H as [|v items Hv H IH]; intros pre.
        - exists []. split; [constructor|]. split.
          + intros p x Q. inversion Q as [| |i0 items0 k v0 p0 x0 N L]; subst. right. exists k, p0. split; [reflexivity|]. rewrite app_nil_r in N.
            apply nth_error_Some. congruence.
          + split; [intros p []|]. split; [reflexivity|constructor].
        - cbn in T. apply andb_prop in T. destruct T as [Tv Ti]. destruct (Hv Tv) as (ps & O1 & C1 & X1 & F1).
          destruct (IH Ti (pre ++ [v])) as (qs & O2 & C2 & L2 & X2 & F2). rewrite <- app_assoc in C2, F2. cbn [app] in C2, F2.
          rewrite app_length in C2, L2. cbn [length] in C2, L2.
          exists (map (cons (length pre)) ps ++ qs). split; [|split; [|split; [|split]]].
          + apply ordered_app; [apply ordered_map; exact O1|exact O2|]. intros p q Hp Hq. apply in_map_iff in Hp. destruct Hp as (p' & <- & _).
            destruct (L2 q Hq) as (k & q' & -> & Hk). constructor. lia.
          + intros p x Q. destruct (C2 p x Q) as [Hin|(k & q & -> & Hk)]; [left; apply in_or_app; right; exact Hin|].
            destruct (Nat.eq_dec k (length pre)) as [->|]; [|right; exists k, q; split; [reflexivity|lia]].
            left. apply in_or_app. left. apply in_map. inversion Q as [| |i0 items0 k v0 p0 x0 N L]; subst. rewrite nth_error_app2, Nat.sub_diag in N by lia. cbn in N.
            injection N as ->. eapply C1. exact L.
          + intros p Hp. apply in_app_or in Hp. destruct Hp as [Hp|Hp].
            * apply in_map_iff in Hp. destruct Hp as (p' & <- & _). exists (length pre), p'. split; [reflexivity|lia].
            * destruct (L2 p Hp) as (k & q & -> & Hk). exists k, q. split; [reflexivity|lia].
          + cbn [iter_items]. destruct (FlattenIter v) as [ys ex]. cbn in X1. subst ex. destruct (iter_items items) as [zs ex']. exact X2.
          + cbn [iter_items]. destruct (FlattenIter v) as [ys ex]. cbn in X1, F1. subst ex. destruct (iter_items items) as [zs ex']. cbn [fst] in *.
            apply Forall2_app; [|exact F2].
            assert (G : forall a b, Forall2 (leaf_at v) a b -> Forall2 (leaf_at (Iter i (pre ++ v :: items) Stop)) (map (cons (length pre)) a) b).
            { induction 1; cbn; constructor; auto. econstructor; [|eassumption]. rewrite nth_error_app2, Nat.sub_diag by lia. reflexivity. }
            apply G. exact F1. }
      destruct (E []) as (ps & O & C & L & X & F). cbn [app length] in *. exists ps.
      destruct (iter_items items) as [ys ex]. cbn in X, F. subst ex. cbn [fst snd]. split; [exact O|]. split; [|split; [reflexivity|exact F]].
      intros p x Q. destruct (C p x Q) as [|(k & q & _ & Hk)]; [assumption|lia].
    + destruct items as [|v items]; [|discriminate]. exists [[]]. split; [constructor; constructor|].
      split; [intros p x Q; inversion Q; left; reflexivity|]. split; [reflexivity|]. constructor; constructor.
    + destruct items; discriminate.
Qed.

(* laziness: what comes before an element that raises is still yielded *)
Lemma flatten_lazy i pre bad post e : snd (iter_items pre) = false -> snd (FlattenIter bad) = true ->
  FlattenIter (Iter i (pre ++ bad :: post) e) = (fst (iter_items pre) ++ fst (FlattenIter bad), true) /\
  FlattenList (Iter i (pre ++ bad :: post) e) [] = None.
Proof.
  intros Hp Hb. assert (E : iter_items (pre ++ bad :: post) = (fst (iter_items pre) ++ fst (FlattenIter bad), true)).
  { induction pre as [|v pre IH]; cbn [app iter_items].
    - destruct (FlattenIter bad) as [ys ex]. cbn in Hb. subst ex. reflexivity.
    - cbn [iter_items] in Hp. destruct (FlattenIter v) as [ys ex]. destruct ex; [discriminate|].
      destruct (iter_items pre) as [zs ex']. cbn in Hp. subst ex'. rewrite IH by reflexivity. cbn. rewrite app_assoc. reflexivity. }
  split.
  - rewrite FlattenIter_eq, E. reflexivity.
  - rewrite flatten_list_iter, FlattenIter_eq, E. reflexivity.
Qed.
