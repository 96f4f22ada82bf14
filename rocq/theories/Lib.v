(* Small list and arithmetic lemmas missing from the standard library. *)
From Coq Require Import ZArith List Bool Lia ZifyBool ZifyNat.
Import ListNotations.

Lemma nth_error_skipn' {A} (xs : list A) n k : nth_error (skipn n xs) k = nth_error xs (n + k).
Proof. revert n; induction xs as [|x xs IH]; intros [|n]; simpl; auto. destruct k; auto. Qed.

Lemma nth_error_firstn' {A} (xs : list A) n k :
  nth_error (firstn n xs) k = if Nat.ltb k n then nth_error xs k else None.
Proof.
  revert n k; induction xs as [|x xs IH]; intros [|n] [|k]; cbn [firstn nth_error]; auto.
  - destruct (Nat.ltb _ _); auto.
  - rewrite IH. destruct (Nat.ltb_spec k n), (Nat.ltb_spec (S k) (S n)); auto; lia.
Qed.

Lemma nth_error_ext {A} (xs ys : list A) : (forall k, nth_error xs k = nth_error ys k) -> xs = ys.
Proof.
  revert ys; induction xs as [|x xs IH]; intros [|y ys] H; auto.
  - specialize (H 0%nat); discriminate.
  - specialize (H 0%nat); discriminate.
  - f_equal; [specialize (H 0%nat); injection H; auto|]. apply IH. intros k. apply (H (S k)).
Qed.

Lemma nth_error_Some_lt {A} (xs : list A) k x : nth_error xs k = Some x -> k < length xs.
Proof. intros H. apply nth_error_Some. congruence. Qed.

(* ---------- positions in lists ---------- *)
Lemma nth_skipn {A} (l : list A) : forall n k d, nth k (skipn n l) d = nth (n + k) l d.
Proof.
  induction l as [|x l IH]; intros [|n] k d; cbn [skipn Nat.add nth]; auto; destruct k; auto.
Qed.
Lemma nth_firstn {A} (l : list A) : forall n k d, (k < n)%nat -> nth k (firstn n l) d = nth k l d.
Proof.
  induction l as [|x l IH]; intros [|n] k d H; cbn [firstn nth]; auto; try lia.
  destruct k; auto. apply IH. lia.
Qed.
Lemma nth_concat_blocks {A} (ls : list (list A)) w : Forall (fun b => length b = w) ls ->
  forall i j d, (j < w)%nat -> nth (i * w + j) (concat ls) d = nth j (nth i ls []) d.
Proof.
  induction 1 as [|b ls Hb Hls IH]; intros i j d Hj; cbn [concat].
  - destruct i; cbn [nth]; destruct j; destruct (_ + _)%nat; reflexivity.
  - destruct i as [|i]; cbn [nth Nat.mul Nat.add].
    + rewrite app_nth1 by lia. reflexivity.
    + rewrite app_nth2 by lia. rewrite <- (IH i j d Hj). f_equal. lia.
Qed.
Lemma concat_blocks_length {A} (ls : list (list A)) w : Forall (fun b => length b = w) ls ->
  length (concat ls) = (length ls * w)%nat.
Proof. induction 1; cbn [concat length]; auto. rewrite app_length. lia. Qed.
