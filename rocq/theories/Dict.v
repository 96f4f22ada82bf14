(* Python dictionaries: association lists in insertion order. Assigning to a
   present key keeps its position; deleting an absent key is KeyError (None). *)
From Coq Require Import List Bool ZArith Lia.
Import ListNotations.
Set Implicit Arguments.

Section Dict.
Variables (K V : Type) (eqd : forall a b : K, {a = b} + {a <> b}).
Definition dict := list (K * V).
Fixpoint dget (k : K) (d : dict) : option V :=
  match d with
  | [] => None
  | (k', v) :: d' => if eqd k k' then Some v else dget k d'
  end.
Fixpoint dset (k : K) (v : V) (d : dict) : dict :=
  match d with
  | [] => [(k, v)]
  | (k', v') :: d' => if eqd k k' then (k, v) :: d' else (k', v') :: dset k v d'
  end.
Fixpoint ddel (k : K) (d : dict) : option dict :=
  match d with
  | [] => None
  | (k', v') :: d' => if eqd k k' then Some d' else
      match ddel k d' with Some e => Some ((k', v') :: e) | None => None end
  end.
Definition keys (d : dict) : list K := map fst d.

Lemma dget_dset_same k v d : dget k (dset k v d) = Some v.
Proof. induction d as [|[a b] d IH]; cbn; [destruct (eqd k k); congruence|]. destruct (eqd k a); cbn; [destruct (eqd k k); congruence|]. destruct (eqd k a); congruence. Qed.
Lemma dget_dset_other k k' v d : k <> k' -> dget k (dset k' v d) = dget k d.
Proof. intros H. induction d as [|[a b] d IH]; cbn; [destruct (eqd k k'); congruence|]. destruct (eqd k' a); cbn; [subst; destruct (eqd k a); congruence|]. destruct (eqd k a); congruence. Qed.
Lemma dget_None k d : dget k d = None <-> ~ In k (keys d).
Proof.
  induction d as [|[a b] d IH]; cbn; [tauto|]. destruct (eqd k a).
  - split; [discriminate|]. intros H. exfalso. apply H. auto.
  - rewrite IH. split; intros H; [intros [Q|Q]; auto|tauto].
Qed.
Lemma dget_In k v d : dget k d = Some v -> In (k, v) d.
Proof. induction d as [|[a b] d IH]; cbn; [discriminate|]. destruct (eqd k a); [intros [= ->]; subst; auto|auto]. Qed.
Lemma dget_Some_iff k d : (exists v, dget k d = Some v) <-> In k (keys d).
Proof.
  destruct (dget k d) as [v|] eqn:E.
  - split; [|eauto]. intros _. apply dget_In in E. apply (in_map fst) in E. exact E.
  - apply dget_None in E. split; [intros [v [=]]|tauto].
Qed.
Lemma In_dget k v d : NoDup (keys d) -> In (k, v) d -> dget k d = Some v.
Proof.
  induction d as [|[a b] d IH]; cbn; [tauto|]. intros H [Q|Q]; inversion H; subst.
  - injection Q as -> ->. destruct (eqd k k); congruence.
  - destruct (eqd k a); auto. subst. exfalso. apply H2. apply (in_map fst) in Q. exact Q.
Qed.
Lemma keys_dset_in k v d : In k (keys d) -> keys (dset k v d) = keys d.
Proof.
  induction d as [|[a b] d IH]; cbn; [tauto|]. intros H. destruct (eqd k a); cbn; [f_equal; congruence|].
  unfold keys. cbn. f_equal. apply IH. destruct H; [congruence|assumption].
Qed.
Lemma dset_new k v d : ~ In k (keys d) -> dset k v d = d ++ [(k, v)].
Proof. induction d as [|[a b] d IH]; cbn; auto. intros H. destruct (eqd k a); [subst; tauto|]. f_equal. tauto. Qed.
Lemma keys_app a b : keys (a ++ b) = keys a ++ keys b.
Proof. apply map_app. Qed.
Lemma keys_dset_new k v d : ~ In k (keys d) -> keys (dset k v d) = keys d ++ [k].
Proof. intros H. rewrite dset_new by auto. apply keys_app. Qed.
Lemma In_dset_keys k k' v d : In k (keys (dset k' v d)) <-> k = k' \/ In k (keys d).
Proof.
  destruct (in_dec eqd k' (keys d)) as [i|i].
  - rewrite keys_dset_in by auto. split; [tauto|]. intros [->|]; auto.
  - rewrite keys_dset_new by auto. rewrite in_app_iff. cbn. intuition congruence.
Qed.
Lemma NoDup_dset k v d : NoDup (keys d) -> NoDup (keys (dset k v d)).
Proof.
  intros H. destruct (in_dec eqd k (keys d)) as [i|i]; [rewrite keys_dset_in by auto; auto|].
  rewrite keys_dset_new by auto. clear eqd. induction (keys d) as [|a l IH]; cbn; [repeat constructor; auto|].
  inversion H; subst. constructor; [|apply IH; auto; intros Q; apply i; right; auto].
  rewrite in_app_iff. cbn. intros [Q|[Q|[]]]; auto. subst. apply i. left. auto.
Qed.
Lemma ddel_None k d : ddel k d = None <-> ~ In k (keys d).
Proof.
  induction d as [|[a b] d IH]; cbn; [tauto|]. destruct (eqd k a).
  - split; [discriminate|]. intros H. exfalso. apply H. auto.
  - destruct (ddel k d).
    + split; [discriminate|]. intros H. exfalso. assert (Q : Some d0 = None) by (apply IH; tauto). discriminate.
    + split; auto. intros _ [Q|Q]; [congruence|]. apply IH in Q; auto.
Qed.
Lemma ddel_filter k d e : NoDup (keys d) -> ddel k d = Some e -> e = filter (fun p => if eqd k (fst p) then false else true) d.
Proof.
  revert e. induction d as [|[a b] d IH]; cbn; intros e H; [discriminate|]. inversion H; subst. destruct (eqd k a).
  - intros [= <-]. subst. symmetry. clear IH H H3. induction d as [|[c x] d IH]; cbn; auto. cbn in H2. destruct (eqd a c); [subst; tauto|].
    f_equal. apply IH. tauto.
  - destruct (ddel k d) as [d'|]; [|discriminate]. intros [= <-]. f_equal. apply IH; auto.
Qed.
Lemma keys_filter_NoDup f d : NoDup (keys d) -> NoDup (keys (filter f d)).
Proof.
  induction d as [|[a b] d IH]; cbn; auto. intros H. inversion H; subst. destruct (f (a, b)); cbn; auto.
  constructor; auto. intros Q. apply H2. apply in_map_iff in Q. destruct Q as (x & Q1 & Q2). apply filter_In in Q2. subst. apply in_map. tauto.
Qed.
End Dict.
