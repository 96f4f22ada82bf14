From Coq Require Import ZArith Lia List Bool.
From Verif Require Import Dict ChkModel MpqModel.
Import ListNotations.
Open Scope Z_scope.

Section Mpq.
Context (normpath : name -> name) {content : Type}.
Notation added := (@added content).
Notation archive := (@archive content).
Notation add_files := (add_files normpath (content := content)).

(* ---------- specification ---------- *)
(* names are equal for the archive: letters up to case, slashes alike *)
Definition same_char (a b : Z) : Prop :=
  a = b \/ (65 <= a <= 90 /\ b = a + 32) \/ (65 <= b <= 90 /\ a = b + 32) \/ (a = 47 /\ b = 92) \/ (a = 92 /\ b = 47).
Definition same_name (a b : name) : Prop := Forall2 same_char a b.

Lemma same_char_norm a b : same_char a b <-> lower (if a =? 47 then 92 else a) = lower (if b =? 47 then 92 else b).
Proof.
  unfold same_char, lower. destruct (Z.eqb_spec a 47), (Z.eqb_spec b 47); subst; cbn [Z.leb andb Z.compare];
  repeat match goal with |- context[?x <=? ?y] => destruct (Z.leb_spec x y); cbn [andb] end; lia.
Qed.
Lemma same_name_norm a b : same_name a b <-> normcase a = normcase b.
Proof.
  unfold same_name, normcase. revert b. induction a as [|x a IH]; intros [|y b]; cbn [map].
  - split; intros; [reflexivity|constructor].
  - split; intros H; inversion H.
  - split; intros H; inversion H.
  - split; intros H.
    + inversion H; subst. f_equal; [apply same_char_norm; assumption|apply IH; assumption].
    + injection H as H1 H2. constructor; [apply same_char_norm; exact H1|apply IH; exact H2].
Qed.
Lemma same_file_spec a b : same_file a b = true <-> same_name a b.
Proof. rewrite same_name_norm. unfold same_file. destruct (bytes_dec (normcase a) (normcase b)); split; auto; discriminate. Qed.

(* ---------- the table of added files ---------- *)
Definition key (n : name) : name := normpath (normcase n).
Definition tinv (a : added) : Prop := forall k n c, In (k, (n, c)) a -> k = key n.

Lemma add_file_ok n (c : option content) a a' : MPQAddFile normpath n c a = Some a' -> a' = a ++ [(key n, (n, c))] /\ ~ In (key n) (keys a).
Proof.
  unfold MPQAddFile, MPQCheckFile. fold (key n). destruct (dget bytes_dec (key n) a) eqn:E; [discriminate|]. intros [= <-].
  apply dget_None in E. split; [apply dset_new; exact E|exact E].
Qed.
Lemma add_files_ok l : forall a a', add_files l a = Some a' ->
  a' = a ++ map (fun p => (key (fst p), p)) l /\
  (NoDup (keys a) -> NoDup (keys a')).
Proof.
  induction l as [|[n c] l IH]; intros a a'; cbn [MpqModel.add_files].
  - intros [= <-]. rewrite app_nil_r. auto.
  - destruct (MPQAddFile normpath n c a) as [a1|] eqn:E; [|discriminate]. intros H. pose proof E as E0. apply add_file_ok in E. destruct E as [-> N].
    apply IH in H. destruct H as [-> H2]. split; [rewrite <- app_assoc; reflexivity|]. intros Nd. apply H2.
    unfold MPQAddFile, MPQCheckFile in E0. fold (key n) in E0. destruct (dget bytes_dec (key n) a); [discriminate|]. injection E0 as E0.
    rewrite <- E0. apply NoDup_dset. exact Nd.
Qed.
Lemma add_same_rejected n n' (c c' : option content) l a a' : add_files (l ++ [(n, c)]) a = Some a' -> same_name n n' ->
  MPQAddFile normpath n' c' a' = None.
Proof.
  intros H S. apply add_files_ok in H. destruct H as [-> _]. apply same_name_norm in S.
  unfold MPQAddFile, MPQCheckFile. rewrite <- S. destruct (dget bytes_dec (normpath (normcase n)) _) eqn:E; [reflexivity|].
  apply dget_None in E. exfalso. apply E. rewrite keys_app, map_app, keys_app, !in_app_iff. right. right. left. reflexivity.
Qed.
(* in general: rejected exactly when some name added before has the same key *)
Lemma add_rejected n (c : option content) l a' : add_files l [] = Some a' ->
  (MPQAddFile normpath n c a' = None <-> exists m d, In (m, d) l /\ key m = key n).
Proof.
  intros H. apply add_files_ok in H. destruct H as [-> _]. unfold MPQAddFile, MPQCheckFile. fold (key n). cbn [app].
  destruct (dget bytes_dec (key n) _) eqn:E.
  - split; [|reflexivity]. intros _. apply dget_In, in_map_iff in E. destruct E as ([m d] & E & I). injection E as E _. exists m, d. auto.
  - apply dget_None in E. split; [discriminate|]. intros (m & d & I & K). exfalso. apply E. unfold keys. rewrite map_map. apply in_map_iff. exists (m, d). auto.
Qed.

(* ---------- the archive ---------- *)
Lemma get_add_same n m c (A : archive) : same_name n m -> archive_get m (archive_add n c A) = Some c.
Proof.
  intros S. pose proof (proj1 (same_name_norm n m) S) as E.
  assert (Q : forall k, same_file m k = same_file n k) by (intros k; unfold same_file; rewrite E; reflexivity).
  assert (R : same_file m n = true). { unfold same_file. destruct (bytes_dec (normcase m) (normcase n)); congruence. }
  induction A as [|[k d] A IH]; cbn [archive_add archive_get]; [rewrite R; reflexivity|].
  destruct (same_file n k) eqn:F; cbn [archive_get]; [rewrite R; reflexivity|]. rewrite Q, F. exact IH.
Qed.
Lemma get_add_other n m c (A : archive) : ~ same_name n m -> archive_get m (archive_add n c A) = archive_get m A.
Proof.
  intros S.
  assert (R : same_file m n = false). { unfold same_file. destruct (bytes_dec (normcase m) (normcase n)); auto. exfalso. apply S, same_name_norm. auto. }
  induction A as [|[k d] A IH]; cbn [archive_add archive_get]; [rewrite R; reflexivity|].
  destruct (same_file n k) eqn:F; cbn [archive_get].
  - rewrite R. assert (E : same_file m k = false); [|rewrite E; reflexivity].
    unfold same_file in *. destruct (bytes_dec (normcase n) (normcase k)) as [e|]; [|discriminate]. rewrite <- e. exact R.
  - destruct (same_file m k); auto.
Qed.
(* files that have not been added keep their content *)
Lemma update_other m (l : list (name * option content)) : forall A, (forall n c, In (n, Some c) l -> ~ same_name n m) ->
  archive_get m (update_mpq (map (fun p => (key (fst p), p)) l) A) = archive_get m A.
Proof.
  induction l as [|[n [c|]] l IH]; intros A H; cbn [map update_mpq fst]; [reflexivity| |].
  - rewrite IH by (intros; apply (H n0 c0); right; auto). apply get_add_other. apply (H n c). left. reflexivity.
  - apply IH. intros; apply (H n0 c); right; auto.
Qed.
Lemma update_added m n c (l : list (name * option content)) : forall A,
  NoDup (map (fun p => key (fst p)) l) -> In (n, Some c) l -> same_name n m ->
  archive_get m (update_mpq (map (fun p => (key (fst p), p)) l) A) = Some c.
Proof.
  induction l as [|[k o] l IH]; intros A N I S; [destruct I|]. inversion N; subst. cbn [map update_mpq fst]. cbn [fst] in *.
  destruct I as [I|I].
  - injection I as -> ->. rewrite update_other; [apply get_add_same; exact S|].
    intros n' c' I' S'. apply H1. apply in_map_iff. exists (n', Some c'). split; [|exact I'].
    unfold key. cbn [fst]. f_equal. apply same_name_norm in S, S'. congruence.
  - destruct o; apply IH; auto.
Qed.

Theorem mpq_ok (flist : list name) (l : list (name * option content)) (a0 a1 : added) (A : archive) :
  flist <> [] ->
  update_filelist_by_listfile normpath (Some flist) = Some a0 ->
  add_files l a0 = Some a1 ->
  (forall n c m, In (n, Some c) l -> same_name n m -> archive_get m (update_mpq a1 A) = Some c) /\
  (forall m, (forall n c, In (n, Some c) l -> ~ same_name n m) -> archive_get m (update_mpq a1 A) = archive_get m A) /\
  (forall m, In m flist -> archive_get m (update_mpq a1 A) = archive_get m A).
Proof.
  intros Hf H0 H1. unfold update_filelist_by_listfile in H0. destruct flist as [|f0 flist]; [congruence|]. set (F := f0 :: flist) in *.
  pose proof (add_files_ok _ _ _ H0) as [E0 N0]. pose proof (add_files_ok _ _ _ H1) as [E1 N1].
  specialize (N0 (NoDup_nil _)). specialize (N1 N0). cbn [app] in E0.
  rewrite E0, <- map_app in E1. set (L := map (fun n => (n, None)) F ++ l) in *.
  assert (ND : NoDup (map (fun p => key (fst p)) L)). { rewrite E1 in N1. unfold keys in N1. rewrite map_map in N1. exact N1. }
  assert (IL : forall n c, In (n, Some c) L -> In (n, Some c) l).
  { intros n c I. unfold L in I. apply in_app_or in I. destruct I as [I|I]; [|exact I]. apply in_map_iff in I. destruct I as (x & Q & _). discriminate. }
  split; [|split].
  - intros n c m I S. rewrite E1. apply (update_added m n c); auto. unfold L. apply in_or_app. right. exact I.
  - intros m Hm. rewrite E1. apply update_other. intros n c I. eapply Hm. apply IL. exact I.
  - intros m Hm. rewrite E1. apply update_other. intros n c I S. apply IL in I.
    unfold L in ND. rewrite map_app in ND.
    assert (I1 : In (key m) (map (fun p => key (fst p)) (map (fun n0 => (n0, @None content)) F))).
    { rewrite map_map. cbn [fst]. apply in_map. exact Hm. }
    assert (I2 : In (key m) (map (fun p => key (fst p)) l)).
    { apply in_map_iff. exists (n, Some c). split; [|exact I]. cbn [fst]. unfold key. f_equal. apply same_name_norm. exact S. }
    clear - ND I1 I2. induction (map (fun p => key (fst p)) (map (fun n0 => (n0, @None content)) F)) as [|x r IH]; [destruct I1|].
    cbn [app] in ND. inversion ND; subst. destruct I1 as [->|I1]; [apply H1, in_or_app; right; exact I2|auto].
Qed.
End Mpq.
