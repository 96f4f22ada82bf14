From Coq Require Import ZArith Lia List Bool ZifyBool ZifyNat.
From Verif Require Import Lib Word Dict BinModel BinProofs ChkModel.
Import ListNotations.
Open Scope Z_scope.

(* ---------- specification: the sections a byte string consists of ---------- *)
Inductive chk_items : bytes -> list (bytes * bytes) -> Prop :=
| ci_nil : chk_items [] []
| ci_full name len content rest items :
    length name = 4%nat -> Z.of_nat (length content) = len -> 0 <= len < 2^32 ->
    chk_items rest items ->
    chk_items (name ++ i2b4 len ++ content ++ rest) ((name, content) :: items)
| ci_cut name len content :
    length name = 4%nat -> Z.of_nat (length content) < len -> len < 2^32 ->
    chk_items (name ++ i2b4 len ++ content) [(name, content)].

(* last content given to a name; names in the order they first appear *)
Fixpoint last_of (n : bytes) (l : list (bytes * bytes)) : option bytes :=
  match l with
  | [] => None
  | (m, c) :: l' => match last_of n l' with Some x => Some x | None => if bytes_dec n m then Some c else None end
  end.
Fixpoint firsts (seen : list bytes) (l : list (bytes * bytes)) : list bytes :=
  match l with
  | [] => []
  | (m, _) :: l' => if in_dec bytes_dec m seen then firsts seen l' else m :: firsts (m :: seen) l'
  end.
Definition dict_of (items : list (bytes * bytes)) (s : sections) : sections :=
  fold_left (fun d p => dset bytes_dec (fst p) (snd p) d) items s.

Lemma dict_of_get items : forall s n, dget bytes_dec n (dict_of items s) =
  match last_of n items with Some x => Some x | None => dget bytes_dec n s end.
Proof.
  induction items as [|[m c] items IH]; intros s n; [reflexivity|]. change (dict_of ((m,c)::items) s) with (dict_of items (dset bytes_dec m c s)).
  rewrite IH. cbn [last_of]. destruct (last_of n items); auto. destruct (bytes_dec n m) as [->|].
  - apply dget_dset_same.
  - apply dget_dset_other; auto.
Qed.
Lemma firsts_ext items : forall a b, (forall x, In x a <-> In x b) -> firsts a items = firsts b items.
Proof.
  induction items as [|[m c] items IH]; intros a b H; [reflexivity|]. cbn [firsts].
  destruct (in_dec bytes_dec m a) as [i|i], (in_dec bytes_dec m b) as [j|j].
  - auto.
  - exfalso. apply j, H, i.
  - exfalso. apply i, H, j.
  - f_equal. apply IH. intros x. cbn. rewrite H. tauto.
Qed.
Lemma dict_of_keys items : forall s, keys (dict_of items s) = keys s ++ firsts (keys s) items.
Proof.
  induction items as [|[m c] items IH]; intros s; [symmetry; apply app_nil_r|].
  change (dict_of ((m,c)::items) s) with (dict_of items (dset bytes_dec m c s)). rewrite IH. cbn [firsts].
  destruct (in_dec bytes_dec m (keys s)) as [i|i].
  - rewrite keys_dset_in by auto. reflexivity.
  - rewrite keys_dset_new by auto. rewrite <- app_assoc. cbn [app]. do 2 f_equal. apply firsts_ext.
    intros x. rewrite in_app_iff. cbn. tauto.
Qed.

(* ---------- one turn of the loop ---------- *)
Lemma skipn_app_len {A} (a b : list A) : skipn (length a) (a ++ b) = b.
Proof. rewrite skipn_app, skipn_all, Nat.sub_diag. reflexivity. Qed.
Lemma firstn_app_len {A} (a b : list A) : firstn (length a) (a ++ b) = a.
Proof. rewrite firstn_app, firstn_all, Nat.sub_diag. apply app_nil_r. Qed.

Lemma head_len name len q : length name = 4%nat -> 0 <= len < 2^32 -> b2i4 (name ++ i2b4 len ++ q) 4 = Some len.
Proof. intros <- H. rewrite b2i4_i2b4, Z.mod_small by lia. reflexivity. Qed.
Lemma head_name name len q : length name = 4%nat -> firstn (Z.to_nat 4) (name ++ i2b4 len ++ q) = name.
Proof. intros H. change (Z.to_nat 4) with 4%nat. rewrite <- H. apply firstn_app_len. Qed.
Lemma head_body name len q : length name = 4%nat -> skipn 8 (name ++ i2b4 len ++ q) = q.
Proof.
  intros H. replace 8%nat with (length (name ++ i2b4 len)) by (rewrite app_length, i2b4_len; lia).
  rewrite (app_assoc name (i2b4 len)). apply skipn_app_len.
Qed.

Lemma skip_add {A} a c (l : list A) : skipn (a + c) l = skipn c (skipn a l).
Proof. revert l. induction a as [|a IH]; intros [|x l]; cbn; auto. destruct c; reflexivity. Qed.

Section Turn.
Context (pre rest : bytes).
Let b := pre ++ rest.
Let i := Z.of_nat (length pre).
Lemma slice_rest n : 0 <= n -> slice b i (i + n) = firstn (Z.to_nat n) rest.
Proof. intros H. unfold slice, b, i. replace (Z.of_nat (length pre) + n - Z.of_nat (length pre)) with n by lia. rewrite Nat2Z.id, skipn_app_len. reflexivity. Qed.
Lemma slice_rest8 n : slice b (i + 8) (i + 8 + n) = firstn (Z.to_nat n) (skipn 8 rest).
Proof.
  unfold slice, b, i. replace (Z.of_nat (length pre) + 8 + n - (Z.of_nat (length pre) + 8)) with n by lia. f_equal.
  replace (Z.to_nat (Z.of_nat (length pre) + 8)) with (length pre + 8)%nat by lia.
  rewrite skipn_app, skipn_all2 by lia. cbn [app]. f_equal. lia.
Qed.
Lemma b2i4_rest : b2i4 b (Z.to_nat (i + 4)) = b2i4 rest 4.
Proof.
  unfold b2i4. assert (E : forall k, nth_error b (Z.to_nat (i + 4) + k) = nth_error rest (4 + k)).
  { intros k. unfold b, i. rewrite nth_error_app2 by lia. f_equal. lia. }
  rewrite (E 1%nat), (E 2%nat), (E 3%nat). pose proof (E 0%nat) as E0. rewrite !Nat.add_0_r in E0. rewrite E0. reflexivity.
Qed.
End Turn.

Lemma load_end pre old s f : load_loop (S f) pre old (Z.of_nat (length pre)) s = Returned true s.
Proof. cbn [load_loop]. rewrite (proj2 (Z.ltb_ge _ _)) by lia. reflexivity. Qed.
Lemma load_past b old s f i : Z.of_nat (length b) <= i -> load_loop (S f) b old i s = Returned true s.
Proof. intros H. cbn [load_loop]. rewrite (proj2 (Z.ltb_ge _ _)) by lia. reflexivity. Qed.

Lemma load_items rest items : chk_items rest items -> forall f pre old s, (length rest < f)%nat ->
  load_loop f (pre ++ rest) old (Z.of_nat (length pre)) s = Returned true (dict_of items s).
Proof.
  induction 1 as [|name len content rest items Hn Hl Hr H IH|name len content Hn Hl Hr]; intros f pre old s Hf.
  - destruct f; [cbn in Hf; lia|]. rewrite app_nil_r. apply load_end.
  - destruct f as [|f]; [lia|]. rewrite !app_length, i2b4_len in Hf.
    cbn [load_loop]. rewrite app_length, !app_length, i2b4_len. rewrite (proj2 (Z.ltb_lt _ _)) by lia.
    rewrite slice_rest, b2i4_rest, (head_len name len) by lia.
    rewrite (proj2 (Z.ltb_ge _ _)) by lia. rewrite slice_rest8, head_name, head_body by lia.
    replace (Z.to_nat len) with (length content) by lia. rewrite firstn_app_len.
    replace (pre ++ name ++ i2b4 len ++ content ++ rest) with ((pre ++ name ++ i2b4 len ++ content) ++ rest) by (rewrite <- !app_assoc; reflexivity).
    replace (Z.of_nat (length pre) + (len + 8)) with (Z.of_nat (length (pre ++ name ++ i2b4 len ++ content))).
    2:{ rewrite !app_length, i2b4_len. lia. }
    apply IH. lia.
  - destruct f as [|f]; [lia|]. rewrite !app_length, i2b4_len in Hf. destruct f as [|f]; [lia|].
    cbn [load_loop]. rewrite app_length, !app_length, i2b4_len. rewrite (proj2 (Z.ltb_lt _ _)) by lia.
    rewrite slice_rest, b2i4_rest, (head_len name len) by lia.
    rewrite (proj2 (Z.ltb_ge _ _)) by lia. rewrite slice_rest8, head_name, head_body by lia.
    rewrite firstn_all2 by lia.
    rewrite (proj2 (Z.ltb_ge _ _)) by lia. reflexivity.
Qed.

(* a byte string either consists of sections or ends in 1 to 7 stray bytes *)
Inductive chk_torn : bytes -> list (bytes * bytes) -> Prop :=
| ct_stray r : (0 < length r < 8)%nat -> chk_torn r []
| ct_full name len content rest items :
    length name = 4%nat -> Z.of_nat (length content) = len -> 0 <= len < 2^32 ->
    chk_torn rest items ->
    chk_torn (name ++ i2b4 len ++ content ++ rest) ((name, content) :: items).

Lemma load_torn rest items : chk_torn rest items -> forall f pre old s, (length rest < f)%nat ->
  load_loop f (pre ++ rest) old (Z.of_nat (length pre)) s = Raised (dict_of items s).
Proof.
  induction 1 as [r Hr|name len content rest items Hn Hl Hr H IH]; intros f pre old s Hf.
  - destruct f; [cbn in Hf; lia|]. cbn [load_loop]. rewrite app_length, (proj2 (Z.ltb_lt _ _)) by lia.
    rewrite b2i4_rest, b2i4_none by lia. reflexivity.
  - destruct f as [|f]; [lia|]. rewrite !app_length, i2b4_len in Hf.
    cbn [load_loop]. rewrite app_length, !app_length, i2b4_len. rewrite (proj2 (Z.ltb_lt _ _)) by lia.
    rewrite slice_rest, b2i4_rest, (head_len name len) by lia.
    rewrite (proj2 (Z.ltb_ge _ _)) by lia. rewrite slice_rest8, head_name, head_body by lia.
    replace (Z.to_nat len) with (length content) by lia. rewrite firstn_app_len.
    replace (pre ++ name ++ i2b4 len ++ content ++ rest) with ((pre ++ name ++ i2b4 len ++ content) ++ rest) by (rewrite <- !app_assoc; reflexivity).
    replace (Z.of_nat (length pre) + (len + 8)) with (Z.of_nat (length (pre ++ name ++ i2b4 len ++ content))).
    2:{ rewrite !app_length, i2b4_len. lia. }
    apply IH. lia.
Qed.

Lemma items_or_torn n : forall b, (length b < n)%nat -> Forall byte b ->
  (exists items, chk_items b items) \/ (exists items, chk_torn b items).
Proof.
  induction n as [|n IH]; intros b Hl Hb; [lia|].
  destruct (Nat.ltb_spec (length b) 8) as [H8|H8].
  { destruct b as [|x b]; [left; exists []; constructor|]. right. exists []. constructor. cbn in *. lia. }
  destruct (b2i4_total b 4) as [v Hv]; [lia|]. destruct (b2i4_some b 4 v Hb Hv) as (_ & Hv2 & Hv3).
  assert (E : b = firstn 4 b ++ i2b4 v ++ skipn 8 b).
  { rewrite <- Hv3. change 8%nat with (4 + 4)%nat. rewrite skip_add, !firstn_skipn. reflexivity. }
  assert (Hn : length (firstn 4 b) = 4%nat) by (rewrite firstn_length; lia).
  assert (Hs : length (skipn 8 b) = (length b - 8)%nat) by apply skipn_length.
  set (name := firstn 4 b) in *. set (body := skipn 8 b) in *. clearbody name body. clear Hv Hv3. subst b.
  destruct (Z.leb_spec v (Z.of_nat (length body))) as [Hv4|Hv4].
  - assert (E2 : body = firstn (Z.to_nat v) body ++ skipn (Z.to_nat v) body) by (symmetry; apply firstn_skipn).
    assert (Hc : length (firstn (Z.to_nat v) body) = Z.to_nat v) by (rewrite firstn_length; lia).
    set (content := firstn (Z.to_nat v) body) in *. set (rest := skipn (Z.to_nat v) body) in *. clearbody content rest. subst body.
    destruct (IH rest) as [[items Hi]|[items Hi]].
    + rewrite !app_length, i2b4_len in *. lia.
    + rewrite Forall_forall in *. intros x Hx. apply Hb. rewrite !in_app_iff. tauto.
    + left. eexists. apply ci_full; eauto; lia.
    + right. eexists. apply ct_full; eauto; lia.
  - left. eexists. apply ci_cut; auto; lia.
Qed.

Lemma loadchk_items b items old : chk_items b items -> loadchk old b = Returned true (dict_of items []).
Proof. intros H. apply (load_items b items H (S (length b)) [] old []). lia. Qed.
Lemma loadchk_torn b items old : chk_torn b items -> loadchk old b = Raised (dict_of items []).
Proof. intros H. apply (load_torn b items H (S (length b)) [] old []). lia. Qed.

(* ---------- saving ---------- *)
Definition sections_ok (s : sections) : Prop :=
  NoDup (keys s) /\ Forall (fun p => length (fst p) = 4%nat /\ Z.of_nat (length (snd p)) < 2^32) s.

Lemma save_items s r : Forall (fun p => length (fst p) = 4%nat /\ Z.of_nat (length (snd p)) < 2^32) s -> 0 <= r < 2^32 ->
  chk_items (savechk s r) (s ++ [(ISOM, [])]).
Proof.
  intros Hs Hr. unfold savechk. rewrite concat_app. cbn [concat]. rewrite app_nil_r.
  induction Hs as [|[n c] s [H1 H2] Hs IH]; cbn [map concat app fst snd].
  - replace (ISOM ++ i2b4 (Z.lor r 2147483648)) with (ISOM ++ i2b4 (Z.lor r 2147483648) ++ []) by (rewrite app_nil_r; reflexivity).
    assert (R : 0 < Z.lor r 2147483648 < 2^32).
    { assert (0 <= Z.lor r 2147483648 < 2^32) by (apply lor_range; lia).
      assert (Z.lor r 2147483648 <> 0); [|lia]. rewrite Z.lor_eq_0_iff. lia. }
    apply ci_cut; [reflexivity| |lia]. cbn [length]. lia.
  - rewrite <- !app_assoc. apply ci_full; auto; cbn [fst snd] in *; lia.
Qed.

Lemma dict_of_self s : forall acc, NoDup (keys (acc ++ s)) -> dict_of s acc = acc ++ s.
Proof.
  induction s as [|[n c] s IH]; intros acc H; [cbn; rewrite app_nil_r; reflexivity|].
  change (dict_of ((n,c)::s) acc) with (dict_of s (dset bytes_dec n c acc)).
  rewrite dset_new. 2:{ rewrite keys_app in H. cbn in H. apply NoDup_remove_2 in H. intros Q. apply H. rewrite in_app_iff. auto. }
  replace (acc ++ (n, c) :: s) with ((acc ++ [(n, c)]) ++ s) in * by (rewrite <- app_assoc; reflexivity). apply IH. exact H.
Qed.
Lemma load_save old s r : sections_ok s -> 0 <= r < 2^32 ->
  loadchk old (savechk s r) = Returned true (dset bytes_dec ISOM [] s).
Proof.
  intros [H1 H2] Hr. rewrite (loadchk_items _ _ old (save_items s r H2 Hr)).
  unfold dict_of. rewrite fold_left_app. change (fold_left _ s []) with (dict_of s []). rewrite (dict_of_self s []) by exact H1. reflexivity.
Qed.

(* ---------- optimize ---------- *)
Lemma del_all_filter l : forall s, NoDup (keys s) -> NoDup l -> (forall n, In n l -> In n (keys s)) ->
  del_all l s = Some (filter (fun p => if in_dec bytes_dec (fst p) l then false else true) s).
Proof.
  induction l as [|n l IH]; intros s Hs Hl Hin.
  - cbn. f_equal. symmetry. clear. induction s as [|p s IH]; cbn; congruence.
  - cbn [del_all]. inversion Hl; subst. destruct (ddel bytes_dec n s) as [s'|] eqn:E.
    2:{ apply ddel_None in E. exfalso. apply E, Hin. left. reflexivity. }
    apply ddel_filter in E; auto. rewrite IH; auto.
    + f_equal. rewrite E. clear. induction s as [|p s IH]; [reflexivity|]. cbn [filter].
      destruct (bytes_dec n (fst p)) as [e|e]; cbn [filter].
      * destruct (in_dec bytes_dec (fst p) (n :: l)) as [i|i]; [apply IH|]. exfalso. apply i. left. auto.
      * destruct (in_dec bytes_dec (fst p) (n :: l)) as [i|i], (in_dec bytes_dec (fst p) l) as [j|j]; auto.
        -- exfalso. destruct i; auto.
        -- exfalso. apply i. right. auto.
        -- f_equal. apply IH.
    + rewrite E. apply keys_filter_NoDup. auto.
    + intros m Hm. pose proof (Hin m (or_intror Hm)) as Q. rewrite E. unfold keys in *. apply in_map_iff in Q. destruct Q as (p & Q1 & Q2).
      apply in_map_iff. exists p. split; auto. apply filter_In. split; auto. subst m. destruct (bytes_dec n (fst p)); auto. congruence.
Qed.
Lemma is_used_spec n : is_used n = true <-> In n used_section.
Proof.
  unfold is_used. rewrite existsb_exists. split.
  - intros (x & H1 & H2). destruct (bytes_dec x n); congruence.
  - intros H. exists n. split; auto. destruct (bytes_dec n n); congruence.
Qed.
Lemma optimize_spec s : NoDup (keys s) ->
  optimize s = Some (filter (fun p => if in_dec bytes_dec (fst p) used_section then true else false) s).
Proof.
  intros H. unfold optimize. rewrite del_all_filter; auto.
  - f_equal. apply filter_ext_in. intros [n c] Hp. cbn [fst].
    destruct (in_dec bytes_dec n used_section) as [i|i], (in_dec bytes_dec n _) as [j|j]; auto.
    + apply filter_In in j. apply is_used_spec in i. rewrite i in j. destruct j; discriminate.
    + exfalso. apply j. apply filter_In. split; [apply (in_map fst) in Hp; exact Hp|].
      destruct (is_used n) eqn:E; auto. apply is_used_spec in E. tauto.
  - apply NoDup_filter. exact H.
  - intros n Hn. apply filter_In in Hn. tauto.
Qed.
