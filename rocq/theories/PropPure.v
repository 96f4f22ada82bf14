(* Properties of the parts of eudplib that run at compile time only. *)
From Coq Require Import String ZArith Lia List Bool Sorted.
From Verif Require Import Dict BinModel BinProofs ChkModel ChkProofs BlockModel BlockProofs FlattenModel FlattenProofs
  NegateModel NegateProofs MpqModel MpqProofs PrpModel PrpProofs.
Import ListNotations.
Open Scope Z_scope.

(* ================= C39: integer/byte conversions ================= *)
(* little endian value of a byte string *)
Fixpoint le_value (b : list Z) : Z := match b with [] => 0 | x :: r => x + 256 * le_value r end.

Theorem C39_write_read (i : Z) (p q : list Z) :
  b2i1 (p ++ i2b1 i ++ q) (length p) = Some (i mod 2^8) /\
  b2i2 (p ++ i2b2 i ++ q) (length p) = Some (i mod 2^16) /\
  b2i4 (p ++ i2b4 i ++ q) (length p) = Some (i mod 2^32).
Proof. split; [apply b2i1_i2b1|]. split; [apply b2i2_i2b2|apply b2i4_i2b4]. Qed.
Print Assumptions C39_write_read.

Theorem C39_bytes (i : Z) :
  Forall byte (i2b1 i) /\ Forall byte (i2b2 i) /\ Forall byte (i2b4 i) /\
  length (i2b1 i) = 1%nat /\ length (i2b2 i) = 2%nat /\ length (i2b4 i) = 4%nat /\
  le_value (i2b1 i) = i mod 2^8 /\ le_value (i2b2 i) = i mod 2^16 /\ le_value (i2b4 i) = i mod 2^32.
Proof.
  rewrite i2b2_eq, i2b4_eq. unfold i2b1. rewrite land_ff. unfold byte. cbn [le_value length].
  repeat split; try (repeat constructor; lia); lia.
Qed.
Print Assumptions C39_bytes.

(* reading succeeds exactly when there are enough bytes, and writing back what
   was read gives the bytes that were there *)
Theorem C39_read_write (b : list Z) (i : nat) : Forall byte b ->
  (forall v, b2i4 b i = Some v -> (i + 4 <= length b)%nat /\ 0 <= v < 2^32 /\ i2b4 v = firstn 4 (skipn i b)) /\
  (forall v, b2i2 b i = Some v -> (i + 2 <= length b)%nat /\ 0 <= v < 2^16 /\ i2b2 v = firstn 2 (skipn i b)) /\
  (forall v, b2i1 b i = Some v -> (i + 1 <= length b)%nat /\ 0 <= v < 2^8 /\ i2b1 v = firstn 1 (skipn i b)) /\
  ((i + 4 <= length b)%nat -> exists v, b2i4 b i = Some v) /\
  ((i + 2 <= length b)%nat -> exists v, b2i2 b i = Some v) /\
  ((i + 1 <= length b)%nat -> exists v, b2i1 b i = Some v).
Proof.
  intros H. split; [|split; [|split; [|split; [|split]]]].
  - intros v E. destruct (b2i4_some b i v H E) as (A & B & C). auto.
  - intros v E. destruct (b2i2_some b i v H E) as (A & B & C). auto.
  - intros v E. unfold b2i1 in E. assert (byte v). { rewrite Forall_forall in H. apply H. eapply nth_error_In. exact E. }
    split; [|split; [exact H0|]].
    + assert (i < length b)%nat by (apply nth_error_Some; congruence). lia.
    + assert (Q : nth_error (skipn i b) 0 = Some v) by (rewrite nth_error_skip, Nat.add_0_r; exact E).
      destruct (skipn i b); [discriminate|]. injection Q as ->. cbn [firstn]. unfold i2b1. rewrite land_ff. unfold byte in H0. rewrite Z.mod_small by lia. reflexivity.
  - apply b2i4_total.
  - intros L. unfold b2i2. destruct (nth_error b i) eqn:E0; [|apply nth_error_None in E0; lia].
    destruct (nth_error b (i + 1)) eqn:E1; [eauto|apply nth_error_None in E1; lia].
  - intros L. unfold b2i1. destruct (nth_error b i) eqn:E0; [eauto|apply nth_error_None in E0; lia].
Qed.
Print Assumptions C39_read_write.

(* bits(n): the set bits of n mod 2^32, as powers of two, in ascending order *)
Theorem C39_bits (n : Z) : exists ks, bits n = map (fun k => 2^k) ks /\ StronglySorted Z.lt ks /\
  forall k, In k ks <-> 0 <= k < 32 /\ Z.testbit n k = true.
Proof. exact (bits_spec n). Qed.
Print Assumptions C39_bits.
Example C39_ex : b2i4 (7 :: i2b4 (-2) ++ [9]) 1 = Some 0xFFFFFFFE /\ b2i2 [1] 0 = None /\ bits (-2147483643) = [1; 4; 2^31].
Proof. vm_compute. auto. Qed.

Lemma bytes_dec_ok (b : list Z) : forallb (fun x => (0 <=? x) && (x <? 256))%bool b = true -> Forall byte b.
Proof.
  intros H. apply Forall_forall. intros x I. rewrite forallb_forall in H. apply H, andb_prop in I. destruct I as [A B].
  apply Z.leb_le in A. apply Z.ltb_lt in B. split; assumption.
Qed.

(* ================= C35: scenario file sections ================= *)
(* what loading does to any byte string *)
Theorem C35_load (old : sections) (b : bytes) : Forall byte b ->
  (exists items, chk_items b items /\
     exists s, loadchk old b = Returned true s /\ keys s = firsts [] items /\ forall n, dget bytes_dec n s = last_of n items) \/
  (exists items, chk_torn b items /\
     exists s, loadchk old b = Raised s /\ keys s = firsts [] items /\ forall n, dget bytes_dec n s = last_of n items).
Proof.
  intros H. destruct (items_or_torn (S (length b)) b (Nat.lt_succ_diag_r _) H) as [[items I]|[items I]]; [left|right]; exists items; (split; [exact I|]).
  - exists (dict_of items []). split; [apply loadchk_items; exact I|]. split; [rewrite dict_of_keys; reflexivity|].
    intros n. rewrite dict_of_get. destruct (last_of n items); reflexivity.
  - exists (dict_of items []). split; [apply loadchk_torn; exact I|]. split; [rewrite dict_of_keys; reflexivity|].
    intros n. rewrite dict_of_get. destruct (last_of n items); reflexivity.
Qed.
Print Assumptions C35_load.
(* saving and loading returns the same sections, except that ISOM is replaced by
   an empty section *)
Theorem C35_save_load (old s : sections) (r : Z) : sections_ok s -> 0 <= r < 2^32 ->
  exists s', loadchk old (savechk s r) = Returned true s' /\
    (forall n, n <> ISOM -> dget bytes_dec n s' = dget bytes_dec n s) /\
    dget bytes_dec ISOM s' = Some [] /\
    (exists extra, keys s' = (keys s ++ extra)%list).
Proof.
  intros H Hr. exists (dset bytes_dec ISOM [] s). split; [apply load_save; auto|]. split; [intros n N; apply dget_dset_other; exact N|].
  split; [apply dget_dset_same|]. destruct (in_dec bytes_dec ISOM (keys s)).
  - exists []. rewrite keys_dset_in, app_nil_r by auto. reflexivity.
  - exists [ISOM]. apply keys_dset_new. auto.
Qed.
Print Assumptions C35_save_load.
(* the terrain section ISOM of a map is lost *)
Theorem C35_isom_refuted : exists s r s', sections_ok s /\ 0 <= r < 2^32 /\
  loadchk [] (savechk s r) = Returned true s' /\ dget bytes_dec ISOM s <> dget bytes_dec ISOM s'.
Proof.
  exists [(ISOM, [1; 2])], 5, [(ISOM, [])]. split.
  { split; [repeat constructor; intros []|]. repeat constructor; cbn; lia. }
  split; [lia|]. split; [reflexivity|]. cbn. discriminate.
Qed.
Print Assumptions C35_isom_refuted.
(* malformed files are not always rejected: the test for negative lengths never
   succeeds, and when stray bytes make loadchk raise, the old sections are gone *)
Theorem C35_never_false (old : sections) (b : bytes) : Forall byte b -> forall s, loadchk old b <> Returned false s.
Proof.
  intros H s E. destruct (C35_load old b H) as [(it & _ & s' & E' & _)|(it & _ & s' & E' & _)]; rewrite E in E'; discriminate.
Qed.
Print Assumptions C35_never_false.
Theorem C35_negative_length_refuted : exists b s, Forall byte b /\ b2i4 b 4 = Some (2^32 - 8) /\
  loadchk [] b = Returned true s /\ s <> [].
Proof.
  exists ([86; 69; 82; 32] ++ i2b4 (-8) ++ [1]), [([86; 69; 82; 32], [1])]. split; [apply bytes_dec_ok; reflexivity|].
  split; [reflexivity|]. split; [reflexivity|discriminate].
Qed.
Print Assumptions C35_negative_length_refuted.
Theorem C35_raise_keeps_refuted : exists old b, Forall byte b /\ old <> [] /\ loadchk old b = Raised [].
Proof. exists [([86; 69; 82; 32], [])], [1; 2; 3]. split; [apply bytes_dec_ok; reflexivity|]. split; [discriminate|reflexivity]. Qed.
Print Assumptions C35_raise_keeps_refuted.
(* reading, writing and deleting single sections; optimize *)
Theorem C35_sections (s s' : sections) (n m b : bytes) :
  (setsection s n b = Some s' ->
     getsection s' n = Some b /\ (sectionname_format m <> sectionname_format n -> getsection s' m = getsection s m)) /\
  (NoDup (keys s) -> delsection s n = Some s' ->
     getsection s' n = None /\ (sectionname_format m <> sectionname_format n -> getsection s' m = getsection s m)) /\
  (setsection s n b = None <-> (4 < length n)%nat).
Proof.
  assert (F : sectionname_format n = None <-> (4 < length n)%nat).
  { unfold sectionname_format. destruct (Nat.ltb_spec (length n) 4), (Nat.ltb_spec 4 (length n)); split; intros; try discriminate; try lia; auto. }
  unfold setsection, delsection, getsection. split; [|split].
  - destruct (sectionname_format n) as [k|]; [|discriminate]. intros [= <-]. split; [apply dget_dset_same|].
    intros N. destruct (sectionname_format m); [|reflexivity]. apply dget_dset_other. congruence.
  - intros Nd. destruct (sectionname_format n) as [k|]; [|discriminate]. intros D. apply ddel_filter in D; auto. subst s'.
    split.
    + apply dget_None. intros I. apply in_map_iff in I. destruct I as (p & <- & I). apply filter_In in I. destruct I as [_ I].
      destruct (bytes_dec (fst p) (fst p)); congruence.
    + intros N. destruct (sectionname_format m) as [k'|]; [|reflexivity]. clear - N. induction s as [|[a v] s IH]; [reflexivity|]. cbn [filter fst].
      destruct (bytes_dec k a) as [->|].
      * cbn [dget]. destruct (bytes_dec k' a); [congruence|exact IH].
      * cbn [dget]. destruct (bytes_dec k' a); [reflexivity|exact IH].
  - destruct (sectionname_format n); [|tauto]. split; [discriminate|]. intros L. apply F in L. discriminate.
Qed.
Print Assumptions C35_sections.
Theorem C35_optimize (s : sections) : NoDup (keys s) -> exists s', optimize s = Some s' /\
  forall p, In p s' <-> In p s /\ In (fst p) used_section.
Proof.
  intros H. eexists. split; [apply optimize_spec; exact H|]. intros p. rewrite filter_In. destruct (in_dec bytes_dec (fst p) used_section); intuition discriminate.
Qed.
Print Assumptions C35_optimize.
Example C35_ex : exists s, sections_ok s /\ keys s = [[86;69;82;32]; [68;73;77;32]] /\
  loadchk [] (savechk s 77) = Returned true (s ++ [(ISOM, [])])%list /\
  loadchk [] (concat (map (fun c => [86;69;82;32] ++ i2b4 1 ++ [c])%list [5; 6])) = Returned true [([86;69;82;32], [6])].
Proof.
  exists [([86;69;82;32], [59; 0]); ([68;73;77;32], [64; 0; 64; 0])]. split.
  { split; [repeat constructor; cbn; intuition discriminate|]. repeat constructor; cbn; lia. }
  repeat split; reflexivity.
Qed.

(* ================= C54: block nesting ================= *)
(* a function body is accepted exactly when its calls are properly nested *)
Theorem C54_nesting (w : list call) : func_body w = true <-> nested w.
Proof. exact (func_body_spec w). Qed.
Print Assumptions C54_nesting.
(* a sequence of calls raises nothing exactly when it can be completed, and the
   blocks found are then the open ones: the last one, and the innermost one of a
   name *)
Theorem C54_open (w : list call) :
  ((exists m, run_calls empty_manager w = Some m) <-> exists bs, open_blocks w bs) /\
  (forall m bs n, run_calls empty_manager w = Some m -> open_blocks w bs ->
     EUDGetLastBlock m = hd_error bs /\
     EUDPeekBlock n m = match bs with b :: _ => if string_dec (fst b) n then Some b else None | [] => None end /\
     EUDGetLastBlockOfName n m = find (fun b => if string_dec (fst b) n then true else false) bs).
Proof.
  split.
  - split; [intros [m H]; exists (blockstru m); apply run_open_complete; exact H|].
    intros [bs H]. destruct (run_open w bs H empty_manager inv_empty) as (m & E & _). eauto.
  - intros m bs n H O. destruct (of_name_spec w m bs n H O) as (H1 & H2 & H3). split; [exact H2|]. split; [|exact H3].
    unfold EUDPeekBlock. rewrite H2. destruct bs; reflexivity.
Qed.
Print Assumptions C54_open.
Open Scope string_scope.
Example C54_ex :
  func_body [Begin "ifblock" 1; Begin "loopnblock" 2; End "loopnblock"; End "ifblock"; Begin "ifblock" 3; End "ifblock"] = true /\
  func_body [Begin "ifblock" 1; Begin "loopnblock" 2; End "ifblock"; End "loopnblock"] = false /\
  func_body [Begin "ifblock" 1] = false /\ func_body [End "ifblock"] = false.
Proof. vm_compute. auto. Qed.
Close Scope string_scope.

(* ================= C41: flattening ================= *)
(* for values whose iteration never fails half-way, the result lists the leaves
   in left-to-right order of their positions, each once *)
Theorem C41_flatten (v : val) : tame v = true -> exists ps ys,
  FlattenList v [] = Some ys /\ FlattenIter v = (ys, false) /\
  Forall2 (leaf_at v) ps ys /\ ordered ps /\ (forall p x, leaf_at v p x -> In p ps).
Proof.
  intros T. destruct (flatten_tame v T) as (ps & O & C & X & F). exists ps, (fst (FlattenIter v)).
  rewrite flatten_list_iter. destruct (FlattenIter v) as [ys ex]. cbn in X, F. subst ex. cbn [fst app]. auto.
Qed.
Print Assumptions C41_flatten.
(* both functions agree on every value *)
Theorem C41_agree (v : val) (ret : list val) :
  FlattenList v ret = if snd (FlattenIter v) then None else Some (ret ++ fst (FlattenIter v))%list.
Proof. rewrite flatten_list_iter. destruct (FlattenIter v); reflexivity. Qed.
Print Assumptions C41_agree.
(* FlattenIter is lazy: leaves before an element that raises are still yielded *)
Theorem C41_lazy (i : Z) (pre post : list val) (bad : val) (e : ending) :
  (forall v, In v pre -> tame v = true) -> snd (FlattenIter bad) = true ->
  FlattenIter (Iter i (pre ++ bad :: post) e) = ((concat (map (fun v => fst (FlattenIter v)) pre) ++ fst (FlattenIter bad))%list, true) /\
  FlattenList (Iter i (pre ++ bad :: post) e) [] = None.
Proof.
  intros Hp Hb.
  assert (E : iter_items pre = (concat (map (fun v => fst (FlattenIter v)) pre), false)).
  { induction pre as [|v pre IH]; [reflexivity|]. cbn [iter_items map concat].
    destruct (flatten_tame v (Hp v (or_introl eq_refl))) as (ps & _ & _ & X & _). destruct (FlattenIter v) as [ys ex]. cbn in X. subst ex.
    rewrite IH by (intros; apply Hp; right; assumption). reflexivity. }
  pose proof (flatten_lazy i pre bad post e) as L. rewrite E in L. apply L; auto.
Qed.
Print Assumptions C41_lazy.
(* an iterable that raises TypeError after some items contributes these items
   and then also itself *)
Theorem C41_type_error (i : Z) (items : list val) (ys : list val) : FlattenList (Iter i items Stop) [] = Some ys ->
  FlattenList (Iter i items TypeErr) [] = Some (ys ++ [Iter i items TypeErr])%list.
Proof. rewrite !FlattenList_eq. destruct (list_items items []); [|discriminate]. intros [= <-]. reflexivity. Qed.
Print Assumptions C41_type_error.
Example C41_ex : let atom i := Iter i [] TypeErr in
  let v := Iter 0 [Whole 1; Iter 2 [atom 3; Iter 4 [] Stop; Iter 5 [Whole 6] Stop] Stop; atom 7] Stop in
  tame v = true /\ FlattenList v [] = Some [Whole 1; atom 3; Whole 6; atom 7].
Proof. vm_compute. auto. Qed.

(* ================= C22: negated conditions ================= *)
(* every condition negate accepts, except the two families below, becomes one
   that holds exactly when the original does not *)
Theorem C22_negate_partial (g : game) (c c' : condition) : game_ok g -> cond_ok c -> negate c = Some c' ->
  ~ overflowing c -> ~ outside_mask c -> holds g c' = negb (holds g c).
Proof. exact (negate_ok g c c'). Qed.
Print Assumptions C22_negate_partial.
(* on these two families it is always wrong *)
Theorem C22_at_most_max (g : game) (c : condition) : game_ok g -> overflowing c ->
  exists c', negate c = Some c' /\ holds g c = true /\ holds g c' = true.
Proof. exact (negate_overflow g c). Qed.
Print Assumptions C22_at_most_max.
Theorem C22_outside_mask (g : game) (c : condition) : game_ok g -> outside_mask c ->
  exists c', negate c = Some c' /\ holds g c = false /\ holds g c' = false.
Proof. exact (negate_outside g c). Qed.
Print Assumptions C22_outside_mask.
Definition g0 : game := mk_game (fun _ _ _ _ _ _ => 5) (fun _ => true) (fun _ => true).
Lemma g0_ok : game_ok g0.
Proof. intros b t p u l r. cbn. split; [lia|reflexivity]. Qed.
Theorem C22_negate_refuted : exists g c c' d d', game_ok g /\ cond_ok c /\ cond_ok d /\
  negate c = Some c' /\ holds g c' = holds g c /\ negate d = Some d' /\ holds g d' = holds g d.
Proof.
  exists g0, (mk_cond 0 0 (-1) 0 1 15 0 0 0). eexists. exists (mk_cond 1 0 2 0 10 15 0 0 SC). eexists.
  split; [exact g0_ok|]. split; [split; cbn; intros; [discriminate|lia]|]. split; [split; cbn; intros; [discriminate|lia]|].
  split; [reflexivity|]. split; [reflexivity|]. split; reflexivity.
Qed.
Print Assumptions C22_negate_refuted.
Example C22_ex : let c := mk_cond 0xF0 13 0xF0 7 10 15 0 0 SC in cond_ok c /\ ~ overflowing c /\ ~ outside_mask c /\
  exists c', negate c = Some c' /\ holds g0 c = false /\ holds g0 c' = true.
Proof.
  cbv zeta. split; [split; cbn; intros; [discriminate|lia]|]. split; [intros (_ & H & _); discriminate|].
  split; [intros (_ & _ & _ & H); apply H; reflexivity|]. eexists. split; [reflexivity|]. split; reflexivity.
Qed.

(* ================= C53: files added to the archive ================= *)
(* If the archive has a listfile, every added file is found under its name (up
   to case and slashes) with its content, and no other file changes; in
   particular none of those in the listfile. *)
Theorem C53_added (normpath : name -> name) (content : Type) (flist : list name) (l : list (name * option content))
    (a0 a1 : added) (A : archive) : flist <> [] ->
  update_filelist_by_listfile normpath (Some flist) = Some a0 -> add_files normpath l a0 = Some a1 ->
  (forall n c m, In (n, Some c) l -> same_name n m -> archive_get m (update_mpq a1 A) = Some c) /\
  (forall m, (forall n c, In (n, Some c) l -> ~ same_name n m) -> archive_get m (update_mpq a1 A) = archive_get m A) /\
  (forall m, In m flist -> archive_get m (update_mpq a1 A) = archive_get m A).
Proof. exact (mpq_ok normpath flist l a0 a1 A). Qed.
Print Assumptions C53_added.
(* a second file with the same name is refused, at once *)
Theorem C53_duplicate (normpath : name -> name) (content : Type) (n n' : name) (c c' : option content) l a a' :
  add_files normpath (l ++ [(n, c)]) a = Some a' -> same_name n n' -> MPQAddFile normpath n' c' a' = None.
Proof. exact (add_same_rejected normpath n n' c c' l a a'). Qed.
Print Assumptions C53_duplicate.
(* a file of the archive that its listfile does not mention is replaced silently *)
Theorem C53_unlisted_refuted : exists (flist : list name) (l : list (name * option Z)) a0 a1 (A : archive) m,
  update_filelist_by_listfile (fun n => n) (Some flist) = Some a0 /\ add_files (fun n => n) l a0 = Some a1 /\
  archive_get m A = Some 1 /\ archive_get m (update_mpq a1 A) = Some 2.
Proof.
  exists [scenario], [([65; 47; 98], Some 2)]. eexists. eexists. exists [([97; 92; 98], 1)], [97; 92; 98].
  split; [reflexivity|]. split; [reflexivity|]. split; reflexivity.
Qed.
Print Assumptions C53_unlisted_refuted.
Example C53_ex : exists a0 a1, update_filelist_by_listfile (content := Z) (fun n => n) (Some [scenario; listfile]) = Some a0 /\
  add_files (fun n => n) [([65; 46; 119], Some 7); ([66], Some 8)] a0 = Some a1 /\
  archive_get [97; 46; 87] (update_mpq a1 [(scenario, 3)]) = Some 7 /\
  archive_get scenario (update_mpq a1 [(scenario, 3)]) = Some 3 /\
  MPQAddFile (fun n => n) [98] (Some 9) a1 = None.
Proof. eexists. eexists. split; [reflexivity|]. split; [reflexivity|]. vm_compute. auto. Qed.

(* ================= C38: unit property slots ================= *)
(* tables as made from a map *)
Theorem C38_init (uprp : bytes) (upus : option bytes) (t : prptable) : init_property_map uprp upus = Some t -> tab_ok t.
Proof. intros H. apply (init_ok uprp upus t H). Qed.
Print Assumptions C38_init.
(* any sequence of requests: equal slots exactly for equal effects; the slot in
   the written map has the requested effect; slots used by the map keep theirs *)
Theorem C38_requests (uprp : bytes) (upus : option bytes) (t t' : prptable) (bs : list bytes) (ns : list nat) :
  Forall byte uprp -> Forall (Forall byte) bs ->
  init_property_map uprp upus = Some t -> requests bs t = Some (ns, t') ->
  (forall i j b b' n n', nth_error bs i = Some b -> nth_error bs j = Some b' -> nth_error ns i = Some n -> nth_error ns j = Some n' ->
     (n = n' <-> effect_at b 0 = effect_at b' 0)) /\
  (forall i b n, nth_error bs i = Some b -> nth_error ns i = Some n ->
     (1 <= n <= 64)%nat /\ effect_at (apply_property_map t') (20 * (n - 1)) = effect_at b 0) /\
  (forall i u, (i < 64)%nat -> nth_error (match upus with Some u => u | None => repeat 1 64 end) i = Some u -> u <> 0 ->
     effect_at (apply_property_map t') (20 * i) = effect_at uprp (20 * i)).
Proof.
  intros Hu Hb H R. destruct (init_ok uprp upus t H) as [Ht Hi]. split; [intros; eapply requests_same; eauto|].
  destruct (requests_ok bs t ns t' Ht R) as (G1 & G2 & G3 & _). split.
  - clear - G1 G2 Hb. intros i b n Bi Ni.
    assert (P : (1 <= n <= 64)%nat /\ exists k, property_key b 0 = Some k /\ nth_error (uprptable t') (n - 1) = Some k).
    { clear - G2 Bi Ni. revert i Bi Ni. induction G2 as [|x y l l' H G IH]; intros [|i] Bi Ni; cbn in *; try discriminate.
      - injection Bi as <-. injection Ni as <-. destruct H as (H1 & k & H2 & H3 & _). eauto.
      - eapply IH; eauto. }
    destruct P as (P1 & k & P2 & P3). split; [exact P1|]. apply (apply_effect t' (n - 1) b 0 k); auto.
    rewrite Forall_forall in Hb. apply Hb. eapply nth_error_In. exact Bi.
  - intros i u Hi64 U N. destruct (Hi i Hi64) as (u' & U' & Q). rewrite U in U'. injection U' as <-. destruct (Z.eqb_spec u 0); [congruence|].
    destruct Q as (k & Q1 & Q2). apply (apply_effect t' i uprp (20 * i) k); auto. apply G3; [exact Q2|]. intros ->. apply key_nonempty in Q1. discriminate.
Qed.
Print Assumptions C38_requests.
(* a request for 20 bytes fails exactly when no slot has its effect and none is free *)
Theorem C38_full (b : bytes) (t : prptable) : tab_ok t -> Forall byte b -> length b = 20%nat ->
  (GetPropertyIndex b t = None <->
   (forall i, (i < 64)%nat -> nth_error (uprptable t) i <> Some []) /\
   (forall i, (i < 64)%nat -> Some (nth i (uprptable t) []) <> property_key b 0)).
Proof.
  intros Ht Hb Hl. rewrite (get_fails b t Ht). destruct Ht as (L & _ & _).
  assert (K : exists k, property_key b 0 = Some k).
  { unfold property_key, unpack. cbn [Nat.add].
    destruct (C39_read_write b 0 Hb) as (_ & _ & _ & _ & A2 & _). destruct (C39_read_write b 2 Hb) as (_ & _ & _ & _ & B2 & _).
    destruct (C39_read_write b 4 Hb) as (_ & _ & _ & _ & _ & A1). destruct (C39_read_write b 5 Hb) as (_ & _ & _ & _ & _ & B1).
    destruct (C39_read_write b 6 Hb) as (_ & _ & _ & _ & _ & D1). destruct (C39_read_write b 7 Hb) as (_ & _ & _ & _ & _ & E1).
    destruct (C39_read_write b 8 Hb) as (_ & _ & _ & A4 & _). destruct (C39_read_write b 12 Hb) as (_ & _ & _ & _ & D2 & _).
    destruct (C39_read_write b 14 Hb) as (_ & _ & _ & _ & E2 & _). destruct (C39_read_write b 16 Hb) as (_ & _ & _ & B4 & _).
    destruct A2 as [a ->]; [lia|]. destruct B2 as [b' ->]; [lia|]. destruct A1 as [? ->]; [lia|]. destruct B1 as [? ->]; [lia|].
    destruct D1 as [? ->]; [lia|]. destruct E1 as [? ->]; [lia|]. destruct A4 as [? ->]; [lia|]. destruct D2 as [? ->]; [lia|].
    destruct E2 as [? ->]; [lia|]. destruct B4 as [? ->]; [lia|]. eauto. }
  destruct K as [k K]. rewrite K. split.
  - intros [Q|(k' & Q & N1 & N2)]; [discriminate|]. injection Q as <-. split.
    + intros i Hi E. apply N2. eapply nth_error_In. exact E.
    + intros i Hi E. apply N1. injection E as <-. apply nth_In. unfold bytes in *. rewrite L. exact Hi.
  - intros [H1 H2]. right. exists k. split; [reflexivity|]. split.
    + intros I. apply In_nth with (d := []) in I. destruct I as (i & Hi & E). apply (H2 i); [unfold bytes in *; rewrite L in Hi; exact Hi|]. rewrite E. reflexivity.
    + intros I. apply In_nth_error in I. destruct I as (i & E). apply (H1 i); [|exact E]. rewrite <- L. apply nth_error_Some. unfold bytes in *. congruence.
Qed.
Print Assumptions C38_full.
(* a map without UPUS, such as one written by eudplib itself, has no free slot *)
Theorem C38_no_upus (uprp : bytes) (t : prptable) : init_property_map uprp None = Some t ->
  forall i, (i < 64)%nat -> nth_error (uprptable t) i <> Some [].
Proof.
  intros H i Hi. destruct (init_ok uprp None t H) as [_ Q]. destruct (Q i Hi) as (u & U & V).
  rewrite nth_repeat' in U by exact Hi. injection U as <-. cbn in V. destruct V as (k & K & ->). apply key_nonempty in K. intros [= ->]. discriminate.
Qed.
Print Assumptions C38_no_upus.
(* hit points 50%, burrowed; the same with junk in ignored fields; 60% *)
Example C38_ex :
  let p50 := pack (mk_prp 2 2 0 50 0 0 0 0 2 0) in
  let p50' := pack (mk_prp 3 0xFF46 9 50 100 0 77 0 0xFFFE 12) in
  let p60 := pack (mk_prp 2 2 0 60 0 0 0 0 2 0) in
  exists t ns t', init_property_map (repeat 0 1280) (Some (1 :: repeat 0 63)) = Some t /\
    requests [p50; p60; p50'; repeat 0 20] t = Some (ns, t') /\ ns = [2; 3; 2; 1]%nat.
Proof. cbv zeta. eexists. eexists. eexists. split; [vm_compute; reflexivity|]. split; [vm_compute; reflexivity|reflexivity]. Qed.
