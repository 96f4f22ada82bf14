From Coq Require Import ZArith List Bool Lia ZifyBool ZifyNat.
From Verif Require Import Lib AllocModel AllocProofs PayloadModel PayloadSpec.
Import ListNotations.
Open Scope Z_scope.
Ltac Zify.zify_post_hook ::= Z.div_mod_to_equations.

Lemma le_bytes_length n v : length (le_bytes n v) = n.
Proof. revert v; induction n; simpl; auto. Qed.

(* ---------- items bookkeeping ---------- *)
Lemma items_len_app a b : items_len (a ++ b) = (items_len a + items_len b)%nat.
Proof. induction a; simpl; lia. Qed.

Lemma item_byte_len i k v : item_byte i k = Some v -> (k < item_len i)%nat.
Proof.
  destruct i as [bs|r|n]; cbn [item_byte item_len]; intros H.
  - apply nth_error_Some; congruence.
  - rewrite <- (le_bytes_length 4 (r_off r)). apply nth_error_Some; congruence.
  - discriminate.
Qed.

Lemma byte_at_len is k v : byte_at is k = Some v -> (k < items_len is)%nat.
Proof.
  revert k; induction is as [|i r IH]; intros k H; cbn [byte_at items_len] in *; [discriminate|].
  destruct (Nat.ltb_spec k (item_len i)); [lia|]. apply IH in H. lia.
Qed.

Lemma byte_at_app a b k :
  byte_at (a ++ b) k = if Nat.ltb k (items_len a) then byte_at a k else byte_at b (k - items_len a).
Proof.
  revert k; induction a as [|i r IH]; intros k; cbn [app byte_at items_len].
  - rewrite Nat.sub_0_r. reflexivity.
  - destruct (Nat.ltb_spec k (item_len i)).
    + destruct (Nat.ltb_spec k (item_len i + items_len r)); [reflexivity|lia].
    + rewrite IH. destruct (Nat.ltb_spec (k - item_len i) (items_len r));
      destruct (Nat.ltb_spec k (item_len i + items_len r)); try lia; auto. f_equal; lia.
Qed.

Lemma rels_at_app a b cur : rels_at cur (a ++ b) = rels_at cur a ++ rels_at (cur + items_len a) b.
Proof.
  revert cur; induction a as [|i r IH]; intros cur; cbn [app items_len].
  - rewrite Nat.add_0_r. reflexivity.
  - rewrite Nat.add_assoc. destruct i; cbn [rels_at item_len app]; rewrite IH; reflexivity.
Qed.

Lemma pack_items_len fs : forallb field_ok fs = true -> items_len (map field_item fs) = pack_size fs.
Proof.
  induction fs as [|f r IH]; cbn [forallb map items_len pack_size fold_right]; auto.
  rewrite andb_true_iff. intros [H1 H2]. fold (pack_size r). rewrite IH by auto. f_equal.
  unfold field_item, field_ok in *. destruct (fst f =? 4) eqn:E; cbn [item_len].
  - apply Z.eqb_eq in E. rewrite E. reflexivity.
  - apply le_bytes_length.
Qed.

(* ---------- dry run coverage (aligned writes) ---------- *)
Definition R (s : oa) (W : nat -> Prop) (n : nat) : Prop :=
  exists pat, o_map s = occup_of pat /\ length pat = (n / 4)%nat /\ o_idx s = (n mod 4)%nat /\
    (forall k, W k -> (k < n)%nat) /\
    (forall k, W k -> (k / 4 < n / 4)%nat -> nth (k / 4) pat false = true) /\
    (forall k, W k -> (k / 4 = n / 4)%nat -> o_sub s = true).

Lemma push_occup pat b : push (occup_of pat) b = occup_of (pat ++ [b]).
Proof. unfold occup_of. rewrite fold_left_app. reflexivity. Qed.

Lemma nth_snoc (p : list bool) b i : nth i (p ++ [b]) false = if Nat.eqb i (length p) then b else nth i p false.
Proof.
  destruct (Nat.eqb_spec i (length p)) as [->|].
  - rewrite app_nth2, Nat.sub_diag by lia. reflexivity.
  - destruct (Nat.lt_ge_cases i (length p)).
    + rewrite app_nth1 by lia; auto.
    + rewrite !nth_overflow; auto. rewrite app_length; simpl; lia.
Qed.

Lemma R_mono s (W W' : nat -> Prop) n : (forall k, W' k -> W k) -> R s W n -> R s W' n.
Proof. intros H (p & A & B & C & D & E & F). exists p. intuition eauto. Qed.

Lemma R_occup1 s W n : R s W n -> R (occup1 s) (fun k => W k \/ k = n) (n + 1).
Proof.
  intros (p & A & B & C & D & E & F). unfold occup1. rewrite C.
  destruct (Nat.eqb_spec (S (n mod 4)) 4) as [H4|H4].
  - exists (p ++ [true]). cbn [o_map o_idx o_sub]. rewrite A, push_occup, app_length. cbn [length].
    split; [auto|]. split; [lia|]. split; [lia|]. split; [intros k [Hk|Hk]; [apply D in Hk|]; lia|].
    split; [|intros k [Hk|Hk] Hq; [apply D in Hk|]; lia].
    intros k Hk Hlt. rewrite nth_snoc. destruct (Nat.eqb_spec (k / 4) (length p)); auto.
    destruct Hk as [Hk|Hk]; [|lia]. apply E; auto. lia.
  - exists p. cbn [o_map o_idx o_sub].
    split; [auto|]. split; [lia|]. split; [lia|]. split; [intros k [Hk|Hk]; [apply D in Hk|]; lia|].
    split; [|auto].
    intros k [Hk|Hk] Hlt; [apply E; auto; lia|lia].
Qed.

Lemma R_push s W n : R s W n -> (n mod 4 = 0)%nat ->
  R (oa_push s true) (fun k => W k \/ (n <= k < n + 4)%nat) (n + 4).
Proof.
  intros (p & A & B & C & D & E & F) H0. exists (p ++ [true]). unfold oa_push; cbn [o_map o_idx o_sub].
  rewrite A, push_occup, app_length. cbn [length].
  split; [auto|]. split; [lia|]. split; [lia|].
  split; [intros k [Hk|Hk]; [apply D in Hk|]; lia|].
  split; [|intros k [Hk|Hk] Hq; [apply D in Hk|]; lia].
  intros k Hk Hlt. rewrite nth_snoc. destruct (Nat.eqb_spec (k / 4) (length p)); auto.
  destruct Hk as [Hk|Hk]; [|lia]. apply E; auto; lia.
Qed.

Lemma R_pushn m : forall s W n, R s W n -> (n mod 4 = 0)%nat ->
  R (oa_pushn m true s) (fun k => W k \/ (n <= k < n + 4 * m)%nat) (n + 4 * m).
Proof.
  induction m as [|m IH]; intros s W n H H0; cbn [oa_pushn].
  - replace (n + 4 * 0)%nat with n by lia. eapply R_mono; [|exact H]. intros k [?|?]; [auto|lia].
  - pose proof (R_push _ _ _ H H0) as H1. apply IH in H1; [|lia].
    replace (n + 4 * S m)%nat with (n + 4 + 4 * m)%nat by lia.
    eapply R_mono; [|exact H1]. intros k [?|?]; [auto|]. lia.
Qed.

Lemma R_occup1n m : forall s W n, R s W n -> R (occup1n m s) (fun k => W k \/ (n <= k < n + m)%nat) (n + m).
Proof.
  induction m as [|m IH]; intros s W n H; cbn [occup1n].
  - replace (n + 0)%nat with n by lia. eapply R_mono; [|exact H]. intros k [?|?]; [auto|lia].
  - apply R_occup1 in H. apply IH in H. replace (n + S m)%nat with (n + 1 + m)%nat by lia.
    eapply R_mono; [|exact H]. intros k [?|?]; [auto|]. lia.
Qed.

Lemma pushn_false m : forall s pat, o_map s = occup_of pat ->
  o_map (oa_pushn m false s) = occup_of (pat ++ repeat false m).
Proof.
  induction m as [|m IH]; intros s pat H; cbn [oa_pushn repeat].
  - rewrite app_nil_r; auto.
  - rewrite (IH _ (pat ++ [false])). { rewrite <- app_assoc. reflexivity. }
    unfold oa_push; cbn [o_map]. rewrite H. apply push_occup.
Qed.

Lemma R_space m s W n : R s W n -> R (oa_space m s) W (n + m).
Proof.
  intros (p & A & B & C & D & E & F). unfold oa_space. rewrite C.
  destruct (Nat.leb_spec 4 (n mod 4 + m)) as [H|H].
  - set (q := ((n mod 4 + m - 4) / 4)%nat).
    exists ((p ++ [o_sub s]) ++ repeat false q). cbn [o_map o_idx o_sub].
    split.
    { apply pushn_false. unfold oa_push; cbn [o_map]. rewrite A. apply push_occup. }
    rewrite !app_length, repeat_length. cbn [length].
    split; [unfold q; lia|]. split; [lia|].
    split; [intros k Hk; apply D in Hk; lia|].
    split; [|intros k Hk Hq; apply D in Hk; lia].
    intros k Hk Hlt. pose proof (D _ Hk). rewrite app_nth1 by (rewrite app_length; cbn [length]; lia).
    rewrite nth_snoc. destruct (Nat.eqb_spec (k / 4) (length p)) as [Eq|Ne].
    + apply (F k); auto; lia.
    + apply E; auto; lia.
  - exists p. cbn [o_map o_idx o_sub]. split; [auto|]. split; [lia|]. split; [lia|].
    split; [intros k Hk; apply D in Hk; lia|].
    split; [intros k Hk Hlt; apply E; auto; lia|].
    intros k Hk Hq. apply (F k); auto. pose proof (D _ Hk). lia.
Qed.

Definition written (is : list item) (n k : nat) : Prop :=
  (n <= k)%nat /\ exists v, byte_at is (k - n) = Some v.

Definition covers (s : oa) (is : list item) (n : nat) (s' : oa) : Prop :=
  forall W, R s W n -> R s' (fun k => W k \/ written is n k) (n + items_len is).

Lemma covers_app s s1 s2 a b n :
  covers s a n s1 -> covers s1 b (n + items_len a) s2 -> covers s (a ++ b) n s2.
Proof.
  intros H1 H2 W HR. specialize (H2 _ (H1 _ HR)). rewrite items_len_app, Nat.add_assoc.
  eapply R_mono; [|exact H2]. intros k [Hk|[Hn [v Hv]]]; [auto|].
  rewrite byte_at_app in Hv. destruct (Nat.ltb_spec (k - n) (items_len a)).
  - left. right. split; eauto.
  - right. split; [lia|]. exists v. rewrite <- Hv. f_equal; lia.
Qed.

Lemma covers_nil s n : covers s [] n s.
Proof.
  intros W H. cbn [items_len]. rewrite Nat.add_0_r. eapply R_mono; [|exact H].
  intros k [?|[_ [v Hv]]]; [auto|discriminate].
Qed.

(* every byte counted as used covers any items of that length *)
Lemma covers_bytes s is n :
  (items_len is < 4)%nat \/ (n mod 4 = 0)%nat -> covers s is n (oa_bytes (items_len is) s).
Proof.
  intros H W HR. unfold oa_bytes. set (m := items_len is) in *.
  destruct (Nat.lt_ge_cases m 4) as [Hs|Hs].
  - rewrite Nat.div_small, Nat.mod_small by auto. cbn [oa_pushn].
    apply (R_occup1n m) in HR. eapply R_mono; [|exact HR].
    intros k [?|[Hk [v Hv]]]; [auto|]. apply byte_at_len in Hv. fold m in Hv. right; lia.
  - destruct H as [|H0]; [lia|].
    apply (R_pushn (m / 4)) in HR; auto. apply (R_occup1n (m mod 4)) in HR.
    replace (n + m)%nat with (n + 4 * (m / 4) + m mod 4)%nat by lia.
    eapply R_mono; [|exact HR]. intros k [?|[Hk [v Hv]]]; [auto|]. apply byte_at_len in Hv. fold m in Hv.
    destruct (Nat.lt_ge_cases k (n + 4 * (m / 4))); [left; right; lia|right; lia].
Qed.

Lemma covers_pushn s is n m :
  items_len is = (4 * m)%nat -> (n mod 4 = 0)%nat -> covers s is n (oa_pushn m true s).
Proof.
  intros Hm H0 W HR. apply (R_pushn m) in HR; auto. rewrite Hm. eapply R_mono; [|exact HR].
  intros k [?|[Hk [v Hv]]]; [auto|]. apply byte_at_len in Hv. right; lia.
Qed.

Lemma covers_space s n m : covers s [IS m] n (oa_space m s).
Proof.
  intros W HR. apply (R_space m) in HR. cbn [items_len item_len]. rewrite Nat.add_0_r.
  eapply R_mono; [|exact HR]. intros k [?|[Hk [v Hv]]]; [auto|].
  cbn [byte_at item_byte item_len] in Hv. destruct (Nat.ltb _ _); discriminate.
Qed.

Lemma packs_len cs sz :
  forallb (forallb field_ok) cs = true -> forallb (fun c => Nat.eqb (pack_size c) sz) cs = true ->
  items_len (concat (map (map field_item) cs)) = (sz * length cs)%nat.
Proof.
  induction cs as [|c r IH]; cbn [forallb map concat items_len length]; [lia|].
  rewrite !andb_true_iff. intros [A B] [C D]. rewrite items_len_app, pack_items_len, IH by auto.
  apply Nat.eqb_eq in C. lia.
Qed.

Lemma covers_occup1 s n v : covers s [IB [v]] n (occup1 s).
Proof.
  intros W HR. apply R_occup1 in HR. eapply R_mono; [|exact HR].
  intros k [?|[Hk [x Hx]]]; [auto|]. apply byte_at_len in Hx. simpl in Hx. right; lia.
Qed.

Lemma covers_op s o n :
  op_aligned n o = true -> op_fields_ok o = true -> covers s (items o) n (oa_op s o).
Proof.
  destruct o as [v|v|r|fs|bs|m|p nx cs acts f]; cbn [op_aligned op_fields_ok items oa_op]; intros Ha Hf.
  - apply covers_occup1.
  - intros W HR. apply R_occup1 in HR. apply R_occup1 in HR.
    replace (n + items_len [IB (le_bytes 2 v)])%nat with (n + 1 + 1)%nat by (simpl; lia).
    eapply R_mono; [|exact HR]. intros k [?|[Hk [x Hx]]]; [auto|]. apply byte_at_len in Hx. simpl in Hx. lia.
  - apply (covers_pushn s [IR r] n 1); [reflexivity|lia].
  - rewrite <- (pack_items_len fs Hf) in *. apply covers_bytes. lia.
  - assert (El : length bs = items_len [IB bs]) by (cbn [items_len item_len]; lia). rewrite El in *. apply covers_bytes. lia.
  - apply covers_space.
  - rewrite !andb_true_iff in Ha. destruct Ha as [[[[H0 Hc] Hac] Hcs] Has].
    apply andb_true_iff in Hf. destruct Hf as [Fc Fa].
    pose proof (packs_len _ _ Fc Hcs) as Lc. pose proof (packs_len _ _ Fa Has) as La.
    unfold oa_trigger.
    set (nc := length cs) in *. set (na := length acts) in *.
    eapply covers_app; [apply (covers_pushn s [IR p; IR nx] n 2); [reflexivity|lia]|].
    cbn [items_len item_len]. 
    eapply covers_app; [apply (covers_pushn _ _ _ (nc * 5)); [lia|lia]|].
    rewrite Lc.
    eapply covers_app.
    { instantiate (1 := if (nc <? 16)%nat then oa_space (20 * (15 - nc)) (oa_pushn 5 true _) else _).
      destruct (Nat.ltb_spec nc 16).
      - change [IB (repeat 0 20); IS (20 * (15 - nc))] with ([IB (repeat 0 20)] ++ [IS (20 * (15 - nc))]).
        eapply covers_app; [apply (covers_pushn _ [IB (repeat 0 20)] _ 5); [reflexivity|lia]|apply covers_space].
      - apply covers_nil. }
    assert (Lm : items_len (if (nc <? 16)%nat then [IB (repeat 0 20); IS (20 * (15 - nc))] else [])
                 = (20 * (16 - nc))%nat).
    { destruct (Nat.ltb_spec nc 16); cbn [items_len item_len]; rewrite ?repeat_length; lia. }
    rewrite Lm.
    eapply covers_app; [apply (covers_pushn _ _ _ (na * 8)); [lia|lia]|].
    rewrite La.
    eapply covers_app.
    { instantiate (1 := if (na <? 64)%nat then oa_space (32 * (63 - na)) (oa_pushn 8 true _) else _).
      destruct (Nat.ltb_spec na 64).
      - change [IB (repeat 0 32); IS (32 * (63 - na))] with ([IB (repeat 0 32)] ++ [IS (32 * (63 - na))]).
        eapply covers_app; [apply (covers_pushn _ [IB (repeat 0 32)] _ 8); [reflexivity|lia]|apply covers_space].
      - apply covers_nil. }
    assert (Lm' : items_len (if (na <? 64)%nat then [IB (repeat 0 32); IS (32 * (63 - na))] else [])
                 = (32 * (64 - na))%nat).
    { destruct (Nat.ltb_spec na 64); cbn [items_len item_len]; rewrite ?repeat_length; lia. }
    rewrite Lm'.
    change [IR f; IS 27; IB [0]] with ([IR f] ++ [IS 27] ++ [IB [0]]).
    eapply covers_app; [apply (covers_pushn _ [IR f] _ 1); [reflexivity|lia]|].
    eapply covers_app; [apply covers_space|apply covers_occup1].
Qed.

Lemma covers_ops ops : forall s n,
  ops_aligned n ops = true -> forallb op_fields_ok ops = true ->
  covers s (all_items ops) n (fold_left oa_op ops s).
Proof.
  induction ops as [|o r IH]; intros s n Ha Hf; cbn [fold_left].
  - apply covers_nil.
  - cbn [ops_aligned forallb] in *. rewrite andb_true_iff in *. destruct Ha as [A1 A2], Hf as [F1 F2].
    unfold all_items. cbn [map concat]. eapply covers_app; [apply covers_op; auto|apply IH; auto].
Qed.

Lemma R_init : R (mkoa false 0 []) (fun _ => False) 0.
Proof. exists []. cbn. repeat split; auto; tauto. Qed.

(* the dry-run map of an aligned write sequence: right length, and every
   written byte lies in a dword marked used *)
Lemma dry_run_covers ops :
  ops_aligned 0 ops = true -> forallb op_fields_ok ops = true ->
  exists pat, dry_run ops = occup_of pat /\
    length pat = ((items_len (all_items ops) + 3) / 4)%nat /\
    forall k v, byte_at (all_items ops) k = Some v -> nth (k / 4) pat false = true.
Proof.
  intros Ha Hf. destruct (covers_ops ops (mkoa false 0 []) 0 Ha Hf _ R_init) as (p & A & B & C & D & E & F).
  rewrite Nat.add_0_l in *. set (n := items_len (all_items ops)) in *. unfold dry_run.
  rewrite C. destruct (Nat.ltb_spec 0 (n mod 4)).
  - exists (p ++ [o_sub (fold_left oa_op ops (mkoa false 0 []))]).
    rewrite A, push_occup, app_length. cbn [length]. split; [auto|]. split; [lia|].
    intros k v Hk. pose proof (byte_at_len _ _ _ Hk) as Hl. fold n in Hl.
    assert (Wk : False \/ written (all_items ops) 0 k).
    { right. split; [lia|]. exists v. rewrite Nat.sub_0_r. auto. }
    rewrite nth_snoc. destruct (Nat.eqb_spec (k / 4) (length p)).
    + apply (F k); auto; lia.
    + apply E; auto; lia.
  - exists p. rewrite A. split; [auto|]. split; [lia|].
    intros k v Hk. pose proof (byte_at_len _ _ _ Hk) as Hl. fold n in Hl.
    apply E; [|lia]. right. split; [lia|]. exists v. rewrite Nat.sub_0_r. auto.
Qed.

(* the map is not sound for unaligned writes *)
Definition unaligned_ops : list wop := [WSpace 1; WDword (mkrloc 305419896 0); WSpace 3].
Lemma dry_run_unaligned :
  length (dry_run unaligned_ops) = ((items_len (all_items unaligned_ops) + 3) / 4)%nat /\
  byte_at (all_items unaligned_ops) 4 <> None /\ nth_error (dry_run unaligned_ops) (4 / 4) = Some (-1).
Proof. vm_compute. repeat split; discriminate. Qed.

(* ---------- real run ---------- *)
Record eff (s : pb) (is : list item) (s' : pb) : Prop := {
  e_cur : b_cur s' = (b_cur s + items_len is)%nat;
  e_len : length (b_data s') = length (b_data s);
  e_data : forall k, nth_error (b_data s') k =
     if Nat.leb (b_cur s) k
     then match byte_at is (k - b_cur s) with Some v => Some v | None => nth_error (b_data s) k end
     else nth_error (b_data s) k;
  e_prt : b_prt s' = b_prt s ++ mode_positions 1 (rels_at (b_cur s) is);
  e_ort : b_ort s' = b_ort s ++ mode_positions 4 (rels_at (b_cur s) is);
  e_align : forall p r, In (p, r) (rels_at (b_cur s) is) -> r_mode r <> 0 -> (p mod 4 = 0)%nat
}.

Lemma eff_nil s : eff s [] s.
Proof.
  constructor; cbn; rewrite ?app_nil_r; auto; try lia; try tauto.
  intros k. destruct (Nat.leb _ _); auto.
Qed.

Lemma mode_positions_app m a b : mode_positions m (a ++ b) = mode_positions m a ++ mode_positions m b.
Proof. unfold mode_positions. rewrite filter_app, map_app. reflexivity. Qed.

Lemma eff_app s s1 s2 a b : eff s a s1 -> eff s1 b s2 -> eff s (a ++ b) s2.
Proof.
  intros [c1 l1 d1 p1 o1 a1] [c2 l2 d2 p2 o2 a2]. constructor.
  - rewrite c2, c1, items_len_app. lia.
  - congruence.
  - intros k. rewrite d2, c1, d1, byte_at_app.
    destruct (Nat.leb_spec (b_cur s) k) as [H|H].
    + destruct (Nat.ltb_spec (k - b_cur s) (items_len a)) as [H'|H'].
      * destruct (Nat.leb_spec (b_cur s + items_len a) k); [lia|reflexivity].
      * destruct (Nat.leb_spec (b_cur s + items_len a) k); [|lia].
        replace (k - b_cur s - items_len a)%nat with (k - (b_cur s + items_len a))%nat by lia.
        destruct (byte_at b (k - (b_cur s + items_len a))); auto.
        destruct (byte_at a (k - b_cur s)) eqn:E; auto. apply byte_at_len in E. lia.
    + destruct (Nat.leb_spec (b_cur s + items_len a) k); [lia|reflexivity].
  - rewrite p2, p1, c1, rels_at_app, mode_positions_app, app_assoc. reflexivity.
  - rewrite o2, o1, c1, rels_at_app, mode_positions_app, app_assoc. reflexivity.
  - intros p r Hin Hm. rewrite rels_at_app in Hin. apply in_app_or in Hin. destruct Hin as [Hin|Hin].
    + eauto.
    + rewrite <- c1 in Hin. eauto.
Qed.

Lemma splice_nth data cur bs d : splice data cur bs = Ok d ->
  length d = length data /\
  forall k, nth_error d k = if Nat.leb cur k then
                              if Nat.ltb (k - cur) (length bs) then nth_error bs (k - cur) else nth_error data k
                            else nth_error data k.
Proof.
  unfold splice. destruct (Nat.leb_spec (cur + length bs) (length data)) as [H|H]; [|discriminate].
  intros E; injection E as <-. split.
  - rewrite !app_length, firstn_length, skipn_length. lia.
  - intros k. destruct (Nat.leb_spec cur k) as [Hk|Hk].
    + rewrite nth_error_app2; rewrite firstn_length_le by lia; [|lia].
      destruct (Nat.ltb_spec (k - cur) (length bs)) as [H'|H'].
      * rewrite nth_error_app1 by lia. reflexivity.
      * rewrite nth_error_app2 by lia. rewrite nth_error_skipn'. f_equal; lia.
    + rewrite nth_error_app1 by (rewrite firstn_length_le; lia).
      rewrite nth_error_firstn'. destruct (Nat.ltb_spec k cur); [reflexivity|lia].
Qed.

Lemma eff_bytes bs s s' : pb_bytes bs s = Ok s' -> eff s [IB bs] s'.
Proof.
  unfold pb_bytes. destruct (splice (b_data s) (b_cur s) bs) as [d| |] eqn:E; cbn [bind]; try discriminate.
  intros H; injection H as <-. destruct (splice_nth _ _ _ _ E) as [HL HN].
  constructor; cbn [b_cur b_data b_prt b_ort items_len item_len rels_at mode_positions filter map];
    rewrite ?app_nil_r; auto; try lia.
  - intros k. rewrite HN. destruct (Nat.leb_spec (b_cur s) k); auto.
    cbn [byte_at item_len item_byte]. destruct (Nat.ltb_spec (k - b_cur s) (length bs)); auto.
    destruct (nth_error bs (k - b_cur s)) eqn:E'; auto. apply nth_error_None in E'. lia.
  - cbn. tauto.
Qed.

Lemma eff_space n s : eff s [IS n] (pb_space n s).
Proof.
  constructor; cbn [pb_space b_cur b_data b_prt b_ort items_len item_len rels_at mode_positions filter map];
    rewrite ?app_nil_r; auto; try lia.
  - intros k. cbn [byte_at item_len item_byte]. destruct (Nat.leb _ _); auto. destruct (Nat.ltb _ _); auto.
  - cbn. tauto.
Qed.

(* store of a dword after the relocation tables have been extended *)
Lemma eff_rel r s s0 s' :
  b_cur s0 = b_cur s -> b_data s0 = b_data s ->
  b_prt s0 = b_prt s ++ mode_positions 1 [(b_cur s, r)] ->
  b_ort s0 = b_ort s ++ mode_positions 4 [(b_cur s, r)] ->
  (r_mode r <> 0 -> (b_cur s mod 4 = 0)%nat) ->
  pb_bytes (le_bytes 4 (r_off r)) s0 = Ok s' -> eff s [IR r] s'.
Proof.
  intros Hc Hd Hp Ho Ha H. apply eff_bytes in H. destruct H as [c l d p o a]. constructor.
  - rewrite c, Hc. cbn [items_len item_len]. rewrite le_bytes_length. reflexivity.
  - congruence.
  - intros k. rewrite d, Hc, Hd. destruct (Nat.leb _ _); auto.
  - rewrite p, Hp. cbn [rels_at mode_positions filter map]. rewrite app_nil_r. reflexivity.
  - rewrite o, Ho. cbn [rels_at mode_positions filter map]. rewrite app_nil_r. reflexivity.
  - intros q r' Hin Hm. cbn [rels_at] in Hin. destruct Hin as [E|[]]. injection E as <- <-. auto.
Qed.

Lemma eff_dword r s s' : pb_dword r s = Ok s' -> eff s [IR r] s'.
Proof.
  unfold pb_dword. intros H. destruct (r_mode r =? 0) eqn:E0.
  - eapply (eff_rel r s s); eauto; unfold mode_positions; cbn [filter snd map];
      try (destruct (r_mode r =? 1) eqn:E1; [lia|]); try (destruct (r_mode r =? 4) eqn:E4; [lia|]);
      cbn [map]; rewrite ?app_nil_r; auto. lia.
  - destruct (negb (Nat.eqb (Nat.modulo (b_cur s) 4) 0)) eqn:Ea; [discriminate|].
    destruct (r_mode r =? 1) eqn:E1.
    + eapply (eff_rel r s); [..|exact H]; cbn [b_cur b_data b_prt b_ort]; auto; unfold mode_positions;
        cbn [filter snd map]; rewrite ?E1; auto.
      * destruct (r_mode r =? 4) eqn:E4; [lia|]. cbn [map]. rewrite app_nil_r. auto.
      * intros _. lia.
    + destruct (r_mode r =? 4) eqn:E4; [|discriminate].
      eapply (eff_rel r s); [..|exact H]; cbn [b_cur b_data b_prt b_ort]; auto; unfold mode_positions;
        cbn [filter snd map]; rewrite ?E1, ?E4; cbn [map]; rewrite ?app_nil_r; auto.
      intros _. lia.
Qed.

Lemma eff_field f s s' : pb_field f s = Ok s' -> eff s [field_item f] s' /\ field_ok f = true.
Proof.
  destruct f as [a r]. unfold pb_field, field_item, field_ok. cbn [fst snd]. intros H.
  destruct (negb ((a =? 1) || (a =? 2) || (a =? 4))) eqn:Ea; [discriminate|].
  destruct (negb _) eqn:Em in H; [discriminate|]. split; [|lia].
  destruct (a =? 4) eqn:E4.
  - apply Z.eqb_eq in E4. subst a. change (Z.to_nat 4) with 4%nat in H.
    eapply (eff_rel r s); [..|exact H]; unfold mode_positions; cbn [filter snd map].
    + destruct (r_mode r =? 1), (r_mode r =? 4); reflexivity.
    + destruct (r_mode r =? 1), (r_mode r =? 4); reflexivity.
    + destruct (r_mode r =? 1) eqn:E1, (r_mode r =? 4) eqn:E2; cbn [b_prt map fst]; rewrite ?app_nil_r; auto.
    + destruct (r_mode r =? 1) eqn:E1, (r_mode r =? 4) eqn:E2; cbn [b_ort map fst]; rewrite ?app_nil_r; auto. lia.
    + intros Hm. lia.
  - apply eff_bytes. rewrite <- H. f_equal.
    destruct (r_mode r =? 1) eqn:E1; [lia|]. destruct (r_mode r =? 4) eqn:E2; [lia|reflexivity].
Qed.

Lemma eff_pack fs : forall s s', pb_pack fs s = Ok s' ->
  eff s (map field_item fs) s' /\ forallb field_ok fs = true.
Proof.
  induction fs as [|f r IH]; intros s s' H; cbn [pb_pack map forallb] in *.
  - injection H as <-. split; auto using eff_nil.
  - destruct (pb_field f s) as [s1| |] eqn:E; cbn [bind] in H; try discriminate.
    destruct (eff_field _ _ _ E) as [E1 F1]. destruct (IH _ _ H) as [E2 F2]. split.
    + exact (eff_app _ _ _ [field_item f] _ E1 E2).
    + rewrite F1, F2; reflexivity.
Qed.

Lemma eff_packs fs : forall s s', pb_packs fs s = Ok s' ->
  eff s (concat (map (map field_item) fs)) s' /\ forallb (forallb field_ok) fs = true.
Proof.
  induction fs as [|f r IH]; intros s s' H; cbn [pb_packs map concat forallb] in *.
  - injection H as <-. split; auto using eff_nil.
  - destruct (pb_pack f s) as [s1| |] eqn:E; cbn [bind] in H; try discriminate.
    destruct (eff_pack _ _ _ E) as [E1 F1]. destruct (IH _ _ H) as [E2 F2]. split.
    + eapply eff_app; eauto.
    + rewrite F1, F2; reflexivity.
Qed.

Ltac bind_inv H s1 E :=
  match type of H with
  | bind ?x _ = Ok _ => destruct x as [s1| |] eqn:E; cbn [bind] in H; try discriminate
  end.

Lemma eff_op o s s' : pb_op s o = Ok s' -> eff s (items o) s' /\ op_fields_ok o = true.
Proof.
  destruct o as [v|v|r|fs|bs|m|p nx cs acts f]; cbn [pb_op items op_fields_ok]; intros H.
  - split; auto. apply eff_bytes; auto.
  - split; auto. apply eff_bytes; auto.
  - split; auto. apply eff_dword; auto.
  - apply eff_pack; auto.
  - split; auto. apply eff_bytes; auto.
  - injection H as <-. split; auto. apply eff_space.
  - unfold pb_trigger in H.
    bind_inv H s1 E1. bind_inv H s2 E2. bind_inv H s3 E3. bind_inv H s4 E4.
    bind_inv H s5 E5. bind_inv H s6 E6. bind_inv H s7 E7.
    destruct (eff_packs _ _ _ E3) as [P3 F3]. destruct (eff_packs _ _ _ E5) as [P5 F5].
    split; [|rewrite F3, F5; reflexivity].
    change [IR p; IR nx] with ([IR p] ++ [IR nx]). rewrite <- app_assoc.
    eapply eff_app; [apply eff_dword; eauto|].
    eapply eff_app; [apply eff_dword; eauto|].
    eapply eff_app; [exact P3|].
    eapply eff_app.
    { instantiate (1 := s4). destruct (Nat.ltb (length cs) 16).
      - bind_inv E4 s4' E4'. injection E4 as <-.
        eapply (eff_app _ _ _ [IB (repeat 0 20)] [IS _]); [apply eff_bytes; eauto|apply eff_space].
      - injection E4 as <-. apply eff_nil. }
    eapply eff_app; [exact P5|].
    eapply eff_app.
    { instantiate (1 := s6). destruct (Nat.ltb (length acts) 64).
      - bind_inv E6 s6' E6'. injection E6 as <-.
        eapply (eff_app _ _ _ [IB (repeat 0 32)] [IS _]); [apply eff_bytes; eauto|apply eff_space].
      - injection E6 as <-. apply eff_nil. }
    eapply (eff_app _ _ _ [IR f] [IS 27; IB [0]]); [apply eff_dword; eauto|].
    eapply (eff_app _ _ _ [IS 27%nat] [IB [0]]); [apply eff_space|]. apply eff_bytes. exact H.
Qed.

Lemma eff_ops ops : forall s s', pb_ops s ops = Ok s' -> eff s (all_items ops) s' /\ forallb op_fields_ok ops = true.
Proof.
  induction ops as [|o r IH]; intros s s' H; cbn [pb_ops] in H; unfold all_items; cbn [map concat forallb].
  - injection H as <-. split; auto using eff_nil.
  - bind_inv H s1 E. destruct (eff_op _ _ _ E) as [E1 F1]. destruct (IH _ _ H) as [E2 F2]. split.
    + eapply eff_app; eauto.
    + rewrite F1, F2; reflexivity.
Qed.

(* ---------- all objects ---------- *)
(* object number [n] stores value [v] at payload position [k] *)
Definition obj_byte (l : list (obj * Z)) (n k : nat) (v : Z) : Prop :=
  exists o off, nth_error l n = Some (o, off) /\ (Z.to_nat off <= k)%nat /\
    byte_at (all_items (ob_ops o)) (k - Z.to_nat off) = Some v.

Definition obj_rel (l : list (obj * Z)) (n p : nat) (r : rloc) : Prop :=
  exists o off, nth_error l n = Some (o, off) /\ In (p, r) (rels_at (Z.to_nat off) (all_items (ob_ops o))).

Lemma rels_bytes is : forall cur p r, In (p, r) (rels_at cur is) ->
  (cur <= p)%nat /\ forall j, (j < 4)%nat -> byte_at is (p + j - cur) = nth_error (le_bytes 4 (r_off r)) j.
Proof.
  induction is as [|i rest IH]; intros cur p r H; [destruct H|].
  assert (Hrec : In (p, r) (rels_at (cur + item_len i) rest) ->
    (cur <= p)%nat /\ forall j, (j < 4)%nat -> byte_at (i :: rest) (p + j - cur) = nth_error (le_bytes 4 (r_off r)) j).
  { intros H'. destruct (IH _ _ _ H') as [A B]. split; [lia|]. intros j Hj. cbn [byte_at].
    destruct (Nat.ltb_spec (p + j - cur) (item_len i)); [lia|].
    rewrite <- (B j Hj). f_equal; lia. }
  destruct i as [bs|r0|n]; cbn [rels_at] in H; auto.
  destruct H as [E|H]; auto. injection E as -> ->. split; [lia|].
  intros j Hj. cbn [byte_at item_len item_byte]. replace (p + j - p)%nat with j by lia.
  destruct (Nat.ltb_spec j 4); [reflexivity|lia].
Qed.

Lemma obj_rel_byte l n p r j : obj_rel l n p r -> (j < 4)%nat ->
  exists v, obj_byte l n (p + j) v /\ nth_error (le_bytes 4 (r_off r)) j = Some v.
Proof.
  intros (o & off & E & H) Hj. destruct (rels_bytes _ _ _ _ H) as [A B]. specialize (B j Hj).
  destruct (nth_error (le_bytes 4 (r_off r)) j) as [v|] eqn:Ev.
  - exists v. split; auto. exists o, off. repeat split; auto. lia.
  - apply nth_error_None in Ev. rewrite le_bytes_length in Ev. lia.
Qed.

Lemma write_objects_eff l : forall s s', write_objects l s = Ok s' ->
  length (b_data s') = length (b_data s) /\
  (forall k, (exists n v, obj_byte l n k v /\ nth_error (b_data s') k = Some v) \/
             ((forall n v, ~ obj_byte l n k v) /\ nth_error (b_data s') k = nth_error (b_data s) k)) /\
  b_prt s' = b_prt s ++ concat (map (fun x => mode_positions 1 (rels_at (Z.to_nat (snd x)) (all_items (ob_ops (fst x))))) l) /\
  b_ort s' = b_ort s ++ concat (map (fun x => mode_positions 4 (rels_at (Z.to_nat (snd x)) (all_items (ob_ops (fst x))))) l) /\
  (forall n p r, obj_rel l n p r -> r_mode r <> 0 -> (p mod 4 = 0)%nat) /\
  Forall (fun x => forallb op_fields_ok (ob_ops (fst x)) = true) l /\
  Forall (fun x => items_len (all_items (ob_ops (fst x))) = ob_size (fst x)) l.
Proof.
  induction l as [|[o off] l IH]; intros s s' H; cbn [write_objects] in H.
  - injection H as <-. cbn [map concat]. rewrite !app_nil_r. repeat split; auto.
    + intros k. right. split; auto. intros n v (o & off & E & _). destruct n; discriminate.
    + intros n p r (o & off & E & _). destruct n; discriminate.
  - bind_inv H s1 E. destruct (Nat.eqb _ _) eqn:Es in H; [|discriminate].
    destruct (eff_ops _ _ _ E) as [[c le d pr ot al] F]. cbn [b_cur b_data b_prt b_ort] in *.
    destruct (IH _ _ H) as (L & D & P & O & A & FF & LL).
    split; [congruence|]. split; [|split; [|split; [|split; [|split]]]].
    + intros k. destruct (D k) as [(n & v & Hb & Hd)|[Hno Hd]].
      * left. exists (S n), v. split; auto.
      * specialize (d k). destruct (Nat.leb_spec (Z.to_nat off) k) as [Hk|Hk].
        -- destruct (byte_at (all_items (ob_ops o)) (k - Z.to_nat off)) as [v|] eqn:Eb.
           ++ left. exists 0%nat, v. split; [|congruence]. exists o, off. auto.
           ++ right. split; [|congruence]. intros [|n] v Hb; [|eapply Hno; exact Hb].
              destruct Hb as (o' & off' & E' & _ & Eb'). injection E' as <- <-. congruence.
        -- right. split; [|congruence]. intros [|n] v Hb; [|eapply Hno; exact Hb].
           destruct Hb as (o' & off' & E' & Hk' & _). injection E' as <- <-. lia.
    + rewrite P, pr. cbn [map concat fst snd]. rewrite app_assoc. reflexivity.
    + rewrite O, ot. cbn [map concat fst snd]. rewrite app_assoc. reflexivity.
    + intros [|n] p r (o' & off' & E' & Hin) Hm.
      * injection E' as <- <-. eapply al; eauto.
      * eapply (A n); eauto. exists o', off'. auto.
    + constructor; auto.
    + constructor; auto. cbn [fst]. lia.
Qed.

Definition all_aligned (objs : list obj) : Prop :=
  Forall (fun o => ops_aligned 0 (ob_ops o) = true) objs.

Lemma nth_error_combine {A B} (xs : list A) (ys : list B) n x y :
  nth_error (combine xs ys) n = Some (x, y) <-> nth_error xs n = Some x /\ nth_error ys n = Some y.
Proof.
  revert ys n; induction xs as [|a xs IH]; intros [|b ys] [|n]; simpl; split; intros H;
    try discriminate; try (destruct H; discriminate); try (injection H as <- <-; auto).
  - destruct H as [E1 E2]. congruence.
  - apply IH; auto.
  - apply IH; auto.
Qed.

Lemma dry_runs_patterns objs :
  all_aligned objs -> Forall (fun o => forallb op_fields_ok (ob_ops o) = true) objs ->
  exists pats, map (fun o => dry_run (ob_ops o)) objs = map occup_of pats /\
    forall n o, nth_error objs n = Some o -> exists pat, nth_error pats n = Some pat /\
       length pat = ((items_len (all_items (ob_ops o)) + 3) / 4)%nat /\
       forall k v, byte_at (all_items (ob_ops o)) k = Some v -> nth (k / 4) pat false = true.
Proof.
  induction objs as [|o r IH]; intros A F.
  - exists []. split; auto. intros n o H; destruct n; discriminate.
  - inversion A; inversion F; subst. destruct (IH ltac:(auto) ltac:(auto)) as (pats & E & H).
    destruct (dry_run_covers (ob_ops o)) as (p & E1 & E2 & E3); auto.
    exists (p :: pats). cbn [map]. rewrite E, E1. split; auto.
    intros [|n] o' Hn; [injection Hn as <-; exists p; auto|apply H; auto].
Qed.

Lemma NoDup_app' {A} (xs ys : list A) : NoDup xs -> NoDup ys -> (forall x, In x xs -> In x ys -> False) -> NoDup (xs ++ ys).
Proof.
  induction xs as [|x xs IH]; intros H1 H2 H; simpl; auto. inversion H1; subst. constructor.
  - rewrite in_app_iff. intros [?|?]; [auto|]. eapply H; [left; reflexivity|auto].
  - apply IH; auto. intros y Hy. apply H. right; auto.
Qed.

Lemma rels_sorted is : forall cur, NoDup (map fst (rels_at cur is)) /\ Forall (fun p => (cur <= fst p)%nat) (rels_at cur is).
Proof.
  induction is as [|i r IH]; intros cur; cbn [rels_at]; [split; constructor|].
  destruct (IH (cur + item_len i)%nat) as [A B].
  assert (B' : Forall (fun p => (cur <= fst p)%nat) (rels_at (cur + item_len i) r)).
  { eapply Forall_impl; [|exact B]. intros; cbn beta in *; lia. }
  destruct i; auto. cbn [map fst item_len] in *. split.
  - constructor; auto. intros H. apply in_map_iff in H. destruct H as (q & E & Hq).
    rewrite Forall_forall in B. specialize (B q Hq). lia.
  - constructor; auto.
Qed.

Lemma mode_positions_In m l p : In p (mode_positions m l) <-> exists r, In (p, r) l /\ r_mode r = m.
Proof.
  unfold mode_positions. rewrite in_map_iff. split.
  - intros ([q r] & E & H). apply filter_In in H. destruct H as [H1 H2]. cbn in *. subst. exists r. split; auto. lia.
  - intros (r & H & E). exists (p, r). split; auto. apply filter_In. split; auto. cbn. lia.
Qed.

Lemma mode_positions_NoDup m l : NoDup (map fst l) -> NoDup (mode_positions m l).
Proof.
  unfold mode_positions. induction l as [|a l IH]; cbn [filter map]; auto.
  intros H; inversion H; subst. destruct (_ =? m); auto. cbn [map]. constructor; auto.
  intros Hin. apply H2. apply in_map_iff in Hin. destruct Hin as (q & E & Hq). apply filter_In in Hq.
  rewrite <- E. apply in_map. tauto.
Qed.

Lemma concat_positions l m p :
  In p (concat (map (fun x => mode_positions m (rels_at (Z.to_nat (snd x)) (all_items (ob_ops (fst x))))) l)) <->
  exists n r, obj_rel l n p r /\ r_mode r = m.
Proof.
  rewrite in_concat. split.
  - intros (ps & H1 & H2). apply in_map_iff in H1. destruct H1 as ([o off] & <- & Hin).
    apply In_nth_error in Hin. destruct Hin as [n Hn]. apply mode_positions_In in H2. destruct H2 as (r & Hr & Hm).
    exists n, r. split; auto. exists o, off. auto.
  - intros (n & r & (o & off & Hn & Hr) & Hm).
    exists (mode_positions m (rels_at (Z.to_nat off) (all_items (ob_ops o)))). split.
    + apply in_map_iff. exists (o, off). split; auto. eapply nth_error_In; eauto.
    + apply mode_positions_In. eauto.
Qed.

Lemma concat_positions_NoDup l m :
  (forall a b k v w, a <> b -> obj_byte l a k v -> obj_byte l b k w -> False) ->
  NoDup (concat (map (fun x => mode_positions m (rels_at (Z.to_nat (snd x)) (all_items (ob_ops (fst x))))) l)).
Proof.
  induction l as [|[o off] l IH]; intros Hd; cbn [map concat]; [constructor|].
  apply NoDup_app'.
  - apply mode_positions_NoDup, rels_sorted.
  - apply IH. intros a b k v w Hab Ha Hb. apply (Hd (S a) (S b) k v w); [lia| |]; auto.
  - intros p H1 H2. apply mode_positions_In in H1. destruct H1 as (r & H1 & _).
    apply concat_positions in H2. destruct H2 as (n & r' & H2 & _).
    assert (A : obj_rel ((o, off) :: l) 0 p r) by (exists o, off; auto).
    assert (B : obj_rel ((o, off) :: l) (S n) p r') by (destruct H2 as (o' & off' & E & H2); exists o', off'; auto).
    destruct (obj_rel_byte _ _ _ _ 0 A ltac:(lia)) as (v & Hv & _).
    destruct (obj_rel_byte _ _ _ _ 0 B ltac:(lia)) as (w & Hw & _).
    eapply (Hd 0%nat (S n)); eauto.
Qed.

(* Objects never store to the same byte. *)
Lemma placed_disjoint objs offs size a b k v w :
  all_aligned objs -> Forall (fun o => forallb op_fields_ok (ob_ops o) = true) objs ->
  alloc_objects objs = Ok (offs, size) -> a <> b ->
  obj_byte (combine objs offs) a k v -> obj_byte (combine objs offs) b k w -> False.
Proof.
  intros HA HF H Hab (o1 & f1 & N1 & L1 & B1) (o2 & f2 & N2 & L2 & B2).
  apply nth_error_combine in N1, N2. destruct N1 as [N1 T1], N2 as [N2 T2].
  unfold alloc_objects in H. destruct (forallb _ objs); [|discriminate].
  destruct (dry_runs_patterns objs HA HF) as (pats & E & Hp). rewrite E in H.
  destruct (stack_objects_spec _ _ _ H) as (_ & Al & Dis & _ & _).
  destruct (Hp _ _ N1) as (p1 & P1 & _ & C1). destruct (Hp _ _ N2) as (p2 & P2 & _ & C2).
  destruct (Al _ _ T1) as [Z1 M1]. destruct (Al _ _ T2) as [Z2 M2].
  eapply (Dis a b p1 p2 f1 f2 (Z.of_nat k) Hab); eauto. split.
  - exists ((k - Z.to_nat f1) / 4)%nat. split; [eapply C1; eauto|]. lia.
  - exists ((k - Z.to_nat f2) / 4)%nat. split; [eapply C2; eauto|]. lia.
Qed.

Lemma construct_payload_spec objs offs s :
  all_aligned objs -> construct_payload objs = Ok (offs, s) ->
  let l := combine objs offs in
  length offs = length objs /\
  (forall n k v, obj_byte l n k v -> nth_error (b_data s) k = Some v) /\
  (forall k, (k < length (b_data s))%nat -> (forall n v, ~ obj_byte l n k v) -> nth_error (b_data s) k = Some 0) /\
  (forall p, In p (b_prt s) <-> exists n r, obj_rel l n p r /\ r_mode r = 1) /\
  (forall p, In p (b_ort s) <-> exists n r, obj_rel l n p r /\ r_mode r = 4) /\
  NoDup (b_prt s) /\ NoDup (b_ort s) /\
  (forall n p r, obj_rel l n p r -> r_mode r <> 0 -> (p mod 4 = 0)%nat) /\
  (forall a b k v w, a <> b -> obj_byte l a k v -> obj_byte l b k w -> False).
Proof.
  intros HA H l. unfold construct_payload in H. bind_inv H x E. destruct x as [offs' size].
  bind_inv H s1 E1. injection H as <- <-. fold l in E1.
  destruct (write_objects_eff _ _ _ E1) as (L & D & P & O & A & FF & _). cbn [b_data b_prt b_ort app] in *.
  assert (HL : length offs' = length objs).
  { unfold alloc_objects in E. destruct (forallb _ objs); [|discriminate].
    unfold stack_objects in E. bind_inv E st0 E0. injection E as <- _. rewrite map_length.
    clear -E0. set (occs := map _ objs) in *.
    replace (length objs) with (length occs) by apply map_length.
    assert (G : forall occs s s', place_all s occs = Ok s' -> length (s_table s') = (length (s_table s) + length occs)%nat).
    { clear. induction occs as [|o r IH]; intros s s' H; cbn [place_all] in H; [injection H as <-; simpl; lia|].
      bind_inv H s1 E. apply IH in H. unfold place in E. bind_inv E l0 E1. bind_inv E sm E2.
      injection E as <-. cbn [s_table] in H. rewrite app_length in H. simpl in *. lia. }
    rewrite (G _ _ _ E0). reflexivity. }
  assert (HF : Forall (fun o => forallb op_fields_ok (ob_ops o) = true) objs).
  { rewrite Forall_forall in *. intros o Ho. apply In_nth_error in Ho. destruct Ho as [n Hn].
    destruct (nth_error offs' n) as [off|] eqn:Eo.
    - apply (FF (o, off)). eapply nth_error_In. apply nth_error_combine. eauto.
    - apply nth_error_None in Eo. apply nth_error_Some_lt in Hn. lia. }
  assert (HD : forall a b k v w, a <> b -> obj_byte l a k v -> obj_byte l b k w -> False).
  { intros. eapply placed_disjoint; eauto. }
  rewrite P, O. split; [auto|]. split; [|split; [|split; [|split; [|split; [|split; [|split]]]]]]; auto.
  - intros n k v Hb. destruct (D k) as [(m & w & Hm & Hd)|[Hno _]]; [|exfalso; eapply Hno; eauto].
    destruct (Nat.eq_dec m n) as [->|Hne]; [|exfalso; eapply HD; eauto].
    destruct Hb as (o & off & N & _ & B), Hm as (o' & off' & N' & _ & B'). rewrite N in N'. injection N' as <- <-. congruence.
  - intros k Hk Hno. destruct (D k) as [(m & w & Hm & _)|[_ Hd]]; [exfalso; eapply Hno; eauto|].
    rewrite Hd. rewrite L, repeat_length in Hk. apply nth_error_repeat; auto.
  - intros p. apply concat_positions.
  - intros p. apply concat_positions.
  - apply concat_positions_NoDup; auto.
  - apply concat_positions_NoDup; auto.
Qed.
