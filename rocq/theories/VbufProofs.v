From Coq Require Import ZArith Lia Bool List ZifyBool ZifyNat.
From Verif Require Import Lib AllocModel PayloadModel PayloadSpec PayloadProofs VbufModel.
Import ListNotations.
Open Scope Z_scope.

(* ---------- flat view of writes ---------- *)
Definition flat (i : item) : list (option Z) :=
  match i with
  | IB bs => map Some bs
  | IR r => map Some (le_bytes 4 (r_off r))
  | IS n => repeat None n
  end.
Definition flats (l : list item) : list (option Z) := flat_map flat l.
Definition wflat (ops : list wop) : list (option Z) := flats (all_items ops).

Lemma flat_len i : length (flat i) = item_len i.
Proof. destruct i; cbn [flat item_len]; rewrite ?map_length, ?repeat_length, ?le_bytes_length; auto. Qed.

Lemma byte_at_flat l : forall k, byte_at l k = nth k (flats l) None.
Proof.
  induction l as [|i l IH]; intros k; cbn [byte_at flats flat_map]; [destruct k; reflexivity|].
  destruct (Nat.ltb_spec k (item_len i)).
  - rewrite app_nth1 by (rewrite flat_len; auto). destruct i as [bs|r|n]; cbn [item_byte flat].
    + revert bs H; induction k; intros [|b bs] H; cbn in *; auto; try lia. apply IHk. cbn in *; lia.
    + cbn in H. do 4 (destruct k as [|k]; [reflexivity|]). lia.
    + symmetry. apply nth_repeat.
  - rewrite app_nth2 by (rewrite flat_len; auto). rewrite flat_len. apply IH.
Qed.

Lemma flats_app a b : flats (a ++ b) = flats a ++ flats b.
Proof. apply flat_map_app. Qed.
Lemma all_items_app a b : all_items (a ++ b) = all_items a ++ all_items b.
Proof. unfold all_items. rewrite map_app, concat_app. reflexivity. Qed.
Lemma wflat_app a b : wflat (a ++ b) = wflat a ++ wflat b.
Proof. unfold wflat. rewrite all_items_app, flats_app. reflexivity. Qed.
Lemma wflat_cons o b : wflat (o :: b) = flats (items o) ++ wflat b.
Proof. unfold wflat, all_items. cbn [map concat]. apply flats_app. Qed.
Lemma wflat_bytes bs : wflat [WBytes bs] = map Some bs.
Proof. unfold wflat, all_items, flats. cbn. rewrite !app_nil_r. reflexivity. Qed.
Lemma wflat_dword z : wflat [wdword z] = map Some (le_bytes 4 z).
Proof. reflexivity. Qed.
Lemma wflat_concat l : wflat (concat l) = concat (map wflat l).
Proof. induction l; cbn [concat map]; auto. rewrite wflat_app, IHl. reflexivity. Qed.

Lemma put_app a b p bs : (length a <= p)%nat -> put (a ++ b) p bs = a ++ put b (p - length a) bs.
Proof.
  intros H. unfold put. rewrite firstn_app, skipn_app.
  rewrite firstn_all2 by lia. rewrite (skipn_all2 a) by lia. cbn [app].
  rewrite <- app_assoc. do 3 f_equal. f_equal. lia.
Qed.
Lemma put_app1 a b p bs : (p + length bs <= length a)%nat -> put (a ++ b) p bs = put a p bs ++ b.
Proof.
  intros H. unfold put. rewrite firstn_app, skipn_app.
  replace (p - length a)%nat with O by lia. replace (p + length bs - length a)%nat with O by lia.
  cbn [firstn skipn]. rewrite app_nil_r, <- !app_assoc. reflexivity.
Qed.
Lemma put_length a p bs : (p + length bs <= length a)%nat -> length (put a p bs) = length a.
Proof. intros H. unfold put. rewrite !app_length, firstn_length, skipn_length. lia. Qed.
Lemma put_nth a p bs k d : (p + length bs <= length a)%nat ->
  nth k (put a p bs) d = if (p <=? k)%nat && (k <? p + length bs)%nat then nth (k - p) bs d else nth k a d.
Proof.
  intros H. unfold put.
  destruct (Nat.leb_spec p k), (Nat.ltb_spec k (p + length bs)); cbn [andb].
  - rewrite app_nth2; rewrite firstn_length; [|lia]. rewrite app_nth1 by lia. f_equal. lia.
  - rewrite app_nth2; rewrite firstn_length; [|lia]. rewrite app_nth2 by lia.
    rewrite nth_skipn. f_equal. lia.
  - rewrite app_nth1 by (rewrite firstn_length; lia). apply nth_firstn. lia.
  - lia.
Qed.

(* ---------- EUDVarBuffer ---------- *)
Definition vb_block (z : Z) : list Z := put vb_template 20 (le_bytes 4 z).
Lemma vb_template_length : length vb_template = 72%nat. Proof. reflexivity. Qed.
Lemma vb_block_0 : vb_block 0 = vb_template. Proof. reflexivity. Qed.
Lemma vb_block_length z : length (vb_block z) = 72%nat. Proof. reflexivity. Qed.
Lemma vb_block_split z : vb_block z = firstn 20 vb_template ++ le_bytes 4 z ++ skipn 24 vb_template.
Proof. reflexivity. Qed.

Definition vb_blocks (vals : list ival) : list Z := concat (map (fun v => vb_block (ival_val v)) vals).
Lemma vb_blocks_length vals : length (vb_blocks vals) = (72 * length vals)%nat.
Proof.
  unfold vb_blocks. rewrite (concat_blocks_length _ 72).
  - rewrite map_length. lia.
  - apply Forall_forall. intros b Hb. apply in_map_iff in Hb. destruct Hb as (v & <- & _). apply vb_block_length.
Qed.

Lemma vb_loop_ok vals : forall i X B out heads ws A,
  out = X ++ B ++ concat (repeat vb_template (length vals)) ->
  length X = heads -> length A = heads -> (heads + length B = i * 72)%nat ->
  wflat ws = map Some A ->
  let '(out', heads', ws') := vb_loop i vals out heads ws in
  wflat (ws' ++ [WBytes (skipn heads' out')]) = map Some (A ++ B ++ vb_blocks vals).
Proof.
  induction vals as [|v vals IH]; intros i X B out heads ws A Ho HX HA HB Hw.
  - cbn [vb_loop]. rewrite wflat_app, wflat_bytes, Hw. cbn [length repeat concat] in Ho. rewrite app_nil_r in Ho.
    unfold vb_blocks. cbn [map concat]. rewrite app_nil_r, map_app. do 2 f_equal.
    rewrite Ho, skipn_app, skipn_all2 by lia. cbn [app]. replace (heads - length X)%nat with O by lia. reflexivity.
  - cbn [length repeat concat] in Ho. cbn [vb_loop].
    set (tmpl := concat (repeat vb_template (length vals))) in *.
    change (vb_blocks (v :: vals)) with (vb_block (ival_val v) ++ vb_blocks vals).
    destruct (ival_is v 0) eqn:E0.
    + assert (Ev : ival_val v = 0) by (destruct v; cbn [ival_is ival_val] in *; [apply Z.eqb_eq; exact E0|discriminate]).
      rewrite Ev, vb_block_0.
      specialize (IH (S i) X (B ++ vb_template) out heads ws A).
      destruct (vb_loop (S i) vals out heads ws) as [[o' h'] w'].
      rewrite IH; auto.
      * rewrite <- !app_assoc. reflexivity.
      * rewrite Ho, <- !app_assoc. reflexivity.
      * rewrite app_length, vb_template_length. lia.
    + destruct v as [z|z]; cbn [ival_val].
      * specialize (IH (S i) X (B ++ vb_block z) (put out (i * 72 + 20) (le_bytes 4 z)) heads ws A).
        destruct (vb_loop (S i) vals _ heads ws) as [[o' h'] w'].
        rewrite IH; auto.
        -- rewrite <- !app_assoc. reflexivity.
        -- rewrite Ho. rewrite put_app by lia. f_equal. rewrite put_app by lia. rewrite <- app_assoc. f_equal.
           replace (i * 72 + 20 - length X - length B)%nat with 20%nat by lia.
           rewrite put_app1; [reflexivity|]. rewrite vb_template_length, le_bytes_length. lia.
        -- rewrite app_length, vb_block_length. lia.
      * specialize (IH (S i) (firstn (i * 72 + 24) out) (skipn 24 vb_template) out (i * 72 + 20 + 4)%nat
                      (ws ++ [WBytes (slice out heads (i * 72 + 20)); wdword z])
                      (A ++ B ++ firstn 20 vb_template ++ le_bytes 4 z)).
        destruct (vb_loop (S i) vals out _ _) as [[o' h'] w'].
        assert (Hlen : (i * 72 + 72 <= length out)%nat).
        { rewrite Ho, !app_length, vb_template_length. lia. }
        rewrite IH; auto.
        -- rewrite vb_block_split, <- !app_assoc. reflexivity.
        -- rewrite <- (firstn_skipn (i * 72 + 24) out) at 1. f_equal.
           rewrite Ho, !skipn_app, !skipn_all2 by lia. cbn [app].
           replace (i * 72 + 24 - length X - length B)%nat with 24%nat by lia.
           rewrite vb_template_length. reflexivity.
        -- rewrite firstn_length. lia.
        -- rewrite !app_length, firstn_length, le_bytes_length, vb_template_length. lia.
        -- rewrite skipn_length, vb_template_length. lia.
        -- rewrite wflat_app, Hw. change [WBytes (slice out heads (i * 72 + 20)); wdword z] with
             ([WBytes (slice out heads (i * 72 + 20))] ++ [wdword z]).
           rewrite wflat_app, wflat_bytes, wflat_dword, !map_app. rewrite <- ?app_assoc. f_equal.
           rewrite app_assoc. f_equal. rewrite <- map_app. f_equal.
           unfold slice. rewrite Ho, skipn_app, skipn_all2 by lia. cbn [app].
           replace (heads - length X)%nat with O by lia. cbn [skipn].
           rewrite firstn_app. rewrite firstn_all2 by lia. f_equal.
           replace (i * 72 + 20 - heads - length B)%nat with 20%nat by lia. reflexivity.
Qed.

Lemma vb_flat vals : wflat (vb_ops vals) = wflat vb_head ++ map Some (vb_blocks vals) ++ wflat vb_tail.
Proof.
  unfold vb_ops. pose proof (vb_loop_ok vals 0 [] [] (concat (repeat vb_template (length vals))) 0 [] []) as H.
  destruct (vb_loop 0 vals _ 0 []) as [[out heads] ws]. rewrite wflat_app. f_equal.
  rewrite app_assoc, wflat_app. rewrite H; auto.
Qed.

Lemma vb_head_len : length (wflat vb_head) = Z.to_nat 324. Proof. vm_compute. reflexivity. Qed.

Lemma vb_bytes_block vals i j : (i < length vals)%nat -> (j < 72)%nat ->
  byte_at (all_items (vb_ops vals)) (324 + i * 72 + j) = nth_error (vb_block (ival_val (nth i vals (VInt 0)))) j.
Proof.
  intros Hi Hj. rewrite byte_at_flat. change (flats (all_items (vb_ops vals))) with (wflat (vb_ops vals)).
  rewrite vb_flat. pose proof vb_head_len. rewrite app_nth2 by lia.
  rewrite app_nth1 by (rewrite map_length, vb_blocks_length; lia).
  replace (324 + i * 72 + j - length (wflat vb_head))%nat with (i * 72 + j)%nat by lia.
  rewrite nth_indep with (d' := Some 0) by (rewrite map_length, vb_blocks_length; lia).
  rewrite map_nth. unfold vb_blocks. rewrite (nth_concat_blocks _ 72); auto.
  - rewrite nth_indep with (d' := vb_block (ival_val (VInt 0))) by (rewrite map_length; lia).
    rewrite (map_nth (fun v => vb_block (ival_val v))).
    symmetry. apply nth_error_nth'. rewrite vb_block_length. exact Hj.
  - apply Forall_forall. intros b Hb. apply in_map_iff in Hb. destruct Hb as (v & <- & _). apply vb_block_length.
Qed.

Lemma vb_bytes_head vals i j : (i < 5)%nat -> (j < 20)%nat ->
  byte_at (all_items (vb_ops vals)) (i * 72 + j) = if (j <? 4)%nat || (j =? 19)%nat then Some 0 else None.
Proof.
  intros Hi Hj. rewrite byte_at_flat. change (flats (all_items (vb_ops vals))) with (wflat (vb_ops vals)).
  rewrite vb_flat. rewrite app_nth1 by (rewrite vb_head_len; lia).
  do 5 (destruct i as [|i]; [do 20 (destruct j as [|j]; [vm_compute; reflexivity|]); lia|]). lia.
Qed.

Lemma nth_repeat_blocks {A} n (b : list A) w i j d : length b = w -> (j < w)%nat -> (i < n)%nat ->
  nth (i * w + j) (concat (repeat b n)) d = nth j b d.
Proof.
  intros Hb Hj Hi. rewrite (nth_concat_blocks _ w); auto.
  - rewrite nth_indep with (d' := b) by (rewrite repeat_length; auto). rewrite nth_repeat. reflexivity.
  - apply Forall_forall. intros x Hx. apply repeat_spec in Hx. subst. auto.
Qed.

Lemma vb_tail_flat : wflat vb_tail =
  (repeat None 32 ++ map Some [4;0;0;0] ++ repeat None 27 ++ [Some 0]) ++
  concat (repeat (repeat None 40 ++ map Some [4;0;0;0] ++ repeat None 27 ++ [Some 0]) 27).
Proof. unfold vb_tail. rewrite wflat_app, wflat_concat. f_equal. Qed.

Lemma vb_bytes_tail vals i j : (i < 28)%nat -> (j < 4)%nat ->
  byte_at (all_items (vb_ops vals)) (324 + (length vals + i) * 72 + 32 + j) = nth_error [4;0;0;0] j.
Proof.
  intros Hi Hj. rewrite byte_at_flat. change (flats (all_items (vb_ops vals))) with (wflat (vb_ops vals)).
  rewrite vb_flat. pose proof vb_head_len. rewrite app_nth2 by lia.
  rewrite app_nth2 by (rewrite map_length, vb_blocks_length; lia).
  rewrite map_length, vb_blocks_length.
  replace (324 + (length vals + i) * 72 + 32 + j - length (wflat vb_head) - 72 * length vals)%nat
    with (i * 72 + 32 + j)%nat by lia.
  rewrite vb_tail_flat. destruct i as [|i].
  - rewrite app_nth1 by (cbn; lia). do 4 (destruct j as [|j]; [reflexivity|]). lia.
  - rewrite app_nth2 by (cbn [app length repeat map]; lia).
    replace (_ - _)%nat with (i * 72 + (40 + j))%nat.
    + rewrite nth_repeat_blocks; [|reflexivity|lia|lia].
      do 4 (destruct j as [|j]; [reflexivity|]). lia.
    + cbn [app length repeat map]. lia.
Qed.

Lemma vb_total vals : items_len (all_items (vb_ops vals)) = (2332 + 72 * length vals)%nat.
Proof.
  assert (H : forall l, length (flats l) = items_len l).
  { induction l as [|i l IH]; cbn [flats flat_map items_len]; auto. rewrite app_length, flat_len. fold (flats l). lia. }
  rewrite <- H. change (flats (all_items (vb_ops vals))) with (wflat (vb_ops vals)).
  rewrite vb_flat, !app_length, map_length, vb_blocks_length. pose proof vb_head_len.
  assert (length (wflat vb_tail) = Z.to_nat 2008) by (vm_compute; reflexivity). lia.
Qed.

(* ---------- EUDJumpBuffer ---------- *)
Definition zero4 := map (@Some Z) [0;0;0;0].
Definition eight4 := map (@Some Z) [8;0;0;0].
Definition jA (p : Z) := map Some (le_bytes 4 p) ++ repeat None 12 ++ zero4.
Definition jB (p : Z) := map Some (le_bytes 4 p) ++ repeat None 4 ++ zero4 ++ repeat None 4 ++ zero4.
Definition jC (p : Z) := map Some (le_bytes 4 p) ++ repeat None 4 ++ zero4 ++ eight4 ++ zero4.
Definition jb_blocks (ptrs : list Z) : list (list (option Z)) :=
  map jA (firstn 17 ptrs) ++ map jB (firstn 101 (skipn 17 ptrs)) ++ map jC (skipn 118 ptrs).
Definition jT1 := repeat (@None Z) 12 ++ zero4 ++ eight4.
Definition jT2 := repeat (@None Z) 16 ++ eight4.
Definition jb_tail_flat := (repeat (@None Z) 8 ++ zero4 ++ eight4) ++ concat (repeat jT1 16) ++ concat (repeat jT2 101).

Lemma wflat_flat_map (f : Z -> list wop) g l : (forall x, wflat (f x) = g x) -> wflat (flat_map f l) = concat (map g l).
Proof. intros H. induction l; cbn [flat_map map concat]; auto. rewrite wflat_app, IHl, H. reflexivity. Qed.

Lemma jb_flat ptrs : wflat (jb_ops ptrs) = concat (jb_blocks ptrs) ++ jb_tail_flat.
Proof.
  unfold jb_ops, jb_blocks. rewrite !wflat_app, !concat_app, <- !app_assoc.
  rewrite (wflat_flat_map jb_a jA), (wflat_flat_map jb_b jB), (wflat_flat_map jb_c jC) by reflexivity.
  change (118 - 17)%nat with 101%nat.
  assert (HT : wflat jb_tail = jb_tail_flat) by (vm_compute; reflexivity).
  rewrite HT. reflexivity.
Qed.

Lemma jb_blocks_len ptrs : length (jb_blocks ptrs) = length ptrs.
Proof.
  unfold jb_blocks. rewrite !app_length, !map_length, !firstn_length, !skipn_length. lia.
Qed.
Lemma jb_blocks_20 ptrs : Forall (fun b => length b = 20%nat) (jb_blocks ptrs).
Proof.
  unfold jb_blocks. apply Forall_app. split; [|apply Forall_app; split]; apply Forall_forall; intros b Hb;
    apply in_map_iff in Hb; destruct Hb as (p & <- & _); reflexivity.
Qed.
Lemma jb_block_nth ptrs i : (i < length ptrs)%nat ->
  let p := nth i ptrs 0 in
  nth i (jb_blocks ptrs) [] = if (i <? 17)%nat then jA p else if (i <? 118)%nat then jB p else jC p.
Proof.
  intros Hi p. unfold jb_blocks.
  destruct (Nat.ltb_spec i 17).
  - rewrite app_nth1 by (rewrite map_length, firstn_length; lia).
    rewrite nth_indep with (d' := jA 0) by (rewrite map_length, firstn_length; lia).
    rewrite map_nth, nth_firstn by lia. reflexivity.
  - rewrite app_nth2; rewrite map_length, firstn_length; [|lia].
    destruct (Nat.ltb_spec i 118).
    + rewrite app_nth1 by (rewrite map_length, firstn_length, skipn_length; lia).
      rewrite nth_indep with (d' := jB 0) by (rewrite map_length, firstn_length, skipn_length; lia).
      rewrite map_nth, nth_firstn by lia. rewrite nth_skipn. unfold p. do 2 f_equal. lia.
    + rewrite app_nth2; rewrite map_length, firstn_length, skipn_length; [|lia].
      rewrite nth_indep with (d' := jC 0) by (rewrite map_length, skipn_length; lia).
      rewrite map_nth, nth_skipn. unfold p. do 2 f_equal. lia.
Qed.

Lemma jb_byte_block ptrs i j : (i < length ptrs)%nat -> (j < 20)%nat ->
  byte_at (all_items (jb_ops ptrs)) (i * 20 + j) = nth j (nth i (jb_blocks ptrs) []) None.
Proof.
  intros Hi Hj. rewrite byte_at_flat. change (flats (all_items (jb_ops ptrs))) with (wflat (jb_ops ptrs)).
  rewrite jb_flat. rewrite app_nth1.
  - apply nth_concat_blocks; auto. apply jb_blocks_20.
  - rewrite (concat_blocks_length _ 20) by apply jb_blocks_20. rewrite jb_blocks_len. lia.
Qed.
Lemma jb_byte_tail ptrs i j : (8 <= j < 20)%nat -> 
  byte_at (all_items (jb_ops ptrs)) ((length ptrs + i) * 20 + j) = nth (i * 20 + j) jb_tail_flat None.
Proof.
  intros Hj. rewrite byte_at_flat. change (flats (all_items (jb_ops ptrs))) with (wflat (jb_ops ptrs)).
  rewrite jb_flat. rewrite app_nth2; rewrite (concat_blocks_length _ 20) by apply jb_blocks_20; rewrite jb_blocks_len.
  - f_equal. lia.
  - lia.
Qed.
Lemma jb_tail_act i j : (i < 17)%nat -> (8 <= j < 12)%nat -> nth (i * 20 + j) jb_tail_flat None = Some 0.
Proof.
  intros Hi Hj. unfold jb_tail_flat. destruct i as [|i].
  - rewrite app_nth1 by (cbn; lia). do 12 (destruct j as [|j]; [try reflexivity; lia|]). lia.
  - rewrite app_nth2 by (cbn; lia). rewrite app_nth1.
    + replace (S i * 20 + j - _)%nat with (i * 20 + (j + 4))%nat by (cbn; lia).
      rewrite nth_repeat_blocks; [|reflexivity|lia|lia]. do 12 (destruct j as [|j]; [try reflexivity; lia|]). lia.
    + rewrite (concat_blocks_length _ 20); [rewrite repeat_length; cbn; lia|].
      apply Forall_forall. intros x Hx. apply repeat_spec in Hx. subst. reflexivity.
Qed.
Lemma jb_tail_flags i j : (i < 118)%nat -> (j < 4)%nat -> nth (i * 20 + (12 + j)) jb_tail_flat None = nth_error [8;0;0;0] j.
Proof.
  intros Hi Hj. unfold jb_tail_flat. destruct i as [|i].
  - rewrite app_nth1 by (cbn; lia). do 4 (destruct j as [|j]; [reflexivity|]). lia.
  - rewrite app_nth2 by (cbn; lia).
    assert (HL : length (concat (repeat jT1 16)) = Z.to_nat 320) by (vm_compute; reflexivity).
    replace (S i * 20 + (12 + j) - _)%nat with (i * 20 + (16 + j))%nat by (cbn; lia).
    destruct (Nat.ltb_spec i 16).
    + rewrite app_nth1 by lia. rewrite nth_repeat_blocks; [|reflexivity|lia|lia].
      do 4 (destruct j as [|j]; [reflexivity|]). lia.
    + rewrite app_nth2 by lia.
      replace (_ - _)%nat with ((i - 16) * 20 + (16 + j))%nat by lia.
      rewrite nth_repeat_blocks; [|reflexivity|lia|lia].
      do 4 (destruct j as [|j]; [reflexivity|]). lia.
Qed.
Lemma jb_total ptrs : items_len (all_items (jb_ops ptrs)) = (2356 + 20 * length ptrs)%nat.
Proof.
  assert (H : forall l, length (flats l) = items_len l).
  { induction l as [|i l IH]; cbn [flats flat_map items_len]; auto. rewrite app_length, flat_len. fold (flats l). lia. }
  rewrite <- H. change (flats (all_items (jb_ops ptrs))) with (wflat (jb_ops ptrs)).
  rewrite jb_flat, app_length, (concat_blocks_length _ 20), jb_blocks_len by apply jb_blocks_20.
  assert (length jb_tail_flat = Z.to_nat 2356) by (vm_compute; reflexivity). lia.
Qed.
