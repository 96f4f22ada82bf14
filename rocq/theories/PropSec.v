(* C49: a map trigger stored in the payload keeps its conditions and actions. *)
From Coq Require Import ZArith List Bool Lia ZifyBool ZifyNat.
From Verif Require Import Word AllocModel PayloadModel PayloadSpec PayloadProofs PackModel SecModel.
Import ListNotations.
Open Scope Z_scope.

(* ---------- specification: how the game reads a trigger ---------- *)
(* entries of [size] bytes from [pos], at most n, up to the first whose type byte is 0 *)
Fixpoint read_list (n : nat) (m : nat -> Z) (pos size ty : nat) : list (list Z) :=
  match n with
  | O => []
  | S n => if m (pos + ty)%nat =? 0 then [] else map m (seq pos size) :: read_list n m (pos + size) size ty
  end.
Definition type_at (ty : nat) (e : list Z) : Z := nth ty e 0.
(* byte 29 of an action is unused *)
Definition clear29 (e : list Z) : list Z := firstn 29 e ++ [0] ++ skipn 30 e.
Definition is_bytes (t : bytes) : Prop := length t = Z.to_nat 2400 /\ Forall (fun b => 0 <= b < 256) t.
(* no entry of type 0 before a used one *)
Definition no_hole (n : nat) (m : nat -> Z) (pos size ty : nat) : Prop :=
  forall i j, (i < j < n)%nat -> m (pos + size * i + ty)%nat = 0 -> m (pos + size * j + ty)%nat = 0.

(* ---------- proof ---------- *)
Definition entry (m : nat -> Z) (pos size i : nat) : list Z := map m (seq (pos + size * i) size).
Lemma read_known m size ty : (ty < size)%nat -> forall es n pos,
  (length es <= n)%nat ->
  (forall j e, nth_error es j = Some e -> map m (seq (pos + size * j) size) = e /\ type_at ty e <> 0) ->
  ((length es < n)%nat -> m (pos + size * length es + ty)%nat = 0) ->
  read_list n m pos size ty = es.
Proof.
  intros Hty es. induction es as [|e es IH]; intros n pos Hn He Ht.
  - destruct n; [reflexivity|]. cbn [read_list length] in *. specialize (Ht ltac:(lia)).
    replace (pos + size * 0 + ty)%nat with (pos + ty)%nat in Ht by lia. rewrite Ht. reflexivity.
  - destruct n; cbn [length] in Hn; [lia|]. cbn [read_list].
    destruct (He 0%nat e eq_refl) as [E1 E2]. replace (pos + size * 0)%nat with pos in E1 by lia.
    assert (T : m (pos + ty)%nat = type_at ty e).
    { unfold type_at. rewrite <- E1. rewrite (nth_indep _ 0 (m 0%nat)) by (rewrite map_length, seq_length; lia).
      rewrite map_nth, seq_nth by lia. reflexivity. }
    rewrite T. destruct (Z.eqb_spec (type_at ty e) 0); [contradiction|]. rewrite E1. f_equal. apply IH.
    + lia.
    + intros j e' Hj. specialize (He (S j) e' Hj). replace (pos + size * S j)%nat with (pos + size + size * j)%nat in He by lia. exact He.
    + intros Hl. cbn [length] in Ht. specialize (Ht ltac:(lia)). replace (pos + size * S (length es) + ty)%nat with (pos + size + size * length es + ty)%nat in Ht by lia. exact Ht.
Qed.
(* the original list *)
Lemma read_plain m size ty : (ty < size)%nat -> forall n pos k, no_hole n (fun x => m (x + size * k)%nat) pos size ty ->
  read_list n m (pos + size * k) size ty = map (entry m pos size) (filter (fun i => negb (m (pos + size * i + ty)%nat =? 0)) (seq k n)).
Proof.
  intros Hty. induction n as [|n IH]; intros pos k H; [reflexivity|]. cbn [read_list seq filter].
  destruct (Z.eqb_spec (m (pos + size * k + ty)%nat) 0) as [E|E]; cbn [negb].
  - symmetry. replace (filter _ (seq (S k) n)) with (@nil nat); [reflexivity|]. symmetry.
    assert (Q : forall l, (forall i, In i l -> m (pos + size * i + ty)%nat = 0) -> filter (fun i => negb (m (pos + size * i + ty)%nat =? 0)) l = []).
    { induction l as [|a l IHl]; intros Hl; [reflexivity|]. cbn [filter]. rewrite (Hl a) by (left; auto). cbn. apply IHl. intros; apply Hl; right; auto. }
    apply Q. intros i Hi. apply in_seq in Hi.
    specialize (H 0%nat (i - k)%nat ltac:(lia)). cbn beta in H.
    replace (pos + size * 0 + ty + size * k)%nat with (pos + size * k + ty)%nat in H by lia.
    replace (pos + size * (i - k) + ty + size * k)%nat with (pos + size * i + ty)%nat in H by nia. auto.
  - cbn [map]. f_equal. replace (pos + size * k + size)%nat with (pos + size * S k)%nat by lia. apply IH.
    intros i j Hij Hi. specialize (H (S i) (S j) ltac:(lia)). cbn beta in *.
    replace (pos + size * S i + ty + size * k)%nat with (pos + size * i + ty + size * S k)%nat in H by lia.
    replace (pos + size * S j + ty + size * k)%nat with (pos + size * j + ty + size * S k)%nat in H by lia. auto.
Qed.

(* bytes of packed fields *)
Definition field_bytes (f : Z * rloc) : list Z := le_bytes (Z.to_nat (fst f)) (r_off (snd f)).
Definition pack_bytes (fs : list (Z * rloc)) : list Z := flat_map field_bytes fs.
Lemma item_bytes f k : field_ok f = true -> byte_at [field_item f] k = nth_error (field_bytes f) k.
Proof.
  intros H. unfold field_ok in H. destruct f as [sz r]. cbn [fst snd] in *. unfold field_item, field_bytes. cbn [fst snd].
  destruct (Z.eqb_spec sz 4) as [->|Hn]; cbn [byte_at item_len item_byte].
  - destruct (Nat.ltb_spec k 4); [reflexivity|]. symmetry. apply nth_error_None. rewrite le_bytes_length. exact H0.
  - rewrite le_bytes_length. destruct (Nat.ltb_spec k (Z.to_nat sz)); [reflexivity|]. symmetry. apply nth_error_None. rewrite le_bytes_length. exact H0.
Qed.
Lemma field_len f : field_ok f = true -> item_len (field_item f) = length (field_bytes f).
Proof.
  intros H. unfold field_ok in H. unfold field_item, field_bytes. rewrite le_bytes_length. destruct f as [sz r]. cbn [fst snd] in *.
  destruct (Z.eqb_spec sz 4) as [->|Hn]; [reflexivity|]. cbn [item_len]. apply le_bytes_length.
Qed.
Lemma pack_at fs k : forallb field_ok fs = true -> byte_at (map field_item fs) k = nth_error (pack_bytes fs) k /\ items_len (map field_item fs) = length (pack_bytes fs).
Proof.
  revert k. induction fs as [|f fs IH]; intros k H; cbn [map pack_bytes flat_map].
  - cbn. destruct k; auto.
  - cbn [forallb] in H. apply andb_true_iff in H. destruct H as [H1 H2]. fold (pack_bytes fs).
    cbn [byte_at items_len]. rewrite (field_len f H1), app_length. split.
    + destruct (Nat.ltb_spec k (length (field_bytes f))).
      * rewrite nth_error_app1 by auto. rewrite <- item_bytes by auto. cbn [byte_at]. rewrite (field_len f H1).
        destruct (Nat.ltb_spec k (length (field_bytes f))); [reflexivity|lia].
      * rewrite nth_error_app2 by auto. apply IH. auto.
    + rewrite (proj2 (IH 0%nat H2)). reflexivity.
Qed.
Lemma packs_at cs sz : forallb (forallb field_ok) cs = true -> (forall c, In c cs -> length (pack_bytes c) = sz) ->
  items_len (concat (map (map field_item) cs)) = (sz * length cs)%nat /\
  forall j c o, nth_error cs j = Some c -> (o < sz)%nat -> byte_at (concat (map (map field_item) cs)) (sz * j + o) = nth_error (pack_bytes c) o.
Proof.
  induction cs as [|c cs IH]; intros H L.
  - split; [cbn; lia|]. intros [|j] c o Hc; discriminate Hc.
  - cbn [forallb] in H. apply andb_true_iff in H. destruct H as [H1 H2]. cbn [map concat].
    destruct (IH H2 (fun c Hc => L c (or_intror Hc))) as [I1 I2]. pose proof (L c (or_introl eq_refl)) as Lc.
    destruct (pack_at c 0 H1) as [_ P]. rewrite items_len_app, P, I1, Lc. split; [cbn [length]; lia|].
    intros j d o Hj Ho. rewrite byte_at_app, P, Lc. destruct j as [|j].
    + injection Hj as ->. destruct (Nat.ltb_spec (sz * 0 + o) sz); [|lia]. replace (sz * 0 + o)%nat with o by lia. apply pack_at. auto.
    + destruct (Nat.ltb_spec (sz * S j + o) sz); [nia|]. replace (sz * S j + o - sz)%nat with (sz * j + o)%nat by nia. apply I2; auto.
Qed.

(* positions in a written trigger *)
Section Trig.
Variables (prev next flags0 : rloc) (cs acts : list (list (Z * rloc))).
Hypotheses (Hc : (length cs <= 16)%nat) (Ha : (length acts <= 64)%nat)
  (Fc : forallb (forallb field_ok) cs = true) (Fa : forallb (forallb field_ok) acts = true)
  (Lc : forall c, In c cs -> length (pack_bytes c) = 20%nat) (La : forall a, In a acts -> length (pack_bytes a) = 32%nat).
Let its := items (WTrigger prev next cs acts flags0).
Lemma trig_cond j c o : nth_error cs j = Some c -> (o < 20)%nat -> byte_at its (8 + (20 * j + o)) = nth_error (pack_bytes c) o.
Proof using All.
  intros Hj Ho. unfold its. cbn [items]. destruct (packs_at cs 20 Fc Lc) as [L P].
  assert (j < length cs)%nat by (apply nth_error_Some; congruence).
  rewrite byte_at_app. cbn [items_len item_len]. destruct (Nat.ltb_spec (8 + (20 * j + o)) (4 + (4 + 0))); [lia|].
  replace (8 + (20 * j + o) - (4 + (4 + 0)))%nat with (20 * j + o)%nat by lia.
  rewrite byte_at_app, L. destruct (Nat.ltb_spec (20 * j + o) (20 * length cs)); [|lia]. apply P; auto.
Qed.
Lemma trig_cond_end o : (length cs < 16)%nat -> (o < 20)%nat -> byte_at its (8 + (20 * length cs + o)) = Some 0.
Proof using All.
  intros Hl Ho. unfold its. cbn [items]. destruct (packs_at cs 20 Fc Lc) as [L P].
  rewrite byte_at_app. cbn [items_len item_len]. destruct (Nat.ltb_spec (8 + (20 * length cs + o)) (4 + (4 + 0))); [lia|].
  rewrite byte_at_app, L. destruct (Nat.ltb_spec (8 + (20 * length cs + o) - (4 + (4 + 0))) (20 * length cs)); [lia|].
  replace (8 + (20 * length cs + o) - (4 + (4 + 0)) - 20 * length cs)%nat with o by lia.
  rewrite byte_at_app. destruct (Nat.ltb_spec (length cs) 16); [|lia]. cbn [items_len item_len]. rewrite repeat_length.
  destruct (Nat.ltb_spec o (20 + (20 * (15 - length cs) + 0))); [|lia]. cbn [byte_at item_len item_byte]. rewrite repeat_length.
  destruct (Nat.ltb_spec o 20); [|lia]. apply nth_error_repeat. auto.
Qed.
Lemma conds_len : items_len (concat (map (map field_item) cs) ++ (if Nat.ltb (length cs) 16 then [IB (repeat 0 20); IS (20 * (15 - length cs))] else [])) = 320%nat.
Proof using All.
  destruct (packs_at cs 20 Fc Lc) as [L _]. rewrite items_len_app, L. destruct (Nat.ltb_spec (length cs) 16); cbn [items_len item_len]; rewrite ?repeat_length; lia.
Qed.
Lemma trig_from_acts x : (328 <= x)%nat -> byte_at its x = byte_at (concat (map (map field_item) acts)
      ++ (if Nat.ltb (length acts) 64 then [IB (repeat 0 32); IS (32 * (63 - length acts))] else [])
      ++ [IR flags0; IS 27; IB [0]]) (x - 328).
Proof using All.
  intros Hx. unfold its. cbn [items]. rewrite byte_at_app. cbn [items_len item_len]. destruct (Nat.ltb_spec x (4 + (4 + 0))); [lia|].
  rewrite app_assoc, byte_at_app, conds_len. destruct (Nat.ltb_spec (x - (4 + (4 + 0))) 320); [lia|]. f_equal. lia.
Qed.
Lemma trig_act j a o : nth_error acts j = Some a -> (o < 32)%nat -> byte_at its (328 + (32 * j + o)) = nth_error (pack_bytes a) o.
Proof using All.
  intros Hj Ho. rewrite trig_from_acts by lia. destruct (packs_at acts 32 Fa La) as [L P].
  assert (j < length acts)%nat by (apply nth_error_Some; congruence).
  replace (328 + (32 * j + o) - 328)%nat with (32 * j + o)%nat by lia.
  rewrite byte_at_app, L. destruct (Nat.ltb_spec (32 * j + o) (32 * length acts)); [|lia]. apply P; auto.
Qed.
Lemma trig_act_end o : (length acts < 64)%nat -> (o < 32)%nat -> byte_at its (328 + (32 * length acts + o)) = Some 0.
Proof using All.
  intros Hl Ho. rewrite trig_from_acts by lia. destruct (packs_at acts 32 Fa La) as [L P].
  rewrite byte_at_app, L. destruct (Nat.ltb_spec (328 + (32 * length acts + o) - 328) (32 * length acts)); [lia|].
  replace (328 + (32 * length acts + o) - 328 - 32 * length acts)%nat with o by lia.
  rewrite byte_at_app. destruct (Nat.ltb_spec (length acts) 64); [|lia]. cbn [items_len item_len]. rewrite repeat_length.
  destruct (Nat.ltb_spec o (32 + (32 * (63 - length acts) + 0))); [|lia]. cbn [byte_at item_len item_byte]. rewrite repeat_length.
  destruct (Nat.ltb_spec o 32); [|lia]. apply nth_error_repeat. auto.
Qed.
Lemma trig_flags o : (o < 4)%nat -> byte_at its (328 + 32 * 64 + o) = nth_error (le_bytes 4 (r_off flags0)) o.
Proof using All.
  intros Ho. rewrite trig_from_acts by lia. destruct (packs_at acts 32 Fa La) as [L P].
  assert (L2 : items_len (concat (map (map field_item) acts) ++ (if Nat.ltb (length acts) 64 then [IB (repeat 0 32); IS (32 * (63 - length acts))] else [])) = (32 * 64)%nat).
  { rewrite items_len_app, L. destruct (Nat.ltb_spec (length acts) 64); cbn [items_len item_len]; rewrite ?repeat_length; lia. }
  rewrite app_assoc, byte_at_app, L2. destruct (Nat.ltb_spec (328 + 32 * 64 + o - 328) (32 * 64)); [lia|].
  replace (328 + 32 * 64 + o - 328 - 32 * 64)%nat with o by lia. cbn [byte_at item_len item_byte]. destruct (Nat.ltb_spec o 4); [reflexivity|lia].
Qed.
End Trig.

(* fields hold the original bytes *)
Lemma bat_range t i : is_bytes t -> 0 <= bat t i < 256.
Proof.
  intros [L H]. unfold bat. destruct (Nat.lt_ge_cases (Z.to_nat i) (length t)) as [Hi|Hi].
  - rewrite Forall_forall in H. apply H. apply nth_In. auto.
  - rewrite nth_overflow by auto. lia.
Qed.
Lemma le4 a b c d : 0 <= a < 256 -> 0 <= b < 256 -> 0 <= c < 256 -> 0 <= d < 256 -> le_bytes 4 (a + 2^8 * b + 2^16 * c + 2^24 * d) = [a; b; c; d].
Proof.
  intros. cbn [le_bytes]. change (2^8) with 256. change (2^16) with 65536. change (2^24) with 16777216.
  repeat (f_equal; [Z.div_mod_to_equations; lia|]). f_equal. Z.div_mod_to_equations; lia.
Qed.
Lemma le2 a b : 0 <= a < 256 -> 0 <= b < 256 -> le_bytes 2 (a + 2^8 * b) = [a; b].
Proof. intros. cbn [le_bytes]. change (2^8) with 256. repeat (f_equal; [Z.div_mod_to_equations; lia|]). f_equal. Z.div_mod_to_equations; lia. Qed.
Lemma le1 a : 0 <= a < 256 -> le_bytes 1 a = [a].
Proof. intros. cbn [le_bytes]. f_equal. apply Z.mod_small. auto. Qed.
Lemma fb4 t o : is_bytes t -> field_bytes (4, con (dword t o)) = [bat t o; bat t (o + 1); bat t (o + 2); bat t (o + 3)].
Proof. intros H. unfold field_bytes, con, dword. cbn [fst snd r_off]. apply le4; apply bat_range; auto. Qed.
Lemma fb2 t o : is_bytes t -> field_bytes (2, con (word t o)) = [bat t o; bat t (o + 1)].
Proof. intros H. unfold field_bytes, con, word. cbn [fst snd r_off]. apply le2; apply bat_range; auto. Qed.
Lemma fb1 t o : is_bytes t -> field_bytes (1, con (bat t o)) = [bat t o].
Proof. intros H. unfold field_bytes, con. cbn [fst snd r_off]. apply le1; apply bat_range; auto. Qed.
Definition ob (t : bytes) (k : nat) : Z := nth k t 0.
Lemma bat_ob t o k : (Z.to_nat o = k) -> bat t o = ob t k.
Proof. intros <-. reflexivity. Qed.
Lemma cond_bytes t i : is_bytes t -> pack_bytes (cond_fields t i) = entry (ob t) 0 20 i.
Proof.
  intros H. unfold pack_bytes, cond_fields. cbv zeta. cbn [flat_map]. rewrite !fb4, !fb2, !fb1 by auto. cbn [app].
  unfold entry. cbn [seq map]. repeat (apply f_equal2; [apply bat_ob; lia|]). reflexivity.
Qed.
Lemma act_bytes t i : is_bytes t -> pack_bytes (act_fields t i) = clear29 (entry (ob t) 320 32 i).
Proof.
  intros H. unfold pack_bytes, act_fields. cbv zeta. cbn [flat_map]. rewrite !fb4, !fb2, !fb1 by auto.
  change (field_bytes (1, con 0)) with [0]. cbn [app].
  unfold entry, clear29. cbn [seq map firstn skipn app]. repeat (apply f_equal2; [first [apply bat_ob; lia|reflexivity]|]). reflexivity.
Qed.
Lemma cond_ok t i : forallb field_ok (cond_fields t i) = true. Proof. reflexivity. Qed.
Lemma act_ok t i : forallb field_ok (act_fields t i) = true. Proof. reflexivity. Qed.
Lemma all_ok {A} (f : nat -> list (Z * rloc)) (l : list A) g : (forall i, forallb field_ok (f i) = true) -> forallb (forallb field_ok) (map f (map g l)) = true.
Proof. intros H. induction l; cbn [map forallb]; [auto|]. rewrite H. auto. Qed.

Lemma filter_map {A B} (f : A -> B) p l : filter p (map f l) = map f (filter (fun x => p (f x)) l).
Proof. induction l as [|a l IH]; cbn [map filter]; [auto|]. destruct (p (f a)); cbn [map]; congruence. Qed.
Lemma filter_filter' {A} (p q : A -> bool) l : filter p (filter q l) = filter (fun x => q x && p x) l.
Proof. induction l as [|a l IH]; cbn [filter]; [auto|]. destruct (q a); cbn [filter andb]; [destruct (p a)|]; congruence. Qed.
Lemma entry_type m pos size ty i : (ty < size)%nat -> type_at ty (entry m pos size i) = m (pos + size * i + ty)%nat.
Proof.
  intros H. unfold type_at, entry. rewrite (nth_indep _ 0 (m 0%nat)) by (rewrite map_length, seq_length; lia). rewrite map_nth, seq_nth by lia. reflexivity.
Qed.
Lemma entry_len m pos size i : length (entry m pos size i) = size.
Proof. unfold entry. rewrite map_length, seq_length. reflexivity. Qed.
Lemma clear29_type e : length e = 32%nat -> type_at 26 (clear29 e) = type_at 26 e.
Proof. intros H. do 32 (destruct e as [|? e]; [discriminate H|]). reflexivity. Qed.
Strategy expand [kept_conds kept_acts].
Lemma filter_In1 {A} (f : A -> bool) x l : In x (filter f l) -> f x = true.
Proof. intros H. apply filter_In in H. tauto. Qed.
Lemma kept_act_type t i : In i (kept_acts t) -> ob t (320 + 32 * i + 26) <> 0.
Proof.
  intros Ei. apply filter_In1 in Ei. assert (E : bat t (320 + 32 * Z.of_nat i + 26) = ob t (320 + 32 * i + 26)) by (apply bat_ob; lia).
  rewrite <- E. cbv zeta in Ei. clear E. revert Ei. generalize (bat t (320 + 32 * Z.of_nat i + 26)). intros z Hz. lia.
Qed.
Lemma kept_le t : (length (kept_conds t) <= 16)%nat /\ (length (kept_acts t) <= 64)%nat.
Proof.
  assert (Q : forall (f : nat -> bool) l, (length (filter f l) <= length l)%nat).
  { intros f. induction l as [|a l IH]; cbn [filter length]; [lia|]. destruct (f a); cbn [length]; lia. }
  unfold kept_conds, kept_acts. split; [specialize (Q (fun i => let ty := bat t (20 * Z.of_nat i + 15) in negb (ty =? 22) && (1 <=? ty)) (seq 0 16))|
    specialize (Q (fun i => let ty := bat t (320 + 32 * Z.of_nat i + 26) in negb (ty =? 47) && (1 <=? ty)) (seq 0 64))]; rewrite seq_length in Q; exact Q.
Qed.
Lemma forallb_map_true {A B} (p : B -> bool) (f : A -> B) l : (forall x, p (f x) = true) -> forallb p (map f l) = true.
Proof. intros H. induction l; cbn [map forallb]; [auto|]. rewrite H. auto. Qed.
Lemma section_aligned prev next t : ops_aligned 0 (ob_ops (section_obj prev next t)) = true.
Proof.
  unfold section_obj. cbn [ob_ops ops_aligned]. rewrite andb_true_r. unfold section_trigger, op_aligned.
  rewrite !map_length. destruct (kept_le t) as [A B]. rewrite (proj2 (Nat.leb_le _ _) A), (proj2 (Nat.leb_le _ _) B).
  rewrite !forallb_map_true by (intros; reflexivity). reflexivity.
Qed.

Theorem C49_section : forall objs offs s n prev next t off,
  all_aligned objs -> construct_payload objs = Ok (offs, s) ->
  nth_error objs n = Some (section_obj prev next t) -> nth_error offs n = Some off ->
  is_bytes t -> no_hole 16 (ob t) 0 20 15 -> no_hole 64 (ob t) 320 32 26 ->
  let stored k := nth (Z.to_nat off + k) (b_data s) 0 in
  read_list 16 stored 8 20 15 = filter (fun e => negb (type_at 15 e =? 22)) (read_list 16 (ob t) 0 20 15) /\
  read_list 64 stored 328 32 26 = map clear29 (filter (fun e => negb (type_at 26 e =? 47)) (read_list 64 (ob t) 320 32 26)) /\
  forall o, (o < 4)%nat -> stored (328 + 32 * 64 + o)%nat = nth o [Z.land (ob t (Z.to_nat 2368)) 5; 0; 0; 0] 0.
Proof.
  intros objs offs s n prev next t off HA HC Hn Ho Hb Nc Na stored.
  destruct (construct_payload_spec objs offs s HA HC) as (_ & D & _).
  set (cs := map (cond_fields t) (kept_conds t)). set (acts := map (act_fields t) (kept_acts t)).
  assert (St : forall k v, byte_at (items (section_trigger prev next t)) k = Some v -> stored k = v).
  { intros k v Hk. unfold stored. apply nth_error_nth. apply (D n). exists (section_obj prev next t), off.
    split; [apply nth_error_combine; auto|]. split; [lia|]. unfold section_obj, all_items. cbn [ob_ops map concat]. rewrite app_nil_r.
    rewrite <- Hk. f_equal. lia. }
  unfold section_trigger in St. fold cs acts in St.
  assert (Fc : forallb (forallb field_ok) cs = true) by (apply forallb_map_true; reflexivity).
  assert (Fa : forallb (forallb field_ok) acts = true) by (apply forallb_map_true; reflexivity).
  assert (Lc : forall c, In c cs -> length (pack_bytes c) = 20%nat) by (intros c H; apply in_map_iff in H; destruct H as (i & <- & _); reflexivity).
  assert (La : forall c, In c acts -> length (pack_bytes c) = 32%nat) by (intros c H; apply in_map_iff in H; destruct H as (i & <- & _); reflexivity).
  destruct (kept_le t) as [Kc Ka].
  assert (Hc : (length cs <= 16)%nat) by (unfold cs; rewrite map_length; auto).
  assert (Ha : (length acts <= 64)%nat) by (unfold acts; rewrite map_length; auto).
  split; [|split].
  - transitivity (map (entry (ob t) 0 20) (kept_conds t)).
    + apply read_known; [lia|rewrite map_length; exact Kc| |].
      * intros j e He. rewrite nth_error_map in He. destruct (nth_error (kept_conds t) j) as [i|] eqn:Ei; [|discriminate]. injection He as <-.
        split.
        -- assert (Hcs : nth_error cs j = Some (cond_fields t i)) by (unfold cs; rewrite nth_error_map, Ei; reflexivity).
           rewrite <- cond_bytes by auto. apply (nth_ext _ _ 0 0); [rewrite map_length, seq_length; reflexivity|].
           intros o Hol. rewrite map_length, seq_length in Hol.
           rewrite (nth_indep _ 0 (stored 0%nat)) by (rewrite map_length, seq_length; lia). rewrite map_nth, seq_nth by lia.
           apply St. replace (8 + 20 * j + o)%nat with (8 + (20 * j + o))%nat by lia.
           rewrite (trig_cond prev next _ cs acts Hc Ha Fc Fa Lc La j _ o Hcs Hol).
           apply nth_error_nth'. exact Hol.
        -- apply nth_error_In in Ei. unfold kept_conds in Ei. apply filter_In in Ei. destruct Ei as [_ Ei]. cbv zeta in Ei.
           rewrite entry_type by lia. rewrite (bat_ob t _ (0 + 20 * i + 15)) in Ei by lia. lia.
      * intros Hl. rewrite map_length in *. replace (length (kept_conds t)) with (length cs) in * by (unfold cs; apply map_length).
        apply St. replace (8 + 20 * length cs + 15)%nat with (8 + (20 * length cs + 15))%nat by lia.
        apply (trig_cond_end prev next _ cs acts Hc Ha Fc Fa Lc La); lia.
    + pose proof (read_plain (ob t) 20 15 ltac:(lia) 16 0 0) as RP. replace (0 + 20 * 0)%nat with 0%nat in RP by lia. rewrite RP.
      * rewrite filter_map, filter_filter'. apply (f_equal (map (entry (ob t) 0 20))). unfold kept_conds. apply filter_ext. intros i. cbv zeta. rewrite entry_type by lia.
        rewrite (bat_ob t _ (0 + 20 * i + 15)) by lia. pose proof (bat_range t (Z.of_nat (0 + 20 * i + 15)) Hb) as R.
        rewrite (bat_ob t _ (0 + 20 * i + 15)) in R by lia. lia.
      * intros i j Hij Hi. replace (0 + 20 * i + 15 + 20 * 0)%nat with (0 + 20 * i + 15)%nat in Hi by lia. replace (0 + 20 * j + 15 + 20 * 0)%nat with (0 + 20 * j + 15)%nat by lia. apply (Nc i j); auto.
  - transitivity (map clear29 (map (entry (ob t) 320 32) (kept_acts t))).
    + apply read_known; [lia|rewrite !map_length; exact Ka| |].
      * intros j e He. rewrite !nth_error_map in He. destruct (nth_error (kept_acts t) j) as [i|] eqn:Ei; [|discriminate]. injection He as <-.
        split.
        -- assert (Hcs : nth_error acts j = Some (act_fields t i)) by (unfold acts; rewrite nth_error_map, Ei; reflexivity).
           rewrite <- act_bytes by auto. apply (nth_ext _ _ 0 0); [rewrite map_length, seq_length; reflexivity|].
           intros o Hol. rewrite map_length, seq_length in Hol.
           rewrite (nth_indep _ 0 (stored 0%nat)) by (rewrite map_length, seq_length; lia). rewrite map_nth, seq_nth by lia.
           apply St. replace (328 + 32 * j + o)%nat with (328 + (32 * j + o))%nat by lia.
           rewrite (trig_act prev next _ cs acts Hc Ha Fc Fa Lc La j _ o Hcs Hol).
           apply nth_error_nth'. exact Hol.
        -- rewrite clear29_type, entry_type by (first [lia|apply entry_len]). apply kept_act_type. apply nth_error_In with (n := j). exact Ei.
      * intros Hl. rewrite !map_length in *. replace (length (kept_acts t)) with (length acts) in * by (unfold acts; apply map_length).
        apply St. replace (328 + 32 * length acts + 26)%nat with (328 + (32 * length acts + 26))%nat by lia.
        apply (trig_act_end prev next _ cs acts Hc Ha Fc Fa Lc La); lia.
    + apply (f_equal (map clear29)). pose proof (read_plain (ob t) 32 26 ltac:(lia) 64 320 0) as RP. replace (320 + 32 * 0)%nat with 320%nat in RP by lia. rewrite RP.
      * rewrite filter_map, filter_filter'. apply (f_equal (map (entry (ob t) 320 32))). unfold kept_acts. apply filter_ext. intros i. cbv zeta. rewrite entry_type by lia.
        rewrite (bat_ob t _ (320 + 32 * i + 26)) by lia. pose proof (bat_range t (Z.of_nat (320 + 32 * i + 26)) Hb) as R.
        rewrite (bat_ob t _ (320 + 32 * i + 26)) in R by lia. lia.
      * intros i j Hij Hi. replace (320 + 32 * i + 26 + 32 * 0)%nat with (320 + 32 * i + 26)%nat in Hi by lia. replace (320 + 32 * j + 26 + 32 * 0)%nat with (320 + 32 * j + 26)%nat by lia. apply (Na i j); auto.
  - set (fl := Z.land (ob t (Z.to_nat 2368)) 5).
    assert (E : bat t (320 + 2048) = ob t (Z.to_nat 2368)) by reflexivity. rewrite E in St. fold fl in St.
    assert (Fr : 0 <= fl < 6).
    { unfold fl. pose proof (bat_range t 2368 Hb) as R. unfold bat in R. fold (ob t (Z.to_nat 2368)) in R.
      split; [apply Z.land_nonneg; lia|]. change 5 with (Z.ones 3 - 2). pose proof (Z.land_nonneg (ob t (Z.to_nat 2368)) 5).
      assert (Z.land (ob t (Z.to_nat 2368)) 5 <= 5); [|change (Z.ones 3 - 2) with 5; lia].
      rewrite <- (Z.land_comm 5). apply Z.ldiff_le; [lia|]. rewrite Z.ldiff_land. rewrite Z.land_comm, Z.land_assoc.
      rewrite (Z.land_comm (Z.lnot 5)). rewrite Z.land_lnot_diag. apply Z.land_0_l. }
    assert (L4 : le_bytes 4 fl = [fl; 0; 0; 0]).
    { replace fl with (fl + 2^8 * 0 + 2^16 * 0 + 2^24 * 0) at 1 by lia. apply le4; lia. }
    intros o Hol. apply St. rewrite (trig_flags prev next (con fl) cs acts Hc Ha Fc Fa Lc La o Hol). unfold con. cbn [r_off]. rewrite L4.
    apply nth_error_nth'. exact Hol.
Qed.

Definition flags_pos : nat := Z.to_nat 2376.
(* whatever conditions and actions mean: the stored trigger fires in the same situations
   and does the same *)
Lemma forallb_drop {A} (p q : A -> bool) l : (forall x, q x = false -> p x = true) -> forallb p (filter q l) = forallb p l.
Proof.
  intros H. induction l as [|a l IH]; [reflexivity|]. cbn [filter forallb]. destruct (q a) eqn:E; cbn [forallb]; rewrite IH; [reflexivity|].
  rewrite (H a E). reflexivity.
Qed.
Lemma fold_drop {A B} (f : B -> A -> A) (q : B -> bool) (g : B -> B) l : (forall x a, q x = false -> f x a = a) -> (forall x a, f (g x) a = f x a) ->
  forall a, fold_left (fun a x => f x a) (map g (filter q l)) a = fold_left (fun a x => f x a) l a.
Proof.
  intros H1 H2. induction l as [|b l IH]; intros a; [reflexivity|]. cbn [filter fold_left]. destruct (q b) eqn:E; cbn [map fold_left]; rewrite IH.
  - rewrite H2. reflexivity.
  - rewrite H1 by auto. reflexivity.
Qed.
Theorem C49_meaning : forall (world : Type) (holds : world -> list Z -> bool) (act : list Z -> world -> world),
  (forall w e, type_at 15 e = 22 -> holds w e = true) ->
  (forall w e, type_at 26 e = 47 -> act e w = w) -> (forall w e, act (clear29 e) w = act e w) ->
  forall objs offs s n prev next t off,
  all_aligned objs -> construct_payload objs = Ok (offs, s) ->
  nth_error objs n = Some (section_obj prev next t) -> nth_error offs n = Some off ->
  is_bytes t -> no_hole 16 (ob t) 0 20 15 -> no_hole 64 (ob t) 320 32 26 ->
  let stored k := nth (Z.to_nat off + k) (b_data s) 0 in
  forall w,
  forallb (holds w) (read_list 16 stored 8 20 15) = forallb (holds w) (read_list 16 (ob t) 0 20 15) /\
  fold_left (fun w e => act e w) (read_list 64 stored 328 32 26) w = fold_left (fun w e => act e w) (read_list 64 (ob t) 320 32 26) w.
Proof.
  intros world holds act H1 H2 H3 objs offs s n prev next t off HA HC Hn Ho Hb Nc Na stored w.
  destruct (C49_section objs offs s n prev next t off HA HC Hn Ho Hb Nc Na) as (A & B & _). fold stored in A, B. rewrite A, B. split.
  - apply forallb_drop. intros e He. apply H1. lia.
  - apply fold_drop; [|auto]. intros e a He. apply H2. lia.
Qed.

(* ---------- cases ---------- *)
Definition tb (l : list (Z * Z)) : bytes :=
  map (fun k => match find (fun c => fst c =? Z.of_nat k) l with Some c => snd c | None => 0 end) (seq 0 seg_len).
(* Always, Deaths; Comment, SetDeaths, PreserveTrigger *)
Definition tex := tb [(15, 22); (20 + 8, 5); (20 + 15, 15); (320 + 26, 47); (352 + 20, 200); (352 + 26, 45); (352 + 29, 9); (384 + 26, 3); (2368, 13); (2372, 1)].
Example C49_case :
  match construct_payload [section_obj (con 0) (con 0) tex; section_obj (con 0) (con 0) tex] with
  | Ok (offs, s) =>
      let stored k := nth (Z.to_nat (nth 1 offs 0) + k) (b_data s) 0 in
      map (type_at 15) (read_list 16 stored 8 20 15) = [15] /\ map (type_at 26) (read_list 64 stored 328 32 26) = [45; 3] /\
      map (fun e => nth 20 e 0) (read_list 64 stored 328 32 26) = [200; 0] /\ stored flags_pos = 5
  | _ => False end.
Proof. vm_compute. auto. Qed.
Lemma tex_ok : is_bytes tex.
Proof.
  split; [reflexivity|]. apply Forall_forall. intros b Hb.
  assert (H : forallb (fun b => (0 <=? b) && (b <? 256)) tex = true) by (vm_compute; reflexivity).
  rewrite forallb_forall in H. specialize (H b Hb). lia.
Qed.
Lemma no_hole_check n m pos size ty : forallb (fun i => implb (m (pos + size * i + ty)%nat =? 0) (forallb (fun j => implb (Nat.ltb i j) (m (pos + size * j + ty)%nat =? 0)) (seq 0 n))) (seq 0 n) = true -> no_hole n m pos size ty.
Proof.
  intros H i j Hij E. rewrite forallb_forall in H. specialize (H i ltac:(apply in_seq; lia)). rewrite E in H. cbn [Z.eqb implb] in H.
  rewrite forallb_forall in H. specialize (H j ltac:(apply in_seq; lia)). destruct (Nat.ltb_spec i j); [|lia]. cbn [implb] in H. lia.
Qed.
Example C49_hyps : is_bytes tex /\ no_hole 16 (ob tex) 0 20 15 /\ no_hole 64 (ob tex) 320 32 26.
Proof. split; [apply tex_ok|]. split; apply no_hole_check; vm_compute; reflexivity. Qed.

(* a gap in the conditions: the game stops reading at the gap, the stored trigger has a condition more *)
Theorem C49_hole_refuted : exists t, is_bytes t /\ read_list 16 (ob t) 0 20 15 = [] /\
  match construct_payload [section_obj (con 0) (con 0) t; section_obj (con 0) (con 0) tex] with
  | Ok (offs, s) => map (type_at 15) (read_list 16 (fun k => nth (Z.to_nat (nth 0 offs 0) + k) (b_data s) 0) 8 20 15) = [23]
  | _ => False end.
Proof.
  exists (tb [(20 + 15, 23)]). split; [|split; vm_compute; reflexivity].
  split; [reflexivity|]. apply Forall_forall. intros b Hb.
  assert (H : forallb (fun b => (0 <=? b) && (b <? 256)) (tb [(20 + 15, 23)]) = true) by (vm_compute; reflexivity).
  rewrite forallb_forall in H. specialize (H b Hb). lia.
Qed.
(* only flags 1 and 4 are kept: a trigger disabled in the map (flag 8, vector_reloc.py 282) is stored enabled *)
Theorem C49_disabled_refuted : exists t, Z.testbit (ob t (Z.to_nat 2368)) 3 = true /\
  match construct_payload [section_obj (con 0) (con 0) t; section_obj (con 0) (con 0) tex] with
  | Ok (offs, s) => nth (Z.to_nat (nth 0 offs 0) + flags_pos) (b_data s) 0 = 4
  | _ => False end.
Proof. exists (tb [(2368, 12)]). split; vm_compute; reflexivity. Qed.

Print Assumptions C49_section.
Print Assumptions C49_meaning.
Print Assumptions C49_hole_refuted.
Print Assumptions C49_disabled_refuted.
