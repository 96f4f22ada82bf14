(* The saved table. *)
From Coq Require Import ZArith Lia List Bool ZifyBool ZifyNat.
From Verif Require Import Dict BinModel BinProofs ChkModel TblModel TblProofs.
Import ListNotations.
Open Scope Z_scope.

(* little endian value *)
Definition value_of (w : bytes) : Z := fold_right (fun x a => x + 256 * a) 0 w.
(* b has, as its i-th entry of the given size, the offset of s and its terminator *)
Definition stored (size : nat) (b : bytes) (i : nat) (s : bytes) : Prop :=
  exists p w q r z, b = p ++ w ++ q /\ List.length p = (i * size)%nat /\ List.length w = size /\
    b = r ++ s ++ 0 :: z /\ Z.of_nat (List.length r) = value_of w.

Lemma i2bn_len se v : se = 2 \/ se = 4 -> List.length (i2bn se v) = Z.to_nat se.
Proof. intros [->| ->]; reflexivity. Qed.
Lemma i2bn_value se v : se = 2 \/ se = 4 -> 0 <= v < 2 ^ (8 * se) -> value_of (i2bn se v) = v.
Proof.
  intros [->| ->] H; unfold i2bn; cbn [Z.eqb Pos.eqb].
  - rewrite i2b2_eq. cbn [value_of fold_right]. change (2 ^ (8 * 2)) with 65536 in H. lia.
  - rewrite i2b4_eq. cbn [value_of fold_right]. change (2 ^ (8 * 4)) with 4294967296 in H. lia.
Qed.
Lemma total_nonneg l : 0 <= total l.
Proof. unfold total. induction l as [|s l IH]; cbn [fold_right]; [lia|]. pose proof (room_bounds s). lia. Qed.
Lemma offsets_nth l : forall o d s, nth_error l d = Some s -> nth d (stroffsets o l) 0 = o + total (firstn d l) /\ total (firstn d l) + room s <= total l.
Proof.
  induction l as [|x l IH]; intros o [|d] s H; cbn [nth_error] in H; try discriminate.
  - injection H as ->. cbn [stroffsets nth firstn total fold_right]. fold (total l). pose proof (total_nonneg l). lia.
  - cbn [stroffsets nth firstn total fold_right]. fold (total (firstn d l)) (total l). destruct (IH (o + roundup_by_4 (zlen x + 1)) d s H) as [-> Q]. rewrite roundup_room. lia.
Qed.
Definition pad (s : bytes) : bytes := s ++ zeros (roundup_by_4 (zlen s + 1) - zlen s).
Lemma pad_len s : Z.of_nat (List.length (pad s)) = room s.
Proof. unfold pad, zeros. rewrite app_length, repeat_length, roundup_room. pose proof (room_bounds s). unfold zlen. lia. Qed.
Lemma pad_nul s : exists z, pad s = s ++ 0 :: z.
Proof.
  unfold pad, zeros. rewrite roundup_room. pose proof (room_bounds s). destruct (Z.to_nat (room s - zlen s)) eqn:E; [unfold zlen in E; lia|]. cbn [repeat]. eauto.
Qed.
Lemma data_len l : Z.of_nat (List.length (concat (map pad l))) = total l.
Proof. unfold total. induction l as [|s l IH]; [reflexivity|]. cbn [map concat fold_right]. rewrite app_length, Nat2Z.inj_add, pad_len, IH. lia. Qed.
Lemma data_at l d s : nth_error l d = Some s -> exists r z, concat (map pad l) = r ++ s ++ 0 :: z /\ Z.of_nat (List.length r) = total (firstn d l).
Proof.
  intros H. apply nth_error_split in H. destruct H as (l1 & l2 & -> & L). rewrite map_app, concat_app. cbn [map concat]. destruct (pad_nul s) as [z ->].
  exists (concat (map pad l1)), (z ++ concat (map pad l2)). split; [rewrite <- !app_assoc; reflexivity|]. rewrite data_len. rewrite <- L, firstn_app, Nat.sub_diag, firstn_all, app_nil_r. reflexivity.
Qed.
Definition header (se : Z) (t : tbl) : bytes :=
  i2bn se (zlen (dataindextb t)) ++ concat (map (fun d => i2bn se (nth d (stroffsets (roundup_by_4 (se * zlen (dataindextb t) + se)) (datatb t)) 0)) (dataindextb t)).
Lemma save_eq se t : save_tbl se t = header se t ++ zeros (roundup_by_4 (se * (zlen (dataindextb t) + 1)) - se * (zlen (dataindextb t) + 1)) ++ concat (map pad (datatb t)).
Proof. unfold save_tbl, header. cbv zeta. rewrite <- app_assoc. reflexivity. Qed.
Lemma concat_len se (f : nat -> Z) l : se = 2 \/ se = 4 -> List.length (concat (map (fun d => i2bn se (f d)) l)) = (Z.to_nat se * List.length l)%nat.
Proof. intros H. induction l as [|d l IH]; cbn [map concat List.length]; [lia|]. rewrite app_length, IH, i2bn_len by exact H. lia. Qed.
Lemma header_len se t : se = 2 \/ se = 4 -> Z.of_nat (List.length (header se t)) = se * (zlen (dataindextb t) + 1).
Proof. intros H. unfold header. rewrite app_length, i2bn_len, (concat_len se (fun d => nth d _ 0)) by exact H. unfold zlen. lia. Qed.
Lemma save_len se t : se = 2 \/ se = 4 -> base se t -> Z.of_nat (List.length (save_tbl se t)) = 4 * ((capacity t + 3) / 4).
Proof.
  intros H (_ & _ & B3). rewrite save_eq, !app_length. unfold zeros. rewrite repeat_length. pose proof (header_len se t H) as Hh. pose proof (data_len (datatb t)) as Hd.
  rewrite roundup_eq. rewrite B3.
  assert (T : total (datatb t) mod 4 = 0).
  { unfold total. generalize (datatb t). intros l. induction l as [|x l IH]; [reflexivity|]. cbn [fold_right]. destruct (room_bounds x) as [_ R]. lia. }
  assert (0 <= zlen (dataindextb t)) by (unfold zlen; lia). destruct H as [->| ->]; lia.
Qed.
Lemma save_stored se t i s : se = 2 \/ se = 4 -> base se t -> bounded se t -> GetString t i = Some s -> stored (Z.to_nat se) (save_tbl se t) i s.
Proof.
  intros Hse B [Hc _] G. destruct i as [|i]; [discriminate|]. cbn [GetString] in G. destruct (nth_error (dataindextb t) i) as [d|] eqn:Ei; [|discriminate].
  pose proof (header_len se t Hse) as Hh. destruct B as (_ & _ & B3).
  set (start := roundup_by_4 (se * zlen (dataindextb t) + se)) in *.
  destruct (offsets_nth (datatb t) start d s G) as [Ho Hr].
  destruct (data_at _ _ _ G) as (r & z & Hd & Hl).
  assert (Hs : start = roundup_by_4 (se * (zlen (dataindextb t) + 1))) by (subst start; f_equal; lia).
  assert (Hb : 0 <= nth d (stroffsets start (datatb t)) 0 < 2 ^ (8 * se)).
  { rewrite Ho. rewrite Hs, roundup_eq. assert (0 <= total (firstn d (datatb t))) by apply total_nonneg. pose proof (room_bounds s). assert (0 <= zlen (dataindextb t)) by (unfold zlen; lia).
    rewrite B3 in Hc. destruct Hse as [->| ->]; lia. }
  pose proof Ei as Ei'. apply nth_error_split in Ei'. destruct Ei' as (l1 & l2 & El & L1).
  rewrite save_eq.
  exists (i2bn se (zlen (dataindextb t)) ++ concat (map (fun d => i2bn se (nth d (stroffsets start (datatb t)) 0)) l1)),
         (i2bn se (nth d (stroffsets start (datatb t)) 0)),
         (concat (map (fun d => i2bn se (nth d (stroffsets start (datatb t)) 0)) l2) ++ zeros (roundup_by_4 (se * (zlen (dataindextb t) + 1)) - se * (zlen (dataindextb t) + 1)) ++ concat (map pad (datatb t))),
         (header se t ++ zeros (roundup_by_4 (se * (zlen (dataindextb t) + 1)) - se * (zlen (dataindextb t) + 1)) ++ r), z.
  split; [|split; [|split; [|split]]].
  - unfold header. fold start. rewrite El at 2. rewrite map_app, concat_app. cbn [map concat]. rewrite <- !app_assoc. reflexivity.
  - rewrite app_length, i2bn_len, (concat_len se (fun d => nth d _ 0)) by exact Hse. lia.
  - apply i2bn_len. exact Hse.
  - rewrite Hd, <- !app_assoc. reflexivity.
  - rewrite i2bn_value by assumption. rewrite !app_length. unfold zeros. rewrite repeat_length, Ho, Hs. rewrite roundup_eq.
    assert (0 <= zlen (dataindextb t)) by (unfold zlen; lia). destruct Hse as [->| ->]; lia.
Qed.

(* reading a stored string with the loader *)
Lemma upto_nul_app s z : ~ In 0 s -> upto_nul (s ++ 0 :: z) = Some s.
Proof.
  induction s as [|c s IH]; intros H; [reflexivity|]. cbn [app upto_nul]. destruct (Z.eqb_spec c 0) as [->|]; [exfalso; apply H; left; reflexivity|].
  rewrite IH; [reflexivity|]. intros Q. apply H. right. exact Q.
Qed.
Lemma upto_nul_some b s : upto_nul b = Some s -> ~ In 0 s /\ exists z, b = s ++ 0 :: z.
Proof.
  revert s. induction b as [|c b IH]; cbn [upto_nul]; intros s H; [discriminate|]. destruct (Z.eqb_spec c 0) as [->|N].
  - injection H as <-. split; [auto|]. exists b. reflexivity.
  - destruct (upto_nul b) as [r|]; [|discriminate]. injection H as <-. destruct (IH r eq_refl) as [I [z ->]]. split; [intros [Q|Q]; auto|]. exists z. reflexivity.
Qed.
Lemma b2in_value se b p w q : se = 2 \/ se = 4 -> Forall byte w -> b = p ++ w ++ q -> List.length w = Z.to_nat se -> b2in se b (List.length p) = Some (value_of w).
Proof.
  intros Hse Hw -> L. destruct Hse as [->| ->]; unfold b2in; cbn [Z.eqb Pos.eqb].
  - destruct w as [|a [|c [|? ?]]]; try discriminate L. inversion Hw as [|? ? Ha Hw1]; subst. inversion Hw1 as [|? ? Hc Hw2]; subst.
    pose proof (b2i2_i2b2 p (a + 256 * c) q) as Q. unfold byte in *. rewrite i2b2_eq in Q.
    replace ((a + 256 * c) mod 256) with a in Q by lia. replace ((a + 256 * c) / 256 mod 256) with c in Q by lia. cbn [app] in *. rewrite Q. cbn [value_of fold_right]. f_equal. lia.
  - destruct w as [|a [|c [|e [|g [|? ?]]]]]; try discriminate L. inversion Hw as [|? ? Ha Hw1]; subst. inversion Hw1 as [|? ? Hc Hw2]; subst. inversion Hw2 as [|? ? He Hw3]; subst. inversion Hw3 as [|? ? Hg Hw4]; subst.
    set (v := a + 256 * (c + 256 * (e + 256 * g))).
    pose proof (b2i4_i2b4 p v q) as Q. unfold byte in *. rewrite i2b4_eq in Q.
    replace (v mod 256) with a in Q by lia. replace (v / 256 mod 256) with c in Q by lia. replace (v / 65536 mod 256) with e in Q by lia. replace (v / 16777216 mod 256) with g in Q by lia.
    cbn [app] in *. rewrite Q. cbn [value_of fold_right]. f_equal. lia.
Qed.
Lemma stored_entry se b i s : se = 2 \/ se = 4 -> Forall byte b -> ~ In 0 s -> stored (Z.to_nat se) b i s -> entry se b i = Some s.
Proof.
  intros Hse Hb Hs (p & w & q & r & z & E1 & E2 & E3 & E4 & E5). unfold entry.
  assert (Hw : Forall byte w).
  { rewrite E1 in Hb. apply Forall_app in Hb. destruct Hb as [_ Hb]. apply Forall_app in Hb. apply Hb. }
  rewrite <- E2, (b2in_value se b p w q Hse Hw E1 E3). unfold string_at. rewrite <- E5, Nat2Z.id, E4.
  rewrite skipn_app, skipn_all, Nat.sub_diag. cbn [skipn app]. apply upto_nul_app. exact Hs.
Qed.
Lemma split_at (b : bytes) i n : (i + n <= List.length b)%nat -> exists p w q, b = p ++ w ++ q /\ List.length p = i /\ List.length w = n.
Proof.
  intros H. exists (firstn i b), (firstn n (skipn i b)), (skipn n (skipn i b)). rewrite !firstn_skipn. split; [reflexivity|]. rewrite !firstn_length, skipn_length. lia.
Qed.
Lemma entry_stored se b i s : se = 2 \/ se = 4 -> Forall byte b -> entry se b i = Some s -> stored (Z.to_nat se) b i s /\ ~ In 0 s.
Proof.
  intros Hse Hb H. unfold entry in H. destruct (b2in se b (i * Z.to_nat se)) as [o|] eqn:E; [|discriminate].
  assert (L : (i * Z.to_nat se + Z.to_nat se <= List.length b)%nat).
  { destruct Hse as [->| ->]; unfold b2in in E; cbn [Z.eqb Pos.eqb] in E.
    - destruct (b2i2_some b _ o Hb E) as (Q & _). exact Q.
    - destruct (b2i4_some b _ o Hb E) as (Q & _). exact Q. }
  destruct (split_at b _ _ L) as (p & w & q & E1 & E2 & E3).
  assert (Hw : Forall byte w).
  { rewrite E1 in Hb. apply Forall_app in Hb. destruct Hb as [_ Hb]. apply Forall_app in Hb. apply Hb. }
  rewrite <- E2, (b2in_value se b p w q Hse Hw E1 E3) in E. injection E as <-.
  unfold string_at in H. apply upto_nul_some in H. destruct H as [Hn [z Hz]]. split; [|exact Hn].
  exists p, w, q, (firstn (Z.to_nat (value_of w)) b), z. split; [exact E1|]. split; [exact E2|]. split; [exact E3|]. split; [rewrite <- Hz, firstn_skipn; reflexivity|].
  assert (V : 0 <= value_of w).
  { clear - Hw. induction Hw as [|x w Hx Hw IH]; [cbn; lia|]. cbn [value_of fold_right]. unfold byte in Hx. fold (value_of w). lia. }
  rewrite firstn_length. assert (Z.to_nat (value_of w) < List.length b)%nat; [|lia].
  assert (Q : List.length (skipn (Z.to_nat (value_of w)) b) = List.length (s ++ 0 :: z)) by (rewrite Hz; reflexivity). rewrite skipn_length, app_length in Q. cbn [List.length] in Q. lia.
Qed.
Lemma save_bytes se t : se = 2 \/ se = 4 -> Forall (Forall byte) (datatb t) -> Forall byte (save_tbl se t).
Proof.
  intros Hse H. assert (I : forall v, Forall byte (i2bn se v)) by (intros v; destruct Hse as [->| ->]; [apply i2b2_byte|apply i2b4_byte]).
  assert (Zr : forall n, Forall byte (zeros n)). { intros n. unfold zeros. apply Forall_forall. intros x Q. apply repeat_spec in Q. subst. unfold byte. lia. }
  rewrite save_eq. unfold header. repeat (apply Forall_app; split); auto.
  - apply Forall_concat. apply Forall_forall. intros x Q. apply in_map_iff in Q. destruct Q as (d & <- & _). apply I.
  - apply Forall_concat. apply Forall_forall. intros x Q. apply in_map_iff in Q. destruct Q as (d & <- & Q). unfold pad. apply Forall_app. split; [|apply Zr].
    rewrite Forall_forall in H. apply H. exact Q.
Qed.
Lemma save_count se t : se = 2 \/ se = 4 -> bounded se t -> b2in se (save_tbl se t) 0 = Some (zlen (dataindextb t)).
Proof.
  intros Hse [_ Hn]. rewrite save_eq. unfold header. rewrite <- !app_assoc.
  match goal with |- b2in se (?w ++ ?q) 0 = _ => transitivity (Some (value_of w)); [apply (b2in_value se (w ++ q) [] w q Hse); [|reflexivity|apply i2bn_len; exact Hse]|] end; cycle 1.
  - rewrite i2bn_value; [reflexivity|exact Hse|]. unfold zlen in *. destruct Hse as [->| ->]; [change (2 ^ (8 * 2)) with 65536|change (2 ^ (8 * 4)) with 4294967296]; lia.
  - destruct Hse as [->| ->]; [apply i2b2_byte|apply i2b4_byte].
Qed.

(* loading succeeds when everything fits *)
Lemma total_incl l : NoDup l -> forall L, incl l L -> total l <= total L.
Proof.
  induction 1 as [|x l Hx Hl IH]; intros L I; [apply total_nonneg|].
  assert (Ix : In x L) by (apply I; left; reflexivity). apply in_split in Ix. destruct Ix as (a & b & ->).
  assert (Q : total l <= total (a ++ b)).
  { apply IH. intros y Hy. assert (Iy : In y (a ++ x :: b)) by (apply I; right; exact Hy). apply in_app_or in Iy. apply in_or_app. destruct Iy as [|[->|]]; auto. contradiction. }
  rewrite total_app in *. cbn [total fold_right]. fold (total l) (total b). lia.
Qed.
Definition fitting (L : list bytes) (t : tbl) : Prop :=
  NoDup (datatb t) /\ incl (datatb t) L /\ forall x, In x (datatb t) -> dget bytes_dec x (stringmap t) <> None.
Lemma add_fits se L n t s : 0 < se -> loading se t -> fitting L t -> In s L -> zlen (dataindextb t) < n -> n <= 65535 -> se * (1 + n) + total L < 2 ^ (8 * se) ->
  exists i t', AddString se s t = Some (i, t') /\ fitting L t'.
Proof.
  intros Hse (B & Lf & X & Ef) (N & I & K) Is Hn Hn' Hc. destruct B as (B1 & B2 & B3).
  assert (C : forall t1, capacity t1 <= se * (2 + zlen (dataindextb t)) + total L -> checked se (List.length (dataindextb t)) t1 = Some (List.length (dataindextb t), t1)).
  { intros t1 Q. unfold checked. rewrite Z.shiftl_1_l. unfold zlen in *. destruct (Z.ltb_spec (capacity t1) (2 ^ (8 * se))) as [|G]; [|exfalso].
    - destruct (Z.ltb_spec (Z.of_nat (List.length (dataindextb t))) 65535); [reflexivity|lia].
    - assert (se * (2 + Z.of_nat (List.length (dataindextb t))) <= se * (1 + n)) by (apply Z.mul_le_mono_nonneg_l; lia). lia. }
  unfold AddString. destruct (dget bytes_dec s (stringmap t)) as [k|] eqn:Es.
  - destruct (B2 s k Es) as [Lk _]. destruct (nth_error (dataindextb t) k) as [d|] eqn:Ek; [|apply nth_error_None in Ek; lia].
    rewrite C; [|cbn [capacity]; rewrite B3; pose proof (total_incl _ N L I); lia]. eexists. eexists. split; [reflexivity|]. split; [exact N|]. split; [exact I|exact K].
  - assert (Ns : ~ In s (datatb t)) by (intros Q; apply (K s Q); exact Es).
    assert (I' : incl (datatb t ++ [s]) L) by (intros y Hy; apply in_app_or in Hy; destruct Hy as [Hy|[<-|[]]]; auto).
    assert (N' : NoDup (datatb t ++ [s])) by (apply nodup_snoc; auto).
    match goal with |- exists i t', match emptystring t with [] => checked _ _ ?T | _ => _ end = _ /\ _ =>
      assert (R : exists i t', checked se (List.length (dataindextb t)) T = Some (i, t') /\ fitting L t') end.
    { rewrite C.
      - eexists. eexists. split; [reflexivity|]. split; [exact N'|]. split; [exact I'|]. cbn [datatb stringmap]. intros x Hx. destruct (bytes_dec x s) as [->|Nx]; [rewrite dget_dset_same; discriminate|].
        rewrite dget_dset_other by exact Nx. apply K. apply in_app_or in Hx. destruct Hx as [|[->|[]]]; [assumption|congruence].
      - cbn [capacity]. rewrite roundup_room, B3. pose proof (total_incl _ N' L I') as Q. rewrite total_app in Q. cbn [total fold_right] in Q. lia. }
    rewrite Lf in *. cbn [andb]. destruct (emptystring t) as [|[? ?] ?]; exact R.
Qed.
Lemma find_next_total le content js : (forall j, In j js -> exists s, entry le content j = Some s) ->
  exists e, find_next le content (fun _ => false) (fun _ s => s) js = Some e.
Proof.
  induction js as [|j js IH]; intros H; cbn [find_next]; [eauto|]. destruct (H j (or_introl eq_refl)) as [[|c r] ->]; [|eauto]. apply IH. intros; apply H; right; assumption.
Qed.
Lemma load_total se le L content n k : 0 < se -> n <= 65535 -> se * (1 + n) + total L < 2 ^ (8 * se) -> forall a t, loading se t -> fitting L t ->
  zlen (dataindextb t) + Z.of_nat k <= n -> (forall i, (a <= i < a + k)%nat -> exists s, entry le content i = Some s /\ In s L) ->
  exists t', load_loop_tbl se le content (seq a k) t = Some t'.
Proof.
  intros Hse Hn Hc. induction k as [|k IH]; intros a t Hl Hf Hk He; cbn [seq load_loop_tbl]; [eauto|].
  destruct (He a) as (s & -> & Is); [lia|].
  assert (D : exists t1, match s with [] => match find_next le content (fun _ => false) (fun _ s => s) (seq (S a) k) with Some e => Some (push_empty (pred a, e) t) | None => None end | _ => Some t end = Some t1
     /\ loading se t1 /\ fitting L t1 /\ dataindextb t1 = dataindextb t).
  { destruct s; [|exists t; auto]. destruct (find_next_total le content (seq (S a) k)) as [e ->].
    - intros j Hj. apply in_seq in Hj. destruct (He j) as (s & E & _); [lia|eauto].
    - eexists. split; [reflexivity|]. split; [exact Hl|]. split; [exact Hf|reflexivity]. }
  destruct D as (t1 & -> & L1 & F1 & E1). destruct (add_fits se L n t1 s Hse L1 F1 Is) as (i & t2 & A & F2); [rewrite E1; lia|exact Hn|exact Hc|]. rewrite A.
  apply add_loading in A; [|exact L1]. destruct A as (A1 & _ & A3 & _). rewrite E1 in A3. apply IH; auto.
  - unfold zlen in *. lia.
  - intros j Hj. apply He. lia.
Qed.
Lemma save_load se t : se = 2 \/ se = 4 -> base se t -> bounded se t -> Forall (fun s => Forall byte s /\ ~ In 0 s) (datatb t) ->
  exists t', load_tbl se se (save_tbl se t) = Some t' /\ tbl_ok se t' /\ bounded se t' /\ forall i, GetString t' i = GetString t i.
Proof.
  intros Hse B Hb Hd. assert (P : 0 < se) by lia.
  assert (Hby : Forall byte (save_tbl se t)) by (apply save_bytes; [exact Hse|]; eapply Forall_impl; [|exact Hd]; cbv beta; tauto).
  assert (E : forall i, (1 <= i <= List.length (dataindextb t))%nat -> exists s, GetString t i = Some s /\ entry se (save_tbl se t) i = Some s /\ In s (datatb t)).
  { intros [|i] Hi; [lia|]. pose proof B as (B1 & _). destruct (nth_error (dataindextb t) i) as [d|] eqn:Ei; [|apply nth_error_None in Ei; lia].
    assert (Ld : (d < List.length (datatb t))%nat) by (rewrite Forall_forall in B1; apply B1; eapply nth_error_In; exact Ei).
    destruct (nth_error (datatb t) d) as [s|] eqn:Ed; [|apply nth_error_None in Ed; lia].
    assert (G : GetString t (S i) = Some s) by (cbn; rewrite Ei; exact Ed). exists s. split; [exact G|]. assert (I : In s (datatb t)) by (eapply nth_error_In; exact Ed). split; [|exact I].
    apply stored_entry; auto; [|apply save_stored; auto]. rewrite Forall_forall in Hd. apply Hd. exact I. }
  pose proof (save_count se t Hse Hb) as Hn. pose proof Hb as [Hc Hn'].
  destruct (load_total se se (datatb t) (save_tbl se t) (zlen (dataindextb t)) (Z.to_nat (zlen (dataindextb t))) P Hn') with (a := 1%nat) (t := new_tbl se) as [t1 L].
  - destruct B as (_ & _ & B3). rewrite <- B3. exact Hc.
  - apply new_loading.
  - split; [constructor|]. split; [intros ? []|intros ? []].
  - cbn [new_tbl dataindextb]. unfold zlen. cbn [List.length]. lia.
  - intros i Hi. destruct (E i) as (s & _ & E2 & E3); [unfold zlen in Hi; lia|]. eauto.
  - assert (Ld : load_tbl se se (save_tbl se t) = Some (set_loaded t1)) by (unfold load_tbl; rewrite Hn, L; reflexivity).
    exists (set_loaded t1). split; [exact Ld|]. destruct (load_ok se se _ _ _ P Hn Ld) as (C1 & C2 & C3 & C4). split; [exact C1|]. split; [exact C2|].
    intros i. assert (D : i = O \/ (1 <= i <= List.length (dataindextb t))%nat \/ (List.length (dataindextb t) < i)%nat) by lia. destruct D as [->|[D|D]].
    + reflexivity.
    + destruct (E i D) as (s & E1 & E2 & _). destruct (C4 i) as (s' & E3 & ->); [unfold zlen; lia|]. congruence.
    + destruct i as [|i]; [lia|]. unfold zlen in C3. cbn [GetString]. assert (Q1 : nth_error (dataindextb t) i = None) by (apply nth_error_None; lia).
      assert (Q2 : nth_error (dataindextb (set_loaded t1)) i = None) by (apply nth_error_None; lia). rewrite Q1, Q2. reflexivity.
Qed.
