(* Properties of string tables and of the names of locations and switches. *)
From Coq Require Import String ZArith Lia List Bool.
From Verif Require Import Dict BinModel BinProofs ChkModel TblModel TblProofs TblLoad TblSave.
Import ListNotations.
Open Scope Z_scope.

(* ================= C36: string ids ================= *)
(* tables that can occur: loaded from a file, or with a scenario whose string
   offsets are all inside the section, and then any operations *)
Inductive reachable (se : Z) : tbl -> Prop :=
| R_load le content t : load_tbl se le content = Some t -> reachable se t
| R_chk le reenc chkt content n t m : b2in le content 0 = Some n ->
    (forall i, (1 <= i <= Z.to_nat n)%nat -> lenient_entry le content i <> Some None) ->
    load_tbl_with_chk se le reenc chkt content = Some (t, m) -> reachable se t
| R_op o t i t' : reachable se t -> run_op se o t = Some (i, t') -> reachable se t'.
Definition mrgn_of (chkt : sections) : bytes := match getsection chkt (bytes_of "MRGN") with Some x => x | None => [] end.
Lemma load_chk_inv se le reenc chkt content t m : load_tbl_with_chk se le reenc chkt content = Some (t, m) ->
  exists u l w r n t0, b2in le content 0 = Some n /\
    load_loop_chk se le reenc u l w r content (seq 1 (Z.to_nat n)) (new_tbl se) (mk_maps [] [] []) = Some (t0, m) /\ t = set_loaded t0 /\
    iddict (fun i => b2i2 (mrgn_of chkt) (20 * i + 16)) (seq 0 (Z.to_nat (zlen (mrgn_of chkt) / 20))) [] = Some l.
Proof.
  unfold load_tbl_with_chk. destruct (getsection chkt (bytes_of "UNIx")) as [unix|]; [|discriminate]. destruct (getsection chkt (bytes_of "SPRP")) as [sprp|]; [|discriminate].
  destruct (getsection chkt (bytes_of "FORC")) as [forc|]; [|discriminate]. cbv zeta.
  match goal with |- match ?X with _ => _ end = _ -> _ => destruct X as [l|] eqn:El end; [|discriminate].
  match goal with |- match ?X with _ => _ end = _ -> _ => destruct X as [w|] end; [|discriminate].
  match goal with |- match ?X with _ => _ end = _ -> _ => destruct X as [u|] end; [|discriminate].
  match goal with |- match ?X with _ => _ end = _ -> _ => destruct X as [r1|] end; [|discriminate].
  match goal with |- match ?X with _ => _ end = _ -> _ => destruct X as [r2|] end; [|discriminate].
  destruct (b2in le content 0) as [n|]; [|discriminate].
  destruct (load_loop_chk _ _ _ _ _ _ _ _ _ _ _) as [[t0 m0]|] eqn:L; [|discriminate]. intros Q. injection Q as <- <-.
  exists u, l, w, (r1 ++ r2)%list, n, t0. split; [reflexivity|]. split; [exact L|]. split; [reflexivity|exact El].
Qed.
Lemma reachable_ok se t : se = 2 \/ se = 4 -> reachable se t -> tbl_ok se t /\ bounded se t.
Proof.
  intros Hse R. assert (P : 0 < se) by lia. induction R as [le content t H|le reenc chkt content n t m Hn NS H|o t i t' R IH E].
  - unfold load_tbl in H. destruct (b2in le content 0) as [n|] eqn:Hn; [|discriminate].
    destruct (load_ok se le content n t P Hn) as (A & B & _); [unfold load_tbl; rewrite Hn; exact H|auto].
  - apply load_chk_inv in H. destruct H as (u & l & w & r & n' & t0 & Hn' & L & -> & _). rewrite Hn in Hn'. injection Hn' as <-.
    destruct (load_chk_ok se le reenc u l w r content _ t0 m P NS L) as (A & B & _). auto.
  - destruct IH as [A B]. destruct (op_ok se o t i t' A B E) as (C & D & _). auto.
Qed.

(* non-empty strings keep their ids; every operation returns an id of its string,
   which stays one *)
Theorem C36_stable (se : Z) (t t' : tbl) (os : list op) (is : list nat) : se = 2 \/ se = 4 -> reachable se t ->
  run_ops se os t = Some (is, t') ->
  (forall i s, GetString t i = Some s -> s <> [] -> GetString t' i = Some s) /\
  Forall2 (fun o i => op_string o <> [] -> GetString t' i = Some (op_string o)) os is.
Proof.
  intros Hse R H. destruct (reachable_ok se t Hse R) as [A B]. destruct (ops_ok se os t is t' A B H) as (_ & _ & (K & _) & F). split; [auto|].
  clear - F. induction F as [|x y l l' Q F IH]; constructor; tauto.
Qed.
Print Assumptions C36_stable.
(* looking strings up: the same string gets the same id, different ones differ *)
Theorem C36_lookup (se : Z) (t t' : tbl) (os : list op) (is : list nat) (a b : nat) (s s' : bytes) (i j : nat) : se = 2 \/ se = 4 -> reachable se t ->
  run_ops se os t = Some (is, t') ->
  nth_error os a = Some (OGet s) -> nth_error os b = Some (OGet s') -> nth_error is a = Some i -> nth_error is b = Some j ->
  s <> [] -> s' <> [] -> (i = j <-> s = s').
Proof.
  intros Hse R H Ea Eb Ei Ej Ns Ns'. destruct (reachable_ok se t Hse R) as [A B]. destruct (ops_ok se os t is t' A B H) as (_ & _ & _ & F).
  assert (P : forall n o k, nth_error os n = Some o -> nth_error is n = Some k ->
    (op_string o <> [] -> GetString t' k = Some (op_string o)) /\ (forall s, o = OGet s -> dget bytes_dec s (stringmap t') = Some (pred k) /\ k <> O)).
  { clear - F. induction F as [|x y l l' Q F IH]; intros [|n] o k Ho Hk; cbn in *; try discriminate; [injection Ho as <-; injection Hk as <-; exact Q|eauto]. }
  destruct (P _ _ _ Ea Ei) as [G1 G2]. destruct (P _ _ _ Eb Ej) as [G3 G4]. destruct (G2 s eq_refl) as [G5 G6]. destruct (G4 s' eq_refl) as [G7 G8]. split.
  - intros <-. specialize (G1 Ns). specialize (G3 Ns'). rewrite G1 in G3. injection G3 as G3. exact G3.
  - intros <-. rewrite G5 in G7. injection G7 as G7. lia.
Qed.
Print Assumptions C36_lookup.
(* an operation fails only when the table is full *)
Theorem C36_total (se : Z) (t : tbl) (s : bytes) : se = 2 \/ se = 4 -> reachable se t -> AddString se s t = None ->
  2 ^ (8 * se) <= capacity t + room s + se \/ 65535 <= Z.of_nat (List.length (dataindextb t)).
Proof.
  intros Hse R H. destruct (reachable_ok se t Hse R) as [A B]. assert (P : 0 < se) by lia. destruct (add_total se t s P A H) as [Q|Q]; [left|right; exact Q].
  destruct A as ((_ & _ & ->) & _). lia.
Qed.
Print Assumptions C36_total.
(* saving: every id leads to its string and a terminator; and a table whose
   strings contain no NUL is read back with the same ids *)
Theorem C36_saved (se : Z) (t : tbl) : se = 2 \/ se = 4 -> reachable se t ->
  (forall i s, GetString t i = Some s -> stored (Z.to_nat se) (save_tbl se t) i s) /\
  (Forall (fun s => Forall byte s /\ ~ In 0 s) (datatb t) ->
   exists t', load_tbl se se (save_tbl se t) = Some t' /\ forall i, GetString t' i = GetString t i).
Proof.
  intros Hse R. destruct (reachable_ok se t Hse R) as [(A & _) B]. split.
  - intros i s G. apply save_stored; assumption.
  - intros Hd. destruct (save_load se t Hse A B Hd) as (t' & H1 & _ & _ & H2). eauto.
Qed.
Print Assumptions C36_saved.
(* loading finds exactly the strings of the file *)
Theorem C36_load (se le : Z) (content : bytes) (n : Z) (t : tbl) : se = 2 \/ se = 4 -> le = 2 \/ le = 4 -> Forall byte content ->
  b2in le content 0 = Some n -> load_tbl se le content = Some t ->
  (forall i, (1 <= i <= Z.to_nat n)%nat -> exists s, GetString t i = Some s /\ ~ In 0 s /\ stored (Z.to_nat le) content i s) /\
  (forall i, (Z.to_nat n < i)%nat -> GetString t i = None).
Proof.
  intros Hse Hle Hb Hn H. assert (P : 0 < se) by lia. destruct (load_ok se le content n t P Hn H) as (_ & _ & L & Q). split.
  - intros i Hi. destruct (Q i Hi) as (s & E & G). exists s. split; [exact G|]. apply entry_stored in E; auto. tauto.
  - intros [|i] Hi; [lia|]. cbn [GetString]. assert (E : nth_error (dataindextb t) i = None) by (apply nth_error_None; lia). rewrite E. reflexivity.
Qed.
Print Assumptions C36_load.
(* with the scenario: names of locations and switches become empty, unless also
   used elsewhere; all others are kept (unit names re-encoded) *)
Theorem C36_load_chk (se le : Z) (reenc : bytes -> bytes) (chkt : sections) (content : bytes) (n : Z) (t : tbl) (m : maps) :
  se = 2 \/ se = 4 -> b2in le content 0 = Some n ->
  (forall i, (1 <= i <= Z.to_nat n)%nat -> lenient_entry le content i <> Some None) ->
  load_tbl_with_chk se le reenc chkt content = Some (t, m) ->
  exists unitdict locdict swnmdict reserved, forall i, (1 <= i <= Z.to_nat n)%nat ->
    GetString t i = Some (if removed unitdict locdict swnmdict reserved i then [] else named le reenc unitdict content i).
Proof.
  intros Hse Hn NS H. assert (P : 0 < se) by lia. apply load_chk_inv in H. destruct H as (u & l & w & r & n' & t0 & Hn' & L & -> & _). rewrite Hn in Hn'. injection Hn' as <-.
  destruct (load_chk_ok se le reenc u l w r content _ t0 m P NS L) as (_ & _ & _ & Q). exists u, l, w, r. exact Q.
Qed.
Print Assumptions C36_load_chk.

(* ---------- what is not true ---------- *)
Definition b (s : string) : bytes := bytes_of s.
(* a file with the strings "A", "" and "B" (16-bit offsets) *)
Definition file : bytes := i2b2 3 ++ i2b2 8 ++ i2b2 9 ++ i2b2 10 ++ [65; 0; 66; 0].
(* AddString gives equal strings different ids *)
Theorem C36_add_same_refuted : exists t i j t' t'', reachable 4 t /\ AddString 4 (b "C") t = Some (i, t') /\ AddString 4 (b "C") t' = Some (j, t'') /\ i <> j.
Proof.
  destruct (load_tbl 4 2 file) as [t|] eqn:E; [|discriminate E]. exists t. vm_compute in E. injection E as <-.
  exists 1%nat, 3%nat. eexists. eexists. split; [apply (R_load 4 2 file); reflexivity|]. split; [reflexivity|]. split; [reflexivity|discriminate].
Qed.
Print Assumptions C36_add_same_refuted.
(* the id of the empty string is given to another string, so that looking up
   the empty string finds that other string *)
Theorem C36_empty_refuted : exists t i j t' s, reachable 4 t /\ s <> [] /\
  run_ops 4 [OGet []; OAdd s; OGet []] t = Some ([i; j; i], t') /\ GetString t i = Some [] /\ GetString t' i = Some s.
Proof.
  destruct (load_tbl 4 2 file) as [t|] eqn:E; [|discriminate E]. exists t. vm_compute in E. injection E as <-.
  exists 2%nat, 2%nat. eexists. exists (b "C"). split; [apply (R_load 4 2 file); reflexivity|]. split; [discriminate|]. split; [reflexivity|]. split; reflexivity.
Qed.
Print Assumptions C36_empty_refuted.
(* an invalid offset shifts all following ids; then a string of the map is
   overwritten *)
Definition bad_file : bytes := i2b2 3 ++ i2b2 99 ++ i2b2 9 ++ i2b2 8 ++ [65; 0].
Definition bare_chk : sections := [(b "UNIx", []); (b "SPRP", []); (b "FORC", [])].
Theorem C36_invalid_offset_refuted : exists chkt content t m i t', load_tbl_with_chk 4 2 (fun s => s) chkt content = Some (t, m) /\
  GetString t 2 = Some (b "A") /\ lenient_entry 2 content 2 = Some (Some []) /\ lenient_entry 2 content 3 = Some (Some (b "A")) /\
  first_extended t <> None /\ AddString 4 (b "C") t = Some (i, t') /\ GetString t' 2 = Some (b "A") /\ GetString t' 3 <> Some (b "A").
Proof.
  exists bare_chk, bad_file. eexists. eexists. eexists. eexists. split; [vm_compute; reflexivity|].
  split; [reflexivity|]. split; [reflexivity|]. split; [reflexivity|]. split; [discriminate|]. split; [vm_compute; reflexivity|]. split; [reflexivity|discriminate].
Qed.
Print Assumptions C36_invalid_offset_refuted.
Definition bad_file2 : bytes := i2b2 5 ++ i2b2 12 ++ i2b2 99 ++ i2b2 13 ++ i2b2 14 ++ i2b2 16 ++ [65; 0; 66; 0; 67; 0].
Theorem C36_overwritten_refuted : exists chkt content t m i t' s, load_tbl_with_chk 4 2 (fun s => s) chkt content = Some (t, m) /\
  s <> [] /\ GetString t 3 = Some s /\ AddString 4 (b "new") t = Some (i, t') /\ GetString t' 3 = Some (b "new").
Proof.
  exists bare_chk, bad_file2. eexists. eexists. eexists. eexists. exists (b "B"). split; [vm_compute; reflexivity|].
  split; [discriminate|]. split; [reflexivity|]. split; [vm_compute; reflexivity|reflexivity].
Qed.
Print Assumptions C36_overwritten_refuted.

(* ================= C37: size of the table ================= *)
(* the bookkeeping is the length of the saved table for 4-byte entries; for
   2-byte entries it is up to two bytes too small *)
Theorem C37_size (se : Z) (t : tbl) : se = 2 \/ se = 4 -> reachable se t ->
  let size := Z.of_nat (List.length (save_tbl se t)) in
  capacity t <= size < capacity t + 4 /\ size mod 4 = 0 /\ (se = 4 -> size = capacity t) /\ capacity t < 2 ^ (8 * se).
Proof.
  intros Hse R. cbv zeta. destruct (reachable_ok se t Hse R) as [(A & _) [B _]]. pose proof (save_len se t Hse A) as L. destruct A as (_ & _ & E).
  assert (M : total (datatb t) mod 4 = 0).
  { unfold total. generalize (datatb t). intros l. induction l as [|x l IH]; [reflexivity|]. cbn [fold_right]. destruct (room_bounds x) as [_ Q].
    rewrite Z.add_mod, Q, IH by lia. reflexivity. }
  rewrite L. split; [|split; [|split; [|exact B]]].
  - pose proof (Z.div_mod (capacity t + 3) 4). pose proof (Z.mod_pos_bound (capacity t + 3) 4). lia.
  - rewrite Z.mul_comm. apply Z.mod_mul. lia.
  - intros ->. rewrite E. apply Z.mod_divide in M; [|lia]. destruct M as [k ->].
    replace (4 * (1 + zlen (dataindextb t)) + k * 4 + 3) with (3 + (1 + zlen (dataindextb t) + k) * 4) by lia. rewrite Z.div_add by lia. change (3 / 4) with 0. lia.
Qed.
Print Assumptions C37_size.
Theorem C37_size2_refuted : exists t, reachable 2 t /\ Z.of_nat (List.length (save_tbl 2 t)) <> capacity t.
Proof.
  destruct (load_tbl 2 2 (i2b2 2 ++ i2b2 6 ++ i2b2 6 ++ [65; 0])) as [t|] eqn:E; [|discriminate E]. exists t. split; [apply (R_load 2 2 _ t E)|]. vm_compute in E. injection E as <-. vm_compute. discriminate.
Qed.
Print Assumptions C37_size2_refuted.

(* ================= C55: names of locations ================= *)
(* location k has the name s *)
Definition location_name (chkt : sections) (content : bytes) (le n : Z) (k : nat) (s : bytes) : Prop :=
  exists mrgn z, getsection chkt (bytes_of "MRGN") = Some mrgn /\ (20 * k + 20 <= List.length mrgn)%nat /\
    b2i2 mrgn (20 * k + 16) = Some z /\ z <> 0 /\ 0 <= z <= n /\ lenient_entry le content (Z.to_nat z) = Some (Some s) /\ s <> [].
(* no two locations use the same string id *)
Definition ids_distinct (chkt : sections) : Prop := forall mrgn k k' z, getsection chkt (bytes_of "MRGN") = Some mrgn ->
  (20 * k + 20 <= List.length mrgn)%nat -> (20 * k' + 20 <= List.length mrgn)%nat ->
  b2i2 mrgn (20 * k + 16) = Some z -> b2i2 mrgn (20 * k' + 16) = Some z -> z <> 0 -> k = k'.
Lemma filter_one {A} (f : A -> bool) l p : NoDup l -> (In p l /\ f p = true /\ forall q, In q l -> f q = true -> q = p) -> filter f l = [p].
Proof.
  induction 1 as [|x l Hx Hl IH]; intros (H1 & H2 & H3); [destruct H1|]. cbn [filter]. destruct (f x) eqn:Fx.
  - assert (x = p) by (apply H3; [left; reflexivity|exact Fx]). subst x. f_equal.
    destruct (filter f l) as [|q r] eqn:E; [reflexivity|]. exfalso. assert (I : In q (filter f l)) by (rewrite E; left; reflexivity). apply filter_In in I.
    assert (q = p) by (apply H3; [right|]; tauto). subst q. tauto.
  - apply IH. split; [destruct H1; [congruence|assumption]|]. split; [exact H2|]. intros q Hq. apply H3. right. exact Hq.
Qed.
Lemma filter_one_inv {A} (f : A -> bool) l p : filter f l = [p] -> In p l /\ f p = true /\ forall q, In q l -> f q = true -> q = p.
Proof.
  intros H. assert (I : In p (filter f l)) by (rewrite H; left; reflexivity). apply filter_In in I. split; [tauto|]. split; [tauto|]. intros q Hq Fq.
  assert (J : In q (filter f l)) by (apply filter_In; auto). rewrite H in J. destruct J as [->|[]]. reflexivity.
Qed.
Theorem C55_location (se le : Z) (chkt : sections) (content : bytes) (n : Z) (t : tbl) (m : maps) (s : bytes) (k : nat) :
  Forall byte content -> (forall x, getsection chkt (bytes_of "MRGN") = Some x -> Forall byte x) -> le = 2 \/ le = 4 ->
  b2in le content 0 = Some n -> ids_distinct chkt ->
  load_tbl_with_chk se le (fun s => s) chkt content = Some (t, m) ->
  (idmap_get s (locmap m) = Some k <->
   location_name chkt content le n k s /\ forall k', location_name chkt content le n k' s -> k' = k).
Proof.
  intros Hb Hm Hle Hn Hd H. apply load_chk_inv in H. destruct H as (u & l & w & r & n' & t0 & Hn' & L & -> & El). rewrite Hn in Hn'. injection Hn' as <-.
  apply load_names in L. destruct L as [L _]. cbn [locmap] in L. rewrite L, idmap_get_spec. clear L.
  set (mrgn := mrgn_of chkt) in *.
  assert (Hmb : Forall byte mrgn) by (subst mrgn; unfold mrgn_of; destruct (getsection chkt (bytes_of "MRGN")); [apply Hm; reflexivity|constructor]).
  assert (Hn0 : 0 <= n).
  { destruct Hle as [->| ->]; unfold b2in in Hn; cbn [Z.eqb Pos.eqb] in Hn; [apply b2i2_some in Hn|apply b2i4_some in Hn]; auto; lia. }
  assert (LD : forall z i, dget Z.eq_dec z l = Some i <-> z <> 0 /\ (20 * i + 20 <= List.length mrgn)%nat /\ b2i2 mrgn (20 * i + 16) = Some z).
  { intros z i. rewrite (iddict_spec _ _ _ _ El z). destruct (find _ (rev _)) as [j|] eqn:F.
    - apply find_some in F. destruct F as [F1 F2]. cbv beta in F2. apply in_rev, in_seq in F1. destruct (b2i2 mrgn (20 * j + 16)) as [x|] eqn:Ex; [|discriminate].
      apply andb_prop in F2. destruct F2 as [F2 F3]. apply Z.eqb_eq in F2. subst x. apply negb_true_iff, Z.eqb_neq in F3.
      assert (Lj : (20 * j + 20 <= List.length mrgn)%nat).
      { unfold zlen in F1. assert (Z.of_nat j < Z.of_nat (List.length mrgn) / 20) by lia. pose proof (Z.mul_div_le (Z.of_nat (List.length mrgn)) 20). lia. }
      split; [intros Q; injection Q as <-; auto|]. intros (Q1 & Q2 & Q3). f_equal.
      destruct (getsection chkt (bytes_of "MRGN")) as [x|] eqn:G; [|subst mrgn; unfold mrgn_of in Lj; rewrite G in Lj; cbn in Lj; lia]. subst mrgn. unfold mrgn_of in *. rewrite G in *. eapply Hd; eauto.
    - cbn [dget]. split; [discriminate|]. intros (Q1 & Q2 & Q3). exfalso.
      assert (I : In i (rev (seq 0 (Z.to_nat (zlen mrgn / 20))))).
      { apply -> in_rev. apply in_seq. unfold zlen. assert (Z.of_nat (20 * i + 20) / 20 <= Z.of_nat (List.length mrgn) / 20) by (apply Z.div_le_mono; lia).
        replace (Z.of_nat (20 * i + 20)) with (Z.of_nat (i + 1) * 20) in H by lia. rewrite Z.div_mul in H by lia. lia. }
      apply (find_none _ _ F) in I. rewrite Q3, Z.eqb_refl in I. cbn in I. apply negb_false_iff, Z.eqb_eq in I. contradiction. }
  set (A := adds le (fun s => s) u l content (seq 1 (Z.to_nat n))).
  assert (Nm : forall i, named le (fun s => s) u content i = match lenient_entry le content i with Some (Some x) => x | _ => [] end).
  { intros i. unfold named, recode_unit. destruct (lenient_entry le content i) as [[[|c x]|]|]; try reflexivity. destruct (has _ u); reflexivity. }
  assert (IA : forall x i, In (x, i) A <-> exists z, z <> 0 /\ 0 <= z <= n /\ (20 * i + 20 <= List.length mrgn)%nat /\ b2i2 mrgn (20 * i + 16) = Some z /\
       lenient_entry le content (Z.to_nat z) = Some (Some x) /\ x <> []).
  { intros x i. unfold A, adds. rewrite in_flat_map. split.
    - intros (j & J1 & J2). apply in_seq in J1. rewrite Nm in J2. destruct (lenient_entry le content j) as [[[|c y]|]|] eqn:Ej; try destruct J2.
      destruct (dget Z.eq_dec (Z.of_nat j) l) as [k0|] eqn:D; [|destruct J2]. destruct J2 as [J2|[]]. injection J2 as <- <-. apply LD in D. destruct D as (D1 & D2 & D3).
      exists (Z.of_nat j). rewrite Nat2Z.id. split; [exact D1|]. split; [lia|]. split; [exact D2|]. split; [exact D3|]. split; [exact Ej|discriminate].
    - intros (z & Z1 & Z2 & Z3 & Z4 & Z5 & Z6). exists (Z.to_nat z). split; [apply in_seq; lia|]. rewrite Nm, Z5. destruct x as [|c x]; [congruence|].
      rewrite Z2Nat.id by lia. assert (D : dget Z.eq_dec z l = Some i) by (apply LD; auto). rewrite D. left. reflexivity. }
  assert (LN : forall x i, location_name chkt content le n i x <-> In (x, i) A).
  { intros x i. rewrite IA. unfold location_name. split.
    - intros (mr & z & G & Q1 & Q2 & Q3 & Q4 & Q5 & Q6). exists z. subst mrgn. unfold mrgn_of. rewrite G. auto 10.
    - intros (z & Z1 & Z2 & Z3 & Z4 & Z5 & Z6). exists mrgn, z. split; [|auto 10]. subst mrgn. unfold mrgn_of in *. destruct (getsection chkt (bytes_of "MRGN")) as [x0|] eqn:G; [reflexivity|cbn in Z3; lia]. }
  assert (ND : NoDup A).
  { clear IA LN. unfold A, adds. assert (Nd : NoDup (seq 1 (Z.to_nat n))) by apply seq_NoDup. revert Nd.
    generalize (seq 1 (Z.to_nat n)). intros is. induction is as [|i is IH]; intros Nd; [constructor|]. inversion Nd as [|? ? N1 N2]; subst. cbn [flat_map].
    specialize (IH N2). destruct (named le (fun s0 => s0) u content i) as [|c y] eqn:En; [exact IH|]. destruct (dget Z.eq_dec (Z.of_nat i) l) as [k0|] eqn:D; [|exact IH].
    cbn [app]. constructor; [|exact IH]. intros Q. apply in_flat_map in Q. destruct Q as (j & J1 & J2). destruct (named le (fun s0 => s0) u content j); [destruct J2|].
    destruct (dget Z.eq_dec (Z.of_nat j) l) as [k1|] eqn:D1; [|destruct J2]. destruct J2 as [J2|[]]. injection J2 as _ _ ->. apply LD in D, D1. destruct D as (_ & _ & D). destruct D1 as (_ & _ & D1).
    rewrite D in D1. injection D1 as D1. assert (i = j) by lia. subst j. contradiction. }
  split.
  - intros F. apply filter_one_inv in F. destruct F as (F1 & F2 & F3). split; [apply LN; exact F1|]. intros k' Hk'. apply LN in Hk'. apply F3 in Hk'; [injection Hk' as <-; reflexivity|].
    unfold name_is. cbn [fst]. destruct (bytes_dec s s); congruence.
  - intros [H1 H2]. apply filter_one; [exact ND|]. split; [apply LN; exact H1|]. split; [unfold name_is; cbn [fst]; destruct (bytes_dec s s); congruence|].
    intros [x i] Hq Fq. unfold name_is in Fq. cbn [fst] in Fq. destruct (bytes_dec s x) as [<-|]; [|discriminate]. f_equal. apply H2. apply LN. exact Hq.
Qed.
Print Assumptions C55_location.
(* two locations that share one string id are not seen as ambiguous *)
Definition loc (id : Z) : bytes := repeat 0 16 ++ i2b2 id ++ [0; 0].
Definition loc_chk (ids : list Z) : sections := (b "MRGN", concat (map loc ids)) :: bare_chk.
Theorem C55_ambiguous_refuted : exists chkt content t m s k k', load_tbl_with_chk 4 2 (fun s => s) chkt content = Some (t, m) /\
  location_name chkt content 2 3 k s /\ location_name chkt content 2 3 k' s /\ k <> k' /\ idmap_get s (locmap m) = Some k'.
Proof.
  exists (loc_chk [1; 3; 1]), file. eexists. eexists. exists (b "A"), 0%nat, 2%nat. split; [vm_compute; reflexivity|].
  split; [exists (concat (map loc [1; 3; 1])), 1; repeat split; try discriminate; cbn; lia|].
  split; [exists (concat (map loc [1; 3; 1])), 1; repeat split; try discriminate; cbn; lia|]. split; [discriminate|reflexivity].
Qed.
Print Assumptions C55_ambiguous_refuted.

(* a map with two locations "A" and "B"; their strings are freed and reused *)
Example C36_ex : exists t m is t', load_tbl_with_chk 4 2 (fun s => s) (loc_chk [1; 3]) file = Some (t, m) /\
  idmap_get (b "B") (locmap m) = Some 1%nat /\ GetString t 1 = Some [] /\ GetString t 3 = Some [] /\
  run_ops 4 [OGet (b "x"); OGet (b "yy"); OGet (b "x"); OForce (b "x")] t = Some (is, t') /\ is = [4; 5; 4; 6]%nat.
Proof. eexists. eexists. eexists. eexists. split; [vm_compute; reflexivity|]. split; [reflexivity|]. split; [reflexivity|]. split; [reflexivity|]. split; [vm_compute; reflexivity|reflexivity]. Qed.
Example C36_ex2 : exists t is t', reachable 4 t /\ load_tbl 4 2 file = Some t /\
  run_ops 4 [OGet (b "x"); OGet (b "yy"); OGet (b "A"); OGet (b "x")] t = Some (is, t') /\ is = [2; 4; 1; 2]%nat /\
  save_tbl 4 t' = (i2b4 4 ++ i2b4 20 ++ i2b4 28 ++ i2b4 32 ++ i2b4 36 ++ [65;0;0;0; 0;0;0;0; 120;0;0;0; 66;0;0;0; 121;121;0;0])%list.
Proof.
  destruct (load_tbl 4 2 file) as [t|] eqn:E; [|discriminate E]. exists t. pose proof E as E'. vm_compute in E'. injection E' as <-.
  eexists. eexists. split; [apply (R_load 4 2 file); reflexivity|]. split; [reflexivity|]. split; [reflexivity|]. split; reflexivity.
Qed.
