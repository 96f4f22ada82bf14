(* Property C55 for the names of switches and units. *)
From Coq Require Import String ZArith Lia FinFun List Bool.
From Verif Require Import Dict BinModel BinProofs ChkModel TblModel TblProofs TblLoad TblSave PropTbl.
Import ListNotations.
Open Scope Z_scope.

(* ---------- specification ---------- *)
(* string z of the string section *)
Definition string_is (content : bytes) (le n z : Z) (s : bytes) : Prop :=
  z <> 0 /\ 0 <= z <= n /\ lenient_entry le content (Z.to_nat z) = Some (Some s) /\ s <> [].
(* switch k: the SWNM section has 256 string ids of 4 bytes *)
Definition switch_id (chkt : sections) (k : nat) (z : Z) : Prop :=
  exists swnm, getsection chkt (bytes_of "SWNM") = Some swnm /\ (k < 256)%nat /\ b2i4 swnm (4 * k) = Some z.
Definition switch_name (chkt : sections) (content : bytes) (le n : Z) (k : nat) (s : bytes) : Prop :=
  exists z, switch_id chkt k z /\ string_is content le n z s.
(* unit k: the UNIx section has 228 string ids of 2 bytes after 228 * 14 bytes *)
Definition unit_id (chkt : sections) (k : nat) (z : Z) : Prop :=
  exists unix, getsection chkt (bytes_of "UNIx") = Some unix /\ (k < 228)%nat /\ b2i2 unix (228 * 14 + 2 * k) = Some z.
(* the text without colour codes *)
Inductive plain_text : bytes -> bytes -> Prop :=
| pt_nil : plain_text [] []
| pt_code x s r : 1 <= x <= 31 \/ x = 127 -> plain_text s r -> plain_text (x :: s) r
| pt_char x s r : ~ (1 <= x <= 31) -> x <> 127 -> plain_text s r -> plain_text (x :: s) (x :: r).
(* a unit can be called by its name with or without the colour codes *)
Definition unit_name (chkt : sections) (content : bytes) (le n : Z) (k : nat) (s : bytes) : Prop :=
  exists z s0, unit_id chkt k z /\ string_is content le n z s0 /\ (s = s0 \/ plain_text s0 s) /\ s <> [].
(* no two items use the same string id *)
Definition own_ids (ids : nat -> Z -> Prop) : Prop := forall k k' z, ids k z -> ids k' z -> z <> 0 -> k = k'.
Definition only (name : nat -> bytes -> Prop) (s : bytes) (k : nat) : Prop := name k s /\ forall k', name k' s -> k' = k.

(* ---------- proof ---------- *)
Lemma load_chk_inv2 se le reenc chkt content t m : load_tbl_with_chk se le reenc chkt content = Some (t, m) ->
  exists u l w r n t0 unix, b2in le content 0 = Some n /\
    load_loop_chk se le reenc u l w r content (seq 1 (Z.to_nat n)) (new_tbl se) (mk_maps [] [] []) = Some (t0, m) /\
    getsection chkt (bytes_of "UNIx") = Some unix /\
    iddict (fun i => b2i4 (match getsection chkt (bytes_of "SWNM") with Some b => b | None => [] end) (4 * i))
      (seq 0 (match (match getsection chkt (bytes_of "SWNM") with Some b => b | None => [] end) with [] => O | _ => 256%nat end)) [] = Some w /\
    iddict (fun i => b2i2 unix (3192 + i * 2)) (seq 0 (match unix with [] => O | _ => 228%nat end)) [] = Some u.
Proof.
  unfold load_tbl_with_chk. destruct (getsection chkt (bytes_of "UNIx")) as [unix|]; [|discriminate]. destruct (getsection chkt (bytes_of "SPRP")) as [sprp|]; [|discriminate].
  destruct (getsection chkt (bytes_of "FORC")) as [forc|]; [|discriminate]. cbv zeta.
  match goal with |- match ?X with _ => _ end = _ -> _ => destruct X as [l|] end; [|discriminate].
  match goal with |- match ?X with _ => _ end = _ -> _ => destruct X as [w|] eqn:Ew end; [|discriminate].
  match goal with |- match ?X with _ => _ end = _ -> _ => destruct X as [u|] eqn:Eu end; [|discriminate].
  match goal with |- match ?X with _ => _ end = _ -> _ => destruct X as [r1|] end; [|discriminate].
  match goal with |- match ?X with _ => _ end = _ -> _ => destruct X as [r2|] end; [|discriminate].
  destruct (b2in le content 0) as [n|]; [|discriminate].
  destruct (load_loop_chk _ _ _ _ _ _ _ _ _ _ _) as [[t0 m0]|] eqn:L; [|discriminate]. intros Q. injection Q as _ <-.
  exists u, l, w, (r1 ++ r2)%list, n, t0, unix. auto 10.
Qed.

(* which item an id stands for, when ids are not shared *)
Lemma iddict_own (ids : nat -> Z -> Prop) rd is d : iddict rd is [] = Some d -> own_ids ids ->
  (forall i z, (In i is /\ rd i = Some z) <-> ids i z) ->
  forall z i, dget Z.eq_dec z d = Some i <-> z <> 0 /\ ids i z.
Proof.
  intros El Hd Hi z i. rewrite (iddict_spec _ _ _ _ El z). destruct (find _ (rev is)) as [j|] eqn:F.
  - apply find_some in F. destruct F as [F1 F2]. cbv beta in F2. apply in_rev in F1. destruct (rd j) as [x|] eqn:Ex; [|discriminate].
    apply andb_prop in F2. destruct F2 as [F2 F3]. apply Z.eqb_eq in F2. subst x. apply negb_true_iff, Z.eqb_neq in F3.
    assert (Ij : ids j z) by (apply Hi; auto). split; [intros Q; injection Q as <-; auto|]. intros (Q1 & Q2). f_equal. apply (Hd j i z); auto.
  - cbn [dget]. split; [discriminate|]. intros (Q1 & Q2). exfalso. apply Hi in Q2. destruct Q2 as [Q2 Q3].
    apply in_rev in Q2. apply (find_none _ _ F) in Q2. rewrite Q3, Z.eqb_refl in Q2. cbn in Q2. apply negb_false_iff, Z.eqb_eq in Q2. contradiction.
Qed.

(* names gathered from the string ids in turn *)
Definition gather (N : nat -> list bytes) (d : dict Z nat) (is : list nat) : list (bytes * nat) :=
  flat_map (fun i => match dget Z.eq_dec (Z.of_nat i) d with Some k => map (fun x => (x, k)) (N i) | None => [] end) is.
Lemma gather_get (ids : nat -> Z -> Prop) N d is s k : NoDup is -> (forall i, NoDup (N i)) ->
  (forall z i, dget Z.eq_dec z d = Some i <-> z <> 0 /\ ids i z) -> (forall i z z', ids i z -> ids i z' -> z = z') ->
  (idmap_get s (add_all (gather N d is) []) = Some k <->
   only (fun k s => exists i, In i is /\ Z.of_nat i <> 0 /\ ids k (Z.of_nat i) /\ In s (N i)) s k).
Proof.
  intros Nd NN LD Fn. rewrite idmap_get_spec.
  assert (IA : forall x i, In (x, i) (gather N d is) <-> exists j, In j is /\ Z.of_nat j <> 0 /\ ids i (Z.of_nat j) /\ In x (N j)).
  { intros x i. unfold gather. rewrite in_flat_map. split.
    - intros (j & J1 & J2). destruct (dget Z.eq_dec (Z.of_nat j) d) as [k0|] eqn:D; [|destruct J2]. apply in_map_iff in J2. destruct J2 as (y & E & J2). injection E as <- <-.
      apply LD in D. exists j. tauto.
    - intros (j & J1 & J2 & J3 & J4). exists j. split; [exact J1|]. assert (D : dget Z.eq_dec (Z.of_nat j) d = Some i) by (apply LD; auto). rewrite D.
      apply in_map_iff. exists x. auto. }
  assert (ND : NoDup (gather N d is)).
  { clear IA. unfold gather. revert Nd. induction is as [|i is0 IH]; intros Nd; [constructor|]. inversion Nd as [|? ? N1 N2]; subst. cbn [flat_map].
    specialize (IH N2). destruct (dget Z.eq_dec (Z.of_nat i) d) as [k0|] eqn:D; [|exact IH].
    assert (M : NoDup (map (fun x => (x, k0)) (N i))) by (apply Injective_map_NoDup; [intros a b E; injection E; auto|apply NN]).
    assert (O : forall x, In x (map (fun x => (x, k0)) (N i)) ->
       ~ In x (flat_map (fun i => match dget Z.eq_dec (Z.of_nat i) d with Some k => map (fun x => (x, k)) (N i) | None => [] end) is0)).
    { intros [x kx] Hx Q. apply in_map_iff in Hx. destruct Hx as (y & E & _). injection E as _ <-. apply in_flat_map in Q. destruct Q as (j & J1 & J2).
      destruct (dget Z.eq_dec (Z.of_nat j) d) as [k1|] eqn:D1; [|destruct J2]. apply in_map_iff in J2. destruct J2 as (y2 & E & _). injection E as _ ->.
      apply LD in D, D1. destruct D as [_ D], D1 as [_ D1]. pose proof (Fn _ _ _ D D1). assert (i = j) by lia. subst j. contradiction. }
    clear D. induction (map (fun x => (x, k0)) (N i)) as [|q r IHr]; [exact IH|]. inversion M; subst. cbn [app]. constructor.
    - rewrite in_app_iff. intros [Q|Q]; [contradiction|apply (O q (or_introl eq_refl) Q)].
    - apply IHr; [assumption|]. intros x Hx. apply O. right. exact Hx. }
  unfold only. rewrite <- (IA s k). split.
  - intros F. apply filter_one_inv in F. destruct F as (F1 & F2 & F3). split; [exact F1|]. intros k' Hk'. apply IA in Hk'. apply F3 in Hk'; [injection Hk' as <-; reflexivity|].
    unfold name_is. cbn [fst]. destruct (bytes_dec s s); congruence.
  - intros [H1 H2]. apply filter_one; [exact ND|]. split; [exact H1|]. split; [unfold name_is; cbn [fst]; destruct (bytes_dec s s); congruence|].
    intros [x i] Hq Fq. unfold name_is in Fq. cbn [fst] in Fq. destruct (bytes_dec s x) as [<-|]; [|discriminate]. f_equal. apply H2. apply IA. exact Hq.
Qed.
Lemma only_ext (f g : nat -> bytes -> Prop) s k : (forall k, f k s <-> g k s) -> (only f s k <-> only g s k).
Proof. intros H. unfold only. rewrite H. split; intros [H1 H2]; (split; [exact H1|]); intros k' Hk'; apply H2, H, Hk'. Qed.

(* the strings under which an id is entered *)
Definition one_name le content i : list bytes := match lenient_entry le content i with Some (Some (c :: r)) => [c :: r] | _ => [] end.
Definition unit_names le content i : list bytes :=
  match lenient_entry le content i with
  | Some (Some (c :: r)) => (c :: r) :: match ignore_color (c :: r) with Some (a :: b) => [a :: b] | _ => [] end
  | _ => []
  end.
Definition loadmap (u : dict Z nat) le content i := named le (fun s => s) u content i.
Lemma named_id le u content i : named le (fun s => s) u content i = match lenient_entry le content i with Some (Some x) => x | _ => [] end.
Proof. unfold named, recode_unit. destruct (lenient_entry le content i) as [[[|c x]|]|]; try reflexivity. destruct (has _ u); reflexivity. Qed.
Lemma adds_gather le u d content is : adds le (fun s => s) u d content is = gather (one_name le content) d is.
Proof.
  unfold adds, gather. apply flat_map_ext. intros i. rewrite named_id. unfold one_name. destruct (lenient_entry le content i) as [[[|c x]|]|]; destruct (dget Z.eq_dec (Z.of_nat i) d); reflexivity.
Qed.
Lemma add_all_app a b m : add_all (a ++ b) m = add_all b (add_all a m).
Proof. unfold add_all. apply fold_left_app. Qed.
Lemma load_unit_names se le u l w r content is : forall t t' m m',
  load_loop_chk se le (fun s => s) u l w r content is t m = Some (t', m') ->
  unitmap m' = add_all (gather (unit_names le content) u is) (unitmap m).
Proof.
  induction is as [|i is IH]; intros t t' m m' H; cbn [load_loop_chk] in H.
  - injection H as <- <-. reflexivity.
  - change (gather (unit_names le content) u (i :: is)) with
      ((match dget Z.eq_dec (Z.of_nat i) u with Some k => map (fun x => (x, k)) (unit_names le content i) | None => [] end) ++ gather (unit_names le content) u is)%list.
    rewrite add_all_app. destruct (lenient_entry le content i) as [[s|]|] eqn:E; [| |discriminate].
    + cbv zeta in H. match type of H with match ?X with _ => _ end = _ => destruct X as [t1|] end; [|discriminate].
      match type of H with match ?X with _ => _ end = _ => destruct X as [[n t2]|] end; [|discriminate]. apply IH in H. rewrite H. f_equal. clear H IH.
      unfold unit_names. rewrite E. unfold recode_unit. destruct s as [|c s].
      * cbn [add_names]. destruct (dget Z.eq_dec (Z.of_nat i) u); reflexivity.
      * destruct (has (Z.of_nat i) u); cbn [add_names unitmap]; unfold idmap_add; destruct (dget Z.eq_dec (Z.of_nat i) u); destruct (ignore_color (c :: s)) as [[|a b]|]; reflexivity.
    + apply IH in H. rewrite H. f_equal. unfold unit_names. rewrite E. destruct (dget Z.eq_dec (Z.of_nat i) u); reflexivity.
Qed.

Lemma plain_filter s r : plain_text s r <-> r = filter (fun x => negb (is_color x)) s.
Proof.
  split.
  - induction 1 as [|x s r Hx H IH|x s r H1 H2 H IH]; [reflexivity| |]; cbn [filter].
    + replace (is_color x) with true by (unfold is_color; destruct Hx as [?| ->]; [|reflexivity]; symmetry; apply orb_true_iff; left; apply andb_true_iff; split; apply Z.leb_le; lia). exact IH.
    + replace (is_color x) with false; [cbn [negb]; congruence|]. unfold is_color. symmetry. apply orb_false_iff. split; [apply andb_false_iff|apply Z.eqb_neq; exact H2].
      destruct (Z.leb_spec 1 x); [|left; reflexivity]. right. apply Z.leb_gt. lia.
  - intros ->. induction s as [|x s IH]; [constructor|]. cbn [filter]. destruct (is_color x) eqn:Ex; cbn [negb].
    + apply pt_code; [|exact IH]. unfold is_color in Ex. apply orb_true_iff in Ex. destruct Ex as [Ex|Ex]; [left; apply andb_true_iff in Ex; destruct Ex as [E1 E2]; apply Z.leb_le in E1, E2; lia|right; apply Z.eqb_eq; exact Ex].
    + unfold is_color in Ex. apply orb_false_iff in Ex. destruct Ex as [E1 E2]. apply Z.eqb_neq in E2. apply pt_char; [|exact E2|exact IH].
      intros Q. apply andb_false_iff in E1. destruct E1 as [E1|E1]; apply Z.leb_gt in E1; lia.
Qed.
Lemma filter_all {A} (f : A -> bool) s : existsb (fun x => negb (f x)) s = false -> filter f s = s.
Proof. induction s as [|x s IH]; [reflexivity|]. cbn. destruct (f x); cbn; [|discriminate]. intros H. rewrite IH; auto. Qed.
Lemma filter_len {A} (f : A -> bool) s : (List.length (filter f s) <= List.length s)%nat.
Proof. induction s as [|x s IH]; [auto|]. cbn. destruct (f x); cbn; lia. Qed.
Lemma filter_some {A} (f : A -> bool) s : existsb (fun x => negb (f x)) s = true -> filter f s <> s.
Proof.
  intros H E. assert (L : (List.length (filter f s) < List.length s)%nat); [|rewrite E in L; lia]. clear E. induction s as [|x s IH]; [discriminate|].
  cbn in *. destruct (f x); cbn in *; [specialize (IH H); lia|]. pose proof (filter_len f s). lia.
Qed.
Lemma existsb_ext2 {A} (f g : A -> bool) s : (forall x, f x = g x) -> existsb f s = existsb g s.
Proof. intros H. induction s as [|x s IH]; [reflexivity|]. cbn. rewrite H, IH. reflexivity. Qed.

(* Property C55, switches *)
Theorem C55_switch (se le : Z) (chkt : sections) (content : bytes) (n : Z) (t : tbl) (m : maps) (s : bytes) (k : nat) :
  Forall byte content -> le = 2 \/ le = 4 -> b2in le content 0 = Some n -> own_ids (switch_id chkt) ->
  load_tbl_with_chk se le (fun s => s) chkt content = Some (t, m) ->
  (idmap_get s (swmap m) = Some k <-> only (switch_name chkt content le n) s k).
Proof.
  intros Hb Hle Hn Hd H. apply load_chk_inv2 in H. destruct H as (u & l & w & r & n' & t0 & unix & Hn' & L & _ & Ew & _). rewrite Hn in Hn'. injection Hn' as <-.
  assert (Hn0 : 0 <= n).
  { destruct Hle as [->| ->]; unfold b2in in Hn; cbn [Z.eqb Pos.eqb] in Hn; [apply b2i2_some in Hn|apply b2i4_some in Hn]; auto; lia. }
  apply load_names in L. destruct L as [_ L]. cbn [swmap] in L. rewrite L, adds_gather. clear L.
  rewrite (gather_get (switch_id chkt)).
  - apply only_ext. intros k0. unfold switch_name, string_is. split.
    + intros (i & I1 & I2 & I3 & I4). apply in_seq in I1. exists (Z.of_nat i). split; [exact I3|]. rewrite Nat2Z.id. unfold one_name in I4.
      destruct (lenient_entry le content i) as [[[|c x]|]|]; try destruct I4 as [<-|[]]; try contradiction. repeat split; try lia. discriminate.
    + intros (z & Z1 & Z2 & Z3 & Z4 & Z5). exists (Z.to_nat z). rewrite Z2Nat.id by lia. split; [apply in_seq; lia|]. split; [exact Z2|]. split; [exact Z1|].
      unfold one_name. rewrite Z4. destruct s; [contradiction|left; reflexivity].
  - apply seq_NoDup.
  - intros i. unfold one_name. destruct (lenient_entry le content i) as [[[|c x]|]|]; repeat constructor; intros [].
  - apply (iddict_own _ _ _ _ Ew Hd). intros i z. unfold switch_id. destruct (getsection chkt (bytes_of "SWNM")) as [swnm|].
    + split.
      * intros [I1 I2]. exists swnm. split; [reflexivity|]. split; [destruct swnm; apply in_seq in I1; lia|exact I2].
      * intros (sw & E & I1 & I2). injection E as <-. split; [|exact I2]. destruct swnm; [|apply in_seq; lia]. exfalso. unfold b2i4 in I2. destruct (4 * i)%nat; cbn in I2; discriminate.
    + split; [intros [[] _]|]. intros (sw & E & _). discriminate.
  - intros i z z' (a & A1 & _ & A2) (b & B1 & _ & B2). congruence.
Qed.

(* Property C55, units *)
Theorem C55_unit (se le : Z) (chkt : sections) (content : bytes) (n : Z) (t : tbl) (m : maps) (s : bytes) (k : nat) :
  Forall byte content -> le = 2 \/ le = 4 -> b2in le content 0 = Some n -> own_ids (unit_id chkt) ->
  load_tbl_with_chk se le (fun s => s) chkt content = Some (t, m) ->
  (idmap_get s (unitmap m) = Some k <-> only (unit_name chkt content le n) s k).
Proof.
  intros Hb Hle Hn Hd H. apply load_chk_inv2 in H. destruct H as (u & l & w & r & n' & t0 & unix & Hn' & L & Hu & _ & Eu). rewrite Hn in Hn'. injection Hn' as <-.
  assert (Hn0 : 0 <= n).
  { destruct Hle as [->| ->]; unfold b2in in Hn; cbn [Z.eqb Pos.eqb] in Hn; [apply b2i2_some in Hn|apply b2i4_some in Hn]; auto; lia. }
  apply load_unit_names in L. cbn [unitmap] in L. rewrite L. clear L.
  assert (UN : forall i c x, lenient_entry le content i = Some (Some (c :: x)) -> forall s, In s (unit_names le content i) <-> (s = c :: x \/ plain_text (c :: x) s) /\ s <> []).
  { intros i c x E y. unfold unit_names. rewrite E. unfold ignore_color. cbn [In].
    rewrite plain_filter. destruct (existsb is_color (c :: x)) eqn:Ec.
    - destruct (filter (fun x0 => negb (is_color x0)) (c :: x)) as [|a b]; cbn [In]; split; intuition (subst; try discriminate; auto).
    - rewrite (filter_all (fun x0 => negb (is_color x0)) (c :: x)) by (rewrite <- Ec; apply existsb_ext2; intros; apply negb_involutive). cbn [In]. intuition (subst; try discriminate; auto). }
  rewrite (gather_get (unit_id chkt)).
  - apply only_ext. intros k0. unfold unit_name, string_is. split.
    + intros (i & I1 & I2 & I3 & I4). apply in_seq in I1. exists (Z.of_nat i). destruct (lenient_entry le content i) as [[[|c x]|]|] eqn:E; try solve [unfold unit_names in I4; rewrite E in I4; destruct I4].
      apply (UN i c x E) in I4. exists (c :: x). split; [exact I3|]. rewrite Nat2Z.id. destruct I4. split; [|auto]. repeat split; try lia; auto; discriminate.
    + intros (z & s0 & Z1 & (Z2 & Z3 & Z4 & Z5) & Z6 & Z7). exists (Z.to_nat z). rewrite Z2Nat.id by lia. split; [apply in_seq; lia|]. split; [exact Z2|]. split; [exact Z1|].
      destruct s0 as [|c x]; [contradiction|]. apply (UN _ c x Z4). auto.
  - apply seq_NoDup.
  - intros i. unfold unit_names. destruct (lenient_entry le content i) as [[[|c x]|]|]; try constructor.
    + unfold ignore_color. destruct (existsb is_color (c :: x)) eqn:Ec; [|intros []]. pose proof (filter_some (fun x0 => negb (is_color x0)) (c :: x)) as Q.
      rewrite (existsb_ext2 _ is_color) in Q by (intros; apply negb_involutive). specialize (Q Ec).
      destruct (filter (fun x0 => negb (is_color x0)) (c :: x)) as [|a b]; [intros []|]. intros [E|[]]. apply Q. exact E.
    + destruct (ignore_color (c :: x)) as [[|a b]|]; repeat constructor; intros [].
  - apply (iddict_own _ _ _ _ Eu Hd). intros i z. unfold unit_id. split.
    + intros [I1 I2]. exists unix. split; [exact Hu|]. split; [destruct unix; apply in_seq in I1; lia|]. rewrite <- I2. f_equal. lia.
    + intros (sw & E & I1 & I2). rewrite Hu in E. injection E as <-. replace (228 * 14 + 2 * i)%nat with (3192 + i * 2)%nat in I2 by lia. split; [|exact I2]. destruct unix; [|apply in_seq; lia].
      exfalso. unfold b2i2 in I2. destruct (3192 + i * 2)%nat; cbn in I2; discriminate.
  - intros i z z' (a & A1 & _ & A2) (b & B1 & _ & B2). congruence.
Qed.
Print Assumptions C55_switch.
Print Assumptions C55_unit.

(* two units called (with a colour code) "A" and "B", and switch 1 called "B" *)
Definition nx_unix : bytes := (repeat 0 3192 ++ i2b2 1 ++ i2b2 2 ++ repeat 0 452)%list.
Definition nx_swnm : bytes := (i2b4 0 ++ i2b4 2 ++ repeat 0 1016)%list.
Definition nx_chk : sections := [(bytes_of "UNIx", nx_unix); (bytes_of "SWNM", nx_swnm); (bytes_of "SPRP", []); (bytes_of "FORC", [])].
Definition nx_content : bytes := (i2b2 2 ++ i2b2 6 ++ i2b2 9 ++ [3; 65; 0; 66; 0])%list.
Example C55_names_example : exists t m, load_tbl_with_chk 4 2 (fun s => s) nx_chk nx_content = Some (t, m) /\
  own_ids (unit_id nx_chk) /\ own_ids (switch_id nx_chk) /\
  idmap_get [65] (unitmap m) = Some 0%nat /\ idmap_get [3; 65] (unitmap m) = Some 0%nat /\ idmap_get [66] (unitmap m) = Some 1%nat /\
  idmap_get [66] (swmap m) = Some 1%nat.
Proof.
  eexists. eexists. split; [vm_compute; reflexivity|]. split; [|split].
  - assert (Q : forall k, (k < 228)%nat -> b2i2 nx_unix (228 * 14 + 2 * k) = Some (nth k [1; 2] 0)).
    { assert (B : forallb (fun k => match b2i2 nx_unix (228 * 14 + 2 * k) with Some z => z =? nth k [1; 2] 0 | None => false end) (seq 0 228) = true) by (vm_compute; reflexivity).
      rewrite forallb_forall in B. intros k Hk. specialize (B k ltac:(apply in_seq; lia)). cbv beta in B. destruct (b2i2 nx_unix (228 * 14 + 2 * k)) as [z|]; [apply Z.eqb_eq in B; congruence|discriminate]. }
    assert (G : getsection nx_chk (bytes_of "UNIx") = Some nx_unix) by reflexivity.
    intros k k' z (u & E & K1 & K2) (u' & E' & K1' & K2') Hz. rewrite G in E, E'. injection E as <-. injection E' as <-. rewrite Q in K2, K2' by assumption. injection K2 as <-. injection K2' as K2'. clear Q G.
    destruct k as [|[|k]], k' as [|[|k']]; cbn in K2', Hz; try reflexivity; try discriminate; exfalso; try (destruct k); try (destruct k'); cbn in *; try discriminate; try congruence.
  - assert (Q : forall k, (k < 256)%nat -> b2i4 nx_swnm (4 * k) = Some (nth k [0; 2] 0)).
    { assert (B : forallb (fun k => match b2i4 nx_swnm (4 * k) with Some z => z =? nth k [0; 2] 0 | None => false end) (seq 0 256) = true) by (vm_compute; reflexivity).
      rewrite forallb_forall in B. intros k Hk. specialize (B k ltac:(apply in_seq; lia)). cbv beta in B. destruct (b2i4 nx_swnm (4 * k)) as [z|]; [apply Z.eqb_eq in B; congruence|discriminate]. }
    assert (G : getsection nx_chk (bytes_of "SWNM") = Some nx_swnm) by reflexivity.
    intros k k' z (u & E & K1 & K2) (u' & E' & K1' & K2') Hz. rewrite G in E, E'. injection E as <-. injection E' as <-. rewrite Q in K2, K2' by assumption. injection K2 as <-. injection K2' as K2'. clear Q G.
    destruct k as [|[|k]], k' as [|[|k']]; cbn in K2', Hz; try reflexivity; try discriminate; exfalso; try (destruct k); try (destruct k'); cbn in *; try discriminate; try congruence.
  - vm_compute. auto.
Qed.
