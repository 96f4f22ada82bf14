From Coq Require Import ZArith Lia List Bool ZifyBool ZifyNat.
From Verif Require Import Dict BinModel BinProofs ChkModel TblModel.
Import ListNotations.
Open Scope Z_scope.

(* ---------- lists ---------- *)
Lemma index_of_some s l d : index_of s l = Some d -> nth_error l d = Some s.
Proof.
  revert d. induction l as [|x l IH]; cbn; intros d H; [discriminate|]. destruct (bytes_dec s x) as [->|].
  - injection H as <-. reflexivity.
  - destruct (index_of s l); [|discriminate]. injection H as <-. cbn. auto.
Qed.
Lemma index_of_in s l : In s l -> exists d, index_of s l = Some d.
Proof.
  induction l as [|x l IH]; cbn; [tauto|]. intros H. destruct (bytes_dec s x); [eauto|]. destruct IH as [d ->]; [destruct H; [congruence|assumption]|]. eauto.
Qed.
Lemma insert_length {A} d (x : A) l : List.length (insert d x l) = S (List.length l).
Proof. unfold insert. rewrite app_length. cbn [List.length]. rewrite <- (firstn_skipn d l) at 3. rewrite app_length. lia. Qed.
Lemma insert_same {A} d (x : A) l : (d <= List.length l)%nat -> nth_error (insert d x l) d = Some x.
Proof. intros H. unfold insert. rewrite nth_error_app2; rewrite firstn_length; [|lia]. replace (d - Nat.min d (List.length l))%nat with O by lia. reflexivity. Qed.
Lemma insert_other {A} d (x : A) l v : (d <= List.length l)%nat ->
  nth_error (insert d x l) (if Nat.leb d v then S v else v) = nth_error l v.
Proof.
  intros H. unfold insert. destruct (Nat.leb_spec d v).
  - rewrite nth_error_app2; rewrite firstn_length; [|lia]. replace (S v - Nat.min d (List.length l))%nat with (S (v - d)) by lia. cbn [nth_error].
    rewrite <- (firstn_skipn d l) at 2. rewrite nth_error_app2; rewrite firstn_length; [|lia]. f_equal. lia.
  - rewrite nth_error_app1 by (rewrite firstn_length; lia). rewrite <- (firstn_skipn d l) at 2. rewrite nth_error_app1; [reflexivity|rewrite firstn_length; lia].
Qed.
Lemma insert_in {A} d (x y : A) l : In y (insert d x l) <-> y = x \/ In y l.
Proof. unfold insert. rewrite <- (firstn_skipn d l) at 3. rewrite !in_app_iff. cbn [In]. intuition. Qed.
Lemma set_nth_some {A} i (x : A) l l' : set_nth i x l = Some l' ->
  (i < List.length l)%nat /\ List.length l' = List.length l /\ nth_error l' i = Some x /\ (forall j, j <> i -> nth_error l' j = nth_error l j).
Proof.
  revert i l'. induction l as [|a l IH]; intros [|i] l'; cbn; try discriminate.
  - intros [= <-]. split; [lia|]. split; [reflexivity|]. split; [reflexivity|]. intros [|j] H; [congruence|reflexivity].
  - destruct (set_nth i x l) as [r|] eqn:E; [|discriminate]. intros [= <-]. apply IH in E. destruct E as (E1 & E2 & E3 & E4).
    split; [lia|]. split; [cbn; lia|]. split; [exact E3|]. intros [|j] H; [reflexivity|]. cbn. apply E4. congruence.
Qed.
Lemma set_nth_total {A} i (x : A) l : (i < List.length l)%nat -> exists l', set_nth i x l = Some l'.
Proof. revert i. induction l as [|a l IH]; intros [|i] H; cbn in *; try lia; eauto. destruct (IH i) as [l' ->]; [lia|]. eauto. Qed.

(* ---------- sizes ---------- *)
(* a string with its terminator, rounded up to whole dwords *)
Definition room (s : bytes) : Z := 4 * ((Z.of_nat (List.length s) + 4) / 4).
Definition total (l : list bytes) : Z := fold_right (fun s a => room s + a) 0 l.
Lemma roundup_eq n : roundup_by_4 n = 4 * ((n + 3) / 4).
Proof. unfold roundup_by_4. lia. Qed.
Lemma roundup_room s : roundup_by_4 (zlen s + 1) = room s.
Proof. rewrite roundup_eq. unfold room, zlen. f_equal. f_equal. lia. Qed.
Lemma room_bounds s : Z.of_nat (List.length s) < room s <= Z.of_nat (List.length s) + 4 /\ room s mod 4 = 0.
Proof. unfold room. lia. Qed.
Lemma total_app a b : total (a ++ b) = total a + total b.
Proof. unfold total. induction a as [|x a IH]; cbn [fold_right app]; [lia|]. rewrite IH. lia. Qed.
Lemma total_insert d s l : total (insert d s l) = total l + room s.
Proof. unfold insert. rewrite total_app. cbn [total fold_right]. fold (total (skipn d l)). rewrite <- (firstn_skipn d l) at 3. rewrite total_app. lia. Qed.

(* ---------- the invariant ---------- *)
Definition base (se : Z) (t : tbl) : Prop :=
  Forall (fun d => (d < List.length (datatb t))%nat) (dataindextb t) /\
  (forall s i, dget bytes_dec s (stringmap t) = Some i ->
     (i < List.length (dataindextb t))%nat /\ (s <> [] -> GetString t (S i) = Some s)) /\
  capacity t = se * (1 + zlen (dataindextb t)) + total (datatb t).
Definition empties (t : tbl) : Prop :=
  NoDup (map fst (emptystring t)) /\
  (forall i e, In (i, e) (emptystring t) -> GetString t (S i) = Some []) /\
  (forall i s, In (i, Some s) (emptystring t) -> In s (datatb t)) /\
  (forall f, first_extended t = Some f -> In f (datatb t)).
Definition tbl_ok (se : Z) (t : tbl) : Prop := base se t /\ empties t.

Lemma getstring_lt t i c : GetString t (S i) = Some c -> (i < List.length (dataindextb t))%nat.
Proof. cbn. destruct (nth_error (dataindextb t) i) eqn:E; [|discriminate]. intros _. apply nth_error_Some. congruence. Qed.
Lemma checked_some se i t j t' : checked se i t = Some (j, t') -> j = i /\ t' = t /\ capacity t < 2 ^ (8 * se) /\ Z.of_nat i < 65535.
Proof.
  unfold checked. rewrite Z.shiftl_1_l. destruct (Z.ltb_spec (capacity t) (2 ^ (8 * se))); [|discriminate].
  destruct (Z.ltb_spec (Z.of_nat i) 65535); [|discriminate]. intros E. injection E as <- <-. auto.
Qed.
(* appending one id *)
Lemma getstring_app t t' x l : dataindextb t' = dataindextb t ++ [x] -> datatb t' = datatb t ++ l ->
  (forall j c, GetString t j = Some c -> GetString t' j = Some c) /\
  GetString t' (S (List.length (dataindextb t))) = nth_error (datatb t ++ l) x.
Proof.
  intros H1 H2. split.
  - intros [|j] c; cbn; [discriminate|]. rewrite H1, H2. destruct (nth_error (dataindextb t) j) as [d|] eqn:E; [|discriminate]. intros D.
    rewrite nth_error_app1, E by (apply nth_error_Some; congruence). rewrite nth_error_app1 by (apply nth_error_Some; congruence). exact D.
  - cbn. rewrite H1, H2, nth_error_app2, Nat.sub_diag by lia. reflexivity.
Qed.
Lemma nth_last {A} (l : list A) x : nth_error (l ++ [x]) (List.length l) = Some x.
Proof. rewrite nth_error_app2, Nat.sub_diag by lia. reflexivity. Qed.
Lemma forall_app_len (d l : list bytes) (ix : list nat) x : Forall (fun d' => (d' < List.length d)%nat) ix -> (x < List.length (d ++ l))%nat ->
  Forall (fun d' => (d' < List.length (d ++ l))%nat) (ix ++ [x]).
Proof.
  intros H Hx. apply Forall_app. split; [|constructor; auto]. eapply Forall_impl; [|exact H]. intros a Ha. cbn in Ha. rewrite app_length. lia.
Qed.

(* what every operation guarantees *)
Definition keeps (t t' : tbl) : Prop :=
  (forall j c, GetString t j = Some c -> c <> [] -> GetString t' j = Some c) /\
  (forall s i, dget bytes_dec s (stringmap t) = Some i -> dget bytes_dec s (stringmap t') = Some i) /\
  (List.length (dataindextb t) <= List.length (dataindextb t'))%nat.
Lemma keeps_refl t : keeps t t. Proof. split; auto. Qed.
Lemma keeps_trans a b c : keeps a b -> keeps b c -> keeps a c.
Proof. intros (A1 & A2 & A3) (B1 & B2 & B3). split; [|split]; eauto. lia. Qed.

Lemma dget_dset_new (m : dict bytes nat) s i k : dget bytes_dec s m = None -> forall j, dget bytes_dec k m = Some j -> dget bytes_dec k (dset bytes_dec s i m) = Some j.
Proof. intros N j H. rewrite dget_dset_other; [exact H|]. intros ->. congruence. Qed.

(* appending a new string *)
Lemma append_base se t t' s m' : base se t ->
  dataindextb t' = dataindextb t ++ [List.length (datatb t)] -> datatb t' = datatb t ++ [s] ->
  capacity t' = capacity t + (roundup_by_4 (zlen s + 1) + se) -> stringmap t' = m' ->
  (forall k i, dget bytes_dec k m' = Some i -> dget bytes_dec k (stringmap t) = Some i \/ (k = s /\ i = List.length (dataindextb t))) ->
  base se t' /\ GetString t' (S (List.length (dataindextb t))) = Some s /\ (forall j c, GetString t j = Some c -> GetString t' j = Some c).
Proof.
  intros (B1 & B2 & B3) E1 E2 E3 E4 M. destruct (getstring_app t t' _ _ E1 E2) as [G1 G2]. rewrite nth_last in G2.
  split; [|split; assumption]. split; [|split].
  - rewrite E1, E2. apply forall_app_len; [exact B1|]. rewrite app_length. cbn. lia.
  - rewrite E4. intros k i H. rewrite E1, app_length. cbn [List.length]. destruct (M k i H) as [Q|[-> ->]].
    + destruct (B2 k i Q) as [L Q']. split; [lia|]. auto.
    + split; [lia|]. auto.
  - rewrite E3, B3, E1, E2, total_app, roundup_room. unfold zlen. rewrite app_length. cbn [total fold_right List.length]. lia.
Qed.

Lemma add_ok se t s i t' : tbl_ok se t -> AddString se s t = Some (i, t') ->
  tbl_ok se t' /\ keeps t t' /\ (s <> [] -> GetString t' (S i) = Some s) /\
  (exists k, dget bytes_dec s (stringmap t') = Some k) /\ capacity t' < 2 ^ (8 * se) /\
  (dget bytes_dec s (stringmap t) = None -> dget bytes_dec s (stringmap t') = Some i).
Proof.
  intros ((B1 & B2 & B3) & (N & Em & En & Ef)) H. unfold AddString in H. destruct (dget bytes_dec s (stringmap t)) as [k|] eqn:Es.
  - (* known string *)
    destruct (nth_error (dataindextb t) k) as [d|] eqn:Ek; [|discriminate]. apply checked_some in H. destruct H as (-> & -> & Hc & Hi).
    set (t' := mk_tbl _ _ _ _ _ _ _) in *. destruct (getstring_app t t' d [] eq_refl) as [G1 G2]; [rewrite app_nil_r; reflexivity|]. rewrite app_nil_r in G2.
    assert (Hd : (d < List.length (datatb t))%nat) by (rewrite Forall_forall in B1; apply B1; eapply nth_error_In; exact Ek).
    assert (G3 : forall c, GetString t (S k) = Some c -> GetString t' (S (List.length (dataindextb t))) = Some c).
    { intros c Q. rewrite G2. cbn in Q. rewrite Ek in Q. exact Q. }
    split; [|split; [|split; [|split; [|split]]]].
    + split; [|split; [exact N|split; [intros; eapply G1; eauto|split; assumption]]].
      split; [|split].
      * change (dataindextb t') with (dataindextb t ++ [d]). change (datatb t') with (datatb t). apply Forall_app. split; [exact B1|]. constructor; auto.
      * intros a j Q. change (dataindextb t') with (dataindextb t ++ [d]). rewrite app_length. cbn [List.length]. destruct (B2 a j Q). split; [lia|]. auto.
      * change (capacity t') with (capacity t + se). change (dataindextb t') with (dataindextb t ++ [d]). change (datatb t') with (datatb t). unfold zlen in *. rewrite app_length, B3. cbn [List.length]. lia.
    + split; [auto|split; [auto|]]. change (dataindextb t') with (dataindextb t ++ [d]). rewrite app_length. lia.
    + intros Hs. apply G3. apply B2; auto.
    + exists k. exact Es.
    + exact Hc.
    + discriminate.
  - assert (App : forall fe, (forall f, fe = Some f -> In f (datatb t ++ [s])) ->
      let t1 := mk_tbl (datatb t ++ [s]) (dset bytes_dec s (List.length (dataindextb t)) (stringmap t))
                    (dataindextb t ++ [List.length (datatb t)])
                    (capacity t + (roundup_by_4 (zlen s + 1) + se)) (emptystring t) (tbl_loaded t) fe in
      tbl_ok se t1 /\ keeps t t1 /\ (s <> [] -> GetString t1 (S (List.length (dataindextb t))) = Some s) /\
      dget bytes_dec s (stringmap t1) = Some (List.length (dataindextb t))).
    { intros fe Hfe t1.
      destruct (append_base se t t1 s _ (conj B1 (conj B2 B3)) eq_refl eq_refl eq_refl eq_refl) as (C1 & C2 & C3).
      { intros k i0 Q. cbn [t1 stringmap] in Q. destruct (bytes_dec k s) as [->|Nk].
        - rewrite dget_dset_same in Q. injection Q as <-. auto.
        - rewrite dget_dset_other in Q by exact Nk. auto. }
      split; [|split; [|split; [auto|apply dget_dset_same]]].
      - split; [exact C1|]. split; [exact N|]. split; [intros; eapply C3; eauto|]. split; [intros; apply in_or_app; left; eauto|]. exact Hfe.
      - split; [auto|]. split; [intros k0 i0 Q; apply dget_dset_new; assumption|]. cbn [t1 dataindextb]. rewrite app_length. lia. }
    assert (FE : forall f, match first_extended t with Some f => Some f | None => Some s end = Some f -> In f (datatb t ++ [s])).
    { intros f Q. apply in_or_app. destruct (first_extended t) eqn:E; injection Q as <-; [left; auto|right; left; reflexivity]. }
    destruct (emptystring t) as [|[e nx] rest] eqn:Ee.
    + apply checked_some in H. destruct H as (-> & -> & Hc & Hi). destruct (App _ FE) as (D1 & D2 & D3 & D4). eauto 10.
    + destruct (tbl_loaded t && truthy (first_extended t)) eqn:El.
      2:{ apply checked_some in H. destruct H as (-> & -> & Hc & Hi). destruct (App _ FE) as (D1 & D2 & D3 & D4). eauto 10. }
      set (nextstring := match nx with Some n => n | None => _ end) in H.
      destruct (index_of nextstring (datatb t)) as [d|] eqn:Ed; [|discriminate].
      destruct (set_nth e d _) as [ix|] eqn:Ex; [|discriminate]. apply checked_some in H. destruct H as (-> & -> & Hc & Hi).
      apply index_of_some in Ed. assert (Hd : (d < List.length (datatb t))%nat) by (apply nth_error_Some; congruence).
      apply set_nth_some in Ex. rewrite map_length in Ex. destruct Ex as (X1 & X2 & X3 & X4).
      set (t' := mk_tbl _ _ _ _ _ _ _) in *.
      assert (G1 : forall j c, j <> e -> GetString t (S j) = Some c -> GetString t' (S j) = Some c).
      { intros j c Hj Q. cbn in *. rewrite X4, nth_error_map by exact Hj. destruct (nth_error (dataindextb t) j) as [v|]; [|discriminate]. cbn [option_map].
        rewrite insert_other by lia. exact Q. }
      assert (G2 : GetString t' (S e) = Some s) by (cbn; rewrite X3; apply insert_same; lia).
      pose proof (Em e nx (or_introl eq_refl)) as Ge.
      assert (G3 : forall j c, GetString t j = Some c -> c <> [] -> GetString t' j = Some c).
      { intros [|j] c Q Nc; [discriminate|]. apply G1; [|exact Q]. intros ->. congruence. }
      cbn [map] in N. inversion N as [|? ? N1 N2]; subst.
      split; [|split; [|split; [|split; [|split]]]].
      * split.
        -- split; [|split].
           ++ apply Forall_forall. intros v Iv. apply In_nth_error in Iv. destruct Iv as [j Iv]. cbn [t' datatb dataindextb] in *. rewrite insert_length.
              destruct (Nat.eq_dec j e) as [->|Nj].
              ** rewrite X3 in Iv. injection Iv as <-. lia.
              ** rewrite X4, nth_error_map in Iv by exact Nj. destruct (nth_error (dataindextb t) j) as [w|] eqn:Ew; [|discriminate]. cbn in Iv. injection Iv as <-.
                 rewrite Forall_forall in B1. apply nth_error_In, B1 in Ew. destruct (Nat.leb d w); lia.
           ++ intros k j Q. cbn [t' stringmap dataindextb] in *. rewrite X2. destruct (bytes_dec k s) as [->|Nk].
              ** rewrite dget_dset_same in Q. injection Q as <-. split; [lia|]. intros _. exact G2.
              ** rewrite dget_dset_other in Q by exact Nk. destruct (B2 k j Q) as [Q1 Q2]. split; [lia|]. auto.
           ++ cbn [t' capacity dataindextb datatb]. unfold zlen in *. rewrite X2, total_insert, B3. fold (zlen s). rewrite roundup_room. lia.
        -- split; [exact N2|]. split; [|split].
           ++ intros j e' Q. apply G1; [|eapply Em; right; exact Q]. intros ->. apply N1. apply (in_map fst) in Q. exact Q.
           ++ intros j x Q. cbn [t' datatb]. apply insert_in. right. eapply En. right. exact Q.
           ++ intros f Q. cbn [t' datatb]. apply insert_in. right. apply Ef. exact Q.
      * split; [exact G3|]. split; [intros k0 i0 Q; apply dget_dset_new; assumption|]. cbn [t' dataindextb]. lia.
      * auto.
      * exists e. apply dget_dset_same.
      * exact Hc.
      * intros _. apply dget_dset_same.
Qed.
Lemma force_ok se t s i t' : tbl_ok se t -> ForceAddString se s t = Some (i, t') ->
  tbl_ok se t' /\ keeps t t' /\ GetString t' (S i) = Some s /\ capacity t' < 2 ^ (8 * se).
Proof.
  intros ((B1 & B2 & B3) & (N & Em & En & Ef)) H. unfold ForceAddString in H. apply checked_some in H. destruct H as (-> & -> & Hc & Hi).
  set (t' := mk_tbl _ _ _ _ _ _ _) in *. destruct (append_base se t t' s (stringmap t) (conj B1 (conj B2 B3)) eq_refl eq_refl eq_refl eq_refl) as (C1 & C2 & C3); [auto|].
  split; [|split; [|split; [exact C2|exact Hc]]].
  - split; [exact C1|]. split; [exact N|]. split; [intros; eapply C3; eauto|]. split; [intros; apply in_or_app; left; eauto|intros; apply in_or_app; left; auto].
  - split; [auto|]. split; [auto|]. cbn [t' dataindextb]. rewrite app_length. lia.
Qed.
(* no operation fails except by running out of room *)
Lemma add_total se t s : 0 < se -> tbl_ok se t -> AddString se s t = None ->
  2 ^ (8 * se) <= se * (2 + zlen (dataindextb t)) + total (datatb t) + room s \/ 65535 <= zlen (dataindextb t).
Proof.
  intros Hse ((B1 & B2 & B3) & (N & Em & En & Ef)) H.
  assert (Rs : 0 < room s) by (pose proof (room_bounds s); lia).
  assert (C : forall i t1, checked se i t1 = None -> 2 ^ (8 * se) <= capacity t1 \/ 65535 <= Z.of_nat i).
  { intros i t1. unfold checked. rewrite Z.shiftl_1_l. destruct (Z.ltb_spec (capacity t1) (2 ^ (8 * se))); [|auto]. destruct (Z.ltb_spec (Z.of_nat i) 65535); [discriminate|auto]. }
  unfold AddString in H. unfold zlen in *. destruct (dget bytes_dec s (stringmap t)) as [k|] eqn:Es.
  - destruct (B2 s k Es) as [L _]. destruct (nth_error (dataindextb t) k) as [d|] eqn:Ek; [|apply nth_error_None in Ek; lia].
    apply C in H. cbn [capacity] in H. lia.
  - destruct (emptystring t) as [|[e nx] rest] eqn:Ee; [apply C in H; cbn [capacity] in H; fold (zlen s) in H; rewrite roundup_room in H; lia|].
    destruct (tbl_loaded t && truthy (first_extended t)) eqn:El; [|apply C in H; cbn [capacity] in H; fold (zlen s) in H; rewrite roundup_room in H; lia].
    set (nextstring := match nx with Some n => n | None => _ end) in H.
    assert (I : In nextstring (datatb t)).
    { subst nextstring. destruct nx as [n|]; [eapply En; left; reflexivity|]. destruct (first_extended t) as [f|] eqn:E; [auto|]. cbn in El. rewrite andb_false_r in El. discriminate. }
    apply index_of_in in I. destruct I as [d I]. rewrite I in H.
    pose proof (Em e nx (or_introl eq_refl)) as Ge. apply getstring_lt in Ge.
    destruct (set_nth_total e d (map (fun v => if Nat.leb d v then S v else v) (dataindextb t))) as [ix Ix]; [rewrite map_length; exact Ge|]. rewrite Ix in H.
    apply C in H. cbn [capacity] in H. fold (zlen s) in H. rewrite roundup_room in H.
    lia.
Qed.

Definition bounded (se : Z) (t : tbl) : Prop := capacity t < 2 ^ (8 * se) /\ zlen (dataindextb t) <= 65535.
Lemma add_bounded se t s i t' : bounded se t -> AddString se s t = Some (i, t') -> bounded se t'.
Proof.
  intros [_ B] H. unfold AddString in H. unfold bounded.
  destruct (dget bytes_dec s (stringmap t)) as [k|].
  - destruct (nth_error (dataindextb t) k) as [d|]; [|discriminate]. apply checked_some in H. destruct H as (-> & -> & Hc & Hi). split; [exact Hc|].
    cbn [dataindextb]. unfold zlen. rewrite app_length. cbn [List.length]. lia.
  - assert (App : forall fe, checked se (List.length (dataindextb t))
        (mk_tbl (datatb t ++ [s]) (dset bytes_dec s (List.length (dataindextb t)) (stringmap t)) (dataindextb t ++ [List.length (datatb t)])
                    (capacity t + (roundup_by_4 (zlen s + 1) + se)) (emptystring t) (tbl_loaded t) fe) = Some (i, t') -> capacity t' < 2 ^ (8 * se) /\ zlen (dataindextb t') <= 65535).
    { intros fe Q. apply checked_some in Q. destruct Q as (-> & -> & Hc & Hi). split; [exact Hc|]. cbn [dataindextb]. unfold zlen. rewrite app_length. cbn [List.length]. lia. }
    destruct (emptystring t) as [|[e nx] rest]; [eapply App; exact H|]. destruct (tbl_loaded t && truthy (first_extended t)); [|eapply App; exact H].
    destruct (index_of _ (datatb t)) as [d|]; [|discriminate]. destruct (set_nth e d _) as [ix|] eqn:Ex; [|discriminate].
    apply checked_some in H. destruct H as (-> & -> & Hc & Hi). split; [exact Hc|]. apply set_nth_some in Ex. rewrite map_length in Ex. cbn [dataindextb]. unfold zlen in *. lia.
Qed.
Lemma force_bounded se t s i t' : ForceAddString se s t = Some (i, t') -> bounded se t'.
Proof.
  intros H. apply checked_some in H. destruct H as (-> & -> & Hc & Hi). split; [exact Hc|]. cbn [dataindextb]. unfold zlen. rewrite app_length. cbn [List.length]. lia.
Qed.

(* ---------- sequences of operations ---------- *)
Inductive op := OAdd (s : bytes) | OForce (s : bytes) | OGet (s : bytes).
Definition op_string (o : op) : bytes := match o with OAdd s | OForce s | OGet s => s end.
(* the id under which GetString finds the string *)
Definition run_op (se : Z) (o : op) (t : tbl) : option (nat * tbl) :=
  match o with
  | OAdd s => match AddString se s t with Some (i, t') => Some (S i, t') | None => None end
  | OForce s => match ForceAddString se s t with Some (i, t') => Some (S i, t') | None => None end
  | OGet s => GetStringIndex se s t
  end.
Fixpoint run_ops (se : Z) (os : list op) (t : tbl) : option (list nat * tbl) :=
  match os with
  | [] => Some ([], t)
  | o :: r => match run_op se o t with
              | Some (i, t') => match run_ops se r t' with Some (is, t'') => Some (i :: is, t'') | None => None end
              | None => None
              end
  end.
Lemma op_ok se o t i t' : tbl_ok se t -> bounded se t -> run_op se o t = Some (i, t') ->
  tbl_ok se t' /\ bounded se t' /\ keeps t t' /\ (op_string o <> [] -> GetString t' i = Some (op_string o)) /\
  (forall s, o = OGet s -> dget bytes_dec s (stringmap t') = Some (pred i) /\ i <> O).
Proof.
  intros H Hb E. destruct o as [s|s|s]; cbn [run_op op_string] in *.
  - destruct (AddString se s t) as [[k t1]|] eqn:A; [|discriminate]. injection E as <- <-. pose proof (add_bounded se t s k t1 Hb A). apply add_ok in A; [|exact H].
    destruct A as (A1 & A2 & A3 & A4). split; [exact A1|]. split; [assumption|]. split; [exact A2|]. split; [exact A3|]. discriminate.
  - destruct (ForceAddString se s t) as [[k t1]|] eqn:A; [|discriminate]. injection E as <- <-. pose proof (force_bounded se t s k t1 A). apply force_ok in A; [|exact H].
    destruct A as (A1 & A2 & A3 & A4). split; [exact A1|]. split; [assumption|]. split; [exact A2|]. split; [auto|]. discriminate.
  - unfold GetStringIndex in E. destruct (dget bytes_dec s (stringmap t)) as [k|] eqn:Es.
    + injection E as <- <-. split; [exact H|]. split; [exact Hb|]. split; [apply keeps_refl|]. destruct H as ((_ & B2 & _) & _). split; [intros; apply B2; auto|].
      intros s' [= <-]. split; [exact Es|discriminate].
    + destruct (AddString se s t) as [[k t1]|] eqn:A; [|discriminate]. injection E as <- <-. pose proof (add_bounded se t s k t1 Hb A). apply add_ok in A; [|exact H].
      destruct A as (A1 & A2 & A3 & A4 & _ & A5). split; [exact A1|]. split; [assumption|]. split; [exact A2|]. split; [exact A3|].
      intros s' [= <-]. split; [cbn [pred]; auto|discriminate].
Qed.
Lemma ops_ok se os : forall t is t', tbl_ok se t -> bounded se t -> run_ops se os t = Some (is, t') ->
  tbl_ok se t' /\ bounded se t' /\ keeps t t' /\
  Forall2 (fun o i => (op_string o <> [] -> GetString t' i = Some (op_string o)) /\
                      (forall s, o = OGet s -> dget bytes_dec s (stringmap t') = Some (pred i) /\ i <> O)) os is.
Proof.
  induction os as [|o os IH]; intros t is t' H Hb R; cbn [run_ops] in R.
  - injection R as <- <-. split; [exact H|]. split; [exact Hb|]. split; [apply keeps_refl|constructor].
  - destruct (run_op se o t) as [[i t1]|] eqn:E; [|discriminate]. destruct (run_ops se os t1) as [[js t2]|] eqn:R'; [|discriminate]. injection R as <- <-.
    destruct (op_ok se o t i t1 H Hb E) as (A1 & A2 & A3 & A4 & A5). destruct (IH t1 js t2 A1 A2 R') as (C1 & C2 & C3 & C4).
    split; [exact C1|]. split; [exact C2|]. split; [eapply keeps_trans; eauto|]. constructor; [|exact C4]. destruct C3 as (K1 & K2 & _). split.
    + intros Hn. apply K1; auto.
    + intros s Es. destruct (A5 s Es). auto.
Qed.

(* ---------- loading ---------- *)
Definition loading (se : Z) (t : tbl) : Prop :=
  base se t /\ tbl_loaded t = false /\
  (forall s i, dget bytes_dec s (stringmap t) = Some i -> GetString t (S i) = Some s) /\
  (forall f, first_extended t = Some f -> In f (datatb t)).
Lemma add_loading se t s i t' : loading se t -> AddString se s t = Some (i, t') ->
  loading se t' /\ i = List.length (dataindextb t) /\ List.length (dataindextb t') = S (List.length (dataindextb t)) /\
  emptystring t' = emptystring t /\ GetString t' (S i) = Some s /\ (forall j c, GetString t j = Some c -> GetString t' j = Some c) /\
  (forall x, In x (datatb t) -> In x (datatb t')).
Proof.
  intros (B & Lf & X & Ef) H. unfold AddString in H. destruct (dget bytes_dec s (stringmap t)) as [k|] eqn:Es.
  - pose proof B as (B1 & B2 & B3).
    destruct (nth_error (dataindextb t) k) as [d|] eqn:Ek; [|discriminate]. apply checked_some in H. destruct H as (-> & -> & Hc & Hi).
    set (t' := mk_tbl _ _ _ _ _ _ _) in *. destruct (getstring_app t t' d [] eq_refl) as [G1 G2]; [rewrite app_nil_r; reflexivity|]. rewrite app_nil_r in G2.
    assert (Hd : (d < List.length (datatb t))%nat) by (rewrite Forall_forall in B1; apply B1; eapply nth_error_In; exact Ek).
    split; [|split; [reflexivity|split; [cbn [t' dataindextb]; rewrite app_length; cbn [List.length]; lia|split; [reflexivity|split; [|split; [exact G1|auto]]]]]].
    + split; [|split; [exact Lf|split; [intros; apply G1; auto|exact Ef]]].
      split; [|split].
      * cbn [t' dataindextb datatb]. apply Forall_app. split; [exact B1|]. constructor; auto.
      * intros a j Q. cbn [t' dataindextb stringmap] in *. rewrite app_length. cbn [List.length]. destruct (B2 a j Q). split; [lia|]. auto.
      * cbn [t' capacity dataindextb datatb]. unfold zlen in *. rewrite app_length, B3. cbn [List.length]. lia.
    + rewrite G2. specialize (X s k Es). cbn in X. rewrite Ek in X. exact X.
  - assert (Q : checked se (List.length (dataindextb t))
            (mk_tbl (datatb t ++ [s]) (dset bytes_dec s (List.length (dataindextb t)) (stringmap t))
                    (dataindextb t ++ [List.length (datatb t)])
                    (capacity t + (roundup_by_4 (zlen s + 1) + se)) (emptystring t) (tbl_loaded t)
                    (match first_extended t with None => Some s | f => f end)) = Some (i, t')).
    { rewrite Lf in H. cbn [andb] in H. destruct (emptystring t) as [|[? ?] ?]; rewrite Lf; exact H. }
    clear H. apply checked_some in Q. destruct Q as (-> & -> & Hc & Hi). set (t' := mk_tbl _ _ _ _ _ _ _) in *.
    destruct (append_base se t t' s (stringmap t') B eq_refl eq_refl eq_refl eq_refl) as (C1 & C2 & C3).
    { intros k i0 Q. cbn [t' stringmap] in Q. destruct (bytes_dec k s) as [->|Nk].
      - rewrite dget_dset_same in Q. injection Q as <-. auto.
      - rewrite dget_dset_other in Q by exact Nk. auto. }
    split; [|split; [reflexivity|split; [cbn [t' dataindextb]; rewrite app_length; cbn [List.length]; lia|split; [reflexivity|split; [exact C2|split; [exact C3|]]]]]].
    + split; [exact C1|]. split; [exact Lf|]. split.
      * intros k j Q. cbn [t' stringmap] in Q. destruct (bytes_dec k s) as [->|Nk].
        -- rewrite dget_dset_same in Q. injection Q as <-. exact C2.
        -- rewrite dget_dset_other in Q by exact Nk. auto.
      * intros f Q. cbn [t' datatb first_extended] in *. apply in_or_app. destruct (first_extended t) eqn:E; injection Q as <-; [left; auto|right; left; reflexivity].
    + intros x Hx. cbn [t' datatb]. apply in_or_app. auto.
Qed.

(* loading as a fold over the strings and the entries of _emptystring *)
Fixpoint fold_add (se : Z) (items : list (bytes * option (nat * option bytes))) (t : tbl) : option tbl :=
  match items with
  | [] => Some t
  | (s, oe) :: r =>
      match AddString se s (match oe with Some e => push_empty e t | None => t end) with
      | Some (_, t') => fold_add se r t'
      | None => None
      end
  end.
Lemma push_loading se t e : loading se t -> loading se (push_empty e t).
Proof. intros H. exact H. Qed.
Definition empty_ok (t : tbl) (future : list bytes) : Prop :=
  NoDup (map fst (emptystring t)) /\
  forall i e, In (i, e) (emptystring t) -> GetString t (S i) = Some [] /\ forall x, e = Some x -> In x (datatb t) \/ In x future.
Lemma nodup_snoc {A} (l : list A) x : NoDup l -> ~ In x l -> NoDup (l ++ [x]).
Proof.
  intros H N. induction H as [|a l Ha Hl IH]; cbn; [repeat constructor; auto|]. constructor; [|apply IH; intros Q; apply N; right; exact Q].
  rewrite in_app_iff. cbn. intros [Q|[Q|[]]]; auto. apply N. left. auto.
Qed.
Lemma fold_add_ok se items : forall t t', loading se t -> bounded se t -> empty_ok t (map fst items) ->
  (forall p s i e, nth_error items p = Some (s, Some (i, e)) ->
     i = (List.length (dataindextb t) + p)%nat /\ s = [] /\ forall x, e = Some x -> In x (datatb t) \/ In x (map fst items)) ->
  fold_add se items t = Some t' ->
  loading se t' /\ bounded se t' /\ empty_ok t' [] /\ List.length (dataindextb t') = (List.length (dataindextb t) + List.length items)%nat /\
  (forall j c, GetString t j = Some c -> GetString t' j = Some c) /\
  (forall p s oe, nth_error items p = Some (s, oe) -> GetString t' (S (List.length (dataindextb t) + p)) = Some s).
Proof.
  induction items as [|[s oe] items IH]; intros t t' Hl Hb He Hi H; cbn [fold_add] in H.
  - injection H as <-. split; [exact Hl|]. split; [exact Hb|]. split; [exact He|]. split; [cbn; lia|]. split; [auto|]. intros [|p]; discriminate.
  - set (t1 := match oe with Some e => push_empty e t | None => t end) in H.
    assert (L1 : loading se t1) by (subst t1; destruct oe; auto).
    assert (Q1 : dataindextb t1 = dataindextb t /\ datatb t1 = datatb t /\ (forall j, GetString t1 j = GetString t j) /\ bounded se t1) by (subst t1; destruct oe; repeat split; auto; apply Hb).
    destruct Q1 as (Q1 & Q2 & Q3 & Q4).
    destruct (AddString se s t1) as [[k t2]|] eqn:A; [|discriminate]. pose proof (add_bounded se t1 s k t2 Q4 A) as Hb2. apply add_loading in A; [|exact L1].
    destruct A as (A1 & -> & A3 & A4 & A5 & A6 & A7). rewrite Q1 in A3, A5.
    assert (G : forall j c, GetString t j = Some c -> GetString t2 j = Some c) by (intros j c Q; apply A6; rewrite Q3; exact Q).
    assert (S2 : In s (datatb t2)).
    { cbn in A5. destruct (nth_error (dataindextb t2) (List.length (dataindextb t))) as [d|]; [|discriminate]. eapply nth_error_In. exact A5. }
    assert (E2 : empty_ok t2 (map fst items)).
    { destruct He as [N He]. split.
      - rewrite A4. subst t1. destruct oe as [[i e]|]; [|exact N]. cbn [push_empty emptystring]. rewrite map_app. cbn [map fst]. apply nodup_snoc; [exact N|].
        destruct (Hi O s i e eq_refl) as (-> & _ & _). intros Q. apply in_map_iff in Q. destruct Q as ([i' e'] & Q & I). cbn in Q. subst i'. destruct (He _ _ I) as [G' _].
        apply getstring_lt in G'. lia.
      - intros i e I. rewrite A4 in I.
        assert (I' : In (i, e) (emptystring t) \/ oe = Some (i, e)).
        { subst t1. destruct oe as [e'|]; [|auto]. cbn [push_empty emptystring] in I. apply in_app_or in I. destruct I as [I|[->|[]]]; auto. }
        destruct I' as [I'| ->].
        + destruct (He i e I') as [G1 G2]. split; [auto|]. intros x Ex. destruct (G2 x Ex) as [Q|Q]; [left; apply A7; rewrite Q2; exact Q|].
          cbn [map fst] in Q. destruct Q as [<-|Q]; auto.
        + destruct (Hi O s i e eq_refl) as (-> & -> & Q). rewrite Nat.add_0_r. split; [exact A5|]. intros x Ex. destruct (Q x Ex) as [Q'|Q']; [left; apply A7; rewrite Q2; exact Q'|].
          cbn [map fst] in Q'. destruct Q' as [<-|Q']; auto. }
    destruct (IH t2 t' A1 Hb2 E2) as (C1 & C2 & C3 & C4 & C5 & C6).
    { intros p s0 i e Hp. destruct (Hi (S p) s0 i e Hp) as (-> & -> & Q). rewrite A3. split; [lia|]. split; [reflexivity|]. intros x Ex.
      destruct (Q x Ex) as [Q'|Q']; [left; apply A7; rewrite Q2; exact Q'|]. cbn [map fst] in Q'. destruct Q' as [<-|Q']; auto. }
    { exact H. }
    split; [exact C1|]. split; [exact C2|]. split; [exact C3|]. split; [rewrite C4, A3; cbn [List.length]; lia|]. split; [auto|].
    intros [|p] s0 oe0 Hp.
    + injection Hp as <- <-. rewrite Nat.add_0_r. apply C5. exact A5.
    + cbn in Hp. apply C6 in Hp. rewrite A3 in Hp. rewrite <- Hp. f_equal. lia.
Qed.
Lemma new_loading se : loading se (new_tbl se) /\ empty_ok (new_tbl se) [].
Proof.
  split; [|split; [constructor|intros ? ? []]]. split; [|split; [reflexivity|split; discriminate]]. split; [constructor|]. split; [discriminate|]. cbn. lia.
Qed.
Lemma loaded_ok se t : loading se t -> empty_ok t [] -> tbl_ok se (set_loaded t).
Proof.
  intros (B & L & X & F) [N E]. split; [exact B|]. split; [exact N|]. split; [|split; [|exact F]].
  - intros i e I. apply (E i e I).
  - intros i s I. destruct (E i (Some s) I) as [_ Q]. destruct (Q s eq_refl) as [Q0|[]]. assumption.
Qed.

(* the strict loader *)
Lemma find_next_in le content skip recode js x : find_next le content skip recode js = Some (Some x) ->
  exists j s, In j js /\ skip j = false /\ entry le content j = Some s /\ s <> [] /\ x = recode j s.
Proof.
  induction js as [|j js IH]; cbn [find_next]; [discriminate|]. intros H.
  assert (R : find_next le content skip recode js = Some (Some x) -> exists j0 s, In j0 (j :: js) /\ skip j0 = false /\ entry le content j0 = Some s /\ s <> [] /\ x = recode j0 s).
  { intros Q. destruct (IH Q) as (j0 & s & Q1 & Q2). exists j0, s. split; [right; exact Q1|exact Q2]. }
  destruct (skip j) eqn:Sj; [auto|]. destruct (entry le content j) as [[|c r]|] eqn:E; [auto| |discriminate]. injection H as <-.
  exists j, (c :: r). split; [left; reflexivity|]. split; [exact Sj|]. split; [exact E|]. split; [discriminate|reflexivity].
Qed.
Lemma load_items se le content k : forall a t t', load_loop_tbl se le content (seq a k) t = Some t' ->
  exists items, fold_add se items t = Some t' /\ List.length items = k /\
    forall p s oe, nth_error items p = Some (s, oe) -> entry le content (a + p) = Some s /\
      forall i e, oe = Some (i, e) -> i = pred (a + p) /\ s = [] /\ forall x, e = Some x -> exists j, (a + p < j < a + k)%nat /\ entry le content j = Some x.
Proof.
  induction k as [|k IH]; intros a t t' H; cbn [seq load_loop_tbl] in H.
  - injection H as <-. exists []. split; [reflexivity|]. split; [reflexivity|]. intros [|p]; discriminate.
  - destruct (entry le content a) as [s|] eqn:E; [|discriminate].
    assert (D : exists oe, match s with nil => match find_next le content (fun _ => false) (fun _ s => s) (seq (S a) k) with Some e => Some (push_empty (pred a, e) t) | None => None end | _ => Some t end
       = Some (match oe with Some e => push_empty e t | None => t end) /\
       forall i e, oe = Some (i, e) -> i = pred a /\ s = [] /\ forall x, e = Some x -> exists j, (a < j < a + S k)%nat /\ entry le content j = Some x).
    { destruct s as [|c r]; [|exists None; split; [reflexivity|discriminate]].
      destruct (find_next le content (fun _ => false) (fun _ s => s) (seq (S a) k)) as [e|] eqn:F; [|discriminate].
      exists (Some (pred a, e)). split; [reflexivity|]. intros i e0 Q. injection Q as <- <-. split; [reflexivity|]. split; [reflexivity|]. intros x ->.
      apply find_next_in in F. destruct F as (j & s & F1 & _ & F2 & _ & ->). exists j. apply in_seq in F1. split; [lia|exact F2]. }
    destruct D as (oe & D1 & D2). rewrite D1 in H.
    destruct (AddString se s (match oe with Some e => push_empty e t | None => t end)) as [[n t2]|] eqn:A; [|discriminate].
    apply IH in H. destruct H as (items & H1 & H2 & H3). exists ((s, oe) :: items). split; [cbn [fold_add]; rewrite A; exact H1|]. split; [cbn; lia|].
    intros [|p] s0 oe0 Hp.
    + injection Hp as <- <-. rewrite Nat.add_0_r. split; [exact E|]. exact D2.
    + cbn in Hp. destruct (H3 p s0 oe0 Hp) as [G1 G2]. replace (a + S p)%nat with (S a + p)%nat by lia. split; [exact G1|]. intros i e Q. destruct (G2 i e Q) as (R1 & R2 & R3).
      split; [exact R1|]. split; [exact R2|]. intros x Ex. destruct (R3 x Ex) as (j & J1 & J2). exists j. split; [lia|exact J2].
Qed.
Lemma new_bounded se : 0 < se -> bounded se (new_tbl se).
Proof. intros H. split; [|cbn; lia]. cbn [new_tbl capacity]. assert (se < 2 ^ se) by (apply Z.pow_gt_lin_r; lia). assert (2 ^ se <= 2 ^ (8 * se)) by (apply Z.pow_le_mono_r; lia). lia. Qed.
Lemma load_ok se le content n t : 0 < se -> b2in le content 0 = Some n -> load_tbl se le content = Some t ->
  tbl_ok se t /\ bounded se t /\ List.length (dataindextb t) = Z.to_nat n /\
  forall i, (1 <= i <= Z.to_nat n)%nat -> exists s, entry le content i = Some s /\ GetString t i = Some s.
Proof.
  intros Hse Hn H. unfold load_tbl in H. rewrite Hn in H. destruct (load_loop_tbl se le content (seq 1 (Z.to_nat n)) (new_tbl se)) as [t1|] eqn:L; [|discriminate]. injection H as <-.
  apply load_items in L. destruct L as (items & L1 & L2 & L3). destruct (new_loading se) as [N1 N2].
  destruct (fold_add_ok se items (new_tbl se) t1 N1 (new_bounded se Hse)) as (C1 & C2 & C3 & C4 & C5 & C6).
  - split; [constructor|intros ? ? []].
  - intros p s i e Hp. destruct (L3 p s _ Hp) as [E1 E2]. destruct (E2 i e eq_refl) as (-> & -> & E4). split; [cbn; reflexivity|]. split; [reflexivity|].
    intros x Ex. right. destruct (E4 x Ex) as (j & J1 & J2). destruct (nth_error items (j - 1)) as [[s' oe']|] eqn:Ej.
    + destruct (L3 _ _ _ Ej) as [E5 _]. replace (1 + (j - 1))%nat with j in E5 by lia. rewrite J2 in E5. injection E5 as <-. apply nth_error_In in Ej. apply (in_map fst) in Ej. exact Ej.
    + apply nth_error_None in Ej. lia.
  - exact L1.
  - split; [apply loaded_ok; assumption|]. split; [exact C2|]. split; [cbn [set_loaded dataindextb]; rewrite C4, L2; reflexivity|].
    intros i Hi. destruct (nth_error items (i - 1)) as [[s oe]|] eqn:Ei; [|apply nth_error_None in Ei; lia].
    destruct (L3 _ _ _ Ei) as [E1 _]. replace (1 + (i - 1))%nat with i in E1 by lia. exists s. split; [exact E1|]. apply C6 in Ei. cbn [new_tbl dataindextb List.length] in Ei.
    replace (S (0 + (i - 1))) with i in Ei by lia. exact Ei.
Qed.
