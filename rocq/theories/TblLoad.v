(* Loading with the rest of the scenario, and names of locations and switches. *)
From Coq Require Import String ZArith Lia List Bool ZifyBool ZifyNat.
From Verif Require Import Dict BinModel BinProofs ChkModel TblModel TblProofs.
Import ListNotations.
Open Scope Z_scope.

Section Load.
Context (se le : Z) (reenc : bytes -> bytes) (unitdict locdict swnmdict : dict Z nat) (reserved : list Z).
Notation removed := (removed unitdict locdict swnmdict reserved).
Notation recode_unit := (recode_unit reenc unitdict).
Notation add_names := (add_names unitdict locdict swnmdict).
Notation load_loop_chk := (load_loop_chk se le reenc unitdict locdict swnmdict reserved).
Notation lenient := (lenient_entry le).
(* the string an id has in the scenario, after re-encoding; then with the names
   of locations and switches taken out *)
Definition named (content : bytes) (i : nat) : bytes :=
  match lenient content i with Some (Some (c :: r)) => recode_unit i (c :: r) | _ => [] end.
Definition final (content : bytes) (i : nat) : bytes := if removed i then [] else named content i.

Lemma strict_lenient content i s : entry le content i = Some s -> lenient content i = Some (Some s).
Proof. unfold entry, lenient_entry. destruct (b2in le content (i * Z.to_nat le)); [|discriminate]. intros ->. reflexivity. Qed.

Lemma load_items_chk content k : forall a t t' m m', load_loop_chk content (seq a k) t m = Some (t', m') ->
  (forall i, (a <= i < a + k)%nat -> lenient content i <> Some None) ->
  exists items, fold_add se items t = Some t' /\ List.length items = k /\
    forall p s oe, nth_error items p = Some (s, oe) -> s = final content (a + p) /\
      forall i e, oe = Some (i, e) -> i = pred (a + p) /\ s = [] /\ forall x, e = Some x -> exists j, (a + p < j < a + k)%nat /\ x = final content j.
Proof.
  induction k as [|k IH]; intros a t t' m m' H NS; cbn [seq TblModel.load_loop_chk] in H.
  - injection H as <- <-. exists []. split; [reflexivity|]. split; [reflexivity|]. intros [|p]; discriminate.
  - destruct (lenient content a) as [[s|]|] eqn:E; [|exfalso; apply (NS a); [lia|exact E]|discriminate].
    cbv zeta in H. set (s1 := match s with [] => [] | _ :: _ => recode_unit a s end) in H.
    assert (Es1 : s1 = named content a) by (unfold s1, named; rewrite E; destruct s; reflexivity).
    match type of H with context[AddString se ?X] => set (fs := X) in H end.
    assert (Ef : fs = final content a) by (unfold fs, final; rewrite Es1; reflexivity). clearbody fs. subst fs.
    match type of H with match ?X with _ => _ end = _ => set (D := X) in H end.
    assert (Dx : exists oe, (forall t1, D = Some t1 -> t1 = match oe with Some e => push_empty e t | None => t end) /\
       forall i e, oe = Some (i, e) -> i = pred a /\ final content a = [] /\ forall x, e = Some x -> exists j, (a < j < a + S k)%nat /\ x = final content j).
    { destruct ((match s with [] => true | _ => false end) || removed a) eqn:C.
      - destruct (find_next le content removed recode_unit (seq (S a) k)) as [e|] eqn:F.
        + exists (Some (pred a, e)). split; [subst D; intros t1 Q; injection Q as <-; reflexivity|].
          intros i e0 Q. injection Q as <- <-. split; [reflexivity|]. split.
          * unfold final. destruct (removed a) eqn:Ra; [reflexivity|]. rewrite <- Es1. unfold s1. destruct s; [reflexivity|discriminate].
          * intros x ->. apply find_next_in in F. destruct F as (j & s' & F1 & F2 & F3 & F4 & ->). exists j. apply in_seq in F1. split; [lia|].
            unfold final, named. rewrite F2, (strict_lenient _ _ _ F3). destruct s'; [congruence|reflexivity].
        + exists None. split; [subst D; discriminate|discriminate].
      - exists None. split; [subst D; intros t1 Q; injection Q as <-; reflexivity|discriminate]. }
    destruct Dx as (oe & D1 & D2). destruct D as [t1|]; [|discriminate]. rewrite (D1 t1 eq_refl) in H. clear D1.
    destruct (AddString se (final content a) (match oe with Some e => push_empty e t | None => t end)) as [[n t2]|] eqn:A; [|discriminate].
    apply IH in H; [|intros i Hi; apply NS; lia]. destruct H as (items & H1 & H2 & H3). exists ((final content a, oe) :: items).
    split; [cbn [fold_add]; rewrite A; exact H1|]. split; [cbn; lia|].
    intros [|p] s0 oe0 Hp.
    + injection Hp as <- <-. rewrite Nat.add_0_r. split; [reflexivity|]. exact D2.
    + cbn in Hp. destruct (H3 p s0 oe0 Hp) as [G1 G2]. replace (a + S p)%nat with (S a + p)%nat by lia. split; [exact G1|]. intros i e Q. destruct (G2 i e Q) as (R1 & R2 & R3).
      split; [exact R1|]. split; [exact R2|]. intros x Ex. destruct (R3 x Ex) as (j & J1 & J2). exists j. split; [lia|exact J2].
Qed.
Lemma load_chk_ok content n t m : 0 < se ->
  (forall i, (1 <= i <= n)%nat -> lenient content i <> Some None) ->
  load_loop_chk content (seq 1 n) (new_tbl se) (mk_maps [] [] []) = Some (t, m) ->
  tbl_ok se (set_loaded t) /\ bounded se (set_loaded t) /\ List.length (dataindextb t) = n /\
  forall i, (1 <= i <= n)%nat -> GetString (set_loaded t) i = Some (final content i).
Proof.
  intros Hse NS L. apply load_items_chk in L; [|intros i Hi; apply NS; lia]. destruct L as (items & L1 & L2 & L3). destruct (new_loading se) as [N1 N2].
  destruct (fold_add_ok se items (new_tbl se) t N1 (new_bounded se Hse)) as (C1 & C2 & C3 & C4 & C5 & C6).
  - split; [constructor|intros ? ? []].
  - intros p s i e Hp. destruct (L3 p s _ Hp) as [E1 E2]. destruct (E2 i e eq_refl) as (-> & -> & E4). split; [cbn; reflexivity|]. split; [reflexivity|].
    intros x Ex. right. destruct (E4 x Ex) as (j & J1 & J2). destruct (nth_error items (j - 1)) as [[s' oe']|] eqn:Ej.
    + destruct (L3 _ _ _ Ej) as [E5 _]. replace (1 + (j - 1))%nat with j in E5 by lia. subst. apply nth_error_In in Ej. apply (in_map fst) in Ej. exact Ej.
    + apply nth_error_None in Ej. lia.
  - exact L1.
  - split; [apply loaded_ok; assumption|]. split; [exact C2|]. split; [rewrite C4, L2; reflexivity|].
    intros i Hi. destruct (nth_error items (i - 1)) as [[s oe]|] eqn:Ei; [|apply nth_error_None in Ei; lia].
    destruct (L3 _ _ _ Ei) as [E1 _]. replace (1 + (i - 1))%nat with i in E1 by lia. subst s. apply C6 in Ei. cbn [new_tbl dataindextb List.length] in Ei.
    replace (S (0 + (i - 1))) with i in Ei by lia. exact Ei.
Qed.

(* ---------- names ---------- *)
Definition adds (d : dict Z nat) (content : bytes) (is : list nat) : list (bytes * nat) :=
  flat_map (fun i => match named content i with [] => [] | s => match dget Z.eq_dec (Z.of_nat i) d with Some k => [(s, k)] | None => [] end end) is.
Definition add_all (l : list (bytes * nat)) (m : idmap) : idmap := fold_left (fun m p => add_item (fst p) (snd p) m) l m.
Lemma load_names content is : forall t t' m m', load_loop_chk content is t m = Some (t', m') ->
  locmap m' = add_all (adds locdict content is) (locmap m) /\ swmap m' = add_all (adds swnmdict content is) (swmap m).
Proof.
  induction is as [|i is IH]; intros t t' m m' H; cbn [TblModel.load_loop_chk] in H.
  - injection H as <- <-. auto.
  - assert (N : forall d m0, idmap_add d i (named content i) m0 = match named content i with [] => idmap_add d i [] m0 | _ => add_all (adds d content [i]) m0 end).
    { intros d m0. unfold adds, idmap_add. cbn [flat_map]. rewrite app_nil_r. destruct (named content i); [reflexivity|]. destruct (dget Z.eq_dec (Z.of_nat i) d); reflexivity. }
    assert (Ap : forall d m0, add_all (adds d content (i :: is)) m0 = add_all (adds d content is) (add_all (adds d content [i]) m0)).
    { intros d m0. unfold add_all, adds. cbn [flat_map]. rewrite app_nil_r, fold_left_app. reflexivity. }
    rewrite !Ap. destruct (lenient content i) as [[s|]|] eqn:E; [| |discriminate].
    + cbv zeta in H. set (s1 := match s with [] => [] | _ :: _ => recode_unit i s end) in H.
      assert (Es1 : s1 = named content i) by (unfold s1, named; rewrite E; destruct s; reflexivity). clearbody s1. subst s1.
      match type of H with match ?X with _ => _ end = _ => destruct X as [t1|] end; [|discriminate].
      destruct (AddString _ _ t1) as [[n t2]|]; [|discriminate]. apply IH in H. destruct H as [-> ->].
      unfold TblModel.add_names. destruct (named content i) as [|c r] eqn:En.
      * unfold adds. cbn [flat_map]. rewrite En. cbn [app]. auto.
      * cbn [locmap swmap]. rewrite !N. auto.
    + apply IH in H. destruct H as [-> ->]. unfold adds. cbn [flat_map]. unfold named. rewrite E. auto.
Qed.
End Load.

Definition name_is (s : bytes) (p : bytes * nat) : bool := if bytes_dec s (fst p) then true else false.
Lemma add_all_spec s l : forall m, dget bytes_dec s (add_all l m) =
  match filter (name_is s) l with
  | [] => dget bytes_dec s m
  | [p] => match dget bytes_dec s m with None => Some (Some (snd p)) | Some _ => Some None end
  | _ => Some None
  end.
Proof.
  induction l as [|[a k] l IH]; intros m; [reflexivity|]. unfold add_all in *. cbn [fold_left filter fst snd]. rewrite IH. unfold name_is at 2. cbn [fst].
  unfold add_item. destruct (bytes_dec s a) as [<-|N].
  - destruct (filter (name_is s) l) as [|p [|q r]].
    + destruct (dget bytes_dec s m); apply dget_dset_same.
    + destruct (dget bytes_dec s m); rewrite dget_dset_same; reflexivity.
    + reflexivity.
  - destruct (dget bytes_dec a m); rewrite dget_dset_other by exact N; reflexivity.
Qed.
Lemma idmap_get_spec s k l : idmap_get s (add_all l []) = Some k <-> filter (name_is s) l = [(s, k)].
Proof.
  unfold idmap_get. rewrite add_all_spec. destruct (filter (name_is s) l) as [|p [|q r]] eqn:F.
  - cbn. split; discriminate.
  - cbn. assert (I : In p (filter (name_is s) l)) by (rewrite F; left; reflexivity). apply filter_In in I. destruct I as [_ I]. unfold name_is in I.
    destruct p as [a b]. cbn [fst snd] in *. destruct (bytes_dec s a) as [<-|]; [|discriminate]. split; intros Q; injection Q as <-; reflexivity.
  - split; discriminate.
Qed.

(* which item a string id stands for: the last one that uses it *)
Lemma iddict_spec rd is : forall d d', iddict rd is d = Some d' -> forall z,
  dget Z.eq_dec z d' = match find (fun i => match rd i with Some x => (x =? z) && negb (x =? 0) | None => false end) (rev is) with
                       | Some i => Some i | None => dget Z.eq_dec z d end.
Proof.
  induction is as [|i is IH]; intros d d' H z; cbn [iddict] in H.
  - injection H as <-. reflexivity.
  - destruct (rd i) as [x|] eqn:R; [|discriminate]. rewrite (IH _ _ H z). cbn [rev].
    assert (F : forall f (l : list nat) a, find f (l ++ [a]) = match find f l with Some y => Some y | None => if f a then Some a else None end).
    { intros f l a. induction l as [|b l IHl]; cbn; [reflexivity|]. destruct (f b); auto. }
    rewrite F. destruct (find _ (rev is)); [reflexivity|]. rewrite R.
    destruct (Z.eqb_spec x 0) as [->|N0]; [rewrite andb_false_r; reflexivity|]. cbn [negb]. rewrite andb_true_r.
    destruct (Z.eqb_spec x z) as [->|N]; [apply dget_dset_same|apply dget_dset_other; congruence].
Qed.
Lemma iddict_total rd is : forall d d', iddict rd is d = Some d' -> forall i, In i is -> exists x, rd i = Some x.
Proof.
  induction is as [|a is IH]; intros d d' H i I; cbn [iddict] in H; [destruct I|]. destruct (rd a) as [x|] eqn:R; [|discriminate]. destruct I as [<-|I]; eauto.
Qed.
