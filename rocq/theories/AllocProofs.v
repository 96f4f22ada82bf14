From Coq Require Import ZArith List Bool Lia ZifyBool ZifyNat.
From Verif Require Import AllocModel.
Import ListNotations.
Open Scope Z_scope.

Lemma set_nth_length xs i v : length (set_nth xs i v) = length xs.
Proof. revert i; induction xs; destruct i; simpl; auto. Qed.

Lemma nth_set_nth_eq xs i v : (i < length xs)%nat -> nth_error (set_nth xs i v) i = Some v.
Proof. revert i; induction xs; destruct i; simpl; intros; try lia; auto. apply IHxs; lia. Qed.

Lemma nth_set_nth_ne xs i j v : i <> j -> nth_error (set_nth xs i v) j = nth_error xs j.
Proof. revert i j; induction xs; destruct i, j; simpl; intros; try congruence; auto. Qed.

(* An occupancy list is fit when every entry is -1 or an index not after itself. *)
Definition fit (occ : list Z) : Prop :=
  forall i o, nth_error occ i = Some o -> o = -1 \/ (0 <= o <= Z.of_nat i).

(* The run table: entry k is -1 or a position after k and at most [p]. *)
Definition tab_ok (sum : list Z) (p : nat) : Prop :=
  forall k s, nth_error sum k = Some s -> s = -1 \/ (Z.of_nat k < s <= Z.of_nat p).

Lemma last_app1 (xs : list Z) x d : last (xs ++ [x]) d = x.
Proof. induction xs as [|a xs IH]; simpl; auto. destruct (xs ++ [x]) eqn:E; [destruct xs; discriminate|]. exact IH. Qed.

Lemma fit_push occ b : fit occ -> fit (push occ b).
Proof.
  intros H i o Hn. unfold push in Hn.
  destruct (Nat.lt_ge_cases i (length occ)) as [Hi|Hi].
  - rewrite nth_error_app1 in Hn by lia. eapply H; eauto.
  - rewrite nth_error_app2 in Hn by lia.
    destruct (i - length occ)%nat as [|k] eqn:E; [|destruct k; discriminate].
    cbn [nth_error] in Hn. injection Hn as <-.
    destruct b; cbn [negb]; [|auto]. right.
    destruct (last occ (-1) =? -1) eqn:El; cbn [negb]; [lia|].
    destruct occ as [|x xs] using rev_ind; [simpl in El; lia|].
    rewrite last_app1 in *. specialize (H (length xs) x).
    rewrite nth_error_app2, Nat.sub_diag in H by lia.
    specialize (H eq_refl). rewrite app_length in *; simpl in *; lia.
Qed.

Lemma fold_push_fit pat acc : fit acc -> fit (fold_left push pat acc).
Proof. revert acc; induction pat; simpl; intros; auto. apply IHpat, fit_push; auto. Qed.

Lemma occup_fit pat : fit (occup_of pat).
Proof. apply fold_push_fit. intros i o H; destruct i; discriminate. Qed.

(* used dwords of a pattern agree with the map *)
Lemma fold_push_used pat acc i :
  (length acc <= i)%nat ->
  match nth_error (fold_left push pat acc) i with
  | Some o => negb (o =? -1)
  | None => false end = nth (i - length acc) pat false.
Proof.
  revert acc i; induction pat as [|b pat IH]; intros acc i Hi; cbn [fold_left].
  - rewrite (proj2 (nth_error_None acc i)) by lia. destruct (i - length acc)%nat; auto.
  - assert (HL : length (push acc b) = S (length acc)) by (unfold push; rewrite app_length; simpl; lia).
    destruct (Nat.eq_dec i (length acc)) as [->|Hne].
    + rewrite Nat.sub_diag; cbn [nth].
      assert (Hkeep : forall pat' acc' k, (k < length acc')%nat ->
                nth_error (fold_left push pat' acc') k = nth_error acc' k).
      { clear. induction pat' as [|b' p' IH']; intros; cbn [fold_left]; auto.
        rewrite IH'.
        - unfold push; rewrite nth_error_app1; auto.
        - unfold push; rewrite app_length; simpl; lia. }
      rewrite Hkeep by lia. unfold push. rewrite nth_error_app2, Nat.sub_diag by lia. cbn [nth_error].
      destruct b; cbn [negb]; [|reflexivity].
      destruct (last acc (-1) =? -1) eqn:E; cbn [negb]; lia.
    + rewrite IH by lia. rewrite HL.
      replace (i - length acc)%nat with (S (i - S (length acc))) by lia. reflexivity.
Qed.

Lemma fold_push_length pat acc : length (fold_left push pat acc) = (length acc + length pat)%nat.
Proof.
  revert acc; induction pat; simpl; intros; [lia|]. rewrite IHpat. unfold push. rewrite app_length; simpl; lia.
Qed.

Lemma occup_length pat : length (occup_of pat) = length pat.
Proof. unfold occup_of. rewrite fold_push_length. reflexivity. Qed.

Lemma occup_used pat i :
  nth i pat false = true <-> exists o, nth_error (occup_of pat) i = Some o /\ o <> -1.
Proof.
  pose proof (fold_push_used pat [] i) as H. cbn [length] in H. rewrite Nat.sub_0_r in H.
  specialize (H ltac:(lia)). fold (occup_of pat) in H. rewrite <- H.
  destruct (nth_error (occup_of pat) i) as [o|]; split.
  - intros; exists o; split; auto; lia.
  - intros (o' & E & Hne); inversion E; subst; lia.
  - discriminate.
  - intros (o' & E & _); discriminate.
Qed.

(* ---- search ---- *)
Lemma find_pos_ok fuel sum occ p l i :
  fit occ -> tab_ok sum p -> (l <= p)%nat -> (p + length occ <= length sum)%nat ->
  (i <= length occ)%nat ->
  (S (length occ) * (p - l) + (length occ - i) < fuel)%nat ->
  (forall j o, (j < i)%nat -> nth_error occ j = Some o -> o <> -1 -> nth_error sum (l + j) = Some (-1)) ->
  exists l', find_pos fuel sum occ l i = Ok l' /\ (l <= l' <= p)%nat /\
    (forall j o, nth_error occ j = Some o -> o <> -1 -> nth_error sum (l' + j) = Some (-1)).
Proof.
  revert l i. induction fuel as [|fuel IH]; intros l i Hfit Htab Hl Hlen Hi Hf Hpre; [exfalso; eapply Nat.nlt_0_r; eauto|].
  cbn [find_pos].
  destruct (Nat.ltb_spec i (length occ)) as [Hlt|Hge].
  - destruct (nth_error occ i) as [o|] eqn:Eo; [|apply nth_error_None in Eo; lia].
    destruct (o =? -1) eqn:E1.
    + apply IH; auto; try lia. intros j o' Hj Hn Hne.
      destruct (Nat.eq_dec j i) as [->|]; [rewrite Eo in Hn; injection Hn as <-; lia|].
      eapply Hpre; eauto; lia.
    + destruct (nth_error sum (l + i)) as [s|] eqn:Es; [|apply nth_error_None in Es; lia].
      destruct (s =? -1) eqn:E2.
      * apply IH; auto; try lia. intros j o' Hj Hn Hne.
        destruct (Nat.eq_dec j i) as [->|]; [rewrite Es; f_equal; lia|].
        eapply Hpre; eauto; lia.
      * destruct (Hfit _ _ Eo) as [?|Ho]; [lia|].
        destruct (Htab _ _ Es) as [?|Hs]; [lia|].
        destruct (s - o <? 0) eqn:E3; [lia|].
        destruct (IH (Z.to_nat (s - o)) 0%nat) as (l' & R & Hb & Hfree); auto; try lia.
        { assert (p - Z.to_nat (s - o) < p - l)%nat by lia. nia. }
        exists l'. split; [exact R|]. split; [lia|auto].
  - exists l. split; [reflexivity|]. split; [lia|].
    intros j o Hn Hne. eapply Hpre; eauto.
    apply nth_error_Some_length in Hn || (assert (j < length occ)%nat by (apply nth_error_Some; congruence); lia).
Qed.

(* ---- apply ---- *)
Lemma apply_occ_ok sum occ l n p' sum' :
  (n <= length occ)%nat -> (l + length occ <= p')%nat ->
  tab_ok sum p' ->
  apply_occ sum occ l n = Ok sum' ->
  length sum' = length sum /\ tab_ok sum' p' /\
  (forall k, nth_error sum' k = Some (-1) <->
     (nth_error sum k = Some (-1) /\
      ~ (exists i o, (i < n)%nat /\ k = (l + i)%nat /\ nth_error occ i = Some o /\ o <> -1))).
Proof.
  revert sum. induction n as [|i IH]; intros sum Hn Hp Htab H; cbn [apply_occ] in H.
  - injection H as <-. split; auto. split; auto. intros k; split; [|tauto].
    intros; split; auto. intros (i & o & Hi & _); lia.
  - destruct (nth_error occ i) as [occup|] eqn:Eo; [|discriminate].
    destruct (nth_error sum (l + i)) as [s|] eqn:Es; [|discriminate].
    destruct (negb (occup =? -1) || negb (s =? -1)) eqn:Ec.
    + destruct (nth_error sum (S (l + i))) as [nx|] eqn:En; [|discriminate].
      set (v := if nx =? -1 then Z.of_nat (l + i) + 1 else nx) in *.
      assert (Hv : Z.of_nat (l + i) < v <= Z.of_nat p').
      { unfold v. destruct (nx =? -1) eqn:E; [lia|]. destruct (Htab _ _ En); lia. }
      assert (Hlt : (l + i < length sum)%nat) by (apply nth_error_Some; congruence).
      destruct (IH (set_nth sum (l + i) v)) as (HL & HT & HU); auto; [lia| |].
      { intros k x Hk. destruct (Nat.eq_dec (l + i) k) as [<-|Hne].
        - rewrite nth_set_nth_eq in Hk by auto. injection Hk as <-. right; lia.
        - rewrite nth_set_nth_ne in Hk by auto. eapply Htab; eauto. }
      rewrite set_nth_length in HL. split; auto. split; auto.
      intros k. rewrite HU. destruct (Nat.eq_dec (l + i) k) as [<-|Hne].
      * rewrite nth_set_nth_eq by auto. split; [intros [E _]; injection E; lia|].
        intros [E Hno]. exfalso. apply Hno. exists i, occup. rewrite Es in E. injection E as ->.
        repeat split; auto; lia.
      * rewrite nth_set_nth_ne by auto. split; intros [E Hno]; split; auto; intros (j & o & Hj & Hk & Hoj & Hne'); apply Hno.
        -- exists j, o. repeat split; auto. destruct (Nat.eq_dec j i); [subst; lia|lia].
        -- exists j, o. repeat split; auto.
    + destruct (IH sum) as (HL & HT & HU); auto; [lia|]. split; auto. split; auto.
      intros k; rewrite HU. split; intros [E Hno]; split; auto; intros (j & o & Hj & Hk & Hoj & Hne'); apply Hno.
      * exists j, o. repeat split; auto. destruct (Nat.eq_dec j i); [subst; rewrite Eo in Hoj; injection Hoj as <-; lia|lia].
      * exists j, o. repeat split; auto.
Qed.

Lemma apply_occ_total sum occ l n :
  (n <= length occ)%nat -> (l + length occ < length sum)%nat ->
  exists sum', apply_occ sum occ l n = Ok sum'.
Proof.
  revert sum. induction n as [|i IH]; intros sum Hn Hlen; cbn [apply_occ]; [eauto|].
  destruct (nth_error occ i) as [o|] eqn:Eo; [|apply nth_error_None in Eo; lia].
  destruct (nth_error sum (l + i)) as [s|] eqn:Es; [|apply nth_error_None in Es; lia].
  destruct (negb (o =? -1) || negb (s =? -1)).
  - destruct (nth_error sum (S (l + i))) as [nx|] eqn:En; [|apply nth_error_None in En; lia].
    apply IH; [lia|rewrite set_nth_length; lia].
  - apply IH; lia.
Qed.

(* used dword of a placed object *)
Definition at_dword (occ : list Z) (l : nat) (d : nat) : Prop :=
  exists i o, nth_error occ i = Some o /\ o <> -1 /\ d = (l + i)%nat.

Record inv (done : list (list Z)) (rest : list (list Z)) (s : st) : Prop := {
  i_len : length (s_table s) = length done;
  i_tab : tab_ok (s_sum s) (s_size s);
  i_l : (s_l s <= s_size s)%nat;
  i_cap : (s_size s + total_len rest <= length (s_sum s))%nat;
  i_free : forall k, (k < length (s_sum s))%nat ->
     (nth_error (s_sum s) k = Some (-1) <->
      forall n occ l, nth_error done n = Some occ -> nth_error (s_table s) n = Some l -> ~ at_dword occ l k);
  i_disj : forall m n om on lm ln d, m <> n ->
     nth_error done m = Some om -> nth_error done n = Some on ->
     nth_error (s_table s) m = Some lm -> nth_error (s_table s) n = Some ln ->
     at_dword om lm d -> at_dword on ln d -> False;
  i_cov : forall n occ l, nth_error done n = Some occ -> nth_error (s_table s) n = Some l ->
     (l + length occ <= s_size s)%nat;
  i_first : forall l, nth_error (s_table s) 0 = Some l -> l = O
}.

Lemma nth_app_last {A} (xs : list A) x n y :
  nth_error (xs ++ [x]) n = Some y ->
  (nth_error xs n = Some y /\ (n < length xs)%nat) \/ (n = length xs /\ y = x).
Proof.
  intros H. destruct (Nat.lt_ge_cases n (length xs)) as [Hl|Hl].
  - left. rewrite nth_error_app1 in H by auto. auto.
  - right. rewrite nth_error_app2 in H by auto.
    destruct (n - length xs)%nat as [|k] eqn:E; [|destruct k; discriminate].
    simpl in H; injection H as <-. split; auto; lia.
Qed.

Lemma find_first sum occ f :
  (forall k, nth_error sum k = None \/ nth_error sum k = Some (-1)) ->
  (length occ <= length sum)%nat ->
  forall i l', find_pos f sum occ 0 i = Ok l' -> l' = O.
Proof.
  intros Hs Hlen. induction f as [|f IH]; intros i l' H; cbn [find_pos] in H; [discriminate|].
  destruct (Nat.ltb i (length occ)); [|congruence].
  destruct (nth_error occ i); [|discriminate].
  destruct (z =? -1); [eauto|].
  destruct (nth_error sum (0 + i)) as [s|] eqn:E; [|discriminate].
  destruct (Hs (0 + i)%nat) as [E'|E']; rewrite E' in E; [discriminate|].
  injection E as <-. cbn in H. eauto.
Qed.

Lemma find_pos_lift s occ done rest :
  inv done (occ :: rest) s -> fit occ ->
  exists l, find_pos (fuel_for (s_sum s) occ) (s_sum s) occ (s_l s) 0 = Ok l /\ (s_l s <= l <= s_size s)%nat /\
    (forall j o, nth_error occ j = Some o -> o <> -1 -> nth_error (s_sum s) (l + j) = Some (-1)).
Proof.
  intros I Hf. destruct I as [_ T L C _ _ _ _]. cbn [total_len fold_right] in C. fold (total_len rest) in C.
  apply find_pos_ok with (p := s_size s); auto; try lia.
  unfold fuel_for. assert (s_size s - s_l s <= length (s_sum s))%nat by lia. nia.
Qed.

Lemma place_inv done rest s occ s' :
  inv done (occ :: rest) s -> fit occ ->
  (done = [] -> s_l s = O) ->
  place s occ = Ok s' -> inv (done ++ [occ]) rest s'.
Proof.
  intros I Hf H0 H. unfold place in H.
  destruct (find_pos_lift _ _ _ _ I Hf) as (l & Ef & Hl & Hfree).
  rewrite Ef in H. cbn [bind] in H.
  destruct (apply_occ (s_sum s) occ l (length occ)) as [sum'| |] eqn:Ea; cbn [bind] in H; try discriminate.
  injection H as <-.
  destruct I as [ILen IT IL IC IF ID IV I1].
  set (p' := Nat.max (s_size s) (l + length occ)).
  assert (IT' : tab_ok (s_sum s) p').
  { intros k v Hk. destruct (IT k v Hk); [auto|right; unfold p'; lia]. }
  assert (Hp' : (l + length occ <= p')%nat) by (unfold p'; lia).
  destruct (apply_occ_ok _ _ _ _ p' _ (Nat.le_refl _) Hp' IT' Ea) as (HL & HT & HU).
  cbn [total_len fold_right] in IC. fold (total_len rest) in IC.
  constructor; cbn [s_sum s_l s_size s_table]; fold p'.
  - rewrite !app_length; simpl; lia.
  - exact HT.
  - unfold p'; lia.
  - rewrite HL. unfold p'. lia.
  - intros k Hk. rewrite HL in Hk. rewrite HU, (IF k Hk). split.
    + intros [Hold Hnew] n o l0 Hd Ht Hat.
      destruct (nth_app_last _ _ _ _ Hd) as [[Hd' Hn]|[-> ->]].
      * rewrite nth_error_app1 in Ht by lia. eapply Hold; eauto.
      * rewrite nth_error_app2, ILen, Nat.sub_diag in Ht by lia. simpl in Ht; injection Ht as <-.
        apply Hnew. destruct Hat as (i & o' & E1 & E2 & E3). exists i, o'. repeat split; auto.
        apply nth_error_Some; congruence.
    + intros Hall. split.
      * intros n o l0 Hd Ht. apply (Hall n o l0).
        -- rewrite nth_error_app1; auto. apply nth_error_Some; congruence.
        -- rewrite nth_error_app1; auto. apply nth_error_Some; congruence.
      * intros (i & o & Hi & E & Eo & Hne). apply (Hall (length done) occ l).
        -- rewrite nth_error_app2, Nat.sub_diag by lia; reflexivity.
        -- rewrite nth_error_app2, ILen, Nat.sub_diag by lia; reflexivity.
        -- exists i, o; auto.
  - assert (Hone : forall m om lm d, nth_error done m = Some om -> nth_error (s_table s) m = Some lm ->
              at_dword om lm d -> at_dword occ l d -> False).
    { intros m om lm d E1 E2 A1 (i & o & B1 & B2 & B3).
      pose proof (Hfree _ _ B1 B2) as Hf'. rewrite <- B3 in Hf'.
      rewrite IF in Hf' by (apply nth_error_Some; congruence). eapply Hf'; eauto. }
    intros m n om on lm ln d Hmn Hm Hn Tm Tn Am An.
    destruct (nth_app_last _ _ _ _ Hm) as [[Hm' Lm]|[-> ->]];
    destruct (nth_app_last _ _ _ _ Hn) as [[Hn' Ln]|[-> ->]].
    + rewrite nth_error_app1 in Tm, Tn by lia. eapply ID with (m := m) (n := n); eauto.
    + rewrite nth_error_app1 in Tm by lia.
      rewrite nth_error_app2, ILen, Nat.sub_diag in Tn by lia. simpl in Tn; injection Tn as <-. eauto.
    + rewrite nth_error_app1 in Tn by lia.
      rewrite nth_error_app2, ILen, Nat.sub_diag in Tm by lia. simpl in Tm; injection Tm as <-. eauto.
    + congruence.
  - intros n o l0 Hd Ht. destruct (nth_app_last _ _ _ _ Hd) as [[Hd' Hn]|[-> ->]].
    + rewrite nth_error_app1 in Ht by lia. specialize (IV _ _ _ Hd' Ht). unfold p'; lia.
    + rewrite nth_error_app2, ILen, Nat.sub_diag in Ht by lia. simpl in Ht; injection Ht as <-. unfold p'; lia.
  - intros l0 Ht. destruct done as [|d0 done'].
    + destruct (s_table s); [|simpl in ILen; lia]. simpl in Ht. injection Ht as <-.
      rewrite (H0 eq_refl) in Ef. eapply find_first; [| |exact Ef].
      * intros k. destruct (nth_error (s_sum s) k) eqn:E; auto. right.
        assert (Hk : (k < length (s_sum s))%nat) by (apply nth_error_Some; congruence).
        rewrite <- E. apply IF; auto. intros n o l1 Hd; destruct n; discriminate.
      * lia.
    + destruct (s_table s) as [|t0 ts] eqn:Et; [simpl in ILen; lia|]. simpl in Ht. injection Ht as <-. apply I1; reflexivity.
Qed.

Lemma place_all_inv occs : forall done s s',
  inv done occs s -> Forall fit occs -> (done = [] -> s_l s = O) ->
  place_all s occs = Ok s' -> inv (done ++ occs) [] s'.
Proof.
  induction occs as [|occ rest IH]; intros done s s' I Hf H0 H; cbn [place_all] in H.
  - injection H as <-. rewrite app_nil_r. exact I.
  - inversion Hf; subst. destruct (place s occ) as [s1| |] eqn:E; cbn [bind] in H; try discriminate.
    pose proof (place_inv _ _ _ _ _ I ltac:(auto) H0 E) as I1.
    specialize (IH (done ++ [occ]) s1 s' I1 ltac:(auto)).
    rewrite <- app_assoc in IH. apply IH; auto. intros D; destruct done; discriminate.
Qed.

Lemma inv_init occs : inv [] occs (mkst (repeat (-1) (total_len occs)) 0 0 []).
Proof.
  constructor; cbn [s_sum s_l s_size s_table]; rewrite ?repeat_length; auto; try lia.
  - intros k s H. left. apply nth_error_In, repeat_spec in H. auto.
  - intros k Hk. split; [intros _ n o l D; destruct n; discriminate|].
    intros _. rewrite nth_error_repeat; auto.
  - intros m n om on lm ln d _ H; destruct m; discriminate.
  - intros n o l H; destruct n; discriminate.
  - discriminate.
Qed.

(* No fuel exhaustion; panic only when the run table is exhausted. *)
Lemma place_total done rest s occ :
  inv done (occ :: rest) s -> fit occ ->
  (s_size s + length occ < length (s_sum s))%nat ->
  exists s', place s occ = Ok s'.
Proof.
  intros I Hf Hlt. unfold place.
  destruct (find_pos_lift _ _ _ _ I Hf) as (l & -> & Hl & _). cbn [bind].
  destruct (apply_occ_total (s_sum s) occ l (length occ) ltac:(lia) ltac:(lia)) as (sum' & ->).
  cbn [bind]. eauto.
Qed.

Lemma place_size done rest s occ s' :
  inv done (occ :: rest) s -> fit occ -> place s occ = Ok s' ->
  (s_size s' <= s_size s + length occ)%nat /\ length (s_sum s') = length (s_sum s).
Proof.
  intros I Hf H. unfold place in H.
  destruct (find_pos_lift _ _ _ _ I Hf) as (l & E & Hl & _). rewrite E in H. cbn [bind] in H.
  destruct (apply_occ (s_sum s) occ l (length occ)) as [sum'| |] eqn:Ea; cbn [bind] in H; try discriminate.
  injection H as <-. cbn [s_size s_sum]. split; [lia|].
  assert (HT : tab_ok (s_sum s) (Nat.max (s_size s) (l + length occ))).
  { intros k v Hk. destruct (i_tab _ _ _ I k v Hk); [auto|right; lia]. }
  apply (apply_occ_ok _ _ _ _ _ _ (Nat.le_refl _) (Nat.le_max_r _ _) HT Ea).
Qed.

Lemma place_all_total occs : forall done s,
  inv done occs s -> Forall fit occs -> (done = [] -> s_l s = O) ->
  (s_size s + total_len occs < length (s_sum s))%nat -> exists s', place_all s occs = Ok s'.
Proof.
  induction occs as [|occ rest IH]; intros done s I Hf H0 Hlt; cbn [place_all]; [eauto|].
  inversion Hf; subst. cbn [total_len fold_right] in Hlt. fold (total_len rest) in Hlt.
  destruct (place_total _ _ _ _ I ltac:(auto) ltac:(lia)) as (s1 & E). rewrite E. cbn [bind].
  destruct (place_size _ _ _ _ _ I ltac:(auto) E).
  eapply IH; eauto using place_inv; try lia. intros D; destruct done; discriminate.
Qed.

Lemma apply_occ_panic occ l n : forall sum,
  (n <= length occ)%nat -> (l + length occ <= length sum)%nat ->
  apply_occ sum occ l n <> NoFuel /\
  (apply_occ sum occ l n = Panic -> (l + length occ = length sum)%nat /\ n = length occ /\
     exists i, n = S i /\ (nth_error occ i <> Some (-1) \/ nth_error sum (l + i) <> Some (-1))).
Proof.
  induction n as [|i IH]; intros sum Hn Hlen; cbn [apply_occ]; [split; discriminate|].
  destruct (nth_error occ i) as [o|] eqn:Eo; [|apply nth_error_None in Eo; lia].
  destruct (nth_error sum (l + i)) as [s|] eqn:Es; [|apply nth_error_None in Es; lia].
  destruct (negb (o =? -1) || negb (s =? -1)) eqn:Ec.
  - destruct (nth_error sum (S (l + i))) as [nx|] eqn:En.
    + destruct (IH (set_nth sum (l + i) (if nx =? -1 then Z.of_nat (l + i) + 1 else nx)) ltac:(lia)
                  ltac:(rewrite set_nth_length; lia)) as [H1 H2].
      split; auto. intros HP. destruct (H2 HP) as (_ & E & _). lia.
    + split; [discriminate|]. intros _. apply nth_error_None in En.
      split; [lia|]. split; [lia|]. exists i. split; auto.
      rewrite ?Eo, ?Es. destruct (o =? -1) eqn:E1; [right; intros F; injection F; intros; subst; simpl in Ec; discriminate|].
      left; intros F; injection F; intros; subst; simpl in E1; discriminate.
  - destruct (IH sum ltac:(lia) ltac:(lia)) as [H1 H2]. split; auto.
    intros HP. destruct (H2 HP) as (_ & E & _). lia.
Qed.

Lemma place_abort done rest s occ :
  inv done (occ :: rest) s -> fit occ ->
  place s occ <> NoFuel /\
  (place s occ = Panic -> total_len rest = O /\
     exists i o, length occ = S i /\ nth_error occ i = Some o /\ o <> -1).
Proof.
  intros I Hf. unfold place.
  destruct (find_pos_lift _ _ _ _ I Hf) as (l & -> & Hl & _). cbn [bind].
  pose proof (i_cap _ _ _ I) as C. cbn [total_len fold_right] in C. fold (total_len rest) in C.
  destruct (apply_occ_panic occ l (length occ) (s_sum s) ltac:(lia) ltac:(lia)) as [H1 H2].
  destruct (apply_occ (s_sum s) occ l (length occ)) as [sum'| |] eqn:E; cbn [bind]; try (split; congruence).
  split; [discriminate|]. intros _. destruct (H2 eq_refl) as (E1 & _ & i & Ei & Hd).
  split; [lia|]. destruct (nth_error occ i) as [o|] eqn:Eo; [|apply nth_error_None in Eo; lia].
  exists i, o. split; auto. split; auto. intros ->.
  destruct Hd as [Hd|Hd]; [congruence|].
  destruct (nth_error (s_sum s) (l + i)) as [v|] eqn:Ev; [|apply nth_error_None in Ev; lia].
  destruct (i_tab _ _ _ I _ _ Ev) as [->|Hv]; [congruence|lia].
Qed.

Lemma place_all_abort occs : forall done s,
  inv done occs s -> Forall fit occs -> (done = [] -> s_l s = O) ->
  place_all s occs <> NoFuel /\
  (place_all s occs = Panic ->
   exists pre occ rest i o, occs = pre ++ occ :: rest /\ total_len rest = O /\
     length occ = S i /\ nth_error occ i = Some o /\ o <> -1).
Proof.
  induction occs as [|occ rest IH]; intros done s I Hf H0; cbn [place_all]; [split; discriminate|].
  inversion Hf; subst. destruct (place_abort _ _ _ _ I ltac:(auto)) as [A1 A2].
  destruct (place s occ) as [s1| |] eqn:E; cbn [bind].
  - destruct (IH (done ++ [occ]) s1) as [B1 B2]; auto.
    { eapply place_inv; eauto. }
    { intros D; destruct done; discriminate. }
    split; auto. intros HP. destruct (B2 HP) as (pre & oc & r & i & o & -> & R).
    exists (occ :: pre), oc, r, i, o. split; auto.
  - split; [discriminate|]. intros _. destruct (A2 eq_refl) as (T & i & o & R).
    exists [], occ, rest, i, o. split; auto.
  - congruence.
Qed.

Lemma total_len_0 occs : total_len occs = O -> Forall (fun o => o = []) occs.
Proof.
  induction occs as [|o r IH]; intros H; constructor; cbn [total_len fold_right] in H; fold (total_len r) in H.
  - destruct o; simpl in *; auto; lia.
  - apply IH; lia.
Qed.

(* ---------- statements about patterns ---------- *)

(* Byte [b] of the payload belongs to a dword used by an object with usage
   pattern [p] (one boolean per dword) placed at byte offset [off]. *)
Definition uses_byte (p : list bool) (off b : Z) : Prop :=
  exists i : nat, nth i p false = true /\ off + 4 * Z.of_nat i <= b < off + 4 * Z.of_nat i + 4.

Lemma stack_objects_spec pats offs size :
  stack_objects (map occup_of pats) = Ok (offs, size) ->
  length offs = length pats /\
  (forall n off, nth_error offs n = Some off -> 0 <= off /\ off mod 4 = 0) /\
  (forall m n p q om on b, m <> n ->
     nth_error pats m = Some p -> nth_error pats n = Some q ->
     nth_error offs m = Some om -> nth_error offs n = Some on ->
     ~ (uses_byte p om b /\ uses_byte q on b)) /\
  (forall n p off, nth_error pats n = Some p -> nth_error offs n = Some off ->
     off + 4 * Z.of_nat (length p) <= size) /\
  (forall off, nth_error offs 0 = Some off -> off = 0).
Proof.
  intros H. unfold stack_objects in H.
  destruct (place_all _ (map occup_of pats)) as [s| |] eqn:E; cbn [bind] in H; try discriminate.
  injection H as <- <-.
  assert (F : Forall fit (map occup_of pats)).
  { apply Forall_forall. intros x Hx. apply in_map_iff in Hx. destruct Hx as (p & <- & _). apply occup_fit. }
  pose proof (place_all_inv _ [] _ _ (inv_init _) F ltac:(auto) E) as I. cbn [app] in I.
  destruct I as [IL _ _ _ _ ID IV I1].
  rewrite map_length in IL.
  assert (Hn : forall n off, nth_error (map (fun l => Z.of_nat l * 4) (s_table s)) n = Some off ->
            exists l, nth_error (s_table s) n = Some l /\ off = Z.of_nat l * 4).
  { intros n off H. rewrite nth_error_map in H. destruct (nth_error (s_table s) n) as [l|]; [|discriminate].
    injection H as <-. eauto. }
  split; [rewrite map_length; auto|]. split; [|split; [|split]].
  - intros n off H. destruct (Hn _ _ H) as (l & _ & ->). split; [lia|]. apply Z.mod_mul; lia.
  - intros m n p q om on b Hmn Hp Hq Hom Hon [(i & Ui & Bi) (j & Uj & Bj)].
    destruct (Hn _ _ Hom) as (lm & Tm & ->). destruct (Hn _ _ Hon) as (ln & Tn & ->).
    apply occup_used in Ui. destruct Ui as (oi & Ei & Ni).
    apply occup_used in Uj. destruct Uj as (oj & Ej & Nj).
    eapply (ID m n _ _ lm ln (lm + i)%nat Hmn); eauto.
    + rewrite nth_error_map, Hp. reflexivity.
    + rewrite nth_error_map, Hq. reflexivity.
    + exists i, oi; auto.
    + exists j, oj. repeat split; auto. lia.
  - intros n p off Hp Ho. destruct (Hn _ _ Ho) as (l & T & ->).
    specialize (IV n (occup_of p) l). rewrite nth_error_map, Hp in IV. specialize (IV eq_refl T).
    rewrite occup_length in IV. lia.
  - intros off Ho. destruct (Hn _ _ Ho) as (l & T & ->). rewrite (I1 _ T). reflexivity.
Qed.

Lemma stack_objects_complete pats :
  (exists offs size, stack_objects (map occup_of pats) = Ok (offs, size)) \/
  (stack_objects (map occup_of pats) = Panic /\
   exists pre p post, pats = pre ++ (p ++ [true]) :: post /\ Forall (fun x => x = []) post).
Proof.
  assert (F : Forall fit (map occup_of pats)).
  { apply Forall_forall. intros x Hx. apply in_map_iff in Hx. destruct Hx as (p & <- & _). apply occup_fit. }
  unfold stack_objects.
  destruct (place_all_abort _ [] _ (inv_init _) F ltac:(auto)) as [N P].
  destruct (place_all _ (map occup_of pats)) as [s| |] eqn:E; cbn [bind].
  - left; eauto.
  - right. split; auto. destruct (P eq_refl) as (pre & occ & rest & i & o & Hs & T & L & Ho & Hne).
    apply map_eq_app in Hs. destruct Hs as (p1 & p2 & -> & E1 & E2).
    destruct p2 as [|q post]; [discriminate|]. cbn [map] in E2. injection E2 as E2 E3. subst occ rest.
    rewrite occup_length in L.
    assert (U : nth i q false = true) by (apply occup_used; eauto).
    exists p1, (removelast q), post. split.
    + f_equal. f_equal. rewrite (app_removelast_last false) at 1 by (destruct q; [discriminate|discriminate]).
      f_equal. f_equal.
      assert (HL : forall (xs : list bool) n, length xs = S n -> last xs false = nth n xs false).
      { clear. induction xs as [|x xs IH]; intros n H; [discriminate|].
        destruct xs as [|y ys]; [destruct n; [reflexivity|discriminate]|].
        destruct n as [|n]; [discriminate|]. change (last (y :: ys) false = nth n (y :: ys) false).
        apply IH. simpl in *; lia. }
      rewrite (HL _ _ L). auto.
    + apply total_len_0 in T. rewrite Forall_forall in *. intros x Hx.
      specialize (T (occup_of x) (in_map _ _ _ Hx)).
      apply (f_equal (@length Z)) in T. rewrite occup_length in T. destruct x; [auto|discriminate].
  - congruence.
Qed.

(* Concrete cases: three interleaved objects; and the aborting one. *)
Definition ex_pats : list (list bool) :=
  [[true;false;false;true;false]; [true;true;false;true]; [true]; [true;false]].
Example ex_layout : stack_objects (map occup_of ex_pats) = Ok ([0; 4; 20; 24], 32).
Proof. vm_compute. reflexivity. Qed.
Lemma stack_objects_panics : stack_objects (map occup_of [[true]]) = Panic.
Proof. vm_compute. reflexivity. Qed.
