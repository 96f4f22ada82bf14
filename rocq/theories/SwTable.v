(* Runs of the triggers of EUDSwitch: short case lists and jump tables. *)
From Coq Require Import ZArith Lia Bool List Permutation Sorted ZifyBool ZifyNat.
From Verif Require Import Word WordX Machine MachineProofs SwModel SwProofs.
Import ListNotations.
Open Scope Z_scope.

(* ---- at most three cases ---- *)
Section Simple.
Variable P : lprog.
Variable T : list tgt.
Variables v mask : Z.
Variable keys : list Z.
Let w := Z.land v mask.
Hypothesis HP : placed P 0 (simple_code mask keys).
Hypothesis Hne : keys <> [].

Definition sdef (n : nat) : tgt := match n with O => N 1 | S i => simple_next keys i end.
(* all pointers as built, except the one that `restore` will write *)
Definition simple_inv (s : lstate) : Prop :=
  (1 <= rn s <= length keys)%nat /\ rt s = sdef (rn s) /\
  forall n, (n <= length keys)%nat -> n <> rn s -> nx s n = sdef n.

Lemma simple_P i : (i < length keys)%nat -> P (S i) = Some (simple_node mask keys i).
Proof using HP.
  intros Hi. apply (HP (S i)). cbn [simple_code nth_error].
  rewrite nth_error_map, nth_error_nth' with (d := O) by (rewrite seq_length; exact Hi).
  cbn [option_map]. rewrite seq_nth by exact Hi. reflexivity.
Qed.

Lemma simple_chain r : forall i s, (length keys = i + S r)%nat -> ~ In w (firstn i keys) ->
  (forall n, (n <= length keys)%nat -> nx s n = sdef n) -> (1 <= rn s <= length keys)%nat -> rt s = sdef (rn s) ->
  exists s', lsteps P T v (N (S i), s) (L (look keys w), s') /\ simple_inv s'.
Proof using All.
  induction r as [|r IH]; intros i s Hl Hni Hd Hr1 Hr2.
  - assert (Hi : (i < length keys)%nat) by lia. pose proof (simple_P i Hi) as HPi. unfold simple_node in HPi.
    destruct (Z.eqb_spec w (nth i keys 0)) as [E|E].
    + eexists. split.
      * eapply node_true; [exact HPi|cbn; fold w; apply Z.eqb_eq; exact E|reflexivity|].
        cbn. rewrite Nat.eqb_refl. rewrite look_in by (rewrite E; apply nth_In; exact Hi). rewrite E. reflexivity.
      * unfold simple_inv. cbn [do_lacts fold_left do_lact rn rt set_nx nx]. repeat split; try lia.
        intros n Hn Hne'. destruct (Nat.eqb_spec n (S i)); [congruence|]. apply Hd, Hn.
    + exists s. split.
      * eapply node_false; [exact HPi|cbn; fold w; apply Z.eqb_neq; exact E|]. rewrite Hd by lia. cbn [sdef]. unfold simple_next.
        replace (Nat.eqb (S i) (length keys)) with true by (symmetry; apply Nat.eqb_eq; lia).
        rewrite look_out; [reflexivity|]. intros Hin. apply Hni.
        rewrite <- (firstn_skipn i keys) in Hin. apply in_app_or in Hin. destruct Hin as [H|H]; [exact H|].
        exfalso. assert (Hs : skipn i keys = [nth i keys 0]).
        { clear - Hl. revert i Hl. induction keys as [|k ks IH]; intros i Hl; cbn in Hl; [lia|].
          destruct i; cbn; [destruct ks; cbn in Hl; [reflexivity|lia]|apply IH; lia]. }
        rewrite Hs in H. destruct H as [H|[]]. congruence.
      * repeat split; try lia; try assumption. intros n Hn _. apply Hd, Hn.
  - assert (Hi : (i < length keys)%nat) by lia. pose proof (simple_P i Hi) as HPi. unfold simple_node in HPi.
    destruct (Z.eqb_spec w (nth i keys 0)) as [E|E].
    + eexists. split.
      * eapply node_true; [exact HPi|cbn; fold w; apply Z.eqb_eq; exact E|reflexivity|].
        cbn. rewrite Nat.eqb_refl. rewrite look_in by (rewrite E; apply nth_In; exact Hi). rewrite E. reflexivity.
      * unfold simple_inv. cbn [do_lacts fold_left do_lact rn rt set_nx nx]. repeat split; try lia.
        intros n Hn Hne'. destruct (Nat.eqb_spec n (S i)); [congruence|]. apply Hd, Hn.
    + destruct (IH (S i) s) as [s' [R I]]; try assumption; try lia.
      * intros H. apply Hni.
        assert (Hf : firstn (S i) keys = firstn i keys ++ [nth i keys 0]).
        { clear - Hi. revert i Hi. induction keys as [|k ks IH]; intros i Hi; cbn in Hi; [lia|].
          destruct i; cbn; [reflexivity|]. f_equal. apply IH. lia. }
        rewrite Hf in H. apply in_app_or in H. destruct H as [H|[H|[]]]; [exact H|congruence].
      * exists s'. split; [|exact I]. eapply lsteps_trans; [|exact R].
        eapply node_false; [exact HPi|cbn; fold w; apply Z.eqb_neq; exact E|]. rewrite Hd by lia. cbn [sdef]. unfold simple_next.
        replace (Nat.eqb (S i) (length keys)) with false by (symmetry; apply Nat.eqb_neq; lia). reflexivity.
Qed.

Lemma simple_run s : simple_inv s ->
  exists s', lsteps P T v (N 0, s) (L (look keys w), s') /\ simple_inv s'.
Proof using All.
  intros [Hr [Ht Hd]].
  assert (Hlen : (1 <= length keys)%nat) by (destruct keys; [congruence|cbn; lia]).
  assert (P0 : P 0%nat = Some (mknode None [ARestore] (N 1))) by (apply (HP 0%nat); reflexivity).
  set (s1 := set_nx s (rn s) (rt s)).
  assert (Hd1 : forall n, (n <= length keys)%nat -> nx s1 n = sdef n).
  { intros n Hn. destruct (Nat.eq_dec n (rn s)) as [->|Hn']; subst s1; [rewrite set_nx_eq; exact Ht|].
    rewrite set_nx_ne by exact Hn'. apply Hd; assumption. }
  destruct (simple_chain (length keys - 1) 0 s1) as [s' [R I]]; try assumption; try lia; [intros []|].
  exists s'. split; [|exact I]. eapply lsteps_trans; [|exact R].
  eapply node_true; [exact P0|reflexivity|reflexivity|]. exact (Hd1 0%nat ltac:(lia)).
Qed.

End Simple.
Lemma simple_init mask keys : keys <> [] -> simple_inv keys (init_state 0 (simple_code mask keys)).
Proof.
  intros Hne.
  assert (Hlen : (1 <= length keys)%nat) by (destruct keys; [congruence|cbn; lia]).
  assert (Hn : forall i, (i < length keys)%nat -> nth_error (simple_code mask keys) (S i) = Some (simple_node mask keys i)).
  { intros i Hi. cbn [simple_code nth_error].
    rewrite nth_error_map, nth_error_nth' with (d := O) by (rewrite seq_length; exact Hi).
    cbn [option_map]. rewrite seq_nth by exact Hi. reflexivity. }
  unfold simple_inv, init_state. cbn [rn rt nx Nat.add]. split; [lia|]. split.
  - rewrite (Hn 0%nat) by lia. reflexivity.
  - intros [|n] Hl _; [reflexivity|]. rewrite Nat.sub_0_r, (Hn n) by lia. reflexivity.
Qed.


(* ---- bits of the keys ---- *)
Definition setb (v b : Z) : bool := 1 <=? Z.land v b.
(* offset into the table, and the part of the key, that the bits of v select *)
Fixpoint weight (v i : Z) (bs : list Z) : Z :=
  match bs with [] => 0 | b :: r => (if setb v b then 2 ^ i else 0) + weight v (i + 1) r end.
Fixpoint bsum (v : Z) (bs : list Z) : Z :=
  match bs with [] => 0 | b :: r => (if setb v b then b else 0) + bsum v r end.

Lemma weight_app v l1 : forall i l2, weight v i (l1 ++ l2) = weight v i l1 + weight v (i + Z.of_nat (length l1)) l2.
Proof.
  induction l1 as [|b l1 IH]; intros i l2.
  - cbn [app weight length]. rewrite Z.add_0_r. lia.
  - cbn [app weight length]. rewrite IH. replace (i + Z.of_nat (S (length l1))) with (i + 1 + Z.of_nat (length l1)) by lia. lia.
Qed.
Lemma bsum_app v l1 l2 : bsum v (l1 ++ l2) = bsum v l1 + bsum v l2.
Proof. induction l1 as [|b l1 IH]; cbn [app bsum]; [lia|]. rewrite IH. lia. Qed.
Lemma weight_range v bs : forall i, 0 <= i -> 0 <= weight v i bs <= 2 ^ i * (2 ^ Z.of_nat (length bs) - 1).
Proof.
  induction bs as [|b r IH]; intros i Hi; [cbn; lia|].
  cbn [weight length]. specialize (IH (i + 1) ltac:(lia)).
  assert (E1 : 2 ^ (i + 1) = 2 * 2 ^ i) by (rewrite Z.pow_add_r by lia; lia).
  assert (E2 : 2 ^ Z.of_nat (S (length r)) = 2 * 2 ^ Z.of_nat (length r))
    by (replace (Z.of_nat (S (length r))) with (1 + Z.of_nat (length r)) by lia; rewrite Z.pow_add_r by lia; lia).
  rewrite E1 in IH. rewrite E2. assert (0 < 2 ^ i) by (apply Z.pow_pos_nonneg; lia).
  assert (0 < 2 ^ Z.of_nat (length r)) by (apply Z.pow_pos_nonneg; lia).
  destruct (setb v b); nia.
Qed.

(* the subset sums of a list, largest element first, by bits *)
Lemma sums_length l : Z.of_nat (length (subset_sums l)) = 2 ^ Z.of_nat (length l).
Proof.
  induction l as [|b r IH]; [reflexivity|]. cbn [subset_sums length]. rewrite app_length, map_length.
  replace (Z.of_nat (S (length r))) with (1 + Z.of_nat (length r)) by lia. rewrite Z.pow_add_r by lia. lia.
Qed.
Lemma nth_app_mid (A : Type) (l1 l2 : list A) n : nth_error (l1 ++ l2) (length l1 + n) = nth_error l2 n.
Proof. rewrite nth_error_app2 by lia. f_equal. lia. Qed.
Lemma sums_nth v l : nth_error (subset_sums (rev l)) (Z.to_nat (weight v 0 l)) = Some (bsum v l).
Proof.
  induction l as [|b l IH] using rev_ind; [reflexivity|].
  rewrite rev_app_distr. cbn [rev app subset_sums]. rewrite weight_app, bsum_app. cbn [weight bsum].
  rewrite Z.add_0_l, !Z.add_0_r. pose proof (weight_range v l 0 ltac:(lia)) as Hw.
  pose proof (sums_length (rev l)) as HL. rewrite rev_length in HL.
  destruct (setb v b).
  - replace (Z.to_nat (weight v 0 l + 2 ^ Z.of_nat (length l))) with (length (subset_sums (rev l)) + Z.to_nat (weight v 0 l))%nat by lia.
    rewrite nth_app_mid, nth_error_map, IH. cbn. f_equal. lia.
  - rewrite !Z.add_0_r. rewrite nth_error_app1; [exact IH|].
    apply nth_error_Some. rewrite IH. discriminate.
Qed.

Lemma sums_perm_in l1 l2 : Permutation l1 l2 -> Permutation (subset_sums l1) (subset_sums l2).
Proof.
  induction 1; cbn [subset_sums].
  - apply Permutation_refl.
  - apply Permutation_app; [assumption|]. apply Permutation_map. assumption.
  - rewrite !map_app, !map_map. rewrite <- !app_assoc. apply Permutation_app_head.
    rewrite !app_assoc. replace (map (fun x0 => y + (x + x0)) (subset_sums l)) with (map (fun x0 => x + (y + x0)) (subset_sums l))
      by (apply map_ext; intros; lia).
    apply Permutation_app_tail. apply Permutation_app_comm.
  - eapply Permutation_trans; eassumption.
Qed.
Lemma insert_perm x l : Permutation (insert x l) (x :: l).
Proof.
  induction l as [|y l IH]; cbn; [apply Permutation_refl|]. destruct (x <=? y); [apply Permutation_refl|].
  eapply Permutation_trans; [apply perm_skip, IH|]. apply perm_swap.
Qed.
Lemma sorted_perm l : Permutation (sorted l) l.
Proof.
  induction l as [|x l IH]; [apply Permutation_refl|]. cbn [sorted fold_right].
  eapply Permutation_trans; [apply insert_perm|]. apply perm_skip, IH.
Qed.
Lemma insert_sorted x l : StronglySorted Z.le l -> StronglySorted Z.le (insert x l).
Proof.
  induction 1 as [|y l Hs IH Hf]; cbn; [repeat constructor|].
  destruct (Z.leb_spec x y).
  - constructor; [constructor; assumption|]. constructor; [lia|]. eapply Forall_impl; [|exact Hf]. cbn. intros; lia.
  - constructor; [exact IH|]. apply Forall_forall. intros z Hz.
    eapply Permutation_in in Hz; [|apply insert_perm]. destruct Hz as [<-|Hz]; [lia|].
    rewrite Forall_forall in Hf. apply Hf, Hz.
Qed.
Lemma sorted_sorted l : StronglySorted Z.le (sorted l).
Proof. induction l as [|x l IH]; [constructor|]. apply insert_sorted, IH. Qed.
Lemma sorted_unique l1 : forall l2, StronglySorted Z.le l1 -> StronglySorted Z.le l2 -> Permutation l1 l2 -> l1 = l2.
Proof.
  induction l1 as [|x l1 IH]; intros l2 H1 H2 Hp.
  - apply Permutation_nil in Hp. congruence.
  - destruct l2 as [|y l2]; [apply Permutation_sym, Permutation_nil in Hp; discriminate|].
    inversion H1 as [|? ? A1 B1]; subst. inversion H2 as [|? ? A2 B2]; subst.
    rewrite Forall_forall in B1, B2.
    assert (x = y).
    { assert (Hx : In x (y :: l2)) by (eapply Permutation_in; [exact Hp|left; reflexivity]).
      assert (Hy : In y (x :: l1)) by (eapply Permutation_in; [apply Permutation_sym, Hp|left; reflexivity]).
      destruct Hx as [Hx|Hx]; [congruence|]. destruct Hy as [Hy|Hy]; [congruence|].
      specialize (B1 y Hy). specialize (B2 x Hx). lia. }
    subst y. f_equal. apply IH; try assumption. eapply Permutation_cons_inv, Hp.
Qed.

(* sums of descending powers of two are sorted *)
Lemma SSle_app l1 l2 : StronglySorted Z.le l1 -> StronglySorted Z.le l2 -> (forall x y, In x l1 -> In y l2 -> x <= y) -> StronglySorted Z.le (l1 ++ l2).
Proof.
  induction 1 as [|a l1 Hs IH Hf]; cbn; intros H2 H; [exact H2|].
  constructor; [apply IH; [exact H2|intros; apply H; [right|]; assumption]|].
  apply Forall_forall. intros z Hz. apply in_app_or in Hz. destruct Hz as [Hz|Hz].
  - rewrite Forall_forall in Hf. apply Hf, Hz.
  - apply H; [left; reflexivity|exact Hz].
Qed.
Lemma SSle_map b l : StronglySorted Z.le l -> StronglySorted Z.le (map (Z.add b) l).
Proof.
  induction 1 as [|a l Hs IH Hf]; cbn; constructor; [exact IH|].
  apply Forall_forall. intros z Hz. apply in_map_iff in Hz. destruct Hz as [y [<- Hy]].
  rewrite Forall_forall in Hf. specialize (Hf y Hy). lia.
Qed.
Lemma desc_sums (es : list nat) : forall n, StronglySorted gt es -> (forall e, In e es -> (e < n)%nat) ->
  let l := subset_sums (map (fun i => 2 ^ Z.of_nat i) es) in
  StronglySorted Z.le l /\ forall x, In x l -> 0 <= x < 2 ^ Z.of_nat n.
Proof.
  induction es as [|e es IH]; intros n Hs Hn; cbn [map subset_sums].
  - split; [repeat constructor|]. intros x [<-|[]]. split; [lia|]. apply Z.pow_pos_nonneg; lia.
  - inversion Hs as [|? ? A B]; subst. rewrite Forall_forall in B.
    destruct (IH e A) as [C D]; [intros x Hx; apply B, Hx|].
    assert (He : (e < n)%nat) by (apply Hn; left; reflexivity).
    assert (Hp : 2 ^ Z.of_nat e + 2 ^ Z.of_nat e <= 2 ^ Z.of_nat n).
    { replace (2 ^ Z.of_nat e + 2 ^ Z.of_nat e) with (2 ^ (1 + Z.of_nat e)) by (rewrite Z.pow_add_r by lia; lia).
      apply Z.pow_le_mono_r; lia. }
    assert (0 < 2 ^ Z.of_nat e) by (apply Z.pow_pos_nonneg; lia).
    split.
    + apply SSle_app; [exact C|apply SSle_map, C|]. intros x y Hx Hy. apply in_map_iff in Hy. destruct Hy as [z [<- Hz]].
      pose proof (D x Hx). pose proof (D z Hz). lia.
    + intros x Hx. apply in_app_or in Hx. destruct Hx as [Hx|Hx]; [specialize (D x Hx); lia|].
      apply in_map_iff in Hx. destruct Hx as [z [<- Hz]]. specialize (D z Hz). lia.
Qed.

Lemma SS_snoc es (e : nat) : StronglySorted gt es -> (forall x, In x es -> (x > e)%nat) -> StronglySorted gt (es ++ [e]).
Proof.
  induction 1 as [|a l Hs IH Hf]; cbn; intros H; [repeat constructor|].
  constructor; [apply IH; intros; apply H; right; assumption|].
  apply Forall_forall. intros z Hz. apply in_app_or in Hz. destruct Hz as [Hz|[<-|[]]].
  - rewrite Forall_forall in Hf. apply Hf, Hz.
  - apply H. left. reflexivity.
Qed.
Lemma rev_desc f n : forall a, StronglySorted gt (rev (filter f (seq a n))).
Proof.
  induction n as [|n IH]; intros a; cbn [seq filter]; [constructor|].
  destruct (f a); cbn [rev].
  - apply SS_snoc; [apply IH|]. intros x Hx. rewrite <- in_rev in Hx. apply filter_In in Hx. destruct Hx as [Hx _].
    apply in_seq in Hx. lia.
  - apply IH.
Qed.
Lemma key_list_eq keys : key_list keys = subset_sums (rev (key_bits keys)).
Proof.
  unfold key_list. apply sorted_unique; [apply sorted_sorted| |].
  - unfold key_bits, bits. rewrite <- map_rev.
    apply (desc_sums _ 32); [apply rev_desc|].
    intros e He. rewrite <- in_rev in He. apply filter_In in He. destruct He as [He _]. apply in_seq in He. lia.
  - eapply Permutation_trans; [apply sorted_perm|]. apply sums_perm_in, Permutation_rev.
Qed.

Lemma setb_pow v i : 0 <= v -> setb v (2 ^ Z.of_nat i) = Z.testbit v (Z.of_nat i).
Proof.
  intros Hv. unfold setb.
  assert (E : Z.land v (2 ^ Z.of_nat i) = if Z.testbit v (Z.of_nat i) then 2 ^ Z.of_nat i else 0).
  { apply Z.bits_inj'. intros j Hj. rewrite Z.land_spec, Z.pow2_bits_eqb by lia.
    destruct (Z.eqb_spec (Z.of_nat i) j) as [<-|Hne].
    - destruct (Z.testbit v (Z.of_nat i)) eqn:E; [rewrite Z.pow2_bits_true by lia; reflexivity|rewrite Z.bits_0; reflexivity].
    - rewrite andb_false_r. destruct (Z.testbit v (Z.of_nat i)); [rewrite Z.pow2_bits_false by lia|rewrite Z.bits_0]; reflexivity. }
  rewrite E. assert (0 < 2 ^ Z.of_nat i) by (apply Z.pow_pos_nonneg; lia).
  destruct (Z.testbit v (Z.of_nat i)); lia.
Qed.
Lemma mod_pow_succ x n : 0 <= n -> x mod 2 ^ (n + 1) = x mod 2 ^ n + (if Z.testbit x n then 2 ^ n else 0).
Proof.
  intros Hn. rewrite Z.testbit_odd, Z.shiftr_div_pow2 by lia. rewrite Z.pow_add_r by lia.
  assert (0 < 2 ^ n) by (apply Z.pow_pos_nonneg; lia).
  rewrite Z.rem_mul_r by lia. change (2 ^ 1) with 2. rewrite Zmod_odd. destruct (Z.odd (x / 2 ^ n)); lia.
Qed.
Lemma bsum_bits v x : 0 <= v -> 0 <= x < 2 ^ 32 -> bsum v (bits x) = Z.land v x.
Proof.
  intros Hv Hx. unfold bits.
  assert (G : forall n, bsum v (map (fun i => 2 ^ Z.of_nat i) (filter (fun i => Z.testbit x (Z.of_nat i)) (seq 0 n))) = Z.land v x mod 2 ^ Z.of_nat n).
  { induction n as [|n IH]; [cbn; rewrite Z.mod_1_r; reflexivity|].
    rewrite seq_S, filter_app, map_app, bsum_app, IH. cbn [Nat.add filter].
    replace (Z.of_nat (S n)) with (Z.of_nat n + 1) by lia. rewrite mod_pow_succ by lia. f_equal.
    rewrite Z.land_spec. destruct (Z.testbit x (Z.of_nat n)); cbn [map bsum]; [|rewrite andb_false_r; reflexivity].
    rewrite setb_pow by exact Hv. rewrite andb_true_r. lia. }
  rewrite G. change (2 ^ Z.of_nat 32) with (2 ^ 32). apply Z.mod_small.
  assert (Z.land v x <= x).
  { pose proof (Z.ldiff_le x v). assert (0 <= Z.land v x) by (apply Z.land_nonneg; lia).
    assert (E : Z.land v x + Z.ldiff x v = x).
    { rewrite Z.add_nocarry_lxor.
      - apply Z.bits_inj'. intros i Hi. rewrite Z.lxor_spec, Z.land_spec, Z.ldiff_spec.
        destruct (Z.testbit v i), (Z.testbit x i); reflexivity.
      - apply Z.bits_inj'. intros i Hi. rewrite Z.land_spec, Z.land_spec, Z.ldiff_spec, Z.bits_0.
        destruct (Z.testbit v i), (Z.testbit x i); reflexivity. }
    assert (0 <= Z.ldiff x v) by (apply Z.ldiff_nonneg; lia). lia. }
  assert (0 <= Z.land v x) by (apply Z.land_nonneg; lia). lia.
Qed.

Lemma fold_and_bit l : forall a i, Z.testbit (fold_left Z.land l a) i = Z.testbit a i && forallb (fun k => Z.testbit k i) l.
Proof.
  induction l as [|k l IH]; intros a i; cbn [fold_left forallb]; [rewrite andb_true_r; reflexivity|].
  rewrite IH, Z.land_spec, andb_assoc. reflexivity.
Qed.
Lemma fold_or_bit l : forall a i, Z.testbit (fold_left Z.lor l a) i = Z.testbit a i || existsb (fun k => Z.testbit k i) l.
Proof.
  induction l as [|k l IH]; intros a i; cbn [fold_left existsb]; [rewrite orb_false_r; reflexivity|].
  rewrite IH, Z.lor_spec, orb_assoc. reflexivity.
Qed.
Lemma key_and_bit k l i : Z.testbit (key_and (k :: l)) i = forallb (fun k => Z.testbit k i) (k :: l).
Proof. unfold key_and. rewrite fold_and_bit. cbn [hd forallb]. destruct (Z.testbit k i); reflexivity. Qed.
Lemma key_or_bit l i : 0 <= i -> Z.testbit (key_or l) i = existsb (fun k => Z.testbit k i) l.
Proof. intros Hi. unfold key_or. rewrite fold_or_bit, Z.bits_0. reflexivity. Qed.
Lemma and_or_bit k l i : 0 <= i -> Z.testbit (key_and (k :: l)) i = true -> Z.testbit (key_or (k :: l)) i = true.
Proof. intros Hi. rewrite key_and_bit, key_or_bit by exact Hi. cbn [forallb existsb]. intros H. apply andb_true_iff in H. rewrite (proj1 H). reflexivity. Qed.

Lemma key_xor_eq keys : keys <> [] -> key_xor keys = Z.ldiff (key_or keys) (key_and keys).
Proof.
  intros Hne. destruct keys as [|k l]; [congruence|]. unfold key_xor.
  apply Z.sub_nocarry_ldiff. apply Z.bits_inj'. intros i Hi. rewrite Z.ldiff_spec, Z.bits_0.
  destruct (Z.testbit (key_and (k :: l)) i) eqn:E; [|reflexivity]. rewrite (and_or_bit k l i Hi E). reflexivity.
Qed.

Lemma or_nonneg l : forall a, 0 <= a -> (forall k, In k l -> 0 <= k) -> 0 <= fold_left Z.lor l a.
Proof.
  induction l as [|k l IH]; intros a Ha H; cbn [fold_left]; [exact Ha|].
  apply IH; [apply Z.lor_nonneg; split; [exact Ha|apply H; left; reflexivity]|intros; apply H; right; assumption].
Qed.
Lemma bits_lt x n : 0 <= x -> 0 <= n -> (forall i, n <= i -> Z.testbit x i = false) -> x < 2 ^ n.
Proof.
  intros Hx Hn H. destruct (Z.eq_dec x 0) as [->|Hne]; [apply Z.pow_pos_nonneg; lia|].
  apply Z.log2_lt_pow2; [lia|]. destruct (Z.lt_ge_cases (Z.log2 x) n) as [|Hge]; [assumption|].
  exfalso. pose proof (Z.bit_log2 x ltac:(lia)) as Hb. rewrite H in Hb by exact Hge. discriminate.
Qed.
Lemma bit_high k i : 0 <= k < 2 ^ 32 -> 32 <= i -> Z.testbit k i = false.
Proof.
  intros Hk Hi. destruct (Z.eq_dec k 0) as [->|]; [apply Z.bits_0|].
  apply Z.bits_above_log2; [lia|]. apply Z.log2_lt_pow2; [lia|].
  assert (2 ^ 32 <= 2 ^ i) by (apply Z.pow_le_mono_r; lia). lia.
Qed.
Lemma key_xor_range keys : keys <> [] -> (forall k, In k keys -> 0 <= k < 2 ^ 32) -> 0 <= key_xor keys < 2 ^ 32.
Proof.
  intros Hne Hk. rewrite key_xor_eq by exact Hne.
  assert (Ho : 0 <= key_or keys) by (apply or_nonneg; [lia|intros k Hi; apply Hk, Hi]).
  assert (H0 : 0 <= Z.ldiff (key_or keys) (key_and keys)) by (apply Z.ldiff_nonneg; left; exact Ho).
  split; [exact H0|]. apply bits_lt; [exact H0|lia|]. intros i Hi. rewrite Z.ldiff_spec, key_or_bit by lia.
  replace (existsb (fun k => Z.testbit k i) keys) with false; [reflexivity|].
  symmetry. apply not_true_is_false. intros H. apply existsb_exists in H. destruct H as [k [Hin Hb]].
  rewrite (bit_high k i (Hk k Hin) Hi) in Hb. discriminate.
Qed.

(* what the check and the table decide together *)
Section Decode.
Variable keys : list Z.
Variables v mask : Z.
Hypothesis Hne : keys <> [].
Hypothesis Hk : forall k, In k keys -> 0 <= k < 2 ^ 32.
Hypothesis Hm : forall k, In k keys -> Z.land k mask = k.
Hypothesis Hv : 0 <= v < 2 ^ 32.
Hypothesis Hmask : 0 <= mask.
Let w := Z.land v mask.

Lemma key_and_mask i : 0 <= i -> Z.testbit (key_and keys) i = true -> Z.testbit mask i = true.
Proof using Hne Hm Hk.
  intros Hi H. destruct keys as [|k l]; [congruence|]. rewrite key_and_bit in H. cbn in H. apply andb_true_iff in H.
  destruct H as [H _]. rewrite <- (Hm k) in H by (left; reflexivity). rewrite Z.land_spec in H. apply andb_true_iff in H. apply H.
Qed.
Lemma key_or_mask i : 0 <= i -> Z.testbit (key_or keys) i = true -> Z.testbit mask i = true.
Proof using Hm Hk.
  intros Hi H. rewrite key_or_bit in H by exact Hi. apply existsb_exists in H. destruct H as [k [Hin Hb]].
  rewrite <- (Hm k Hin), Z.land_spec in Hb. apply andb_true_iff in Hb. apply Hb.
Qed.

Lemma decode_in : In w keys -> Z.land v (inv_mask mask keys) = key_and keys.
Proof using All.
  intros Hin. unfold inv_mask. apply Z.bits_inj'. intros i Hi.
  rewrite !Z.land_spec, Z.lor_spec, Z.lnot_spec by exact Hi.
  assert (Hw : Z.testbit w i = Z.testbit v i && Z.testbit mask i) by apply Z.land_spec.
  destruct (Z.testbit (key_and keys) i) eqn:Ea.
  - pose proof (key_and_mask i Hi Ea) as Em. rewrite Em in *. rewrite orb_true_r, !andb_true_r in *. rewrite <- Hw.
    destruct keys as [|k l]; [congruence|]. rewrite key_and_bit in Ea. rewrite forallb_forall in Ea. apply Ea, Hin.
  - rewrite orb_false_r. destruct (Z.testbit (key_or keys) i) eqn:Eo; [cbn; apply andb_false_r|].
    cbn [negb andb]. rewrite <- Hw. rewrite key_or_bit in Eo by exact Hi.
    destruct (Z.testbit w i) eqn:E; [|reflexivity]. exfalso.
    apply (proj2 (not_true_iff_false _) Eo). apply existsb_exists. exists w. split; assumption.
Qed.
Lemma decode_key : Z.land v (inv_mask mask keys) = key_and keys -> key_and keys + Z.land v (key_xor keys) = w.
Proof using All.
  intros H. rewrite key_xor_eq by exact Hne.
  assert (D : Z.land (key_and keys) (Z.land v (Z.ldiff (key_or keys) (key_and keys))) = 0).
  { apply Z.bits_inj'. intros i Hi. rewrite !Z.land_spec, Z.ldiff_spec, Z.bits_0.
    destruct (Z.testbit (key_and keys) i), (Z.testbit v i), (Z.testbit (key_or keys) i); reflexivity. }
  rewrite (Z.add_nocarry_lxor _ _ D). apply Z.bits_inj'. intros i Hi.
  assert (Hb : Z.testbit (Z.land v (inv_mask mask keys)) i = Z.testbit (key_and keys) i) by (rewrite H; reflexivity).
  unfold inv_mask in Hb. rewrite !Z.land_spec, Z.lor_spec, Z.lnot_spec in Hb by exact Hi.
  unfold w. rewrite Z.lxor_spec, !Z.land_spec, Z.ldiff_spec.
  pose proof (key_and_mask i Hi) as M1. pose proof (key_or_mask i Hi) as M2.
  destruct (Z.testbit (key_and keys) i), (Z.testbit v i), (Z.testbit (key_or keys) i), (Z.testbit mask i);
    cbn in *; try reflexivity; try discriminate;
    try (specialize (M1 eq_refl); discriminate); try (specialize (M2 eq_refl); discriminate).
Qed.
(* without a check the invariant holds for every value *)
Lemma decode_nomask : inv_mask mask keys = 0 -> Z.land v (inv_mask mask keys) = key_and keys.
Proof using All.
  intros H. rewrite H, Z.land_0_r. symmetry. apply Z.bits_inj'. intros i Hi. rewrite Z.bits_0.
  destruct (Z.testbit (key_and keys) i) eqn:E; [|reflexivity].
  assert (Hb : Z.testbit (inv_mask mask keys) i = true).
  { unfold inv_mask. rewrite Z.land_spec, Z.lor_spec, E, orb_true_r. cbn. apply key_and_mask; assumption. }
  rewrite H, Z.bits_0 in Hb. discriminate.
Qed.
Lemma table_entry : nth_error (jump_entries keys) (Z.to_nat (weight v 0 (key_bits keys))) =
  Some (L (look keys (key_and keys + Z.land v (key_xor keys)))).
Proof using Hne Hk Hv.
  unfold jump_entries. rewrite nth_error_map, key_list_eq, sums_nth. cbn [option_map].
  unfold key_bits. rewrite (bsum_bits v _ (proj1 Hv) (key_xor_range keys Hne Hk)). reflexivity.
Qed.
End Decode.

(* ---- the bit triggers ---- *)
Definition fresh_ex (j base : nat) (code : list lnode) (s : lstate) : Prop :=
  forall i nd, nth_error code i = Some nd -> (base + i)%nat <> j -> nx s (base + i)%nat = n_next nd.
Lemma fresh_ex_cons j base nd code s : fresh_ex j base (nd :: code) s <-> (base <> j -> nx s base = n_next nd) /\ fresh_ex j (S base) code s.
Proof.
  split.
  - intros H. split; [intros Hb; rewrite <- (Nat.add_0_r base); apply (H 0%nat); [reflexivity|lia]|].
    intros i x Hx Hj. replace (S base + i)%nat with (base + S i)%nat in * by lia. apply H; [exact Hx|exact Hj].
  - intros [H1 H2] [|i] x Hx Hj; cbn in Hx.
    + rewrite Nat.add_0_r in *. injection Hx as <-. apply H1, Hj.
    + replace (base + S i)%nat with (S base + i)%nat in * by lia. apply H2; assumption.
Qed.
Lemma fresh_ex_app j base c1 c2 s : fresh_ex j base (c1 ++ c2) s <-> fresh_ex j base c1 s /\ fresh_ex j (base + length c1) c2 s.
Proof.
  revert base. induction c1 as [|x c1 IH]; intros base.
  - cbn [app length]. rewrite Nat.add_0_r. split; [intros H; split; [intros [|i] nd Hn; discriminate|exact H]|tauto].
  - cbn [app length]. rewrite !fresh_ex_cons, IH. replace (S base + length c1)%nat with (base + S (length c1))%nat by lia. tauto.
Qed.
Lemma fresh_ex_set j base code s t : fresh_ex j base code s -> fresh_ex j base code (set_nx s j t).
Proof. intros H i nd Hi Hj. rewrite set_nx_ne by exact Hj. apply H; assumption. Qed.
Lemma fresh_ex_seq j base code s s' : seq_st s s' -> fresh_ex j base code s -> fresh_ex j base code s'.
Proof. intros [E _] H i nd Hi Hj. rewrite <- E. apply H; assumption. Qed.

Section Bits.
Variable P : lprog.
Variable T : list tgt.
Variable v : Z.
Variable j : nat.

Lemma bits_run after r : forall b i base k s,
  placed P base (bit_nodes j i (b :: r) base after) -> fresh_ex j base (bit_nodes j i (b :: r) base after) s ->
  (j < base \/ j = base + length r)%nat -> nx s j = J k ->
  exists s', lsteps P T v (N base, s) (nx s' (base + length r)%nat, s') /\ seq_st s' (set_nx s j (J (k + weight v i (b :: r)))).
Proof using All.
  induction r as [|b2 r IH]; intros b i base k s HP Hf Hj Hk.
  - cbn [bit_nodes] in HP. rewrite placed_cons in HP. destruct HP as [P0 _]. cbn [length weight]. rewrite Nat.add_0_r in *.
    destruct (setb v b) eqn:E.
    + exists (set_nx s j (J (k + 2 ^ i))). split.
      * eapply node_true; [exact P0|exact E| |reflexivity].
        unfold do_lacts. cbn [fold_left do_lact]. rewrite Hk. reflexivity.
      * replace (k + (2 ^ i + 0)) with (k + 2 ^ i) by lia. apply seq_refl.
    + exists s. split; [eapply node_false; [exact P0|exact E|reflexivity]|].
      rewrite !Z.add_0_r. apply seq_sym, set_same, Hk.
  - change (bit_nodes j i (b :: b2 :: r) base after) with
      (mknode (Some (AtLeast, 1, b)) [AAdd j (2 ^ i)] (N (base + 1)) :: bit_nodes j (i + 1) (b2 :: r) (base + 1) after) in HP, Hf.
    rewrite placed_cons in HP. destruct HP as [P0 P1]. rewrite fresh_ex_cons in Hf. destruct Hf as [F0 F1]. cbn [n_next] in F0.
    cbn [length] in Hj |- *. rewrite <- (Nat.add_1_r base) in P1, F1.
    replace (base + S (length r))%nat with (base + 1 + length r)%nat in * by lia.
    assert (Hbj : base <> j) by lia.
    change (weight v i (b :: b2 :: r)) with ((if setb v b then 2 ^ i else 0) + weight v (i + 1) (b2 :: r)).
    destruct (setb v b) eqn:E.
    + set (s1 := set_nx s j (J (k + 2 ^ i))).
      destruct (IH b2 (i + 1) (base + 1)%nat (k + 2 ^ i) s1 P1) as [s' [R S']].
      * apply fresh_ex_set, F1.
      * lia.
      * apply set_nx_eq.
      * exists s'. split.
        -- eapply lsteps_trans; [|exact R]. eapply node_true; [exact P0|exact E| |].
           ++ unfold do_lacts. cbn [fold_left do_lact]. rewrite Hk. reflexivity.
           ++ unfold s1. rewrite set_nx_ne by exact Hbj. apply F0, Hbj.
        -- eapply seq_trans; [exact S'|]. eapply seq_trans; [apply set_set|].
           rewrite Z.add_assoc. apply seq_refl.
    + destruct (IH b2 (i + 1) (base + 1)%nat k s P1 F1) as [s' [R S']]; [lia|exact Hk|].
      exists s'. split.
      * eapply lsteps_trans; [|exact R]. eapply node_false; [exact P0|exact E|apply F0, Hbj].
      * rewrite Z.add_0_l. exact S'.
Qed.

Lemma check_run mask keys base s : placed P base (check_code mask keys base) -> fresh_ex j base (check_code mask keys base) s ->
  (j < base \/ base + length (check_code mask keys base) <= j)%nat ->
  inv_mask mask keys <> 0 ->
  exists s', seq_st s' s /\
    lsteps P T v (N base, s) ((if Z.land v (inv_mask mask keys) =? key_and keys then N (base + 2) else L None), s').
Proof using All.
  intros HP Hf Hj Hnz. unfold check_code in *. rewrite (proj2 (Z.eqb_neq _ _) Hnz) in *. cbn [length] in Hj.
  rewrite placed_cons, placed_cons in HP. destruct HP as [P0 [P1 _]].
  rewrite fresh_ex_cons, fresh_ex_cons in Hf. destruct Hf as [F0 [F1 _]]. cbn [n_next] in F0, F1.
  specialize (F0 ltac:(lia)). specialize (F1 ltac:(lia)).
  destruct (Z.land v (inv_mask mask keys) =? key_and keys) eqn:E.
  - exists (set_nx (set_nx s base (N (base + 1))) base (L None)). split.
    + eapply seq_trans; [apply set_set|]. apply set_same, F0.
    + eapply lsteps_trans.
      * eapply node_true; [exact P0|exact E|reflexivity|]. apply set_nx_eq.
      * rewrite Nat.add_1_r. eapply node_true; [exact P1|reflexivity|reflexivity|].
        rewrite set_nx_ne, set_nx_ne by lia. exact F1.
  - exists s. split; [apply seq_refl|]. eapply node_false; [exact P0|exact E|exact F0].
Qed.
End Bits.

Lemma lsteps_J P T v k t s : 0 <= k -> nth_error T (Z.to_nat k) = Some t -> lsteps P T v (J k, s) (t, s).
Proof. intros Hk H. econstructor; [|apply lss_refl]. apply ls_jump; assumption. Qed.

(* the trigger that sets the jumper, and the bits *)
Lemma start_run P T v bs st j s t : j = (st + length bs)%nat ->
  P st = Some (mknode None [ASet j (J 0)] (match bs with [] => L None | _ => N (S st) end)) ->
  placed P (S st) (bit_nodes j 0 bs (S st) (L None)) ->
  (st <> j -> nx s st = match bs with [] => L None | _ => N (S st) end) ->
  fresh_ex j (S st) (bit_nodes j 0 bs (S st) (L None)) s ->
  nth_error T (Z.to_nat (weight v 0 bs)) = Some t ->
  exists s' k, lsteps P T v (N st, s) (t, s') /\ seq_st s' (set_nx s j (J k)).
Proof.
  intros Ej P0 PB F0 FB HT. destruct bs as [|b r].
  - cbn [length] in Ej. rewrite Nat.add_0_r in Ej. subst st.
    exists (set_nx s j (J 0)), 0. split; [|apply seq_refl].
    eapply lsteps_trans; [eapply node_true; [exact P0|reflexivity|reflexivity|apply set_nx_eq]|].
    apply lsteps_J; [lia|exact HT].
  - cbn [length] in Ej. set (s2 := set_nx s j (J 0)).
    destruct (bits_run P T v j (L None) r b 0 (S st) 0 s2 PB) as [s' [R S']].
    + apply fresh_ex_set, FB.
    + right. lia.
    + apply set_nx_eq.
    + assert (Es' : seq_st s' (set_nx s j (J (0 + weight v 0 (b :: r))))) by (eapply seq_trans; [exact S'|apply set_set]).
      exists s', (0 + weight v 0 (b :: r)). split; [|exact Es'].
      eapply lsteps_trans; [eapply node_true; [exact P0|reflexivity|reflexivity|]|].
      * unfold do_lacts. cbn [fold_left do_lact]. rewrite set_nx_ne by lia. apply F0. lia.
      * eapply lsteps_trans; [exact R|]. replace (S st + length r)%nat with j by lia.
        destruct Es' as [Es' _]. rewrite Es', set_nx_eq, Z.add_0_l. apply lsteps_J; [|exact HT].
        exact (proj1 (weight_range v (b :: r) 0 (Z.le_refl 0))).
Qed.
Lemma last_bit V r : forall b bb i, nth_error (bit_nodes V i (b :: r) bb (N V)) (length r) =
  Some (mknode (Some (AtLeast, 1, last (b :: r) 0)) [AAdd V (2 ^ (i + Z.of_nat (length r)))] (N V)).
Proof.
  induction r as [|b2 r IH]; intros b bb i.
  - cbn [bit_nodes nth_error length last]. rewrite Z.add_0_r. reflexivity.
  - change (bit_nodes V i (b :: b2 :: r) bb (N V)) with
      (mknode (Some (AtLeast, 1, b)) [AAdd V (2 ^ i)] (N (bb + 1)) :: bit_nodes V (i + 1) (b2 :: r) (bb + 1) (N V)).
    cbn [length nth_error]. rewrite IH. replace (i + 1 + Z.of_nat (length r)) with (i + Z.of_nat (S (length r))) by lia. reflexivity.
Qed.
Lemma start_cp_run P T v bs st V s : (V < st)%nat ->
  P st = Some (mknode None [ASet V (J 0)] (match bs with [] => N V | _ => N (S st) end)) ->
  placed P (S st) (bit_nodes V 0 bs (S st) (N V)) ->
  nx s st = match bs with [] => N V | _ => N (S st) end ->
  fresh (S st) (bit_nodes V 0 bs (S st) (N V)) s ->
  exists s', lsteps P T v (N st, s) (N V, s') /\ seq_st s' (set_nx s V (J (weight v 0 bs))).
Proof.
  intros HV P0 PB F0 FB. destruct bs as [|b r].
  - exists (set_nx s V (J 0)). split; [|apply seq_refl].
    eapply node_true; [exact P0|reflexivity|reflexivity|].
    unfold do_lacts. cbn [fold_left do_lact]. rewrite set_nx_ne by lia. exact F0.
  - set (s2 := set_nx s V (J 0)).
    assert (F2 : fresh_ex V (S st) (bit_nodes V 0 (b :: r) (S st) (N V)) s2).
    { apply fresh_ex_set. intros i nd Hi Hn. apply FB, Hi. }
    destruct (bits_run P T v V (N V) r b 0 (S st) 0 s2 PB F2) as [s' [R S']]; [left; lia|apply set_nx_eq|].
    assert (Es' : seq_st s' (set_nx s V (J (0 + weight v 0 (b :: r))))) by (eapply seq_trans; [exact S'|apply set_set]).
    rewrite Z.add_0_l in Es'. exists s'. split; [|exact Es'].
    eapply lsteps_trans; [eapply node_true; [exact P0|reflexivity|reflexivity|]|].
    + unfold do_lacts. cbn [fold_left do_lact]. rewrite set_nx_ne by lia. exact F0.
    + replace (N V) with (nx s' (S st + length r)%nat); [exact R|].
      destruct Es' as [Es' _]. rewrite Es', set_nx_ne by lia. rewrite (FB _ _ (last_bit V r b (S st) 0)). reflexivity.
Qed.

(* ---- the whole jump table ---- *)
Lemma bits_small n b : In b (bits n) -> 0 <= b < 2 ^ 32.
Proof.
  unfold bits. intros H. apply in_map_iff in H. destruct H as [i [<- Hi]]. apply filter_In in Hi. destruct Hi as [Hi _]. apply in_seq in Hi.
  split; [apply Z.pow_nonneg; lia|]. apply Z.pow_lt_mono_r; lia.
Qed.
Lemma key_bits_small keys b : In b (key_bits keys) -> 0 <= b < 2 ^ 32.
Proof. unfold key_bits. apply bits_small. Qed.
Strategy 1000 [key_bits key_list jump_entries inv_mask key_and key_or key_xor table_code check_code].
Section Table.
Variable P : lprog.
Variable keys : list Z.
Variables v mask : Z.
Hypothesis Hne : keys <> [].
Hypothesis Hk : forall k, In k keys -> 0 <= k < 2 ^ 32.
Hypothesis Hm : forall k, In k keys -> Z.land k mask = k.
Hypothesis Hv : 0 <= v < 2 ^ 32.
Hypothesis Hmask : 0 <= mask.

(* the jumper is the last bit trigger *)
Definition jumper_of (mask : Z) (keys : list Z) : nat := (length (check_code mask keys 0) + length (key_bits keys))%nat.
Definition table_inv (s : lstate) : Prop := fresh_ex (jumper_of mask keys) 0 (table_code mask keys) s.

Lemma entry_of (Hinv : Z.land v (inv_mask mask keys) = key_and keys) :
  nth_error (jump_entries keys) (Z.to_nat (weight v 0 (key_bits keys))) = Some (L (look keys (Z.land v mask))).
Proof using All.
  rewrite (table_entry keys v Hne Hk Hv), (decode_key keys v mask Hne Hk Hm Hv Hmask Hinv). reflexivity.
Qed.

Lemma table_code_eq : table_code mask keys = check_code mask keys 0 ++
  mknode None [ASet (jumper_of mask keys) (J 0)] (match key_bits keys with [] => L None | _ => N (S (length (check_code mask keys 0))) end)
  :: bit_nodes (jumper_of mask keys) 0 (key_bits keys) (S (length (check_code mask keys 0))) (L None).
Proof using. unfold table_code, jumper_of. cbv zeta. exact eq_refl. Qed.
Lemma jumper_eq : jumper_of mask keys = (length (check_code mask keys 0) + length (key_bits keys))%nat.
Proof using. unfold jumper_of. exact eq_refl. Qed.
Lemma table_start : start_of (table_code mask keys) = N 0.
Proof using. rewrite table_code_eq. destruct (check_code mask keys 0); reflexivity. Qed.

Lemma table_run s : placed P 0 (table_code mask keys) -> table_inv s ->
  exists s', lsteps P (jump_entries keys) v (start_of (table_code mask keys), s) (L (look keys (Z.land v mask)), s') /\ table_inv s'.
Proof using All.
  intros HP Hf. unfold table_inv in *. pose proof entry_of as HT.
  generalize dependent (jump_entries keys). intros T HT.
  rewrite table_start. pose proof Hf as Hf0. rewrite table_code_eq in HP, Hf. pose proof jumper_eq as Ej.
  generalize dependent (jumper_of mask keys). intros j HP Hf Hf0 Ej.
  rewrite placed_app, placed_cons in HP. destruct HP as [PC [P0 PB]].
  rewrite fresh_ex_app, fresh_ex_cons in Hf. destruct Hf as [FC [F0 FB]]. cbn [Nat.add n_next] in *.
  generalize dependent (key_bits keys). intros bs HT P0 PB F0 FB Ej.
  (* from the start trigger *)
  assert (G : forall s1, seq_st s1 s -> Z.land v (inv_mask mask keys) = key_and keys ->
     exists s', lsteps P T v (N (length (check_code mask keys 0)), s1) (L (look keys (Z.land v mask)), s') /\ fresh_ex j 0 (table_code mask keys) s').
  { intros s1 Es1 Hinv.
    destruct (start_run P T v bs (length (check_code mask keys 0)) j s1 (L (look keys (Z.land v mask))) Ej P0 PB) as [s' [k [R S']]].
    - intros Hj. destruct Es1 as [Es1 _]. rewrite Es1. apply F0, Hj.
    - eapply fresh_ex_seq; [apply seq_sym, Es1|exact FB].
    - exact (HT Hinv).
    - exists s'. split; [exact R|]. eapply fresh_ex_seq; [apply seq_sym, S'|]. apply fresh_ex_set.
      eapply fresh_ex_seq; [apply seq_sym, Es1|exact Hf0]. }
  destruct (Z.eq_dec (inv_mask mask keys) 0) as [Hz|Hnz].
  - assert (Eck : check_code mask keys 0 = []) by (unfold check_code; rewrite Hz; reflexivity).
    rewrite Eck in G. cbn [length] in G. apply G; [apply seq_refl|].
    apply decode_nomask; assumption.
  - destruct (check_run P T v j mask keys 0 s PC FC) as [s1 [Es1 R]]; [right; lia|exact Hnz|].
    assert (Elen : length (check_code mask keys 0) = 2%nat) by (unfold check_code; rewrite (proj2 (Z.eqb_neq _ _) Hnz); reflexivity).
    destruct (Z.eqb_spec (Z.land v (inv_mask mask keys)) (key_and keys)) as [Hinv|Hinv].
    + destruct (G s1 Es1 Hinv) as [s' [R' I]]. exists s'. split; [|exact I].
      eapply lsteps_trans; [exact R|]. rewrite Elen in R'. exact R'.
    + exists s1. split; [|eapply fresh_ex_seq; [apply seq_sym, Es1|exact Hf0]].
      rewrite look_out; [exact R|]. intros Hin. apply Hinv. apply decode_in; assumption.
Qed.

(* with the jumper V outside; a failed check leaves for the default at once *)
Lemma table_cp_run V base s : (V < base)%nat -> placed P base (table_code_cp V mask keys base) ->
  fresh base (table_code_cp V mask keys base) s ->
  exists t s', lsteps P (jump_entries keys) v (N base, s) (t, s') /\ (forall n, n <> V -> nx s' n = nx s n) /\ rn s' = rn s /\ rt s' = rt s /\
    ((t = L None /\ look keys (Z.land v mask) = None) \/
     (t = N V /\ exists k, nx s' V = J k /\ 0 <= k /\ nth_error (jump_entries keys) (Z.to_nat k) = Some (L (look keys (Z.land v mask))))).
Proof using All.
  intros HV HP Hf. pose proof entry_of as HT.
  generalize dependent (jump_entries keys). intros T HT. unfold table_code_cp in HP, Hf.
  rewrite placed_app, placed_cons in HP. destruct HP as [PC [P0 PB]].
  rewrite fresh_app, fresh_cons in Hf. destruct Hf as [FC [F0 FB]]. cbn [n_next] in *.
  pose proof (proj1 (weight_range v (key_bits keys) 0 (Z.le_refl 0))) as Hwn.
  generalize dependent (key_bits keys). intros bs P0 PB F0 FB HT Hwn.
  assert (G : forall s1, seq_st s1 s -> Z.land v (inv_mask mask keys) = key_and keys ->
     exists s', lsteps P T v (N (base + length (check_code mask keys base)), s1) (N V, s') /\ (forall n, n <> V -> nx s' n = nx s n) /\ rn s' = rn s /\ rt s' = rt s /\
       exists k, nx s' V = J k /\ 0 <= k /\ nth_error T (Z.to_nat k) = Some (L (look keys (Z.land v mask)))).
  { intros s1 [E1 [E2 E3]] Hinv.
    destruct (start_cp_run P T v bs (base + length (check_code mask keys base)) V s1 ltac:(clear - HV; lia) P0 PB) as [s' [R [G1 [G2 G3]]]].
    - rewrite E1. exact F0.
    - intros i nd Hi. rewrite E1. apply FB, Hi.
    - exists s'. split; [exact R|]. split; [intros n Hn; rewrite G1, set_nx_ne by exact Hn; apply E1|].
      split; [rewrite G2; exact E2|]. split; [rewrite G3; exact E3|].
      exists (weight v 0 bs). rewrite G1, set_nx_eq. split; [reflexivity|]. split; [exact Hwn|exact (HT Hinv)]. }
  destruct (Z.eq_dec (inv_mask mask keys) 0) as [Hz|Hnz].
  - assert (Eck : check_code mask keys base = []) by (unfold check_code; rewrite Hz; reflexivity).
    rewrite Eck in G. cbn [length] in G. rewrite Nat.add_0_r in G.
    destruct (G s (seq_refl s)) as [s' [R [A [B [C D]]]]]; [apply decode_nomask; assumption|].
    exists (N V), s'. repeat split; try assumption. right. split; [reflexivity|exact D].
  - destruct (check_run P T v V mask keys base s PC) as [s1 [Es1 R]]; [intros i nd Hi _; apply FC, Hi|left; exact HV|exact Hnz|].
    assert (Est : (base + length (check_code mask keys base) = base + 2)%nat) by (unfold check_code; rewrite (proj2 (Z.eqb_neq _ _) Hnz); reflexivity).
    destruct (Z.eqb_spec (Z.land v (inv_mask mask keys)) (key_and keys)) as [Hinv|Hinv].
    + destruct (G s1 Es1 Hinv) as [s' [R' [A [B [C D]]]]]. exists (N V), s'. split; [|repeat split; try assumption; right; split; [reflexivity|exact D]].
      eapply lsteps_trans; [exact R|]. rewrite <- Est. exact R'.
    + exists (L None), s1. pose proof Es1 as [E1 [E2 E3]]. split; [exact R|]. repeat split; try assumption.
      * intros n _. apply E1.
      * left. split; [reflexivity|]. apply look_out. intros Hin. apply Hinv. apply decode_in; assumption.
Qed.
End Table.
