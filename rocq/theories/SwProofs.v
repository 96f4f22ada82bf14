(* Runs of the triggers of EUDSwitch: lemmas for PropSw.v. *)
From Coq Require Import ZArith Lia Bool List Permutation Sorted ZifyBool ZifyNat.
From Verif Require Import Word WordX Machine MachineProofs SwModel.
Import ListNotations.
Open Scope Z_scope.

(* ---- states and steps ---- *)
Definition seq_st (s s' : lstate) : Prop := (forall n, nx s n = nx s' n) /\ rn s = rn s' /\ rt s = rt s'.
Lemma seq_refl s : seq_st s s. Proof. repeat split. Qed.
Lemma seq_trans a b c : seq_st a b -> seq_st b c -> seq_st a c.
Proof. intros [A [B C]] [D [E F]]. repeat split; try congruence; intros n; rewrite A, D; reflexivity. Qed.
Lemma seq_sym a b : seq_st a b -> seq_st b a.
Proof. intros [A [B C]]. repeat split; congruence. Qed.
Lemma seq_lact a s s' : seq_st s s' -> seq_st (do_lact s a) (do_lact s' a).
Proof.
  intros [A [B C]]. destruct a; cbn; repeat split; cbn; try congruence; intros m;
    rewrite ?A, ?B, ?C; reflexivity.
Qed.
Lemma seq_lacts l : forall s s', seq_st s s' -> seq_st (do_lacts s l) (do_lacts s' l).
Proof. induction l as [|a l IH]; intros s s' H; [exact H|]. cbn. apply IH. apply seq_lact, H. Qed.

Lemma lsteps_trans P T v x y z : lsteps P T v x y -> lsteps P T v y z -> lsteps P T v x z.
Proof. induction 1; auto. intros. econstructor; eauto. Qed.

Lemma do_lacts_app s l1 l2 : do_lacts s (l1 ++ l2) = do_lacts (do_lacts s l1) l2.
Proof. apply fold_left_app. Qed.

(* resets leave the numbers from base on alone *)
Definition below (base : nat) (reset : list (nat * tgt)) : Prop := forall p, In p reset -> (fst p < base)%nat.
Lemma resets_nx reset : forall s n, (forall p, In p reset -> fst p <> n) -> nx (do_lacts s (resets reset)) n = nx s n.
Proof.
  induction reset as [|p r IH]; intros s n H; [reflexivity|].
  cbn [resets map]. change (do_lacts s (?a :: ?l)) with (do_lacts (do_lact s a) l).
  fold (resets r). rewrite IH by (intros; apply H; right; assumption). cbn.
  destruct (Nat.eqb_spec n (fst p)) as [->|]; [|reflexivity]. exfalso. apply (H p); [left|]; reflexivity.
Qed.
Lemma resets_rn reset : forall s, rn (do_lacts s (resets reset)) = rn s /\ rt (do_lacts s (resets reset)) = rt s.
Proof.
  induction reset as [|p r IH]; intros s; [split; reflexivity|].
  cbn [resets map]. change (do_lacts s (?a :: ?l)) with (do_lacts (do_lact s a) l). fold (resets r).
  destruct (IH (do_lact s (ASet (fst p) (snd p)))) as [A B]. rewrite A, B. split; reflexivity.
Qed.
Lemma set_nx_eq s n t : nx (set_nx s n t) n = t.
Proof. cbn. rewrite Nat.eqb_refl. reflexivity. Qed.
Lemma set_nx_ne s n t k : k <> n -> nx (set_nx s n t) k = nx s k.
Proof. intros H. cbn. destruct (Nat.eqb_spec k n); [contradiction|reflexivity]. Qed.

(* writes at a number outside the resets commute with them *)
Lemma resets_set reset : forall s n t, (forall p, In p reset -> fst p <> n) ->
  seq_st (do_lacts (set_nx s n t) (resets reset)) (set_nx (do_lacts s (resets reset)) n t).
Proof.
  induction reset as [|p r IH]; intros s n t H; [apply seq_refl|].
  cbn [resets map]. change (do_lacts ?x (?a :: ?l)) with (do_lacts (do_lact x a) l). fold (resets r).
  eapply seq_trans; [|apply IH; intros; apply H; right; assumption].
  apply seq_lacts. repeat split. intros k. cbn.
  assert (fst p <> n) by (apply H; left; reflexivity).
  destruct (Nat.eqb_spec k (fst p)), (Nat.eqb_spec k n); subst; try reflexivity; contradiction.
Qed.
Lemma set_set s n t t' : seq_st (set_nx (set_nx s n t) n t') (set_nx s n t').
Proof. repeat split. intros k. cbn. destruct (Nat.eqb_spec k n); reflexivity. Qed.
Lemma set_same s n t : nx s n = t -> seq_st (set_nx s n t) s.
Proof. intros H. repeat split. intros k. cbn. destruct (Nat.eqb_spec k n); subst; reflexivity. Qed.
Lemma set_cong s s' n t : seq_st s s' -> seq_st (set_nx s n t) (set_nx s' n t).
Proof. intros H. exact (seq_lact (ASet n t) _ _ H). Qed.

Lemma do_lacts_cons s a l : do_lacts s (a :: l) = do_lacts (do_lact s a) l.
Proof. reflexivity. Qed.

Definition fresh (base : nat) (code : list lnode) (s : lstate) : Prop :=
  forall i nd, nth_error code i = Some nd -> nx s (base + i)%nat = n_next nd.

Lemma placed_cons P base nd code : placed P base (nd :: code) <-> P base = Some nd /\ placed P (S base) code.
Proof.
  split.
  - intros H. split; [rewrite <- (Nat.add_0_r base); apply (H 0%nat); reflexivity|].
    intros i x Hx. replace (S base + i)%nat with (base + S i)%nat by lia. apply H. exact Hx.
  - intros [H1 H2] [|i] x Hx; cbn in Hx.
    + rewrite Nat.add_0_r. congruence.
    + replace (base + S i)%nat with (S base + i)%nat by lia. apply H2, Hx.
Qed.
Lemma placed_app P base c1 c2 : placed P base (c1 ++ c2) <-> placed P base c1 /\ placed P (base + length c1) c2.
Proof.
  revert base. induction c1 as [|x c1 IH]; intros base.
  - cbn [app length]. rewrite Nat.add_0_r. split; [intros H; split; [intros [|i] nd Hn; discriminate|exact H]|tauto].
  - cbn [app length]. rewrite !placed_cons, IH. replace (S base + length c1)%nat with (base + S (length c1))%nat by lia. tauto.
Qed.
Lemma fresh_cons base nd code s : fresh base (nd :: code) s <-> nx s base = n_next nd /\ fresh (S base) code s.
Proof.
  split.
  - intros H. split; [rewrite <- (Nat.add_0_r base); apply (H 0%nat); reflexivity|].
    intros i x Hx. replace (S base + i)%nat with (base + S i)%nat by lia. apply H. exact Hx.
  - intros [H1 H2] [|i] x Hx; cbn in Hx.
    + rewrite Nat.add_0_r. congruence.
    + replace (base + S i)%nat with (S base + i)%nat by lia. apply H2, Hx.
Qed.
Lemma fresh_app base c1 c2 s : fresh base (c1 ++ c2) s <-> fresh base c1 s /\ fresh (base + length c1) c2 s.
Proof.
  revert base. induction c1 as [|x c1 IH]; intros base.
  - cbn [app length]. rewrite Nat.add_0_r. split; [intros H; split; [intros [|i] nd Hn; discriminate|exact H]|tauto].
  - cbn [app length]. rewrite !fresh_cons, IH. replace (S base + length c1)%nat with (base + S (length c1))%nat by lia. tauto.
Qed.
Lemma fresh_seq base code s s' : (forall n, (base <= n)%nat -> nx s n = nx s' n) -> fresh base code s -> fresh base code s'.
Proof. intros H F i nd Hi. rewrite <- H by lia. apply F, Hi. Qed.

(* one trigger *)
Lemma node_true P T v n c a t s s' t' :
  P n = Some (mknode c a t) -> cond_holds v c = true -> s' = do_lacts s a -> nx s' n = t' ->
  lsteps P T v (N n, s) (t', s').
Proof.
  intros HP Hc -> <-. econstructor; [|apply lss_refl].
  apply (ls_node P T v n (mknode c a t) s); [exact HP|]. cbn [n_cond n_acts]. rewrite Hc. reflexivity.
Qed.
Lemma node_false P T v n c a t s t' :
  P n = Some (mknode c a t) -> cond_holds v c = false -> nx s n = t' -> lsteps P T v (N n, s) (t', s).
Proof.
  intros HP Hc <-. econstructor; [|apply lss_refl].
  apply (ls_node P T v n (mknode c a t) s); [exact HP|]. cbn [n_cond n_acts]. rewrite Hc. reflexivity.
Qed.

(* ---- sorted key lists ---- *)
Lemma look_in keys w : In w keys -> look keys w = Some w.
Proof. unfold look. destruct (in_dec Z.eq_dec w keys); tauto. Qed.
Lemma look_out keys w : ~ In w keys -> look keys w = None.
Proof. unfold look. destruct (in_dec Z.eq_dec w keys); tauto. Qed.
Lemma look_iff k1 k2 w : (In w k1 <-> In w k2) -> look k1 w = look k2 w.
Proof. unfold look. destruct (in_dec Z.eq_dec w k1), (in_dec Z.eq_dec w k2); tauto. Qed.

Lemma SS_app (l1 l2 : list Z) : StronglySorted Z.lt (l1 ++ l2) ->
  StronglySorted Z.lt l1 /\ StronglySorted Z.lt l2 /\ forall x y, In x l1 -> In y l2 -> x < y.
Proof.
  induction l1 as [|a l1 IH]; cbn; intros H.
  - repeat split; [constructor|exact H|]. intros x y [].
  - inversion H as [|? ? H1 H2]; subst. destruct (IH H1) as [A [B C]]. rewrite Forall_forall in H2.
    repeat split; [|exact B|].
    + constructor; [exact A|]. apply Forall_forall. intros x Hx. apply H2, in_or_app. left; exact Hx.
    + intros x y [<-|Hx] Hy; [apply H2, in_or_app; right; exact Hy|apply C; assumption].
Qed.
Lemma split_mid keys mid w : StronglySorted Z.lt keys -> (mid < length keys)%nat ->
  (nth mid keys 0 <= w -> look keys w = look (skipn mid keys) w) /\
  (w < nth mid keys 0 -> look keys w = look (firstn mid keys) w).
Proof.
  intros Hs Hm. rewrite <- (firstn_skipn mid keys) in Hs. destruct (SS_app _ _ Hs) as [A [B C]].
  assert (Hn : exists r, skipn mid keys = nth mid keys 0 :: r).
  { clear - Hm. revert mid Hm. induction keys as [|k keys IH]; intros mid Hm; cbn in Hm; [lia|].
    destruct mid; cbn; [eauto|]. apply IH. lia. }
  destruct Hn as [r Hr].
  assert (Hin : forall x, In x keys <-> In x (firstn mid keys) \/ In x (skipn mid keys)).
  { intros x. rewrite <- in_app_iff, firstn_skipn. tauto. }
  split; intros Hw; apply look_iff; rewrite Hin.
  - split; [|tauto]. intros [H|H]; [|exact H]. exfalso.
    assert (w < nth mid keys 0) by (apply C; [exact H|rewrite Hr; left; reflexivity]). lia.
  - split; [|tauto]. intros [H|H]; [exact H|]. exfalso. rewrite Hr in H, B.
    inversion B as [|? ? _ H2]; subst. rewrite Forall_forall in H2. destruct H as [H|H]; [lia|]. specialize (H2 w H). lia.
Qed.

(* ---- binary search ---- *)
Section Search.
Variable P : lprog.
Variable T : list tgt.
Variables v mask : Z.
Let w := Z.land v mask.

Lemma exact_cond k : cond_holds v (Some (Exactly, k, mask)) = (w =? k).
Proof. reflexivity. Qed.

Lemma one_key k reset base s : below base reset ->
  placed P base (key_selector 1 mask [k] reset base) -> fresh base (key_selector 1 mask [k] reset base) s ->
  exists s', lsteps P T v (N base, s) (L (look [k] w), s') /\ seq_st s' (do_lacts s (resets reset)).
Proof using All.
  intros Hb HP Hf. cbn [key_selector app] in HP, Hf.
  rewrite placed_cons, placed_cons in HP. destruct HP as [P0 [P1 P2]].
  rewrite fresh_cons, fresh_cons in Hf. destruct Hf as [F0 [F1 F2]]. cbn [n_next] in F0, F1.
  set (gd := match reset with [] => L None | _ :: _ => N (base + 2) end) in *.
  assert (Hd : forall p, In p reset -> fst p <> base) by (intros p Hp; specialize (Hb p Hp); lia).
  destruct (Z.eqb_spec w k) as [E|E].
  - exists (set_nx (do_lacts (set_nx s base (N (base + 1))) (resets reset)) base gd). split.
    + eapply lsteps_trans.
      * eapply node_true; [exact P0|rewrite exact_cond; apply Z.eqb_eq; exact E|reflexivity|].
        change (do_lacts s (?a :: ?l)) with (do_lacts (do_lact s a) l). cbn [do_lact].
        rewrite resets_nx by exact Hd. apply set_nx_eq.
      * rewrite Nat.add_1_r. eapply node_true; [exact P1|reflexivity|reflexivity|].
        rewrite set_nx_ne by lia.
        rewrite resets_nx by (intros p Hp; specialize (Hb p Hp); lia). rewrite set_nx_ne by lia. rewrite F1.
        rewrite look_in by (left; congruence). congruence.
    + eapply seq_trans; [apply set_cong, resets_set, Hd|].
      eapply seq_trans; [apply set_set|]. apply set_same. rewrite resets_nx by exact Hd. exact F0.
  - exists (do_lacts s (resets reset)). split; [|apply seq_refl].
    eapply lsteps_trans; [eapply node_false; [exact P0|rewrite exact_cond; apply Z.eqb_neq; exact E|exact F0]|].
    rewrite look_out by (intros [H|[]]; congruence).
    subst gd. destruct reset as [|p r]; [apply lss_refl|].
    rewrite placed_cons in P2. rewrite fresh_cons in F2. destruct P2 as [P2 _], F2 as [F2 _].
    replace (base + 2)%nat with (S (S base)) by lia.
    eapply node_true; [exact P2|reflexivity|reflexivity|].
    cbn [n_acts]. rewrite resets_nx by (intros q Hq; specialize (Hb q Hq); lia). exact F2.
Qed.

Lemma selector_run fuel : forall keys reset base s, (length keys <= fuel)%nat -> keys <> [] -> StronglySorted Z.lt keys ->
  below base reset -> placed P base (key_selector fuel mask keys reset base) -> fresh base (key_selector fuel mask keys reset base) s ->
  exists s', lsteps P T v (N base, s) (L (look keys w), s') /\ seq_st s' (do_lacts s (resets reset)).
Proof using All.
  induction fuel as [|fuel IH]; intros keys reset base s Hl Hne Hs Hb HP Hf; [destruct keys; cbn in Hl; [congruence|lia]|].
  assert (Hd : forall p, In p reset -> fst p <> base) by (intros p Hp; specialize (Hb p Hp); lia).
  destruct keys as [|k [|k2 [|k3 keys]]]; [congruence| | |].
  - apply one_key; assumption.
  - (* two keys *)
    destruct fuel as [|fuel]; [cbn in Hl; lia|].
    cbn [key_selector app] in HP, Hf. fold (key_selector (S fuel) mask [k2] reset (base + 2)) in HP, Hf.
    rewrite placed_cons, placed_cons in HP. destruct HP as [P0 [P1 P2]].
    rewrite fresh_cons, fresh_cons in Hf. destruct Hf as [F0 [F1 F2]]. cbn [n_next] in F0, F1.
    replace (S (S base)) with (base + 2)%nat in P2, F2 by lia.
    destruct (Z.eqb_spec w k) as [E|E].
    + exists (set_nx (do_lacts (set_nx s base (N (base + 1))) (resets reset)) base (N (base + 2))). split.
      * eapply lsteps_trans.
        -- eapply node_true; [exact P0|rewrite exact_cond; apply Z.eqb_eq; exact E|reflexivity|].
           change (do_lacts s (?a :: ?l)) with (do_lacts (do_lact s a) l). cbn [do_lact].
           rewrite resets_nx by exact Hd. apply set_nx_eq.
        -- rewrite Nat.add_1_r. eapply node_true; [exact P1|reflexivity|reflexivity|].
           rewrite set_nx_ne by lia.
           rewrite resets_nx by (intros p Hp; specialize (Hb p Hp); lia). rewrite set_nx_ne by lia. rewrite F1.
           rewrite look_in by (left; congruence). congruence.
      * eapply seq_trans; [apply set_cong, resets_set, Hd|].
        eapply seq_trans; [apply set_set|]. apply set_same. rewrite resets_nx by exact Hd. exact F0.
    + destruct (one_key k2 reset (base + 2) s) as [s' [R S']].
      { intros p Hp. specialize (Hb p Hp). lia. }
      { exact P2. } { exact F2. }
      exists s'. split; [|exact S'].
      eapply lsteps_trans; [eapply node_false; [exact P0|rewrite exact_cond; apply Z.eqb_neq; exact E|exact F0]|].
      replace (look [k; k2] w) with (look [k2] w); [exact R|]. apply look_iff. cbn. intuition congruence.
  - (* at least three *)
    remember (k :: k2 :: k3 :: keys) as ks eqn:Eks.
    assert (Hlen : (3 <= length ks)%nat) by (subst ks; cbn; lia).
    set (mid := (length ks / 2)%nat) in *.
    assert (Hmid : (1 <= mid /\ mid < length ks)%nat).
    { subst mid. pose proof (Nat.div_mod (length ks) 2 ltac:(lia)). pose proof (Nat.mod_upper_bound (length ks) 2 ltac:(lia)). lia. }
    set (left := key_selector fuel mask (firstn mid ks) reset (base + 1)) in *.
    set (br2 := (base + 1 + length left)%nat) in *.
    assert (EC : key_selector (S fuel) mask ks reset base =
       mknode (Some (AtLeast, nth mid ks 0, mask)) (ASet base (N br2) :: resets reset) (N (base + 1))
        :: left ++ key_selector fuel mask (skipn mid ks) [(base, N (base + 1))] br2)
      by (subst ks; reflexivity).
    rewrite EC in HP, Hf. clear EC.
    rewrite placed_cons, placed_app in HP. destruct HP as [P0 [P1 P2]].
    rewrite fresh_cons, fresh_app in Hf. destruct Hf as [F0 [F1 F2]]. cbn [n_next] in F0.
    replace (S base + length left)%nat with br2 in P2, F2 by (subst br2; lia).
    rewrite <- (Nat.add_1_r base) in P1, F1.
    destruct (SS_app (firstn mid ks) (skipn mid ks)) as [S1 [S2 _]]; [rewrite firstn_skipn; exact Hs|].
    destruct (split_mid ks mid w Hs (proj2 Hmid)) as [M1 M2].
    assert (Hc : cond_holds v (Some (AtLeast, nth mid ks 0, mask)) = (nth mid ks 0 <=? w)) by reflexivity.
    destruct (Z.leb_spec (nth mid ks 0) w) as [Hge|Hlt].
    + rewrite (M1 Hge).
      set (s1 := do_lacts s (ASet base (N br2) :: resets reset)).
      assert (Es1 : seq_st s1 (set_nx (do_lacts s (resets reset)) base (N br2))) by apply resets_set, Hd.
      destruct (IH (skipn mid ks) [(base, N (base + 1))] br2 s1) as [s' [R S']].
      * rewrite skipn_length. lia.
      * intros H. apply (f_equal (@length Z)) in H. rewrite skipn_length in H. cbn [length] in H. lia.
      * exact S2.
      * intros p [<-|[]]. cbn. subst br2. lia.
      * exact P2.
      * refine (fresh_seq _ _ s s1 _ F2). intros n Hn. destruct Es1 as [Es1 _]. rewrite Es1, set_nx_ne by (subst br2; lia).
        symmetry. apply resets_nx. intros p Hp. specialize (Hb p Hp). subst br2. lia.
      * exists s'. split.
        -- eapply lsteps_trans; [|exact R]. eapply node_true; [exact P0|exact Hc|reflexivity|].
           fold s1. destruct Es1 as [Es1 _]. rewrite Es1. apply set_nx_eq.
        -- eapply seq_trans; [exact S'|]. cbn [resets map fst snd]. unfold do_lacts at 1. cbn [fold_left do_lact].
           eapply seq_trans; [apply set_cong, Es1|]. eapply seq_trans; [apply set_set|].
           apply set_same. rewrite resets_nx by exact Hd. exact F0.
    + rewrite (M2 Hlt).
      destruct (IH (firstn mid ks) reset (base + 1)%nat s) as [s' [R S']].
      * rewrite firstn_length. lia.
      * intros H. apply (f_equal (@length Z)) in H. rewrite firstn_length in H. cbn [length] in H. lia.
      * exact S1.
      * intros p Hp. specialize (Hb p Hp). lia.
      * exact P1.
      * exact F1.
      * exists s'. split; [|exact S'].
        eapply lsteps_trans; [|exact R]. eapply node_false; [exact P0|exact Hc|exact F0].
Qed.

(* ---- with CurrentPlayer: the run ends at V, whose next pointer is the result ---- *)
Variable V : nat.
(* V's pointer is the result, all others as after the resets *)
Definition cp_result (reset : list (nat * tgt)) (s s' : lstate) (r : option Z) : Prop :=
  nx s' V = L r /\ (forall n, n <> V -> nx s' n = nx (do_lacts s (resets reset)) n) /\ rn s' = rn s /\ rt s' = rt s.

Lemma one_key_cp k reset base s : (V < base)%nat -> nx s V = L None -> below base reset -> (forall p, In p reset -> fst p <> V) ->
  placed P base (key_selector_cp 1 V mask [k] reset base) -> fresh base (key_selector_cp 1 V mask [k] reset base) s ->
  exists s', lsteps P T v (N base, s) (N V, s') /\ cp_result reset s s' (look [k] w).
Proof using All.
  intros HV H0 Hb HrV HP Hf. cbn [key_selector_cp app] in HP, Hf.
  assert (G : forall b s1, (V < b)%nat -> nx s1 V = L None -> P b = Some (mknode (Some (Exactly, k, mask)) [ASet V (L (Some k))] (N V)) -> nx s1 b = N V ->
     exists s', lsteps P T v (N b, s1) (N V, s') /\ cp_result [] s1 s' (look [k] w)).
  { intros b s1 Hb1 H1 HPb Hn. destruct (Z.eqb_spec w k) as [E|E].
    - exists (set_nx s1 V (L (Some k))). split.
      + eapply node_true; [exact HPb|rewrite exact_cond; apply Z.eqb_eq; exact E|reflexivity|].
        unfold do_lacts. cbn [fold_left do_lact]. rewrite set_nx_ne by lia. exact Hn.
      + split; [rewrite set_nx_eq, look_in by (left; congruence); congruence|].
        split; [intros n Hnn; apply set_nx_ne, Hnn|split; reflexivity].
    - exists s1. split; [eapply node_false; [exact HPb|rewrite exact_cond; apply Z.eqb_neq; exact E|exact Hn]|].
      split; [rewrite look_out by (intros [H|[]]; congruence); exact H1|]. repeat split. }
  destruct reset as [|p r].
  - cbn [app] in HP, Hf. rewrite placed_cons in HP. rewrite fresh_cons in Hf. destruct HP as [P0 _], Hf as [F0 _].
    apply G; assumption.
  - cbn [app] in HP, Hf. rewrite placed_cons, placed_cons in HP. rewrite fresh_cons, fresh_cons in Hf.
    destruct HP as [P0 [P1 _]], Hf as [F0 [F1 _]]. cbn [n_next] in F0, F1.
    set (rs := p :: r) in *. set (s1 := do_lacts s (resets rs)).
    assert (Hd : forall n, (base <= n)%nat -> nx s1 n = nx s n)
      by (intros n Hn; apply resets_nx; intros q Hq; specialize (Hb q Hq); lia).
    destruct (G (S base) s1) as [s' [R [A [B [C D]]]]]; try lia; try assumption.
    + unfold s1. rewrite resets_nx by exact HrV. exact H0.
    + rewrite Hd by lia. exact F1.
    + exists s'. split.
      * eapply lsteps_trans; [eapply node_true; [exact P0|reflexivity|reflexivity|]|].
        -- fold s1. rewrite Hd by lia. exact F0.
        -- fold s1. rewrite Nat.add_1_r. exact R.
      * destruct (resets_rn rs s) as [E1 E2]. split; [exact A|]. split; [exact B|]. split; [rewrite C; exact E1|rewrite D; exact E2].
Qed.

Lemma selector_cp_run fuel : forall keys reset base s, (length keys <= fuel)%nat -> keys <> [] -> StronglySorted Z.lt keys ->
  (V < base)%nat -> nx s V = L None -> below base reset -> (forall p, In p reset -> fst p <> V) ->
  placed P base (key_selector_cp fuel V mask keys reset base) -> fresh base (key_selector_cp fuel V mask keys reset base) s ->
  exists s', lsteps P T v (N base, s) (N V, s') /\ cp_result reset s s' (look keys w).
Proof using All.
  induction fuel as [|fuel IH]; intros keys reset base s Hl Hne Hs HV H0 Hb HrV HP Hf; [destruct keys; cbn in Hl; [congruence|lia]|].
  assert (Hd : forall p, In p reset -> fst p <> base) by (intros p Hp; specialize (Hb p Hp); lia).
  destruct keys as [|k [|k2 [|k3 keys]]]; [congruence| | |].
  - apply one_key_cp; assumption.
  - destruct fuel as [|fuel]; [cbn in Hl; lia|].
    cbn [key_selector_cp app] in HP, Hf. fold (key_selector_cp (S fuel) V mask [k2] reset (base + 2)) in HP, Hf.
    rewrite placed_cons, placed_cons in HP. destruct HP as [P0 [P1 P2]].
    rewrite fresh_cons, fresh_cons in Hf. destruct Hf as [F0 [F1 F2]]. cbn [n_next] in F0, F1.
    replace (S (S base)) with (base + 2)%nat in P2, F2 by lia.
    destruct (Z.eqb_spec w k) as [E|E].
    + set (s1 := do_lacts s (ASet base (N (base + 1)) :: resets reset)).
      assert (Es1 : seq_st s1 (set_nx (do_lacts s (resets reset)) base (N (base + 1)))) by apply resets_set, Hd.
      destruct Es1 as [E1 [E2 E3]]. destruct (resets_rn reset s) as [G1 G2].
      exists (set_nx (set_nx s1 V (L (Some k))) base (N (base + 2))). split.
      * eapply lsteps_trans.
        -- eapply node_true; [exact P0|rewrite exact_cond; apply Z.eqb_eq; exact E|reflexivity|].
           fold s1. rewrite E1. apply set_nx_eq.
        -- fold s1. rewrite Nat.add_1_r. eapply node_true; [exact P1|reflexivity|reflexivity|].
           unfold do_lacts. cbn [fold_left do_lact]. rewrite set_nx_ne, set_nx_ne, E1, set_nx_ne by lia.
           rewrite resets_nx by (intros p Hp; specialize (Hb p Hp); lia). exact F1.
      * split; [rewrite set_nx_ne, set_nx_eq, look_in by (lia || (left; congruence)); congruence|].
        split; [|split; [change (rn s1 = rn s); rewrite E2; exact G1|change (rt s1 = rt s); rewrite E3; exact G2]].
        intros n Hn. destruct (Nat.eq_dec n base) as [->|Hnb].
        -- rewrite set_nx_eq, resets_nx by exact Hd. symmetry. exact F0.
        -- rewrite set_nx_ne, set_nx_ne, E1, set_nx_ne by assumption. reflexivity.
    + destruct (one_key_cp k2 reset (base + 2) s) as [s' [R S']]; try assumption; try lia.
      { intros p Hp. specialize (Hb p Hp). lia. }
      exists s'. split.
      * eapply lsteps_trans; [eapply node_false; [exact P0|rewrite exact_cond; apply Z.eqb_neq; exact E|exact F0]|exact R].
      * replace (look [k; k2] w) with (look [k2] w); [exact S'|]. apply look_iff. cbn. intuition congruence.
  - remember (k :: k2 :: k3 :: keys) as ks eqn:Eks.
    assert (Hlen : (3 <= length ks)%nat) by (subst ks; cbn; lia).
    set (mid := (length ks / 2)%nat) in *.
    assert (Hmid : (1 <= mid /\ mid < length ks)%nat).
    { subst mid. pose proof (Nat.div_mod (length ks) 2 ltac:(lia)). pose proof (Nat.mod_upper_bound (length ks) 2 ltac:(lia)). lia. }
    set (left := key_selector_cp fuel V mask (firstn mid ks) reset (base + 1)) in *.
    set (br2 := (base + 1 + length left)%nat) in *.
    assert (EC : key_selector_cp (S fuel) V mask ks reset base =
       mknode (Some (AtLeast, nth mid ks 0, mask)) (ASet base (N br2) :: resets reset) (N (base + 1))
        :: left ++ key_selector_cp fuel V mask (skipn mid ks) [(base, N (base + 1))] br2)
      by (subst ks; reflexivity).
    rewrite EC in HP, Hf. clear EC.
    rewrite placed_cons, placed_app in HP. destruct HP as [P0 [P1 P2]].
    rewrite fresh_cons, fresh_app in Hf. destruct Hf as [F0 [F1 F2]]. cbn [n_next] in F0.
    replace (S base + length left)%nat with br2 in P2, F2 by (subst br2; lia).
    rewrite <- (Nat.add_1_r base) in P1, F1.
    destruct (SS_app (firstn mid ks) (skipn mid ks)) as [S1 [S2 _]]; [rewrite firstn_skipn; exact Hs|].
    destruct (split_mid ks mid w Hs (proj2 Hmid)) as [M1 M2].
    assert (Hc : cond_holds v (Some (AtLeast, nth mid ks 0, mask)) = (nth mid ks 0 <=? w)) by reflexivity.
    destruct (Z.leb_spec (nth mid ks 0) w) as [Hge|Hlt].
    + rewrite (M1 Hge).
      set (s1 := do_lacts s (ASet base (N br2) :: resets reset)).
      assert (Es1 : seq_st s1 (set_nx (do_lacts s (resets reset)) base (N br2))) by apply resets_set, Hd.
      destruct (resets_rn reset s) as [G1 G2].
      destruct (IH (skipn mid ks) [(base, N (base + 1))] br2 s1) as [s' [R [A [B [C D]]]]].
      * rewrite skipn_length. lia.
      * intros H. apply (f_equal (@length Z)) in H. rewrite skipn_length in H. cbn [length] in H. lia.
      * exact S2.
      * subst br2. lia.
      * destruct Es1 as [Es1 _]. rewrite Es1, set_nx_ne, resets_nx by (exact HrV || lia). exact H0.
      * intros p [<-|[]]. cbn. subst br2. lia.
      * intros p [<-|[]]. cbn. lia.
      * exact P2.
      * refine (fresh_seq _ _ s s1 _ F2). intros n Hn. destruct Es1 as [Es1 _]. rewrite Es1, set_nx_ne by (subst br2; lia).
        symmetry. apply resets_nx. intros p Hp. specialize (Hb p Hp). subst br2. lia.
      * exists s'. split.
        -- eapply lsteps_trans; [|exact R]. eapply node_true; [exact P0|exact Hc|reflexivity|].
           fold s1. destruct Es1 as [Es1 _]. rewrite Es1. apply set_nx_eq.
        -- destruct Es1 as [E1 [E2 E3]]. split; [exact A|]. split; [|split; [rewrite C, E2; exact G1|rewrite D, E3; exact G2]].
           intros n Hn. rewrite B by exact Hn. unfold do_lacts at 1. cbn [resets map fst snd fold_left do_lact].
           destruct (Nat.eq_dec n base) as [->|Hnb].
           ++ rewrite set_nx_eq, resets_nx by exact Hd. symmetry. exact F0.
           ++ rewrite set_nx_ne, E1, set_nx_ne by assumption. reflexivity.
    + rewrite (M2 Hlt).
      destruct (IH (firstn mid ks) reset (base + 1)%nat s) as [s' [R S']]; try assumption.
      * rewrite firstn_length. lia.
      * intros H. apply (f_equal (@length Z)) in H. rewrite firstn_length in H. cbn [length] in H. lia.
      * lia.
      * intros p Hp. specialize (Hb p Hp). lia.
      * exists s'. split; [|exact S'].
        eapply lsteps_trans; [|exact R]. eapply node_false; [exact P0|exact Hc|exact F0].
Qed.
End Search.
