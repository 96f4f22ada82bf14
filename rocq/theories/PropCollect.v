(* C61: the objects of a payload are collected exactly once each; what is
   collected is what the program refers to; where the code fails to do so. *)
From Coq Require Import List Arith Bool Permutation Lia ZArith ZifyBool ZifyNat.
From Verif Require Import CollectModel.
From Verif Require AllocModel AllocProofs.
Import ListNotations.

(* ------------------------------------------------------------------------ *)
(* Specification: what a program refers to, starting from the root.          *)
Inductive reach (P : prog) (root : nat) : ref -> Prop :=
| re_root : reach P root (RObj root)
| re_dep o d deps r : reach P root (RObj o) -> p_kind P o = KPlain d deps ->
    In r deps -> reach P root r
| re_buf b k : reach P root (RKey b k) -> reach P root (RObj b)
| re_init b k sl r : reach P root (RKey b k) ->
    (p_kind P b = KList \/ p_kind P b = KDeque) ->
    In sl (p_slots P k) -> In r (slot_refs sl) -> reach P root r.

(* registered: the address of r can be worked out when the payload is written *)
Definition reg (s : st) (r : ref) : Prop :=
  match r with
  | RObj o => In o (objs s)
  | RKey b k => In (b, k) (c_keys s) /\ In b (objs s)
  end.

Lemma memb_In o l : memb o l = true <-> In o l.
Proof.
  unfold memb. rewrite existsb_exists. split.
  - intros (x & Hx & E). apply Nat.eqb_eq in E. now subst.
  - intros H. exists o. split; [easy | apply Nat.eqb_refl].
Qed.
Lemma memk_In b k l : memk b k l = true <-> In (b, k) l.
Proof.
  unfold memk. rewrite existsb_exists. split.
  - intros ((x, y) & Hx & E). cbn in E. apply andb_true_iff in E as [E1 E2].
    apply Nat.eqb_eq in E1, E2. now subst.
  - intros H. exists (b, k). split; [easy|]. cbn. now rewrite !Nat.eqb_refl.
Qed.

Section S.
Variable P : prog.
Variable root : nat.

Definition keys_of (b : nat) (s : st) : list nat :=
  map snd (filter (fun p => Nat.eqb b (fst p)) (c_keys s)).

Record inv (s : st) : Prop := mkinv {
  i_nodup : NoDup (objs s);
  i_idx : map snd (c_found s) = seq 0 (length (c_found s));
  i_dyn : c_dyn s = filter (is_dyn P) (objs s);
  i_stack : incl (c_stack s) (objs s);
  i_keys : NoDup (c_keys s);
  i_slots : forall b, c_slots s b = flat_map (p_slots P) (keys_of b s);
  i_kobj : forall b k, In (b, k) (c_keys s) -> In b (objs s);
}.

Definition sound (s : st) : Prop := forall r, reg s r -> reach P root r.

Record ext (s s' : st) : Prop := mkext {
  e_found : exists x, c_found s' = c_found s ++ x;
  e_keys : exists x, c_keys s' = c_keys s ++ x;
  e_slots : forall b, exists x, c_slots s' b = c_slots s b ++ x;
}.
Lemma ext_refl s : ext s s.
Proof. split; [| |intros b]; exists []; now rewrite app_nil_r. Qed.
Lemma ext_trans a b c : ext a b -> ext b c -> ext a c.
Proof.
  intros [(x1 & F1) (x2 & K1) S1] [(y1 & F2) (y2 & K2) S2]. split.
  - exists (x1 ++ y1). now rewrite F2, F1, app_assoc.
  - exists (x2 ++ y2). now rewrite K2, K1, app_assoc.
  - intros z. destruct (S1 z) as (u & U), (S2 z) as (v & V). exists (u ++ v).
    now rewrite V, U, app_assoc.
Qed.
Lemma ext_objs s s' : ext s s' -> incl (objs s) (objs s').
Proof. intros [(x & F) _ _] o H. unfold objs in *. rewrite F, map_app. apply in_or_app. now left. Qed.
Lemma reg_ext s s' r : ext s s' -> reg s r -> reg s' r.
Proof.
  intros E. pose proof (ext_objs _ _ E) as O. destruct E as [_ (y & K) _].
  destruct r; cbn; [apply O|]. intros [H1 H2]. split; [rewrite K; apply in_or_app; now left | now apply O].
Qed.
Lemma nth_ext s s' b i sl : ext s s' -> nth_error (c_slots s b) i = Some sl ->
  nth_error (c_slots s' b) i = Some sl.
Proof.
  intros [_ _ S'] H. destruct (S' b) as (x & X). rewrite X, nth_error_app1; [easy|].
  apply nth_error_Some. now rewrite H.
Qed.
Lemma len_ext s s' b : ext s s' -> length (c_slots s b) <= length (c_slots s' b).
Proof. intros [_ _ S']. destruct (S' b) as (x & X). rewrite X, app_length. lia. Qed.
Lemma slots_same s s' b : ext s s' -> length (c_slots s' b) = length (c_slots s b) ->
  c_slots s' b = c_slots s b.
Proof.
  intros [_ _ S'] H. destruct (S' b) as (x & X). rewrite X in H |- *. rewrite app_length in H.
  destruct x; [apply app_nil_r | cbn in H; lia].
Qed.

(* ---- one evaluation ---- *)
Lemma touch_new o s : ~ In o (objs s) ->
  touch P o s = mkst (c_found s ++ [(o, length (c_found s))]) (o :: c_stack s)
            (if is_dyn P o then c_dyn s ++ [o] else c_dyn s) (c_keys s) (c_slots s).
Proof.
  intros H. unfold touch. destruct (memb o (objs s)) eqn:E; [|reflexivity].
  apply memb_In in E. tauto.
Qed.
Lemma touch_old o s : In o (objs s) -> touch P o s = s.
Proof. intros H. unfold touch. apply memb_In in H. now rewrite H. Qed.

Lemma NoDup_snoc {A} (l : list A) x : NoDup l -> ~ In x l -> NoDup (l ++ [x]).
Proof.
  intros N H. apply Permutation_NoDup with (x :: l); [|now constructor].
  apply Permutation_cons_append.
Qed.

Lemma seq_snoc n : seq 0 (n + 1) = seq 0 n ++ [n].
Proof. rewrite seq_app. reflexivity. Qed.

(* everything but "each key's buffer is found" *)
Lemma touch_inv o s :
  NoDup (objs s) -> map snd (c_found s) = seq 0 (length (c_found s)) ->
  c_dyn s = filter (is_dyn P) (objs s) -> incl (c_stack s) (objs s) -> NoDup (c_keys s) ->
  (forall b, c_slots s b = flat_map (p_slots P) (keys_of b s)) ->
  (forall b k, In (b, k) (c_keys s) -> b = o \/ In b (objs s)) ->
  inv (touch P o s) /\ ext s (touch P o s) /\ In o (objs (touch P o s)) /\
  c_keys (touch P o s) = c_keys s /\ c_slots (touch P o s) = c_slots s /\
  (forall x, In x (objs (touch P o s)) -> x = o \/ In x (objs s)) /\
  (forall x, In x (objs (touch P o s)) -> In x (objs s) \/ In x (c_stack (touch P o s))) /\
  incl (c_stack s) (c_stack (touch P o s)).
Proof.
  intros N I D St K Sl KO.
  destruct (in_dec Nat.eq_dec o (objs s)) as [H|H].
  - rewrite touch_old by easy. repeat split; auto using ext_refl, incl_refl.
    + intros b k Hb. destruct (KO _ _ Hb); [now subst | easy].
    + apply ext_refl. 
    + apply ext_refl.
    + intros b. exists []. now rewrite app_nil_r.
  - rewrite touch_new by easy.
    assert (O : forall c d e f, objs (mkst (c_found s ++ [(o, length (c_found s))]) c d e f) = objs s ++ [o]).
    { intros. unfold objs. cbn. now rewrite map_app. }
    split; [|split; [|split; [|split; [|split; [|split; [|split]]]]]]; rewrite ?O; cbn.
    + split; rewrite ?O; cbn.
      * now apply NoDup_snoc.
      * rewrite map_app, app_length, I. cbn. now rewrite seq_snoc.
      * rewrite filter_app. cbn. rewrite D. destruct (is_dyn P o); [easy | now rewrite app_nil_r].
      * intros x [<-|Hx]; apply in_or_app; [right; now left | left; now apply St].
      * easy.
      * easy.
      * intros b k Hb. apply in_or_app. destruct (KO _ _ Hb); [subst; right; now left | now left].
    + split; cbn; [eexists; reflexivity | exists []; now rewrite app_nil_r |
                   intros b; exists []; now rewrite app_nil_r].
    + apply in_or_app. right. now left.
    + easy.
    + easy.
    + intros x Hx. apply in_app_or in Hx as [Hx|[<-|[]]]; auto.
    + intros x Hx. apply in_app_or in Hx as [Hx|[<-|[]]]; auto.
    + intros x Hx. now right.
Qed.

Lemma eval_inv r s : inv s ->
  inv (eval P r s) /\ ext s (eval P r s) /\ reg (eval P r s) r /\
  (forall x, In x (objs (eval P r s)) -> In x (objs s) \/ In x (c_stack (eval P r s))) /\
  incl (c_stack s) (c_stack (eval P r s)) /\
  (forall q, reg (eval P r s) q -> reg s q \/ q = r \/ exists b k, r = RKey b k /\ q = RObj b) /\
  (forall b, c_slots (eval P r s) b = c_slots s b \/
     exists k, r = RKey b k /\ c_slots (eval P r s) b = c_slots s b ++ p_slots P k).
Proof.
  intros [N I D St K Sl KO]. destruct r as [o|b k].
  - cbn. destruct (touch_inv o s) as (A1 & A2 & A3 & A4 & A5 & A6 & A7 & A8); auto.
    { intros b k H. right. now apply KO with k. }
    repeat (split; [easy|]). split.
    + intros [x|b k]; cbn; [intros Hx; destruct (A6 _ Hx) as [->|]; auto|].
      rewrite A4. intros [Hk _]. left. split; [easy | now apply KO with k].
    + intros b. left. now rewrite A5.
  - unfold eval. destruct (memk b k (c_keys s)) eqn:M.
    + apply memk_In in M. rewrite touch_old by now apply KO with k.
      split; [now constructor|]. split; [apply ext_refl|]. split; [split; [easy | now apply KO with k]|].
      split; [auto|]. split; [apply incl_refl|]. split; auto.
    + assert (M' : ~ In (b, k) (c_keys s)). { rewrite <- memk_In, M. discriminate. }
      destruct (touch_inv b (new_key P b k s)) as (A1 & A2 & A3 & A4 & A5 & A6 & A7 & A8); auto.
      * cbn. now apply NoDup_snoc.
      * intros b'. unfold keys_of. cbn. rewrite filter_app, map_app, flat_map_app. cbn.
        rewrite Sl. destruct (Nat.eqb b' b) eqn:E; cbn.
        -- now rewrite app_nil_r.
        -- now rewrite app_nil_r.
      * intros b' k' H. cbn in H. apply in_app_or in H as [H|[H|[]]].
        -- right. now apply KO with k'.
        -- left. congruence.
      * split; [easy|]. split.
        { apply ext_trans with (new_key P b k s); [|easy]. split; cbn.
          - exists []. now rewrite app_nil_r.
          - eexists. reflexivity.
          - intros b'. destruct (Nat.eqb b' b); [eexists; reflexivity | exists []; now rewrite app_nil_r]. }
        split. { split; [rewrite A4; cbn; apply in_or_app; right; now left | easy]. }
        split; [exact A7|]. split; [exact A8|]. split.
        { intros [x|b' k']; cbn.
          - intros Hx. destruct (A6 _ Hx) as [->|Hx']; [right; right; eauto | now left].
          - rewrite A4. cbn. intros [Hk _]. apply in_app_or in Hk as [Hk|[Hk|[]]].
            + left. split; [easy | now apply KO with k'].
            + right. left. congruence. }
        { intros b'. rewrite A5. cbn. destruct (Nat.eqb b' b) eqn:E; [|now left].
          apply Nat.eqb_eq in E. subst. right. eauto. }
Qed.

(* ---- several evaluations ---- *)
Inductive steps (Q : ref -> Prop) : st -> st -> Prop :=
| st_refl s : steps Q s s
| st_one r s s' : Q r -> steps Q (eval P r s) s' -> steps Q s s'.

Lemma steps_trans Q a b c : steps Q a b -> steps Q b c -> steps Q a c.
Proof. induction 1; [easy|]. intros. econstructor; eauto. Qed.
Lemma steps_mono (Q R : ref -> Prop) a b : (forall r, Q r -> R r) -> steps Q a b -> steps R a b.
Proof. intros H. induction 1; [constructor | econstructor; eauto]. Qed.

Lemma steps_inv Q a b : steps Q a b -> inv a -> inv b /\ ext a b.
Proof.
  induction 1 as [s|r s s' Hq Hs IH]; intros I; [split; [easy | apply ext_refl]|].
  destruct (eval_inv r s I) as (I1 & E1 & _). destruct (IH I1) as [I2 E2].
  split; [easy | exact (ext_trans _ _ _ E1 E2)].
Qed.
Lemma steps_sound (Q : ref -> Prop) a b : (forall r, Q r -> reach P root r) -> steps Q a b -> inv a -> sound a -> sound b.
Proof.
  intros HQ. induction 1 as [s|r s s' Hq Hs IH]; intros I So; [easy|].
  destruct (eval_inv r s I) as (I1 & _ & _ & _ & _ & R1 & _). apply IH; [easy|].
  intros q Hr. destruct (R1 _ Hr) as [H|[->|(b & k & -> & ->)]]; [auto | auto |].
  apply re_buf with k. auto.
Qed.
Lemma steps_stack Q a b : steps Q a b -> inv a ->
  incl (c_stack a) (c_stack b) /\
  forall x, In x (objs b) -> In x (objs a) \/ In x (c_stack b).
Proof.
  induction 1 as [s|r s s' Hq Hs IH]; intros I; [split; [apply incl_refl | auto]|].
  destruct (eval_inv r s I) as (I1 & _ & _ & N1 & S1 & _). destruct (IH I1) as [S2 N2].
  split; [exact (incl_tran S1 S2)|]. intros x Hx. destruct (N2 _ Hx) as [H|H]; [|auto].
  destruct (N1 _ H); auto.
Qed.

Lemma evals_steps (Q : ref -> Prop) l : forall s, inv s -> (forall r, In r l -> Q r) ->
  steps Q s (evals P l s) /\ forall r, In r l -> reg (evals P l s) r.
Proof.
  induction l as [|r l IH]; intros s I HQ; [split; [constructor | easy]|].
  destruct (eval_inv r s I) as (I1 & E1 & R1 & _).
  destruct (IH (eval P r s) I1) as [S2 R2]; [auto using in_cons|].
  change (evals P (r :: l) s) with (evals P l (eval P r s)).
  split; [econstructor; [apply HQ; now left | exact S2]|].
  intros q [<-|H]; [|auto]. destruct (steps_inv _ _ _ S2 I1) as [_ E2]. now apply (reg_ext _ _ _ E2).
Qed.

(* ---- what CollectDependency of one object evaluates ---- *)
Definition own (o : nat) (r : ref) : Prop :=
  (exists d deps, p_kind P o = KPlain d deps /\ In r deps) \/
  ((p_kind P o = KList \/ p_kind P o = KDeque) /\
   exists k sl, reach P root (RKey o k) /\ In sl (p_slots P k) /\ In r (slot_refs sl)).

Lemma own_reach o r : reach P root (RObj o) -> own o r -> reach P root r.
Proof.
  intros Ho [(d & deps & K & H)|(K & k & sl & Hk & H1 & H2)].
  - now apply re_dep with o d deps.
  - now apply re_init with o k sl.
Qed.

Lemma slot_own o s i sl r : inv s -> sound s -> (p_kind P o = KList \/ p_kind P o = KDeque) ->
  nth_error (c_slots s o) i = Some sl -> In r (slot_refs sl) -> own o r.
Proof.
  intros I So K Hn Hr. right. split; [easy|]. apply nth_error_In in Hn.
  rewrite (i_slots s I) in Hn. apply in_flat_map in Hn as (k & Hk & Hsl).
  unfold keys_of in Hk. apply in_map_iff in Hk as ((b, k') & E & Hf). cbn in E. subst k'.
  apply filter_In in Hf as [Hf E]. cbn in E. apply Nat.eqb_eq in E. subst b.
  exists k, sl. repeat split; auto. apply So. split; [easy | now apply (i_kobj s I) with k].
Qed.

(* all that o refers to is registered *)
Definition full (o : nat) (s : st) : Prop :=
  match p_kind P o with
  | KPlain _ deps => forall r, In r deps -> reg s r
  | _ => forall i sl r, nth_error (c_slots s o) i = Some sl -> In r (slot_refs sl) -> reg s r
  end.

Lemma klist_ok fuel o : p_kind P o = KList -> reach P root (RObj o) -> forall i s s',
  inv s -> sound s ->
  (forall j sl r, j < i -> nth_error (c_slots s o) j = Some sl -> In r (slot_refs sl) -> reg s r) ->
  klist P fuel o i s = Done s' ->
  steps (own o) s s' /\
  forall j sl r, nth_error (c_slots s' o) j = Some sl -> In r (slot_refs sl) -> reg s' r.
Proof.
  intros K Ro. induction fuel as [|fuel IH]; intros i s s' I So D H; [discriminate|].
  cbn in H. destruct (nth_error (c_slots s o) i) as [sl|] eqn:E.
  - destruct (evals_steps (own o) (slot_refs sl) s I) as [S1 R1].
    { intros r Hr. eapply slot_own; eauto. }
    destruct (steps_inv _ _ _ S1 I) as [I1 E1].
    assert (So1 : sound (evals P (slot_refs sl) s)).
    { apply (steps_sound _ _ _ (fun r => own_reach o r Ro) S1); auto. }
    edestruct IH as [S2 R2]; [exact I1 | exact So1 | | exact H |].
    { intros j sl' r Hj Hn Hr. destruct (Nat.eq_dec j i) as [->|Hji].
      - rewrite (nth_ext _ _ _ _ _ E1 E) in Hn. injection Hn as <-. auto.
      - assert (Hlt : j < length (c_slots s o)).
        { assert (i < length (c_slots s o)) by (apply nth_error_Some; congruence). lia. }
        destruct (nth_error (c_slots s o) j) as [sl2|] eqn:E2;
          [|apply nth_error_None in E2; lia].
        pose proof (nth_ext _ _ _ _ _ E1 E2) as E3. rewrite E3 in Hn. injection Hn as <-.
        apply (reg_ext _ _ _ E1). eapply D; eauto. lia. }
    split; [exact (steps_trans _ _ _ _ S1 S2) | exact R2].
  - injection H as <-. split; [constructor|]. intros j sl r Hn Hr.
    eapply D; eauto. apply nth_error_None in E.
    assert (j < length (c_slots s o)) by (apply nth_error_Some; congruence). lia.
Qed.

Lemma dq_nptrs_ok o n : p_kind P o = KDeque -> reach P root (RObj o) -> forall l s s',
  inv s -> sound s -> (forall sl, In sl l -> exists i, nth_error (c_slots s o) i = Some sl) ->
  dq_nptrs P o n l s = Done s' ->
  steps (own o) s s' /\
  (forall sl r, In sl l -> In r (s_nptr sl) -> reg s' r) /\
  (l <> [] -> min 5 (length (c_slots s' o)) = n).
Proof.
  intros K Ro. induction l as [|sl l IH]; intros s s' I So M H.
  - cbn in H. injection H as <-. repeat split; try easy. constructor.
  - cbn in H. destruct (Nat.eqb _ n) eqn:E; [|discriminate].
    destruct (evals_steps (own o) (s_nptr sl) s I) as [S1 R1].
    { intros r Hr. destruct (M sl (or_introl eq_refl)) as (i & Hi).
      eapply slot_own; eauto. apply in_or_app. now right. }
    destruct (steps_inv _ _ _ S1 I) as [I1 E1].
    assert (So1 : sound (evals P (s_nptr sl) s)).
    { apply (steps_sound _ _ _ (fun r => own_reach o r Ro) S1); auto. }
    edestruct IH as (S2 & R2 & N2); [exact I1 | exact So1 | | exact H |].
    { intros sl' H'. destruct (M sl' (or_intror H')) as (i & Hi). exists i. eauto using nth_ext. }
    destruct (steps_inv _ _ _ S2 I1) as [I2 E2].
    split; [exact (steps_trans _ _ _ _ S1 S2)|]. split.
    + intros sl' r [<-|H'] Hr; [|eauto]. apply (reg_ext _ _ _ E2). auto.
    + intros _. destruct l as [|x l]; [|now apply N2].
      cbn in H. injection H as <-. now apply Nat.eqb_eq.
Qed.

Lemma dq_pairs_ok fuel o : p_kind P o = KDeque -> reach P root (RObj o) -> forall j s s',
  inv s -> sound s ->
  (forall i a n r, i < j -> nth_error (c_slots s o) i = Some a ->
     nth_error (c_slots s o) (i + 5) = Some n -> In r (s_act a ++ s_nptr n) -> reg s r) ->
  dq_pairs P fuel o j s = Done s' ->
  steps (own o) s s' /\
  forall i a n r, nth_error (c_slots s' o) i = Some a -> nth_error (c_slots s' o) (i + 5) = Some n ->
    In r (s_act a ++ s_nptr n) -> reg s' r.
Proof.
  intros K Ro. induction fuel as [|fuel IH]; intros j s s' I So D H; [discriminate|].
  cbn in H. destruct (nth_error (c_slots s o) j) as [a|] eqn:Ea.
  2: { injection H as <-. split; [constructor|]. intros i a n r Ha Hn Hr. apply D with i a n; auto.
       apply nth_error_None in Ea. assert (i < length (c_slots s o)) by (apply nth_error_Some; congruence). lia. }
  destruct (nth_error (c_slots s o) (j + 5)) as [n|] eqn:En.
  2: { injection H as <-. split; [constructor|]. intros i a' n r Ha Hn Hr. apply D with i a' n; auto.
       apply nth_error_None in En. assert (i + 5 < length (c_slots s o)) by (apply nth_error_Some; congruence). lia. }
  destruct (evals_steps (own o) (s_act a ++ s_nptr n) s I) as [S1 R1].
  { intros r Hr. apply in_app_or in Hr as [Hr|Hr].
    - eapply slot_own with (i := j); eauto. apply in_or_app. now left.
    - eapply slot_own with (i := j + 5); eauto. apply in_or_app. now right. }
  destruct (steps_inv _ _ _ S1 I) as [I1 E1].
  assert (So1 : sound (evals P (s_act a ++ s_nptr n) s)).
  { apply (steps_sound _ _ _ (fun r => own_reach o r Ro) S1); auto. }
  edestruct IH as [S2 R2]; [exact I1 | exact So1 | | exact H |].
  { intros i a' n' r Hi Ha Hn Hr.
    assert (Hlt : j + 5 < length (c_slots s o)) by (apply nth_error_Some; congruence).
    destruct (Nat.eq_dec i j) as [->|Hij].
    - rewrite (nth_ext _ _ _ _ _ E1 Ea) in Ha. rewrite (nth_ext _ _ _ _ _ E1 En) in Hn.
      injection Ha as <-. injection Hn as <-. auto.
    - destruct (nth_error (c_slots s o) i) as [a2|] eqn:Ea2; [|apply nth_error_None in Ea2; lia].
      destruct (nth_error (c_slots s o) (i + 5)) as [n2|] eqn:En2; [|apply nth_error_None in En2; lia].
      rewrite (nth_ext _ _ _ _ _ E1 Ea2) in Ha. rewrite (nth_ext _ _ _ _ _ E1 En2) in Hn.
      injection Ha as <-. injection Hn as <-. apply (reg_ext _ _ _ E1). apply D with i a2 n2; auto. lia. }
  split; [exact (steps_trans _ _ _ _ S1 S2) | exact R2].
Qed.

Lemma dq_pairs_short fuel o s s' : length (c_slots s o) < 5 -> dq_pairs P fuel o 0 s = Done s' -> s' = s.
Proof.
  intros L H. destruct fuel; cbn [dq_pairs] in H; [discriminate|].
  assert (E : nth_error (c_slots s o) (0 + 5) = None) by (apply nth_error_None; lia).
  rewrite E in H. destruct (nth_error (c_slots s o) 0); congruence.
Qed.

Lemma dq_acts_ok o n : p_kind P o = KDeque -> reach P root (RObj o) -> forall l s s',
  inv s -> sound s -> (forall sl, In sl l -> exists i, nth_error (c_slots s o) i = Some sl) ->
  length (c_slots s o) = n ->
  dq_acts P o n l s = Done s' ->
  steps (own o) s s' /\ (forall sl r, In sl l -> In r (s_act sl) -> reg s' r) /\
  length (c_slots s' o) = n.
Proof.
  intros K Ro. induction l as [|sl l IH]; intros s s' I So M L H.
  - cbn in H. injection H as <-. repeat split; try easy. constructor.
  - cbn in H. destruct (Nat.eqb _ n) eqn:E; [|discriminate]. apply Nat.eqb_eq in E.
    destruct (evals_steps (own o) (s_act sl) s I) as [S1 R1].
    { intros r Hr. destruct (M sl (or_introl eq_refl)) as (i & Hi).
      eapply slot_own; eauto. apply in_or_app. now left. }
    destruct (steps_inv _ _ _ S1 I) as [I1 E1].
    assert (So1 : sound (evals P (s_act sl) s)).
    { apply (steps_sound _ _ _ (fun r => own_reach o r Ro) S1); auto. }
    edestruct IH as (S2 & R2 & N2); [exact I1 | exact So1 | | exact E | exact H |].
    { intros sl' H'. destruct (M sl' (or_intror H')) as (i & Hi). exists i. eauto using nth_ext. }
    destruct (steps_inv _ _ _ S2 I1) as [I2 E2].
    split; [exact (steps_trans _ _ _ _ S1 S2)|]. split; [|easy].
    intros sl' r [<-|H'] Hr; [|eauto]. apply (reg_ext _ _ _ E2). auto.
Qed.

Lemma In_firstn {A} (l : list A) n x : In x (firstn n l) -> exists i, nth_error l i = Some x.
Proof. intros H. apply In_nth_error. rewrite <- (firstn_skipn n l). apply in_or_app. now left. Qed.
Lemma In_skipn {A} (l : list A) n x : In x (skipn n l) -> exists i, nth_error l i = Some x.
Proof. intros H. apply In_nth_error. rewrite <- (firstn_skipn n l). apply in_or_app. now right. Qed.
Lemma nth_firstn {A} (l : list A) n i x : i < n -> nth_error l i = Some x -> In x (firstn n l).
Proof.
  revert l i. induction n as [|n IH]; intros l i H E; [lia|]. destruct l as [|a l]; [now destruct i|].
  destruct i; cbn in *; [left; congruence | right; apply IH with i; [lia | easy]].
Qed.
Lemma nth_skipn {A} (l : list A) n i x : n <= i -> nth_error l i = Some x -> In x (skipn n l).
Proof.
  revert l i. induction n as [|n IH]; intros l i H E; [cbn; eauto using nth_error_In|].
  destruct l as [|a l]; [now destruct i|]. destruct i; [lia|]. cbn in *. apply IH with i; [lia | easy].
Qed.

Lemma collect1_ok fuel o s s' : inv s -> sound s -> In o (objs s) ->
  collect1 P fuel o s = Done s' -> steps (own o) s s' /\ full o s'.
Proof.
  intros I So Ho H. pose proof (So (RObj o) Ho) as Ro.
  unfold collect1, full in *. destruct (p_kind P o) as [d deps| |] eqn:K.
  - injection H as <-. apply evals_steps; [easy|]. intros r Hr. left. eauto.
  - apply klist_ok with (3 := I) in H; auto. intros j sl r Hj. lia.
  - unfold kdeque in H.
    set (n0 := min 5 (length (c_slots s o))) in *.
    destruct (dq_nptrs P o n0 (firstn 5 (c_slots s o)) s) as [s1| |] eqn:H1; try discriminate.
    cbn in H. destruct (dq_pairs P fuel o 0 s1) as [s2| |] eqn:H2; try discriminate. cbn in H.
    pose proof H1 as H1'. apply dq_nptrs_ok in H1' as (S1 & R1 & N1); try (intros ? ?; eapply In_firstn; eassumption); auto.
    destruct (steps_inv _ _ _ S1 I) as [I1 E1].
    assert (So1 : sound s1) by (apply (steps_sound _ _ _ (fun r => own_reach o r Ro) S1); auto).
    pose proof H2 as H2'. apply dq_pairs_ok in H2' as (S2 & R2); auto; [|intros i a n r Hi; lia].
    destruct (steps_inv _ _ _ S2 I1) as [I2 E2].
    assert (So2 : sound s2) by (apply (steps_sound _ _ _ (fun r => own_reach o r Ro) S2); auto).
    apply dq_acts_ok in H as (S3 & R3 & L3); try (intros ? ?; eapply In_skipn; eassumption); auto.
    destruct (steps_inv _ _ _ S3 I2) as [I3 E3].
    split; [exact (steps_trans _ _ _ _ S1 (steps_trans _ _ _ _ S2 S3))|].
    pose proof (slots_same _ _ _ E3 L3) as Eq. rewrite Eq.
    intros i sl r Hn Hr. unfold slot_refs in Hr. apply in_app_or in Hr as [Hr|Hr].
    + destruct (le_lt_dec (length (c_slots s2 o)) (i + 5)) as [Hi|Hi].
      * apply R3 with sl; [apply nth_skipn with i; [lia | easy] | easy].
      * destruct (nth_error (c_slots s2 o) (i + 5)) as [n|] eqn:En; [|apply nth_error_None in En; lia].
        apply (reg_ext _ _ _ E3). apply R2 with i sl n; auto. apply in_or_app. now left.
    + destruct (le_lt_dec 5 i) as [Hi|Hi].
      * replace i with ((i - 5) + 5) in Hn by lia.
        destruct (nth_error (c_slots s2 o) (i - 5)) as [a|] eqn:Ea.
        2: { apply nth_error_None in Ea.
             assert (i - 5 + 5 < length (c_slots s2 o)) by (apply nth_error_Some; congruence). lia. }
        apply (reg_ext _ _ _ E3). apply R2 with (i - 5) a sl; auto. apply in_or_app. now right.
      * apply (reg_ext _ _ _ E3), (reg_ext _ _ _ E2). apply R1 with sl; [|easy].
        assert (Hl : i < length (c_slots s o)).
        { assert (Hi2 : i < length (c_slots s2 o)) by (apply nth_error_Some; congruence).
          destruct (le_lt_dec 5 (length (c_slots s o))) as [G|G]; [lia|].
          assert (L1 : length (c_slots s1 o) = length (c_slots s o)).
          { destruct (c_slots s o) as [|x t] eqn:Es.
            - cbn in H1. injection H1 as <-. now rewrite Es.
            - assert (min 5 (length (c_slots s1 o)) = n0) by (apply N1; cbn; easy). unfold n0 in *. lia. }
          assert (s2 = s1) by (apply dq_pairs_short with (2 := H2); lia). subst. lia. }
        destruct (nth_error (c_slots s o) i) as [sl'|] eqn:E'; [|apply nth_error_None in E'; lia].
        rewrite (nth_ext _ _ _ _ _ E2 (nth_ext _ _ _ _ _ E1 E')) in Hn. injection Hn as <-.
        apply nth_firstn with i; [lia | easy].
Qed.

(* ---- the loops ---- *)
Definition is_buf (o : nat) : Prop := p_kind P o = KList \/ p_kind P o = KDeque.
Definition plain (o : nat) : Prop := exists d deps, p_kind P o = KPlain d deps.
Lemma plain_or_buf o : plain o \/ is_buf o.
Proof. unfold plain, is_buf. destruct (p_kind P o); eauto. Qed.

Lemma full_plain_ext o s s' : plain o -> ext s s' -> full o s -> full o s'.
Proof. intros (d & deps & K) E. unfold full. rewrite K. eauto using reg_ext. Qed.

Definition plain_ok (s : st) : Prop :=
  forall o, In o (objs s) -> ~ In o (c_stack s) -> plain o -> full o s.

Definition pop (s : st) (t : list nat) : st := mkst (c_found s) t (c_dyn s) (c_keys s) (c_slots s).
Lemma pop_inv s o t : inv s -> c_stack s = o :: t -> inv (pop s t).
Proof.
  intros [N I D St K Sl KO] E. constructor; auto. intros x Hx. apply St. rewrite E. now right.
Qed.

Lemma traverse_ok cfuel fuel : forall s s', inv s -> sound s -> plain_ok s ->
  traverse P cfuel fuel s = Done s' ->
  inv s' /\ sound s' /\ plain_ok s' /\ c_stack s' = [] /\ ext s s'.
Proof.
  induction fuel as [|fuel IH]; intros s s' I So PO H; [discriminate|].
  cbn in H. destruct (c_stack s) as [|o t] eqn:E.
  - injection H as <-. split; [easy|]. split; [easy|]. split; [easy|]. split; [easy|]. apply ext_refl.
  - fold (pop s t) in H. destruct (collect1 P cfuel o (pop s t)) as [s1| |] eqn:H1; try discriminate.
    cbn in H. pose proof (pop_inv s o t I E) as Ip.
    assert (Ho : In o (objs s)) by (apply (i_stack s I); rewrite E; now left).
    destruct (collect1_ok cfuel o (pop s t) s1 Ip So Ho H1) as [S1 F1].
    destruct (steps_inv _ _ _ S1 Ip) as [I1 E1].
    destruct (steps_stack _ _ _ S1 Ip) as [T1 N1].
    assert (So1 : sound s1).
    { apply (steps_sound _ _ _ (fun r => own_reach o r (So (RObj o) Ho)) S1); auto. }
    assert (PO1 : plain_ok s1).
    { intros x Hx Hs Hp. destruct (Nat.eq_dec x o) as [->|Hxo]; [easy|].
      destruct (N1 _ Hx) as [Hx'|Hx']; [|tauto].
      apply full_plain_ext with (pop s t); auto. apply (PO x); auto.
      rewrite E. intros [->|Ht]; [easy|]. apply Hs, T1, Ht. }
    destruct (IH _ _ I1 So1 PO1 H) as (A1 & A2 & A3 & A4 & A5).
    split; [easy|]. split; [easy|]. split; [easy|]. split; [easy|].
    destruct (ext_trans (pop s t) s1 s' E1 A5) as [X1 X2 X3]. now constructor.
Qed.

Lemma steps_plain_ok Q s s' : inv s -> steps Q s s' -> plain_ok s -> plain_ok s'.
Proof.
  intros I S1 PO. destruct (steps_inv _ _ _ S1 I) as [I1 E1].
  destruct (steps_stack _ _ _ S1 I) as [T1 N1].
  intros x Hx Hs Hp. destruct (N1 _ Hx) as [Hx'|Hx']; [|tauto].
  apply full_plain_ext with s; auto.
Qed.

(* the pass over the dynamic objects, without any assumption on the program *)
Lemma pass_ok cfuel n : forall l s s', inv s -> sound s -> plain_ok s -> incl l (objs s) ->
  pass P cfuel n l s = Done s' ->
  inv s' /\ sound s' /\ plain_ok s' /\ ext s s' /\ (l <> [] -> length (c_dyn s') = n).
Proof.
  induction l as [|o l IH]; intros s s' I So PO Hl H.
  - cbn in H. injection H as <-. split; [easy|]. split; [easy|]. split; [easy|]. split; [apply ext_refl | easy].
  - cbn in H. destruct (collect1 P cfuel o s) as [s1| |] eqn:H1; try discriminate. cbn in H.
    destruct (Nat.eqb (length (c_dyn s1)) n) eqn:En; [|discriminate].
    assert (Ho : In o (objs s)) by (apply Hl; now left).
    destruct (collect1_ok cfuel o s s1 I So Ho H1) as [S1 F1].
    destruct (steps_inv _ _ _ S1 I) as [I1 E1].
    assert (So1 : sound s1).
    { apply (steps_sound _ _ _ (fun r => own_reach o r (So (RObj o) Ho)) S1); auto. }
    edestruct IH as (A1 & A2 & A3 & A4 & A5); [exact I1 | exact So1 | | | exact H |].
    + apply (steps_plain_ok _ _ _ I S1 PO).
    + intros x Hx. apply (ext_objs _ _ E1). apply Hl. now right.
    + split; [easy|]. split; [easy|]. split; [easy|]. split; [exact (ext_trans _ _ _ E1 A4)|].
      intros _. destruct l; [|now apply A5]. cbn in H. injection H as <-. now apply Nat.eqb_eq.
Qed.

(* ---- buffers whose slots refer to slots of other buffers ---- *)
Definition cross_ok : Prop := forall b k sl b' k',
  reach P root (RKey b k) -> is_buf b -> In sl (p_slots P k) -> In (RKey b' k') (slot_refs sl) ->
  b' <> b -> forall sl', In sl' (p_slots P k') -> slot_refs sl' = [].

Lemma full_buf b s : is_buf b -> (full b s <->
  forall i sl r, nth_error (c_slots s b) i = Some sl -> In r (slot_refs sl) -> reg s r).
Proof. intros [K|K]; unfold full; rewrite K; tauto. Qed.

Lemma steps_full_other o b s s' : cross_ok -> is_buf o -> is_buf b -> b <> o ->
  steps (own o) s s' -> inv s -> full b s -> full b s'.
Proof.
  intros C Bo Bb Hne. induction 1 as [s|r s s' Hq Hs IH]; intros I F; [easy|].
  destruct (eval_inv r s I) as (I1 & E1 & _ & _ & _ & _ & Sl). apply IH; [easy|].
  rewrite full_buf in * by easy. intros i sl q Hn Hr.
  destruct (Sl b) as [Sb|(k & -> & Sb)]; rewrite Sb in Hn.
  - apply (reg_ext _ _ _ E1). eauto.
  - destruct (Nat.lt_ge_cases i (length (c_slots s b))) as [Hi|Hi].
    + rewrite nth_error_app1 in Hn by easy. apply (reg_ext _ _ _ E1). eauto.
    + rewrite nth_error_app2 in Hn by easy. apply nth_error_In in Hn.
      destruct Hq as [(d & deps & K & _)|(_ & k0 & sl0 & R0 & In0 & H0)].
      { destruct Bo; congruence. }
      rewrite (C o k0 sl0 b k R0 Bo In0 H0 Hne sl Hn) in Hr. easy.
Qed.

Lemma eval_reg r s : inv s -> reg s r -> eval P r s = s.
Proof.
  intros I. destruct r as [o|b k]; cbn.
  - apply touch_old.
  - intros [Hk Hb]. apply memk_In in Hk. rewrite Hk. now apply touch_old.
Qed.
Lemma evals_reg l s : inv s -> (forall r, In r l -> reg s r) -> evals P l s = s.
Proof.
  intros I. induction l as [|r l IH]; intros H; [easy|].
  change (evals P (r :: l) s) with (evals P l (eval P r s)).
  rewrite eval_reg by (auto; apply H; now left). apply IH. intros q Hq. apply H. now right.
Qed.

Lemma pass_full cfuel n (C : cross_ok) : forall l done s s', inv s -> sound s -> incl l (objs s) ->
  (forall o, In o l -> plain o -> full o s) ->
  (forall o, In o done -> full o s) ->
  pass P cfuel n l s = Done s' -> forall o, In o (done ++ l) -> full o s'.
Proof.
  induction l as [|o l IH]; intros done s s' I So Hl HP HD H.
  - cbn in H. injection H as <-. rewrite app_nil_r. exact HD.
  - cbn in H. destruct (collect1 P cfuel o s) as [s1| |] eqn:H1; try discriminate. cbn in H.
    destruct (Nat.eqb (length (c_dyn s1)) n); [|discriminate].
    assert (Ho : In o (objs s)) by (apply Hl; now left).
    destruct (collect1_ok cfuel o s s1 I So Ho H1) as [S1 F1].
    destruct (steps_inv _ _ _ S1 I) as [I1 E1].
    assert (So1 : sound s1).
    { apply (steps_sound _ _ _ (fun r => own_reach o r (So (RObj o) Ho)) S1); auto. }
    replace (done ++ o :: l) with ((done ++ [o]) ++ l) by (rewrite <- app_assoc; reflexivity).
    apply IH with s1; auto.
    + intros x Hx. apply (ext_objs _ _ E1). apply Hl. now right.
    + intros x Hx Hp. apply full_plain_ext with s; auto. apply HP; [now right | easy].
    + intros x Hx. apply in_app_or in Hx as [Hx|[<-|[]]]; [|easy].
      destruct (plain_or_buf x) as [Hp|Hb].
      { apply full_plain_ext with s; auto. }
      destruct (Nat.eq_dec x o) as [->|Hne]; [easy|].
      destruct (plain_or_buf o) as [Po|Bo].
      * pose proof (HP o (or_introl eq_refl) Po) as Fo. destruct Po as (d & deps & K).
        unfold full in Fo. unfold collect1 in H1. rewrite K in Fo, H1.
        rewrite evals_reg in H1 by easy. injection H1 as <-. auto.
      * apply (steps_full_other o x s s1); auto.
Qed.

Definition closed (s : st) : Prop := forall o, In o (objs s) -> full o s.

Lemma ext_dyn_same s s' : inv s -> inv s' -> ext s s' -> length (c_dyn s') = length (c_dyn s) ->
  c_dyn s' = c_dyn s.
Proof.
  intros I I' [(x & F) _ _] L. rewrite (i_dyn s I), (i_dyn s' I') in *.
  unfold objs in *. rewrite F, map_app, filter_app in *. rewrite app_length in L.
  destruct (filter (is_dyn P) (map fst x)); [apply app_nil_r | cbn in L; lia].
Qed.

Variable ord : list nat -> list nat.
Hypothesis ord_perm : forall l, Permutation (ord l) l.

Lemma ord_incl s : inv s -> incl (ord (c_dyn s)) (objs s).
Proof.
  intros I x Hx. apply (Permutation_in _ (ord_perm _)) in Hx. rewrite (i_dyn s I) in Hx.
  now apply filter_In in Hx.
Qed.

Lemma outer_ok cfuel fuel : forall s s', inv s -> sound s -> plain_ok s ->
  outer P ord cfuel fuel s = Done s' ->
  inv s' /\ sound s' /\ plain_ok s' /\ c_stack s' = [] /\ ext s s' /\
  (cross_ok -> (c_stack s = [] -> closed s) -> closed s').
Proof.
  induction fuel as [|fuel IH]; intros s s' I So PO H; [discriminate|].
  cbn in H. destruct (c_stack s) as [|o t] eqn:E.
  - injection H as <-. split; [easy|]. split; [easy|]. split; [easy|]. split; [easy|].
    split; [apply ext_refl | auto].
  - destruct (traverse P cfuel cfuel s) as [s1| |] eqn:H1; try discriminate. cbn in H.
    destruct (traverse_ok _ _ _ _ I So PO H1) as (I1 & So1 & PO1 & Sk1 & E1).
    destruct (pass P cfuel (length (c_dyn s1)) (ord (c_dyn s1)) s1) as [s2| |] eqn:H2; try discriminate.
    cbn in H. pose proof (ord_incl s1 I1) as Hl.
    destruct (pass_ok _ _ _ _ _ I1 So1 PO1 Hl H2) as (I2 & So2 & PO2 & E2 & N2).
    destruct (IH _ _ I2 So2 PO2 H) as (A1 & A2 & A3 & A4 & A5 & A6).
    split; [easy|]. split; [easy|]. split; [easy|]. split; [easy|].
    split; [exact (ext_trans _ _ _ E1 (ext_trans _ _ _ E2 A5))|].
    intros C _. apply A6; [easy|]. intros Sk2 x Hx.
    destruct (plain_or_buf x) as [Hp|Hb].
    { apply PO2; auto. now rewrite Sk2. }
    assert (Hd : In x (c_dyn s2)).
    { rewrite (i_dyn s2 I2). apply filter_In. split; [easy|]. unfold is_dyn. destruct Hb as [K|K]; now rewrite K. }
    assert (D : c_dyn s2 = c_dyn s1).
    { destruct (ord (c_dyn s1)) as [|y l] eqn:Eo.
      - cbn in H2. congruence.
      - apply ext_dyn_same; auto. apply N2. discriminate. }
    rewrite D in Hd.
    apply (pass_full cfuel (length (c_dyn s1)) C (ord (c_dyn s1)) [] s1 s2); auto.
    + intros y Hy Py. apply PO1; auto. now rewrite Sk1.
    + easy.
    + cbn. apply (Permutation_in _ (Permutation_sym (ord_perm _))). exact Hd.
Qed.

Lemma init_ok : inv (eval P (RObj root) st0) /\ sound (eval P (RObj root) st0) /\
  plain_ok (eval P (RObj root) st0) /\ c_found (eval P (RObj root) st0) = [(root, 0)] /\
  c_stack (eval P (RObj root) st0) = [root].
Proof.
  assert (I0 : inv st0).
  { constructor; cbn; auto; try constructor; easy. }
  assert (So0 : sound st0) by (intros [o|b k]; cbn; tauto).
  destruct (eval_inv (RObj root) st0 I0) as (I1 & _).
  split; [easy|]. split.
  { apply (steps_sound (fun r => r = RObj root) st0); auto; [intros r ->; constructor|].
    econstructor; [reflexivity | constructor]. }
  split; [|split; reflexivity].
  intros o Ho Hs. cbn in *. tauto.
Qed.

Lemma closed_reach s : inv s -> In root (objs s) -> closed s -> forall r, reach P root r -> reg s r.
Proof.
  intros I Hr C r. induction 1 as [|o d deps r Ho IH K Hin|b k Hk IH|b k sl r Hk IH K Hsl Hr2].
  - exact Hr.
  - specialize (C o IH). unfold full in C. rewrite K in C. auto.
  - apply IH.
  - destruct IH as [IHk IHb]. specialize (C b IHb). rewrite full_buf in C by exact K.
    assert (Hin : In sl (c_slots s b)).
    { rewrite (i_slots s I). apply in_flat_map. exists k. split; [|easy].
      unfold keys_of. apply in_map_iff. exists (b, k). split; [easy|]. apply filter_In.
      split; [easy|]. cbn. apply Nat.eqb_refl. }
    apply In_nth_error in Hin as (i & Hi). eauto.
Qed.

Lemma collect_ok fuel s : collect_objects P ord fuel root = Done s ->
  inv s /\ sound s /\ plain_ok s /\ c_stack s = [] /\ (exists t, c_found s = (root, 0) :: t) /\
  (cross_ok -> closed s).
Proof.
  intros H. unfold collect_objects in H. destruct init_ok as (I & So & PO & F & T).
  destruct (outer P ord fuel fuel (eval P (RObj root) st0)) as [s1| |] eqn:H1; try discriminate.
  cbn in H. destruct (outer_ok _ _ _ _ I So PO H1) as (A1 & A2 & A3 & A4 & A5 & A6).
  destruct (c_found s1) as [|q l] eqn:E; [discriminate|]. injection H as <-.
  repeat (split; [easy|]). split.
  - destruct A5 as [(x & X) _ _]. rewrite F in X. cbn in X. rewrite X in E. eauto.
  - intros C. apply A6; [easy|]. rewrite T. discriminate.
Qed.

(* ---- termination ---- *)
Lemma eval_len r s : inv s -> length (c_found (eval P r s)) + length (c_stack s) =
  length (c_found s) + length (c_stack (eval P r s)).
Proof.
  intros I.
  assert (T : forall o s', length (c_found (touch P o s')) + length (c_stack s') =
                           length (c_found s') + length (c_stack (touch P o s'))).
  { intros o s'. unfold touch. destruct (memb o (objs s')); [easy|]. cbn. rewrite app_length. cbn. lia. }
  destruct r as [o|b k]; cbn; [apply T|].
  destruct (memk b k (c_keys s)); [apply T|]. exact (T b (new_key P b k s)).
Qed.
Lemma steps_len Q s s' : steps Q s s' -> inv s ->
  length (c_found s') + length (c_stack s) = length (c_found s) + length (c_stack s').
Proof.
  induction 1 as [s|r s s' Hq Hs IH]; intros I; [easy|].
  destruct (eval_inv r s I) as (I1 & _). specialize (IH I1). pose proof (eval_len r s I). lia.
Qed.

Fixpoint total (l : list (nat * nat)) : nat :=
  match l with [] => 0 | p :: t => length (p_slots P (snd p)) + total t end.
Lemma total_app a b : total (a ++ b) = total a + total b.
Proof. induction a as [|x a IH]; cbn; [easy|]. rewrite IH. lia. Qed.
Lemma total_incl l : forall m, NoDup l -> incl l m -> total l <= total m.
Proof.
  induction l as [|x l IH]; intros m N H; cbn; [lia|].
  inversion N as [|? ? N1 N2]; subst.
  destruct (in_split x m (H x (or_introl eq_refl))) as (m1 & m2 & ->).
  assert (incl l (m1 ++ m2)).
  { intros y Hy. assert (Hm := H y (or_intror Hy)). apply in_app_or in Hm.
    apply in_or_app. destruct Hm as [?|[->|?]]; auto. tauto. }
  specialize (IH _ N2 H0). rewrite total_app in IH |- *. cbn. lia.
Qed.
Lemma total_filter b l :
  length (flat_map (p_slots P) (map snd (filter (fun p => Nat.eqb b (fst p)) l))) <= total l.
Proof.
  induction l as [|x l IH]; cbn; [lia|]. destruct (Nat.eqb b (fst x)); cbn; [rewrite app_length|]; lia.
Qed.

Section Finite.
Variables (Uo : list nat) (Uk : list (nat * nat)).
Hypothesis U_ok : forall r, reach P root r ->
  match r with RObj o => In o Uo | RKey b k => In (b, k) Uk end.

Lemma found_bound s : inv s -> sound s -> length (c_found s) <= length Uo.
Proof.
  intros I So. replace (length (c_found s)) with (length (objs s)) by (unfold objs; apply map_length).
  apply NoDup_incl_length; [apply (i_nodup s I)|]. intros o Ho. exact (U_ok (RObj o) (So (RObj o) Ho)).
Qed.
Lemma slots_bound s b : inv s -> sound s -> length (c_slots s b) <= total Uk.
Proof.
  intros I So. rewrite (i_slots s I). unfold keys_of. eapply Nat.le_trans; [apply total_filter|].
  apply total_incl; [apply (i_keys s I)|]. intros (c, k) Hk.
  exact (U_ok (RKey c k) (So (RKey c k) (conj Hk (i_kobj s I _ _ Hk)))).
Qed.

Lemma klist_fuel fuel o : p_kind P o = KList -> reach P root (RObj o) -> forall i s, inv s -> sound s ->
  total Uk < fuel + i -> i <= length (c_slots s o) -> klist P fuel o i s <> Fuel.
Proof.
  intros K Ro. induction fuel as [|fuel IH]; intros i s I So L Hi.
  - pose proof (slots_bound s o I So). lia.
  - cbn. destruct (nth_error (c_slots s o) i) as [sl|] eqn:E; [|discriminate].
    destruct (evals_steps (own o) (slot_refs sl) s I) as [S1 R1].
    { intros r Hr. eapply slot_own; eauto. }
    destruct (steps_inv _ _ _ S1 I) as [I1 E1].
    apply IH; [easy | | lia |].
    + apply (steps_sound _ _ _ (fun r => own_reach o r Ro) S1); auto.
    + pose proof (len_ext _ _ o E1).
      assert (i < length (c_slots s o)) by (apply nth_error_Some; congruence). lia.
Qed.
Lemma dq_pairs_fuel fuel o : p_kind P o = KDeque -> reach P root (RObj o) -> forall i s, inv s -> sound s ->
  total Uk < fuel + i -> i <= length (c_slots s o) -> dq_pairs P fuel o i s <> Fuel.
Proof.
  intros K Ro. induction fuel as [|fuel IH]; intros i s I So L Hi.
  - pose proof (slots_bound s o I So). lia.
  - cbn. destruct (nth_error (c_slots s o) i) as [a|] eqn:E; [|discriminate].
    destruct (nth_error (c_slots s o) (i + 5)) as [n|] eqn:E5; [|discriminate].
    destruct (evals_steps (own o) (s_act a ++ s_nptr n) s I) as [S1 R1].
    { intros r Hr. apply in_app_or in Hr as [Hr|Hr].
      - eapply slot_own with (i := i); eauto. apply in_or_app. now left.
      - eapply slot_own with (i := i + 5); eauto. apply in_or_app. now right. }
    destruct (steps_inv _ _ _ S1 I) as [I1 E1].
    apply IH; [easy | | lia |].
    + apply (steps_sound _ _ _ (fun r => own_reach o r Ro) S1); auto.
    + pose proof (len_ext _ _ o E1).
      assert (i < length (c_slots s o)) by (apply nth_error_Some; congruence). lia.
Qed.
Lemma dq_nptrs_fuel o n l : forall s, dq_nptrs P o n l s <> Fuel.
Proof. induction l as [|x l IH]; intros s; cbn; [discriminate|]. destruct (Nat.eqb _ n); [apply IH | discriminate]. Qed.
Lemma dq_acts_fuel o n l : forall s, dq_acts P o n l s <> Fuel.
Proof. induction l as [|x l IH]; intros s; cbn; [discriminate|]. destruct (Nat.eqb _ n); [apply IH | discriminate]. Qed.

Lemma collect1_fuel fuel o s : inv s -> sound s -> In o (objs s) -> total Uk < fuel ->
  collect1 P fuel o s <> Fuel.
Proof.
  intros I So Ho L. pose proof (So (RObj o) Ho) as Ro.
  unfold collect1. destruct (p_kind P o) as [d deps| |] eqn:K; [discriminate | |].
  - apply klist_fuel; auto; lia.
  - unfold kdeque.
    destruct (dq_nptrs P o _ (firstn 5 (c_slots s o)) s) as [s1| |] eqn:H1; cbn; try discriminate.
    2: { now apply dq_nptrs_fuel in H1. }
    apply dq_nptrs_ok in H1 as (S1 & _); try (intros ? ?; eapply In_firstn; eassumption); auto.
    destruct (steps_inv _ _ _ S1 I) as [I1 E1].
    assert (So1 : sound s1) by (apply (steps_sound _ _ _ (fun r => own_reach o r Ro) S1); auto).
    destruct (dq_pairs P fuel o 0 s1) as [s2| |] eqn:H2; cbn; try discriminate.
    2: { apply dq_pairs_fuel in H2; auto; lia. }
    apply dq_acts_fuel.
Qed.

Definition M (s : st) : nat := length Uo - length (c_found s) + length (c_stack s).
Lemma M_steps Q s s' : steps Q s s' -> inv s -> sound s -> sound s' -> M s' = M s.
Proof.
  intros S1 I So So'. pose proof (steps_len _ _ _ S1 I). destruct (steps_inv _ _ _ S1 I) as [I' E].
  pose proof (found_bound s I So). pose proof (found_bound s' I' So'). unfold M. lia.
Qed.

Lemma traverse_fuel cfuel fuel : total Uk < cfuel -> forall s, inv s -> sound s -> plain_ok s ->
  M s < fuel ->
  match traverse P cfuel fuel s with
  | Done s' => M s' + length (c_stack s) <= M s /\ (c_stack s <> [] -> M s' < M s)
  | Err => True | Fuel => False end.
Proof.
  intros L. induction fuel as [|fuel IH]; intros s I So PO Hm; [lia|].
  cbn. destruct (c_stack s) as [|o t] eqn:E; [split; [cbn; lia | easy]|]. fold (pop s t).
  pose proof (pop_inv s o t I E) as Ip.
  assert (Ho : In o (objs s)) by (apply (i_stack s I); rewrite E; now left).
  destruct (collect1 P cfuel o (pop s t)) as [s1| |] eqn:H1; cbn; auto.
  2: { now apply collect1_fuel in H1. }
  destruct (collect1_ok cfuel o (pop s t) s1 Ip So Ho H1) as [S1 F1].
  destruct (steps_inv _ _ _ S1 Ip) as [I1 E1].
  destruct (steps_stack _ _ _ S1 Ip) as [T1 N1].
  assert (So1 : sound s1).
  { apply (steps_sound _ _ _ (fun r => own_reach o r (So (RObj o) Ho)) S1); auto. }
  assert (PO1 : plain_ok s1).
  { intros x Hx Hs Hp. destruct (Nat.eq_dec x o) as [->|Hxo]; [easy|].
    destruct (N1 _ Hx) as [Hx'|Hx']; [|tauto].
    apply full_plain_ext with (pop s t); auto. apply (PO x); auto.
    rewrite E. intros [->|Ht]; [easy|]. apply Hs, T1, Ht. }
  assert (M1 : M s1 + 1 = M s).
  { rewrite (M_steps _ _ _ S1 Ip So So1). unfold M, pop. cbn. rewrite E. cbn. lia. }
  specialize (IH s1 I1 So1 PO1 ltac:(lia)).
  destruct (traverse P cfuel fuel s1) as [s2| |]; auto.
  assert (length t <= length (c_stack s1)).
  { pose proof (steps_len _ _ _ S1 Ip). destruct E1 as [(x & X) _ _]. cbn in X, H. rewrite X, app_length in H. lia. }
  cbn. split; [lia | intros _; lia].
Qed.

Lemma pass_fuel cfuel n : total Uk < cfuel -> forall l s, inv s -> sound s -> incl l (objs s) ->
  match pass P cfuel n l s with Done s' => M s' = M s | Err => True | Fuel => False end.
Proof.
  intros L. induction l as [|o l IH]; intros s I So Hl; [reflexivity|].
  assert (Ho : In o (objs s)) by (apply Hl; now left).
  cbn. destruct (collect1 P cfuel o s) as [s1| |] eqn:H1; cbn; auto.
  2: { now apply collect1_fuel in H1. }
  destruct (collect1_ok cfuel o s s1 I So Ho H1) as [S1 F1].
  destruct (steps_inv _ _ _ S1 I) as [I1 E1].
  assert (So1 : sound s1).
  { apply (steps_sound _ _ _ (fun r => own_reach o r (So (RObj o) Ho)) S1); auto. }
  destruct (Nat.eqb (length (c_dyn s1)) n); auto.
  specialize (IH s1 I1 So1). destruct (pass P cfuel n l s1) as [s2| |]; [| auto |]; 
    (assert (X : incl l (objs s1)) by (intros x Hx; apply (ext_objs _ _ E1), Hl; now right)); auto.
  rewrite IH by easy. now apply (M_steps _ _ _ S1).
Qed.

Lemma outer_fuel cfuel : total Uk < cfuel -> length Uo < cfuel -> forall fuel s, inv s -> sound s -> plain_ok s ->
  M s < fuel -> M s <= length Uo -> outer P ord cfuel fuel s <> Fuel.
Proof.
  intros L L2. induction fuel as [|fuel IH]; intros s I So PO Hm Hu; [lia|].
  cbn. destruct (c_stack s) as [|o t] eqn:E; [discriminate|].
  pose proof (traverse_fuel cfuel cfuel L s I So PO ltac:(lia)) as T.
  destruct (traverse P cfuel cfuel s) as [s1| |] eqn:H1; cbn; [|discriminate | tauto].
  destruct (traverse_ok _ _ _ _ I So PO H1) as (I1 & So1 & PO1 & Sk1 & E1).
  pose proof (ord_incl s1 I1) as Hl.
  pose proof (pass_fuel cfuel (length (c_dyn s1)) L _ s1 I1 So1 Hl) as Pf.
  destruct (pass P cfuel (length (c_dyn s1)) (ord (c_dyn s1)) s1) as [s2| |] eqn:H2; cbn; [|discriminate | tauto].
  destruct (pass_ok _ _ _ _ _ I1 So1 PO1 Hl H2) as (I2 & So2 & PO2 & E2 & N2).
  destruct T as [T1 T2]. assert (M s1 < M s) by (apply T2; rewrite E; discriminate).
  apply IH; auto; lia.
Qed.

Lemma collect_fuel fuel : total Uk < fuel -> length Uo < fuel -> collect_objects P ord fuel root <> Fuel.
Proof.
  intros L1 L2. destruct init_ok as (I & So & PO & F & T). unfold collect_objects.
  pose proof (outer_fuel fuel L1 L2 fuel (eval P (RObj root) st0) I So PO) as O.
  assert (HM : M (eval P (RObj root) st0) <= length Uo).
  { pose proof (found_bound _ I So) as B. unfold M. rewrite F, T in *. cbn in *. lia. }
  destruct (outer P ord fuel fuel (eval P (RObj root) st0)) as [s| |]; cbn; [|discriminate|].
  - destruct (c_found s); discriminate.
  - intros _. apply O; auto; lia.
Qed.
End Finite.

(* ---- programs that cannot fail ---- *)
(* slots refer to objects that are not dynamic, or, in EUDVarBuffer and
   EUDJumpBuffer, to slots of the same buffer *)
Definition tame : Prop := forall b k sl r,
  reach P root (RKey b k) -> is_buf b -> In sl (p_slots P k) -> In r (slot_refs sl) ->
  (exists o, r = RObj o /\ is_dyn P o = false) \/ (exists k', r = RKey b k' /\ p_kind P b = KList).

Lemma tame_cross : tame -> cross_ok.
Proof.
  intros T b k sl b' k' R B Hs Hr Hne. destruct (T b k sl _ R B Hs Hr) as [(o & E & _)|(k2 & E & _)].
  - discriminate.
  - congruence.
Qed.

Lemma eval_dyn_same r s : inv s ->
  ((exists o, r = RObj o /\ is_dyn P o = false) \/ (exists b k, r = RKey b k /\ In b (objs s))) ->
  c_dyn (eval P r s) = c_dyn s.
Proof.
  intros I [(o & -> & D)|(b & k & -> & H)]; cbn.
  - unfold touch. rewrite D. now destruct (memb o (objs s)).
  - destruct (memk b k (c_keys s)); rewrite touch_old; auto.
Qed.

Lemma steps_dyn o s s' : tame -> is_buf o -> In o (objs s) -> steps (own o) s s' -> inv s ->
  c_dyn s' = c_dyn s.
Proof.
  intros T B Ho. induction 1 as [s|r s s' Hq Hs IH]; intros I; [easy|].
  destruct (eval_inv r s I) as (I1 & E1 & _). rewrite IH; [|now apply (ext_objs _ _ E1)|easy].
  apply eval_dyn_same; [easy|]. destruct Hq as [(d & deps & K & _)|(_ & k & sl & R & Hin & Hr)].
  - destruct B; congruence.
  - destruct (T o k sl r R B Hin Hr) as [X|(k' & -> & _)]; [now left | right; eauto].
Qed.

Lemma steps_slots o s s' : tame -> p_kind P o = KDeque -> steps (own o) s s' -> inv s ->
  c_slots s' o = c_slots s o.
Proof.
  intros T K. induction 1 as [s|r s s' Hq Hs IH]; intros I; [easy|].
  destruct (eval_inv r s I) as (I1 & E1 & _ & _ & _ & _ & Sl). rewrite IH by easy.
  destruct (Sl o) as [->|(k' & -> & _)]; [easy|].
  destruct Hq as [(d & deps & K' & _)|(_ & k & sl & R & Hin & Hr)]; [congruence|].
  destruct (T o k sl _ R (or_intror K) Hin Hr) as [(x & E & _)|(k2 & E & K2)]; congruence.
Qed.

Lemma dq_nptrs_noerr o n : tame -> p_kind P o = KDeque -> reach P root (RObj o) -> forall l s,
  inv s -> sound s -> (forall sl, In sl l -> exists i, nth_error (c_slots s o) i = Some sl) ->
  min 5 (length (c_slots s o)) = n -> dq_nptrs P o n l s <> Err.
Proof.
  intros T K Ro. induction l as [|sl l IH]; intros s I So Hm L; [discriminate|]. cbn [dq_nptrs].
  destruct (evals_steps (own o) (s_nptr sl) s I) as [S1 R1].
  { intros r Hr. destruct (Hm sl (or_introl eq_refl)) as (i & Hi).
    eapply slot_own; eauto. apply in_or_app. now right. }
  destruct (steps_inv _ _ _ S1 I) as [I1 E1]. pose proof (steps_slots _ _ _ T K S1 I) as Es.
  rewrite Es, L, Nat.eqb_refl. apply IH; auto.
  - apply (steps_sound _ _ _ (fun r => own_reach o r Ro) S1); auto.
  - intros sl' H'. rewrite Es. auto using in_cons.
  - now rewrite Es.
Qed.
Lemma dq_acts_noerr o n : tame -> p_kind P o = KDeque -> reach P root (RObj o) -> forall l s,
  inv s -> sound s -> (forall sl, In sl l -> exists i, nth_error (c_slots s o) i = Some sl) ->
  length (c_slots s o) = n -> dq_acts P o n l s <> Err.
Proof.
  intros T K Ro. induction l as [|sl l IH]; intros s I So Hm L; [discriminate|]. cbn.
  destruct (evals_steps (own o) (s_act sl) s I) as [S1 R1].
  { intros r Hr. destruct (Hm sl (or_introl eq_refl)) as (i & Hi).
    eapply slot_own; eauto. apply in_or_app. now left. }
  destruct (steps_inv _ _ _ S1 I) as [I1 E1]. pose proof (steps_slots _ _ _ T K S1 I) as Es.
  rewrite Es, L, Nat.eqb_refl. apply IH; auto.
  - apply (steps_sound _ _ _ (fun r => own_reach o r Ro) S1); auto.
  - intros sl' H'. rewrite Es. auto using in_cons.
  - now rewrite Es.
Qed.
Lemma klist_noerr fuel o : forall i s, klist P fuel o i s <> Err.
Proof.
  induction fuel as [|fuel IH]; intros i s; cbn; [discriminate|].
  destruct (nth_error (c_slots s o) i); [apply IH | discriminate].
Qed.
Lemma dq_pairs_noerr fuel o : forall i s, dq_pairs P fuel o i s <> Err.
Proof.
  induction fuel as [|fuel IH]; intros i s; cbn; [discriminate|].
  destruct (nth_error (c_slots s o) i); [|discriminate].
  destruct (nth_error (c_slots s o) (i + 5)); [apply IH | discriminate].
Qed.

Lemma collect1_noerr fuel o s : tame -> inv s -> sound s -> In o (objs s) -> collect1 P fuel o s <> Err.
Proof.
  intros T I So Ho. pose proof (So (RObj o) Ho) as Ro.
  unfold collect1. destruct (p_kind P o) as [d deps| |] eqn:K; [discriminate | apply klist_noerr |].
  unfold kdeque.
  destruct (dq_nptrs P o _ (firstn 5 (c_slots s o)) s) as [s1| |] eqn:H1; cbn; try discriminate.
  2: { apply dq_nptrs_noerr in H1; auto. intros ? ?; eapply In_firstn; eassumption. }
  apply dq_nptrs_ok in H1 as (S1 & _); try (intros ? ?; eapply In_firstn; eassumption); auto.
  destruct (steps_inv _ _ _ S1 I) as [I1 E1].
  assert (So1 : sound s1) by (apply (steps_sound _ _ _ (fun r => own_reach o r Ro) S1); auto).
  destruct (dq_pairs P fuel o 0 s1) as [s2| |] eqn:H2; cbn; try discriminate.
  2: { now apply dq_pairs_noerr in H2. }
  apply dq_pairs_ok in H2 as (S2 & _); auto; [|intros i a n r Hi; lia].
  destruct (steps_inv _ _ _ S2 I1) as [I2 E2].
  assert (So2 : sound s2) by (apply (steps_sound _ _ _ (fun r => own_reach o r Ro) S2); auto).
  apply dq_acts_noerr; auto. intros ? ?; eapply In_skipn; eassumption.
Qed.

Lemma traverse_noerr cfuel fuel : tame -> forall s, inv s -> sound s -> plain_ok s ->
  traverse P cfuel fuel s <> Err.
Proof.
  intros T. induction fuel as [|fuel IH]; intros s I So PO; cbn; [discriminate|].
  destruct (c_stack s) as [|o t] eqn:E; [discriminate|]. fold (pop s t).
  pose proof (pop_inv s o t I E) as Ip.
  assert (Ho : In o (objs s)) by (apply (i_stack s I); rewrite E; now left).
  destruct (collect1 P cfuel o (pop s t)) as [s1| |] eqn:H1; cbn; [| | discriminate].
  2: { now apply collect1_noerr in H1. }
  destruct (collect1_ok cfuel o (pop s t) s1 Ip So Ho H1) as [S1 F1].
  destruct (steps_inv _ _ _ S1 Ip) as [I1 E1].
  destruct (steps_stack _ _ _ S1 Ip) as [T1 N1].
  apply IH; [easy | |].
  { apply (steps_sound _ _ _ (fun r => own_reach o r (So (RObj o) Ho)) S1); auto. }
  intros x Hx Hs Hp. destruct (Nat.eq_dec x o) as [->|Hxo]; [easy|].
  destruct (N1 _ Hx) as [Hx'|Hx']; [|tauto].
  apply full_plain_ext with (pop s t); auto. apply (PO x); auto.
  rewrite E. intros [->|Ht]; [easy|]. apply Hs, T1, Ht.
Qed.

Lemma pass_noerr cfuel n : tame -> forall l s, inv s -> sound s -> incl l (objs s) ->
  (forall o, In o l -> plain o -> full o s) -> length (c_dyn s) = n -> pass P cfuel n l s <> Err.
Proof.
  intros T. induction l as [|o l IH]; intros s I So Hl HP Hn; [discriminate|]. cbn.
  assert (Ho : In o (objs s)) by (apply Hl; now left).
  destruct (collect1 P cfuel o s) as [s1| |] eqn:H1; cbn; [| | discriminate].
  2: { now apply collect1_noerr in H1. }
  destruct (collect1_ok cfuel o s s1 I So Ho H1) as [S1 F1].
  destruct (steps_inv _ _ _ S1 I) as [I1 E1].
  assert (D : c_dyn s1 = c_dyn s).
  { destruct (plain_or_buf o) as [Po|Bo]; [|now apply (steps_dyn o)].
    pose proof (HP o (or_introl eq_refl) Po) as Fo. destruct Po as (d & deps & K).
    unfold full in Fo. unfold collect1 in H1. rewrite K in Fo, H1.
    rewrite evals_reg in H1 by easy. injection H1 as <-. reflexivity. }
  rewrite D, Hn, Nat.eqb_refl. apply IH; auto.
  - apply (steps_sound _ _ _ (fun r => own_reach o r (So (RObj o) Ho)) S1); auto.
  - intros x Hx. apply (ext_objs _ _ E1), Hl. now right.
  - intros x Hx Hp. apply full_plain_ext with s; auto. apply HP; [now right | easy].
  - now rewrite D.
Qed.

Lemma outer_noerr cfuel : tame -> forall fuel s, inv s -> sound s -> plain_ok s ->
  outer P ord cfuel fuel s <> Err.
Proof.
  intros T. induction fuel as [|fuel IH]; intros s I So PO; cbn; [discriminate|].
  destruct (c_stack s) as [|o t] eqn:E; [discriminate|].
  destruct (traverse P cfuel cfuel s) as [s1| |] eqn:H1; cbn; [| |discriminate].
  2: { now apply traverse_noerr in H1. }
  destruct (traverse_ok _ _ _ _ I So PO H1) as (I1 & So1 & PO1 & Sk1 & E1).
  pose proof (ord_incl s1 I1) as Hl.
  destruct (pass P cfuel (length (c_dyn s1)) (ord (c_dyn s1)) s1) as [s2| |] eqn:H2; cbn; [| |discriminate].
  2: { apply pass_noerr in H2; auto. intros y Hy Py. apply PO1; auto. now rewrite Sk1. }
  destruct (pass_ok _ _ _ _ _ I1 So1 PO1 Hl H2) as (I2 & So2 & PO2 & E2 & N2).
  now apply IH.
Qed.

Lemma collect_noerr fuel : tame -> collect_objects P ord fuel root <> Err.
Proof.
  intros T. destruct init_ok as (I & So & PO & F & Tk). unfold collect_objects.
  destruct (outer P ord fuel fuel (eval P (RObj root) st0)) as [s| |] eqn:H; cbn; [| |discriminate].
  - destruct (outer_ok _ _ _ _ I So PO H) as (A1 & A2 & A3 & A4 & [(x & X) _ _] & A6).
    rewrite X, F. discriminate.
  - now apply outer_noerr in H.
Qed.
End S.

(* ======================================================================== *)
(* C61 *)

(* The numbering: every object once; the index of an object is its position,
   so that alloctable[index] is where the object is written (payload.rs
   alloc_objects and construct_payload go through the dict in order); the root
   has index 0. *)
Theorem C61_each_object_once : forall P root ord, (forall l, Permutation (ord l) l) ->
  forall fuel s, collect_objects P ord fuel root = Done s ->
  NoDup (map fst (c_found s)) /\
  (forall i o v, nth_error (c_found s) i = Some (o, v) -> v = i) /\
  nth_error (c_found s) 0 = Some (root, 0).
Proof.
  intros P root ord Ho fuel s H. destruct (collect_ok P root ord Ho fuel s H) as (I & _ & _ & _ & (t & F) & _).
  split; [apply (i_nodup _ s I)|]. split; [|now rewrite F].
  intros i o v Hn. pose proof (i_idx _ s I) as X.
  assert (E : nth_error (map snd (c_found s)) i = Some v) by now rewrite nth_error_map, Hn.
  rewrite X in E. assert (i < length (c_found s)) by (apply nth_error_Some; congruence).
  rewrite nth_error_nth' with (d := 0) in E by now rewrite seq_length.
  rewrite seq_nth in E by easy. cbn in E. congruence.
Qed.

(* The same after shuffling, whatever permutation random.shuffle makes. *)
Theorem C61_shuffled : forall found sh root t, NoDup (map fst found) ->
  (forall l, Permutation (sh l) l) -> map fst found = root :: t ->
  NoDup (map fst (shuffled sh found)) /\
  (forall o, In o (map fst (shuffled sh found)) <-> In o (map fst found)) /\
  (forall i o v, nth_error (shuffled sh found) i = Some (o, v) -> v = i) /\
  nth_error (shuffled sh found) 0 = Some (root, 0).
Proof.
  intros found sh root t N Hp E. unfold shuffled. rewrite E in *.
  set (l := rev (sh t ++ [root])).
  assert (Pl : Permutation l (root :: t)).
  { unfold l. rewrite rev_app_distr. cbn. constructor.
    transitivity (sh t); [symmetry; apply Permutation_rev | apply Hp]. }
  assert (F : map fst (combine l (seq 0 (length l))) = l).
  { clear. set (n := length l). assert (H : length l <= length (seq 0 n)) by (rewrite seq_length; unfold n; lia).
    clearbody n. revert H. generalize (seq 0 n). induction l as [|a l IH]; intros [|b m] H; cbn in *; try easy; try lia.
    f_equal. apply IH. lia. }
  assert (G : forall i o v, nth_error (combine l (seq 0 (length l))) i = Some (o, v) -> v = i).
  { intros i o v. assert (H : forall l k i, nth_error (combine l (seq k (length l))) i = Some (o, v) -> v = k + i).
    { clear. induction l as [|a l IH]; intros k [|i]; cbn; try discriminate.
      - intros H. injection H as _ <-. lia.
      - intros H. apply IH in H. lia. }
    apply H. }
  split; [rewrite F; apply (Permutation_NoDup (Permutation_sym Pl) N)|].
  split; [|split; [exact G|]].
  - intros o. rewrite F. split; intros H; [apply (Permutation_in _ Pl H) | apply (Permutation_in _ (Permutation_sym Pl) H)].
  - unfold l. rewrite rev_app_distr. reflexivity.
Qed.

(* Nothing is collected that the program does not refer to: unused objects and
   variables take no space. *)
Theorem C61_nothing_unused : forall P root ord, (forall l, Permutation (ord l) l) ->
  forall fuel s, collect_objects P ord fuel root = Done s ->
  (forall o, In o (map fst (c_found s)) -> reach P root (RObj o)) /\
  (forall b k, In (b, k) (c_keys s) -> reach P root (RKey b k)).
Proof.
  intros P root ord Ho fuel s H. destruct (collect_ok P root ord Ho fuel s H) as (I & So & _).
  split; [intros o Hin; exact (So (RObj o) Hin)|]. intros b k Hk.
  exact (So (RKey b k) (conj Hk (i_kobj _ s I _ _ Hk))).
Qed.

(* Every expression in an object other than a buffer can be written. *)
Theorem C61_plain_objects_complete : forall P root ord, (forall l, Permutation (ord l) l) ->
  forall fuel s, collect_objects P ord fuel root = Done s ->
  forall o d deps r, In o (map fst (c_found s)) -> p_kind P o = KPlain d deps -> In r deps -> reg s r.
Proof.
  intros P root ord Ho fuel s H o d deps r Hin K Hr.
  destruct (collect_ok P root ord Ho fuel s H) as (I & So & PO & T & _).
  assert (F : full P o s). { apply PO; [easy | now rewrite T | now exists d, deps]. }
  unfold full in F. rewrite K in F. auto.
Qed.

(* If slots that are referred to from another buffer hold integers only,
   everything the program refers to is collected. Missing: slots that are
   referred to from another buffer and hold addresses; the claim is false then
   (C61_missed_object_refuted). *)
Theorem C61_complete_partial : forall P root ord, (forall l, Permutation (ord l) l) ->
  (forall b k sl b' k', reach P root (RKey b k) -> is_buf P b -> In sl (p_slots P k) ->
     In (RKey b' k') (slot_refs sl) -> b' <> b ->
     forall sl', In sl' (p_slots P k') -> slot_refs sl' = []) ->
  forall fuel s, collect_objects P ord fuel root = Done s ->
  (forall o, In o (map fst (c_found s)) <-> reach P root (RObj o)) /\
  (forall b k, In (b, k) (c_keys s) <-> reach P root (RKey b k)).
Proof.
  intros P root ord Ho C fuel s H.
  destruct (collect_ok P root ord Ho fuel s H) as (I & So & PO & T & (t & F) & Cl).
  assert (Hr : In root (objs s)). { unfold objs. rewrite F. now left. }
  pose proof (closed_reach P root s I Hr (Cl C)) as R.
  split; [intros o; split; [exact (So (RObj o)) | exact (R (RObj o))]|].
  intros b k. split.
  - intros Hk. exact (So (RKey b k) (conj Hk (i_kobj _ s I _ _ Hk))).
  - intros Hk. exact (proj1 (R (RKey b k) Hk)).
Qed.

(* The collection ends when finitely many things are referred to, and it ends
   without an exception when, besides, the slots of buffers refer to ordinary
   objects, or to slots of the same EUDVarBuffer or EUDJumpBuffer. Missing:
   other references between slots; the claim is false for some of them
   (C61_nested_array_refuted, C61_set_changes_refuted). *)
Theorem C61_terminates : forall P root ord, (forall l, Permutation (ord l) l) ->
  forall Uo Uk, (forall r, reach P root r ->
    match r with RObj o => In o Uo | RKey b k => In (b, k) Uk end) ->
  forall fuel, total P Uk < fuel -> length Uo < fuel ->
  collect_objects P ord fuel root <> Fuel.
Proof. intros. now apply collect_fuel with Uo Uk. Qed.

Theorem C61_collects_partial : forall P root ord, (forall l, Permutation (ord l) l) ->
  (forall b k sl r, reach P root (RKey b k) -> is_buf P b -> In sl (p_slots P k) ->
     In r (slot_refs sl) ->
     (exists o, r = RObj o /\ is_dyn P o = false) \/ (exists k', r = RKey b k' /\ p_kind P b = KList)) ->
  forall Uo Uk, (forall r, reach P root r ->
    match r with RObj o => In o Uo | RKey b k => In (b, k) Uk end) ->
  forall fuel, total P Uk < fuel -> length Uo < fuel ->
  exists s, collect_objects P ord fuel root = Done s /\
    (forall o, In o (map fst (c_found s)) <-> reach P root (RObj o)) /\
    (forall b k, In (b, k) (c_keys s) <-> reach P root (RKey b k)).
Proof.
  intros P root ord Ho T Uo Uk HU fuel L1 L2.
  pose proof (collect_fuel P root ord Ho Uo Uk HU fuel L1 L2) as F.
  pose proof (collect_noerr P root ord Ho fuel T) as E.
  destruct (collect_objects P ord fuel root) as [s| |] eqn:H; try congruence.
  exists s. split; [easy|]. exact (C61_complete_partial P root ord Ho (tame_cross P root T) fuel s H).
Qed.

(* The first object, which is the root, is at the start of the payload. *)
Lemma place_all_table occs : forall s s', AllocModel.place_all s occs = AllocModel.Ok s' ->
  exists x, AllocModel.s_table s' = AllocModel.s_table s ++ x.
Proof.
  induction occs as [|o occs IH]; intros s s' H; cbn in H.
  - injection H as <-. exists []. now rewrite app_nil_r.
  - destruct (AllocModel.place s o) as [s1| |] eqn:E; try discriminate. cbn in H.
    apply IH in H as (x & X). unfold AllocModel.place in E.
    destruct (AllocModel.find_pos _ _ _ _ _) as [l| |]; try discriminate. cbn [AllocModel.bind] in E.
    destruct (AllocModel.apply_occ _ _ _ _) as [sum| |]; try discriminate. cbn [AllocModel.bind] in E.
    injection E as <-. cbn in X. rewrite <- app_assoc in X. eauto.
Qed.

Theorem C61_first_at_start : forall occs occ offs size,
  AllocModel.stack_objects (occ :: occs) = AllocModel.Ok (offs, size) -> nth_error offs 0 = Some 0%Z.
Proof.
  intros occs occ offs size H. unfold AllocModel.stack_objects in H.
  destruct (AllocModel.place_all _ (occ :: occs)) as [s'| |] eqn:E; try discriminate.
  cbn [AllocModel.bind] in H. injection H as <- _.
  cbn [AllocModel.place_all] in E. unfold AllocModel.place in E at 1.
  destruct (AllocModel.find_pos _ _ _ _ _) as [l| |] eqn:Ef; try discriminate. cbn [AllocModel.bind] in E.
  destruct (AllocModel.apply_occ _ _ _ _) as [sum| |]; try discriminate. cbn [AllocModel.bind] in E.
  apply AllocProofs.find_first in Ef.
  - subst l. apply place_all_table in E as (x & X). cbn in X. rewrite X. reflexivity.
  - intros k. cbn [AllocModel.s_sum]. destruct (nth_error _ k) as [v|] eqn:Ek; [|now left].
    right. apply nth_error_In in Ek. now apply repeat_spec in Ek as ->.
  - cbn [AllocModel.s_sum]. rewrite repeat_length. unfold AllocModel.total_len. cbn. lia.
Qed.

(* ---- a program that meets the hypotheses ---- *)
Definition inU (Uo : list nat) (Uk : list (nat * nat)) (r : ref) : bool :=
  match r with RObj o => memb o Uo | RKey b k => memk b k Uk end.
Definition closedU (P : prog) (root : nat) (Uo : list nat) (Uk : list (nat * nat)) : bool :=
  memb root Uo &&
  forallb (fun o => match p_kind P o with KPlain _ deps => forallb (inU Uo Uk) deps | _ => true end) Uo &&
  forallb (fun p => memb (fst p) Uo && forallb (fun sl => forallb (inU Uo Uk) (slot_refs sl)) (p_slots P (snd p))) Uk.
Lemma closedU_reach P root Uo Uk : closedU P root Uo Uk = true -> forall r, reach P root r -> inU Uo Uk r = true.
Proof.
  unfold closedU. intros H. apply andb_true_iff in H as [H H3]. apply andb_true_iff in H as [H1 H2].
  rewrite forallb_forall in H2, H3.
  induction 1 as [|o d deps r Ho IH K Hin|b k Hk IH|b k sl r Hk IH K Hsl Hr2]; cbn in *.
  - exact H1.
  - apply memb_In in IH. specialize (H2 _ IH). rewrite K, forallb_forall in H2. auto.
  - apply memk_In in IH. specialize (H3 _ IH). apply andb_true_iff in H3 as [H3 _]. exact H3.
  - apply memk_In in IH. specialize (H3 _ IH). apply andb_true_iff in H3 as [_ H3].
    rewrite forallb_forall in H3. specialize (H3 _ Hsl). rewrite forallb_forall in H3. auto.
Qed.

(* 0: root trigger; 1: EUDVarBuffer; 2: EUDCustomVarBuffer; 3, 4: triggers;
   5: an unused trigger. Variable 10 starts as the address of variable 11,
   which starts as the address of trigger 4; array 20 has seven items, whose
   next pointers are trigger 3. Variable 12 is unused. *)
Definition cx : prog := mkprog
  (fun o => match o with 0 => KPlain false [RObj 3; RKey 1 10; RKey 2 20] | 1 => KList | 2 => KDeque
                       | 3 => KPlain false [RObj 0; RKey 2 20] | 5 => KPlain false [RObj 0] | _ => KPlain false [] end)
  (fun k => match k with 10 => [mkslot [RKey 1 11] []] | 11 => [mkslot [RObj 4] []]
                       | 20 => repeat (mkslot [RObj 4] [RObj 3]) 7 | _ => [mkslot [] []] end).
Definition cxUo := [0; 1; 2; 3; 4]. Definition cxUk := [(1, 10); (1, 11); (2, 20)].

Lemma cx_reach r : reach cx 0 r -> inU cxUo cxUk r = true.
Proof. apply closedU_reach. reflexivity. Qed.

Example C61_example : exists s, collect_objects cx (@rev nat) 20 0 = Done s /\
  (forall o, In o (map fst (c_found s)) <-> In o cxUo) /\ reach cx 0 (RKey 1 11) /\ ~ reach cx 0 (RObj 5).
Proof.
  assert (Rk : forall b k, reach cx 0 (RKey b k) -> In (b, k) cxUk).
  { intros b k H. apply cx_reach in H. now apply memk_In. }
  assert (R11 : reach cx 0 (RKey 1 11)).
  { apply re_init with 1 10 (mkslot [RKey 1 11] []); [|left; reflexivity | now left | now left].
    apply re_dep with 0 false [RObj 3; RKey 1 10; RKey 2 20]; [constructor | reflexivity | right; now left]. }
  destruct (C61_collects_partial cx 0 (@rev nat) (fun l => Permutation_sym (Permutation_rev l))) with
    (Uo := cxUo) (Uk := cxUk) (fuel := 20) as (s & Hs & F & K).
  - intros b k sl r H B Hsl Hr. apply Rk in H. cbn in H.
    destruct H as [E|[E|[E|[]]]]; injection E as <- <-; cbn in Hsl.
    + destruct Hsl as [<-|[]]. destruct Hr as [<-|[]]. right. eauto.
    + destruct Hsl as [<-|[]]. destruct Hr as [<-|[]]. left. eauto.
    + repeat destruct Hsl as [<-|Hsl]; try contradiction;
        destruct Hr as [<-|[<-|[]]]; left; eauto.
  - intros r H. apply cx_reach in H. destruct r; [now apply memb_In | now apply memk_In].
  - cbn. lia.
  - cbn. lia.
  - exists s. split; [easy|]. split; [|split; [easy|]].
    + intros o. rewrite F. split.
      * intros H. apply cx_reach in H. now apply memb_In.
      * intros H. vm_compute in Hs. injection Hs as <-. apply F. revert H.
        unfold cxUo. cbn. tauto.
    + intros H. apply cx_reach in H. discriminate.
Qed.

(* ---- where the code fails ---- *)
(* An array whose item is the address of another array that is not used
   anywhere else: going through _5acts raises RuntimeError (vbuf.py 175-178).
   0: root trigger, 1: EUDCustomVarBuffer. *)
Definition nest : prog := mkprog
  (fun o => match o with 0 => KPlain false [RKey 1 10] | 1 => KDeque | _ => KPlain false [] end)
  (fun k => match k with 10 => [mkslot [RKey 1 11] []] | _ => [mkslot [] []] end).
Theorem C61_nested_array_refuted : forall ord fuel, 3 <= fuel ->
  collect_objects nest ord fuel 0 = Err.
Proof. intros ord fuel H. destruct fuel as [|[|[|f]]]; try lia. reflexivity. Qed.

(* A dynamic object that is found for the first time while the set of dynamic
   objects is gone through: RuntimeError (payload.py 151-155).
   2: EUDVarBuffer; variable 20 is only used as the value of variable 11. *)
Definition late : prog := mkprog
  (fun o => match o with 0 => KPlain false [RObj 3; RKey 1 10] | 1 => KDeque | 2 => KList
                       | 3 => KPlain false [RKey 1 11] | _ => KPlain false [] end)
  (fun k => match k with 11 => [mkslot [RKey 2 20] []] | _ => [mkslot [] []] end).
Theorem C61_set_changes_refuted : collect_objects late (fun l => l) 20 0 = Err.
Proof. reflexivity. Qed.

(* A slot added to a buffer by another buffer after the first was gone through
   for the last time: what its value refers to is never collected, and writing
   the payload raises KeyError (payload.py 260). Whether this happens depends on
   the order of a set of objects, that is, on their addresses in Python.
   4 is the initial value of variable 21, which is the value of variable 11. *)
Definition missed : prog := mkprog
  (fun o => match o with 0 => KPlain false [RObj 3; RKey 1 10; RKey 2 20] | 1 => KDeque | 2 => KList
                       | 3 => KPlain false [RKey 1 11] | _ => KPlain false [] end)
  (fun k => match k with 11 => [mkslot [RKey 2 21] []] | 21 => [mkslot [RObj 4] []] | _ => [mkslot [] []] end).
Lemma missed_reach : reach missed 0 (RObj 4).
Proof.
  apply re_init with 2 21 (mkslot [RObj 4] []); [|left; reflexivity | now left | now left].
  apply re_init with 1 11 (mkslot [RKey 2 21] []); [|right; reflexivity | now left | now left].
  apply re_dep with 3 false [RKey 1 11]; [|reflexivity | now left].
  apply re_dep with 0 false [RObj 3; RKey 1 10; RKey 2 20]; [constructor | reflexivity | now left].
Qed.
Lemma lacks r : match r with Done s => negb (memb 4 (objs s)) && memk 2 21 (c_keys s) | _ => false end = true ->
  exists s, r = Done s /\ ~ In 4 (map fst (c_found s)) /\ In (2, 21) (c_keys s).
Proof.
  destruct r as [s| |]; try discriminate. intros A. apply andb_true_iff in A as [A1 A2]. exists s.
  split; [easy|]. split; [|now apply memk_In]. intros H. apply memb_In in H. unfold objs in A1.
  now rewrite H in A1.
Qed.
Lemma hasobj r : match r with Done s => memb 4 (objs s) | _ => false end = true ->
  exists s, r = Done s /\ In 4 (map fst (c_found s)).
Proof. destruct r as [s| |]; try discriminate. intros A. exists s. split; [easy | now apply memb_In]. Qed.
Theorem C61_missed_object_refuted :
  reach missed 0 (RObj 4) /\
  (exists s, collect_objects missed (@rev nat) 20 0 = Done s /\ ~ In 4 (map fst (c_found s)) /\
             In (2, 21) (c_keys s)) /\
  (exists s, collect_objects missed (fun l => l) 20 0 = Done s /\ In 4 (map fst (c_found s))).
Proof.
  split; [exact missed_reach|]. split; [apply lacks | apply hasobj]; vm_compute; reflexivity.
Qed.

Print Assumptions C61_each_object_once.
Print Assumptions C61_shuffled.
Print Assumptions C61_nothing_unused.
Print Assumptions C61_plain_objects_complete.
Print Assumptions C61_complete_partial.
Print Assumptions C61_terminates.
Print Assumptions C61_collects_partial.
Print Assumptions C61_first_at_start.
Print Assumptions C61_nested_array_refuted.
Print Assumptions C61_set_changes_refuted.
Print Assumptions C61_missed_object_refuted.
