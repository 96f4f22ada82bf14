(* Property C57: conditions and actions with variable fields. *)
From Coq Require Import ZArith Lia List Bool ZifyBool ZifyNat.
From Verif Require Import Lib Word Machine MachineProofs VarModel VarSpec VarProofs SeqProofs OpsModel OpsSpec OpsBase PatchModel PatchProofs PatchSem PropBw VbufModel VbufWorld ExWorld SeqRefute ExTools ExCalc.
Import ListNotations.
Open Scope Z_scope.

(* ---------- specification ---------- *)
(* Where the fields of a condition (locid, player, amount, unitid, comparison,
   condtype, restype, flags, internal) and of an action (locid1, strid, wavid,
   time, player1, player2, unitid, acttype, amount, flags, padding, internal)
   are: dword, first bit, number of bits. From the tables in the documentation
   of the classes Condition and Action. *)
Definition cond_layout : list (Z * Z * Z) :=
  [(0, 0, 32); (1, 0, 32); (2, 0, 32); (3, 0, 16); (3, 16, 8); (3, 24, 8); (4, 0, 8); (4, 8, 8); (4, 16, 16)].
Definition act_layout : list (Z * Z * Z) :=
  [(0, 0, 32); (1, 0, 32); (2, 0, 32); (3, 0, 32); (4, 0, 32); (5, 0, 32); (6, 0, 16); (6, 16, 8); (6, 24, 8);
   (7, 0, 8); (7, 8, 8); (7, 16, 16)].
(* Fields that may be variables: all but the internal ones at the end. *)
Definition fields_ok (V : list Z) (nfields nvar : nat) (fields : list field) : Prop :=
  length fields = nfields /\
  forall j v, nth_error fields j = Some (Fv v) -> (j < nvar)%nat /\ In v V.

(* The object at EPD e has got the values its variables had in m; its constant
   fields are as they were. *)
Definition filled (layout : list (Z * Z * Z)) (m m' : mem) (e : Z) (fields : list field) : Prop :=
  forall j dw lo len f, nth_error layout j = Some (dw, lo, len) -> nth_error fields j = Some f ->
    fld (get m' (e + dw)) lo len = match f with Fv v => get m (vc v FVal) mod 2^len | Fc _ => fld (get m (e + dw)) lo len end.

Section P.
Variable w : world.
Hypothesis Hw : world_ok w.
Variable same same_u : dst -> dst -> bool.
Hypothesis Hsame : forall a b, same a b = true -> u32 (dst_epd a) = u32 (dst_epd b).
Variable T : nat -> Z.
(* the filter variables, the parameter of the fill functions, and the
   variables used as fields *)
Variables lof lsf param : Z.
Variable bf : Z -> Z.
Variable V : list Z.
Notation FL := [lof; lsf; bf 1; bf 2; bf 3].
Hypothesis Hnd : NoDup (param :: FL).
Hypothesis HF : incl (param :: FL) (W_vars w).
Hypothesis HV : incl V (W_vars w).
Hypothesis HVF : forall v, In v V -> ~ In v (param :: FL).

(* state of the variables: filters have the masks they are created with (filler.py
   17-21) and modifier SetTo, field variables are ordinary *)
Record vars_ready (m : mem) : Prop := mkready {
  r_lo : get m (vc lof FMask) = 0xFFFF;
  r_ls : get m (vc lsf FMask) = 0xFF;
  r_b1 : get m (vc (bf 1) FMask) = 0xFF00;
  r_b2 : get m (vc (bf 2) FMask) = 0xFF0000;
  r_b3 : get m (vc (bf 3) FMask) = 0xFF000000;
  r_mod : forall f, In f FL -> get m (vc f FMod) = w6 SetTo;
  r_ord : forall v, In v V -> ordinary m v }.
Lemma ready_inv m : vars_ready m <-> inv lof lsf bf V m.
Proof using Type.
  clear. split; intros H.
  - destruct H. constructor; auto. intros b Hb. assert (b = 1 \/ b = 2 \/ b = 3) as [->|[->| ->]] by lia; assumption.
  - destruct H as [H1 H2 i_b0 H4 H5]. constructor; auto.
    + apply (i_b0 1). lia.
    + apply (i_b0 2). lia.
    + apply (i_b0 3). lia.
Qed.
(* cells the code may change besides the object: transfer fields of the
   variables, values of filters and parameter *)
Definition aside (a : Z) : Prop := tmp (V ++ FL) (map (fun f => vc f FVal) (param :: FL)) a.
Lemma aside_fcell a : ~ aside a -> ~ scratch (V ++ FL) a /\ ~ fcell lof lsf bf param a.
Proof using Type.
  clear. intros H. split; intros Q; apply H; [left; exact Q|]. right. destruct Q as (f & Hf & E). exists (vc f FVal). split; [|exact E].
  apply in_map_iff. exists f. auto.
Qed.

Notation apply_pt := (apply_patch_table same same_u lof lsf bf param T).

(* ---------- one object ---------- *)
Lemma apply_runs (table : list (list (option Z))) layout nf nv k e fields m :
  oktable 0 table ->
  (forall j dw lo len, nth_error layout j = Some (dw, lo, len) -> 0 <= dw < Z.of_nat (length table) /\ 0 <= lo /\ 0 <= len /\
     (((j < nv)%nat /\ In (j, dw, (lo, len)) (table_slots 0 0 table)) \/
      ((nv <= j)%nat /\ forall j' s, In (j', dw, s) (table_slots 0 0 table) -> disj (lo, len) s))) ->
  (forall j d s, In (j, d, s) (table_slots 0 0 table) -> (j < nf)%nat) ->
  vars_ready m -> fields_ok V nf nv fields ->
  (forall i, 0 <= i < Z.of_nat (length table) -> patchable w (e + i)) ->
  (forall i i', 0 <= i < Z.of_nat (length table) -> 0 <= i' < Z.of_nat (length table) -> i <> i' -> idx (e + i) <> idx (e + i')) ->
  placed w T k (apply_pt k e fields table) ->
  exists m', runs w (lbl T k, m) (lbl T (k + length (apply_pt k e fields table)), m') /\
    filled layout m m' e fields /\
    (forall a, ~ aside a -> (forall i, 0 <= i < Z.of_nat (length table) -> idx a <> idx (e + i)) -> get m' a = get m a) /\
    vars_ready m' /\ keeps w m m'.
Proof using Hw Hsame Hnd HF HV HVF.
  intros Ht Hl Hs I [Hlen Hf] Hp Hd Hpl. apply ready_inv in I.
  destruct (table_exec w Hw lof lsf bf param V HF HV HVF fields e table 0 0 m Ht I) as (A0 & I1 & A1 & A2 & A3).
  { intros i Hi. rewrite Z.add_0_r. apply Hp, Hi. }
  { intros i i' Hi Hi' Hn. rewrite Z.add_0_r. apply Hd; auto. }
  { intros j d' s v Hin Hfj. unfold fieldat in Hfj. assert (L : (j < length fields)%nat) by (rewrite Hlen; eapply Hs; eauto).
    apply (Hf j v). rewrite (nth_error_nth' fields (Fc 0) L). rewrite Hfj. reflexivity. }
  rewrite Z.add_0_r in *.
  destruct (emit_run w Hw same same_u Hsame T lof lsf bf param V Hnd HF HV HVF _ k [] m I A0 (Forall_nil _) Hpl) as (m' & B1 & B2 & B3 & B4).
  cbn [map assign_all fold_left] in B2.
  assert (Eq : forall a, ~ scratch (V ++ FL) a -> get m' a = get (fold_left (exec bf param) (table_ops lof lsf bf e fields 0 table) m) a) by exact B2.
  assert (Hcell : forall i, 0 <= i < Z.of_nat (length table) -> ~ scratch (V ++ FL) (e + i)).
  { intros i Hi (v & f & Hv & _ & E). apply (proj2 (Hp i Hi) v f); [|exact E]. apply in_app_or in Hv. destruct Hv as [Hv|Hv]; [apply HV, Hv|apply HF; right; exact Hv]. }
  exists m'. split; [exact B1|]. split; [|split; [|split; [apply ready_inv; exact B3|exact B4]]].
  - intros j dw lo len f E1 E2. destruct (Hl j dw lo len E1) as (Q1 & Q2 & Q3 & Q4). rewrite Eq by (apply Hcell, Q1).
    destruct Q4 as [[Qj Qin]|[Qj Qd]].
    + pose proof (A1 j dw (lo, len) Qin) as X. cbn [fst snd] in X. rewrite X. unfold newval, fieldat.
      rewrite (nth_error_nth fields j (Fc 0) E2). reflexivity.
    + rewrite (A2 dw lo len) by (auto; lia). destruct f as [z|v]; [reflexivity|]. destruct (Hf j v E2) as [Hj _]. lia.
  - intros a Ha Hn. apply aside_fcell in Ha. destruct Ha as [Ha1 Ha2]. rewrite Eq by exact Ha1. apply A3; auto.
Qed.

Ltac okrow_tac := unfold okrow; repeat (apply Forall_cons; [first [exact I|unfold okslot; lia]|]); apply Forall_nil.
Ltac pdisj_tac := cbn [row_slots pdisj]; repeat (split; [let H := fresh in intros ? ? H; cbn [In] in H;
  repeat (destruct H as [H|H]; [injection H as <- <-; unfold disj, slot; cbn; lia|]); destruct H|]); exact I.
Lemma condpt_ok : oktable 0 condpt.
Proof using Type. clear. cbn [oktable condpt]. repeat (split; [okrow_tac|]; split; [pdisj_tac|]). exact I. Qed.
Lemma actpt_ok : oktable 0 actpt.
Proof using Type. clear. cbn [oktable actpt]. repeat (split; [okrow_tac|]; split; [pdisj_tac|]). exact I. Qed.

(* Property C57, conditions and actions: EPD e is that of the object. *)
Theorem C57_condition : forall k e fields m,
  vars_ready m -> fields_ok V 9 8 fields ->
  (forall i, 0 <= i < 5 -> patchable w (e + i)) ->
  placed w T k (patch_condition same same_u lof lsf bf param T k e fields) ->
  exists m', runs w (lbl T k, m) (lbl T (k + length (patch_condition same same_u lof lsf bf param T k e fields)), m') /\
    filled cond_layout m m' e fields /\
    (forall a, ~ aside a -> (forall i, 0 <= i < 5 -> idx a <> idx (e + i)) -> get m' a = get m a) /\
    vars_ready m' /\ keeps w m m'.
Proof using Hw Hsame Hnd HF HV HVF.
  intros k e fields m I Hf Hp Hpl.
  apply (apply_runs condpt cond_layout 9 8 k e fields m); auto.
  - apply condpt_ok.
  - intros j dw lo len H. do 9 (destruct j as [|j]; [cbn in H; injection H as <- <- <-; (split; [cbn; lia|]); (split; [lia|]); (split; [lia|]);
    first [left; split; [lia|cbn; auto 20]
          |right; split; [lia|]; intros j' s H2; cbn in H2; repeat (destruct H2 as [H2|H2]; [first [discriminate|injection H2 as <- <-; unfold disj; cbn; lia]|]); destruct H2]|]).
    destruct j; discriminate H.
  - intros j d s H. cbn in H. repeat (destruct H as [H|H]; [injection H as <- _ _; lia|]). destruct H.
  - intros i i' Hi Hi' Hn. cbn in Hi, Hi'. unfold idx. intros E. apply Hn.
    assert (Hm : (i - i') mod 2^30 = 0) by (replace (i - i') with ((e + i) - (e + i')) by lia; rewrite Zminus_mod, E, Z.sub_diag; reflexivity).
    apply Z.mod_divide in Hm; [|lia]. destruct Hm as [q Hq]. lia.
Qed.

Theorem C57_action : forall k e fields m,
  vars_ready m -> fields_ok V 12 10 fields ->
  (forall i, 0 <= i < 8 -> patchable w (e + i)) ->
  placed w T k (patch_action same same_u lof lsf bf param T k e fields) ->
  exists m', runs w (lbl T k, m) (lbl T (k + length (patch_action same same_u lof lsf bf param T k e fields)), m') /\
    filled act_layout m m' e fields /\
    (forall a, ~ aside a -> (forall i, 0 <= i < 8 -> idx a <> idx (e + i)) -> get m' a = get m a) /\
    vars_ready m' /\ keeps w m m'.
Proof using Hw Hsame Hnd HF HV HVF.
  intros k e fields m I Hf Hp Hpl.
  apply (apply_runs actpt act_layout 12 10 k e fields m); auto.
  - apply actpt_ok.
  - intros j dw lo len H. do 12 (destruct j as [|j]; [cbn in H; injection H as <- <- <-; (split; [cbn; lia|]); (split; [lia|]); (split; [lia|]);
    first [left; split; [lia|cbn; auto 20]
          |right; split; [lia|]; intros j' s H2; cbn in H2; repeat (destruct H2 as [H2|H2]; [first [discriminate|injection H2 as <- <-; unfold disj; cbn; lia]|]); destruct H2]|]).
    destruct j; discriminate H.
  - intros j d s H. cbn in H. repeat (destruct H as [H|H]; [injection H as <- _ _; lia|]). destruct H.
  - intros i i' Hi Hi' Hn. cbn in Hi, Hi'. unfold idx. intros E. apply Hn.
    assert (Hm : (i - i') mod 2^30 = 0) by (replace (i - i') with ((e + i) - (e + i')) by lia; rewrite Zminus_mod, E, Z.sub_diag; reflexivity).
    apply Z.mod_divide in Hm; [|lia]. destruct Hm as [q Hq]. lia.
Qed.

(* ---------- a whole trigger ---------- *)
Lemma aside_val v : In v V -> ~ aside (vc v FVal).
Proof using Hw HF HV HVF.
  intros Hv [H|(c & Hc & E)].
  - revert H. apply (not_scratch_val w Hw); auto. intros x Hx. apply in_app_or in Hx. destruct Hx as [Hx|Hx]; [apply HV, Hx|apply HF; right; exact Hx].
  - apply in_map_iff in Hc. destruct Hc as (f & <- & Hf). destruct (wo_sep w Hw v f FVal FVal (HV v Hv) (HF f Hf) E) as [-> _]. apply (HVF f Hv Hf).
Qed.
Lemma idx_far e i j : i <> j -> Z.abs (i - j) < 2^30 -> idx (e + i) <> idx (e + j).
Proof using Type.
  clear. intros Hn Hb. unfold idx. intros E. apply Hn.
  assert (Hm : (i - j) mod 2^30 = 0) by (replace (i - j) with ((e + i) - (e + j)) by lia; rewrite Zminus_mod, E, Z.sub_diag; reflexivity).
  apply Z.mod_divide in Hm; [|lia]. destruct Hm as [q Hq]. lia.
Qed.
Lemma aside_patch a : patchable w a -> ~ aside a.
Proof using HF HV.
  intros [_ H] [(v & f & Hv & _ & E)|(c & Hc & E)].
  - apply in_app_or in Hv. apply (H v f); [|exact E]. destruct Hv as [Hv|Hv]; [apply HV, Hv|apply HF; right; exact Hv].
  - apply in_map_iff in Hc. destruct Hc as (f & <- & Hf). apply (H f FVal (HF f Hf) E).
Qed.

Lemma list_runs pt layout nf nv size :
  (forall k e fields m, vars_ready m -> fields_ok V nf nv fields -> (forall i, 0 <= i < size -> patchable w (e + i)) ->
    placed w T k (apply_pt k e fields pt) ->
    exists m', runs w (lbl T k, m) (lbl T (k + length (apply_pt k e fields pt)), m') /\ filled layout m m' e fields /\
    (forall a, ~ aside a -> (forall i, 0 <= i < size -> idx a <> idx (e + i)) -> get m' a = get m a) /\ vars_ready m' /\ keeps w m m') ->
  0 < size -> (forall j dw lo len, nth_error layout j = Some (dw, lo, len) -> 0 <= dw < size) ->
  forall l k e m, vars_ready m -> Forall (fields_ok V nf nv) l -> size * Z.of_nat (length l) < 2^30 ->
    (forall i, 0 <= i < size * Z.of_nat (length l) -> patchable w (e + i)) ->
    placed w T k (patch_list same same_u lof lsf bf param pt size T k e l) ->
    exists m', runs w (lbl T k, m) (lbl T (k + length (patch_list same same_u lof lsf bf param pt size T k e l)), m') /\
      (forall i f, nth_error l i = Some f -> filled layout m m' (e + size * Z.of_nat i) f) /\
      (forall a, ~ aside a -> (forall i, 0 <= i < size * Z.of_nat (length l) -> idx a <> idx (e + i)) -> get m' a = get m a) /\
      vars_ready m' /\ keeps w m m'.
Proof using Hw HF HV HVF.
  intros One Hsz Hlay. induction l as [|f l IH]; intros k e m I Hf Hlen Hp Hpl; cbn [patch_list] in *.
  - exists m. split; [cbn [length]; rewrite Nat.add_0_r; apply steps_refl|]. split; [intros [|i] f; discriminate|]. split; [auto|]. split; [exact I|apply keeps_refl].
  - inversion Hf as [|x xs Hf1 Hf2]. subst. destruct (placed_app _ _ _ _ _ Hpl) as [P1 P2]. cbn [length] in *.
    destruct (One k e f m I Hf1) as (m1 & A & B & C & D & E); [intros i Hi; apply Hp; lia|exact P1|].
    destruct (IH (k + length (apply_pt k e f pt))%nat (e + size) m1 D Hf2) as (m2 & A2 & B2 & C2 & D2 & E2); [lia| |exact P2|].
    { intros i Hi. replace (e + size + i) with (e + (size + i)) by lia. apply Hp. lia. }
    exists m2. split; [|split; [|split; [|split]]].
    + eapply runs_trans; [exact A|]. rewrite app_length, Nat.add_assoc. exact A2.
    + intros i g Hi. destruct i as [|i]; cbn [nth_error] in Hi.
      * injection Hi as <-. replace (e + size * Z.of_nat 0) with e by lia.
        intros j dw lo len fj H1 H2. rewrite C2; [apply (B j dw lo len fj H1 H2)| |].
        -- apply aside_patch, Hp. pose proof (Hlay _ _ _ _ H1). nia.
        -- intros i Hi. replace (e + size + i) with (e + (size + i)) by lia. pose proof (Hlay _ _ _ _ H1). apply idx_far; lia.
      * pose proof (B2 i g Hi) as Q. replace (e + size * Z.of_nat (S i)) with (e + size + size * Z.of_nat i) by lia.
        assert (Li : (i < length l)%nat) by (apply nth_error_Some; congruence).
        intros j dw lo len fj H1 H2. rewrite (Q j dw lo len fj H1 H2). destruct fj as [z|v].
        -- f_equal. pose proof (Hlay _ _ _ _ H1) as Hdw. apply C.
           ++ apply aside_patch. replace (e + size + size * Z.of_nat i + dw) with (e + (size + size * Z.of_nat i + dw)) by lia. apply Hp. nia.
           ++ intros i0 Hi0. replace (e + size + size * Z.of_nat i + dw) with (e + (size + size * Z.of_nat i + dw)) by lia. apply idx_far; nia.
        -- f_equal. destruct Hf1 as [_ _]. rewrite Forall_forall in Hf2. destruct (Hf2 g (nth_error_In _ _ Hi)) as [_ Hg]. destruct (Hg j v H2) as [_ HvV].
           apply C; [apply aside_val, HvV|]. intros i0 Hi0 Ei. apply (proj2 (Hp i0 ltac:(nia)) v FVal (HV v HvV)). auto.
    + intros a Ha Hn. rewrite C2; [apply C; auto|auto|].
      * intros i Hi. apply Hn. nia.
      * intros i Hi. replace (e + size + i) with (e + (size + i)) by lia. apply Hn. nia.
    + exact D2.
    + eapply keeps_trans; [exact E|exact E2].
Qed.

(* Property C57: all conditions and actions of a trigger at EPD t. *)
Theorem C57_trigger : forall k t conds acts m,
  vars_ready m -> Forall (fields_ok V 9 8) conds -> Forall (fields_ok V 12 10) acts ->
  Z.of_nat (length conds) <= 16 -> Z.of_nat (length acts) <= 64 ->
  (forall i, 0 <= i < 602 -> patchable w (t + i)) ->
  placed w T k (patch_trigger same same_u lof lsf bf param T k t conds acts) ->
  exists m', runs w (lbl T k, m) (lbl T (k + length (patch_trigger same same_u lof lsf bf param T k t conds acts)), m') /\
    (forall i c, nth_error conds i = Some c -> filled cond_layout m m' (t + 2 + 5 * Z.of_nat i) c) /\
    (forall i a, nth_error acts i = Some a -> filled act_layout m m' (t + 82 + 8 * Z.of_nat i) a) /\
    (forall a, ~ aside a ->
       (forall i, 0 <= i < 5 * Z.of_nat (length conds) -> idx a <> idx (t + 2 + i)) ->
       (forall i, 0 <= i < 8 * Z.of_nat (length acts) -> idx a <> idx (t + 82 + i)) -> get m' a = get m a) /\
    vars_ready m' /\ keeps w m m'.
Proof using Hw Hsame Hnd HF HV HVF.
  intros k t conds acts m I Hc Ha Lc La Hp Hpl. unfold patch_trigger in *.
  set (c := patch_list same same_u lof lsf bf param condpt 5 T k (t + 2) conds) in *.
  destruct (placed_app _ _ _ _ _ Hpl) as [P1 P2].
  destruct (list_runs condpt cond_layout 9 8 5 C57_condition ltac:(lia)) with (l := conds) (k := k) (e := t + 2) (m := m) as (m1 & A & B & C & D & E); auto.
  { intros j dw lo len H. do 9 (destruct j as [|j]; [cbn in H; injection H as <- <- <-; lia|]). destruct j; discriminate H. }
  { lia. }
  { intros i Hi. replace (t + 2 + i) with (t + (2 + i)) by lia. apply Hp. lia. }
  fold c in A.
  destruct (list_runs actpt act_layout 12 10 8 C57_action ltac:(lia)) with (l := acts) (k := (k + length c)%nat) (e := t + 82) (m := m1) as (m2 & A2 & B2 & C2 & D2 & E2); auto.
  { intros j dw lo len H. do 12 (destruct j as [|j]; [cbn in H; injection H as <- <- <-; lia|]). destruct j; discriminate H. }
  { lia. }
  { intros i Hi. replace (t + 82 + i) with (t + (82 + i)) by lia. apply Hp. lia. }
  exists m2. split; [|split; [|split; [|split; [|split]]]].
  - eapply runs_trans; [exact A|]. rewrite app_length, Nat.add_assoc. exact A2.
  - intros i f Hi j dw lo len fj H1 H2. assert (Li : (i < length conds)%nat) by (apply nth_error_Some; congruence).
    assert (Hdw : 0 <= dw < 5) by (clear - H1; do 9 (destruct j as [|j]; [cbn in H1; injection H1 as <- <- <-; lia|]); destruct j; discriminate H1).
    rewrite C2; [apply (B i f Hi j dw lo len fj H1 H2)| |].
    + apply aside_patch. replace (t + 2 + 5 * Z.of_nat i + dw) with (t + (2 + 5 * Z.of_nat i + dw)) by lia. apply Hp. lia.
    + intros i0 Hi0. replace (t + 2 + 5 * Z.of_nat i + dw) with (t + (2 + 5 * Z.of_nat i + dw)) by lia. replace (t + 82 + i0) with (t + (82 + i0)) by lia. apply idx_far; lia.
  - intros i f Hi j dw lo len fj H1 H2. assert (Li : (i < length acts)%nat) by (apply nth_error_Some; congruence).
    assert (Hdw : 0 <= dw < 8) by (clear - H1; do 12 (destruct j as [|j]; [cbn in H1; injection H1 as <- <- <-; lia|]); destruct j; discriminate H1).
    rewrite (B2 i f Hi j dw lo len fj H1 H2). destruct fj as [z|v].
    + f_equal. apply C.
      * apply aside_patch. replace (t + 82 + 8 * Z.of_nat i + dw) with (t + (82 + 8 * Z.of_nat i + dw)) by lia. apply Hp. lia.
      * intros i0 Hi0. replace (t + 82 + 8 * Z.of_nat i + dw) with (t + (82 + 8 * Z.of_nat i + dw)) by lia. replace (t + 2 + i0) with (t + (2 + i0)) by lia. apply idx_far; lia.
    + f_equal. rewrite Forall_forall in Ha. destruct (Ha f (nth_error_In _ _ Hi)) as [_ Hg]. destruct (Hg j v H2) as [_ HvV].
      apply C; [apply aside_val, HvV|]. intros i0 Hi0 Ei. replace (t + 2 + i0) with (t + (2 + i0)) in Ei by lia. apply (proj2 (Hp (2 + i0) ltac:(lia)) v FVal (HV v HvV)). auto.
  - intros a H1 H2 H3. rewrite C2, C by auto. reflexivity.
  - exact D2.
  - eapply keeps_trans; [exact E|exact E2].
Qed.
End P.

(* ---------- consequence: as if written with constants ---------- *)
(* the value of a field in a state *)
Definition fval (m : mem) (f : field) : Z := match f with Fc z => z | Fv v => get m (vc v FVal) end.
(* the dwords of a condition and of an action with given field values *)
Definition cond_words (x : nat -> Z) : list Z :=
  [x 0%nat mod 2^32; x 1%nat mod 2^32; x 2%nat mod 2^32;
   x 3%nat mod 2^16 + (x 4%nat mod 2^8) * 2^16 + (x 5%nat mod 2^8) * 2^24;
   x 6%nat mod 2^8 + (x 7%nat mod 2^8) * 2^8 + (x 8%nat mod 2^16) * 2^16].
Definition act_words (x : nat -> Z) : list Z :=
  [x 0%nat mod 2^32; x 1%nat mod 2^32; x 2%nat mod 2^32; x 3%nat mod 2^32; x 4%nat mod 2^32; x 5%nat mod 2^32;
   x 6%nat mod 2^16 + (x 7%nat mod 2^8) * 2^16 + (x 8%nat mod 2^8) * 2^24;
   x 9%nat mod 2^8 + (x 10%nat mod 2^8) * 2^8 + (x 11%nat mod 2^16) * 2^16].
(* words before: constants in place, anything in the variable fields *)
Definition consts_in (layout : list (Z * Z * Z)) (m : mem) (e : Z) (fields : list field) : Prop :=
  forall j dw lo len z, nth_error layout j = Some (dw, lo, len) -> nth_error fields j = Some (Fc z) ->
    fld (get m (e + dw)) lo len = z mod 2^len.

Lemma some_inj (x y : Z) : Some x = Some y -> x = y.
Proof. congruence. Qed.
Lemma fld32 x : 0 <= x < 2^32 -> fld x 0 32 = x.
Proof. intros H. unfold fld. rewrite Z.pow_0_r, Z.div_1_r. apply Z.mod_small. exact H. Qed.
Lemma fld_16_8_8 x : 0 <= x < 2^32 -> x = fld x 0 16 + fld x 16 8 * 2^16 + fld x 24 8 * 2^24.
Proof. intros H. unfold fld. rewrite Z.pow_0_r, Z.div_1_r. change (2^16) with 65536. change (2^24) with 16777216. change (2^8) with 256. change (2^32) with 4294967296 in H.
  pose proof (Z.div_mod x 65536). pose proof (Z.div_mod (x / 65536) 256). rewrite Z.div_div in * by lia. change (65536 * 256) with 16777216 in *.
  rewrite (Z.mod_small (x / 16777216)); [lia|]. split; [apply Z.div_pos; lia|apply Z.div_lt_upper_bound; lia]. Qed.
Lemma fld_8_8_16 x : 0 <= x < 2^32 -> x = fld x 0 8 + fld x 8 8 * 2^8 + fld x 16 16 * 2^16.
Proof. intros H. unfold fld. rewrite Z.pow_0_r, Z.div_1_r. change (2^16) with 65536. change (2^8) with 256. change (2^32) with 4294967296 in H.
  pose proof (Z.div_mod x 256). pose proof (Z.div_mod (x / 256) 256). rewrite Z.div_div in * by lia. change (256 * 256) with 65536 in *.
  rewrite (Z.mod_small (x / 65536)); [lia|]. split; [apply Z.div_pos; lia|apply Z.div_lt_upper_bound; lia]. Qed.

Lemma filled_fval layout m m' e fields : filled layout m m' e fields -> consts_in layout m e fields ->
  forall j dw lo len, nth_error layout j = Some (dw, lo, len) -> (j < length fields)%nat ->
  fld (get m' (e + dw)) lo len = fval m (nth j fields (Fc 0)) mod 2^len.
Proof.
  intros H Hc j dw lo len H1 H2. pose proof (nth_error_nth' fields (Fc 0) H2) as H3. rewrite (H j dw lo len _ H1 H3).
  destruct (nth j fields (Fc 0)) as [z|v]; cbn [fval]; [|reflexivity]. apply (Hc j dw lo len z H1 H3).
Qed.

(* After patching, the game reads the dwords of the condition (action) written
   with the values the variables have. *)
Theorem C57_condition_words : forall m m' e fields, length fields = 9%nat ->
  filled cond_layout m m' e fields -> consts_in cond_layout m e fields ->
  forall i x, nth_error (cond_words (fun j => fval m (nth j fields (Fc 0)))) i = Some x -> get m' (e + Z.of_nat i) = x.
Proof.
  intros m m' e fields Hl Hf Hc i x Hi. pose proof (filled_fval _ _ _ _ _ Hf Hc) as G. rewrite Hl in G.
  pose proof (get_range m' (e + Z.of_nat i)) as R.
  destruct i as [|[|[|[|[|i]]]]]; unfold cond_words in Hi; cbn [nth_error] in Hi; [symmetry in Hi; apply some_inj in Hi; rewrite Hi; clear Hi..|destruct i; discriminate Hi].
  - rewrite <- (G 0%nat 0 0 32 eq_refl) by lia. symmetry. apply fld32. exact R.
  - rewrite <- (G 1%nat 1 0 32 eq_refl) by lia. symmetry. apply fld32. exact R.
  - rewrite <- (G 2%nat 2 0 32 eq_refl) by lia. symmetry. apply fld32. exact R.
  - rewrite <- (G 3%nat 3 0 16 eq_refl), <- (G 4%nat 3 16 8 eq_refl), <- (G 5%nat 3 24 8 eq_refl) by lia. apply fld_16_8_8. exact R.
  - rewrite <- (G 6%nat 4 0 8 eq_refl), <- (G 7%nat 4 8 8 eq_refl), <- (G 8%nat 4 16 16 eq_refl) by lia. apply fld_8_8_16. exact R.
Qed.
Theorem C57_action_words : forall m m' e fields, length fields = 12%nat ->
  filled act_layout m m' e fields -> consts_in act_layout m e fields ->
  forall i x, nth_error (act_words (fun j => fval m (nth j fields (Fc 0)))) i = Some x -> get m' (e + Z.of_nat i) = x.
Proof.
  intros m m' e fields Hl Hf Hc i x Hi. pose proof (filled_fval _ _ _ _ _ Hf Hc) as G. rewrite Hl in G.
  pose proof (get_range m' (e + Z.of_nat i)) as R.
  destruct i as [|[|[|[|[|[|[|[|i]]]]]]]]; unfold act_words in Hi; cbn [nth_error] in Hi; [symmetry in Hi; apply some_inj in Hi; rewrite Hi; clear Hi..|destruct i; discriminate Hi].
  - rewrite <- (G 0%nat 0 0 32 eq_refl) by lia. symmetry. apply fld32. exact R.
  - rewrite <- (G 1%nat 1 0 32 eq_refl) by lia. symmetry. apply fld32. exact R.
  - rewrite <- (G 2%nat 2 0 32 eq_refl) by lia. symmetry. apply fld32. exact R.
  - rewrite <- (G 3%nat 3 0 32 eq_refl) by lia. symmetry. apply fld32. exact R.
  - rewrite <- (G 4%nat 4 0 32 eq_refl) by lia. symmetry. apply fld32. exact R.
  - rewrite <- (G 5%nat 5 0 32 eq_refl) by lia. symmetry. apply fld32. exact R.
  - rewrite <- (G 6%nat 6 0 16 eq_refl), <- (G 7%nat 6 16 8 eq_refl), <- (G 8%nat 6 24 8 eq_refl) by lia. apply fld_16_8_8. exact R.
  - rewrite <- (G 9%nat 7 0 8 eq_refl), <- (G 10%nat 7 8 8 eq_refl), <- (G 11%nat 7 16 16 eq_refl) by lia. apply fld_8_8_16. exact R.
Qed.

(* ---------- a concrete case ---------- *)
(* Deaths(v0, v1, 5, v2) and SetDeaths(v0, v1, 3, v2), every kind of field *)
Definition px (i : nat) : Z := vb_var 1000 i.
Definition px_bf (b : Z) : Z := px (Z.to_nat b + 2).
Definition px_V : list Z := [px 6; px 7; px 8].
Definition px_cond : list field := [Fc 0; Fv (px 6); Fc 5; Fv (px 7); Fv (px 8); Fc 15; Fv (px 8); Fv (px 7); Fc 0].
Definition px_act : list field := [Fc 0; Fc 0; Fc 0; Fc 0; Fv (px 6); Fc 3; Fv (px 7); Fc 45; Fv (px 8); Fv (px 8); Fc 0; Fc 0].
Definition px_code := patch_trigger fresh_same user_same (px 0) (px 1) px_bf (px 2) exT 0 200000 [px_cond] [px_act].
Definition px_mem : mem :=
  upd (upd (upd (upd (upd (upd (upd (upd (upd (exmem 9 [0; 0; 0; 0; 0; 0; 1234567; 0x2FF; 0x17])
    (vc (px 0) FMask) 0xFFFF) (vc (px 1) FMask) 0xFF) (vc (px 3) FMask) 0xFF00) (vc (px 4) FMask) 0xFF0000)
    (vc (px 5) FMask) 0xFF000000) 200004 5) 200005 (15 * 2^24)) 200087 3) 200088 (45 * 2^16).
Example C57_example : exists m', runs (exworld 9 px_code) (lbl exT 0, px_mem) (lbl exT (length px_code), m') /\ get m' 200003 = 1234567 /\ get m' 200004 = 5 /\ get m' 200005 = 0x0F1702FF /\ get m' 200006 = 0xFF17 /\ get m' 200086 = 1234567 /\ get m' 200087 = 3 /\ get m' 200088 = 0x172D02FF /\ get m' 200089 = 0x17.
Proof.
  assert (FO : fields_ok px_V 9 8 px_cond).
  { split; [reflexivity|]. intros j v H. do 9 (destruct j as [|j]; [cbn in H; first [discriminate H|injection H as <-; split; [lia|cbn; auto]]|]). destruct j; discriminate H. }
  assert (FA : fields_ok px_V 12 10 px_act).
  { split; [reflexivity|]. intros j v H. do 12 (destruct j as [|j]; [cbn in H; first [discriminate H|injection H as <-; split; [lia|cbn; auto]]|]). destruct j; discriminate H. }
  destruct (C57_trigger (exworld 9 px_code) (exworld_ok 9 _ ltac:(reflexivity)) fresh_same user_same fresh_same_ok exT (px 0) (px 1) (px 2) px_bf px_V)
    with (k := 0%nat) (t := 200000) (conds := [px_cond]) (acts := [px_act]) (m := px_mem) as (m' & R & C & A & _).
  - apply nodupb_ok. vm_compute. reflexivity.
  - intros x Hx. apply inb_in. cbn [In] in Hx. repeat (destruct Hx as [<-|Hx]; [vm_compute; reflexivity|]). destruct Hx.
  - intros x Hx. apply inb_in. cbn [In px_V] in Hx. repeat (destruct Hx as [<-|Hx]; [vm_compute; reflexivity|]). destruct Hx.
  - intros x Hx. apply inb_not. cbn [In px_V] in Hx. repeat (destruct Hx as [<-|Hx]; [vm_compute; reflexivity|]). destruct Hx.
  - constructor; [vm_compute; reflexivity|vm_compute; reflexivity|vm_compute; reflexivity|vm_compute; reflexivity|vm_compute; reflexivity| |].
    + intros f Hf. cbn [In] in Hf. repeat (destruct Hf as [<-|Hf]; [vm_compute; reflexivity|]). destruct Hf.
    + intros f Hf. cbn [In px_V] in Hf. repeat (destruct Hf as [<-|Hf]; [split; vm_compute; reflexivity|]). destruct Hf.
  - apply Forall_cons; [exact FO|apply Forall_nil].
  - apply Forall_cons; [exact FA|apply Forall_nil].
  - cbn; lia.
  - cbn; lia.
  - intros i Hi. apply exworld_patchable; [reflexivity|lia].
  - apply exworld_placed; vm_compute; reflexivity.
  - exists m'. split; [exact R|].
    pose proof (C57_condition_words px_mem m' 200002 px_cond eq_refl (C 0%nat px_cond eq_refl)) as QC.
    pose proof (C57_action_words px_mem m' 200082 px_act eq_refl (A 0%nat px_act eq_refl)) as QA.
    assert (CC : consts_in cond_layout px_mem 200002 px_cond).
    { intros j dw lo len z H1 H2. do 9 (destruct j as [|j]; [cbn in H1, H2; first [discriminate H2|injection H1 as <- <- <-; injection H2 as <-; vm_compute; reflexivity]|]). destruct j; discriminate H1. }
    assert (CA : consts_in act_layout px_mem 200082 px_act).
    { intros j dw lo len z H1 H2. do 12 (destruct j as [|j]; [cbn in H1, H2; first [discriminate H2|injection H1 as <- <- <-; injection H2 as <-; vm_compute; reflexivity]|]). destruct j; discriminate H1. }
    specialize (QC CC). specialize (QA CA).
    split; [etransitivity; [exact (QC 1%nat _ eq_refl)|vm_compute; reflexivity]|]. split; [etransitivity; [exact (QC 2%nat _ eq_refl)|vm_compute; reflexivity]|].
    split; [etransitivity; [exact (QC 3%nat _ eq_refl)|vm_compute; reflexivity]|]. split; [etransitivity; [exact (QC 4%nat _ eq_refl)|vm_compute; reflexivity]|].
    split; [etransitivity; [exact (QA 4%nat _ eq_refl)|vm_compute; reflexivity]|]. split; [etransitivity; [exact (QA 5%nat _ eq_refl)|vm_compute; reflexivity]|].
    split; [etransitivity; [exact (QA 6%nat _ eq_refl)|vm_compute; reflexivity]|]. etransitivity; [exact (QA 7%nat _ eq_refl)|vm_compute; reflexivity].
Qed.

Print Assumptions C57_condition.
Print Assumptions C57_action.
Print Assumptions C57_trigger.
Print Assumptions C57_condition_words.
Print Assumptions C57_action_words.
