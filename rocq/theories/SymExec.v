(* Running straight-line trigger code on a finite list of named cells.
   A memory is described by the values of the cells; every rule says how one
   action, one trigger or one variable trigger changes the description and that
   nothing outside the cells changes.  (Proof tool, not part of /repo.) *)
From Coq Require Import ZArith Lia Bool List ZifyBool ZifyNat.
From Verif Require Import Lib Word Machine MachineProofs VarModel VarSpec VarProofs OpsModel OpsSpec OpsBase.
Import ListNotations.
Open Scope Z_scope.

Fixpoint setn (i : nat) (v : Z) (l : list Z) : list Z :=
  match l, i with
  | [], _ => []
  | _ :: r, O => v :: r
  | x :: r, S i => x :: setn i v r
  end.
Lemma setn_length i v l : length (setn i v l) = length l.
Proof. revert i. induction l as [|x r IH]; intros [|i]; cbn; auto. Qed.
Lemma nth_setn_eq i v l d : (i < length l)%nat -> nth i (setn i v l) d = v.
Proof. revert i. induction l as [|x r IH]; intros [|i] H; cbn in *; try lia; auto. apply IH. lia. Qed.
Lemma nth_setn_ne i j v l d : i <> j -> nth j (setn i v l) d = nth j l d.
Proof. revert i j. induction l as [|x r IH]; intros [|i] [|j] H; cbn in *; auto; try congruence. Qed.

Section S.
Variable w : world.
Variable cells : list Z.
Hypothesis Hcells : forall a, In a cells -> writable w a.
Hypothesis Hsep : NoDup (map idx cells).
Notation prot := (W_prot w).
Notation C i := (nth i cells 0).
Notation n := (length cells).

Definition holds (m : mem) (st : list Z) : Prop := map (get m) cells = st.
Definition others (m m' : mem) : Prop := forall b, ~ In (idx b) (map idx cells) -> get m' b = get m b.

Lemma others_refl m : others m m.
Proof. intros b _. reflexivity. Qed.
Lemma others_trans m1 m2 m3 : others m1 m2 -> others m2 m3 -> others m1 m3.
Proof. intros A B b Hb. rewrite (B b Hb). apply A, Hb. Qed.

Lemma holds_len m st : holds m st -> length st = n.
Proof. unfold holds. intros <-. apply map_length. Qed.
Lemma holds_get m st i : holds m st -> (i < n)%nat -> get m (C i) = nth i st 0.
Proof. unfold holds. intros <- H. rewrite (nth_indep (map (get m) cells) 0 (get m 0)) by (rewrite map_length; lia). rewrite map_nth. reflexivity. Qed.
Lemma cell_ne i j : (i < n)%nat -> (j < n)%nat -> i <> j -> idx (C i) <> idx (C j).
Proof.
  intros Hi Hj Hne E. apply Hne. apply (proj1 (NoDup_nth (map idx cells) 0) Hsep i j); rewrite ?map_length; auto.
  assert (Q : forall k, (k < n)%nat -> nth k (map idx cells) 0 = idx (C k)).
  { intros k Hk. rewrite (nth_indep (map idx cells) 0 (idx 0)) by (rewrite map_length; auto). apply map_nth. }
  rewrite !Q by auto. exact E.
Qed.

Lemma holds_upd m st i v a : holds m st -> (i < n)%nat -> idx a = idx (C i) ->
  holds (upd m a v) (setn i (u32 v) st).
Proof.
  intros H Hi Ha. unfold holds. apply (nth_ext _ _ 0 0).
  - rewrite map_length, setn_length. symmetry. eapply holds_len; eauto.
  - intros j Hj. rewrite map_length in Hj. rewrite (nth_indep (map (get (upd m a v)) cells) 0 (get (upd m a v) 0)) by (rewrite map_length; lia). rewrite map_nth.
    destruct (Nat.eq_dec i j) as [<-|Hne].
    + rewrite nth_setn_eq by (rewrite (holds_len _ _ H); lia). rewrite (get_cong _ (C i) a) by auto. apply get_upd_eq.
    + rewrite nth_setn_ne by auto. rewrite get_upd_ne; [apply holds_get; auto|]. rewrite Ha. apply cell_ne; auto.
Qed.
Lemma others_upd m i v a : (i < n)%nat -> idx a = idx (C i) -> others m (upd m a v).
Proof.
  intros Hi Ha b Hb. apply get_upd_ne. rewrite Ha. intros E. apply Hb. rewrite <- E.
  apply in_map. apply nth_In. exact Hi.
Qed.
Lemma st_range m st i : holds m st -> (i < n)%nat -> 0 <= nth i st 0 < 2^32.
Proof. intros H Hi. rewrite <- (holds_get m st i H Hi). apply get_range. Qed.

(* ---- actions ---- *)
Definition Acts (st : list Z) (l : list act) (st' : list Z) : Prop :=
  forall m, holds m st -> exists m', acts_do prot m l m' /\ holds m' st' /\ others m m'.

Lemma Acts_nil st : Acts st [] st.
Proof. intros m H. exists m. split; [apply do_nil|]. split; [exact H|apply others_refl]. Qed.

Lemma Acts_M i md c r st st' : (i < n)%nat ->
  Acts (setn i (do_mod md (nth i st 0) (u32 c)) st) r st' -> Acts st (SetM (C i) md c :: r) st'.
Proof.
  intros Hi H m Hm. pose proof (Hcells _ (nth_In cells 0 Hi)) as [Hp Hpr].
  assert (E : u32 (do_mod md (get m (C i)) (u32 c)) = do_mod md (nth i st 0) (u32 c)).
  { rewrite (holds_get m st i Hm Hi). apply u32_small. apply do_mod_range; [eapply st_range; eauto|apply u32_range]. }
  destruct (H (upd m (C i) (do_mod md (get m (C i)) (u32 c)))) as (m' & A & B & D).
  { rewrite <- E. apply holds_upd; auto. }
  exists m'. split; [apply do_cons_M; auto|]. split; [exact B|].
  eapply others_trans; [apply others_upd with (i := i); auto|exact D].
Qed.
(* SetModifier *)
Lemma Acts_Mod v i md r st st' : (i < n)%nat -> C i = vc v FMod -> (nth i st 0) mod 2^24 = 45 * 2^16 ->
  Acts (setn i (w6 md) st) r st' -> Acts st (SetModifier v md :: r) st'.
Proof.
  intros Hi Ev Hmod H m Hm. pose proof (Hcells _ (nth_In cells 0 Hi)) as [Hp Hpr].
  unfold SetModifier. rewrite <- Ev.
  assert (E : do_modx SetTo (u32 0xFF000000) (get m (C i)) (u32 (enc_mod md * 2^24)) = w6 md).
  { apply setmod_val; [rewrite (holds_get m st i Hm Hi); exact Hmod|apply get_range]. }
  destruct (H (upd m (C i) (w6 md))) as (m' & A & B & D).
  { rewrite <- w6_small at 2. apply holds_upd; auto. }
  exists m'. split; [apply do_cons_MX; auto; rewrite E; exact A|]. split; [exact B|].
  eapply others_trans; [apply others_upd with (i := i); auto|exact D].
Qed.
(* destination and value taken from cells *)
Lemma Acts_D p v t md r st st' : (p < n)%nat -> (v < n)%nat -> (t < n)%nat ->
  nth p st 0 = u32 (C t) ->
  Acts (setn t (do_mod md (nth t st 0) (nth v st 0)) st) r st' ->
  Acts st (SetD (Mem (C p)) md (Mem (C v)) :: r) st'.
Proof.
  intros Hp Hv Ht Ep H m Hm. pose proof (Hcells _ (nth_In cells 0 Ht)) as [Hpl Hpr].
  assert (E : u32 (do_mod md (get m (C t)) (get m (C v))) = do_mod md (nth t st 0) (nth v st 0)).
  { rewrite !(holds_get m st _ Hm) by auto. apply u32_small. apply do_mod_range; eapply st_range; eauto. }
  destruct (H (upd m (C t) (do_mod md (get m (C t)) (get m (C v))))) as (m' & A & B & D).
  { rewrite <- E. apply holds_upd; auto. }
  exists m'. split; [eapply do_cons_D with (a := C t); cbn [rd]; auto; rewrite (holds_get m st p Hm Hp); exact Ep|]. split; [exact B|].
  eapply others_trans; [apply others_upd with (i := t); auto|exact D].
Qed.
(* the current player's cell, value from a cell *)
Lemma Acts_CP c v t md r st st' : (c < n)%nat -> (v < n)%nat -> (t < n)%nat -> C c = CPcell ->
  nth c st 0 = u32 (C t) ->
  Acts (setn t (do_mod md (nth t st 0) (nth v st 0)) st) r st' ->
  Acts st (SetD (Imm 13) md (Mem (C v)) :: r) st'.
Proof.
  intros Hc Hv Ht EC Ep H m Hm. pose proof (Hcells _ (nth_In cells 0 Ht)) as [Hpl Hpr].
  assert (Ecp : get m CPcell = u32 (C t)) by (rewrite <- EC, (holds_get m st c Hm Hc); exact Ep).
  assert (E : u32 (do_mod md (get m (C t)) (get m (C v))) = do_mod md (nth t st 0) (nth v st 0)).
  { rewrite !(holds_get m st _ Hm) by auto. apply u32_small. apply do_mod_range; eapply st_range; eauto. }
  assert (Tg : target m 13 (u32 (w6 md)) = u32 (C t)).
  { rewrite w6_small, target_w6. unfold target, player_base. change (13 =? 13) with true. cbn iota. rewrite Ecp. cbn. lia. }
  assert (Ex : exec_act m (SetD (Imm 13) md (Mem (C v))) = upd m (C t) (do_mod md (get m (C t)) (get m (C v)))).
  { unfold exec_act, SetD; cbn [a_w6 a_w7 a_dest a_val a_mask rd].
    change (act_off (u32 20)) with false. cbn iota. change (u32 13) with 13. rewrite Tg.
    rewrite w6_small, w6_amod. change (eff_mask (u32 0) (u32 20)) with (Z.ones 32).
    rewrite get_u32, upd_u32, apply_mod_full by apply get_range. reflexivity. }
  destruct (H (upd m (C t) (do_mod md (get m (C t)) (get m (C v))))) as (m' & [A1 A2] & B & D).
  { rewrite <- E. apply holds_upd; auto. }
  exists m'. split; [split|split; [exact B|]].
  - cbn [acts_ok]. right. split; [|rewrite Ex; exact A1].
    unfold act_ok, SetD; cbn [a_w6 a_w7 a_dest rd]. rewrite w6_small, w6_type, w6_amod. split; [reflexivity|].
    intros _. split; [apply enc_mod_cases|]. change (u32 13) with 13. split; [reflexivity|].
    rewrite <- (w6_small md), Tg, idx_u32. exact Hpr.
  - cbn [exec_acts]. unfold SetD at 1; cbn [a_w6 rd]. rewrite w6_small, w6_type.
    change (45 =? 0) with false. cbn iota. rewrite Ex. exact A2.
  - eapply others_trans; [apply others_upd with (i := t); auto|exact D].
Qed.

(* constant destination, value from a cell *)
Lemma Acts_V i v a av md r st st' : (i < n)%nat -> (v < n)%nat -> a = C i -> av = C v ->
  Acts (setn i (do_mod md (nth i st 0) (nth v st 0)) st) r st' -> Acts st (SetD (Imm a) md (Mem av) :: r) st'.
Proof.
  intros Hi Hv -> -> H m Hm. pose proof (Hcells _ (nth_In cells 0 Hi)) as [Hpl Hpr].
  assert (E : u32 (do_mod md (get m (C i)) (get m (C v))) = do_mod md (nth i st 0) (nth v st 0)).
  { rewrite !(holds_get m st _ Hm) by auto. apply u32_small. apply do_mod_range; eapply st_range; eauto. }
  destruct (H (upd m (C i) (do_mod md (get m (C i)) (get m (C v))))) as (m' & A & B & D).
  { rewrite <- E. apply holds_upd; auto. }
  exists m'. split; [eapply do_cons_D with (a := C i); cbn [rd]; auto|]. split; [exact B|].
  eapply others_trans; [apply others_upd with (i := i); auto|exact D].
Qed.

(* ---- triggers ---- *)
Definition Runs (pc : Z) (st : list Z) (pc' : Z) (st' : list Z) : Prop :=
  forall m, holds m st -> exists m', runs w (pc, m) (pc', m') /\ holds m' st' /\ others m m'.

Lemma Runs_refl pc st : Runs pc st pc st.
Proof. intros m H. exists m. split; [apply steps_refl|]. split; [exact H|apply others_refl]. Qed.
Lemma Runs_trans pc1 st1 pc2 st2 pc3 st3 : Runs pc1 st1 pc2 st2 -> Runs pc2 st2 pc3 st3 -> Runs pc1 st1 pc3 st3.
Proof.
  intros A B m H. destruct (A m H) as (m1 & R1 & H1 & O1). destruct (B m1 H1) as (m2 & R2 & H2 & O2).
  exists m2. split; [eapply runs_trans; eauto|]. split; [exact H2|eapply others_trans; eauto].
Qed.
Lemma Runs_raw pc acts nx st st' : W_P w pc = Some (RawTrig [] acts nx) -> u32 nx = nx ->
  Acts st acts st' -> Runs pc st nx st'.
Proof.
  intros HP Hn HA m H. destruct (HA m H) as (m' & A & B & D). exists m'. split; [|auto].
  eapply run_true; [exact HP|reflexivity|apply conds_nil|exact A|exact Hn].
Qed.
(* a trigger whose next pointer is a cell *)
Lemma Runs_raw_mem pc acts i st st' : (i < n)%nat -> W_P w pc = Some (mktrig [] acts (Mem (C i)) (Imm 4)) ->
  Acts st acts st' -> Runs pc st (nth i st' 0) st'.
Proof.
  intros Hi HP HA m H. destruct (HA m H) as (m' & A & B & D). exists m'. split; [|auto].
  eapply run_true; [exact HP|reflexivity|apply conds_nil|exact A|]. cbn [rd]. apply holds_get; auto.
Qed.
(* a variable trigger with full mask *)
Lemma Runs_hop v fn fk fd fv fm t md st :
  W_P w (pa v) = Some (vtrig v) ->
  (fn < n)%nat -> (fk < n)%nat -> (fd < n)%nat -> (fv < n)%nat -> (fm < n)%nat -> (t < n)%nat ->
  C fn = vc v FNext -> C fk = vc v FMask -> C fd = vc v FDest -> C fv = vc v FVal -> C fm = vc v FMod ->
  nth fk st 0 = 0xFFFFFFFF -> nth fm st 0 = w6 md -> nth fd st 0 = u32 (C t) -> t <> fn ->
  Runs (pa v) st (nth fn st 0) (setn t (do_mod md (nth t st 0) (nth fv st 0)) st).
Proof.
  intros HP Ln Lk Ld Lv Lm Lt En Ek Ed Ev Em Hk Hm Hd Hne m H.
  pose proof (Hcells _ (nth_In cells 0 Lt)) as [Hpl Hpr].
  pose proof (holds_get m st fn H Ln) as Gn. pose proof (holds_get m st fk H Lk) as Gk. pose proof (holds_get m st fd H Ld) as Gd.
  pose proof (holds_get m st fv H Lv) as Gv. pose proof (holds_get m st fm H Lm) as Gm. pose proof (holds_get m st t H Lt) as Gt.
  rewrite En in Gn. rewrite Ek in Gk. rewrite Ed in Gd. rewrite Ev in Gv. rewrite Em in Gm.
  exists (upd m (C t) (do_mod md (nth t st 0) (nth fv st 0))). split; [|split].
  - eapply run_true; [exact HP|reflexivity|apply conds_nil| |].
    + eapply do_cons_gen with (a := C t) (md := md); cbn [a_w6 a_w7 a_dest a_mask a_val rd]; auto; try congruence.
      change (eff_mask (get m (vc v FMask)) (u32 1129512960)) with (get m (vc v FMask)).
      rewrite Gk, Hk. change 0xFFFFFFFF with (Z.ones 32). rewrite do_modx_full by apply get_range. rewrite Gt, Gv. apply do_nil.
    + cbn [rd]. rewrite get_upd_ne; [exact Gn|]. rewrite <- En. apply cell_ne; auto.
  - rewrite <- (u32_small (do_mod md _ _)) at 2 by (apply do_mod_range; eapply st_range; eauto). apply holds_upd; auto.
  - apply others_upd with (i := t); auto.
Qed.
End S.

(* the same rules with the addresses as premises *)
Section R.
Variable w : world.
Variable cells : list Z.
Hypothesis Hcells : forall a, In a cells -> writable w a.
Hypothesis Hsep : NoDup (map idx cells).
Notation C i := (nth i cells 0).
Notation n := (length cells).
Notation Acts := (Acts w cells).
Notation Runs := (Runs w cells).

Lemma aM i a md c r st st' : (i < n)%nat -> a = C i ->
  Acts (setn i (do_mod md (nth i st 0) (u32 c)) st) r st' -> Acts st (SetM a md c :: r) st'.
Proof. intros Hi -> H. apply Acts_M; auto. Qed.
Lemma aMod i v md r st st' : (i < n)%nat -> vc v FMod = C i -> (nth i st 0) mod 2^24 = 45 * 2^16 ->
  Acts (setn i (w6 md) st) r st' -> Acts st (SetModifier v md :: r) st'.
Proof. intros Hi E Hm H. eapply Acts_Mod; eauto. Qed.
Lemma aD p v t ap av md r st st' : (p < n)%nat -> (v < n)%nat -> (t < n)%nat -> ap = C p -> av = C v ->
  nth p st 0 = u32 (C t) ->
  Acts (setn t (do_mod md (nth t st 0) (nth v st 0)) st) r st' -> Acts st (SetD (Mem ap) md (Mem av) :: r) st'.
Proof. intros H1 H2 H3 -> -> E H. eapply Acts_D; eauto. Qed.
Lemma aCP c v t av md r st st' : (c < n)%nat -> (v < n)%nat -> (t < n)%nat -> CPcell = C c -> av = C v ->
  nth c st 0 = u32 (C t) ->
  Acts (setn t (do_mod md (nth t st 0) (nth v st 0)) st) r st' -> Acts st (SetD (Imm 13) md (Mem av) :: r) st'.
Proof. intros H1 H2 H3 Ec -> E H. eapply Acts_CP with (c := c) (t := t); auto. Qed.
Lemma aV i v a av md r st st' : (i < n)%nat -> (v < n)%nat -> a = C i -> av = C v ->
  Acts (setn i (do_mod md (nth i st 0) (nth v st 0)) st) r st' -> Acts st (SetD (Imm a) md (Mem av) :: r) st'.
Proof. intros H1 H2 E1 E2 H. eapply Acts_V; [exact Hcells|exact Hsep|exact H1|exact H2|exact E1|exact E2|exact H]. Qed.

(* variable number b of the list: its five fields are the cells b .. b + 4 *)
Definition vcells (v : Z) : list Z := [vc v FNext; vc v FMask; vc v FDest; vc v FVal; vc v FMod].
Lemma rHop b v t md nx st :
  W_P w (pa v) = Some (vtrig v) ->
  (b + 4 < n)%nat -> (t < n)%nat ->
  map (fun i => C (b + i)) (seq 0 5) = vcells v ->
  nth (b + 1) st 0 = 0xFFFFFFFF -> nth (b + 4) st 0 = w6 md -> nth (b + 2) st 0 = u32 (C t) -> t <> b ->
  nth b st 0 = nx ->
  Runs (pa v) st nx (setn t (do_mod md (nth t st 0) (nth (b + 3) st 0)) st).
Proof.
  intros HP Hb Ht Hf Hk Hm Hd Hne Hn. cbn [map seq] in Hf. injection Hf as F0 F1 F2 F3 F4. rewrite Nat.add_0_r in F0.
  rewrite <- Hn. eapply (Runs_hop w cells Hcells Hsep v b (b + 1) (b + 2) (b + 3) (b + 4)); eauto; lia.
Qed.
End R.
