(* Final theorems: function pointers (C76). *)
From Coq Require Import ZArith Lia List Bool Permutation.
From Verif Require Import Word Machine MachineProofs VarModel VarSpec VarProofs SeqProofs NonSeqProofs VbufModel VbufWorld ExWorld RunDec
  OpsModel OpsSpec OpsBase OpsProofs OpsXor FuncModel FuncSpec FuncProofs ExTools SeqRefute FptrModel.
Import ListNotations.
Open Scope Z_scope.

(* ================= specification ================= *)
Definition vals (m : mem) (vs : list Z) : list Z := map (fun v => get m (vc v FVal)) vs.
(* A body of f: it computes F from the parameters, may change cells in S (also the common
   storages: it may itself call through pointers), and keeps its private invariant *)
Definition body_computes (w : world) (f : efunc) (fargs : list Z) (Inv : mem -> Prop) (S : Z -> Prop) (F : list Z -> list Z) : Prop :=
  forall m1, Inv m1 -> (forall v, In v fargs -> ordinary m1 v) ->
  exists m2, runs w (lbl (fn_T f) 0, m1) (pa (fend f), m2) /\ Inv m2 /\ (forall b, ~ S b -> get m2 b = get m1 b) /\
    vals m2 (fn_rets f) = F (vals m1 fargs) /\ keeps w m1 m2.
(* f, its indirect caller at U and the storages are in place *)
Record fptr_wf (w : world) (U : nat -> Z) (f : efunc) (fargs astore rstore : list Z) : Prop := mk_fptr_wf {
  pw_idc : placed w U 0 (indirect_caller U f fargs astore rstore);
  pw_end : W_P w (pa (fend f)) = Some (func_end_p f);
  pw_vars : incl (fargs ++ fn_rets f ++ astore ++ rstore) (W_vars w);
  pw_alen : length astore = length fargs;
  pw_rlen : length rstore = length (fn_rets f);
  pw_nd : NoDup fargs /\ NoDup (fn_rets f) /\ NoDup rstore;
  pw_dis : (forall v, In v astore -> ~ In v fargs) /\ (forall v, In v (fn_rets f) -> ~ In v rstore);
  pw_fend : patchable w (fend f + 1);
  pw_uend : patchable w (U (idc_end U f fargs astore rstore) + 1);
  pw_nptr : sepcell w (fn_nptr f);
  pw_ne : idx (fend f + 1) <> idx (U (idc_end U f fargs astore rstore) + 1) }.
(* what calls change besides S *)
Definition idc_cells (U : nat -> Z) (f : efunc) (fargs astore rstore : list Z) (b : Z) : Prop :=
  scratch (astore ++ fn_rets f) b \/ (exists v, In v (fargs ++ rstore) /\ idx b = idx (vc v FVal)) \/
  idx b = idx (fend f + 1) \/ idx b = idx (U (idc_end U f fargs astore rstore) + 1).

(* ================= proofs ================= *)
Section W.
Variable w : world.
Hypothesis Hw : world_ok w.
Notation vars := (W_vars w).
Notation vsepw := (vsep w Hw).

Lemma move1 T k v u m : placed w T k (VProc T k [v] (QueueAssignTo v (vc u FVal))) -> In v vars -> In u vars -> v <> u -> ordinary m v ->
  exists m', runs w (lbl T k, m) (lbl T (k + length (VProc T k [v] (QueueAssignTo v (vc u FVal)))), m') /\
    get m' (vc u FVal) = get m (vc v FVal) /\ (forall b, ~ scratch [v] b -> idx b <> idx (vc u FVal) -> get m' b = get m b) /\ keeps w m m'.
Proof.
  intros Hp Hv Hu N Ho. set (m1 := upd (upd m (vc v FDest) (u32 (vc u FVal))) (vc v FMod) (w6 SetTo)).
  assert (SV : forall f, f = FNext \/ f = FDest \/ f = FMod -> forall b, ~ scratch [v] b -> idx b <> idx (vc v f)).
  { intros f Hf b Hb E. apply Hb. exists v, f. split; [left; reflexivity|]. auto. }
  destruct (vproc1 w Hw T k (QueueAssignTo v (vc u FVal)) v (vc u FVal) SetTo m m1 Hp Hv) as (m' & R & Q).
  - unfold QueueAssignTo, SetDest, SetModifier. repeat (apply nz_cons; [intros; first [apply type_SetM|apply type_SetMX]|]). apply nz_nil.
  - unfold QueueAssignTo, SetDest, SetModifier. apply do_cons_M; [apply (wo_plain w Hw), Hv|apply (wo_prot w Hw), Hv|]. cbn [do_mod].
    apply do_cons_MX; [apply (wo_plain w Hw), Hv|apply (wo_prot w Hw), Hv|].
    rewrite get_upd_ne by (apply vsepw; auto; right; discriminate). rewrite setmod_val; [apply do_nil|apply Ho|apply get_range].
  - apply (valcell_val w Hw). exact Hu.
  - unfold m1. rewrite get_upd_ne by (apply vsepw; auto; right; discriminate). rewrite get_upd_eq. apply u32_idem.
  - unfold m1. rewrite get_upd_eq. destruct Ho. reflexivity.
  - assert (FR : forall b, ~ scratch [v] b -> idx b <> idx (vc u FVal) -> get m' b = get m b).
    { intros b Hb Hb'. rewrite Q by (apply SV; auto). rewrite get_upd_ne by congruence. unfold m1.
      rewrite !get_upd_ne; [reflexivity|apply not_eq_sym, SV; auto|apply not_eq_sym, SV; auto]. }
    exists m'. split; [exact R|]. split; [|split; [exact FR|]].
    + rewrite Q by (apply vsepw; auto; right; discriminate). rewrite get_upd_eq. unfold m1.
      rewrite !(get_upd_ne _ _ (vc v FMask)) by (apply vsepw; auto; right; discriminate). rewrite (proj1 Ho). change 0xFFFFFFFF with (Z.ones 32).
      rewrite do_modx_full by apply get_range. cbn [do_mod]. rewrite !(get_upd_ne _ _ (vc v FVal)) by (apply vsepw; auto; right; discriminate). apply u32_get.
    + intros x Hx [O1 O2]. split.
      * rewrite FR; [exact O1| |apply vsepw; auto; right; discriminate]. intros (y & g & [<-|[]] & Hg & E). revert E. apply vsepw; auto. right. destruct Hg as [->|[->| ->]]; discriminate.
      * destruct (Z.eq_dec x v) as [->|Nx].
        -- rewrite Q by (apply vsepw; auto; right; discriminate). rewrite get_upd_ne by (apply vsepw; auto; right; discriminate). unfold m1. rewrite get_upd_eq. reflexivity.
        -- rewrite FR; [exact O2| |apply vsepw; auto; right; discriminate]. intros (y & g & [<-|[]] & Hg & E). revert E. apply vsepw; auto.
Qed.

Lemma fill_run l : forall T k m, placed w T k (fill T k l) ->
  (forall v u, In (v, u) l -> In v vars /\ In u vars /\ ordinary m v) -> NoDup (map snd l) -> (forall v, In v (map fst l) -> ~ In v (map snd l)) ->
  exists m', runs w (lbl T k, m) (lbl T (k + length (fill T k l)), m') /\
    (forall v u, In (v, u) l -> get m' (vc u FVal) = get m (vc v FVal)) /\
    (forall b, ~ scratch (map fst l) b -> (forall u, In u (map snd l) -> idx b <> idx (vc u FVal)) -> get m' b = get m b) /\ keeps w m m'.
Proof.
  induction l as [|[v u] l IH]; intros T k m Hp HV HN HD.
  - exists m. cbn [fill length]. rewrite Nat.add_0_r. split; [apply steps_refl|]. split; [intros ? ? []|]. split; [reflexivity|apply keeps_refl].
  - cbn [fill] in *. cbv zeta in *. set (c := VProc T k [v] (QueueAssignTo v (vc u FVal))) in *. apply placed_app in Hp. destruct Hp as [P1 P2].
    destruct (HV v u (or_introl eq_refl)) as (V1 & V2 & V3). cbn [map fst snd] in *. inversion HN as [|? ? N1 N2]; subst.
    assert (NVU : v <> u) by (intros ->; apply (HD u (or_introl eq_refl)); left; reflexivity).
    destruct (move1 T k v u m P1 V1 V2 NVU V3) as (m1 & R1 & A1 & F1 & K1). fold c in R1.
    destruct (IH T (k + length c)%nat m1 P2) as (m2 & R2 & A2 & F2 & K2); auto.
    { intros x y H. destruct (HV x y (or_intror H)) as (X1 & X2 & X3). split; [exact X1|]. split; [exact X2|]. apply K1; auto. }
    { intros x H H'. apply (HD x (or_intror H)). right. exact H'. }
    assert (INV : forall x, In x (map fst l) -> In x vars) by (intros x H; apply in_map_iff in H; destruct H as ([a b] & <- & H); apply (HV a b (or_intror H))).
    assert (INU : forall x, In x (map snd l) -> In x vars) by (intros x H; apply in_map_iff in H; destruct H as ([a b] & <- & H); apply (HV a b (or_intror H))).
    exists m2. rewrite app_length, Nat.add_assoc. split; [eapply runs_trans; [exact R1|exact R2]|]. split; [|split].
    + intros x y [E|H].
      * injection E as <- <-. rewrite F2; [exact A1|apply (not_scratch_val w Hw); auto|]. intros z Hz. apply vsepw; auto. left. intros <-. contradiction.
      * rewrite (A2 x y H). destruct (HV x y (or_intror H)) as (X1 & X2 & _). apply F1; [apply (not_scratch_val w Hw); auto; intros z [<-|[]]; auto|].
        apply vsepw; auto. left. intros ->. apply (HD u); [right; apply (in_map fst _ _ H)|left; reflexivity].
    + intros b Hb Hb'. rewrite F2, F1; [reflexivity| | | |].
      * intros (y & g & [<-|[]] & Hg & E). apply Hb. exists v, g. split; [left; reflexivity|auto].
      * apply Hb'. left. reflexivity.
      * intros (y & g & H & Hg & E). apply Hb. exists y, g. split; [right; exact H|auto].
      * intros z Hz. apply Hb'. right. exact Hz.
    + eapply keeps_trans; eauto.
Qed.
Lemma combine_fst {A B} : forall (a : list A) (b : list B), length a = length b -> map fst (combine a b) = a.
Proof. induction a as [|x a IH]; intros [|y b] H; cbn in *; try discriminate; [reflexivity|]. rewrite IH; congruence. Qed.
Lemma combine_snd {A B} : forall (a : list A) (b : list B), length a = length b -> map snd (combine a b) = b.
Proof. induction a as [|x a IH]; intros [|y b] H; cbn in *; try discriminate; [reflexivity|]. rewrite IH; congruence. Qed.
Lemma vals_combine m m' : forall a b, length a = length b -> (forall v u, In (v, u) (combine a b) -> get m' (vc u FVal) = get m (vc v FVal)) -> vals m' b = vals m a.
Proof.
  induction a as [|x a IH]; intros [|y b] H HC; cbn in *; try discriminate; [reflexivity|].
  f_equal; [apply HC; left; reflexivity|]. apply IH; [congruence|]. intros v u Hi. apply HC. right. exact Hi.
Qed.

Section P.
Variable U : nat -> Z.
Variable f : efunc.
Variables fargs astore rstore : list Z.
Hypothesis WF : fptr_wf w U f fargs astore rstore.
Notation uend := (U (idc_end U f fargs astore rstore) + 1).
Notation back := (idc_back U fargs astore).
Notation cells := (idc_cells U f fargs astore rstore).

Lemma incl4 v : In v fargs \/ In v (fn_rets f) \/ In v astore \/ In v rstore -> In v vars.
Proof. intros H. apply (pw_vars _ _ _ _ _ _ WF). rewrite !in_app_iff. tauto. Qed.
Lemma placed4 : placed w U 0 (idc_args U fargs astore) /\
  W_P w (lbl U (length (idc_args U fargs astore))) = Some (RawTrig [] [SetM (fend f + 1) SetTo (lbl U back)] (lbl (fn_T f) 0)) /\
  placed w U back (idc_rets U f fargs astore rstore) /\
  W_P w (lbl U (idc_end U f fargs astore rstore)) = Some (mktrig [] [] (Mem uend) (Imm 4)).
Proof.
  pose proof (pw_idc _ _ _ _ _ _ WF) as H. unfold indirect_caller in H. apply placed_app in H. destruct H as [H1 H]. apply placed_app in H. destruct H as [H2 H]. apply placed_app in H. destruct H as [H3 H4].
  split; [exact H1|]. split; [apply placed_one in H2; rewrite Nat.add_0_l in H2; exact H2|]. cbn [length] in *. split; [exact H3|]. apply placed_one in H4. exact H4.
Qed.
(* from the end of the body *)
Lemma leave m : (forall r, In r (fn_rets f) -> ordinary m r) -> get m (fend f + 1) = lbl U back ->
  exists m', runs w (pa (fend f), m) (get m uend, m') /\ vals m' rstore = vals m (fn_rets f) /\
    (forall b, ~ scratch (fn_rets f) b -> (forall u, In u rstore -> idx b <> idx (vc u FVal)) -> get m' b = get m b) /\ keeps w m m'.
Proof.
  intros HO HB. destruct placed4 as (_ & _ & P3 & P4). destruct (pw_nd _ _ _ _ _ _ WF) as (_ & ND1 & ND2). pose proof (pw_dis _ _ _ _ _ _ WF) as [_ DIS]. pose proof (pw_rlen _ _ _ _ _ _ WF) as RL.
  assert (IR : incl (fn_rets f) vars) by (intros v Hv; apply incl4; auto).
  destruct (ret_links_do w Hw (fn_nptr f) (pw_nptr _ _ _ _ _ _ WF) (fn_rets f) m IR ND1) as (m1 & A1 & _ & F1).
  assert (NX : forall b, ~ scratch (fn_rets f) b -> ~ nexts (fn_rets f) b).
  { intros b Hb (v & Hv & E). apply Hb. exists v, FNext. auto. }
  assert (R1 : runs w (pa (fend f), m) (lbl U back, m1)).
  { eapply run_true; [exact (pw_end _ _ _ _ _ _ WF)|reflexivity|apply conds_nil|exact A1|]. cbn [rd]. rewrite F1, HB; [reflexivity|].
    apply NX. apply (sep_not_scratch w); [exact IR|apply (proj2 (pw_fend _ _ _ _ _ _ WF))]. }
  assert (K1 : keeps w m m1).
  { intros v Hv [O1 O2]. split; rewrite F1; auto; intros (u & Hu & E); revert E; apply vsepw; auto; right; discriminate. }
  destruct (fill_run (combine (fn_rets f) rstore) U back m1 P3) as (m2 & R2 & A2 & F2 & K2).
  { intros v u H. split; [apply IR; apply (in_combine_l _ _ _ _ H)|]. split; [apply incl4; right; right; right; apply (in_combine_r _ _ _ _ H)|]. pose proof (in_combine_l _ _ _ _ H). apply K1; auto. }
  { rewrite combine_snd by congruence. exact ND2. }
  { rewrite combine_fst, combine_snd by congruence. exact DIS. }
  rewrite combine_fst, combine_snd in F2 by congruence.
  assert (FR : forall b, ~ scratch (fn_rets f) b -> (forall u, In u rstore -> idx b <> idx (vc u FVal)) -> get m2 b = get m b).
  { intros b Hb Hb'. rewrite F2 by auto. apply F1. apply NX. exact Hb. }
  exists m2. split; [|split; [|split; [exact FR|eapply keeps_trans; eauto]]].
  - eapply runs_trans; [exact R1|]. eapply runs_trans; [exact R2|]. eapply run_true; [exact P4|reflexivity|apply conds_nil|apply do_nil|]. cbn [rd].
    apply FR; [apply (sep_not_scratch w); [exact IR|apply (proj2 (pw_uend _ _ _ _ _ _ WF))]|]. intros u Hu. apply (proj2 (pw_uend _ _ _ _ _ _ WF)). apply incl4. auto.
  - rewrite (vals_combine m1 m2 (fn_rets f) rstore) by (auto; congruence). unfold vals. apply map_ext_in. intros v Hv. apply F1. intros (u & Hu & E). revert E. apply vsepw; auto. right; discriminate.
Qed.

Variable Inv : mem -> Prop.
Variable S : Z -> Prop.
Variable F : list Z -> list Z.
Hypothesis HB : body_computes w f fargs Inv S F.
Hypothesis SF : ~ S (fend f + 1).
Hypothesis SU : ~ S uend.
Variable own : list Z.
Hypothesis HP : private Inv own.
Hypothesis HO : forall c, In c own -> ~ cells c.

Lemma not_val a vs : incl vs vars -> sepcell w a -> forall u, In u vs -> idx a <> idx (vc u FVal).
Proof. intros HI HS u Hu. apply HS. auto. Qed.

(* from the indirect caller's first trigger *)
Lemma idc_run m : Inv m -> (forall v, In v (fargs ++ fn_rets f ++ astore) -> ordinary m v) ->
  exists m', runs w (lbl U 0, m) (get m uend, m') /\ vals m' rstore = F (vals m astore) /\ Inv m' /\
    (forall b, ~ S b -> ~ cells b -> get m' b = get m b) /\ keeps w m m' /\ get m' (fend f + 1) = lbl U back /\ get m' uend = get m uend.
Proof.
  intros HI HOr. destruct placed4 as (P1 & P2 & P3 & P4). destruct (pw_nd _ _ _ _ _ _ WF) as (ND0 & ND1 & ND2). pose proof (pw_dis _ _ _ _ _ _ WF) as [DIS _]. pose proof (pw_alen _ _ _ _ _ _ WF) as AL.
  assert (IA : incl astore vars) by (intros v Hv; apply incl4; auto). assert (IFA : incl fargs vars) by (intros v Hv; apply incl4; auto). assert (IR : incl (fn_rets f) vars) by (intros v Hv; apply incl4; auto).
  assert (IRS : incl rstore vars) by (intros v Hv; apply incl4; auto).
  pose proof (pw_fend _ _ _ _ _ _ WF) as PF. pose proof (pw_uend _ _ _ _ _ _ WF) as PU.
  destruct (fill_run (combine astore fargs) U 0 m P1) as (m1 & R1 & A1 & F1 & K1).
  { intros v u H. pose proof (in_combine_l _ _ _ _ H). pose proof (in_combine_r _ _ _ _ H). split; [auto|]. split; [auto|]. apply HOr. rewrite !in_app_iff. auto. }
  { rewrite combine_snd by exact AL. exact ND0. }
  { rewrite combine_fst, combine_snd by exact AL. exact DIS. }
  rewrite combine_fst, combine_snd in F1 by exact AL.
  set (m2 := upd m1 (fend f + 1) (lbl U back)).
  assert (R2 : runs w (lbl U 0, m) (lbl (fn_T f) 0, m2)).
  { eapply runs_trans; [exact R1|]. rewrite Nat.add_0_l. eapply run_true; [exact P2|reflexivity|apply conds_nil|apply do_cons_M; [apply (proj1 PF)|apply (proj1 PF)|cbn [do_mod]; unfold m2; rewrite !u32_lbl; apply do_nil]|].
    cbn [rd]. apply u32_lbl. }
  assert (G2 : forall b, ~ scratch astore b -> (forall u, In u fargs -> idx b <> idx (vc u FVal)) -> idx b <> idx (fend f + 1) -> get m2 b = get m b).
  { intros b B1 B2 B3. unfold m2. rewrite get_upd_ne by congruence. apply F1; auto. }
  assert (K2 : keeps w m m2).
  { intros v Hv Hov. pose proof (K1 v Hv Hov) as [O1 O2]. unfold m2. split; rewrite get_upd_ne; auto; apply (proj2 PF); exact Hv. }
  assert (I2 : Inv m2).
  { apply (HP m); [|exact HI]. intros c Hc. pose proof (HO c Hc) as N. apply G2.
    - intros (v & g & Hv & Hg & E). apply N. left. exists v, g. rewrite in_app_iff. auto.
    - intros u Hu E. apply N. right. left. exists u. rewrite in_app_iff. auto.
    - intros E. apply N. right. right. left. exact E. }
  destruct (HB m2 I2) as (m3 & R3 & I3 & S3 & V3 & K3).
  { intros v Hv. apply K2; [auto|]. apply HOr. rewrite !in_app_iff. auto. }
  assert (V2 : vals m2 fargs = vals m astore).
  { rewrite <- (vals_combine m m1 astore fargs AL A1). unfold vals. apply map_ext_in. intros v Hv. unfold m2. apply get_upd_ne. apply (proj2 PF). auto. }
  assert (E3 : get m3 (fend f + 1) = lbl U back).
  { rewrite S3 by exact SF. unfold m2. rewrite get_upd_eq. apply u32_lbl. }
  assert (U3 : get m3 uend = get m uend).
  { rewrite S3 by exact SU. apply G2; [apply (sep_not_scratch w); [exact IA|apply (proj2 PU)]|apply (not_val uend fargs IFA (proj2 PU))|apply not_eq_sym, (pw_ne _ _ _ _ _ _ WF)]. }
  destruct (leave m3) as (m4 & R4 & V4 & F4 & K4); [|exact E3|].
  { intros r Hr. apply K3; [auto|]. apply K2; [auto|]. apply HOr. rewrite !in_app_iff. auto. }
  exists m4. split; [|split; [|split; [|split; [|split; [|split]]]]].
  - rewrite <- U3. eapply runs_trans; [exact R2|]. eapply runs_trans; [exact R3|exact R4].
  - rewrite V4, V3, V2. reflexivity.
  - apply (HP m3); [|exact I3]. intros c Hc. pose proof (HO c Hc) as N. apply F4.
    + intros (v & g & Hv & Hg & E). apply N. left. exists v, g. rewrite in_app_iff. auto.
    + intros u Hu E. apply N. right. left. exists u. rewrite in_app_iff. auto.
  - intros b Hb N. rewrite F4, S3, G2; auto.
    + intros (v & g & Hv & Hg & E). apply N. left. exists v, g. rewrite in_app_iff. auto.
    + intros u Hu E. apply N. right. left. exists u. rewrite in_app_iff. auto.
    + intros E. apply N. right. right. left. exact E.
    + intros (v & g & Hv & Hg & E). apply N. left. exists v, g. rewrite in_app_iff. auto.
    + intros u Hu E. apply N. right. left. exists u. rewrite in_app_iff. auto.
  - eapply keeps_trans; [exact K2|]. eapply keeps_trans; [exact K3|exact K4].
  - rewrite F4; [exact E3|apply (sep_not_scratch w); [exact IR|apply (proj2 PF)]|apply (not_val _ rstore IRS (proj2 PF))].
  - rewrite F4; [exact U3|apply (sep_not_scratch w); [exact IR|apply (proj2 PU)]|apply (not_val _ rstore IRS (proj2 PU))].
Qed.

(* C76 (calls through pointers): trigger t has the pointer's fields in its next pointer and
   in the destination of its action *)
Theorem C76_pointer_call t nx m : W_P w (pa t) = Some (ptr_trig t nx) -> idx (t + 1) <> idx uend ->
  get m (t + 1) = lbl U 0 -> get m (t + 86) = u32 uend ->
  Inv m -> (forall v, In v (fargs ++ fn_rets f ++ astore) -> ordinary m v) ->
  exists m', runs w (pa t, m) (u32 nx, m') /\ vals m' rstore = F (vals m astore) /\ Inv m' /\
    (forall b, ~ S b -> ~ cells b -> get m' b = get m b) /\ keeps w m m' /\
    get m' (fend f + 1) = lbl U back /\ get m' uend = u32 nx.
Proof.
  intros Ht NE T1 T2 HI HOr. pose proof (pw_uend _ _ _ _ _ _ WF) as PU.
  set (m1 := upd m uend (u32 nx)).
  assert (R1 : runs w (pa t, m) (lbl U 0, m1)).
  { eapply run_true; [exact Ht|reflexivity|apply conds_nil|apply (do_cons_D _ _ _ uend); [exact T2|apply (proj1 PU)|apply (proj1 PU)|cbn [do_mod rd]; apply do_nil]|].
    cbn [rd]. unfold m1. rewrite get_upd_ne by congruence. exact T1. }
  assert (I1 : Inv m1).
  { apply (HP m); [|exact HI]. intros c Hc. unfold m1. apply get_upd_ne. intros E. apply (HO c Hc). right. right. right. congruence. }
  assert (K1 : keeps w m m1).
  { intros v Hv [O1 O2]. unfold m1. split; rewrite get_upd_ne; auto; apply (proj2 PU); exact Hv. }
  destruct (idc_run m1 I1) as (m2 & R2 & V2 & I2 & F2 & K2 & E2 & U2).
  { intros v Hv. apply K1; [|auto]. apply incl4. rewrite !in_app_iff in Hv. tauto. }
  assert (UE : get m1 uend = u32 nx) by (unfold m1; rewrite get_upd_eq; apply u32_idem).
  exists m2. rewrite UE in *. split; [eapply runs_trans; [exact R1|exact R2]|]. split; [|split; [exact I2|split; [|split; [eapply keeps_trans; eauto|split; [exact E2|exact U2]]]]].
  - rewrite V2. f_equal. unfold vals. apply map_ext_in. intros v Hv. unfold m1. apply get_upd_ne. apply (proj2 PU). apply incl4. auto.
  - intros b B1 B2. rewrite F2 by auto. unfold m1. apply get_upd_ne. intros E. apply B2. right. right. right. congruence.
Qed.

(* C76 (direct calls after calls through pointers): from f's first trigger execution goes to
   the return point of the last call through the pointer, whatever return point and result
   destinations the direct call has put into f (these cells are not even read) *)
Theorem C76_direct_after_pointer_refuted nx m : get m (fend f + 1) = lbl U back -> get m uend = u32 nx ->
  Inv m -> (forall v, In v (fargs ++ fn_rets f) -> ordinary m v) ->
  exists m', runs w (lbl (fn_T f) 0, m) (u32 nx, m') /\ vals m' rstore = F (vals m fargs) /\
    (forall b, ~ S b -> ~ cells b -> get m' b = get m b).
Proof.
  intros E1 E2 HI HOr.
  destruct (HB m HI) as (m1 & R1 & _ & S1 & V1 & K1); [intros v Hv; apply HOr; rewrite in_app_iff; auto|].
  destruct (leave m1) as (m2 & R2 & V2 & F2 & _).
  { intros r Hr. apply K1; [apply incl4; auto|]. apply HOr. rewrite in_app_iff. auto. }
  { rewrite S1 by exact SF. exact E1. }
  exists m2. rewrite S1, E2 in R2 by exact SU. split; [eapply runs_trans; [exact R1|exact R2]|]. split; [rewrite V2; exact V1|].
  intros b B1 B2. rewrite F2, S1; auto.
  - intros (v & g & Hv & Hg & E). apply B2. left. exists v, g. rewrite in_app_iff. auto.
  - intros u Hu E. apply B2. right. left. exists u. rewrite in_app_iff. auto.
Qed.
End P.
End W.
Print Assumptions C76_pointer_call.
Print Assumptions C76_direct_after_pointer_refuted.

(* ---------- a concrete case: f(x) = x, called through a pointer and then directly ---------- *)
Definition px := vb_var 1000 0.
Definition pr := vb_var 1000 1.
Definition pas := vb_var 1000 2.
Definition prs := vb_var 1000 3.
Definition pT (i : nat) : Z := exT (2 + i).
Definition pU (i : nat) : Z := exT (4 + i).
Definition pf : efunc := mkfunc pT 1 [DVar px] [pr].
Definition pbody : list trig := VProc pT 0 [px] (QueueAssignTo px (vc pr FVal)).
(* trigger 0: the call through the pointer; trigger 1: the direct call, result to dword 300000 *)
Definition pcode : list trig :=
  [ptr_trig (exT 0) (lbl exT 1)] ++ func_call fresh_same user_same (fun l => l) exT 1 pf [SConst 7] [300000]
  ++ pbody ++ [func_end_p pf] ++ indirect_caller pU pf [px] [pas] [prs].
Definition pw : world := exworld 4 pcode.
Definition puend : Z := pU (idc_end pU pf [px] [pas] [prs]) + 1.
Definition pm : mem := upd (upd (exmem 4 [0; 0; 5; 0]) (exT 0 + 1) (lbl pU 0)) (exT 0 + 86) (u32 puend).

(* The call through the pointer returns f's result; the direct call after it comes back to
   the direct call itself, its result never arrives *)
Theorem C76_direct_loops_refuted : exists m1 m2,
  runs pw (lbl exT 0, pm) (lbl exT 1, m1) /\ vals m1 [prs] = [5] /\
  runs pw (lbl exT 1, m1) (lbl exT 1, m2) /\ vals m2 [prs] = [7] /\ get m2 300000 = get pm 300000.
Proof.
  assert (H : match runD (W_P pw) (W_prot pw) 10 (lbl exT 0) pm with
    | Some (p1, m1) => match runD (W_P pw) (W_prot pw) 7 p1 m1 with
        | Some (p2, m2) => (p1 =? lbl exT 1) && (p2 =? lbl exT 1) && (get m1 (vc prs FVal) =? 5) && (get m2 (vc prs FVal) =? 7) && (get m2 300000 =? get pm 300000) = true
        | None => False end
    | None => False end) by (vm_compute; reflexivity).
  destruct (runD _ _ 10 _ _) as [[p1 m1]|] eqn:E1; [|destruct H]. destruct (runD _ _ 7 _ _) as [[p2 m2]|] eqn:E2; [|destruct H].
  rewrite !andb_true_iff, !Z.eqb_eq in H. destruct H as ((((-> & ->) & H3) & H4) & H5).
  exists m1, m2. split; [eapply runD_steps; exact E1|]. split; [cbn [vals map]; congruence|]. split; [eapply runD_steps; exact E2|]. split; [cbn [vals map]; congruence|exact H5].
Qed.
Print Assumptions C76_direct_loops_refuted.

Lemma pw_ok : world_ok pw.
Proof. apply exworld_ok. reflexivity. Qed.
Lemma pin v : In v [px; pr; pas; prs] -> In v (W_vars pw).
Proof. intros H. exact H. Qed.
Lemma pplaced : placed pw exT 0 pcode.
Proof. apply exworld_placed; vm_compute; reflexivity. Qed.
Definition pS (b : Z) : Prop := scratch [px] b \/ idx b = idx (vc pr FVal).
Lemma pbody_ok : body_computes pw pf [px] (fun _ => True) pS (fun l => l).
Proof.
  intros m _ HO. destruct (move1 pw pw_ok pT 0 px pr m) as (m' & R & A & Fr & K).
  - pose proof pplaced as H. unfold pcode in H. apply placed_app in H. destruct H as [_ H]. apply placed_app in H. destruct H as [_ H]. apply placed_app in H. destruct H as [H _]. exact H.
  - apply pin. cbn; auto.
  - apply pin. cbn; auto.
  - vm_compute. discriminate.
  - apply HO. left. reflexivity.
  - exists m'. split; [exact R|]. split; [exact I|]. split; [|split; [|exact K]].
    + intros b Hb. apply Fr; intros H; apply Hb; [left|right]; exact H.
    + cbn [vals map fn_rets pf]. rewrite A. reflexivity.
Qed.
Example ex_pointer : fptr_wf pw pU pf [px] [pas] [prs] /\
  exists m', runs pw (pa (exT 0), pm) (u32 (lbl exT 1), m') /\ vals m' [prs] = [5].
Proof.
  assert (WF : fptr_wf pw pU pf [px] [pas] [prs]).
  { pose proof pplaced as H. unfold pcode in H. apply placed_app in H. destruct H as [_ H]. apply placed_app in H. destruct H as [_ H]. apply placed_app in H. destruct H as [_ H].
    apply placed_app in H. destruct H as [H1 H2].
    constructor.
    - exact H2.
    - apply placed_one in H1. exact H1.
    - intros v Hv. apply pin. exact Hv.
    - reflexivity.
    - reflexivity.
    - repeat split; repeat constructor; auto.
    - split; intros v [<-|[]] [H|[]]; revert H; vm_compute; discriminate.
    - apply exworld_patchable; vm_compute; auto; intuition discriminate.
    - apply exworld_patchable; vm_compute; auto; intuition discriminate.
    - apply exworld_patchable; vm_compute; auto; intuition discriminate.
    - vm_compute. discriminate. }
  split; [exact WF|].
  assert (NS : forall b, existsb (fun c => idx b =? idx c) [vc px FNext; vc px FDest; vc px FMod; vc pr FVal] = false -> ~ pS b).
  { intros b Hb HS. assert (E : existsb (fun c => idx b =? idx c) [vc px FNext; vc px FDest; vc px FMod; vc pr FVal] = true); [|congruence].
    apply existsb_exists. destruct HS as [(v & g & [<-|[]] & Hg & E)|E]; [exists (vc px g)|exists (vc pr FVal)]; rewrite E, Z.eqb_refl; split; auto; [destruct Hg as [->|[->| ->]]|]; cbn [In]; auto. }
  assert (S1 : ~ pS (fend pf + 1)) by (apply NS; vm_compute; reflexivity).
  assert (S2 : ~ pS (pU (idc_end pU pf [px] [pas] [prs]) + 1)) by (apply NS; vm_compute; reflexivity).
  destruct (C76_pointer_call pw pw_ok pU pf [px] [pas] [prs] WF (fun _ => True) pS (fun l => l) pbody_ok S1 S2 nil
    (fun _ _ _ _ => I) (fun c (H : In c nil) => match H with end) (exT 0) (lbl exT 1) pm) as (m' & R & V & _).
  - pose proof pplaced as H. unfold pcode in H. apply placed_app in H. destruct H as [H _]. apply placed_one in H. exact H.
  - vm_compute. discriminate.
  - vm_compute. reflexivity.
  - vm_compute. reflexivity.
  - exact I.
  - intros v Hv. cbn in Hv. repeat (destruct Hv as [<-|Hv]; [split; vm_compute; reflexivity|]). destruct Hv.
  - exists m'. split; [exact R|]. rewrite V. vm_compute. reflexivity.
Qed.
