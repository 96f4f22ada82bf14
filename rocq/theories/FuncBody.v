(* Tools to prove that the body of a function computes something. *)
From Coq Require Import ZArith Lia Bool List Permutation ZifyBool ZifyNat.
From Verif Require Import Lib Word Machine MachineProofs VarModel VarSpec VarProofs SeqProofs NonSeqProofs
  OpsModel OpsSpec OpsBase OpsProofs FuncModel FuncSpec FuncProofs.
Import ListNotations.
Open Scope Z_scope.

(* what a body must leave alone *)
Definition guard (f : efunc) : list Z := fn_nptr f :: flat_map (fun r => [vc r FDest; vc r FMask; vc r FMod]) (fn_rets f).
Lemma computes_intro w f (Inv : mem -> Prop) (S : Z -> Prop) (F : list Z -> list Z) :
  (forall c, In c (guard f) -> ~ S c) ->
  (forall m, Inv m -> (forall v, In (DVar v) (fn_args f) -> ordinary m v) -> rets_ready f m ->
     exists m', runs w (lbl (fn_T f) 0, m) (lbl (fn_T f) (fn_len f), m') /\ Inv m' /\
       (forall b, ~ S b -> get m' b = get m b) /\
       map (fun r => get m' (vc r FVal)) (fn_rets f) = F (map (fun d => get m (dst_epd d)) (fn_args f)) /\ keeps w m m') ->
  computes w f Inv S F.
Proof.
  intros Hg H m [HI Ho] Hr. destruct (H m HI Ho Hr) as (m' & A & B & C & D & E).
  assert (Hgr : forall r x, In r (fn_rets f) -> In x [vc r FDest; vc r FMask; vc r FMod] -> get m' x = get m x).
  { intros r x Hin Hx. apply C, Hg. right. apply in_flat_map. eauto. }
  exists m'. split; [exact A|]. split; [auto|]. split; [|split; [exact E|split]].
  - intros r Hin. rewrite !(Hgr r) by (cbn; auto). apply Hr. exact Hin.
  - apply C, Hg. left. reflexivity.
  - intros r Hin. apply (Hgr r); cbn; auto.
Qed.

Lemma changes_weaken (S S' : Z -> Prop) m m' l : (forall b, S b -> S' b) -> changes S m m' l -> changes S' m m' l.
Proof. intros H [A B]. split; [exact A|]. intros b Hb Hl. apply B; auto. Qed.
Lemma changes_frame S m m' l b : changes S m m' l -> ~ S b -> (forall a, In a (map fst l) -> idx a <> idx b) -> get m' b = get m b.
Proof. intros [_ B] Hb Hl. apply B; auto. intros a x H. apply Hl. apply (in_map fst) in H. exact H. Qed.

Section W.
Variable w : world.
Hypothesis Hw : world_ok w.
Notation vars := (W_vars w).
Notation val v := (vc v FVal).
Variable same same_u : dst -> dst -> bool.
Hypothesis Hsame : forall a b, same a b = true -> u32 (dst_epd a) = u32 (dst_epd b).
Variable perm : list pair -> list pair.
Hypothesis Hperm : forall l, Permutation (perm l) l.

(* a list of independent plain assignments to value cells *)
Lemma sets_run T k args (l : list rpair) m :
  (forall d md s, In (d, md, s) l -> md = SetTo /\ truthy d = true /\ valcell w (dst_epd d) /\ ord_src w m s) ->
  ForallOrdPairs indep l ->
  let code := SeqCompute same same_u T k (call_order perm args (map with_mod l)) in
  placed w T k code ->
  does w T k code (tmp (flat_map (fun p => svar (snd p)) l) []) m (map (fun p => (rpair_dst p, sval m (snd p))) l).
Proof.
  intros H Hind code Hp.
  assert (Hsrc : srcs_of (map with_mod l) = flat_map (fun p => svar (snd p)) l).
  { unfold srcs_of. rewrite flat_map_concat_map, map_map, <- flat_map_concat_map. apply flat_map_ext. intros [[d md] [c|v]]; reflexivity. }
  assert (Hsv : forall v, In v (flat_map (fun p => svar (snd p)) l) -> In v vars /\ ordinary m v).
  { intros v Hv. apply in_flat_map in Hv. destruct Hv as ([[d md] s] & Hin & Hv). destruct (H _ _ _ Hin) as (_ & _ & _ & Ho).
    destruct s; cbn in Hv; [contradiction|]. destruct Hv as [<-|[]]. exact Ho. }
  assert (Hnsc : forall p, In p l -> ~ scratch (flat_map (fun p => svar (snd p)) l) (rpair_dst p)).
  { intros [[d md] s] Hin (v & f & H1 & H2 & H3). destruct (H _ _ _ Hin) as (_ & _ & [_ Q] & _).
    apply (Q v f) in H3; auto; [apply Hsv; auto|]. destruct H2 as [->|[->| ->]]; discriminate. }
  destruct (ordered_run w Hw same same_u Hsame perm Hperm T k args l m) as (m' & A & B & C); auto.
  { rewrite Hsrc. intros v Hv. apply Hsv. exact Hv. }
  { rewrite Hsrc. intros d md s Hin. apply in_map_iff in Hin. destruct Hin as ([[d' md'] s'] & E & Hin). cbn in E. injection E as <- <- <-.
    destruct (H _ _ _ Hin) as (-> & Q1 & [Q2 _] & Q3). split; [exact Q2|]. split; [apply (Hnsc _ Hin)|].
    destruct s' as [c|v]; auto. split; auto. apply in_flat_map. exists (d', SetTo, SVar v). cbn; auto. }
  { rewrite Hsrc. intros v Hv. apply Hsv. exact Hv. }
  rewrite Hsrc in *.
  exists m'. split; [exact A|]. split; [split|].
  - intros a x Hin. apply in_map_iff in Hin. destruct Hin as (p & E & Hin). injection E as <- <-.
    rewrite B by auto. apply (assign_all_set l); [| |exact Hin].
    + apply Forall_forall. intros [[d md] s] Hq. destruct (H _ _ _ Hq) as (-> & _ & _ & Q). split; auto. cbn. destruct s; auto. apply Q.
    + apply ford_before. exact Hind.
  - intros b Hb Hl. rewrite B; [|intros Q; apply Hb; left; exact Q].
    apply assign_all_ne. intros p Hin. apply (Hl _ (sval m (snd p))). apply in_map_iff. exists p. auto.
  - intros v Hv [O1 O2].
    assert (Hn : forall f, f = FMask \/ f = FMod -> get (assign_all m l) (vc v f) = get m (vc v f)).
    { intros f Hf. apply assign_all_ne. intros [[d md] s] Hin. destruct (H _ _ _ Hin) as (_ & _ & [_ Q] & _).
      apply (Q v f); auto. destruct Hf; subst; discriminate. }
    assert (Hmask : ~ scratch (flat_map (fun p => svar (snd p)) l) (vc v FMask)).
    { intros (u & f & H1 & H2 & H3). destruct (wo_sep w Hw v u FMask f Hv (proj1 (Hsv u H1)) H3) as [_ <-]. destruct H2 as [E|[E|E]]; discriminate. }
    split; [rewrite B, Hn; auto|].
    destruct (in_dec Z.eq_dec v (flat_map (fun p => svar (snd p)) l)) as [Hi|Hni]; [apply C; exact Hi|].
    rewrite B, Hn; auto. intros (u & f & H1 & H2 & H3).
    destruct (wo_sep w Hw v u FMod f Hv (proj1 (Hsv u H1)) H3) as [<- _]. contradiction.
Qed.

(* the assignment of returned values *)
Lemma ret_run T k f vals m :
  incl (fn_rets f) vars -> NoDup (fn_rets f) -> length vals = length (fn_rets f) ->
  (forall s, In s vals -> ord_src w m s) -> (forall v, In v (vargs vals) -> ~ In v (fn_rets f)) ->
  let code := func_return same same_u perm T k f vals in
  placed w T k code ->
  does w T k code (tmp (vargs vals) []) m (combine (map (fun r => val r) (fn_rets f)) (map (sval m) vals)).
Proof.
  intros Hi Hnd Hl Ho Hne code Hp. unfold code, func_return in *. clear code.
  set (l0 := arg_rps (map DVar (fn_rets f)) vals).
  set (l := filter (fun p => negb (isv p)) l0 ++ filter isv l0).
  assert (E : ret_pairs f vals = map with_mod l).
  { unfold ret_pairs, l. rewrite arg_pairs_mod, map_app, !filter_map. fold l0. f_equal; f_equal; apply filter_ext; intros [[d md] s]; reflexivity. }
  rewrite E in *.
  assert (P : Permutation l l0) by apply filter_split.
  assert (Hin0 : forall p, In p l0 -> exists r s, p = (DVar r, SetTo, s) /\ In (r, s) (combine (fn_rets f) vals)).
  { intros p Hq. apply in_map_iff in Hq. destruct Hq as ([d s] & <- & Hq). cbn [fst snd].
    clear - Hq. revert vals Hq. induction (fn_rets f) as [|r rs IH]; intros [|s' vals] Hq; try (destruct Hq; fail). cbn in *.
    destruct Hq as [Q|Hq]; [injection Q as <- <-; eauto|]. destruct (IH vals Hq) as (r' & s'' & A & B). eauto. }
  assert (Hin : forall p, In p l -> exists r s, p = (DVar r, SetTo, s) /\ In (r, s) (combine (fn_rets f) vals)).
  { intros p Hq. apply Hin0. apply (Permutation_in _ P). exact Hq. }
  assert (Hval : forall r, In r (fn_rets f) -> valcell w (val r)) by (intros; apply (valcell_val w Hw); auto).
  destruct (sets_run T k vals l m) as (m' & A & B & C); auto.
  { intros d md s Hq. destruct (Hin _ Hq) as (r & s' & Q & Hc). injection Q as -> -> ->.
    split; [reflexivity|]. split; [reflexivity|]. split; [apply Hval, (in_combine_l _ _ _ _ Hc)|apply Ho, (in_combine_r _ _ _ _ Hc)]. }
  { apply (indep_perm _ _ (Permutation_sym P)). apply ford_indep.
    - unfold l0, arg_rps. rewrite map_map.
      replace (map _ (combine (map DVar (fn_rets f)) vals)) with (map (fun r => idx (val r)) (fn_rets f)).
      2:{ clear - Hl. revert vals Hl. induction (fn_rets f) as [|r rs IH]; intros [|s vals] Hl; try discriminate; auto. cbn. f_equal. apply IH. cbn in Hl. congruence. }
      clear - Hnd Hi Hw. induction Hnd as [|r rs H1 H2 IH]; [constructor|]. cbn [map]. constructor.
      + intros Hx. apply in_map_iff in Hx. destruct Hx as (r' & Q & Hx). apply H1.
        destruct (wo_sep w Hw r' r FVal FVal (Hi _ (or_intror Hx)) (Hi _ (or_introl eq_refl)) Q) as [<- _]. exact Hx.
      + apply IH. intros x Hx. apply Hi. right. exact Hx.
    - intros p q a Hp1 Hq1 Ha. destruct (Hin0 _ Hp1) as (r & s & -> & Hc). destruct (Hin0 _ Hq1) as (r' & s' & -> & Hc').
      unfold rpair_reads in Ha. cbn [snd] in Ha. destruct s' as [c|v]; [destruct Ha|].
      pose proof (in_combine_l _ _ _ _ Hc) as Hr. pose proof (in_combine_r _ _ _ _ Hc') as Hs.
      pose proof (Ho _ Hs) as [Hv _]. unfold rpair_dst. cbn [fst dst_epd].
      destruct Ha as [<-|[<-|[]]]; intros Q; destruct (wo_sep w Hw r v FVal _ (Hi r Hr) Hv Q) as [-> Q2]; [discriminate|].
      apply (Hne v); auto. apply in_flat_map. exists (SVar v). cbn; auto. }
  exists m'. split; [exact A|]. split; [|exact C].
  assert (Hc2 : forall a x, In (a, x) (combine (map (fun r => val r) (fn_rets f)) (map (sval m) vals)) ->
    exists p, In p l /\ a = rpair_dst p /\ x = sval m (snd p)).
  { intros a x Hx.
    assert (Hy : exists r s, In (r, s) (combine (fn_rets f) vals) /\ a = val r /\ x = sval m s).
    { clear - Hx. revert vals Hx. induction (fn_rets f) as [|r rs IH]; intros [|s vals] Hx; try (destruct Hx; fail). cbn in Hx.
      destruct Hx as [Q|Hx]; [injection Q as <- <-; exists r, s; cbn; auto|]. destruct (IH vals Hx) as (r' & s' & U & V). exists r', s'. cbn; auto. }
    destruct Hy as (r & s & Hy & -> & ->). exists (DVar r, SetTo, s). split; [|auto].
    apply (Permutation_in _ (Permutation_sym P)). unfold l0, arg_rps. apply in_map_iff. exists (DVar r, s). split; [reflexivity|].
    clear - Hy. revert vals Hy. induction (fn_rets f) as [|r' rs IH]; intros [|s' vals] Hy; try (destruct Hy; fail). cbn in *.
    destruct Hy as [Q|Hy]; [injection Q as <- <-; auto|auto]. }
  split.
  - intros a x Hx. destruct (Hc2 a x Hx) as (p & H1 & -> & ->). apply (proj1 B). apply in_map_iff. exists p. auto.
  - intros b Hb Hx. apply (proj2 B).
    + intros [H|H]; apply Hb; [left|right; exact H]. eapply scratch_incl; [|exact H].
      intros v Hv. apply in_flat_map in Hv. destruct Hv as (p & Hp1 & Hv). destruct (Hin _ Hp1) as (r & s & -> & Hc).
      apply in_flat_map. exists s. split; [apply (in_combine_r _ _ _ _ Hc)|exact Hv].
    + intros a x Ha. apply in_map_iff in Ha. destruct Ha as (p & Q & Ha). injection Q as <- <-.
      destruct (Hin _ Ha) as (r & s & -> & Hc). unfold rpair_dst. cbn [fst snd dst_epd].
      apply (Hx (val r) (sval m s)). clear - Hc. revert vals Hc. induction (fn_rets f) as [|r' rs IH]; intros [|s' vals] Hc; try (destruct Hc; fail). cbn in *.
      destruct Hc as [Q|Hc]; [injection Q as <- <-; auto|auto].
Qed.
End W.
