(* SeqCompute: partition into sub-lists, execution of each, and the final
   refinement theorem. *)
From Coq Require Import ZArith Lia Bool List Permutation.
From Verif Require Import Word Machine MachineProofs VarModel VarSpec VarProofs.
Import ListNotations.
Open Scope Z_scope.

Definition mkc (p : dst * option modifier * Z) : pair := (fst p, SConst (snd p)).
Definition mkv (p : dst * option modifier * Z) : pair := (fst p, SVar (snd p)).

Lemma split_cv cs vs : split_pairs (map mkc cs ++ map mkv vs) = (cs, vs).
Proof.
  induction cs as [|[[d md] c] cs IH]; cbn [map app].
  - induction vs as [|[[d md] v] vs IH]; cbn [map]; auto. cbn [split_pairs mkv fst snd]. rewrite IH. reflexivity.
  - cbn [mkc fst snd split_pairs]. rewrite IH. reflexivity.
Qed.

Lemma srcs_app a b : srcs_of (a ++ b) = srcs_of a ++ srcs_of b.
Proof. unfold srcs_of. apply flat_map_app. Qed.
Lemma srcs_c cs : srcs_of (map mkc cs) = [].
Proof. induction cs as [|[[d md] c] cs IH]; cbn in *; auto. Qed.
Lemma srcs_v vs : srcs_of (map mkv vs) = map snd vs.
Proof. induction vs as [|[[d md] c] vs IH]; cbn in *; auto. unfold srcs_of in IH. rewrite IH. reflexivity. Qed.

(* modifiers known after a list of pairs *)
Fixpoint cur_after (cur : Z -> option modifier) (l : list pair) : Z -> option modifier :=
  match l with
  | [] => cur
  | (_, Some md, SVar v) :: r => cur_after (fun u => if u =? v then Some md else cur u) r
  | _ :: r => cur_after cur r
  end.

(* destinations (EPD) written into variables' transfers by a list of pairs *)
Fixpoint dst_after (cur : Z -> option Z) (l : list pair) : Z -> option Z :=
  match l with
  | [] => cur
  | (d, _, SVar v) :: r => dst_after (fun u => if u =? v then Some (dst_epd d) else cur u) r
  | _ :: r => dst_after cur r
  end.
Definition dests_known (m : mem) (cur : Z -> option Z) (vs : list Z) : Prop :=
  forall v e, In v vs -> cur v = Some e -> get m (vc v FDest) = u32 e.

Lemma dst_after_app l1 : forall cur l2, dst_after cur (l1 ++ l2) = dst_after (dst_after cur l1) l2.
Proof. induction l1 as [|[[d md] [c|v]] l1 IH]; intros; cbn [app dst_after]; auto. Qed.
Lemma dst_after_c cur cs : dst_after cur (map mkc cs) = cur.
Proof. induction cs as [|[[d md] c] cs IH]; cbn in *; auto. Qed.
Lemma dst_after_v vl : forall cur v e, NoDup (map snd vl) -> dst_after cur (map mkv vl) v = Some e ->
  (~ In v (map snd vl) /\ cur v = Some e) \/ exists d md, In (d, md, v) vl /\ dst_epd d = e.
Proof.
  induction vl as [|[[d md] u] vl IH]; intros cur v e Hn H; cbn [map mkv fst snd dst_after] in *.
  - left. split; auto.
  - change (mkv (d, md, u)) with (d, md, SVar u) in H. cbn [dst_after] in H.
    inversion Hn as [|x xs Hu Hn']. subst x xs.
    destruct (IH _ _ _ Hn' H) as [[Hnin Hc]|(d' & md' & Hin & E)].
    + destruct (Z.eqb_spec v u) as [->|Hne].
      * injection Hc as <-. right. exists d, md. split; [left|]; reflexivity.
      * left. split; auto. intros [Q|Q]; [apply Hne; symmetry; exact Q|contradiction].
    + right. exists d', md'. split; [right; exact Hin|exact E].
Qed.

Lemma resolve_app l1 : forall cur l2,
  resolve cur (l1 ++ l2) =
  match resolve cur l1 with
  | Some r1 => match resolve (cur_after cur l1) l2 with Some r2 => Some (r1 ++ r2) | None => None end
  | None => None
  end.
Proof.
  induction l1 as [|[[d [md|]] [c|v]] l1 IH]; intros cur l2; cbn [app resolve cur_after]; auto.
  - destruct (resolve cur l2); reflexivity.
  - rewrite IH. destruct (resolve cur l1); auto. destruct (resolve _ l2); auto.
  - rewrite IH. destruct (resolve _ l1); auto. destruct (resolve _ l2); auto.
  - destruct (cur v); auto. rewrite IH. destruct (resolve _ l1); auto. destruct (resolve _ l2); auto.
Qed.

Lemma cur_after_app l1 : forall cur l2, cur_after cur (l1 ++ l2) = cur_after (cur_after cur l1) l2.
Proof. induction l1 as [|[[d [md|]] [c|v]] l1 IH]; intros; cbn [app cur_after]; auto. Qed.

Lemma cur_after_c cur cs : cur_after cur (map mkc cs) = cur.
Proof. induction cs as [|[[d [md|]] c] cs IH]; cbn in *; auto. Qed.

Lemma resolve_c cur cs rl : resolve cur (map mkc cs) = Some rl ->
  rl = map (fun p => let '(d, md, c) := p in (d, match md with Some x => x | None => SetTo end, SConst c)) cs /\
  (forall d md c, In (d, md, c) cs -> exists x, md = Some x).
Proof.
  revert rl. induction cs as [|[[d [md|]] c] cs IH]; intros rl H; cbn [map mkc fst snd resolve] in H.
  - injection H as <-. split; auto. intros ? ? ? [].
  - destruct (resolve cur (map mkc cs)) as [r|]; [|discriminate]. injection H as <-.
    destruct (IH r eq_refl) as [-> Hx]. split; auto.
    intros d' md' c' [E|Hin]; [injection E as <- <- <-; eauto|eauto].
  - discriminate.
Qed.

Lemma resolve_v m vs : forall cur rl, resolve cur (map mkv vs) = Some rl ->
  NoDup (map snd vs) ->
  (forall v md, In v (map snd vs) -> cur v = Some md -> get m (vc v FMod) = w6 md) ->
  exists vrl, rl = map as_rpair vrl /\ vresolved m vs vrl /\ vsrcs vrl = map snd vs /\
    (forall v md, In v (map snd vs) -> cur_after cur (map mkv vs) v = Some md -> exists d, In (d, md, v) vrl) /\
    (forall v, ~ In v (map snd vs) -> cur_after cur (map mkv vs) v = cur v).
Proof.
  induction vs as [|[[d omd] v] vs IH]; intros cur rl H Hnd Hc; cbn [map mkv fst snd] in *.
  - injection H as <-. exists []. cbn. split; [reflexivity|]. split; [exact I|]. split; [reflexivity|]. split; [intros ? ? []|reflexivity].
  - inversion Hnd as [|x xs Hnin Hnd']. subst x xs.
    change (mkv (d, omd, v)) with (d, omd, SVar v) in *.
    destruct omd as [md|]; cbn [resolve cur_after] in *.
    + destruct (resolve _ (map mkv vs)) as [r|] eqn:Er; [|discriminate]. injection H as <-.
      destruct (IH _ _ Er Hnd') as (vrl & -> & H1 & H2 & H3 & H4).
      { intros u md' Hu. destruct (Z.eqb_spec u v) as [->|]; [contradiction|]. apply Hc. right; auto. }
      exists ((d, md, v) :: vrl). cbn [map as_rpair fst snd vresolved vsrcs].
      fold (vsrcs vrl). rewrite H2. repeat split; auto.
      * intros u md' Hu Hcu. destruct (in_dec Z.eq_dec u (map snd vs)) as [Hin|Hin].
        -- destruct (H3 u md' Hin Hcu) as [d' Hd']. exists d'. right. exact Hd'.
        -- rewrite (H4 u Hin) in Hcu. destruct Hu as [<-|]; [|contradiction].
           rewrite Z.eqb_refl in Hcu. injection Hcu as <-. exists d. left. reflexivity.
      * intros u Hu. rewrite (H4 u) by (intros Hin; apply Hu; right; exact Hin).
        destruct (Z.eqb_spec u v) as [->|]; auto. exfalso. apply Hu. left. reflexivity.
    + destruct (cur v) as [md|] eqn:Ec; [|discriminate].
      destruct (resolve cur (map mkv vs)) as [r|] eqn:Er; [|discriminate]. injection H as <-.
      destruct (IH _ _ Er Hnd') as (vrl & -> & H1 & H2 & H3 & H4).
      { intros u md' Hu. apply Hc. right; auto. }
      exists ((d, md, v) :: vrl). cbn [map as_rpair fst snd vresolved vsrcs].
      fold (vsrcs vrl). rewrite H2. repeat split; auto.
      * right. split; auto. apply Hc; auto. left. reflexivity.
      * intros u md' Hu Hcu. destruct (in_dec Z.eq_dec u (map snd vs)) as [Hin|Hin].
        -- destruct (H3 u md' Hin Hcu) as [d' Hd']. exists d'. right. exact Hd'.
        -- rewrite (H4 u Hin) in Hcu. destruct Hu as [<-|]; [|contradiction].
           exists d. left. congruence.
      * intros u Hu. apply H4. intros Hin; apply Hu; right; exact Hin.
Qed.

Section Exec.
Variable w : world.
Hypothesis Hw : world_ok w.
Variable same : dst -> dst -> bool.
Hypothesis Hsame : forall a b, same a b = true -> u32 (dst_epd a) = u32 (dst_epd b).
Variable T : nat -> Z.

Lemma ready_in m fin rl : ready m fin rl -> forall d md v, In (d, md, v) rl -> get m (vc v FMod) = w6 md.
Proof.
  induction rl as [|[[d md] v] rl IH]; cbn [ready]; intros H d' md' v' Hin; [destruct Hin|].
  destruct H as (_ & H2 & _ & H4). destruct Hin as [E|Hin]; [injection E as <- <- <-; exact H2|eauto].
Qed.

Lemma ready_dst m fin rl : ready m fin rl -> forall d md v, In (d, md, v) rl -> get m (vc v FDest) = u32 (dst_epd d).
Proof.
  induction rl as [|[[d md] v] rl IH]; cbn [ready]; intros H d' md' v' Hin; [destruct Hin|].
  destruct H as (H1 & _ & _ & H4). destruct Hin as [E|Hin]; [injection E as <- <- <-; exact H1|eauto].
Qed.
Lemma vresolved_in m vl : forall vrl d omd v, vresolved m vl vrl -> In (d, omd, v) vl -> exists md, In (d, md, v) vrl.
Proof.
  induction vl as [|[[d0 o0] v0] vl IH]; intros [|[[d1 m1] v1] vrl] d omd v R Hin; cbn [vresolved] in R; try contradiction; try (destruct Hin; fail).
  destruct R as (-> & -> & _ & R). destruct Hin as [E|Hin].
  - injection E as -> _ ->. exists m1. left. reflexivity.
  - destruct (IH vrl d omd v R Hin) as [md H]. exists md. right. exact H.
Qed.

Lemma w6_low md : w6 md mod 2^24 = 45 * 2^16.
Proof. destruct md; reflexivity. Qed.

Lemma sub_ok vs k cs vl cur rl dc m :
  let c := map mkc cs ++ map mkv vl in
  let (t, dc') := seq_sub same T k c dc in
  incl vs (W_vars w) -> pairs_ok w vs c -> NoDup (map snd vl) ->
  W_P w (lbl T k) = Some t ->
  resolve cur c = Some rl ->
  dict_ok vs m dc -> mods_known m cur vs -> mods_wf m vs ->
  exists m', runs w (lbl T k, m) (lbl T (S k), m') /\
    agree (scratch vs) m' (assign_all m rl) /\
    dict_ok vs m' dc' /\ mods_known m' (cur_after cur c) vs /\ mods_wf m' vs /\
    (forall dcur, dests_known m dcur vs -> dests_known m' (dst_after dcur c) vs).
Proof.
  intros c. unfold c. unfold seq_sub. rewrite split_cv. fold c.
  set (fin := lbl T (S k)).
  destruct (var_acts same fin vl dc) as [va dc'] eqn:Eva.
  intros Hi Hp Hnd HP Hres Hdc Hkn Hwf.
  unfold c in Hres. rewrite resolve_app in Hres.
  destruct (resolve cur (map mkc cs)) as [crl|] eqn:Ec; [|discriminate].
  rewrite cur_after_c in Hres.
  destruct (resolve cur (map mkv vl)) as [vrl0|] eqn:Ev; [|discriminate].
  injection Hres as <-.
  destruct (resolve_c _ _ _ Ec) as [Hcrl Hcmd].
  set (mc := assign_all m crl).
  assert (Hcd : forall d md s, In (d, md, s) crl -> ~ scratch vs (dst_epd d)).
  { intros d md s Hin. rewrite Hcrl in Hin. apply in_map_iff in Hin. destruct Hin as ([[d0 md0] c0] & E & Hin).
    injection E as <- _ _. destruct (Hp d0 md0 (SConst c0)) as (_ & Q & _); auto.
    apply in_or_app. left. apply in_map_iff. exists (d0, md0, c0). auto. }
  assert (Hmc : forall v f, In v vs -> f = FNext \/ f = FDest \/ f = FMod -> get mc (vc v f) = get m (vc v f)).
  { intros. unfold mc. eapply assign_scratch; eauto. }
  assert (Hsub : forall v, In v (map snd vl) -> In v vs).
  { intros v Hin. apply in_map_iff in Hin. destruct Hin as ([[d0 md0] v0] & E & Hin). cbn in E. subst v0.
    destruct (Hp d0 md0 (SVar v)) as (_ & _ & Q & _); auto.
    apply in_or_app. right. apply in_map_iff. exists (d0, md0, v). auto. }
  destruct (resolve_v mc vl cur vrl0 Ev Hnd) as (vrl & -> & R1 & R2 & R3 & R4).
  { intros v md Hin Hc. rewrite Hmc by auto. apply Hkn; auto. }
  assert (Hvd : forall d md v, In (d, md, v) vrl -> writable w (dst_epd d) /\ ~ scratch vs (dst_epd d) /\ truthy d = true).
  { intros d md v Hin.
    assert (Hg : exists omd, In (d, omd, v) vl).
    { clear - R1 Hin. revert vrl R1 Hin. induction vl as [|[[d0 omd0] v0] vl IH]; intros [|[[d1 md1] v1] vrl] R1 Hin;
        cbn [vresolved] in R1; try contradiction; try (destruct Hin; fail).
      destruct R1 as (-> & -> & _ & R1). destruct Hin as [E|Hin].
      - injection E as -> _ ->. exists omd0. left. reflexivity.
      - destruct (IH vrl R1 Hin) as [o Ho]. exists o. right. exact Ho. }
    destruct Hg as [omd Hg]. destruct (Hp d omd (SVar v)) as (Q1 & Q2 & Q3 & Q4); auto.
    apply in_or_app. right. apply in_map_iff. exists (d, omd, v). auto. }
  assert (Hfin : u32 fin = fin) by apply u32_lbl.
  pose proof (var_acts_ok w Hw same Hsame vs Hi fin Hfin vl vrl dc mc R1) as HV. rewrite Eva in HV.
  destruct HV as (m1 & A1 & A2 & A3 & A4).
  { intros v Hin. rewrite R2 in Hin. apply Hsub, Hin. }
  { rewrite R2. exact Hnd. }
  { eapply dict_ok_agree; [|exact Hdc]. intros. apply Hmc; auto. }
  { intros d md v Hin. apply (Hvd d md v Hin). }
  { intros v Hin. rewrite R2 in Hin. rewrite Hmc by auto. apply Hwf. auto. }
  assert (Hsv : incl (vsrcs vrl) vs) by (intros v Hv; rewrite R2 in Hv; auto).
  assert (Hiv : incl (vsrcs vrl) (W_vars w)) by (intros v Hv; auto).
  exists (assign_all m1 (map as_rpair vrl)).
  assert (Hkeep : forall v f, In v vs -> f = FNext \/ f = FDest \/ f = FMod ->
            get (assign_all m1 (map as_rpair vrl)) (vc v f) = get m1 (vc v f)).
  { intros. eapply assign_scratch; eauto. intros d md s Hin. apply in_map_iff in Hin.
    destruct Hin as ([[d0 md0] v0] & E & Hin). injection E as <- _ _. apply (Hvd _ _ _ Hin). }
  assert (Hmods : forall v, In v vs ->
            (In v (vsrcs vrl) /\ (forall d md, In (d, md, v) vrl -> get m1 (vc v FMod) = w6 md)) \/
            (~ In v (vsrcs vrl) /\ get m1 (vc v FMod) = get m (vc v FMod))).
  { intros v Hv. destruct (in_dec Z.eq_dec v (vsrcs vrl)) as [Hin|Hnin]; [left|right]; split; auto.
    - intros. eapply ready_in; eauto.
    - rewrite <- (Hmc v FMod) by auto. apply (agree_field w Hw (vsrcs vrl)); auto. }
  split; [|split; [|split; [|split; [|split]]]].
  - eapply steps_trans.
    + eapply run_true with (pc' := match vl with (_, _, v) :: _ => pa v | [] => fin end).
      * exact HP.
      * reflexivity.
      * apply conds_nil.
      * apply (const_acts_ok w cs m); [|rewrite <- Hcrl; exact A1].
        intros d md c0 Hin. destruct (Hcmd d md c0 Hin) as [x ->]. exists x. split; auto.
        apply (Hp d (Some x) (SConst c0)). apply in_or_app. left. apply in_map_iff. exists (d, Some x, c0). auto.
      * cbn [RawTrig t_next rd]. destruct vl as [|[[? ?] ?] ?]; [exact Hfin|apply u32_pa].
    + replace (match vl with (_, _, v) :: _ => pa v | [] => fin end) with (next_addr fin vrl).
      * apply chain; auto. intros d md v Hin. destruct (Hvd d md v Hin) as (Q1 & Q2 & Q3). split; auto.
        intros Hs. apply Q2. eapply scratch_incl; [|exact Hs]. exact Hsv.
      * clear - R1. destruct vl as [|[[d0 o0] v0] vl], vrl as [|[[d1 m1] v1] vrl]; cbn [vresolved] in R1; try contradiction; auto.
        destruct R1 as (_ & -> & _). reflexivity.
  - replace (assign_all m (crl ++ map as_rpair vrl)) with (assign_all mc (map as_rpair vrl))
      by (unfold mc, assign_all; rewrite fold_left_app; reflexivity).
    apply (assign_agree w Hw); auto.
    + intros d md s Hin. apply in_map_iff in Hin. destruct Hin as ([[d0 md0] v0] & E & Hin).
      injection E as _ _ <-. cbn. apply Hiv. change v0 with (snd (d0, md0, v0)). apply in_map. exact Hin.
    + intros d md s Hin. apply in_map_iff in Hin. destruct Hin as ([[d0 md0] v0] & E & Hin).
      injection E as <- _ _. apply (Hvd _ _ _ Hin).
    + eapply agree_sub; [|exact A2]. intros a. apply scratch_incl. exact Hsv.
  - eapply dict_ok_agree; [|exact A4]. intros. apply Hkeep; auto.
  - intros v md Hv Hcur. rewrite Hkeep by auto. unfold c in Hcur. rewrite cur_after_app, cur_after_c in Hcur.
    destruct (Hmods v Hv) as [[Hin Hr]|[Hnin Hr]].
    + rewrite R2 in Hin. destruct (R3 v md Hin Hcur) as [d Hd]. eapply Hr. exact Hd.
    + rewrite R2 in Hnin. rewrite (R4 v Hnin) in Hcur. rewrite Hr. apply Hkn; auto.
  - intros v Hv. rewrite Hkeep by auto. destruct (Hmods v Hv) as [[Hin Hr]|[Hnin Hr]].
    + unfold vsrcs in Hin. apply in_map_iff in Hin. destruct Hin as ([[d md] v0] & E & Hin). cbn in E. subst v0.
      rewrite (Hr d md Hin). apply w6_low.
    + rewrite Hr. apply Hwf. exact Hv.
  - intros dcur Hd v e Hv Hcur. rewrite Hkeep by auto. unfold c in Hcur. rewrite dst_after_app, dst_after_c in Hcur.
    destruct (dst_after_v vl dcur v e Hnd Hcur) as [[Hnin Hc]|(d & md & Hin & <-)].
    + rewrite (agree_field w Hw (vsrcs vrl) mc m1 v FDest); auto.
      * rewrite Hmc by auto. apply Hd; auto.
      * rewrite R2. exact Hnin.
    + destruct (vresolved_in _ _ _ _ _ _ R1 Hin) as [md' Hin']. eapply ready_dst; eauto.
Qed.

(* ---------- a sequence of sub-lists ---------- *)
Definition chunk := (list (dst * option modifier * Z) * list (dst * option modifier * Z))%type.
Definition chunk_pairs (c : chunk) : list pair := map mkc (fst c) ++ map mkv (snd c).

Fixpoint emit (k : nat) (cs : list chunk) (dc : dict) : list trig * dict :=
  match cs with
  | [] => ([], dc)
  | c :: r =>
      let '(t, dc1) := seq_sub same T k (chunk_pairs c) dc in
      let '(o, dc2) := emit (S k) r dc1 in (t :: o, dc2)
  end.

Lemma emit_app cs1 : forall k cs2 dc,
  emit k (cs1 ++ cs2) dc =
  (fst (emit k cs1 dc) ++ fst (emit (k + length cs1) cs2 (snd (emit k cs1 dc))),
   snd (emit (k + length cs1) cs2 (snd (emit k cs1 dc)))).
Proof.
  induction cs1 as [|c cs1 IH]; intros k cs2 dc; cbn [app emit length fst snd].
  - rewrite Nat.add_0_r. destruct (emit k cs2 dc); reflexivity.
  - destruct (seq_sub same T k (chunk_pairs c) dc) as [t dc1]. rewrite IH.
    replace (S k + length cs1)%nat with (k + S (length cs1))%nat by lia.
    destruct (emit (S k) cs1 dc1) as [o dc2]. cbn [fst snd]. reflexivity.
Qed.

Lemma emit_length cs : forall k dc, length (fst (emit k cs dc)) = length cs.
Proof.
  induction cs as [|c cs IH]; intros k dc; cbn [emit]; auto.
  destruct (seq_sub same T k (chunk_pairs c) dc) as [t dc1].
  specialize (IH (S k) dc1). destruct (emit (S k) cs dc1) as [o dc2]. cbn in *. auto.
Qed.

Lemma emit_ok vs cs : forall k cur rl dc m,
  incl vs (W_vars w) -> pairs_ok w vs (flat_map chunk_pairs cs) ->
  Forall (fun c : chunk => NoDup (map snd (snd c))) cs ->
  placed w T k (fst (emit k cs dc)) ->
  resolve cur (flat_map chunk_pairs cs) = Some rl ->
  dict_ok vs m dc -> mods_known m cur vs -> mods_wf m vs ->
  exists m', runs w (lbl T k, m) (lbl T (k + length cs), m') /\
    agree (scratch vs) m' (assign_all m rl) /\
    mods_known m' (cur_after cur (flat_map chunk_pairs cs)) vs /\ mods_wf m' vs /\
    (forall dcur, dests_known m dcur vs -> dests_known m' (dst_after dcur (flat_map chunk_pairs cs)) vs).
Proof.
  induction cs as [|c cs IH]; intros k cur rl dc m Hi Hp Hnd Hpl Hres Hdc Hkn Hwf.
  - cbn in Hres. injection Hres as <-. exists m. rewrite Nat.add_0_r. cbn. split; [apply steps_refl|].
    split; [apply agree_refl|]. split; auto.
  - cbn [flat_map] in *. cbn [emit] in Hpl.
    pose proof (sub_ok vs k (fst c) (snd c) cur) as HS.
    change (map mkc (fst c) ++ map mkv (snd c)) with (chunk_pairs c) in HS.
    rewrite resolve_app in Hres.
    destruct (resolve cur (chunk_pairs c)) as [r1|] eqn:E1; [|discriminate].
    destruct (resolve _ (flat_map chunk_pairs cs)) as [r2|] eqn:E2; [|discriminate].
    injection Hres as <-.
    specialize (HS r1 dc m). cbn zeta in HS.
    destruct (seq_sub same T k (chunk_pairs c) dc) as [t dc1].
    destruct (emit (S k) cs dc1) as [o dc2] eqn:Eo. cbn [fst] in Hpl.
    inversion Hnd as [|x xs Hn1 Hn2]. subst x xs.
    destruct HS as (m1 & B1 & B2 & B3 & B4 & B5 & B6); auto.
    { intros d md s Hin. apply (Hp d md s). apply in_or_app. auto. }
    { specialize (Hpl 0%nat t eq_refl). rewrite Nat.add_0_r in Hpl. exact Hpl. }
    destruct (IH (S k) (cur_after cur (chunk_pairs c)) r2 dc1 m1) as (m2 & C1 & C2 & C3 & C4 & C5); auto.
    { intros d md s Hin. apply (Hp d md s). apply in_or_app. auto. }
    { rewrite Eo. cbn [fst]. intros i u Hu. specialize (Hpl (S i) u Hu).
      replace (k + S i)%nat with (S k + i)%nat in Hpl by lia. exact Hpl. }
    exists m2. cbn [length]. replace (k + S (length cs))%nat with (S k + length cs)%nat by lia.
    split; [eapply steps_trans; eauto|]. rewrite cur_after_app.
    split; [|split; [exact C3|split; [exact C4|intros dcur Hd; rewrite dst_after_app; apply C5, B6, Hd]]].
    eapply agree_trans; [exact C2|].
    unfold assign_all. rewrite fold_left_app. fold (assign_all m r1). fold (assign_all (assign_all m r1) r2).
    assert (Hr2 : forall d md s, In (d, md, s) r2 -> exists omd, In (d, omd, s) (flat_map chunk_pairs cs)).
    { clear - E2. revert E2. generalize (cur_after cur (chunk_pairs c)). generalize (flat_map chunk_pairs cs).
      intros l. revert r2. induction l as [|[[d [md|]] [z|z]] l IHl]; intros r2 cur0 E d' md' s' Hin; cbn [resolve] in E.
      - injection E as <-. destruct Hin.
      - destruct (resolve cur0 l) as [r|] eqn:Er; [|discriminate]. injection E as <-.
        destruct Hin as [E|Hin]; [injection E as <- <- <-; eexists; left; reflexivity|].
        destruct (IHl _ _ Er _ _ _ Hin) as [o Ho]. exists o. right. exact Ho.
      - destruct (resolve _ l) as [r|] eqn:Er; [|discriminate]. injection E as <-.
        destruct Hin as [E|Hin]; [injection E as <- <- <-; eexists; left; reflexivity|].
        destruct (IHl _ _ Er _ _ _ Hin) as [o Ho]. exists o. right. exact Ho.
      - discriminate.
      - destruct (cur0 z); [|discriminate]. destruct (resolve cur0 l) as [r|] eqn:Er; [|discriminate]. injection E as <-.
        destruct Hin as [E|Hin]; [injection E as <- <- <-; eexists; left; reflexivity|].
        destruct (IHl _ _ Er _ _ _ Hin) as [o Ho]. exists o. right. exact Ho. }
    apply (assign_agree w Hw); auto.
    + intros d md s Hin. destruct (Hr2 d md s Hin) as [omd Ho]. destruct (Hp d omd s) as (_ & _ & Q).
      { apply in_or_app. auto. } destruct s; auto. apply Hi, Q.
    + intros d md s Hin. destruct (Hr2 d md s Hin) as [omd Ho]. destruct (Hp d omd s) as (_ & Q & _); auto.
      apply in_or_app. auto.
Qed.
End Exec.

(* ---------- partition ---------- *)
Section Part.
Variable same same_u : dst -> dst -> bool.
Variable T : nat -> Z.
Variable k : nat.

Definition part_inv (l : list pair) (s : sst) : Prop :=
  exists (done : list chunk) (cs vl : list (dst * option modifier * Z)),
    flat_map chunk_pairs done ++ q_sub s = l /\
    q_sub s = map mkc cs ++ map mkv vl /\
    Forall (fun c : chunk => NoDup (map snd (snd c))) done /\
    NoDup (map snd vl) /\ (forall v, In v (q_srcs s) <-> In v (map snd vl)) /\
    (q_const s = true -> vl = []) /\
    Z.of_nat (length (q_sub s)) <= q_count s /\ (q_sub s = [] -> q_count s = 0) /\
    (q_out s, q_dict s) = emit same T k done [].

Lemma memZ_In v l : memZ v l = true <-> In v l.
Proof.
  unfold memZ. rewrite existsb_exists. split.
  - intros (x & Hx & E). apply Z.eqb_eq in E. subst. exact Hx.
  - intros H. exists v. split; auto. apply Z.eqb_refl.
Qed.

Lemma flush_inv l s : part_inv l s -> part_inv l (flush same T k s) /\
  (q_sub (flush same T k s) = [] /\ q_srcs (flush same T k s) = [] \/
   flush same T k s = s /\ q_sub s = []).
Proof.
  intros (done & cs & vl & H1 & H2 & H3 & H4 & H5 & H6 & H7 & H8 & H9).
  unfold flush. destruct (Z.eqb_spec (q_count s) 0) as [E|E].
  - assert (Hs : q_sub s = []) by (destruct (q_sub s); auto; cbn [length] in H7; lia).
    split; [|right; auto]. exists done, cs, vl. auto 10.
  - assert (Hlen : length (q_out s) = length done).
    { rewrite <- (emit_length same T done k []). rewrite <- H9. reflexivity. }
    destruct (seq_sub same T (k + length (q_out s)) (q_sub s) (q_dict s)) as [t dc] eqn:Es.
    split; [|left; auto].
    exists (done ++ [(cs, vl)]), [], []. cbn [q_sub q_srcs q_const q_count q_out q_dict].
    split. { rewrite flat_map_app, app_nil_r. cbn [flat_map chunk_pairs fst snd]. rewrite app_nil_r.
             unfold chunk_pairs at 2. cbn [fst snd]. rewrite <- H2. exact H1. }
    split; [reflexivity|]. split. { apply Forall_app. split; auto. }
    split; [constructor|]. split; [intros; reflexivity|]. split; [auto|]. split; [cbn; lia|]. split; [auto|].
    rewrite emit_app. rewrite <- H9. cbn [fst snd emit].
    unfold chunk_pairs. cbn [fst snd]. rewrite <- H2, <- Hlen, Es. reflexivity.
Qed.

Lemma step_inv l s p : part_inv l s -> part_inv (l ++ [p]) (seq_step same same_u T k s p).
Proof.
  intros Hinv. destruct p as [[d md] [c|v]]; cbn [seq_step].
  - set (s1 := if negb (q_const s) then flush same T k s else if 61 <=? q_count s then flush same T k s else s).
    assert (Hs1 : part_inv l s1 /\ exists cs, q_sub s1 = map mkc cs).
    { unfold s1. destruct (q_const s) eqn:Ec; cbn [negb].
      - assert (Hc : exists cs, q_sub s = map mkc cs).
        { destruct Hinv as (done & cs & vl & H1 & H2 & _ & _ & _ & H6 & _). exists cs.
          rewrite H2, (H6 Ec). apply app_nil_r. }
        destruct (61 <=? q_count s); [|auto].
        destruct (flush_inv l s Hinv) as [Q [[R _]|[-> R]]]; split; auto. exists []. exact R.
      - destruct (flush_inv l s Hinv) as [Q [[R _]|[E R]]]; split; auto; try (exists []; exact R).
        exists []. rewrite E. exact R. }
    destruct Hs1 as [(done & cs & vl & H1 & H2 & H3 & H4 & H5 & H6 & H7 & H8 & H9) [cs' Hcs']].
    assert (vl = []).
    { assert (Hl : Forall (fun q : pair => match snd q with SConst _ => True | SVar _ => False end) (map mkv vl)).
      { assert (Hq : Forall (fun q : pair => match snd q with SConst _ => True | SVar _ => False end) (q_sub s1)).
        { rewrite Hcs'. apply Forall_forall. intros q Hq. apply in_map_iff in Hq. destruct Hq as (x & <- & _). exact I. }
        rewrite H2 in Hq. apply Forall_app in Hq. apply Hq. }
      destruct vl as [|x vl]; auto. cbn in Hl. inversion Hl. contradiction. }
    subst vl. exists done, (cs ++ [(d, md, c)]), []. cbn [q_sub q_srcs q_const q_count q_out q_dict].
    split; [rewrite app_assoc, H1; reflexivity|].
    split. { rewrite H2. cbn [map]. rewrite !app_nil_r, map_app. reflexivity. }
    split; auto. split; auto. split; auto. split; auto.
    split. { rewrite app_length. cbn [length]. lia. }
    split; [|exact H9]. intros E. destruct (q_sub s1); discriminate.
  - set (s1 := if memZ v (q_srcs s) then flush same T k s else if 61 <=? q_count s then flush same T k s else s).
    assert (Hs1 : part_inv l s1 /\ ~ In v (q_srcs s1)).
    { unfold s1. destruct (memZ v (q_srcs s)) eqn:Em.
      - destruct (flush_inv l s Hinv) as [Q [[_ R]|[E R]]]; split; auto.
        + rewrite R. intros [].
        + rewrite E. destruct Hinv as (done & cs & vl & H1 & H2 & H3 & H4 & H5 & _). rewrite (H5 v).
          assert (vl = []) by (rewrite R in H2; destruct vl; auto; destruct cs; discriminate). subst. intros [].
      - destruct (61 <=? q_count s).
        + destruct (flush_inv l s Hinv) as [Q [[_ R]|[E R]]]; split; auto.
          * rewrite R. intros [].
          * rewrite E. intros Hin. apply memZ_In in Hin. congruence.
        + split; auto. intros Hin. apply memZ_In in Hin. congruence. }
    destruct Hs1 as [(done & cs & vl & H1 & H2 & H3 & H4 & H5 & H6 & H7 & H8 & H9) Hnin].
    exists done, cs, (vl ++ [(d, md, v)]). cbn [q_sub q_srcs q_const q_count q_out q_dict].
    split; [rewrite app_assoc, H1; reflexivity|].
    split. { rewrite H2, map_app, <- app_assoc. reflexivity. }
    split; auto.
    split. { rewrite map_app. cbn [map snd]. apply NoDup_app_remove_r with (l' := []) || idtac.
             apply Permutation_NoDup with (l := v :: map snd vl).
             - apply Permutation_cons_append.
             - constructor; auto. rewrite <- H5. exact Hnin. }
    split. { intros u. rewrite map_app, in_app_iff. cbn [map snd In]. rewrite (H5 u). tauto. }
    split; [discriminate|].
    split. { rewrite app_length. cbn [length]. destruct (lookup v (q_prev s1)) as [[pd pm]|]; [|lia].
             destruct (same_u d pd), (omod_eqb md pm); lia. }
    split; [|exact H9]. intros E. destruct (q_sub s1); discriminate.
Qed.

Lemma fold_inv l : forall l0 s, part_inv l0 s -> part_inv (l0 ++ l) (fold_left (seq_step same same_u T k) l s).
Proof.
  induction l as [|p l IH]; intros l0 s H; cbn [fold_left].
  - rewrite app_nil_r. exact H.
  - replace (l0 ++ p :: l) with ((l0 ++ [p]) ++ l) by (rewrite <- app_assoc; reflexivity).
    apply IH, step_inv, H.
Qed.

Lemma seq_partition l : exists done : list chunk,
  flat_map chunk_pairs done = l /\
  Forall (fun c : chunk => NoDup (map snd (snd c))) done /\
  SeqCompute same same_u T k l = fst (emit same T k done []).
Proof.
  unfold SeqCompute.
  assert (H0 : part_inv [] (mksst [] [] true 0 [] [] [])).
  { exists [], [], []. cbn. repeat split; auto using NoDup_nil; try lia; tauto. }
  pose proof (fold_inv l [] _ H0) as H. cbn [app] in H.
  destruct (flush_inv _ _ H) as [(done & cs & vl & H1 & H2 & H3 & H4 & H5 & H6 & H7 & H8 & H9) Hs].
  exists done. split.
  - assert (E : q_sub (flush same T k (fold_left (seq_step same same_u T k) l (mksst [] [] true 0 [] [] []))) = []).
    { destruct Hs as [[E _]|[E1 E2]]; auto. rewrite E1. exact E2. }
    rewrite E, app_nil_r in H1. exact H1.
  - split; auto. rewrite <- H9. reflexivity.
Qed.
End Part.

(* ---------- SeqCompute ---------- *)
Theorem SeqCompute_correct w same same_u T k l cur rl m :
  world_ok w ->
  (forall a b, same a b = true -> u32 (dst_epd a) = u32 (dst_epd b)) ->
  incl (srcs_of l) (W_vars w) -> pairs_ok w (srcs_of l) l ->
  placed w T k (SeqCompute same same_u T k l) ->
  resolve cur l = Some rl ->
  mods_known m cur (srcs_of l) -> mods_wf m (srcs_of l) ->
  exists m', runs w (lbl T k, m) (lbl T (k + length (SeqCompute same same_u T k l)), m') /\
    agree (scratch (srcs_of l)) m' (assign_all m rl) /\
    mods_known m' (cur_after cur l) (srcs_of l) /\ mods_wf m' (srcs_of l) /\
    dests_known m' (dst_after (fun _ => None) l) (srcs_of l).
Proof.
  intros Hw Hsame Hi Hp Hpl Hres Hkn Hwf.
  destruct (seq_partition same same_u T k l) as (done & E1 & E2 & E3).
  rewrite E3 in *. rewrite emit_length.
  destruct (emit_ok w Hw same Hsame T (srcs_of l) done k cur rl [] m) as (m' & A & B & C & D & E); auto.
  - rewrite E1. exact Hp.
  - rewrite E1. exact Hres.
  - intros v pd pm nx _ Hl. discriminate.
  - rewrite E1 in C, E. exists m'. repeat (split; [assumption|]). apply E. intros v e _ Q. discriminate.
Qed.

(* ---------- size of the emitted triggers ---------- *)
Section Fits.
Variable same same_u : dst -> dst -> bool.
Variable T : nat -> Z.
Variable k : nat.

Lemma pair_acts_len fin v d md nx dc : (length (fst (pair_acts same fin v d md nx dc)) <= 3)%nat.
Proof.
  unfold pair_acts. destruct (lookup v dc) as [[[pd pm] pn]|]; cbn [fst];
    rewrite !app_length; destruct md as [x|];
    repeat match goal with |- context [if ?b then _ else _] => destruct b end; cbn; lia.
Qed.

Lemma var_acts_len fin l : forall dc, (length (fst (var_acts same fin l dc)) <= 3 * length l)%nat.
Proof.
  induction l as [|[[d md] v] l IH]; intros dc; cbn [var_acts]; [cbn; lia|].
  set (nx := match l with [] => _ | _ => _ end).
  pose proof (pair_acts_len fin v d md nx dc) as H.
  destruct (pair_acts same fin v d md nx dc) as [a dc1]. specialize (IH dc1).
  destruct (var_acts same fin l dc1) as [b dc2]. cbn [fst length] in *. rewrite app_length. lia.
Qed.

Lemma const_acts_len l : length (const_acts l) = length l.
Proof. induction l as [|[[d md] c] l IH]; cbn; auto. Qed.

Definition cost (p : pair) : Z := match snd p with SVar _ => 3 | SConst _ => 1 end.
Definition costs (l : list pair) : Z := fold_right (fun p n => cost p + n) 0 l.
Lemma costs_app a b : costs (a ++ b) = costs a + costs b.
Proof. induction a as [|p a IH]; cbn [app costs fold_right]; auto. fold (costs (a ++ b)) (costs a). lia. Qed.

Lemma split_cost l : let (cs, vs) := split_pairs l in
  Z.of_nat (length cs) + 3 * Z.of_nat (length vs) = costs l.
Proof.
  induction l as [|[[d md] [c|v]] l IH]; cbn [split_pairs]; auto; destruct (split_pairs l) as [cs vs];
    cbn [length costs fold_right cost snd]; fold (costs l); lia.
Qed.

Lemma seq_sub_len j l dc : Z.of_nat (length (t_acts (fst (seq_sub same T j l dc)))) <= costs l.
Proof.
  unfold seq_sub. pose proof (split_cost l) as H. destruct (split_pairs l) as [cs vs].
  pose proof (var_acts_len (lbl T (S j)) vs dc) as H2.
  destruct (var_acts same (lbl T (S j)) vs dc) as [va dc']. cbn [fst RawTrig t_acts].
  rewrite app_length, const_acts_len. cbn [fst] in H2. lia.
Qed.

Definition fit_inv (l : list pair) (s : sst) : Prop :=
  q_count s = costs (q_sub s) /\ q_count s <= 63 /\
  (forall v, lookup v (q_prev s) <> None -> In v (srcs_of l)) /\
  Forall (fun t => (length (t_acts t) <= 64)%nat) (q_out s).

Lemma flush_fit l s : fit_inv l s -> fit_inv l (flush same T k s) /\ (61 <=? q_count s = true -> q_count (flush same T k s) = 0).
Proof.
  intros (H1 & H2 & H3 & H4). unfold flush. destruct (Z.eqb_spec (q_count s) 0).
  - split; [unfold fit_inv; auto|]. lia.
  - pose proof (seq_sub_len (k + length (q_out s)) (q_sub s) (q_dict s)) as H5.
    destruct (seq_sub same T (k + length (q_out s)) (q_sub s) (q_dict s)) as [t dc].
    split; [|reflexivity]. unfold fit_inv. cbn [q_count q_sub q_prev q_out fst] in *.
    split; [reflexivity|]. split; [lia|]. split; auto. apply Forall_app. split; auto. constructor; auto. lia.
Qed.

Lemma step_fit l s p : NoDup (srcs_of (l ++ [p])) -> fit_inv l s -> fit_inv (l ++ [p]) (seq_step same same_u T k s p).
Proof.
  intros Hnd Hf.
  assert (Hmono : forall s', fit_inv l s' -> fit_inv (l ++ [p]) s').
  { intros s' (A & B & C & D). unfold fit_inv. split; auto. split; auto. split; auto.
    intros v Hv. rewrite srcs_app. apply in_or_app. left. auto. }
  destruct p as [[d md] [c|v]]; cbn [seq_step].
  - set (s1 := if negb (q_const s) then flush same T k s else if 61 <=? q_count s then flush same T k s else s).
    assert (H1 : fit_inv l s1 /\ q_count s1 <= 62).
    { unfold s1. destruct (flush_fit l s Hf) as [Q1 Q2].
      destruct (negb (q_const s)).
      - split; auto. destruct (61 <=? q_count s) eqn:E; [rewrite Q2; auto; lia|].
        unfold flush. destruct (q_count s =? 0); [lia|]. destruct (seq_sub _ _ _ _ _). cbn. lia.
      - destruct (61 <=? q_count s) eqn:E; [rewrite Q2; auto; split; auto; lia|split; auto; lia]. }
    destruct H1 as [H1 H2]. apply Hmono in H1. destruct H1 as (A & B & C & D).
    unfold fit_inv. cbn [q_count q_sub q_prev q_out]. rewrite costs_app. cbn [costs fold_right cost snd].
    split; [lia|]. split; [lia|]. auto.
  - set (s1 := if memZ v (q_srcs s) then flush same T k s else if 61 <=? q_count s then flush same T k s else s).
    assert (H1 : fit_inv l s1 /\ q_count s1 <= 60).
    { unfold s1. destruct (flush_fit l s Hf) as [Q1 Q2].
      destruct (memZ v (q_srcs s)).
      - split; auto. destruct (61 <=? q_count s) eqn:E; [rewrite Q2; auto; lia|].
        unfold flush. destruct (q_count s =? 0); [lia|]. destruct (seq_sub _ _ _ _ _). cbn. lia.
      - destruct (61 <=? q_count s) eqn:E; [rewrite Q2; auto; split; auto; lia|split; auto; lia]. }
    destruct H1 as [H1 H2].
    assert (Hl : lookup v (q_prev s1) = None).
    { destruct (lookup v (q_prev s1)) eqn:E; auto. exfalso. destruct H1 as (_ & _ & C & _).
      rewrite srcs_app in Hnd. cbn [srcs_of flat_map snd app] in Hnd.
      apply NoDup_remove_2 in Hnd. apply Hnd. rewrite app_nil_r. apply C. congruence. }
    apply Hmono in H1. destruct H1 as (A & B & C & D).
    rewrite Hl. unfold fit_inv. cbn [q_count q_sub q_prev q_out]. rewrite costs_app. cbn [costs fold_right cost snd].
    split; [lia|]. split; [lia|]. split; auto.
    intros u Hu. cbn [lookup] in Hu. destruct (Z.eqb_spec v u) as [->|]; [|auto].
    rewrite srcs_app. apply in_or_app. right. cbn. auto.
Qed.

Lemma fold_fit l : forall l0 s, NoDup (srcs_of (l0 ++ l)) -> fit_inv l0 s ->
  fit_inv (l0 ++ l) (fold_left (seq_step same same_u T k) l s).
Proof.
  induction l as [|p l IH]; intros l0 s Hnd H; cbn [fold_left].
  - rewrite app_nil_r. exact H.
  - replace (l0 ++ p :: l) with ((l0 ++ [p]) ++ l) in * by (rewrite <- app_assoc; reflexivity).
    apply IH; auto. apply step_fit; auto. rewrite srcs_app in Hnd.
    clear - Hnd. induction (srcs_of (l0 ++ [p])) as [|x xs IHx]; [constructor|].
    cbn in Hnd. inversion Hnd as [|y ys Hn1 Hn2]. subst. constructor; auto. intros Hi. apply Hn1, in_or_app. auto.
Qed.

Theorem SeqCompute_fits l : NoDup (srcs_of l) ->
  Forall (fun t => (length (t_acts t) <= 64)%nat) (SeqCompute same same_u T k l).
Proof.
  intros Hnd. unfold SeqCompute.
  apply (flush_fit l). apply (fold_fit l []); auto.
  unfold fit_inv. cbn. split; [reflexivity|]. split; [lia|]. split; [congruence|constructor].
Qed.
End Fits.
