(* Function calls: arguments in, results out, control back to the caller. *)
From Coq Require Import ZArith Lia Bool List Permutation ZifyBool ZifyNat.
From Verif Require Import Lib Word Machine MachineProofs VarModel VarSpec VarProofs SeqProofs NonSeqProofs
  OpsModel OpsSpec OpsBase FuncModel FuncSpec.
Import ListNotations.
Open Scope Z_scope.

(* ---------- the number of triggers of SeqCompute depends on shapes only ---------- *)
Section Len.
Variable same same_u : dst -> dst -> bool.
Definition like (p q : pair) : Prop :=
  fst p = fst q /\ match snd p, snd q with SVar v, SVar u => v = u | SConst _, SConst _ => True | _, _ => False end.
Definition sim (s s' : sst) : Prop :=
  q_srcs s = q_srcs s' /\ q_const s = q_const s' /\ q_count s = q_count s' /\ q_prev s = q_prev s' /\
  length (q_out s) = length (q_out s').
Lemma flush_sim T T' k k' s s' : sim s s' -> sim (flush same T k s) (flush same T' k' s').
Proof.
  intros (A & B & C & D & E). unfold flush. rewrite C. destruct (q_count s' =? 0); [unfold sim; auto|].
  destruct (seq_sub same T _ _ _), (seq_sub same T' _ _ _). unfold sim. cbn [q_srcs q_const q_count q_prev q_out].
  rewrite !app_length, E. auto.
Qed.
Lemma step_sim T T' k k' s s' p p' : sim s s' -> like p p' -> sim (seq_step same same_u T k s p) (seq_step same same_u T' k' s' p').
Proof.
  intros Hs Hl. destruct p as [[d md] sr], p' as [[d' md'] sr']. destruct Hl as [E1 E2]. cbn [fst snd] in *.
  injection E1 as <- <-. pose proof (flush_sim T T' k k' s s' Hs) as Hf.
  destruct Hs as (A & B & C & D & E). destruct sr as [c|v], sr' as [c'|v']; try contradiction.
  - cbn [seq_step].
    assert (G : sim (if negb (q_const s) then flush same T k s else if 61 <=? q_count s then flush same T k s else s)
                    (if negb (q_const s') then flush same T' k' s' else if 61 <=? q_count s' then flush same T' k' s' else s')).
    { rewrite B, C. destruct (negb _); auto. destruct (61 <=? _); auto. unfold sim; auto. }
    destruct G as (A1 & B1 & C1 & D1 & E3). unfold sim. cbn [q_srcs q_const q_count q_prev q_out]. rewrite C1. auto.
  - subst v'. cbn [seq_step].
    assert (G : sim (if memZ v (q_srcs s) then flush same T k s else if 61 <=? q_count s then flush same T k s else s)
                    (if memZ v (q_srcs s') then flush same T' k' s' else if 61 <=? q_count s' then flush same T' k' s' else s')).
    { rewrite A, C. destruct (memZ _ _); auto. destruct (61 <=? _); auto. unfold sim; auto. }
    destruct G as (A1 & B1 & C1 & D1 & E3). unfold sim. cbn [q_srcs q_const q_count q_prev q_out]. rewrite A1, C1, D1. auto.
Qed.
Lemma fold_sim T T' k k' l l' : Forall2 like l l' -> forall s s', sim s s' ->
  sim (fold_left (seq_step same same_u T k) l s) (fold_left (seq_step same same_u T' k') l' s').
Proof. induction 1 as [|p p' l l' Hp Hl IH]; intros s s' H; cbn [fold_left]; auto. apply IH. apply step_sim; auto. Qed.
Lemma seq_length T T' k k' l l' : Forall2 like l l' ->
  length (SeqCompute same same_u T k l) = length (SeqCompute same same_u T' k' l').
Proof.
  intros H. unfold SeqCompute.
  assert (G : sim (flush same T k (fold_left (seq_step same same_u T k) l (mksst [] [] true 0 [] [] [])))
                  (flush same T' k' (fold_left (seq_step same same_u T' k') l' (mksst [] [] true 0 [] [] [])))).
  { apply flush_sim, fold_sim; auto. unfold sim; auto 8. }
  destruct G as (_ & _ & _ & _ & E). exact E.
Qed.
Lemma like_refl l : Forall2 like l l.
Proof. induction l as [|[[d md] [c|v]] l IH]; constructor; auto; split; cbn; auto. Qed.
End Len.

Section W.
Variable w : world.
Hypothesis Hw : world_ok w.
Notation vars := (W_vars w).
Notation val v := (vc v FVal).

(* ---------- the return ---------- *)
Lemma links_chain fin vs (vl : list vpair) m1 m2 :
  u32 fin = fin -> vs <> [] -> vsrcs vl = vs -> incl vs vars ->
  linked m2 vs fin -> (forall b, ~ nexts vs b -> get m2 b = get m1 b) ->
  (forall d md v, In (d, md, v) vl ->
     writable w (dst_epd d) /\ ~ scratch vs (dst_epd d) /\
     get m1 (vc v FDest) = u32 (dst_epd d) /\ get m1 (vc v FMod) = w6 md) ->
  exists m', runs w (pa (hd 0 vs), m2) (fin, m') /\
    (forall b, ~ nexts vs b -> get m' b = get (assign_all m1 (map as_rpair vl)) b).
Proof.
  intros Hfu Hne Hvl Hi B C Hd.
  exists (assign_all m2 (map as_rpair vl)). split.
  - replace (pa (hd 0 vs)) with (next_addr fin vl).
    2:{ subst vs. destruct vl as [|[[d md] v] vl]; [contradiction|]. reflexivity. }
    apply (chain w Hw fin Hfu vl m2).
    + rewrite Hvl. exact Hi.
    + rewrite Hvl. intros d md v Hin. destruct (Hd d md v Hin) as (Q1 & Q2 & _). auto.
    + assert (Hfield : forall v f, In v vs -> f <> FNext -> get m2 (vc v f) = get m1 (vc v f)).
      { intros v f Hv Hf. apply C. intros (u & Hu & E).
        destruct (wo_sep w Hw v u f FNext (Hi v Hv) (Hi u Hu) E) as [_ Q]. contradiction. }
      clear - Hvl Hd B Hfield.
      assert (G : forall vs0, incl (vsrcs vl) vs0 ->
         (forall v f, In v vs0 -> f <> FNext -> get m2 (vc v f) = get m1 (vc v f)) ->
         (forall d md v, In (d, md, v) vl -> get m1 (vc v FDest) = u32 (dst_epd d) /\ get m1 (vc v FMod) = w6 md) ->
         linked m2 (vsrcs vl) fin -> ready m2 fin vl).
      { clear. induction vl as [|[[d md] v] vl IH]; intros vs0 Hi0 Hf0 Hd0 Hl0; [exact I|].
        cbn [vsrcs map snd linked] in Hl0. destruct Hl0 as [L1 L2].
        assert (Hv0 : In v vs0) by (apply Hi0; left; reflexivity).
        destruct (Hd0 d md v (or_introl eq_refl)) as [D1 D2].
        cbn [ready]. rewrite !Hf0 by (auto; discriminate). split; [exact D1|]. split; [exact D2|].
        split.
        - rewrite L1. destruct vl as [|[[d' md'] v'] vl']; reflexivity.
        - apply (IH vs0); auto.
          + intros x Hx. apply Hi0. right. exact Hx.
          + intros d' md' v' Hin. apply (Hd0 d' md' v'). right. exact Hin. }
      apply (G vs); auto.
      * rewrite Hvl. apply incl_refl.
      * intros d md v Hin. destruct (Hd d md v Hin) as (_ & _ & Q). exact Q.
      * rewrite Hvl. exact B.
  - assert (Hag : agree (nexts vs) m2 m1) by (intros b Hb; auto).
    clear - Hw Hvl Hd Hag Hi.
    assert (G : forall vl0 ma mb, incl vl0 vl -> agree (nexts vs) ma mb ->
       agree (nexts vs) (assign_all ma (map as_rpair vl0)) (assign_all mb (map as_rpair vl0))).
    { induction vl0 as [|[[d md] v] vl0 IH]; intros ma mb Hinc Hag'; [exact Hag'|].
      cbn [map as_rpair fst snd assign_all fold_left]. apply IH.
      - intros x Hx. apply Hinc. right. exact Hx.
      - assert (Hin : In (d, md, v) vl) by (apply Hinc; left; reflexivity).
        destruct (Hd d md v Hin) as (_ & Q & _).
        assert (Hv : In v vs). { rewrite <- Hvl. apply (in_map snd) in Hin. exact Hin. }
        cbn [assign1]. apply agree_upd; auto. cbn [fst snd].
        rewrite (Hag' (dst_epd d)).
        2:{ intros (u & Hu & E). apply Q. exists u, FNext. auto. }
        rewrite (Hag' (vc v FMask)), (Hag' (vc v FVal)); [reflexivity| |];
          intros (u & Hu & E); destruct (wo_sep w Hw v u _ FNext (Hi v Hv) (Hi u Hu) E); discriminate. }
    intros b Hb. apply (G vl m2 m1); auto. apply incl_refl.
Qed.

Lemma ret_links_cons v vs nptr : ret_links (v :: vs) nptr =
  match vs with [] => [SetD (Imm (vc v FNext)) SetTo (Mem nptr)] | u :: _ => SetNextPtr v (pa u) :: ret_links vs nptr end.
Proof. destruct vs; reflexivity. Qed.
Lemma ret_links_do nptr : sepcell w nptr -> forall vs m, incl vs vars -> NoDup vs ->
  exists m', acts_do (W_prot w) m (ret_links vs nptr) m' /\ linked m' vs (get m nptr) /\
    (forall b, ~ nexts vs b -> get m' b = get m b).
Proof.
  intros Hsep. induction vs as [|v vs IH]; intros m Hi Hnd.
  - exists m. split; [apply do_nil|]. split; [exact I|auto].
  - inversion Hnd as [|x xs Hn Hnd']. subst.
    assert (Hv : In v vars) by (apply Hi; left; reflexivity).
    rewrite ret_links_cons. destruct vs as [|u vs].
    + exists (upd m (vc v FNext) (get m nptr)). split; [|split; [split; [|exact I]|]].
      * eapply do_cons_D with (a := vc v FNext); [reflexivity|apply (wo_plain w Hw); auto|apply (wo_prot w Hw); auto|].
        cbn [do_mod rd]. apply do_nil.
      * cbn [link_next]. rewrite get_upd_eq. apply u32_get.
      * intros b Hb. apply get_upd_ne. intros E. apply Hb. exists v. split; [left; reflexivity|auto].
    + destruct (IH (upd m (vc v FNext) (pa u))) as (m' & A & B & C); auto.
      { intros x Hx. apply Hi. right. exact Hx. }
      rewrite get_upd_ne in B by (apply not_eq_sym, Hsep; exact Hv).
      exists m'. split; [|split; [split; [|exact B]|]].
      * unfold SetNextPtr. apply do_cons_M; [apply (wo_plain w Hw); auto|apply (wo_prot w Hw); auto|].
        cbn [do_mod]. rewrite u32_pa. exact A.
      * cbn [link_next]. rewrite C, get_upd_eq; [apply u32_pa|]. intros (x & Hu1 & E).
        destruct (wo_sep w Hw v x FNext FNext Hv (Hi x (or_intror Hu1)) E) as [-> _]. contradiction.
      * intros b Hb. rewrite C.
        -- apply get_upd_ne. intros E. apply Hb. exists v. split; [left; reflexivity|auto].
        -- intros (x & Hu1 & E). apply Hb. exists x. split; [right; auto|auto].
Qed.
Lemma ret_links_nz vs nptr : nonzero_acts (ret_links vs nptr).
Proof.
  induction vs as [|v [|u vs] IH]; cbn [ret_links]; intros a Ha m.
  - destruct Ha.
  - destruct Ha as [<-|[]]. cbn [SetD a_w6 rd]. rewrite w6_small, w6_type. discriminate.
  - destruct Ha as [<-|Ha]; [apply type_SetM|]. apply IH. exact Ha.
Qed.

Lemma func_end_run f (vl : list vpair) m :
  placed w (fn_T f) (fn_len f) (func_end f) ->
  vsrcs vl = fn_rets f -> NoDup (fn_rets f) -> incl (fn_rets f) vars -> sepcell w (fn_nptr f) ->
  (forall d md v, In (d, md, v) vl ->
     writable w (dst_epd d) /\ ~ scratch (fn_rets f) (dst_epd d) /\
     get m (vc v FDest) = u32 (dst_epd d) /\ get m (vc v FMod) = w6 md) ->
  exists m', runs w (lbl (fn_T f) (fn_len f), m) (get m (fn_nptr f), m') /\
    (forall b, ~ nexts (fn_rets f) b -> get m' b = get (assign_all m (map as_rpair vl)) b).
Proof.
  intros Hp Hvl Hnd Hi Hsep Hd.
  assert (Hu : u32 (get m (fn_nptr f)) = get m (fn_nptr f)) by apply u32_get.
  unfold func_end in Hp. destruct (fn_rets f) as [|r rs] eqn:Er.
  - destruct vl as [|x vl]; [|discriminate]. exists m. split; [|reflexivity].
    eapply run_true; [apply placed_one; exact Hp|reflexivity|apply conds_nil|apply do_nil|reflexivity].
  - rewrite <- Er in *.
    destruct (ret_links_do (fn_nptr f) Hsep (fn_rets f) m Hi Hnd) as (m2 & A & B & C).
    destruct (links_chain (get m (fn_nptr f)) (fn_rets f) vl m m2 Hu) as (m3 & R & Q); auto; [congruence|].
    exists m3. split; [|exact Q]. eapply runs_trans; [|exact R].
    eapply chain_trigs_run; [|exact Hp| | |apply u32_pa].
    + intros E. assert (E2 : ret_links (fn_rets f) (fn_nptr f) = []).
      { rewrite <- (chunks_concat (ret_links _ _)), E. reflexivity. }
      rewrite Er, ret_links_cons in E2. destruct rs; discriminate.
    + rewrite chunks_concat. apply ret_links_nz.
    + rewrite chunks_concat. exact A.
Qed.

(* ---------- plain assignments ---------- *)
Definition before (p q : rpair) : Prop :=
  idx (rpair_dst p) <> idx (rpair_dst q) /\ forall a, In a (rpair_reads q) -> idx (rpair_dst p) <> idx a.
Definition set_full (m : mem) (p : rpair) : Prop :=
  snd (fst p) = SetTo /\ match snd p with SVar v => get m (vc v FMask) = 0xFFFFFFFF | SConst _ => True end.

Lemma assign_all_ne l m b : (forall p, In p l -> idx (rpair_dst p) <> idx b) -> get (assign_all m l) b = get m b.
Proof. intros H. apply (assign_all_other l m b). intros d md s Hin. exact (H _ Hin). Qed.

Lemma assign1_set m p : set_full m p -> get (assign1 m p) (rpair_dst p) = sval m (snd p).
Proof.
  destruct p as [[d md] s]. unfold set_full, rpair_dst. cbn [fst snd]. intros [-> H].
  rewrite assign1_ord by (destruct s; auto). rewrite get_upd_eq. cbn [do_mod].
  destruct s; cbn [sval]; [apply u32_idem|apply u32_get].
Qed.

Lemma assign_all_set l : forall m, Forall (set_full m) l -> ForallOrdPairs before l ->
  forall p, In p l -> get (assign_all m l) (rpair_dst p) = sval m (snd p).
Proof.
  induction l as [|q l IH]; intros m Hf Ho p Hin; [destruct Hin|].
  inversion Hf as [|? ? F1 F2]. subst. inversion Ho as [|? ? O1 O2]. subst. rewrite Forall_forall in O1, F2.
  cbn [assign_all fold_left]. change (fold_left assign1 l ?x) with (assign_all x l).
  assert (Hother : forall b, idx (rpair_dst q) <> idx b -> get (assign1 m q) b = get m b).
  { intros b Hb. destruct (assign1_eff m q) as (x & E & _). rewrite E. apply get_upd_ne. exact Hb. }
  destruct Hin as [->|Hin].
  - rewrite assign_all_ne; [apply assign1_set; exact F1|].
    intros p' Hp'. apply not_eq_sym. apply O1. exact Hp'.
  - rewrite IH; auto.
    + destruct (snd p) as [c|v] eqn:E; cbn [sval]; auto. apply Hother. apply (O1 p Hin). unfold rpair_reads. rewrite E. cbn; auto.
    + apply Forall_forall. intros q' Hq'. destruct (F2 q' Hq') as [G1 G2]. split; auto.
      destruct (snd q') as [c|v] eqn:E; auto. rewrite Hother; auto. apply (O1 q' Hq'). unfold rpair_reads. rewrite E. cbn; auto.
Qed.
End W.

(* ---------- entering ---------- *)
Lemma SeqCompute_nonempty same same_u T k l : l <> [] -> SeqCompute same same_u T k l <> [].
Proof.
  intros H E. destruct (seq_partition same same_u T k l) as (dn & E1 & E2 & E3).
  rewrite E3 in E. apply (f_equal (@length trig)) in E. rewrite emit_length in E. destruct dn; [|discriminate].
  apply H. rewrite <- E1. reflexivity.
Qed.

Lemma ford_indep l : NoDup (map (fun p => idx (rpair_dst p)) l) ->
  (forall p q a, In p l -> In q l -> In a (rpair_reads q) -> idx (rpair_dst p) <> idx a) -> ForallOrdPairs indep l.
Proof.
  induction l as [|p l IH]; intros Hnd Hr; [constructor|]. cbn [map] in Hnd. inversion Hnd as [|? ? N1 N2]. subst.
  constructor.
  - apply Forall_forall. intros q Hq. split; [|split].
    + intros E. apply N1. rewrite E. apply (in_map (fun p => idx (rpair_dst p))), Hq.
    + intros a Ha. apply (Hr p q a); cbn; auto.
    + intros a Ha. apply (Hr q p a); cbn; auto.
  - apply IH; auto. intros p' q a H1 H2. apply Hr; cbn; auto.
Qed.
Lemma ford_before l : ForallOrdPairs indep l -> ForallOrdPairs before l.
Proof.
  induction 1 as [|p l Hp Hl IH]; constructor; auto. apply Forall_forall. intros q Hq. rewrite Forall_forall in Hp.
  destruct (Hp q Hq) as (A & B & _). split; auto.
Qed.

Definition arg_rps (fargs : list dst) (args : list src) : list rpair :=
  map (fun x => (fst x, SetTo, snd x)) (combine fargs args).
Definition isv (p : rpair) : bool := src_is_var (snd p).
Definition call_rps (f : efunc) (nx : Z) (rds : list Z) (args : list src) : list rpair :=
  (DExpr (fn_nptr f), SetTo, SConst nx)
  :: map (fun x => (DExpr (vc (fst x) FDest), SetTo, SConst (snd x))) (combine (fn_rets f) rds)
  ++ filter (fun p => negb (isv p)) (arg_rps (fn_args f) args) ++ filter isv (arg_rps (fn_args f) args).

Lemma filter_map {A B} (h : A -> B) (P : B -> bool) l : filter P (map h l) = map h (filter (fun x => P (h x)) l).
Proof. induction l as [|x l IH]; [reflexivity|]. cbn. destruct (P (h x)); cbn; rewrite IH; reflexivity. Qed.
Lemma arg_pairs_mod fargs args : arg_pairs fargs args = map with_mod (arg_rps fargs args).
Proof. unfold arg_pairs, arg_rps. rewrite map_map. apply map_ext. intros [d s]. reflexivity. Qed.
Lemma call_pairs_mod f nx rds args : call_pairs f nx rds args = map with_mod (call_rps f nx rds args).
Proof.
  unfold call_pairs, call_rps. cbn [map with_mod]. f_equal. rewrite !map_app, !arg_pairs_mod, !filter_map, map_map.
  f_equal. f_equal; f_equal; apply filter_ext; intros [[d md] s]; reflexivity.
Qed.
Lemma filter_split {A} (P : A -> bool) l : Permutation (filter (fun x => negb (P x)) l ++ filter P l) l.
Proof.
  induction l as [|x l IH]; [reflexivity|]. cbn [filter]. destruct (P x); cbn [negb].
  - rewrite <- IH at 3. symmetry. apply Permutation_middle.
  - cbn [app]. constructor. exact IH.
Qed.
Lemma call_rps_perm f nx rds args : Permutation (call_rps f nx rds args)
  ((DExpr (fn_nptr f), SetTo, SConst nx)
   :: map (fun x => (DExpr (vc (fst x) FDest), SetTo, SConst (snd x))) (combine (fn_rets f) rds) ++ arg_rps (fn_args f) args).
Proof. unfold call_rps. constructor. apply Permutation_app_head. apply filter_split. Qed.

Lemma in_call_rps f nx rds args p : In p (call_rps f nx rds args) <->
  p = (DExpr (fn_nptr f), SetTo, SConst nx) \/
  (exists r d, In (r, d) (combine (fn_rets f) rds) /\ p = (DExpr (vc r FDest), SetTo, SConst d)) \/
  (exists d s, In (d, s) (combine (fn_args f) args) /\ p = (d, SetTo, s)).
Proof.
  assert (E : In p (call_rps f nx rds args) <-> In p ((DExpr (fn_nptr f), SetTo, SConst nx)
   :: map (fun x => (DExpr (vc (fst x) FDest), SetTo, SConst (snd x))) (combine (fn_rets f) rds) ++ arg_rps (fn_args f) args)).
  { split; apply Permutation_in; [|apply Permutation_sym]; apply call_rps_perm. }
  rewrite E. cbn [In]. rewrite in_app_iff. unfold arg_rps. rewrite !in_map_iff. split.
  - intros [<-|[([r d] & <- & H)|([d s] & <- & H)]]; auto.
    + right. left. exists r, d. auto.
    + right. right. exists d, s. auto.
  - intros [->|[(r & d & H & ->)|(d & s & H & ->)]]; auto.
    + right. left. exists (r, d). auto.
    + right. right. exists (d, s). auto.
Qed.
Lemma in_vargs_combine (fargs : list dst) args d v : In (d, SVar v) (combine fargs args) -> In v (vargs args).
Proof. intros H. apply in_combine_r in H. apply in_flat_map. exists (SVar v). cbn; auto. Qed.
Lemma srcs_call f nx rds args v : length args = length (fn_args f) ->
  (In v (srcs_of (call_pairs f nx rds args)) <-> In v (vargs args)).
Proof.
  intros Hl. rewrite call_pairs_mod. unfold srcs_of. rewrite in_flat_map. split.
  - intros (p & Hp & Hv). apply in_map_iff in Hp. destruct Hp as (q & <- & Hq). apply in_call_rps in Hq.
    destruct Hq as [->|[(r & d & H & ->)|(d & s & H & ->)]]; cbn in Hv; try contradiction.
    destruct s as [c|u]; cbn in Hv; [contradiction|]. destruct Hv as [<-|[]]. eapply in_vargs_combine; eauto.
  - intros Hv. apply in_flat_map in Hv. destruct Hv as (s & Hs & Hv). destruct s as [c|u]; cbn in Hv; [contradiction|].
    destruct Hv as [<-|[]]. apply In_nth_error in Hs. destruct Hs as (i & Hi).
    assert (Hd : exists d, nth_error (fn_args f) i = Some d).
    { destruct (nth_error (fn_args f) i) eqn:E; eauto. apply nth_error_None in E.
      assert (i < length args)%nat by (apply nth_error_Some; congruence). lia. }
    destruct Hd as (d & Hd).
    assert (Hc : In (d, SVar u) (combine (fn_args f) args)).
    { clear - Hd Hi. revert args i Hd Hi. induction (fn_args f) as [|x l IH]; intros [|y args] [|i] Hd Hi; try discriminate; cbn in *.
      - injection Hd as ->. injection Hi as ->. auto.
      - right. eapply IH; eauto. }
    exists (with_mod (d, SetTo, SVar u)). split; [|cbn; auto]. apply in_map. apply in_call_rps. eauto 8.
Qed.

Lemma Forall2_len {A B} (R : A -> B -> Prop) l l' : Forall2 R l l' -> length l = length l'.
Proof. induction 1; cbn; auto. Qed.

Section Call.
Variable w : world.
Hypothesis Hw : world_ok w.
Notation vars := (W_vars w).
Notation val v := (vc v FVal).
Variable same same_u : dst -> dst -> bool.
Hypothesis Hsame : forall a b, same a b = true -> u32 (dst_epd a) = u32 (dst_epd b).
Variable perm : list pair -> list pair.
Hypothesis Hperm : forall l, Permutation (perm l) l.

(* cells that are not a transfer field nor a mask of any variable *)
Lemma arg_dst_facts d v fl : arg_dst w d -> In v vars -> fl <> FVal -> idx (dst_epd d) <> idx (vc v fl).
Proof.
  intros Hd Hv Hf. destruct d as [u|z|a]; cbn in *; [|contradiction|].
  - apply (vsep w Hw); auto.
  - apply Hd. exact Hv.
Qed.
Lemma arg_dst_writable d : arg_dst w d -> writable w (dst_epd d).
Proof. intros H. destruct d; cbn in *; [apply val_writable; auto|contradiction|apply H]. Qed.

Lemma call_indep f nx rds args m : fn_wf w f -> call_ok w f args rds m -> ForallOrdPairs indep (call_rps f nx rds args).
Proof.
  intros Hf Hc. apply ford_indep.
  - eapply Permutation_NoDup.
    { apply Permutation_map. apply Permutation_sym, call_rps_perm. }
    cbn [map]. rewrite map_app. unfold arg_rps. rewrite !map_map.
    replace (map _ (combine (fn_args f) args)) with (map (fun d => idx (dst_epd d)) (fn_args f)).
    2:{ pose proof (co_alen _ _ _ _ _ Hc) as E. clear - E. revert args E. induction (fn_args f) as [|d l IH]; intros [|s args] E; try discriminate; auto.
        cbn. f_equal. apply IH. cbn in E. congruence. }
    replace (map _ (combine (fn_rets f) rds)) with (map (fun r => idx (vc r FDest)) (fn_rets f)).
    2:{ pose proof (co_rlen _ _ _ _ _ Hc) as E. clear - E. revert rds E. induction (fn_rets f) as [|d l IH]; intros [|s args] E; try discriminate; auto.
        cbn. f_equal. apply IH. cbn in E. congruence. }
    pose proof (fw_sep _ _ Hf) as Hs. inversion Hs as [|? ? N1 N2]. subst.
    constructor.
    { cbn [rpair_dst fst dst_epd]. rewrite in_app_iff. intros [H|H]; [|contradiction].
      apply in_map_iff in H. destruct H as (r & E & Hr). destruct (fw_nptr _ _ Hf) as [_ Q].
      apply (Q r FDest); [apply (fw_rvars _ _ Hf); exact Hr|congruence]. }
    assert (Hr : NoDup (map (fun r => idx (vc r FDest)) (fn_rets f))).
    { pose proof (fw_rets _ _ Hf) as Hn. pose proof (fw_rvars _ _ Hf) as Hi. clear - Hn Hi Hw.
      induction (fn_rets f) as [|r l IH]; [constructor|]. inversion Hn as [|? ? A B]. subst. cbn. constructor.
      - intros H. apply in_map_iff in H. destruct H as (u & E & Hu).
        destruct (wo_sep w Hw u r FDest FDest (Hi u (or_intror Hu)) (Hi r (or_introl eq_refl)) E) as [-> _]. contradiction.
      - apply IH; auto. intros x Hx. apply Hi. right. exact Hx. }
    clear N1 Hs. pose proof (fw_rvars _ _ Hf) as Hi. pose proof (fw_args _ _ Hf) as Ha.
    revert Hr Hi. induction (fn_rets f) as [|r l IH]; intros Hr Hi; [exact N2|].
    cbn [map app] in *. inversion Hr as [|? ? A B]. subst. constructor.
    + rewrite in_app_iff. intros [H|H]; [contradiction|]. apply in_map_iff in H. destruct H as (d & E & Hd).
      apply (arg_dst_facts d r FDest (Ha d Hd)); [apply Hi; left; reflexivity|discriminate|exact E].
    + apply IH; auto. intros x Hx. apply Hi. right. exact Hx.
  - intros p q a Hp Hq Hin E. apply in_call_rps in Hq.
    destruct Hq as [->|[(r & d & H & ->)|(d & s & H & ->)]]; cbn in Hin; try contradiction.
    destruct s as [c|v]; cbn in Hin; [contradiction|]. apply in_vargs_combine in H.
    destruct (co_vars _ _ _ _ _ Hc v H) as (Hv & _ & _ & Hd).
    assert (Ha : exists fl, (fl = FMask \/ fl = FVal) /\ a = vc v fl) by (destruct Hin as [<-|[<-|[]]]; eauto).
    destruct Ha as (fl & Hfl & ->). clear Hin. apply in_call_rps in Hp.
    destruct Hp as [->|[(r & d' & H' & ->)|(d' & s & H' & ->)]]; cbn [rpair_dst fst dst_epd] in E.
    + apply (fw_nptr _ _ Hf) in E; auto.
    + apply in_combine_l in H'. destruct (wo_sep w Hw r v FDest fl (fw_rvars _ _ Hf r H') Hv E) as [_ <-].
      destruct Hfl; discriminate.
    + apply in_combine_l in H'. destruct Hfl as [->| ->].
      * apply (arg_dst_facts d' v FMask (fw_args _ _ Hf d' H') Hv); [discriminate|exact E].
      * apply (Hd d' H' E).
Qed.

Lemma jump_same T k n e i : (i < n)%nat -> lbl (jump_to T (k + n) e) (k + i) = lbl T (k + i).
Proof. intros H. unfold lbl, jump_to. destruct (Nat.eqb_spec (k + i) (k + n)); [lia|reflexivity]. Qed.
Lemma jump_end T k n e : lbl (jump_to T (k + n) e) (k + n) = pa e.
Proof. unfold lbl, jump_to. rewrite Nat.eqb_refl. reflexivity. Qed.
Lemma placed_jump T k n e code : length code = n -> placed w T k code -> placed w (jump_to T (k + n) e) k code.
Proof.
  intros Hl Hp i t Hi. rewrite jump_same; [apply Hp; exact Hi|]. rewrite <- Hl. apply nth_error_Some. congruence.
Qed.

Lemma groups_like l l' : Forall2 like l l' -> forall g, groups l g = groups l' g.
Proof.
  induction 1 as [|p q l l' Hp Hl IH]; intros g; [reflexivity|]. cbn [groups]. unfold pair_src.
  destruct p as [d [c|v]], q as [d' [c'|v']]; destruct Hp as [E1 E2]; cbn [fst snd] in *; try contradiction; auto.
  subst. apply IH.
Qed.
Lemma const_like l l' : Forall2 like l l' -> Forall2 like (const_pairs l) (const_pairs l').
Proof.
  induction 1 as [|p q l l' Hp Hl IH]; [constructor|]. unfold const_pairs in *. cbn [filter]. unfold pair_src.
  destruct p as [d [c|v]], q as [d' [c'|v']]; destruct Hp as [E1 E2]; cbn [fst snd] in *; try contradiction; auto.
  constructor; auto. split; cbn; auto.
Qed.
Lemma nonseq_like l l' : Forall2 like l l' -> Forall2 like (nonseq_order perm l) (nonseq_order perm l').
Proof.
  intros H. unfold nonseq_order. pose proof (const_like l l' H) as Hc.
  rewrite (Forall2_len _ _ _ Hc), (Forall2_len _ _ _ H). destruct (Nat.eqb _ _); [exact H|].
  rewrite (groups_like l l' H []). apply Forall2_app; auto. apply like_refl.
Qed.
Lemma call_like f nx nx' rds args : Forall2 like (call_pairs f nx rds args) (call_pairs f nx' rds args).
Proof. unfold call_pairs. constructor; [split; cbn; auto|apply like_refl]. Qed.

Lemma call_length T k f args rds :
  length (func_call same same_u perm T k f args rds) =
  length (SeqCompute same same_u T k (call_order perm args (call_pairs f 0 rds args))).
Proof.
  unfold func_call. cbv zeta. apply seq_length. unfold call_order. destruct (_ <=? _)%nat; [|apply nonseq_like]; apply call_like.
Qed.

(* both orders have the effect of the plain list *)
Lemma ordered_run T k args l m :
  let pl := map with_mod l in
  incl (srcs_of pl) vars -> pairs_ok w (srcs_of pl) pl -> mods_wf m (srcs_of pl) -> ForallOrdPairs indep l ->
  placed w T k (SeqCompute same same_u T k (call_order perm args pl)) ->
  exists m', runs w (lbl T k, m) (lbl T (k + length (SeqCompute same same_u T k (call_order perm args pl))), m') /\
    agree (scratch (srcs_of pl)) m' (assign_all m l) /\ mods_wf m' (srcs_of pl).
Proof.
  intros pl Hi Hp Hwf Hind Hpl. unfold call_order in *. destruct (_ <=? 2)%nat.
  - destruct (SeqCompute_correct w same same_u T k pl (fun _ => None) l m) as (m' & A & B & C & D & _); auto.
    + apply resolve_with_mod.
    + intros v md _ Q. discriminate.
    + exists m'. auto.
  - apply (NonSeqCompute_correct w same same_u perm T k l m); auto.
Qed.

Lemma call_enter T k f args rds m :
  fn_wf w f -> call_ok w f args rds m -> placed w T k (func_call same same_u perm T k f args rds) ->
  exists m1, runs w (lbl T k, m) (lbl (fn_T f) 0, m1) /\
    get m1 (fn_nptr f) = lbl T (k + length (func_call same same_u perm T k f args rds)) /\
    (forall r d, In (r, d) (combine (fn_rets f) rds) -> get m1 (vc r FDest) = u32 d) /\
    (forall d s, In (d, s) (combine (fn_args f) args) -> get m1 (dst_epd d) = sval m s) /\
    (forall b, ~ enter_cells f args b -> get m1 b = get m b) /\ keeps w m m1.
Proof.
  intros Hf Hc Hpl. rewrite call_length in *.
  set (n := length (SeqCompute same same_u T k (call_order perm args (call_pairs f 0 rds args)))) in *.
  set (nx := lbl T (k + n)).
  pose proof (call_indep f nx rds args m Hf Hc) as Hind.
  set (T' := jump_to T (k + n) (fn_T f 0)).
  set (l := call_rps f nx rds args) in *.
  assert (Hcode : func_call same same_u perm T k f args rds = SeqCompute same same_u T' k (call_order perm args (map with_mod l))).
  { unfold l. rewrite <- call_pairs_mod. reflexivity. }
  rewrite Hcode in Hpl.
  assert (Hn : length (SeqCompute same same_u T' k (call_order perm args (map with_mod l))) = n).
  { rewrite <- Hcode. apply call_length. }
  assert (Hsrc : forall v, In v (srcs_of (map with_mod l)) <-> In v (vargs args)).
  { intros v. unfold l. rewrite <- call_pairs_mod. apply srcs_call. apply (co_alen _ _ _ _ _ Hc). }
  assert (Hpl' : placed w T' k (SeqCompute same same_u T' k (call_order perm args (map with_mod l)))).
  { apply placed_jump; auto. }
  assert (Hok : pairs_ok w (srcs_of (map with_mod l)) (map with_mod l)).
  { intros d md s Hin. apply in_map_iff in Hin. destruct Hin as (p & E & Hp). apply in_call_rps in Hp.
    assert (Hns : forall a, scratch (srcs_of (map with_mod l)) a -> scratch (vargs args) a).
    { intros a. apply scratch_incl. intros v. apply Hsrc. }
    destruct Hp as [->|[(r & d' & H' & ->)|(d' & s' & H' & ->)]]; cbn in E; injection E as <- <- <-; cbn [dst_epd].
    - split; [apply (fw_nptr _ _ Hf)|]. split; auto. intros (v & fl & Q1 & _ & Q3).
      apply Hsrc in Q1. apply (fw_nptr _ _ Hf) in Q3; auto. apply (co_vars _ _ _ _ _ Hc v Q1).
    - apply in_combine_l in H'. split; [apply val_writable; auto; apply (fw_rvars _ _ Hf); auto|]. split; auto.
      intros (v & fl & Q1 & _ & Q3). apply Hsrc in Q1. destruct (co_vars _ _ _ _ _ Hc v Q1) as (Hv & _ & Hnr & _).
      destruct (wo_sep w Hw r v FDest fl (fw_rvars _ _ Hf r H') Hv Q3) as [<- _]. contradiction.
    - pose proof (in_combine_l _ _ _ _ H') as Hd. pose proof (fw_args _ _ Hf d' Hd) as Hd'.
      split; [apply arg_dst_writable; exact Hd'|]. split.
      + intros (v & fl & Q1 & Q2 & Q3). apply Hsrc in Q1. destruct (co_vars _ _ _ _ _ Hc v Q1) as (Hv & _).
        apply (arg_dst_facts d' v fl Hd' Hv); auto. destruct Q2 as [->|[->| ->]]; discriminate.
      + destruct s' as [c|v]; auto. split; [apply Hsrc; eapply in_vargs_combine; eauto|].
        destruct d'; cbn in Hd'; auto; contradiction. }
  destruct (ordered_run T' k args l m) as (m' & A & B & D); auto.
  { intros v Hv. apply Hsrc in Hv. apply (co_vars _ _ _ _ _ Hc v Hv). }
  { intros v Hv. apply Hsrc in Hv. apply (co_vars _ _ _ _ _ Hc v Hv). }
  rewrite Hn in A. unfold T' in A. rewrite jump_end in A.
  replace (lbl (jump_to T (k + n) (fn_T f 0)) k) with (lbl T k) in A.
  2:{ destruct n as [|n']; [exfalso|].
      - apply length_zero_iff_nil in Hn.
        assert (E : Forall (fun t : trig => True) (SeqCompute same same_u T' k (call_order perm args (map with_mod l)))) by (apply Forall_forall; auto).
        clear E. revert Hn. apply SeqCompute_nonempty. unfold l, call_rps. cbn. 
        unfold call_order. destruct (_ <=? _)%nat; [discriminate|]. intros E.
        assert (P : Permutation [] (with_mod (DExpr (fn_nptr f), SetTo, SConst nx) :: map with_mod (map (fun x => (DExpr (vc (fst x) FDest), SetTo, SConst (snd x))) (combine (fn_rets f) rds)
  ++ filter (fun p => negb (isv p)) (arg_rps (fn_args f) args) ++ filter isv (arg_rps (fn_args f) args)))).
        { rewrite <- E. apply nonseq_perm. exact Hperm. }
        apply Permutation_nil in P. discriminate.
      - rewrite <- (Nat.add_0_r k) at 1 3. symmetry. apply jump_same. lia. }
  assert (Hset : forall p, In p l -> get (assign_all m l) (rpair_dst p) = sval m (snd p)).
  { apply assign_all_set.
    - apply Forall_forall. intros p Hp. apply in_call_rps in Hp.
      destruct Hp as [->|[(r & d & H' & ->)|(d & s & H' & ->)]]; split; cbn; auto.
      destruct s as [c|v]; auto. apply in_vargs_combine in H'. apply (co_vars _ _ _ _ _ Hc v H').
    - apply ford_before. exact Hind. }
  assert (Hns : forall p, In p l -> ~ scratch (srcs_of (map with_mod l)) (rpair_dst p)).
  { intros p Hp. destruct p as [[d md] s]. destruct (Hok d (Some md) s) as (_ & Q & _); auto.
    apply in_map_iff. exists (d, md, s). auto. }
  assert (Hval : forall p, In p l -> get m' (rpair_dst p) = sval m (snd p)).
  { intros p Hp. rewrite B by auto. auto. }
  assert (Hoth : forall b, (forall p, In p l -> idx (rpair_dst p) <> idx b) -> ~ scratch (vargs args) b -> get m' b = get m b).
  { intros b H1 H2. rewrite B.
    - apply assign_all_ne. exact H1.
    - intros H. apply H2. eapply scratch_incl; [|exact H]. intros v. apply Hsrc. }
  assert (Hfield : forall v fl, In v vars -> fl = FMask \/ fl = FMod -> forall p, In p l -> idx (rpair_dst p) <> idx (vc v fl)).
  { intros v fl Hv Hfl p Hp E. apply in_call_rps in Hp.
    destruct Hp as [->|[(r & d & H' & ->)|(d & s & H' & ->)]]; cbn [rpair_dst fst dst_epd] in E.
    - apply (fw_nptr _ _ Hf) in E; auto.
    - apply in_combine_l in H'. destruct (wo_sep w Hw r v FDest fl (fw_rvars _ _ Hf r H') Hv E) as [_ <-]. destruct Hfl; discriminate.
    - apply in_combine_l in H'. apply (arg_dst_facts d v fl (fw_args _ _ Hf d H') Hv); auto. destruct Hfl; subst; discriminate. }
  exists m'. split; [exact A|]. split; [|split; [|split; [|split]]].
  - etransitivity; [apply (Hval (DExpr (fn_nptr f), SetTo, SConst nx)); apply in_call_rps; auto|]. apply u32_lbl.
  - intros r d H. apply (Hval (DExpr (vc r FDest), SetTo, SConst d)). apply in_call_rps; eauto 8.
  - intros d s H. apply (Hval (d, SetTo, s)). apply in_call_rps; eauto 8.
  - intros b Hb. apply Hoth.
    + intros p Hp E. apply Hb. apply in_call_rps in Hp.
      destruct Hp as [->|[(r & d & H' & ->)|(d & s & H' & ->)]]; cbn [rpair_dst fst dst_epd] in E.
      * right. left. auto.
      * right. right. left. apply in_combine_l in H'. eauto.
      * right. right. right. apply in_combine_l in H'. eauto.
    + intros H. apply Hb. left. exact H.
  - intros v Hv [O1 O2]. split.
    + rewrite Hoth; [exact O1|apply Hfield; auto|].
      apply val_not_scratch with (w := w); auto. intros u Hu. apply (co_vars _ _ _ _ _ Hc u Hu).
    + destruct (in_dec Z.eq_dec v (vargs args)) as [Hin|Hnin]; [apply D, Hsrc; exact Hin|].
      rewrite Hoth; [exact O2|apply Hfield; auto|].
      intros (u & g & H1 & H2 & H3). destruct (co_vars _ _ _ _ _ Hc u H1) as (Hu & _).
        destruct (wo_sep w Hw v u FMod g Hv Hu H3) as [-> _]. contradiction.
Qed.

(* ---------- the whole call ---------- *)
Lemma in_combine_ex {A B} (l : list A) (l' : list B) x : length l = length l' -> In x l -> exists y, In (x, y) (combine l l').
Proof.
  revert l'. induction l as [|a l IH]; intros [|b l'] Hl Hin; try discriminate; [destruct Hin|].
  destruct Hin as [->|Hin]; [exists b; left; reflexivity|]. destruct (IH l') as (y & Hy); auto. exists y. right. exact Hy.
Qed.
Lemma in_combine_ex_r {A B} (l : list A) (l' : list B) y : length l = length l' -> In y l' -> exists x, In (x, y) (combine l l').
Proof.
  revert l'. induction l as [|a l IH]; intros [|b l'] Hl Hin; try discriminate; [destruct Hin|].
  destruct Hin as [->|Hin]; [exists a; left; reflexivity|]. destruct (IH l') as (x & Hx); auto. exists x. right. exact Hx.
Qed.

Theorem call_run T k f args rds m Pre Post :
  fn_wf w f -> call_ok w f args rds m -> placed w T k (func_call same same_u perm T k f args rds) ->
  rets_ready f m -> body_ok w f Pre Post -> (forall m1, entered w f args m m1 -> Pre m1) ->
  exists m1 m2 m3,
    runs w (lbl T k, m) (lbl T (k + length (func_call same same_u perm T k f args rds)), m3) /\
    entered w f args m m1 /\ Post m1 m2 /\ returned f rds m2 m3 /\ rets_ready f m3 /\ keeps w m m3.
Proof.
  intros Hf Hc Hpl Hr Hb Hpre.
  destruct (call_enter T k f args rds m Hf Hc Hpl) as (m1 & R1 & E1 & E2 & E3 & E4 & E5).
  assert (Hent : entered w f args m m1) by (unfold entered; auto).
  assert (Hr1 : rets_ready f m1).
  { intros r Hin. pose proof (fw_rvars _ _ Hf r Hin) as Hv. destruct (Hr r Hin) as [Q1 Q2].
    assert (Hne : forall fl, fl = FMask \/ fl = FMod -> ~ enter_cells f args (vc r fl)).
    { intros fl Hfl [H|[H|[(u & H1 & H2)|(d & H1 & H2)]]].
      - destruct H as (v & g & H1 & H2 & H3). destruct (co_vars _ _ _ _ _ Hc v H1) as (Hu & _ & Hnr & _).
        destruct (wo_sep w Hw r v fl g Hv Hu H3) as [<- _]. contradiction.
      - symmetry in H. apply (fw_nptr _ _ Hf) in H; auto.
      - destruct (wo_sep w Hw r u fl FDest Hv (fw_rvars _ _ Hf u H1) H2) as [_ ->]. destruct Hfl; discriminate.
      - symmetry in H2. apply (arg_dst_facts d r fl (fw_args _ _ Hf d H1) Hv) in H2; auto. destruct Hfl; subst; discriminate. }
    rewrite !E4 by auto. auto. }
  destruct (Hb m1 (Hpre m1 Hent) Hr1) as (m2 & R2 & P2 & Hr2 & K2 & N2 & D2).
  set (vl := map (fun x => (DExpr (snd x), SetTo, fst x)) (combine (fn_rets f) rds)).
  pose proof (co_rlen _ _ _ _ _ Hc) as Hlen.
  assert (Hvl : vsrcs vl = fn_rets f).
  { unfold vsrcs, vl. rewrite map_map. cbn [snd]. clear - Hlen. revert rds Hlen.
    induction (fn_rets f) as [|r l IH]; intros [|d rds] Hl; try discriminate; auto. cbn. f_equal. apply IH. cbn in Hl. congruence. }
  assert (Hin : forall d md v, In (d, md, v) vl -> exists e, d = DExpr e /\ md = SetTo /\ In (v, e) (combine (fn_rets f) rds)).
  { intros d md v H. apply in_map_iff in H. destruct H as ([r e] & E & H). cbn in E. injection E as <- <- <-. eauto. }
  destruct (func_end_run w Hw f vl m2) as (m3 & R3 & Q3); auto.
  { apply (fw_end _ _ Hf). } { apply (fw_rets _ _ Hf). } { apply (fw_rvars _ _ Hf). } { apply (fw_nptr _ _ Hf). }
  { intros d md v H. destruct (Hin d md v H) as (e & -> & -> & H'). cbn [dst_epd].
    pose proof (in_combine_l _ _ _ _ H') as Hv. pose proof (in_combine_r _ _ _ _ H') as He.
    destruct (co_rds _ _ _ _ _ Hc e He) as [W1 W2].
    split; [exact W1|]. split; [|split].
    - intros (u & g & H1 & H2 & H3). apply (W2 u g) in H3; auto; [apply (fw_rvars _ _ Hf); auto|]. destruct H2 as [->|[->| ->]]; discriminate.
    - rewrite D2 by auto. apply E2. exact H'.
    - apply (Hr2 v Hv). }
  rewrite N2, E1 in R3.
  assert (Hval : forall v fl, In v vars -> fl <> FVal -> forall d, In d rds -> idx d <> idx (vc v fl)).
  { intros v fl Hv Hfl d Hd. apply (co_rds _ _ _ _ _ Hc d Hd); auto. }
  assert (Hnn : forall v fl, In v vars -> fl <> FNext -> ~ nexts (fn_rets f) (vc v fl)).
  { intros v fl Hv Hfl (u & Hu & E). destruct (wo_sep w Hw v u fl FNext Hv (fw_rvars _ _ Hf u Hu) E) as [_ ->]. contradiction. }
  assert (Hret : returned f rds m2 m3).
  { split.
    - intros r d H. pose proof (in_combine_l _ _ _ _ H) as Hv. pose proof (in_combine_r _ _ _ _ H) as Hd.
      rewrite Q3.
      2:{ intros (u & Hu & E). apply (Hval u FNext) in E; auto; [apply (fw_rvars _ _ Hf); auto|discriminate]. }
      pose proof (co_rsep _ _ _ _ _ Hc) as Hs.
      assert (Hset : forall p, In p (map as_rpair vl) -> get (assign_all m2 (map as_rpair vl)) (rpair_dst p) = sval m2 (snd p)).
      { apply assign_all_set.
        - apply Forall_forall. intros p Hp. apply in_map_iff in Hp. destruct Hp as ([[dd md] v] & <- & Hp).
          destruct (Hin _ _ _ Hp) as (e & -> & -> & H'). split; cbn; auto. apply in_combine_l in H'. apply (Hr2 v H').
        - unfold vl. rewrite map_map. clear - Hs Hval Hf Hw. 
          assert (G : forall x, In x (combine (fn_rets f) rds) -> In (fst x) vars /\ In (snd x) rds).
          { intros [r d] H. cbn. split; [apply (fw_rvars _ _ Hf), (in_combine_l _ _ _ _ H)|apply (in_combine_r _ _ _ _ H)]. }
          induction Hs as [|x l Hx Hl IH]; [constructor|]. cbn [map]. constructor.
          + apply Forall_forall. intros q Hq. apply in_map_iff in Hq. destruct Hq as (y & <- & Hy).
            rewrite Forall_forall in Hx. destruct (Hx y Hy) as [S1 S2]. split; cbn [rpair_dst as_rpair fst snd dst_epd rpair_reads].
            * exact S1.
            * intros a [<-|[<-|[]]]; [|exact S2]. apply Hval; [apply (G y); right; auto|discriminate|apply (G x); left; auto].
          + apply IH. intros y Hy. apply G. right. exact Hy. }
      assert (Hp : In (DExpr d, SetTo, SVar r) (map as_rpair vl)).
      { apply in_map_iff. exists (DExpr d, SetTo, r). split; [reflexivity|]. unfold vl. apply in_map_iff. exists (r, d). auto. }
      apply (Hset _ Hp).
    - intros b Hb1 Hb2. rewrite Q3 by exact Hb1. apply assign_all_ne. intros p Hp. apply in_map_iff in Hp.
      destruct Hp as ([[d md] v] & <- & Hp). destruct (Hin _ _ _ Hp) as (e & -> & -> & H').
      cbn. apply Hb2. apply (in_combine_r _ _ _ _ H'). }
  assert (Hfld : forall v fl, In v vars -> fl = FMask \/ fl = FMod -> get m3 (vc v fl) = get m2 (vc v fl)).
  { intros v fl Hv Hfl. apply (proj2 Hret); [|apply Hval; auto; destruct Hfl; subst; discriminate].
    apply (Hnn v fl); auto. destruct Hfl; subst; discriminate. }
  exists m1, m2, m3. split; [|split; [exact Hent|split; [exact P2|split; [exact Hret|split]]]].
  - eapply runs_trans; [exact R1|]. eapply runs_trans; [exact R2|exact R3].
  - intros r H. pose proof (fw_rvars _ _ Hf r H) as Hv. rewrite !Hfld by auto. apply Hr2. exact H.
  - intros v Hv O. pose proof (K2 v Hv (E5 v Hv O)) as [O1 O2]. split; rewrite Hfld by auto; auto.
Qed.

Lemma args_values f args m m1 : length args = length (fn_args f) ->
  (forall d s, In (d, s) (combine (fn_args f) args) -> get m1 (dst_epd d) = sval m s) ->
  map (fun d => get m1 (dst_epd d)) (fn_args f) = map (sval m) args.
Proof.
  revert args. induction (fn_args f) as [|d l IH]; intros [|s args] Hl H; try discriminate; [reflexivity|].
  cbn [map]. f_equal; [apply H; left; reflexivity|]. apply IH; auto. intros d' s' Hin. apply H. right. exact Hin.
Qed.

Theorem call_computes T k f args rds m Inv S F cells :
  fn_wf w f -> call_ok w f args rds m -> placed w T k (func_call same same_u perm T k f args rds) ->
  computes w f Inv S F -> private Inv cells ->
  (forall c, In c cells -> ~ enter_cells f args c /\ ~ leave_cells f c /\ forall d, In d rds -> idx d <> idx c) ->
  Inv m -> rets_ready f m -> (forall v, In (DVar v) (fn_args f) -> ordinary m v) ->
  exists m', runs w (lbl T k, m) (lbl T (k + length (func_call same same_u perm T k f args rds)), m') /\
    changes (call_tmp f args S) m m' (combine rds (F (map (sval m) args))) /\
    Inv m' /\ rets_ready f m' /\ keeps w m m'.
Proof.
  intros Hf Hc Hpl Hb Hpriv Hcells HI Hr Ho.
  destruct (call_run T k f args rds m _ _ Hf Hc Hpl Hr Hb) as (m1 & m2 & m3 & R & (E1 & E2 & E3) & (I2 & P1 & P2) & (L1 & L2) & R3 & K).
  { intros m1 (E1 & E2 & E3). split.
    - apply (Hpriv m m1); auto. intros c Hin. apply E2. apply (Hcells c Hin).
    - intros v Hv. apply E3; auto. apply (fw_args _ _ Hf (DVar v) Hv). }
  exists m3. split; [exact R|]. split; [|split; [|auto]].
  - rewrite (args_values f args m m1) in P2; auto; [|apply (co_alen _ _ _ _ _ Hc)]. rewrite <- P2.
    pose proof (co_rlen _ _ _ _ _ Hc) as Hl. split.
    + intros a x Hin.
      assert (Hx : exists r, In (r, a) (combine (fn_rets f) rds) /\ x = get m2 (vc r FVal)).
      { clear - Hin Hl. revert rds Hl Hin. induction (fn_rets f) as [|r l IH]; intros [|d rds] Hl Hin; try discriminate; [destruct Hin|].
        cbn [map combine In] in Hin. destruct Hin as [E|Hin]; [injection E as -> <-; exists r; cbn; auto|].
        destruct (IH rds) as (r' & H1 & H2); [cbn in Hl; congruence|exact Hin|]. exists r'. cbn; auto. }
      destruct Hx as (r & Hx & ->). apply L1. exact Hx.
    + intros b Hb1 Hb2. rewrite L2.
      * rewrite P1, E2; auto; intros H; apply Hb1; unfold call_tmp; auto.
      * intros H. apply Hb1. unfold call_tmp. auto.
      * intros d Hd. destruct (in_combine_ex rds (map (fun r => get m2 (vc r FVal)) (fn_rets f)) d) as (y & Hy); auto.
        { rewrite map_length. exact Hl. }
        apply (Hb2 d y Hy).
  - apply (Hpriv m2 m3); auto. intros c Hin. destruct (Hcells c Hin) as (C1 & C2 & C3). apply L2; auto.
Qed.
End Call.
