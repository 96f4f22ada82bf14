(* NonSeqCompute: the order it chooses is a permutation, and order does not
   matter for independent assignments. *)
From Coq Require Import ZArith Lia Bool List Permutation.
From Verif Require Import Word Machine MachineProofs VarModel VarSpec VarProofs SeqProofs.
Import ListNotations.
Open Scope Z_scope.

Section Order.
Variable perm : list pair -> list pair.
Hypothesis Hperm : forall l, Permutation (perm l) l.

Definition is_var (p : pair) : bool := match pair_src p with Some _ => true | None => false end.
Definition gflat (g : list (Z * list pair)) : list pair := concat (map snd g).

Lemma group_add_perm v p g : Permutation (gflat (group_add v p g)) (p :: gflat g).
Proof.
  induction g as [|[u ps] g IH]; cbn [group_add]; [reflexivity|].
  destruct (u =? v); unfold gflat; cbn [map snd concat].
  - rewrite <- app_assoc. cbn [app]. symmetry. apply Permutation_middle.
  - fold (gflat (group_add v p g)). rewrite IH. fold (gflat g). symmetry. apply Permutation_middle.
Qed.
Lemma groups_perm l : forall g, Permutation (gflat (groups l g)) (gflat g ++ filter is_var l).
Proof.
  induction l as [|p l IH]; intros g; cbn [groups filter]; [rewrite app_nil_r; reflexivity|].
  unfold is_var at 1. destruct (pair_src p) as [v|]; rewrite IH; [|reflexivity].
  rewrite group_add_perm. cbn [app]. apply Permutation_middle.
Qed.
Lemma const_var_perm l : Permutation (const_pairs l ++ filter is_var l) l.
Proof.
  induction l as [|p l IH]; [reflexivity|]. unfold const_pairs in *. cbn [filter]. unfold is_var at 1.
  destruct (pair_src p) as [v|].
  - symmetry. rewrite <- IH at 1. apply Permutation_middle.
  - cbn [app]. constructor. exact IH.
Qed.

Lemma heads_tl_perm gs : Permutation (heads gs ++ concat (map (fun g => tl g) gs)) (concat gs).
Proof.
  induction gs as [|g gs IH]; [reflexivity|]. unfold heads in *. cbn [map flat_map concat].
  destruct g as [|x g]; cbn [tl app]; [exact IH|].
  constructor. rewrite <- IH. rewrite !app_assoc. apply Permutation_app_tail. apply Permutation_app_comm.
Qed.
Lemma zip_longest_perm n : forall gs, (forall g, In g gs -> (length g <= n)%nat) -> Permutation (zip_longest n gs) (concat gs).
Proof.
  induction n as [|n IH]; intros gs H; cbn [zip_longest].
  - assert (E : concat gs = []); [|rewrite E; reflexivity].
    induction gs as [|g gs IH]; [reflexivity|]. cbn [concat]. rewrite IH by (intros; apply H; right; auto).
    specialize (H g (or_introl eq_refl)). destruct g; [reflexivity|cbn in H; lia].
  - rewrite IH; [apply heads_tl_perm|].
    intros g Hg. apply in_map_iff in Hg. destruct Hg as (g0 & <- & Hg0). specialize (H g0 Hg0).
    destruct g0; cbn in *; lia.
Qed.
Lemma concat_map_perm (g : list (Z * list pair)) : Permutation (concat (map (fun x => perm (snd x)) g)) (gflat g).
Proof.
  induction g as [|x g IH]; [reflexivity|]. unfold gflat in *. cbn [map concat]. apply Permutation_app; auto.
Qed.
Lemma nonseq_perm l : Permutation (nonseq_order perm l) l.
Proof.
  unfold nonseq_order. destruct (Nat.eqb _ _); [reflexivity|].
  assert (Hg : Permutation (gflat (groups l [])) (filter is_var l)) by apply (groups_perm l []).
  rewrite zip_longest_perm.
  - rewrite concat_map_perm, Hg. apply const_var_perm.
  - intros g H. apply in_map_iff in H. destruct H as ([v ps] & <- & Hin). cbn [snd].
    rewrite (Permutation_length (Hperm ps)).
    assert (Hle : (length ps <= length (gflat (groups l [])))%nat).
    { apply in_split in Hin. destruct Hin as (g1 & g2 & E). rewrite E. unfold gflat.
      rewrite map_app, concat_app. cbn [map snd concat]. rewrite !app_length. lia. }
    rewrite (Permutation_length Hg) in Hle. rewrite <- (Permutation_length (const_var_perm l)), app_length. lia.
Qed.
End Order.

(* two assignments that do not influence each other *)
Definition rpair_reads (p : rpair) : list Z := match snd p with SVar v => [vc v FMask; vc v FVal] | SConst _ => [] end.
Definition rpair_dst (p : rpair) : Z := dst_epd (fst (fst p)).
Definition indep (p q : rpair) : Prop :=
  idx (rpair_dst p) <> idx (rpair_dst q) /\
  (forall a, In a (rpair_reads q) -> idx (rpair_dst p) <> idx a) /\
  (forall a, In a (rpair_reads p) -> idx (rpair_dst q) <> idx a).

Definition same_mem (m m' : mem) : Prop := forall a, get m a = get m' a.
Lemma assign1_same m m' p : same_mem m m' -> same_mem (assign1 m p) (assign1 m' p).
Proof.
  intros H. destruct p as [[d md] [c|v]]; cbn [assign1]; intros a;
    (destruct (Z.eq_dec (idx (dst_epd d)) (idx a)) as [E|E];
     [rewrite <- !(get_cong _ _ _ E), !get_upd_eq, !H; reflexivity|rewrite !get_upd_ne by exact E; apply H]).
Qed.
Lemma assign_all_same l : forall m m', same_mem m m' -> same_mem (assign_all m l) (assign_all m' l).
Proof. induction l as [|p l IH]; intros m m' H; [exact H|]. cbn. apply IH, assign1_same, H. Qed.

Lemma assign1_eff m p : exists x, assign1 m p = upd m (rpair_dst p) x /\
  forall m', get m' (rpair_dst p) = get m (rpair_dst p) -> (forall a, In a (rpair_reads p) -> get m' a = get m a) ->
    assign1 m' p = upd m' (rpair_dst p) x.
Proof.
  destruct p as [[d md] [c|v]]; cbn [assign1 rpair_dst fst snd rpair_reads]; eexists; (split; [reflexivity|]);
    intros m' H1 H2; unfold rpair_dst in *; cbn [fst snd] in *; rewrite H1; [reflexivity|]. rewrite !H2 by (cbn; auto). reflexivity.
Qed.
Lemma assign_swap m p q : indep p q -> same_mem (assign1 (assign1 m p) q) (assign1 (assign1 m q) p).
Proof.
  intros (H1 & H2 & H3).
  destruct (assign1_eff m p) as (x & Ep & Fp). destruct (assign1_eff m q) as (y & Eq & Fq).
  rewrite (Fq (assign1 m p)), (Fp (assign1 m q)).
  - rewrite Ep, Eq. intros a.
    destruct (Z.eq_dec (idx (rpair_dst p)) (idx a)) as [E|E].
    + rewrite (get_upd_ne _ (rpair_dst q)) by congruence. rewrite <- !(get_cong _ _ _ E), !get_upd_eq. reflexivity.
    + rewrite (get_upd_ne _ (rpair_dst p)) by exact E.
      destruct (Z.eq_dec (idx (rpair_dst q)) (idx a)) as [E2|E2].
      * rewrite <- !(get_cong _ _ _ E2), !get_upd_eq. reflexivity.
      * rewrite !get_upd_ne by assumption. reflexivity.
  - rewrite Eq. apply get_upd_ne. congruence.
  - intros a Ha. rewrite Eq. apply get_upd_ne. apply H3, Ha.
  - rewrite Ep. apply get_upd_ne. exact H1.
  - intros a Ha. rewrite Ep. apply get_upd_ne. apply H2, Ha.
Qed.

Lemma indep_sym p q : indep p q -> indep q p.
Proof. intros (A & B & C). split; [congruence|]. auto. Qed.
Lemma indep_perm l l' : Permutation l l' -> ForallOrdPairs indep l -> ForallOrdPairs indep l'.
Proof.
  induction 1 as [|x l l' Hp IH|x y l|l1 l2 l3 Hp1 IH1 Hp2 IH2]; intros H; auto.
  - inversion H as [|? ? H1 H2]. subst. constructor; auto.
    apply Forall_forall. intros q Hq. rewrite Forall_forall in H1. apply H1.
    apply (Permutation_in q (Permutation_sym Hp)), Hq.
  - inversion H as [|? ? H1 H2]. subst. inversion H2 as [|? ? H3 H4]. subst. inversion H1 as [|? ? H5 H6]. subst.
    constructor; [constructor; auto; apply indep_sym; auto|]. constructor; auto.
Qed.
Lemma assign_perm l l' : Permutation l l' -> ForallOrdPairs indep l -> forall m, same_mem (assign_all m l) (assign_all m l').
Proof.
  induction 1 as [|x l l' Hp IH|x y l|l1 l2 l3 Hp1 IH1 Hp2 IH2]; intros H m.
  - intros a. reflexivity.
  - inversion H as [|? ? H1 H2]. subst. cbn. apply IH; auto.
  - inversion H as [|? ? H1 H2]. subst. inversion H1 as [|? ? H5 H6]. subst.
    cbn [assign_all fold_left]. apply assign_all_same. apply assign_swap. exact H5.
  - intros a. rewrite IH1 by auto. apply IH2. eapply indep_perm; eauto.
Qed.

(* all modifiers given *)
Definition with_mod (p : rpair) : pair := let '(d, md, s) := p in (d, Some md, s).
Lemma resolve_with_mod l : forall cur, resolve cur (map with_mod l) = Some l.
Proof.
  induction l as [|[[d md] [c|v]] l IH]; intros cur; [reflexivity| |]; cbn [map with_mod resolve]; rewrite IH; reflexivity.
Qed.
Lemma with_mod_perm l l' : Permutation (map with_mod l) l' -> exists l2, l' = map with_mod l2 /\ Permutation l l2.
Proof.
  intros H. destruct (Permutation_map_inv with_mod l (Permutation_sym H)) as (l2 & E & P). exists l2. split; auto.
Qed.

Lemma srcs_perm l l' : Permutation l l' -> Permutation (srcs_of l) (srcs_of l').
Proof. apply Permutation_flat_map. Qed.

Theorem NonSeqCompute_correct w same same_u perm T k l m :
  world_ok w ->
  (forall a b, same a b = true -> u32 (dst_epd a) = u32 (dst_epd b)) ->
  (forall x, Permutation (perm x) x) ->
  let pl := map with_mod l in
  incl (srcs_of pl) (W_vars w) -> pairs_ok w (srcs_of pl) pl -> mods_wf m (srcs_of pl) ->
  ForallOrdPairs indep l ->
  placed w T k (SeqCompute same same_u T k (nonseq_order perm pl)) ->
  exists m', runs w (lbl T k, m) (lbl T (k + length (SeqCompute same same_u T k (nonseq_order perm pl))), m') /\
    agree (scratch (srcs_of pl)) m' (assign_all m l) /\ mods_wf m' (srcs_of pl).
Proof.
  intros Hw Hsame Hperm pl Hi Hp Hwf Hind Hpl.
  assert (P : Permutation pl (nonseq_order perm pl)) by (apply Permutation_sym, nonseq_perm, Hperm).
  destruct (with_mod_perm l _ P) as (l2 & E & P2). rewrite E in *.
  assert (Hs : forall v, In v (srcs_of (map with_mod l2)) <-> In v (srcs_of pl)).
  { intros v. split; apply Permutation_in, srcs_perm; [apply Permutation_sym|]; exact P. }
  assert (Hsc : forall a, scratch (srcs_of (map with_mod l2)) a <-> scratch (srcs_of pl) a).
  { intros a. split; apply scratch_incl; intros; apply Hs; auto. }
  destruct (SeqCompute_correct w same same_u T k (map with_mod l2) (fun _ => None) l2 m)
    as (m' & A & B & C & D & _); auto.
  - intros v Hv. apply Hi, Hs, Hv.
  - intros d md s Hin. destruct (Hp d md s) as (Q1 & Q2 & Q3).
    { apply (Permutation_in _ (Permutation_sym P)), Hin. }
    split; auto. split; [rewrite Hsc; auto|]. destruct s; auto. rewrite Hs. auto.
  - apply resolve_with_mod.
  - intros v md _ Q. discriminate.
  - intros v Hv. apply Hwf, Hs, Hv.
  - exists m'. split; [exact A|]. split.
    + intros a Ha. rewrite B by (rewrite Hsc; exact Ha). symmetry. apply assign_perm; auto.
    + intros v Hv. apply D, Hs, Hv.
Qed.
