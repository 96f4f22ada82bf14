(* Property C51: in-place operations on memory items. *)
From Coq Require Import ZArith Lia List Bool ZifyBool ZifyNat.
From Verif Require Import Word WordX Machine MachineProofs VarModel VarSpec VarProofs OpsSpec OpsBase OpsModel OpsProofs OpsXor OpsShift MulVar DivVar BwModel PropBw InplModel CurplModel PropCurpl VbufModel VbufWorld ExWorld SeqRefute ExTools.
Import ListNotations.
Open Scope Z_scope.

(* ---------- specification ---------- *)
(* the value an item gets *)
Inductive iop := IoSet (md : modifier) | IoSub | IoAnd | IoOr | IoXor | IoShl | IoShr.
Definition item_value (o : iop) (x y : Z) : Z :=
  match o with
  | IoSet SetTo => y | IoSet Add => (x + y) mod 2^32 | IoSet Subtract => Z.max 0 (x - y)
  | IoSub => (x - y) mod 2^32
  | IoAnd => Z.land x y | IoOr => Z.lor x y | IoXor => Z.lxor x y
  | IoShl => Z.shiftl x y mod 2^32 | IoShr => Z.shiftr x y
  end.
(* the address of the item *)
Definition item_at (m : mem) (a b : src) : Z := (sval m a + sval m b) mod 2^32.

(* ---------- chains of variables with run-time destinations ---------- *)
Definition hop1 (m : mem) (v a : Z) (md : modifier) : mem := upd m a (do_modx md (get m (vc v FMask)) (get m a) (get m (vc v FVal))).
Fixpoint hops (m : mem) (l : list (Z * Z * modifier)) : mem := match l with [] => m | (v, a, md) :: r => hops (hop1 m v a md) r end.
Definition hvars (l : list (Z * Z * modifier)) : list Z := map (fun p => fst (fst p)) l.

Section Inpl.
Variables (w : world) (T : nat -> Z).
Hypothesis Hw : world_ok w.
Let vars := W_vars w.

Definition sends (m : mem) (v a : Z) : Prop :=
  (get m (vc v FDest) = u32 a /\ plain a) \/ (get m (vc v FDest) = 13 /\ sepcell w CPcell /\ idx a = idx (get m CPcell)).
Fixpoint hops_ok (vs : list Z) (m : mem) (l : list (Z * Z * modifier)) : Prop :=
  match l with
  | [] => True
  | (v, a, md) :: r => get m (vc v FMod) = w6 md /\ sends m v a /\ W_prot w (idx a) = false /\
      (forall u, In u vs -> idx a <> idx (vc u FNext)) /\ hops_ok vs (hop1 m v a md) r
  end.
Definition eqoff (vs : list Z) (m m' : mem) : Prop := forall b, ~ nexts vs b -> get m' b = get m b.

Lemma nsym x y : idx x <> idx y -> idx y <> idx x.
Proof. congruence. Qed.
Lemma vsp v u f g : In v vars -> In u vars -> v <> u \/ f <> g -> idx (vc v f) <> idx (vc u g).
Proof. apply vsepc, Hw. Qed.
Lemma upd_cong m a b x : idx a = idx b -> upd m a x = upd m b x.
Proof. intros E. unfold upd. rewrite E. reflexivity. Qed.

Lemma hop1_run m v a md nx : In v vars -> get m (vc v FMod) = w6 md -> sends m v a -> W_prot w (idx a) = false ->
  idx a <> idx (vc v FNext) -> get m (vc v FNext) = nx -> runs w (pa v, m) (nx, hop1 m v a md).
Proof.
  intros Hv Hm [[Hd Hp]|(Hd & Hs & Hi)] Hpr Hn Hx.
  - apply (hop w Hw); auto; [split; auto|]. intros f ->. exact Hn.
  - replace (hop1 m v a md) with (upd m (get m CPcell) (do_modx md (get m (vc v FMask)) (get m (get m CPcell)) (get m (vc v FVal)))).
    2:{ unfold hop1. rewrite (upd_cong _ _ _ _ Hi), (get_cong m _ _ Hi). reflexivity. }
    eapply run_true; [apply (wo_prog w Hw); exact Hv|reflexivity|apply conds_nil| |].
    + eapply do_cons_cp_gen with (md := md); cbn [a_w6 a_w7 a_dest a_mask a_val rd]; eauto; [rewrite <- Hi; exact Hpr|]. apply do_nil.
    + cbn [rd]. rewrite get_upd_ne; auto. rewrite <- Hi. exact Hn.
Qed.

Lemma hops_run vs fin : incl vs vars -> forall l m m2, incl (hvars l) vs -> eqoff vs m m2 -> hops_ok vs m l -> linked m2 (hvars l) fin ->
  exists m3, runs w (link_next (hvars l) fin, m2) (fin, m3) /\ eqoff vs (hops m l) m3.
Proof.
  intros Hvs. induction l as [|[[v a] md] l IH]; intros m m2 Hi He Hok Hl.
  - exists m2. split; [apply steps_refl|exact He].
  - cbn [hops_ok hvars map fst linked] in *. destruct Hok as (H1 & H2 & H3 & H4 & H5). destruct Hl as [L1 L2].
    assert (Hv : In v vs) by (apply Hi; left; reflexivity).
    assert (FE : forall f, f <> FNext -> get m2 (vc v f) = get m (vc v f)).
    { intros f Hf. apply He. intros (u & Hu & Q). revert Q. apply vsp; auto. }
    assert (AE : get m2 a = get m a) by (apply He; intros (u & Hu & Q); exact (H4 u Hu Q)).
    assert (S2 : sends m2 v a).
    { destruct H2 as [[Q1 Q2]|(Q1 & Q2 & Q3)]; [left|right]; rewrite FE by discriminate; auto. split; [auto|]. split; [auto|].
      rewrite He; auto. intros (u & Hu & Q). revert Q. apply Q2. auto. }
    destruct (IH (hop1 m v a md) (hop1 m2 v a md)) as (m3 & R & E).
    + intros x Hx. apply Hi. right. exact Hx.
    + intros b Hb. unfold hop1. rewrite !FE, AE by discriminate. destruct (Z.eq_dec (idx a) (idx b)) as [E|E].
      * rewrite !(get_cong _ b a) by auto. rewrite !get_upd_eq. reflexivity.
      * rewrite !get_upd_ne by auto. apply He, Hb.
    + exact H5.
    + clear - L2 H4 Hi. assert (Hi2 : incl (hvars l) vs) by (intros x Hx; apply Hi; right; exact Hx). clear Hi.
      fold (hvars l) in *. remember (hvars l) as ul eqn:E0. clear E0. revert L2 Hi2. induction ul as [|u ul IHu]; intros L2 Hi2; [exact I|].
      cbn [linked] in *. destruct L2 as [A B]. split; [unfold hop1; rewrite get_upd_ne; auto; apply H4, Hi2; left; reflexivity|]. apply IHu; auto. intros x Hx. apply Hi2. right. exact Hx.
    + exists m3. split; [|exact E]. eapply steps_trans; [|exact R]. cbn [link_next]. apply hop1_run; auto. rewrite FE by discriminate. exact H1.
Qed.

Lemma VProc_hops k vs acts hl m m1 :
  placed w T k (VProc T k vs acts) -> vs <> [] -> hvars hl = vs -> NoDup vs -> incl vs vars ->
  nonzero_acts acts -> acts_do (W_prot w) m acts m1 -> hops_ok vs m1 hl ->
  exists m', runs w (lbl T k, m) (lbl T (k + length (VProc T k vs acts)), m') /\ eqoff vs (hops m1 hl) m'.
Proof.
  intros Hp Hne Hvl Hnd Hi Hnz Ha Hd. unfold VProc in *.
  set (n := length (chunks (acts ++ vproc_links vs 0))) in *. set (fin := lbl T (k + n)) in *.
  rewrite chain_trigs_length.
  assert (Hn : length (chunks (acts ++ vproc_links vs fin)) = n).
  { unfold n. apply chunks_len. rewrite !app_length. f_equal. apply vproc_links_len. }
  rewrite Hn. fold fin. assert (Hfu : u32 fin = fin) by apply u32_lbl.
  destruct (links_do w Hw fin Hfu vs m1 Hi Hnd) as (m2 & A & B & C).
  assert (Hall : acts_do (W_prot w) m (acts ++ vproc_links vs fin) m2) by (eapply do_app; eauto).
  destruct (hops_run vs fin Hi hl m1 m2) as (m3 & R & E); auto; try (rewrite Hvl; auto using incl_refl).
  exists m3. split; [|exact E]. eapply steps_trans; [|rewrite Hvl in R; exact R].
  replace (link_next vs fin) with (pa (hd 0 vs)) by (destruct vs; [contradiction|reflexivity]).
  eapply chain_trigs_run with (l := chunks (acts ++ vproc_links vs fin)); [|exact Hp| | |].
  - intros E0. assert (Q : acts ++ vproc_links vs fin = []) by (rewrite <- (chunks_concat (acts ++ vproc_links vs fin)), E0; reflexivity).
    apply app_eq_nil in Q. destruct Q as [_ Q]. apply (vproc_links_ne vs fin Hne Q).
  - rewrite chunks_concat. intros x Hx. apply in_app_or in Hx. destruct Hx; [apply Hnz; auto|]. eapply vproc_links_nz; eauto.
  - rewrite chunks_concat. exact Hall.
  - apply u32_pa.
Qed.

(* actions on variables *)
Lemma do_dest m v c r m' : In v vars -> acts_do (W_prot w) (upd m (vc v FDest) (u32 c)) r m' -> acts_do (W_prot w) m (SetDest v c :: r) m'.
Proof. intros Hv H. destruct (wvc w Hw v FDest Hv). unfold SetDest. apply do_cons_M; auto. Qed.
Lemma do_smod m v md r m' : In v vars -> ordinary m v -> acts_do (W_prot w) (upd m (vc v FMod) (w6 md)) r m' -> acts_do (W_prot w) m (SetModifier v md :: r) m'.
Proof. intros Hv Ho H. destruct (wvc w Hw v FMod Hv). unfold SetModifier. apply do_cons_MX; auto. rewrite (ord_mod m v md Ho). exact H. Qed.
Lemma do_smask m v c r m' : In v vars -> acts_do (W_prot w) (upd m (vc v FMask) (u32 c)) r m' -> acts_do (W_prot w) m (SetMask v c :: r) m'.
Proof. intros Hv H. destruct (wvc w Hw v FMask Hv). unfold SetMask. apply do_cons_M; auto. Qed.
Lemma u32_w6 md : u32 (w6 md) = w6 md.
Proof. destruct md; reflexivity. Qed.

(* frame: ordinary variables stay ordinary, cells outside S keep their content *)
Definition mv (S : Z -> Prop) (m m' : mem) : Prop := keeps w m m' /\ forall b, ~ S b -> get m' b = get m b.
Lemma mv_refl S m : mv S m m.
Proof. split; [intros u _ H; exact H|reflexivity]. Qed.
Lemma mv_trans S m1 m2 m3 : mv S m1 m2 -> mv S m2 m3 -> mv S m1 m3.
Proof. intros [A1 A2] [B1 B2]. split; [intros u Hu Ho; auto|]. intros b Hb. rewrite B2, A2; auto. Qed.
Lemma mv_sub (S S' : Z -> Prop) m m' : (forall b, S b -> S' b) -> mv S m m' -> mv S' m m'.
Proof. intros H [A B]. split; auto. Qed.
Lemma mv_off vs cells m m1 m2 : incl vs vars -> mv (tmp vs cells) m m1 -> eqoff vs m1 m2 -> mv (tmp vs cells) m m2.
Proof.
  intros Hi H He. eapply mv_trans; [exact H|]. split.
  - intros u Hu [O1 O2]. split; rewrite He; auto; intros (x & Hx & Q); revert Q; apply vsp; auto; right; discriminate.
  - intros b Hb. apply He. intros (x & Hx & Q). apply Hb. left. exists x, FNext. auto.
Qed.
Lemma mv_dest vs cells m m1 v x : In v vs -> In v vars -> mv (tmp vs cells) m m1 -> mv (tmp vs cells) m (upd m1 (vc v FDest) x).
Proof.
  intros Hv Hv' H. eapply mv_trans; [exact H|]. split.
  - intros u Hu [O1 O2]. split; rewrite get_upd_ne; auto; apply vsp; auto; right; discriminate.
  - intros b Hb. apply get_upd_ne. intros Q. apply Hb. left. exists v, FDest. auto.
Qed.
Lemma mv_mod vs cells m m1 v md : In v vs -> In v vars -> mv (tmp vs cells) m m1 -> mv (tmp vs cells) m (upd m1 (vc v FMod) (w6 md)).
Proof.
  intros Hv Hv' H. eapply mv_trans; [exact H|]. split.
  - intros u Hu [O1 O2]. split; [rewrite get_upd_ne; auto; apply vsp; auto; right; discriminate|].
    destruct (Z.eq_dec u v) as [->|N]; [rewrite get_upd_eq; destruct md; reflexivity|]. rewrite get_upd_ne; auto. apply vsp; auto.
  - intros b Hb. apply get_upd_ne. intros Q. apply Hb. left. exists v, FMod. auto 6.
Qed.
Lemma mv_cell vs cells m m1 c x : In c cells -> valcell w c -> mv (tmp vs cells) m m1 -> mv (tmp vs cells) m (upd m1 c x).
Proof.
  intros Hc Hv H. eapply mv_trans; [exact H|]. split.
  - intros u Hu [O1 O2]. split; rewrite get_upd_ne; auto; apply Hv; auto; discriminate.
  - intros b Hb. apply get_upd_ne. intros Q. apply Hb. right. exists c. auto.
Qed.
Lemma mv_does vs cells k code m m' e x : runs w (lbl T k, m) (lbl T (k + length code), m') -> get m' e = x -> mv (tmp vs (e :: cells)) m m' ->
  does w T k code (tmp vs cells) m [(e, x)].
Proof.
  intros R V [H1 H2]. exists m'. split; [exact R|]. split; [|exact H1]. split.
  - intros a y [E|[]]. congruence.
  - intros b Hb Hx. apply H2. intros [Q|(c & [<-|Hc] & Q)]; [apply Hb; left; exact Q| |apply Hb; right; eauto]. apply (Hx e x); [left; reflexivity|congruence].
Qed.

Lemma hops_cons m v a md r : hops m ((v, a, md) :: r) = hops (upd m a (do_modx md (get m (vc v FMask)) (get m a) (get m (vc v FVal)))) r.
Proof. reflexivity. Qed.
Lemma hops_nil m : hops m [] = m.
Proof. reflexivity. Qed.

Ltac sep := solve [ assumption | apply nsym; assumption
  | apply vsp; [assumption|assumption|first [left; congruence|right; discriminate]]
  | match goal with
    | H : patchable w ?c |- idx ?c <> idx (vc _ _) => apply (proj2 H); assumption
    | H : patchable w ?c |- idx (vc _ _) <> idx ?c => apply nsym, (proj2 H); assumption
    | H : valcell w ?c |- idx ?c <> idx (vc _ _) => apply (proj2 H); [assumption|discriminate]
    | H : valcell w ?c |- idx (vc _ _) <> idx ?c => apply nsym, (proj2 H); [assumption|discriminate]
    end ].
Ltac gg := repeat match goal with
  | |- context [get (upd ?m ?a ?x) ?a] => rewrite (get_upd_eq m a x)
  | |- context [get (upd ?m ?a ?x) ?b] => rewrite (get_upd_ne m a b x) by sep
  end; rewrite ?u32_w6, ?u32_idem.
Ltac ord := match goal with H : ordinary ?m ?v |- ordinary _ ?v => split; gg; apply H end.
Ltac mvs := repeat first [apply mv_refl | apply mv_mod; [cbn; tauto|assumption|] | apply mv_dest; [cbn; tauto|assumption|] | apply mv_cell; [cbn; tauto|assumption|] ].
Ltac nonext := let u := fresh in let Hu := fresh in let Q := fresh in intros (u & Hu & Q); cbn [In] in Hu; decompose [or] Hu; subst; try contradiction; revert Q; match goal with |- ?A = ?B -> False => change (A <> B) end; sep.
Ltac nz := repeat first [apply nz_nil | apply nz_cons; [intros; first [apply type_SetM|apply type_SetMX]|]].

Lemma add_full m c v : get m (vc v FMask) = 0xFFFFFFFF -> do_modx Add (get m (vc v FMask)) (get m c) (get m (vc v FVal)) = u32 (get m c + get m (vc v FVal)).
Proof. intros ->. change 0xFFFFFFFF with (Z.ones 32). rewrite do_modx_full by apply get_range. reflexivity. Qed.

Lemma patch_val c : patchable w c -> valcell w c.
Proof. apply patch_valcell. Qed.
Lemma wv1 v : In v vars -> incl [v] vars.
Proof. intros H x [<-|[]]; auto. Qed.
Lemma wv2 v u : In v vars -> In u vars -> incl [v; u] vars.
Proof. intros H H' x [<-|[<-|[]]]; auto. Qed.
Lemma wv3 v u x : In v vars -> In u vars -> In x vars -> incl [v; u; x] vars.
Proof. intros H H' H2 y [<-|[<-|[<-|[]]]]; auto. Qed.
Lemma mask_full md d x : 0 <= d < 2^32 -> 0 <= x < 2^32 -> do_modx md 0xFFFFFFFF d x = do_mod md d x.
Proof. intros. change 0xFFFFFFFF with (Z.ones 32). apply do_modx_full; assumption. Qed.
Lemma u32_domod md d x : 0 <= d < 2^32 -> 0 <= x < 2^32 -> u32 (do_mod md d x) = do_mod md d x.
Proof. intros. apply u32_small, do_mod_range; assumption. Qed.

(* one variable and a constant to a cell *)
Lemma addr1 k a c X m : In a vars -> ordinary m a -> patchable w X -> let code := VProc T k [a] (SetM X SetTo c :: QueueAddTo a X) in placed w T k code ->
  exists m', runs w (lbl T k, m) (lbl T (k + length code), m') /\ get m' X = u32 (u32 c + get m (vc a FVal)) /\ mv (tmp [a] [X]) m m'.
Proof.
  intros Ha Oa PX code Hp. pose proof (patch_val X PX) as VX. destruct (proj1 PX) as [X1 X2].
  destruct (VProc_hops k [a] _ [(a, X, Add)] m (upd (upd (upd m X (u32 c)) (vc a FDest) (u32 X)) (vc a FMod) (w6 Add)) Hp) as (m' & R & E); auto using wv1.
  - discriminate.
  - repeat constructor; intros [].
  - unfold QueueAddTo. nz.
  - apply do_cons_M; auto. cbn [do_mod]. apply do_dest; auto. apply do_smod; auto; [|apply do_nil]. ord.
  - cbn [hops_ok]. split; [gg; reflexivity|]. split; [left; split; auto; gg; reflexivity|]. split; [exact X2|]. split; [intros u [<-|[]]; sep|exact I].
  - exists m'. split; [exact R|]. rewrite hops_cons, hops_nil in E. split.
    + rewrite E by nonext. gg. rewrite (proj1 Oa), mask_full by (apply get_range || apply u32_range). apply u32_domod; apply get_range || apply u32_range.
    + eapply mv_off; [| |exact E]; auto using wv1. mvs.
Qed.
Lemma addr2 k a b X m : a <> b -> In a vars -> In b vars -> ordinary m a -> ordinary m b -> patchable w X ->
  let code := VProc T k [a; b] (QueueAssignTo a X ++ QueueAddTo b X) in placed w T k code ->
  exists m', runs w (lbl T k, m) (lbl T (k + length code), m') /\ get m' X = u32 (get m (vc a FVal) + get m (vc b FVal)) /\ mv (tmp [a; b] [X]) m m'.
Proof.
  intros N Ha Hb Oa Ob PX code Hp. pose proof (patch_val X PX) as VX. destruct (proj1 PX) as [X1 X2].
  destruct (VProc_hops k [a; b] _ [(a, X, SetTo); (b, X, Add)] m
    (upd (upd (upd (upd m (vc a FDest) (u32 X)) (vc a FMod) (w6 SetTo)) (vc b FDest) (u32 X)) (vc b FMod) (w6 Add)) Hp) as (m' & R & E); auto using wv2.
  - discriminate.
  - constructor; [intros [Q|[]]; congruence|]. repeat constructor; intros [].
  - unfold QueueAssignTo, QueueAddTo. cbn [app]. nz.
  - unfold QueueAssignTo, QueueAddTo. cbn [app]. apply do_dest; auto. apply do_smod; auto; [ord|]. apply do_dest; auto. apply do_smod; auto; [ord|]. apply do_nil.
  - cbn [hops_ok]. unfold hop1. assert (NX : forall u, In u [a; b] -> idx X <> idx (vc u FNext)) by (intros u [<-|[<-|[]]]; sep).
    split; [gg; reflexivity|]. split; [left; split; auto; gg; reflexivity|]. split; [exact X2|]. split; [exact NX|].
    split; [gg; reflexivity|]. split; [left; split; auto; gg; reflexivity|]. split; [exact X2|]. split; [exact NX|exact I].
  - exists m'. split; [exact R|]. rewrite !hops_cons, hops_nil in E. split.
    + rewrite E by nonext. gg. rewrite (proj1 Oa), (proj1 Ob), !mask_full by (apply get_range || apply u32_range). cbn [do_mod].
      rewrite u32_idem. rewrite u32_add_l. reflexivity.
    + eapply mv_off; [| |exact E]; auto using wv2. mvs.
Qed.

(* iset of a variable: the address goes to the destination field of v *)
Lemma iset_v1 k a c v md m : let e := u32 (u32 c + get m (vc a FVal)) in
  a <> v -> In a vars -> In v vars -> ordinary m a -> ordinary m v -> valcell w e ->
  let code := VProc T k [a; v] ((SetM (vc v FDest) SetTo c :: QueueAddTo a (vc v FDest)) ++ [SetModifier v md]) in placed w T k code ->
  does w T k code (tmp [a; v] []) m [(e, do_mod md (get m e) (get m (vc v FVal)))].
Proof.
  intros e N Ha Hv Oa Ov Ve code Hp. destruct (proj1 Ve) as [E1 E2]. destruct (wvc w Hw v FDest Hv) as [V1 V2].
  destruct (VProc_hops k [a; v] _ [(a, vc v FDest, Add); (v, e, md)] m
    (upd (upd (upd (upd m (vc v FDest) (u32 c)) (vc a FDest) (u32 (vc v FDest))) (vc a FMod) (w6 Add)) (vc v FMod) (w6 md)) Hp) as (m' & R & E); auto using wv2.
  - discriminate.
  - constructor; [intros [Q|[]]; congruence|]. repeat constructor; intros [].
  - unfold QueueAddTo. cbn [app]. nz.
  - unfold QueueAddTo. cbn [app]. apply do_cons_M; auto. cbn [do_mod]. apply do_dest; auto. apply do_smod; auto; [ord|]. apply do_smod; auto; [ord|]. apply do_nil.
  - cbn [hops_ok]. unfold hop1.
    split; [gg; reflexivity|]. split; [left; split; auto; gg; reflexivity|]. split; [exact V2|]. split; [intros u [<-|[<-|[]]]; sep|].
    split; [gg; reflexivity|]. split.
    { left. split; auto. gg. rewrite (proj1 Oa), mask_full by (apply get_range || apply u32_range). cbn [do_mod]. unfold e. rewrite !u32_idem. reflexivity. }
    split; [exact E2|]. split; [intros u [<-|[<-|[]]]; sep|exact I].
  - rewrite !hops_cons, hops_nil in E. eapply mv_does; [exact R| |].
    + rewrite E by nonext. gg. rewrite (proj1 Ov), mask_full by (apply get_range || apply u32_range). apply u32_domod; apply get_range.
    + eapply mv_off; [| |exact E]; auto using wv2. mvs.
Qed.
Lemma iset_v2 k a b v md m : let e := u32 (get m (vc a FVal) + get m (vc b FVal)) in
  a <> b -> a <> v -> b <> v -> In a vars -> In b vars -> In v vars -> ordinary m a -> ordinary m b -> ordinary m v -> valcell w e ->
  let code := VProc T k [a; b; v] ((QueueAssignTo a (vc v FDest) ++ QueueAddTo b (vc v FDest)) ++ [SetModifier v md]) in placed w T k code ->
  does w T k code (tmp [a; b; v] []) m [(e, do_mod md (get m e) (get m (vc v FVal)))].
Proof.
  intros e N N2 N3 Ha Hb Hv Oa Ob Ov Ve code Hp. destruct (proj1 Ve) as [E1 E2]. destruct (wvc w Hw v FDest Hv) as [V1 V2].
  destruct (VProc_hops k [a; b; v] _ [(a, vc v FDest, SetTo); (b, vc v FDest, Add); (v, e, md)] m
    (upd (upd (upd (upd (upd m (vc a FDest) (u32 (vc v FDest))) (vc a FMod) (w6 SetTo)) (vc b FDest) (u32 (vc v FDest))) (vc b FMod) (w6 Add)) (vc v FMod) (w6 md)) Hp) as (m' & R & E); auto using wv3.
  - discriminate.
  - constructor; [intros [Q|[Q|[]]]; congruence|]. constructor; [intros [Q|[]]; congruence|]. repeat constructor; intros [].
  - unfold QueueAddTo, QueueAssignTo. cbn [app]. nz.
  - unfold QueueAddTo, QueueAssignTo. cbn [app]. apply do_dest; auto. apply do_smod; auto; [ord|]. apply do_dest; auto. apply do_smod; auto; [ord|]. apply do_smod; auto; [ord|]. apply do_nil.
  - cbn [hops_ok]. unfold hop1.
    split; [gg; reflexivity|]. split; [left; split; auto; gg; reflexivity|]. split; [exact V2|]. split; [intros u [<-|[<-|[<-|[]]]]; sep|].
    split; [gg; reflexivity|]. split; [left; split; auto; gg; reflexivity|]. split; [exact V2|]. split; [intros u [<-|[<-|[<-|[]]]]; sep|].
    split; [gg; reflexivity|]. split.
    { left. split; auto. gg. rewrite (proj1 Oa), (proj1 Ob), !mask_full by (apply get_range || apply u32_range). cbn [do_mod]. unfold e. rewrite !u32_idem, u32_add_l. reflexivity. }
    split; [exact E2|]. split; [intros u [<-|[<-|[<-|[]]]]; sep|exact I].
  - rewrite !hops_cons, hops_nil in E. eapply mv_does; [exact R| |].
    + rewrite E by nonext. gg. rewrite (proj1 Ov), mask_full by (apply get_range || apply u32_range). apply u32_domod; apply get_range.
    + eapply mv_off; [| |exact E]; auto using wv3. mvs.
Qed.
(* address to X, then a trigger that uses it *)
Lemma addr_any k a b X m : both_const a b = false -> ord_src w m a -> ord_src w m b -> NoDup (svar a ++ svar b) -> patchable w X ->
  let code := VProc T k (addr_vars a b) (addr_acts X a b) in placed w T k code ->
  exists m', runs w (lbl T k, m) (lbl T (k + length code), m') /\ get m' X = item_at m a b /\ mv (tmp (svar a ++ svar b) [X]) m m' /\ length code = 1%nat.
Proof.
  intros Hc Oa Ob Hn PX code Hp. unfold item_at. destruct a as [a|a], b as [b|b]; try discriminate; cbn [ord_src svar sval app addr_vars addr_acts] in *; unfold code.
  - destruct (addr1 k b a X m) as (m' & R & V & F); try tauto. exists m'. auto.
  - destruct (addr1 k a b X m) as (m' & R & V & F); try tauto. exists m'. rewrite Z.add_comm. auto.
  - destruct (addr2 k a b X m) as (m' & R & V & F); try tauto. { inversion Hn as [|x l H1 H2]. intros ->. apply H1. left. reflexivity. } exists m'. auto.
Qed.

Lemma valcell_u32 p : valcell w (u32 p) -> valcell w p.
Proof.
  intros [[[H1 H2] H3] H4]. assert (E : idx (u32 p) = idx p) by (unfold idx, u32; lia). rewrite u32_idem in *. rewrite E in *.
  split; [split; [split; assumption|assumption]|]. exact H4.
Qed.
Lemma value_set md x y : do_mod md x y = item_value (IoSet md) x y.
Proof. destruct md; reflexivity. Qed.
Lemma mv_val S m m' e x : mv S m m' -> ~ S e -> get m e = x -> get m' e = x.
Proof. intros [_ H] N E. rewrite H; auto. Qed.
Lemma notin_tmp vs cells c : patchable w c -> incl vs vars -> (forall x, In x cells -> idx c <> idx x) -> ~ tmp vs cells c.
Proof. intros [_ H] Hi Hc [(u & f & Hu & _ & Q)|(x & Hx & Q)]; [revert Q; apply H; auto|exact (Hc x Hx Q)]. Qed.
Lemma notin_tmp_val vs cells c : valcell w c -> incl vs vars -> (forall x, In x cells -> idx c <> idx x) -> ~ tmp vs cells c.
Proof. intros [_ H] Hi Hc [(u & f & Hu & Hf & Q)|(x & Hx & Q)]; [revert Q; apply H; auto; destruct Hf as [->|[->| ->]]; discriminate|exact (Hc x Hx Q)]. Qed.
Lemma tmp_incl vs vs' cs cs' b : incl vs vs' -> incl cs cs' -> tmp vs cs b -> tmp vs' cs' b.
Proof. intros Hi Hc [(u & f & Hu & Hf & Q)|(x & Hx & Q)]; [left; exists u, f; auto|right; exists x; auto]. Qed.
Lemma src_vars m s : ord_src w m s -> incl (svar s) vars.
Proof. destruct s; intros H x Hx; [destruct Hx|destruct Hx as [<-|[]]; apply H]. Qed.
Lemma two_vars m a b : ord_src w m a -> ord_src w m b -> incl (svar a ++ svar b) vars.
Proof. intros Ha Hb x Hx. apply in_app_or in Hx. destruct Hx; [apply (src_vars m a)|apply (src_vars m b)]; auto. Qed.

Definition args_ok (m : mem) (a b v : src) : Prop :=
  ord_src w m a /\ ord_src w m b /\ ord_src w m v /\ NoDup (svar a ++ svar b ++ svar v).
Definition arg_vars (a b v : src) : list Z := svar a ++ svar b ++ svar v.

Lemma final_trig k1 m0 m1 k e vs X acts y : incl vs vars -> valcell w e -> runs w (lbl T k, m0) (lbl T k1, m1) -> mv (tmp vs [X]) m0 m1 ->
  placed w T k1 [RawTrig [] acts (lbl T (k1 + 1))] -> idx e <> idx X -> forall code, (k + length code = k1 + 1)%nat ->
  forall f, (exists m2, acts_do (W_prot w) m1 acts m2 /\ get m2 e = f (get m1 e) /\ mv (tmp vs (e :: [X])) m1 m2) -> f (get m0 e) = y ->
  does w T k code (tmp vs [X]) m0 [(e, y)].
Proof.
  intros Hi Ve R F Hp Ne code Hl f (m2 & A & V & F2) Hf. eapply mv_does.
  - rewrite Hl. eapply steps_trans; [exact R|]. eapply run_one; eauto.
  - rewrite V, <- Hf. f_equal. apply F. apply notin_tmp_val; auto. intros x [<-|[]]. exact Ne.
  - eapply mv_trans; [|exact F2]. eapply mv_sub; [|exact F]. intros b. apply tmp_incl; [apply incl_refl|]. intros x Hx. right. exact Hx.
Qed.
Lemma nd_parts (a b v : src) : NoDup (svar a ++ svar b ++ svar v) -> NoDup (svar a ++ svar b).
Proof.
  rewrite app_assoc. intros H. clear -H. induction (svar a ++ svar b) as [|x l IH]; [constructor|]. cbn [app] in H. apply NoDup_cons_iff in H. destruct H as [H1 H2].
  apply NoDup_cons_iff. split; auto. intros Q. apply H1, in_or_app. auto.
Qed.

Theorem C51_iset : forall k a b md v m, args_ok m a b v -> let e := item_at m a b in valcell w e ->
  patchable w (T (k + 1)%nat + 86) -> idx e <> idx (T (k + 1)%nat + 86) -> placed w T k (iset T k a b md v) ->
  does w T k (iset T k a b md v) (tmp (arg_vars a b v) [T (k + 1)%nat + 86]) m [(e, item_value (IoSet md) (get m e) (sval m v))].
Proof.
  intros k a b md v m (Oa & Ob & Ov & Nd) e Ve PX Ne Hp. set (X := T (k + 1)%nat + 86) in *. unfold arg_vars. rewrite <- value_set.
  assert (WEAK : forall vs code l, does w T k code (tmp vs []) m l -> does w T k code (tmp vs [X]) m l).
  { intros vs code l (m' & R & [C1 C2] & K). exists m'. split; [exact R|]. split; [|exact K]. split; auto. intros x Hx. apply C2. intros Q. apply Hx. revert Q. apply tmp_incl; [apply incl_refl|intros y []]. }
  unfold iset in *. destruct (both_const a b) eqn:BC.
  - destruct a as [a|a], b as [b|b]; try discriminate. cbn [csum svar app] in *.
    assert (EE : e = u32 (a + b)) by (unfold e, item_at; cbn [sval]; change (u32 (u32 a + u32 b) = u32 (a + b)); rewrite u32_add_l, u32_add_r; reflexivity).
    rewrite EE in *. pose proof (valcell_u32 _ Ve) as Vp. apply WEAK.
    assert (ID : forall x, idx (u32 (a + b)) <> idx x -> idx (a + b) <> idx x) by (intros x Hx; replace (idx (a + b)) with (idx (u32 (a + b))) by (unfold idx, u32; lia); exact Hx).
    destruct v as [v|v].
    + destruct (C27_setdw_const w T k (a + b) md v m (proj1 Vp) Hp) as (m' & R & V & F). exists m'. split; [exact R|]. split; [split|].
      * intros x y [Q|[]]. injection Q as <- <-. rewrite !get_u32. exact V.
      * intros x _ Hx. apply F, ID, (Hx _ _ (or_introl eq_refl)).
      * intros u Hu [O1 O2]. split; rewrite F; auto; apply Vp; auto; discriminate.
    + destruct Ov as [Hv Ov]. pose proof (fun H => send1 w T Hw k v (a + b) md true m Hv Vp Ov H Hp) as ONE. destruct ONE as (m' & R & V & M & F & MK); [discriminate|].
      exists m'. split; [exact R|]. split; [split|].
      * intros x y [Q|[]]. injection Q as <- <-. rewrite !get_u32. exact V.
      * intros x Hs Hx. apply F; [intros Q; apply Hs; left; exact Q|]. apply ID, (Hx _ _ (or_introl eq_refl)).
      * intros u Hu [O1 O2]. destruct (Z.eq_dec u v) as [->|N].
        { split; [rewrite MK; apply Ov|rewrite M; destruct md; reflexivity]. }
        split; rewrite F; auto; try (apply Vp; auto; discriminate); intros (x & g & [<-|[]] & _ & Q); revert Q; apply vsp; auto.
  - destruct v as [v|v].
    + cbn [svar] in *. rewrite app_nil_r in *. unfold and_then in *. fold X in Hp. fold X. destruct (placed_app w T k _ _ Hp) as [P1 P2].
      destruct (addr_any k a b X m BC Oa Ob Nd PX P1) as (m1 & R & V & F & L). rewrite L in *.
      assert (IX : forall md x, mv (tmp (svar a ++ svar b) [e; X]) m1 (upd m1 e (do_mod md (get m1 e) x))) by (intros; apply mv_cell; auto; [left; reflexivity|apply mv_refl]).
      eapply (final_trig (k + 1) m m1 k e _ X); [eapply two_vars; eauto|exact Ve|exact R|exact F|exact P2|exact Ne|rewrite app_length, L; cbn [length]; lia| |].
      { exists (upd m1 e (do_mod md (get m1 e) (u32 v))). split; [|split; [|apply IX]].
        - destruct (proj1 Ve) as [V1 V2]. apply do_cons_D with (a := e); auto; [|apply do_nil]. cbn [rd]. fold X. rewrite V. unfold e, item_at. symmetry. apply (u32_idem (sval m a + sval m b)).
        - rewrite get_upd_eq. rewrite u32_domod by (apply get_range || apply u32_range). instantiate (1 := fun z => do_mod md z (u32 v)). reflexivity. }
      reflexivity.
    + destruct Ov as [Hv Ov]. apply WEAK. unfold e, item_at in *. destruct a as [a|a], b as [b|b]; try discriminate; cbn [ord_src svar sval app addr_vars addr_acts] in *.
      * apply iset_v1; try tauto. apply NoDup_cons_iff in Nd. intros ->. apply Nd. left. reflexivity.
      * rewrite (Z.add_comm (get m (vc a FVal))) in *. apply iset_v1; try tauto. apply NoDup_cons_iff in Nd. intros ->. apply Nd. left. reflexivity.
      * apply NoDup_cons_iff in Nd. destruct Nd as [N1 N2]. apply NoDup_cons_iff in N2. destruct N2 as [N2 _].
        apply iset_v2; try tauto; intros ->; [apply N1; left; reflexivity|apply N1; right; left; reflexivity|apply N2; left; reflexivity].
Qed.

Lemma weak_does k code vs X m l : does w T k code (tmp vs []) m l -> does w T k code (tmp vs [X]) m l.
Proof. intros (m' & R & [C1 C2] & K). exists m'. split; [exact R|]. split; [|exact K]. split; auto. intros x Hx. apply C2. intros Q. apply Hx. revert Q. apply tmp_incl; [apply incl_refl|intros y []]. Qed.
Lemma const_addr (m : mem) a b : item_at m (SConst a) (SConst b) = u32 (a + b).
Proof. unfold item_at. cbn [sval]. change (u32 (u32 a + u32 b) = u32 (a + b)). rewrite u32_add_l, u32_add_r. reflexivity. Qed.
Lemma u32_dox md k d x : 0 <= k < 2^32 -> 0 <= d < 2^32 -> 0 <= x < 2^32 -> u32 (do_modx md k d x) = do_modx md k d x.
Proof. intros. apply u32_small, do_modx_range; assumption. Qed.

Lemma ibit_const_does k a b c mask m : ord_src w m a -> ord_src w m b -> NoDup (svar a ++ svar b) -> let e := item_at m a b in valcell w e ->
  patchable w (T (k + 1)%nat + 86) -> idx e <> idx (T (k + 1)%nat + 86) -> placed w T k (ibit_const T k a b c mask) ->
  does w T k (ibit_const T k a b c mask) (tmp (svar a ++ svar b) [T (k + 1)%nat + 86]) m [(e, do_modx SetTo (u32 mask) (get m e) (u32 c))].
Proof.
  intros Oa Ob Nd e Ve PX Ne Hp. set (X := T (k + 1)%nat + 86) in *. destruct (proj1 Ve) as [V1 V2]. unfold ibit_const in *. destruct (both_const a b) eqn:BC.
  - apply weak_does. destruct a as [a|a], b as [b|b]; try discriminate. cbn [csum svar app] in *.
    eapply mv_does with (m' := upd m e (do_modx SetTo (u32 mask) (get m e) (u32 c))).
    + eapply run_one; [exact Hp|]. apply do_cons_DX with (a := e); auto; [|apply do_nil]. cbn [rd]. unfold e. rewrite const_addr, u32_idem. reflexivity.
    + rewrite get_upd_eq. apply u32_dox; apply get_range || apply u32_range.
    + apply mv_cell; [left; reflexivity|exact Ve|apply mv_refl].
  - unfold and_then in *. fold X in Hp. fold X. destruct (placed_app w T k _ _ Hp) as [P1 P2].
    destruct (addr_any k a b X m BC Oa Ob Nd PX P1) as (m1 & R & V & F & L). rewrite L in *.
    eapply (final_trig (k + 1) m m1 k e _ X); [eapply two_vars; eauto|exact Ve|exact R|exact F|exact P2|exact Ne|rewrite app_length, L; cbn [length]; lia| |].
    { exists (upd m1 e (do_modx SetTo (u32 mask) (get m1 e) (u32 c))). split; [|split].
      - apply do_cons_DX with (a := e); auto; [|apply do_nil]. cbn [rd]. fold X. rewrite V. unfold e, item_at. symmetry. apply (u32_idem (sval m a + sval m b)).
      - rewrite get_upd_eq. rewrite u32_dox by (apply get_range || apply u32_range). instantiate (1 := fun z => do_modx SetTo (u32 mask) z (u32 c)). reflexivity.
      - apply mv_cell; [left; reflexivity|exact Ve|apply mv_refl]. }
    reflexivity.
Qed.

(* the address to X and the variable v to Y in one chain *)
Lemma addr_mask1 k a c v X Y m : a <> v -> In a vars -> In v vars -> ordinary m a -> ordinary m v -> patchable w X -> patchable w Y -> idx X <> idx Y ->
  let code := VProc T k [a; v] ((SetM X SetTo c :: QueueAddTo a X) ++ QueueAssignTo v Y) in placed w T k code ->
  exists m', runs w (lbl T k, m) (lbl T (k + length code), m') /\ get m' X = u32 (u32 c + get m (vc a FVal)) /\ get m' Y = get m (vc v FVal) /\ mv (tmp [a; v] [X; Y]) m m'.
Proof.
  intros N Ha Hv Oa Ov PX PY NXY code Hp. pose proof (patch_val X PX) as VX. pose proof (patch_val Y PY) as VY. destruct (proj1 PX) as [X1 X2]. destruct (proj1 PY) as [Y1 Y2].
  destruct (VProc_hops k [a; v] _ [(a, X, Add); (v, Y, SetTo)] m
    (upd (upd (upd (upd (upd m X (u32 c)) (vc a FDest) (u32 X)) (vc a FMod) (w6 Add)) (vc v FDest) (u32 Y)) (vc v FMod) (w6 SetTo)) Hp) as (m' & R & E); auto using wv2.
  - discriminate.
  - constructor; [intros [Q|[]]; congruence|]. repeat constructor; intros [].
  - unfold QueueAddTo, QueueAssignTo. cbn [app]. nz.
  - unfold QueueAddTo, QueueAssignTo. cbn [app]. apply do_cons_M; auto. cbn [do_mod]. apply do_dest; auto. apply do_smod; auto; [ord|]. apply do_dest; auto. apply do_smod; auto; [ord|]. apply do_nil.
  - cbn [hops_ok]. unfold hop1.
    split; [gg; reflexivity|]. split; [left; split; auto; gg; reflexivity|]. split; [exact X2|]. split; [intros u [<-|[<-|[]]]; sep|].
    split; [gg; reflexivity|]. split; [left; split; auto; gg; reflexivity|]. split; [exact Y2|]. split; [intros u [<-|[<-|[]]]; sep|exact I].
  - exists m'. split; [exact R|]. rewrite !hops_cons, hops_nil in E. split; [|split].
    + rewrite E by nonext. gg. rewrite (proj1 Oa), mask_full by (apply get_range || apply u32_range). apply u32_domod; apply get_range || apply u32_range.
    + rewrite E by nonext. gg. rewrite (proj1 Ov), mask_full by (apply get_range || apply u32_range). apply u32_domod; apply get_range.
    + eapply mv_off; [| |exact E]; auto using wv2. mvs.
Qed.
Lemma addr_mask2 k a b v X Y m : a <> b -> a <> v -> b <> v -> In a vars -> In b vars -> In v vars -> ordinary m a -> ordinary m b -> ordinary m v ->
  patchable w X -> patchable w Y -> idx X <> idx Y ->
  let code := VProc T k [a; b; v] ((QueueAssignTo a X ++ QueueAddTo b X) ++ QueueAssignTo v Y) in placed w T k code ->
  exists m', runs w (lbl T k, m) (lbl T (k + length code), m') /\ get m' X = u32 (get m (vc a FVal) + get m (vc b FVal)) /\ get m' Y = get m (vc v FVal) /\ mv (tmp [a; b; v] [X; Y]) m m'.
Proof.
  intros N N2 N3 Ha Hb Hv Oa Ob Ov PX PY NXY code Hp. pose proof (patch_val X PX) as VX. pose proof (patch_val Y PY) as VY. destruct (proj1 PX) as [X1 X2]. destruct (proj1 PY) as [Y1 Y2].
  destruct (VProc_hops k [a; b; v] _ [(a, X, SetTo); (b, X, Add); (v, Y, SetTo)] m
    (upd (upd (upd (upd (upd (upd m (vc a FDest) (u32 X)) (vc a FMod) (w6 SetTo)) (vc b FDest) (u32 X)) (vc b FMod) (w6 Add)) (vc v FDest) (u32 Y)) (vc v FMod) (w6 SetTo)) Hp) as (m' & R & E); auto using wv3.
  - discriminate.
  - constructor; [intros [Q|[Q|[]]]; congruence|]. constructor; [intros [Q|[]]; congruence|]. repeat constructor; intros [].
  - unfold QueueAddTo, QueueAssignTo. cbn [app]. nz.
  - unfold QueueAddTo, QueueAssignTo. cbn [app]. apply do_dest; auto. apply do_smod; auto; [ord|]. apply do_dest; auto. apply do_smod; auto; [ord|]. apply do_dest; auto. apply do_smod; auto; [ord|]. apply do_nil.
  - cbn [hops_ok]. unfold hop1.
    split; [gg; reflexivity|]. split; [left; split; auto; gg; reflexivity|]. split; [exact X2|]. split; [intros u [<-|[<-|[<-|[]]]]; sep|].
    split; [gg; reflexivity|]. split; [left; split; auto; gg; reflexivity|]. split; [exact X2|]. split; [intros u [<-|[<-|[<-|[]]]]; sep|].
    split; [gg; reflexivity|]. split; [left; split; auto; gg; reflexivity|]. split; [exact Y2|]. split; [intros u [<-|[<-|[<-|[]]]]; sep|exact I].
  - exists m'. split; [exact R|]. rewrite !hops_cons, hops_nil in E. split; [|split].
    + rewrite E by nonext. gg. rewrite (proj1 Oa), (proj1 Ob), !mask_full by (apply get_range || apply u32_range). cbn [do_mod]. rewrite u32_idem, u32_add_l. reflexivity.
    + rewrite E by nonext. gg. rewrite (proj1 Ov), mask_full by (apply get_range || apply u32_range). apply u32_domod; apply get_range.
    + eapply mv_off; [| |exact E]; auto using wv3. mvs.
Qed.
Lemma addr_mask0 k v Y m : In v vars -> ordinary m v -> patchable w Y -> let code := VProc T k [v] ([] ++ QueueAssignTo v Y) in placed w T k code ->
  exists m', runs w (lbl T k, m) (lbl T (k + length code), m') /\ get m' Y = get m (vc v FVal) /\ mv (tmp [v] [Y]) m m'.
Proof.
  intros Hv Ov PY code Hp. pose proof (patch_val Y PY) as VY. destruct (proj1 PY) as [Y1 Y2].
  destruct (VProc_hops k [v] _ [(v, Y, SetTo)] m (upd (upd m (vc v FDest) (u32 Y)) (vc v FMod) (w6 SetTo)) Hp) as (m' & R & E); auto using wv1.
  - discriminate.
  - repeat constructor; intros [].
  - unfold QueueAssignTo. cbn [app]. nz.
  - unfold QueueAssignTo. cbn [app]. apply do_dest; auto. apply do_smod; auto; [ord|]. apply do_nil.
  - cbn [hops_ok]. split; [gg; reflexivity|]. split; [left; split; auto; gg; reflexivity|]. split; [exact Y2|]. split; [intros u [<-|[]]; sep|exact I].
  - exists m'. split; [exact R|]. rewrite !hops_cons, hops_nil in E. split.
    + rewrite E by nonext. gg. rewrite (proj1 Ov), mask_full by (apply get_range || apply u32_range). apply u32_domod; apply get_range.
    + eapply mv_off; [| |exact E]; auto using wv1. mvs.
Qed.
Lemma addr_mask k a b v X Y m : args_ok m a b (SVar v) -> patchable w X -> patchable w Y -> idx X <> idx Y ->
  let code := VProc T k (addr_vars a b ++ [v]) (addr_acts X a b ++ QueueAssignTo v Y) in placed w T k code ->
  exists m', runs w (lbl T k, m) (lbl T (k + length code), m') /\ (both_const a b = false -> get m' X = item_at m a b) /\ get m' Y = get m (vc v FVal) /\
    mv (tmp (arg_vars a b (SVar v)) [X; Y]) m m' /\ length code = 1%nat.
Proof.
  intros (Oa & Ob & [Hv Ov] & Nd) PX PY NXY code Hp. unfold item_at, arg_vars. destruct a as [a|a], b as [b|b]; cbn [ord_src svar sval app addr_vars addr_acts both_const] in *; unfold code.
  - destruct (addr_mask0 k v Y m) as (m' & R & V & F); auto. exists m'. split; [exact R|]. split; [discriminate|]. split; [exact V|]. split; [|reflexivity].
    eapply mv_sub; [|exact F]. intros x. apply tmp_incl; [apply incl_refl|]. intros y [<-|[]]. right. left. reflexivity.
  - destruct (addr_mask1 k b a v X Y m) as (m' & R & V & V' & F); try tauto. { apply NoDup_cons_iff in Nd. intros ->. apply Nd. left. reflexivity. } exists m'. auto.
  - destruct (addr_mask1 k a b v X Y m) as (m' & R & V & V' & F); try tauto. { apply NoDup_cons_iff in Nd. intros ->. apply Nd. left. reflexivity. } exists m'. rewrite (Z.add_comm (get m (vc a FVal))). auto.
  - apply NoDup_cons_iff in Nd. destruct Nd as [N1 N2]. apply NoDup_cons_iff in N2. destruct N2 as [N2 _].
    destruct (addr_mask2 k a b v X Y m) as (m' & R & V & V' & F); try tauto; try (intros ->; first [apply N1; left; reflexivity|apply N1; right; left; reflexivity|apply N2; left; reflexivity]).
    exists m'. auto.
Qed.

Definition bit_off (neg : bool) : Z := if neg then 98 else 82.
Lemma flip_mask x : 0 <= x < 2^32 -> wadd 0xAAAAAAAA (wadd 0x55555555 x (u32 (-1))) (u32 (-1)) = 0xFFFFFFFF - x.
Proof. intros Hx. rewrite <- xor_ones by exact Hx. apply (xor_two_adds x (u32 (-1)) Hx). apply u32_range. Qed.
Lemma ibit_var_does k a b v c neg m : args_ok m a b (SVar v) -> let e := item_at m a b in valcell w e ->
  let Y := T (k + 1)%nat + bit_off neg in let X := Y + 4 in patchable w X -> patchable w Y -> idx X <> idx Y -> idx e <> idx X -> idx e <> idx Y ->
  placed w T k (ibit_var T k a b v c neg) ->
  does w T k (ibit_var T k a b v c neg) (tmp (arg_vars a b (SVar v)) [X; Y]) m
    [(e, do_modx SetTo (let x := get m (vc v FVal) in if neg then 0xFFFFFFFF - x else x) (get m e) (u32 c))].
Proof.
  intros Ao e Ve Y X PX PY NXY NEX NEY Hp. pose proof (patch_val Y PY) as VY. destruct (proj1 PY) as [Y1 Y2]. destruct (proj1 Ve) as [E1 E2].
  unfold ibit_var, and_then in *. change (if neg then 98 else 82) with (bit_off neg) in *. fold Y in Hp. fold X in Hp. fold Y. fold X.
  destruct (placed_app w T k _ _ Hp) as [P1 P2]. destruct (addr_mask k a b v X Y m Ao PX PY NXY P1) as (m1 & R & V & VV & F & L). rewrite L in *. fold Y in P2. fold X in P2.
  assert (Hi : incl (arg_vars a b (SVar v)) vars).
  { destruct Ao as (Oa & Ob & Ov & _). unfold arg_vars. intros x Hx. apply in_app_or in Hx. destruct Hx as [Hx|Hx]; [eapply src_vars; [exact Oa|exact Hx]|]. apply in_app_or in Hx. destruct Hx; [eapply src_vars; [exact Ob|]|eapply src_vars; [exact Ov|]]; assumption. }
  assert (EE : get m1 e = get m e) by (apply F; apply notin_tmp_val; auto; intros x [<-|[<-|[]]]; assumption).
  set (pre := if neg then [SetMX Y Add (-1) 0x55555555; SetMX Y Add (-1) 0xAAAAAAAA] else []) in *. set (x := get m (vc v FVal)) in *.
  set (f := if neg then 0xFFFFFFFF - x else x).
  assert (PRE : exists m2, acts_do (W_prot w) m1 pre m2 /\ get m2 Y = f /\ mv (tmp (arg_vars a b (SVar v)) [X; Y]) m m2 /\ forall z, idx Y <> idx z -> get m2 z = get m1 z).
  { unfold pre, f. destruct neg.
    - eexists. split; [apply do_cons_MX; auto; apply do_cons_MX; auto; apply do_nil|]. split; [|split].
      + rewrite !get_upd_eq. change (u32 0x55555555) with 0x55555555. change (u32 0xAAAAAAAA) with 0xAAAAAAAA. rewrite VV.
        pose proof (get_range m (vc v FVal)) as Rx. fold x in Rx.
        rewrite (u32_dox Add 0x55555555 x (u32 (-1))) by (lia || apply u32_range). cbn [do_modx]. rewrite flip_mask by exact Rx. apply u32_small. lia.
      + apply mv_cell; [right; left; reflexivity|exact VY|]. apply mv_cell; [right; left; reflexivity|exact VY|]. exact F.
      + intros z Hz. rewrite !get_upd_ne by exact Hz. reflexivity.
    - exists m1. split; [apply do_nil|]. auto. }
  destruct PRE as (m2 & A2 & V2 & F2 & G2).
  assert (Rf : 0 <= f < 2^32) by (rewrite <- V2; apply get_range).
  eapply mv_does with (m' := upd m2 e (do_modx SetTo f (get m2 e) (u32 c))).
  - rewrite app_length, L, Nat.add_assoc. eapply steps_trans; [exact R|]. eapply run_one; [exact P2|]. eapply do_app; [|exact A2|].
    + unfold pre. destruct neg; nz.
    + apply do_cons_DX with (a := e); auto; [|cbn [rd]; rewrite V2; apply do_nil]. destruct (both_const a b) eqn:BC; cbn [rd].
      * destruct a as [a|a], b as [b|b]; try discriminate. unfold e. rewrite const_addr, u32_idem. reflexivity.
      * rewrite G2 by (apply nsym; exact NXY). rewrite V by reflexivity. unfold e, item_at. symmetry. apply (u32_idem (sval m a + sval m b)).
  - rewrite get_upd_eq, u32_dox by (exact Rf || apply get_range || apply u32_range). rewrite G2, EE by (apply nsym; exact NEY). reflexivity.
  - apply mv_cell; [left; reflexivity|exact Ve|]. eapply mv_sub; [|exact F2]. intros z. apply tmp_incl; [apply incl_refl|]. intros y Hy. right. exact Hy.
Qed.

(* the cells of the trigger after the first one that are overwritten *)
Definition bit_cells (k : nat) (neg : bool) (v : src) : list Z :=
  match v with SConst _ => [T (k + 1)%nat + 86] | SVar _ => [T (k + 1)%nat + bit_off neg + 4; T (k + 1)%nat + bit_off neg] end.
Definition cells_ok (e : Z) (l : list Z) : Prop := NoDup (map idx l) /\ forall x, In x l -> patchable w x /\ idx e <> idx x.
Lemma cells_two e x y : cells_ok e [x; y] -> patchable w x /\ patchable w y /\ idx x <> idx y /\ idx e <> idx x /\ idx e <> idx y.
Proof.
  intros [N H]. destruct (H x) as [A1 A2]; [left; reflexivity|]. destruct (H y) as [B1 B2]; [right; left; reflexivity|]. apply NoDup_cons_iff in N. destruct N as [N _].
  repeat split; auto; try apply A1; try apply B1. intros Q. apply N. left. auto.
Qed.
Theorem C51_iand : forall k a b v m, args_ok m a b v -> let e := item_at m a b in valcell w e -> cells_ok e (bit_cells k true v) ->
  placed w T k (iand T k a b v) ->
  does w T k (iand T k a b v) (tmp (arg_vars a b v) (bit_cells k true v)) m [(e, item_value IoAnd (get m e) (sval m v))].
Proof.
  intros k a b v m Ao e Ve Hc Hp. cbn [item_value]. destruct v as [v|v]; cbn [iand bit_cells sval] in *.
  - destruct Ao as (Oa & Ob & _ & Nd). destruct (proj2 Hc _ (or_introl eq_refl)) as [PX Ne]. unfold arg_vars. cbn [svar] in *. rewrite app_nil_r in *.
    rewrite <- (wset_and (get m e) (u32 v)), <- u32_lnot by (apply get_range || apply u32_range). apply ibit_const_does; assumption.
  - apply cells_two in Hc. destruct Hc as (H1 & H2 & H3 & H4 & H5). rewrite <- wset_and by apply get_range. apply (ibit_var_does k a b v 0 true m); assumption.
Qed.
Theorem C51_ior : forall k a b v m, args_ok m a b v -> let e := item_at m a b in valcell w e -> cells_ok e (bit_cells k false v) ->
  placed w T k (ior T k a b v) ->
  does w T k (ior T k a b v) (tmp (arg_vars a b v) (bit_cells k false v)) m [(e, item_value IoOr (get m e) (sval m v))].
Proof.
  intros k a b v m Ao e Ve Hc Hp. cbn [item_value]. destruct v as [v|v]; cbn [ior bit_cells sval] in *.
  - destruct Ao as (Oa & Ob & _ & Nd). destruct (proj2 Hc _ (or_introl eq_refl)) as [PX Ne]. unfold arg_vars. cbn [svar] in *. rewrite app_nil_r in *.
    rewrite <- (wset_or (get m e) (u32 v)) by (apply get_range || apply u32_range). apply (ibit_const_does k a b (-1) v m); assumption.
  - apply cells_two in Hc. destruct Hc as (H1 & H2 & H3 & H4 & H5). rewrite <- wset_or by apply get_range. apply (ibit_var_does k a b v (-1) false m); assumption.
Qed.

(* ---------- operations through the current player ---------- *)
Section CP.
Variable K : Z.
Hypothesis HK : In K vars.
Hypothesis PC : patchable w CPcell.

(* 142-150: a variable keeps its destination and modifier, so a second VProc adds it again *)
Lemma again k a X m : In a vars -> ordinary m a -> patchable w X -> get m (vc a FDest) = u32 X -> get m (vc a FMod) = w6 Add -> placed w T k (VProc T k [a] []) ->
  exists m', runs w (lbl T k, m) (lbl T (k + length (VProc T k [a] [])), m') /\ get m' X = u32 (get m X + get m (vc a FVal)) /\ mv (tmp [a] [X]) m m'.
Proof.
  intros Ha Oa PX Hd Hm Hp. pose proof (patch_val X PX) as VX. destruct (proj1 PX) as [X1 X2].
  destruct (VProc_hops k [a] [] [(a, X, Add)] m m Hp) as (m' & R & E); auto using wv1.
  - discriminate.
  - repeat constructor; intros [].
  - nz.
  - apply do_nil.
  - cbn [hops_ok]. split; [exact Hm|]. split; [left; auto|]. split; [exact X2|]. split; [intros u [<-|[]]; sep|exact I].
  - exists m'. split; [exact R|]. rewrite hops_cons, hops_nil in E. split.
    + rewrite E by nonext. rewrite get_upd_eq. rewrite (proj1 Oa), mask_full by apply get_range. cbn [do_mod]. apply u32_idem.
    + eapply mv_off; [| |exact E]; auto using wv1. mvs.
Qed.
Lemma addr1x k a c X m : In a vars -> ordinary m a -> patchable w X -> let code := VProc T k [a] (SetM X SetTo c :: QueueAddTo a X) in placed w T k code ->
  exists m', runs w (lbl T k, m) (lbl T (k + length code), m') /\ get m' X = u32 (u32 c + get m (vc a FVal)) /\ mv (tmp [a] [X]) m m' /\
    get m' (vc a FDest) = u32 X /\ get m' (vc a FMod) = w6 Add /\ get m' (vc a FVal) = get m (vc a FVal).
Proof.
  intros Ha Oa PX code Hp. pose proof (patch_val X PX) as VX. destruct (proj1 PX) as [X1 X2].
  destruct (VProc_hops k [a] _ [(a, X, Add)] m (upd (upd (upd m X (u32 c)) (vc a FDest) (u32 X)) (vc a FMod) (w6 Add)) Hp) as (m' & R & E); auto using wv1.
  - discriminate.
  - repeat constructor; intros [].
  - unfold QueueAddTo. nz.
  - apply do_cons_M; auto. cbn [do_mod]. apply do_dest; auto. apply do_smod; auto; [|apply do_nil]. ord.
  - cbn [hops_ok]. split; [gg; reflexivity|]. split; [left; split; auto; gg; reflexivity|]. split; [exact X2|]. split; [intros u [<-|[]]; sep|exact I].
  - exists m'. split; [exact R|]. rewrite hops_cons, hops_nil in E. split; [|split; [|split; [|split]]].
    + rewrite E by nonext. gg. rewrite (proj1 Oa), mask_full by (apply get_range || apply u32_range). apply u32_domod; apply get_range || apply u32_range.
    + eapply mv_off; [| |exact E]; auto using wv1. mvs.
    + rewrite E by nonext. gg. reflexivity.
    + rewrite E by nonext. gg. reflexivity.
    + rewrite E by nonext. gg. reflexivity.
Qed.
Lemma nd1 (x : Z) : NoDup [x].
Proof. constructor; [intros []|constructor]. Qed.
Lemma cpset_run k a b m : ord_src w m a -> ord_src w m b -> placed w T k (cpset T k a b) ->
  exists m', runs w (lbl T k, m) (lbl T (k + length (cpset T k a b)), m') /\ get m' CPcell = (if both_const a b then get m CPcell else item_at m a b) /\
    mv (tmp (svar a ++ svar b) (if both_const a b then [] else [CPcell])) m m'.
Proof.
  intros Oa Ob Hp. unfold cpset in *. destruct (both_const a b) eqn:BC.
  - exists m. split; [rewrite Nat.add_0_r; apply steps_refl|]. split; [reflexivity|apply mv_refl].
  - destruct (same_var a b) eqn:SV.
    + destruct a as [a|a], b as [b|b]; try discriminate. cbn [same_var] in SV. apply Z.eqb_eq in SV. subst b. destruct Oa as [Ha Oa]. cbn [svar app].
      set (c1 := VProc T k [a] (SetM CPcell SetTo 0 :: QueueAddTo a CPcell)) in *. destruct (placed_app w T k c1 _ Hp) as [P1 P2].
      destruct (addr1x k a 0 CPcell m Ha Oa PC P1) as (m1 & R1 & V1 & F1 & D1 & M1 & X1). fold c1 in R1.
      destruct (again (k + length c1) a CPcell m1 Ha (proj1 F1 a Ha Oa) PC D1 M1 P2) as (m2 & R2 & V2 & F2).
      exists m2. split; [rewrite app_length, Nat.add_assoc; eapply steps_trans; eassumption|]. split.
      * rewrite V2, V1, X1. unfold item_at. cbn [sval]. rewrite u32_add_l. change (u32 0) with 0. rewrite Z.add_0_l. reflexivity.
      * eapply mv_sub; [|eapply mv_trans; eassumption]. intros x. apply tmp_incl; [|apply incl_refl]. intros y [<-|[]]. left. reflexivity.
    + destruct (addr_any k a b CPcell m BC Oa Ob) as (m' & R & V & F & _); auto; [|exists m'; auto].
      destruct a as [a|a], b as [b|b]; try discriminate; cbn [svar app]; [apply nd1|apply nd1|]. constructor; [|apply nd1]. intros [Q|[]]. subst. cbn [same_var] in SV. rewrite Z.eqb_refl in SV. discriminate.
Qed.

(* player d denotes item e *)
Definition at_item (m : mem) (d e : Z) : Prop :=
  (d = 13 /\ get m CPcell = e /\ idx e <> idx CPcell) \/ (u32 d = u32 e /\ plain e).
Lemma at_frame m m' d e : at_item m d e -> get m' CPcell = get m CPcell -> at_item m' d e.
Proof. intros [(A & B & C)|A] H; [left|right; exact A]. split; [exact A|]. split; congruence. Qed.
Lemma at_step m d e x : at_item m d e -> at_item (upd m e x) d e.
Proof. intros [(A & B & C)|A]; [left|right; exact A]. split; [exact A|]. split; [|exact C]. rewrite get_upd_ne; auto. Qed.
Lemma item_X m d e md c k r m' : at_item m d e -> W_prot w (idx e) = false ->
  acts_do (W_prot w) (upd m e (do_modx md (u32 k) (get m e) (u32 c))) r m' -> acts_do (W_prot w) m (SetDX (Imm d) md (Imm c) (Imm k) :: r) m'.
Proof.
  intros [(A & B & C)|[A A']] Hpr H.
  - subst d. apply do_cons_cp; rewrite B; auto.
  - apply do_cons_DX with (a := e); auto.
Qed.
Lemma item_D m d e md c r m' : at_item m d e -> W_prot w (idx e) = false ->
  acts_do (W_prot w) (upd m e (do_mod md (get m e) (u32 c))) r m' -> acts_do (W_prot w) m (SetD (Imm d) md (Imm c) :: r) m'.
Proof.
  intros [(A & B & C)|[A A']] Hpr H.
  - subst d. apply do_cons_cpD; rewrite ?B; auto. cbn [rd]. apply u32_range.
  - apply do_cons_D with (a := e); auto.
Qed.
Definition turns (m : mem) (acts : list act) (e y : Z) (m' : mem) : Prop :=
  acts_do (W_prot w) m acts m' /\ get m' e = y /\ forall b, idx e <> idx b -> get m' b = get m b.
Lemma dacts_do d e : W_prot w (idx e) = false -> forall ops m, at_item m d e -> exists m', turns m (dacts d ops) e (runx (get m e) ops) m'.
Proof.
  intros Hpr. induction ops as [|[[md c] k] ops IH]; intros m Ha; cbn [dacts map].
  - exists m. split; [apply do_nil|]. split; [reflexivity|auto].
  - destruct (IH (upd m e (do_modx md (u32 k) (get m e) (u32 c))) (at_step _ _ _ _ Ha)) as (m' & A & B & C).
    exists m'. split; [eapply item_X; eauto|]. split.
    + rewrite B, get_upd_eq. cbn [runx fold_left]. fold (runx (do_modx md (u32 k) (get m e) (u32 c)) ops).
      f_equal. apply u32_small. apply do_modx_range; auto using u32_range, get_range.
    + intros b Hb. rewrite C, get_upd_ne by auto. reflexivity.
Qed.
Lemma dacts_nz d ops : nonzero_acts (dacts d ops).
Proof. intros x Hx. unfold dacts in Hx. apply in_map_iff in Hx. destruct Hx as ([[md c] k] & <- & _). intros m. apply type_SetMX. Qed.
Lemma SetD_nz d md c : forall m, act_type (rd m (a_w6 (SetD (Imm d) md (Imm c)))) <> 0.
Proof. intros m. apply type_SetM. Qed.

(* the final trigger of cpset *)
Lemma cptrg_run k a b acts e y m m1 : valcell w e -> idx e <> idx (vc K FVal) -> idx e <> idx CPcell -> ordinary m K -> get m (vc K FMod) = w6 SetTo ->
  nonzero_acts acts -> turns m acts e y m1 -> placed w T k (cptrg T k K a b acts) ->
  exists m', runs w (lbl T k, m) (lbl T (k + length (cptrg T k K a b acts)), m') /\ get m' e = y /\
    get m' CPcell = (if both_const a b then get m CPcell else get m (vc K FVal)) /\ get m' (vc K FMod) = w6 SetTo /\
    mv (tmp [K] (e :: if both_const a b then [] else [CPcell])) m m'.
Proof.
  intros Ve NK NC Ok Km Hnz (A & V & F) Hp. unfold cptrg in *. pose proof (patch_val CPcell PC) as VC. destruct (proj1 PC) as [C1 C2].
  assert (M1 : forall l, mv (tmp [K] (e :: l)) m m1).
  { intros l. split.
    - intros u Hu [O1 O2]. split; rewrite F; auto; apply Ve; auto; discriminate.
    - intros b0 Hb. apply F. intros Q. apply Hb. right. exists e. split; [left; reflexivity|auto]. }
  assert (KF : forall f, get m1 (vc K f) = get m (vc K f)) by (intros f; apply F; destruct f; first [exact NK|apply Ve; [exact HK|discriminate]]).
  destruct (both_const a b).
  - exists m1. split; [eapply run_one; eauto|]. split; [exact V|]. split; [apply F; exact NC|]. split; [rewrite KF; exact Km|]. apply M1.
  - destruct (VProc_hops k [K] _ [(K, CPcell, SetTo)] m (upd m1 (vc K FDest) (u32 CPcell)) Hp) as (m' & R & E); auto using wv1.
    + discriminate.
    + repeat constructor; intros [].
    + intros x Hx. apply in_app_or in Hx. destruct Hx as [Hx|Hx]; [apply Hnz; exact Hx|]. revert x Hx. change (nonzero_acts [SetDest K CPcell]). nz.
    + eapply do_app; [exact Hnz|exact A|]. apply do_dest; auto. apply do_nil.
    + cbn [hops_ok]. split; [gg; rewrite KF; exact Km|]. split; [left; split; auto; gg; reflexivity|]. split; [exact C2|]. split; [intros u [<-|[]]; sep|exact I].
    + exists m'. split; [exact R|]. rewrite hops_cons, hops_nil in E. split; [|split; [|split]].
      * rewrite E by nonext. gg. exact V.
      * rewrite E by nonext. gg. rewrite !KF, (proj1 Ok), mask_full by apply get_range. apply u32_domod; apply get_range.
      * rewrite E by nonext. gg. rewrite KF. exact Km.
      * eapply mv_off; [| |exact E]; auto using wv1. apply mv_cell; [right; left; reflexivity|exact VC|]. apply mv_dest; [left; reflexivity|exact HK|]. apply M1.
Qed.
Lemma at_start a b m m1 : let e := item_at m a b in valcell w e -> idx e <> idx CPcell -> get m1 CPcell = (if both_const a b then get m CPcell else e) -> at_item m1 (cpdst a b) e.
Proof.
  intros e Ve NC H. unfold cpdst. destruct (both_const a b) eqn:BC; [right|left; auto].
  destruct a as [a|a], b as [b|b]; try discriminate. cbn [csum]. unfold e. rewrite const_addr, u32_idem. split; [reflexivity|]. fold (item_at m (SConst a) (SConst b)).
  rewrite <- (const_addr m). apply Ve.
Qed.

(* Run the code: item e gets y; the current player becomes its cached value when
   it was used; nothing else changes but transfer fields. *)
Definition through (k : nat) (code : list trig) (a b : src) (vs : list Z) (m : mem) (e y : Z) : Prop :=
  exists m', runs w (lbl T k, m) (lbl T (k + length code), m') /\ changes (tmp (K :: vs) [CPcell]) m m' [(e, y)] /\ keeps w m m' /\
    get m' CPcell = (if both_const a b then get m CPcell else get m (vc K FVal)) /\ get m' (vc K FMod) = w6 SetTo.
Definition cache_ok (m : mem) (vs : list Z) (e : Z) : Prop :=
  ordinary m K /\ get m (vc K FMod) = w6 SetTo /\ ~ In K vs /\ idx e <> idx (vc K FVal) /\ idx e <> idx CPcell.

Lemma mv_through k code a b vs m m' e y : runs w (lbl T k, m) (lbl T (k + length code), m') -> get m' e = y ->
  get m' CPcell = (if both_const a b then get m CPcell else get m (vc K FVal)) -> get m' (vc K FMod) = w6 SetTo ->
  mv (tmp (K :: vs) [e; CPcell]) m m' -> through k code a b vs m e y.
Proof.
  intros R V C M [F1 F2]. exists m'. split; [exact R|]. split; [|auto]. split.
  - intros x z [E|[]]. congruence.
  - intros x Hx Hn. apply F2. intros [Q|(c & [<-|Hc] & Q)]; [apply Hx; left; exact Q| |apply Hx; right; eauto]. apply (Hn e y); [left; reflexivity|congruence].
Qed.
Lemma K_out vs cells f : incl vs vars -> ~ In K vs -> (forall c, In c cells -> idx (vc K f) <> idx c) -> ~ tmp vs cells (vc K f).
Proof. intros Hi N Hc [(u & g & Hu & _ & Q)|(c & Hx & Q)]; [|exact (Hc c Hx Q)]. revert Q. apply vsp; auto. left. intros ->. contradiction. Qed.

Theorem ops_through k a b ops m : ord_src w m a -> ord_src w m b -> let e := item_at m a b in valcell w e -> cache_ok m (svar a ++ svar b) e ->
  let code := and_then (cpset T k a b) (fun k1 => cptrg T k1 K a b (dacts (cpdst a b) ops)) k in placed w T k code ->
  through k code a b (svar a ++ svar b) m e (runx (get m e) ops).
Proof.
  intros Oa Ob e Ve (Ok & Km & NK & NKe & NC) code Hp. pose proof (two_vars m a b Oa Ob) as Hi. unfold code, and_then in *. clear code.
  set (c1 := cpset T k a b) in *. destruct (placed_app w T k c1 _ Hp) as [P1 P2].
  destruct (cpset_run k a b m Oa Ob P1) as (m1 & R1 & V1 & F1). fold c1 in R1.
  assert (CL : forall c, In c (if both_const a b then [] else [CPcell]) -> c = CPcell) by (destruct (both_const a b); intros c Q; [destruct Q|destruct Q as [<-|[]]; reflexivity]).
  assert (KF : forall f, get m1 (vc K f) = get m (vc K f)) by (intros f; apply F1; apply K_out; auto; intros c Hc; rewrite (CL c Hc); sep).
  assert (EE : get m1 e = get m e) by (apply F1; apply notin_tmp_val; auto; intros c Hc; rewrite (CL c Hc); exact NC).
  pose proof (at_start a b m m1 Ve NC V1) as At. fold e in At.
  destruct (dacts_do (cpdst a b) e (proj2 (proj1 Ve)) ops m1 At) as (m2 & TU).
  destruct (cptrg_run (k + length c1) a b (dacts (cpdst a b) ops) e (runx (get m1 e) ops) m1 m2 Ve NKe NC (proj1 F1 K HK Ok)) as (m' & R & V & C & M & F); [rewrite KF; exact Km|apply dacts_nz|exact TU|exact P2|].
  eapply mv_through with (m' := m').
  - rewrite app_length, Nat.add_assoc. eapply steps_trans; eassumption.
  - rewrite V, EE. reflexivity.
  - rewrite C, V1, KF. destruct (both_const a b); reflexivity.
  - exact M.
  - eapply mv_trans; [eapply mv_sub; [|exact F1]|eapply mv_sub; [|exact F]]; intros x; apply tmp_incl.
    + intros y Hy. right. exact Hy.
    + intros y Hy. rewrite (CL y Hy). right. left. reflexivity.
    + intros y [<-|[]]. left. reflexivity.
    + intros y [<-|Hy]; [left; reflexivity|]. rewrite (CL y Hy). right. left. reflexivity.
Qed.

Theorem C51_ilshift : forall k a b n m, ord_src w m a -> ord_src w m b -> 1 <= n -> let e := item_at m a b in valcell w e -> cache_ok m (svar a ++ svar b) e ->
  placed w T k (ilshift T k K a b n) ->
  through k (ilshift T k K a b n) a b (svar a ++ svar b) m e (item_value IoShl (get m e) n).
Proof.
  intros k a b n m Oa Ob Hn e Ve Hc Hp. unfold ilshift in *. destruct (Z.eqb_spec n 0); [lia|]. cbn [item_value].
  replace (Z.shiftl (get m e) n mod 2^32) with (runx (get m e) (ilshift_ops n (Z.to_nat (32 - n)))); [apply ops_through; assumption|].
  transitivity (u32 (Z.shiftl (get m e) n)); [|reflexivity]. rewrite <- ilshift_val by (lia || apply get_range). f_equal.
  generalize (Z.to_nat (32 - n)) as t. induction t as [|t IH]; cbn [ilshift_ops il_ops app]; rewrite ?shmask_half, ?shmask_ones by lia; [reflexivity|]. rewrite IH. reflexivity.
Qed.
Theorem C51_irshift : forall k a b n m, ord_src w m a -> ord_src w m b -> 1 <= n -> let e := item_at m a b in valcell w e -> cache_ok m (svar a ++ svar b) e ->
  placed w T k (irshift T k K a b n) ->
  through k (irshift T k K a b n) a b (svar a ++ svar b) m e (item_value IoShr (get m e) n).
Proof.
  intros k a b n m Oa Ob Hn e Ve Hc Hp. unfold irshift in *. destruct (Z.eqb_spec n 0); [lia|]. cbn [item_value].
  replace (Z.shiftr (get m e) n) with (runx (get m e) (irshift_ops n)); [apply ops_through; assumption|].
  rewrite <- (irshift_val n (get m e)) by (lia || apply get_range). f_equal. unfold irshift_ops, ir_ops. rewrite shmask_half, shmask_ones by lia. reflexivity.
Qed.
Theorem C51_ixor_const : forall k a b c m, ord_src w m a -> ord_src w m b -> let e := item_at m a b in valcell w e -> cache_ok m (svar a ++ svar b) e ->
  placed w T k (ixor T k K a b (SConst c)) ->
  through k (ixor T k K a b (SConst c)) a b (svar a ++ svar b) m e (item_value IoXor (get m e) (u32 c)).
Proof.
  intros k a b c m Oa Ob e Ve Hc Hp. cbn [ixor item_value] in *.
  replace (Z.lxor (get m e) (u32 c)) with (runx (get m e) [(Add, c, 0x55555555); (Add, c, 0xAAAAAAAA)]); [apply ops_through; assumption|].
  cbn [runx fold_left do_modx]. change (u32 0x55555555) with k5. change (u32 0xAAAAAAAA) with kA. apply xor_two_adds; [apply get_range|apply u32_range].
Qed.

(* isub: negate, add, negate *)
Definition neg_acts (d : Z) : list act := dacts d isub_ops ++ [SetD (Imm d) Add (Imm 1)].
Lemma neg_turns d e m : valcell w e -> at_item m d e -> exists m', turns m (neg_acts d) e (u32 (- get m e)) m'.
Proof.
  intros Ve Ha. pose proof (proj2 (proj1 Ve)) as Hpr. destruct (dacts_do d e Hpr isub_ops m Ha) as (m1 & A & B & C).
  assert (H1 : at_item m1 d e).
  { destruct Ha as [(Q1 & Q2 & Q3)|Q]; [left|right; exact Q]. rewrite (C _ Q3). auto. }
  exists (upd m1 e (do_mod Add (get m1 e) (u32 1))). split; [|split].
  - eapply do_app; [apply dacts_nz|exact A|]. eapply item_D; [exact H1|exact Hpr|]. apply do_nil.
  - rewrite get_upd_eq, B. cbn [do_mod runx fold_left isub_ops do_modx]. change (u32 0x55555555) with 0x55555555. change (u32 0xAAAAAAAA) with 0xAAAAAAAA. rewrite flip_mask by apply get_range. unfold u32. lia.
  - intros x Hx. rewrite get_upd_ne by exact Hx. apply C, Hx.
Qed.

Lemma sub_value x y : u32 (- u32 (u32 (- x) + y)) = u32 (x - y).
Proof. unfold u32. lia. Qed.
Lemma neg_nz d : nonzero_acts (neg_acts d).
Proof. intros x Hx. apply in_app_or in Hx. destruct Hx as [Hx|[<-|[]]]; [exact (dacts_nz d isub_ops x Hx)|apply SetD_nz]. Qed.

Lemma isub_mid k v d e m : In v vars -> ordinary m v -> valcell w e -> idx e <> idx (vc v FVal) -> at_item m d e ->
  let code := VProc T k [v] (neg_acts d ++ QueueAddTo v d) in placed w T k code ->
  exists m', runs w (lbl T k, m) (lbl T (k + length code), m') /\ get m' e = u32 (u32 (- get m e) + get m (vc v FVal)) /\ mv (tmp [v] [e]) m m'.
Proof.
  intros Hv Ov Ve NV At code Hp. destruct (neg_turns d e m Ve At) as (m1 & A & V & F). destruct (proj1 Ve) as [E1 E2].
  assert (VF : forall f, get m1 (vc v f) = get m (vc v f)) by (intros f; apply F; destruct f; first [exact NV|apply Ve; [exact Hv|discriminate]]).
  assert (O1 : ordinary m1 v) by (split; rewrite VF; apply Ov).
  assert (NX : forall u, In u vars -> idx e <> idx (vc u FNext)) by (intros u Hu; sep).
  set (m2 := upd (upd m1 (vc v FDest) (u32 d)) (vc v FMod) (w6 Add)).
  assert (SE : sends m2 v e).
  { destruct At as [(Q1 & Q2 & Q3)|[Q1 Q2]]; [right|left]; unfold m2.
    - split; [gg; rewrite Q1; reflexivity|]. split; [apply PC|]. gg. rewrite F, Q2 by exact Q3. reflexivity.
    - split; [gg; exact Q1|exact Q2]. }
  destruct (VProc_hops k [v] _ [(v, e, Add)] m m2 Hp) as (m' & R & E); auto using wv1.
  - discriminate.
  - apply nd1.
  - intros x Hx. apply in_app_or in Hx. destruct Hx as [Hx|Hx]; [exact (neg_nz d x Hx)|]. revert x Hx. change (nonzero_acts (QueueAddTo v d)). unfold QueueAddTo. nz.
  - eapply do_app; [exact (neg_nz d)|exact A|]. unfold QueueAddTo. apply do_dest; auto. apply do_smod; auto; [ord|]. apply do_nil.
  - cbn [hops_ok]. split; [unfold m2; gg; reflexivity|]. split; [exact SE|]. split; [exact E2|]. split; [intros u [<-|[]]; auto|exact I].
  - exists m'. split; [exact R|]. rewrite hops_cons, hops_nil in E. unfold m2 in E. split.
    + rewrite E by nonext. gg. rewrite !VF, (proj1 Ov), V, mask_full by (apply get_range || apply u32_range). cbn [do_mod]. apply u32_idem.
    + eapply mv_off; [| |exact E]; auto using wv1. mvs. split.
      * intros u Hu [Q1 Q2]. split; rewrite F; auto; apply Ve; auto; discriminate.
      * intros b Hb. apply F. intros Q. apply Hb. right. exists e. split; [left; reflexivity|auto].
Qed.

Theorem C51_isub_var : forall k a b v m, args_ok m a b (SVar v) -> let e := item_at m a b in valcell w e -> idx e <> idx (vc v FVal) -> cache_ok m (arg_vars a b (SVar v)) e ->
  placed w T k (isub T k K a b (SVar v)) ->
  through k (isub T k K a b (SVar v)) a b (arg_vars a b (SVar v)) m e (item_value IoSub (get m e) (get m (vc v FVal))).
Proof.
  intros k a b v m (Oa & Ob & [Hv Ov] & Nd) e Ve NV (Ok & Km & NK & NKe & NC) Hp. pose proof (two_vars m a b Oa Ob) as Hi.
  unfold arg_vars in *. rewrite app_assoc in *. cbn [svar] in *.
  assert (NKv : K <> v) by (intros ->; apply NK; apply in_or_app; right; left; reflexivity).
  assert (NKab : ~ In K (svar a ++ svar b)) by (intros Q; apply NK; apply in_or_app; left; exact Q).
  assert (Nv : ~ In v (svar a ++ svar b)).
  { clear -Nd. induction (svar a ++ svar b) as [|x l IH]; [intros []|]. cbn [app] in Nd. apply NoDup_cons_iff in Nd. destruct Nd as [N1 N2].
    intros [->|Q]; [apply N1, in_or_app; right; left; reflexivity|]. exact (IH N2 Q). }
  cbn [isub item_value] in *. unfold and_then in *. change (dacts (cpdst a b) isub_ops ++ [SetD (Imm (cpdst a b)) Add (Imm 1)]) with (neg_acts (cpdst a b)) in *. set (d := cpdst a b) in *.
  set (c1 := cpset T k a b) in *. destruct (placed_app w T k c1 _ Hp) as [P1 P2]. set (k1 := (k + length c1)%nat) in *.
  set (c2 := VProc T k1 [v] (neg_acts d ++ QueueAddTo v d)) in *. destruct (placed_app w T k1 c2 _ P2) as [P3 P4].
  destruct (cpset_run k a b m Oa Ob P1) as (m1 & R1 & V1 & F1). fold c1 k1 in R1.
  assert (CL : forall c, In c (if both_const a b then [] else [CPcell]) -> c = CPcell) by (destruct (both_const a b); intros c Q; [destruct Q|destruct Q as [<-|[]]; reflexivity]).
  assert (KF : forall f, get m1 (vc K f) = get m (vc K f)) by (intros f; apply F1; apply K_out; auto; intros c Hc; rewrite (CL c Hc); sep).
  assert (EE : get m1 e = get m e) by (apply F1; apply notin_tmp_val; auto; intros c Hc; rewrite (CL c Hc); exact NC).
  assert (VF : forall f, get m1 (vc v f) = get m (vc v f)).
  { intros f. apply F1. intros [(u & g & Hu & _ & Q)|(c & Hx & Q)]; [|rewrite (CL c Hx) in Q; revert Q; apply nsym, PC, Hv]. revert Q. apply vsp; auto. left. intros ->. contradiction. }
  pose proof (at_start a b m m1 Ve NC V1) as At. fold e d in At.
  destruct (isub_mid k1 v d e m1 Hv (proj1 F1 v Hv Ov) Ve NV At P3) as (m2 & R2 & V2 & F2). fold c2 in R2.
  assert (NVe : ~ tmp [v] [e] CPcell) by (apply notin_tmp; auto using wv1; intros x [<-|[]]; apply nsym; exact NC).
  assert (KF2 : forall f, get m2 (vc K f) = get m1 (vc K f)).
  { intros f. apply F2. apply K_out; auto using wv1; [intros [Q|[]]; congruence|]. intros c [<-|[]]. destruct f; apply nsym; first [exact NKe|apply Ve; [exact HK|discriminate]]. }
  pose proof (proj2 F2 _ NVe) as C2.
  assert (At2 : at_item m2 d e) by (eapply at_frame; [exact At|exact C2]).
  destruct (neg_turns d e m2 Ve At2) as (m3 & TU).
  destruct (cptrg_run (k1 + length c2) a b (neg_acts d) e (u32 (- get m2 e)) m2 m3 Ve NKe NC) as (m' & R & V & C & M & F); [apply F2, F1, Ok; exact HK|rewrite KF2, KF; exact Km|apply neg_nz|exact TU|exact P4|].
  eapply mv_through with (m' := m').
  - rewrite !app_length, !Nat.add_assoc. fold k1. eapply steps_trans; [exact R1|]. eapply steps_trans; [exact R2|exact R].
  - rewrite V, V2, EE, VF. apply sub_value.
  - rewrite C, C2, V1, KF2, KF. destruct (both_const a b); reflexivity.
  - exact M.
  - eapply mv_trans; [eapply mv_sub; [|exact F1]|eapply mv_trans; [eapply mv_sub; [|exact F2]|eapply mv_sub; [|exact F]]]; intros x; apply tmp_incl.
    + intros y Hy. right. apply in_or_app. left. exact Hy.
    + intros y Hy. rewrite (CL y Hy). right. left. reflexivity.
    + intros y [<-|[]]. right. apply in_or_app. right. left. reflexivity.
    + intros y [<-|[]]. left. reflexivity.
    + intros y [<-|[]]. left. reflexivity.
    + intros y [<-|Hy]; [left; reflexivity|]. rewrite (CL y Hy). right. left. reflexivity.
Qed.
Theorem C51_isub_const : forall k a b c m, ord_src w m a -> ord_src w m b -> NoDup (svar a ++ svar b) -> let e := item_at m a b in valcell w e ->
  patchable w (T (k + 1)%nat + 86) -> idx e <> idx (T (k + 1)%nat + 86) -> placed w T k (isub T k K a b (SConst c)) ->
  does w T k (isub T k K a b (SConst c)) (tmp (svar a ++ svar b) [T (k + 1)%nat + 86]) m [(e, item_value IoSub (get m e) (u32 c))].
Proof.
  intros k a b c m Oa Ob Nd e Ve PX Ne Hp. cbn [isub] in *.
  pose proof (C51_iset k a b Add (SConst (- c)) m) as Q. unfold args_ok, arg_vars in Q. cbn [svar ord_src sval] in Q. rewrite app_nil_r in Q.
  replace (item_value IoSub (get m e) (u32 c)) with (item_value (IoSet Add) (get m e) (u32 (- c))) by (cbn [item_value]; unfold u32; lia).
  apply Q; auto.
Qed.
End CP.

(* ixor of a variable: v is added under two masks *)
Definition mvq (q : Z) (S : Z -> Prop) (m m' : mem) : Prop :=
  (forall u, In u vars -> u <> q -> ordinary m u -> ordinary m' u) /\ forall b, ~ S b -> get m' b = get m b.
Lemma mvq_refl q S m : mvq q S m m.
Proof. split; auto. Qed.
Lemma mvq_trans q S m1 m2 m3 : mvq q S m1 m2 -> mvq q S m2 m3 -> mvq q S m1 m3.
Proof. intros [A1 A2] [B1 B2]. split; [intros u Hu Hq Ho; auto|]. intros b Hb. rewrite B2, A2; auto. Qed.
Lemma mv_mvq q S m m' : mv S m m' -> mvq q S m m'.
Proof. intros [A B]. split; [intros u Hu _ Ho; auto|exact B]. Qed.
Lemma mvq_mask vs cells m m1 v x : In v vars -> In (vc v FMask) cells -> mvq v (tmp vs cells) m m1 -> mvq v (tmp vs cells) m (upd m1 (vc v FMask) x).
Proof.
  intros Hv Hc H. eapply mvq_trans; [exact H|]. split.
  - intros u Hu N [O1 O2]. split; rewrite get_upd_ne; auto; apply vsp; auto.
  - intros b Hb. apply get_upd_ne. intros Q. apply Hb. right. exists (vc v FMask). auto.
Qed.
Ltac mvqs := repeat first [apply mvq_refl | apply mvq_mask; [assumption|cbn; tauto|]
  | eapply mvq_trans; [|apply mv_mvq; first [apply mv_mod; [cbn; tauto|assumption|apply mv_refl] | apply mv_dest; [cbn; tauto|assumption|apply mv_refl] | apply mv_cell; [cbn; tauto|assumption|apply mv_refl]]] ].
Lemma do_smod' m v md r m' : In v vars -> get m (vc v FMod) mod 2^24 = 45 * 2^16 -> acts_do (W_prot w) (upd m (vc v FMod) (w6 md)) r m' -> acts_do (W_prot w) m (SetModifier v md :: r) m'.
Proof. intros Hv Ho H. destruct (wvc w Hw v FMod Hv). unfold SetModifier. apply do_cons_MX; auto. rewrite setmod_val; [exact H|exact Ho|apply get_range]. Qed.

(* state between the two additions *)
Definition half (m m1 : mem) (vs : list Z) (v e : Z) : Prop :=
  get m1 e = wadd k5 (get m e) (get m (vc v FVal)) /\ get m1 (vc v FDest) = u32 e /\ get m1 (vc v FMod) = w6 Add /\ get m1 (vc v FVal) = get m (vc v FVal) /\
  mvq v (tmp vs [e; vc v FMask]) m m1.
Lemma half_get m e v : u32 (do_modx Add (u32 0x55555555) (get m e) (get m (vc v FVal))) = wadd k5 (get m e) (get m (vc v FVal)).
Proof. change (u32 0x55555555) with k5. rewrite u32_dox; [reflexivity|unfold k5; lia|apply get_range|apply get_range]. Qed.
Lemma xor_start0 k c v m : let e := u32 c in In v vars -> ordinary m v -> valcell w e -> idx e <> idx (vc v FVal) ->
  let code := VProc T k [v] (QueueAddTo v c ++ [SetMask v 0x55555555]) in placed w T k code ->
  exists m1, runs w (lbl T k, m) (lbl T (k + length code), m1) /\ half m m1 [v] v e.
Proof.
  intros e Hv Ov Ve NV code Hp. destruct (proj1 Ve) as [E1 E2].
  destruct (VProc_hops k [v] _ [(v, e, Add)] m (upd (upd (upd m (vc v FDest) (u32 c)) (vc v FMod) (w6 Add)) (vc v FMask) (u32 0x55555555)) Hp) as (m' & R & E); auto using wv1.
  - discriminate.
  - apply nd1.
  - unfold QueueAddTo. cbn [app]. nz.
  - unfold QueueAddTo. cbn [app]. apply do_dest; auto. apply do_smod; auto; [ord|]. apply do_smask; auto. apply do_nil.
  - cbn [hops_ok]. split; [gg; reflexivity|]. split; [left; split; auto; gg; unfold e; rewrite ?u32_idem; reflexivity|]. split; [exact E2|]. split; [intros u [<-|[]]; sep|exact I].
  - exists m'. split; [exact R|]. rewrite hops_cons, hops_nil in E. split; [|split; [|split; [|split]]].
    + rewrite E by nonext. gg. apply half_get.
    + rewrite E by nonext. gg. unfold e. rewrite ?u32_idem. reflexivity.
    + rewrite E by nonext. gg. reflexivity.
    + rewrite E by nonext. gg. reflexivity.
    + eapply mvq_trans; [|apply mv_mvq; eapply mv_off; [|apply mv_refl|exact E]; auto using wv1]. mvqs.
Qed.
Lemma xor_start1 k a c v m : let e := u32 (u32 c + get m (vc a FVal)) in a <> v -> In a vars -> In v vars -> ordinary m a -> ordinary m v -> valcell w e -> idx e <> idx (vc v FVal) ->
  let code := VProc T k [a; v] (QueueAddTo a (vc v FDest) ++ QueueAddTo v c ++ [SetMask v 0x55555555]) in placed w T k code ->
  exists m1, runs w (lbl T k, m) (lbl T (k + length code), m1) /\ half m m1 [a; v] v e.
Proof.
  intros e N Ha Hv Oa Ov Ve NV code Hp. destruct (proj1 Ve) as [E1 E2]. destruct (wvc w Hw v FDest Hv) as [V1 V2].
  destruct (VProc_hops k [a; v] _ [(a, vc v FDest, Add); (v, e, Add)] m
    (upd (upd (upd (upd (upd m (vc a FDest) (u32 (vc v FDest))) (vc a FMod) (w6 Add)) (vc v FDest) (u32 c)) (vc v FMod) (w6 Add)) (vc v FMask) (u32 0x55555555)) Hp) as (m' & R & E); auto using wv2.
  - discriminate.
  - constructor; [intros [Q|[]]; congruence|apply nd1].
  - unfold QueueAddTo. cbn [app]. nz.
  - unfold QueueAddTo. cbn [app]. apply do_dest; auto. apply do_smod; auto; [ord|]. apply do_dest; auto. apply do_smod; auto; [ord|]. apply do_smask; auto. apply do_nil.
  - cbn [hops_ok]. unfold hop1.
    split; [gg; reflexivity|]. split; [left; split; auto; gg; reflexivity|]. split; [exact V2|]. split; [intros u [<-|[<-|[]]]; sep|].
    split; [gg; reflexivity|]. split.
    { left. split; auto. gg. rewrite (proj1 Oa), mask_full by (apply get_range || apply u32_range). cbn [do_mod]. unfold e. rewrite !u32_idem. reflexivity. }
    split; [exact E2|]. split; [intros u [<-|[<-|[]]]; sep|exact I].
  - exists m'. split; [exact R|]. rewrite !hops_cons, hops_nil in E. split; [|split; [|split; [|split]]].
    + rewrite E by nonext. gg. apply half_get.
    + rewrite E by nonext. gg. rewrite (proj1 Oa), mask_full by (apply get_range || apply u32_range). cbn [do_mod]. unfold e. rewrite !u32_idem. reflexivity.
    + rewrite E by nonext. gg. reflexivity.
    + rewrite E by nonext. gg. reflexivity.
    + eapply mvq_trans; [|apply mv_mvq; eapply mv_off; [|apply mv_refl|exact E]; auto using wv2]. mvqs.
Qed.
Lemma xor_start2 k a b v m : let e := u32 (get m (vc a FVal) + get m (vc b FVal)) in a <> b -> a <> v -> b <> v -> In a vars -> In b vars -> In v vars ->
  ordinary m a -> ordinary m b -> ordinary m v -> valcell w e -> idx e <> idx (vc v FVal) ->
  let code := VProc T k [a; b; v] (QueueAssignTo a (vc v FDest) ++ QueueAddTo b (vc v FDest) ++ [SetMask v 0x55555555; SetModifier v Add]) in placed w T k code ->
  exists m1, runs w (lbl T k, m) (lbl T (k + length code), m1) /\ half m m1 [a; b; v] v e.
Proof.
  intros e N N2 N3 Ha Hb Hv Oa Ob Ov Ve NV code Hp. destruct (proj1 Ve) as [E1 E2]. destruct (wvc w Hw v FDest Hv) as [V1 V2].
  destruct (VProc_hops k [a; b; v] _ [(a, vc v FDest, SetTo); (b, vc v FDest, Add); (v, e, Add)] m
    (upd (upd (upd (upd (upd (upd m (vc a FDest) (u32 (vc v FDest))) (vc a FMod) (w6 SetTo)) (vc b FDest) (u32 (vc v FDest))) (vc b FMod) (w6 Add)) (vc v FMask) (u32 0x55555555)) (vc v FMod) (w6 Add)) Hp) as (m' & R & E); auto using wv3.
  - discriminate.
  - constructor; [intros [Q|[Q|[]]]; congruence|]. constructor; [intros [Q|[]]; congruence|apply nd1].
  - unfold QueueAddTo, QueueAssignTo. cbn [app]. nz.
  - unfold QueueAddTo, QueueAssignTo. cbn [app]. apply do_dest; auto. apply do_smod; auto; [ord|]. apply do_dest; auto. apply do_smod; auto; [ord|]. apply do_smask; auto. apply do_smod'; auto; [gg; apply Ov|]. apply do_nil.
  - cbn [hops_ok]. unfold hop1.
    split; [gg; reflexivity|]. split; [left; split; auto; gg; reflexivity|]. split; [exact V2|]. split; [intros u [<-|[<-|[<-|[]]]]; sep|].
    split; [gg; reflexivity|]. split; [left; split; auto; gg; reflexivity|]. split; [exact V2|]. split; [intros u [<-|[<-|[<-|[]]]]; sep|].
    split; [gg; reflexivity|]. split.
    { left. split; auto. gg. rewrite (proj1 Oa), (proj1 Ob), !mask_full by (apply get_range || apply u32_range). cbn [do_mod]. unfold e. rewrite !u32_idem, u32_add_l. reflexivity. }
    split; [exact E2|]. split; [intros u [<-|[<-|[<-|[]]]]; sep|exact I].
  - exists m'. split; [exact R|]. rewrite !hops_cons, hops_nil in E. split; [|split; [|split; [|split]]].
    + rewrite E by nonext. gg. apply half_get.
    + rewrite E by nonext. gg. rewrite (proj1 Oa), (proj1 Ob), !mask_full by (apply get_range || apply u32_range). cbn [do_mod]. unfold e. rewrite !u32_idem, u32_add_l. reflexivity.
    + rewrite E by nonext. gg. reflexivity.
    + rewrite E by nonext. gg. reflexivity.
    + eapply mvq_trans; [|apply mv_mvq; eapply mv_off; [|apply mv_refl|exact E]; auto using wv3]. mvqs.
Qed.
Lemma xor_rest k vs v e m m1 : let c2 := VProc T k [v] [SetMask v 0xAAAAAAAA] in let code := c2 ++ [RawTrig [] [SetMask v 0xFFFFFFFF] (lbl T (k + length c2 + 1))] in
  In v vs -> In v vars -> ordinary m v -> valcell w e -> idx e <> idx (vc v FVal) -> half m m1 vs v e -> placed w T k code ->
  exists m', runs w (lbl T k, m1) (lbl T (k + length code), m') /\ get m' e = Z.lxor (get m e) (get m (vc v FVal)) /\ mv (tmp vs [e]) m m'.
Proof.
  intros c2 code Hvs Hv Ov Ve NV (H1 & H2 & H3 & H4 & H5) Hp. destruct (proj1 Ve) as [E1 E2]. destruct (placed_app w T k c2 _ Hp) as [P1 P2].
  destruct (VProc_hops k [v] _ [(v, e, Add)] m1 (upd m1 (vc v FMask) (u32 0xAAAAAAAA)) P1) as (m2 & R & E); auto using wv1.
  { discriminate. } { apply nd1. } { nz. } { apply do_smask; auto. apply do_nil. }
  { cbn [hops_ok]. split; [gg; exact H3|]. split; [left; split; auto; gg; exact H2|]. split; [exact E2|]. split; [intros u [<-|[]]; sep|exact I]. }
  fold c2 in R. rewrite hops_cons, hops_nil in E. set (m' := upd m2 (vc v FMask) (u32 0xFFFFFFFF)).
  assert (VE : get m2 e = Z.lxor (get m e) (get m (vc v FVal))).
  { rewrite E by nonext. gg. rewrite H1, H4. change (u32 0xAAAAAAAA) with kA. rewrite u32_dox.
    - apply xor_two_adds; apply get_range.
    - unfold kA; lia.
    - rewrite <- H1. apply get_range.
    - apply get_range. }
  assert (VM : get m2 (vc v FMod) = w6 Add) by (rewrite E by nonext; gg; exact H3).
  assert (Q2 : mvq v (tmp vs [e; vc v FMask]) m m').
  { eapply mvq_trans; [exact H5|]. unfold m'. apply mvq_mask; [exact Hv|right; left; reflexivity|].
    eapply mvq_trans; [|apply mv_mvq; eapply mv_sub; [|eapply mv_off with (vs := [v]) (cells := [e]); [|apply mv_refl|exact E]; auto using wv1]].
    - mvqs.
    - intros x. apply tmp_incl; [intros y [<-|[]]; exact Hvs|intros y [<-|[]]; left; reflexivity]. }
  exists m'. split; [|split].
  - unfold code. rewrite app_length, Nat.add_assoc. eapply steps_trans; [exact R|]. eapply run_one; [exact P2|]. apply do_smask; auto. apply do_nil.
  - unfold m'. gg. exact VE.
  - destruct Q2 as [Q1 Q2]. split.
    + intros u Hu Ho. destruct (Z.eq_dec u v) as [->|Nu]; [|auto]. split; unfold m'; gg; [reflexivity|rewrite VM; reflexivity].
    + intros b Hb. destruct (Z.eq_dec (idx (vc v FMask)) (idx b)) as [Q|Q].
      * rewrite <- !(get_cong _ _ _ Q). unfold m'. rewrite get_upd_eq. rewrite (proj1 Ov). reflexivity.
      * apply Q2. intros [Z1|(c & [<-|[<-|[]]] & Z1)]; [apply Hb; left; exact Z1|apply Hb; right; exists e; split; [left; reflexivity|exact Z1]|congruence].
Qed.
Theorem C51_ixor_var : forall k K a b v m, args_ok m a b (SVar v) -> let e := item_at m a b in valcell w e -> idx e <> idx (vc v FVal) ->
  placed w T k (ixor T k K a b (SVar v)) ->
  does w T k (ixor T k K a b (SVar v)) (tmp (arg_vars a b (SVar v)) []) m [(e, item_value IoXor (get m e) (get m (vc v FVal)))].
Proof.
  intros k K a b v m (Oa & Ob & [Hv Ov] & Nd) e Ve NV Hp. cbn [item_value].
  assert (ST : forall c1, let k1 := (k + length c1)%nat in let c2 := VProc T k1 [v] [SetMask v 0xAAAAAAAA] in
     placed w T k (c1 ++ c2 ++ [RawTrig [] [SetMask v 0xFFFFFFFF] (lbl T (k1 + length c2 + 1))]) ->
     (placed w T k c1 -> exists m1, runs w (lbl T k, m) (lbl T k1, m1) /\ half m m1 (arg_vars a b (SVar v)) v e) ->
     does w T k (c1 ++ c2 ++ [RawTrig [] [SetMask v 0xFFFFFFFF] (lbl T (k1 + length c2 + 1))]) (tmp (arg_vars a b (SVar v)) []) m [(e, Z.lxor (get m e) (get m (vc v FVal)))]).
  { intros c1 k1 c2 Hp1 H1. destruct (placed_app w T k c1 _ Hp1) as [P1 P2]. destruct (H1 P1) as (m1 & R1 & Hh).
    destruct (xor_rest k1 (arg_vars a b (SVar v)) v e m m1) as (m' & R & V & F); auto.
    - unfold arg_vars. apply in_or_app. right. apply in_or_app. right. left. reflexivity.
    - eapply mv_does; [|exact V|exact F]. rewrite app_length, Nat.add_assoc. eapply steps_trans; [exact R1|exact R]. }
  unfold ixor, and_then in *. unfold arg_vars, e, item_at in *. destruct a as [a|a], b as [b|b]; cbn [ord_src svar sval app] in *.
  - apply ST; [exact Hp|]. intros P. fold (item_at m (SConst a) (SConst b)) in *. change ((u32 a + u32 b) mod 2 ^ 32) with (item_at m (SConst a) (SConst b)) in *. rewrite const_addr in *. apply xor_start0; auto.
  - apply ST; [exact Hp|]. intros P. apply xor_start1; try tauto. apply NoDup_cons_iff in Nd. intros ->. apply Nd. left. reflexivity.
  - apply ST; [exact Hp|]. intros P. rewrite (Z.add_comm (get m (vc a FVal))) in *. apply xor_start1; try tauto. apply NoDup_cons_iff in Nd. intros ->. apply Nd. left. reflexivity.
  - apply ST; [exact Hp|]. intros P. apply NoDup_cons_iff in Nd. destruct Nd as [N1 N2]. apply NoDup_cons_iff in N2. destruct N2 as [N2 _].
    apply xor_start2; try tauto; intros ->; first [apply N1; left; reflexivity|apply N1; right; left; reflexivity|apply N2; left; reflexivity].
Qed.
End Inpl.

(* ---------- finding ---------- *)
(* iset and isub test whether the index and the value are the same variable;
   iand, ior and ixor do not (inplacecw.py 124-284).  For the array at c,
   arr[i] &= i with one variable i works on arr[0] and leaves arr[i] alone. *)
Theorem C51_alias_refuted : forall w T k c i m, world_ok w -> In i (W_vars w) -> ordinary m i ->
  let e0 := u32 c in valcell w e0 -> cells_ok w e0 (bit_cells T k true (SVar i)) -> idx e0 <> idx (vc i FVal) ->
  placed w T k (iand T k (SConst c) (SVar i) (SVar i)) ->
  does w T k (iand T k (SConst c) (SVar i) (SVar i)) (tmp [i] (bit_cells T k true (SVar i))) m [(e0, Z.land (get m e0) (get m (vc i FVal)))] /\
  (get m (vc i FVal) <> 0 -> item_at m (SConst c) (SVar i) <> e0).
Proof.
  intros w T k c i m Hw Hi Oi e0 Ve Hc NV Hp. split.
  2:{ intros N Q. apply N. unfold item_at in Q. cbn [sval] in Q. pose proof (u32_range c). pose proof (get_range m (vc i FVal)). unfold e0 in Q. unfold u32 in *. lia. }
  cbn [bit_cells bit_off] in *. set (Y := T (k + 1)%nat + 98) in *. set (X := Y + 4) in *. apply cells_two in Hc. destruct Hc as (PX & PY & NXY & NEX & NEY).
  pose proof (patch_val w X PX) as VX. pose proof (patch_val w Y PY) as VY. destruct (proj1 PX) as [X1 X2]. destruct (proj1 PY) as [Y1 Y2]. destruct (proj1 Ve) as [E1 E2].
  cbn [iand] in *. unfold ibit_var, and_then in *. cbn [both_const addr_vars addr_acts app] in *. fold Y X in Hp. fold Y X.
  set (c1 := VProc T k [i; i] (SetM X SetTo c :: QueueAddTo i X ++ QueueAssignTo i Y)) in *. destruct (placed_app w T k c1 _ Hp) as [P1 P2]. change (length c1) with 1%nat in *. fold Y X in P2.
  change c1 with (VProc T k [i] ((SetM X SetTo c :: QueueAddTo i X ++ QueueAssignTo i Y) ++ [SetNextPtr i (pa i)])) in P1.
  assert (FF : forall f g, f <> g -> idx (vc i f) <> idx (vc i g)) by (intros f g N; apply (vsepc w Hw); auto).
  assert (XF : forall f, idx X <> idx (vc i f)) by (intros f; apply PX, Hi). assert (YF : forall f, idx Y <> idx (vc i f)) by (intros f; apply PY, Hi).
  set (ma := upd m X (u32 c)). set (mb := upd (upd ma (vc i FDest) (u32 X)) (vc i FMod) (w6 Add)). set (mc := upd (upd mb (vc i FDest) (u32 Y)) (vc i FMod) (w6 SetTo)). set (md := upd mc (vc i FNext) (u32 (pa i))).
  assert (GX : get md X = u32 c).
  { unfold md, mc, mb, ma. rewrite !get_upd_ne by (apply nsym, XF). rewrite get_upd_eq. apply u32_idem. }
  assert (GV : forall f, f <> FDest -> f <> FMod -> f <> FNext -> get md (vc i f) = get m (vc i f)).
  { intros f N1 N2 N3. unfold md, mc, mb, ma. rewrite !get_upd_ne by (first [apply FF; auto|apply XF]). reflexivity. }
  destruct (VProc_hops w T Hw k [i] _ [(i, Y, SetTo)] m md P1) as (m1 & R & E); auto.
  { discriminate. } { apply nd1. } { intros x [<-|[]]. exact Hi. }
  { cbn [app QueueAddTo QueueAssignTo]. repeat first [apply nz_nil | apply nz_cons; [intros; first [apply type_SetM|apply type_SetMX]|]]. }
  { cbn [app QueueAddTo QueueAssignTo]. apply do_cons_M; auto. cbn [do_mod]. fold ma.
    assert (O1 : ordinary (upd ma (vc i FDest) (u32 X)) i) by (split; rewrite get_upd_ne by (apply FF; discriminate); unfold ma; rewrite get_upd_ne by apply XF; apply Oi).
    apply (do_dest w Hw); auto. apply (do_smod w Hw); auto. fold mb.
    assert (O2 : ordinary (upd mb (vc i FDest) (u32 Y)) i).
    { split; rewrite get_upd_ne by (apply FF; discriminate); unfold mb; [rewrite get_upd_ne by (apply FF; discriminate); apply O1|rewrite get_upd_eq; reflexivity]. }
    apply (do_dest w Hw); auto. apply (do_smod w Hw); auto. fold mc. unfold SetNextPtr. destruct (wvc w Hw i FNext Hi). apply do_cons_M; auto. cbn [do_mod]. apply do_nil. }
  { cbn [hops_ok]. split; [unfold md, mc; rewrite get_upd_ne, get_upd_eq by (apply FF; discriminate); reflexivity|]. split.
    - left. split; auto. unfold md, mc. rewrite !get_upd_ne by (apply FF; discriminate). rewrite get_upd_eq. apply u32_idem.
    - split; [exact Y2|]. split; [intros u [<-|[]]; apply YF|exact I]. }
  cbn [hops] in E. unfold hop1 in E. rewrite !GV, (proj1 Oi) in E by discriminate. rewrite mask_full in E by apply get_range. cbn [do_mod] in E. set (x := get m (vc i FVal)) in *.
  assert (NS : forall z, (forall u, In u [i] -> idx z <> idx (vc u FNext)) -> ~ nexts [i] z) by (intros z Hz (u & Hu & Q); exact (Hz u Hu Q)).
  assert (GX1 : get m1 X = u32 c) by (rewrite E by (apply NS; intros u [<-|[]]; apply XF); rewrite get_upd_ne by (apply nsym; exact NXY); exact GX).
  pose proof (get_range m (vc i FVal)) as Rx. fold x in Rx.
  assert (GY1 : get m1 Y = x) by (rewrite E by (apply NS; intros u [<-|[]]; apply YF); rewrite get_upd_eq; apply u32_small; exact Rx).
  assert (F1 : mv w (tmp [i] [X; Y]) m m1).
  { eapply mv_off; [exact Hw|intros u [<-|[]]; exact Hi| |exact E]. apply mv_cell; [right; left; reflexivity|exact VY|]. unfold md.
    eapply mv_trans; [|split; [|intros b Hb; apply get_upd_ne; intros Q; apply Hb; left; exists i, FNext; cbn; auto]].
    - unfold mc, mb, ma. repeat first [apply mv_refl | apply mv_mod; [exact Hw|left; reflexivity|exact Hi|] | apply mv_dest; [exact Hw|left; reflexivity|exact Hi|] | apply mv_cell; [left; reflexivity|exact VX|]].
    - intros u Hu [O1 O2]. split; rewrite get_upd_ne; auto; apply (vsepc w Hw); auto; right; discriminate. }
  assert (GE : get m1 e0 = get m e0).
  { apply F1. apply (notin_tmp_val w); [exact Ve|intros u [<-|[]]; exact Hi|]. intros z [<-|[<-|[]]]; assumption. }
  set (m2 := upd (upd m1 Y (wadd 0x55555555 x (u32 (-1)))) Y (0xFFFFFFFF - x)).
  assert (GY2 : get m2 Y = 0xFFFFFFFF - x) by (unfold m2; rewrite get_upd_eq; apply u32_small; lia).
  assert (G2 : forall z, idx Y <> idx z -> get m2 z = get m1 z) by (intros z Hz; unfold m2; rewrite !get_upd_ne by exact Hz; reflexivity).
  eapply mv_does with (m' := upd m2 e0 (do_modx SetTo (0xFFFFFFFF - x) (get m2 e0) (u32 0))).
  - rewrite app_length, Nat.add_assoc. eapply steps_trans; [exact R|]. eapply run_one; [exact P2|]. cbn [app].
    apply do_cons_MX; auto. rewrite GY1. cbn [do_modx]. change (u32 0x55555555) with 0x55555555.
    apply do_cons_MX; auto. rewrite get_upd_eq. change (u32 (wadd 0x55555555 x (u32 (-1)))) with (u32 (do_modx Add 0x55555555 x (u32 (-1)))).
    rewrite u32_dox by (lia || apply u32_range). cbn [do_modx]. change (u32 0xAAAAAAAA) with 0xAAAAAAAA. rewrite flip_mask by exact Rx. fold m2.
    apply do_cons_DX with (a := e0); auto; [|cbn [rd]; rewrite GY2; apply do_nil]. cbn [rd]. rewrite G2 by (apply nsym; exact NXY). rewrite GX1. unfold e0. rewrite u32_idem. reflexivity.
  - rewrite get_upd_eq, G2, GE by (apply nsym; exact NEY). rewrite u32_dox by (lia || apply get_range || apply u32_range). apply wset_and; [apply get_range|exact Rx].
  - apply mv_cell; [left; reflexivity|exact Ve|]. unfold m2. apply mv_cell; [right; right; left; reflexivity|exact VY|]. apply mv_cell; [right; right; left; reflexivity|exact VY|].
    eapply mv_sub; [|exact F1]. intros z. apply tmp_incl; [apply incl_refl|]. intros y Hy. right. exact Hy.
Qed.

(* ---------- examples ---------- *)
(* cache 7, base 199990, index 10, value 12; the item at 200000 holds 0xF5 *)
Definition ipex_K := vb_var 1000 0.
Definition ipex_a := vb_var 1000 1.
Definition ipex_b := vb_var 1000 2.
Definition ipex_v := vb_var 1000 3.
Definition ipex_m := upd (upd (exmem 4 [7; 199990; 10; 12]) 200000 0xF5) CPcell 7.
Lemma ipex_ord : forall v, In v (exvars 4) -> ordinary ipex_m v.
Proof. intros v [<-|[<-|[<-|[<-|[]]]]]; split; vm_compute; reflexivity. Qed.
Lemma ipex_in : In ipex_K (exvars 4) /\ In ipex_a (exvars 4) /\ In ipex_b (exvars 4) /\ In ipex_v (exvars 4).
Proof. cbn. tauto. Qed.
Lemma ipex_e : item_at ipex_m (SVar ipex_a) (SVar ipex_b) = 200000.
Proof. vm_compute. reflexivity. Qed.
Lemma ipex_val code : valcell (exworld 4 code) 200000.
Proof. apply patch_valcell, exworld_patchable; [reflexivity|lia]. Qed.
Lemma ipex_args code : args_ok (exworld 4 code) ipex_m (SVar ipex_a) (SVar ipex_b) (SVar ipex_v).
Proof.
  destruct ipex_in as (I1 & I2 & I3 & I4). split; [split; [exact I2|apply ipex_ord, I2]|]. split; [split; [exact I3|apply ipex_ord, I3]|]. split; [split; [exact I4|apply ipex_ord, I4]|].
  cbn. repeat constructor; cbn; intros H; decompose [or] H; try contradiction; discriminate.
Qed.
Lemma ipex_cells code l : forallb (fun x => (100000 <=? x) && (x <? 2^28) && negb (x =? 200000)) l = true -> NoDup l -> cells_ok (exworld 4 code) 200000 l.
Proof.
  intros H N. assert (R : forall x, In x l -> 100000 <= x < 2^28 /\ x <> 200000).
  { intros x Hx. rewrite forallb_forall in H. specialize (H x Hx). lia. }
  split.
  - induction N as [|x l Nx N IH]; [constructor|]. cbn [map]. constructor; [|apply IH; [cbn [forallb] in H; apply andb_prop in H; apply H|intros y Hy; apply R; right; exact Hy]].
    intros Q. apply in_map_iff in Q. destruct Q as (y & Q & Hy). apply Nx. replace x with y; [exact Hy|]. pose proof (R x (or_introl eq_refl)). pose proof (R y (or_intror Hy)). unfold idx in Q. lia.
  - intros x Hx. destruct (R x Hx). split; [apply exworld_patchable; [reflexivity|lia]|]. unfold idx. lia.
Qed.
Definition ipex_and := iand exT 0 (SVar ipex_a) (SVar ipex_b) (SVar ipex_v).
Example C51_iand_example : exists m', runs (exworld 4 ipex_and) (lbl exT 0, ipex_m) (lbl exT 2, m') /\ get m' 200000 = 4.
Proof.
  pose proof (C51_iand (exworld 4 ipex_and) exT (exworld_ok 4 _ ltac:(reflexivity)) 0 (SVar ipex_a) (SVar ipex_b) (SVar ipex_v) ipex_m (ipex_args _)) as Q. cbv zeta in Q. rewrite ipex_e in Q.
  destruct Q as (m' & R & [V _] & _); [apply ipex_val|apply ipex_cells; [vm_compute; reflexivity|repeat constructor; cbn; intros H; decompose [or] H; try contradiction; discriminate]|apply exworld_placed; vm_compute; reflexivity|].
  exists m'. split; [exact R|]. rewrite (V _ _ (or_introl eq_refl)). vm_compute. reflexivity.
Qed.
Definition ipex_xor := ixor exT 0 ipex_K (SVar ipex_a) (SVar ipex_b) (SVar ipex_v).
Example C51_ixor_example : exists m', runs (exworld 4 ipex_xor) (lbl exT 0, ipex_m) (lbl exT 3, m') /\ get m' 200000 = 0xF9.
Proof.
  pose proof (C51_ixor_var (exworld 4 ipex_xor) exT (exworld_ok 4 _ ltac:(reflexivity)) 0 ipex_K (SVar ipex_a) (SVar ipex_b) ipex_v ipex_m (ipex_args _)) as Q. cbv zeta in Q. rewrite ipex_e in Q.
  destruct Q as (m' & R & [V _] & _); [apply ipex_val|vm_compute; discriminate|apply exworld_placed; vm_compute; reflexivity|].
  exists m'. split; [exact R|]. rewrite (V _ _ (or_introl eq_refl)). vm_compute. reflexivity.
Qed.
Lemma ipex_cache vs : In ipex_K vs \/ cache_ok ipex_K ipex_m vs 200000.
Proof.
  destruct (in_dec Z.eq_dec ipex_K vs) as [H|H]; [left; exact H|right]. split; [apply ipex_ord, ipex_in|]. split; [vm_compute; reflexivity|]. split; [exact H|]. split; vm_compute; discriminate.
Qed.
Definition ipex_sub := isub exT 0 ipex_K (SVar ipex_a) (SVar ipex_b) (SVar ipex_v).
Example C51_isub_example : exists m', runs (exworld 4 ipex_sub) (lbl exT 0, ipex_m) (lbl exT 3, m') /\ get m' 200000 = 0xE9 /\ get m' CPcell = 7.
Proof.
  pose proof (C51_isub_var (exworld 4 ipex_sub) exT (exworld_ok 4 _ ltac:(reflexivity)) ipex_K (proj1 ipex_in) (exworld_patchable 4 _ CPcell ltac:(reflexivity) ltac:(vm_compute; split; congruence))
    0 (SVar ipex_a) (SVar ipex_b) ipex_v ipex_m (ipex_args _)) as Q. cbv zeta in Q. rewrite ipex_e in Q.
  destruct Q as (m' & R & [V _] & _ & C & _); [apply ipex_val|vm_compute; discriminate| |apply exworld_placed; vm_compute; reflexivity|].
  - destruct (ipex_cache (arg_vars (SVar ipex_a) (SVar ipex_b) (SVar ipex_v))) as [Q|Q]; [|exact Q]. cbn in Q. decompose [or] Q; try contradiction; discriminate.
  - exists m'. split; [exact R|]. rewrite (V _ _ (or_introl eq_refl)), C. split; vm_compute; reflexivity.
Qed.
Definition ipex_shl := ilshift exT 0 ipex_K (SVar ipex_a) (SConst 10) 3.
Example C51_ilshift_example : exists m', runs (exworld 4 ipex_shl) (lbl exT 0, ipex_m) (lbl exT 2, m') /\ get m' 200000 = 0x7A8 /\ get m' CPcell = 7.
Proof.
  pose proof (C51_ilshift (exworld 4 ipex_shl) exT (exworld_ok 4 _ ltac:(reflexivity)) ipex_K (proj1 ipex_in) (exworld_patchable 4 _ CPcell ltac:(reflexivity) ltac:(vm_compute; split; congruence))
    0 (SVar ipex_a) (SConst 10) 3 ipex_m) as Q. cbv zeta in Q. replace (item_at ipex_m (SVar ipex_a) (SConst 10)) with 200000 in Q by (vm_compute; reflexivity).
  destruct Q as (m' & R & [V _] & _ & C & _); [split; [apply ipex_in|apply ipex_ord, ipex_in]|exact I|lia|apply ipex_val| |apply exworld_placed; vm_compute; reflexivity|].
  - destruct (ipex_cache (svar (SVar ipex_a) ++ svar (SConst 10))) as [Q|Q]; [|exact Q]. cbn in Q. decompose [or] Q; try contradiction; discriminate.
  - exists m'. split; [exact R|]. rewrite (V _ _ (or_introl eq_refl)), C. split; vm_compute; reflexivity.
Qed.
Definition ipex_set := iset exT 0 (SVar ipex_a) (SConst 10) Subtract (SVar ipex_v).
Example C51_iset_example : exists m', runs (exworld 4 ipex_set) (lbl exT 0, ipex_m) (lbl exT 1, m') /\ get m' 200000 = 0xE9.
Proof.
  pose proof (C51_iset (exworld 4 ipex_set) exT (exworld_ok 4 _ ltac:(reflexivity)) 0 (SVar ipex_a) (SConst 10) Subtract (SVar ipex_v) ipex_m) as Q. cbv zeta in Q.
  replace (item_at ipex_m (SVar ipex_a) (SConst 10)) with 200000 in Q by (vm_compute; reflexivity).
  destruct Q as (m' & R & [V _] & _); [|apply ipex_val|apply exworld_patchable; [reflexivity|vm_compute; split; congruence]|vm_compute; discriminate|apply exworld_placed; vm_compute; reflexivity|].
  - destruct (ipex_args ipex_set) as (A1 & _ & A3 & N). split; [exact A1|]. split; [exact I|]. split; [exact A3|]. cbn. repeat constructor; cbn; intros H; decompose [or] H; try contradiction; discriminate.
  - exists m'. split; [exact R|]. rewrite (V _ _ (or_introl eq_refl)). vm_compute. reflexivity.
Qed.

Print Assumptions C51_iset.
Print Assumptions C51_iand.
Print Assumptions C51_ior.
Print Assumptions C51_isub_const.
Print Assumptions C51_isub_var.
Print Assumptions C51_ixor_const.
Print Assumptions C51_ixor_var.
Print Assumptions C51_ilshift.
Print Assumptions C51_irshift.
Print Assumptions C51_alias_refuted.
