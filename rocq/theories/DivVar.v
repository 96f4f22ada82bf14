(* Division of two variables: the body of _eud_div computes quotient and
   remainder. *)
From Coq Require Import ZArith Lia Bool List Permutation ZifyBool ZifyNat.
From Verif Require Import Lib Word Machine MachineProofs VarModel VarSpec VarProofs SeqProofs NonSeqProofs
  OpsModel OpsSpec OpsBase OpsProofs OpsArith OpsBits OpsXor OpsShift OpsFinal FuncModel FuncSpec FuncProofs FuncBody MulModel MulArith MulConst MulVar.
Import ListNotations.
Open Scope Z_scope.

Lemma flush_out same T k s : q_count s <> 0 -> length (q_out (flush same T k s)) = S (length (q_out s)) /\ q_count (flush same T k s) = 0 /\ q_prev (flush same T k s) = q_prev s.
Proof.
  intros H. unfold flush. destruct (Z.eqb_spec (q_count s) 0); [contradiction|]. destruct (seq_sub _ _ _ _ _) as [t dc].
  cbn. rewrite app_length. cbn. rewrite Nat.add_comm. auto.
Qed.

Lemma top_bit X : 0 <= X < 2^32 -> Z.testbit X 31 = (2 ^ 31 <=? X).
Proof.
  intros HX. pose proof (testbit_b2z X 31 ltac:(lia)) as E. unfold b2z in E.
  destruct (Z.leb_spec (2 ^ 31) X).
  - rewrite <- (Z.div_unique X (2 ^ 31) 1 (X - 2 ^ 31)) in E by lia. change (1 mod 2) with 1 in E. destruct (Z.testbit X 31); [reflexivity|discriminate].
  - rewrite Z.div_small in E by lia. change (0 mod 2) with 0 in E. destruct (Z.testbit X 31); [discriminate|reflexivity].
Qed.

Section W.
Variable w : world.
Hypothesis Hw : world_ok w.
Notation vars := (W_vars w).
Variable same same_u : dst -> dst -> bool.
Hypothesis Hsame : forall a b, same a b = true -> u32 (dst_epd a) = u32 (dst_epd b).
Variable perm : list pair -> list pair.
Hypothesis Hperm : forall l, Permutation (perm l) l.

Definition quiet (S : Z -> Prop) (m m' : mem) : Prop := forall b, ~ S b -> get m' b = get m b.
Lemma quiet_sub (S S' : Z -> Prop) m m' : (forall b, S b -> S' b) -> quiet S m m' -> quiet S' m m'.
Proof. intros H A b Hb. apply A. auto. Qed.
Lemma quiet_trans (S : Z -> Prop) m1 m2 m3 : quiet S m1 m2 -> quiet S m2 m3 -> quiet S m1 m3.
Proof. intros A B b Hb. rewrite B, A by exact Hb. reflexivity. Qed.
Lemma does_quiet vs cs m m' l : changes (tmp vs cs) m m' l -> quiet (tmp vs (map fst l ++ cs)) m m'.
Proof.
  intros H b Hb. apply (changes_frame _ _ _ _ b H).
  - intros Q. apply Hb. eapply tmp_sub; [| |exact Q]; [apply incl_refl|]. intros x Hx. apply in_app_iff. auto.
  - intros c Hc E. apply Hb. right. exists c. split; [apply in_app_iff; auto|auto].
Qed.
(* cells of variables outside the changed ones *)
Lemma var_not_tmp vs cs v f : incl vs vars -> In v vars -> ~ In v vs \/ f = FVal \/ f = FMask ->
  (forall c, In c cs -> idx c <> idx (vc v f)) -> ~ tmp vs cs (vc v f).
Proof.
  intros Hi Hv H Hc [(u & g & H1 & H2 & H3)|(c & H1 & H2)].
  - destruct (wo_sep w Hw v u f g Hv (Hi u H1) H3) as [<- <-]. destruct H as [H|H]; [contradiction|].
    destruct H as [->| ->], H2 as [Q|[Q|Q]]; discriminate.
  - apply (Hc c H1). congruence.
Qed.
Lemma cell_not_tmp vs cs x : incl vs vars -> sepcell w x -> (forall c, In c cs -> idx c <> idx x) -> ~ tmp vs cs x.
Proof.
  intros Hi Hx Hc [(u & g & H1 & H2 & H3)|(c & H1 & H2)].
  - apply (Hx u g (Hi u H1) H3).
  - apply (Hc c H1). congruence.
Qed.

Variable T : nat -> Z.
Variable a b ret x : Z.
Hypothesis Ha : In a vars.
Hypothesis Hb : In b vars.
Hypothesis Hr : In ret vars.
Hypothesis Hx : In x vars.
Hypothesis Hax : a <> x.
Hypothesis Har : a <> ret.
Hypothesis Hbx : b <> x.
Hypothesis Hbr : b <> ret.
Hypothesis Hrx : ret <> x.
Hypothesis Hcells : forall c, In c (div_cells T) -> patchable w c.
Hypothesis Hnd : NoDup (map idx (div_cells T)).

Notation c1 := (d_c1 T).
Notation x0 := (d_x0 T).
Notation x1 := (d_x1 T).
Notation Seq := (SeqCompute same same_u T).

Lemma in_c1 i : (i < 32)%nat -> In (c1 i) (div_cells T).
Proof. intros H. unfold div_cells. apply in_app_iff. left. apply in_map. apply in_seq. lia. Qed.
Lemma in_x0 i : (i < 32)%nat -> In (x0 i) (div_cells T).
Proof. intros H. unfold div_cells. apply in_app_iff. right. apply in_app_iff. left. apply in_map. apply in_seq. lia. Qed.
Lemma in_x1 i : (i < 32)%nat -> In (x1 i) (div_cells T).
Proof. intros H. unfold div_cells. apply in_app_iff. right. apply in_app_iff. right. apply in_map. apply in_seq. lia. Qed.
Definition all_cells : list Z := div_cells T.
Lemma cells_ne {A} (g h : A -> Z) (l1 l2 : list A) i j : NoDup (map idx (map g l1 ++ map h l2)) -> In i l1 -> In j l2 -> idx (g i) <> idx (h j).
Proof.
  intros N Hi Hj E. rewrite map_app in N. apply (NoDup_app_disj _ _ (idx (g i)) N).
  - apply in_map, in_map. exact Hi.
  - rewrite E. apply in_map, in_map. exact Hj.
Qed.
Lemma map_ne {A} (g : A -> Z) (l : list A) i j : NoDup (map idx (map g l)) -> In i l -> In j l -> i <> j -> idx (g i) <> idx (g j).
Proof.
  induction l as [|y l IH]; intros N Hi Hj Hne E; [destruct Hi|]. cbn [map] in N. inversion_clear N as [|? ? N1 N2].
  destruct Hi as [->|Hi], Hj as [->|Hj]; [congruence| | |exact (IH N2 Hi Hj Hne E)].
  - apply N1. rewrite E. apply in_map, in_map. exact Hj.
  - apply N1. rewrite <- E. apply in_map, in_map. exact Hi.
Qed.
Lemma NoDup_app_r {A} (l1 l2 : list A) : NoDup (l1 ++ l2) -> NoDup l2.
Proof. induction l1; intros H; [exact H|]. inversion_clear H. auto. Qed.
Lemma nd1 : NoDup (map idx (map c1 (seq 0 32) ++ map x0 (seq 0 32))).
Proof. unfold div_cells in Hnd. rewrite app_assoc, map_app in Hnd. apply NoDup_app_l in Hnd. exact Hnd. Qed.
Lemma nd2 : NoDup (map idx (map x0 (seq 0 32) ++ map x1 (seq 0 32))).
Proof. unfold div_cells in Hnd. rewrite map_app in Hnd. apply NoDup_app_r in Hnd. exact Hnd. Qed.
Lemma c1_x0 i j : (i < 32)%nat -> (j < 32)%nat -> idx (c1 i) <> idx (x0 j).
Proof. intros. apply (cells_ne _ _ _ _ i j nd1); apply in_seq; lia. Qed.
Lemma c1_x1 i j : (i < 32)%nat -> (j < 32)%nat -> idx (c1 i) <> idx (x1 j).
Proof.
  intros Hi Hj E. unfold div_cells in Hnd. rewrite map_app in Hnd. apply (NoDup_app_disj _ _ (idx (c1 i)) Hnd).
  - apply in_map, in_map, in_seq. lia.
  - rewrite E. apply in_map, in_app_iff. right. apply in_map, in_seq. lia.
Qed.
Lemma x0_x1 i j : (i < 32)%nat -> (j < 32)%nat -> idx (x0 i) <> idx (x1 j).
Proof. intros. apply (cells_ne _ _ _ _ i j nd2); apply in_seq; lia. Qed.
Lemma x0_x0 i j : (i < 32)%nat -> (j < 32)%nat -> i <> j -> idx (x0 i) <> idx (x0 j).
Proof. intros. apply (map_ne x0 (seq 0 32)); [|apply in_seq; lia|apply in_seq; lia|auto]. pose proof nd2 as N. rewrite map_app in N. apply NoDup_app_l in N. exact N. Qed.
Lemma x1_x1 i j : (i < 32)%nat -> (j < 32)%nat -> i <> j -> idx (x1 i) <> idx (x1 j).
Proof. intros. apply (map_ne x1 (seq 0 32)); [|apply in_seq; lia|apply in_seq; lia|auto]. pose proof nd2 as N. rewrite map_app in N. apply NoDup_app_r in N. exact N. Qed.
Lemma dsep c v f : In c (div_cells T) -> In v vars -> idx c <> idx (vc v f).
Proof. intros Hc Hv. apply (proj2 (Hcells c Hc)). exact Hv. Qed.
Lemma dplain c : In c (div_cells T) -> plain c /\ W_prot w (idx c) = false.
Proof. intros Hc. apply (proj1 (Hcells c Hc)). Qed.

(* ---- lengths ---- *)
Lemma two_len k d1 d2 : length (Seq k [(DExpr d1, Some SetTo, SVar x); (DExpr d2, Some SetTo, SVar x)]) = 2%nat.
Proof. intros. unfold SeqCompute. cbn [fold_left]. set (s1 := seq_step _ _ _ _ _ (DExpr d1, _, _)).
  assert (E1 : q_srcs s1 = [x] /\ q_count s1 = 3 /\ q_out s1 = [] /\ q_prev s1 = [(x, (DExpr d1, Some SetTo))]) by (repeat split; reflexivity).
  destruct E1 as (E1 & E2 & E3 & E4). clearbody s1. unfold seq_step. rewrite E1. cbn [memZ existsb]. rewrite Z.eqb_refl. cbn [orb].
  destruct (flush_out same T k s1) as (F1 & F2 & F3); [rewrite E2; discriminate|]. rewrite F3, E4, F2. cbn [lookup]. rewrite Z.eqb_refl.
  match goal with |- length (q_out (flush _ _ _ ?s)) = _ => destruct (flush_out same T k s) as (G1 & _); [|rewrite G1; cbn [q_out]; rewrite F1, E3; reflexivity] end.
  cbn [q_count omod_eqb mod_eqb]. destruct (same_u _ _); discriminate.
Qed.
Lemma one_len k d : length (Seq k [(DVar d, Some Add, SVar x)]) = 1%nat.
Proof. reflexivity. Qed.
Lemma init_len k : length (Seq k [(DVar ret, Some SetTo, SConst 0); (DVar x, Some SetTo, SVar b)]) = 1%nat.
Proof. reflexivity. Qed.
Lemma dblock_len i : length (div_block same same_u T x i) = 5%nat.
Proof. unfold div_block. rewrite !app_length, two_len. reflexivity. Qed.

(* ---- one block ---- *)
Lemma block_run i m :
  (i < 32)%nat -> placed w T (1 + 5 * i) (div_block same same_u T x i) ->
  get m (c1 i) = lbl T (5 + 5 * i) -> ordinary m x ->
  exists m', get m' (x0 i) = get m (val x) /\ get m' (x1 i) = get m (val x) /\
    (if Z.testbit (get m (val x)) 31
     then runs w (lbl T (1 + 5 * i), m) (lbl T (d_chain i), m')
     else runs w (lbl T (1 + 5 * i), m) (lbl T (6 + 5 * i), m') /\ get m' (val x) = u32 (get m (val x) + get m (val x))) /\
    quiet (tmp [x] [val x; x0 i; x1 i]) m m' /\ keeps w m m'.
Proof.
  intros Hi Hp Hc Ho. unfold div_block in Hp. apply placed_app in Hp. destruct Hp as [P1 Hp].
  rewrite two_len in Hp. replace (1 + 5 * i + 2)%nat with (d_p1 i) in Hp by (unfold d_p1; lia).
  apply placed_app in Hp. destruct Hp as [P2 P4]. apply placed_cons in P2. destruct P2 as [P2 P3].
  apply placed_one in P3. replace (d_p1 i + length _)%nat with (5 + 5 * i)%nat in P4 by (unfold d_p1; cbn [length]; lia).
  replace (S (d_p1 i)) with (4 + 5 * i)%nat in P3 by (unfold d_p1; lia).
  pose proof (in_x0 i Hi) as I0. pose proof (in_x1 i Hi) as I1. pose proof (in_c1 i Hi) as Ic.
  pose proof (c1_x0 i i Hi Hi) as N0. pose proof (c1_x1 i i Hi Hi) as N1. pose proof (x0_x1 i i Hi Hi) as N01.
  assert (Hvx : incl [x] vars) by (intros y [<-|[]]; exact Hx).
  destruct (sets_run w Hw same same_u Hsame perm Hperm T (1 + 5 * i) []
    [(DExpr (x0 i), SetTo, SVar x); (DExpr (x1 i), SetTo, SVar x)] m) as (m1 & A1 & B1 & K1).
  { intros d md s Hin. cbn [In] in Hin. destruct Hin as [E|[E|[]]]; injection E as <- <- <-;
      (split; [reflexivity|split; [reflexivity|split; [apply patch_valcell, Hcells; auto|split; auto]]]). }
  { repeat constructor; unfold rpair_dst, rpair_reads; cbn [fst snd dst_epd]; auto;
      intros y Hy; cbn [In] in Hy; destruct Hy as [<-|[<-|[]]]; apply dsep; auto. }
  { exact P1. }
  cbn [map flat_map snd svar app rpair_dst fst dst_epd sval] in B1, A1.
  change (call_order perm [] _) with [(DExpr (x0 i), Some SetTo, SVar x); (DExpr (x1 i), Some SetTo, SVar x)] in A1.
  rewrite two_len in A1. replace (1 + 5 * i + 2)%nat with (d_p1 i) in A1 by (unfold d_p1; lia).
  pose proof (proj1 B1 (x0 i) _ (or_introl eq_refl)) as V0. pose proof (proj1 B1 (x1 i) _ (or_intror (or_introl eq_refl))) as V1.
  apply does_quiet in B1. cbn [map fst app] in B1.
  assert (Q1 : quiet (tmp [x] [val x; x0 i; x1 i]) m m1).
  { eapply quiet_sub; [|exact B1]. intros y. apply tmp_sub; [intros z Hz; destruct Hz as [<-|[<-|[]]]; cbn; auto|]. intros z [<-|[<-|[]]]; cbn; auto. }
  assert (Gx : get m1 (val x) = get m (val x)).
  { apply B1. apply var_not_tmp; auto; [intros y [<-|[<-|[]]]; auto|]. intros c [<-|[<-|[]]]; apply dsep; auto. }
  assert (Gc : get m1 (c1 i) = lbl T (5 + 5 * i)).
  { rewrite B1; [exact Hc|]. apply cell_not_tmp; [intros y [<-|[<-|[]]]; auto|apply (Hcells _ Ic)|]. intros c [<-|[<-|[]]]; auto. }
  pose proof (conds_one_MX m1 (val x) AtLeast 1 0x80000000 (wo_plain w Hw x FVal Hx)) as Hcd.
  cbn [do_cmp] in Hcd. change 0x80000000 with (2 ^ 31) in Hcd. rewrite test_bit in Hcd by lia. rewrite Gx in Hcd.
  destruct (dplain _ Ic) as [Hpl Hpr].
  destruct (Z.testbit (get m (val x)) 31).
  - pose (m2 := upd (upd m1 (c1 i) (lbl T (4 + 5 * i))) (c1 i) (lbl T (5 + 5 * i))).
    assert (F2 : fr [] m1 m2).
    { intros y _. unfold m2. destruct (Z.eq_dec (idx (c1 i)) (idx y)) as [E|E].
      - unfold get in *. rewrite <- E. fold (get (upd (upd m1 (c1 i) (lbl T (4 + 5 * i))) (c1 i) (lbl T (5 + 5 * i))) (c1 i)).
        rewrite get_upd_eq, u32_lbl. symmetry. exact Gc.
      - rewrite !get_upd_ne by exact E. reflexivity. }
    assert (F : forall y, get m2 y = get m1 y) by (intros y; apply F2; intros c []).
    exists m2. split; [rewrite F; exact V0|]. split; [rewrite F; exact V1|]. split; [|split].
    + eapply runs_trans; [exact A1|]. eapply runs_trans.
      * eapply run_true; [exact P2|reflexivity|exact Hcd| |].
        -- apply do_cons_M; [exact Hpl|exact Hpr|]. cbn [do_mod]. rewrite u32_lbl. apply do_nil.
        -- cbn [rd]. rewrite get_upd_eq. apply u32_lbl.
      * eapply run_true; [exact P3|reflexivity|apply conds_nil| |].
        -- apply do_cons_M; [exact Hpl|exact Hpr|]. cbn [do_mod]. rewrite u32_lbl. apply do_nil.
        -- cbn [rd]. apply u32_lbl.
    + intros y Hy. rewrite F. apply Q1. exact Hy.
    + intros v Hv HO. destruct (K1 v Hv HO). split; rewrite F; auto.
  - destruct (v_iadd_does w Hw same same_u Hsame T (5 + 5 * i) x (SVar x) m1 Hx) as (m2 & A2 & B2 & K2); [split; [exact Hx|apply K1; auto]|exact P4|].
    pose proof (proj1 B2 (val x) _ (or_introl eq_refl)) as Vx. cbn [sval] in Vx.
    apply does_quiet in B2. cbn [map fst app svar] in B2.
    assert (N : forall c, In c [val x] -> idx c <> idx (x0 i) /\ idx c <> idx (x1 i)).
    { intros c [<-|[]]. split; apply not_eq_sym, dsep; auto. }
    exists m2. split; [|split; [|split; [|split]]].
    + rewrite B2; [exact V0|]. apply cell_not_tmp; [exact Hvx|apply (Hcells _ I0)|]. intros c Hc'. apply N. exact Hc'.
    + rewrite B2; [exact V1|]. apply cell_not_tmp; [exact Hvx|apply (Hcells _ I1)|]. intros c Hc'. apply N. exact Hc'.
    + split; [|rewrite Vx, Gx; reflexivity]. eapply runs_trans; [exact A1|]. eapply runs_trans.
      * eapply run_false; [exact P2|reflexivity|exact Hcd|]. cbn [rd]. exact Gc.
      * replace (6 + 5 * i)%nat with (5 + 5 * i + length (v_iadd same same_u T (5 + 5 * i) x (SVar x)))%nat; [exact A2|]. unfold v_iadd. rewrite one_len. lia.
    + eapply quiet_trans; [exact Q1|]. eapply quiet_sub; [|exact B2]. intros y. apply tmp_sub; [apply incl_refl|]. intros z [<-|[]]; cbn; auto.
    + eapply keeps_trans; eauto.
Qed.

(* ---- the blocks ---- *)
Definition div_rest (m : mem) : Prop := forall i, (i < 32)%nat -> get m (c1 i) = lbl T (5 + 5 * i).
Definition filled (B : Z) (n : nat) (m : mem) : Prop := forall j, (j < n)%nat -> get m (x0 j) = B * 2 ^ Z.of_nat j /\ get m (x1 j) = B * 2 ^ Z.of_nat j.
Definition div_fill : list Z := val x :: map x0 (seq 0 32) ++ map x1 (seq 0 32).
Lemma fill_x0 j : (j < 32)%nat -> In (x0 j) div_fill.
Proof. intros. right. apply in_app_iff. left. apply in_map, in_seq. lia. Qed.
Lemma fill_x1 j : (j < 32)%nat -> In (x1 j) div_fill.
Proof. intros. right. apply in_app_iff. right. apply in_map, in_seq. lia. Qed.
Lemma in_fill c : In c div_fill -> c = val x \/ (exists j, (j < 32)%nat /\ (c = x0 j \/ c = x1 j)).
Proof.
  intros [<-|H]; [auto|]. right. apply in_app_iff in H. destruct H as [H|H]; apply in_map_iff in H; destruct H as (j & <- & Hj); apply in_seq in Hj; exists j; (split; [lia|auto]).
Qed.

Hypothesis Hblocks : forall i, (i < 32)%nat -> placed w T (1 + 5 * i) (div_block same same_u T x i).

Lemma fill_loop B : 0 <= B -> forall n i m, (i + n = 31)%nat ->
  get m (val x) = B * 2 ^ Z.of_nat i -> filled B i m -> div_rest m -> ordinary m x ->
  exists j m', (j < 32)%nat /\ runs w (lbl T (1 + 5 * i), m) (lbl T (d_chain j), m') /\ filled B (S j) m' /\
    (B = 0 /\ j = 31%nat \/ 0 < B /\ 2^32 <= B * 2 ^ (Z.of_nat j + 1)) /\
    quiet (tmp [x] div_fill) m m' /\ keeps w m m'.
Proof.
  intros HB. induction n as [|n IH]; intros i m Hi Hxv Hfl Hre Ho.
  all: destruct (block_run i m ltac:(lia) (Hblocks i ltac:(lia)) (Hre i ltac:(lia)) Ho) as (m1 & V0 & V1 & R & Q & K).
  all: assert (Q' : quiet (tmp [x] div_fill) m m1) by
    (eapply quiet_sub; [|exact Q]; intros y; apply tmp_sub; [apply incl_refl|]; intros z [<-|[<-|[<-|[]]]]; [left; reflexivity|apply fill_x0; lia|apply fill_x1; lia]).
  all: assert (Hvx : incl [x] vars) by (intros y [<-|[]]; exact Hx).
  all: assert (Hfl1 : filled B (S i) m1) by
    (intros j Hj; destruct (Nat.eq_dec j i) as [->|Hne]; [rewrite V0, V1, Hxv; auto|];
     destruct (Hfl j ltac:(lia)) as [E0 E1]; split; [rewrite <- E0|rewrite <- E1]; apply Q;
       (apply cell_not_tmp; [exact Hvx|first [apply (Hcells _ (in_x0 j ltac:(lia)))|apply (Hcells _ (in_x1 j ltac:(lia)))]|]);
       intros c [<-|[<-|[<-|[]]]];
       first [apply not_eq_sym, dsep; [first [apply in_x0; lia|apply in_x1; lia]|exact Hx]
             |apply x0_x0; lia|apply x1_x1; lia|apply x0_x1; lia|apply not_eq_sym, x0_x1; lia]).
  all: assert (Hre1 : div_rest m1) by
    (intros j Hj; rewrite Q; [apply Hre; exact Hj|]; apply cell_not_tmp; [exact Hvx|apply (Hcells _ (in_c1 j Hj))|];
     intros c [<-|[<-|[<-|[]]]]; [apply not_eq_sym, dsep; [apply in_c1; lia|exact Hx]|apply not_eq_sym, c1_x0; lia|apply not_eq_sym, c1_x1; lia]).
  all: pose proof (get_range m (val x)) as HX; rewrite Hxv in HX.
  all: pose proof (top_bit (get m (val x)) (get_range m (val x))) as Htb; rewrite Hxv in Htb.
  all: rewrite Hxv, Htb in R; clear Htb; destruct (Z.leb_spec (2 ^ 31) (B * 2 ^ Z.of_nat i)) as [L|L].
  1,3: exists i, m1; split; [lia|]; split; [exact R|]; split; [exact Hfl1|]; split; [|split; [exact Q'|exact K]]; right;
    rewrite Z.pow_add_r by lia; change (2 ^ 1) with 2; change (2 ^ 32) with (2 * 2 ^ 31); nia.
  - assert (i = 31%nat) by lia. subst i. destruct R as [R _]. exists 31%nat, m1. split; [lia|]. split; [exact R|]. split; [exact Hfl1|].
    split; [|split; [exact Q'|exact K]]. left. split; [|reflexivity]. change (Z.of_nat 31) with 31 in L. nia.
  - destruct R as [R Vx]. destruct (IH (S i) m1) as (j & m2 & Hj & R2 & F2 & C2 & Q2 & K2); auto.
    + lia.
    + rewrite Vx. rewrite u32_small by lia. rewrite Nat2Z.inj_succ, Z.pow_succ_r by lia. ring.
    + exists j, m2. split; [exact Hj|]. split; [|split; [exact F2|split; [exact C2|split; [eapply quiet_trans; eauto|eapply keeps_trans; eauto]]]].
      eapply runs_trans; [exact R|]. replace (6 + 5 * i)%nat with (1 + 5 * S i)%nat by lia. exact R2.
Qed.

(* ---- the chain ---- *)
Hypothesis Hchain : forall i, (i < 32)%nat -> W_P w (lbl T (d_chain i)) = Some (div_chain T a ret i).

Lemma conds_one_D m p cm c : plain p -> conds_are m [CondD (Imm p) cm (Mem c)] (do_cmp cm (get m p) (get m c)).
Proof.
  intros Hp. eapply conds_cons_gen with (a := p) (cm := cm) (k := Z.ones 32) (n := get m c) (x := do_cmp cm (get m p) (get m c));
    unfold CondD; cbn [c_w3 c_w4 c_player c_mask c_amount rd]; auto.
  - rewrite land_ones32, u32_get. reflexivity.
  - intros ->. apply conds_nil.
Qed.

Lemma chain_run B : 0 <= B -> forall i m, (i < 32)%nat -> filled B (S i) m ->
  (B = 0 \/ 0 < B /\ get m (val a) < B * 2 ^ (Z.of_nat i + 1)) ->
  exists m', runs w (lbl T (d_chain i), m) (lbl T 193, m') /\
    get m' (val ret) = u32 (get m (val ret) + (if B =? 0 then 2 ^ (Z.of_nat i + 1) - 1 else get m (val a) / B)) /\
    get m' (val a) = (if B =? 0 then get m (val a) else get m (val a) mod B) /\
    fr [val a; val ret] m m'.
Proof.
  intros HB. induction i as [|i IH]; intros m Hi Hfl Hlt.
  all: match goal with H : (?j < 32)%nat |- _ => set (n := j) in *; pose proof (Hchain n H) as P; destruct (Hfl n ltac:(lia)) as [V0 V1] end.
  all: unfold div_chain in P; pose proof (conds_one_D m (val a) AtLeast (x0 n) (wo_plain w Hw a FVal Ha)) as Hcd; cbn [do_cmp] in Hcd.
  all: rewrite V0 in Hcd; pose proof (pow2_pos (Z.of_nat n) ltac:(lia)) as Hpp; pose proof (get_range m (val a)) as HA.
  all: pose (Nb := B * 2 ^ Z.of_nat n); fold Nb in V0, V1, Hcd.
  all: pose (m1 := if Nb <=? get m (val a) then upd (upd m (val a) (get m (val a) - Nb)) (val ret) (u32 (get m (val ret) + 2 ^ Z.of_nat n)) else m).
  all: assert (R : runs w (lbl T (d_chain n), m) (lbl T (S (d_chain n)), m1)).
  1,3: (eapply run_cond; [exact P|reflexivity|exact Hcd| | |cbn [rd]; apply u32_lbl]; intros E; unfold m1; rewrite E; [|reflexivity]);
    (eapply do_cons_D; [reflexivity|apply (wo_plain w Hw); auto|apply (wo_prot w Hw); auto|]); cbn [rd do_mod]; rewrite V1;
    (rewrite Z.max_r by (apply Z.leb_le in E; unfold Nb in *; lia));
    apply do_cons_M; [apply (wo_plain w Hw); auto|apply (wo_prot w Hw); auto|]; rewrite get_upd_ne by sep; cbn [do_mod]; rewrite u32_add_r; apply do_nil.
  all: assert (F1 : fr [val a; val ret] m m1) by
    (unfold m1; destruct (_ <=? _); [|apply fr_refl]; intros y Hy; rewrite !get_upd_ne by (apply Hy; cbn; auto); reflexivity).
  all: assert (Va : get m1 (val a) = if Nb <=? get m (val a) then get m (val a) - Nb else get m (val a)) by
    (unfold m1; destruct (Z.leb_spec Nb (get m (val a))); [|reflexivity]; rewrite get_upd_ne by sep; rewrite get_upd_eq; apply u32_small; unfold Nb in *; nia).
  all: assert (Vr : get m1 (val ret) = u32 (get m (val ret) + (if Nb <=? get m (val a) then 2 ^ Z.of_nat n else 0))) by
    (unfold m1; destruct (Z.leb_spec Nb (get m (val a))); [rewrite get_upd_eq; apply u32_idem|rewrite Z.add_0_r, u32_get; reflexivity]).
  - assert (En : Z.of_nat n = 0) by reflexivity. assert (ENb : Nb = B) by (unfold Nb; rewrite En; change (2 ^ 0) with 1; lia). rewrite En in Vr.
    change (2 ^ 0) with 1 in Vr. rewrite ENb in *. clear ENb. change (2 ^ (Z.of_nat n + 1)) with 2 in *.
    exists m1. split; [exact R|]. split; [|split; [|exact F1]].
    + rewrite Vr. f_equal. f_equal. destruct (Z.eqb_spec B 0) as [E|Hn0]; [rewrite E; replace (0 <=? get m (val a)) with true by lia; reflexivity|].
      destruct Hlt as [?|[_ Hlt]]; [contradiction|]. destruct (Z.leb_spec B (get m (val a))).
      * apply Z.div_unique with (r := get m (val a) - B); lia.
      * symmetry. apply Z.div_small. lia.
    + rewrite Va. destruct (Z.eqb_spec B 0) as [E|Hn0]; [rewrite E; replace (0 <=? get m (val a)) with true by lia; lia|].
      destruct Hlt as [?|[_ Hlt]]; [contradiction|]. destruct (Z.leb_spec B (get m (val a))).
      * apply Z.mod_unique with (q := 1); lia.
      * symmetry. apply Z.mod_small. lia.
  - destruct (IH m1) as (m2 & R2 & Vr2 & Va2 & F2).
    + lia.
    + intros j Hj. destruct (Hfl j ltac:(lia)) as [E0 E1]. split; [rewrite <- E0|rewrite <- E1]; apply F1; intros c [<-|[<-|[]]]; apply not_eq_sym, dsep; auto;
        first [apply in_x0; lia|apply in_x1; lia].
    + destruct Hlt as [->|[Hp Hlt]]; [auto|]. right. split; [exact Hp|]. rewrite Va. replace (Z.of_nat i + 1) with (Z.of_nat n) by lia. fold Nb.
      rewrite Z.pow_add_r in Hlt by lia. change (2 ^ 1) with 2 in Hlt. unfold Nb. destruct (Z.leb_spec (B * 2 ^ Z.of_nat n) (get m (val a))); lia.
    + exists m2. split; [|split; [|split]].
      * eapply runs_trans; [exact R|]. replace (S (d_chain n)) with (d_chain i) by (unfold d_chain, n; lia). exact R2.
      * rewrite Vr2, Vr, u32_add_l, Va. f_equal. rewrite <- Z.add_assoc. f_equal. replace (Z.of_nat i + 1) with (Z.of_nat n) by lia.
        destruct (Z.eqb_spec B 0) as [E|Hn0].
        -- unfold Nb. rewrite E. replace (0 * 2 ^ Z.of_nat n <=? get m (val a)) with true by lia. rewrite (Z.pow_add_r 2 (Z.of_nat n)) by lia. lia.
        -- destruct (Z.leb_spec Nb (get m (val a))); [|lia]. unfold Nb. destruct (div_step_down (get m (val a)) (2 ^ Z.of_nat n) B ltac:(lia)) as [D _].
           replace (B * 2 ^ Z.of_nat n) with (2 ^ Z.of_nat n * B) by ring. rewrite D. lia.
      * rewrite Va2, Va. destruct (Z.eqb_spec B 0) as [E|Hn0].
        -- unfold Nb. rewrite E. rewrite Z.mul_0_l, Z.sub_0_r. destruct (0 <=? _); reflexivity.
        -- destruct (Z.leb_spec Nb (get m (val a))); [|reflexivity]. unfold Nb. destruct (div_step_down (get m (val a)) (2 ^ Z.of_nat n) B ltac:(lia)) as [_ D].
           replace (B * 2 ^ Z.of_nat n) with (2 ^ Z.of_nat n * B) by ring. exact D.
      * eapply fr_trans; eauto.
Qed.
End W.

Lemma blocks_placed w T (f : nat -> list trig) len : (forall i, length (f i) = len) ->
  forall n i k, placed w T k (flat_map f (seq i n)) -> forall j, (j < n)%nat -> placed w T (k + len * j) (f (i + j)%nat).
Proof.
  intros Hl n i k Hp j Hj. apply (placed_blocks w T f len (i + n)) with (n := n); auto.
Qed.
Lemma flat_len {A B} (f : A -> list B) len : (forall i, length (f i) = len) -> forall l, length (flat_map f l) = (length l * len)%nat.
Proof. intros H. induction l as [|x l IH]; [reflexivity|]. cbn [flat_map length]. rewrite app_length, H, IH. reflexivity. Qed.
Lemma down_nth i : (i < 32)%nat -> nth_error down32 (31 - i) = Some i.
Proof. intros H. do 32 (destruct i as [|i]; [reflexivity|]). lia. Qed.

Definition div_inv (T : nat -> Z) (ret x : Z) (m : mem) : Prop := div_rest T m /\ ordinary m x /\ ordinary m ret.
Definition div_state (T : nat -> Z) (ret x : Z) : list Z :=
  map (d_c1 T) (seq 0 32) ++ [vc x FMask; vc x FMod; vc ret FMask; vc ret FMod].
Lemma div_private T ret x : private (div_inv T ret x) (div_state T ret x).
Proof.
  intros m m' H (H1 & [H2 H3] & [H4 H5]).
  assert (G : forall y, In y [vc x FMask; vc x FMod; vc ret FMask; vc ret FMod] -> get m' y = get m y) by (intros y Hy; apply H, in_app_iff; auto).
  split; [|split; split; rewrite G; cbn [In]; auto].
  intros i Hi. rewrite H; [apply H1; exact Hi|]. apply in_app_iff. left. apply in_map, in_seq. lia.
Qed.

Definition div_F (l : list Z) : list Z :=
  let A := nth 0 l 0 in let B := nth 1 l 0 in
  if B =? 0 then [2^32 - 1; A] else [A / B; A mod B].

Theorem eud_div_computes w same same_u perm T a b ret x r0 r1 len :
  world_ok w -> (forall a b, same a b = true -> u32 (dst_epd a) = u32 (dst_epd b)) -> (forall l, Permutation (perm l) l) ->
  let f := mkfunc T len [DVar a; DVar b] [r0; r1] in
  let body := eud_div_body same same_u perm T a b ret x f in
  len = length body -> fn_wf w f -> incl [ret; x] (W_vars w) -> NoDup [a; b; ret; x; r0; r1] ->
  (forall c, In c (div_cells T) -> patchable w c) -> NoDup (map idx (fn_nptr f :: div_cells T)) ->
  placed w T 0 body ->
  computes w f (div_inv T ret x) (tmp [b; x; ret; a] (val r0 :: val r1 :: val ret :: val a :: div_fill T x)) div_F.
Proof.
  intros Hw Hsame Hperm f body Hlen Hf Hlx Hnv Hcells Hnd Hp.
  assert (Ha : In a (W_vars w)) by (apply (fw_args _ _ Hf (DVar a)); cbn; auto).
  assert (Hb : In b (W_vars w)) by (apply (fw_args _ _ Hf (DVar b)); cbn; auto).
  assert (Hr0 : In r0 (W_vars w)) by (apply (fw_rvars _ _ Hf); cbn; auto).
  assert (Hr1 : In r1 (W_vars w)) by (apply (fw_rvars _ _ Hf); cbn; auto).
  assert (Hr : In ret (W_vars w)) by (apply Hlx; cbn; auto).
  assert (Hx : In x (W_vars w)) by (apply Hlx; cbn; auto).
  assert (Hd : a <> b /\ a <> ret /\ a <> x /\ b <> ret /\ b <> x /\ ret <> x /\
    (forall r, r = r0 \/ r = r1 -> a <> r /\ b <> r /\ ret <> r /\ x <> r)).
  { repeat match goal with H : NoDup (_ :: _) |- _ => inversion_clear H end. cbn [In] in *.
    split; [intros ->; tauto|]. split; [intros ->; tauto|]. split; [intros ->; tauto|]. split; [intros ->; tauto|].
    split; [intros ->; tauto|]. split; [intros ->; tauto|]. intros r [->| ->]; (split; [|split; [|split]]); intros ->; tauto. }
  destruct Hd as (Hab & Har & Hax & Hbr & Hbx & Hrx & Hdr).
  destruct (proj1 (NoDup_cons_iff (idx (fn_nptr f)) (map idx (div_cells T))) Hnd) as [Hn1 Hn2].
  assert (Hfill : forall c, In c (div_fill T x) -> c = val x \/ In c (div_cells T)).
  { intros c Hc. destruct (in_fill w T x Hcells c Hc) as [->|(j & Hj & [->| ->])]; [auto|right; apply (in_x0 w T x Hcells); auto|right; apply (in_x1 w T x Hcells); auto]. }
  assert (Hvs : incl [b; x; ret; a] (W_vars w)) by (intros y [<-|[<-|[<-|[<-|[]]]]]; auto).
  apply computes_intro.
  { apply (guard_tmp w Hw); auto.
    - intros y Hy [E|[E|[]]]; subst y; destruct (Hdr r0 (or_introl eq_refl)) as (?&?&?&?); destruct (Hdr r1 (or_intror eq_refl)) as (?&?&?&?);
        destruct Hy as [Q|[Q|[Q|[Q|[]]]]]; congruence.
    - intros c [<-|[<-|[<-|[<-|Hc]]]]; try (split; [apply (valcell_val w Hw); auto|apply (ret_nptr w); auto]; fail).
      destruct (Hfill c Hc) as [->|Hc']; [split; [apply (valcell_val w Hw); auto|apply (ret_nptr w); auto]|].
      split; [apply patch_valcell; auto|]. intros E. apply Hn1. rewrite <- E. apply in_map. exact Hc'. }
  intros m (HI & Hox & Hor) Ho _. rewrite (fn_end T f body) by auto.
  assert (Hoa : ordinary m a) by (apply Ho; cbn; auto). assert (Hob : ordinary m b) by (apply Ho; cbn; auto). clear Ho.
  unfold body, eud_div_body in Hp |- *. clear Hlen.
  apply placed_app in Hp. destruct Hp as [P0 Hp]. rewrite init_len in Hp. change (0 + 1)%nat with 1%nat in Hp.
  apply placed_app in Hp. destruct Hp as [PB Hp]. rewrite (flat_len _ 5) in Hp by (intros; apply dblock_len). rewrite List.seq_length in Hp. change (1 + 32 * 5)%nat with 161%nat in Hp.
  apply placed_app in Hp. destruct Hp as [PC PR]. rewrite map_length in PR. change (161 + length down32)%nat with 193%nat in PR.
  assert (Hblocks : forall i, (i < 32)%nat -> placed w T (1 + 5 * i) (div_block same same_u T x i)).
  { intros i Hi. apply (blocks_placed w T _ 5 (dblock_len same same_u T x) 32 0 1 PB i Hi). }
  assert (Hchain : forall i, (i < 32)%nat -> W_P w (lbl T (d_chain i)) = Some (div_chain T a ret i)).
  { intros i Hi. replace (d_chain i) with (161 + (31 - i))%nat by (unfold d_chain; lia). apply PC.
    apply map_nth_error. apply down_nth. exact Hi. }
  (* start *)
  destruct (sets_run w Hw same same_u Hsame perm Hperm T 0 [] [(DVar ret, SetTo, SConst 0); (DVar x, SetTo, SVar b)] m) as (m1 & A1 & B1 & K1).
  { intros d md s Hin. cbn [In] in Hin. destruct Hin as [E|[E|[]]]; injection E as <- <- <-;
      (split; [reflexivity|split; [reflexivity|split; [apply (valcell_val w Hw); auto|]]]); [exact I|split; auto]. }
  { repeat constructor; unfold rpair_dst, rpair_reads; cbn [fst snd dst_epd].
    - apply (vsep w Hw); auto.
    - intros y [<-|[<-|[]]]; apply (vsep w Hw); auto; right; discriminate.
    - intros y []. }
  { exact P0. }
  cbn [map flat_map snd svar app rpair_dst fst dst_epd sval] in B1, A1.
  change (call_order perm [] _) with [(DVar ret, Some SetTo, SConst 0); (DVar x, Some SetTo, SVar b)] in A1.
  rewrite init_len in A1. change (0 + 1)%nat with 1%nat in A1.
  pose proof (proj1 B1 (val ret) _ (or_introl eq_refl)) as Vr. pose proof (proj1 B1 (val x) _ (or_intror (or_introl eq_refl))) as Vx.
  apply does_quiet in B1. cbn [map fst app] in B1. change (u32 0) with 0 in Vr.
  assert (Hbs : incl [b] (W_vars w)) by (intros y [<-|[]]; auto).
  assert (HR1 : div_rest T m1).
  { intros i Hi. rewrite B1; [apply HI; exact Hi|]. apply (cell_not_tmp w); [exact Hbs|apply (Hcells _ (in_c1 w T x Hcells i Hi))|].
    intros c [<-|[<-|[]]]; apply not_eq_sym, (dsep w T Hcells); auto; apply (in_c1 w T x Hcells); auto. }
  assert (Va1 : get m1 (val a) = get m (val a)).
  { apply B1. apply (var_not_tmp w Hw); auto. intros c [<-|[<-|[]]]; apply (vsep w Hw); auto. }
  pose proof (get_range m (val a)) as HA. pose proof (get_range m (val b)) as HB.
  (* blocks *)
  destruct (fill_loop w Hw same same_u Hsame perm Hperm T a b ret x Hx Hax Har Hbx Hbr Hrx Hcells Hn2 Hblocks (get m (val b)) (proj1 HB) 31 0 m1) as (j & m2 & Hj & R2 & F2 & C2 & Q2 & K2); auto.
  { rewrite Vx. change (2 ^ Z.of_nat 0) with 1. lia. }
  { intros i Hi. lia. }
  assert (Hxs : incl [x] (W_vars w)) by (intros y [<-|[]]; auto).
  assert (Hout : forall v, In v (W_vars w) -> v <> x -> forall c, In c (div_fill T x) -> idx c <> idx (val v)).
  { intros v Hv Hne c Hc. destruct (Hfill c Hc) as [->|Hc']; [apply (vsep w Hw); auto|apply (dsep w T Hcells); auto]. }
  assert (Va2 : get m2 (val a) = get m (val a)).
  { rewrite Q2; [exact Va1|]. apply (var_not_tmp w Hw); auto. }
  assert (Vr2 : get m2 (val ret) = 0).
  { rewrite Q2; [exact Vr|]. apply (var_not_tmp w Hw); auto. }
  (* chain *)
  destruct (chain_run w Hw same same_u T a b ret x Ha Hr Hax Har Hbx Hbr Hrx Hcells Hblocks Hchain (get m (val b)) (proj1 HB) j m2 Hj F2) as (m3 & R3 & Vr3 & Va3 & F3).
  { destruct C2 as [[C2 _]|[C2 C3]]; [auto|right; split; [exact C2|rewrite Va2; lia]]. }
  rewrite Vr2, Va2 in Vr3. rewrite Va2 in Va3. rewrite Z.add_0_l in Vr3.
  assert (K3 : keeps w m2 m3).
  { apply fr_keeps with (cs := [val a; val ret]); [|exact F3]. intros c [<-|[<-|[]]]; apply (valcell_val w Hw); auto. }
  assert (K03 : keeps w m m3) by (eapply keeps_trans; [exact K1|eapply keeps_trans; eauto]).
  (* return *)
  destruct (ret_run w Hw same same_u Hsame perm Hperm T 193 f [SVar ret; SVar a] m3) as (m4 & A4 & B4 & K4).
  { apply (fw_rvars _ _ Hf). } { apply (fw_rets _ _ Hf). } { reflexivity. }
  { intros s [<-|[<-|[]]]; split; auto; apply K03; auto. }
  { intros v [<-|[<-|[]]] [E|[E|[]]]; destruct (Hdr r0 (or_introl eq_refl)) as (?&?&?&?); destruct (Hdr r1 (or_intror eq_refl)) as (?&?&?&?); congruence. }
  { exact PR. }
  assert (V0 : get m4 (val r0) = get m3 (val ret)) by (apply (proj1 B4); left; reflexivity).
  assert (V1 : get m4 (val r1) = get m3 (val a)) by (apply (proj1 B4); right; left; reflexivity).
  apply does_quiet in B4. cbn [f fn_rets map combine fst app vargs flat_map svar sval] in B4.
  pose (S := tmp [b; x; ret; a] (val r0 :: val r1 :: val ret :: val a :: div_fill T x)).
  assert (Q1' : quiet S m m1).
  { eapply quiet_sub; [|exact B1]. intros y. apply tmp_sub; [intros z [<-|[]]; cbn; auto|]. intros z [<-|[<-|[]]]; cbn; auto 6. }
  assert (Q2' : quiet S m1 m2).
  { eapply quiet_sub; [|exact Q2]. intros y. apply tmp_sub; [intros z [<-|[]]; cbn; auto|]. intros z Hz. do 4 right. exact Hz. }
  assert (Q3' : quiet S m2 m3).
  { intros y Hy. apply F3. intros c Hc E. apply Hy. right. exists c. split; [|auto]. destruct Hc as [<-|[<-|[]]]; cbn; auto. }
  assert (Q4' : quiet S m3 m4).
  { eapply quiet_sub; [|exact B4]. intros y. apply tmp_sub; [intros z [<-|[<-|[]]]; cbn; auto|]. intros z [<-|[<-|[]]]; cbn; auto. }
  assert (Q : quiet S m m4) by (eapply quiet_trans; [exact Q1'|eapply quiet_trans; [exact Q2'|eapply quiet_trans; [exact Q3'|exact Q4']]]).
  assert (K : keeps w m m4) by (eapply keeps_trans; eauto).
  exists m4. split; [|split; [|split; [exact Q|split; [|exact K]]]].
  - eapply runs_trans; [exact A1|]. eapply runs_trans; [exact R2|]. eapply runs_trans; [exact R3|].
    rewrite !app_length, init_len, (flat_len _ 5), List.seq_length, map_length by (intros; apply dblock_len).
    replace (0 + (1 + (32 * 5 + (length down32 + length (func_return same same_u perm T 193 f [SVar ret; SVar a])))))%nat
      with (193 + length (func_return same same_u perm T 193 f [SVar ret; SVar a]))%nat by reflexivity. exact A4.
  - split; [|split; apply K; auto]. intros i Hi. rewrite Q; [apply HI; exact Hi|].
    apply (cell_not_tmp w); [exact Hvs|apply (Hcells _ (in_c1 w T x Hcells i Hi))|].
    intros c [<-|[<-|[<-|[<-|Hc]]]]; try (apply not_eq_sym, (dsep w T Hcells); auto; apply (in_c1 w T x Hcells); auto; fail).
    destruct (in_fill w T x Hcells c Hc) as [->|(k & Hk & [->| ->])]; [apply not_eq_sym, (dsep w T Hcells); auto; apply (in_c1 w T x Hcells); auto|
      apply not_eq_sym, (c1_x0 w T x Hcells Hn2); auto|apply not_eq_sym, (c1_x1 w T x Hcells Hn2); auto].
  - cbn [f fn_rets fn_args map dst_epd]. rewrite V0, V1, Vr3, Va3. unfold div_F. cbn [nth].
    destruct (Z.eqb_spec (get m (val b)) 0) as [E|E].
    + destruct C2 as [[_ ->]|[C2 _]]; [reflexivity|lia].
    + f_equal. apply u32_small. split; [apply Z.div_pos; lia|]. apply Z.div_lt_upper_bound; nia.
Qed.
