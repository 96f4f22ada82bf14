(* Final theorems: NonSeqCompute (C09) and function calls (C24). *)
From Coq Require Import ZArith Lia List Bool Permutation.
From Verif Require Import Word Machine MachineProofs VarModel VarSpec VarProofs SeqProofs NonSeqProofs VbufModel VbufWorld ExWorld RunDec
  SeqRefute OpsModel OpsSpec OpsBase OpsProofs FuncModel FuncSpec FuncProofs FuncBody ExTools.
Import ListNotations.
Open Scope Z_scope.

(* Independent assignments: different destinations, and no destination is a
   cell that another assignment reads. Any order of them is fine. *)
Theorem C09_nonseq_compute : forall w same same_u perm T k l m,
  world_ok w ->
  (forall a b, same a b = true -> u32 (dst_epd a) = u32 (dst_epd b)) ->
  (forall x, Permutation (perm x) x) ->
  let pl := map with_mod l in
  let code := SeqCompute same same_u T k (nonseq_order perm pl) in
  incl (srcs_of pl) (W_vars w) -> pairs_ok w (srcs_of pl) pl -> mods_wf m (srcs_of pl) ->
  ForallOrdPairs indep l -> placed w T k code ->
  exists m', runs w (lbl T k, m) (lbl T (k + length code), m') /\
    forall l', Permutation l l' -> agree (scratch (srcs_of pl)) m' (assign_all m l').
Proof.
  intros w same same_u perm T k l m Hw Hsame Hperm pl code H1 H2 H3 H4 H5.
  destruct (NonSeqCompute_correct w same same_u perm T k l m Hw Hsame Hperm H1 H2 H3 H4 H5) as (m' & A & B & _).
  exists m'. split; [exact A|]. intros l' P a Ha. rewrite (B a Ha). apply (assign_perm l l' P H4).
Qed.
Print Assumptions C09_nonseq_compute.

Section Calls.
Variable w : world.
Hypothesis Hw : world_ok w.
Variable same same_u : dst -> dst -> bool.
Hypothesis Hsame : forall a b, same a b = true -> u32 (dst_epd a) = u32 (dst_epd b).
Variable perm : list pair -> list pair.
Hypothesis Hperm : forall l, Permutation (perm l) l.
Variable T : nat -> Z.
Notation Call := (func_call same same_u perm T).

(* any function, described by a relation between the memories at its start and
   at its end: the arguments arrive, the body runs, control returns to the
   trigger after the call with the results in the requested cells *)
Theorem C24_call : forall k f args rds m Pre Post,
  fn_wf w f -> call_ok w f args rds m -> placed w T k (Call k f args rds) ->
  rets_ready f m -> body_ok w f Pre Post -> (forall m1, entered w f args m m1 -> Pre m1) ->
  exists m1 m2 m3,
    runs w (lbl T k, m) (lbl T (k + length (Call k f args rds)), m3) /\
    entered w f args m m1 /\ Post m1 m2 /\ returned f rds m2 m3 /\ rets_ready f m3 /\ keeps w m m3.
Proof. intros. eapply call_run; eauto. Qed.

(* a function that computes F on its arguments *)
Theorem C24_call_computes : forall k f args rds m Inv S F cells,
  fn_wf w f -> call_ok w f args rds m -> placed w T k (Call k f args rds) ->
  computes w f Inv S F -> private Inv cells ->
  (forall c, In c cells -> ~ enter_cells f args c /\ ~ leave_cells f c /\ forall d, In d rds -> idx d <> idx c) ->
  Inv m -> rets_ready f m -> (forall v, In (DVar v) (fn_args f) -> ordinary m v) ->
  exists m', runs w (lbl T k, m) (lbl T (k + length (Call k f args rds)), m') /\
    changes (call_tmp f args S) m m' (combine rds (F (map (sval m) args))) /\
    Inv m' /\ rets_ready f m' /\ keeps w m m'.
Proof. intros. eapply call_computes; eauto. Qed.

Fixpoint calls (k : nat) (cs : list call) : list trig :=
  match cs with
  | [] => []
  | (d, args, rds) :: r => let c := Call k (fd_f d) args rds in c ++ calls (k + length c) r
  end.

(* any sequence of calls of any functions, from different places, repeated or
   not: every call has the effect its function promises on the memory that the
   calls before it left *)
Theorem C24_call_sequence : forall cs k m,
  (forall d args rds, In (d, args, rds) cs -> fd_ok w d /\ fd_ready d m /\ call_ok w (fd_f d) args rds m /\
     forall c, In c cs -> spares c d) ->
  placed w T k (calls k cs) ->
  exists m', runs w (lbl T k, m) (lbl T (k + length (calls k cs)), m') /\ calls_effect cs m m'.
Proof.
  assert (G : forall ds cs k m, incl (map (fun c => fst (fst c)) cs) ds ->
    (forall d, In d ds -> fd_ok w d /\ fd_ready d m /\ forall c, In c cs -> spares c d) ->
    (forall d args rds, In (d, args, rds) cs -> call_ok w (fd_f d) args rds m) ->
    placed w T k (calls k cs) ->
    exists m', runs w (lbl T k, m) (lbl T (k + length (calls k cs)), m') /\ calls_effect cs m m').
  2:{ intros cs k m H Hp. apply (G (map (fun c => fst (fst c)) cs)); auto.
      - apply incl_refl.
      - intros d Hd. apply in_map_iff in Hd. destruct Hd as ([[e args] rds] & <- & Hd). cbn [fst].
        destruct (H e args rds Hd) as (? & ? & ? & ?). auto.
      - intros d args rds Hd. apply (H d args rds Hd). }
  intros ds. induction cs as [|[[d args] rds] cs IH]; intros k m Hi Hd Hc Hp.
  - exists m. cbn [calls length]. rewrite Nat.add_0_r. split; [apply steps_refl|constructor].
  - cbn [calls] in *. cbv zeta in *. apply placed_app in Hp. destruct Hp as [P1 P2].
    destruct (Hd d) as ((F1 & F2 & F3) & (R1 & R2 & R3) & Sp); [apply Hi; left; reflexivity|].
    destruct (Sp (d, args, rds)) as [S1 _]; [left; reflexivity|].
    destruct (C24_call_computes k (fd_f d) args rds m (fd_inv d) (fd_S d) (fd_F d) (fd_cells d)) as (m1 & A & B & C & D & K); auto.
    { apply Hc. left. reflexivity. }
    destruct (IH (k + length (Call k (fd_f d) args rds))%nat m1) as (m2 & A2 & B2); auto.
    { intros x Hx. apply Hi. right. exact Hx. }
    { intros e He. destruct (Hd e He) as (G1 & (G2 & G3 & G4) & G5). split; [exact G1|]. split; [|intros c Hcin; apply G5; right; exact Hcin].
      assert (G6 : forall v, In (DVar v) (fn_args (fd_f e)) -> ordinary m1 v).
      { intros v Hv. apply K; [|auto]. apply (fw_args _ _ (proj1 G1) (DVar v) Hv). }
      destruct (G5 (d, args, rds)) as [_ [->|G7]]; [left; reflexivity|unfold fd_ready; auto|].
      assert (Q : forall x, In x (fd_state e) -> get m1 x = get m x).
      { intros x Hx. destruct (G7 x Hx) as [Q1 Q2]. apply (proj2 B); auto.
        intros a y Hin. apply Q2. apply (in_combine_l _ _ _ _ Hin). }
      split; [|split; auto].
      - apply (proj2 (proj2 G1) m m1); auto. intros c Hcin. apply Q. apply in_or_app. left. exact Hcin.
      - intros r Hr. rewrite !Q; [apply (G3 r Hr)| |]; apply in_or_app; right; apply in_flat_map; exists r; cbn; auto. }
    { intros e a r Hin. specialize (Hc e a r (or_intror Hin)). destruct Hc as [X1 X2 X3 X4 X5]. constructor; auto.
      intros v Hv. destruct (X3 v Hv) as (Y1 & Y2 & Y3). auto. }
    exists m2. rewrite app_length, Nat.add_assoc. split; [eapply runs_trans; [exact A|exact A2]|]. econstructor; eauto.
Qed.
End Calls.
Print Assumptions C24_call.
Print Assumptions C24_call_computes.
Print Assumptions C24_call_sequence.

(* ---------- a concrete case: f(x, y) = x + y, called twice ---------- *)
Definition cx := vb_var 1000 0.
Definition cy := vb_var 1000 1.
Definition ct := vb_var 1000 2.
Definition cr := vb_var 1000 3.
Definition cp := vb_var 1000 4.
Definition cq := vb_var 1000 5.
(* the function starts at trigger number 2 *)
Definition cT (i : nat) : Z := exT (2 + i).
Definition sum_f : efunc := mkfunc cT 3 [DVar cx; DVar cy] [cr].
Definition sum_body : list trig :=
  v_assign fresh_same user_same cT 0 ct (SVar cx) ++ v_iadd fresh_same user_same cT 1 ct (SVar cy)
  ++ func_return fresh_same user_same (fun l => l) cT 2 sum_f [SVar ct].
Definition sum_S (b : Z) : Prop := tmp [cx; cy; ct] [vc ct FVal; vc cr FVal] b.
Definition sum_d : fdesc := mkfd sum_f (fun m => ordinary m ct) [vc ct FMask; vc ct FMod] sum_S (fun l => [u32 (nth 0 l 0 + nth 1 l 0)]).
Definition sum_calls : list call := [(sum_d, [SVar cp; SConst 7], [vc cq FVal]); (sum_d, [SVar cq; SVar cp], [vc cp FVal])].
Definition sum_main : list trig := calls fresh_same user_same (fun l => l) exT 0 sum_calls.
Definition sum_w : world := exworld 6 (sum_main ++ sum_body ++ func_end sum_f).
Definition sum_m : mem := exmem 6 [0; 0; 0; 0; 5; 0].
Lemma sum_wok : world_ok sum_w.
Proof. apply exworld_ok. reflexivity. Qed.
Lemma sum_placed : placed sum_w exT 0 sum_main /\ placed sum_w cT 0 sum_body /\ placed sum_w cT 3 (func_end sum_f).
Proof.
  assert (P : placed sum_w exT 0 (sum_main ++ sum_body ++ func_end sum_f)) by (apply exworld_placed; vm_compute; reflexivity).
  apply placed_app in P. destruct P as [P1 P2]. apply placed_app in P2. destruct P2 as [P2 P3].
  split; [exact P1|]. split; [exact P2|exact P3].
Qed.

Ltac inv := cbn [exvars vb_vars map seq In]; auto 10.
Lemma sum_in v : In v [cx; cy; ct; cr; cp; cq] -> In v (W_vars sum_w).
Proof. intros H. exact H. Qed.
Ltac vne := let H := fresh in intros H; revert H; vm_compute; discriminate.
Lemma sum_computes : computes sum_w sum_f (fd_inv sum_d) sum_S (fd_F sum_d).
Proof.
  destruct sum_placed as (_ & P & _). unfold sum_body in P. apply placed_app in P. destruct P as [P1 P]. apply placed_app in P. destruct P as [P2 P3].
  apply computes_intro.
  - intros c Hc [(v & f & H1 & H2 & H3)|(x & H1 & H2)];
    repeat (destruct Hc as [<-|Hc]; [|]); try destruct Hc; repeat (destruct H1 as [<-|H1]); try destruct H1;
      try (destruct H2 as [->|[->| ->]]); try (revert H3; vm_compute; discriminate); revert H2; vm_compute; discriminate.
  - intros m HI Ho Hr. cbn [fn_args sum_f In] in Ho.
    destruct (v_assign_does sum_w sum_wok fresh_same user_same fresh_same_ok cT 0 ct (SVar cx) m) as (m1 & A1 & B1 & K1); auto.
    { apply sum_in; cbn; auto. } { split; [apply sum_in; cbn; auto|apply Ho; auto]. }
    assert (Hoy : ordinary m1 cy) by (apply K1; [apply sum_in; cbn; auto|apply Ho; auto]).
    destruct (v_iadd_does sum_w sum_wok fresh_same user_same fresh_same_ok cT 1 ct (SVar cy) m1) as (m2 & A2 & B2 & K2); auto.
    { apply sum_in; cbn; auto. } { split; [apply sum_in; cbn; auto|auto]. }
    destruct (ret_run sum_w sum_wok fresh_same user_same fresh_same_ok (fun l => l) (fun l => Permutation_refl l) cT 2 sum_f [SVar ct] m2) as (m3 & A3 & B3 & K3); auto.
    { intros x [<-|[]]. apply sum_in; cbn; auto. } { repeat constructor; auto. }
    { intros s [<-|[]]. split; [apply sum_in; cbn; auto 10|]. apply K2, K1; auto; apply sum_in; cbn; auto. }
    { intros v [<-|[]] [H|[]]. revert H. vm_compute. discriminate. }
    exists m3. split; [|split; [|split; [|split]]].
    + eapply runs_trans; [exact A1|]. eapply runs_trans; [exact A2|exact A3].
    + cbn [fd_inv sum_d]. apply K3, K2, K1; auto; apply sum_in; cbn; auto.
    + intros b Hb.
      assert (Hsc : forall vs, incl vs [cx; cy; ct] -> ~ tmp vs [] b).
      { intros vs Hvs [H|(c & [] & _)]. apply Hb. left. eapply scratch_incl; [|exact H]. exact Hvs. }
      assert (Hv : forall v, In v [ct; cr] -> idx (vc v FVal) <> idx b).
      { intros v Hv E. apply Hb. right. exists (vc v FVal). split; [|auto]. destruct Hv as [<-|[<-|[]]]; [left|right; left]; reflexivity. }
      rewrite (changes_frame _ _ _ _ b B3), (changes_frame _ _ _ _ b B2), (changes_frame _ _ _ _ b B1); auto;
        try (apply Hsc; intros x [<-|[]]; cbn [In]; auto); intros a [<-|[]]; apply Hv; cbn [In]; auto.
    + cbn [fn_rets fn_args sum_f map fd_F sum_d nth dst_epd]. f_equal.
      rewrite (proj1 B3 (vc cr FVal) (get m2 (vc ct FVal))) by (left; reflexivity).
      rewrite (proj1 B2 (vc ct FVal) _ (or_introl eq_refl)). rewrite (proj1 B1 (vc ct FVal) _ (or_introl eq_refl)). cbn [sval].
      rewrite (changes_frame _ _ _ _ (vc cy FVal) B1); [reflexivity| |].
      * intros [(v & f & H1 & H2 & H3)|(c & [] & _)]. cbn in H1. destruct H1 as [<-|[]]. destruct H2 as [->|[->| ->]]; revert H3; vm_compute; discriminate.
      * intros a [<-|[]]. vm_compute. discriminate.
    + intros v Hv O. auto.
Qed.

Lemma sum_idx b (l : list Z) : existsb (fun c => idx b =? idx c) l = false -> ~ exists c, In c l /\ idx b = idx c.
Proof.
  intros H (c & H1 & H2). assert (E : existsb (fun c => idx b =? idx c) l = true); [|congruence].
  apply existsb_exists. exists c. rewrite H2, Z.eqb_refl. auto.
Qed.
Lemma sum_enter args b : existsb (fun c => idx b =? idx c)
    (flat_map (fun v => [vc v FNext; vc v FDest; vc v FMod]) (vargs args) ++ [fn_nptr sum_f; vc cr FDest; vc cx FVal; vc cy FVal]) = false ->
  ~ enter_cells sum_f args b.
Proof.
  intros H Q. apply sum_idx in H. apply H. destruct Q as [(v & f & H1 & H2 & H3)|[Q|[(r & [<-|[]] & Q)|(d & Q & Q2)]]].
  - exists (vc v f). split; [|exact H3]. apply in_or_app. left. apply in_flat_map. exists v. split; [exact H1|]. destruct H2 as [->|[->| ->]]; cbn; auto.
  - exists (fn_nptr sum_f). split; [apply in_or_app; right; cbn; auto|exact Q].
  - exists (vc cr FDest). split; [apply in_or_app; right; cbn; auto|exact Q].
  - exists (dst_epd d). split; [apply in_or_app; right|exact Q2]. cbn in Q. destruct Q as [<-|[<-|[]]]; cbn; auto.
Qed.

Example ex_calls :
  (forall d args rds, In (d, args, rds) sum_calls -> fd_ok sum_w d /\ fd_ready d sum_m /\ call_ok sum_w (fd_f d) args rds sum_m /\
     forall c, In c sum_calls -> spares c d) /\
  placed sum_w exT 0 sum_main /\
  exists m', runs sum_w (lbl exT 0, sum_m) (lbl exT 2, m') /\ get m' (vc cq FVal) = 12 /\ get m' (vc cp FVal) = 17.
Proof.
  assert (Hord : forall v, In v [cx; cy; ct; cr; cp; cq] -> ordinary sum_m v).
  { intros v Hv. cbn in Hv. repeat (destruct Hv as [<-|Hv]; [split; vm_compute; reflexivity|]). destruct Hv. }
  assert (H0 : fd_ok sum_w sum_d /\ fd_ready sum_d sum_m).
  { split; [split; [|split]|split; [|split]].
    - constructor.
      + apply sum_placed.
      + repeat constructor; auto.
      + intros x [<-|[]]. apply sum_in; cbn; auto.
      + apply exworld_patchable; vm_compute; auto; intuition discriminate.
      + intros d [<-|[<-|[]]]; apply sum_in; cbn; auto.
      + vm_compute. repeat constructor; cbn; intuition discriminate.
    - apply sum_computes.
    - intros m m' H O. cbn [sum_d fd_cells fd_inv] in *. unfold ordinary in *. rewrite !H by (cbn [In]; auto). exact O.
    - apply Hord. cbn; auto.
    - intros r [<-|[]]. split; vm_compute; reflexivity.
    - intros v [H|[H|[]]]; injection H as <-; apply Hord; cbn; auto. }
  assert (Hcall : forall d args rds, In (d, args, rds) sum_calls -> d = sum_d /\ call_ok sum_w sum_f args rds sum_m).
  { intros d args rds [H|[H|[]]]; injection H as <- <- <-; (split; [reflexivity|]); constructor; auto.
    - intros v [<-|[]]. split; [apply sum_in; cbn; auto 10|]. split; [apply Hord; cbn; auto 10|]. split; [intros [H|[]]; revert H; vm_compute; discriminate|].
      intros d [<-|[<-|[]]]; vm_compute; discriminate.
    - intros d [<-|[]]. apply (valcell_val sum_w sum_wok cq). apply sum_in; cbn; auto 10.
    - repeat constructor.
    - intros v [<-|[<-|[]]]; (split; [apply sum_in; cbn; auto 10|]; split; [apply Hord; cbn; auto 10|];
        split; [intros [H|[]]; revert H; vm_compute; discriminate|intros d [<-|[<-|[]]]; vm_compute; discriminate]).
    - intros d [<-|[]]. apply (valcell_val sum_w sum_wok cp). apply sum_in; cbn; auto 10.
    - repeat constructor. }
  assert (Hsp : forall c, In c sum_calls -> spares c sum_d).
  { intros c [<-|[<-|[]]]; split; [|left; reflexivity| |left; reflexivity];
      intros x [<-|[<-|[]]]; (split; [apply sum_enter; vm_compute; reflexivity|split;
       [intros (r & [<-|[]] & E); revert E; vm_compute; discriminate|intros y [<-|[]]; vm_compute; discriminate]]). }
  assert (Hall : forall d args rds, In (d, args, rds) sum_calls -> fd_ok sum_w d /\ fd_ready d sum_m /\ call_ok sum_w (fd_f d) args rds sum_m /\
     forall c, In c sum_calls -> spares c d).
  { intros d args rds H. destruct (Hcall _ _ _ H) as [-> H2]. destruct H0. auto. }
  split; [exact Hall|]. split; [apply sum_placed|].
  destruct (C24_call_sequence sum_w sum_wok fresh_same user_same fresh_same_ok (fun l => l) (fun l => Permutation_refl l) exT sum_calls 0 sum_m Hall (proj1 sum_placed)) as (m' & A & B).
  exists m'. split; [exact A|].
  inversion B as [|? ? ? ? ? m1 ? B1 B2]. subst. inversion B2 as [|? ? ? ? ? m2 ? B3 B4]. subst. inversion B4. subst.
  assert (E1 : get m1 (vc cq FVal) = 12) by (apply (proj1 B1); left; reflexivity).
  assert (Hne : forall args b, existsb (fun c => idx b =? idx c)
    (flat_map (fun v => [vc v FNext; vc v FDest; vc v FMod]) ([cx; cy; ct] ++ vargs args) ++ [fn_nptr sum_f; vc cr FDest; vc cx FVal; vc cy FVal; vc cr FNext; vc ct FVal; vc cr FVal]) = false ->
    ~ call_tmp sum_f args sum_S b).
  { intros args b H [Q|[(r & [<-|[]] & Q)|[(v & f & Q1 & Q2 & Q3)|(c & Q1 & Q2)]]].
    - apply sum_idx in H. apply H. destruct Q as [(v & f & H1 & H2 & H3)|[Q|[(r & [<-|[]] & Q)|(d & Q & Q2)]]].
      + exists (vc v f). split; [|exact H3]. apply in_or_app. left. apply in_flat_map. exists v. split; [apply in_or_app; right; exact H1|]. destruct H2 as [->|[->| ->]]; cbn; auto.
      + exists (fn_nptr sum_f). split; [apply in_or_app; right; cbn; auto|exact Q].
      + exists (vc cr FDest). split; [apply in_or_app; right; cbn; auto|exact Q].
      + exists (dst_epd d). split; [apply in_or_app; right|exact Q2]. cbn in Q. destruct Q as [<-|[<-|[]]]; cbn; auto.
    - apply sum_idx in H. apply H. exists (vc cr FNext). split; [apply in_or_app; right; cbn; auto 10|exact Q].
    - apply sum_idx in H. apply H. exists (vc v f). split; [|exact Q3]. apply in_or_app. left. apply in_flat_map. exists v.
      split; [apply in_or_app; left; exact Q1|]. destruct Q2 as [->|[->| ->]]; cbn; auto.
    - apply sum_idx in H. apply H. exists c. split; [apply in_or_app; right|exact Q2]. cbn in Q1. destruct Q1 as [<-|[<-|[]]]; cbn; auto 10. }
  assert (E2 : get m1 (vc cp FVal) = 5).
  { rewrite (changes_frame _ _ _ _ (vc cp FVal) B1); [vm_compute; reflexivity|apply Hne; vm_compute; reflexivity|].
    intros a [<-|[]]. vm_compute. discriminate. }
  split.
  - rewrite (changes_frame _ _ _ _ (vc cq FVal) B3); [exact E1|apply Hne; vm_compute; reflexivity|].
    intros a [<-|[]]. vm_compute. discriminate.
  - rewrite (proj1 B3 (vc cp FVal) _ (or_introl eq_refl)). cbn [map sval nth]. rewrite E1, E2. reflexivity.
Qed.

(* ---------- a concrete case for C09 ---------- *)
Definition ns_l : list rpair := [(DVar cx, SetTo, SVar cp); (DVar cy, Add, SConst 3); (DExpr 200000, Subtract, SVar cp); (DVar ct, Add, SVar cq)].
Definition ns_code : list trig := SeqCompute fresh_same user_same exT 0 (nonseq_order (@rev pair) (map with_mod ns_l)).
Example ex_nonseq : nonseq_order (@rev pair) (map with_mod ns_l) <> map with_mod ns_l /\
  exists m', runs (exworld 6 ns_code) (lbl exT 0, sum_m) (lbl exT (length ns_code), m') /\
    map (get m') [vc cx FVal; vc cy FVal; 200000; vc ct FVal] = [5; 3; 0; 0].
Proof.
  split; [vm_compute; discriminate|].
  assert (Hd : forall a, existsb (fun v => existsb (fun f => idx a =? idx (vc v f)) [FNext; FDest; FMod]) [cp; cp; cq] = false ->
              ~ scratch [cp; cp; cq] a).
  { intros a H (v & f & Hv & Hf & E).
    assert (Ht : existsb (fun v => existsb (fun f => idx a =? idx (vc v f)) [FNext; FDest; FMod]) [cp; cp; cq] = true); [|congruence].
    apply existsb_exists. exists v. split; [exact Hv|]. apply existsb_exists. exists f. rewrite E, Z.eqb_refl. destruct Hf as [->|[->| ->]]; cbn; auto. }
  assert (Hwv : forall v, In v (exvars 6) -> writable (exworld 6 ns_code) (vc v FVal)) by (intros; apply val_writable; auto; apply exworld_ok; reflexivity).
  destruct (C09_nonseq_compute (exworld 6 ns_code) fresh_same user_same (@rev pair) exT 0 ns_l sum_m) as (m' & A & B).
  - apply exworld_ok. reflexivity.
  - exact fresh_same_ok.
  - intros x. apply Permutation_sym, Permutation_rev.
  - intros v H. change (srcs_of (map with_mod ns_l)) with [cp; cp; cq] in H. cbn in H. destruct H as [<-|[<-|[<-|[]]]]; cbn; auto 10.
  - intros d md s H. change (srcs_of (map with_mod ns_l)) with [cp; cp; cq].
    destruct H as [H|[H|[H|[H|[]]]]]; injection H as <- <- <-; (split; [|split; [apply Hd; vm_compute; reflexivity|cbn [In truthy]; auto 10]]).
    + apply Hwv. cbn; auto. + apply Hwv. cbn; auto. + apply exworld_patchable; [reflexivity|change (dst_epd (DExpr 200000)) with 200000; lia]. + apply Hwv. cbn; auto.
  - intros v H. change (srcs_of (map with_mod ns_l)) with [cp; cp; cq] in H. destruct H as [<-|[<-|[<-|[]]]]; vm_compute; reflexivity.
  - apply ford_indep.
    + vm_compute. repeat constructor; cbn; intuition discriminate.
    + intros p q a Hp Hq Ha. destruct Hp as [<-|[<-|[<-|[<-|[]]]]]; destruct Hq as [<-|[<-|[<-|[<-|[]]]]];
        cbn [rpair_reads snd In] in Ha; try contradiction; destruct Ha as [<-|[<-|[]]]; vm_compute; discriminate.
  - apply exworld_placed; vm_compute; reflexivity.
  - exists m'. split; [exact A|]. specialize (B ns_l (Permutation_refl _)).
    change (srcs_of (map with_mod ns_l)) with [cp; cp; cq] in B.
    cbn [map]. rewrite !B by (apply Hd; vm_compute; reflexivity). vm_compute. reflexivity.
Qed.
