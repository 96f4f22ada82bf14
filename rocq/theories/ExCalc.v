(* A concrete program that uses the arithmetic functions: shows that the
   hypotheses of PropMul.v can be met, and runs the theorems. *)
From Coq Require Import ZArith Lia Bool List Permutation.
From Verif Require Import Lib Word Machine MachineProofs VarModel VarSpec VarProofs NonSeqProofs VbufModel VbufWorld ExWorld ExTools SeqRefute
  OpsModel OpsSpec OpsBase OpsProofs FuncModel FuncSpec FuncProofs FuncBody MulModel MulVar DivVar ShiftVar CalcModel CalcProofs PropMul.
Import ListNotations.
Open Scope Z_scope.

(* ---------- deciding the side conditions ---------- *)
Definition inb (x : Z) (l : list Z) : bool := existsb (Z.eqb x) l.
Lemma inb_in x l : inb x l = true -> In x l.
Proof. intros H. apply existsb_exists in H. destruct H as (y & H & E). apply Z.eqb_eq in E. subst. exact H. Qed.
Lemma inb_not x l : inb x l = false -> ~ In x l.
Proof. intros H Hin. assert (inb x l = true); [|congruence]. apply existsb_exists. exists x. split; [exact Hin|apply Z.eqb_refl]. Qed.
Fixpoint nodupb (l : list Z) : bool := match l with [] => true | x :: r => negb (inb x r) && nodupb r end.
Lemma nodupb_ok l : nodupb l = true -> NoDup l.
Proof.
  induction l as [|x l IH]; intros H; [constructor|]. cbn [nodupb] in H. apply andb_true_iff in H. destruct H as [H1 H2].
  constructor; [apply inb_not, negb_true_iff, H1|apply IH, H2].
Qed.
Definition touches (b : Z) (l : list Z) : bool := existsb (fun c => idx b =? idx c) l.
Lemma touches_not b l : touches b l = false -> forall c, In c l -> idx b <> idx c.
Proof.
  intros H c Hc E. assert (touches b l = true); [|congruence]. apply existsb_exists. exists c. split; [exact Hc|]. rewrite E. apply Z.eqb_refl.
Qed.
Definition hops (vs : list Z) : list Z := flat_map (fun v => [vc v FNext; vc v FDest; vc v FMod]) vs.
Lemma tmp_dec vs cells b : touches b (hops vs ++ cells) = false -> ~ tmp vs cells b.
Proof.
  intros H. pose proof (touches_not _ _ H) as Q. intros [(v & f & H1 & H2 & H3)|(c & H1 & H2)].
  - apply (Q (vc v f)); [|exact H3]. apply in_or_app. left. apply in_flat_map. exists v. split; [exact H1|]. destruct H2 as [->|[->| ->]]; cbn; auto.
  - apply (Q c); [apply in_or_app; auto|exact H2].
Qed.
Definition enter_list (f : efunc) (args : list src) : list Z :=
  hops (vargs args) ++ fn_nptr f :: map (fun r => vc r FDest) (fn_rets f) ++ map dst_epd (fn_args f).
Definition leave_list (f : efunc) : list Z := map (fun r => vc r FNext) (fn_rets f).
Lemma enter_dec f args b : touches b (enter_list f args) = false -> ~ enter_cells f args b.
Proof.
  intros H. pose proof (touches_not _ _ H) as Q. intros [(v & g & H1 & H2 & H3)|[E|[(r & H1 & E)|(d & H1 & E)]]].
  - apply (Q (vc v g)); [|exact H3]. apply in_or_app. left. apply in_flat_map. exists v. split; [exact H1|]. destruct H2 as [->|[->| ->]]; cbn; auto.
  - apply (Q (fn_nptr f)); [|exact E]. apply in_or_app. right. left. reflexivity.
  - apply (Q (vc r FDest)); [|exact E]. apply in_or_app. right. right. apply in_or_app. left. apply in_map_iff. exists r. auto.
  - apply (Q (dst_epd d)); [|exact E]. apply in_or_app. right. right. apply in_or_app. right. apply in_map. exact H1.
Qed.
Lemma leave_dec f b : touches b (leave_list f) = false -> ~ leave_cells f b.
Proof. intros H (r & H1 & E). apply (touches_not _ _ H (vc r FNext)); [|exact E]. apply in_map_iff. exists r. auto. Qed.
Lemma call_tmp_dec f args vs cells b :
  touches b (enter_list f args ++ leave_list f ++ hops vs ++ cells) = false -> ~ call_tmp f args (tmp vs cells) b.
Proof.
  unfold touches. rewrite !existsb_app, !orb_false_iff. intros (H1 & H2 & H3 & H4). intros [Q|[Q|Q]].
  - apply (enter_dec f args b); auto.
  - apply (leave_dec f b); auto.
  - apply (tmp_dec vs cells b); auto. unfold touches. rewrite existsb_app, H3, H4. reflexivity.
Qed.

Definition ex_arg n (d : dst) : bool :=
  match d with DVar v => inb v (exvars n) | DExpr a => (100000 <=? a) && (a <? 2^28) | DInt _ => false end.
Lemma ex_fn_wf n code f : Z.of_nat n < 5000 -> placed (exworld n code) (fn_T f) (fn_len f) (func_end f) ->
  nodupb (fn_rets f) && forallb (fun r => inb r (exvars n)) (fn_rets f) && ((100000 <=? fn_nptr f) && (fn_nptr f <? 2^28))
  && forallb (ex_arg n) (fn_args f) && nodupb (idx (fn_nptr f) :: map (fun d => idx (dst_epd d)) (fn_args f)) = true ->
  fn_wf (exworld n code) f.
Proof.
  intros Hn Hp H. rewrite !andb_true_iff in H. destruct H as ((((H1 & H2) & H3 & H4) & H5) & H6). rewrite forallb_forall in H2, H5.
  constructor; auto.
  - apply nodupb_ok, H1.
  - intros r Hr. apply inb_in, H2, Hr.
  - apply exworld_patchable; auto; lia.
  - intros d Hd. specialize (H5 d Hd). destruct d as [v|z|z]; cbn [ex_arg arg_dst] in *; [apply inb_in, H5|discriminate|].
    apply exworld_patchable; auto; lia.
  - apply nodupb_ok, H6.
Qed.
Fixpoint rsepb (l : list (Z * Z)) : bool :=
  match l with
  | [] => true
  | x :: r => forallb (fun y => negb (idx (snd x) =? idx (snd y)) && negb (idx (snd x) =? idx (vc (fst y) FVal))) r && rsepb r
  end.
Lemma rsepb_ok l : rsepb l = true -> ForallOrdPairs (fun x y => idx (snd x) <> idx (snd y) /\ idx (snd x) <> idx (vc (fst y) FVal)) l.
Proof.
  induction l as [|x l IH]; intros H; [constructor|]. cbn [rsepb] in H. apply andb_true_iff in H. destruct H as [H1 H2]. constructor; [|auto].
  apply Forall_forall. intros y Hy. rewrite forallb_forall in H1. specialize (H1 y Hy). lia.
Qed.
Lemma ex_call_ok n code f args us m : Z.of_nat n < 5000 -> (forall v, In v (vargs args) -> ordinary m v) ->
  (length args =? length (fn_args f))%nat && (length us =? length (fn_rets f))%nat
  && forallb (fun v => inb v (exvars n) && negb (inb v (fn_rets f)) && forallb (fun d => negb (idx (dst_epd d) =? idx (vc v FVal))) (fn_args f)) (vargs args)
  && forallb (fun u => inb u (exvars n)) us && rsepb (combine (fn_rets f) (map (fun u => val u) us)) = true ->
  call_ok (exworld n code) f args (map (fun u => val u) us) m.
Proof.
  intros Hn Ho H. rewrite !andb_true_iff in H. destruct H as ((((H1 & H2) & H3) & H4) & H5). rewrite forallb_forall in H3, H4.
  apply Nat.eqb_eq in H1, H2. constructor; auto.
  - rewrite map_length. exact H2.
  - intros v Hv. specialize (H3 v Hv). rewrite !andb_true_iff in H3. destruct H3 as ((A & B) & C). rewrite forallb_forall in C.
    split; [apply inb_in, A|]. split; [auto|]. split; [apply inb_not, negb_true_iff, B|]. intros d Hd. specialize (C d Hd). lia.
  - intros d Hd. apply in_map_iff in Hd. destruct Hd as (u & <- & Hu). apply valcell_val; [apply exworld_ok; exact Hn|apply inb_in, H4, Hu].
  - apply rsepb_ok, H5.
Qed.
Lemma spares_self D args rds :
  forallb (fun x => negb (touches x (enter_list (fd_f D) args ++ leave_list (fd_f D) ++ rds))) (fd_cells D) = true -> spares (D, args, rds) D.
Proof.
  intros H. split; [|left; reflexivity]. intros x Hx. rewrite forallb_forall in H. specialize (H x Hx). apply negb_true_iff in H.
  unfold touches in H. rewrite !existsb_app, !orb_false_iff in H. destruct H as (A & B & C).
  split; [apply enter_dec, A|]. split; [apply leave_dec, B|]. intros y Hy E. apply (touches_not x rds C y Hy). symmetry. exact E.
Qed.
Lemma spares_other E D args rds vs cells : fd_S E = tmp vs cells ->
  forallb (fun x => negb (touches x (enter_list (fd_f E) args ++ leave_list (fd_f E) ++ hops vs ++ cells ++ rds))) (fd_cells D ++ fd_state D) = true ->
  spares (E, args, rds) D.
Proof.
  intros ES H. rewrite forallb_forall in H.
  assert (G : forall x, In x (fd_cells D ++ fd_state D) -> touches x (enter_list (fd_f E) args) = false /\ touches x (leave_list (fd_f E)) = false /\
     touches x (hops vs) = false /\ touches x cells = false /\ touches x rds = false).
  { intros x Hx. specialize (H x Hx). apply negb_true_iff in H. unfold touches in *. rewrite !existsb_app, !orb_false_iff in H. tauto. }
  split; [|right]; intros x Hx.
  - destruct (G x) as (A & B & C & D1 & E1); [apply in_or_app; auto|]. split; [apply enter_dec, A|]. split; [apply leave_dec, B|].
    intros y Hy Q. apply (touches_not x rds E1 y Hy). symmetry. exact Q.
  - destruct (G x) as (A & B & C & D1 & E1); [apply in_or_app; auto|]. split.
    + rewrite ES. apply call_tmp_dec. unfold touches in *. rewrite !existsb_app, A, B, C, D1. reflexivity.
    + intros y Hy Q. apply (touches_not x rds E1 y Hy). symmetry. exact Q.
Qed.

(* ---------- the program ---------- *)
Notation fs := fresh_same.
Notation us := user_same.
Definition idp (l : list pair) : list pair := l.
Lemma idp_ok l : Permutation (idp l) l.
Proof. apply Permutation_refl. Qed.
Definition V (i : nat) : Z := vb_var 1000 i.
Definition TT (o i : nat) : Z := exT (o + i).
(* _eud_mul *)
Definition gM := mkfunc (TT 0) 128 [DVar (V 0); DVar (V 1)] [V 2].
Definition cM := eud_mul_body (TT 0) (V 0) (V 1) (V 2).
Definition oD : nat := Eval vm_compute in length (cM ++ func_end gM).
(* _eud_div *)
Definition gD0 := mkfunc (TT oD) 0 [DVar (V 3); DVar (V 4)] [V 7; V 8].
Definition nD : nat := Eval vm_compute in length (eud_div_body fs us idp (TT oD) (V 3) (V 4) (V 5) (V 6) gD0).
Definition gD := mkfunc (TT oD) nD [DVar (V 3); DVar (V 4)] [V 7; V 8].
Definition cD := eud_div_body fs us idp (TT oD) (V 3) (V 4) (V 5) (V 6) gD.
Definition oE : nat := Eval vm_compute in (oD + length (cD ++ func_end gD))%nat.
(* _exp2_vv; shares variables with _eud_mul *)
Definition nE : nat := Eval vm_compute in length (exp2_body fs us (TT oE) (V 0) (V 2)).
Definition gE := mkfunc (TT oE) nE [DVar (V 0)] [V 2].
Definition cE := exp2_body fs us (TT oE) (V 0) (V 2).
Definition oS : nat := Eval vm_compute in (oE + length (cE ++ func_end gE))%nat.
(* _f_bitlshift *)
Definition nS : nat := Eval vm_compute in length (bitlshift_body fs us idp (TT oS) (V 9) (V 10) (mkfunc (TT oS) 0 [DVar (V 9); DVar (V 10)] [V 11])).
Definition gS := mkfunc (TT oS) nS [DVar (V 9); DVar (V 10)] [V 11].
Definition cS := bitlshift_body fs us idp (TT oS) (V 9) (V 10) gS.
Definition oR : nat := Eval vm_compute in (oS + length (cS ++ func_end gS))%nat.
(* _f_bitrshift *)
Definition nR : nat := Eval vm_compute in
  length (bitrshift_body fs us idp (TT oR) gE gD (V 12) (V 13) (V 15) (V 16) (V 17) (V 18) (mkfunc (TT oR) 0 [DVar (V 12); DVar (V 13)] [V 14])).
Definition gR := mkfunc (TT oR) nR [DVar (V 12); DVar (V 13)] [V 14].
Definition cR := bitrshift_body fs us idp (TT oR) gE gD (V 12) (V 13) (V 15) (V 16) (V 17) (V 18) gR.
Definition oC : nat := Eval vm_compute in (oR + length (cR ++ func_end gR))%nat.
(* multiplication by 10 *)
Definition nC : nat := Eval vm_compute in length (mulf_body fs us (TT oC) (V 0) (V 2) 10).
Definition gC := mkfunc (TT oC) nC [DVar (V 0)] [V 2].
Definition cC := mulf_body fs us (TT oC) (V 0) (V 2) 10.
Definition oN : nat := Eval vm_compute in (oC + length (cC ++ func_end gC))%nat.
(* shift by 3 through the adder V 19 *)
Definition nN : nat := Eval vm_compute in length (shn_body (TT oN) 3 (V 19)).
Definition gN := mkfunc (TT oN) nN [DExpr (sh_ret (TT oN) 3); DVar (V 19)] [].
Definition cN := shn_body (TT oN) 3 (V 19).
Definition oX : nat := Eval vm_compute in (oN + length (cN ++ func_end gN))%nat.

Definition dM := mkfd gM (mul_inv (TT 0)) (mul_cells (TT 0)) (tmp [V 1] (val (V 2) :: val (V 1) :: mul_cells (TT 0))) (fun l => [u32 (nth 0 l 0 * nth 1 l 0)]).
Definition dD := mkfd gD (div_inv (TT oD) (V 5) (V 6)) (div_state (TT oD) (V 5) (V 6))
  (tmp [V 4; V 6; V 5; V 3] (val (V 7) :: val (V 8) :: val (V 5) :: val (V 3) :: div_fill (TT oD) (V 6))) div_F.
Definition dE := mkfd gE (fun _ => True) [] (tmp [] [val (V 2)]) exp2_F.
Definition dS := mkfd gS (lsh_inv (TT oS)) [lsh_c (TT oS)] (tmp [V 9] [val (V 9); val (V 10); val (V 11); lsh_c (TT oS)]) (fun l => [shl (nth 0 l 0) (nth 1 l 0)]).
Definition dR := mkfd gR (rsh_inv (TT oR) dE dD (V 16) (V 17) (V 15))
  (rsh_c (TT oR) :: fd_state dE ++ fd_state dD ++ [vc (V 0) FMask; vc (V 0) FMod] ++
         flat_map (fun d => match d with DVar v => [vc v FMask; vc v FMod] | _ => [] end) (fn_args (fd_f dD)) ++
         flat_map (fun v => [vc v FMask; vc v FMod]) [V 16; V 17; V 15])
  (rsh_S (TT oR) dE dD (V 12) (V 13) (V 15) (V 16) (V 17) (V 18) (V 14)) (fun l => [shr (nth 0 l 0) (nth 1 l 0)]).
Definition dC := mkfd gC (fun _ => True) [] (tmp [] [val (V 2)]) (fun l => [u32 (hd 0 l * 10)]).
Definition eL : lib := mklib (fun K => match K with KMul => dM | KDiv => dD | KShl => dS | KShr => dR | _ => dC end) (fun _ => gN) (V 19) (V 18).

(* p = x * y; (q, r) = x / y; p2 = x * 10; p3 = x << 3; p4 = x << y; p5 = x >> y *)
Notation mmul k a b r := (f_mul fs us idp exT eL k a b r).
Definition x1 := f_mul fs us idp exT eL oX (SVar (V 20)) (SVar (V 21)) (V 22).
Definition o2 : nat := Eval vm_compute in (oX + length x1)%nat.
Definition x2 := func_call fs us idp exT o2 gD [SVar (V 20); SVar (V 21)] [val (V 23); val (V 24)].
Definition o3 : nat := Eval vm_compute in (o2 + length x2)%nat.
Definition x3 := f_mul fs us idp exT eL o3 (SConst 10) (SVar (V 20)) (V 25).
Definition o4 : nat := Eval vm_compute in (o3 + length x3)%nat.
Definition x4 := shl_const fs us idp exT eL o4 (V 20) 3 (V 26).
Definition o5 : nat := Eval vm_compute in (o4 + length x4)%nat.
Definition x5 := func_call fs us idp exT o5 gS [SVar (V 20); SVar (V 21)] [val (V 27)].
Definition o6 : nat := Eval vm_compute in (o5 + length x5)%nat.
Definition x6 := func_call fs us idp exT o6 gR [SVar (V 20); SVar (V 21)] [val (V 28)].
Definition eprog : list trig :=
  (cM ++ func_end gM) ++ (cD ++ func_end gD) ++ (cE ++ func_end gE) ++ (cS ++ func_end gS) ++ (cR ++ func_end gR) ++
  (cC ++ func_end gC) ++ (cN ++ func_end gN) ++ x1 ++ x2 ++ x3 ++ x4 ++ x5 ++ x6.
Definition ew : world := exworld 29 eprog.
Lemma ew_ok : world_ok ew.
Proof. apply exworld_ok. reflexivity. Qed.

Lemma placed_shift w o k code : placed w exT (o + k) code -> placed w (TT o) k code.
Proof.
  intros H i t Hi. specialize (H i t Hi). unfold lbl, TT in *. rewrite Nat.add_assoc. exact H.
Qed.
Lemma len_eq (l : list trig) n : (length l =? n)%nat = true -> length l = n.
Proof. apply Nat.eqb_eq. Qed.
Ltac ln l n := rewrite (len_eq l n) by (vm_compute; reflexivity).
Lemma eplaced :
  (placed ew (TT 0) 0 cM /\ placed ew (TT 0) 128 (func_end gM)) /\ (placed ew (TT oD) 0 cD /\ placed ew (TT oD) nD (func_end gD)) /\
  (placed ew (TT oE) 0 cE /\ placed ew (TT oE) nE (func_end gE)) /\ (placed ew (TT oS) 0 cS /\ placed ew (TT oS) nS (func_end gS)) /\
  (placed ew (TT oR) 0 cR /\ placed ew (TT oR) nR (func_end gR)) /\ (placed ew (TT oC) 0 cC /\ placed ew (TT oC) nC (func_end gC)) /\
  (placed ew (TT oN) 0 cN /\ placed ew (TT oN) nN (func_end gN)) /\
  placed ew exT oX x1 /\ placed ew exT o2 x2 /\ placed ew exT o3 x3 /\ placed ew exT o4 x4 /\ placed ew exT o5 x5 /\ placed ew exT o6 x6.
Proof.
  assert (G : forall o o' (c r : list trig), placed ew exT o (c ++ r) -> (o + length c =? o')%nat = true -> placed ew exT o c /\ placed ew exT o' r).
  { intros o o' c r P E. apply placed_app in P. apply Nat.eqb_eq in E. rewrite E in P. exact P. }
  assert (F : forall o k (c e : list trig), placed ew exT o (c ++ e) -> (length c =? k)%nat = true -> placed ew (TT o) 0 c /\ placed ew (TT o) k e).
  { intros o k c e P L. apply placed_app in P. rewrite (len_eq _ _ L) in P. destruct P as [P1 P2]. split; apply placed_shift; [rewrite Nat.add_0_r; exact P1|exact P2]. }
  assert (P : placed ew exT 0 eprog) by (apply exworld_placed; vm_compute; reflexivity).
  unfold eprog in P.
  destruct (G _ oD _ _ P ltac:(vm_compute; reflexivity)) as [P1 Q1]. clear P.
  destruct (G _ oE _ _ Q1 ltac:(vm_compute; reflexivity)) as [P2 Q2]. clear Q1.
  destruct (G _ oS _ _ Q2 ltac:(vm_compute; reflexivity)) as [P3 Q3]. clear Q2.
  destruct (G _ oR _ _ Q3 ltac:(vm_compute; reflexivity)) as [P4 Q4]. clear Q3.
  destruct (G _ oC _ _ Q4 ltac:(vm_compute; reflexivity)) as [P5 Q5]. clear Q4.
  destruct (G _ oN _ _ Q5 ltac:(vm_compute; reflexivity)) as [P6 Q6]. clear Q5.
  destruct (G _ oX _ _ Q6 ltac:(vm_compute; reflexivity)) as [P7 Q7]. clear Q6.
  destruct (G _ o2 _ _ Q7 ltac:(vm_compute; reflexivity)) as [P8 Q8]. clear Q7.
  destruct (G _ o3 _ _ Q8 ltac:(vm_compute; reflexivity)) as [P9 Q9]. clear Q8.
  destruct (G _ o4 _ _ Q9 ltac:(vm_compute; reflexivity)) as [P10 Q10]. clear Q9.
  destruct (G _ o5 _ _ Q10 ltac:(vm_compute; reflexivity)) as [P11 Q11]. clear Q10.
  destruct (G _ o6 _ _ Q11 ltac:(vm_compute; reflexivity)) as [P12 P13]. clear Q11.
  split; [exact (F _ 128%nat _ _ P1 ltac:(vm_compute; reflexivity))|].
  split; [exact (F _ nD _ _ P2 ltac:(vm_compute; reflexivity))|].
  split; [exact (F _ nE _ _ P3 ltac:(vm_compute; reflexivity))|].
  split; [exact (F _ nS _ _ P4 ltac:(vm_compute; reflexivity))|].
  split; [exact (F _ nR _ _ P5 ltac:(vm_compute; reflexivity))|].
  split; [exact (F _ nC _ _ P6 ltac:(vm_compute; reflexivity))|].
  split; [exact (F _ nN _ _ P7 ltac:(vm_compute; reflexivity))|].
  auto 10.
Qed.

(* ---------- the functions are in place ---------- *)
Lemma in_vars i : (i < 29)%nat -> In (V i) (W_vars ew).
Proof. intros H. apply in_map, in_seq. lia. Qed.
Ltac wf P := apply (ex_fn_wf 29); [reflexivity|exact P|vm_compute; reflexivity].
Lemma patch_all cells : forallb (fun c => (100000 <=? c) && (c <? 2^28)) cells = true -> forall c, In c cells -> patchable ew c.
Proof. intros H c Hc. rewrite forallb_forall in H. specialize (H c Hc). apply exworld_patchable; [reflexivity|lia]. Qed.
Lemma vne i j : (V i =? V j) = false -> V i <> V j.
Proof. apply Z.eqb_neq. Qed.

Lemma e_mul : calc_fn ew fs us idp KMul dM.
Proof.
  destruct eplaced as ((P1 & P2) & _). apply (cf_mul ew fs us idp (TT 0) (V 0) (V 1) (V 2)).
  - wf P2.
  - apply vne. vm_compute. reflexivity.
  - apply vne. vm_compute. reflexivity.
  - apply patch_all. vm_compute. reflexivity.
  - apply nodupb_ok. vm_compute. reflexivity.
  - exact P1.
Qed.
Lemma e_div : calc_fn ew fs us idp KDiv dD.
Proof.
  destruct eplaced as (_ & (P1 & P2) & _). apply (cf_div ew fs us idp (TT oD) (V 3) (V 4) (V 5) (V 6) (V 7) (V 8) nD).
  - symmetry. apply len_eq. vm_compute. reflexivity.
  - wf P2.
  - intros x [<-|[<-|[]]]; apply in_vars; lia.
  - apply nodupb_ok. vm_compute. reflexivity.
  - apply patch_all. vm_compute. reflexivity.
  - apply nodupb_ok. vm_compute. reflexivity.
  - exact P1.
Qed.
Lemma e_shl : calc_fn ew fs us idp KShl dS.
Proof.
  destruct eplaced as (_ & _ & _ & (P1 & P2) & _). apply (cf_shl ew fs us idp (TT oS) (V 9) (V 10) (V 11) nS).
  - symmetry. apply len_eq. vm_compute. reflexivity.
  - wf P2.
  - apply vne. vm_compute. reflexivity.
  - apply vne. vm_compute. reflexivity.
  - apply (patch_all [lsh_c (TT oS)]); [vm_compute; reflexivity|left; reflexivity].
  - apply Z.eqb_neq. vm_compute. reflexivity.
  - exact P1.
Qed.
Lemma e_c10 : calc_fn ew fs us idp (KCMul 10) dC.
Proof.
  destruct eplaced as (_ & _ & _ & _ & _ & (P1 & P2) & _). apply (cf_mulf ew fs us idp (TT oC) (V 0) (V 2) 10 nC).
  - lia.
  - symmetry. apply len_eq. vm_compute. reflexivity.
  - wf P2.
  - apply vne. vm_compute. reflexivity.
  - exact P1.
Qed.
Lemma e_shn : shn_placed ew eL 3.
Proof.
  destruct eplaced as (_ & _ & _ & _ & _ & _ & (P1 & P2) & _).
  split; [reflexivity|]. split; [reflexivity|]. split; [symmetry; apply len_eq; vm_compute; reflexivity|]. split; [|exact P1]. wf P2.
Qed.
Lemma e_shr : calc_fn ew fs us idp KShr dR.
Proof.
  destruct eplaced as (_ & _ & (E1 & E2) & _ & (P1 & P2) & _).
  apply (cf_shr ew fs us idp (TT oR) (V 12) (V 13) (V 14) (V 15) (V 16) (V 17) (V 18) nR (V 0) (V 2) (TT oE) nE dD).
  - symmetry. apply len_eq. vm_compute. reflexivity.
  - wf E2.
  - apply vne. vm_compute. reflexivity.
  - exact E1.
  - exact e_div.
  - symmetry. apply len_eq. vm_compute. reflexivity.
  - wf P2.
  - intros x [<-|[<-|[<-|[<-|[]]]]]; apply in_vars; lia.
  - apply nodupb_ok. vm_compute. reflexivity.
  - apply (patch_all [rsh_c (TT oR)]); [vm_compute; reflexivity|left; reflexivity].
  - intros m Hm. split.
    + apply (ex_call_ok 29 eprog gE [SVar (V 13)] [V 16]); [reflexivity| |vm_compute; reflexivity].
      intros v [<-|[]]. apply Hm. cbn; auto.
    + apply (ex_call_ok 29 eprog gD [SVar (V 12); SVar (V 16)] [V 17; V 18]); [reflexivity| |vm_compute; reflexivity].
      intros v [<-|[<-|[]]]; apply Hm; cbn; auto.
  - apply (spares_self dE). vm_compute. reflexivity.
  - eapply (spares_other dE); [reflexivity|]. vm_compute. reflexivity.
  - apply (spares_self dD). vm_compute. reflexivity.
  - eapply (spares_other dD); [reflexivity|]. vm_compute. reflexivity.
  - intros x [<-|[]]. apply (call_tmp_dec gE). vm_compute. reflexivity.
  - intros x Hx. apply tmp_dec.
    assert (H : forallb (fun x => negb (touches x (hops [V 17; V 15] ++ [val (V 15); val (V 14); rsh_c (TT oR)]))) (fd_state dE ++ fd_state dD) = true) by (vm_compute; reflexivity).
    rewrite forallb_forall in H. apply negb_true_iff. apply (H x Hx).
  - apply (call_tmp_dec gE). vm_compute. reflexivity.
  - apply (call_tmp_dec gD). vm_compute. reflexivity.
  - intros c Hc.
    assert (H : forallb (fun x => negb (touches x (enter_list gE [SVar (V 13)] ++ leave_list gE ++ hops [] ++ [val (V 2)])) &&
        negb (touches x (enter_list gD [SVar (V 12); SVar (V 16)] ++ leave_list gD ++ hops [V 4; V 6; V 5; V 3] ++ (val (V 7) :: val (V 8) :: val (V 5) :: val (V 3) :: div_fill (TT oD) (V 6)))) &&
        negb (touches x (hops [V 17; V 15] ++ [val (V 16); val (V 17); val (V 18); val (V 15); val (V 14); rsh_c (TT oR)]))) (guard gR) = true) by (vm_compute; reflexivity).
    rewrite forallb_forall in H. specialize (H c Hc). rewrite !andb_true_iff in H. destruct H as ((A & B) & C). rewrite negb_true_iff in A, B, C.
    intros [Q|[Q|Q]]; [exact (call_tmp_dec _ _ _ _ _ A Q)|exact (call_tmp_dec _ _ _ _ _ B Q)|exact (tmp_dec _ _ _ C Q)].
  - exact P1.
Qed.

(* ---------- memory at the start ---------- *)
Definition einit : list (Z * Z) :=
  mul_rest (TT 0) ++ [(m_rd (TT 0), u32 (m_c1 (TT 0) 31)); (m_rv (TT 0), lbl (TT 0) (m_p2 31))] ++
  map (fun i => (d_c1 (TT oD) i, lbl (TT oD) (5 + 5 * i))) (seq 0 32) ++
  [(lsh_c (TT oS), lbl (TT oS) 3); (rsh_c (TT oR), lbl (TT oR) 2); (vc (V 19) FDest, val (V 19)); (vc (V 19) FMod, w6 Add); (val (V 20), 1000); (val (V 21), 7)].
Definition em : mem := fun a => match find (fun p => idx (fst p) =? a) einit with Some p => snd p | None => exmem 29 [] a end.
Definition ordb (m : mem) (v : Z) : bool := (get m (vc v FMask) =? 0xFFFFFFFF) && (get m (vc v FMod) mod 2^24 =? 45 * 2^16).
Lemma em_ord i : (i < 29)%nat -> ordinary em (V i).
Proof.
  intros H. assert (F : forallb (fun i => ordb em (V i)) (seq 0 29) = true) by (vm_compute; reflexivity).
  rewrite forallb_forall in F. specialize (F i ltac:(apply in_seq; lia)). unfold ordb in F. apply andb_true_iff in F. destruct F as [A B].
  apply Z.eqb_eq in A, B. split; assumption.
Qed.
Lemma em_rets f : forallb (fun r => (get em (vc r FMask) =? 0xFFFFFFFF) && (get em (vc r FMod) =? w6 SetTo)) (fn_rets f) = true -> rets_ready f em.
Proof.
  intros H r Hr. rewrite forallb_forall in H. specialize (H r Hr). apply andb_true_iff in H. destruct H as [A B]. apply Z.eqb_eq in A, B. auto.
Qed.
Lemma em_ords l : forallb (ordb em) l = true -> forall v, In v l -> ordinary em v.
Proof.
  intros H v Hv. rewrite forallb_forall in H. specialize (H v Hv). unfold ordb in H. apply andb_true_iff in H. destruct H as [A B].
  apply Z.eqb_eq in A, B. split; assumption.
Qed.
Lemma em_argords l : forallb (fun d => match d with DVar v => ordb em v | _ => true end) l = true -> forall v, In (DVar v) l -> ordinary em v.
Proof.
  intros H v Hv. rewrite forallb_forall in H. specialize (H _ Hv). apply (em_ords [v]); [cbn [forallb]; rewrite H; reflexivity|left; reflexivity].
Qed.
Ltac ordv := apply em_argords; vm_compute; reflexivity.
Lemma r_mul : fd_ready dM em.
Proof.
  split; [|split; [apply em_rets; vm_compute; reflexivity|ordv]].
  cbn [fd_inv dM]. split.
  - exists (m_c1 (TT 0) 31), (lbl (TT 0) (m_p2 31)). split; [|split; vm_compute; reflexivity].
    apply in_or_app. left. apply in_map_iff. exists 31%nat. split; [reflexivity|]. apply in_seq. lia.
  - assert (F : forallb (fun p => get em (fst p) =? snd p) (mul_rest (TT 0)) = true) by (vm_compute; reflexivity).
    rewrite forallb_forall in F. intros c v H. apply Z.eqb_eq. apply (F (c, v) H).
Qed.
Lemma r_div : fd_ready dD em.
Proof.
  split; [|split; [apply em_rets; vm_compute; reflexivity|ordv]].
  cbn [fd_inv dD]. split; [|split; apply em_ord; lia].
  assert (F : forallb (fun i => get em (d_c1 (TT oD) i) =? lbl (TT oD) (5 + 5 * i)) (seq 0 32) = true) by (vm_compute; reflexivity).
  rewrite forallb_forall in F. intros i Hi. apply Z.eqb_eq. apply F. apply in_seq. lia.
Qed.
Lemma r_shl : fd_ready dS em.
Proof. split; [vm_compute; reflexivity|split; [apply em_rets; vm_compute; reflexivity|ordv]]. Qed.
Lemma r_c10 : fd_ready dC em.
Proof. split; [exact I|split; [apply em_rets; vm_compute; reflexivity|ordv]]. Qed.
Lemma r_exp2 : fd_ready dE em.
Proof. split; [exact I|split; [apply em_rets; vm_compute; reflexivity|ordv]]. Qed.
Lemma r_shr : fd_ready dR em.
Proof.
  split; [|split; [apply em_rets; vm_compute; reflexivity|ordv]].
  split; [vm_compute; reflexivity|]. split; [exact r_exp2|]. split; [exact r_div|]. split; [|split]; apply em_ord; lia.
Qed.

(* ---------- the theorems apply ---------- *)
Ltac xy := let v := fresh in let H := fresh in intros v H; destruct H as [<-|[<-|[]]]; apply em_ord; lia.
Lemma osrc i : (i < 29)%nat -> ord_src ew em (SVar (V i)).
Proof. intros H. split; [apply in_vars; exact H|apply em_ord; exact H]. Qed.
Lemma use_value T k code y m l a x : use ew eL T k code y m l -> In (a, x) l ->
  exists m', runs ew (lbl T k, m) (lbl T (k + length code), m') /\ get m' a = x.
Proof. intros (m' & A & B & _) H. exists m'. split; [exact A|]. apply (proj1 B). exact H. Qed.

Example ex_mul : exists m', runs ew (lbl exT oX, em) (lbl exT o2, m') /\ get m' (val (V 22)) = 7000.
Proof.
  destruct eplaced as (_ & _ & _ & _ & _ & _ & _ & P & _).
  apply (use_value exT oX x1 (mul_way (SVar (V 20)) (SVar (V 21)) (V 22)) em [(val (V 22), (1000 * 7) mod 2^32)] _ _); [|left; reflexivity].
  apply (C11_f_mul ew ew_ok fs us fresh_same_ok idp idp_ok eL exT oX (SVar (V 20)) (SVar (V 21)) (V 22) em); try solve [apply osrc; lia|apply in_vars; lia|exact I|reflexivity].
  - split; [exact e_mul|]. split; [apply (ex_call_ok 29 eprog gM _ [V 22]); [reflexivity|xy|vm_compute; reflexivity]|].
    apply spares_self. vm_compute. reflexivity.
  - exact r_mul.
  - exact P.
Qed.
Example ex_div : exists m', runs ew (lbl exT o2, em) (lbl exT o3, m') /\ get m' (val (V 23)) = 142 /\ get m' (val (V 24)) = 6.
Proof.
  destruct eplaced as (_ & _ & _ & _ & _ & _ & _ & _ & P & _).
  destruct (C12_f_div ew ew_ok fs us fresh_same_ok idp idp_ok eL exT o2 (SVar (V 20)) (SVar (V 21)) (V 23) (V 24) em x2) as (m' & A & B & _); try solve [apply osrc; lia|apply in_vars; lia|exact I|reflexivity].
  - apply vne. vm_compute. reflexivity.
  - intros n [H|[H|[]]]; discriminate H.
  - split; [exact e_div|]. split; [apply (ex_call_ok 29 eprog gD _ [V 23; V 24]); [reflexivity|xy|vm_compute; reflexivity]|].
    apply (spares_self dD). vm_compute. reflexivity.
  - exact r_div.
  - exact P.
  - exists m'. split; [exact A|]. split; apply (proj1 B); cbn [num]; [left|right; left]; reflexivity.
Qed.
Example ex_cmul : exists m', runs ew (lbl exT o3, em) (lbl exT o4, m') /\ get m' (val (V 25)) = 10000.
Proof.
  destruct eplaced as (_ & _ & _ & _ & _ & _ & _ & _ & _ & P & _).
  apply (use_value exT o3 x3 (mul_way (SConst 10) (SVar (V 20)) (V 25)) em [(val (V 25), (10 * 1000) mod 2^32)] _ _); [|left; reflexivity].
  apply (C11_f_mul ew ew_ok fs us fresh_same_ok idp idp_ok eL exT o3 (SConst 10) (SVar (V 20)) (V 25) em); try solve [apply osrc; lia|apply in_vars; lia|exact I|reflexivity].
  - split; [exact e_c10|]. split; [apply (ex_call_ok 29 eprog gC _ [V 25]); [reflexivity|intros v [<-|[]]; apply em_ord; lia|vm_compute; reflexivity]|].
    apply (spares_self dC). vm_compute. reflexivity.
  - exact r_c10.
  - exact P.
Qed.
Example ex_shl3 : exists m', runs ew (lbl exT o4, em) (lbl exT o5, m') /\ get m' (val (V 26)) = 8000.
Proof.
  destruct eplaced as (_ & _ & _ & _ & _ & _ & _ & _ & _ & _ & P & _).
  apply (use_value exT o4 x4 (shl_use_way (SVar (V 20)) (SConst 3) (V 26)) em [(val (V 26), (1000 * 2 ^ 3) mod 2^32)] _ _); [|left; reflexivity].
  apply (C15_bitlshift ew ew_ok fs us fresh_same_ok idp idp_ok eL exT o4 (SVar (V 20)) (SConst 3) (V 26) em x4); try solve [apply osrc; lia|apply in_vars; lia|exact I|reflexivity].
  - split; [exact e_shn|]. split; [|split; [apply in_vars; lia|apply vne; vm_compute; reflexivity]].
    apply (ex_call_ok 29 eprog gN _ []); [reflexivity|intros v [<-|[]]; apply em_ord; lia|vm_compute; reflexivity].
  - split; [|split]; vm_compute; reflexivity.
  - exact P.
Qed.
Example ex_shl : exists m', runs ew (lbl exT o5, em) (lbl exT o6, m') /\ get m' (val (V 27)) = 128000.
Proof.
  destruct eplaced as (_ & _ & _ & _ & _ & _ & _ & _ & _ & _ & _ & P & _).
  apply (use_value exT o5 x5 (shl_use_way (SVar (V 20)) (SVar (V 21)) (V 27)) em [(val (V 27), (1000 * 2 ^ 7) mod 2^32)] _ _); [|left; reflexivity].
  apply (C15_bitlshift ew ew_ok fs us fresh_same_ok idp idp_ok eL exT o5 (SVar (V 20)) (SVar (V 21)) (V 27) em x5); try solve [apply osrc; lia|apply in_vars; lia|exact I|reflexivity].
  - split; [exact e_shl|]. split; [apply (ex_call_ok 29 eprog gS _ [V 27]); [reflexivity|xy|vm_compute; reflexivity]|].
    apply (spares_self dS). vm_compute. reflexivity.
  - exact r_shl.
  - exact P.
Qed.
Example ex_shr : exists m', runs ew (lbl exT o6, em) (lbl exT (o6 + length x6), m') /\ get m' (val (V 28)) = 7.
Proof.
  destruct eplaced as (_ & _ & _ & _ & _ & _ & _ & _ & _ & _ & _ & _ & P).
  apply (use_value exT o6 x6 (shr_use_way (SVar (V 20)) (SVar (V 21)) (V 28)) em [(val (V 28), 1000 / 2 ^ 7)] _ _); [|left; reflexivity].
  apply (C15_bitrshift ew ew_ok fs us fresh_same_ok idp idp_ok eL exT o6 (SVar (V 20)) (SVar (V 21)) (V 28) em x6); try solve [apply osrc; lia|apply in_vars; lia|exact I|reflexivity].
  - split; [exact e_shr|]. split; [apply (ex_call_ok 29 eprog gR _ [V 28]); [reflexivity|xy|vm_compute; reflexivity]|].
    apply (spares_self dR). vm_compute. reflexivity.
  - exact r_shr.
  - exact P.
Qed.
