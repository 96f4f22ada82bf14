(* Correctness of comparisons (OpsModel.v). *)
From Coq Require Import ZArith Lia Bool List.
From Verif Require Import Lib Word Machine MachineProofs VarModel VarSpec VarProofs SeqProofs WordX OpsModel OpsSpec OpsBase OpsProofs OpsArith.
Import ListNotations.
Open Scope Z_scope.

Lemma never_false m r : conds_are m (Never :: r) false.
Proof.
  split; cbn [conds_ok eval_conds Never c_w3 rd].
  - right. split; [|discriminate]. right. right. left. reflexivity.
  - reflexivity.
Qed.
Lemma always_true m r b : conds_are m r b -> conds_are m (Always :: r) b.
Proof.
  intros [H1 H2]. split; cbn [conds_ok eval_conds Always c_w3 rd].
  - right. split; [right; left; reflexivity|]. intros _. exact H1.
  - exact H2.
Qed.

Lemma sub_zero x y : 0 <= x < 2^32 -> 0 <= y < 2^32 -> u32 (x - y) = 0 <-> x = y.
Proof. intros. split; [|intros ->; rewrite Z.sub_diag; reflexivity]. unfold u32. lia. Qed.

Section W.
Variable w : world.
Hypothesis Hw : world_ok w.
Notation vars := (W_vars w).
Notation val v := (vc v FVal).

(* constants: no code *)
Section Const.
Variable m : mem.
Variable a : Z.
Hypothesis Ha : plain a.
Notation x := (get m a).

Lemma lv_eq_ok c : conds_are m [lv_eq a c] (x =? u32 c).
Proof. apply conds_one_M. exact Ha. Qed.
Lemma lv_le_ok c : conds_are m [lv_le a c] (x <=? u32 c).
Proof. apply conds_one_M. exact Ha. Qed.
Lemma lv_ge_ok c : conds_are m [lv_ge a c] (u32 c <=? x).
Proof. apply conds_one_M. exact Ha. Qed.
Lemma lv_lt_ok c : 1 <= c <= 2^32 -> conds_are m [lv_lt a c] (x <? c).
Proof.
  intros. replace (x <? c) with (do_cmp AtMost x (u32 (c - 1))); [apply conds_one_M; exact Ha|].
  cbn [do_cmp]. rewrite u32_small by lia. lia.
Qed.
Lemma lv_gt_ok c : -1 <= c < 2^32 - 1 -> conds_are m [lv_gt a c] (c <? x).
Proof.
  intros. replace (c <? x) with (do_cmp AtLeast x (u32 (c + 1))); [apply conds_one_M; exact Ha|].
  cbn [do_cmp]. rewrite u32_small by lia. lia.
Qed.
Lemma lv_ne_ok c d : lv_ne a c = Some d -> conds_are m [d] (negb (x =? u32 c)).
Proof.
  intros H. pose proof (get_range m a). unfold lv_ne in H.
  destruct (Z.eqb_spec (u32 c) 0) as [E|E].
  - injection H as <-. replace (negb (x =? u32 c)) with (do_cmp AtLeast x (u32 1)); [apply conds_one_M; exact Ha|].
    rewrite E. cbn [do_cmp]. change (u32 1) with 1. lia.
  - destruct (Z.eqb_spec (u32 c) 4294967295) as [E2|E2]; [|discriminate].
    injection H as <-. replace (negb (x =? u32 c)) with (do_cmp AtMost x (u32 4294967294)); [apply conds_one_M; exact Ha|].
    rewrite E2. cbn [do_cmp]. change (u32 4294967294) with 4294967294. lia.
Qed.
End Const.

Variable same same_u : dst -> dst -> bool.
Hypothesis Hsame : forall a b, same a b = true -> u32 (dst_epd a) = u32 (dst_epd b).
Variable addor : Z.
Variable T : nat -> Z.
Notation Seq := (SeqCompute same same_u T).

Ltac ordv := repeat match goal with H : ord_src _ _ (SVar _) |- _ => cbn [ord_src] in H; destruct H end;
  repeat match goal with H : ordinary ?m ?v |- _ =>
    lazymatch goal with _ : get m (vc v FMask) = _ |- _ => fail | _ => pose proof (proj1 H) end end.

Lemma no_code k S m cells c b : (forall m2, (forall a, In a cells -> get m2 a = get m a) -> conds_are m2 [c] b) ->
  tests w T k [] S m cells c b.
Proof.
  intros H. exists m. split; [cbn [length]; rewrite Nat.add_0_r; apply steps_refl|].
  split; [|split; [intros v _ HO; exact HO|exact H]].
  split; [intros ? ? []|auto].
Qed.

(* an operator result compared with a constant *)
Lemma tests_result k code vs cs m r x c b :
  does w T k code (tmp vs cs) m [(val r, x)] ->
  (forall m2, get m2 (val r) = x -> conds_are m2 [c] b) ->
  tests w T k code (tmp vs (val r :: cs)) m [val r] c b.
Proof.
  intros (m' & A & [B1 B2] & C) H. exists m'. split; [exact A|]. split; [|split; [exact C|]].
  - split; [intros ? ? []|]. intros b' Hb _. apply B2.
    + intros Q. apply Hb. apply tmp_sub with (vs := vs) (cs := cs); auto; [apply incl_refl|intros y Hy; right; exact Hy].
    + intros a y [E|[]] Q. injection E as <- <-. apply Hb. right. exists (val r). split; [left; reflexivity|auto].
  - intros m2 Hm2. apply H. rewrite Hm2 by (left; reflexivity). apply B1. left. reflexivity.
Qed.

(* cells that (self - other) may use as temporaries *)
Definition sub_cells : list Z := [val addor; vc addor FNext; vc addor FDest].

Lemma v_eq_ok k self_r other_r self o t m :
  In self vars -> ordinary m self -> In o vars -> ordinary m o ->
  In t vars -> t <> self -> t <> o ->
  In addor vars -> addor_ok addor m -> ~ In addor [self; t; o] ->
  (self_r = true \/ other_r = true -> self <> o) ->
  let (code, c) := v_eq same same_u addor T k self_r other_r self o t in
  let r := snd (v_sub same same_u addor T k self_r other_r self (SVar o) t) in
  placed w T k code ->
  tests w T k code (tmp [self; o] (val r :: sub_cells)) m [val r] c (get m (val self) =? get m (val o)).
Proof.
  intros Hs Hso Ho Hoo Ht N1 N2 Ha Hao Han Hal. unfold v_eq.
  pose proof (v_sub_does w Hw same same_u Hsame T addor k self_r other_r self (SVar o) t m Hs Hso (conj Ho Hoo) Ht N1) as H.
  destruct (v_sub same same_u addor T k self_r other_r self (SVar o) t) as [code r] eqn:E. cbn [snd]. intros Hp.
  assert (Hr : In r vars).
  { unfold v_sub in E. destruct other_r; [apply pair_equal_spec in E; destruct E as [_ <-]; exact Ho|]. destruct self_r; apply pair_equal_spec in E; destruct E as [_ <-]; auto. }
  eapply tests_result.
  - apply H; auto.
    + intros [Q|[]]. auto.
    + intros Q Q2. destruct Q2 as [Q2|[]]. symmetry in Q2. revert Q2. apply Hal. exact Q.
  - intros m2 Hm2. pose proof (get_range m (val self)). pose proof (get_range m (val o)).
    replace (get m (val self) =? get m (val o)) with (do_cmp Exactly (get m2 (val r)) (u32 0));
      [apply conds_one_M; apply (val_writable w Hw); exact Hr|].
    rewrite Hm2. cbn [do_cmp sval]. change (u32 0) with 0.
    pose proof (sub_zero (get m (val self)) (get m (val o)) H0 H1).
    destruct (Z.eqb_spec (u32 (get m (val self) - get m (val o))) 0), (Z.eqb_spec (get m (val self)) (get m (val o))); auto; tauto.
Qed.

Lemma v_ne_ok k self_r other_r self other t m :
  In self vars -> ordinary m self -> ord_src w m other ->
  In t vars -> t <> self -> ~ In t (svar other) ->
  In addor vars -> addor_ok addor m -> ~ In addor (self :: t :: svar other) ->
  (self_r = true \/ other_r = true -> ~ In self (svar other)) ->
  let (code, c) := v_ne same same_u addor T k self_r other_r self other t in
  let r := snd (v_sub same same_u addor T k self_r other_r self other t) in
  placed w T k code ->
  tests w T k code (tmp (self :: svar other) (val r :: sub_cells)) m [val r; val self] c
    (negb (get m (val self) =? sval m other)).
Proof.
  intros Hs Hso Ho Ht N1 N2 Ha Hao Han Hal. unfold v_ne.
  pose proof (v_sub_does w Hw same same_u Hsame T addor k self_r other_r self other t m Hs Hso Ho Ht N1 N2 Ha Hao Han Hal) as H.
  assert (Hxo : 0 <= sval m other < 2^32) by (destruct other; [apply u32_range|apply get_range]).
  assert (Hgen : let (code, c) := let (code, r) := v_sub same same_u addor T k self_r other_r self other t in (code, CondM (val r) AtLeast 1) in
     let r := snd (v_sub same same_u addor T k self_r other_r self other t) in
     placed w T k code ->
     tests w T k code (tmp (self :: svar other) (val r :: sub_cells)) m [val r; val self] c (negb (get m (val self) =? sval m other))).
  { destruct (v_sub same same_u addor T k self_r other_r self other t) as [code r] eqn:E. cbn [snd]. intros Hp.
    assert (Hr : In r vars).
    { unfold v_sub in E. destruct other as [c|o]; [destruct self_r; apply pair_equal_spec in E; destruct E as [_ <-]; auto|].
      destruct other_r; [apply pair_equal_spec in E; destruct E as [_ <-]; apply Ho|]. destruct self_r; apply pair_equal_spec in E; destruct E as [_ <-]; auto. }
    assert (Q : tests w T k code (tmp (self :: svar other) (val r :: sub_cells)) m [val r] (CondM (val r) AtLeast 1) (negb (get m (val self) =? sval m other))).
    { eapply tests_result; [apply H; auto|].
      intros m2 Hm2. pose proof (get_range m (val self)).
      replace (negb (get m (val self) =? sval m other)) with (do_cmp AtLeast (get m2 (val r)) (u32 1));
        [apply conds_one_M; apply (val_writable w Hw); exact Hr|].
      rewrite Hm2. cbn [do_cmp]. change (u32 1) with 1.
      pose proof (sub_zero (get m (val self)) (sval m other) H0 Hxo). pose proof (u32_range (get m (val self) - sval m other)).
      destruct (Z.leb_spec 1 (u32 (get m (val self) - sval m other))), (Z.eqb_spec (get m (val self)) (sval m other)); auto; lia. }
    destruct Q as (m' & Q1 & Q2 & Q3 & Q4). exists m'. split; [exact Q1|]. split; [exact Q2|]. split; [exact Q3|].
    intros m2 Hm2. apply Q4. intros a [<-|[]]. apply Hm2. left. reflexivity. }
  destruct other as [c|o]; [|exact Hgen].
  destruct (Z.eqb_spec (u32 c) 0) as [E|E]; [|destruct (Z.eqb_spec (u32 c) 4294967295) as [E2|E2]; [|exact Hgen]];
    cbv zeta; intros _; apply no_code; intros m2 Hm2; cbn [sval];
    assert (E3 : get m2 (val self) = get m (val self)) by (apply Hm2; right; left; reflexivity); rewrite <- E3.
  - apply (lv_ne_ok m2 (val self) (proj1 (val_writable w Hw self FVal Hs)) c). unfold lv_ne. rewrite E. reflexivity.
  - apply (lv_ne_ok m2 (val self) (proj1 (val_writable w Hw self FVal Hs)) c). unfold lv_ne. rewrite E2. reflexivity.
Qed.

(* variable operand stored in the condition *)
Lemma v_cmp_ok k cm self other cell m :
  In self vars -> ord_src w m other ->
  (forall o, other = SVar o -> patchable w (cell + 2)) ->
  let (code, c) := v_cmp same same_u T k cm self other cell in
  placed w T k code ->
  tests w T k code (tmp (svar other) [cell + 2]) m [val self; cell + 2] c (do_cmp cm (get m (val self)) (sval m other)).
Proof.
  intros Hs Ho He. unfold v_cmp. destruct other as [c|o]; cbn [svar sval].
  - intros _. apply no_code. intros m2 Hm2. rewrite <- (Hm2 (val self)) by (left; reflexivity).
    apply conds_one_M. apply (val_writable w Hw). exact Hs.
  - intros Hp. ordv. specialize (He o eq_refl). pose proof He as [He1 He2].
    destruct (seq_plain w Hw same same_u Hsame T k [(DExpr (cell + 2), Some SetTo, SVar o)] [(DExpr (cell + 2), SetTo, SVar o)] m)
      as (m' & A & B & C); auto.
    { good. }
    { ords. }
    exists m'. split; [exact A|].
    assert (Hns : forall b, ~ scratch [o] b -> get m' b = get (upd m (cell + 2) (get m (val o))) b).
    { intros b Hb. rewrite B by exact Hb. asg. reflexivity. }
    split; [|split; [exact C|]].
    + split; [intros ? ? []|]. intros b Hb _. rewrite Hns by (intros Q; apply Hb; left; exact Q).
      apply get_upd_ne. intros E. apply Hb. right. exists (cell + 2). split; [left; reflexivity|auto].
    + intros m2 Hm2.
      assert (E1 : get m2 (val self) = get m (val self)).
      { rewrite Hm2 by (left; reflexivity). rewrite Hns by (apply (nsc w Hw); [inclv|exact Hs]). apply get_upd_ne. sep. }
      assert (E2 : get m2 (cell + 2) = get m (val o)).
      { rewrite Hm2 by (right; left; reflexivity). rewrite Hns by (apply (sep_not_scratch w); [inclv|exact He2]).
        rewrite get_upd_eq. apply u32_get. }
      eapply conds_cons_gen with (a := val self) (cm := cm) (k := Z.ones 32) (n := get m (val o)) (x := do_cmp cm (get m (val self)) (get m (val o)));
        unfold CondD; cbn [c_w3 c_w4 c_player c_mask c_amount rd]; auto.
      * apply (val_writable w Hw). exact Hs.
      * rewrite land_ones32, u32_get, E1. reflexivity.
      * intros ->. apply conds_nil.
Qed.

Lemma lt_sub x y : 0 <= x < 2^32 -> 0 <= y < 2^32 -> (1 <=? u32 (Z.max 0 (y - x))) = (x <? y).
Proof. intros. rewrite u32_small by lia. lia. Qed.

(* the two-variable < and >: a < b tested as (b - a, stopping at 0) >= 1 *)
Lemma lt_ok k a b cell m :
  In a vars -> ordinary m a -> In b vars -> ordinary m b -> patchable w cell ->
  let code := Seq k [(DExpr cell, Some SetTo, SVar b); (DExpr cell, Some Subtract, SVar a)] in
  placed w T k code ->
  tests w T k code (tmp [a; b] [cell]) m [cell] (selfcond cell) (get m (val a) <? get m (val b)).
Proof.
  intros Ha Hao Hb Hbo He code Hp. pose proof He as [He1 He2]. ordv.
  destruct (seq_plain w Hw same same_u Hsame T k [(DExpr cell, Some SetTo, SVar b); (DExpr cell, Some Subtract, SVar a)]
     [(DExpr cell, SetTo, SVar b); (DExpr cell, Subtract, SVar a)] m) as (m' & A & B & C); auto.
  { good. }
  { ords. }
  assert (Hincl : incl [b; a] vars) by (intros x [<-|[<-|[]]]; auto).
  exists m'. split; [exact A|].
  assert (Hc : get m' cell = u32 (Z.max 0 (get m (val b) - get m (val a)))).
  { rewrite B by (apply (sep_not_scratch w); auto). asg. cbn [do_mod]. rewrite u32_get. reflexivity. }
  split; [|split; [exact C|]].
  - split; [intros ? ? []|]. intros c Hcc _. rewrite B.
    + apply assign_all_other. intros d md s [E|[E|[]]]; injection E as <- <- <-; cbn [dst_epd]; intros Q;
        apply Hcc; right; exists cell; (split; [left; reflexivity|auto]).
    + intros Q. apply Hcc. left. eapply scratch_incl; [|exact Q]. intros x [<-|[<-|[]]]; [right; left|left]; reflexivity.
  - intros m2 Hm2. pose proof (get_range m (val a)). pose proof (get_range m (val b)).
    eapply conds_cons_gen with (a := cell) (cm := AtLeast) (k := Z.ones 32) (n := 1) (x := get m (val a) <? get m (val b));
        unfold selfcond; cbn [c_w3 c_w4 c_player c_mask c_amount rd]; auto.
    + apply He1.
    + cbn [do_cmp]. rewrite land_ones32, u32_get. rewrite Hm2 by (left; reflexivity). rewrite Hc, lt_sub by auto. reflexivity.
    + intros ->. apply conds_nil.
Qed.

Lemma tests_sub k code (S S' : Z -> Prop) m cells cells' c b : (forall a, S a -> S' a) -> incl cells cells' ->
  tests w T k code S m cells c b -> tests w T k code S' m cells' c b.
Proof.
  intros HS Hc (m' & A & [_ B] & C & D). exists m'. split; [exact A|]. split; [|split; [exact C|]].
  - split; [intros ? ? []|]. intros b' Hb Hl. apply B; auto.
  - intros m2 Hm2. apply D. auto.
Qed.

Lemma v_lt_ok k self other cell m :
  In self vars -> ordinary m self -> ord_src w m other ->
  (forall o, other = SVar o -> patchable w cell) ->
  (forall c, other = SConst c -> c <= 2^32) ->
  let (code, c) := v_lt same same_u T k self other cell in
  placed w T k code ->
  tests w T k code (tmp (self :: svar other) [cell]) m [val self; cell] c
    (get m (val self) <? match other with SConst c => c | SVar o => get m (val o) end).
Proof.
  intros Hs Hso Ho He Hc. unfold v_lt. pose proof (get_range m (val self)).
  destruct other as [c|o]; cbn [svar].
  - specialize (Hc c eq_refl). destruct (Z.leb_spec c 0).
    + intros _. apply no_code. intros m2 _. replace (get m (val self) <? c) with false by lia. apply never_false.
    + intros _. apply no_code. intros m2 Hm2. rewrite <- (Hm2 (val self)) by (left; reflexivity).
      apply (lv_lt_ok m2 (val self)); [apply (val_writable w Hw); exact Hs|lia].
  - intros Hp. eapply tests_sub; [| |apply lt_ok; auto; try apply Ho; eauto].
    + intros a Q. exact Q.
    + intros x [<-|[]]. right. left. reflexivity.
Qed.

Lemma v_gt_ok k self other cell m :
  In self vars -> ordinary m self -> ord_src w m other ->
  (forall o, other = SVar o -> patchable w cell) ->
  (forall c, other = SConst c -> -1 <= c) ->
  let (code, c) := v_gt same same_u T k self other cell in
  placed w T k code ->
  tests w T k code (tmp (self :: svar other) [cell]) m [val self; cell] c
    (match other with SConst c => c | SVar o => get m (val o) end <? get m (val self)).
Proof.
  intros Hs Hso Ho He Hc. unfold v_gt. pose proof (get_range m (val self)).
  destruct other as [c|o]; cbn [svar].
  - specialize (Hc c eq_refl). destruct (Z.leb_spec 4294967295 c).
    + intros _. apply no_code. intros m2 _. replace (c <? get m (val self)) with false by lia. apply never_false.
    + intros _. apply no_code. intros m2 Hm2. rewrite <- (Hm2 (val self)) by (left; reflexivity).
      apply (lv_gt_ok m2 (val self)); [apply (val_writable w Hw); exact Hs|lia].
  - intros Hp. eapply tests_sub; [| |apply lt_ok; auto; try apply Ho; eauto].
    + intros a Q. apply tmp_sub with (vs := [o; self]) (cs := [cell]); auto; [intros x [<-|[<-|[]]]; [right; left|left]; reflexivity|apply incl_refl].
    + intros x [<-|[]]. right. left. reflexivity.
Qed.
End W.
