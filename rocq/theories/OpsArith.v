(* Correctness of the operators with a result: + - unary - ~ (OpsModel.v). *)
From Coq Require Import ZArith Lia Bool List.
From Verif Require Import Lib Word Machine MachineProofs VarModel VarSpec VarProofs SeqProofs WordX OpsModel OpsSpec OpsBase OpsProofs.
Import ListNotations.
Open Scope Z_scope.

Section W.
Variable w : world.
Hypothesis Hw : world_ok w.
Notation vars := (W_vars w).
Notation val v := (vc v FVal).
Variable same same_u : dst -> dst -> bool.
Hypothesis Hsame : forall a b, same a b = true -> u32 (dst_epd a) = u32 (dst_epd b).
Variable T : nat -> Z.
Variable addor : Z.

Ltac dest1 := let d := fresh in let md := fresh in let s := fresh in let H := fresh in
  intros d md s H; cbn [In] in H;
  repeat (destruct H as [H|H]; [injection H as <- <- <-; left; reflexivity|]); destruct H.

Ltac one := eapply (seq_one w Hw same same_u Hsame T);
  [good|ords|eassumption|reflexivity|inclv|apply (nsc w Hw); [inclv|assumption]|dest1|asg; cbn [do_mod]].

Ltac ordv := repeat match goal with H : ord_src _ _ (SVar _) |- _ => cbn [ord_src] in H; destruct H end;
  repeat match goal with H : ordinary ?m ?v |- _ =>
    lazymatch goal with _ : get m (vc v FMask) = _ |- _ => fail | _ => pose proof (proj1 H) end end.

(* weaken the temporaries *)
Lemma does_tmp k code vs cs vs' cs' m l : incl vs vs' -> incl cs cs' ->
  does w T k code (tmp vs cs) m l -> does w T k code (tmp vs' cs') m l.
Proof. intros H1 H2. apply does_sub. intros a. apply tmp_sub; auto. Qed.

Lemma does_val k code S m a x y : x = y -> does w T k code S m [(a, x)] -> does w T k code S m [(a, y)].
Proof. intros ->. auto. Qed.

(* sum of self and other into t *)
Lemma add_t k self other t m :
  In t vars -> In self vars -> ordinary m self -> ord_src w m other -> t <> self -> ~ In t (svar other) ->
  let code := SeqCompute same same_u T k [(DVar t, Some SetTo, other); (DVar t, Some Add, SVar self)] in
  placed w T k code ->
  does w T k code (tmp (self :: svar other) []) m [(val t, u32 (get m (val self) + sval m other))].
Proof.
  intros Ht Hs Hso Ho N1 N2 code Hp. destruct other as [c|o]; cbn [svar sval] in *; ordv.
  - one. u32norm. f_equal. lia.
  - assert (N3 : t <> o) by (intros E; apply N2; left; auto).
    one. u32norm. f_equal. lia.
Qed.

Lemma v_add_does k self_r other_r self other t m :
  In self vars -> ordinary m self -> ord_src w m other ->
  In t vars -> t <> self -> ~ In t (svar other) ->
  let (code, r) := v_add same same_u T k self_r other_r self other t in
  placed w T k code ->
  does w T k code (tmp (self :: svar other) []) m [(val r, u32 (get m (val self) + sval m other))].
Proof.
  intros Hs Hso Ho Ht N1 N2. unfold v_add. destruct self_r.
  - intros Hp. apply does_tmp with (vs := svar other) (cs := []); [intros x Hx; right; exact Hx|apply incl_refl|].
    apply v_iadd_does; auto.
  - destruct other as [c|o]; [intros; apply add_t; auto|]. destruct other_r; [|intros; apply add_t; auto].
    intros Hp. destruct Ho as [Hov Hoo]. cbn [svar sval].
    apply does_tmp with (vs := [self]) (cs := []); [intros x [<-|[]]; left; reflexivity|apply incl_refl|].
    eapply does_val; [|apply v_iadd_does; [exact Hw|exact Hsame|exact Hov| |exact Hp]; split; auto].
    cbn [sval]. f_equal. lia.
Qed.

Lemma v_radd_does k self_r self other t m :
  In self vars -> ordinary m self -> ord_src w m other ->
  In t vars -> t <> self -> ~ In t (svar other) ->
  let (code, r) := v_radd same same_u T k self_r self other t in
  placed w T k code ->
  does w T k code (tmp (self :: svar other) []) m [(val r, u32 (sval m other + get m (val self)))].
Proof.
  intros Hs Hso Ho Ht N1 N2. unfold v_radd. destruct self_r; intros Hp.
  - apply does_tmp with (vs := svar other) (cs := []); [intros x Hx; right; exact Hx|apply incl_refl|].
    eapply does_val; [|apply v_iadd_does; eauto]. f_equal. lia.
  - eapply does_val; [|apply add_t; eauto]. f_equal. lia.
Qed.

(* a - b into t; a and b may be the same variable *)
Lemma sub_t k a b t m :
  In t vars -> In a vars -> ordinary m a -> In b vars -> ordinary m b -> t <> a -> t <> b ->
  let code := SeqCompute same same_u T k
    [(DVar t, Some SetTo, SConst 4294967295); (DVar t, Some Subtract, SVar b); (DVar t, Some Add, SConst 1);
     (DVar t, Some Add, SVar a)] in
  placed w T k code ->
  does w T k code (tmp [a; b] []) m [(val t, u32 (get m (val a) - get m (val b)))].
Proof.
  intros Ht Ha Hao Hb Hbo N1 N2 code Hp. ordv. pose proof (get_range m (val b)).
  one. rewrite !(u32_small 4294967295) by lia. rewrite Z.max_r by lia. u32norm. rewrite u32_add_ll. change (u32 1) with 1.
  apply (u32_eq _ _ 1). lia.
Qed.

Definition sub_tmp (self : Z) (other : src) : Z -> Prop :=
  tmp (self :: svar other) [val addor; vc addor FNext; vc addor FDest].

Lemma v_sub_does k self_r other_r self other t m :
  In self vars -> ordinary m self -> ord_src w m other ->
  In t vars -> t <> self -> ~ In t (svar other) ->
  In addor vars -> addor_ok addor m -> ~ In addor (self :: t :: svar other) ->
  (self_r = true \/ other_r = true -> ~ In self (svar other)) ->
  let (code, r) := v_sub same same_u addor T k self_r other_r self other t in
  placed w T k code ->
  does w T k code (sub_tmp self other) m [(val r, u32 (get m (val self) - sval m other))].
Proof.
  intros Hs Hso Ho Ht N1 N2 Hav Hao Han Hal. unfold v_sub.
  assert (Hself : self_r = true -> placed w T k (v_isub same same_u addor T k self other) ->
     does w T k (v_isub same same_u addor T k self other) (sub_tmp self other) m [(val self, u32 (get m (val self) - sval m other))]).
  { intros E Hp. destruct (v_isub_does w Hw same same_u Hsame T addor k self other m) as (m' & A & B & C & D); auto.
    - intros [Q|Q]; [apply Han; left; auto|]. apply Hal; auto.
    - intros Q. apply Han. right. right. exact Q.
    - apply does_tmp with (vs := svar other) (cs := [val addor; vc addor FNext; vc addor FDest]);
        [intros x Hx; right; exact Hx|apply incl_refl|]. exists m'. auto. }
  destruct other as [c|o].
  - destruct self_r; [auto|]. intros Hp. cbn [svar sval] in *.
    apply does_tmp with (vs := [self]) (cs := []); [apply incl_refl|intros x []|].
    ordv. one. u32norm. f_equal. lia.
  - cbn [svar sval] in *. assert (N3 : t <> o) by (intros E; apply N2; left; auto). ordv.
    destruct other_r; [|destruct self_r; [auto|]].
    + intros Hp. assert (N4 : self <> o) by (intros E; apply Hal; auto; left; auto).
      pose proof (valcell_val w Hw o H) as Hvo.
      destruct (neg_acts_do w (val o) Hvo 1 m) as (m1 & A & B & C).
      assert (Hmo : get m1 (vc self FMod) mod 2^24 = 45 * 2^16).
      { rewrite C by sep. apply Hso. }
      set (m2 := upd m1 (vc self FDest) (u32 (val o))).
      set (m3 := upd m2 (vc self FMod) (w6 Add)).
      destruct (VProc_run w Hw T k [self] ([AddNumberX (val o) 4294967295 1431655765;
           AddNumberX (val o) 4294967295 2863311530; AddNumber (val o) 1] ++ QueueAddTo self (val o))
           [(DVar o, Add, self)] m m3) as (m' & R & Q); auto.
      * discriminate.
      * constructor; [intros []|constructor].
      * intros x [<-|[]]. exact Hs.
      * intros a Hin. cbn [app In QueueAddTo] in Hin.
        repeat (destruct Hin as [<-|Hin]; [intros mm; first [apply type_SetM|apply type_SetMX]|]). destruct Hin.
      * eapply do_app; [|exact A|].
        -- intros a Hin. cbn [app In] in Hin.
           repeat (destruct Hin as [<-|Hin]; [intros mm; first [apply type_SetM|apply type_SetMX]|]). destruct Hin.
        -- unfold QueueAddTo, SetDest, SetModifier.
           apply do_cons_M; [apply (wo_plain w Hw); auto|apply (wo_prot w Hw); auto|].
           apply do_cons_MX; [apply (wo_plain w Hw); auto|apply (wo_prot w Hw); auto|].
           cbn [do_mod]. fold m2. rewrite setmod_val; [apply do_nil| |apply get_range].
           unfold m2. rewrite get_upd_ne by sep. exact Hmo.
      * intros d md v [E|[]]. injection E as <- <- <-. cbn [dst_epd].
        split; [apply (val_writable w Hw); auto|]. split; [apply (nsc w Hw); auto; intros x [<-|[]]; exact Hs|].
        unfold m3, m2. split; gs; [rewrite u32_idem; reflexivity|apply w6_small].
      * change (map as_rpair [(DVar o, Add, self)]) with [(DVar o, Add, SVar self)] in Q.
        assert (Hval : forall b, ~ nexts [self] b -> get m' b = get (upd m3 (val o) (u32 (get m3 (val o) + get m3 (val self)))) b).
        { intros b Hb. rewrite Q by exact Hb. unfold assign_all. cbn [fold_left].
          rewrite assign1_ord; [reflexivity|]. unfold m3, m2. gs. rewrite C by sep. apply Hso. }
        exists m'. split; [exact R|]. split.
        -- split.
           ++ intros a x [E|[]]. injection E as <- <-. rewrite Hval.
              ** unfold m3, m2. gs. rewrite B. rewrite (C (val self)) by sep. u32norm. f_equal. lia.
              ** intros (u & [<-|[]] & E2). revert E2. neq.
           ++ intros b Hb Hl. assert (Q1 : idx (val o) <> idx b) by (apply (Hl (val o) _ (or_introl eq_refl))).
              assert (Q2 : forall f, f = FNext \/ f = FDest \/ f = FMod -> idx (vc self f) <> idx b).
              { intros f Hf E. apply Hb. left. exists self, f. split; [left; reflexivity|auto]. }
              rewrite Hval.
              ** unfold m3, m2. rewrite !get_upd_ne; auto.
              ** intros (u & [<-|[]] & E2). apply (Q2 FNext); auto.
        -- intros v Hv [O1 O2]. assert (Hmk : ~ nexts [self] (vc v FMask)).
           { intros (u & [<-|[]] & E2). revert E2. neq. }
           assert (Hmd : ~ nexts [self] (vc v FMod)).
           { intros (u & [<-|[]] & E2). revert E2. neq. }
           split; rewrite Hval by assumption.
           ++ unfold m3, m2. gs. rewrite C by sep. exact O1.
           ++ unfold m3, m2. rewrite get_upd_ne by sep. destruct (Z.eq_dec v self) as [->|Hne].
              ** gs. reflexivity.
              ** gs. rewrite C by sep. exact O2.
    + intros Hp. eapply does_sub; [|apply (sub_t k self o t m); auto].
      intros a. apply tmp_sub; [intros x Hx; exact Hx|intros x []].
Qed.

Lemma v_rsub_does k self_r self other t m :
  In self vars -> ordinary m self -> ord_src w m other ->
  In t vars -> t <> self -> ~ In t (svar other) ->
  let (code, r) := v_rsub same same_u T k self_r self other t in
  placed w T k code ->
  does w T k code (tmp (self :: svar other) []) m [(val r, u32 (sval m other - get m (val self)))].
Proof.
  intros Hs Hso Ho Ht N1 N2. unfold v_rsub. destruct other as [c|o]; cbn [svar sval] in *; ordv.
  - pose proof (get_range m (val self)) as Hr. destruct self_r; intros Hp.
    + apply does_tmp with (vs := []) (cs := []); [intros x []|apply incl_refl|].
      destruct (neg_acts_do w (val self) (valcell_val w Hw self Hs) (c + 1) m) as (m1 & A & B & C).
      eapply (cell_does w T k); [apply (valcell_val w Hw); exact Hs|exact Hp|apply conds_nil|exact A| |exact C].
      rewrite B. u32norm. f_equal. lia.
    + one. rewrite !(u32_small 4294967295) by lia. rewrite Z.max_r by lia. u32norm. apply (u32_eq _ _ 1). lia.
  - intros Hp. assert (N3 : t <> o) by (intros E; apply N2; left; auto).
    eapply does_sub; [|apply (sub_t k o self t m); auto].
    intros a. apply tmp_sub; [intros x [<-|[<-|[]]]; cbn; auto|apply incl_refl].
Qed.

Lemma v_neg_does k self_r self t m :
  In self vars -> ordinary m self -> In t vars -> t <> self ->
  let (code, r) := v_neg same same_u T k self_r self t in
  placed w T k code -> does w T k code (tmp [self] []) m [(val r, u32 (- get m (val self)))].
Proof.
  intros Hs Hso Ht N. unfold v_neg. destruct self_r.
  - intros Hp. apply does_tmp with (vs := []) (cs := []); [intros x []|apply incl_refl|].
    apply lv_ineg_does; auto. apply (valcell_val w Hw); auto.
  - pose proof (v_rsub_does k false self (SConst 0) t m Hs Hso I Ht N (fun x => x)) as H.
    destruct (v_rsub same same_u T k false self (SConst 0) t) as [code r]. intros Hp.
    eapply does_val; [|apply H; exact Hp]. reflexivity.
Qed.

Lemma v_invert_does k self_r self t m :
  In self vars -> ordinary m self -> In t vars -> t <> self ->
  let (code, r) := v_invert same same_u T k self_r self t in
  placed w T k code -> does w T k code (tmp [self] []) m [(val r, 0xFFFFFFFF - get m (val self))].
Proof.
  intros Hs Hso Ht N. unfold v_invert. destruct self_r; intros Hp.
  - apply does_tmp with (vs := []) (cs := []); [intros x []|apply incl_refl|].
    apply lv_iinvert_does; auto. apply (valcell_val w Hw); auto.
  - ordv. pose proof (get_range m (val self)).
    one. rewrite !(u32_small 4294967295) by lia. rewrite Z.max_r by lia. apply u32_small. lia.
Qed.
End W.
