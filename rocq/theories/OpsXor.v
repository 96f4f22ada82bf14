(* Correctness of exclusive or on variables and of the operators that compose
   assignment with an in-place operator (OpsModel.v). *)
From Coq Require Import ZArith Lia Bool List.
From Verif Require Import Lib Word Machine MachineProofs VarModel VarSpec VarProofs SeqProofs WordX OpsModel OpsSpec OpsBase OpsProofs OpsArith OpsBits.
Import ListNotations.
Open Scope Z_scope.

Lemma xor_two_adds_self x : 0 <= x < 2^32 -> wadd kA (wadd k5 x x) (wadd k5 x x) = Z.lxor x x.
Proof.
  intros Hx. rewrite !wadd_xor by reflexivity. rewrite !Z.lxor_nilpotent, Z.land_0_l, !Z.lor_0_r.
  apply Z.bits_inj'. intros i Hi. rewrite !Z.ldiff_spec, Z.bits_0.
  destruct (Z.lt_ge_cases i 32).
  - rewrite k5A by lia. destruct (Z.testbit x i), (Z.testbit k5 i); reflexivity.
  - rewrite (bounded_bits 32 x) by lia. reflexivity.
Qed.
Lemma wadd_range k d v : 0 <= k < 2^32 -> 0 <= d < 2^32 -> 0 <= v < 2^32 -> 0 <= wadd k d v < 2^32.
Proof. apply (do_modx_range Add). Qed.

Section W.
Variable w : world.
Hypothesis Hw : world_ok w.
Notation vars := (W_vars w).
Notation val v := (vc v FVal).
Variable same same_u : dst -> dst -> bool.
Hypothesis Hsame : forall a b, same a b = true -> u32 (dst_epd a) = u32 (dst_epd b).
Variable T : nat -> Z.
Notation Seq := (SeqCompute same same_u T).

Ltac ordv := repeat match goal with H : ord_src _ _ (SVar _) |- _ => cbn [ord_src] in H; destruct H end;
  repeat match goal with H : ordinary ?m ?v |- _ =>
    lazymatch goal with _ : get m (vc v FMask) = _ |- _ => fail | _ => pose proof (proj1 H) end end.

(* one variable transferred by VProc *)
Lemma vproc1 k acts o a md m m1 :
  placed w T k (VProc T k [o] acts) -> In o vars -> nonzero_acts acts -> acts_do (W_prot w) m acts m1 ->
  valcell w a -> get m1 (vc o FDest) = u32 a -> get m1 (vc o FMod) = w6 md ->
  exists m', runs w (lbl T k, m) (lbl T (k + length (VProc T k [o] acts)), m') /\
    (forall b, idx b <> idx (vc o FNext) ->
       get m' b = get (upd m1 a (do_modx md (get m1 (vc o FMask)) (get m1 a) (get m1 (val o)))) b).
Proof.
  intros Hp Ho Hnz Ha Hc Hd Hm.
  destruct (VProc_run w Hw T k [o] acts [(DExpr a, md, o)] m m1) as (m' & R & Q); auto.
  - discriminate.
  - constructor; [intros []|constructor].
  - intros x [<-|[]]; exact Ho.
  - intros d md' v [E|[]]. injection E as <- <- <-. cbn [dst_epd]. split; [apply Hc|]. split; [|auto].
    intros (v & f & [<-|[]] & Hf & E). revert E. apply Hc; auto. destruct Hf as [->|[->| ->]]; discriminate.
  - exists m'. split; [exact R|]. intros b Hb. rewrite Q.
    + change (map as_rpair [(DExpr a, md, o)]) with [(DExpr a, md, SVar o)].
      cbn [assign_all fold_left assign1 dst_epd]. reflexivity.
    + intros (v & [<-|[]] & E). contradiction.
Qed.

Lemma nz_cons a l : (forall m, act_type (rd m (a_w6 a)) <> 0) -> nonzero_acts l -> nonzero_acts (a :: l).
Proof. intros H1 H2 b [<-|Hb]; auto. Qed.
Lemma nz_nil : nonzero_acts [].
Proof. intros b []. Qed.
Ltac nz := repeat (apply nz_cons; [intros; first [apply type_SetM|apply type_SetMX]|]); apply nz_nil.

(* the second half: bits of 0xAAAAAAAA, then the full mask again *)
Lemma xor_tail k1 o a m1 :
  let code := andthen k1 (VProc T k1 [o] [SetMask o 0xAAAAAAAA]) (fun k2 => Raw1 T k2 [] [SetMask o 0xFFFFFFFF]) in
  placed w T k1 code -> In o vars -> valcell w a ->
  get m1 (vc o FDest) = u32 a -> get m1 (vc o FMod) = w6 Add ->
  exists m', runs w (lbl T k1, m1) (lbl T (k1 + length code), m') /\
    get m' (vc o FMask) = 0xFFFFFFFF /\
    (forall b, idx b <> idx (vc o FNext) -> idx b <> idx (vc o FMask) ->
       get m' b = get (upd m1 a (wadd kA (get m1 a) (get m1 (val o)))) b).
Proof.
  intros code Hp Ho Ha Hd Hm. unfold code, andthen in *.
  destruct (placed_app _ _ _ _ _ Hp) as [P1 P2].
  assert (N1 : idx a <> idx (vc o FMask)) by (apply Ha; auto; discriminate).
  assert (N2 : idx a <> idx (vc o FNext)) by (apply Ha; auto; discriminate).
  destruct (vproc1 k1 [SetMask o 0xAAAAAAAA] o a Add m1 (upd m1 (vc o FMask) kA)) as (m2 & R & Q); auto.
  - nz.
  - unfold SetMask. apply do_cons_M; [apply (val_writable w Hw); auto|apply (val_writable w Hw); auto|].
    apply do_nil.
  - gs. exact Hd.
  - gs. exact Hm.
  - eexists. split; [|split].
    + rewrite app_length, Nat.add_assoc. eapply runs_trans; [exact R|].
      apply raw_run; [exact P2|apply conds_nil|].
      unfold SetMask. apply do_cons_M; [apply (val_writable w Hw); auto|apply (val_writable w Hw); auto|].
      apply do_nil.
    + rewrite get_upd_eq. reflexivity.
    + intros b B1 B2. rewrite get_upd_ne by auto. rewrite Q by auto. cbn [do_modx].
      rewrite get_upd_eq. change (u32 kA) with kA. rewrite (get_upd_ne m1 (vc o FMask) a) by auto.
      rewrite (get_upd_ne m1 (vc o FMask) (val o)) by sep.
      destruct (Z.eq_dec (idx a) (idx b)) as [E|E].
      * unfold get, upd. rewrite E, !Z.eqb_refl. reflexivity.
      * rewrite !get_upd_ne by auto. reflexivity.
Qed.

(* after the first half, in which a received d + o on the bits of 0x55555555 *)
Lemma xor_finish k1 o a d x m m1 vs :
  let code := andthen k1 (VProc T k1 [o] [SetMask o 0xAAAAAAAA]) (fun k2 => Raw1 T k2 [] [SetMask o 0xFFFFFFFF]) in
  placed w T k1 code -> In o vars -> valcell w a -> ordinary m o -> incl vs vars -> In o vs ->
  get m1 (vc o FDest) = u32 a -> get m1 (vc o FMod) = w6 Add ->
  get m1 a = wadd k5 d (get m (val o)) -> 0 <= d < 2^32 ->
  (idx a = idx (val o) -> d = get m (val o)) -> x = Z.lxor d (get m (val o)) ->
  (forall b, ~ scratch vs b -> idx b <> idx a -> idx b <> idx (vc o FMask) -> get m1 b = get m b) ->
  (forall v, In v vars -> v <> o -> ordinary m v -> ordinary m1 v) ->
  exists m', runs w (lbl T k1, m1) (lbl T (k1 + length code), m') /\
    changes (tmp vs []) m m' [(a, x)] /\ keeps w m m'.
Proof.
  intros code Hp Ho Ha Hoo Hi Hov Hd Hm Hv Hdr Hal Hx Hoth Hk.
  destruct (xor_tail k1 o a m1 Hp Ho Ha Hd Hm) as (m' & R & Q1 & Q2).
  assert (N1 : idx a <> idx (vc o FMask)) by (apply Ha; auto; discriminate).
  assert (N2 : idx a <> idx (vc o FNext)) by (apply Ha; auto; discriminate).
  assert (N3 : idx a <> idx (vc o FMod)) by (apply Ha; auto; discriminate).
  pose proof (get_range m (val o)) as Hr.
  assert (Hk5 : 0 <= k5 < 2^32) by (unfold k5; lia). assert (HkA : 0 <= kA < 2^32) by (unfold kA; lia).
  assert (Hval : get m' a = x).
  { rewrite Q2 by auto. rewrite get_upd_eq. rewrite Hv.
    destruct (Z.eq_dec (idx a) (idx (val o))) as [E|E].
    - rewrite (Hal E) in *. assert (E1 : get m1 (val o) = wadd k5 (get m (val o)) (get m (val o))).
      { unfold get at 1. rewrite <- E. exact Hv. }
      rewrite E1, xor_two_adds_self by lia. subst x. apply u32_small, lxor_range; lia.
    - rewrite (Hoth (val o)), xor_two_adds by (try apply (not_scratch_val w Hw); auto; try lia; sep).
      subst x. apply u32_small, lxor_range; lia. }
  exists m'. split; [exact R|]. split; [split|].
  - intros a' x' [E|[]]. injection E as <- <-. exact Hval.
  - intros b Hb Hl. assert (B1 : idx a <> idx b) by (apply (Hl a x); left; reflexivity).
    assert (B2 : ~ scratch vs b) by (intros Q; apply Hb; left; exact Q).
    destruct (Z.eq_dec (idx b) (idx (vc o FMask))) as [E|E].
    + destruct Hoo as [O1 _]. unfold get in *. rewrite E. congruence.
    + rewrite Q2 by (auto; intros Q; apply B2; exists o, FNext; auto).
      rewrite get_upd_ne by auto. auto.
  - intros v Hvv HO. destruct (Z.eq_dec v o) as [->|Hne].
    + split; [exact Q1|]. rewrite Q2 by sep. rewrite get_upd_ne by exact N3. rewrite Hm. reflexivity.
    + destruct (Hk v Hvv Hne HO) as [O1 O2].
      split; rewrite Q2 by sep; rewrite get_upd_ne by (apply Ha; auto; discriminate); auto.
Qed.

Lemma v_ixor_does k self other m :
  In self vars -> ord_src w m other ->
  placed w T k (v_ixor T k self other) ->
  does w T k (v_ixor T k self other) (tmp (svar other) []) m
    [(val self, Z.lxor (get m (val self)) (sval m other))].
Proof.
  intros Hs Ho Hp. destruct other as [c|o]; cbn [v_ixor svar sval] in *.
  - apply lv_ixor_does; auto. apply (valcell_val w Hw); auto.
  - destruct Ho as [Ho Hoo]. set (code2 := fun k1 => andthen k1 (VProc T k1 [o] [SetMask o 0xAAAAAAAA]) (fun k2 => Raw1 T k2 [] [SetMask o 0xFFFFFFFF])).
    change (placed w T k (andthen k (VProc T k [o] (SetMask o 1431655765 :: QueueAddTo o (val self))) code2)) in Hp.
    change (does w T k (andthen k (VProc T k [o] (SetMask o 1431655765 :: QueueAddTo o (val self))) code2) (tmp [o] []) m
      [(val self, Z.lxor (get m (val self)) (get m (val o)))]).
    unfold andthen in *. destruct (placed_app _ _ _ _ _ Hp) as [P1 P2].
    pose proof (valcell_val w Hw self Hs) as Ha. pose proof Hoo as [O1 O2].
    set (m0 := upd (upd (upd m (vc o FMask) k5) (vc o FDest) (u32 (val self))) (vc o FMod) (w6 Add)).
    destruct (vproc1 k (SetMask o 1431655765 :: QueueAddTo o (val self)) o (val self) Add m m0) as (m1 & R & Q); auto.
    + unfold QueueAddTo, SetMask, SetDest, SetModifier. nz.
    + unfold SetMask, QueueAddTo, SetDest, SetModifier.
      apply do_cons_M; [apply (val_writable w Hw); auto|apply (val_writable w Hw); auto|].
      apply do_cons_M; [apply (val_writable w Hw); auto|apply (val_writable w Hw); auto|].
      apply do_cons_MX; [apply (val_writable w Hw); auto|apply (val_writable w Hw); auto|].
      rewrite setmod_val; [apply do_nil| |apply get_range]. gs. exact O2.
    + unfold m0. gs. apply u32_idem.
    + unfold m0. gs. destruct Add; reflexivity.
    + assert (E0 : forall b, idx b <> idx (vc o FMask) -> idx b <> idx (vc o FDest) -> idx b <> idx (vc o FMod) -> get m0 b = get m b).
      { intros. unfold m0. rewrite !get_upd_ne by auto. reflexivity. }
      assert (E1 : get m0 (vc o FMask) = k5) by (unfold m0; gs; reflexivity).
      assert (E2 : get m0 (val self) = get m (val self)) by (apply E0; sep).
      assert (E3 : get m0 (val o) = get m (val o)) by (apply E0; sep).
      rewrite E1, E2, E3 in Q. cbn [do_modx] in Q.
      pose proof (get_range m (val self)). pose proof (get_range m (val o)).
      destruct (xor_finish (k + length (VProc T k [o] (SetMask o 1431655765 :: QueueAddTo o (val self)))) o (val self)
         (get m (val self)) (Z.lxor (get m (val self)) (get m (val o))) m m1 [o]) as (m' & A & B & C); auto.
      * intros x [<-|[]]; auto.
      * left; reflexivity.
      * rewrite Q by sep. unfold m0. gs. apply u32_idem.
      * rewrite Q by sep. unfold m0. gs. reflexivity.
      * rewrite Q by sep. rewrite get_upd_eq. apply u32_small. apply wadd_range; auto. unfold k5; lia.
      * intros E. unfold get. rewrite E. reflexivity.
      * intros b B1 B2 B3. assert (B4 : forall f, f = FNext \/ f = FDest \/ f = FMod -> idx b <> idx (vc o f)).
        { intros f Hf E. apply B1. exists o, f. cbn. auto. }
        rewrite Q by auto. rewrite get_upd_ne by auto. apply E0; auto.
      * intros v Hv Hne [V1 V2]. split; rewrite Q by sep; rewrite get_upd_ne by sep; rewrite E0 by sep; auto.
      * exists m'. split; [|split; [exact B|exact C]]. rewrite app_length, Nat.add_assoc.
        eapply runs_trans; [exact R|exact A].
Qed.

(* code1 writes a, code2 then rewrites it *)
Lemma does_then k c1 c2 vs cs m a x y :
  placed w T k (andthen k c1 c2) ->
  does w T k c1 (tmp vs cs) m [(a, x)] ->
  (forall m1, changes (tmp vs cs) m m1 [(a, x)] -> keeps w m m1 ->
     does w T (k + length c1) (c2 (k + length c1)%nat) (tmp vs cs) m1 [(a, y)]) ->
  does w T k (andthen k c1 c2) (tmp vs cs) m [(a, y)].
Proof.
  intros Hp (m1 & A & B & C) H2. destruct (H2 m1 B C) as (m2 & A2 & B2 & C2).
  exists m2. split; [|split].
  - unfold andthen. rewrite app_length, Nat.add_assoc. eapply runs_trans; eauto.
  - eapply changes_compose; [exact B|exact B2| | |].
    + intros a' x' H. left. exact H.
    + intros a' x' [[E|[]]|[E|[]]]; injection E as <- <-; right; exists a, y; split; auto; left; reflexivity.
    + intros a' b. apply tmp_idx.
  - intros v Hv HO. apply C2; auto.
Qed.

Lemma inplace_const k self t (op : nat -> list trig) (f : Z -> Z) cs m :
  In self vars -> ordinary m self -> In t vars ->
  (forall j m1, placed w T j (op j) -> does w T j (op j) (tmp [] cs) m1 [(val t, f (get m1 (val t)))]) ->
  placed w T k (andthen k (v_assign same same_u T k t (SVar self)) op) ->
  does w T k (andthen k (v_assign same same_u T k t (SVar self)) op) (tmp [self] cs) m [(val t, f (get m (val self)))].
Proof.
  intros Hs Hso Ht Hop Hp. destruct (placed_app _ _ _ _ _ Hp) as [P1 P2].
  eapply does_then; [exact Hp| |].
  - apply (does_tmp w T) with (vs := [self]) (cs := []); [apply incl_refl|intros x []|].
    apply (v_assign_does w Hw same same_u Hsame T k t (SVar self)); auto. split; auto.
  - intros m1 [B _] _. apply (does_tmp w T) with (vs := []) (cs := cs); [intros x []|apply incl_refl|].
    rewrite <- (B (val t) (get m (val self))) by (left; reflexivity). apply Hop. exact P2.
Qed.

Lemma v_xor_does k self_r other_r self other t m :
  In self vars -> ordinary m self -> ord_src w m other ->
  In t vars -> t <> self -> ~ In t (svar other) ->
  (self_r = false -> other_r = false -> ~ In self (svar other)) ->
  let (code, r) := v_xor same same_u T k self_r other_r self other t in
  placed w T k code ->
  does w T k code (tmp (self :: svar other) []) m [(val r, Z.lxor (get m (val self)) (sval m other))].
Proof.
  intros Hs Hso Ho Ht N1 N2 Hal. unfold v_xor. destruct self_r; [|destruct other as [c|o]; [|destruct other_r]].
  - intros Hp. apply (does_tmp w T) with (vs := svar other) (cs := []); [intros x Hx; right; exact Hx|apply incl_refl|].
    apply v_ixor_does; auto.
  - intros Hp. cbn [svar sval] in *.
    apply (inplace_const k self t (fun j => v_ixor T j t (SConst c)) (fun x => Z.lxor x (u32 c))); auto.
    intros j m1 Hj. apply (v_ixor_does j t (SConst c) m1); auto.
  - intros Hp. destruct Ho as [Ho Hoo]. cbn [svar sval].
    apply (does_tmp w T) with (vs := [self]) (cs := []); [intros x [<-|[]]; left; reflexivity|apply incl_refl|].
    rewrite Z.lxor_comm. apply (v_ixor_does k o (SVar self) m); auto. split; auto.
  - destruct Ho as [Ho Hoo]. cbn [svar sval] in *.
    set (code2 := fun k1 => andthen k1 (VProc T k1 [o] [SetMask o 0xAAAAAAAA]) (fun k2 => Raw1 T k2 [] [SetMask o 0xFFFFFFFF])).
    set (acts := SetMask o 1431655765 :: QueueAssignTo self (val t) ++ QueueAddTo o (val t)).
    change (placed w T k (andthen k (VProc T k [self; o] acts) code2) ->
      does w T k (andthen k (VProc T k [self; o] acts) code2) (tmp [self; o] []) m
      [(val t, Z.lxor (get m (val self)) (get m (val o)))]).
    intros Hp. unfold andthen in *. destruct (placed_app _ _ _ _ _ Hp) as [P1 P2].
    assert (N3 : t <> o) by (intros E; apply N2; left; auto).
    assert (N4 : self <> o) by (intros E; apply Hal; auto; left; auto).
    pose proof (valcell_val w Hw t Ht) as Ha. pose proof Hoo as [O1 O2]. pose proof Hso as [S1 S2].
    set (m0 := upd (upd (upd (upd (upd m (vc o FMask) k5) (vc self FDest) (u32 (val t))) (vc self FMod) (w6 SetTo))
                 (vc o FDest) (u32 (val t))) (vc o FMod) (w6 Add)).
    assert (E0 : forall b, idx b <> idx (vc o FMask) -> idx b <> idx (vc o FDest) -> idx b <> idx (vc o FMod) ->
              idx b <> idx (vc self FDest) -> idx b <> idx (vc self FMod) -> get m0 b = get m b).
    { intros. unfold m0. rewrite !get_upd_ne by auto. reflexivity. }
    destruct (VProc_run w Hw T k [self; o] acts [(DVar t, SetTo, self); (DVar t, Add, o)] m m0) as (m1 & R & Q); auto.
    + discriminate.
    + constructor; [intros [E|[]]; auto|constructor; [intros []|constructor]].
    + intros x [<-|[<-|[]]]; auto.
    + unfold acts, QueueAddTo, QueueAssignTo, SetMask, SetDest, SetModifier. cbn [app]. nz.
    + unfold acts, SetMask, QueueAddTo, QueueAssignTo, SetDest, SetModifier. cbn [app].
      apply do_cons_M; [apply (val_writable w Hw); auto|apply (val_writable w Hw); auto|].
      apply do_cons_M; [apply (val_writable w Hw); auto|apply (val_writable w Hw); auto|].
      apply do_cons_MX; [apply (val_writable w Hw); auto|apply (val_writable w Hw); auto|].
      rewrite setmod_val; [| |apply get_range]; [|gs; exact S2].
      apply do_cons_M; [apply (val_writable w Hw); auto|apply (val_writable w Hw); auto|].
      apply do_cons_MX; [apply (val_writable w Hw); auto|apply (val_writable w Hw); auto|].
      rewrite setmod_val; [apply do_nil| |apply get_range]. gs. exact O2.
    + intros d md v [E|[E|[]]]; injection E as <- <- <-; cbn [dst_epd];
        (split; [apply (val_writable w Hw); auto|]); (split; [apply (not_scratch_val w Hw); auto; intros x [<-|[<-|[]]]; auto|]);
        unfold m0; gs; rewrite ?u32_idem; auto.
    + change (map as_rpair [(DVar t, SetTo, self); (DVar t, Add, o)]) with [(DVar t, SetTo, SVar self); (DVar t, Add, SVar o)] in Q.
      cbn [assign_all fold_left assign1 dst_epd] in Q.
      assert (E1 : get m0 (vc self FMask) = 0xFFFFFFFF) by (rewrite E0 by sep; exact S1).
      assert (E2 : get m0 (val self) = get m (val self)) by (apply E0; sep).
      assert (E3 : get m0 (val o) = get m (val o)) by (apply E0; sep).
      assert (E4 : get m0 (vc o FMask) = k5) by (unfold m0; gs; reflexivity).
      rewrite E1, E2 in Q. change 4294967295 with (Z.ones 32) in Q. rewrite do_modx_full in Q by apply get_range.
      cbn [do_mod] in Q. rewrite get_upd_eq in Q. rewrite !(get_upd_ne m0 (val t)) in Q by sep.
      rewrite E3, E4, u32_get in Q. cbn [do_modx] in Q.
      pose proof (get_range m (val self)). pose proof (get_range m (val o)).
      assert (Hnx : forall b, idx b <> idx (vc self FNext) -> idx b <> idx (vc o FNext) -> ~ nexts [self; o] b).
      { intros b B1 B2 (v & [<-|[<-|[]]] & E); contradiction. }
      destruct (xor_finish (k + length (VProc T k [self; o] acts)) o (val t)
         (get m (val self)) (Z.lxor (get m (val self)) (get m (val o))) m m1 [self; o]) as (m' & A & B & C); auto.
      * intros x [<-|[<-|[]]]; auto.
      * right; left; reflexivity.
      * rewrite Q by (apply Hnx; sep). gs. unfold m0. gs. apply u32_idem.
      * rewrite Q by (apply Hnx; sep). gs. unfold m0. gs. reflexivity.
      * rewrite Q by (apply Hnx; sep). rewrite get_upd_eq. apply u32_small. apply wadd_range; auto. unfold k5; lia.
      * intros E. exfalso. revert E. neq.
      * intros b B1 B2 B3. assert (B4 : forall v f, In v [self; o] -> f = FNext \/ f = FDest \/ f = FMod -> idx b <> idx (vc v f)).
        { intros v f Hv Hf E. apply B1. exists v, f. auto. }
        rewrite Q by (apply Hnx; apply B4; cbn; auto). rewrite !get_upd_ne by auto. apply E0; auto; apply B4; cbn; auto.
      * intros v Hv Hne [V1 V2].
        destruct (Z.eq_dec v self) as [->|Hns].
        -- split; rewrite Q by (apply Hnx; sep); rewrite !get_upd_ne by sep; [exact E1|unfold m0; gs; reflexivity].
        -- split; rewrite Q by (apply Hnx; sep); rewrite !get_upd_ne by sep; rewrite E0 by sep; auto.
      * exists m'. split; [|split; [exact B|exact C]]. rewrite app_length, Nat.add_assoc.
        eapply runs_trans; [exact R|exact A].
Qed.

Lemma v_rxor_does k self_r self other t m :
  In self vars -> ordinary m self -> ord_src w m other ->
  In t vars -> t <> self -> ~ In t (svar other) -> (self_r = false -> ~ In self (svar other)) ->
  let (code, r) := v_rxor same same_u T k self_r self other t in
  placed w T k code ->
  does w T k code (tmp (self :: svar other) []) m [(val r, Z.lxor (sval m other) (get m (val self)))].
Proof.
  intros Hs Hso Ho Ht N1 N2 Hal. unfold v_rxor. destruct self_r; [|destruct other as [c|o]].
  - intros Hp. apply (does_tmp w T) with (vs := svar other) (cs := []); [intros x Hx; right; exact Hx|apply incl_refl|].
    rewrite Z.lxor_comm. apply v_ixor_does; auto.
  - intros Hp. cbn [svar sval] in *.
    apply (inplace_const k self t (fun j => v_ixor T j t (SConst c)) (fun x => Z.lxor (u32 c) x)); auto.
    intros j m1 Hj. rewrite Z.lxor_comm. apply (v_ixor_does j t (SConst c) m1); auto.
  - destruct Ho as [Ho Hoo]. cbn [svar sval] in *.
    set (code2 := fun k1 => andthen k1 (VProc T k1 [o] [SetMask o 0xAAAAAAAA]) (fun k2 => Raw1 T k2 [] [SetMask o 0xFFFFFFFF])).
    set (l := [(DExpr (vc o FMask), Some SetTo, SConst 1431655765); (DVar t, Some SetTo, SVar self); (DVar t, Some Add, SVar o)]).
    change (placed w T k (andthen k (Seq k l) code2) ->
      does w T k (andthen k (Seq k l) code2) (tmp [self; o] []) m
      [(val t, Z.lxor (get m (val o)) (get m (val self)))]).
    intros Hp. unfold andthen in *. destruct (placed_app _ _ _ _ _ Hp) as [P1 P2].
    assert (N3 : t <> o) by (intros E; apply N2; left; auto).
    assert (N4 : self <> o) by (intros E; apply Hal; auto; left; auto).
    assert (Hsrc : incl (srcs_of l) vars) by (intros x [<-|[<-|[]]]; auto).
    pose proof (valcell_val w Hw t Ht) as Ha. pose proof Hoo as [O1 O2]. pose proof Hso as [S1 S2].
    destruct (SeqCompute_correct w same same_u T k l (fun _ => None)
       [(DExpr (vc o FMask), SetTo, SConst 1431655765); (DVar t, SetTo, SVar self); (DVar t, Add, SVar o)] m)
       as (m1 & R & Q & Q1 & Q2 & Q3); auto.
    + intros d md s [E|[E|[E|[]]]]; injection E as <- <- <-; cbn [dst_epd];
        (split; [apply (val_writable w Hw); auto|]); (split; [apply (not_scratch_val w Hw); auto|]); cbn; auto.
    + intros v md _ E. discriminate.
    + intros v [<-|[<-|[]]]; auto.
    + cbn [assign_all fold_left assign1 dst_epd do_mod] in Q. rewrite u32_idem in Q || idtac.
      change (u32 1431655765) with k5 in Q.
      set (mx := upd m (vc o FMask) k5) in Q.
      assert (E0 : forall b, idx b <> idx (vc o FMask) -> get mx b = get m b).
      { intros. unfold mx. rewrite !get_upd_ne by auto. reflexivity. }
      assert (E1 : get mx (vc self FMask) = 0xFFFFFFFF) by (rewrite E0 by sep; exact S1).
      assert (E2 : get mx (val self) = get m (val self)) by (apply E0; sep).
      assert (E3 : get mx (val o) = get m (val o)) by (apply E0; sep).
      assert (E4 : get mx (vc o FMask) = k5) by (unfold mx; gs; reflexivity).
      rewrite E1, E2 in Q. change 4294967295 with (Z.ones 32) in Q. rewrite do_modx_full in Q by apply get_range.
      cbn [do_mod] in Q. rewrite get_upd_eq in Q. rewrite !(get_upd_ne mx (val t)) in Q by sep.
      rewrite E3, E4, u32_get in Q. cbn [do_modx] in Q.
      pose proof (get_range m (val self)). pose proof (get_range m (val o)).
      assert (Hd : get m1 (vc o FDest) = u32 (val t)).
      { apply Q3; [right; left; reflexivity|]. unfold l. cbn [dst_after]. rewrite Z.eqb_refl. reflexivity. }
      assert (Hm : get m1 (vc o FMod) = w6 Add).
      { apply Q1; [right; left; reflexivity|]. unfold l. cbn [cur_after]. rewrite Z.eqb_refl. reflexivity. }
      destruct (xor_finish (k + length (Seq k l)) o (val t)
         (get m (val self)) (Z.lxor (get m (val o)) (get m (val self))) m m1 [self; o]) as (m' & A & B & C); auto.
      * right; left; reflexivity.
      * rewrite Q by (apply (not_scratch_val w Hw); auto). rewrite get_upd_eq. apply u32_small. apply wadd_range; auto. unfold k5; lia.
      * intros E. exfalso. revert E. neq.
      * apply Z.lxor_comm.
      * intros b B1 B2 B3. rewrite Q by exact B1. rewrite !get_upd_ne by auto. apply E0; auto.
      * intros v Hv Hne [V1 V2]. split.
        -- rewrite Q by (apply (not_scratch_val w Hw); auto). rewrite !get_upd_ne by sep. rewrite E0 by sep. exact V1.
        -- destruct (Z.eq_dec v self) as [->|Hns]; [apply Q2; left; reflexivity|].
           rewrite Q.
           ++ rewrite !get_upd_ne by sep. rewrite E0 by sep. exact V2.
           ++ intros (u & f & Hu & Hf & E). destruct (wo_sep w Hw v u FMod f Hv (Hsrc u Hu) E) as [-> _].
              destruct Hu as [Q'|[Q'|[]]]; congruence.
      * exists m'. split; [|split; [exact B|exact C]]. rewrite app_length, Nat.add_assoc.
        eapply runs_trans; [exact R|exact A].
Qed.

(* ---------- and, or with a result variable ---------- *)
Definition and_list (e t self o : Z) : list pair :=
  [(DExpr e, Some SetTo, SConst 4294967295); (DVar t, Some SetTo, SVar self); (DExpr e, Some Subtract, SVar o)].
Definition or_list (e t self o : Z) : list pair :=
  [(DVar t, Some SetTo, SVar self); (DExpr e, Some SetTo, SVar o)].
Definition and_cells k (self_r other_r : bool) self other t :=
  if self_r then iand_cells same same_u T k other
  else match other with
       | SVar o => if other_r then iand_cells same same_u T k (SVar self)
                   else [wmask T (k + length (Seq k (and_list 0 t self o)))]
       | SConst _ => []
       end.
Definition or_cells k (self_r other_r : bool) self other t :=
  if self_r then ior_cells same same_u T k other
  else match other with
       | SVar o => if other_r then ior_cells same same_u T k (SVar self)
                   else [wmask T (k + length (Seq k (or_list 0 t self o)))]
       | SConst _ => []
       end.

Ltac dest2 := let d := fresh in let md := fresh in let s := fresh in let H := fresh in
  intros d md s H; cbn [In] in H;
  repeat (destruct H as [H|H]; [injection H as <- <- <-; first [left; reflexivity|right; reflexivity]|]); destruct H.

Lemma v_and_does k self_r other_r self other t m :
  In self vars -> ordinary m self -> ord_src w m other ->
  In t vars -> t <> self -> ~ In t (svar other) ->
  (forall e, In e (and_cells k self_r other_r self other t) -> patchable w e) ->
  let (code, r) := v_and same same_u T k self_r other_r self other t in
  placed w T k code ->
  does w T k code (tmp (self :: svar other) (and_cells k self_r other_r self other t)) m
    [(val r, Z.land (get m (val self)) (sval m other))].
Proof.
  intros Hs Hso Ho Ht N1 N2 He. unfold v_and, and_cells in *. destruct self_r; [|destruct other as [c|o]; [|destruct other_r]].
  - intros Hp. apply (does_tmp w T) with (vs := svar other) (cs := iand_cells same same_u T k other); [intros x Hx; right; exact Hx|apply incl_refl|].
    apply v_iand_does; auto.
  - intros Hp. cbn [svar sval] in *.
    apply (inplace_const k self t (fun j => v_iand same same_u T j t (SConst c)) (fun x => Z.land x (u32 c))); auto.
    intros j m1 Hj. apply (v_iand_does w Hw same same_u Hsame T j t (SConst c) m1); auto; try exact I; intros e [].
  - intros Hp. destruct Ho as [Ho Hoo]. cbn [svar sval].
    apply (does_tmp w T) with (vs := [self]) (cs := iand_cells same same_u T k (SVar self)); [intros x [<-|[]]; left; reflexivity|apply incl_refl|].
    rewrite Z.land_comm. apply (v_iand_does w Hw same same_u Hsame T k o (SVar self) m); auto. split; auto.
  - intros Hp. cbn [svar sval] in *. ordv.
    assert (N3 : t <> o) by (intros E; apply N2; left; auto).
    assert (He' : patchable w (wmask T (k + length (Seq k (and_list 0 t self o))))) by (apply He; left; reflexivity).
    pose proof He' as [_ He2].
    pose proof (get_range m (val self)). pose proof (get_range m (val o)).
    eapply (patched_does w Hw same same_u Hsame T k (fun e => and_list e t self o));
      [apply seq_len_small; [exact Hsame|reflexivity|cbn; lia]|unfold and_list; good|unfold and_list; ords|reflexivity|assumption|apply (valcell_val w Hw); assumption
      |apply (nsc w Hw); [unfold and_list; inclv|assumption]|unfold and_list; dest2|assumption|asg; cbn [do_mod]].
    rewrite !(u32_small 4294967295) by lia. rewrite Z.max_r by lia. rewrite (u32_small (_ - _)) by lia.
    change (u32 0) with 0. rewrite u32_get. rewrite wset_and by assumption. apply u32_small, land_range; lia.
Qed.

Lemma v_or_does k self_r other_r self other t m :
  In self vars -> ordinary m self -> ord_src w m other ->
  In t vars -> t <> self -> ~ In t (svar other) ->
  (forall e, In e (or_cells k self_r other_r self other t) -> patchable w e) ->
  let (code, r) := v_or same same_u T k self_r other_r self other t in
  placed w T k code ->
  does w T k code (tmp (self :: svar other) (or_cells k self_r other_r self other t)) m
    [(val r, Z.lor (get m (val self)) (sval m other))].
Proof.
  intros Hs Hso Ho Ht N1 N2 He. unfold v_or, or_cells in *. destruct self_r; [|destruct other as [c|o]; [|destruct other_r]].
  - intros Hp. apply (does_tmp w T) with (vs := svar other) (cs := ior_cells same same_u T k other); [intros x Hx; right; exact Hx|apply incl_refl|].
    apply v_ior_does; auto.
  - intros Hp. cbn [svar sval] in *.
    apply (inplace_const k self t (fun j => v_ior same same_u T j t (SConst c)) (fun x => Z.lor x (u32 c))); auto.
    intros j m1 Hj. apply (v_ior_does w Hw same same_u Hsame T j t (SConst c) m1); auto; try exact I; intros e [].
  - intros Hp. destruct Ho as [Ho Hoo]. cbn [svar sval].
    apply (does_tmp w T) with (vs := [self]) (cs := ior_cells same same_u T k (SVar self)); [intros x [<-|[]]; left; reflexivity|apply incl_refl|].
    rewrite Z.lor_comm. apply (v_ior_does w Hw same same_u Hsame T k o (SVar self) m); auto. split; auto.
  - intros Hp. cbn [svar sval] in *. ordv.
    assert (N3 : t <> o) by (intros E; apply N2; left; auto).
    assert (He' : patchable w (wmask T (k + length (Seq k (or_list 0 t self o))))) by (apply He; left; reflexivity).
    pose proof He' as [_ He2].
    pose proof (get_range m (val self)). pose proof (get_range m (val o)).
    eapply (patched_does w Hw same same_u Hsame T k (fun e => or_list e t self o));
      [apply seq_len_small; [exact Hsame|reflexivity|cbn; lia]|unfold or_list; good|unfold or_list; ords|reflexivity|assumption|apply (valcell_val w Hw); assumption
      |apply (nsc w Hw); [unfold or_list; inclv|assumption]|unfold or_list; dest2|assumption|asg; cbn [do_mod]].
    rewrite !u32_get. change (u32 4294967295) with 4294967295. rewrite wset_or by assumption.
    apply u32_small, lor_range; lia.
Qed.

(* ---------- calcf/bitwise.py ---------- *)
Lemma lxor_inv x : 0 <= x < 2^32 -> 0xFFFFFFFF - x = Z.lxor x 0xFFFFFFFF.
Proof. intros. rewrite xor_ones by lia. reflexivity. Qed.

Lemma invert_does k c r vs cs m x : In r vars ->
  placed w T k (andthen k c (fun j => lv_iinvert T j (val r))) ->
  (placed w T k c -> does w T k c (tmp vs cs) m [(val r, x)]) ->
  does w T k (andthen k c (fun j => lv_iinvert T j (val r))) (tmp vs cs) m [(val r, 0xFFFFFFFF - x)].
Proof.
  intros Hr Hp H. destruct (placed_app _ _ _ _ _ Hp) as [P1 P2].
  eapply does_then; [exact Hp|exact (H P1)|].
  intros m1 [B _] _. rewrite <- (B (val r) x) by (left; reflexivity).
  apply (does_tmp w T) with (vs := []) (cs := []); [intros y []|intros y []|].
  apply lv_iinvert_does; auto. apply (valcell_val w Hw); auto.
Qed.

Lemma f_bitnand_does k self_r other_r self other t m :
  In self vars -> ordinary m self -> ord_src w m other ->
  In t vars -> t <> self -> ~ In t (svar other) ->
  (forall e, In e (and_cells k self_r other_r self other t) -> patchable w e) ->
  let (code, r) := f_bitnand same same_u T k self_r other_r self other t in
  placed w T k code ->
  does w T k code (tmp (self :: svar other) (and_cells k self_r other_r self other t)) m
    [(val r, 0xFFFFFFFF - Z.land (get m (val self)) (sval m other))].
Proof.
  intros Hs Hso Ho Ht N1 N2 He. unfold f_bitnand.
  pose proof (v_and_does k self_r other_r self other t m Hs Hso Ho Ht N1 N2 He) as H.
  assert (Hr : In (snd (v_and same same_u T k self_r other_r self other t)) vars).
  { unfold v_and. destruct self_r; [exact Hs|]. destruct other as [c|o]; [exact Ht|]. destruct other_r; [apply Ho|exact Ht]. }
  destruct (v_and same same_u T k self_r other_r self other t) as [c r]. intros Hp. apply invert_does; auto.
Qed.
Lemma f_bitnor_does k self_r other_r self other t m :
  In self vars -> ordinary m self -> ord_src w m other ->
  In t vars -> t <> self -> ~ In t (svar other) ->
  (forall e, In e (or_cells k self_r other_r self other t) -> patchable w e) ->
  let (code, r) := f_bitnor same same_u T k self_r other_r self other t in
  placed w T k code ->
  does w T k code (tmp (self :: svar other) (or_cells k self_r other_r self other t)) m
    [(val r, 0xFFFFFFFF - Z.lor (get m (val self)) (sval m other))].
Proof.
  intros Hs Hso Ho Ht N1 N2 He. unfold f_bitnor.
  pose proof (v_or_does k self_r other_r self other t m Hs Hso Ho Ht N1 N2 He) as H.
  assert (Hr : In (snd (v_or same same_u T k self_r other_r self other t)) vars).
  { unfold v_or. destruct self_r; [exact Hs|]. destruct other as [c|o]; [exact Ht|]. destruct other_r; [apply Ho|exact Ht]. }
  destruct (v_or same same_u T k self_r other_r self other t) as [c r]. intros Hp. apply invert_does; auto.
Qed.

Definition nxor_cells (b_r : bool) other t1 : list Z :=
  match other with SConst _ => [] | SVar b => [val (if b_r then b else t1)] end.

Lemma f_bitnxor_does k a_r b_r r_r a other t1 t m :
  In a vars -> ordinary m a -> ord_src w m other ->
  In t vars -> t <> a -> ~ In t (svar other) ->
  In t1 vars -> ordinary m t1 -> t1 <> a -> t1 <> t -> ~ In t1 (svar other) -> ~ In a (svar other) ->
  let (code, r) := f_bitnxor same same_u T k a_r b_r r_r a other t1 t in
  placed w T k code ->
  does w T k code (tmp (a :: t1 :: svar other) (nxor_cells b_r other t1)) m
    [(val r, 0xFFFFFFFF - Z.lxor (get m (val a)) (sval m other))].
Proof.
  intros Ha Hao Ho Ht N1 N2 Ht1 Ht1o N3 N4 N5 N6. unfold f_bitnxor.
  pose proof (get_range m (val a)) as Ra.
  assert (Hx : forall y, 0 <= y < 2^32 -> Z.lxor (get m (val a)) (0xFFFFFFFF - y) = 0xFFFFFFFF - Z.lxor (get m (val a)) y).
  { intros y Hy. rewrite !lxor_inv by (auto; apply lxor_range; lia). symmetry. apply Z.lxor_assoc. }
  destruct other as [c|b]; cbn [svar sval nxor_cells] in *.
  - pose proof (v_xor_does k a_r false a (SConst (Z.lnot c)) t m Ha Hao I Ht N1 (fun x => x) (fun _ _ x => x)) as H.
    destruct (v_xor same same_u T k a_r false a (SConst (Z.lnot c)) t) as [code r]. intros Hp. specialize (H Hp).
    cbn [sval svar] in H. rewrite u32_lnot, Hx in H by apply u32_range.
    apply (does_tmp w T) with (vs := [a]) (cs := []); auto; [intros y [<-|[]]; left; reflexivity|intros y []].
  - destruct Ho as [Hb Hbo]. pose proof (get_range m (val b)) as Rb.
    assert (N7 : t1 <> b) by (intros E; apply N5; left; auto). assert (N8 : t <> b) by (intros E; apply N2; left; auto).
    assert (N9 : a <> b) by (intros E; apply N6; left; auto).
    pose proof (v_invert_does w Hw same same_u Hsame T k b_r b t1 m Hb Hbo Ht1 N7) as H1.
    assert (Er : snd (v_invert same same_u T k b_r b t1) = if b_r then b else t1) by (unfold v_invert; destruct b_r; reflexivity).
    destruct (v_invert same same_u T k b_r b t1) as [c1 r1]. cbn [snd] in Er.
    assert (Hr1 : In r1 vars) by (subst r1; destruct b_r; auto).
    assert (Nr : t <> r1 /\ r1 <> a) by (subst r1; destruct b_r; auto). destruct Nr as [Nr1 Nr2].
    assert (Hr1o : ordinary m r1) by (subst r1; destruct b_r; auto).
    assert (H2 : forall m1, ordinary m1 a -> ordinary m1 r1 ->
       let (code, r) := v_xor same same_u T (k + length c1) a_r r_r a (SVar r1) t in
       placed w T (k + length c1) code ->
       does w T (k + length c1) code (tmp [a; r1] []) m1 [(val r, Z.lxor (get m1 (val a)) (get m1 (val r1)))]).
    { intros m1 O1 O2. apply (v_xor_does (k + length c1) a_r r_r a (SVar r1) t m1); cbn [svar]; auto.
      - split; auto.
      - intros [E|[]]. auto.
      - intros _ _ [E|[]]. auto. }
    assert (Hrr : In (snd (v_xor same same_u T (k + length c1) a_r r_r a (SVar r1) t)) [a; r1; t]).
    { unfold v_xor. destruct a_r; [cbn; auto|]. destruct r_r; cbn; auto. }
    destruct (v_xor same same_u T (k + length c1) a_r r_r a (SVar r1) t) as [c2 r]. cbn [snd] in Hrr.
    intros Hp. destruct (placed_app _ _ _ _ _ Hp) as [P1 P2].
    destruct (H1 P1) as (m1 & A & [B1 B2] & C).
    destruct (H2 m1 (C a Ha Hao) (C r1 Hr1 Hr1o) P2) as (m2 & A2 & [B3 B4] & C2).
    assert (Ea : get m1 (val a) = get m (val a)).
    { apply B2.
      - intros [(v & f & [<-|[]] & Hf & E)|(y & [] & _)]. revert E. apply (vsep w Hw); auto.
      - intros y z [E|[]]. apply pair_equal_spec in E; destruct E as [<- <-]. apply (vsep w Hw); auto. }
    assert (E1 : get m1 (val r1) = 0xFFFFFFFF - get m (val b)) by (apply B1; left; reflexivity).
    exists m2. split; [|split].
    + rewrite app_length, Nat.add_assoc. eapply runs_trans; eauto.
    + split.
      * intros y z [E|[]]. apply pair_equal_spec in E; destruct E as [<- <-]. rewrite <- Hx by exact Rb. rewrite <- Ea, <- E1. apply B3. left. reflexivity.
      * intros y Hy Hl. assert (Hyr : idx (val r) <> idx y) by (eapply Hl; left; reflexivity).
        assert (Hyc : idx y <> idx (val r1)).
        { intros E. apply Hy. right. exists (val r1). subst r1. destruct b_r; (split; [left; reflexivity|auto]). }
        rewrite B4.
        -- apply B2.
           ++ intros [Hs|(q & [] & _)]. apply Hy. left. eapply scratch_incl; [|exact Hs]. intros q [<-|[]]. right; right; left; reflexivity.
           ++ intros q z [E|[]]. apply pair_equal_spec in E; destruct E as [<- <-]. auto.
        -- intros [Hs|(q & [] & _)]. apply Hy. left. eapply scratch_incl; [|exact Hs].
           intros q [<-|[<-|[]]]; [left; reflexivity|]. subst r1. destruct b_r; [right; right; left|right; left]; reflexivity.
        -- intros q z [E|[]]. apply pair_equal_spec in E; destruct E as [<- <-]. exact Hyr.
    + intros v Hv HO. apply C2; auto.
Qed.
End W.
