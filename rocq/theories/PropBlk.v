(* Property C28: block copies, byte readers and writers, and the length of a C string. *)
From Coq Require Import ZArith Lia List Bool ZifyBool ZifyNat Permutation.
From Verif Require Import Word Machine MachineProofs VarModel VarSpec VarProofs OpsSpec OpsProofs ReadModel PropRead BwModel PropBw BlkModel VbufModel VbufWorld ExWorld SeqRefute ExTools.
Import ListNotations.
Open Scope Z_scope.

Lemma nd_ne l i j a b : NoDup (map idx l) -> nth_error l i = Some a -> nth_error l j = Some b -> i <> j -> idx a <> idx b.
Proof.
  intros H Ha Hb N Q. apply N. pose proof (map_nth_error idx _ _ Ha) as Ha'. pose proof (map_nth_error idx _ _ Hb) as Hb'.
  apply (proj1 (NoDup_nth_error _) H); [apply nth_error_Some; congruence|congruence].
Qed.
Ltac pos x l := match l with x :: _ => constr:(O) | _ :: ?r => let n := pos x r in constr:(S n) end.
(* two cells of a list of distinct cells *)
Ltac dd := match goal with |- idx ?a <> idx ?b => match goal with H : NoDup (map idx ?l) |- _ =>
  let i := pos a l in let j := pos b l in exact (nd_ne l i j a b H eq_refl eq_refl ltac:(discriminate)) end end.
Ltac inl := cbn; tauto.
(* read a cell of a memory given by a series of updates *)
Ltac gt := repeat (first [rewrite get_upd_eq | rewrite get_upd_ne by (dd)]); rewrite ?u32_idem, ?u32_pa.
Lemma wset_full d v : 0 <= d < 2^32 -> 0 <= v < 2^32 -> do_modx SetTo 0xFFFFFFFF d v = v.
Proof. intros. change 0xFFFFFFFF with (Z.ones 32). rewrite do_modx_full by auto. reflexivity. Qed.

(* ---------- f_repmovsd_epd ---------- *)
(* what an ascending copy of n dwords means *)
Fixpoint copy_up (n : nat) (d s : Z) (m : mem) : mem :=
  match n with O => m | S n => copy_up n (d + 1) (s + 1) (upd m d (get m s)) end.
Definition out (X : list Z) (a : Z) : Prop := forall c, In c X -> idx c <> idx a.
Lemma copy_up_agree X : forall n d s m m', (forall b, out X b -> get m b = get m' b) -> (forall i, (i < n)%nat -> out X (s + Z.of_nat i)) ->
  forall b, out X b -> get (copy_up n d s m) b = get (copy_up n d s m') b.
Proof.
  induction n as [|n IH]; intros d s m m' H Hs b Hb; [apply H, Hb|]. cbn [copy_up]. apply IH; [| |exact Hb].
  - intros c Hc. pose proof (Hs 0%nat ltac:(lia)) as H0. rewrite Z.add_0_r in H0. rewrite (H s H0).
    destruct (Z.eq_dec (idx d) (idx c)) as [Q|Q]; [rewrite !(get_cong _ c d) by congruence; rewrite !get_upd_eq; reflexivity|rewrite !get_upd_ne by exact Q; apply H, Hc].
  - intros i Hi. specialize (Hs (S i) ltac:(lia)). replace (s + 1 + Z.of_nat i) with (s + Z.of_nat (S i)) by lia. exact Hs.
Qed.

Section Rep.
Variable w : world.
Hypothesis Hw : world_ok w.
Variables (E : Z) (A : nat -> Z) (t : rtab) (l : nat) (L Ct cpc fend : Z) (T : Z).
Hypothesis Ht : tab_ok t.
Hypothesis Hpl : table_placed w E A t.
Hypothesis Hl : answers t 0xFFFFFFFF 0 l.
Definition rep_cells : list Z := [L + 1; rep_cnt L; E + 1; cr_dest E; cr_val E; CPcell; vc cpc FNext; vc cpc FDest].
Definition rep_read : list Z := [cr_mod E; vc cpc FMod; vc cpc FMask; vc cpc FVal].
Hypothesis Hcpc : In cpc (W_vars w).
Hypothesis Hcells : forall c, In c rep_cells -> writable w c.
Hypothesis Hnd : NoDup (map idx (rep_cells ++ rep_read)).
Hypothesis P0 : W_P w (pa T) = Some (rep_head E L Ct cpc (pa (A l)) fend).
Hypothesis P1 : W_P w (pa L) = Some (rep_loop L cpc).
Hypothesis P2 : W_P w (pa Ct) = Some (rep_cont E L).

Definition rep_inv (m : mem) : Prop :=
  get m (cr_val E) = 0 /\ get m (cr_mod E) = w6 SetTo /\ get m (vc cpc FMod) = w6 SetTo /\ get m (vc cpc FMask) = 0xFFFFFFFF /\
  get m (L + 1) = pa (A l) /\ get m (E + 1) = pa Ct /\ get m (vc cpc FDest) = u32 CPcell /\ get m (vc cpc FNext) = u32 fend.

Lemma rep_cond m : conds_are m (t_conds (rep_loop L cpc)) (get m (rep_cnt L) =? 0).
Proof.
  eapply conds_cons_gen with (a := rep_cnt L) (cm := Exactly) (k := Z.ones 32) (n := 0) (x := get m (rep_cnt L) =? 0);
    cbn [c_w3 c_w4 c_player c_mask c_amount rd]; auto.
  - apply Hcells. cbn; auto.
  - cbn [do_cmp]. rewrite land_ones32, u32_get. reflexivity.
  - intros ->. apply conds_nil.
Qed.

Lemma rep_run : forall n m d s, get m (rep_cnt L) = Z.of_nat n -> get m (cr_dest E) = u32 d -> get m CPcell = u32 s -> rep_inv m ->
  (forall i, (i < n)%nat -> out rep_cells (s + Z.of_nat i)) ->
  (forall i, (i < n)%nat -> out (rep_cells ++ rep_read) (d + Z.of_nat i) /\ writable w (d + Z.of_nat i)) ->
  exists m', runs w (pa L, m) (u32 fend, m') /\ get m' CPcell = get m (vc cpc FVal) /\ get m' (rep_cnt L) = 0 /\ idle E m' /\
    forall b, out rep_cells b -> get m' b = get (copy_up n d s m) b.
Proof.
  pose proof Hnd as ND. unfold rep_cells, rep_read in ND; cbn [app] in ND.
  assert (WR : forall c, In c rep_cells -> writable w c) by exact Hcells.
  induction n as [|n IH]; intros m d s Hn Hd Hs (I1 & I2 & I3 & I4 & I5 & I6 & I7 & I8) Hsrc Hdst.
  - set (m1 := upd m (L + 1) (pa cpc)).
    assert (R1 : runs w (pa L, m) (pa cpc, m1)).
    { pose proof (rep_cond m) as C. rewrite Hn in C. change (Z.of_nat 0 =? 0) with true in C.
      eapply run_true; [exact P1|reflexivity|exact C| |].
      - apply do_cons_M; [apply WR; cbn; auto|apply WR; cbn; auto|]. cbn [do_mod]. rewrite u32_pa. apply do_nil.
      - cbn [rd]. unfold m1. rewrite get_upd_eq. apply u32_pa. }
    assert (R2 := hop w Hw m1 cpc CPcell SetTo (u32 fend) Hcpc).
    set (m2 := upd m1 CPcell (get m (vc cpc FVal))).
    exists m2. split; [|split; [|split; [|split]]].
    + eapply steps_trans; [exact R1|]. replace m2 with (upd m1 CPcell (do_modx SetTo (get m1 (vc cpc FMask)) (get m1 CPcell) (get m1 (vc cpc FVal)))).
      2:{ unfold m2. f_equal. unfold m1. gt. rewrite I4. apply wset_full; apply get_range. }
      apply R2; unfold m1; gt; auto; [apply WR; cbn; tauto|]. intros f ->. dd.
    + unfold m2. gt. apply u32_get.
    + unfold m2, m1. gt. exact Hn.
    + split; unfold m2, m1; gt; assumption.
    + intros b Hb. cbn [copy_up]. unfold m2, m1. rewrite !get_upd_ne by (apply Hb; cbn; tauto). reflexivity.
  - assert (R1 : runs w (pa L, m) (pa (A l), m)).
    { pose proof (rep_cond m) as C. replace (get m (rep_cnt L) =? 0) with false in C by lia.
      eapply run_false; [exact P1|reflexivity|exact C|]. exact I5. }
    destruct (Hdst 0%nat ltac:(lia)) as [Od Wd]. rewrite Z.add_0_r in Od, Wd.
    pose proof (Hsrc 0%nat ltac:(lia)) as Os. rewrite Z.add_0_r in Os.
    assert (OD : forall c, In c (rep_cells ++ rep_read) -> idx d <> idx c) by (intros c Hc Q; apply (Od c Hc); congruence).
    destruct (C26_table_read w E A t Ht Hpl) with (k := 0xFFFFFFFF) (sh := 0) (l := l) (m := m) (md := SetTo) as (m1 & R2 & V & Z1 & F); auto.
    { apply WR; cbn; tauto. } { dd. } { lia. }
    { unfold src_ok. rewrite Hs, idx_u32. apply not_eq_sym, Os. cbn; tauto. }
    { dd. } { dd. } { dd. }
    { rewrite Hd. destruct Wd as [[W1 W2] W3]. unfold writable, plain. rewrite u32_idem, idx_u32. auto. }
    { rewrite Hd, idx_u32. apply OD. cbn; tauto. } { rewrite Hd, idx_u32. apply OD. cbn; tauto. }
    rewrite Hd, get_u32 in V. rewrite Hd, idx_u32 in F.
    assert (V' : get m1 d = get m s).
    { rewrite V. cbn [do_mod]. rewrite I1, Hs, get_u32. change (signed_shift ?x 0) with (Z.shiftl x 0). rewrite Z.shiftl_0_r, Z.add_0_l.
      change 0xFFFFFFFF with (Z.ones 32). rewrite land_ones32, u32_idem. apply u32_get. }
    rewrite I6 in R2.
    set (m2 := upd m1 (cr_dest E) (u32 (d + 1))). set (m3 := upd m2 CPcell (u32 (s + 1))). set (m4 := upd m3 (rep_cnt L) (Z.of_nat n)).
    assert (FC : forall c, In c (rep_cells ++ rep_read) -> idx (cr_val E) <> idx c -> get m1 c = get m c) by (intros c Hc Hv; apply F; [apply OD, Hc|exact Hv]).
    assert (R3 : runs w (pa Ct, m1) (pa L, m4)).
    { eapply run_true; [exact P2|reflexivity|apply conds_nil| |cbn [rd]; apply u32_pa].
      apply do_cons_M; [apply WR; cbn; tauto|apply WR; cbn; tauto|]. cbn [do_mod]. change (u32 1) with 1. rewrite (FC (cr_dest E)) by (first [dd | inl]). rewrite Hd, u32_add_l. fold m2.
      apply do_cons_M; [apply WR; cbn; tauto|apply WR; cbn; tauto|]. cbn [do_mod]. change (u32 1) with 1.
      replace (u32 (get m2 CPcell + 1)) with (u32 (s + 1)). 2:{ unfold m2. gt. rewrite (FC CPcell) by (first [dd | inl]). rewrite Hs, u32_add_l. reflexivity. } fold m3.
      apply do_cons_M; [apply WR; cbn; tauto|apply WR; cbn; tauto|]. cbn [do_mod]. change (u32 1) with 1.
      replace (Z.max 0 (get m3 (rep_cnt L) - 1)) with (Z.of_nat n). 2:{ unfold m3, m2. gt. rewrite (FC (rep_cnt L)) by (first [dd | inl]). lia. } fold m4. apply do_nil. }
    destruct (IH m4 (d + 1) (s + 1)) as (m' & R4 & C4 & N4 & I4' & F4).
    { unfold m4. gt. pose proof (get_range m (rep_cnt L)). apply u32_small. lia. }
    { unfold m4, m3, m2. gt. reflexivity. } { unfold m4, m3. gt. reflexivity. }
    { unfold rep_inv, m4, m3, m2. repeat apply conj; gt; try (rewrite FC by (first [dd | inl])); auto. }
    { intros i Hi. specialize (Hsrc (S i) ltac:(lia)). replace (s + 1 + Z.of_nat i) with (s + Z.of_nat (S i)) by lia. exact Hsrc. }
    { intros i Hi. specialize (Hdst (S i) ltac:(lia)). replace (d + 1 + Z.of_nat i) with (d + Z.of_nat (S i)) by lia. exact Hdst. }
    exists m'. split; [|split; [|split; [exact N4|split; [exact I4'|]]]].
    + eapply steps_trans; [exact R1|]. eapply steps_trans; [exact R2|]. eapply steps_trans; [exact R3|exact R4].
    + rewrite C4. unfold m4, m3, m2. gt. apply FC; [cbn; tauto|dd].
    + intros b Hb. rewrite F4 by exact Hb. cbn [copy_up]. apply (copy_up_agree rep_cells); [| |exact Hb].
      * intros c Hc. unfold m4, m3, m2. rewrite !get_upd_ne by (apply Hc; cbn; tauto).
        destruct (Z.eq_dec (idx d) (idx c)) as [Q|Q]; [rewrite !(get_cong _ c d) by congruence; rewrite get_upd_eq, u32_get; exact V'|rewrite get_upd_ne by exact Q; apply F; [exact Q|apply Hc; cbn; tauto]].
      * intros i Hi. specialize (Hsrc (S i) ltac:(lia)). replace (s + 1 + Z.of_nat i) with (s + Z.of_nat (S i)) by lia. exact Hsrc.
Qed.

(* f_repmovsd_epd copies n dwords in ascending order, changes nothing else and
   restores the current player.  The function's triggers are entered with the
   parameters in place. *)
Theorem C28_repmovsd : forall m n d s,
  get m (rep_cnt L) = Z.of_nat n -> get m (cr_dest E) = u32 d -> get m CPcell = u32 s ->
  idle E m -> ordinary m cpc -> get m (vc cpc FMod) = w6 SetTo ->
  (forall i, (i < n)%nat -> out rep_cells (s + Z.of_nat i)) ->
  (forall i, (i < n)%nat -> out (rep_cells ++ rep_read) (d + Z.of_nat i) /\ writable w (d + Z.of_nat i)) ->
  exists m', runs w (pa T, m) (u32 fend, m') /\ get m' CPcell = get m (vc cpc FVal) /\ idle E m' /\
    forall b, out rep_cells b -> get m' b = get (copy_up n d s m) b.
Proof.
  intros m n d s Hn Hd Hs [I1 I2] [O1 _] O2 Hsrc Hdst.
  pose proof Hnd as ND. unfold rep_cells, rep_read in ND; cbn [app] in ND.
  set (m1 := upd (upd (upd (upd m (L + 1) (pa (A l))) (E + 1) (pa Ct)) (vc cpc FDest) (u32 CPcell)) (vc cpc FNext) (u32 fend)).
  assert (R : runs w (pa T, m) (pa L, m1)).
  { eapply run_true; [exact P0|reflexivity|apply conds_nil| |cbn [rd]; apply u32_pa].
    do 4 (apply do_cons_M; [apply Hcells; cbn; tauto|apply Hcells; cbn; tauto|]; cbn [do_mod]; rewrite ?u32_pa). apply do_nil. }
  destruct (rep_run n m1 d s) as (m' & R' & C & _ & I' & F); auto; try (unfold m1; gt; assumption).
  - unfold rep_inv, m1. repeat apply conj; gt; auto.
  - exists m'. split; [eapply steps_trans; eauto|]. split; [rewrite C; unfold m1; gt; reflexivity|]. split; [exact I'|].
    intros b Hb. rewrite F by exact Hb. apply (copy_up_agree rep_cells); auto. intros c Hc. unfold m1. rewrite !get_upd_ne by (apply Hc; cbn; tauto). reflexivity.
Qed.
End Rep.

(* ---------- memory as bytes ---------- *)
(* the byte at address p *)
Definition byte (m : mem) (p : Z) : Z := fld (get m (p / 4 - 0x58A364 / 4)) (8 * (p mod 4)) 8.
Definition same_addr (p q : Z) : Prop := u32 p = u32 q.
Lemma same_addr_iff p q : same_addr p q <-> idx (p / 4 - 0x58A364 / 4) = idx (q / 4 - 0x58A364 / 4) /\ p mod 4 = q mod 4.
Proof.
  unfold same_addr, u32, idx. set (bs := 0x58A364 / 4).
  assert (D : forall x, x mod 2^32 = 4 * ((x / 4) mod 2^30) + x mod 4).
  { intros x. change (2^32) with (4 * 2^30). rewrite Z.rem_mul_r by lia. lia. }
  assert (M : (p / 4 - bs) mod 2^30 = (q / 4 - bs) mod 2^30 <-> (p / 4) mod 2^30 = (q / 4) mod 2^30).
  { split; intros H.
    - replace (p / 4) with (p / 4 - bs + bs) by lia. replace (q / 4) with (q / 4 - bs + bs) by lia. rewrite (Z.add_mod (p / 4 - bs)), (Z.add_mod (q / 4 - bs)), H by lia. reflexivity.
    - rewrite (Zminus_mod (p / 4)), (Zminus_mod (q / 4)), H. reflexivity. }
  rewrite M, !D. pose proof (Z.mod_pos_bound p 4). pose proof (Z.mod_pos_bound q 4). split; intros H1; [split|]; lia.
Qed.
Lemma byte_same m p q : same_addr p q -> byte m p = byte m q.
Proof. intros H. apply same_addr_iff in H as [H1 H2]. unfold byte. rewrite H2, (get_cong m _ _ H1). reflexivity. Qed.
Lemma byte_range m p : 0 <= byte m p < 256.
Proof. apply (fld_range _ _ 8). lia. Qed.
(* p after n more bytes *)
Lemma succ_split p : (p + 1) / 4 = (if p mod 4 =? 3 then p / 4 + 1 else p / 4) /\ (p + 1) mod 4 = (p mod 4 + 1) mod 4.
Proof. split; [destruct (Z.eqb_spec (p mod 4) 3)|]; Z.div_mod_to_equations; lia. Qed.

(* the dword that holds byte p gets that byte replaced *)
Definition puts (m m' : mem) (X : list Z) (p b : Z) : Prop :=
  forall q, out X (q / 4 - 0x58A364 / 4) -> byte m' q = if Z.eq_dec (u32 q) (u32 p) then b else byte m q.
Lemma puts_field X m m' p b : 
  (forall c, out X c -> get m' c = get (upd m (p / 4 - 0x58A364 / 4) (do_modx SetTo (fmask (8 * (p mod 4)) 8) (get m (p / 4 - 0x58A364 / 4)) b)) c) -> 0 <= b ->
  puts m m' X p (fld b (8 * (p mod 4)) 8).
Proof.
  intros H Hb q Hq. set (a := p / 4 - 0x58A364 / 4) in *. pose proof (Z.mod_pos_bound p 4). pose proof (Z.mod_pos_bound q 4).
  pose proof (modx_field SetTo (get m a) b (8 * (p mod 4)) 8 ltac:(lia) ltac:(lia) (proj1 (get_range _ _)) Hb) as [F1 F2].
  assert (K : 0 <= fmask (8 * (p mod 4)) 8 < 2^32).
  { unfold fmask. rewrite Z.shiftl_mul_pow2, Z.ones_equiv by lia. assert (0 < 2^(8 * (p mod 4)) <= 2^24) by (split; [apply Z.pow_pos_nonneg; lia|apply Z.pow_le_mono_r; lia]). change (Z.pred (2^8)) with 255. lia. }
  unfold byte at 1. rewrite H by exact Hq.
  destruct (Z.eq_dec (idx a) (idx (q / 4 - 0x58A364 / 4))) as [Q|Q].
  - rewrite (get_cong _ (q / 4 - 0x58A364 / 4) a) by congruence. rewrite get_upd_eq.
    assert (W : u32 (do_modx SetTo (fmask (8 * (p mod 4)) 8) (get m a) b) = do_modx SetTo (fmask (8 * (p mod 4)) 8) (get m a) b).
    { apply u32_small. cbn [do_modx]. unfold wset. apply lor_range; [lia|apply ldiff_range; [lia|apply get_range]|apply land_range; [lia|exact Hb|exact K]]. }
    rewrite W. destruct (Z.eq_dec (u32 q) (u32 p)) as [E|E].
    + pose proof (proj1 (same_addr_iff q p) E) as [_ ->]. exact F1.
    + rewrite F2; try lia.
      * unfold byte. rewrite (get_cong m (q / 4 - 0x58A364 / 4) a) by congruence. reflexivity.
      * assert (q mod 4 <> p mod 4) by (intros Q2; apply E, same_addr_iff; split; [symmetry; exact Q|exact Q2]). lia.
  - rewrite get_upd_ne by exact Q. destruct (Z.eq_dec (u32 q) (u32 p)) as [E|E]; [|reflexivity].
    exfalso. apply Q. symmetry. apply (proj1 (same_addr_iff q p) E).
Qed.

(* ---------- EUDByteReader ---------- *)
Section Rdr.
Variable w : world.
Hypothesis Hw : world_ok w.
Variables (E : Z) (A : nat -> Z) (t : rtab) (lb : nat -> nat) (R : Z) (C : nat -> Z) (cpc T nexttrg ret : Z).
Hypothesis Ht : tab_ok t.
Hypothesis Hpl : table_placed w E A t.
Hypothesis Hlb : forall i, (i < 4)%nat -> answers t (fmask (8 * Z.of_nat i) 8) (- (8 * Z.of_nat i)) (lb i).
Hypothesis Hcpc : In cpc (W_vars w).
Definition br_cells : list Z := [E + 1; cr_dest E; cr_val E; CPcell; vc cpc FNext; vc cpc FDest; R + 1; R + 87].
Definition br_kept : list Z := [cr_mod E; vc cpc FMod; vc cpc FMask; vc cpc FVal].
Hypothesis Hcells : forall c, In c (ret :: br_cells) -> writable w c.
Hypothesis Hnd : NoDup (map idx (ret :: br_cells ++ br_kept)).
Hypothesis P0 : W_P w (pa T) = Some (br_call E R cpc nexttrg ret).
Hypothesis P1 : W_P w (pa R) = Some (br_read R).
Hypothesis P2 : forall i, (i < 4)%nat -> W_P w (pa (C i)) = Some (br_case R C (fun j => pa (A (lb j))) i).
(* the reader is at address p *)
Definition reader_at (m : mem) (p : Z) : Prop :=
  get m (R + 87) = u32 (p / 4 - 0x58A364 / 4) /\ get m (R + 1) = pa (C (Z.to_nat (p mod 4))).

Theorem C28_readbyte : forall m p, reader_at m p -> idle E m -> ordinary m cpc -> get m (vc cpc FMod) = w6 SetTo ->
  out br_cells (p / 4 - 0x58A364 / 4) ->
  exists m', runs w (pa T, m) (u32 nexttrg, m') /\ get m' ret = byte m p /\ reader_at m' (p + 1) /\
    get m' CPcell = get m (vc cpc FVal) /\ idle E m' /\ forall b, out (ret :: br_cells) b -> get m' b = get m b.
Proof.
  intros m p [A1 A2] [I1 I2] [O1 _] O2 Hs. pose proof Hnd as ND. unfold br_cells, br_kept in ND; cbn [app] in ND.
  set (i := Z.to_nat (p mod 4)) in *. pose proof (Z.mod_pos_bound p 4). assert (Hi : (i < 4)%nat) by lia. assert (Zi : Z.of_nat i = p mod 4) by lia.
  set (e := p / 4 - 0x58A364 / 4) in *.
  set (m1 := upd (upd (upd (upd m (E + 1) (pa cpc)) (vc cpc FNext) (u32 nexttrg)) (vc cpc FDest) (u32 CPcell)) (cr_dest E) (u32 ret)).
  assert (R1 : runs w (pa T, m) (pa R, m1)).
  { eapply run_true; [exact P0|reflexivity|apply conds_nil| |cbn [rd]; apply u32_pa].
    do 4 (apply do_cons_M; [apply Hcells; cbn; tauto|apply Hcells; cbn; tauto|]; cbn [do_mod]; rewrite ?u32_pa). apply do_nil. }
  set (m2 := upd m1 CPcell (u32 e)).
  assert (R2 : runs w (pa R, m1) (pa (C i), m2)).
  { eapply run_true; [exact P1|reflexivity|apply conds_nil| |].
    - eapply do_cons_D with (a := CPcell); [reflexivity|apply Hcells; cbn; tauto|apply Hcells; cbn; tauto|].
      assert (rd m1 (Mem (R + 87)) = u32 e) as -> by (cbn [rd]; unfold m1; gt; exact A1). cbn [do_mod]. fold m2. apply do_nil.
    - cbn [rd]. unfold m2, m1. gt. exact A2. }
  set (j := ((i + 1) mod 4)%nat).
  set (m3 := if Nat.eqb i 3 then upd (upd m2 (R + 1) (pa (C j))) (R + 87) (u32 (e + 1)) else upd m2 (R + 1) (pa (C j))).
  assert (R3 : runs w (pa (C i), m2) (pa (A (lb i)), m3)).
  { eapply run_true; [exact (P2 i Hi)|reflexivity|apply conds_nil| |cbn [rd]; apply u32_pa].
    apply do_cons_M; [apply Hcells; cbn; tauto|apply Hcells; cbn; tauto|]. cbn [do_mod]. rewrite u32_pa. fold j. unfold m3. destruct (Nat.eqb_spec i 3); [|apply do_nil].
    apply do_cons_M; [apply Hcells; cbn; tauto|apply Hcells; cbn; tauto|]. cbn [do_mod]. change (u32 1) with 1.
    replace (u32 (get (upd m2 (R + 1) (pa (C j))) (R + 87) + 1)) with (u32 (e + 1)); [apply do_nil|].
    unfold m2, m1. gt. rewrite A1, u32_add_l. reflexivity. }
  assert (G3 : forall c, out br_cells c -> get m3 c = get m c).
  { intros c Hc. unfold m3, m2, m1. destruct (Nat.eqb i 3); rewrite !get_upd_ne by (apply Hc; cbn; tauto); reflexivity. }
  assert (GX : forall c, idx (R + 1) <> idx c -> idx (R + 87) <> idx c -> get m3 c = get m2 c).
  { intros c H1 H2. unfold m3. destruct (Nat.eqb i 3); rewrite ?get_upd_ne by assumption; reflexivity. }
  assert (CP3 : get m3 CPcell = u32 e) by (rewrite GX by dd; unfold m2; gt; reflexivity).
  assert (D3 : get m3 (cr_dest E) = u32 ret) by (rewrite GX by dd; unfold m2, m1; gt; reflexivity).
  assert (N3 : get m3 (E + 1) = pa cpc) by (rewrite GX by dd; unfold m2, m1; gt; reflexivity).
  assert (OR : forall c, In c (br_cells ++ br_kept) -> idx ret <> idx c).
  { intros c Hc. inversion ND as [|? ? NI _ ]; subst. intros Q. apply NI. rewrite Q. change (In (idx c) (map idx (br_cells ++ br_kept))). apply in_map, Hc. }
  destruct (C26_table_read w E A t Ht Hpl) with (k := fmask (8 * Z.of_nat i) 8) (sh := - (8 * Z.of_nat i)) (l := lb i) (m := m3) (md := SetTo) as (m4 & R4 & V & Z4 & F); auto.
  { apply Hcells; cbn; tauto. } { dd. }
  { unfold fmask. rewrite Z.shiftl_mul_pow2, Z.ones_equiv by lia. assert (2^(8 * Z.of_nat i) <= 2^24) by (apply Z.pow_le_mono_r; lia). change (Z.pred (2^8)) with 255. lia. }
  { unfold src_ok. rewrite CP3, idx_u32. apply not_eq_sym, Hs. cbn; tauto. }
  { rewrite GX by dd. unfold m2, m1. gt. exact I2. } { dd. } { dd. } { dd. }
  { rewrite D3. destruct (Hcells ret ltac:(cbn; tauto)) as [[W1 W2] W3]. unfold writable, plain. rewrite u32_idem, idx_u32. auto. }
  { rewrite D3, idx_u32. dd. } { rewrite D3, idx_u32. dd. }
  rewrite D3, get_u32 in V. rewrite D3, idx_u32 in F. rewrite N3 in R4.
  assert (V' : get m4 ret = byte m p).
  { rewrite V. cbn [do_mod]. rewrite CP3, get_u32, (G3 e) by exact Hs. rewrite ss_fld by (try apply get_range; lia).
    rewrite (GX (cr_val E)) by dd. unfold m2, m1. gt. rewrite I1, Z.add_0_l, Zi. fold e. unfold byte. fold e. 
    pose proof (fld_range (get m e) (8 * (p mod 4)) 8). apply u32_small. lia. }
  set (m5 := upd m4 CPcell (get m (vc cpc FVal))).
  assert (F4 : forall c, In c (br_cells ++ br_kept) -> idx (cr_val E) <> idx c -> get m4 c = get m3 c) by (intros c Hc Hv; apply F; [apply OR, Hc|exact Hv]).
  assert (R5 : runs w (pa cpc, m4) (u32 nexttrg, m5)).
  { replace m5 with (upd m4 CPcell (do_modx SetTo (get m4 (vc cpc FMask)) (get m4 CPcell) (get m4 (vc cpc FVal)))).
    - apply (hop w Hw m4 cpc CPcell SetTo (u32 nexttrg) Hcpc); try (rewrite F4, GX by (first [dd | inl]); unfold m2, m1; gt; auto; fail).
      + apply Hcells; cbn; tauto.
      + intros f ->. dd.
    - unfold m5. f_equal. rewrite (F4 (vc cpc FMask)), (F4 (vc cpc FVal)) by (first [dd | inl]). rewrite (GX (vc cpc FMask)), (GX (vc cpc FVal)) by dd. unfold m2, m1. gt.
      rewrite O1. apply wset_full; apply get_range. }
  exists m5. split; [|split; [|split; [|split; [|split]]]].
  - eapply steps_trans; [exact R1|]. eapply steps_trans; [exact R2|]. eapply steps_trans; [exact R3|]. eapply steps_trans; [exact R4|exact R5].
  - unfold m5. gt. exact V'.
  - destruct (succ_split p) as [S1 S2]. split.
    + unfold m5. gt. rewrite F4 by (first [dd | inl]). rewrite S1. unfold m3. destruct (Nat.eqb_spec i 3) as [Q|Q].
      * gt. replace (p mod 4 =? 3) with true by lia. unfold e. f_equal. lia.
      * replace (p mod 4 =? 3) with false by lia. unfold m2, m1. gt. exact A1.
    + unfold m5. gt. rewrite F4 by (first [dd | inl]). assert (Q : Z.to_nat ((p + 1) mod 4) = j).
      { rewrite S2. unfold j. rewrite <- Zi. clear. destruct i as [|[|[|[|i]]]]; try reflexivity. rewrite <- (Nat2Z.id ((S (S (S (S i))) + 1) mod 4)). f_equal. rewrite Nat2Z.inj_mod. f_equal. lia. }
      rewrite Q. unfold m3. destruct (Nat.eqb i 3); gt; reflexivity.
  - unfold m5. gt. apply u32_get.
  - split; unfold m5; gt; [exact Z4|]. rewrite F4, GX by (first [dd | inl]). unfold m2, m1. gt. exact I2.
  - intros b Hb. unfold m5. rewrite get_upd_ne by (apply Hb; cbn; tauto). rewrite F by (apply Hb; cbn; tauto). apply G3. intros c Hc. apply Hb. right. exact Hc.
Qed.
End Rdr.

(* ---------- EUDByteWriter ---------- *)
Lemma cond_M m a cm n : plain a -> conds_are m [CondM a cm n] (do_cmp cm (get m a) (u32 n)).
Proof.
  intros Hp. eapply conds_cons_gen with (a := a) (cm := cm) (k := Z.ones 32) (n := u32 n) (x := do_cmp cm (get m a) (u32 n));
    unfold CondM, CondD; cbn [c_w3 c_w4 c_player c_mask c_amount rd]; auto.
  - rewrite land_ones32, u32_get. reflexivity.
  - intros ->. apply conds_nil.
Qed.

Lemma fmask8 i : (i < 4)%nat -> u32 (Z.shiftl 0xFF (8 * Z.of_nat i)) = fmask (8 * Z.of_nat i) 8.
Proof. intros Hi. destruct i as [|[|[|[|i]]]]; try reflexivity; lia. Qed.
Lemma fld_shl b i : (i < 4)%nat -> fld (u32 (Z.shiftl b (8 * Z.of_nat i))) (8 * Z.of_nat i) 8 = b mod 256.
Proof. intros Hi. apply (lane_fld 1 (Z.of_nat i) b); lia. Qed.

Section Wtr.
Variable w : world.
Hypothesis Hw : world_ok w.
Variables (W W2 F sub : Z) (K : nat -> Z).
Definition bw_cells : list Z := [sub; W + 82; W + 86; W + 87].
Definition bw_ccells : list Z := bw_cells ++ [F + 1; K 0%nat + 87; K 1%nat + 87; K 2%nat + 87; K 3%nat + 87].
Hypothesis Hcells : forall c, In c bw_ccells -> writable w c.
Hypothesis Hnd : NoDup (map idx bw_ccells).
Hypothesis P1 : W_P w (pa W) = Some (bw_write W W2 sub).
Hypothesis P2 : W_P w (pa W2) = Some (bw_wrap W F sub).
Hypothesis P3 : W_P w (pa F) = Some (bw_end F).
(* the writer is at address p, and its value is clear as between two writes *)
Definition writer_at (m : mem) (p : Z) : Prop :=
  get m (W + 86) = u32 (p / 4 - 0x58A364 / 4) /\ get m sub = p mod 4.

Lemma from_write m p b : writer_at m p -> get m (W + 82) = fmask (8 * (p mod 4)) 8 -> get m (W + 87) = b ->
  out bw_ccells (p / 4 - 0x58A364 / 4) -> writable w (p / 4 - 0x58A364 / 4) ->
  exists m', runs w (pa W, m) (get m (F + 1), m') /\ writer_at m' (p + 1) /\ get m' (W + 87) = 0 /\
    puts m m' bw_cells p (fld b (8 * (p mod 4)) 8) /\
    forall c, out bw_cells c -> idx (p / 4 - 0x58A364 / 4) <> idx c -> get m' c = get m c.
Proof.
  intros [A1 A2] Hk Hb Ho Hwr. pose proof Hnd as ND. unfold bw_ccells, bw_cells in ND; cbn [app] in ND.
  set (e := p / 4 - 0x58A364 / 4) in *. set (v := do_modx SetTo (fmask (8 * (p mod 4)) 8) (get m e) b).
  pose proof (Z.mod_pos_bound p 4) as Pm. destruct (succ_split p) as [S1 S2].
  assert (OE : forall c, In c bw_ccells -> idx e <> idx c) by (intros c Hc Q; apply (Ho c Hc); congruence).
  set (m1 := upd (upd (upd m e v) sub (p mod 4 + 1)) (W + 87) 0).
  assert (R1 : runs w (pa W, m) (pa W2, m1)).
  { eapply run_true; [exact P1|reflexivity|apply conds_nil| |cbn [rd]; apply u32_pa].
    eapply do_cons_DX with (a := e); [cbn [rd]; exact A1|apply Hwr|apply Hwr|]. cbn [rd]. rewrite Hk, Hb. fold v.
    apply do_cons_M; [apply Hcells; cbn; tauto|apply Hcells; cbn; tauto|]. cbn [do_mod]. change (u32 1) with 1.
    rewrite get_upd_ne by (apply OE; cbn; tauto). rewrite A2, u32_small by lia.
    apply do_cons_M; [apply Hcells; cbn; tauto|apply Hcells; cbn; tauto|]. cbn [do_mod]. change (u32 0) with 0. fold m1. apply do_nil. }
  assert (Gs : get m1 sub = p mod 4 + 1) by (unfold m1; gt; apply u32_small; lia).
  assert (Ge : get m1 (W + 86) = u32 e) by (unfold m1; gt; rewrite get_upd_ne by (apply OE; cbn; tauto); exact A1).
  set (m2 := if 4 <=? p mod 4 + 1 then upd (upd m1 sub 0) (W + 86) (u32 (e + 1)) else m1).
  assert (R2 : runs w (pa W2, m1) (pa F, m2)).
  { pose proof (cond_M m1 sub AtLeast 4 (proj1 (Hcells sub ltac:(cbn; tauto)))) as Cd. change (u32 4) with 4 in Cd. cbn [do_cmp] in Cd. rewrite Gs in Cd.
    unfold m2. eapply run_cond; [exact P2|reflexivity|exact Cd| | |cbn [rd]; apply u32_pa].
    - intros Q. rewrite Q. apply do_cons_M; [apply Hcells; cbn; tauto|apply Hcells; cbn; tauto|]. cbn [do_mod]. change (u32 0) with 0.
      apply do_cons_M; [apply Hcells; cbn; tauto|apply Hcells; cbn; tauto|]. cbn [do_mod]. change (u32 1) with 1.
      rewrite get_upd_ne by dd. rewrite Ge, u32_add_l. apply do_nil.
    - intros Q. rewrite Q. reflexivity. }
  assert (FR : forall c, out bw_cells c -> get m2 c = get (upd m e v) c).
  { intros c Hc. unfold m2, m1. destruct (4 <=? p mod 4 + 1); rewrite !get_upd_ne by (apply Hc; cbn; tauto); reflexivity. }
  assert (GF : get m2 (F + 1) = get m (F + 1)).
  { unfold m2, m1. destruct (4 <=? p mod 4 + 1); gt; rewrite get_upd_ne by (apply OE; cbn; tauto); reflexivity. }
  exists m2. split; [|split; [|split; [|split]]].
  - eapply steps_trans; [exact R1|]. eapply steps_trans; [exact R2|]. eapply run_true; [exact P3|reflexivity|apply conds_nil|apply do_nil|]. cbn [rd]. exact GF.
  - split; rewrite ?S1, ?S2; unfold m2.
    + destruct (Z.leb_spec 4 (p mod 4 + 1)) as [Q|Q]; gt; [replace (p mod 4 =? 3) with true by lia; f_equal; unfold e; lia|replace (p mod 4 =? 3) with false by lia; exact Ge].
    + destruct (Z.leb_spec 4 (p mod 4 + 1)) as [Q|Q]; gt; [change (u32 0) with 0|rewrite Gs]; Z.div_mod_to_equations; lia.
  - unfold m2, m1. destruct (4 <=? p mod 4 + 1); gt; reflexivity.
  - subst b. apply puts_field; [|apply get_range]. fold e. intros c Hc. apply FR, Hc.
  - intros c Hc Hne. rewrite FR by exact Hc. apply get_upd_ne, Hne.
Qed.

(* a constant byte *)
Variables (T byt nextptr : Z).
Hypothesis PC : forall i, (i < 4)%nat -> W_P w (pa (K i)) = Some (bw_const W sub K i).
Hypothesis PT : W_P w (pa T) = Some (bw_call F K byt nextptr).
Definition cst (i : nat) (m : mem) : mem :=
  if get m sub =? Z.of_nat i then upd (upd m (W + 87) (get m (K i + 87))) (W + 82) (fmask (8 * Z.of_nat i) 8) else m.
Lemma const_run i m : (i < 4)%nat -> runs w (pa (K i), m) (if Nat.eqb i 3 then pa W else pa (K (S i)), cst i m).
Proof.
  intros Hi. pose proof (cond_M m sub Exactly (Z.of_nat i) (proj1 (Hcells sub ltac:(cbn; tauto)))) as Cd. cbn [do_cmp] in Cd. rewrite (u32_small (Z.of_nat i)) in Cd by lia.
  unfold cst. eapply run_cond; [exact (PC i Hi)|reflexivity|exact Cd| | |cbn [rd]; destruct (Nat.eqb i 3); apply u32_pa].
  - intros Q. rewrite Q. eapply do_cons_D with (a := W + 87); [reflexivity|apply Hcells; cbn; tauto|apply Hcells; cbn; tauto|]. cbn [do_mod rd].
    apply do_cons_M; [apply Hcells; cbn; tauto|apply Hcells; cbn; tauto|]. cbn [do_mod]. rewrite fmask8 by exact Hi. apply do_nil.
  - intros Q. rewrite Q. reflexivity.
Qed.
Theorem C28_writebyte_const : forall m p, writer_at m p ->
  out bw_ccells (p / 4 - 0x58A364 / 4) -> writable w (p / 4 - 0x58A364 / 4) ->
  exists m', runs w (pa T, m) (u32 nextptr, m') /\ writer_at m' (p + 1) /\
    puts m m' bw_ccells p (byt mod 256) /\
    forall c, out bw_ccells c -> idx (p / 4 - 0x58A364 / 4) <> idx c -> get m' c = get m c.
Proof.
  intros m p [A1 A2] Ho Hwr. pose proof Hnd as ND. unfold bw_ccells, bw_cells in ND; cbn [app] in ND.
  pose proof (Z.mod_pos_bound p 4) as Pm. set (i := Z.to_nat (p mod 4)). assert (Hi : (i < 4)%nat) by lia. assert (Zi : Z.of_nat i = p mod 4) by lia.
  set (sh := fun i => u32 (Z.shiftl byt (8 * Z.of_nat i))).
  set (m1 := upd (upd (upd (upd (upd m (K 0%nat + 87) (sh 0%nat)) (K 1%nat + 87) (sh 1%nat)) (K 2%nat + 87) (sh 2%nat)) (K 3%nat + 87) (sh 3%nat)) (F + 1) (u32 nextptr)).
  assert (R1 : runs w (pa T, m) (pa (K 0%nat), m1)).
  { eapply run_true; [exact PT|reflexivity|apply conds_nil| |cbn [rd]; apply u32_pa]. cbn [map seq app].
    do 5 (apply do_cons_M; [apply Hcells; cbn; tauto|apply Hcells; cbn; tauto|]; cbn [do_mod]). apply do_nil. }
  set (m2 := cst 3 (cst 2 (cst 1 (cst 0 m1)))).
  assert (R2 : runs w (pa (K 0%nat), m1) (pa W, m2)).
  { eapply steps_trans; [apply (const_run 0); lia|]. eapply steps_trans; [apply (const_run 1); lia|]. eapply steps_trans; [apply (const_run 2); lia|]. apply (const_run 3); lia. }
  assert (Hm2 : m2 = upd (upd m1 (W + 87) (sh i)) (W + 82) (fmask (8 * Z.of_nat i) 8)).
  { assert (S0 : get m1 sub = Z.of_nat i) by (unfold m1; gt; lia).
    assert (KV : forall j, (j < 4)%nat -> get m1 (K j + 87) = sh j).
    { intros j Hj. assert (UU : forall x, u32 (sh x) = sh x) by (intros; apply u32_idem). destruct j as [|[|[|[|j]]]]; try lia; unfold m1; gt; apply UU. }
    assert (Cno : forall j x, get x sub = Z.of_nat i -> j <> i -> cst j x = x) by (intros j x Hx Hn; unfold cst; replace (get x sub =? Z.of_nat j) with false by lia; reflexivity).
    assert (Cy : cst i m1 = upd (upd m1 (W + 87) (sh i)) (W + 82) (fmask (8 * Z.of_nat i) 8)).
    { unfold cst. replace (get m1 sub =? Z.of_nat i) with true by lia. rewrite (KV i Hi). reflexivity. }
    assert (Sy : get (cst i m1) sub = Z.of_nat i) by (rewrite Cy; gt; exact S0).
    rewrite <- Cy. unfold m2. clearbody i. destruct i as [|[|[|[|k]]]]; try lia.
    - rewrite (Cno 1%nat), (Cno 2%nat), (Cno 3%nat) by (auto; lia). reflexivity.
    - rewrite (Cno 0%nat) by (auto; lia). rewrite (Cno 2%nat), (Cno 3%nat) by (auto; lia). reflexivity.
    - rewrite (Cno 0%nat), (Cno 1%nat) by (auto; lia). rewrite (Cno 3%nat) by (auto; lia). reflexivity.
    - rewrite (Cno 0%nat), (Cno 1%nat), (Cno 2%nat) by (auto; lia). reflexivity. }
  assert (KM : 0 <= fmask (8 * Z.of_nat i) 8 < 2^32) by (rewrite <- fmask8 by exact Hi; apply u32_range).
  destruct (from_write m2 p (sh i)) as (m' & R3 & W3 & Z3 & PU & FR); auto.
  - rewrite Hm2. split; unfold m1; gt; assumption.
  - rewrite Hm2. gt. rewrite u32_small by exact KM. rewrite Zi. reflexivity.
  - rewrite Hm2. gt. unfold sh. apply u32_idem.
  - assert (F2 : forall c, out bw_ccells c -> get m2 c = get m c).
    { intros c Hc. rewrite Hm2. unfold m1. rewrite !get_upd_ne by (apply Hc; cbn; tauto). reflexivity. }
    exists m'. split; [|split; [exact W3|split]].
    + eapply steps_trans; [exact R1|]. eapply steps_trans; [exact R2|]. replace (u32 nextptr) with (get m2 (F + 1)); [exact R3|]. rewrite Hm2. unfold m1. gt. reflexivity.
    + intros q Hq. rewrite PU by (intros c Hc; apply Hq; unfold bw_ccells; apply in_or_app; left; exact Hc).
      destruct (Z.eq_dec (u32 q) (u32 p)); [rewrite <- Zi; apply fld_shl, Hi|]. unfold byte. rewrite F2 by exact Hq. reflexivity.
    + intros c Hc Hne. rewrite FR; [apply F2, Hc| |exact Hne]. intros x Hx. apply Hc. unfold bw_ccells. apply in_or_app. left. exact Hx.
Qed.

(* a byte in a variable: from the case of the switch that belongs to the
   position, and any value of the variable *)
Variables (bv : Z) (TC0 : Z) (TC : Z -> nat -> Z).
Hypothesis Hbv : In bv (W_vars w).
Hypothesis Hsepv : forall c f, In c bw_ccells -> idx (vc bv f) <> idx c.
Hypothesis PC0 : W_P w (pa TC0) = Some (bw_case0 W bv).
Hypothesis PCi : forall i, 1 <= i <= 3 -> placed w (TC i) 0 (bw_casei W bv (TC i) i).
Lemma bit_sum i : 1 <= i <= 3 -> forall x, 0 <= x < 2^32 ->
  forall n m, (n <= 8)%nat -> get m (vc bv FVal) = x ->
  exists m', runs w (if Nat.eqb n 0 then pa W else lbl (TC i) (9 - n), m) (pa W, m') /\
    get m' (W + 87) = u32 (get m (W + 87) + fld x (8 - Z.of_nat n) (Z.of_nat n) * 2^(8 - Z.of_nat n + 8 * i)) /\
    forall c, idx (W + 87) <> idx c -> get m' c = get m c.
Proof.
  intros Hi x Hx. induction n as [|n IH]; intros m Hn Hv.
  - exists m. split; [apply steps_refl|]. split; [|auto]. unfold fld. change (2 ^ Z.of_nat 0) with 1. rewrite Z.mod_1_r, Z.mul_0_l, Z.add_0_r. symmetry. apply u32_get.
  - cbn [Nat.eqb]. replace (9 - S n)%nat with (8 - n)%nat by lia. set (j := (7 - n)%nat).
    assert (Pj : W_P w (lbl (TC i) (8 - n)) = Some (mktrig [CondMX (vc bv FVal) AtLeast 1 (2 ^ Z.of_nat j)] [SetM (W + 87) Add (2 ^ (Z.of_nat j + 8 * i))]
                       (Imm (if Nat.eqb j 7 then pa W else lbl (TC i) (S (S j)))) (Imm 4))).
    { replace (8 - n)%nat with (0 + S j)%nat by lia. apply PCi; [exact Hi|]. unfold bw_casei. cbn [nth_error].
      match goal with |- nth_error (map ?f _) _ = _ => apply (map_nth_error f j (seq 0 8) (d := j)) end.
      rewrite (nth_error_nth' _ 0%nat) by (rewrite seq_length; lia). rewrite seq_nth by lia. reflexivity. }
    assert (Cd : conds_are m [CondMX (vc bv FVal) AtLeast 1 (2 ^ Z.of_nat j)] (Z.testbit x (Z.of_nat j))).
    { assert (R : 0 < 2^Z.of_nat j < 2^32) by (split; [apply Z.pow_pos_nonneg; lia|apply Z.pow_lt_mono_r; lia]).
      eapply conds_cons_gen with (a := vc bv FVal) (cm := AtLeast) (k := 2^Z.of_nat j) (n := 1) (x := Z.testbit x (Z.of_nat j));
        unfold CondMX, CondDX; cbn [c_w3 c_w4 c_player c_mask c_amount rd]; auto.
      - apply (wo_plain w Hw); auto.
      - unfold eff_mask. change (eudx_on (u32 0x43530000)) with true. cbv iota. apply u32_small; lia.
      - cbn [do_cmp]. rewrite Hv, land_pow2 by lia. destruct (Z.testbit x (Z.of_nat j)); lia.
      - intros ->. apply conds_nil. }
    set (m1 := if Z.testbit x (Z.of_nat j) then upd m (W + 87) (u32 (get m (W + 87) + 2^(Z.of_nat j + 8 * i))) else m).
    assert (R1 : runs w (lbl (TC i) (8 - n), m) (if Nat.eqb n 0 then pa W else lbl (TC i) (9 - n), m1)).
    { unfold m1. eapply run_cond; [exact Pj|reflexivity|exact Cd| | |].
      - intros Q. rewrite Q. apply do_cons_M; [apply Hcells; cbn; tauto|apply Hcells; cbn; tauto|]. cbn [do_mod]. rewrite u32_add_r. apply do_nil.
      - intros Q. rewrite Q. reflexivity.
      - cbn [rd]. replace (Nat.eqb j 7) with (Nat.eqb n 0) by (destruct (Nat.eqb_spec n 0), (Nat.eqb_spec j 7); lia).
        destruct (Nat.eqb n 0) eqn:Q; [apply u32_pa|]. replace (S (S j)) with (9 - n)%nat by (apply Nat.eqb_neq in Q; lia). apply u32_lbl. }
    assert (Hv1 : get m1 (vc bv FVal) = x).
    { unfold m1. destruct (Z.testbit x (Z.of_nat j)); [|exact Hv]. rewrite get_upd_ne; [exact Hv|]. apply not_eq_sym, Hsepv. cbn; tauto. }
    destruct (IH m1 ltac:(lia) Hv1) as (m' & R2 & V & FR). exists m'. split; [eapply steps_trans; eauto|]. split.
    + rewrite V. assert (G1 : get m1 (W + 87) = u32 (get m (W + 87) + Z.b2z (Z.testbit x (Z.of_nat j)) * 2^(Z.of_nat j + 8 * i))).
      { unfold m1. destruct (Z.testbit x (Z.of_nat j)); cbn [Z.b2z]; [rewrite get_upd_eq, u32_idem, Z.mul_1_l; reflexivity|rewrite Z.mul_0_l, Z.add_0_r; symmetry; apply u32_get]. }
      rewrite G1, u32_add_l. f_equal. rewrite <- Z.add_assoc. f_equal.
      replace (8 - Z.of_nat n) with (Z.of_nat j + 1) by lia. replace (8 - Z.of_nat (S n)) with (Z.of_nat j) by lia. rewrite (Nat2Z.inj_succ n).
      assert (FS : fld x (Z.of_nat j) (Z.succ (Z.of_nat n)) = Z.b2z (Z.testbit x (Z.of_nat j)) + 2 * fld x (Z.of_nat j + 1) (Z.of_nat n)).
      { unfold fld. rewrite Z.testbit_spec' by lia. set (y := x / 2^Z.of_nat j). rewrite Z.pow_succ_r by lia. rewrite Z.rem_mul_r by (try apply Z.pow_nonzero; lia).
        rewrite Z.pow_add_r by lia. change (2^1) with 2. rewrite <- Z.div_div by (try apply Z.pow_nonzero; lia). fold y. lia. }
      rewrite FS. replace (Z.of_nat j + 1 + 8 * i) with (1 + (Z.of_nat j + 8 * i)) by lia. rewrite (Z.pow_add_r 2 1) by lia. change (2^1) with 2. ring.
    + intros c Hc. rewrite FR by exact Hc. unfold m1. destruct (Z.testbit x (Z.of_nat j)); [apply get_upd_ne, Hc|reflexivity].
Qed.
Theorem C28_writebyte_var_partial : forall m p, writer_at m p -> get m (W + 87) = 0 -> ordinary m bv -> get m (vc bv FMod) = w6 SetTo ->
  out bw_ccells (p / 4 - 0x58A364 / 4) -> writable w (p / 4 - 0x58A364 / 4) ->
  exists m', runs w (if p mod 4 =? 0 then pa TC0 else lbl (TC (p mod 4)) 0, m) (get m (F + 1), m') /\ writer_at m' (p + 1) /\ get m' (W + 87) = 0 /\
    puts m m' (vc bv FNext :: vc bv FDest :: bw_cells) p (get m (vc bv FVal) mod 256) /\
    forall c, out (vc bv FNext :: vc bv FDest :: bw_cells) c -> idx (p / 4 - 0x58A364 / 4) <> idx c -> get m' c = get m c.
Proof.
  intros m p [A1 A2] HZ [O1 _] O2 Ho Hwr. pose proof Hnd as ND. unfold bw_ccells, bw_cells in ND; cbn [app] in ND.
  pose proof (Z.mod_pos_bound p 4) as Pm. set (x := get m (vc bv FVal)). pose proof (get_range m (vc bv FVal)) as Rx. fold x in Rx.
  assert (START : exists m1, runs w (if p mod 4 =? 0 then pa TC0 else lbl (TC (p mod 4)) 0, m) (pa W, m1) /\
    get m1 (W + 82) = fmask (8 * (p mod 4)) 8 /\ fld (get m1 (W + 87)) (8 * (p mod 4)) 8 = x mod 256 /\
    forall c, idx (W + 82) <> idx c -> idx (W + 87) <> idx c -> idx (vc bv FNext) <> idx c -> idx (vc bv FDest) <> idx c -> get m1 c = get m c).
  { destruct (Z.eqb_spec (p mod 4) 0) as [Z0|Z0].
    - set (m1 := upd (upd (upd m (vc bv FNext) (pa W)) (vc bv FDest) (u32 (W + 87))) (W + 82) 0xFF).
      assert (VN : forall f g, f <> g -> idx (vc bv f) <> idx (vc bv g)) by (intros f g Hf Q; apply (wo_sep w Hw) in Q; auto; apply Hf, Q).
      assert (VS : forall f c, In c bw_ccells -> idx (vc bv f) <> idx c) by (intros; apply Hsepv; assumption).
      assert (SV : forall f c, In c bw_ccells -> idx c <> idx (vc bv f)) by (intros; apply not_eq_sym, Hsepv; assumption).
      assert (I82 : In (W + 82) bw_ccells) by (cbn; tauto). assert (I87 : In (W + 87) bw_ccells) by (cbn; tauto).
      assert (R1 : runs w (pa TC0, m) (pa bv, m1)).
      { eapply run_true; [exact PC0|reflexivity|apply conds_nil| |cbn [rd]; apply u32_pa].
        apply do_cons_M; [apply (wo_plain w Hw); auto|apply (wo_prot w Hw); auto|]. cbn [do_mod]. rewrite u32_pa.
        apply do_cons_M; [apply (wo_plain w Hw); auto|apply (wo_prot w Hw); auto|]. cbn [do_mod].
        apply do_cons_M; [apply Hcells; cbn; tauto|apply Hcells; cbn; tauto|]. cbn [do_mod]. change (u32 0xFF) with 0xFF. fold m1. apply do_nil. }
      assert (Hop := hop w Hw m1 bv (W + 87) SetTo (pa W) Hbv).
      assert (E1 : get m1 (vc bv FMask) = 0xFFFFFFFF) by (unfold m1; rewrite !get_upd_ne by (auto; apply VN; discriminate); exact O1).
      assert (E2 : get m1 (vc bv FVal) = x) by (unfold m1; rewrite !get_upd_ne by (auto; apply VN; discriminate); reflexivity).
      rewrite E1, E2, wset_full in Hop by (try exact Rx; apply get_range).
      exists (upd m1 (W + 87) x). split; [|split; [|split]].
      + eapply steps_trans; [exact R1|]. apply Hop.
        * unfold m1. rewrite !get_upd_ne by (auto; apply VN; discriminate). exact O2.
        * unfold m1. rewrite get_upd_ne by auto. rewrite get_upd_eq. apply u32_idem.
        * apply Hcells. exact I87.
        * intros f ->. auto.
        * unfold m1. rewrite get_upd_ne by auto. rewrite get_upd_ne by (apply VN; discriminate). rewrite get_upd_eq. apply u32_pa.
      + rewrite get_upd_ne by dd. unfold m1. rewrite get_upd_eq, Z0. reflexivity.
      + rewrite get_upd_eq, Z0, u32_small by exact Rx. unfold fld. change (2^(8*0)) with 1. rewrite Z.div_1_r. reflexivity.
      + intros c H1 H2 H3 H4. unfold m1. rewrite !get_upd_ne by assumption. reflexivity.
    - set (i := p mod 4) in *. assert (Hi : 1 <= i <= 3) by lia.
      set (m1 := upd m (W + 82) (fmask (8 * i) 8)).
      assert (R1 : runs w (lbl (TC i) 0, m) (lbl (TC i) 1, m1)).
      { eapply run_true; [exact (PCi i Hi 0%nat _ eq_refl)|reflexivity|apply conds_nil| |cbn [rd]; apply u32_lbl].
        apply do_cons_M; [apply Hcells; cbn; tauto|apply Hcells; cbn; tauto|]. cbn [do_mod]. replace i with (Z.of_nat (Z.to_nat i)) at 1 by lia. rewrite fmask8 by lia. rewrite Z2Nat.id by lia. apply do_nil. }
      assert (E2 : get m1 (vc bv FVal) = x) by (unfold m1; rewrite get_upd_ne; [reflexivity|apply not_eq_sym, Hsepv; cbn; tauto]).
      destruct (bit_sum i Hi x Rx 8 m1 ltac:(lia) E2) as (m2 & R2 & V & FR). cbn [Nat.eqb Nat.sub] in R2.
      exists m2. split; [eapply steps_trans; [exact R1|exact R2]|].
      assert (KM : 0 <= fmask (8 * i) 8 < 2^32) by (replace i with (Z.of_nat (Z.to_nat i)) by lia; rewrite <- fmask8 by lia; apply u32_range).
      split; [|split].
      + rewrite FR by dd. unfold m1. rewrite get_upd_eq. apply u32_small, KM.
      + rewrite V. unfold m1. gt. rewrite HZ, Z.add_0_l. change (8 - Z.of_nat 8) with 0. rewrite Z.add_0_l. change (Z.of_nat 8) with 8.
        set (y := fld x 0 8). assert (Hy : y = x mod 256) by (unfold y, fld; change (2^0) with 1; rewrite Z.div_1_r; reflexivity).
        rewrite <- Z.shiftl_mul_pow2 by lia. replace (8 * i) with (8 * Z.of_nat (Z.to_nat i)) by lia. rewrite fld_shl by lia. rewrite Hy. apply Z.mod_mod. lia.
      + intros c H1 H2 _ _. rewrite FR by exact H2. unfold m1. apply get_upd_ne, H1. }
  destruct START as (m1 & R1 & K1 & V1 & F1).
  assert (VS : forall f c, In c bw_ccells -> idx (vc bv f) <> idx c) by (intros; apply Hsepv; assumption).
  destruct (from_write m1 p (get m1 (W + 87))) as (m' & R3 & W3 & Z3 & PU & FR); auto.
  - split; rewrite F1 by (first [dd | apply VS; cbn; tauto]); assumption.
  - exists m'. split; [|split; [exact W3|split; [exact Z3|split]]].
    + eapply steps_trans; [exact R1|]. rewrite <- (F1 (F + 1)) by (first [dd | apply VS; cbn; tauto]). exact R3.
    + intros q Hq. rewrite PU by (intros c Hc; apply Hq; right; right; exact Hc). destruct (Z.eq_dec (u32 q) (u32 p)); [exact V1|].
      unfold byte. rewrite F1 by (apply Hq; cbn; tauto). reflexivity.
    + intros c Hc Hne. rewrite FR; [|intros x0 Hx0; apply Hc; right; right; exact Hx0|exact Hne]. apply F1; apply Hc; cbn; tauto.
Qed.
End Wtr.

(* ---------- f_strlen_epd ---------- *)
Section Len.
Variable w : world.
Hypothesis Hw : world_ok w.
Variables (T B : nat -> Z) (Eend epd subp ret : Z).
Hypothesis Hepd : In epd (W_vars w).
Hypothesis Hsub : In subp (W_vars w).
Hypothesis Hret : In ret (W_vars w).
Definition sl_cells : list Z := [sl_jump T; B 0%nat + 1; B 1%nat + 1; B 2%nat + 1; B 3%nat + 1; CPcell; vc epd FNext; vc epd FDest; vc ret FVal].
Definition sl_kept : list Z := [vc epd FMod; vc epd FMask; vc epd FVal; vc subp FVal].
Hypothesis Hcells : forall c, In c sl_cells -> writable w c.
Hypothesis Hnd : NoDup (map idx (sl_cells ++ sl_kept)).
Hypothesis PE : forall i, (i < 4)%nat -> W_P w (lbl T i) = Some (sl_enter T B Eend subp i).
Hypothesis PG : W_P w (lbl T 4) = Some (sl_go T epd ret).
Hypothesis PB : forall i, (i < 4)%nat -> W_P w (pa (B i)) = Some (sl_byte B Eend ret i).

Lemma B_in i : (i < 4)%nat -> In (B i + 1) sl_cells.
Proof. intros. destruct i as [|[|[|[|i]]]]; try lia; cbn; tauto. Qed.
Lemma B_ne i j : (i < 4)%nat -> (j < 4)%nat -> i <> j -> idx (B i + 1) <> idx (B j + 1).
Proof.
  intros Hi Hj N. apply (nd_ne _ (S i) (S j) (B i + 1) (B j + 1) Hnd); [| |lia].
  - destruct i as [|[|[|[|i]]]]; try lia; reflexivity.
  - destruct j as [|[|[|[|j]]]]; try lia; reflexivity.
Qed.
Lemma B_out i c : (i < 4)%nat -> In c [CPcell; vc epd FNext; vc epd FDest; vc ret FVal; vc epd FMod; vc epd FMask; vc epd FVal; vc subp FVal; sl_jump T] -> idx (B i + 1) <> idx c.
Proof.
  intros Hi Hc. pose proof Hnd as ND. unfold sl_cells, sl_kept in ND; cbn [app] in ND.
  destruct i as [|[|[|[|i]]]]; try lia; cbn [In] in Hc; decompose [or] Hc; subst; try contradiction; dd.
Qed.
Lemma byte_cond m p : get m CPcell = u32 (p / 4 - 0x58A364 / 4) ->
  conds_are m [CondDX (Imm 13) AtLeast (Imm 1) (Imm (Z.shiftl 0xFF (8 * Z.of_nat (Z.to_nat (p mod 4)))))] (negb (byte m p =? 0)).
Proof.
  intros H. pose proof (Z.mod_pos_bound p 4). pose proof (conds_cp m AtLeast 1 (Z.shiftl 0xFF (8 * Z.of_nat (Z.to_nat (p mod 4))))) as Cd.
  rewrite fmask8 in Cd by lia. rewrite Z2Nat.id in Cd by lia. rewrite H, get_u32, land_fmask in Cd by lia. cbn [do_cmp] in Cd. change (u32 1) with 1 in Cd.
  rewrite Z2Nat.id by lia. replace (negb (byte m p =? 0)) with (1 <=? fld (get m (p / 4 - 5808996 / 4)) (8 * (p mod 4)) 8 * 2 ^ (8 * (p mod 4))); [exact Cd|].
  pose proof (byte_range m p) as Rb. unfold byte in *. set (f := fld _ _ _) in *. assert (0 < 2^(8 * (p mod 4))) by (apply Z.pow_pos_nonneg; lia).
  destruct (Z.eqb_spec f 0) as [->|N]; cbn [negb]; [reflexivity|]. apply Z.leb_le. nia.
Qed.
Lemma sl_loop : forall k m p, get m CPcell = u32 (p / 4 - 0x58A364 / 4) -> get m (B (Z.to_nat (p mod 4)) + 1) = u32 Eend ->
  (forall i, (i <= k)%nat -> out sl_cells ((p + Z.of_nat i) / 4 - 0x58A364 / 4)) ->
  (forall i, (i < k)%nat -> byte m (p + Z.of_nat i) <> 0) -> byte m (p + Z.of_nat k) = 0 ->
  exists m', runs w (pa (B (Z.to_nat (p mod 4))), m) (u32 Eend, m') /\ get m' (vc ret FVal) = u32 (get m (vc ret FVal) + Z.of_nat k) /\
    forall c, out sl_cells c -> get m' c = get m c.
Proof.
  pose proof Hnd as ND. unfold sl_cells, sl_kept in ND; cbn [app] in ND.
  induction k as [|k IH]; intros m p Hc Hn Ho Hb Hz; pose proof (Z.mod_pos_bound p 4) as Pm;
    pose proof (byte_cond m p Hc) as Cd; set (i := Z.to_nat (p mod 4)) in *; assert (Hi : (i < 4)%nat) by lia.
  - rewrite Z.add_0_r in Hz. rewrite Hz in Cd. cbn [Z.eqb negb] in Cd. exists m. split; [|split; [|auto]].
    + eapply run_false; [exact (PB i Hi)|reflexivity|exact Cd|]. cbn [rd]. exact Hn.
    + rewrite Z.add_0_r. symmetry. apply u32_get.
  - pose proof (Hb 0%nat ltac:(lia)) as B0. rewrite Z.add_0_r in B0. replace (byte m p =? 0) with false in Cd by lia. cbn [negb] in Cd.
    set (j := ((i + 1) mod 4)%nat). assert (Hj : (j < 4)%nat) by (apply Nat.mod_upper_bound; lia).
    assert (Nij : i <> j) by (unfold j; clear - Hi; destruct i as [|[|[|[|i]]]]; cbn; lia).
    assert (Qj : Z.to_nat ((p + 1) mod 4) = j).
    { destruct (succ_split p) as [_ ->]. unfold j, i. rewrite <- (Nat2Z.id ((Z.to_nat (p mod 4) + 1) mod 4)). f_equal. rewrite Nat2Z.inj_mod. f_equal. lia. }
    set (m1 := upd (upd (upd m (B i + 1) (pa (B j))) (B j + 1) (u32 Eend)) (vc ret FVal) (u32 (get m (vc ret FVal) + 1))).
    set (e := p / 4 - 0x58A364 / 4) in *.
    set (m2 := if Nat.eqb i 3 then upd m1 CPcell (u32 (e + 1)) else m1).
    assert (R1 : runs w (pa (B i), m) (pa (B j), m2)).
    { eapply run_true; [exact (PB i Hi)|reflexivity|exact Cd| |].
      - apply do_cons_M; [apply Hcells, B_in, Hi|apply Hcells, B_in, Hi|]. cbn [do_mod]. rewrite u32_pa. fold j.
        apply do_cons_M; [apply Hcells, B_in, Hj|apply Hcells, B_in, Hj|]. cbn [do_mod].
        apply do_cons_M; [apply Hcells; cbn; tauto|apply Hcells; cbn; tauto|]. cbn [do_mod]. change (u32 1) with 1.
        rewrite !(get_upd_ne _ _ (vc ret FVal)) by (apply B_out; cbn; tauto). fold m1. unfold m2. destruct (Nat.eqb i 3); [|apply do_nil].
        apply do_cons_M; [apply Hcells; cbn; tauto|apply Hcells; cbn; tauto|]. cbn [do_mod]. change (u32 1) with 1.
        replace (u32 (get m1 CPcell + 1)) with (u32 (e + 1)); [apply do_nil|].
        unfold m1. rewrite !get_upd_ne by (first [dd | apply B_out; cbn; tauto]). rewrite Hc, u32_add_l. reflexivity.
      - cbn [rd]. assert (G : get m1 (B i + 1) = pa (B j)).
        { unfold m1. rewrite get_upd_ne by (apply not_eq_sym, B_out; cbn; tauto). rewrite get_upd_ne by (apply B_ne; auto). rewrite get_upd_eq. apply u32_pa. }
        unfold m2. destruct (Nat.eqb i 3); [rewrite get_upd_ne by (apply not_eq_sym, B_out; cbn; tauto)|]; exact G. }
    assert (FR : forall c, out sl_cells c -> get m2 c = get m c).
    { intros c Hcc. unfold m2, m1. pose proof (Hcc _ (B_in i Hi)). pose proof (Hcc _ (B_in j Hj)).
      destruct (Nat.eqb i 3); rewrite ?(get_upd_ne _ CPcell) by (apply Hcc; cbn; tauto); rewrite get_upd_ne by (apply Hcc; cbn; tauto); rewrite !get_upd_ne by assumption; reflexivity. }
    assert (FB : forall q, (q <= S k)%nat -> byte m2 (p + Z.of_nat q) = byte m (p + Z.of_nat q)) by (intros q Hq; unfold byte; rewrite FR by (apply Ho, Hq); reflexivity).
    destruct (IH m2 (p + 1)) as (m' & R2 & V & FR2).
    + destruct (succ_split p) as [-> _]. unfold m2. destruct (Nat.eqb_spec i 3) as [Q|Q].
      * rewrite get_upd_eq, u32_idem. replace (p mod 4 =? 3) with true by lia. f_equal. unfold e. lia.
      * replace (p mod 4 =? 3) with false by lia. unfold m1. rewrite !get_upd_ne by (first [dd | apply B_out; cbn; tauto]). exact Hc.
    + rewrite Qj. unfold m2, m1. destruct (Nat.eqb i 3); rewrite ?(get_upd_ne _ CPcell) by (apply not_eq_sym, B_out; cbn; tauto);
        rewrite get_upd_ne by (apply not_eq_sym, B_out; cbn; tauto); rewrite get_upd_eq; apply u32_idem.
    + intros q Hq. specialize (Ho (S q) ltac:(lia)). replace (p + 1 + Z.of_nat q) with (p + Z.of_nat (S q)) by lia. exact Ho.
    + intros q Hq. replace (p + 1 + Z.of_nat q) with (p + Z.of_nat (S q)) by lia. rewrite FB by lia. apply Hb. lia.
    + replace (p + 1 + Z.of_nat k) with (p + Z.of_nat (S k)) by lia. rewrite FB by lia. exact Hz.
    + rewrite Qj in R2. exists m'. split; [eapply steps_trans; eauto|]. split; [|intros c Hcc; rewrite FR2 by exact Hcc; apply FR, Hcc].
      rewrite V. assert (G : get m2 (vc ret FVal) = u32 (get m (vc ret FVal) + 1)).
      { unfold m2. destruct (Nat.eqb i 3); [rewrite get_upd_ne by dd|]; unfold m1; rewrite get_upd_eq; apply u32_idem. }
      rewrite G, u32_add_l. f_equal. lia.
Qed.
(* _strlen_epd counts the bytes before the first NUL, for a string that starts
   at any of the four bytes of a dword; the triggers from the entry to loopend,
   after which f_setcurpl2cpcache follows (C47) *)
Definition ent (i : nat) (m : mem) : mem :=
  if Z.land (get m (vc subp FVal)) 3 =? Z.of_nat i then upd (upd m (sl_jump T) (pa (B i))) (B i + 1) (u32 Eend) else m.
Lemma ent_run i m : (i < 4)%nat -> runs w (lbl T i, m) (lbl T (S i), ent i m).
Proof.
  intros Hi. unfold ent. eapply run_cond with (b := Z.land (get m (vc subp FVal)) 3 =? Z.of_nat i); [exact (PE i Hi)|reflexivity| | | |cbn [rd]; apply u32_lbl].
  - eapply conds_cons_gen with (a := vc subp FVal) (cm := Exactly) (k := 3) (n := Z.of_nat i) (x := Z.land (get m (vc subp FVal)) 3 =? Z.of_nat i);
      unfold CondMX, CondDX; cbn [c_w3 c_w4 c_player c_mask c_amount rd]; auto.
    + apply (wo_plain w Hw); auto.
    + apply u32_small. lia.
    + intros ->. apply conds_nil.
  - intros Q. rewrite Q. apply do_cons_M; [apply Hcells; cbn; tauto|apply Hcells; cbn; tauto|]. cbn [do_mod]. rewrite u32_pa.
    apply do_cons_M; [apply Hcells, B_in, Hi|apply Hcells, B_in, Hi|]. cbn [do_mod]. apply do_nil.
  - intros Q. rewrite Q. reflexivity.
Qed.
Theorem C28_strlen : forall m p k,
  get m (vc epd FVal) = u32 (p / 4 - 0x58A364 / 4) -> get m (vc subp FVal) mod 4 = p mod 4 ->
  ordinary m epd -> get m (vc epd FMod) = w6 SetTo ->
  (forall i, (i <= k)%nat -> out sl_cells ((p + Z.of_nat i) / 4 - 0x58A364 / 4)) ->
  (forall i, (i < k)%nat -> byte m (p + Z.of_nat i) <> 0) -> byte m (p + Z.of_nat k) = 0 ->
  exists m', runs w (lbl T 0, m) (u32 Eend, m') /\ get m' (vc ret FVal) = u32 (Z.of_nat k) /\
    forall c, out sl_cells c -> get m' c = get m c.
Proof.
  intros m p k He Hs [O1 _] O2 Ho Hb Hz. pose proof Hnd as ND. unfold sl_cells, sl_kept in ND; cbn [app] in ND.
  pose proof (Z.mod_pos_bound p 4) as Pm. set (i := Z.to_nat (p mod 4)). assert (Hi : (i < 4)%nat) by lia.
  set (e := p / 4 - 0x58A364 / 4) in *.
  set (m1 := ent 3 (ent 2 (ent 1 (ent 0 m)))).
  assert (R1 : runs w (lbl T 0, m) (lbl T 4, m1)).
  { eapply steps_trans; [apply (ent_run 0); lia|]. eapply steps_trans; [apply (ent_run 1); lia|]. eapply steps_trans; [apply (ent_run 2); lia|]. apply (ent_run 3); lia. }
  assert (Hm1 : m1 = upd (upd m (sl_jump T) (pa (B i))) (B i + 1) (u32 Eend)).
  { assert (S0 : Z.land (get m (vc subp FVal)) 3 = Z.of_nat i) by (change 3 with (Z.ones 2); rewrite Z.land_ones by lia; change (2^2) with 4; lia).
    assert (Cno : forall j x, get x (vc subp FVal) = get m (vc subp FVal) -> j <> i -> ent j x = x) by (intros j x Hx Hn; unfold ent; rewrite Hx; replace (_ =? Z.of_nat j) with false by lia; reflexivity).
    assert (Cy : ent i m = upd (upd m (sl_jump T) (pa (B i))) (B i + 1) (u32 Eend)) by (unfold ent; replace (_ =? Z.of_nat i) with true by lia; reflexivity).
    assert (Sy : get (ent i m) (vc subp FVal) = get m (vc subp FVal)).
    { rewrite Cy. rewrite get_upd_ne by (apply B_out; [exact Hi|cbn; tauto]). apply get_upd_ne. dd. }
    rewrite <- Cy. unfold m1. clearbody i. destruct i as [|[|[|[|k']]]]; try lia.
    - rewrite (Cno 1%nat), (Cno 2%nat), (Cno 3%nat) by (auto; lia). reflexivity.
    - rewrite (Cno 0%nat) by (auto; lia). rewrite (Cno 2%nat), (Cno 3%nat) by (auto; lia). reflexivity.
    - rewrite (Cno 0%nat), (Cno 1%nat) by (auto; lia). rewrite (Cno 3%nat) by (auto; lia). reflexivity.
    - rewrite (Cno 0%nat), (Cno 1%nat), (Cno 2%nat) by (auto; lia). reflexivity. }
  set (m2 := upd (upd (upd m1 (vc epd FNext) (pa (B i))) (vc epd FDest) (u32 CPcell)) (vc ret FVal) 0).
  assert (R2 : runs w (lbl T 4, m1) (pa epd, m2)).
  { eapply run_true; [exact PG|reflexivity|apply conds_nil| |cbn [rd]; apply u32_pa].
    eapply do_cons_D with (a := vc epd FNext); [reflexivity|apply Hcells; cbn; tauto|apply Hcells; cbn; tauto|].
    assert (rd m1 (Mem (sl_jump T)) = pa (B i)) as ->.
    { cbn [rd]. rewrite Hm1. rewrite get_upd_ne by (apply B_out; [exact Hi|cbn; tauto]). rewrite get_upd_eq. apply u32_pa. }
    cbn [do_mod]. do 2 (apply do_cons_M; [apply Hcells; cbn; tauto|apply Hcells; cbn; tauto|]; cbn [do_mod]). change (u32 0) with 0. apply do_nil. }
  assert (G1 : forall c, In c [CPcell; vc epd FNext; vc epd FDest; vc ret FVal; vc epd FMod; vc epd FMask; vc epd FVal] -> get m1 c = get m c).
  { intros c Hc. rewrite Hm1. rewrite get_upd_ne by (apply B_out; [exact Hi|cbn [In] in *; tauto]). apply get_upd_ne. cbn [In] in Hc. decompose [or] Hc; subst; try contradiction; dd. }
  set (m3 := upd m2 CPcell (u32 e)).
  assert (R3 : runs w (pa epd, m2) (pa (B i), m3)).
  { pose proof (hop w Hw m2 epd CPcell SetTo (pa (B i)) Hepd) as Hop.
    assert (E1 : get m2 (vc epd FMask) = 0xFFFFFFFF) by (unfold m2; gt; rewrite G1 by (cbn; tauto); exact O1).
    assert (E2 : get m2 (vc epd FVal) = u32 e) by (unfold m2; gt; rewrite G1 by (cbn; tauto); exact He).
    rewrite E1, E2, wset_full in Hop by (try apply get_range; apply u32_range). apply Hop.
    - unfold m2. gt. rewrite G1 by (cbn; tauto). exact O2.
    - unfold m2. gt. reflexivity.
    - apply Hcells; cbn; tauto.
    - intros f ->. dd.
    - unfold m2. gt. reflexivity. }
  assert (F3 : forall c, out sl_cells c -> get m3 c = get m c).
  { intros c Hc. unfold m3, m2. rewrite !get_upd_ne by (apply Hc; cbn; tauto). rewrite Hm1. rewrite get_upd_ne by (apply Hc, B_in, Hi). apply get_upd_ne. apply Hc. cbn; tauto. }
  destruct (sl_loop k m3 p) as (m' & R4 & V & F4).
  - unfold m3. rewrite get_upd_eq. apply u32_idem.
  - fold i. unfold m3, m2. rewrite !get_upd_ne by (apply not_eq_sym, B_out; [exact Hi|cbn; tauto]). rewrite Hm1, get_upd_eq. apply u32_idem.
  - exact Ho.
  - intros q Hq. unfold byte. rewrite F3 by (apply Ho; lia). apply Hb, Hq.
  - unfold byte. rewrite F3 by (apply Ho; lia). exact Hz.
  - exists m'. split; [|split].
    + eapply steps_trans; [exact R1|]. eapply steps_trans; [exact R2|]. eapply steps_trans; [exact R3|exact R4].
    + rewrite V. unfold m3, m2. gt. reflexivity.
    + intros c Hc. rewrite F4 by exact Hc. apply F3, Hc.
Qed.
End Len.

(* ---------- concrete instances ---------- *)
Lemma ex_writable n code e : u32 e <> 13 -> special (u32 e) = false -> writable (exworld n code) e.
Proof. intros H1 H2. split; [split; assumption|reflexivity]. Qed.
Lemma exb_writable n code l : forallb (fun e => negb (u32 e =? 13) && negb (special (u32 e))) l = true -> forall c, In c l -> writable (exworld n code) c.
Proof.
  intros H c Hc. rewrite forallb_forall in H. specialize (H c Hc). apply andb_true_iff in H as [H1 H2]. apply ex_writable; [|destruct (special (u32 c)); [discriminate|reflexivity]].
  intros Q. rewrite Q in H1. discriminate.
Qed.
Lemma exb_out X a : forallb (fun c => negb (idx c =? idx a)) X = true -> out X a.
Proof. intros H c Hc Q. rewrite forallb_forall in H. specialize (H c Hc). rewrite Q, Z.eqb_refl in H. discriminate. Qed.
Fixpoint nodupb (l : list Z) : bool := match l with [] => true | x :: r => negb (existsb (Z.eqb x) r) && nodupb r end.
Lemma exb_nodup l : nodupb l = true -> NoDup l.
Proof.
  induction l as [|x l IH]; intros H; [constructor|]. cbn [nodupb] in H. apply andb_true_iff in H as [H1 H2]. constructor; [|apply IH, H2].
  intros Hx. assert (existsb (Z.eqb x) l = true) as K by (apply existsb_exists; exists x; split; [exact Hx|apply Z.eqb_refl]). rewrite K in H1. discriminate.
Qed.
Ltac exw := apply exb_writable; vm_compute; reflexivity.
Ltac exnd := apply exb_nodup; vm_compute; reflexivity.
Ltac exout := apply exb_out; vm_compute; reflexivity.

(* the length of "ab" starting in the last byte of a dword *)
Definition ex_sT (i : nat) : Z := exT i.
Definition ex_sB (i : nat) : Z := exT (5 + i).
Definition ex_sv (i : nat) : Z := vb_var 1000 i.
Definition ex_scode : list trig := map (sl_enter ex_sT ex_sB 77 (ex_sv 1)) (seq 0 4) ++ [sl_go ex_sT (ex_sv 0) (ex_sv 2)] ++ map (sl_byte ex_sB 77 (ex_sv 2)) (seq 0 4).
Definition ex_sm : mem := upd (upd (exmem 3 [300000; 3; 99]) 300000 0x61000000) 300001 0x55440062.
Example C28_strlen_example : exists m', runs (exworld 3 ex_scode) (lbl ex_sT 0, ex_sm) (77, m') /\ get m' (vc (ex_sv 2) FVal) = 2.
Proof.
  assert (PL : placed (exworld 3 ex_scode) exT 0 ex_scode) by (apply exworld_placed; vm_compute; reflexivity).
  destruct (C28_strlen (exworld 3 ex_scode)) with (T := ex_sT) (B := ex_sB) (Eend := 77) (epd := ex_sv 0) (subp := ex_sv 1) (ret := ex_sv 2) (m := ex_sm) (p := 0x58A364 + 4 * 300000 + 3) (k := 2%nat) as (m' & R & V & _).
  - apply exworld_ok. reflexivity.
  - vm_compute. auto.
  - vm_compute. auto.
  - unfold sl_cells. exw.
  - exnd.
  - intros i Hi. apply (PL i). do 4 (destruct i as [|i]; [reflexivity|]). lia.
  - apply (PL 4%nat). reflexivity.
  - intros i Hi. apply (PL (5 + i)%nat). do 4 (destruct i as [|i]; [reflexivity|]). lia.
  - vm_compute. reflexivity.
  - vm_compute. reflexivity.
  - split; vm_compute; reflexivity.
  - vm_compute. reflexivity.
  - intros i Hi. do 3 (destruct i as [|i]; [unfold sl_cells; exout|]). lia.
  - intros i Hi. do 2 (destruct i as [|i]; [vm_compute; discriminate|]). lia.
  - vm_compute. reflexivity.
  - exists m'. split; [exact R|exact V].
Qed.

(* writing the constant byte 0x1FE in the last byte of a dword *)
Definition ex_wK (i : nat) : Z := exT (3 + i).
Definition ex_wcode : list trig := [bw_write (exT 0) (exT 1) 200000; bw_wrap (exT 0) (exT 2) 200000; bw_end (exT 2)] ++ map (bw_const (exT 0) 200000 ex_wK) (seq 0 4) ++ [bw_call (exT 2) ex_wK 0x1FE 77].
Definition ex_wm : mem := upd (upd (upd (fun _ => 0) 300000 0x11223344) 200000 3) (exT 0 + 86) 300000.
Example C28_writebyte_example : exists m', runs (exworld 0 ex_wcode) (pa (exT 7), ex_wm) (77, m') /\ byte m' (0x58A364 + 4 * 300000 + 3) = 0xFE /\ byte m' (0x58A364 + 4 * 300000 + 2) = 0x22 /\ get m' 200000 = 0 /\ get m' (exT 0 + 86) = 300001.
Proof.
  assert (PL : placed (exworld 0 ex_wcode) exT 0 ex_wcode) by (apply exworld_placed; vm_compute; reflexivity).
  destruct (C28_writebyte_const (exworld 0 ex_wcode)) with (W := exT 0) (W2 := exT 1) (F := exT 2) (sub := 200000) (K := ex_wK) (T := exT 7) (byt := 0x1FE) (nextptr := 77) (m := ex_wm) (p := 0x58A364 + 4 * 300000 + 3) as (m' & R & [V1 V2] & B & _).
  - unfold bw_ccells, bw_cells. exw.
  - exnd.
  - apply (PL 0%nat). reflexivity.
  - apply (PL 1%nat). reflexivity.
  - apply (PL 2%nat). reflexivity.
  - intros i Hi. apply (PL (3 + i)%nat). do 4 (destruct i as [|i]; [reflexivity|]). lia.
  - apply (PL 7%nat). reflexivity.
  - split; vm_compute; reflexivity.
  - unfold bw_ccells, bw_cells. exout.
  - apply ex_writable; [vm_compute; discriminate|vm_compute; reflexivity].
  - exists m'. split; [exact R|]. split; [|split; [|split]].
    + rewrite B by (unfold bw_ccells, bw_cells; exout). vm_compute. reflexivity.
    + rewrite B by (unfold bw_ccells, bw_cells; exout). vm_compute. reflexivity.
    + rewrite V2. reflexivity.
    + rewrite V1. reflexivity.
Qed.

(* reading bytes and copying dwords with the initial read table *)
Definition ex_bqs : list req := RGet 0xFFFFFFFF 0 :: map (fun i => RGet (fmask (8 * i) 8) (- (8 * i))) [0; 1; 2; 3].
Notation ex_bt := (snd (history ex_bqs)).
Definition ex_blen : nat := 9.
Definition ex_bA (l : nat) : Z := exT (ex_blen + l).
Definition ex_bE : Z := exT (ex_blen + length (rt_trigs ex_bt)).
Definition ex_bans (i : nat) : nat := match nth_error (fst (history ex_bqs)) i with Some (Some l) => l | _ => 0%nat end.
Definition ex_bC (i : nat) : Z := exT (5 + i).
Definition ex_bhead : list trig :=
  [rep_head ex_bE (exT 1) (exT 2) (ex_sv 0) (pa (ex_bA (ex_bans 0))) 77; rep_loop (exT 1) (ex_sv 0); rep_cont ex_bE (exT 1);
   br_call ex_bE (exT 4) (ex_sv 0) 78 250000; br_read (exT 4)] ++ map (br_case (exT 4) ex_bC (fun j => pa (ex_bA (ex_bans (S j))))) (seq 0 4).
Definition ex_bcode : list trig := ex_bhead ++ map (rtrig ex_bE ex_bA) (rt_trigs ex_bt) ++ [read_end ex_bE].
Definition ex_bw : world := exworld 1 ex_bcode.
Lemma ex_bE_val : ex_bE = 100000 + 602 * (9 + Z.of_nat (length (rt_trigs ex_bt))).
Proof. vm_compute. reflexivity. Qed.
Lemma ex_bplaced : placed ex_bw exT 0 ex_bcode.
Proof. apply exworld_placed; vm_compute; reflexivity. Qed.
Lemma ex_bpre i t : nth_error ex_bhead i = Some t -> W_P ex_bw (pa (exT i)) = Some t.
Proof.
  intros H. apply (ex_bplaced i). unfold ex_bcode. rewrite nth_error_app1; [exact H|]. apply nth_error_Some. congruence.
Qed.
Lemma ex_btab : table_placed ex_bw ex_bE ex_bA ex_bt.
Proof.
  assert (LEN : length ex_bhead = ex_blen) by reflexivity. pose proof ex_bplaced as PL. split.
  + intros l x Hl. apply (PL (ex_blen + l)%nat). unfold ex_bcode.
    rewrite <- LEN, nth_error_app2 by lia. replace (length ex_bhead + l - length ex_bhead)%nat with l by lia.
    assert (l < length (rt_trigs ex_bt))%nat by (apply nth_error_Some; congruence).
    rewrite nth_error_app1 by (rewrite map_length; lia). apply map_nth_error, Hl.
  + apply (PL (ex_blen + length (rt_trigs ex_bt))%nat). unfold ex_bcode.
    rewrite <- LEN, nth_error_app2 by lia. replace (length ex_bhead + length (rt_trigs ex_bt) - length ex_bhead)%nat with (length (rt_trigs ex_bt)) by lia.
    rewrite nth_error_app2 by (rewrite map_length; lia). rewrite map_length, Nat.sub_diag. reflexivity.
Qed.
Lemma ex_bok : tab_ok ex_bt.
Proof. apply (C26_history ex_bqs 0 (RGet 0xFFFFFFFF 0) (ex_bans 0)); vm_compute; reflexivity. Qed.
Definition ex_bm : mem := upd (upd (upd (upd (exmem 1 [5]) (cr_mod ex_bE) (w6 SetTo)) 300000 0xA1A2A3A4) 300001 0xB1B2B3B4) 300002 0xC1C2C3C4.
(* three dwords from 300000 to 310000 *)
Definition ex_rm : mem := upd (upd (upd ex_bm (rep_cnt (exT 1)) 3) (cr_dest ex_bE) 310000) CPcell 300000.
Example C28_repmovsd_example : exists m', runs ex_bw (pa (exT 0), ex_rm) (77, m') /\ get m' 310000 = 0xA1A2A3A4 /\ get m' 310001 = 0xB1B2B3B4 /\ get m' 310002 = 0xC1C2C3C4 /\ get m' CPcell = 5.
Proof.
  destruct (C28_repmovsd ex_bw) with (E := ex_bE) (A := ex_bA) (t := ex_bt) (l := ex_bans 0) (L := exT 1) (Ct := exT 2) (cpc := ex_sv 0) (fend := 77) (T := exT 0) (m := ex_rm) (n := 3%nat) (d := 310000) (s := 300000) as (m' & R & V1 & _ & V2).
  - apply exworld_ok. reflexivity.
  - apply ex_bok.
  - apply ex_btab.
  - apply (C26_history ex_bqs 0 (RGet 0xFFFFFFFF 0) (ex_bans 0)); vm_compute; reflexivity.
  - vm_compute. auto.
  - unfold rep_cells. exw.
  - exnd.
  - apply ex_bpre. reflexivity.
  - apply ex_bpre. reflexivity.
  - apply ex_bpre. reflexivity.
  - vm_compute. reflexivity.
  - vm_compute. reflexivity.
  - vm_compute. reflexivity.
  - split; vm_compute; reflexivity.
  - split; vm_compute; reflexivity.
  - vm_compute. reflexivity.
  - intros i Hi. do 3 (destruct i as [|i]; [unfold rep_cells; exout|]). lia.
  - intros i Hi. do 3 (destruct i as [|i]; [split; [unfold rep_cells, rep_read; exout|apply ex_writable; [vm_compute; discriminate|vm_compute; reflexivity]]|]). lia.
  - exists m'. split; [exact R|]. rewrite !V2 by (unfold rep_cells; exout). rewrite V1. repeat split; vm_compute; reflexivity.
Qed.
(* the byte at the end of the first dword *)
Definition ex_dm : mem := upd (upd ex_bm (exT 4 + 87) 300000) (exT 4 + 1) (pa (exT 8)).
Example C28_readbyte_example : exists m', runs ex_bw (pa (exT 3), ex_dm) (78, m') /\ get m' 250000 = 0xA1 /\ get m' (exT 4 + 87) = 300001 /\ get m' CPcell = 5.
Proof.
  destruct (C28_readbyte ex_bw) with (E := ex_bE) (A := ex_bA) (t := ex_bt) (lb := fun i => ex_bans (S i)) (R := exT 4) (C := ex_bC) (cpc := ex_sv 0) (nexttrg := 78) (T := exT 3) (ret := 250000) (m := ex_dm) (p := 0x58A364 + 4 * 300000 + 3) as (m' & R & V1 & [V2 _] & V3 & _).
  - apply exworld_ok. reflexivity.
  - apply ex_bok.
  - apply ex_btab.
  - intros i Hi. apply (C26_history ex_bqs (S i) (RGet (fmask (8 * Z.of_nat i) 8) (- (8 * Z.of_nat i))) (ex_bans (S i))); do 4 (destruct i as [|i]; [vm_compute; reflexivity|]); lia.
  - vm_compute. auto.
  - unfold br_cells. exw.
  - exnd.
  - apply ex_bpre. reflexivity.
  - apply ex_bpre. reflexivity.
  - intros i Hi. apply (ex_bpre (5 + i)%nat). do 4 (destruct i as [|i]; [reflexivity|]). lia.
  - split; vm_compute; reflexivity.
  - split; vm_compute; reflexivity.
  - split; vm_compute; reflexivity.
  - vm_compute. reflexivity.
  - unfold br_cells. exout.
  - exists m'. split; [exact R|]. rewrite V1, V2, V3. repeat split; vm_compute; reflexivity.
Qed.
Print Assumptions C28_repmovsd.
Print Assumptions C28_readbyte.
Print Assumptions C28_writebyte_const.
Print Assumptions C28_writebyte_var_partial.
Print Assumptions C28_strlen.
