(* Property C27: byte and word access at sub-dword offsets. *)
From Coq Require Import ZArith Lia List Bool ZifyBool ZifyNat.
From Verif Require Import Word Machine MachineProofs VarModel VarSpec VarProofs OpsSpec OpsBase OpsModel OpsProofs OpsXor ReadModel PropRead BwModel VbufModel VbufWorld ExWorld SeqRefute ExTools.
Import ListNotations.
Open Scope Z_scope.

(* ---------- specification: fields of a dword, bytes of memory ---------- *)
Definition fld (x lo len : Z) : Z := (x / 2^lo) mod 2^len.
(* what a modifier does to a field of len bits *)
Definition fop (md : modifier) (len d v : Z) : Z :=
  match md with SetTo => v | Add => (d + v) mod 2^len | Subtract => Z.max 0 (d - v) end.
(* memory as bytes: byte p is byte p mod 4 of the dword at EPD p / 4 *)
Definition mbyte (m : mem) (p : Z) : Z := fld (get m (p / 4)) (8 * (p mod 4)) 8.

Lemma fld_bits x lo len j : 0 <= lo -> 0 <= len -> 0 <= j -> Z.testbit (fld x lo len) j = (j <? len) && Z.testbit x (lo + j).
Proof.
  intros Hlo Hlen Hj. unfold fld. rewrite <- Z.land_ones, <- Z.shiftr_div_pow2, Z.land_spec, Z.shiftr_spec by lia.
  rewrite Z.add_comm. destruct (Z.ltb_spec j len); [rewrite Z.ones_spec_low by lia; apply andb_true_r|rewrite Z.ones_spec_high by lia; apply andb_false_r].
Qed.
Definition fmask (lo len : Z) : Z := Z.shiftl (Z.ones len) lo.
Lemma fmask_bits lo len j : 0 <= lo -> 0 <= len -> 0 <= j -> Z.testbit (fmask lo len) j = (lo <=? j) && (j <? lo + len).
Proof.
  intros. unfold fmask. destruct (Z.leb_spec lo j); cbn [andb].
  - rewrite Z.shiftl_spec by lia. destruct (Z.ltb_spec j (lo + len)); [apply Z.ones_spec_low; lia|apply Z.ones_spec_high; lia].
  - apply Z.shiftl_spec_low; lia.
Qed.
Lemma land_fmask x lo len : 0 <= lo -> 0 <= len -> Z.land x (fmask lo len) = fld x lo len * 2^lo.
Proof.
  intros. rewrite <- Z.shiftl_mul_pow2 by lia. apply Z.bits_inj'. intros j Hj. rewrite Z.land_spec, fmask_bits by lia.
  destruct (Z.leb_spec lo j); cbn [andb].
  - rewrite Z.shiftl_spec, fld_bits by lia. replace (lo + (j - lo)) with j by lia. replace (j - lo <? len) with (j <? lo + len) by lia. apply andb_comm.
  - rewrite Z.shiftl_spec_low by lia. apply andb_false_r.
Qed.
Lemma fld_range x lo len : 0 <= len -> 0 <= fld x lo len < 2^len.
Proof. intros. apply Z.mod_pos_bound, Z.pow_pos_nonneg; lia. Qed.
(* the new dword: the field replaced by f, everything else kept *)
Lemma lor_field d k lo len f : 0 <= lo -> 0 <= len -> k = fmask lo len -> 0 <= f < 2^len ->
  let r := Z.lor (Z.ldiff d k) (Z.land (f * 2^lo) k) in
  fld r lo len = f /\ forall lo' len', 0 <= lo' -> 0 <= len' -> lo' + len' <= lo \/ lo + len <= lo' -> fld r lo' len' = fld d lo' len'.
Proof.
  intros Hlo Hlen -> Hf r. assert (B : forall j, 0 <= j -> Z.testbit r j = if (lo <=? j) && (j <? lo + len) then Z.testbit f (j - lo) else Z.testbit d j).
  { intros j Hj. unfold r. rewrite Z.lor_spec, Z.ldiff_spec, Z.land_spec, fmask_bits by lia. destruct ((lo <=? j) && (j <? lo + len)) eqn:Q.
    - rewrite andb_false_r, andb_true_r. cbn [orb]. rewrite Z.mul_pow2_bits by lia. reflexivity.
    - rewrite andb_true_r, andb_false_r. apply orb_false_r. }
  split.
  - apply Z.bits_inj'. intros j Hj. rewrite fld_bits, B by lia. destruct (Z.ltb_spec j len) as [L|G]; cbn [andb].
    + replace ((lo <=? lo + j) && (lo + j <? lo + len)) with true by lia. f_equal. lia.
    + symmetry. destruct (Z.eq_dec f 0) as [->|N]; [apply Z.bits_0|]. apply Z.bits_above_log2; [lia|]. apply Z.log2_lt_pow2; [lia|].
      eapply Z.lt_le_trans; [apply Hf|]. apply Z.pow_le_mono_r; lia.
  - intros lo' len' H1 H2 H3. apply Z.bits_inj'. intros j Hj. rewrite !fld_bits by lia. destruct (Z.ltb_spec j len') as [L|G]; cbn [andb]; [|reflexivity].
    rewrite B by lia. replace ((lo <=? lo' + j) && (lo' + j <? lo + len)) with false by lia. reflexivity.
Qed.
Lemma modx_field md d v lo len : 0 <= lo -> 0 <= len -> 0 <= d -> 0 <= v ->
  let r := do_modx md (fmask lo len) d v in
  fld r lo len = fop md len (fld d lo len) (fld v lo len) /\
  forall lo' len', 0 <= lo' -> 0 <= len' -> lo' + len' <= lo \/ lo + len <= lo' -> fld r lo' len' = fld d lo' len'.
Proof.
  intros Hlo Hlen Hd Hv. pose proof (fld_range d lo len Hlen) as Rd. pose proof (fld_range v lo len Hlen) as Rv.
  assert (P : 0 < 2^lo) by (apply Z.pow_pos_nonneg; lia). assert (PL : 0 < 2^len) by (apply Z.pow_pos_nonneg; lia).
  assert (L2 : forall x, Z.land (x * 2^lo) (fmask lo len) = Z.land ((x mod 2^len) * 2^lo) (fmask lo len)).
  { intros x. rewrite !land_fmask by lia. f_equal. unfold fld. rewrite !Z.div_mul by lia. rewrite Z.mod_mod by lia. reflexivity. }
  destruct md; cbn [do_modx fop]; unfold wset, wadd, wsub.
  - replace (Z.land v (fmask lo len)) with (Z.land (fld v lo len * 2^lo) (fmask lo len)); [apply lor_field; auto|].
    rewrite <- (land_fmask v) by lia. rewrite <- Z.land_assoc, Z.land_diag. reflexivity.
  - rewrite (land_fmask d), (land_fmask v) by lia. rewrite <- Z.mul_add_distr_r, L2. apply lor_field; auto. apply Z.mod_pos_bound, PL.
  - rewrite (land_fmask d), (land_fmask v) by lia. replace (Z.max 0 (fld d lo len * 2^lo - fld v lo len * 2^lo)) with (Z.max 0 (fld d lo len - fld v lo len) * 2^lo) by nia.
    apply lor_field; auto. lia.
Qed.
Lemma lane_mask n subp : 0 <= n -> 0 <= subp -> lane subp (nmask n) = fmask (8 * subp) (8 * n).
Proof. intros. unfold lane, nmask, fmask. rewrite Z.ones_equiv. reflexivity. Qed.
Lemma lane_fld n subp b : 0 <= n -> 0 <= subp -> subp + n <= 4 -> fld (u32 (lane subp b)) (8 * subp) (8 * n) = b mod 2^(8 * n).
Proof.
  intros. unfold lane. apply Z.bits_inj'. intros j Hj. rewrite fld_bits by lia. unfold u32. rewrite <- !Z.land_ones, !Z.land_spec by lia.
  destruct (Z.ltb_spec j (8 * n)); cbn [andb].
  - rewrite Z.shiftl_spec by lia. rewrite !Z.ones_spec_low by lia. f_equal. f_equal. lia.
  - rewrite (Z.ones_spec_high (8 * n)) by lia. symmetry. apply andb_false_r.
Qed.
Lemma mask_u32 n subp : 0 <= n -> 0 <= subp -> subp + n <= 4 -> u32 (lane subp (nmask n)) = fmask (8 * subp) (8 * n).
Proof.
  intros. rewrite lane_mask by lia. apply Z.bits_inj'. intros j Hj. unfold u32. rewrite <- Z.land_ones, Z.land_spec, fmask_bits by lia.
  destruct (Z.ltb_spec j 32); [rewrite Z.ones_spec_low by lia; apply andb_true_r|]. rewrite Z.ones_spec_high by lia. rewrite andb_false_r. lia.
Qed.

(* ---------- actions on the current player's dword ---------- *)
Lemma do_cons_cp_gen prot m c r m' md k v :
  rd m (a_w6 c) = w6 md -> act_off (rd m (a_w7 c)) = false -> rd m (a_dest c) = 13 ->
  prot (idx (get m CPcell)) = false -> eff_mask (rd m (a_mask c)) (rd m (a_w7 c)) = k -> rd m (a_val c) = v ->
  acts_do prot (upd m (get m CPcell) (do_modx md k (get m (get m CPcell)) v)) r m' ->
  acts_do prot m (c :: r) m'.
Proof.
  intros H6 H7 Hd Hpr Hk Hv [Hok Hex].
  assert (T13 : target m 13 (w6 md) = get m CPcell) by (rewrite target_w6; unfold target, player_base; cbn [Z.eqb Pos.eqb]; rewrite Z.mod_0_l, Z.mul_0_r, Z.add_0_r by lia; reflexivity).
  assert (Hx : exec_act m c = upd m (get m CPcell) (do_modx md k (get m (get m CPcell)) v)).
  { unfold exec_act. rewrite H6, H7, Hd, Hk, Hv, T13, w6_amod, apply_mod_x. reflexivity. }
  split.
  - right. split; [|rewrite Hx; exact Hok].
    unfold act_ok. rewrite H6, Hd, T13, w6_type, w6_amod.
    split; [reflexivity|]. intros _. split; [apply enc_mod_cases|]. split; [reflexivity|exact Hpr].
  - cbn [exec_acts]. rewrite H6, w6_type, Hx. exact Hex.
Qed.
Lemma do_cons_cp prot m md v k r m' : prot (idx (get m CPcell)) = false ->
  acts_do prot (upd m (get m CPcell) (do_modx md (rd m k) (get m (get m CPcell)) (rd m v))) r m' ->
  acts_do prot m (SetDX (Imm 13) md v k :: r) m'.
Proof.
  intros Hp H. eapply do_cons_cp_gen with (md := md) (k := rd m k) (v := rd m v); cbn [SetDX a_w6 a_w7 a_dest a_mask a_val rd]; auto; try reflexivity. apply w6_small.
Qed.
Lemma do_cons_cpD prot m md v r m' : prot (idx (get m CPcell)) = false -> 0 <= rd m v < 2^32 ->
  acts_do prot (upd m (get m CPcell) (do_mod md (get m (get m CPcell)) (rd m v))) r m' ->
  acts_do prot m (SetD (Imm 13) md v :: r) m'.
Proof.
  intros Hp Hv H. eapply do_cons_cp_gen with (md := md) (k := Z.ones 32) (v := rd m v); cbn [SetD a_w6 a_w7 a_dest a_mask a_val rd]; auto; try reflexivity; [apply w6_small|].
  rewrite do_modx_full by (auto using get_range). exact H.
Qed.
Lemma rd_range m o : 0 <= rd m o < 2^32.
Proof. destruct o; cbn [rd]; [apply u32_range|apply get_range]. Qed.

(* ---------- writing ---------- *)
(* only field (lo, len) of dword a changed; it has been operated on with x *)
Definition field_op (m m' : mem) (a lo len : Z) (md : modifier) (x : Z) : Prop :=
  fld (get m' a) lo len = fop md len (fld (get m a) lo len) x /\ (forall lo' len', 0 <= lo' -> 0 <= len' -> lo' + len' <= lo \/ lo + len <= lo' -> fld (get m' a) lo' len' = fld (get m a) lo' len') /\ (forall b, idx a <> idx b -> get m' b = get m b).
Lemma field_op_upd m a lo len md v : 0 <= lo -> 0 <= len -> lo + len <= 32 -> 0 <= v < 2^32 ->
  field_op m (upd m a (do_modx md (fmask lo len) (get m a) v)) a lo len md (fld v lo len).
Proof.
  intros H1 H2 H3 Hv. pose proof (get_range m a) as G. destruct (modx_field md (get m a) v lo len) as [A B]; try lia.
  assert (R : u32 (do_modx md (fmask lo len) (get m a) v) = do_modx md (fmask lo len) (get m a) v).
  { apply u32_small, do_modx_range; auto. unfold fmask. rewrite Z.shiftl_mul_pow2, Z.ones_equiv by lia.
    assert (1 <= 2^len) by (apply (Z.pow_le_mono_r 2 0); lia). assert (0 < 2^lo) by (apply Z.pow_pos_nonneg; lia).
    assert (2^(lo + len) <= 2^32) by (apply Z.pow_le_mono_r; lia). rewrite Z.pow_add_r in H4 by lia. nia. }
  split; [|split]; rewrite ?get_upd_eq, ?R; auto. intros b Hb. apply get_upd_ne, Hb.
Qed.
(* constant position and value *)
Theorem C27_const_op : forall w epd n subp b md m, writable w epd -> 0 <= n -> 0 <= subp -> subp + n <= 4 ->
  exists m', acts_do (W_prot w) m (const_acts n epd subp b md) m' /\   field_op m m' epd (8 * subp) (8 * n) md (b mod 2^(8 * n)).
Proof.
  intros w epd n subp b md m [Hp Hpr] Hn Hs Hns. eexists. split.
  - apply do_cons_DX with (a := epd); auto. apply do_nil.
  - cbn [rd]. rewrite mask_u32 by lia. rewrite <- (lane_fld n subp b) by lia. apply field_op_upd; try lia. apply u32_range.
Qed.
(* variable position and value: the case of the switch that is taken *)
Theorem C27_cp_op : forall w n subp b md x m, W_prot w (idx (get m CPcell)) = false -> 0 <= n -> 0 <= subp -> subp + n <= 4 ->
  rd m x = u32 (lane subp b) ->
  exists m', acts_do (W_prot w) m (cp_acts n subp md x) m' /\   field_op m m' (get m CPcell) (8 * subp) (8 * n) md (b mod 2^(8 * n)).
Proof.
  intros w n subp b md x m Hpr Hn Hs Hns Hx. eexists. split.
  - apply do_cons_cp; [exact Hpr|apply do_nil].
  - change (rd m (Imm ?z)) with (u32 z). rewrite Hx, mask_u32 by lia. rewrite <- (lane_fld n subp b) by lia. apply field_op_upd; try lia. apply u32_range.
Qed.
Lemma field_op_range n md d x : 0 <= n -> 0 <= d < 2^n -> 0 <= x < 2^n -> 0 <= fop md n d x < 2^n.
Proof. intros. destruct md; cbn [fop]; [lia|apply Z.mod_pos_bound; lia|lia]. Qed.

(* the same in terms of bytes of memory *)
Lemma mbyte_cong m p q : (p - q) mod 2^32 = 0 -> mbyte m p = mbyte m q.
Proof.
  intros H. unfold mbyte. apply Z.mod_divide in H; [|lia]. destruct H as [z H]. assert (p = q + z * 2^32) as -> by lia.
  replace (q + z * 2^32) with (q + (z * 2^30) * 4) by lia. rewrite Z.div_add, Z.mod_add by lia. f_equal. apply get_cong. unfold idx. rewrite Z.mod_add by lia. reflexivity.
Qed.
Lemma mbyte_in m a j : 0 <= j < 4 -> mbyte m (4 * a + j) = fld (get m a) (8 * j) 8.
Proof.
  intros. unfold mbyte. replace (4 * a + j) with (j + a * 4) by lia. rewrite Z.div_add, Z.mod_add by lia. rewrite Z.div_small, Z.mod_small by lia. reflexivity.
Qed.
Lemma fld_byte x lo len j : 0 <= lo -> 0 <= j -> 8 * j + 8 <= len -> fld x (lo + 8 * j) 8 = fld (fld x lo len) (8 * j) 8.
Proof.
  intros. apply Z.bits_inj'. intros i Hi. rewrite !fld_bits by lia. destruct (Z.ltb_spec i 8); cbn [andb]; [|reflexivity].
  replace (8 * j + i <? len) with true by lia. cbn [andb]. f_equal. lia.
Qed.
(* Writing n bytes of b at byte address q = 4 * a + subp: each byte of memory. *)
Theorem C27_bytes : forall m m' a n subp b, 0 <= n -> 0 <= subp -> subp + n <= 4 ->
  field_op m m' a (8 * subp) (8 * n) SetTo (b mod 2^(8 * n)) ->
  (forall i, 0 <= i < n -> mbyte m' (4 * a + subp + i) = (b / 2^(8 * i)) mod 256) /\ (forall p, (forall i, 0 <= i < n -> (p - (4 * a + subp + i)) mod 2^32 <> 0) -> mbyte m' p = mbyte m p).
Proof.
  intros m m' a n subp b Hn Hs Hns (F1 & F2 & F3). cbn [fop] in F1. split.
  - intros i Hi. replace (4 * a + subp + i) with (4 * a + (subp + i)) by lia. rewrite mbyte_in by lia.
    replace (8 * (subp + i)) with (8 * subp + 8 * i) by lia. rewrite (fld_byte _ (8 * subp) (8 * n) i) by lia. rewrite F1.
    unfold fld. apply Z.bits_inj'. intros j Hj. change 256 with (2^8). rewrite <- !Z.land_ones, !Z.land_spec, <- !Z.shiftr_div_pow2, !Z.shiftr_spec by lia.
    rewrite Z.land_spec. destruct (Z.ltb_spec j 8); [|rewrite !(Z.ones_spec_high 8) by lia; rewrite !andb_false_r; reflexivity].
    rewrite !(Z.ones_spec_low (8 * n)) by lia. rewrite andb_true_r. reflexivity.
  - intros p Hp. destruct (Z.eq_dec (idx a) (idx (p / 4))) as [E|E].
    + assert (Q : (p - (4 * a + p mod 4)) mod 2^32 = 0).
      { replace (p - (4 * a + p mod 4)) with (4 * (p / 4 - a)) by (pose proof (Z.div_mod p 4); lia). change (2^32) with (4 * 2^30).
        rewrite Zmult_mod_distr_l. unfold idx in E. rewrite Zminus_mod, <- E, Z.sub_diag. reflexivity. }
      rewrite !(mbyte_cong _ p _ Q). pose proof (Z.mod_pos_bound p 4 ltac:(lia)). rewrite !mbyte_in by lia. apply F2; try lia.
      destruct (Z.lt_ge_cases (p mod 4) subp) as [L|G]; [left; lia|]. destruct (Z.lt_ge_cases (p mod 4) (subp + n)) as [L|G']; [exfalso|right; lia].
      apply (Hp (p mod 4 - subp)); [lia|]. replace (4 * a + subp + (p mod 4 - subp)) with (4 * a + p mod 4) by lia. exact Q.
    + unfold mbyte. rewrite F3 by exact E. reflexivity.
Qed.
(* A word across two dwords: byte 3 of the dword a and byte 0 of the next one. *)
Theorem C27_wwrite3 : forall w x0 x1 b m, let a := get m CPcell in
  W_prot w (idx a) = false -> W_prot w (idx (a + 1)) = false -> writable w CPcell -> idx a <> idx CPcell -> idx (a + 1) <> idx CPcell ->
  rd m x0 = u32 (lane 3 (b mod 256)) ->
  (forall m2, (forall c, idx c <> idx a -> idx c <> idx CPcell -> get m2 c = get m c) -> rd m2 x1 = (b / 256) mod 256) ->
  exists m', acts_do (W_prot w) m (wwrite3_acts x0 x1) m' /\ get m' CPcell = a /\   mbyte m' (4 * a + 3) = b mod 256 /\ mbyte m' (4 * a + 4) = (b / 256) mod 256 /\   forall p, (p - (4 * a + 3)) mod 2^32 <> 0 -> (p - (4 * a + 4)) mod 2^32 <> 0 ->
      idx (p / 4) <> idx CPcell -> mbyte m' p = mbyte m p.
Proof.
  intros w x0 x1 b m a Ha Ha1 [Cp Cpr] Na Na1 Hx0 Hx1.
  set (m1 := upd m a (do_modx SetTo (u32 (lane 3 (nmask 1))) (get m a) (rd m x0))).
  assert (F1 : field_op m m1 a (8 * 3) (8 * 1) SetTo (b mod 2^(8 * 1))).
  { unfold m1. rewrite Hx0, mask_u32 by lia. replace (b mod 2^(8 * 1)) with (fld (u32 (lane 3 (b mod 256))) (8 * 3) (8 * 1)).
    - apply field_op_upd; try lia. apply u32_range.
    - rewrite lane_fld by lia. apply Z.mod_mod. lia. }
  set (m2 := upd m1 CPcell (do_mod Add (get m1 CPcell) (u32 1))).
  assert (C1 : get m1 CPcell = a) by (unfold m1; rewrite get_upd_ne by auto; reflexivity).
  assert (C2 : get m2 CPcell = u32 (a + 1)) by (unfold m2; rewrite get_upd_eq, C1; cbn [do_mod]; apply u32_idem).
  assert (I1 : idx (u32 (a + 1)) = idx (a + 1)) by apply idx_u32.
  set (m3 := upd m2 (get m2 CPcell) (do_modx SetTo (u32 (lane 0 (nmask 1))) (get m2 (get m2 CPcell)) (rd m2 x1))).
  assert (X1 : rd m2 x1 = (b / 256) mod 256).
  { apply Hx1. intros c H1 H2. unfold m2. rewrite get_upd_ne by auto. unfold m1. apply get_upd_ne. auto. }
  assert (F3 : field_op m2 m3 (u32 (a + 1)) (8 * 0) (8 * 1) SetTo ((b / 256) mod 2^(8 * 1))).
  { unfold m3. rewrite X1, C2, mask_u32 by lia. replace ((b / 256) mod 2^(8 * 1)) with (fld ((b / 256) mod 256) (8 * 0) (8 * 1)).
    - apply field_op_upd; lia.
    - unfold fld. change (2^(8*0)) with 1. change (2^(8*1)) with 256. rewrite Z.div_1_r. apply Z.mod_mod. lia. }
  set (m4 := upd m3 CPcell (do_mod Add (get m3 CPcell) (u32 (- (1))))).
  assert (C3 : get m3 CPcell = u32 (a + 1)) by (unfold m3; rewrite get_upd_ne by (rewrite C2, I1; auto); exact C2).
  exists m4. split; [|split].
  - unfold wwrite3_acts, write_cp_acts. cbn [Z.eqb Pos.eqb app].
    apply do_cons_cp; [exact Ha|]. fold a. change (rd m (Imm (lane 3 (nmask 1)))) with (u32 (lane 3 (nmask 1))). fold m1.
    apply do_cons_M; [exact Cp|exact Cpr|]. fold m2. apply do_cons_cp; [rewrite C2, I1; exact Ha1|].
    change (rd m2 (Imm (lane 0 (nmask 1)))) with (u32 (lane 0 (nmask 1))). fold m3. apply do_cons_M; [exact Cp|exact Cpr|]. fold m4. apply do_nil.
  - unfold m4. rewrite get_upd_eq, C3. cbn [do_mod]. rewrite u32_idem, u32_add_r, u32_add_l. replace (a + 1 + - (1)) with a by lia. apply u32_small, get_range.
  - destruct (C27_bytes m m1 a 1 3 b) as [A1 A2]; auto; try lia. destruct (C27_bytes m2 m3 (u32 (a + 1)) 1 0 (b / 256)) as [B1 B2]; auto; try lia.
    assert (KEEP : forall p mm x, idx (p / 4) <> idx CPcell -> mbyte (upd mm CPcell x) p = mbyte mm p) by (intros p mm x Hp; unfold mbyte; rewrite get_upd_ne by auto; reflexivity).
    assert (CG : forall p, (p - (4 * a + 4)) mod 2^32 = (p - (4 * u32 (a + 1) + 0 + 0)) mod 2^32).
    { intros p. unfold u32. replace (p - (4 * a + 4)) with (p - 4 * (a + 1)) by lia. rewrite Z.add_0_r, Z.add_0_r.
      rewrite (Z.div_mod (a + 1) (2^32)) at 1 by lia. replace (p - 4 * (2^32 * ((a + 1) / 2^32) + (a + 1) mod 2^32)) with (p - 4 * ((a + 1) mod 2^32) + (- 4 * ((a + 1) / 2^32)) * 2^32) by lia.
      apply Z.mod_add. lia. }
    assert (D3 : (4 * a + 3) / 4 = a) by (symmetry; apply (Z.div_unique _ 4 a 3); lia).
    assert (D4 : (4 * a + 4) / 4 = a + 1) by (symmetry; apply (Z.div_unique _ 4 (a + 1) 0); lia).
    split; [|split].
    + unfold m4. rewrite KEEP by (rewrite D3; exact Na). rewrite B2.
      * unfold m2. rewrite KEEP by (rewrite D3; exact Na). specialize (A1 0 ltac:(lia)). rewrite Z.add_0_r in A1. rewrite A1. change (2^(8*0)) with 1. rewrite Z.div_1_r. reflexivity.
      * intros i Hi. replace i with 0 by lia. rewrite <- CG. replace (4 * a + 3 - (4 * a + 4)) with (-1) by lia. vm_compute. discriminate.
    + unfold m4. rewrite KEEP by (rewrite D4; exact Na1). specialize (B1 0 ltac:(lia)).
      rewrite (mbyte_cong m3 (4 * a + 4) (4 * u32 (a + 1) + 0 + 0)) by (rewrite <- CG, Z.sub_diag; reflexivity). rewrite B1. change (2^(8*0)) with 1. rewrite Z.div_1_r. reflexivity.
    + intros p H3 H4 Hc. unfold m4. rewrite KEEP by exact Hc. rewrite B2 by (intros i Hi; replace i with 0 by lia; rewrite <- CG; exact H4).
      unfold m2. rewrite KEEP by exact Hc. apply A2. intros i Hi. replace i with 0 by lia. rewrite Z.add_0_r. exact H3.
Qed.
(* cpmemio's writers with a variable position: exact for values that fit *)
Theorem C27_cpwriter : forall w n subp b x m, let a := get m CPcell in
  W_prot w (idx a) = false -> idx a <> idx CPcell -> 0 <= n -> 0 <= subp -> subp + n <= 4 -> 0 <= b < 2^(8 * n) ->
  (forall m2, (forall c, idx c <> idx a -> get m2 c = get m c) -> rd m2 x = b * 256^subp) ->
  exists m', acts_do (W_prot w) m (cpwriter_acts n subp x) m' /\ field_op m m' a (8 * subp) (8 * n) SetTo b.
Proof.
  intros w n subp b x m a Ha Na Hn Hs Hns Hb Hx.
  set (m1 := upd m a (do_modx SetTo (u32 (lane subp (nmask n))) (get m a) (u32 0))).
  assert (C1 : get m1 CPcell = a) by (unfold m1; rewrite get_upd_ne by auto; reflexivity).
  assert (F1 : field_op m m1 a (8 * subp) (8 * n) SetTo 0).
  { unfold m1. rewrite mask_u32 by lia. change (u32 0) with 0. replace 0 with (fld 0 (8 * subp) (8 * n)) at 2; [apply field_op_upd; lia|].
    unfold fld. rewrite Z.div_0_l by (apply Z.pow_nonzero; lia). apply Z.mod_0_l, Z.pow_nonzero; lia. }
  assert (X1 : rd m1 x = b * 256^subp) by (apply Hx; intros c Hc; unfold m1; apply get_upd_ne; auto).
  destruct F1 as (F1 & F2 & F3). cbn [fop] in F1.
  assert (P256 : 256^subp = 2^(8 * subp)) by (rewrite Z.pow_mul_r by lia; reflexivity). rewrite P256 in X1.
  set (lo := 8 * subp) in *. set (len := 8 * n) in *.
  assert (PL : 0 < 2^lo) by (apply Z.pow_pos_nonneg; lia). assert (PN : 0 < 2^len) by (apply Z.pow_pos_nonneg; lia).
  assert (OR : Z.land (get m1 a) (b * 2^lo) = 0).
  { apply Z.bits_inj'. intros j Hj. rewrite Z.land_spec, Z.bits_0. destruct (Z.lt_ge_cases j lo) as [L|G]; [rewrite Z.mul_pow2_bits_low by lia; apply andb_false_r|].
    rewrite Z.mul_pow2_bits by lia. destruct (Z.lt_ge_cases j (lo + len)) as [L|G2].
    - assert (Q : Z.testbit (fld (get m1 a) lo len) (j - lo) = false) by (rewrite F1; apply Z.bits_0). rewrite fld_bits in Q by lia.
      replace (j - lo <? len) with true in Q by lia. replace (lo + (j - lo)) with j in Q by lia. cbn [andb] in Q. rewrite Q. reflexivity.
    - replace (Z.testbit b (j - lo)) with false; [apply andb_false_r|]. symmetry. destruct (Z.eq_dec b 0) as [->|N]; [apply Z.bits_0|].
      apply Z.bits_above_log2; [lia|]. apply Z.log2_lt_pow2; [lia|]. eapply Z.lt_le_trans; [apply Hb|]. apply Z.pow_le_mono_r; lia. }
  assert (B32 : b * 2^lo < 2^32).
  { apply Z.lt_le_trans with (2^len * 2^lo); [nia|]. rewrite <- Z.pow_add_r by lia. apply Z.pow_le_mono_r; lia. }
  exists (upd m1 a (do_mod Add (get m1 a) (rd m1 x))). split.
  - apply do_cons_cp; [exact Ha|]. fold a. cbn [rd]. fold m1. apply do_cons_cpD; [rewrite C1; exact Ha|apply rd_range|]. rewrite C1. apply do_nil.
  - pose proof (get_range m1 a) as G. assert (V : get (upd m1 a (do_mod Add (get m1 a) (rd m1 x))) a = Z.lor (Z.ldiff (get m a) (fmask lo len)) (Z.land (b * 2^lo) (fmask lo len))).
    { rewrite get_upd_eq, X1. cbn [do_mod]. rewrite u32_idem. rewrite (Z.add_comm (get m1 a)).
      assert (AO : b * 2^lo + get m1 a = Z.lor (get m1 a) (b * 2^lo)) by (rewrite lor_add by exact OR; lia). rewrite AO.
      rewrite u32_small by (apply lor_range; nia). assert (EM : get m1 a = Z.ldiff (get m a) (fmask lo len)).
      { unfold m1. rewrite get_upd_eq, mask_u32 by lia. cbn [do_modx]. unfold wset. change (u32 0) with 0. rewrite Z.land_0_l, Z.lor_0_r.
        apply u32_small. pose proof (get_range m a). split; [apply Z.ldiff_nonneg; lia|]. apply ldiff_range; [lia|apply get_range]. }
      rewrite EM. f_equal. rewrite land_fmask by lia. unfold fld. rewrite Z.div_mul by lia. rewrite Z.mod_small by lia. reflexivity. }
    destruct (lor_field (get m a) (fmask lo len) lo len b) as [L1 L2]; try lia.
    split; [|split]; rewrite ?V; [exact L1|exact L2|]. intros c Hc. rewrite get_upd_ne by exact Hc. apply F3, Hc.
Qed.

(* ---------- reading ---------- *)
Lemma ss_fld v lo len : 0 <= v -> 0 <= lo -> 0 <= len -> signed_shift (Z.land v (fmask lo len)) (- lo) = fld v lo len.
Proof.
  intros Hv Hlo Hlen. rewrite land_fmask by lia. unfold signed_shift. destruct (Z.leb_spec 0 (- lo)) as [L|L].
  - replace lo with 0 by lia. rewrite Z.shiftl_0_r. change (2^0) with 1. lia.
  - rewrite Z.opp_involutive, Z.shiftr_div_pow2 by lia. apply Z.div_mul. apply Z.pow_nonzero; lia.
Qed.
(* f_bread_epd (n = 1), f_wread_epd (n = 2) with a constant subp *)
Theorem C27_read_epd : forall w, world_ok w -> forall E A t, tab_ok t -> table_placed w E A t ->
  (forall c, In c (rcells E) -> patchable w c) -> sepcell w (cr_mod E) -> NoDup (map idx (cr_mod E :: rcells E)) ->
  forall same same_u perm, (forall a b, same a b = true -> u32 (dst_epd a) = u32 (dst_epd b)) -> (forall x, Permutation.Permutation (perm x) x) ->
  forall n subp cpc nx ret epd T k l m, 0 < n -> 0 <= subp -> subp + n <= 4 ->
  let code := SeqCompute same same_u T k (nonseq_order perm (map NonSeqProofs.with_mod (epd_ops E cpc nx ret epd []))) in
  placed w T k code -> lbl T (k + length code) = pa (A l) ->
  answers t (lane subp (nmask n)) (- (8 * subp)) l -> idle E m ->
  In cpc (W_vars w) -> ordinary m cpc -> get m (vc cpc FMod) = w6 SetTo ->
  ord_src w m epd -> ~ In cpc (svar epd) ->
  valcell w ret -> (forall c, In c (cr_mod E :: rcells E) -> idx c <> idx ret) -> idx ret <> idx (vc cpc FVal) ->
  ~ tmp (cpc :: svar epd) (rcells E) (sval m epd) ->
  exists m', runs w (lbl T k, m) (u32 nx, m') /\
    get m' ret = fld (get m (sval m epd)) (8 * subp) (8 * n) /\
    get m' CPcell = get m (vc cpc FVal) /\ idle E m' /\
    forall b, ~ tmp (cpc :: svar epd) (ret :: rcells E) b -> get m' b = get m b.
Proof.
  intros w Hw E A t Ht Hpl Hc Hm Hd same same_u perm Hs Hp n subp cpc nx ret epd T k l m Hn Hsp Hns code P J An I0 H1 H2 H3 H4 H5 H6 H7 H8 H9.
  assert (K : lane subp (nmask n) < 2^32).
  { rewrite <- (u32_small (lane subp (nmask n))); [rewrite mask_u32 by lia|]; rewrite ?lane_mask by lia; unfold fmask; rewrite Z.shiftl_mul_pow2, Z.ones_equiv by lia;
    assert (1 <= 2^(8 * n)) by (apply (Z.pow_le_mono_r 2 0); lia); assert (0 < 2^(8 * subp)) by (apply Z.pow_pos_nonneg; lia);
    assert (Q : 2^(8 * subp + 8 * n) <= 2^32) by (apply Z.pow_le_mono_r; lia); rewrite Z.pow_add_r in Q by lia; nia. }
  destruct (C26_read_from w Hw E A t Ht Hpl Hc Hm Hd same same_u perm Hs Hp None cpc nx ret epd T k l (lane subp (nmask n)) (- (8 * subp)) m) as (m' & R & V & C & D & F); auto.
  exists m'. split; [exact R|]. split; [|auto]. rewrite V. cbn [init_of]. rewrite Z.add_0_l, lane_mask by lia.
  pose proof (get_range m (sval m epd)) as G. rewrite ss_fld by lia. pose proof (fld_range (get m (sval m epd)) (8 * subp) (8 * n) ltac:(lia)).
  apply u32_small. split; [lia|]. eapply Z.lt_le_trans; [apply H|]. apply Z.pow_le_mono_r; lia.
Qed.

Lemma two_bytes m a : 0 <= get m a < 2^32 -> 0 <= get m (a + 1) < 2^32 ->
  u32 (u32 (signed_shift (Z.land (get m a) 0xFF000000) (-24)) + u32 (signed_shift (Z.land (get m (a + 1)) 0xFF) 8)) =
  mbyte m (4 * a + 3) + 256 * mbyte m (4 * a + 4).
Proof.
  intros Ra Ra1. change 0xFF000000 with (fmask 24 8). change (-24) with (- (24)). rewrite ss_fld by lia.
  change 255 with (fmask 0 8). rewrite (land_fmask (get m (a + 1))) by lia. change (2^0) with 1. rewrite Z.mul_1_r.
  unfold signed_shift. change (0 <=? 8) with true. cbv iota. rewrite Z.shiftl_mul_pow2 by lia. change (2^8) with 256.
  pose proof (fld_range (get m a) 24 8 ltac:(lia)) as F1. pose proof (fld_range (get m (a + 1)) 0 8 ltac:(lia)) as F2. change (2^8) with 256 in F1, F2.
  rewrite !mbyte_in by lia. replace (4 * a + 4) with (4 * (a + 1) + 0) by lia. rewrite mbyte_in by lia. change (8 * 3) with 24. change (8 * 0) with 0.
  set (x := fld (get m a) 24 8) in *. set (y := fld (get m (a + 1)) 0 8) in *. clearbody x y.
  rewrite (u32_small x), (u32_small (y * 256)), u32_small; lia.
Qed.
(* a word across two dwords *)
Theorem C27_wread3 : forall w E A t, tab_ok t -> table_placed w E A t ->
  forall T b3 b0 back fin m, placed w T 0 (wread3 E T A b3 b0 back fin) ->
  answers t 0xFF000000 (-24) b3 -> answers t 0xFF 8 b0 -> idle E m ->
  let d := get m (cr_dest E) in let a := get m CPcell in
  (forall c, In c (cr_mod E :: rcells E) -> writable w c /\ idx c <> idx d /\ idx c <> idx a /\ idx c <> idx (a + 1)) ->
  NoDup (map idx (cr_mod E :: rcells E)) -> writable w d -> idx d <> idx a -> idx d <> idx (a + 1) ->
  exists m', runs w (lbl T 0, m) (u32 fin, m') /\
    get m' d = mbyte m (4 * a + 3) + 256 * mbyte m (4 * a + 4) /\
    get m' CPcell = u32 (a + 1 + back) /\ idle E m' /\
    forall b, idx b <> idx d -> idx b <> idx (E + 1) -> idx b <> idx CPcell -> get m' b = get m b.
Proof.
  intros w E A t Ht Hpl T b3 b0 back fin m Hcode A3 A0 [I1 I2] d a Hcells Hdist Wd Da Da1.
  destruct (rdist E Hdist) as (X1 & X2 & X3 & X4 & X5 & X6 & X7 & X8 & X9 & X10).
  assert (Hc : forall c, In c (cr_mod E :: rcells E) -> writable w c) by (intros c Q; apply Hcells, Q).
  assert (NE : forall x y, idx x <> idx y -> idx y <> idx x) by (intros x y N Q; congruence).
  assert (WN := Hc (E + 1) ltac:(cbn; tauto)). assert (WD := Hc (cr_dest E) ltac:(cbn; tauto)). assert (WV := Hc (cr_val E) ltac:(cbn; tauto)).
  assert (WC := Hc CPcell ltac:(cbn; tauto)). assert (WM := Hc (cr_mod E) ltac:(cbn; tauto)).
  assert (Nd : forall c, In c (cr_mod E :: rcells E) -> idx c <> idx d) by (intros c Q; apply Hcells, Q).
  assert (Ns : forall c, In c (cr_mod E :: rcells E) -> idx c <> idx a) by (intros c Q; apply Hcells, Q).
  assert (Ns1 : forall c, In c (cr_mod E :: rcells E) -> idx c <> idx (a + 1)) by (intros c Q; apply Hcells, Q).
  assert (K1 : In (E + 1) (cr_mod E :: rcells E)) by (cbn; tauto). assert (K2 : In (cr_dest E) (cr_mod E :: rcells E)) by (cbn; tauto).
  assert (K3 : In (cr_val E) (cr_mod E :: rcells E)) by (cbn; tauto). assert (K4 : In CPcell (cr_mod E :: rcells E)) by (cbn; tauto).
  assert (K5 : In (cr_mod E) (cr_mod E :: rcells E)) by (cbn; tauto).
  (* first trigger *)
  set (m1 := upd m (E + 1) (u32 (lbl T 1))).
  assert (R1 : runs w (lbl T 0, m) (pa (A b3), m1)).
  { eapply run_true; [exact (Hcode 0%nat _ eq_refl)|reflexivity|apply conds_nil|apply do_cons_M; [apply WN|apply WN|apply do_nil]|cbn [rd]; apply u32_pa]. }
  assert (G1 : forall b, idx (E + 1) <> idx b -> get m1 b = get m b) by (intros b Hb; apply get_upd_ne, Hb).
  destruct (C26_table_read w E A t Ht Hpl WV X4 0xFF000000 (-24) b3 m1 SetTo) as (m2 & R2 & V2 & Z2 & F2); [reflexivity|exact A3| | |exact X1|exact X2|exact X3| | | |].
  { unfold src_ok. rewrite G1 by auto. apply NE, Ns, K3. }
  { rewrite G1 by auto. exact I2. }
  { rewrite G1 by auto. exact Wd. }
  { rewrite G1 by auto. apply NE, Nd, K1. }
  { rewrite G1 by auto. apply NE, Nd, K3. }
  rewrite (G1 (cr_dest E)), (G1 (cr_val E)), (G1 CPcell) in V2 by auto. fold d a in V2. rewrite (G1 a) in V2 by (apply Ns, K1). cbn [do_mod] in V2. rewrite I1, Z.add_0_l in V2.
  rewrite (G1 (cr_dest E)) in F2 by auto. fold d in F2.
  assert (N1 : get m1 (E + 1) = lbl T 1) by (unfold m1; rewrite get_upd_eq, u32_idem; apply u32_lbl). rewrite N1 in R2.
  (* second trigger *)
  set (m3 := upd m2 CPcell (do_mod Add (get m2 CPcell) (u32 1))).
  set (m4 := upd m3 (cr_mod E) (do_modx SetTo (u32 0xFF000000) (get m3 (cr_mod E)) (u32 (8 * 2^24)))).
  set (m5 := upd m4 (E + 1) (u32 (lbl T 2))).
  assert (R3 : runs w (lbl T 1, m2) (pa (A b0), m5)).
  { eapply run_true; [exact (Hcode 1%nat _ eq_refl)|reflexivity|apply conds_nil| |cbn [rd]; apply u32_pa].
    apply do_cons_M; [apply WC|apply WC|]. fold m3. apply do_cons_MX; [apply WM|apply WM|]. fold m4. apply do_cons_M; [apply WN|apply WN|apply do_nil]. }
  assert (G2 : forall b, idx d <> idx b -> idx (cr_val E) <> idx b -> idx (E + 1) <> idx b -> get m2 b = get m b) by (intros b B1 B2 B3; rewrite F2, G1 by auto; reflexivity).
  assert (CP2 : get m2 CPcell = a) by (rewrite G2 by auto; reflexivity).
  assert (MD2 : get m2 (cr_mod E) = w6 SetTo) by (rewrite G2 by auto; exact I2).
  assert (CP5 : get m5 CPcell = u32 (a + 1)).
  { unfold m5, m4. rewrite !get_upd_ne by auto. unfold m3. rewrite get_upd_eq, CP2. cbn [do_mod]. apply u32_idem. }
  assert (MD5 : get m5 (cr_mod E) = w6 Add).
  { unfold m5. rewrite get_upd_ne by auto. unfold m4. rewrite get_upd_eq. unfold m3. rewrite get_upd_ne by auto. rewrite MD2. vm_compute. reflexivity. }
  assert (G5 : forall b, idx CPcell <> idx b -> idx (cr_mod E) <> idx b -> idx (E + 1) <> idx b -> get m5 b = get m2 b).
  { intros b B1 B2 B3. unfold m5, m4, m3. rewrite !get_upd_ne by auto. reflexivity. }
  assert (D5 : get m5 (cr_dest E) = d) by (rewrite G5, G2 by auto; reflexivity).
  assert (Ia : idx (u32 (a + 1)) = idx (a + 1)) by apply idx_u32.
  assert (Sr : get m5 (u32 (a + 1)) = get m (a + 1)).
  { rewrite (get_cong _ _ _ Ia). rewrite G5, G2; auto. }
  destruct (C26_table_read w E A t Ht Hpl WV X4 0xFF 8 b0 m5 Add) as (m6 & R6 & V6 & Z6 & F6); [reflexivity|exact A0| |exact MD5|exact X1|exact X2|exact X3| | | |].
  { unfold src_ok. rewrite CP5, Ia. apply NE, Ns1, K3. }
  { rewrite D5. exact Wd. }
  { rewrite D5. apply NE, Nd, K1. }
  { rewrite D5. apply NE, Nd, K3. }
  rewrite D5, CP5, Sr in V6. rewrite D5 in F6. rewrite (G5 (cr_val E)), Z2, Z.add_0_l in V6 by auto. rewrite (G5 d), V2 in V6 by (apply Nd; assumption).
  assert (N5 : get m5 (E + 1) = lbl T 2) by (unfold m5; rewrite get_upd_eq, u32_idem; apply u32_lbl). rewrite N5 in R6.
  (* third trigger *)
  set (m7 := upd m6 (cr_mod E) (do_modx SetTo (u32 0xFF000000) (get m6 (cr_mod E)) (u32 (7 * 2^24)))).
  assert (MD6 : get m6 (cr_mod E) = w6 Add) by (rewrite F6; auto).
  assert (CP6 : get m6 CPcell = u32 (a + 1)) by (rewrite F6; auto).
  assert (L : exists m8, acts_do (W_prot w) m6 (SetMX (cr_mod E) SetTo (7 * 2^24) 0xFF000000 :: (if back =? 0 then [] else [SetM CPcell Add back])) m8 /\
    get m8 CPcell = u32 (a + 1 + back) /\ forall b, idx CPcell <> idx b -> get m8 b = get m7 b).
  { destruct (Z.eqb_spec back 0) as [->|NB].
    - exists m7. split; [apply do_cons_MX; [apply WM|apply WM|apply do_nil]|]. split; [|auto]. unfold m7. rewrite get_upd_ne by auto. rewrite CP6, Z.add_0_r. reflexivity.
    - exists (upd m7 CPcell (do_mod Add (get m7 CPcell) (u32 back))). split; [apply do_cons_MX; [apply WM|apply WM|]; apply do_cons_M; [apply WC|apply WC|apply do_nil]|].
      split; [|intros b Hb; apply get_upd_ne, Hb]. rewrite get_upd_eq. unfold m7. rewrite get_upd_ne by auto. rewrite CP6. cbn [do_mod].
      rewrite u32_idem, u32_add_r, u32_add_l. reflexivity. }
  destruct L as (m8 & L1 & L2 & L3). exists m8.
  split; [eapply steps_trans; [exact R1|]; eapply steps_trans; [exact R2|]; eapply steps_trans; [exact R3|]; eapply steps_trans; [exact R6|]|].
  { eapply run_true; [exact (Hcode 2%nat _ eq_refl)|reflexivity|apply conds_nil|exact L1|reflexivity]. }
  split; [|split; [exact L2|split; [split|]]].
  - rewrite L3 by (apply Nd, K4). unfold m7. rewrite get_upd_ne by (apply Nd, K5). rewrite V6. cbn [do_mod].
    pose proof (get_range m a) as Ra. pose proof (get_range m (a + 1)) as Ra1.
    apply two_bytes; assumption.
  - rewrite L3 by auto. unfold m7. rewrite get_upd_ne by auto. exact Z6.
  - rewrite L3 by auto. unfold m7. rewrite get_upd_eq, MD6. vm_compute. reflexivity.
  - intros b B1 B2 B3. rewrite L3 by auto. unfold m7. destruct (Z.eq_dec (idx (cr_mod E)) (idx b)) as [Q|Q].
    + rewrite <- !(get_cong _ _ _ Q), get_upd_eq, MD6, I2. vm_compute. reflexivity.
    + rewrite get_upd_ne by exact Q. destruct (Z.eq_dec (idx (cr_val E)) (idx b)) as [Q2|Q2].
      * rewrite <- !(get_cong _ _ _ Q2), Z6. symmetry. exact I1.
      * rewrite F6, G5, G2 by auto. reflexivity.
Qed.

(* ---------- dword writes, setdw_epd ---------- *)
Section Setdw.
Variables (w : world) (T : nat -> Z).
Hypothesis Hw : world_ok w.
Lemma vsepc v u f g : In v (W_vars w) -> In u (W_vars w) -> v <> u \/ f <> g -> idx (vc v f) <> idx (vc u g).
Proof. intros Hv Hu N Q. destruct (wo_sep w Hw v u f g Hv Hu Q). tauto. Qed.
Lemma wvc v f : In v (W_vars w) -> plain (vc v f) /\ W_prot w (idx (vc v f)) = false.
Proof. intros Hv. split; [apply (wo_plain w Hw), Hv|apply (wo_prot w Hw), Hv]. Qed.
Lemma ord_mod m v md : ordinary m v -> do_modx SetTo (u32 0xFF000000) (get m (vc v FMod)) (u32 (enc_mod md * 2^24)) = w6 md.
Proof. intros [_ O]. apply setmod_val; [exact O|apply get_range]. Qed.

Theorem C27_setdw_const : forall k p md c m, writable w p -> placed w T k (setdw_epd T k (SConst p) md (SConst c)) ->
  exists m', runs w (lbl T k, m) (lbl T (k + 1), m') /\ get m' p = do_mod md (get m p) (u32 c) /\
    forall b, idx p <> idx b -> get m' b = get m b.
Proof.
  intros k p md c m [P1 P2] Hp. exists (upd m p (do_mod md (get m p) (u32 c))). split; [|split].
  - pose proof (Hp 0%nat _ eq_refl) as Q. rewrite Nat.add_0_r in Q.
    eapply run_true; [exact Q|reflexivity|apply conds_nil|apply do_cons_D with (a := p); auto; apply do_nil|cbn [rd]; apply u32_lbl].
  - rewrite get_upd_eq. apply u32_small, do_mod_range; [apply get_range|apply u32_range].
  - intros b Hb. apply get_upd_ne, Hb.
Qed.
Theorem C27_setdw_cv : forall k p md v m, valcell w p -> In v (W_vars w) -> ordinary m v ->
  let code := setdw_epd T k (SConst p) md (SVar v) in placed w T k code ->
  exists m', runs w (lbl T k, m) (lbl T (k + length code), m') /\ get m' p = do_mod md (get m p) (get m (vc v FVal)) /\
    forall b, ~ scratch [v] b -> idx p <> idx b -> get m' b = get m b.
Proof.
  intros k p md v m Hp Hv Ho code Hpl. cbn [setdw_epd] in *.
  set (m1 := upd m (vc v FDest) (u32 p)). set (m2 := upd m1 (vc v FMod) (w6 md)).
  assert (O1 : ordinary m1 v).
  { destruct Ho. split; unfold m1; rewrite get_upd_ne by (apply vsepc; auto; right; discriminate); assumption. }
  destruct (vproc1 w Hw T k _ v p md m m2 Hpl Hv) as (m' & R & B).
  { apply nz_cons; [intros; apply type_SetM|]. apply nz_cons; [intros; apply type_SetMX|apply nz_nil]. }
  { unfold SetDest, SetModifier. destruct (wvc v FDest Hv), (wvc v FMod Hv). apply do_cons_M; auto. cbn [do_mod]. fold m1. apply do_cons_MX; auto. rewrite (ord_mod m1 v md O1). apply do_nil. }
  { exact Hp. }
  { unfold m2. rewrite get_upd_ne by (apply vsepc; auto; right; discriminate). unfold m1. rewrite get_upd_eq. apply u32_idem. }
  { unfold m2. rewrite get_upd_eq. destruct md; reflexivity. }
  assert (PN : forall f, f <> FVal -> idx p <> idx (vc v f)) by (intros f Hf; apply Hp; auto).
  assert (G : forall b, idx (vc v FDest) <> idx b -> idx (vc v FMod) <> idx b -> get m2 b = get m b) by (intros b B1 B2; unfold m2, m1; rewrite !get_upd_ne by auto; reflexivity).
  assert (NE : forall x y, idx x <> idx y -> idx y <> idx x) by (intros x y N Q; congruence).
  rewrite (G (vc v FMask)), (G (vc v FVal)), (G p) in B by (auto; try (apply vsepc; auto; right; discriminate); apply NE, PN; discriminate).
  rewrite (proj1 Ho) in B. change 0xFFFFFFFF with (Z.ones 32) in B. rewrite do_modx_full in B by apply get_range.
  exists m'. split; [exact R|]. split.
  - rewrite B by (apply PN; discriminate). rewrite get_upd_eq. apply u32_small, do_mod_range; apply get_range.
  - intros b Hb Hpb. assert (NS : forall f, f = FNext \/ f = FDest \/ f = FMod -> idx (vc v f) <> idx b) by (intros f Hf Q; apply Hb; exists v, f; cbn; auto).
    rewrite B by (apply NE, NS; auto). rewrite get_upd_ne by exact Hpb. apply G; apply NS; auto.
Qed.
Theorem C27_setdw_vv : forall k p md v m, p <> v -> In p (W_vars w) -> In v (W_vars w) -> ordinary m p -> ordinary m v ->
  let a := get m (vc p FVal) in valcell w a ->
  let code := setdw_epd T k (SVar p) md (SVar v) in placed w T k code ->
  exists m', runs w (lbl T k, m) (lbl T (k + length code), m') /\ get m' a = do_mod md (get m a) (get m (vc v FVal)) /\
    forall b, ~ scratch [p; v] b -> idx a <> idx b -> get m' b = get m b.
Proof.
  intros k p md v m Npv Hp Hv Op Ov a Ha code Hpl. cbn [setdw_epd] in *. unfold code in *. clear code.
  destruct (Z.eqb_spec p v); [contradiction|].
  assert (NE : forall x y, idx x <> idx y -> idx y <> idx x) by (intros x y N Q; congruence).
  set (fin := lbl T (k + 1)). assert (LEN : forall f, length (chunks ([SetDest p (vc v FDest); SetModifier p SetTo; SetModifier v md] ++ vproc_links [p; v] f)) = 1%nat) by reflexivity.
  assert (CODE : VProc T k [p; v] [SetDest p (vc v FDest); SetModifier p SetTo; SetModifier v md] =
    [RawTrig [] ([SetDest p (vc v FDest); SetModifier p SetTo; SetModifier v md] ++ [SetNextPtr p (pa v); SetNextPtr v fin]) (pa p)]) by reflexivity.
  rewrite CODE in *. change (length [_]) with 1%nat.
  set (m1 := upd m (vc p FDest) (u32 (vc v FDest))).
  set (m2 := upd m1 (vc p FMod) (w6 SetTo)). set (m3 := upd m2 (vc v FMod) (w6 md)).
  set (m4 := upd m3 (vc p FNext) (u32 (pa v))). set (m5 := upd m4 (vc v FNext) (u32 fin)).
  assert (VS : forall x y f g, In x [p; v] -> In y [p; v] -> x <> y \/ f <> g -> idx (vc x f) <> idx (vc y g)).
  { intros x y f g Hx Hy. apply vsepc; [destruct Hx as [<-|[<-|[]]]|destruct Hy as [<-|[<-|[]]]]; auto. }
  assert (Ip : In p [p; v]) by (left; reflexivity). assert (Iv : In v [p; v]) by (right; left; reflexivity).
  assert (O1 : ordinary m1 p).
  { destruct Op. split; unfold m1; rewrite get_upd_ne by (apply vsepc; auto; right; discriminate); assumption. }
  assert (O2 : ordinary m2 v).
  { destruct Ov. split; unfold m2, m1; rewrite !get_upd_ne by (apply vsepc; auto); assumption. }
  assert (R1 : runs w (lbl T k, m) (pa p, m5)).
  { pose proof (Hpl 0%nat _ eq_refl) as Q. rewrite Nat.add_0_r in Q. eapply run_true; [exact Q|reflexivity|apply conds_nil| |cbn [rd]; apply u32_pa].
    destruct (wvc p FDest Hp), (wvc p FMod Hp), (wvc v FMod Hv), (wvc p FNext Hp), (wvc v FNext Hv). cbn [app]. unfold SetDest, SetModifier, SetNextPtr.
    apply do_cons_M; auto. cbn [do_mod]. fold m1. apply do_cons_MX; auto. rewrite (ord_mod m1 p SetTo O1). fold m2. apply do_cons_MX; auto. rewrite (ord_mod m2 v md O2). fold m3.
    apply do_cons_M; auto. cbn [do_mod]. fold m4. apply do_cons_M; auto. cbn [do_mod]. fold m5. apply do_nil. }
  assert (G5 : forall b, idx (vc p FDest) <> idx b -> idx (vc p FMod) <> idx b -> idx (vc v FMod) <> idx b -> idx (vc p FNext) <> idx b -> idx (vc v FNext) <> idx b -> get m5 b = get m b).
  { intros b B1 B2 B3 B4 B5. unfold m5, m4, m3, m2, m1. rewrite !get_upd_ne by auto. reflexivity. }
  assert (PD : get m5 (vc p FDest) = u32 (vc v FDest)).
  { unfold m5, m4, m3, m2. rewrite !get_upd_ne by (apply VS; auto; right; discriminate). unfold m1. rewrite get_upd_eq. apply u32_idem. }
  assert (PM : get m5 (vc p FMod) = w6 SetTo).
  { unfold m5, m4, m3. rewrite !get_upd_ne by (apply VS; auto; (left; congruence) || (right; discriminate)). unfold m2. rewrite get_upd_eq. reflexivity. }
  assert (PX : get m5 (vc p FNext) = pa v).
  { unfold m5. rewrite get_upd_ne by (apply VS; auto). unfold m4. rewrite get_upd_eq, u32_idem. apply u32_pa. }
  assert (VM : get m5 (vc v FMod) = w6 md).
  { unfold m5, m4. rewrite !get_upd_ne by (apply VS; auto; right; discriminate). unfold m3. rewrite get_upd_eq. destruct md; reflexivity. }
  assert (VX : get m5 (vc v FNext) = fin).
  { unfold m5. rewrite get_upd_eq, u32_idem. apply u32_lbl. }
  assert (GV : forall x f, In x [p; v] -> f = FVal \/ f = FMask -> get m5 (vc x f) = get m (vc x f)).
  { intros x f Hx Hf. apply G5; apply VS; auto; right; destruct Hf as [->| ->]; discriminate. }
  pose proof (hop w Hw m5 p (vc v FDest) SetTo (pa v) Hp PM PD (wvc v FDest Hv)) as H1.
  specialize (H1 ltac:(intros f ->; apply VS; auto) PX).
  rewrite (GV p FMask), (GV p FVal), (proj1 Op) in H1 by auto. fold a in H1. change 0xFFFFFFFF with (Z.ones 32) in H1. rewrite do_modx_full in H1 by (apply get_range). cbn [do_mod] in H1.
  set (m6 := upd m5 (vc v FDest) a) in *.
  assert (G6 : forall f, f <> FDest -> get m6 (vc v f) = get m5 (vc v f)) by (intros f Hf; unfold m6; apply get_upd_ne, VS; auto).
  assert (AN : forall x f, In x [p; v] -> f <> FVal -> idx a <> idx (vc x f)).
  { intros x f Hx Hf. apply Ha; auto. destruct Hx as [<-|[<-|[]]]; auto. }
  pose proof (hop w Hw m6 v a md fin Hv) as H2. rewrite (G6 FMod), (G6 FNext), (G6 FMask), (G6 FVal) in H2 by discriminate. rewrite VM, VX, (GV v FMask), (GV v FVal), (proj1 Ov) in H2 by auto.
  assert (D6 : get m6 (vc v FDest) = u32 a) by (unfold m6; rewrite get_upd_eq; reflexivity).
  specialize (H2 eq_refl D6 (proj1 Ha) ltac:(intros f ->; apply AN; auto; discriminate) eq_refl).
  assert (A6 : get m6 a = get m a).
  { unfold m6. rewrite get_upd_ne by (apply NE, AN; auto; discriminate). apply G5; apply NE, AN; auto; discriminate. }
  rewrite A6 in H2. change 0xFFFFFFFF with (Z.ones 32) in H2. rewrite do_modx_full in H2 by (apply get_range).
  exists (upd m6 a (do_mod md (get m a) (get m (vc v FVal)))). split; [|split].
  - eapply steps_trans; [exact R1|]. eapply steps_trans; [exact H1|exact H2].
  - rewrite get_upd_eq. apply u32_small, do_mod_range; apply get_range.
  - intros b Hb Hab. assert (NS : forall x f, In x [p; v] -> f = FNext \/ f = FDest \/ f = FMod -> idx (vc x f) <> idx b) by (intros x f Hx Hf Q; apply Hb; exists x, f; auto).
    rewrite get_upd_ne by exact Hab. unfold m6. rewrite get_upd_ne by (apply NS; auto). apply G5; apply NS; auto.
Qed.
(* dwepdio.py 103-113: the same variable as address and value.  The code sends
   the variable to itself: the addressed dword is not touched, and Add doubles
   the variable. *)
Theorem C27_setdw_self_refuted : forall k md v m, In v (W_vars w) -> ordinary m v ->
  let code := setdw_epd T k (SVar v) md (SVar v) in placed w T k code ->
  exists m', runs w (lbl T k, m) (lbl T (k + length code), m') /\
    get m' (vc v FVal) = do_mod md (get m (vc v FVal)) (get m (vc v FVal)) /\
    forall b, ~ scratch [v] b -> idx (vc v FVal) <> idx b -> get m' b = get m b.
Proof.
  intros k md v m Hv Ho code Hpl. unfold code in *. clear code. cbn [setdw_epd] in *. rewrite Z.eqb_refl in *.
  set (c1 := VProc T k [v] [SetDest v (vc v FVal); SetModifier v SetTo]) in *.
  destruct (placed_app w T k c1 _ Hpl) as [P1 P2].
  assert (NE : forall x y, idx x <> idx y -> idx y <> idx x) by (intros x y N Q; congruence).
  assert (FF : forall f g, f <> g -> idx (vc v f) <> idx (vc v g)) by (intros f g N; apply vsepc; auto).
  set (m1 := upd m (vc v FDest) (u32 (vc v FVal))). set (m2 := upd m1 (vc v FMod) (w6 SetTo)).
  assert (O1 : ordinary m1 v).
  { destruct Ho. split; unfold m1; rewrite get_upd_ne by (apply FF; discriminate); assumption. }
  destruct (vproc1 w Hw T k _ v (vc v FVal) SetTo m m2 P1 Hv) as (m3 & R & B).
  { apply nz_cons; [intros; apply type_SetM|]. apply nz_cons; [intros; apply type_SetMX|apply nz_nil]. }
  { unfold SetDest, SetModifier. destruct (wvc v FDest Hv), (wvc v FMod Hv). apply do_cons_M; auto. cbn [do_mod]. fold m1. apply do_cons_MX; auto. rewrite (ord_mod m1 v SetTo O1). apply do_nil. }
  { apply valcell_val; auto. }
  { unfold m2. rewrite get_upd_ne by (apply FF; discriminate). unfold m1. rewrite get_upd_eq. apply u32_idem. }
  { unfold m2. rewrite get_upd_eq. reflexivity. }
  assert (G2 : forall b, idx (vc v FDest) <> idx b -> idx (vc v FMod) <> idx b -> get m2 b = get m b) by (intros b B1 B2; unfold m2, m1; rewrite !get_upd_ne by auto; reflexivity).
  rewrite (G2 (vc v FMask)), (G2 (vc v FVal)), (proj1 Ho) in B by (apply FF; discriminate). change 0xFFFFFFFF with (Z.ones 32) in B.
  rewrite do_modx_full in B by apply get_range. cbn [do_mod] in B.
  assert (G3 : forall b, idx (vc v FNext) <> idx b -> get m3 b = get m2 b).
  { intros b Hb. rewrite B by auto. destruct (Z.eq_dec (idx (vc v FVal)) (idx b)) as [Q|Q].
    - rewrite <- !(get_cong _ _ _ Q), get_upd_eq, G2 by (apply FF; discriminate). apply u32_small, get_range.
    - apply get_upd_ne, Q. }
  assert (M2 : get m2 (vc v FMod) = w6 SetTo) by (unfold m2; rewrite get_upd_eq; reflexivity).
  assert (O3 : ordinary m3 v).
  { split; rewrite G3 by (apply FF; discriminate); [rewrite G2 by (apply FF; discriminate); apply Ho|rewrite M2; reflexivity]. }
  set (m4 := upd m3 (vc v FMod) (w6 md)).
  destruct (vproc1 w Hw T (k + length c1) _ v (vc v FVal) md m3 m4 P2 Hv) as (m5 & R5 & B5).
  { apply nz_cons; [intros; apply type_SetMX|apply nz_nil]. }
  { unfold SetModifier. destruct (wvc v FMod Hv). apply do_cons_MX; auto. rewrite (ord_mod m3 v md O3). apply do_nil. }
  { apply valcell_val; auto. }
  { unfold m4. rewrite get_upd_ne by (apply FF; discriminate). rewrite G3 by (apply FF; discriminate). unfold m2. rewrite get_upd_ne by (apply FF; discriminate). unfold m1. rewrite get_upd_eq. apply u32_idem. }
  { unfold m4. rewrite get_upd_eq. destruct md; reflexivity. }
  assert (G4 : forall f, f <> FMod -> f <> FNext -> f <> FDest -> get m4 (vc v f) = get m (vc v f)).
  { intros f F1 F2 F3. unfold m4. rewrite get_upd_ne by (apply FF; auto). rewrite G3, G2 by (apply FF; auto). reflexivity. }
  rewrite (G4 FMask), (G4 FVal), (proj1 Ho) in B5 by discriminate. change 0xFFFFFFFF with (Z.ones 32) in B5. rewrite do_modx_full in B5 by apply get_range.
  exists m5. split; [|split].
  - rewrite app_length, Nat.add_assoc. eapply steps_trans; [exact R|exact R5].
  - rewrite B5 by (apply FF; discriminate). rewrite get_upd_eq. apply u32_small, do_mod_range; apply get_range.
  - intros b Hb Hvb. assert (NS : forall f, f = FNext \/ f = FDest \/ f = FMod -> idx (vc v f) <> idx b) by (intros f Hf Q; apply Hb; exists v, f; cbn; auto).
    rewrite B5 by (apply NE, NS; auto). rewrite get_upd_ne by exact Hvb. unfold m4. rewrite get_upd_ne by (apply NS; auto). rewrite G3, G2 by (apply NS; auto). reflexivity.
Qed.
End Setdw.

(* ---------- single bits ---------- *)
Lemma bit_mask e subp : 0 <= e -> 0 <= subp -> e + 8 * subp < 32 -> u32 (lane subp (2^e)) = fmask (e + 8 * subp) 1.
Proof.
  intros. unfold lane, fmask. change (Z.ones 1) with 1. rewrite !Z.shiftl_mul_pow2, <- Z.pow_add_r, Z.mul_1_l by lia. apply u32_small. split; [apply Z.pow_nonneg; lia|apply Z.pow_lt_mono_r; lia].
Qed.
Lemma fld_fmask e : 0 <= e -> fld (fmask e 1) e 1 = 1.
Proof. intros. unfold fld, fmask. change (Z.ones 1) with 1. rewrite Z.shiftl_1_l, Z.div_same by (apply Z.pow_nonzero; lia). reflexivity. Qed.
Lemma fmask1_range e : 0 <= e < 32 -> 0 <= fmask e 1 < 2^32.
Proof. intros. unfold fmask. change (Z.ones 1) with 1. rewrite Z.shiftl_1_l. split; [apply Z.pow_nonneg; lia|apply Z.pow_lt_mono_r; lia]. Qed.
Theorem C27_bitwrite_const : forall w epd e subp b m, writable w epd -> 0 <= e -> 0 <= subp -> e + 8 * subp < 32 ->
  exists m', acts_do (W_prot w) m (bitwrite_const epd subp (2^e) b) m' /\
    field_op m m' epd (e + 8 * subp) 1 SetTo (if b =? 0 then 0 else 1).
Proof.
  intros w epd e subp b m [Hp Hpr] He Hs Hes. unfold bitwrite_const. destruct (b =? 0); eexists; (split; [apply do_cons_DX with (a := epd); auto; apply do_nil|]);
    cbn [rd]; rewrite bit_mask by lia.
  - pose proof (field_op_upd m epd (e + 8 * subp) 1 SetTo 0 ltac:(lia) ltac:(lia) ltac:(lia) ltac:(lia)) as F.
    replace (fld 0 (e + 8 * subp) 1) with 0 in F by (unfold fld; rewrite Z.div_0_l by (apply Z.pow_nonzero; lia); reflexivity). exact F.
  - pose proof (field_op_upd m epd (e + 8 * subp) 1 SetTo (fmask (e + 8 * subp) 1) ltac:(lia) ltac:(lia) ltac:(lia) (fmask1_range (e + 8 * subp) ltac:(lia))) as F.
    rewrite fld_fmask in F by lia. exact F.
Qed.
Lemma field_op_trans m m1 m2 a lo len x y : field_op m m1 a lo len SetTo x -> field_op m1 m2 a lo len SetTo y -> field_op m m2 a lo len SetTo y.
Proof.
  intros (A1 & A2 & A3) (B1 & B2 & B3). split; [exact B1|]. split; [intros; rewrite B2, A2 by auto; reflexivity|intros; rewrite B3, A3 by auto; reflexivity].
Qed.
Theorem C27_bitwrite_var : forall w T k epd e subp v m, world_ok w -> writable w epd -> plain v -> idx epd <> idx v -> 0 <= e -> 0 <= subp -> e + 8 * subp < 32 ->
  placed w T k (bitwrite_var T k epd subp (2^e) v) ->
  exists m', runs w (lbl T k, m) (lbl T (k + 2), m') /\
    field_op m m' epd (e + 8 * subp) 1 SetTo (if get m v =? 0 then 0 else 1).
Proof.
  intros w T k epd e subp v m Hw Hepd Hv Nv He Hs Hes Hpl.
  destruct (C27_bitwrite_const w epd e subp 0 m Hepd He Hs Hes) as (m1 & A1 & F1). destruct (C27_bitwrite_const w epd e subp 1 m1 Hepd He Hs Hes) as (m2 & A2 & F2).
  cbn [Z.eqb] in F1, F2. pose proof (Hpl 0%nat _ eq_refl) as P0. pose proof (Hpl 1%nat _ eq_refl) as P1. rewrite Nat.add_0_r in P0.
  assert (V : get m1 v = get m v) by (apply F1, Nv). pose proof (get_range m v) as RV.
  assert (S0 : runs w (lbl T k, m) (lbl T (k + 1), m1)) by (eapply run_true; [exact P0|reflexivity|apply conds_nil|exact A1|apply u32_lbl]).
  pose proof (conds_one_M m1 v AtLeast 1 Hv) as C. cbn [do_cmp] in C. change (u32 1) with 1 in C. rewrite V in C.
  destruct (Z.eqb_spec (get m v) 0) as [Z0|Z0].
  - exists m1. split; [|exact F1]. eapply steps_trans; [exact S0|]. replace (1 <=? get m v) with false in C by lia. eapply run_false; [exact P1|reflexivity|exact C|apply u32_lbl].
  - exists m2. split; [|eapply field_op_trans; eassumption]. eapply steps_trans; [exact S0|]. replace (1 <=? get m v) with true in C by lia. eapply run_true; [exact P1|reflexivity|exact C|exact A2|apply u32_lbl].
Qed.

(* _boolread_epd: 1 when the byte is not 0 (b was reset to 0 before) *)
Theorem C27_boolread : forall w b i fin pc m, plain b -> W_prot w (idx b) = false -> 0 <= i < 4 -> get m b = 0 ->
  W_P w pc = Some (boolread_case b i fin) ->
  exists m', runs w (pc, m) (u32 fin, m') /\ get m' b = (if mbyte m (4 * get m CPcell + i) =? 0 then 0 else 1) /\
    forall c, idx b <> idx c -> get m' c = get m c.
Proof.
  intros w b i fin pc m Pb Wb Hi Zb HP. rewrite mbyte_in by lia. pose proof (conds_cp m AtLeast 1 (lane i 0xFF)) as C. cbn [do_cmp] in C.
  change 0xFF with (nmask 1) in C. rewrite (mask_u32 1 i) in C by lia. change (8 * 1) with 8 in C. rewrite land_fmask in C by lia. change (u32 1) with 1 in C.
  pose proof (fld_range (get m (get m CPcell)) (8 * i) 8 ltac:(lia)) as R. set (f := fld _ _ _) in *. assert (P : 1 <= 2^(8 * i)) by (apply (Z.pow_le_mono_r 2 0); lia).
  destruct (Z.eqb_spec f 0) as [Z0|Z0].
  - exists m. split; [|split; [exact Zb|reflexivity]]. replace (1 <=? f * 2^(8*i)) with false in C by nia. eapply run_false; [exact HP|reflexivity|exact C|reflexivity].
  - exists (upd m b 1). replace (1 <=? f * 2^(8*i)) with true in C by nia. split; [|split; [rewrite get_upd_eq; reflexivity|intros c Hc; apply get_upd_ne, Hc]].
    eapply run_true; [exact HP|reflexivity|exact C| |reflexivity]. apply do_cons_M; auto. apply do_nil.
Qed.

(* ---------- f_dwbreak, f_dwbreak2 ---------- *)
Lemma addif_bit v i x e : 0 <= i -> 0 <= v -> 0 <= e -> 0 <= x -> x + 2^e < 2^32 -> addif v i x e = x + Z.b2z (Z.testbit v i) * 2^e.
Proof.
  intros Hi Hv He Hx Hs. unfold addif. replace (Z.land v (2^i)) with (Z.b2z (Z.testbit v i) * 2^i).
  - assert (1 <= 2^i) by (apply (Z.pow_le_mono_r 2 0); lia). assert (0 < 2^e) by (apply Z.pow_pos_nonneg; lia).
    destruct (Z.testbit v i); cbn [Z.b2z]; [replace (1 <=? 1 * 2^i) with true by lia; rewrite u32_small; lia|cbn; lia].
  - apply Z.bits_inj'. intros j Hj. rewrite Z.land_spec, Z.pow2_bits_eqb by lia. destruct (Z.eqb_spec i j) as [<-|N].
    + rewrite Z.mul_pow2_bits, Z.sub_diag, Z.b2z_bit0, andb_true_r by lia. reflexivity.
    + rewrite andb_false_r. rewrite Z.mul_pow2_bits by lia. destruct (Z.testbit v i); cbn [Z.b2z]; [|apply Z.bits_0].
      destruct (Z.ltb_spec j i); [apply Z.testbit_neg_r; lia|]. apply Z.bits_above_log2; cbn; lia.
Qed.
Lemma fld_S v lo n : 0 <= lo -> 0 <= n -> fld v lo (n + 1) = fld v lo n + Z.b2z (Z.testbit v (lo + n)) * 2^n.
Proof.
  intros Hlo Hn. unfold fld. rewrite Z.pow_add_r, Z.pow_1_r, Z.rem_mul_r by (try apply Z.pow_nonzero; lia).
  replace (Z.testbit v (lo + n)) with (Z.testbit (v / 2^lo) n); [rewrite Z.testbit_spec' by lia; lia|].
  rewrite <- Z.shiftr_div_pow2, Z.shiftr_spec by lia. f_equal. lia.
Qed.
Lemma fld_0 v lo : fld v lo 0 = 0.
Proof. unfold fld. apply Z.mod_1_r. Qed.
(* one step of the loop, with the parts read so far *)
Definition parts (v i : Z) : broken :=
  mkbroken (fld v 16 (Z.max 0 (i - 16))) (fld v 8 (Z.max 0 (Z.min 8 (i - 8)))) (fld v 16 (Z.max 0 (Z.min 8 (i - 16)))) (fld v 24 (Z.max 0 (i - 24))).
Lemma dwbreak_step_parts v i : 0 <= v -> 8 <= i < 32 -> dwbreak_step v (parts v i) i = parts v (i + 1).
Proof.
  intros Hv Hi. unfold dwbreak_step, parts.
  assert (A : forall lo n, 0 <= lo -> 0 <= n < 16 -> i = lo + n -> addif v i (fld v lo n) n = fld v lo (n + 1)).
  { intros lo n H1 H2 ->. rewrite fld_S by lia. pose proof (fld_range v lo n ltac:(lia)). assert (2^n < 2^16) by (apply Z.pow_lt_mono_r; lia). apply addif_bit; lia. }
  f_equal.
  - destruct (Z.eqb_spec (i / 16) 1) as [Q|Q]; [|f_equal; lia]. replace (Z.max 0 (i - 16)) with (i mod 16) by lia. rewrite A by lia. f_equal. lia.
  - destruct (Z.eqb_spec (i / 8) 1) as [Q|Q]; [|f_equal; lia]. replace (Z.max 0 (Z.min 8 (i - 8))) with (i mod 8) by lia. rewrite A by lia. f_equal. lia.
  - destruct (Z.eqb_spec (i / 8) 2) as [Q|Q]; [|f_equal; lia]. replace (Z.max 0 (Z.min 8 (i - 16))) with (i mod 8) by lia. rewrite A by lia. f_equal. lia.
  - destruct (Z.eqb_spec (i / 8) 3) as [Q|Q]; [|f_equal; lia]. replace (Z.max 0 (i - 24)) with (i mod 8) by lia. rewrite A by lia. f_equal. lia.
Qed.
Lemma dwbreak_loop_parts v n : 0 <= v -> (n <= 24)%nat -> fold_left (dwbreak_step v) (map Z.of_nat (seq 8 n)) (mkbroken 0 0 0 0) = parts v (8 + Z.of_nat n).
Proof.
  intros Hv. induction n as [|n IH]; intros Hn.
  - unfold parts. cbn -[fld]. rewrite !fld_0. reflexivity.
  - rewrite seq_S, map_app, fold_left_app, IH by lia. cbn [map fold_left]. replace (Z.of_nat (8 + n)) with (8 + Z.of_nat n) by lia.
    rewrite dwbreak_step_parts by lia. f_equal. lia.
Qed.
Lemma land_ones_fld x n : 0 <= n -> Z.land x (Z.ones n) = fld x 0 n.
Proof. intros. rewrite Z.land_ones by lia. unfold fld. rewrite Z.pow_0_r, Z.div_1_r. reflexivity. Qed.
Lemma ldiff_small x n : 0 <= n -> 0 <= x < 2^n -> Z.ldiff x (Z.ones n) = 0.
Proof. intros Hn Hx. rewrite Z.ldiff_ones_r by lia. rewrite Z.shiftr_div_pow2, Z.div_small by lia. apply Z.shiftl_0_l. Qed.
Theorem C27_dwbreak : forall v y r0 r2, 0 <= v < 2^32 -> 0 <= r0 < 2^16 -> 0 <= r2 < 2^8 ->
  f_dwbreak v y r0 r2 = (fld v 0 16, fld v 16 16, fld v 0 8, fld v 8 8, fld v 16 8, fld v 24 8).
Proof.
  intros v y r0 r2 Hv H0 H2. unfold f_dwbreak, dwbreak_loop. rewrite dwbreak_loop_parts by lia. change (8 + Z.of_nat 24) with 32. unfold parts. cbn [bw1 bb1 bb2 bb3].
  change (Z.max 0 (32 - 16)) with 16. change (Z.max 0 (Z.min 8 (32 - 8))) with 8. change (Z.max 0 (Z.min 8 (32 - 16))) with 8. change (Z.max 0 (32 - 24)) with 8.
  unfold wset. change 0xFFFF with (Z.ones 16). change 0xFF with (Z.ones 8). rewrite !ldiff_small, !land_ones_fld, !Z.lor_0_l by lia.
  replace (fld (Z.lor (Z.ldiff y (Z.ones 16)) (fld v 0 16)) 0 8) with (fld v 0 8); [reflexivity|].
  apply Z.bits_inj'. intros j Hj. rewrite !fld_bits, Z.lor_spec, Z.ldiff_spec, fld_bits by lia. destruct (Z.ltb_spec j 8); [|reflexivity].
  rewrite Z.ones_spec_low by lia. rewrite andb_false_r. replace (0 + j <? 16) with true by lia. reflexivity.
Qed.
(* f_dwbreak2: the same fields, in place *)
Theorem C27_dwbreak2 : forall v, 0 <= v < 2^32 ->
  f_dwbreak2 v = (fld v 0 16, fld v 16 16 * 2^16, fld v 0 8, fld v 8 8 * 2^8, fld v 16 8 * 2^16, fld v 24 8 * 2^24).
Proof.
  intros v Hv. unfold f_dwbreak2.
  assert (B : forall j, 32 <= j -> Z.testbit v j = false).
  { intros j Hj. destruct (Z.eq_dec v 0) as [->|N]; [apply Z.bits_0|]. apply Z.bits_above_log2; [lia|]. apply Z.log2_lt_pow2; [lia|]. eapply Z.lt_le_trans; [apply Hv|apply Z.pow_le_mono_r; lia]. }
  assert (K : forall k lo len, 0 <= lo -> 0 <= len -> (forall j, 0 <= j < 32 -> Z.testbit k j = negb ((lo <=? j) && (j <? lo + len))) -> (lo + len <= 32) -> wset k v 0 = fld v lo len * 2^lo).
  { intros k lo len Hlo Hlen Hk Hs. rewrite <- land_fmask by lia. unfold wset. rewrite Z.land_0_l, Z.lor_0_r. apply Z.bits_inj'. intros j Hj. rewrite Z.ldiff_spec, Z.land_spec, fmask_bits by lia.
    destruct (Z.ltb_spec j 32); [rewrite Hk by lia; rewrite negb_involutive; reflexivity|rewrite B by lia; reflexivity]. }
  assert (L : forall m j, 0 <= j < 32 -> Z.testbit (u32 (Z.lnot m)) j = negb (Z.testbit m j)).
  { intros m j Hj. unfold u32. rewrite Z.mod_pow2_bits_low by lia. apply Z.lnot_spec. lia. }
  assert (F : forall lo len j, 0 <= lo -> 0 <= len -> 0 <= j -> Z.testbit (fmask lo len) j = (lo <=? j) && (j <? lo + len)) by (intros; apply fmask_bits; lia).
  repeat match goal with |- (_, _) = (_, _) => f_equal end.
  - rewrite (K _ 0 16) by (try lia; intros j Hj; rewrite L by lia; change 0xFFFF with (fmask 0 16); rewrite F by lia; reflexivity). lia.
  - apply K; try lia. intros j Hj. change 0xFFFF with (fmask 0 16). rewrite F by lia. lia.
  - rewrite (K _ 0 8) by (try lia; intros j Hj; rewrite L by lia; change 0xFF with (fmask 0 8); rewrite F by lia; reflexivity). lia.
  - apply (K _ 8 8); try lia; intros j Hj; rewrite L by lia; change 0xFF00 with (fmask 8 8); rewrite F by lia; reflexivity.
  - apply (K _ 16 8); try lia; intros j Hj; rewrite L by lia; change 0xFF0000 with (fmask 16 8); rewrite F by lia; reflexivity.
  - apply K; try lia. intros j Hj. change 0xFFFFFF with (fmask 0 24). rewrite F by lia. lia.
Qed.

(* ---------- what goes wrong ---------- *)
(* cpmemio.py 183-187, 229-234: with a variable offset the value is not masked; a
   value wider than the field changes the neighbouring byte.  With a constant
   offset (C27_const_op) it does not. *)
Theorem C27_cpwriter_unmasked_refuted : exists m, let a := get m CPcell in
  exists m', acts_do (fun _ => false) m (cpwriter_acts 1 0 (Imm 0x1FF)) m' /\ fld (get m a) 8 8 = 0 /\ fld (get m' a) 8 8 = 1.
Proof.
  exists (upd (fun _ => 0) CPcell 100). cbn zeta. eexists. split; [|split].
  - apply do_cons_cp; [reflexivity|]. apply do_cons_cpD; [reflexivity|apply rd_range|apply do_nil].
  - vm_compute. reflexivity.
  - vm_compute. reflexivity.
Qed.

(* ---------- concrete cases ---------- *)
(* f_badd_epd(200000, 2, 0x30) on 0x11F02233: the byte wraps, the rest stays *)
Example C27_const_example : exists m', acts_do (fun _ => false) (upd (fun _ => 0) 200000 0x11F02233) (const_acts 1 200000 2 0x30 Add) m' /\ get m' 200000 = 0x11202233.
Proof.
  eexists. split; [apply do_cons_DX with (a := 200000); [reflexivity| |reflexivity|apply do_nil]|vm_compute; reflexivity].
  apply (exworld_patchable 0 [] 200000 ltac:(reflexivity) ltac:(lia)).
Qed.
Example C27_const_hyps : writable (exworld 0 []) 200000.
Proof. apply (exworld_patchable 0 [] 200000 ltac:(reflexivity) ltac:(lia)). Qed.
(* f_dwadd_epd(p, v) with p = 200000, v = 5 *)
Definition bwex_p := vb_var 1000 0.
Definition bwex_v := vb_var 1000 1.
Definition bwex_code := setdw_epd exT 0 (SVar bwex_p) Add (SVar bwex_v).
Example C27_setdw_example : exists m', runs (exworld 2 bwex_code) (lbl exT 0, exmem 2 [200000; 5]) (lbl exT 1, m') /\ get m' 200000 = 5.
Proof.
  destruct (C27_setdw_vv (exworld 2 bwex_code) exT (exworld_ok 2 _ ltac:(reflexivity)) 0 bwex_p Add bwex_v (exmem 2 [200000; 5])) as (m' & R & V & _).
  - discriminate.
  - left. reflexivity.
  - right. left. reflexivity.
  - split; vm_compute; reflexivity.
  - split; vm_compute; reflexivity.
  - replace (get (exmem 2 [200000; 5]) (vc bwex_p FVal)) with 200000 by (vm_compute; reflexivity).
    destruct (exworld_patchable 2 bwex_code 200000 ltac:(reflexivity) ltac:(lia)) as [W S]. split; [exact W|]. intros u f Hu _. apply S, Hu.
  - apply exworld_placed; vm_compute; reflexivity.
  - exists m'. split; [exact R|]. replace (get (exmem 2 [200000; 5]) (vc bwex_p FVal)) with 200000 in V by (vm_compute; reflexivity). rewrite V. vm_compute. reflexivity.
Qed.
Example C27_dwbreak_example : f_dwbreak 0x89ABCDEF 0xFFFFFFFF 0x1234 0x56 = (0xCDEF, 0x89AB, 0xEF, 0xCD, 0xAB, 0x89).
Proof. vm_compute. reflexivity. Qed.
(* if the return variable held a wider value, its upper bits would stay *)
Example C27_dwbreak_wide : f_dwbreak 0x89ABCDEF 0 0x11234 0x56 = (0x1CDEF, 0x89AB, 0xEF, 0xCD, 0xAB, 0x89).
Proof. vm_compute. reflexivity. Qed.
Example C27_bitwrite_example : exists m', runs (exworld 1 (bitwrite_var exT 0 200000 1 (2^3) 300000)) (lbl exT 0, upd (upd (fun _ => 0) 200000 0xFF) 300000 7) (lbl exT 2, m') /\
  fld (get m' 200000) 11 1 = 1 /\ fld (get m' 200000) 0 8 = 255.
Proof.
  destruct (C27_bitwrite_var (exworld 1 (bitwrite_var exT 0 200000 1 (2^3) 300000)) exT 0 200000 3 1 300000 (upd (upd (fun _ => 0) 200000 0xFF) 300000 7)) as (m' & R & F).
  - apply exworld_ok. reflexivity.
  - apply (exworld_patchable 1 _ 200000 ltac:(reflexivity) ltac:(lia)).
  - apply (exworld_patchable 1 [] 300000 ltac:(reflexivity) ltac:(lia)).
  - vm_compute. discriminate.
  - lia.
  - lia.
  - lia.
  - apply exworld_placed; vm_compute; reflexivity.
  - exists m'. split; [exact R|]. destruct F as (F1 & F2 & _). split; [exact F1|rewrite F2 by lia; vm_compute; reflexivity].
Qed.

Print Assumptions C27_const_op.
Print Assumptions C27_cp_op.
Print Assumptions C27_bytes.
Print Assumptions C27_wwrite3.
Print Assumptions C27_cpwriter.
Print Assumptions C27_read_epd.
Print Assumptions C27_wread3.
Print Assumptions C27_setdw_const.
Print Assumptions C27_setdw_cv.
Print Assumptions C27_setdw_vv.
Print Assumptions C27_setdw_self_refuted.
Print Assumptions C27_bitwrite_const.
Print Assumptions C27_bitwrite_var.
Print Assumptions C27_boolread.
Print Assumptions C27_dwbreak.
Print Assumptions C27_dwbreak2.
Print Assumptions C27_cpwriter_unmasked_refuted.
