(* Properties C40 (EPD conversion) and C46 (light booleans). *)
From Coq Require Import ZArith Lia List Bool ZifyBool ZifyNat.
From Verif Require Import Lib Word Machine MachineProofs VarModel VarSpec VarProofs SeqProofs WordX OpsModel OpsSpec OpsBase OpsProofs OpsShift VbufModel VbufWorld ExWorld SeqRefute ExTools EpdModel.
Import ListNotations.
Open Scope Z_scope.

(* ---------- C40 ---------- *)
(* dword index of a byte address, as the machine counts (base 0x58A364, modulo
   2^32 bytes = 2^30 dwords) *)
Definition dword_of (p i : Z) : Prop := u32 (0x58A364 + 4 * i) = u32 p.

Theorem C40_const : forall p, p mod 4 = 0 -> 0x58A364 + 4 * EPD_const p = p.
Proof. intros p Hp. unfold EPD_const. pose proof (Z.div_mod p 4). pose proof (Z.div_mod (p + -0x58A364) 4). Z.div_mod_to_equations. lia. Qed.
(* any address: that of the dword containing it *)
Theorem C40_const_any : forall p, 0x58A364 + 4 * EPD_const p = p - p mod 4.
Proof. intros p. unfold EPD_const. Z.div_mod_to_equations. lia. Qed.
(* indices are unique modulo 2^30 *)
Theorem C40_unique : forall p i j, dword_of p i -> dword_of p j -> idx i = idx j.
Proof.
  unfold dword_of, u32, idx. intros p i j Hi Hj. rewrite <- Hj in Hi.
  assert (E : (4 * i) mod (4 * 2^30) = (4 * j) mod (4 * 2^30)).
  { change (4 * 2^30) with (2^32). replace (4 * i) with ((0x58A364 + 4 * i) - 0x58A364) by lia. replace (4 * j) with ((0x58A364 + 4 * j) - 0x58A364) by lia.
    rewrite Zminus_mod, Hi, <- Zminus_mod. reflexivity. }
  rewrite !Z.mul_mod_distr_l in E by lia. lia.
Qed.
(* the value computed at run time *)
Definition EPD_value (p : Z) : Z := u32 (p - 0x58A364) / 4.
(* it is the index of the same dword as the compile-time value ... *)
Theorem C40_runtime_value : forall p, p mod 4 = 0 -> dword_of p (EPD_value p) /\ idx (EPD_value p) = idx (EPD_const p).
Proof.
  intros p Hp.
  assert (A : dword_of p (EPD_value p)).
  { unfold dword_of, EPD_value, u32. assert (E : ((p - 0x58A364) mod 2^32) mod 4 = 0).
    { change (2^32) with (4 * 2^30). rewrite Z.rem_mul_r by lia. rewrite Z.add_mod, Z.mul_mod, Z_mod_same_full by lia. cbn.
      rewrite Z.add_0_r, Z.mod_mod by lia. Z.div_mod_to_equations. lia. }
    assert (E2 : 4 * ((p - 0x58A364) mod 2^32 / 4) = (p - 0x58A364) mod 2^32) by (Z.div_mod_to_equations; lia).
    rewrite E2, Zplus_mod_idemp_r. f_equal. lia. }
  split; [exact A|]. apply (C40_unique p); [exact A|]. unfold dword_of. rewrite C40_const by exact Hp. reflexivity.
Qed.
(* ... and the same number for addresses from 0x58A364 on, *)
Theorem C40_runtime_same : forall p, 0x58A364 <= p < 2^32 -> EPD_value p = EPD_const p.
Proof. intros p Hp. unfold EPD_value, EPD_const. rewrite u32_small by lia. f_equal. Qed.
(* but not below: there the two numbers differ in their top two bits. *)
Theorem C40_runtime_below_refuted : forall p, 0 <= p < 0x58A364 -> EPD_value p <> u32 (EPD_const p) /\ EPD_value p = u32 (EPD_const p) - 3 * 2^30.
Proof.
  intros p Hp. unfold EPD_value, EPD_const. rewrite (u32_eq (p - 0x58A364) (p - 0x58A364 + 2^32) (-1)) by lia.
  assert (E : u32 ((p + -0x58A364) / 4) = (p + -0x58A364) / 4 + 2^32).
  { rewrite <- (u32_small ((p + -0x58A364) / 4 + 2^32)); [apply (u32_eq _ _ (-1)); lia|]. Z.div_mod_to_equations. lia. }
  rewrite E. rewrite u32_small by lia.
  replace (p - 0x58A364 + 2^32) with (p + -0x58A364 + 2^30 * 4) by lia. rewrite Z.div_add by lia. lia.
Qed.

Lemma EPD_acts_shift a : EPD_acts a = AddNumber a (-0x58A364) :: irshift_acts a 2.
Proof. reflexivity. Qed.
Lemma EPD_acts_do prot a m : plain a -> prot (idx a) = false -> exists m',
  acts_do prot m (EPD_acts a) m' /\ get m' a = EPD_value (get m a) /\ (forall b, idx a <> idx b -> get m' b = get m b).
Proof.
  intros Hp Hq. rewrite EPD_acts_shift.
  set (m1 := upd m a (u32 (get m a + u32 (-0x58A364)))).
  destruct (xacts_do prot a Hp Hq ((SetTo, 0, Z.ones 2) :: ir_ops 2 0 (Z.to_nat (32 - 2))) m1) as (m' & A & B & C).
  exists m'. split; [|split].
  - apply do_cons_M; [exact Hp|exact Hq|]. exact A.
  - rewrite B. rewrite irshift_val by (try lia; apply get_range). unfold m1. rewrite get_upd_eq, Z.shiftr_div_pow2, u32_idem by lia.
    rewrite u32_add_r. unfold EPD_value. reflexivity.
  - intros b Hb. rewrite C by exact Hb. unfold m1. apply get_upd_ne. exact Hb.
Qed.

Section W.
Variable w : world.
Hypothesis Hw : world_ok w.
Variable T : nat -> Z.
(* rvalue argument: converted in place *)
Theorem C40_inplace : forall k a m, valcell w a -> placed w T k (EPD_inplace T k a) ->
  does w T k (EPD_inplace T k a) (tmp [] []) m [(a, EPD_value (get m a))].
Proof.
  intros k a m Ha Hp. destruct (EPD_acts_do (W_prot w) a m (proj1 (proj1 Ha)) (proj2 (proj1 Ha))) as (m' & A & B & C).
  eapply cell_does; eauto. apply conds_nil.
Qed.
Variable same same_u : dst -> dst -> bool.
Hypothesis Hsame : forall a b, same a b = true -> u32 (dst_epd a) = u32 (dst_epd b).
(* other variables: the shared trigger, called from anywhere (the last trigger
   of the caller continues at it, etc.py 87), any destination cell *)
Theorem C40_call : forall f k nexttrg dst p m,
  W_P w (pa f) = Some (EPD_ftrg f) ->
  In p (W_vars w) -> ordinary m p ->
  patchable w (f + 1) -> patchable w (setter f + 4) -> patchable w (setter f + 5) ->
  NoDup [idx (f + 1); idx (setter f + 4); idx (setter f + 5)] ->
  writable w dst -> idx dst <> idx (f + 1) -> idx dst <> idx (setter f + 4) -> idx dst <> idx (setter f + 5) ->
  let code := SeqCompute same same_u T k (EPD_call f (pa nexttrg) dst p) in
  placed w T k code -> T (k + length code)%nat = f ->
  exists m', runs w (lbl T k, m) (pa nexttrg, m') /\ get m' dst = EPD_value (get m (vc p FVal)) /\
    forall b, ~ tmp [p] [f + 1; setter f + 4; setter f + 5; dst] b -> get m' b = get m b.
Proof.
  intros f k nexttrg dst p m HF Hp Ho P1 P2 P3 ND Hd D1 D2 D3 code Hpl HT.
  set (s4 := setter f + 4) in *. set (s5 := setter f + 5) in *.
  assert (Hg : good_list w (EPD_call f (pa nexttrg) dst p)).
  { intros d md s Hin. cbn in Hin. destruct Hin as [E|[E|[E|[]]]]; injection E as <- <- <-; split; auto. }
  destruct (seq_plain w Hw same same_u Hsame T k _ [(DExpr (f + 1), SetTo, SConst (pa nexttrg)); (DExpr s4, SetTo, SConst dst); (DExpr s5, SetTo, SVar p)] m Hg)
    as (m1 & A & B & C).
  { intros v Hv. cbn in Hv. destruct Hv as [<-|[]]. exact Ho. }
  { exact Hpl. }
  { reflexivity. }
  assert (NS : forall a, patchable w a -> ~ scratch [p] a).
  { intros a [_ Ha] (v & g & Hv & _ & E). destruct Hv as [<-|[]]. apply (Ha p g Hp E). }
  assert (S1 : idx (f + 1) <> idx s4 /\ idx (f + 1) <> idx s5 /\ idx s4 <> idx s5).
  { inversion_clear ND as [|? ? N1 N2]. inversion_clear N2 as [|? ? N3 N4]. cbn in N1, N3. repeat split; intros E; [apply N1|apply N1|apply N3]; rewrite E; auto. }
  destruct S1 as (S1 & S2 & S3).
  assert (PV : forall g, idx (f + 1) <> idx (vc p g) /\ idx s4 <> idx (vc p g)) by (intros g; split; [apply P1|apply P2]; exact Hp).
  assert (E1 : get m1 (f + 1) = pa nexttrg).
  { rewrite B by (apply NS; exact P1). cbn [assign_all fold_left assign1 dst_epd do_mod]. rewrite get_upd_ne by auto. rewrite get_upd_ne by auto. rewrite get_upd_eq, u32_idem. unfold pa. apply u32_idem. }
  assert (E4 : get m1 s4 = u32 dst).
  { rewrite B by (apply NS; exact P2). cbn [assign_all fold_left assign1 dst_epd do_mod]. rewrite get_upd_ne by auto. rewrite get_upd_eq. apply u32_idem. }
  assert (E5 : get m1 s5 = get m (vc p FVal)).
  { rewrite B by (apply NS; exact P3). cbn [assign_all fold_left assign1 dst_epd]. rewrite get_upd_eq.
    rewrite !(get_upd_ne _ _ (vc p _)) by apply PV. rewrite (proj1 Ho). change 0xFFFFFFFF with (Z.ones 32).
    rewrite do_modx_full by apply get_range. cbn [do_mod]. apply u32_small, get_range. }
  destruct (EPD_acts_do (W_prot w) s5 m1 (proj1 (proj1 P3)) (proj2 (proj1 P3))) as (m2 & X & Y & Z2).
  set (m3 := upd m2 dst (get m2 s5)). exists m3.
  assert (E4' : get m2 s4 = u32 dst) by (rewrite Z2 by auto; exact E4).
  split; [|split].
  - eapply steps_trans; [exact A|]. unfold lbl. replace (k + length (SeqCompute same same_u T k (EPD_call f (pa nexttrg) dst p)))%nat with (k + length code)%nat by reflexivity.
    rewrite HT. eapply run_true; [exact HF|reflexivity|apply conds_nil| |].
    + eapply do_app with (m1 := m2).
      * intros a Ha mm. unfold EPD_acts in Ha. destruct Ha as [<-|[<-|Ha]]; [discriminate|discriminate|]. apply in_map_iff in Ha. destruct Ha as (t & <- & _). discriminate.
      * exact X.
      * eapply do_cons_D with (a := dst); [exact E4'|apply Hd|apply Hd|]. cbn [do_mod rd]. apply do_nil.
    + cbn [rd]. unfold m3. rewrite get_upd_ne by auto. rewrite Z2 by auto. exact E1.
  - unfold m3. rewrite get_upd_eq. rewrite u32_small by apply get_range. rewrite Y, E5. reflexivity.
  - intros b Hb. assert (Hc : forall c, In c [f + 1; s4; s5; dst] -> idx c <> idx b).
    { intros c Hc E. apply Hb. right. exists c. auto. }
    unfold m3. rewrite get_upd_ne by (apply Hc; cbn; auto). rewrite Z2 by (apply Hc; cbn; auto).
    rewrite B by (intros Hs; apply Hb; left; exact Hs). cbn [assign_all fold_left assign1 dst_epd].
    rewrite !get_upd_ne by (apply Hc; cbn; auto). reflexivity.
Qed.
End W.

Definition ex_f : Z := exT 1.
Definition ex_v : Z := vb_var 1000 0.
Definition ex_call : list trig := SeqCompute fresh_same user_same exT 0 (EPD_call ex_f (pa 200000) 150000 ex_v).
Definition ex_w : world := exworld 1 (ex_call ++ [EPD_ftrg ex_f]).
Example C40_example : exists m',
  runs ex_w (lbl exT 0, exmem 1 [0x6509B0]) (pa 200000, m') /\ get m' 150000 = (0x6509B0 - 0x58A364) / 4.
Proof.
  assert (HP : forall e, 100000 <= e < 2^28 -> patchable ex_w e) by (intros e He; apply exworld_patchable; [reflexivity|exact He]).
  destruct (C40_call ex_w (exworld_ok 1 _ ltac:(reflexivity)) exT fresh_same user_same fresh_same_ok ex_f 0 200000 150000 ex_v (exmem 1 [0x6509B0]))
    as (m' & A & B & _).
  - vm_compute. reflexivity.
  - vm_compute. auto.
  - vm_compute. auto.
  - apply HP. vm_compute. split; congruence.
  - apply HP. vm_compute. split; congruence.
  - apply HP. vm_compute. split; congruence.
  - repeat constructor; vm_compute; intuition discriminate.
  - apply (HP 150000). lia.
  - vm_compute. discriminate.
  - vm_compute. discriminate.
  - vm_compute. discriminate.
  - intros i t Hi. apply (exworld_placed 1 (ex_call ++ [EPD_ftrg ex_f])); [vm_compute; reflexivity|vm_compute; reflexivity|].
    rewrite nth_error_app1; [exact Hi|]. apply nth_error_Some. fold ex_call in Hi. congruence.
  - reflexivity.
  - exists m'. split; [exact A|]. rewrite B. vm_compute. reflexivity.
Qed.

(* ---------- C46 ---------- *)
(* Allocation: different booleans get different bits; each mask is one bit
   below 2^32; the initial content of the bit is the initial value. *)
Definition lb_bit (x : nat * Z) (i : Z) : Prop := snd x = 2^i /\ 0 <= i < 32.
Definition lb_inv (c : lb_class) : Prop :=
  0 <= lb_tbit c <= 32 /\ 0 <= lb_fbit c <= 32 /\ nth_error (lb_init c) (lb_tlv c) = Some 0xFFFFFFFF /\
  nth_error (lb_init c) (lb_flv c) = Some 0.
(* not handed out yet: later light variables, and the free bits of the two current ones *)
Definition lb_free (c : lb_class) (x : nat * Z) : Prop :=
  (fst x >= length (lb_init c))%nat \/
  exists i, lb_bit x i /\ ((fst x = lb_tlv c /\ lb_tbit c <= i) \/ (fst x = lb_flv c /\ lb_fbit c <= i)).
Lemma shl1 i : 0 <= i -> Z.shiftl 1 i = 2^i.
Proof. intros H. rewrite Z.shiftl_1_l. reflexivity. Qed.
Lemma pow2_inj i j : 0 <= i -> 0 <= j -> 2^i = 2^j -> i = j.
Proof. intros Hi Hj H. apply (Z.pow_inj_r 2); lia. Qed.
Lemma lb_new_ok b c x c' : lb_inv c -> lb_new b c = (x, c') ->
  lb_inv c' /\ (exists i, lb_bit x i) /\ lb_free c x /\ ~ lb_free c' x /\ (forall y, lb_free c' y -> lb_free c y) /\
  (exists l, lb_init c' = lb_init c ++ l) /\ nth_error (lb_init c') (fst x) = Some (if b then 0xFFFFFFFF else 0).
Proof.
  intros (I1 & I2 & I3 & I4) H. unfold lb_new in H.
  assert (L1 : (lb_tlv c < length (lb_init c))%nat) by (apply nth_error_Some; congruence).
  assert (L2 : (lb_flv c < length (lb_init c))%nat) by (apply nth_error_Some; congruence).
  assert (NE : lb_tlv c <> lb_flv c) by (intros E; rewrite E in I3; congruence).
  destruct b.
  - destruct (Z.leb_spec 32 (lb_tbit c)); injection H as <- <-; cbn [lb_tlv lb_tbit lb_flv lb_fbit lb_init fst snd].
    + split; [unfold lb_inv; cbn [lb_tlv lb_tbit lb_flv lb_fbit lb_init]|].
      { split; [lia|]. split; [lia|]. rewrite nth_error_app2, Nat.sub_diag by lia. rewrite nth_error_app1 by lia. auto. }
      split; [exists 0; split; [reflexivity|lia]|]. split; [left; cbn; lia|]. split.
      { intros [F|(i & [F1 F2] & [[F3 F4]|[F3 F4]])]; cbn in *; [rewrite app_length in F; cbn in F; lia| |lia].
        change 1 with (2^0) in F1. apply pow2_inj in F1; lia. }
      split. { intros y [F|(i & F1 & [[F3 F4]|[F3 F4]])]; cbn in *; [rewrite app_length in F; left; lia|left; lia|right; exists i; auto]. }
      split; [exists [0xFFFFFFFF]; reflexivity|]. rewrite nth_error_app2, Nat.sub_diag by lia. reflexivity.
    + rewrite shl1 by lia. split; [unfold lb_inv; cbn [lb_tlv lb_tbit lb_flv lb_fbit lb_init]; repeat split; auto; lia|].
      split; [exists (lb_tbit c); split; [reflexivity|lia]|].
      split; [right; exists (lb_tbit c); split; [split; [reflexivity|lia]|left; cbn; lia]|]. split.
      { intros [F|(i & [F1 F2] & [[F3 F4]|[F3 F4]])]; cbn in *; [lia| |contradiction]. apply pow2_inj in F1; lia. }
      split. { intros y [F|(i & F1 & [[F3 F4]|[F3 F4]])]; cbn in *; [left; exact F|right; exists i; split; [exact F1|left; lia]|right; exists i; auto]. }
      split; [exists []; rewrite app_nil_r; reflexivity|exact I3].
  - destruct (Z.leb_spec 32 (lb_fbit c)); injection H as <- <-; cbn [lb_tlv lb_tbit lb_flv lb_fbit lb_init fst snd].
    + split; [unfold lb_inv; cbn [lb_tlv lb_tbit lb_flv lb_fbit lb_init]|].
      { split; [lia|]. split; [lia|]. split; [rewrite nth_error_app1 by lia; exact I3|]. rewrite nth_error_app2, Nat.sub_diag by lia. reflexivity. }
      split; [exists 0; split; [reflexivity|lia]|]. split; [left; cbn; lia|]. split.
      { intros [F|(i & [F1 F2] & [[F3 F4]|[F3 F4]])]; cbn in *; [rewrite app_length in F; cbn in F; lia|lia|].
        change 1 with (2^0) in F1. apply pow2_inj in F1; lia. }
      split. { intros y [F|(i & F1 & [[F3 F4]|[F3 F4]])]; cbn in *; [rewrite app_length in F; left; lia|right; exists i; auto|left; lia]. }
      split; [exists [0]; reflexivity|]. rewrite nth_error_app2, Nat.sub_diag by lia. reflexivity.
    + rewrite shl1 by lia. split; [unfold lb_inv; cbn [lb_tlv lb_tbit lb_flv lb_fbit lb_init]; repeat split; auto; lia|].
      split; [exists (lb_fbit c); split; [reflexivity|lia]|].
      split; [right; exists (lb_fbit c); split; [split; [reflexivity|lia]|right; cbn; lia]|]. split.
      { intros [F|(i & [F1 F2] & [[F3 F4]|[F3 F4]])]; cbn in *; [lia|congruence|]. apply pow2_inj in F1; lia. }
      split. { intros y [F|(i & F1 & [[F3 F4]|[F3 F4]])]; cbn in *; [left; exact F|right; exists i; auto|right; exists i; split; [exact F1|right; lia]]. }
      split; [exists []; rewrite app_nil_r; reflexivity|exact I4].
Qed.
Lemma lb_news_ok l : forall c xs c', lb_inv c -> lb_news l c = (xs, c') ->
  NoDup xs /\ (forall x, In x xs -> lb_free c x) /\ (exists e : list Z, lb_init c' = lb_init c ++ e) /\
  Forall2 (fun (b : bool) (x : nat * Z) => (exists i, lb_bit x i) /\ nth_error (lb_init c') (fst x) = Some (if b then 0xFFFFFFFF else 0)) l xs.
Proof.
  induction l as [|b l IH]; intros c xs c' HI H; cbn [lb_news] in H.
  - injection H as <- <-. split; [constructor|]. split; [intros x []|]. split; [exists []; rewrite app_nil_r; reflexivity|constructor].
  - destruct (lb_new b c) as [x c1] eqn:E1. destruct (lb_news l c1) as [xs1 c2] eqn:E2. injection H as <- <-.
    destruct (lb_new_ok b c x c1 HI E1) as (A1 & A2 & A3 & A4 & A5 & (e1 & A6) & A7).
    destruct (IH c1 xs1 c2 A1 E2) as (B1 & B2 & (e2 & B3) & B4).
    split; [constructor; [intros Hin; apply A4; apply B2; exact Hin|exact B1]|].
    split. { intros y [<-|Hy]; [exact A3|apply A5, B2, Hy]. }
    split; [exists (e1 ++ e2); rewrite B3, A6, app_assoc; reflexivity|].
    constructor; [|exact B4]. split; [exact A2|]. rewrite B3. rewrite nth_error_app1; [exact A7|]. apply nth_error_Some. congruence.
Qed.

(* Operations on a program's booleans, by number *)
Inductive lb_op := LSet (i : nat) | LClear (i : nat) | LToggle (i : nat).
Definition lb_spec1 (op : lb_op) (s : nat -> bool) : nat -> bool :=
  let '(i, v) := match op with LSet i => (i, true) | LClear i => (i, false) | LToggle i => (i, negb (s i)) end in
  fun j => if (j =? i)%nat then v else s j.
Definition lb_spec (ops : list lb_op) (s : nat -> bool) : nat -> bool := fold_left (fun s op => lb_spec1 op s) ops s.
Definition lb_num (op : lb_op) : nat := match op with LSet i => i | LClear i => i | LToggle i => i end.
(* the actions; cell: where light variable number n is *)
Definition lb_act (cell : nat -> Z) (xs : list (nat * Z)) (op : lb_op) : act :=
  let x := nth (lb_num op) xs (0%nat, 0) in
  match op with LSet _ => lb_Set (cell (fst x)) (snd x) | LClear _ => lb_Clear (cell (fst x)) (snd x) | LToggle _ => lb_Toggle (cell (fst x)) (snd x) end.

Lemma land_pow2 d i : 0 <= i -> Z.land d (2^i) = if Z.testbit d i then 2^i else 0.
Proof.
  intros Hi. apply Z.bits_inj'. intros j Hj. rewrite Z.land_spec, Z.pow2_bits_eqb by lia.
  destruct (Z.eqb_spec i j) as [<-|N].
  - rewrite andb_true_r. destruct (Z.testbit d i); [|rewrite Z.bits_0; reflexivity].
    rewrite Z.pow2_bits_eqb, Z.eqb_refl by lia. reflexivity.
  - rewrite andb_false_r. destruct (Z.testbit d i); [|rewrite Z.bits_0; reflexivity].
    rewrite Z.pow2_bits_eqb by lia. destruct (Z.eqb_spec i j); [contradiction|reflexivity].
Qed.
Lemma u32_pow2 i : 0 <= i < 32 -> u32 (2^i) = 2^i.
Proof. intros H. apply u32_small. split; [apply Z.pow_nonneg; lia|apply Z.pow_lt_mono_r; lia]. Qed.
Lemma combine_bit d i v j : 0 <= i -> 0 <= j -> (v = 2^i \/ v = 0) ->
  Z.testbit (Z.lor (Z.ldiff d (2^i)) v) j = if j =? i then negb (v =? 0) else Z.testbit d j.
Proof.
  intros Hi Hj Hv. rewrite Z.lor_spec, Z.ldiff_spec, Z.pow2_bits_eqb by lia. rewrite (Z.eqb_sym i j).
  assert (P : 2^i <> 0) by (pose proof (Z.pow_pos_nonneg 2 i); lia).
  destruct Hv as [-> | ->]; rewrite ?Z.bits_0, ?Z.pow2_bits_eqb by lia; rewrite ?(Z.eqb_sym i j);
  destruct (Z.eqb_spec j i); cbn; rewrite ?andb_false_r, ?andb_true_r, ?orb_false_r; try reflexivity; destruct (Z.eqb_spec (2^i) 0); [lia|reflexivity].
Qed.
Lemma modx_bit (op : lb_op) d i j : 0 <= i < 32 -> 0 <= j < 32 ->
  Z.testbit (match op with LSet _ => wset (2^i) d (2^i) | LClear _ => wset (2^i) d 0 | LToggle _ => wadd (2^i) d (2^i) end) j =
    if j =? i then match op with LSet _ => true | LClear _ => false | LToggle _ => negb (Z.testbit d i) end else Z.testbit d j.
Proof.
  intros Hi Hj. assert (P : 0 < 2^i) by (apply Z.pow_pos_nonneg; lia). destruct op; unfold wset, wadd.
  - rewrite Z.land_diag, combine_bit by (auto; lia). destruct (Z.eqb_spec (2^i) 0); [lia|reflexivity].
  - rewrite Z.land_0_l, combine_bit by (auto; lia). reflexivity.
  - rewrite Z.land_diag, (land_pow2 d) by lia.
    assert (E : Z.land ((if Z.testbit d i then 2^i else 0) + 2^i) (2^i) = if Z.testbit d i then 0 else 2^i).
    { destruct (Z.testbit d i).
      - replace (2^i + 2^i) with (2^(i + 1)) by (rewrite Z.pow_add_r by lia; lia). rewrite land_pow2, Z.pow2_bits_eqb by lia.
        destruct (Z.eqb_spec (i + 1) i); [lia|reflexivity].
      - apply Z.land_diag. }
    rewrite E, combine_bit by (try lia; destruct (Z.testbit d i); auto). destruct (j =? i); [|reflexivity].
    destruct (Z.testbit d i); [reflexivity|]. destruct (Z.eqb_spec (2^i) 0); [lia|reflexivity].
Qed.

(* Where the booleans live: cells of different light variables differ, can be
   named by actions and are not program text. *)
Definition cells_ok (prot : Z -> bool) (cell : nat -> Z) (N : nat) : Prop :=
  (forall n, (n < N)%nat -> plain (cell n) /\ prot (idx (cell n)) = false) /\
  (forall n k, (n < N)%nat -> (k < N)%nat -> idx (cell n) = idx (cell k) -> n = k).
(* the program's booleans have these values *)
Definition lb_holds (cell : nat -> Z) (xs : list (nat * Z)) (m : mem) (s : nat -> bool) : Prop :=
  forall i x, nth_error xs i = Some x ->
    conds_are m [lb_IsSet (cell (fst x)) (snd x)] (s i) /\ conds_are m [lb_IsCleared (cell (fst x)) (snd x)] (negb (s i)).
Lemma lb_conds cell x m i : plain (cell (fst x)) -> lb_bit x i ->
  conds_are m [lb_IsSet (cell (fst x)) (snd x)] (Z.testbit (get m (cell (fst x))) i) /\
  conds_are m [lb_IsCleared (cell (fst x)) (snd x)] (negb (Z.testbit (get m (cell (fst x))) i)).
Proof.
  intros Hp [Hx Hi]. assert (P : 0 < 2^i) by (apply Z.pow_pos_nonneg; lia). unfold lb_IsSet, lb_IsCleared. rewrite Hx. split.
  - eapply eq_ind; [apply conds_one_MX; exact Hp|]. rewrite u32_pow2, land_pow2 by lia. cbn [do_cmp]. change (u32 1) with 1.
    destruct (Z.testbit _ i); lia.
  - eapply eq_ind; [apply conds_one_MX; exact Hp|]. rewrite u32_pow2, land_pow2 by lia. cbn [do_cmp]. change (u32 0) with 0.
    destruct (Z.testbit _ i); lia.
Qed.
(* Any booleans a program creates, any sequence of operations on them: every
   boolean has the value of its own last operation, whatever happens to others. *)
Theorem C46_booleans : forall inits prot cell m0 ops xs c, lb_news inits lb_start = (xs, c) -> cells_ok prot cell (length (lb_init c)) ->
  (forall n v, nth_error (lb_init c) n = Some v -> get m0 (cell n) = v) ->
  (forall op, In op ops -> (lb_num op < length inits)%nat) ->
  exists m, acts_do prot m0 (map (lb_act cell xs) ops) m /\
    lb_holds cell xs m (lb_spec ops (fun i => nth i inits false)) /\
    forall b, (forall n, (n < length (lb_init c))%nat -> idx (cell n) <> idx b) -> get m b = get m0 b.
Proof.
  intros inits prot cell m0 ops xs c HN [HC HJ] HM HO.
  destruct (lb_news_ok inits lb_start xs c) as (ND & _ & _ & HF); [|exact HN|].
  { unfold lb_inv, lb_start. cbn. repeat split; lia. }
  set (val (m : mem) (i : Z) (x : nat * Z) := Z.testbit (get m (cell (fst x))) i).
  assert (LEN : length inits = length xs) by (clear - HF; induction HF; cbn; congruence).
  assert (BIT : forall n x, nth_error xs n = Some x -> exists i, lb_bit x i).
  { clear - HF. induction HF as [|b x l xs [H _] _ IH]; intros [|n] y Hy; try discriminate; [injection Hy as <-; exact H|exact (IH n y Hy)]. }
  assert (INIT : forall n x i, nth_error xs n = Some x -> lb_bit x i -> val m0 i x = nth n inits false).
  { intros n x i Hn [_ Hi].
    assert (Q : nth_error (lb_init c) (fst x) = Some (if nth n inits false then 0xFFFFFFFF else 0)).
    { clear - HF Hn. revert n Hn. induction HF as [|b y l xs [_ H] _ IH]; intros [|n] Hn; try discriminate; [injection Hn as <-; exact H|exact (IH n Hn)]. }
    unfold val. rewrite (HM _ _ Q). destruct (nth n inits false); [|apply Z.bits_0].
    change 0xFFFFFFFF with (Z.ones 32). apply Z.ones_spec_low. lia. }
  assert (LT : forall n x, nth_error xs n = Some x -> (fst x < length (lb_init c))%nat).
  { clear - HF. induction HF as [|b x l xs [_ H] _ IH]; intros [|n] y Hy; try discriminate; [injection Hy as <-; apply nth_error_Some; congruence|exact (IH n y Hy)]. }
  clear HM HN HF.
  assert (MAIN : forall ops m s, (forall op, In op ops -> (lb_num op < length xs)%nat) ->
    (forall n x i, nth_error xs n = Some x -> lb_bit x i -> val m i x = s n) ->
    exists m', acts_do prot m (map (lb_act cell xs) ops) m' /\
      (forall n x i, nth_error xs n = Some x -> lb_bit x i -> val m' i x = lb_spec ops s n) /\
      forall b, (forall n, (n < length (lb_init c))%nat -> idx (cell n) <> idx b) -> get m' b = get m b).
  { clear ops HO. induction ops as [|op ops IH]; intros m s HO HV.
    - exists m. split; [apply do_nil|]. split; [exact HV|auto].
    - pose proof (HO op (or_introl eq_refl)) as Hn. destruct (nth_error xs (lb_num op)) as [x|] eqn:Ex; [|apply nth_error_None in Ex; lia].
      destruct (BIT _ _ Ex) as (i & Hx). pose proof Hx as [Hxi Hi].
      set (d := get m (cell (fst x))).
      set (r := match op with LSet _ => wset (2^i) d (2^i) | LClear _ => wset (2^i) d 0 | LToggle _ => wadd (2^i) d (2^i) end).
      destruct (IH (upd m (cell (fst x)) r) (lb_spec1 op s)) as (m' & A & B & C).
      + intros o Ho. apply HO. right. exact Ho.
      + intros n y j Hy Hj. pose proof Hj as [Hj1 Hj2]. unfold val.
        assert (Hr : 0 <= r < 2^32).
        { pose proof (get_range m (cell (fst x))) as G. pose proof (u32_range (2^i)) as U. rewrite u32_pow2 in U by exact Hi. fold d in G.
          unfold r. destruct op; [apply (do_modx_range SetTo)|apply (do_modx_range SetTo)|apply (do_modx_range Add)]; try assumption. split; reflexivity || discriminate. }
        assert (SP : lb_spec1 op s n = if (n =? lb_num op)%nat then match op with LSet _ => true | LClear _ => false | LToggle _ => negb (s (lb_num op)) end else s n)
          by (destruct op; reflexivity).
        rewrite SP. destruct (Nat.eq_dec (fst y) (fst x)) as [E|E].
        * rewrite E, get_upd_eq, u32_small by exact Hr. unfold r. rewrite modx_bit by lia.
          destruct (Nat.eqb_spec n (lb_num op)) as [->|N].
          -- rewrite Ex in Hy. injection Hy as <-. assert (j = i) as -> by (apply pow2_inj; lia). rewrite Z.eqb_refl.
             destruct op; try reflexivity. f_equal. exact (HV _ _ _ Ex Hx).
          -- destruct (Z.eqb_spec j i) as [->|Nj].
             ++ exfalso. apply N. apply (proj1 (NoDup_nth_error xs) ND); [apply nth_error_Some; congruence|]. rewrite Hy, Ex. f_equal.
                destruct x, y. cbn in *. congruence.
             ++ unfold d. rewrite <- E. exact (HV _ _ _ Hy Hj).
        * rewrite get_upd_ne by (intros E2; apply E; apply HJ; [exact (LT _ _ Hy)|exact (LT _ _ Ex)|congruence]).
          destruct (Nat.eqb_spec n (lb_num op)) as [->|N]; [rewrite Ex in Hy; injection Hy as <-; contradiction|]. exact (HV _ _ _ Hy Hj).
      + exists m'. split; [|split; [exact B|]].
        * cbn [map]. assert (EN : nth (lb_num op) xs (0%nat, 0) = x) by (apply nth_error_nth; exact Ex).
          unfold lb_act at 1. rewrite EN. destruct (HC (fst x) (LT _ _ Ex)) as [P1 P2].
          unfold r in A. destruct op; unfold lb_Set, lb_Clear, lb_Toggle; rewrite Hxi; apply do_cons_MX; auto; rewrite u32_pow2 by lia; cbn [do_modx]; exact A.
        * intros b Hb. rewrite C by exact Hb. apply get_upd_ne. apply Hb. exact (LT _ _ Ex). }
  destruct (MAIN ops m0 (fun n => nth n inits false)) as (m & A & B & C); [rewrite <- LEN; exact HO|exact INIT|].
  exists m. split; [exact A|]. split; [|exact C]. intros n x Hn. destruct (BIT n x Hn) as (i & Hi).
  rewrite <- (B n x i Hn Hi). unfold val. apply lb_conds; [apply HC; exact (LT _ _ Hn)|exact Hi].
Qed.
(* 40 booleans initially true need two light variables; all conditions on the
   statement can be met *)
Example C46_example : exists xs c, lb_news (repeat true 40 ++ repeat false 3) lb_start = (xs, c) /\ lb_init c = [0xFFFFFFFF; 0; 0xFFFFFFFF] /\
  nth_error xs 39 = Some (2%nat, 128) /\ nth_error xs 42 = Some (1%nat, 4) /\
  cells_ok (fun _ => false) (fun n => 0x8000 + Z.of_nat n) 3.
Proof.
  exists (fst (lb_news (repeat true 40 ++ repeat false 3) lb_start)), (snd (lb_news (repeat true 40 ++ repeat false 3) lb_start)).
  split; [apply surjective_pairing|]. split; [vm_compute; reflexivity|]. split; [vm_compute; reflexivity|]. split; [vm_compute; reflexivity|].
  split.
  - intros n Hn. assert (n = 0 \/ n = 1 \/ n = 2)%nat as [-> | [-> | ->]] by lia; (split; [split; [vm_compute; discriminate|reflexivity]|reflexivity]).
  - intros n k Hn Hk. assert (n = 0 \/ n = 1 \/ n = 2)%nat as [-> | [-> | ->]] by lia; assert (k = 0 \/ k = 1 \/ k = 2)%nat as [-> | [-> | ->]] by lia;
      intros E; try reflexivity; vm_compute in E; discriminate E.
Qed.

Print Assumptions C40_const. Print Assumptions C40_const_any. Print Assumptions C40_unique. Print Assumptions C40_runtime_value.
Print Assumptions C40_runtime_same. Print Assumptions C40_runtime_below_refuted. Print Assumptions C40_inplace. Print Assumptions C40_call.
Print Assumptions C46_booleans.

Print Assumptions C40_const_any.
Print Assumptions C40_unique.
Print Assumptions C40_runtime_value.
Print Assumptions C40_inplace.
Print Assumptions C40_call.
Print Assumptions C40_runtime_below_refuted.
