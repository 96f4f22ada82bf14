(* Property C47: the current player and its cache. *)
From Coq Require Import ZArith Lia List Bool ZifyBool ZifyNat Permutation.
From Verif Require Import Word Machine MachineProofs VarModel VarSpec VarProofs OpsSpec OpsBase OpsModel OpsProofs OpsXor MulVar DivVar PropBw CurplModel VbufModel VbufWorld ExWorld SeqRefute ExTools.
Import ListNotations.
Open Scope Z_scope.

(* ---------- specification ---------- *)
(* real current player, cached current player *)
Definition cpstate := (Z * Z)%type.
Definition effect (x : src -> Z) (o : curpl_op) (s : cpstate) : cpstate :=
  let (cp, cache) := s in
  match o with
  | OSet p => (x p, x p)
  | OAdd p => ((cp + x p) mod 2^32, (cache + x p) mod 2^32)
  | OMove d => ((cp + d) mod 2^32, cache)
  | OMoveTo d => (d mod 2^32, cache)
  | ORestore => (cache, cache)
  end.
Definition effects (x : src -> Z) (l : list curpl_op) (s : cpstate) : cpstate := fold_left (fun s o => effect x o s) l s.


(* ---------- conditions and actions that use the unit field ---------- *)
Lemma unit_idx a u : idx (u32 (a - 12 * u) + 12 * u) = idx a.
Proof. unfold idx, u32. lia. Qed.
Lemma conds_unit m a cm n u k : 0 <= u < 2^16 -> plain (a - 12 * u) ->
  conds_are m [DeathsX (a - 12 * u) cm n u k] (do_cmp cm (Z.land (get m a) (u32 k)) (u32 n)).
Proof.
  intros Hu [Hp1 Hp2]. set (w3 := u + enc_cmp cm * 2^16 + 15 * 2^24).
  assert (W0 : u32 w3 = w3) by (apply u32_small; unfold w3; destruct cm; cbn [enc_cmp]; lia).
  assert (W1 : w3 mod 2^16 = u) by (unfold w3; destruct cm; cbn [enc_cmp]; lia).
  assert (W2 : cond_type w3 = 15) by (unfold cond_type, w3; destruct cm; cbn [enc_cmp]; lia).
  assert (W3 : cond_cmp w3 = enc_cmp cm) by (unfold cond_cmp, w3; destruct cm; cbn [enc_cmp]; lia).
  assert (He : eval_cond m (DeathsX (a - 12 * u) cm n u k) = do_cmp cm (Z.land (get m a) (u32 k)) (u32 n)).
  { unfold eval_cond, DeathsX. cbn [c_w3 c_w4 c_player c_mask c_amount rd]. fold w3. rewrite W0, W2, W3. change (cond_off (u32 0x43530000)) with false. cbn [Z.eqb Pos.eqb].
    rewrite compare_enc. unfold target, player_base. rewrite W1. destruct (Z.eqb_spec (u32 (a - 12 * u)) 13); [contradiction|].
    rewrite (get_cong m _ _ (unit_idx a u)). reflexivity. }
  split; cbn [conds_ok eval_conds]; unfold DeathsX at 1; cbn [c_w3 rd]; fold w3; rewrite W0, W2.
  - right. split; [|intros; exact I]. unfold cond_ok, DeathsX. cbn [c_w3 c_w4 c_player rd]. fold w3. rewrite W0, W2, W3. right. right. right.
    split; [reflexivity|]. split; [destruct cm; auto|exact Hp2].
  - cbn [Z.eqb Pos.eqb]. rewrite He. apply andb_true_r.
Qed.
Lemma do_unit prot m a md v u loc fl r m' : 0 <= u < 2^16 -> plain (a - 12 * u) -> prot (idx a) = false ->
  acts_do prot (upd m a (do_mod md (get m a) (u32 v))) r m' -> acts_do prot m (SetMemoryC a md v u loc fl :: r) m'.
Proof.
  intros Hu [Hp1 Hp2] Hpr [Hok Hex]. set (x := u + 45 * 2^16 + enc_mod md * 2^24).
  assert (W0 : u32 x = x) by (apply u32_small; unfold x; destruct md; cbn [enc_mod]; lia).
  assert (W1 : x mod 2^16 = u) by (unfold x; destruct md; cbn [enc_mod]; lia).
  assert (W2 : act_type x = 45) by (unfold act_type, x; destruct md; cbn [enc_mod]; lia).
  assert (W3 : act_mod x = enc_mod md) by (unfold act_mod, x; destruct md; cbn [enc_mod]; lia).
  assert (FR : 0 <= Z.land fl 0xFD < 2^8).
  { replace (Z.land fl 0xFD) with (Z.land fl 0xFD mod 2^8); [apply Z.mod_pos_bound; lia|]. rewrite <- Z.land_ones, <- Z.land_assoc by lia. reflexivity. }
  assert (F0 : u32 (Z.land fl 0xFD) = Z.land fl 0xFD) by (apply u32_small; lia).
  assert (F1 : act_off (Z.land fl 0xFD) = false) by (unfold act_off; rewrite Z.land_spec; apply andb_false_r).
  assert (F2 : forall k, eff_mask k (Z.land fl 0xFD) = Z.ones 32).
  { intros k. unfold eff_mask, eudx_on. rewrite Z.div_small by lia. reflexivity. }
  assert (TG : idx (target m (u32 (a - 12 * u)) x) = idx a).
  { unfold target, player_base. rewrite W1. destruct (Z.eqb_spec (u32 (a - 12 * u)) 13); [contradiction|]. apply unit_idx. }
  assert (Hx : exec_act m (SetMemoryC a md v u loc fl) = upd m (target m (u32 (a - 12 * u)) x) (do_mod md (get m a) (u32 v))).
  { unfold exec_act, SetMemoryC. cbn [a_w6 a_w7 a_dest a_mask a_val rd]. fold x. rewrite W0, F0, F1, F2, W3, apply_mod_x, (get_cong m _ _ TG), do_modx_full by (apply get_range || apply u32_range). reflexivity. }
  assert (UE : upd m (target m (u32 (a - 12 * u)) x) (do_mod md (get m a) (u32 v)) = upd m a (do_mod md (get m a) (u32 v))) by (unfold upd; rewrite TG; reflexivity).
  rewrite UE in Hx. split.
  - right. split; [|rewrite Hx; exact Hok]. unfold act_ok, SetMemoryC. cbn [a_w6 a_w7 a_dest a_mask a_val rd]. fold x. rewrite W0, F0, W2, W3.
    split; [reflexivity|]. intros _. split; [apply enc_mod_cases|]. split; [exact Hp2|]. rewrite TG. exact Hpr.
  - cbn [exec_acts]. unfold SetMemoryC at 1. cbn [a_w6 rd]. fold x. rewrite W0, W2, Hx. exact Hex.
Qed.
(* modcurpl.py 56: the player number of the condition is EPD(0x6509B0) - 12 u; it
   names the wanted dword unless u = 16928 *)
Lemma cp_unit_plain u : 234 <= u <= 65535 -> u <> 16928 -> plain (CPcell - 12 * u).
Proof.
  intros Hu N. unfold plain, special. change CPcell with 203155.
  assert (E : exists q, u32 (203155 - 12 * u) = 203155 - 12 * u + 4294967296 * q /\ (q = 0 \/ q = 1)).
  { unfold u32. destruct (Z.leb_spec u 16929) as [L|L]; [exists 0; rewrite Z.mod_small; lia|]. exists 1. split; [|lia]. rewrite <- (Z.mod_add _ 1) by lia. rewrite Z.mod_small; lia. }
  destruct E as (q & -> & Hq). split; [lia|]. lia.
Qed.
Theorem C47_group_player_refuted : exists u, 234 <= u <= 65535 /\ CPcell - 12 * u = 19 /\ special 19 = true /\
  forall m cm n k, ~ (exists b, conds_are m [DeathsX (CPcell - 12 * u) cm n u k] b).
Proof.
  exists 16928. split; [lia|]. split; [reflexivity|]. split; [reflexivity|]. intros m cm n k (b & [C _]). cbn [conds_ok] in C.
  assert (W2 : cond_type (u32 (16928 + enc_cmp cm * 2^16 + 15 * 2^24)) = 15) by (destruct cm; reflexivity).
  unfold DeathsX in C. cbn [c_w3 rd] in C. rewrite W2 in C. destruct C as [C|[C _]]; [discriminate|].
  unfold cond_ok in C. cbn [c_w3 c_w4 c_player rd] in C. rewrite W2 in C. destruct C as [C|[C|[C|(_ & _ & C)]]]; discriminate.
Qed.
(* the sum of the bits read *)
Fixpoint bitsum (v : Z) (l : list Z) : Z := match l with [] => 0 | i :: l => Z.b2z (Z.testbit v i) * 2^i + bitsum v l end.
Lemma bitsum_perm v l l' : Permutation l l' -> bitsum v l = bitsum v l'.
Proof. induction 1; cbn [bitsum] in *; lia. Qed.
Lemma bitsum_app v l l' : bitsum v (l ++ l') = bitsum v l + bitsum v l'.
Proof. induction l as [|x l IH]; [reflexivity|]. cbn [app bitsum] in *. lia. Qed.
Lemma bitsum_seq v n : bitsum v (map Z.of_nat (seq 0 n)) = fld v 0 (Z.of_nat n).
Proof.
  induction n as [|n IH]; [symmetry; apply fld_0|]. rewrite seq_S, map_app, bitsum_app, IH. replace (Z.of_nat (S n)) with (Z.of_nat n + 1) by lia. rewrite fld_S by lia.
  cbn [map bitsum plus]. rewrite Z.add_0_l, Z.add_0_r. reflexivity.
Qed.
Lemma bitsum_all v l : 0 <= v < 2^32 -> Permutation l (map Z.of_nat (seq 0 32)) -> bitsum v l = v.
Proof. intros Hv Hl. rewrite (bitsum_perm _ _ _ Hl), bitsum_seq. unfold fld. rewrite Z.pow_0_r, Z.div_1_r. apply Z.mod_small. exact Hv. Qed.
Lemma land_bit v i : 0 <= i -> Z.land v (2^i) = Z.b2z (Z.testbit v i) * 2^i.
Proof.
  intros Hi. apply Z.bits_inj'. intros j Hj. rewrite Z.land_spec, Z.pow2_bits_eqb by lia. rewrite Z.mul_pow2_bits by lia. destruct (Z.eqb_spec i j) as [<-|N].
  - rewrite Z.sub_diag, Z.b2z_bit0. apply andb_true_r.
  - rewrite andb_false_r. destruct (Z.testbit v i); cbn [Z.b2z]; [|symmetry; apply Z.bits_0].
    symmetry. destruct (Z.ltb_spec j i); [apply Z.testbit_neg_r; lia|]. apply Z.bits_above_log2; cbn; lia.
Qed.

Section Curpl.
Variables (w : world) (T : nat -> Z) (K A : Z).
Hypothesis Hw : world_ok w.
Hypothesis HK : In K (W_vars w).
Hypothesis PA : patchable w A.
Hypothesis PC : patchable w CPcell.
Hypothesis NAC : idx A <> idx CPcell.
Let vars := W_vars w.

(* variables are in ordinary condition, the cache sends with SetTo, and the
   condition of f_getcurpl compares with the cached value *)
Record cp_ok (m : mem) : Prop := mk_cp_ok {
  j_ord : forall v, In v vars -> ordinary m v;
  j_mod : get m (vc K FMod) = w6 SetTo;
  j_eq : get m (vc K FVal) = get m A }.
Definition now (m : mem) : cpstate := (get m CPcell, get m (vc K FVal)).
(* everything else is kept *)
Definition rest (m m' : mem) : Prop := forall b, ~ scratch vars b -> idx (vc K FVal) <> idx b -> idx A <> idx b -> idx CPcell <> idx b -> get m' b = get m b.

Lemma ne_sym x y : idx x <> idx y -> idx y <> idx x.
Proof. congruence. Qed.
Lemma vs v u f g : In v vars -> In u vars -> v <> u \/ f <> g -> idx (vc v f) <> idx (vc u g).
Proof. apply vsepc, Hw. Qed.
Lemma not_scr_val v : In v vars -> ~ scratch vars (vc v FVal).
Proof. intros Hv (u & f & Hu & Hf & Q). revert Q. apply vs; auto. right. destruct Hf as [->|[->| ->]]; discriminate. Qed.
Lemma not_scr_patch c : patchable w c -> ~ scratch vars c.
Proof. intros Hc (u & f & Hu & Hf & Q). revert Q. apply ne_sym. apply ne_sym. apply Hc, Hu. Qed.

(* one variable sent to a cell *)
Lemma send1 k v c md (setmod : bool) m :
  In v vars -> valcell w c -> ordinary m v -> (setmod = false -> get m (vc v FMod) = w6 md) ->
  let code := VProc T k [v] (if setmod then [SetDest v c; SetModifier v md] else [SetDest v c]) in placed w T k code ->
  exists m', runs w (lbl T k, m) (lbl T (k + length code), m') /\ get m' c = do_mod md (get m c) (get m (vc v FVal)) /\
    get m' (vc v FMod) = w6 md /\ (forall b, ~ scratch [v] b -> idx c <> idx b -> get m' b = get m b) /\ get m' (vc v FMask) = get m (vc v FMask).
Proof.
  intros Hv Hc Ho Hmd code Hpl.
  set (m1 := upd m (vc v FDest) (u32 c)). set (m2 := if setmod then upd m1 (vc v FMod) (w6 md) else m1).
  assert (FF : forall f g, f <> g -> idx (vc v f) <> idx (vc v g)) by (intros f g N; apply vs; auto).
  assert (O1 : ordinary m1 v).
  { destruct Ho. split; unfold m1; rewrite get_upd_ne by (apply FF; discriminate); assumption. }
  assert (G : forall b, idx (vc v FDest) <> idx b -> idx (vc v FMod) <> idx b -> get m2 b = get m b).
  { intros b B1 B2; unfold m2, m1. destruct setmod; rewrite ?get_upd_ne by auto; reflexivity. }
  assert (D2 : get m2 (vc v FDest) = u32 c).
  { unfold m2. destruct setmod; [rewrite get_upd_ne by (apply FF; discriminate)|]; unfold m1; rewrite get_upd_eq; apply u32_idem. }
  assert (M2 : get m2 (vc v FMod) = w6 md).
  { unfold m2. destruct setmod; [rewrite get_upd_eq; destruct md; reflexivity|]. unfold m1. rewrite get_upd_ne by (apply FF; discriminate). auto. }
  destruct (vproc1 w Hw T k _ v c md m m2 Hpl Hv) as (m' & R & B); auto.
  { destruct setmod; (apply nz_cons; [intros; apply type_SetM|]); [apply nz_cons; [intros; apply type_SetMX|]|]; apply nz_nil. }
  { destruct (wvc w Hw v FDest Hv), (wvc w Hw v FMod Hv). unfold m2. destruct setmod; unfold SetDest, SetModifier; apply do_cons_M; auto; cbn [do_mod]; fold m1; [|apply do_nil].
    apply do_cons_MX; auto. rewrite (ord_mod m1 v md O1). apply do_nil. }
  assert (CN : forall f, f <> FVal -> idx c <> idx (vc v f)) by (intros f Hf; apply Hc; auto).
  rewrite (G (vc v FMask)), (G (vc v FVal)), (G c) in B by (try (apply FF; discriminate); apply ne_sym, CN; discriminate).
  rewrite (proj1 Ho) in B. change 0xFFFFFFFF with (Z.ones 32) in B. rewrite do_modx_full in B by apply get_range.
  exists m'. split; [exact R|]. split; [|split; [|split]].
  - rewrite B by (apply CN; discriminate). rewrite get_upd_eq. apply u32_small, do_mod_range; apply get_range.
  - rewrite B by (apply FF; discriminate). rewrite get_upd_ne by (apply CN; discriminate). exact M2.
  - intros b Hb Hcb. assert (NS : forall f, f = FNext \/ f = FDest \/ f = FMod -> idx (vc v f) <> idx b) by (intros f Hf Q; apply Hb; exists v, f; cbn; auto).
    rewrite B by (apply ne_sym, NS; auto). rewrite get_upd_ne by exact Hcb. apply G; apply NS; auto.
  - rewrite B by (apply FF; discriminate). rewrite get_upd_ne by (apply CN; discriminate). apply G; apply FF; discriminate.
Qed.
(* the frame of send1 for other variables *)
Lemma other_scr v u f : In v vars -> In u vars -> u <> v -> ~ scratch [v] (vc u f).
Proof. intros Hv Hu N (x & g & [<-|[]] & _ & Q). revert Q. apply vs; auto. Qed.
Lemma mask_scr v u : In v vars -> In u vars -> ~ scratch [v] (vc u FMask).
Proof. intros Hv Hu (x & g & [<-|[]] & Hg & Q). revert Q. apply vs; auto. right. destruct Hg as [->|[->| ->]]; discriminate. Qed.
Lemma scr_sub v b : In v vars -> scratch [v] b -> scratch vars b.
Proof. intros Hv (x & g & [<-|[]] & Hg & Q). exists v, g. auto. Qed.
Lemma send_ord v c md m m' : In v vars -> valcell w c -> (forall u, In u vars -> ordinary m u) -> get m' (vc v FMod) = w6 md ->
  (forall b, ~ scratch [v] b -> idx c <> idx b -> get m' b = get m b) -> forall u, In u vars -> ordinary m' u.
Proof.
  intros Hv Hc Ho Hm Hf u Hu. destruct (Ho u Hu) as [O1 O2]. split.
  - rewrite Hf; [exact O1|apply mask_scr; auto|apply Hc; auto; discriminate].
  - destruct (Z.eq_dec u v) as [->|N]; [rewrite Hm; destruct md; reflexivity|]. rewrite Hf; [exact O2|apply other_scr; auto|apply Hc; auto; discriminate].
Qed.

Lemma vcell_K : valcell w (vc K FVal).
Proof. apply valcell_val; auto. Qed.
Lemma vcell_A : valcell w A.
Proof. apply patch_valcell, PA. Qed.
Lemma vcell_C : valcell w CPcell.
Proof. apply patch_valcell, PC. Qed.

(* constants *)
Lemma three_writes md p m : exists m', acts_do (W_prot w) m [SetM (vc K FVal) md p; SetM A md p; SetM CPcell md p] m' /\
  get m' (vc K FVal) = do_mod md (get m (vc K FVal)) (u32 p) /\ get m' A = do_mod md (get m A) (u32 p) /\ get m' CPcell = do_mod md (get m CPcell) (u32 p) /\
  forall b, idx (vc K FVal) <> idx b -> idx A <> idx b -> idx CPcell <> idx b -> get m' b = get m b.
Proof.
  assert (KA : idx (vc K FVal) <> idx A) by (apply ne_sym, PA, HK). assert (KC : idx (vc K FVal) <> idx CPcell) by (apply ne_sym, PC, HK).
  destruct (wvc w Hw K FVal HK), (proj1 PA), (proj1 PC).
  assert (DR : forall x, u32 (do_mod md (get m x) (u32 p)) = do_mod md (get m x) (u32 p)) by (intros x; apply u32_small, do_mod_range; [apply get_range|apply u32_range]).
  eexists. split; [apply do_cons_M; [auto|auto|]; apply do_cons_M; [auto|auto|]; apply do_cons_M; [auto|auto|apply do_nil]|].
  split; [|split; [|split]].
  - rewrite !get_upd_ne by (apply ne_sym; auto). rewrite get_upd_eq. apply DR.
  - rewrite get_upd_ne by (apply ne_sym; auto). rewrite get_upd_eq. rewrite (get_upd_ne m) by auto. apply DR.
  - rewrite get_upd_eq. rewrite (get_upd_ne _ A) by auto. rewrite (get_upd_ne m) by auto. apply DR.
  - intros b B1 B2 B3. rewrite !get_upd_ne by auto. reflexivity.
Qed.
Lemma ok_frame m m' : (forall b, idx (vc K FVal) <> idx b -> idx A <> idx b -> idx CPcell <> idx b -> get m' b = get m b) -> get m' (vc K FVal) = get m' A -> cp_ok m -> cp_ok m'.
Proof.
  intros F E [J1 J2 J3].
  assert (G : forall v f, In v vars -> f <> FVal -> get m' (vc v f) = get m (vc v f)).
  { intros v f Hv Hf. apply F; [apply vs; auto|apply PA, Hv|apply PC, Hv]. }
  split; [|rewrite G by (auto; discriminate); exact J2|exact E].
  intros v Hv. destruct (J1 v Hv). split; rewrite G by (auto; discriminate); assumption.
Qed.
Lemma rest_frame m m' : (forall b, idx (vc K FVal) <> idx b -> idx A <> idx b -> idx CPcell <> idx b -> get m' b = get m b) -> rest m m'.
Proof. intros F b _ B1 B2 B3. apply F; auto. Qed.
Lemma rest_trans a b c : rest a b -> rest b c -> rest a c.
Proof. intros H1 H2 x X1 X2 X3 X4. rewrite H2, H1; auto. Qed.
Lemma rest_val m m' v : rest m m' -> In v vars -> v <> K -> get m' (vc v FVal) = get m (vc v FVal).
Proof. intros H Hv N. apply H; [apply not_scr_val, Hv|apply vs; auto|apply PA, Hv|apply PC, Hv]. Qed.

Definition op_ok (o : curpl_op) : Prop :=
  match o with OSet (SVar v) | OAdd (SVar v) => In v vars /\ v <> K | _ => True end.

Lemma run_one k acts m m' : placed w T k [RawTrig [] acts (lbl T (k + 1))] -> acts_do (W_prot w) m acts m' -> runs w (lbl T k, m) (lbl T (k + 1), m').
Proof. intros Hp Ha. pose proof (Hp 0%nat _ eq_refl) as Q. rewrite Nat.add_0_r in Q. eapply run_true; [exact Q|reflexivity|apply conds_nil|exact Ha|apply u32_lbl]. Qed.
Lemma mod32 x y : do_mod Add x (u32 y) = (x + y) mod 2^32.
Proof. cbn [do_mod]. rewrite u32_add_r. reflexivity. Qed.

Lemma set_ok k p m : op_ok (OSet p) -> cp_ok m -> placed w T k (f_setcurpl T k K A p [] true) ->
  exists m', runs w (lbl T k, m) (lbl T (k + length (f_setcurpl T k K A p [] true)), m') /\ cp_ok m' /\ now m' = effect (sval m) (OSet p) (now m) /\ rest m m'.
Proof.
  intros Hop J Hpl. destruct p as [p|v]; cbn [f_setcurpl] in *.
  - destruct (three_writes SetTo p m) as (m' & Ha & E1 & E2 & E3 & F). exists m'. cbn [do_mod] in *.
    split; [eapply run_one; eauto|]. split; [apply (ok_frame m); auto; congruence|]. split; [|apply rest_frame, F].
    unfold now, effect. rewrite E1, E3. reflexivity.
  - destruct Hop as [Hv NK]. cbn [app] in *. unfold QueueAssignTo in *.
    set (c1 := VProc T k [v] [SetDest v (vc K FVal); SetModifier v SetTo]) in *. destruct (placed_app w T k c1 _ Hpl) as [P1 P2]. pose proof (j_ord m J) as JO.
    destruct (send1 k v (vc K FVal) SetTo true m Hv vcell_K (JO v Hv) ltac:(discriminate) P1) as (m1 & R1 & V1 & M1 & F1 & _). fold c1 in R1. cbn [do_mod] in V1.
    assert (O1 : forall u, In u vars -> ordinary m1 u) by (eapply send_ord; eauto using vcell_K).
    assert (VV : get m1 (vc v FVal) = get m (vc v FVal)).
    { apply F1; [intros Q; exact (not_scr_val v Hv (scr_sub _ _ Hv Q))|]. apply vs; auto. }
    assert (KM : get m1 (vc K FMod) = w6 SetTo).
    { rewrite F1; [apply J|apply other_scr; auto|apply vs; auto; right; discriminate]. }
    set (m2 := upd (upd m1 (vc v FDest) (u32 A)) (vc K FDest) (u32 CPcell)).
    assert (VK : forall f g, idx (vc v f) <> idx (vc K g)) by (intros; apply vs; auto).
    assert (FF : forall x f g, In x vars -> f <> g -> idx (vc x f) <> idx (vc x g)) by (intros; apply vs; auto).
    destruct (VProc_run w Hw T (k + length c1) [v; K] [SetDest v A; SetDest K CPcell] [(DExpr A, SetTo, v); (DExpr CPcell, SetTo, K)] m1 m2) as (m' & R2 & Q); auto.
    + discriminate.
    + constructor; [intros [E|[]]; congruence|]. constructor; [intros []|constructor].
    + intros x [<-|[<-|[]]]; auto.
    + apply nz_cons; [intros; apply type_SetM|]. apply nz_cons; [intros; apply type_SetM|]. apply nz_nil.
    + destruct (wvc w Hw v FDest Hv), (wvc w Hw K FDest HK). unfold SetDest. apply do_cons_M; auto. apply do_cons_M; auto. apply do_nil.
    + assert (NS : forall c, patchable w c -> ~ scratch [v; K] c).
      { intros c Hc (x & f & Hx & _ & Q). revert Q. apply Hc. destruct Hx as [<-|[<-|[]]]; auto. }
      intros d md x [E|[E|[]]]; injection E as <- <- <-; cbn [dst_epd]; (split; [apply vcell_A || apply vcell_C|]); (split; [apply NS; auto|]); split; unfold m2.
      * rewrite get_upd_ne by (apply ne_sym, VK). rewrite get_upd_eq. apply u32_idem.
      * rewrite !get_upd_ne by (try apply ne_sym, VK; apply FF; auto; discriminate). exact M1.
      * rewrite get_upd_eq. apply u32_idem.
      * rewrite !get_upd_ne by (try apply VK; apply FF; auto; discriminate). exact KM.
    + change (assign_all m2 (map as_rpair [(DExpr A, SetTo, v); (DExpr CPcell, SetTo, K)])) with (assign1 (assign1 m2 (DExpr A, SetTo, SVar v)) (DExpr CPcell, SetTo, SVar K)) in Q.
      exists m'. split; [rewrite app_length, Nat.add_assoc; eapply steps_trans; eassumption|].
      assert (G2 : forall b, idx (vc v FDest) <> idx b -> idx (vc K FDest) <> idx b -> get m2 b = get m1 b) by (intros b B1 B2; unfold m2; rewrite !get_upd_ne by auto; reflexivity).
      assert (MX : forall c x, 0 <= x < 2^32 -> do_modx SetTo (Z.ones 32) (get m2 c) x = x) by (intros c x Hx; rewrite do_modx_full by (auto using get_range); reflexivity).
      assert (AV : forall f x, In x vars -> idx A <> idx (vc x f)) by (intros f x Hx; apply PA, Hx). assert (CV : forall f x, In x vars -> idx CPcell <> idx (vc x f)) by (intros f x Hx; apply PC, Hx).
      set (m3 := assign1 m2 (DExpr A, SetTo, SVar v)) in *.
      assert (m3d : m3 = upd m2 A (do_modx SetTo (get m2 (vc v FMask)) (get m2 A) (get m2 (vc v FVal)))) by reflexivity.
      rewrite G2 in m3d by (apply FF || (apply ne_sym, VK); auto; discriminate).
      rewrite (G2 (vc v FVal)) in m3d by (apply FF || (apply ne_sym, VK); auto; discriminate).
      rewrite (proj1 (O1 v Hv)), VV in m3d. change 0xFFFFFFFF with (Z.ones 32) in m3d. rewrite MX in m3d by apply get_range.
      assert (Q3 : forall b, ~ nexts [v; K] b -> get m' b = get (upd m3 CPcell (get m (vc v FVal))) b).
      { intros b Hb. rewrite Q by exact Hb. change (assign1 m3 (DExpr CPcell, SetTo, SVar K)) with (upd m3 CPcell (do_modx SetTo (get m3 (vc K FMask)) (get m3 CPcell) (get m3 (vc K FVal)))).
        assert (E1 : get m3 (vc K FMask) = Z.ones 32) by (rewrite m3d, get_upd_ne by (apply AV; auto); rewrite G2 by (try apply VK; apply FF; auto; discriminate); apply (O1 K HK)).
        assert (E2 : get m3 (vc K FVal) = get m (vc v FVal)) by (rewrite m3d, get_upd_ne by (apply AV; auto); rewrite G2 by (try apply VK; apply FF; auto; discriminate); exact V1).
        rewrite E1, E2, do_modx_full by (apply get_range). reflexivity. }
      assert (NX : forall c, (forall x, In x [v; K] -> idx c <> idx (vc x FNext)) -> ~ nexts [v; K] c) by (intros c Hc (x & Hx & E); exact (Hc x Hx E)).
      assert (I2 : forall x, In x [v; K] -> In x vars) by (intros x [<-|[<-|[]]]; auto).
      assert (EC : get m' CPcell = get m (vc v FVal)).
      { rewrite Q3 by (apply NX; intros x Hx; apply CV, I2, Hx). rewrite get_upd_eq. apply u32_small, get_range. }
      assert (EA : get m' A = get m (vc v FVal)).
      { rewrite Q3 by (apply NX; intros x Hx; apply AV, I2, Hx). rewrite get_upd_ne by (apply ne_sym; auto). rewrite m3d, get_upd_eq. apply u32_small, get_range. }
      assert (FR : forall b, ~ nexts [v; K] b -> idx A <> idx b -> idx CPcell <> idx b -> idx (vc v FDest) <> idx b -> idx (vc K FDest) <> idx b -> get m' b = get m1 b).
      { intros b B1 B2 B3 B4 B5. rewrite Q3 by auto. rewrite get_upd_ne by auto. rewrite m3d, get_upd_ne by auto. apply G2; auto. }
      assert (FV : forall x f, In x vars -> f <> FNext -> f <> FDest -> get m' (vc x f) = get m1 (vc x f)).
      { intros x f Hx Hf1 Hf2. apply FR; [apply NX; intros y Hy; apply vs; auto|apply AV; auto|apply CV; auto|apply vs; auto|apply vs; auto]. }
      assert (EK : get m' (vc K FVal) = get m (vc v FVal)) by (rewrite FV by (auto; discriminate); exact V1).
      split; [split|split].
      * intros x Hx. destruct (O1 x Hx). split; rewrite FV by (auto; discriminate); assumption.
      * rewrite FV by (auto; discriminate). exact KM.
      * congruence.
      * unfold now, effect. rewrite EC, EK. reflexivity.
      * intros b B1 B2 B3 B4. assert (NS : forall x f, In x vars -> f = FNext \/ f = FDest \/ f = FMod -> idx (vc x f) <> idx b) by (intros x f Hx Hf E; apply B1; exists x, f; auto).
        rewrite FR; auto. { apply F1; auto. intros Q'. apply B1, (scr_sub v); auto. } apply NX. intros x Hx E. apply (NS x FNext); auto.
Qed.

Lemma add_ok k p m : op_ok (OAdd p) -> cp_ok m -> placed w T k (f_addcurpl T k K A p) ->
  exists m', runs w (lbl T k, m) (lbl T (k + length (f_addcurpl T k K A p)), m') /\ cp_ok m' /\ now m' = effect (sval m) (OAdd p) (now m) /\ rest m m'.
Proof.
  intros Hop J Hpl. destruct p as [p|v]; cbn [f_addcurpl] in *.
  - destruct (three_writes Add p m) as (m' & Ha & E1 & E2 & E3 & F). exists m'.
    split; [eapply run_one; eauto|]. split; [apply (ok_frame m); auto; rewrite E1, E2, (j_eq m J); reflexivity|]. split; [|apply rest_frame, F].
    unfold now, effect. cbn [sval]. rewrite E1, E3. reflexivity.
  - destruct Hop as [Hv NK]. unfold QueueAddTo in *. set (x := get m (vc v FVal)).
    set (c1 := VProc T k [v] [SetDest v (vc K FVal); SetModifier v Add]) in *. destruct (placed_app w T k c1 _ Hpl) as [P1 P2].
    set (c2 := VProc T (k + length c1) [v] [SetDest v A]) in *. destruct (placed_app w T _ c2 _ P2) as [P3 P4].
    set (c3 := VProc T (k + length c1 + length c2) [v] [SetDest v CPcell]) in *. pose proof (j_ord m J) as JO.
    assert (SV : ~ scratch [v] (vc v FVal)) by (intros Q; exact (not_scr_val v Hv (scr_sub _ _ Hv Q))).
    assert (SP : forall c, patchable w c -> ~ scratch [v] c) by (intros c Hc Q; exact (not_scr_patch c Hc (scr_sub _ _ Hv Q))).
    assert (SK : ~ scratch [v] (vc K FVal)) by (apply other_scr; auto).
    assert (AV : forall u f, In u vars -> idx A <> idx (vc u f)) by (intros u f Hu; apply PA, Hu). assert (CV : forall u f, In u vars -> idx CPcell <> idx (vc u f)) by (intros u f Hu; apply PC, Hu).
    destruct (send1 k v (vc K FVal) Add true m Hv vcell_K (JO v Hv) ltac:(discriminate) P1) as (m1 & R1 & V1 & M1 & F1 & _). fold c1 in R1.
    assert (O1 : forall u, In u vars -> ordinary m1 u) by (eapply send_ord; eauto using vcell_K).
    assert (X1 : get m1 (vc v FVal) = x) by (apply F1; [exact SV|apply vs; auto]).
    destruct (send1 (k + length c1) v A Add false m1 Hv vcell_A (O1 v Hv) ltac:(auto) P3) as (m2 & R2 & V2 & M2 & F2 & _). fold c2 in R2. cbv iota in R2.
    assert (O2 : forall u, In u vars -> ordinary m2 u) by (eapply send_ord; eauto using vcell_A).
    assert (X2 : get m2 (vc v FVal) = x) by (rewrite F2 by auto; exact X1).
    destruct (send1 (k + length c1 + length c2) v CPcell Add false m2 Hv vcell_C (O2 v Hv) ltac:(auto) P4) as (m' & R3 & V3 & M3 & F3 & _). fold c3 in R3. cbv iota in R3.
    assert (O3 : forall u, In u vars -> ordinary m' u) by (eapply send_ord; eauto using vcell_C).
    assert (EC : get m' CPcell = u32 (get m CPcell + x)).
    { rewrite V3, X2, F2, F1 by (auto; apply ne_sym, CV; auto). reflexivity. }
    assert (EA : get m' A = u32 (get m A + x)).
    { rewrite F3 by auto. rewrite V2, X1, F1 by (auto; apply ne_sym, AV; auto). reflexivity. }
    assert (EK : get m' (vc K FVal) = u32 (get m (vc K FVal) + x)).
    { rewrite F3, F2 by auto. rewrite V1. reflexivity. }
    exists m'. split; [rewrite !app_length, !Nat.add_assoc; eapply steps_trans; [exact R1|eapply steps_trans; [exact R2|exact R3]]|].
    split; [split; auto|split].
    + assert (SM : ~ scratch [v] (vc K FMod)) by (apply other_scr; auto).
      rewrite F3, F2, F1 by (auto; try apply vs; auto; right; discriminate). apply J.
    + rewrite EK, EA, (j_eq m J). reflexivity.
    + unfold now, effect. cbn [sval]. rewrite EC, EK. reflexivity.
    + intros b B1 B2 B3 B4. assert (~ scratch [v] b) by (intros Q; apply B1, (scr_sub v); auto). rewrite F3, F2, F1 by auto. reflexivity.
Qed.
Lemma restore_gen k m : (forall v, In v vars -> ordinary m v) -> get m (vc K FMod) = w6 SetTo -> placed w T k (f_setcurpl2cpcache T k K []) ->
  exists m', runs w (lbl T k, m) (lbl T (k + length (f_setcurpl2cpcache T k K [])), m') /\ (forall v, In v vars -> ordinary m' v) /\ get m' (vc K FMod) = w6 SetTo /\
    get m' CPcell = get m (vc K FVal) /\ get m' (vc K FVal) = get m (vc K FVal) /\ get m' A = get m A /\ forall b, ~ scratch [K] b -> idx CPcell <> idx b -> get m' b = get m b.
Proof.
  intros O M Hpl. unfold f_setcurpl2cpcache in *. cbn [app] in *.
  destruct (send1 k K CPcell SetTo false m HK vcell_C (O K HK) (fun _ => M) Hpl) as (m' & R & V & M' & F & _). cbv iota in R.
  exists m'. split; [exact R|]. split; [eapply send_ord; eauto using vcell_C|]. split; [exact M'|]. split; [exact V|].
  split; [|split; [|exact F]].
  - apply F; [intros Q; exact (not_scr_val K HK (scr_sub _ _ HK Q))|apply PC, HK].
  - apply F; [intros Q; exact (not_scr_patch A PA (scr_sub _ _ HK Q))|apply ne_sym, NAC].
Qed.
Lemma restore_ok k m : cp_ok m -> placed w T k (f_setcurpl2cpcache T k K []) ->
  exists m', runs w (lbl T k, m) (lbl T (k + length (f_setcurpl2cpcache T k K [])), m') /\ cp_ok m' /\ now m' = effect (sval m) ORestore (now m) /\ rest m m'.
Proof.
  intros [J1 J2 J3] Hpl. destruct (restore_gen k m J1 J2 Hpl) as (m' & R & O & M & C & V & E & F). exists m'. split; [exact R|]. split; [split; auto; congruence|].
  split; [unfold now, effect; rewrite C, V; reflexivity|]. intros b B1 _ _ B4. apply F; auto. intros Q. apply B1, (scr_sub K); auto.
Qed.
Lemma move_ok k md d m : (md = SetTo \/ md = Add) -> cp_ok m -> placed w T k [RawTrig [] [SetM CPcell md d] (lbl T (k + 1))] ->
  exists m', runs w (lbl T k, m) (lbl T (k + 1), m') /\ cp_ok m' /\ now m' = (do_mod md (get m CPcell) (u32 d), get m (vc K FVal)) /\ rest m m'.
Proof.
  intros Hmd J Hpl. exists (upd m CPcell (do_mod md (get m CPcell) (u32 d))).
  assert (F : forall b, idx CPcell <> idx b -> get (upd m CPcell (do_mod md (get m CPcell) (u32 d))) b = get m b) by (intros; apply get_upd_ne; auto).
  split; [eapply run_one; [exact Hpl|]; destruct (proj1 PC); apply do_cons_M; auto; apply do_nil|].
  split; [|split].
  - apply (ok_frame m); auto. rewrite !F; [apply J|apply ne_sym, NAC|apply PC, HK].
  - unfold now. rewrite (F (vc K FVal)) by (apply PC, HK). rewrite get_upd_eq. f_equal. apply u32_small, do_mod_range; [apply get_range|apply u32_range].
  - intros b _ _ _ B. apply F, B.
Qed.

Lemma op_run k o m : op_ok o -> cp_ok m -> placed w T k (curpl_code T k K A o) ->
  exists m', runs w (lbl T k, m) (lbl T (k + length (curpl_code T k K A o)), m') /\ cp_ok m' /\ now m' = effect (sval m) o (now m) /\ rest m m'.
Proof.
  intros Hop J Hpl. destruct o as [p|p|d|d|]; cbn [curpl_code] in *.
  - apply set_ok; auto.
  - apply add_ok; auto.
  - destruct (move_ok k Add d m (or_intror eq_refl) J Hpl) as (m' & R & J' & E & F). exists m'. rewrite mod32 in E. auto.
  - destruct (move_ok k SetTo d m (or_introl eq_refl) J Hpl) as (m' & R & J' & E & F). exists m'. auto.
  - apply restore_ok; auto.
Qed.
Lemma effect_ext x y o s : op_ok o -> (forall p, match p with SVar v => In v vars /\ v <> K | _ => True end -> x p = y p) -> effect x o s = effect y o s.
Proof. intros Ho H. destruct s, o as [p|p|d|d|]; cbn [effect]; try reflexivity; rewrite (H p) by (destruct p; auto); reflexivity. Qed.
Lemma effects_ext x y l : Forall op_ok l -> (forall p, match p with SVar v => In v vars /\ v <> K | _ => True end -> x p = y p) -> forall s, effects x l s = effects y l s.
Proof. intros Hl H. induction Hl as [|o l Ho Hl IH]; intros s; [reflexivity|]. unfold effects in *. cbn [fold_left]. rewrite (effect_ext x y o s Ho H). apply IH. Qed.

(* every sequence of operations *)
Theorem C47_sequence : forall l k m, Forall op_ok l -> cp_ok m -> placed w T k (curpl_prog T k K A l) ->
  exists m', runs w (lbl T k, m) (lbl T (k + length (curpl_prog T k K A l)), m') /\ cp_ok m' /\ now m' = effects (sval m) l (now m) /\ rest m m'.
Proof.
  induction l as [|o l IH]; intros k m Hl J Hpl.
  - exists m. cbn [curpl_prog length]. rewrite Nat.add_0_r. split; [apply steps_refl|]. split; [exact J|]. split; [reflexivity|]. intros b; reflexivity.
  - pose proof (Forall_inv Hl) as Ho. pose proof (Forall_inv_tail Hl) as Hl'. cbn [curpl_prog] in *. destruct (placed_app w T k _ _ Hpl) as [P1 P2].
    destruct (op_run k o m Ho J P1) as (m1 & R1 & J1 & E1 & F1). destruct (IH _ m1 Hl' J1 P2) as (m' & R2 & J2 & E2 & F2).
    exists m'. split; [rewrite app_length, Nat.add_assoc; eapply steps_trans; eassumption|]. split; [exact J2|]. split; [|eapply rest_trans; eassumption].
    rewrite E2, E1. cbn [effects fold_left]. apply effects_ext; auto. intros p Hp. destruct p as [c|v]; [reflexivity|]. cbn [sval]. apply rest_val; tauto.
Qed.

(* Blocks that change the current player for a while: any number of changes and
   inner blocks, closed by a restore. *)
Inductive temporary : list curpl_op -> Prop :=
| tmp_nil : temporary []
| tmp_move d l : temporary l -> temporary (OMove d :: l)
| tmp_moveto d l : temporary l -> temporary (OMoveTo d :: l)
| tmp_block b l : temporary b -> temporary l -> temporary (b ++ ORestore :: l).
Lemma temporary_cache x b : temporary b -> forall s, snd (effects x b s) = snd s.
Proof.
  induction 1 as [|d l _ IH|d l _ IH|b l _ IH1 _ IH2]; intros [cp ca].
  - reflexivity.
  - exact (IH ((cp + d) mod 2^32, ca)).
  - exact (IH (d mod 2^32, ca)).
  - unfold effects in *. rewrite fold_left_app. cbn [fold_left]. specialize (IH1 (cp, ca)). destruct (fold_left (fun s o => effect x o s) b (cp, ca)) as [c1 k1]. cbn [effect snd] in *. subst. exact (IH2 (ca, ca)).
Qed.
Lemma temporary_ok b : temporary b -> Forall op_ok b.
Proof. induction 1; [constructor|constructor; [exact I|auto]|constructor; [exact I|auto]|]. apply Forall_app. split; auto. constructor; [exact I|auto]. Qed.
Theorem C47_restored : forall b k m, temporary b -> cp_ok m -> get m CPcell = get m (vc K FVal) ->
  placed w T k (curpl_prog T k K A (b ++ [ORestore])) ->
  exists m', runs w (lbl T k, m) (lbl T (k + length (curpl_prog T k K A (b ++ [ORestore]))), m') /\
    cp_ok m' /\ get m' CPcell = get m CPcell /\ get m' (vc K FVal) = get m CPcell /\ rest m m'.
Proof.
  intros b k m Hb J E Hpl. destruct (C47_sequence (b ++ [ORestore]) k m) as (m' & R & J' & N & F); auto.
  { apply Forall_app. split; [apply temporary_ok, Hb|]. constructor; [exact I|constructor]. }
  exists m'. split; [exact R|]. split; [exact J'|].
  assert (N2 : now m' = (get m (vc K FVal), get m (vc K FVal))).
  { rewrite N. unfold effects. rewrite fold_left_app. cbn [fold_left]. pose proof (temporary_cache (sval m) b Hb (now m)) as C. unfold effects in C. destruct (fold_left (fun s o => effect (sval m) o s) b (now m)) as [c1 k1]. cbn [snd now effect] in *. subst. reflexivity. }
  unfold now in N2. injection N2 as N3 N4. split; [congruence|]. split; [congruence|exact F].
Qed.

(* ---------- f_getcurpl ---------- *)
(* random numbers as drawn by the source; u = 16928 excluded (C47_group_player_refuted),
   and the address of the cache has to be nameable *)
Definition rnd_ok (r : rnd) : Prop := 0 <= r_bit r < 32 /\ 234 <= r_cu r <= 65535 /\ r_cu r <> 16928 /\ 234 <= r_au r <= 65535 /\ plain (vc K FVal - 12 * r_au r).
Lemma bits_run l : forall k m, Forall rnd_ok l -> placed w T k (update_bits T k K l) ->
  exists m', runs w (lbl T k, m) (lbl T (k + length l), m') /\ get m' (vc K FVal) = u32 (get m (vc K FVal) + bitsum (get m CPcell) (map r_bit l)) /\
    forall b, idx (vc K FVal) <> idx b -> get m' b = get m b.
Proof.
  induction l as [|r l IH]; intros k m Hl Hpl.
  - exists m. cbn [length map bitsum]. rewrite Nat.add_0_r, Z.add_0_r. split; [apply steps_refl|]. split; [symmetry; apply u32_small, get_range|reflexivity].
  - destruct (Forall_inv Hl) as (B & C1 & C2 & A1 & A2). pose proof (Forall_inv_tail Hl) as Hl'. cbn [update_bits] in Hpl.
    change (update_bit T k K r :: update_bits T (S k) K l) with ([update_bit T k K r] ++ update_bits T (S k) K l) in Hpl. destruct (placed_app w T k _ _ Hpl) as [P1 P2].
    cbn [length] in P2. rewrite Nat.add_1_r in P2.
    pose proof (P1 0%nat _ eq_refl) as Q. rewrite Nat.add_0_r in Q. unfold update_bit, RawTrig in Q.
    pose proof (conds_unit m CPcell AtLeast 1 (r_cu r) (2^r_bit r) ltac:(lia) (cp_unit_plain _ C1 C2)) as C. cbn [do_cmp] in C. change (u32 1) with 1 in C.
    assert (P0 : 1 <= 2^r_bit r) by (apply (Z.pow_le_mono_r 2 0); lia). assert (P3 : 2^r_bit r < 2^32) by (apply Z.pow_lt_mono_r; lia).
    rewrite (u32_small (2^r_bit r)), land_bit in C by lia. set (bit := Z.b2z (Z.testbit (get m CPcell) (r_bit r)) * 2^r_bit r) in *.
    set (m1 := if 1 <=? bit then upd m (vc K FVal) (do_mod Add (get m (vc K FVal)) (u32 (2^r_bit r))) else m).
    assert (R1 : runs w (lbl T k, m) (lbl T (S k), m1)).
    { replace (S k) with (k + 1)%nat by lia. unfold m1. destruct (1 <=? bit); [eapply run_true; [exact Q|reflexivity|exact C| |apply u32_lbl]|eapply run_false; [exact Q|reflexivity|exact C|apply u32_lbl]].
      apply do_unit; [lia|exact A2|apply (wvc w Hw K FVal HK)|apply do_nil]. }
    assert (F1 : forall b, idx (vc K FVal) <> idx b -> get m1 b = get m b) by (intros b Hb; unfold m1; destruct (1 <=? bit); [apply get_upd_ne, Hb|reflexivity]).
    assert (V1 : get m1 (vc K FVal) = u32 (get m (vc K FVal) + bit)).
    { pose proof (get_range m (vc K FVal)). unfold m1, bit. destruct (Z.testbit (get m CPcell) (r_bit r)); cbn [Z.b2z].
      - replace (1 <=? 1 * 2^r_bit r) with true by lia. rewrite get_upd_eq. cbn [do_mod]. rewrite u32_idem, u32_add_r, Z.mul_1_l. reflexivity.
      - cbn [Z.mul Z.leb Z.compare]. rewrite Z.add_0_r. symmetry. apply u32_small, get_range. }
    destruct (IH (S k) m1 Hl' P2) as (m' & R2 & V2 & F2). exists m'. split; [|split].
    + cbn [length]. replace (k + S (length l))%nat with (S k + length l)%nat by lia. eapply steps_trans; eassumption.
    + rewrite V2, V1, (F1 CPcell) by (apply ne_sym, PC, HK). rewrite u32_add_l. cbn [map bitsum]. fold bit. f_equal. lia.
    + intros b Hb. rewrite F2, F1 by exact Hb. reflexivity.
Qed.
Lemma update_bits_length l : forall k, length (update_bits T k K l) = length l.
Proof. induction l as [|r l IH]; intros k; cbn [update_bits length]; [reflexivity|]. rewrite IH. reflexivity. Qed.

Lemma update_run k r0 l m : Forall rnd_ok (r0 :: l) -> Permutation (map r_bit l) (map Z.of_nat (seq 0 32)) -> (forall v, In v vars -> ordinary m v) -> get m (vc K FMod) = w6 SetTo ->
  placed w T k (f_updatecpcache T k K A r0 l) ->
  exists m', runs w (lbl T k, m) (lbl T (k + length (f_updatecpcache T k K A r0 l)), m') /\ cp_ok m' /\ now m' = (get m CPcell, get m CPcell) /\ rest m m'.
Proof.
  intros Hr Hperm HO HM Hpl. unfold f_updatecpcache in *. pose proof (Forall_inv Hr) as (B0 & _ & _ & A1 & A2). pose proof (Forall_inv_tail Hr) as Hl.
  set (t0 := RawTrig [] [SetMemoryC (vc K FVal) SetTo 0 (r_au r0) (r_loc r0) (r_fl r0)] (lbl T (k + 1))) in *.
  set (c := t0 :: update_bits T (S k) K l) in *. set (d := VProc T (k + length c) [K] [SetDest K A]) in *.
  destruct (placed_app w T k c _ Hpl) as [P1 P2]. destruct (placed_app w T _ d _ P2) as [P3 P4].
  unfold c in P1. change (t0 :: update_bits T (S k) K l) with ([t0] ++ update_bits T (S k) K l) in P1. destruct (placed_app w T k _ _ P1) as [P5 P6]. cbn [length] in P6. rewrite Nat.add_1_r in P6.
  set (m1 := upd m (vc K FVal) (do_mod SetTo (get m (vc K FVal)) (u32 0))).
  assert (R1 : runs w (lbl T k, m) (lbl T (S k), m1)).
  { replace (S k) with (k + 1)%nat by lia. apply run_one with (acts := [SetMemoryC (vc K FVal) SetTo 0 (r_au r0) (r_loc r0) (r_fl r0)]); [exact P5|]. apply do_unit; [lia|exact A2|apply (wvc w Hw K FVal HK)|apply do_nil]. }
  assert (V1 : get m1 (vc K FVal) = 0) by (unfold m1; rewrite get_upd_eq; reflexivity). assert (F1 : forall b, idx (vc K FVal) <> idx b -> get m1 b = get m b) by (intros; apply get_upd_ne; auto).
  destruct (bits_run l (S k) m1 Hl P6) as (m2 & R2 & V2 & F2).
  rewrite V1, (F1 CPcell) in V2 by (apply ne_sym, PC, HK). rewrite (bitsum_all _ _ (get_range m CPcell) Hperm) in V2. rewrite Z.add_0_l, u32_small in V2 by apply get_range.
  assert (F12 : forall b, idx (vc K FVal) <> idx b -> get m2 b = get m b) by (intros b Hb; rewrite F2, F1 by exact Hb; reflexivity).
  assert (O2 : forall v, In v vars -> ordinary m2 v).
  { intros v Hv. destruct (HO v Hv). split; rewrite F12 by (apply vs; auto; right; discriminate); assumption. }
  assert (M2 : get m2 (vc K FMod) = w6 SetTo) by (rewrite F12 by (apply vs; auto; right; discriminate); exact HM).
  destruct (send1 (k + length c) K A SetTo false m2 HK vcell_A (O2 K HK) (fun _ => M2) P3) as (m3 & R3 & V3 & M3 & F3 & _). fold d in R3. cbv iota in R3. cbn [do_mod] in V3.
  assert (SK : forall b, ~ scratch vars b -> ~ scratch [K] b) by (intros b Hb Q; apply Hb, (scr_sub K); auto).
  assert (O3 : forall v, In v vars -> ordinary m3 v) by (eapply send_ord; eauto using vcell_A).
  assert (K3 : get m3 (vc K FVal) = get m CPcell) by (rewrite F3; [exact V2|apply SK, not_scr_val, HK|apply PA, HK]).
  destruct (restore_gen (k + length c + length d) m3 O3 M3 P4) as (m4 & R4 & O4 & M4 & C4 & V4 & A4 & F4).
  exists m4. split; [|split; [split; auto|split]].
  - rewrite !app_length, !Nat.add_assoc. eapply steps_trans; [exact R1|]. eapply steps_trans; [exact R2|]. replace (S k + length l)%nat with (k + length c)%nat by (unfold c; cbn [length]; rewrite update_bits_length; lia). eapply steps_trans; [exact R3|exact R4].
  - rewrite V4, A4, V3, K3, V2. reflexivity.
  - unfold now. rewrite C4, V4, K3. reflexivity.
  - intros b B1 B2 B3 B4. rewrite F4, F3, F12 by auto. reflexivity.
Qed.
End Curpl.

(* f_getcurpl leaves the current player alone and makes the cache equal to it,
   whatever changed the current player before *)
Theorem C47_getcurpl : forall w T K r0 l m, let A := T 0%nat + 4 in let N := T 0%nat + 1 in
  world_ok w -> In K (W_vars w) -> patchable w A -> patchable w N -> patchable w CPcell ->
  idx A <> idx CPcell -> idx N <> idx CPcell -> idx N <> idx A ->
  Forall (rnd_ok K) (r0 :: l) -> Permutation (map r_bit l) (map Z.of_nat (seq 0 32)) ->
  cp_ok w K A m -> get m N = lbl T 2 -> let code := f_getcurpl T K r0 l in placed w T 0 code ->
  exists m', runs w (lbl T 0, m) (lbl T (length code), m') /\ cp_ok w K A m' /\ get m' N = lbl T 2 /\
    get m' CPcell = get m CPcell /\ get m' (vc K FVal) = get m CPcell /\ rest w K A m m'.
Proof.
  intros w T K r0 l m A N Hw HK PA PN PC NAC NNC NNA Hr Hperm J HN code Hpl. unfold code, f_getcurpl in *. clear code. fold A in Hpl |- *. fold N in Hpl |- *.
  set (body := f_updatecpcache T 2 K A r0 l) in *. set (t0 := mktrig _ _ _ _) in Hpl |- *. set (t1 := RawTrig _ _ _) in Hpl |- *.
  change (t0 :: t1 :: body) with ([t0; t1] ++ body) in *. destruct (placed_app w T 0 _ _ Hpl) as [P1 P2]. cbn [length plus] in P2.
  pose proof (P1 0%nat _ eq_refl) as Q0. pose proof (P1 1%nat _ eq_refl) as Q1. cbn [plus] in Q0, Q1.
  pose proof (conds_one_D m CPcell Exactly A (proj1 (proj1 PC))) as C. cbn [do_cmp] in C. fold (cpcond A) in C.
  rewrite app_length. change (length [t0; t1] + length body)%nat with (2 + length body)%nat.
  destruct (Z.eqb_spec (get m CPcell) (get m A)) as [E|E].
  - set (m1 := upd m N (u32 (lbl T 1))). set (m2 := upd m1 N (u32 (lbl T 2))).
    assert (F : forall b, idx N <> idx b -> get m2 b = get m b) by (intros b Hb; unfold m2, m1; rewrite !get_upd_ne by exact Hb; reflexivity).
    assert (N2 : get m2 N = lbl T 2) by (unfold m2; rewrite get_upd_eq, u32_idem; apply u32_lbl).
    assert (F' : forall b, get m2 b = get m b).
    { intros b. destruct (Z.eq_dec (idx N) (idx b)) as [X|X]; [rewrite <- !(get_cong _ _ _ X); congruence|apply F, X]. }
    exists m2. split; [|split; [|split; [exact N2|split; [apply F'|split]]]].
    + eapply steps_trans.
      * eapply run_true; [exact Q0|reflexivity|exact C| |]. { destruct (proj1 PN). apply do_cons_M; auto. cbn [do_mod]. fold m1. apply do_nil. }
        cbn [rd]. unfold m1. rewrite get_upd_eq, u32_idem. apply u32_lbl.
      * eapply run_true; [exact Q1|reflexivity|apply conds_nil| |apply u32_lbl]. destruct (proj1 PN). apply do_cons_M; auto. cbn [do_mod]. fold m2. apply do_nil.
    + destruct J as [J1 J2 J3]. split; [|rewrite F'; exact J2|rewrite !F'; exact J3]. intros v Hv. destruct (J1 v Hv). split; rewrite F'; assumption.
    + rewrite F', (j_eq _ _ _ _ J). symmetry. exact E.
    + intros b _ _ _ _. apply F'.
  - destruct (update_run w T K A Hw HK PA PC NAC 2 r0 l m Hr Hperm (j_ord _ _ _ _ J) (j_mod _ _ _ _ J) P2) as (m' & R & J' & E' & F). fold body in R.
    unfold now in E'. injection E' as E1 E2. exists m'. split; [|split; [exact J'|split; [|split; [exact E1|split; [exact E2|exact F]]]]].
    + eapply steps_trans; [|exact R]. eapply run_false; [exact Q0|reflexivity|exact C|]. cbn [rd]. exact HN.
    + rewrite F; [exact HN| |apply not_eq_sym, PN, HK|apply not_eq_sym, NNA|apply not_eq_sym, NNC]. apply not_scr_patch; auto.
Qed.
(* modcurpl.py 22-26: with set_modifier=False the given actions are not executed *)
Theorem C47_actions_dropped_refuted : forall T k K A v actions,
  f_setcurpl T k K A (SVar v) actions false = f_setcurpl T k K A (SVar v) [] false.
Proof. reflexivity. Qed.

(* ---------- concrete cases ---------- *)
Definition cpex_K := vb_var 1000 0.
Definition cpex_v := vb_var 1000 1.
Definition cpex_ops := [OMove 5; OMoveTo 3; ORestore; OMove 9; ORestore].
Definition cpex_code := curpl_prog exT 0 cpex_K 200000 cpex_ops.
Definition cpex_m := upd (upd (exmem 2 [7; 4]) 200000 7) CPcell 7.
Lemma cpex_ord : forall v, In v (exvars 2) -> ordinary cpex_m v.
Proof. intros v [<-|[<-|[]]]; split; vm_compute; reflexivity. Qed.
Example C47_restored_example : exists m', runs (exworld 2 cpex_code) (lbl exT 0, cpex_m) (lbl exT 5, m') /\ get m' CPcell = 7 /\ get m' (vc cpex_K FVal) = 7.
Proof.
  destruct (C47_restored (exworld 2 cpex_code) exT cpex_K 200000 (exworld_ok 2 _ ltac:(reflexivity)) ltac:(left; reflexivity)
    (exworld_patchable 2 _ 200000 ltac:(reflexivity) ltac:(lia)) (exworld_patchable 2 _ CPcell ltac:(reflexivity) ltac:(vm_compute; split; congruence)) ltac:(vm_compute; discriminate)
    ([OMove 5; OMoveTo 3] ++ ORestore :: [OMove 9]) 0 cpex_m) as (m' & R & _ & E1 & E2 & _).
  - apply tmp_block; repeat constructor.
  - split; [apply cpex_ord|vm_compute; reflexivity|vm_compute; reflexivity].
  - vm_compute. reflexivity.
  - apply exworld_placed; vm_compute; reflexivity.
  - exists m'. split; [exact R|]. split; [rewrite E1|rewrite E2]; vm_compute; reflexivity.
Qed.
(* f_setcurpl(v), f_addcurpl(v) with v = 4 *)
Definition cpex_code2 := curpl_prog exT 0 cpex_K 200000 [OSet (SVar cpex_v); OAdd (SVar cpex_v); OMove 2].
Example C47_sequence_example : exists m' n, runs (exworld 2 cpex_code2) (lbl exT 0, cpex_m) (lbl exT n, m') /\ get m' CPcell = 10 /\ get m' (vc cpex_K FVal) = 8.
Proof.
  destruct (C47_sequence (exworld 2 cpex_code2) exT cpex_K 200000 (exworld_ok 2 _ ltac:(reflexivity)) ltac:(left; reflexivity)
    (exworld_patchable 2 _ 200000 ltac:(reflexivity) ltac:(lia)) (exworld_patchable 2 _ CPcell ltac:(reflexivity) ltac:(vm_compute; split; congruence)) ltac:(vm_compute; discriminate)
    [OSet (SVar cpex_v); OAdd (SVar cpex_v); OMove 2] 0 cpex_m) as (m' & R & _ & E & _).
  - repeat constructor; try (right; left; reflexivity); vm_compute; discriminate.
  - split; [apply cpex_ord|vm_compute; reflexivity|vm_compute; reflexivity].
  - apply exworld_placed; vm_compute; reflexivity.
  - exists m', (0 + length cpex_code2)%nat. split; [exact R|]. unfold now in E.
    assert (X : effects (sval cpex_m) [OSet (SVar cpex_v); OAdd (SVar cpex_v); OMove 2] (get cpex_m CPcell, get cpex_m (vc cpex_K FVal)) = (10, 8)) by (vm_compute; reflexivity).
    rewrite X in E. injection E as E1 E2. auto.
Qed.
(* f_getcurpl after the game set the current player to 0x1234567 behind the cache's back *)
Definition cpex_rnd := map (fun i => mkrnd (Z.of_nat i) 300 400 5 0xFF) (seq 0 32).
Definition cpex_get := f_getcurpl exT cpex_K (mkrnd 0 300 400 5 0xFF) cpex_rnd.
Definition cpex_m2 := upd (upd (upd (exmem 2 [7; 4]) 100004 7) CPcell 0x1234567) 100001 (lbl exT 2).
Lemma cpex_ord2 : forall v, In v (exvars 2) -> ordinary cpex_m2 v.
Proof. intros v [<-|[<-|[]]]; split; vm_compute; reflexivity. Qed.
Example C47_getcurpl_example : exists m' n, runs (exworld 2 cpex_get) (lbl exT 0, cpex_m2) (lbl exT n, m') /\ get m' CPcell = 0x1234567 /\ get m' (vc cpex_K FVal) = 0x1234567.
Proof.
  destruct (C47_getcurpl (exworld 2 cpex_get) exT cpex_K (mkrnd 0 300 400 5 0xFF) cpex_rnd cpex_m2) as (m' & R & _ & _ & E1 & E2 & _).
  - apply exworld_ok. reflexivity.
  - left. reflexivity.
  - apply exworld_patchable; [reflexivity|vm_compute; split; congruence].
  - apply exworld_patchable; [reflexivity|vm_compute; split; congruence].
  - apply exworld_patchable; [reflexivity|vm_compute; split; congruence].
  - vm_compute. discriminate.
  - vm_compute. discriminate.
  - vm_compute. discriminate.
  - assert (P : plain (vc cpex_K FVal - 12 * 400)) by (split; vm_compute; congruence).
    apply Forall_forall. intros r [<-|Hr]; [unfold rnd_ok; cbn [r_bit r_cu r_au]; repeat split; try lia; apply P|]. apply in_map_iff in Hr. destruct Hr as (i & <- & Hi). apply in_seq in Hi. unfold rnd_ok. cbn [r_bit r_cu r_au]. repeat split; try lia; apply P.
  - unfold cpex_rnd. rewrite map_map. apply Permutation_refl.
  - split; [apply cpex_ord2|vm_compute; reflexivity|vm_compute; reflexivity].
  - vm_compute. reflexivity.
  - apply exworld_placed; vm_compute; reflexivity.
  - exists m', (length cpex_get). split; [exact R|]. rewrite E1, E2. split; vm_compute; reflexivity.
Qed.

Print Assumptions C47_sequence.
Print Assumptions C47_restored.
Print Assumptions C47_getcurpl.
Print Assumptions C47_group_player_refuted.
Print Assumptions C47_actions_dropped_refuted.
