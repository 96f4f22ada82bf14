(* C80: comparison of player names. *)
From Coq Require Import ZArith List Bool Lia.
From Verif Require Import Word Machine MachineProofs EpdModel PnameModel.
From Verif Require BinProofs PropBw PropBlk PropCpu.
Import ListNotations.
Open Scope Z_scope.

(* ---------- specification: the bytes from address p on are l ---------- *)
Fixpoint reads (m : mem) (p : Z) (l : list Z) : Prop := match l with [] => True | b :: r => PropBlk.byte m p = b /\ reads m (p + 1) r end.

(* ================= proofs ================= *)
Lemma mask_step x val mask ch s : 0 <= s -> 0 <= mask < 2 ^ s -> 0 <= val < 2 ^ s ->
  (Z.land x (mask + Z.shiftl 0xFF s) = val + Z.shiftl ch s <-> Z.land x mask = val /\ PropBw.fld x s 8 = ch).
Proof.
  intros Hs Hm Hv. pose proof (Z.pow_pos_nonneg 2 s ltac:(lia) Hs) as P.
  assert (Lm : 0 <= Z.land x mask < 2 ^ s).
  { split; [apply Z.land_nonneg; lia|]. rewrite <- (Z.mod_small mask (2 ^ s)) by lia. rewrite <- Z.land_ones by lia. rewrite Z.land_assoc, Z.land_ones by lia. apply Z.mod_pos_bound. lia. }
  assert (E : Z.land x (mask + Z.shiftl 0xFF s) = Z.land x mask + PropBw.fld x s 8 * 2 ^ s).
  { rewrite Z.shiftl_mul_pow2 by lia. rewrite <- (BinProofs.lor_shift mask 0xFF s) by lia. rewrite Z.land_lor_distr_r. change (Z.shiftl 0xFF s) with (PropBw.fmask s 8). rewrite PropBw.land_fmask by lia.
    rewrite <- Z.shiftl_mul_pow2 by lia. rewrite BinProofs.lor_shift by lia. rewrite Z.shiftl_mul_pow2 by lia. reflexivity. }
  rewrite E, Z.shiftl_mul_pow2 by lia. split.
  - intros Q. assert (PropBw.fld x s 8 = ch) by nia. nia.
  - intros (-> & ->). reflexivity.
Qed.
Lemma cell_eq src : EPD_const (src - src mod 4) = src / 4 - 0x58A364 / 4.
Proof. unfold EPD_const. change (0x58A364 / 4) with 1452249. pose proof (Z.div_mod src 4 ltac:(lia)). replace (src - src mod 4 + - 0x58A364) with ((src / 4 - 1452249) * 4) by lia. apply Z.div_mul. lia. Qed.
Lemma plain_below src : 0 <= src -> src < 0x58A364 -> plain (src / 4 - 0x58A364 / 4).
Proof.
  intros H0 H1. change (0x58A364 / 4) with 1452249. set (a := src / 4). assert (A : 0 <= a < 1452249) by (unfold a; split; [apply Z.div_pos; lia|apply Z.div_lt_upper_bound; lia]).
  assert (U : u32 (a - 1452249) = a - 1452249 + 2 ^ 32) by (unfold u32; symmetry; apply (Z.mod_unique _ _ (-1)); lia).
  unfold plain, special. rewrite U. split; [lia|]. apply orb_false_iff. split; [apply Z.eqb_neq; lia|apply andb_false_iff; right; apply Z.leb_gt; lia].
Qed.
Lemma loop_ok m : forall seq src val mask, 0 <= src -> src + Z.of_nat (length seq) <= 0x58A364 -> Forall (fun c => 0 <= c < 256) seq ->
  0 <= val < 2 ^ (8 * (src mod 4)) -> 0 <= mask < 2 ^ (8 * (src mod 4)) -> (mask = 0 -> val = 0) ->
  exists b, conds_are m (cmp_loop src val mask seq) b /\ (b = true <-> Z.land (get m (src / 4 - 0x58A364 / 4)) mask = val /\ reads m src seq).
Proof.
  induction seq as [|ch seq IH]; intros src val mask H0 HL HF HV HM HZ; pose proof (Z.mod_pos_bound src 4 ltac:(lia)) as K; pose proof (Z.div_mod src 4 ltac:(lia)) as D;
    assert (PW : 2 ^ (8 * (src mod 4)) <= 2 ^ 24) by (apply Z.pow_le_mono_r; lia).
  - cbn [cmp_loop reads length] in *. destruct (Z.eqb_spec mask 0) as [EM|NM].
    + exists true. split; [apply conds_nil|]. rewrite EM, Z.land_0_r, (HZ EM). tauto.
    + assert (NK : src mod 4 <> 0) by (intros E; rewrite E in HM; change (2 ^ (8 * 0)) with 1 in HM; lia).
      assert (LT : src < 0x58A364) by (destruct (Z.eq_dec src 0x58A364) as [E|E]; [rewrite E in NK; exfalso; apply NK; reflexivity|lia]).
      unfold append_cmp. rewrite cell_eq. set (g := get m (src / 4 - 0x58A364 / 4)). exists (Z.land g mask =? val). split.
      * apply conds_cons_MX; [apply plain_below; lia| |]; fold g; rewrite !u32_small by lia; cbn [do_cmp]; intros ->; [apply conds_nil|reflexivity].
      * rewrite Z.eqb_eq. tauto.
  - cbn [cmp_loop reads length] in *. cbv zeta. assert (B : 0 <= ch < 256) by (inversion HF; assumption). assert (HF' : Forall (fun c => 0 <= c < 256) seq) by (inversion HF; assumption). clear HF.
    assert (P8 : 2 ^ (8 * (src mod 4) + 8) = 2 ^ (8 * (src mod 4)) * 256) by (rewrite Z.pow_add_r by lia; reflexivity).
    pose proof (Z.pow_pos_nonneg 2 (8 * (src mod 4)) ltac:(lia) ltac:(lia)) as PP.
    pose proof (mask_step (get m (src / 4 - 0x58A364 / 4)) val mask ch (8 * (src mod 4)) ltac:(lia) HM HV) as ST.
    set (val1 := val + Z.shiftl ch (8 * (src mod 4))) in *. set (mask1 := mask + Z.shiftl 0xFF (8 * (src mod 4))) in *.
    assert (V1 : 0 <= val1 < 2 ^ (8 * (src mod 4) + 8)) by (unfold val1; rewrite Z.shiftl_mul_pow2, P8 by lia; nia).
    assert (M1 : 0 < mask1 < 2 ^ (8 * (src mod 4) + 8)) by (unfold mask1; rewrite Z.shiftl_mul_pow2, P8 by lia; nia).
    clearbody val1 mask1. set (g := get m (src / 4 - 0x58A364 / 4)) in *. assert (BY : PropBlk.byte m src = PropBw.fld g (8 * (src mod 4)) 8) by reflexivity. rewrite BY.
    destruct (Z.eqb_spec (src mod 4) 3) as [E3|N3].
    + assert (P32 : 2 ^ (8 * (src mod 4) + 8) = 2 ^ 32) by (rewrite E3; reflexivity). rewrite P32 in *.
      assert (S0 : (src + 1) mod 4 = 0) by (symmetry; apply (Z.mod_unique _ _ (src / 4 + 1)); lia).
      destruct (IH (src + 1) 0 0 ltac:(lia) ltac:(lia) HF') as (b & CB & RB); [rewrite S0; cbn; lia|rewrite S0; cbn; lia|auto|].
      unfold append_cmp. rewrite cell_eq. exists ((Z.land g mask1 =? val1) && b). split.
      * apply conds_cons_MX; [apply plain_below; lia| |]; fold g; rewrite !u32_small by lia; cbn [do_cmp]; intros ->; [exact CB|reflexivity].
      * rewrite andb_true_iff, Z.eqb_eq, ST, RB, Z.land_0_r. tauto.
    + assert (S1 : (src + 1) mod 4 = src mod 4 + 1) by (symmetry; apply (Z.mod_unique _ _ (src / 4)); lia). assert (S2 : (src + 1) / 4 = src / 4) by (symmetry; apply (Z.div_unique _ _ _ (src mod 4 + 1)); lia).
      destruct (IH (src + 1) val1 mask1 ltac:(lia) ltac:(lia) HF') as (b & CB & RB); rewrite ?S1; replace (8 * (src mod 4 + 1)) with (8 * (src mod 4) + 8) by lia; [exact V1|lia|lia|].
      exists b. split; [exact CB|]. rewrite RB, S2. fold g. rewrite ST. tauto.
Qed.

(* C80: the conditions hold exactly when the bytes from src on are the characters and a 0.  Names of players lie
   below 0x58A364, where no EPD is one of the numbers of player groups *)
Theorem C80_compare m src seq : 0 <= src -> src + Z.of_nat (length seq) < 0x58A364 -> Forall (fun c => 0 <= c < 256) seq ->
  conds_ok m (compare_sequence src seq) /\ (eval_conds m (compare_sequence src seq) = true <-> reads m src (seq ++ [0])).
Proof.
  intros H0 HL HF. unfold compare_sequence. pose proof (Z.mod_pos_bound src 4 ltac:(lia)) as K. pose proof (Z.pow_pos_nonneg 2 (8 * (src mod 4)) ltac:(lia) ltac:(lia)) as PP.
  destruct (loop_ok m (seq ++ [0]) src 0 0) as (b & (C1 & C2) & R); try lia.
  - rewrite app_length. cbn [length]. lia.
  - apply Forall_app. split; [exact HF|]. constructor; [lia|constructor].
  - rewrite Z.land_0_r in R. split; [exact C1|]. rewrite C2, R. tauto.
Qed.
Print Assumptions C80_compare.

Lemma loop_length : forall seq src val mask, 4 * Z.of_nat (length (cmp_loop src val mask seq)) <= src mod 4 + Z.of_nat (length seq) + 4.
Proof.
  induction seq as [|ch seq IH]; intros src val mask; pose proof (Z.mod_pos_bound src 4 ltac:(lia)) as K; pose proof (Z.div_mod src 4 ltac:(lia)) as D; cbn [cmp_loop]; cbv zeta.
  - destruct (mask =? 0); cbn [length]; lia.
  - destruct (Z.eqb_spec (src mod 4) 3) as [E|E].
    + assert (S0 : (src + 1) mod 4 = 0) by (symmetry; apply (Z.mod_unique _ _ (src / 4 + 1)); lia). specialize (IH (src + 1) 0 0). rewrite S0 in IH. cbn [length]. lia.
    + assert (S1 : (src + 1) mod 4 = src mod 4 + 1) by (symmetry; apply (Z.mod_unique _ _ (src / 4)); lia).
      specialize (IH (src + 1) (val + Z.shiftl ch (8 * (src mod 4))) (mask + Z.shiftl 0xFF (8 * (src mod 4)))). rewrite S1 in IH. cbn [length]. lia.
Qed.
(* C80: names of ASCII characters, which are their own UTF-8, of the eight players; the conditions fit into one trigger *)
Theorem C80_ascii m p name : 0 <= p < 8 -> (length name <= 24)%nat -> Forall (fun c => 0 < c < 128) name ->
  PropCpu.utf8 name = Some name /\ conds_ok m (IsPName p name) /\ (length (IsPName p name) <= 16)%nat /\
  (eval_conds m (IsPName p name) = true <-> reads m (0x57EEEB + 36 * p) (name ++ [0])).
Proof.
  intros Hp HL HF. split; [|split; [|split]].
  - clear HL. induction HF as [|c r Hc HF IH]; [reflexivity|]. cbn [PropCpu.utf8]. replace (c <? 128) with true by (symmetry; apply Z.ltb_lt; lia). rewrite IH. reflexivity.
  - apply C80_compare; try lia. eapply Forall_impl; [|exact HF]. cbn. lia.
  - unfold IsPName, compare_sequence. pose proof (loop_length (name ++ [0]) (0x57EEEB + 36 * p) 0 0) as H. rewrite app_length in H. cbn [length] in H. pose proof (Z.mod_pos_bound (0x57EEEB + 36 * p) 4 ltac:(lia)). lia.
  - apply C80_compare; try lia. eapply Forall_impl; [|exact HF]. cbn. lia.
Qed.
Print Assumptions C80_ascii.
(* The name of one character U+00E9: the game stores C3 A9 00, for which the conditions fail *)
Theorem C80_nonascii_refuted : PropCpu.utf8 [0xC3; 0xA9] = Some [0xE9] /\
  exists m, reads m 0x57EEEB [0xC3; 0xA9; 0] /\ eval_conds m (IsPName 0 [0xE9]) = false.
Proof.
  split; [reflexivity|]. exists (fun a => if a =? idx (0x57EEEB / 4 - 0x58A364 / 4) then 0xC3000000 else if a =? idx (0x57EEEB / 4 + 1 - 0x58A364 / 4) then 0xA9 else 0).
  split; [|vm_compute; reflexivity]. cbn [reads]. repeat split; vm_compute; reflexivity.
Qed.
Print Assumptions C80_nonascii_refuted.

(* C80: the bits that record which players have a name are all different *)
Fixpoint after (n : nat) : Z * Z := match n with O => plv_init | S n => snd (get_player_lightvar (after n)) end.
Lemma after_eq n : after n = (fst plv_init + Z.of_nat n / 32, Z.of_nat n mod 32).
Proof.
  induction n as [|n IH]; [reflexivity|]. cbn [after]. rewrite IH. unfold get_player_lightvar. cbn [fst snd]. rewrite Nat2Z.inj_succ. set (z := Z.of_nat n).
  pose proof (Z.mod_pos_bound z 32 ltac:(lia)) as K. pose proof (Z.div_mod z 32 ltac:(lia)) as D. destruct (Z.leb_spec 32 (z mod 32 + 1)).
  - replace (Z.succ z / 32) with (z / 32 + 1) by (apply (Z.div_unique _ _ _ 0); lia). replace (Z.succ z mod 32) with 0 by (apply (Z.mod_unique _ _ (z / 32 + 1)); lia). f_equal. lia.
  - replace (Z.succ z / 32) with (z / 32) by (apply (Z.div_unique _ _ _ (z mod 32 + 1)); lia). replace (Z.succ z mod 32) with (z mod 32 + 1) by (apply (Z.mod_unique _ _ (z / 32)); lia). reflexivity.
Qed.
(* unit u, player p: the dword at 0x58A364 + 48 * u + 4 * p *)
Theorem C80_bits n : let u := fst (fst (get_player_lightvar (after n))) in let k := snd (fst (get_player_lightvar (after n))) in
  (exists i, 0 <= i < 32 /\ k = 2 ^ i) /\ 0x58F500 <= 0x58A364 + 48 * u /\
  forall n', n' <> n -> fst (get_player_lightvar (after n')) <> fst (get_player_lightvar (after n)).
Proof.
  intros u k. unfold u, k. rewrite after_eq. unfold get_player_lightvar. cbn [fst snd]. pose proof (Z.mod_pos_bound (Z.of_nat n) 32 ltac:(lia)) as K. split; [|split].
  - exists (Z.of_nat n mod 32). split; [lia|]. rewrite Z.shiftl_mul_pow2 by lia. lia.
  - change (fst plv_init) with (436). pose proof (Z.div_pos (Z.of_nat n) 32 ltac:(lia) ltac:(lia)). lia.
  - intros n' NE E. rewrite after_eq in E. cbn [fst snd] in E. pose proof (Z.mod_pos_bound (Z.of_nat n') 32 ltac:(lia)) as K'. assert (E1 : fst plv_init + Z.of_nat n' / 32 = fst plv_init + Z.of_nat n / 32) by congruence.
    assert (E2 : Z.shiftl 1 (Z.of_nat n' mod 32) = Z.shiftl 1 (Z.of_nat n mod 32)) by congruence. rewrite !Z.shiftl_1_l in E2. apply Z.pow_inj_r in E2; [|lia|lia|lia].
    pose proof (Z.div_mod (Z.of_nat n) 32 ltac:(lia)). pose proof (Z.div_mod (Z.of_nat n') 32 ltac:(lia)). lia.
Qed.
Print Assumptions C80_bits.

(* ---------- a concrete case: player 2 is called Ann ---------- *)
Example ex_pname : let m := fun a => if a =? idx (0x57EF0F / 4 - 0x58A364 / 4) then 0x41777777 else if a =? idx (0x57EF0F / 4 + 1 - 0x58A364 / 4) then 0x99006E6E else 0 in
  Forall (fun c => 0 < c < 128) [65; 110; 110] /\ reads m (0x57EEEB + 36 * 1) [65; 110; 110; 0] /\ eval_conds m (IsPName 1 [65; 110; 110]) = true /\ eval_conds m (IsPName 1 [65; 110]) = false.
Proof. cbv zeta. split; [repeat constructor; lia|]. split; [cbn [reads]; repeat split; vm_compute; reflexivity|]. split; vm_compute; reflexivity. Qed.
