(* Final theorems: tables of wire frames (C73). *)
From Coq Require Import ZArith Lia List Bool ZifyBool ZifyNat.
From Verif Require Import Word Machine MachineProofs VarModel ReadModel PropRead BwModel PropBw BlkModel PropBlk PropMem WireModel.
Import ListNotations.
Open Scope Z_scope.

(* ================= specification ================= *)
(* a GRP has 6 bytes of header and then 8 bytes for each frame; the tables here start at its byte 4 *)
Definition frame (T n : Z) : Z := T + 2 + 8 * n.
(* byte o of an array of dwords *)
Definition dbyte (data : list Z) (o : Z) : Z := (nth (Z.to_nat (o / 4)) data 0 / 2 ^ (8 * (o mod 4))) mod 256.
(* frame n is to look like v <> n *)
Definition replaced (src : dict) (n v : Z) : Prop := In (n, v) src /\ v <> n.
Definition is_dict (src : dict) : Prop := NoDup (map fst src).

(* ================= memory ================= *)
Lemma byte_upd_cell m a v x : 0 <= x < 2^32 -> 0 <= a < 2^32 -> a mod 4 = 0 ->
  byte (upd m (a / 4 - 0x58A364 / 4) v) x = if x / 4 =? a / 4 then fld (u32 v) (8 * (x mod 4)) 8 else byte m x.
Proof.
  intros Hx Ha A. unfold byte. destruct (Z.eqb_spec (x / 4) (a / 4)) as [E|E].
  - rewrite E, get_upd_eq. reflexivity.
  - rewrite get_upd_ne; [reflexivity|]. intros Q.
    assert (S : same_addr a (4 * (x / 4))).
    { apply same_addr_iff. rewrite (Z.mul_comm 4), Z_div_mult, Z_mod_mult by lia. split; [exact Q|exact A]. }
    unfold same_addr in S. rewrite !u32_small in S by (Z.div_mod_to_equations; lia). Z.div_mod_to_equations; lia.
Qed.
Lemma fld_wset lo len d v j : 0 <= lo -> 0 <= len -> 0 <= j -> (8 * j + 8 <= lo \/ lo <= 8 * j) -> (8 * j + 8 <= lo + len \/ lo + len <= 8 * j) ->
  fld (wset (fmask lo len) d v) (8 * j) 8 = if (lo <=? 8 * j) && (8 * j <? lo + len) then fld v (8 * j) 8 else fld d (8 * j) 8.
Proof.
  intros H0 H1 H2 H3 H4. apply Z.bits_inj'. intros i Hi. rewrite fld_bits by lia. destruct (Z.ltb_spec i 8); cbn [andb].
  - unfold wset. rewrite Z.lor_spec, Z.ldiff_spec, Z.land_spec, fmask_bits by lia.
    destruct ((lo <=? 8 * j) && (8 * j <? lo + len)) eqn:C.
    + replace ((lo <=? 8 * j + i) && (8 * j + i <? lo + len)) with true by lia. rewrite fld_bits by lia. replace (i <? 8) with true by lia.
      cbn [negb]. rewrite andb_false_r, andb_true_r. reflexivity.
    + replace ((lo <=? 8 * j + i) && (8 * j + i <? lo + len)) with false by lia. rewrite fld_bits by lia. replace (i <? 8) with true by lia.
      cbn [negb]. rewrite andb_false_r, andb_true_r, orb_false_r. reflexivity.
  - destruct (_ && _); rewrite fld_bits by lia; replace (i <? 8) with false by lia; reflexivity.
Qed.
Lemma fld_land_mask lo len v j : 0 <= lo -> 0 <= len -> 0 <= j -> lo <= 8 * j -> 8 * j + 8 <= lo + len -> fld (Z.land v (fmask lo len)) (8 * j) 8 = fld v (8 * j) 8.
Proof.
  intros. apply Z.bits_inj'. intros i Hi. rewrite !fld_bits by lia. destruct (Z.ltb_spec i 8); cbn [andb]; [|reflexivity].
  rewrite Z.land_spec, fmask_bits by lia. replace ((lo <=? 8 * j + i) && (8 * j + i <? lo + len)) with true by lia. apply andb_true_r.
Qed.
Lemma fld_u32 v j : 0 <= j < 4 -> fld (u32 v) (8 * j) 8 = fld v (8 * j) 8.
Proof.
  intros. apply Z.bits_inj'. intros i Hi. rewrite !fld_bits by lia. destruct (Z.ltb_spec i 8); cbn [andb]; [|reflexivity].
  unfold u32. apply Z.mod_pow2_bits_low. lia.
Qed.
Lemma get_at m e a : idx e = idx (a / 4 - 0x58A364 / 4) -> get m e = get m (a / 4 - 0x58A364 / 4).
Proof. intros H. apply get_cong, H. Qed.
Lemma upd_at m e a v b : idx e = idx (a / 4 - 0x58A364 / 4) -> get (upd m e v) b = get (upd m (a / 4 - 0x58A364 / 4) v) b.
Proof. intros H. unfold get, upd. rewrite H. reflexivity. Qed.
Lemma byte_ext m m' : (forall e, get m e = get m' e) -> forall x, byte m x = byte m' x.
Proof. intros H x. unfold byte. rewrite H. reflexivity. Qed.
Lemma upd_ext m m' a v : (forall e, get m e = get m' e) -> forall e, get (upd m a v) e = get (upd m' a v) e.
Proof.
  intros H e. destruct (Z.eq_dec (idx e) (idx a)) as [E|E].
  - rewrite !(get_cong _ e a E), !get_upd_eq. reflexivity.
  - rewrite !get_upd_ne by congruence. apply H.
Qed.
Lemma idx_shift e a k : idx e = idx (a / 4 - 0x58A364 / 4) -> idx (u32 (e + k)) = idx ((a + 4 * k) / 4 - 0x58A364 / 4).
Proof.
  intros H. rewrite idx_u32. replace ((a + 4 * k) / 4 - 0x58A364 / 4) with (a / 4 - 0x58A364 / 4 + k) by (rewrite (Z.mul_comm 4 k), Z_div_plus_full by lia; lia).
  apply idx_add, H.
Qed.

(* ================= C73 ================= *)
(* T, D: addresses of the table and of the array of default frames *)
Theorem C73_set : forall unit wireframe size T D32 D64 is64 m,
  0 <= unit < 2^32 -> 0 <= wireframe < 2^32 -> 0 <= size < 1000 ->
  T mod 4 = 0 -> 0 <= T -> T + 8 * size + 12 <= 2^32 -> D32 mod 4 = 0 -> D64 mod 4 = 0 ->
  let D := if is64 : bool then D64 else D32 in
  let m' := set_wireframe unit wireframe size (T / 4 - 0x58A364 / 4) (D32 / 4 - 0x58A364 / 4) (D64 / 4 - 0x58A364 / 4) is64 m in
  (unit <= size -> wireframe <= size ->
     (forall i, 0 <= i < 8 -> byte m' (frame T unit + i) = byte m (frame D wireframe + i)) /\
     (forall x, ~ (frame T unit <= u32 x < frame T unit + 8) -> byte m' x = byte m x)) /\
  (~ (unit <= size /\ wireframe <= size) -> m' = m).
Proof.
  intros unit wireframe size T D32 D64 is64 m Hu Hw Hs T4 T0 T1 D4a D4b D m'. unfold m', set_wireframe. clear m'.
  split; [|intros N; replace ((unit <=? size) && (wireframe <=? size)) with false by lia; reflexivity].
  intros U W. replace ((unit <=? size) && (wireframe <=? size)) with true by lia. cbv zeta.
  replace (if is64 then D64 / 4 - 0x58A364 / 4 else D32 / 4 - 0x58A364 / 4) with (D / 4 - 0x58A364 / 4) by (unfold D; destruct is64; reflexivity).
  assert (D4 : D mod 4 = 0) by (unfold D; destruct is64; assumption). clearbody D.
  set (e := u32 (u32 (unit + unit) + (T / 4 - 0x58A364 / 4))). set (c := u32 (D / 4 - 0x58A364 / 4 + u32 (wireframe + wireframe))).
  assert (E0 : idx e = idx ((T + 8 * unit) / 4 - 0x58A364 / 4)).
  { unfold e. rewrite (u32_small (unit + unit)) by lia. rewrite idx_u32. f_equal. Z.div_mod_to_equations; lia. }
  assert (C0 : idx c = idx ((D + 8 * wireframe) / 4 - 0x58A364 / 4)).
  { unfold c. rewrite (u32_small (wireframe + wireframe)) by lia. rewrite idx_u32. f_equal. Z.div_mod_to_equations; lia. }
  pose proof (idx_shift e _ 1 E0) as E1. pose proof (idx_shift _ _ 1 E1) as E2. pose proof (idx_shift c _ 1 C0) as C1. pose proof (idx_shift _ _ 1 C1) as C2.
  replace (T + 8 * unit + 4 * 1 + 4 * 1) with (T + 8 * unit + 8) in E2 by lia. replace (T + 8 * unit + 4 * 1) with (T + 8 * unit + 4) in E1 by lia.
  replace (D + 8 * wireframe + 4 * 1 + 4 * 1) with (D + 8 * wireframe + 8) in C2 by lia. replace (D + 8 * wireframe + 4 * 1) with (D + 8 * wireframe + 4) in C1 by lia.
  clearbody e c. set (A := T + 8 * unit) in *. set (S := D + 8 * wireframe) in *.
  assert (A4 : A mod 4 = 0) by (unfold A; Z.div_mod_to_equations; lia). assert (S4 : S mod 4 = 0) by (unfold S; Z.div_mod_to_equations; lia).
  assert (AR : 0 <= A /\ A + 12 <= 2^32) by (unfold A; lia).
  rewrite (get_at m c S C0), (get_at m _ _ C1), (get_at m _ _ C2), (get_at m e A E0).
  set (v1 := Z.land (get m (S / 4 - 0x58A364 / 4)) 0xFFFF0000). set (v3 := get m ((S + 4) / 4 - 0x58A364 / 4)). set (v5 := Z.land (get m ((S + 8) / 4 - 0x58A364 / 4)) 0xFFFF).
  set (m1 := upd m e (wset 0xFFFF0000 (get m (A / 4 - 0x58A364 / 4)) v1)).
  set (m2 := upd m1 (u32 (e + 1)) v3). rewrite (get_at m2 _ _ E2).
  assert (G2 : get m2 ((A + 8) / 4 - 0x58A364 / 4) = get m ((A + 8) / 4 - 0x58A364 / 4)).
  { assert (NE : forall k, k = 0 \/ k = 4 -> idx ((A + k) / 4 - 0x58A364 / 4) <> idx ((A + 8) / 4 - 0x58A364 / 4)).
    { intros k Hk Q. assert (SA : same_addr (A + k) (A + 8)) by (apply same_addr_iff; split; [exact Q|destruct Hk; subst; Z.div_mod_to_equations; lia]).
      unfold same_addr in SA. rewrite !u32_small in SA by lia. lia. }
    unfold m2, m1. rewrite get_upd_ne by (rewrite E1; apply NE; auto). apply get_upd_ne. rewrite E0. replace A with (A + 0) at 1 by lia. apply NE. auto. }
  rewrite G2.
  assert (B : forall x, 0 <= x < 2^32 ->
    byte (upd m2 (u32 (u32 (e + 1) + 1)) (wset 0xFFFF (get m ((A + 8) / 4 - 0x58A364 / 4)) v5)) x =
    if (A + 2 <=? x) && (x <? A + 10) then byte m (S + (x - A)) else byte m x).
  { intros x Hx.
    rewrite (byte_ext _ _ (fun b => upd_at m2 _ _ _ b E2)), byte_upd_cell by (try lia; Z.div_mod_to_equations; lia).
    unfold m2. rewrite (byte_ext _ _ (fun b => upd_at m1 _ _ _ b E1)), byte_upd_cell by (try lia; Z.div_mod_to_equations; lia).
    unfold m1. rewrite (byte_ext _ _ (fun b => upd_at m _ _ _ b E0)), byte_upd_cell by (try lia; Z.div_mod_to_equations; lia).
    pose proof (Z.mod_pos_bound x 4 eq_refl) as X4. rewrite !fld_u32 by lia.
    change 0xFFFF0000 with (fmask 16 16). change 0xFFFF with (fmask 0 16).
    rewrite !fld_wset by lia.
    destruct (Z.eqb_spec (x / 4) ((A + 8) / 4)) as [K8|K8].
    { destruct (Z.ltb_spec (8 * (x mod 4)) (0 + 16)).
      - replace ((0 <=? 8 * (x mod 4)) && true) with true by lia. replace ((A + 2 <=? x) && (x <? A + 10)) with true by (Z.div_mod_to_equations; lia).
        unfold v5. change 0xFFFF with (fmask 0 16). rewrite fld_land_mask by lia. unfold byte.
        replace ((S + (x - A)) / 4) with ((S + 8) / 4) by (Z.div_mod_to_equations; lia). replace ((S + (x - A)) mod 4) with (x mod 4) by (Z.div_mod_to_equations; lia). reflexivity.
      - replace ((0 <=? 8 * (x mod 4)) && false) with false by lia. replace ((A + 2 <=? x) && (x <? A + 10)) with false by (Z.div_mod_to_equations; lia).
        unfold byte. rewrite K8. reflexivity. }
    destruct (Z.eqb_spec (x / 4) ((A + 4) / 4)) as [K4|K4].
    { replace ((A + 2 <=? x) && (x <? A + 10)) with true by (Z.div_mod_to_equations; lia). unfold v3, byte.
      replace ((S + (x - A)) / 4) with ((S + 4) / 4) by (Z.div_mod_to_equations; lia). replace ((S + (x - A)) mod 4) with (x mod 4) by (Z.div_mod_to_equations; lia). reflexivity. }
    destruct (Z.eqb_spec (x / 4) (A / 4)) as [K0|K0].
    { destruct (Z.leb_spec 16 (8 * (x mod 4))).
      - replace (true && (8 * (x mod 4) <? 16 + 16)) with true by lia. replace ((A + 2 <=? x) && (x <? A + 10)) with true by (Z.div_mod_to_equations; lia).
        unfold v1. change 0xFFFF0000 with (fmask 16 16). rewrite fld_land_mask by lia. unfold byte.
        replace ((S + (x - A)) / 4) with (S / 4) by (Z.div_mod_to_equations; lia). replace ((S + (x - A)) mod 4) with (x mod 4) by (Z.div_mod_to_equations; lia). reflexivity.
      - cbn [andb]. replace ((A + 2 <=? x) && (x <? A + 10)) with false by (Z.div_mod_to_equations; lia). unfold byte. rewrite K0. reflexivity. }
    replace ((A + 2 <=? x) && (x <? A + 10)) with false by (Z.div_mod_to_equations; lia). reflexivity. }
  clearbody m2. unfold frame. split.
  - intros i Hi. rewrite B by (unfold A in *; lia). replace ((A + 2 <=? T + 2 + 8 * unit + i) && (T + 2 + 8 * unit + i <? A + 10)) with true by (unfold A; lia).
    f_equal. unfold A, S. lia.
  - intros x Hx. rewrite (byte_same _ x (u32 x)) by (unfold same_addr; symmetry; apply u32_idem). rewrite B by apply u32_range.
    replace ((A + 2 <=? u32 x) && (u32 x <? A + 10)) with false by (unfold A; lia). apply byte_same. unfold same_addr. apply u32_idem.
Qed.

(* a function that sets frames of a table with so many frames *)
Definition sets_frames (f : Z -> Z -> Z -> Z -> Z -> bool -> mem -> mem) (count : Z) : Prop :=
  forall unit wireframe T D32 D64 is64 m,
  0 <= unit < 2^32 -> 0 <= wireframe < 2^32 -> T mod 4 = 0 -> 0 <= T -> T + 8 * count + 4 <= 2^32 -> D32 mod 4 = 0 -> D64 mod 4 = 0 ->
  let D := if is64 : bool then D64 else D32 in
  let m' := f unit wireframe (T / 4 - 0x58A364 / 4) (D32 / 4 - 0x58A364 / 4) (D64 / 4 - 0x58A364 / 4) is64 m in
  (unit < count -> wireframe < count ->
     (forall i, 0 <= i < 8 -> byte m' (frame T unit + i) = byte m (frame D wireframe + i)) /\
     (forall x, ~ (frame T unit <= u32 x < frame T unit + 8) -> byte m' x = byte m x)) /\
  (~ (unit < count /\ wireframe < count) -> m' = m).
Theorem C73_tables : sets_frames SetTranWire 106 /\ sets_frames SetGrpWire 131 /\ sets_frames SetWirefram 228.
Proof.
  assert (G : forall size, 0 <= size < 999 -> sets_frames (fun u w p d e => set_wireframe u w size p d e) (size + 1)).
  { intros size Hs unit wireframe T D32 D64 is64 m H1 H2 H3 H4 H5 H6 H7 D m'. destruct (C73_set unit wireframe size T D32 D64 is64 m) as [S1 S2]; try assumption; try lia.
    split; [intros A B; apply S1; lia|]. intros N. apply S2. lia. }
  split; [|split]; [apply (G 105)|apply (G 130)|apply (G 227)]; lia.
Qed.

(* ---- initial tables ---- *)
Lemma find_ok src n v : is_dict src -> In (n, v) src -> find n src = Some v.
Proof.
  unfold is_dict. induction src as [|[k w] src IH]; [intros _ []|]. cbn [map fst find]. intros ND I. inversion ND as [|? ? N1 N2]; subst.
  destruct I as [E|I].
  - injection E as -> ->. rewrite Z.eqb_refl. reflexivity.
  - destruct (Z.eqb_spec n k) as [->|N]; [|apply IH; assumption]. exfalso. apply N1. apply in_map_iff. exists (k, v). auto.
Qed.
Lemma find_none src n : (forall v, ~ replaced src n v) -> wf src n = 2 * n.
Proof.
  unfold wf, replaced. intros H. destruct (find n src) as [v|] eqn:E; [|reflexivity].
  assert (I : In (n, v) src).
  { clear H. induction src as [|[k w] src IH]; [discriminate|]. cbn [find] in E. destruct (Z.eqb_spec n k) as [->|N]; [injection E as ->; left; reflexivity|right; apply IH, E]. }
  destruct (Z.eq_dec v n) as [->|N]; [reflexivity|]. exfalso. apply (H v). auto.
Qed.
Lemma entry_length src data n : length (entry src data n) = 8%nat.
Proof. unfold entry. cbv zeta. destruct (_ =? _); reflexivity. Qed.
Lemma zrange_length k : forall a, length (zrange a k) = k.
Proof. induction k; intros a; cbn [zrange length]; congruence. Qed.
Lemma flat_nth src data k : forall a n i, (n < k)%nat -> (i < 8)%nat ->
  nth (8 * n + i) (flat_map (entry src data) (zrange a k)) 0 = nth i (entry src data (a + Z.of_nat n)) 0.
Proof.
  induction k as [|k IH]; intros a n i Hn Hi; [lia|]. cbn [zrange flat_map]. destruct n as [|n].
  - rewrite app_nth1 by (rewrite entry_length; lia). change (Z.of_nat 0) with 0. rewrite Z.add_0_r. reflexivity.
  - rewrite app_nth2 by (rewrite entry_length; lia). rewrite entry_length. replace (8 * S n + i - 8)%nat with (8 * n + i)%nat by lia. rewrite IH by lia.
    replace (a + 1 + Z.of_nat n) with (a + Z.of_nat (S n)) by lia. reflexivity.
Qed.
Lemma flat_length src data k : forall a, length (flat_map (entry src data) (zrange a k)) = (8 * k)%nat.
Proof. induction k as [|k IH]; intros a; [reflexivity|]. cbn [zrange flat_map]. rewrite app_length, entry_length, IH. lia. Qed.
Lemma dbyte_at data k j : 0 <= j < 4 -> dbyte data (4 * k + j) = (at_ data k / 2 ^ (8 * j)) mod 256.
Proof.
  intros H. unfold dbyte, at_. replace ((4 * k + j) / 4) with k by (Z.div_mod_to_equations; lia). replace ((4 * k + j) mod 4) with j by (Z.div_mod_to_equations; lia). reflexivity.
Qed.
Lemma entry_byte src data n v i : is_dict src -> replaced src n v -> 0 <= i < 8 -> nth (Z.to_nat i) (entry src data n) 0 = dbyte data (8 * v + 2 + i).
Proof.
  intros ND [I N] Hi. unfold entry, wf. rewrite (find_ok _ _ _ ND I). replace (2 * v =? 2 * n) with false by lia. rewrite Z.shiftr_div_pow2 by lia.
  assert (K : i = 0 \/ i = 1 \/ i = 2 \/ i = 3 \/ i = 4 \/ i = 5 \/ i = 6 \/ i = 7) by lia.
  destruct K as [->|[->|[->|[->|[->|[->|[->| ->]]]]]]].
  - replace (8 * v + 2 + 0) with (4 * (2 * v) + 2) by lia. rewrite dbyte_at by lia. reflexivity.
  - replace (8 * v + 2 + 1) with (4 * (2 * v) + 3) by lia. rewrite dbyte_at by lia.
    change (nth (Z.to_nat 1) _ 0) with ((at_ data (2 * v) / 2 ^ 16) / 256 mod 256). rewrite Z.div_div by lia. reflexivity.
  - replace (8 * v + 2 + 2) with (4 * (2 * v + 1) + 0) by lia. rewrite dbyte_at by lia. change (2 ^ (8 * 0)) with 1. rewrite Z.div_1_r. reflexivity.
  - replace (8 * v + 2 + 3) with (4 * (2 * v + 1) + 1) by lia. rewrite dbyte_at by lia. reflexivity.
  - replace (8 * v + 2 + 4) with (4 * (2 * v + 1) + 2) by lia. rewrite dbyte_at by lia. reflexivity.
  - replace (8 * v + 2 + 5) with (4 * (2 * v + 1) + 3) by lia. rewrite dbyte_at by lia. reflexivity.
  - replace (8 * v + 2 + 6) with (4 * (2 * v + 2) + 0) by lia. rewrite dbyte_at by lia. change (2 ^ (8 * 0)) with 1. rewrite Z.div_1_r. reflexivity.
  - replace (8 * v + 2 + 7) with (4 * (2 * v + 2) + 1) by lia. rewrite dbyte_at by lia. reflexivity.
Qed.
Lemma entry_zero src data n i : (forall v, ~ replaced src n v) -> nth i (entry src data n) 0 = 0.
Proof. intros H. unfold entry. rewrite (find_none _ _ H), Z.eqb_refl. do 8 (destruct i as [|i]; [reflexivity|]). destruct i; reflexivity. Qed.

Theorem C73_init64 : forall src data size, is_dict src -> length data = (2 * (size + 1))%nat ->
  let t := create_init64 src data size in
  length t = (8 * (size + 1))%nat /\
  (forall n v i, 0 <= n < Z.of_nat size -> replaced src n v -> 0 <= i < 8 -> nth (Z.to_nat (frame 0 n + i)) t 0 = dbyte data (frame 0 v + i)) /\
  (forall n i, 0 <= n < Z.of_nat size -> (forall v, ~ replaced src n v) -> 0 <= i < 8 -> nth (Z.to_nat (frame 0 n + i)) t 0 = 0) /\
  (forall o, 0 <= o < 2 \/ frame 0 (Z.of_nat size) <= o < 8 * (Z.of_nat size + 1) -> nth (Z.to_nat o) t 0 = dbyte data o).
Proof.
  intros src data size ND HL t.
  assert (MID : forall n i, 0 <= n < Z.of_nat size -> 0 <= i < 8 -> nth (Z.to_nat (frame 0 n + i)) t 0 = nth (Z.to_nat i) (entry src data n) 0).
  { intros n i Hn Hi. unfold t, create_init64, frame. rewrite app_nth2 by (cbn [i2b2 length]; lia). rewrite app_nth1 by (rewrite flat_length; cbn [i2b2 length]; lia).
    replace (Z.to_nat (0 + 2 + 8 * n + i) - length (i2b2 (at_ data 0)))%nat with (8 * Z.to_nat n + Z.to_nat i)%nat by (cbn [i2b2 length]; lia).
    rewrite flat_nth by lia. do 2 f_equal. lia. }
  split; [|split; [|split]].
  - unfold t, create_init64. rewrite !app_length, flat_length. cbn [i2b2 i2b4 length]. lia.
  - intros n v i Hn R Hi. rewrite MID by assumption. rewrite (entry_byte src data n v i ND R Hi). unfold frame. f_equal. lia.
  - intros n i Hn R Hi. rewrite MID by assumption. apply entry_zero, R.
  - intros o Ho. unfold frame in Ho. unfold t, create_init64. destruct Ho as [Ho|Ho].
    + assert (K : o = 0 \/ o = 1) by lia. destruct K as [-> | ->].
      * change (dbyte data 0) with (dbyte data (4 * 0 + 0)). rewrite dbyte_at by lia. change (2 ^ (8 * 0)) with 1. rewrite Z.div_1_r. reflexivity.
      * change (dbyte data 1) with (dbyte data (4 * 0 + 1)). rewrite dbyte_at by lia. reflexivity.
    + rewrite app_nth2 by (cbn [i2b2 length]; lia). rewrite app_nth2 by (rewrite flat_length; cbn [i2b2 length]; lia). rewrite flat_length.
      replace (Z.to_nat o - length (i2b2 (at_ data 0)) - 8 * size)%nat with (Z.to_nat (o - 8 * Z.of_nat size - 2)) by (cbn [i2b2 length]; lia).
      replace (Z.of_nat (length data) - 2) with (2 * Z.of_nat size) by lia. replace (Z.of_nat (length data) - 1) with (2 * Z.of_nat size + 1) by lia.
      rewrite Z.shiftr_div_pow2 by lia. set (j := o - 8 * Z.of_nat size - 2) in *.
      assert (K : j = 0 \/ j = 1 \/ j = 2 \/ j = 3 \/ j = 4 \/ j = 5) by lia. replace o with (8 * Z.of_nat size + 2 + j) by lia. clearbody j.
      destruct K as [->|[->|[->|[->|[->| ->]]]]].
      * replace (8 * Z.of_nat size + 2 + 0) with (4 * (2 * Z.of_nat size) + 2) by lia. rewrite dbyte_at by lia. reflexivity.
      * replace (8 * Z.of_nat size + 2 + 1) with (4 * (2 * Z.of_nat size) + 3) by lia. rewrite dbyte_at by lia.
        change (nth (Z.to_nat 1) _ 0) with ((at_ data (2 * Z.of_nat size) / 2 ^ 16) / 256 mod 256). rewrite Z.div_div by lia. reflexivity.
      * replace (8 * Z.of_nat size + 2 + 2) with (4 * (2 * Z.of_nat size + 1) + 0) by lia. rewrite dbyte_at by lia. change (2 ^ (8 * 0)) with 1. rewrite Z.div_1_r. reflexivity.
      * replace (8 * Z.of_nat size + 2 + 3) with (4 * (2 * Z.of_nat size + 1) + 1) by lia. rewrite dbyte_at by lia. reflexivity.
      * replace (8 * Z.of_nat size + 2 + 4) with (4 * (2 * Z.of_nat size + 1) + 2) by lia. rewrite dbyte_at by lia. reflexivity.
      * replace (8 * Z.of_nat size + 2 + 5) with (4 * (2 * Z.of_nat size + 1) + 3) by lia. rewrite dbyte_at by lia. reflexivity.
Qed.

Lemma key_min_le src n v : In (n, v) src -> key_min src <= n.
Proof. unfold key_min. induction src as [|[k w] src IH]; [intros []|]. cbn [map fst fold_right]. intros [E|I]; [injection E as -> ->; lia|specialize (IH I); lia]. Qed.
Lemma key_max_ge src n v : In (n, v) src -> n <= key_max src.
Proof. unfold key_max. induction src as [|[k w] src IH]; [intros []|]. cbn [map fst fold_right]. intros [E|I]; [injection E as -> ->; lia|specialize (IH I); lia]. Qed.
Lemma key_bounds src : key_min src <= 3 /\ 87 <= key_max src.
Proof. unfold key_min, key_max. induction src as [|[k w] src IH]; cbn [map fst fold_right]; lia. Qed.
(* byte o of the table is written by byte o - 8 * key_min of the Db *)
Theorem C73_init32 : forall src data, is_dict src -> (forall n v, In (n, v) src -> 0 <= n) ->
  let t := init32 src data in
  let lo := 8 * key_min src in
  let hi := 8 * key_max src in
  Z.of_nat (length t) = hi + 12 - lo /\
  (forall n v i, replaced src n v -> 0 <= i < 8 -> lo <= frame 0 n + i < hi + 12 /\ nth (Z.to_nat (frame 0 n + i - lo)) t 0 = dbyte data (frame 0 v + i)) /\
  (forall n i, key_min src <= n <= key_max src -> (forall v, ~ replaced src n v) -> 0 <= i < 8 -> nth (Z.to_nat (frame 0 n + i - lo)) t 0 = 0) /\
  ((forall v, ~ replaced src (key_min src) v) -> forall i, 0 <= i < 2 -> nth (Z.to_nat i) t 0 = dbyte data (lo + i)) /\
  ((forall v, ~ replaced src (key_max src) v) -> forall i, 0 <= i < 2 -> nth (Z.to_nat (hi + 10 + i - lo)) t 0 = dbyte data (hi + 10 + i)).
Proof.
  intros src data ND NN t lo hi. pose proof (key_bounds src) as KB. set (a := key_min src) in *. set (b := key_max src) in *.
  assert (MID : forall n i, a <= n <= b -> 0 <= i < 8 -> nth (Z.to_nat (frame 0 n + i - lo)) t 0 = nth (Z.to_nat i) (entry src data n) 0).
  { intros n i Hn Hi. unfold t, init32, frame. fold a b. rewrite app_nth2 by (cbn [i2b2 length]; lia). rewrite app_nth1 by (rewrite flat_length; cbn [i2b2 length]; lia).
    replace (Z.to_nat (0 + 2 + 8 * n + i - lo) - length (i2b2 (at_ data (wf src a))))%nat with (8 * Z.to_nat (n - a) + Z.to_nat i)%nat by (cbn [i2b2 length]; lia).
    rewrite flat_nth by lia. do 2 f_equal. lia. }
  split; [|split; [|split; [|split]]].
  - unfold t, init32. fold a b. rewrite !app_length, flat_length. cbn [i2b2 length]. lia.
  - intros n v i R Hi. pose proof R as [I _]. pose proof (key_min_le _ _ _ I) as K1. pose proof (key_max_ge _ _ _ I) as K2. fold a in K1. fold b in K2. split; [unfold frame; lia|].
    rewrite MID by (try assumption; lia). rewrite (entry_byte src data n v i ND R Hi). unfold frame. f_equal. lia.
  - intros n i Hn R Hi. rewrite MID by assumption. apply entry_zero, R.
  - intros R i Hi. unfold t, init32. fold a. rewrite (find_none _ _ R). assert (K : i = 0 \/ i = 1) by lia. destruct K as [-> | ->].
    + replace (lo + 0) with (4 * (2 * a) + 0) by lia. rewrite dbyte_at by lia. change (2 ^ (8 * 0)) with 1. rewrite Z.div_1_r. reflexivity.
    + replace (lo + 1) with (4 * (2 * a) + 1) by lia. rewrite dbyte_at by lia. reflexivity.
  - intros R i Hi. unfold t, init32. fold a b. rewrite (find_none _ _ R).
    rewrite app_nth2 by (cbn [i2b2 length]; lia). rewrite app_nth2 by (rewrite flat_length; cbn [i2b2 length]; lia). rewrite flat_length.
    replace (Z.to_nat (hi + 10 + i - lo) - length (i2b2 (at_ data (wf src a))) - 8 * Z.to_nat (b + 1 - a))%nat with (Z.to_nat i) by (cbn [i2b2 length]; lia).
    rewrite Z.shiftr_div_pow2 by lia. assert (K : i = 0 \/ i = 1) by lia. destruct K as [-> | ->].
    + replace (hi + 10 + 0) with (4 * (2 * b + 2) + 2) by lia. rewrite dbyte_at by lia. reflexivity.
    + replace (hi + 10 + 1) with (4 * (2 * b + 2) + 3) by lia. rewrite dbyte_at by lia.
      change (nth (Z.to_nat 1) _ 0) with ((at_ data (2 * b + 2) / 2 ^ 16) / 256 mod 256). rewrite Z.div_div by lia. reflexivity.
Qed.
(* the first dwords of Wirefram32: replacing frame 0 overwrites the height in the header *)
Theorem C73_header_refuted : exists src data, is_dict src /\ key_min src = 0 /\
  dbyte data 0 = 0x40 /\ nth 0 (init32 src data) 0 = 0.
Proof.
  exists [(0, 1)], [0x000D0040; 0x07263F28; 0x02070000; 0x0E473C2E; 0x06000000].
  split; [constructor; [intros []|constructor]|]. vm_compute. auto.
Qed.
(* replacing the last frame of the range overwrites the position of the frame after it *)
Theorem C73_next_frame_refuted : exists src data, is_dict src /\ key_max src = 100 /\
  dbyte data (frame 0 101) = 0 /\ nth (Z.to_nat (frame 0 101 - 8 * key_min src)) (init32 src data) 0 = 7.
Proof.
  exists [(100, 0)], [0x000D0040; 0x07263F28; 0x02070000; 0x0E473C2E; 0x06000000].
  split; [constructor; [intros []|constructor]|]. vm_compute. auto.
Qed.

(* ================= cases ================= *)
Example ex_set : let m := upd (upd (upd (fun _ => 0) 1000 0x44332211) 1001 0x88776655) 1002 0xCCBBAA99 in
  let T := 0x58A364 + 4 * 2000 in let D := 0x58A364 + 4 * 996 in
  let m' := set_wireframe 3 2 227 (T / 4 - 0x58A364 / 4) (D / 4 - 0x58A364 / 4) 0 false m in
  map (fun i => byte m' (frame T 3 + i)) [-1; 0; 1; 2; 3; 4; 5; 6; 7; 8] = [0; 0x33; 0x44; 0x55; 0x66; 0x77; 0x88; 0x99; 0xAA; 0].
Proof. vm_compute. reflexivity. Qed.
Example ex_dict : is_dict [(5, 1); (100, 0)] /\ replaced [(5, 1); (100, 0)] 5 1 /\ key_min [(5, 1); (100, 0)] = 3 /\ key_max [(5, 1); (100, 0)] = 100 /\
  (forall v, ~ replaced [(5, 1); (100, 0)] 3 v).
Proof.
  split; [repeat constructor; cbn; intuition lia|]. split; [split; [left; reflexivity|lia]|]. split; [reflexivity|]. split; [reflexivity|].
  intros v [[E|[E|[]]] _]; discriminate E.
Qed.

Print Assumptions C73_set.
Print Assumptions C73_tables.
Print Assumptions C73_init64.
Print Assumptions C73_init32.
Print Assumptions C73_header_refuted.
Print Assumptions C73_next_frame_refuted.
