(* C84: generate_linetable of the Rust extension. *)
From Coq Require Import ZArith List Bool Lia.
From Verif Require Import RlineModel.
From Verif Require LineModel PropLine.
Import ListNotations.
Open Scope Z_scope.

(* ---------- specification ---------- *)
(* an entry of a table: a head with bit 7, the number of code units in its low bits, then bytes without bit 7 *)
Definition entry (e : list Z) : Prop := exists h t, e = h :: t /\ 128 <= h < 256 /\ Forall (fun b => 0 <= b < 128) t.
Definition units (e : list Z) : nat := Z.to_nat (hd 0 e mod 8 + 1).
(* the entries with the epScript line of their first code unit *)
Fixpoint mapped (eps_line : Z -> Z) (pos : list Z) (es : list (list Z)) : list (Z * nat) :=
  match es with
  | [] => []
  | e :: r => (eps_line (hd 0 pos), units e) :: mapped eps_line (skipn (units e) pos) r
  end.

(* ================= proofs ================= *)
Lemma bit7 b : 0 <= b < 256 -> (Z.land b 0x80 =? 0x80) = (128 <=? b).
Proof.
  intros H. assert (E : Z.land b 128 = (b / 128) * 128).
  { apply Z.bits_inj'. intros i Hi. rewrite Z.land_spec. change 128 with (2 ^ 7). rewrite Z.pow2_bits_eqb by lia. rewrite <- Z.shiftr_div_pow2, <- Z.shiftl_mul_pow2 by lia. rewrite Z.shiftl_spec by lia.
    destruct (Z.eqb_spec 7 i) as [<-|N].
    - rewrite andb_true_r, Z.shiftr_spec by lia. reflexivity.
    - rewrite andb_false_r. symmetry. destruct (Z.lt_ge_cases i 7); [apply Z.testbit_neg_r; lia|]. rewrite Z.shiftr_spec by lia. replace (i - 7 + 7) with i by lia.
      destruct (Z.eq_dec b 0) as [->|]; [apply Z.bits_0|]. apply Z.bits_above_log2; [lia|]. apply Z.log2_lt_pow2; [lia|]. apply Z.lt_le_trans with (2 ^ 8); [change (2 ^ 8) with 256; lia|apply Z.pow_le_mono_r; lia]. }
  change 0x80 with 128. rewrite E. destruct (Z.leb_spec 128 b).
  - replace (b / 128) with 1 by (apply (Z.div_unique _ _ _ (b - 128)); lia). reflexivity.
  - rewrite Z.div_small by lia. reflexivity.
Qed.
Lemma item_rest_ok : forall t r, Forall (fun b => 0 <= b < 128) t -> (r = [] \/ exists h x, r = h :: x /\ 128 <= h < 256) -> item_rest (t ++ r) = (t, r).
Proof.
  induction t as [|b t IH]; intros r F R; cbn [app].
  - destruct R as [->|(h & x & -> & H)]; [reflexivity|]. cbn [item_rest]. rewrite bit7 by lia. replace (128 <=? h) with true by (symmetry; apply Z.leb_le; lia). reflexivity.
  - inversion F; subst. cbn [item_rest]. rewrite bit7 by lia. replace (128 <=? b) with false by (symmetry; apply Z.leb_gt; lia). rewrite IH by assumption. reflexivity.
Qed.
Lemma items_ok : forall es f, Forall entry es -> (length (concat es) <= f)%nat -> items f (concat es) = es.
Proof.
  induction es as [|e es IH]; intros f F L; [destruct f; reflexivity|]. inversion F as [|? ? (h & t & -> & Hh & Ht) F']; subst. cbn [concat app length] in *. destruct f as [|f]; [lia|]. cbn [items].
  rewrite item_rest_ok; [|exact Ht|].
  - f_equal. apply IH; [exact F'|]. rewrite app_length in L. lia.
  - destruct es as [|e2 es]; [left; reflexivity|right]. inversion F' as [|? ? (h2 & t2 & -> & H2 & _) _]; subst. exists h2, (t2 ++ concat es). split; [reflexivity|exact H2].
Qed.
(* C84: the reader finds exactly the entries of a table *)
Theorem C84_reader es : Forall entry es -> items (length (concat es)) (concat es) = es.
Proof. intros F. apply items_ok; [exact F|lia]. Qed.
Print Assumptions C84_reader.

Lemma varint_eq : forall f num, 0 <= num -> varint_loop f num = LineModel.varint_loop f num.
Proof.
  induction f as [|f IH]; intros num H; [reflexivity|]. cbn [varint_loop LineModel.varint_loop]. destruct (Z.leb_spec 0x40 num) as [C|C].
  - rewrite IH by (apply Z.shiftr_nonneg; exact H). f_equal. f_equal. unfold as_u8. apply Z.mod_small. change 0x3F with (Z.ones 6). rewrite Z.land_ones by lia. pose proof (Z.mod_pos_bound num (2 ^ 6) ltac:(lia)). change (2 ^ 6) with 64 in *. change (2 ^ 8) with 256. lia.
  - unfold as_u8. rewrite Z.mod_small by (change (2 ^ 8) with 256; lia). rewrite Z.lor_0_r. f_equal.
    assert (A : Z.land num 0xBF = Z.land (Z.land num (Z.ones 6)) 0xBF) by (rewrite Z.land_ones, Z.mod_small by (change (2 ^ 6) with 64; lia); reflexivity).
    rewrite A, <- Z.land_assoc. change (Z.land (Z.ones 6) 0xBF) with (Z.ones 6). rewrite Z.land_ones by lia. apply Z.mod_small. change (2 ^ 6) with 64. lia.
Qed.
Lemma svarint_eq d : - 2 ^ 31 < d < 2 ^ 31 -> encode_svarint d = LineModel.encode_svarint d.
Proof.
  intros H. change (2 ^ 31) with 2147483648 in H. unfold encode_svarint, LineModel.encode_svarint, encode_varint, LineModel.encode_varint.
  assert (E : (if d <? 0 then Z.lor (u32 (Z.shiftl (u32 (- d)) 1)) 1 else u32 (Z.shiftl (u32 d) 1)) = (if d <? 0 then Z.lor (Z.shiftl (- d) 1) 1 else Z.shiftl d 1)).
  { unfold u32. change (2 ^ 32) with 4294967296. destruct (Z.ltb_spec d 0).
    - rewrite (Z.mod_small (- d)) by lia. rewrite Z.mod_small; [reflexivity|]. rewrite Z.shiftl_mul_pow2 by lia. change (2 ^ 1) with 2. lia.
    - rewrite (Z.mod_small d) by lia. rewrite Z.mod_small; [reflexivity|]. rewrite Z.shiftl_mul_pow2 by lia. change (2 ^ 1) with 2. lia. }
  rewrite E. apply varint_eq. destruct (Z.ltb_spec d 0); [|apply Z.shiftl_nonneg; lia]. apply Z.lor_nonneg. split; [apply Z.shiftl_nonneg; lia|lia].
Qed.
Lemma entries_eq d n : - 2 ^ 31 < d < 2 ^ 31 -> (n <= 8)%nat -> forall f, entries_loop (S f) d n = LineModel.entries_loop (S f) d n.
Proof.
  intros H Hn f. cbn [entries_loop LineModel.entries_loop]. destruct (Nat.eqb n 0) eqn:E0; [reflexivity|]. replace (Nat.leb n 8) with true by (symmetry; apply Nat.leb_le; lia). rewrite svarint_eq by exact H. f_equal.
  apply Nat.eqb_neq in E0. do 9 (destruct n as [|n]; [try lia; reflexivity|]). lia.
Qed.
Lemma calc_eq cur cb l cl : 0 <= cur < 2 ^ 31 -> 0 <= l < 2 ^ 31 -> (cb <= cl <= cb + 8)%nat -> calc_linetable cur cb l cl = LineModel.encode_entries (l - cur) (cl - cb).
Proof.
  intros H1 H2 H3. unfold calc_linetable, LineModel.encode_entries. assert (E : as_i32 (u32 (l - cur)) = l - cur).
  { unfold as_i32, u32. change (2 ^ 31) with 2147483648 in *. change (2 ^ 32) with 4294967296. destruct (Z.lt_ge_cases (l - cur) 0).
    - replace ((l - cur) mod 4294967296) with (l - cur + 4294967296) by (apply (Z.mod_unique _ _ (-1)); lia). replace (l - cur + 4294967296 <? 2147483648) with false by (symmetry; apply Z.ltb_ge; lia). lia.
    - rewrite Z.mod_small by lia. replace (l - cur <? 2147483648) with true by (symmetry; apply Z.ltb_lt; lia). reflexivity. }
  rewrite E. apply entries_eq; lia.
Qed.
Definition instrs_of (p : list (Z * nat)) : list (option Z * nat) := map (fun x => (Some (fst x), snd x)) p.
Lemma placed_instrs : forall p c, PropLine.placed c (instrs_of p) = p.
Proof. induction p as [|[l n] p IH]; intros c; [reflexivity|]. cbn [instrs_of map fst snd PropLine.placed]. fold (instrs_of p). rewrite IH. reflexivity. Qed.
Lemma units_ok e : entry e -> Z.to_nat (Z.land (hd 0 e) 0x07 + 1) = units e /\ (0 < units e <= 8)%nat.
Proof.
  intros (h & t & -> & Hh & _). unfold units. cbn [hd]. change 0x07 with (Z.ones 3). rewrite Z.land_ones by lia. change (2 ^ 3) with 8. pose proof (Z.mod_pos_bound h 8 ltac:(lia)). split; [reflexivity|lia].
Qed.
Lemma gen_ok eps_line pos : (forall x, 0 <= eps_line x < 2 ^ 31) -> forall es cur cb cl, Forall entry es -> 0 <= cur < 2 ^ 31 -> (cb <= cl <= cb + 8)%nat -> (cl + fold_right (fun e s => units e + s) 0 es <= length pos)%nat ->
  generate_loop eps_line pos es cur cb cl = Some (LineModel.assemble cur (cl - cb) (instrs_of (mapped eps_line (skipn cl pos) es))).
Proof.
  intros HL. induction es as [|e es IH]; intros cur cb cl F Hc H1 H2; cbn [generate_loop mapped instrs_of map LineModel.assemble fst snd].
  - rewrite calc_eq by (auto; lia). rewrite Z.sub_diag. reflexivity.
  - inversion F as [|? ? He F']; subst. destruct (units_ok e He) as (U1 & U2). cbn [fold_right] in H2. rewrite U1.
    assert (N : nth_error pos cl = Some (hd 0 (skipn cl pos))).
    { assert (L : (cl < length pos)%nat) by lia. clear - L. revert pos L. induction cl as [|cl IH]; intros [|p pos] L; cbn in L; try lia; [reflexivity|]. cbn [nth_error skipn]. apply IH. lia. }
    rewrite N. rewrite (IH (eps_line (hd 0 (skipn cl pos))) cl (cl + units e)%nat F' (HL _) ltac:(lia) ltac:(lia)). rewrite calc_eq by (auto; lia). fold (instrs_of (mapped eps_line (skipn (units e) (skipn cl pos)) es)).
    do 2 f_equal. replace (cl + units e - cl)%nat with (units e) by lia. assert (K : skipn (cl + units e) pos = skipn (units e) (skipn cl pos)); [|rewrite K; reflexivity].
    clear. revert pos. induction cl as [|cl IH]; intros pos; [reflexivity|]. destruct pos as [|p pos]; [cbn [skipn Nat.add]; destruct (units e); reflexivity|]. cbn [Nat.add skipn]. apply IH.
Qed.
(* C84: the new table has a line for every code unit of the old one, but each entry gets the line of the next one, moved by
   the distance between the first line of the code object and the line of the first entry *)
Theorem C84_lines eps_line pos e es first : (forall x, 0 <= eps_line x < 2 ^ 31) -> Forall entry (e :: es) -> length pos = fold_right (fun e s => (units e + s)%nat) 0%nat (e :: es) ->
  exists t, generate_linetable eps_line (concat (e :: es)) pos = Some t /\
    PropLine.lines first t = Some (map (fun x => x + (first - eps_line (hd 0 pos))) (PropLine.late (mapped eps_line pos (e :: es)))).
Proof.
  intros HL F HP. unfold generate_linetable. rewrite C84_reader by exact F. rewrite (gen_ok eps_line pos HL (e :: es) 0 0%nat 0%nat F); [|change (2 ^ 31) with 2147483648; lia|lia|rewrite HP; lia].
  eexists. split; [reflexivity|]. cbn [skipn Nat.sub]. cbn [mapped instrs_of map fst snd]. set (l0 := eps_line (hd 0 pos)). set (r := mapped eps_line (skipn (units e) pos) es). fold (instrs_of r).
  assert (Z0 : LineModel.assemble 0 0 ((Some l0, units e) :: instrs_of r) = LineModel.linetable first ((Some l0, units e) :: instrs_of r)) by reflexivity.
  rewrite Z0. rewrite PropLine.C82_lines.
  - f_equal. f_equal. cbn [PropLine.placed]. rewrite placed_instrs. reflexivity.
  - assert (G : forall es pos, Forall entry es -> Forall (fun i : option Z * nat => (0 < snd i <= 8)%nat) (instrs_of (mapped eps_line pos es))).
    { clear. induction es as [|e es IH]; intros pos F; [constructor|]. inversion F; subst. cbn [mapped instrs_of map]. constructor; [cbn [snd]; apply units_ok; assumption|]. apply IH. assumption. }
    exact (G (e :: es) pos F).
Qed.
Print Assumptions C84_lines.
(* Two entries of one code unit on lines 1 and 2 *)
Theorem C84_late_refuted : let es := [[128 + 13 * 8; 0]; [128 + 13 * 8; 2]] in Forall entry es /\ PropLine.lines 1 (concat es) = Some [1; 2] /\
  exists t, generate_linetable (fun x => Z.max 0 (Z.min x 9)) (concat es) [1; 2] = Some t /\ PropLine.lines 1 t = Some [2; 2].
Proof.
  split; [|split; [reflexivity|eexists; split; reflexivity]]. constructor; [|constructor; [|constructor]]; (do 2 eexists; split; [reflexivity|]; split; [lia|constructor; [lia|constructor]]).
Qed.
Print Assumptions C84_late_refuted.
(* ---------- a concrete case: entries of 2, 1 and 3 units ---------- *)
Example ex_rline : generate_linetable (fun x => 10 * x) [233; 0; 232; 2; 234; 1; 1] [1; 1; 2; 5; 5; 5] = Some [233; 20; 232; 60; 234; 0] /\
  PropLine.lines 10 [233; 20; 232; 60; 234; 0] = Some [20; 20; 50; 50; 50; 50].
Proof. split; reflexivity. Qed.
