(* C58: EUDVArray, reading and writing items. *)
From Coq Require Import ZArith Lia Bool List ZifyBool ZifyNat.
From Verif Require Import Lib Word Machine MachineProofs VarModel VarSpec VarProofs SeqProofs OpsModel OpsSpec OpsBase VarrModel VbufModel VbufWorld ExWorld SeqRefute ExTools ExCalc.
Import ListNotations.
Open Scope Z_scope.

(* ---------- a chain that adds multiples of a number to cells, bit by bit ---------- *)
Section Bits.
Variable w : world.
Variable lv : Z.
Variable Bt : nat -> Z.
Variable E : Z.
Variable cells : list (Z * Z).
Definition bit_trig (i : nat) : trig :=
  mktrig [CondMX lv AtLeast 1 (2 ^ Z.of_nat i)] (map (fun c => SetM (fst c) Add (snd c * 2 ^ Z.of_nat i)) cells)
         (Imm (pa (match i with O => E | S i => Bt i end))) (Imm 4).
Variable N : nat.
Hypothesis HN : (N < 32)%nat.
Hypothesis Hp : forall i, (i <= N)%nat -> W_P w (pa (Bt i)) = Some (bit_trig i).
Hypothesis Hlv : plain lv.
Hypothesis Hcw : forall c, In c cells -> writable w (fst c).
Hypothesis Hnd : NoDup (map (fun c => idx (fst c)) cells).
Hypothesis Hcl : forall c, In c cells -> idx (fst c) <> idx lv.

Lemma adds_do i : forall l m, (forall c, In c l -> writable w (fst c)) -> NoDup (map (fun c => idx (fst c)) l) ->
  exists m', acts_do (W_prot w) m (map (fun c => SetM (fst c) Add (snd c * i)) l) m' /\
    (forall c, In c l -> get m' (fst c) = u32 (get m (fst c) + snd c * i)) /\
    (forall b, (forall c, In c l -> idx (fst c) <> idx b) -> get m' b = get m b).
Proof using Type.
  clear. induction l as [|c l IH]; intros m Hw Hn; cbn [map].
  - exists m. split; [apply do_nil|]. split; [intros ? []|auto].
  - inversion Hn as [|? ? N1 N2]; subst. destruct (Hw c (or_introl eq_refl)) as [P1 P2].
    destruct (IH (upd m (fst c) (do_mod Add (get m (fst c)) (u32 (snd c * i))))) as (m' & A & B & C); auto.
    { intros d Hd. apply Hw. right. auto. }
    exists m'. split; [apply do_cons_M; auto|]. split.
    + intros d [<-|Hd].
      * rewrite C.
        -- rewrite get_upd_eq. cbn [do_mod]. rewrite u32_idem, u32_add_r. reflexivity.
        -- intros d Hd Ed. apply N1. rewrite <- Ed. apply (in_map (fun c => idx (fst c))). exact Hd.
      * rewrite B by auto. rewrite get_upd_ne; [reflexivity|]. intros Ed. apply N1. rewrite Ed. apply (in_map (fun c => idx (fst c))). exact Hd.
    + intros b Hb. rewrite C by (intros d Hd; apply Hb; right; auto). apply get_upd_ne. apply Hb. left. reflexivity.
Qed.

Lemma bits_run : forall n m, (n <= N)%nat ->
  exists m', runs w (pa (Bt n), m) (pa E, m') /\
    (forall c, In c cells -> get m' (fst c) = u32 (get m (fst c) + snd c * (get m lv mod 2 ^ (Z.of_nat n + 1)))) /\
    (forall b, (forall c, In c cells -> idx (fst c) <> idx b) -> get m' b = get m b).
Proof using HN Hp Hlv Hcw Hnd Hcl.
  assert (Step : forall n m, (n <= N)%nat -> exists m', runs w (pa (Bt n), m) (pa (match n with O => E | S i => Bt i end), m') /\
    (forall c, In c cells -> get m' (fst c) = u32 (get m (fst c) + snd c * (2 ^ Z.of_nat n * Z.b2z (Z.testbit (get m lv) (Z.of_nat n))))) /\
    (forall b, (forall c, In c cells -> idx (fst c) <> idx b) -> get m' b = get m b)).
  { intros n m Hn. set (i := Z.of_nat n). assert (Hi : 0 <= i < 32) by lia.
    assert (P32 : 0 < 2 ^ i < 2^32) by (split; [apply Z.pow_pos_nonneg; lia|apply Z.pow_lt_mono_r; lia]).
    pose proof (conds_one_MX m lv AtLeast 1 (2 ^ i) Hlv) as Hc.
    assert (Cmp : do_cmp AtLeast (Z.land (get m lv) (u32 (2 ^ i))) (u32 1) = Z.testbit (get m lv) i).
    { rewrite (u32_small (2^i)) by lia. change (u32 1) with 1. cbn [do_cmp].
      destruct (Z.testbit (get m lv) i) eqn:Et.
      - assert (Q : Z.land (get m lv) (2^i) = 2^i).
        { apply Z.bits_inj'. intros q Hq. rewrite Z.land_spec, Z.pow2_bits_eqb by lia. destruct (Z.eqb_spec i q); [subst; rewrite Et; reflexivity|apply andb_false_r]. }
        rewrite Q. lia.
      - assert (Q : Z.land (get m lv) (2^i) = 0).
        { apply Z.bits_inj'. intros q Hq. rewrite Z.land_spec, Z.pow2_bits_eqb, Z.bits_0 by lia. destruct (Z.eqb_spec i q); [subst; rewrite Et; reflexivity|apply andb_false_r]. }
        rewrite Q. reflexivity. }
    rewrite Cmp in Hc. destruct (Z.testbit (get m lv) i).
    - destruct (adds_do (2 ^ i) cells m Hcw Hnd) as (m' & A & B & C). exists m'. split; [|split; [|exact C]].
      + eapply run_true; [apply Hp; exact Hn|reflexivity|exact Hc|exact A|apply u32_pa].
      + intros c Hin. rewrite B by auto. cbn [Z.b2z]. rewrite Z.mul_1_r. reflexivity.
    - exists m. split; [|split; [|reflexivity]].
      + eapply run_false; [apply Hp; exact Hn|reflexivity|exact Hc|apply u32_pa].
      + intros c _. cbn [Z.b2z]. rewrite !Z.mul_0_r, Z.add_0_r, u32_get. reflexivity. }
  induction n as [|n IH]; intros m Hn.
  - destruct (Step 0%nat m Hn) as (m' & A & B & C). exists m'. split; [exact A|]. split; [|exact C].
    intros c Hc. rewrite B by auto. do 2 f_equal. change (2 ^ Z.of_nat 0) with 1. change (2 ^ (Z.of_nat 0 + 1)) with 2.
    change (Z.of_nat 0) with 0. rewrite <- Z.bit0_mod. destruct (Z.testbit (get m lv) 0); reflexivity.
  - destruct (Step (S n) m Hn) as (m1 & A1 & B1 & C1). destruct (IH m1 ltac:(lia)) as (m' & A & B & C). exists m'.
    split; [eapply runs_trans; [exact A1|exact A]|]. split; [|intros b Hb; rewrite C, C1; auto].
    intros c Hc. rewrite B, B1 by auto. rewrite C1 by (intros d Hd; apply Hcl; auto).
    rewrite u32_add_l. f_equal.
    assert (Hm : get m lv mod 2 ^ (Z.of_nat (S n) + 1) = 2 ^ Z.of_nat (S n) * Z.b2z (Z.testbit (get m lv) (Z.of_nat (S n))) + get m lv mod 2 ^ (Z.of_nat n + 1)).
    { replace (Z.of_nat (S n)) with (Z.of_nat n + 1) by lia. set (j := Z.of_nat n + 1). assert (0 <= j) by lia.
      rewrite Z.pow_add_r by lia. change (2^1) with 2. rewrite Z.rem_mul_r by (try (apply Z.pow_nonzero; lia); lia).
      rewrite Z.testbit_spec' by lia. lia. }
    rewrite Hm. ring.
Qed.
End Bits.

(* ---------- specification ---------- *)
(* cells of the shared triggers that change at run time *)
Definition va_cells (h : vashared) : list Z :=
  [va_G h + 1; va_G h + 86; va_G h + 87; va_GI h + 1; va_GI h + 86; va_GI h + 87; va_SI h + 1; va_SI h + 86; va_SI h + 87; va_lv h].
Record va_ok (w : world) (h : vashared) : Prop := mkva_ok {
  vo_G : W_P w (pa (va_G h)) = Some (getter_trig h);
  vo_GI : W_P w (pa (va_GI h)) = Some (get_index_trig h);
  vo_SI : W_P w (pa (va_SI h)) = Some (set_index_trig h);
  vo_ig : forall i, (i < 28)%nat -> W_P w (pa (va_ig h i)) = Some (index_for_get h i);
  vo_is : forall i, (i < 28)%nat -> W_P w (pa (va_is h i)) = Some (index_for_set h i);
  vo_patch : forall c, In c (va_cells h) -> patchable w c;
  vo_sep : NoDup (map idx (va_cells h)) }.
(* the items: variable triggers 72 bytes apart that send their value to the getter *)
Definition item (A j : Z) : Z := A + 18 * j.
Definition array_ok (w : world) (h : vashared) (A size : Z) (m : mem) : Prop :=
  forall j, 0 <= j < size -> In (item A j) (W_vars w) /\ get m (vc (item A j) FMask) = 0xFFFFFFFF /\
    get m (vc (item A j) FDest) = u32 (va_G h + 87) /\ get m (vc (item A j) FMod) = w6 SetTo /\
    get m (vc (item A j) FNext) = pa (va_G h).
Definition no_item (A size : Z) (s : src) : Prop := forall v j, s = SVar v -> 0 <= j < size -> v <> item A j.
(* the index operand has value j; a constant index is within the bounds *)
Definition index_is (m : mem) (s : src) (j : Z) : Prop :=
  match s with SConst i => i = j | SVar x => get m (vc x FVal) = j end.
Definition diff_src (a b : src) : Prop := match a, b with SVar x, SVar y => x <> y | _, _ => True end.

(* ---------- proof ---------- *)
Lemma pa_item A j : u32 (pa A + 72 * j) = pa (item A j).
Proof. unfold pa, item. rewrite u32_add_l. f_equal. lia. Qed.

Section VA.
Variable w : world.
Hypothesis Hw : world_ok w.
Notation vars := (W_vars w).
Variable h : vashared.
Hypothesis Ho : va_ok w h.
Notation G := (va_G h). Notation GI := (va_GI h). Notation SI := (va_SI h). Notation lv := (va_lv h).

Lemma cell_sep i j : (i < 10)%nat -> (j < 10)%nat -> i <> j -> idx (nth i (va_cells h) 0) <> idx (nth j (va_cells h) 0).
Proof using Ho.
  intros Hi Hj Hn E. apply Hn. pose proof (vo_sep w h Ho) as N. rewrite NoDup_nth with (d := 0) in N.
  assert (Q : forall l i, nth i (map idx l) 0 = idx (nth i l 0)).
  { clear. intros l i. change 0 with (idx 0) at 1. apply map_nth. }
  apply (N i j); [cbn; lia|cbn; lia|]. rewrite !Q. exact E.
Qed.
Lemma cell_patch i : (i < 10)%nat -> patchable w (nth i (va_cells h) 0).
Proof using Ho. intros Hi. apply (vo_patch w h Ho). apply nth_In. exact Hi. Qed.
Variable A size : Z.
Hypothesis Hsize : 0 < size < 2^28.
Lemma msb_lt : (size_msb size < 28)%nat.
Proof using Hsize.
  unfold size_msb. destruct (Z.eqb_spec size 0); [lia|]. assert (Z.log2 size < 28) by (apply Z.log2_lt_pow2; lia).
  pose proof (Z.log2_nonneg size). lia.
Qed.
Lemma msb_enough j : 0 <= j < size -> j mod 2 ^ (Z.of_nat (size_msb size) + 1) = j.
Proof using Hsize.
  intros Hj. unfold size_msb. destruct (Z.eqb_spec size 0); [lia|]. pose proof (Z.log2_nonneg size).
  rewrite Z2Nat.id by lia. apply Z.mod_small. pose proof (Z.log2_spec size ltac:(lia)). rewrite Z.add_1_r. lia.
Qed.

(* names for the cells *)
Ltac cells :=
  pose proof (cell_patch 0 ltac:(lia)) as pG1; pose proof (cell_patch 1 ltac:(lia)) as pG86; pose proof (cell_patch 2 ltac:(lia)) as pG87;
  pose proof (cell_patch 3 ltac:(lia)) as pI1; pose proof (cell_patch 4 ltac:(lia)) as pI86; pose proof (cell_patch 5 ltac:(lia)) as pI87;
  pose proof (cell_patch 6 ltac:(lia)) as pS1; pose proof (cell_patch 7 ltac:(lia)) as pS86; pose proof (cell_patch 8 ltac:(lia)) as pS87;
  pose proof (cell_patch 9 ltac:(lia)) as pL; cbn [nth va_cells] in *.
Ltac cs i j := let H := fresh in pose proof (cell_sep i j ltac:(lia) ltac:(lia) ltac:(lia)) as H; cbn [nth va_cells] in H; exact H.
Ltac csep := match goal with
  | |- idx (G + 1) <> idx (G + 86) => cs 0%nat 1%nat | |- idx (G + 86) <> idx (G + 1) => cs 1%nat 0%nat
  | |- idx (G + 1) <> idx (G + 87) => cs 0%nat 2%nat | |- idx (G + 87) <> idx (G + 1) => cs 2%nat 0%nat
  | |- idx (G + 86) <> idx (G + 87) => cs 1%nat 2%nat | |- idx (G + 87) <> idx (G + 86) => cs 2%nat 1%nat
  | |- idx (G + 1) <> idx (GI + 1) => cs 0%nat 3%nat | |- idx (GI + 1) <> idx (G + 1) => cs 3%nat 0%nat
  | |- idx (G + 86) <> idx (GI + 1) => cs 1%nat 3%nat | |- idx (GI + 1) <> idx (G + 86) => cs 3%nat 1%nat
  | |- idx (G + 87) <> idx (GI + 1) => cs 2%nat 3%nat | |- idx (GI + 1) <> idx (G + 87) => cs 3%nat 2%nat
  | |- idx (G + 1) <> idx (GI + 86) => cs 0%nat 4%nat | |- idx (GI + 86) <> idx (G + 1) => cs 4%nat 0%nat
  | |- idx (G + 86) <> idx (GI + 86) => cs 1%nat 4%nat | |- idx (GI + 86) <> idx (G + 86) => cs 4%nat 1%nat
  | |- idx (G + 87) <> idx (GI + 86) => cs 2%nat 4%nat | |- idx (GI + 86) <> idx (G + 87) => cs 4%nat 2%nat
  | |- idx (G + 1) <> idx (GI + 87) => cs 0%nat 5%nat | |- idx (GI + 87) <> idx (G + 1) => cs 5%nat 0%nat
  | |- idx (G + 86) <> idx (GI + 87) => cs 1%nat 5%nat | |- idx (GI + 87) <> idx (G + 86) => cs 5%nat 1%nat
  | |- idx (G + 87) <> idx (GI + 87) => cs 2%nat 5%nat | |- idx (GI + 87) <> idx (G + 87) => cs 5%nat 2%nat
  | |- idx (GI + 1) <> idx (GI + 86) => cs 3%nat 4%nat | |- idx (GI + 86) <> idx (GI + 1) => cs 4%nat 3%nat
  | |- idx (GI + 1) <> idx (GI + 87) => cs 3%nat 5%nat | |- idx (GI + 87) <> idx (GI + 1) => cs 5%nat 3%nat
  | |- idx (GI + 86) <> idx (GI + 87) => cs 4%nat 5%nat | |- idx (GI + 87) <> idx (GI + 86) => cs 5%nat 4%nat
  | |- idx (G + 1) <> idx lv => cs 0%nat 9%nat | |- idx lv <> idx (G + 1) => cs 9%nat 0%nat
  | |- idx (G + 86) <> idx lv => cs 1%nat 9%nat | |- idx lv <> idx (G + 86) => cs 9%nat 1%nat
  | |- idx (G + 87) <> idx lv => cs 2%nat 9%nat | |- idx lv <> idx (G + 87) => cs 9%nat 2%nat
  | |- idx (GI + 1) <> idx lv => cs 3%nat 9%nat | |- idx lv <> idx (GI + 1) => cs 9%nat 3%nat
  | |- idx (GI + 86) <> idx lv => cs 4%nat 9%nat | |- idx lv <> idx (GI + 86) => cs 9%nat 4%nat
  | |- idx (GI + 87) <> idx lv => cs 5%nat 9%nat | |- idx lv <> idx (GI + 87) => cs 9%nat 5%nat
  | |- idx (SI + 1) <> idx lv => cs 6%nat 9%nat | |- idx lv <> idx (SI + 1) => cs 9%nat 6%nat
  | |- idx (SI + 86) <> idx lv => cs 7%nat 9%nat | |- idx lv <> idx (SI + 86) => cs 9%nat 7%nat
  | |- idx (SI + 87) <> idx lv => cs 8%nat 9%nat | |- idx lv <> idx (SI + 87) => cs 9%nat 8%nat
  | |- idx (SI + 1) <> idx (SI + 86) => cs 6%nat 7%nat | |- idx (SI + 86) <> idx (SI + 1) => cs 7%nat 6%nat
  | |- idx (SI + 1) <> idx (SI + 87) => cs 6%nat 8%nat | |- idx (SI + 87) <> idx (SI + 1) => cs 8%nat 6%nat
  | |- idx (SI + 86) <> idx (SI + 87) => cs 7%nat 8%nat | |- idx (SI + 87) <> idx (SI + 86) => cs 8%nat 7%nat
  | |- idx ?a <> idx (vc ?v ?f) => match goal with H : patchable w a |- _ => apply (proj2 H); assumption end
  | |- idx (vc ?v ?f) <> idx ?a => match goal with H : patchable w a |- _ => apply not_eq_sym, (proj2 H); assumption end
  | |- idx (vc _ _) <> idx (vc _ _) => apply (vsep w Hw); [assumption|assumption|first [right; discriminate|left; assumption|left; apply not_eq_sym; assumption]]
  | _ => first [assumption|apply not_eq_sym; assumption]
  end.
Ltac gx := repeat first [rewrite get_upd_eq | rewrite get_upd_ne by csep].

(* an item sends its value to the getter, which sends it to its destination *)
Lemma item_run m j dst fin : array_ok w h A size m -> 0 <= j < size ->
  get m (G + 1) = fin -> get m (G + 86) = u32 dst -> writable w dst ->
  (forall c, In c (va_cells h) -> idx dst <> idx c) ->
  exists m', runs w (pa (item A j), m) (fin, m') /\ get m' dst = get m (vc (item A j) FVal) /\
    (forall b, idx b <> idx (G + 87) -> idx b <> idx dst -> get m' b = get m b).
Proof using Hw Ho.
  intros Ha Hj G1 G86 [Dp Dw] Dc. cells. destruct (Ha j Hj) as (I1 & I2 & I3 & I4 & I5).
  set (e := item A j) in *.
  assert (D1 : idx dst <> idx (G + 1)) by (apply Dc; cbn; auto).
  eexists. split; [|split].
  - eapply runs_trans.
    + apply (hop w Hw m e (G + 87) SetTo (pa G) I1 I4 I3 (proj1 pG87)); [|exact I5]. intros f ->. csep.
    + rewrite I2. eapply run_true; [apply (vo_G w h Ho)|reflexivity|apply conds_nil| |].
      * eapply do_cons_D with (a := dst); [cbn [rd]; rewrite get_upd_ne by csep; exact G86|exact Dp|exact Dw|]. apply do_nil.
      * cbn [rd]. rewrite get_upd_ne by csep. rewrite get_upd_ne by csep. exact G1.
  - rewrite get_upd_eq. cbn [rd do_mod]. rewrite get_upd_eq. change 0xFFFFFFFF with (Z.ones 32). rewrite do_modx_full by apply get_range.
    cbn [do_mod]. rewrite !u32_get. reflexivity.
  - intros b B1 B2. rewrite !get_upd_ne by (apply not_eq_sym; assumption). reflexivity.
Qed.

Lemma array_frame m m' : array_ok w h A size m ->
  (forall v f, In v vars -> (exists j, 0 <= j < size /\ v = item A j) -> f <> FVal -> get m' (vc v f) = get m (vc v f)) ->
  array_ok w h A size m'.
Proof using Type.
  intros Ha Hf j Hj. destruct (Ha j Hj) as (I1 & I2 & I3 & I4 & I5).
  assert (Q : exists j0, 0 <= j0 < size /\ item A j = item A j0) by eauto.
  rewrite !Hf by (auto; discriminate). auto.
Qed.

Lemma get_tail m j dst fin : array_ok w h A size m -> 0 <= j < size -> get m lv = j ->
  get m (GI + 1) = pa A -> get m (GI + 86) = u32 (GI + 1) -> get m (GI + 87) = 0 ->
  get m (G + 1) = fin -> get m (G + 86) = u32 dst -> writable w dst ->
  (forall c, In c (va_cells h) -> idx dst <> idx c) ->
  exists m', runs w (pa (va_ig h (size_msb size)), m) (fin, m') /\ get m' dst = get m (vc (item A j) FVal) /\
    (forall b, idx b <> idx (GI + 1) -> idx b <> idx (G + 87) -> idx b <> idx dst -> get m' b = get m b).
Proof using Hw Ho Hsize.
  intros Ha Hj L I1 I86 I87 G1 G86 Dw Dc. cells. pose proof msb_lt as Ml.
  destruct (bits_run w lv (va_ig h) GI [(GI + 87, 72)] 27 ltac:(lia)) with (n := size_msb size) (m := m) as (m1 & R1 & B1 & F1).
  - intros i Hi. rewrite (vo_ig w h Ho) by lia. unfold index_for_get, bit_trig. cbn [map fst snd].
    rewrite Z.shiftl_1_l, Z.shiftl_mul_pow2 by lia. reflexivity.
  - apply pL.
  - intros c [<-|[]]. apply pI87.
  - repeat constructor. intros [].
  - intros c [<-|[]]. cbn [fst]. csep.
  - lia.
  - assert (V1 : get m1 (GI + 87) = u32 (72 * j)).
    { pose proof (B1 (GI + 87, 72) (or_introl eq_refl)) as Q; cbn [fst snd] in Q; rewrite Q. rewrite I87, L, msb_enough by auto. reflexivity. }
    assert (F1' : forall b, idx b <> idx (GI + 87) -> get m1 b = get m b).
    { intros b Hb. apply F1. intros c [<-|[]]. cbn [fst]. apply not_eq_sym. exact Hb. }
    set (m2 := upd (upd m1 (GI + 1) (do_mod Add (get m1 (GI + 1)) (rd m1 (Mem (GI + 87))))) (GI + 87) 0).
    assert (V2 : get m2 (GI + 1) = pa (item A j)).
    { unfold m2. gx. cbn [do_mod rd]. rewrite (F1' (GI + 1)) by csep. rewrite I1, V1, u32_idem, u32_add_r. apply pa_item. }
    assert (F2 : forall b, idx b <> idx (GI + 1) -> idx b <> idx (GI + 87) -> get m2 b = get m b).
    { intros b H1 H2. unfold m2. rewrite !get_upd_ne by (apply not_eq_sym; assumption). apply F1'. exact H2. }
    assert (V87 : get m2 (GI + 87) = 0) by (unfold m2; apply get_upd_eq).
    destruct (item_run m2 j dst fin) as (m3 & R3 & V3 & F3); auto.
    { apply (array_frame m m2 Ha). intros v f Hv _ Hf. apply F2; csep. }
    { rewrite F2 by csep. exact G1. }
    { rewrite F2 by csep. exact G86. }
    exists m3. split; [|split].
    + eapply runs_trans; [exact R1|]. eapply runs_trans; [|exact R3].
      eapply run_true; [apply (vo_GI w h Ho)|reflexivity|apply conds_nil| |exact V2].
      eapply do_cons_D with (a := GI + 1); [cbn [rd]; rewrite F1' by csep; exact I86|apply pI1|apply pI1|].
      apply do_cons_M; [apply pI87|apply pI87|]. apply do_nil.
    + rewrite V3. apply F2; destruct (Ha j Hj) as (Q & _); csep.
    + intros b H1 H2 H3. rewrite F3 by auto. destruct (Z.eq_dec (idx b) (idx (GI + 87))) as [E|E].
      * rewrite (get_cong m2 _ _ E), (get_cong m _ _ E), V87, I87. reflexivity.
      * apply F2; auto.
Qed.

Lemma set_tail m j fin : 0 <= j < size -> get m lv = j -> writable w (vc (item A j) FVal) -> In (item A j) vars ->
  get m (SI + 86) = u32 (87 + A) -> get m (SI + 1) = fin ->
  exists m', runs w (pa (va_is h (size_msb size)), m) (fin, m') /\ get m' (vc (item A j) FVal) = get m (SI + 87) /\
    (forall b, idx b <> idx (SI + 86) -> idx b <> idx (vc (item A j) FVal) -> get m' b = get m b).
Proof using Hw Ho Hsize.
  intros Hj L [Wp Wr] Hin S86 S1. cells. pose proof msb_lt as Ml.
  destruct (bits_run w lv (va_is h) SI [(SI + 86, 18)] 27 ltac:(lia)) with (n := size_msb size) (m := m) as (m1 & R1 & B1 & F1).
  - intros i Hi. rewrite (vo_is w h Ho) by lia. unfold index_for_set, bit_trig. cbn [map fst snd].
    rewrite Z.shiftl_1_l, Z.shiftl_mul_pow2 by lia. reflexivity.
  - apply pL.
  - intros c [<-|[]]. apply pS86.
  - repeat constructor. intros [].
  - intros c [<-|[]]. cbn [fst]. csep.
  - lia.
  - assert (V1 : get m1 (SI + 86) = u32 (vc (item A j) FVal)).
    { pose proof (B1 (SI + 86, 18) (or_introl eq_refl)) as Q; cbn [fst snd] in Q; rewrite Q. rewrite S86, L, msb_enough by auto. rewrite u32_add_l. f_equal.
      unfold item, vc, foff. lia. }
    assert (F1' : forall b, idx b <> idx (SI + 86) -> get m1 b = get m b).
    { intros b Hb. apply F1. intros c [<-|[]]. cbn [fst]. apply not_eq_sym. exact Hb. }
    exists (upd m1 (vc (item A j) FVal) (get m1 (SI + 87))). split; [|split].
    + eapply runs_trans; [exact R1|].
      eapply run_true; [apply (vo_SI w h Ho)|reflexivity|apply conds_nil| |].
      * eapply do_cons_D with (a := vc (item A j) FVal); [cbn [rd]; exact V1|exact Wp|exact Wr|]. cbn [do_mod rd]. apply do_nil.
      * cbn [rd]. rewrite get_upd_ne by csep. rewrite F1' by csep. exact S1.
    + rewrite get_upd_eq, u32_get. apply F1'. csep.
    + intros b H1 H2. rewrite get_upd_ne by (apply not_eq_sym; assumption). apply F1'. exact H1.
Qed.

Variable T : nat -> Z.
Lemma finish k code m m' vs cs dst x : runs w (lbl T k, m) (lbl T (k + length code), m') -> get m' dst = x ->
  (forall v, In v vs -> get m' (vc v FMod) mod 2^24 = 45 * 2^16) -> incl vs vars -> valcell w dst ->
  (forall c, In c cs -> patchable w c) ->
  (forall b, ~ tmp vs cs b -> idx b <> idx dst -> get m' b = get m b) ->
  does w T k code (tmp vs cs) m [(dst, x)].
Proof using Hw.
  intros R V Vm Hi [_ Hd] Hc F. exists m'. split; [exact R|]. split.
  - split; [intros a y [E|[]]; injection E as <- <-; exact V|].
    intros b Hb Hl. apply F; auto. apply not_eq_sym. apply (Hl dst x). left. reflexivity.
  - intros v Hv [O1 O2]. split.
    + rewrite F; [exact O1| |apply not_eq_sym, Hd; auto; discriminate].
      intros [Q|(c & Q1 & Q2)]; [apply (not_scratch_val w Hw vs v FMask Hi Hv ltac:(auto) Q)|].
      apply (proj2 (Hc c Q1) v FMask Hv). auto.
    + destruct (in_dec Z.eq_dec v vs) as [Hin|Hn]; [apply Vm; exact Hin|].
      rewrite F; [exact O2| |apply not_eq_sym, Hd; auto; discriminate].
      intros [(u & f & Q1 & Q2 & Q3)|(c & Q1 & Q2)].
      * destruct (wo_sep w Hw v u FMod f Hv (Hi u Q1) Q3) as [-> _]. contradiction.
      * apply (proj2 (Hc c Q1) v FMod Hv). auto.
Qed.

(* ---------- a list of settings of different cells ---------- *)
Inductive sop := SSet (c v : Z) | SMod (v : Z) (md : modifier).
Definition sact (o : sop) : act := match o with SSet c v => SetM c SetTo v | SMod v md => SetModifier v md end.
Definition scell (o : sop) : Z := match o with SSet c _ => c | SMod v _ => vc v FMod end.
Definition sres (o : sop) : Z := match o with SSet _ v => u32 v | SMod _ md => w6 md end.
Fixpoint apart (c : Z) (l : list sop) : Prop := match l with [] => True | o :: r => idx c <> idx (scell o) /\ apart c r end.
Fixpoint apartl (l : list sop) : Prop := match l with [] => True | o :: r => apart (scell o) r /\ apartl r end.
Fixpoint sready (m : mem) (l : list sop) : Prop :=
  match l with [] => True | o :: r => writable w (scell o) /\ match o with SMod v _ => ordinary m v | _ => True end /\ sready m r end.
Fixpoint sdone (m : mem) (l : list sop) : Prop := match l with [] => True | o :: r => get m (scell o) = sres o /\ sdone m r end.
Lemma apart_in c l : apart c l -> forall o, In o l -> idx c <> idx (scell o).
Proof using Type. clear. induction l as [|o l IH]; intros H x; [intros []|]. destruct H as [H1 H2]. intros [<-|Hx]; auto. Qed.
Lemma sops_do : forall l m, sready m l -> apartl l ->
  exists m', acts_do (W_prot w) m (map sact l) m' /\ sdone m' l /\ (forall b, apart b l -> get m' b = get m b).
Proof using Hw.
  intros l m.
  assert (R : forall l m0, sready m l -> apartl l -> (forall o, In o l -> get m0 (scell o) = get m (scell o)) ->
    exists m', acts_do (W_prot w) m0 (map sact l) m' /\ sdone m' l /\ (forall b, apart b l -> get m' b = get m0 b)).
  { clear l. induction l as [|o l IH]; intros m0 Hr Hl Hm.
    - exists m0. split; [apply do_nil|]. split; [exact I|auto].
    - destruct Hr as ([Wp Wr] & Hord & Hr). destruct Hl as [Ha Hl]. pose proof (apart_in _ _ Ha) as Hin.
      destruct (IH (upd m0 (scell o) (sres o))) as (m' & A1 & A2 & A3); auto.
      { intros x Hx. rewrite get_upd_ne by (apply Hin; exact Hx). apply Hm. right. exact Hx. }
      exists m'. split; [|split].
      + cbn [map]. destruct o as [c v|v md]; cbn [sact scell sres] in *.
        * apply do_cons_M; auto.
        * unfold SetModifier. apply do_cons_MX; auto. rewrite setmod_val; [exact A1| |apply get_range].
          pose proof (Hm (SMod v md) (or_introl eq_refl)) as Q. cbn [scell] in Q. rewrite Q. apply Hord.
      + split; [|exact A2]. rewrite A3 by exact Ha. rewrite get_upd_eq. destruct o; cbn [sres]; [apply u32_idem|apply w6_small].
      + intros b [Hb1 Hb2]. rewrite A3 by exact Hb2. apply get_upd_ne. apply not_eq_sym. exact Hb1. }
  intros Hr Hl. apply R; auto.
Qed.

Lemma hop_set m v a nx : In v vars -> get m (vc v FMask) = 0xFFFFFFFF -> get m (vc v FMod) = w6 SetTo -> get m (vc v FDest) = u32 a ->
  writable w a -> idx a <> idx (vc v FNext) -> get m (vc v FNext) = nx ->
  runs w (pa v, m) (nx, upd m a (get m (vc v FVal))).
Proof using Hw.
  intros Hv K Hm Hd Wa Hn Hx. pose proof (hop w Hw m v a SetTo nx Hv Hm Hd Wa) as Q. rewrite K in Q.
  change 0xFFFFFFFF with (Z.ones 32) in Q. rewrite do_modx_full in Q by apply get_range. apply Q; [intros f ->; exact Hn|exact Hx].
Qed.
Lemma hop_add m v a nx : In v vars -> get m (vc v FMask) = 0xFFFFFFFF -> get m (vc v FMod) = w6 Add -> get m (vc v FDest) = u32 a ->
  writable w a -> idx a <> idx (vc v FNext) -> get m (vc v FNext) = nx ->
  runs w (pa v, m) (nx, upd m a (u32 (get m a + get m (vc v FVal)))).
Proof using Hw.
  intros Hv K Hm Hd Wa Hn Hx. pose proof (hop w Hw m v a Add nx Hv Hm Hd Wa) as Q. rewrite K in Q.
  change 0xFFFFFFFF with (Z.ones 32) in Q. rewrite do_modx_full in Q by apply get_range. apply Q; [intros f ->; exact Hn|exact Hx].
Qed.
(* a variable that adds its value to its own next pointer *)
Lemma hop_self m v : In v vars -> get m (vc v FMask) = 0xFFFFFFFF -> get m (vc v FMod) = w6 Add -> get m (vc v FDest) = u32 (vc v FNext) ->
  runs w (pa v, m) (u32 (get m (vc v FNext) + get m (vc v FVal)), upd m (vc v FNext) (u32 (get m (vc v FNext) + get m (vc v FVal)))).
Proof using Hw.
  intros Hv K Hm Hd.
  eapply run_true; [apply (wo_prog w Hw); exact Hv|reflexivity|apply conds_nil| |].
  - eapply do_cons_gen with (a := vc v FNext) (md := Add); cbn [a_w6 a_w7 a_dest a_mask a_val rd].
    + exact Hm. 
    + reflexivity.
    + exact Hd.
    + apply (wo_plain w Hw); exact Hv.
    + apply (wo_prot w Hw); exact Hv.
    + reflexivity.
    + reflexivity.
    + rewrite K. change 0xFFFFFFFF with (Z.ones 32). rewrite do_modx_full by apply get_range. cbn [do_mod]. apply do_nil.
  - cbn [rd]. rewrite get_upd_eq. apply u32_idem.
Qed.
Lemma wrv v f : In v vars -> writable w (vc v f).
Proof using Hw. intros Hv. split; [apply (wo_plain w Hw)|apply (wo_prot w Hw)]; exact Hv. Qed.
Lemma not_tmp vs cs b : ~ tmp vs cs b -> (forall v f, In v vs -> f = FNext \/ f = FDest \/ f = FMod -> idx b <> idx (vc v f)) /\ (forall c, In c cs -> idx b <> idx c).
Proof using Type.
  clear. intros H. split.
  - intros v f Hv Hf E. apply H. left. exists v, f. auto.
  - intros c Hc E. apply H. right. exists c. auto.
Qed.

Ltac nt Hb1 Hb2 := first [apply Hb1; [cbn; auto|auto] | apply Hb2; cbn; auto 10].

(* Property C58, reading: the destination gets the value of item j; besides it
   only transfer fields of the operands and cells of the shared triggers change. *)
Theorem C58_get : forall k self index dst j m,
  array_ok w h A size m ->
  sval m self = pa A -> index_is m index j -> 0 <= j < size ->
  ord_src w m self -> ord_src w m index -> diff_src self index -> no_item A size self -> no_item A size index ->
  valcell w dst -> (forall c, In c (va_cells h) -> idx dst <> idx c) ->
  get m (GI + 87) = 0 ->
  placed w T k (varr_get h T k size self index dst) ->
  does w T k (varr_get h T k size self index dst) (tmp (svar self ++ svar index) [G + 1; G + 86; G + 87; GI + 1; GI + 86; lv]) m
    [(dst, get m (vc (item A j) FVal))].
Proof using Hw Ho Hsize.
  intros k self index dst j m Ha Hself Hidx Hj Os Oi Hd Ns Ni Dv Dc I87 Hp. cells.
  pose proof (proj1 Dv) as Dw.
  assert (Hit : In (item A j) vars) by apply (Ha j Hj).
  assert (FR : forall vs m1, incl vs vars -> (forall v j, In v vs -> 0 <= j < size -> v <> item A j) ->
    (forall b, ~ tmp vs [G + 1; G + 86; G + 87; GI + 1; GI + 86; lv] b -> get m1 b = get m b) -> array_ok w h A size m1).
  { intros vs m1 Hi Hn F. apply (array_frame m m1 Ha). intros v f Hv (j0 & Hj0 & Ev) Hf. apply F.
    intros [(u & g & U1 & U2 & U3)|(c & C1 & C2)].
    - destruct (wo_sep w Hw v u f g Hv (Hi u U1) U3) as [E1 _]. apply (Hn u j0 U1 Hj0). congruence.
    - cbn [In] in C1. repeat (destruct C1 as [<-|C1]; [revert C2; lazymatch goal with |- ?a = ?b -> False => change (a <> b) end; csep|]). destruct C1. }
  destruct index as [i|x], self as [a|p]; cbn [svar app sval index_is ord_src diff_src varr_get] in *.
  - (* constants *)
    subst i. apply placed_one in Hp.
    destruct (sops_do [SSet (G + 1) (lbl T (S k)); SSet (G + 86) dst] m) as (m1 & A1 & (V1 & V2 & _) & F1).
    { cbn. repeat split; try apply pG1; apply pG86. }
    { cbn. repeat split; csep. }
    cbn [scell sres] in *.
    destruct (item_run m1 j dst (lbl T (S k))) as (m2 & R2 & V3 & F2); auto.
    { apply (FR [] m1); [intros ? []|intros ? ? []|]. intros b Hb. apply not_tmp in Hb. destruct Hb as [_ Hb]. apply F1. cbn [apart scell]. repeat split; try apply Hb; cbn; auto. }
    { rewrite V1. apply u32_lbl. }
    apply finish with (m' := m2); auto.
    + replace (k + _)%nat with (S k) by (cbn; lia).
      eapply runs_trans; [|exact R2]. eapply run_true; [exact Hp|reflexivity|apply conds_nil|exact A1|].
      cbn [rd]. rewrite <- pa_item, <- Hself, u32_add_l. reflexivity.
    + rewrite V3. apply F1. cbn [apart scell]. repeat split; csep.
    + intros v [].
    + intros v [].
    + intros c Hc. apply (vo_patch w h Ho). cbn in Hc |- *. tauto.
    + intros b Hb Hbd. apply not_tmp in Hb. destruct Hb as [_ Hb]. rewrite F2; [apply F1; cbn [apart scell]; repeat split; try apply Hb; cbn; auto|apply Hb; cbn; auto|exact Hbd].
  - (* variable array, constant index *)
    subst i. destruct Os as [Hpv Op]. apply placed_one in Hp.
    assert (Np : forall j, 0 <= j < size -> p <> item A j) by (intros j0 Hj0; apply (Ns p j0); auto).
    destruct (sops_do [SSet (vc p FNext) (72 * j); SSet (vc p FDest) (vc p FNext); SMod p Add; SSet (G + 1) (lbl T (S k)); SSet (G + 86) dst] m)
      as (m1 & A1 & (V1 & V2 & V3 & V4 & V5 & _) & F1).
    { cbn. repeat split; try (apply (wrv p); assumption); try apply Op; try apply pG1; apply pG86. }
    { cbn. repeat split; csep. }
    cbn [scell sres] in *.
    set (m2 := upd m1 (vc p FNext) (u32 (get m1 (vc p FNext) + get m1 (vc p FVal)))).
    assert (Nx : u32 (get m1 (vc p FNext) + get m1 (vc p FVal)) = pa (item A j)).
    { rewrite V1. rewrite (F1 (vc p FVal)) by (cbn; repeat split; csep). rewrite Hself, u32_add_l, Z.add_comm. apply pa_item. }
    assert (F2 : forall b, apart b [SSet (vc p FNext) 0; SSet (vc p FDest) 0; SMod p Add; SSet (G + 1) 0; SSet (G + 86) 0] -> get m2 b = get m b).
    { cbn [apart scell]. intros b (B1 & B2 & B3 & B4 & B5 & _). unfold m2. rewrite get_upd_ne by (apply not_eq_sym; exact B1). apply F1. cbn. auto 10. }
    destruct (item_run m2 j dst (lbl T (S k))) as (m3 & R3 & V6 & F3); auto.
    { apply (FR [p] m2); [intros ? [<-|[]]; exact Hpv|intros ? ? [<-|[]]; apply Np|].
      intros b Hb. apply not_tmp in Hb. destruct Hb as [Hb1 Hb2]. apply F2. cbn [apart scell]. repeat split; nt Hb1 Hb2. }
    { unfold m2. gx. rewrite V4. apply u32_lbl. }
    { unfold m2. gx. exact V5. }
    apply finish with (m' := m3); auto.
    + replace (k + _)%nat with (S k) by (cbn; lia).
      eapply runs_trans; [|exact R3]. eapply runs_trans.
      * eapply run_true; [exact Hp|reflexivity|apply conds_nil|exact A1|]. cbn [rd]. apply u32_pa.
      * rewrite <- Nx. apply hop_self; auto. rewrite (F1 (vc p FMask)) by (cbn; repeat split; csep). apply Op.
    + rewrite V6. pose proof (Np j Hj). apply F2. cbn [apart scell]. repeat split; csep.
    + intros v [<-|[]]. rewrite F3 by (first [csep|apply not_eq_sym, (proj2 Dv); [assumption|discriminate]]). unfold m2. gx. rewrite V3. apply w6_low.
    + intros v [<-|[]]. exact Hpv.
    + intros c Hc. apply (vo_patch w h Ho). cbn in Hc |- *. tauto.
    + intros b Hb Hbd. apply not_tmp in Hb. destruct Hb as [Hb1 Hb2]. rewrite F3; [apply F2; cbn [apart scell]; repeat split; nt Hb1 Hb2|nt Hb1 Hb2|exact Hbd].
  - (* constant array, variable index *)
    destruct Oi as [Hxv Ox]. apply placed_one in Hp.
    assert (Nx : forall j, 0 <= j < size -> x <> item A j) by (intros j0 Hj0; apply (Ni x j0); auto).
    destruct (sops_do [SSet (vc x FNext) (pa (va_ig h (size_msb size))); SSet (vc x FDest) lv; SMod x SetTo; SSet (GI + 1) a; SSet (GI + 86) (GI + 1);
                       SSet (G + 1) (lbl T (S k)); SSet (G + 86) dst] m)
      as (m1 & A1 & (V1 & V2 & V3 & V4 & V5 & V6 & V7 & _) & F1).
    { cbn. repeat split; try (apply (wrv x); assumption); try apply Ox; try apply pG1; try apply pI1; try apply pI86; apply pG86. }
    { cbn. repeat split; csep. }
    cbn [scell sres] in *.
    set (m2 := upd m1 lv (get m1 (vc x FVal))).
    assert (F2 : forall b, apart b [SSet (vc x FNext) 0; SSet (vc x FDest) 0; SMod x SetTo; SSet (GI + 1) 0; SSet (GI + 86) 0; SSet (G + 1) 0; SSet (G + 86) 0; SSet lv 0] -> get m2 b = get m b).
    { cbn [apart scell]. intros b (B1 & B2 & B3 & B4 & B5 & B6 & B7 & B8 & _). unfold m2. rewrite get_upd_ne by (apply not_eq_sym; exact B8). apply F1. cbn. auto 10. }
    destruct (get_tail m2 j dst (lbl T (S k))) as (m3 & R3 & W3 & F3); auto.
    { apply (FR [x] m2); [intros ? [<-|[]]; exact Hxv|intros ? ? [<-|[]]; apply Nx|].
      intros b Hb. apply not_tmp in Hb. destruct Hb as [Hb1 Hb2]. apply F2. cbn [apart scell]. repeat split; nt Hb1 Hb2. }
    { unfold m2. rewrite get_upd_eq, u32_get. rewrite (F1 (vc x FVal)) by (cbn; repeat split; csep). exact Hidx. }
    { unfold m2. gx. rewrite V4. exact Hself. }
    { unfold m2. gx. exact V5. }
    { rewrite F2 by (cbn [apart scell]; repeat split; csep). exact I87. }
    { unfold m2. gx. rewrite V6. apply u32_lbl. }
    { unfold m2. gx. exact V7. }
    apply finish with (m' := m3); auto.
    + replace (k + _)%nat with (S k) by (cbn; lia).
      eapply runs_trans; [|exact R3]. eapply runs_trans.
      * eapply run_true; [exact Hp|reflexivity|apply conds_nil|exact A1|]. cbn [rd]. apply u32_pa.
      * apply hop_set; auto; [rewrite (F1 (vc x FMask)) by (cbn; repeat split; csep); apply Ox|apply pL|csep|rewrite V1; apply u32_pa].
    + rewrite W3. pose proof (Nx j Hj). apply F2. cbn [apart scell]. repeat split; csep.
    + intros v [<-|[]]. rewrite F3 by (first [csep|apply not_eq_sym, (proj2 Dv); [assumption|discriminate]]). unfold m2. gx. rewrite V3. apply w6_low.
    + intros v [<-|[]]. exact Hxv.
    + intros c Hc. apply (vo_patch w h Ho). cbn in Hc |- *. tauto.
    + intros b Hb Hbd. apply not_tmp in Hb. destruct Hb as [Hb1 Hb2]. rewrite F3; [apply F2; cbn [apart scell]; repeat split; nt Hb1 Hb2|nt Hb1 Hb2|nt Hb1 Hb2|exact Hbd].
  - (* both variable *)
    destruct Oi as [Hxv Ox]. destruct Os as [Hpv Op]. apply placed_one in Hp.
    assert (Nx : forall j, 0 <= j < size -> x <> item A j) by (intros j0 Hj0; apply (Ni x j0); auto).
    assert (Np : forall j, 0 <= j < size -> p <> item A j) by (intros j0 Hj0; apply (Ns p j0); auto).
    destruct (sops_do [SSet (vc x FNext) (pa p); SSet (vc x FDest) lv; SMod x SetTo; SSet (vc p FNext) (pa (va_ig h (size_msb size)));
                       SSet (vc p FDest) (GI + 1); SMod p SetTo; SSet (GI + 86) (GI + 1); SSet (G + 1) (lbl T (S k)); SSet (G + 86) dst] m)
      as (m1 & A1 & (V1 & V2 & V3 & V4 & V5 & V6 & V7 & V8 & V9 & _) & F1).
    { cbn. repeat split; try (apply (wrv x); assumption); try (apply (wrv p); assumption); try apply Ox; try apply Op; try apply pG1; try apply pI86; apply pG86. }
    { cbn. repeat split; csep. }
    cbn [scell sres] in *.
    set (m2 := upd m1 lv (get m1 (vc x FVal))). set (m3 := upd m2 (GI + 1) (get m2 (vc p FVal))).
    assert (F2 : forall b, apart b [SSet (vc x FNext) 0; SSet (vc x FDest) 0; SMod x SetTo; SSet (vc p FNext) 0; SSet (vc p FDest) 0; SMod p SetTo;
       SSet (GI + 86) 0; SSet (G + 1) 0; SSet (G + 86) 0; SSet lv 0; SSet (GI + 1) 0] -> get m3 b = get m b).
    { cbn [apart scell]. intros b (B1 & B2 & B3 & B4 & B5 & B6 & B7 & B8 & B9 & B10 & B11 & _). unfold m3, m2. rewrite !get_upd_ne by (apply not_eq_sym; assumption). apply F1. cbn. auto 12. }
    assert (Pv : get m2 (vc p FVal) = pa A).
    { unfold m2. gx. rewrite (F1 (vc p FVal)) by (cbn; repeat split; csep). exact Hself. }
    destruct (get_tail m3 j dst (lbl T (S k))) as (m4 & R4 & W4 & F4); auto.
    { apply (FR [p; x] m3); [intros ? [<-|[<-|[]]]; assumption|intros ? ? [<-|[<-|[]]]; auto|].
      intros b Hb. apply not_tmp in Hb. destruct Hb as [Hb1 Hb2]. apply F2. cbn [apart scell]. repeat split; nt Hb1 Hb2. }
    { unfold m3, m2. gx. rewrite u32_get. rewrite (F1 (vc x FVal)) by (cbn; repeat split; csep). exact Hidx. }
    { unfold m3. gx. rewrite Pv. apply u32_pa. }
    { unfold m3, m2. gx. exact V7. }
    { rewrite F2 by (cbn [apart scell]; repeat split; csep). exact I87. }
    { unfold m3, m2. gx. rewrite V8. apply u32_lbl. }
    { unfold m3, m2. gx. exact V9. }
    apply finish with (m' := m4); auto.
    + replace (k + _)%nat with (S k) by (cbn; lia).
      eapply runs_trans; [|exact R4]. eapply runs_trans; [|eapply runs_trans].
      * eapply run_true; [exact Hp|reflexivity|apply conds_nil|exact A1|]. cbn [rd]. apply u32_pa.
      * apply (hop_set m1 x lv (pa p)); auto; [rewrite (F1 (vc x FMask)) by (cbn; repeat split; csep); apply Ox|apply pL|csep|rewrite V1; apply u32_pa].
      * fold m2. apply (hop_set m2 p (GI + 1)); auto; try (unfold m2; gx; assumption); [|apply pI1|csep|unfold m2; gx; rewrite V4; apply u32_pa].
        unfold m2. gx. rewrite (F1 (vc p FMask)) by (cbn; repeat split; csep). apply Op.
    + rewrite W4. pose proof (Nx j Hj). pose proof (Np j Hj). apply F2. cbn [apart scell]. repeat split; csep.
    + intros v [<-|[<-|[]]]; rewrite F4 by (first [csep|apply not_eq_sym, (proj2 Dv); [assumption|discriminate]]); unfold m3, m2; gx; [rewrite V6|rewrite V3]; apply w6_low.
    + intros v [<-|[<-|[]]]; assumption.
    + intros c Hc. apply (vo_patch w h Ho). cbn in Hc |- *. tauto.
    + intros b Hb Hbd. apply not_tmp in Hb. destruct Hb as [Hb1 Hb2]. rewrite F4; [apply F2; cbn [apart scell]; repeat split; nt Hb1 Hb2|nt Hb1 Hb2|nt Hb1 Hb2|exact Hbd].
Qed.

Lemma addr_eq e j : u32 e = u32 A -> u32 (87 + e + 18 * j) = u32 (vc (item A j) FVal).
Proof using Type.
  intros E. replace (87 + e + 18 * j) with (e + (87 + 18 * j)) by lia. rewrite <- u32_add_l, E, u32_add_l. f_equal. unfold vc, item, foff. lia.
Qed.
(* the write trigger on its own *)
Lemma si_run m a fin : get m (SI + 86) = u32 a -> writable w a -> get m (SI + 1) = fin -> idx a <> idx (SI + 1) ->
  runs w (pa SI, m) (fin, upd m a (get m (SI + 87))).
Proof using Ho.
  intros Ha [Wp Wr] Hf Hn. eapply run_true; [apply (vo_SI w h Ho)|reflexivity|apply conds_nil| |].
  - eapply do_cons_D with (a := a); [exact Ha|exact Wp|exact Wr|]. cbn [do_mod rd]. apply do_nil.
  - cbn [rd]. rewrite get_upd_ne by exact Hn. exact Hf.
Qed.

(* Property C58, writing: item j gets the value; besides it only transfer fields
   of the operands and cells of the shared write trigger change. *)
Theorem C58_set : forall k epd index value j m,
  (forall j, 0 <= j < size -> In (item A j) vars) ->
  sval m epd = u32 A -> index_is m index j -> 0 <= j < size ->
  ord_src w m epd -> ord_src w m index -> ord_src w m value -> diff_src epd index -> diff_src epd value ->
  no_item A size epd -> no_item A size index -> no_item A size value ->
  placed w T k (varr_set h T k size epd index value) ->
  does w T k (varr_set h T k size epd index value) (tmp (svar epd ++ svar value ++ svar index) [SI + 1; SI + 86; SI + 87; lv]) m
    [(vc (item A j) FVal, sval m value)].
Proof using Hw Ho Hsize.
  intros k epd index value j m Hits Hepd Hidx Hj Oe Oi Ov D1 D2 Ne Ni Nv Hp. cells.
  pose proof (Hits j Hj) as Hit. set (d := vc (item A j) FVal).
  assert (Dw : writable w d) by (apply wrv; exact Hit).
  assert (Dv : valcell w d) by (split; [exact Dw|intros v f Hv Hf; apply (vsep w Hw); auto]).
  assert (Hd1 : idx d <> idx (SI + 1)) by (unfold d; csep).
  assert (Pc : forall c, In c [SI + 1; SI + 86; SI + 87; lv] -> patchable w c) by (intros c Hc; apply (vo_patch w h Ho); cbn in Hc |- *; tauto).
  assert (Nev : forall e, epd = SVar e -> e <> item A j) by (intros e He; apply (Ne e j He Hj)).
  assert (Niv : forall x, index = SVar x -> x <> item A j) by (intros x Hx; apply (Ni x j Hx Hj)).
  assert (Nvv : forall v, value = SVar v -> v <> item A j) by (intros v Hx; apply (Nv v j Hx Hj)).
  clear Ne Ni Nv.
  unfold varr_set in *.
  destruct (same_src index value) eqn:Esame.
  { destruct index as [|x], value as [|x']; try discriminate Esame. cbn [same_src] in Esame. apply Z.eqb_eq in Esame. subst x'.
    destruct Oi as [Hxv Ox]. clear Ov. pose proof (Niv x eq_refl) as N1.
    destruct epd as [a|e]; cbn [svar app sval index_is diff_src is_var orb negb cst] in *.
    - (* constant array *)
      change (VProc T k [x] (SetM (SI + 86) SetTo (87 + a) :: QueueAssignTo x (SI + 87)))
        with [RawTrig [] (map sact [SSet (SI + 86) (87 + a); SSet (vc x FDest) (SI + 87); SMod x SetTo; SSet (vc x FNext) (lbl T (k + 1))]) (pa x)] in *.
      cbn [length] in *. cbn [app] in Hp. apply placed_cons in Hp. destruct Hp as [P1 Hp]. apply placed_one in Hp.
      destruct (sops_do [SSet (SI + 86) (87 + a); SSet (vc x FDest) (SI + 87); SMod x SetTo; SSet (vc x FNext) (lbl T (k + 1))] m) as (m1 & A1 & (V1 & V2 & V3 & V4 & _) & F1).
      { cbn. repeat split; try (apply (wrv x); assumption); try apply Ox; apply pS86. }
      { cbn. repeat split; csep. }
      cbn [scell sres] in *.
      set (m2 := upd m1 (SI + 87) (get m1 (vc x FVal))).
      assert (X2 : get m1 (vc x FVal) = j) by (rewrite (F1 (vc x FVal)) by (cbn; repeat split; csep); exact Hidx).
      destruct (sops_do [SSet (vc x FNext) (pa (va_is h (size_msb size))); SSet (SI + 1) (lbl T (S (k + 1))); SSet (vc x FDest) lv; SMod x SetTo] m2) as (m3 & A3 & (V5 & V6 & V7 & V8 & _) & F3).
      { cbn. assert (Q : ordinary m2 x). { split; unfold m2; gx; [rewrite (F1 (vc x FMask)) by (cbn; repeat split; csep); apply Ox|rewrite V3; apply w6_low]. }
        repeat split; try (apply (wrv x); assumption); try apply Q; apply pS1. }
      { cbn. repeat split; csep. }
      cbn [scell sres] in *.
      set (m4 := upd m3 lv (get m3 (vc x FVal))).
      assert (X4 : get m3 (vc x FVal) = j) by (rewrite (F3 (vc x FVal)) by (cbn; repeat split; csep); unfold m2; gx; exact X2).
      destruct (set_tail m4 j (lbl T (S (k + 1))) Hj) as (m9 & R9 & W9 & F9); auto.
      { unfold m4. gx. rewrite u32_get. exact X4. }
      { unfold m4. gx. rewrite (F3 (SI + 86)) by (cbn; repeat split; csep). unfold m2. gx. rewrite V1. rewrite <- u32_add_r, Hepd, u32_add_r. reflexivity. }
      { unfold m4. gx. rewrite V6. apply u32_lbl. }
      apply finish with (m' := m9); auto.
      + cbn [length app]. replace (k + 2)%nat with (S (k + 1)) by lia. eapply runs_trans; [|exact R9]. eapply runs_trans; [|eapply runs_trans; [|eapply runs_trans]].
        * eapply run_true; [exact P1|reflexivity|apply conds_nil|exact A1|]. cbn [rd]. apply u32_pa.
        * apply (hop_set m1 x (SI + 87) (lbl T (k + 1))); [assumption|rewrite (F1 (vc x FMask)) by (cbn; repeat split; csep); apply Ox|exact V3|exact V2|apply pS87|csep|rewrite V4; apply u32_lbl].
        * fold m2. replace (k + 1)%nat with (S k) by lia. eapply run_true; [exact Hp|reflexivity|apply conds_nil|exact A3|]. cbn [rd]. apply u32_pa.
        * apply (hop_set m3 x lv); [assumption| |exact V8|exact V7|apply pL|csep|rewrite V5; apply u32_pa].
          rewrite (F3 (vc x FMask)) by (cbn; repeat split; csep). unfold m2. gx. rewrite (F1 (vc x FMask)) by (cbn; repeat split; csep). apply Ox.
      + fold d in W9. rewrite W9. unfold m4. gx. rewrite (F3 (SI + 87)) by (cbn; repeat split; csep). unfold m2. gx. rewrite u32_get, X2. symmetry. exact Hidx.
      + intros u [<-|[<-|[]]]; rewrite F9 by csep; unfold m4; gx; rewrite V8; apply w6_low.
      + intros u [<-|[<-|[]]]; assumption.
      + intros b Hb Hbd. apply not_tmp in Hb. destruct Hb as [Hb1 Hb2]. rewrite F9 by (first [exact Hbd|nt Hb1 Hb2]).
        unfold m4. rewrite get_upd_ne by (apply not_eq_sym; nt Hb1 Hb2). rewrite F3 by (cbn [apart scell]; repeat split; nt Hb1 Hb2).
        unfold m2. rewrite get_upd_ne by (apply not_eq_sym; nt Hb1 Hb2). apply F1. cbn [apart scell]. repeat split; nt Hb1 Hb2.
    - (* variable array *)
      destruct Oe as [Hev Oe]. pose proof (Nev e eq_refl) as N3.
      change (VProc T k [e; x] (SetM (SI + 86) SetTo 87 :: QueueAddTo e (SI + 86) ++ QueueAssignTo x (SI + 87)))
        with [RawTrig [] (map sact [SSet (SI + 86) 87; SSet (vc e FDest) (SI + 86); SMod e Add; SSet (vc x FDest) (SI + 87); SMod x SetTo; SSet (vc e FNext) (pa x); SSet (vc x FNext) (lbl T (k + 1))]) (pa e)] in *.
      cbn [length] in *. cbn [app] in Hp. apply placed_cons in Hp. destruct Hp as [P1 Hp]. apply placed_one in Hp.
      destruct (sops_do [SSet (SI + 86) 87; SSet (vc e FDest) (SI + 86); SMod e Add; SSet (vc x FDest) (SI + 87); SMod x SetTo; SSet (vc e FNext) (pa x); SSet (vc x FNext) (lbl T (k + 1))] m) as (m1 & A1 & (V1 & V2 & V3 & V4 & V5 & V6 & V7 & _) & F1).
      { cbn. repeat split; try (apply (wrv x); assumption); try (apply (wrv e); assumption); try apply Ox; try apply Oe; apply pS86. }
      { cbn. repeat split; csep. }
      cbn [scell sres] in *.
      assert (Ev : get m1 (vc e FVal) = u32 A) by (rewrite (F1 (vc e FVal)) by (cbn; repeat split; csep); exact Hepd).
      set (m1' := upd m1 (SI + 86) (u32 (get m1 (SI + 86) + get m1 (vc e FVal)))).
      set (m2 := upd m1' (SI + 87) (get m1' (vc x FVal))).
      assert (X2 : get m1' (vc x FVal) = j) by (unfold m1'; gx; rewrite (F1 (vc x FVal)) by (cbn; repeat split; csep); exact Hidx).
      destruct (sops_do [SSet (vc x FNext) (pa (va_is h (size_msb size))); SSet (SI + 1) (lbl T (S (k + 1))); SSet (vc x FDest) lv; SMod x SetTo] m2) as (m3 & A3 & (V8 & V9 & V10 & V11 & _) & F3).
      { cbn. assert (Q : ordinary m2 x). { split; unfold m2, m1'; gx; [rewrite (F1 (vc x FMask)) by (cbn; repeat split; csep); apply Ox|rewrite V5; apply w6_low]. }
        repeat split; try (apply (wrv x); assumption); try apply Q; apply pS1. }
      { cbn. repeat split; csep. }
      cbn [scell sres] in *.
      set (m4 := upd m3 lv (get m3 (vc x FVal))).
      assert (X4 : get m3 (vc x FVal) = j) by (rewrite (F3 (vc x FVal)) by (cbn; repeat split; csep); unfold m2; gx; exact X2).
      destruct (set_tail m4 j (lbl T (S (k + 1))) Hj) as (m9 & R9 & W9 & F9); auto.
      { unfold m4. gx. rewrite u32_get. exact X4. }
      { unfold m4. gx. rewrite (F3 (SI + 86)) by (cbn; repeat split; csep). unfold m2, m1'. gx. rewrite V1, Ev, u32_idem, u32_add_l, u32_add_r. reflexivity. }
      { unfold m4. gx. rewrite V9. apply u32_lbl. }
      apply finish with (m' := m9); auto.
      + cbn [length app]. replace (k + 2)%nat with (S (k + 1)) by lia. eapply runs_trans; [|exact R9]. eapply runs_trans; [|eapply runs_trans; [|eapply runs_trans; [|eapply runs_trans]]].
        * eapply run_true; [exact P1|reflexivity|apply conds_nil|exact A1|]. cbn [rd]. apply u32_pa.
        * apply (hop_add m1 e (SI + 86) (pa x)); [assumption|rewrite (F1 (vc e FMask)) by (cbn; repeat split; csep); apply Oe|exact V3|exact V2|apply pS86|csep|rewrite V6; apply u32_pa].
        * fold m1'. apply (hop_set m1' x (SI + 87) (lbl T (k + 1))); [assumption|unfold m1'; gx; rewrite (F1 (vc x FMask)) by (cbn; repeat split; csep); apply Ox|unfold m1'; gx; exact V5|unfold m1'; gx; exact V4|apply pS87|csep|unfold m1'; gx; rewrite V7; apply u32_lbl].
        * fold m2. replace (k + 1)%nat with (S k) by lia. eapply run_true; [exact Hp|reflexivity|apply conds_nil|exact A3|]. cbn [rd]. apply u32_pa.
        * apply (hop_set m3 x lv); [assumption| |exact V11|exact V10|apply pL|csep|rewrite V8; apply u32_pa].
          rewrite (F3 (vc x FMask)) by (cbn; repeat split; csep). unfold m2, m1'. gx. rewrite (F1 (vc x FMask)) by (cbn; repeat split; csep). apply Ox.
      + fold d in W9. rewrite W9. unfold m4. gx. rewrite (F3 (SI + 87)) by (cbn; repeat split; csep). unfold m2. gx. rewrite u32_get, X2. symmetry. exact Hidx.
      + intros u [<-|[<-|[<-|[]]]]; rewrite F9 by csep; unfold m4; gx; [rewrite (F3 (vc e FMod)) by (cbn; repeat split; csep); unfold m2, m1'; gx; rewrite V3| |]; try rewrite V11; apply w6_low.
      + intros u [<-|[<-|[<-|[]]]]; assumption.
      + intros b Hb Hbd. apply not_tmp in Hb. destruct Hb as [Hb1 Hb2]. rewrite F9 by (first [exact Hbd|nt Hb1 Hb2]).
        unfold m4. rewrite get_upd_ne by (apply not_eq_sym; nt Hb1 Hb2). rewrite F3 by (cbn [apart scell]; repeat split; nt Hb1 Hb2).
        unfold m2, m1'. rewrite !get_upd_ne by (apply not_eq_sym; nt Hb1 Hb2). apply F1. cbn [apart scell]. repeat split; nt Hb1 Hb2. }
  destruct index as [i|x], value as [c|v], epd as [a|e];
    cbn [svar app sval index_is ord_src diff_src is_var orb negb cst links length Nat.eqb hd] in *.
  - (* constants *)
    subst i. apply finish with (m' := upd m d (u32 c)); auto.
    + eapply raw_run; [exact Hp|apply conds_nil|]. unfold SetM. eapply do_cons_D with (a := d); [cbn [rd]; apply addr_eq; exact Hepd|apply Dw|apply Dw|].
      cbn [do_mod rd]. apply do_nil.
    + rewrite get_upd_eq. apply u32_idem.
    + intros ? [].
    + intros ? [].
    + intros b _ Hb. apply get_upd_ne. apply not_eq_sym. exact Hb.
  - (* variable array *)
    subst i. destruct Oe as [Hev Oe]. pose proof (Nev e eq_refl) as N1. apply placed_one in Hp.
    destruct (sops_do [SSet (SI + 1) (lbl T (S k)); SSet (SI + 86) (87 + 0 + 18 * j); SSet (vc e FNext) (pa SI); SSet (vc e FDest) (SI + 86); SMod e Add; SSet (SI + 87) c] m)
      as (m1 & A1 & (V1 & V2 & V3 & V4 & V5 & V6 & _) & F1).
    { cbn. repeat split; try (apply (wrv e); assumption); try apply Oe; try apply pS1; try apply pS86; apply pS87. }
    { cbn. repeat split; csep. }
    cbn [scell sres] in *.
    assert (Ev : get m1 (vc e FVal) = u32 A) by (rewrite (F1 (vc e FVal)) by (cbn; repeat split; csep); exact Hepd).
    set (m2 := upd m1 (SI + 86) (u32 (get m1 (SI + 86) + get m1 (vc e FVal)))).
    assert (S86 : get m2 (SI + 86) = u32 d).
    { unfold m2. rewrite get_upd_eq, V2, Ev, u32_idem, u32_add_l, u32_add_r. unfold d. rewrite <- (addr_eq A j eq_refl). f_equal. lia. }
    apply finish with (m' := upd m2 d (get m2 (SI + 87))); auto.
    + replace (k + _)%nat with (S k) by (cbn; lia). eapply runs_trans; [|eapply runs_trans].
      * eapply run_true; [exact Hp|reflexivity|apply conds_nil|exact A1|]. cbn [rd]. apply u32_pa.
      * apply (hop_add m1 e (SI + 86) (pa SI)); auto; [rewrite (F1 (vc e FMask)) by (cbn; repeat split; csep); apply Oe|apply pS86|csep|rewrite V3; apply u32_pa].
      * fold m2. apply (si_run m2 d (lbl T (S k))); auto. unfold m2. gx. rewrite V1. apply u32_lbl.
    + rewrite get_upd_eq, u32_get. unfold m2. gx. exact V6.
    + intros v [<-|[]]. unfold d, m2. gx. rewrite V5. apply w6_low.
    + intros v [<-|[]]. exact Hev.
    + intros b Hb Hbd. apply not_tmp in Hb. destruct Hb as [Hb1 Hb2]. rewrite get_upd_ne by (apply not_eq_sym; exact Hbd).
      unfold m2. rewrite get_upd_ne by (apply not_eq_sym; nt Hb1 Hb2). apply F1. cbn [apart scell]. repeat split; nt Hb1 Hb2.
  - (* variable value *)
    subst i. destruct Ov as [Hvv Ov]. pose proof (Nvv v eq_refl) as N1. apply placed_one in Hp.
    destruct (sops_do [SSet (vc v FNext) (lbl T (S k)); SSet (vc v FDest) (87 + a + 18 * j); SMod v SetTo] m)
      as (m1 & A1 & (V1 & V2 & V3 & _) & F1).
    { cbn. repeat split; try (apply (wrv v); assumption); apply Ov. }
    { cbn. repeat split; csep. }
    cbn [scell sres] in *.
    apply finish with (m' := upd m1 d (get m1 (vc v FVal))); auto.
    + replace (k + _)%nat with (S k) by (cbn; lia). eapply runs_trans.
      * eapply run_true; [exact Hp|reflexivity|apply conds_nil|exact A1|]. cbn [rd]. apply u32_pa.
      * apply (hop_set m1 v d (lbl T (S k))); auto; [rewrite (F1 (vc v FMask)) by (cbn; repeat split; csep); apply Ov|rewrite V2; apply addr_eq; exact Hepd|unfold d; csep|rewrite V1; apply u32_lbl].
    + rewrite get_upd_eq, u32_get. apply F1. cbn; repeat split; csep.
    + intros u [<-|[]]. unfold d. gx. rewrite V3. apply w6_low.
    + intros u [<-|[]]. exact Hvv.
    + intros b Hb Hbd. apply not_tmp in Hb. destruct Hb as [Hb1 Hb2]. rewrite get_upd_ne by (apply not_eq_sym; exact Hbd).
      apply F1. cbn [apart scell]. repeat split; nt Hb1 Hb2.
  - (* variable array and value *)
    subst i. destruct Ov as [Hvv Ov]. destruct Oe as [Hev Oe]. pose proof (Nvv v eq_refl) as N1. pose proof (Nev e eq_refl) as N2. apply placed_one in Hp.
    destruct (sops_do [SSet (vc v FNext) (lbl T (S k)); SSet (vc e FNext) (pa v); SSet (vc v FDest) (87 + 0 + 18 * j); SSet (vc e FDest) (vc v FDest); SMod e Add; SMod v SetTo] m)
      as (m1 & A1 & (V1 & V2 & V3 & V4 & V5 & V6 & _) & F1).
    { cbn. repeat split; try (apply (wrv v); assumption); try (apply (wrv e); assumption); try apply Ov; apply Oe. }
    { cbn. repeat split; csep. }
    cbn [scell sres] in *.
    assert (Ev : get m1 (vc e FVal) = u32 A) by (rewrite (F1 (vc e FVal)) by (cbn; repeat split; csep); exact Hepd).
    set (m2 := upd m1 (vc v FDest) (u32 (get m1 (vc v FDest) + get m1 (vc e FVal)))).
    assert (V86 : get m2 (vc v FDest) = u32 d).
    { unfold m2. rewrite get_upd_eq, V3, Ev, u32_idem, u32_add_l, u32_add_r. unfold d. rewrite <- (addr_eq A j eq_refl). f_equal. lia. }
    apply finish with (m' := upd m2 d (get m2 (vc v FVal))); auto.
    + replace (k + _)%nat with (S k) by (cbn; lia). eapply runs_trans; [|eapply runs_trans].
      * eapply run_true; [exact Hp|reflexivity|apply conds_nil|exact A1|]. cbn [rd]. apply u32_pa.
      * apply (hop_add m1 e (vc v FDest) (pa v)); auto; [rewrite (F1 (vc e FMask)) by (cbn; repeat split; csep); apply Oe|apply wrv; exact Hvv|csep|rewrite V2; apply u32_pa].
      * fold m2. apply (hop_set m2 v d (lbl T (S k))); auto; [unfold m2; gx; rewrite (F1 (vc v FMask)) by (cbn; repeat split; csep); apply Ov|unfold m2; gx; exact V6|unfold d; csep|unfold m2; gx; rewrite V1; apply u32_lbl].
    + rewrite get_upd_eq, u32_get. unfold m2. gx. apply F1. cbn; repeat split; csep.
    + intros u [<-|[<-|[]]]; unfold d, m2; gx; [rewrite V5|rewrite V6]; apply w6_low.
    + intros u [<-|[<-|[]]]; assumption.
    + intros b Hb Hbd. apply not_tmp in Hb. destruct Hb as [Hb1 Hb2]. rewrite get_upd_ne by (apply not_eq_sym; exact Hbd).
      unfold m2. rewrite get_upd_ne by (apply not_eq_sym; nt Hb1 Hb2). apply F1. cbn [apart scell]. repeat split; nt Hb1 Hb2.
  - (* variable index *)
    destruct Oi as [Hxv Ox]. pose proof (Niv x eq_refl) as N1. apply placed_one in Hp.
    destruct (sops_do [SSet (SI + 1) (lbl T (S k)); SSet (SI + 86) (87 + a + 18 * 0); SSet (vc x FNext) (pa (va_is h (size_msb size))); SSet (vc x FDest) lv; SMod x SetTo; SSet (SI + 87) c] m)
      as (m1 & A1 & (VS1 & VS86 & VxN & VxD & VxM & VS87 & _) & F1).
    { cbn. repeat split; try (apply (wrv x); assumption); try apply Ox; try apply pS1; try apply pS86; apply pS87. }
    { cbn. repeat split; csep. }
    cbn [scell sres] in *.
    set (m2 := upd m1 (lv) (get m1 (vc x FVal))).
    destruct (set_tail m2 j (lbl T (S k)) Hj) as (m9 & R9 & W9 & F9); auto.
    { unfold m2. gx. rewrite u32_get, (F1 (vc x FVal)) by (cbn; repeat split; csep). exact Hidx. }
    { unfold m2. gx. rewrite VS86. replace (87 + a + 18 * 0) with (a + 87) by lia. rewrite <- u32_add_l, Hepd, u32_add_l. f_equal. lia. }
    { unfold m2. gx. rewrite VS1. apply u32_lbl. }
    apply finish with (m' := m9); auto.
    + replace (k + _)%nat with (S k) by (cbn; lia). eapply runs_trans; [|exact R9]. eapply runs_trans.
      * eapply run_true; [exact Hp|reflexivity|apply conds_nil|exact A1|]. cbn [rd]. apply u32_pa.
      * apply (hop_set m1 x (lv) (pa (va_is h (size_msb size)))); [assumption|rewrite (F1 (vc x FMask)) by (cbn; repeat split; csep); apply Ox|exact VxM|exact VxD|apply pL|csep|rewrite VxN; apply u32_pa].
    + fold d in W9. rewrite W9. unfold m2. gx. exact VS87.
    + intros u [<-|[]]. rewrite F9 by csep. unfold m2. gx. rewrite VxM. apply w6_low.
    + intros u [<-|[]]; assumption.
    + intros b Hb Hbd. apply not_tmp in Hb. destruct Hb as [Hb1 Hb2]. rewrite F9 by (first [exact Hbd|nt Hb1 Hb2]).
      unfold m2. rewrite get_upd_ne by (apply not_eq_sym; nt Hb1 Hb2). apply F1. cbn [apart scell]. repeat split; nt Hb1 Hb2.
  - (* variable array and index *)
    destruct Oi as [Hxv Ox]. pose proof (Niv x eq_refl) as N1. destruct Oe as [Hev Oe]. pose proof (Nev e eq_refl) as N3. apply placed_one in Hp.
    destruct (sops_do [SSet (SI + 1) (lbl T (S k)); SSet (vc e FNext) (pa x); SSet (SI + 86) (87 + 0 + 18 * 0); SSet (vc e FDest) (SI + 86); SMod e Add; SSet (vc x FNext) (pa (va_is h (size_msb size))); SSet (vc x FDest) lv; SMod x SetTo; SSet (SI + 87) c] m)
      as (m1 & A1 & (VS1 & VeN & VS86 & VeD & VeM & VxN & VxD & VxM & VS87 & _) & F1).
    { cbn. repeat split; try (apply (wrv x); assumption); try (apply (wrv e); assumption); try apply Ox; try apply Oe; try apply pS1; try apply pS86; apply pS87. }
    { cbn. repeat split; csep. }
    cbn [scell sres] in *.
    assert (Ev : get m1 (vc e FVal) = u32 A) by (rewrite (F1 (vc e FVal)) by (cbn; repeat split; csep); exact Hepd).
    set (m2 := upd m1 (SI + 86) (u32 (get m1 (SI + 86) + get m1 (vc e FVal)))).
    set (m3 := upd m2 (lv) (get m2 (vc x FVal))).
    destruct (set_tail m3 j (lbl T (S k)) Hj) as (m9 & R9 & W9 & F9); auto.
    { unfold m3, m2. gx. rewrite u32_get, (F1 (vc x FVal)) by (cbn; repeat split; csep). exact Hidx. }
    { unfold m3, m2. gx. rewrite VS86, Ev, u32_idem, u32_add_l, u32_add_r. f_equal. }
    { unfold m3, m2. gx. rewrite VS1. apply u32_lbl. }
    apply finish with (m' := m9); auto.
    + replace (k + _)%nat with (S k) by (cbn; lia). eapply runs_trans; [|exact R9]. eapply runs_trans; [|eapply runs_trans].
      * eapply run_true; [exact Hp|reflexivity|apply conds_nil|exact A1|]. cbn [rd]. apply u32_pa.
      * apply (hop_add m1 e (SI + 86) (pa x)); [assumption|rewrite (F1 (vc e FMask)) by (cbn; repeat split; csep); apply Oe|exact VeM|exact VeD|apply pS86|csep|rewrite VeN; apply u32_pa].
      * fold m2. apply (hop_set m2 x (lv) (pa (va_is h (size_msb size)))); [assumption|unfold m2; gx; rewrite (F1 (vc x FMask)) by (cbn; repeat split; csep); apply Ox|unfold m2; gx; exact VxM|unfold m2; gx; exact VxD|apply pL|csep|unfold m2; gx; rewrite VxN; apply u32_pa].
    + fold d in W9. rewrite W9. unfold m3, m2. gx. exact VS87.
    + intros u [<-|[<-|[]]]; rewrite F9 by csep; unfold m3, m2; gx; [rewrite VeM|rewrite VxM]; apply w6_low.
    + intros u [<-|[<-|[]]]; assumption.
    + intros b Hb Hbd. apply not_tmp in Hb. destruct Hb as [Hb1 Hb2]. rewrite F9 by (first [exact Hbd|nt Hb1 Hb2]).
      unfold m3, m2. rewrite get_upd_ne by (apply not_eq_sym; nt Hb1 Hb2). rewrite get_upd_ne by (apply not_eq_sym; nt Hb1 Hb2). apply F1. cbn [apart scell]. repeat split; nt Hb1 Hb2.
  - (* variable index and value *)
    destruct Oi as [Hxv Ox]. pose proof (Niv x eq_refl) as N1. destruct Ov as [Hvv Ov]. pose proof (Nvv v eq_refl) as N2. assert (Nxv : x <> v) by (intros ->; cbn [same_src] in Esame; rewrite Z.eqb_refl in Esame; discriminate). apply placed_one in Hp.
    destruct (sops_do [SSet (SI + 1) (lbl T (S k)); SSet (vc v FNext) (pa x); SSet (SI + 86) (87 + a + 18 * 0); SSet (vc x FNext) (pa (va_is h (size_msb size))); SSet (vc x FDest) lv; SMod x SetTo; SSet (vc v FDest) (SI + 87); SMod v SetTo] m)
      as (m1 & A1 & (VS1 & VvN & VS86 & VxN & VxD & VxM & VvD & VvM & _) & F1).
    { cbn. repeat split; try (apply (wrv x); assumption); try (apply (wrv v); assumption); try apply Ox; try apply Ov; try apply pS1; try apply pS86; apply pS87. }
    { cbn. repeat split; csep. }
    cbn [scell sres] in *.
    set (m2 := upd m1 (SI + 87) (get m1 (vc v FVal))).
    set (m3 := upd m2 (lv) (get m2 (vc x FVal))).
    destruct (set_tail m3 j (lbl T (S k)) Hj) as (m9 & R9 & W9 & F9); auto.
    { unfold m3, m2. gx. rewrite u32_get, (F1 (vc x FVal)) by (cbn; repeat split; csep). exact Hidx. }
    { unfold m3, m2. gx. rewrite VS86. replace (87 + a + 18 * 0) with (a + 87) by lia. rewrite <- u32_add_l, Hepd, u32_add_l. f_equal. lia. }
    { unfold m3, m2. gx. rewrite VS1. apply u32_lbl. }
    apply finish with (m' := m9); auto.
    + replace (k + _)%nat with (S k) by (cbn; lia). eapply runs_trans; [|exact R9]. eapply runs_trans; [|eapply runs_trans].
      * eapply run_true; [exact Hp|reflexivity|apply conds_nil|exact A1|]. cbn [rd]. apply u32_pa.
      * apply (hop_set m1 v (SI + 87) (pa x)); [assumption|rewrite (F1 (vc v FMask)) by (cbn; repeat split; csep); apply Ov|exact VvM|exact VvD|apply pS87|csep|rewrite VvN; apply u32_pa].
      * fold m2. apply (hop_set m2 x (lv) (pa (va_is h (size_msb size)))); [assumption|unfold m2; gx; rewrite (F1 (vc x FMask)) by (cbn; repeat split; csep); apply Ox|unfold m2; gx; exact VxM|unfold m2; gx; exact VxD|apply pL|csep|unfold m2; gx; rewrite VxN; apply u32_pa].
    + fold d in W9. rewrite W9. unfold m3, m2. gx. rewrite u32_get. apply F1. cbn; repeat split; csep.
    + intros u [<-|[<-|[]]]; rewrite F9 by csep; unfold m3, m2; gx; [rewrite VvM|rewrite VxM]; apply w6_low.
    + intros u [<-|[<-|[]]]; assumption.
    + intros b Hb Hbd. apply not_tmp in Hb. destruct Hb as [Hb1 Hb2]. rewrite F9 by (first [exact Hbd|nt Hb1 Hb2]).
      unfold m3, m2. rewrite get_upd_ne by (apply not_eq_sym; nt Hb1 Hb2). rewrite get_upd_ne by (apply not_eq_sym; nt Hb1 Hb2). apply F1. cbn [apart scell]. repeat split; nt Hb1 Hb2.
  - (* all variable *)
    destruct Oi as [Hxv Ox]. pose proof (Niv x eq_refl) as N1. destruct Ov as [Hvv Ov]. pose proof (Nvv v eq_refl) as N2. assert (Nxv : x <> v) by (intros ->; cbn [same_src] in Esame; rewrite Z.eqb_refl in Esame; discriminate). destruct Oe as [Hev Oe]. pose proof (Nev e eq_refl) as N3. apply placed_one in Hp.
    destruct (sops_do [SSet (SI + 1) (lbl T (S k)); SSet (vc e FNext) (pa v); SSet (vc v FNext) (pa x); SSet (SI + 86) (87 + 0 + 18 * 0); SSet (vc e FDest) (SI + 86); SMod e Add; SSet (vc x FNext) (pa (va_is h (size_msb size))); SSet (vc x FDest) lv; SMod x SetTo; SSet (vc v FDest) (SI + 87); SMod v SetTo] m)
      as (m1 & A1 & (VS1 & VeN & VvN & VS86 & VeD & VeM & VxN & VxD & VxM & VvD & VvM & _) & F1).
    { cbn. repeat split; try (apply (wrv x); assumption); try (apply (wrv v); assumption); try (apply (wrv e); assumption); try apply Ox; try apply Ov; try apply Oe; try apply pS1; try apply pS86; apply pS87. }
    { cbn. repeat split; csep. }
    cbn [scell sres] in *.
    assert (Ev : get m1 (vc e FVal) = u32 A) by (rewrite (F1 (vc e FVal)) by (cbn; repeat split; csep); exact Hepd).
    set (m2 := upd m1 (SI + 86) (u32 (get m1 (SI + 86) + get m1 (vc e FVal)))).
    set (m3 := upd m2 (SI + 87) (get m2 (vc v FVal))).
    set (m4 := upd m3 (lv) (get m3 (vc x FVal))).
    destruct (set_tail m4 j (lbl T (S k)) Hj) as (m9 & R9 & W9 & F9); auto.
    { unfold m4, m3, m2. gx. rewrite u32_get, (F1 (vc x FVal)) by (cbn; repeat split; csep). exact Hidx. }
    { unfold m4, m3, m2. gx. rewrite VS86, Ev, u32_idem, u32_add_l, u32_add_r. f_equal. }
    { unfold m4, m3, m2. gx. rewrite VS1. apply u32_lbl. }
    apply finish with (m' := m9); auto.
    + replace (k + _)%nat with (S k) by (cbn; lia). eapply runs_trans; [|exact R9]. eapply runs_trans; [|eapply runs_trans; [|eapply runs_trans]].
      * eapply run_true; [exact Hp|reflexivity|apply conds_nil|exact A1|]. cbn [rd]. apply u32_pa.
      * apply (hop_add m1 e (SI + 86) (pa v)); [assumption|rewrite (F1 (vc e FMask)) by (cbn; repeat split; csep); apply Oe|exact VeM|exact VeD|apply pS86|csep|rewrite VeN; apply u32_pa].
      * fold m2. apply (hop_set m2 v (SI + 87) (pa x)); [assumption|unfold m2; gx; rewrite (F1 (vc v FMask)) by (cbn; repeat split; csep); apply Ov|unfold m2; gx; exact VvM|unfold m2; gx; exact VvD|apply pS87|csep|unfold m2; gx; rewrite VvN; apply u32_pa].
      * fold m3. apply (hop_set m3 x (lv) (pa (va_is h (size_msb size)))); [assumption|unfold m3, m2; gx; rewrite (F1 (vc x FMask)) by (cbn; repeat split; csep); apply Ox|unfold m3, m2; gx; exact VxM|unfold m3, m2; gx; exact VxD|apply pL|csep|unfold m3, m2; gx; rewrite VxN; apply u32_pa].
    + fold d in W9. rewrite W9. unfold m4, m3, m2. gx. rewrite u32_get. apply F1. cbn; repeat split; csep.
    + intros u [<-|[<-|[<-|[]]]]; rewrite F9 by csep; unfold m4, m3, m2; gx; [rewrite VeM|rewrite VvM|rewrite VxM]; apply w6_low.
    + intros u [<-|[<-|[<-|[]]]]; assumption.
    + intros b Hb Hbd. apply not_tmp in Hb. destruct Hb as [Hb1 Hb2]. rewrite F9 by (first [exact Hbd|nt Hb1 Hb2]).
      unfold m4, m3, m2. rewrite get_upd_ne by (apply not_eq_sym; nt Hb1 Hb2). rewrite get_upd_ne by (apply not_eq_sym; nt Hb1 Hb2). rewrite get_upd_ne by (apply not_eq_sym; nt Hb1 Hb2). apply F1. cbn [apart scell]. repeat split; nt Hb1 Hb2.
Qed.
End VA.

(* ---------- a concrete case ---------- *)
(* arr[x] = v; y = arr[x] with an array of 5 items that is itself a variable *)
Definition vx (i : nat) : Z := vb_var 1000 i.
Definition vx_h : vashared := mkva (exT 2) (exT 3) (exT 4) 4000000 (fun i => exT (5 + i)) (fun i => exT (33 + i)).
Definition vx_A : Z := vx 5.
Definition vx_set := varr_set vx_h exT 0 5 (SVar (vx 0)) (SVar (vx 1)) (SVar (vx 2)).
Definition vx_get := varr_get vx_h exT 1 5 (SVar (vx 3)) (SVar (vx 1)) (vc (vx 4) FVal).
Definition vx_code : list trig := vx_set ++ vx_get ++ [getter_trig vx_h; get_index_trig vx_h; set_index_trig vx_h] ++
  map (index_for_get vx_h) (seq 0 28) ++ map (index_for_set vx_h) (seq 0 28).
Definition vx_mem : mem :=
  fold_left (fun m j => upd (upd m (vc (item vx_A j) FDest) (va_G vx_h + 87)) (vc (item vx_A j) FNext) (pa (va_G vx_h))) [0; 1; 2; 3; 4]
    (exmem 10 [vx_A; 3; 777; pa vx_A; 0; 10; 11; 12; 13; 14]).
Lemma vx_ok : va_ok (exworld 10 vx_code) vx_h.
Proof.
  constructor.
  - vm_compute. reflexivity.
  - vm_compute. reflexivity.
  - vm_compute. reflexivity.
  - intros i Hi. do 28 (destruct i as [|i]; [vm_compute; reflexivity|]). lia.
  - intros i Hi. do 28 (destruct i as [|i]; [vm_compute; reflexivity|]). lia.
  - intros c Hc. apply exworld_patchable; [reflexivity|]. cbn [In va_cells] in Hc. repeat (destruct Hc as [<-|Hc]; [vm_compute; split; [discriminate|reflexivity]|]). destruct Hc.
  - apply nodupb_ok. vm_compute. reflexivity.
Qed.
Ltac five j Hj := assert (j = 0 \/ j = 1 \/ j = 2 \/ j = 3 \/ j = 4) as [->|[->|[->|[->| ->]]]] by lia.
Lemma vx_ord i : (i < 10)%nat -> ordinary vx_mem (vx i) /\ In (vx i) (W_vars (exworld 10 vx_code)).
Proof. intros Hi. do 10 (destruct i as [|i]; [split; [split; vm_compute; reflexivity|apply inb_in; vm_compute; reflexivity]|]). lia. Qed.
Lemma vx_noitem i : (i < 5)%nat -> no_item vx_A 5 (SVar (vx i)).
Proof.
  intros Hi v j E Hj. injection E as <-. unfold item, vx_A, vx. rewrite !vb_var_eq. lia.
Qed.
Example C58_example : exists m', runs (exworld 10 vx_code) (lbl exT 0, vx_mem) (lbl exT 2, m') /\
  get m' (vc (item vx_A 3) FVal) = 777 /\ get m' (vc (vx 4) FVal) = 777.
Proof.
  set (W := exworld 10 vx_code). assert (HW : world_ok W) by (apply exworld_ok; reflexivity).
  assert (Hits : forall j, 0 <= j < 5 -> In (item vx_A j) (W_vars W)) by (intros j Hj; five j Hj; apply inb_in; vm_compute; reflexivity).
  assert (PL : placed W exT 0 vx_set /\ placed W exT 1 vx_get).
  { assert (P : placed W exT 0 vx_code) by (apply exworld_placed; vm_compute; reflexivity).
    unfold vx_code in P. apply placed_app in P. destruct P as [P1 P2]. split; [exact P1|]. apply placed_app in P2. apply P2. }
  destruct (C58_set W HW vx_h vx_ok vx_A 5 ltac:(lia) exT 0 (SVar (vx 0)) (SVar (vx 1)) (SVar (vx 2)) 3 vx_mem) as (m1 & R1 & [C1 F1] & K1).
  - exact Hits.
  - vm_compute. reflexivity.
  - vm_compute. reflexivity.
  - lia.
  - destruct (vx_ord 0 ltac:(lia)). split; assumption.
  - destruct (vx_ord 1 ltac:(lia)). split; assumption.
  - destruct (vx_ord 2 ltac:(lia)). split; assumption.
  - cbn [diff_src]. unfold vx. rewrite !vb_var_eq. lia.
  - cbn [diff_src]. unfold vx. rewrite !vb_var_eq. lia.
  - apply vx_noitem. lia.
  - apply vx_noitem. lia.
  - apply vx_noitem. lia.
  - apply PL.
  - assert (Fr : forall b, touches b (hops [vx 0; vx 2; vx 1] ++ [va_SI vx_h + 1; va_SI vx_h + 86; va_SI vx_h + 87; va_lv vx_h] ++ [vc (item vx_A 3) FVal]) = false -> get m1 b = get vx_mem b).
    { intros b Hb. unfold touches in Hb. rewrite app_assoc, existsb_app in Hb. apply orb_false_iff in Hb. destruct Hb as [Hb1 Hb2]. apply F1.
      - apply tmp_dec. exact Hb1.
      - intros a x [E|[]]. injection E as <- <-. cbn [existsb] in Hb2. rewrite orb_false_r in Hb2. apply Z.eqb_neq in Hb2. apply not_eq_sym. exact Hb2. }
    assert (Ok1 : forall i, (i < 10)%nat -> ordinary m1 (vx i)) by (intros i Hi; destruct (vx_ord i Hi); apply K1; assumption).
    destruct (C58_get W HW vx_h vx_ok vx_A 5 ltac:(lia) exT 1 (SVar (vx 3)) (SVar (vx 1)) (vc (vx 4) FVal) 3 m1) as (m2 & R2 & [C2 F2] & K2).
    + intros j Hj. split; [apply Hits, Hj|]. repeat split; rewrite Fr; five j Hj; vm_compute; reflexivity.
    + cbn [sval]. rewrite Fr; vm_compute; reflexivity.
    + cbn [index_is]. rewrite Fr; vm_compute; reflexivity.
    + lia.
    + split; [apply vx_ord; lia|apply Ok1; lia].
    + split; [apply vx_ord; lia|apply Ok1; lia].
    + cbn [diff_src]. unfold vx. rewrite !vb_var_eq. lia.
    + apply vx_noitem. lia.
    + apply vx_noitem. lia.
    + assert (Hv : In (vx 4) (W_vars W)) by (apply vx_ord; lia). split; [split; [apply (wo_plain W HW)|apply (wo_prot W HW)]; exact Hv|].
      intros v f Hv2 Hf. apply (vsep W HW); auto.
    + intros c Hc. cbn [In va_cells] in Hc. repeat (destruct Hc as [<-|Hc]; [vm_compute; discriminate|]). destruct Hc.
    + rewrite Fr; vm_compute; reflexivity.
    + apply PL.
    + exists m2. split; [eapply runs_trans; [exact R1|exact R2]|].
      assert (V : get m1 (vc (item vx_A 3) FVal) = 777) by (rewrite (C1 _ _ (or_introl eq_refl)); vm_compute; reflexivity).
      split; [|rewrite (C2 _ _ (or_introl eq_refl)); exact V].
      rewrite F2; [exact V|apply tmp_dec; vm_compute; reflexivity|]. intros a x [E|[]]. injection E as <- <-. vm_compute. discriminate.
Qed.
Print Assumptions C58_get.
Print Assumptions C58_set.
