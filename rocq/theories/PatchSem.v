(* Meaning of the fill operations on the fields of a condition or action. *)
From Coq Require Import ZArith Lia List Bool ZifyBool ZifyNat.
From Verif Require Import Lib Word Machine MachineProofs VarModel VarSpec VarProofs SeqProofs OpsModel OpsSpec OpsBase PatchModel PatchProofs PropBw.
Import ListNotations.
Open Scope Z_scope.

(* bits a size code stands for: first bit, number of bits *)
Definition slot (size : Z) : Z * Z := if size =? -1 then (0, 32) else if size =? 0 then (0, 16) else (8 * (size - 2), 8).
Definition okslot (size : Z) : Prop := size = -1 \/ size = 0 \/ 2 <= size <= 5.
Definition disj (s t : Z * Z) : Prop := fst s + snd s <= fst t \/ fst t + snd t <= fst s.
Fixpoint row_slots (n : nat) (row : list (option Z)) : list (nat * (Z * Z)) :=
  match row with
  | [] => []
  | Some s :: r => (n, slot s) :: row_slots (S n) r
  | None :: r => row_slots (S n) r
  end.
Definition okrow (row : list (option Z)) : Prop := Forall (fun s => match s with Some x => okslot x | None => True end) row.
Fixpoint pdisj (l : list (nat * (Z * Z))) : Prop :=
  match l with [] => True | (_, s) :: r => (forall j t, In (j, t) r -> disj s t) /\ pdisj r end.

Lemma slot_range s : okslot s -> 0 <= fst (slot s) /\ 0 < snd (slot s).
Proof. intros [->|[->|H]]; cbn; try lia. unfold slot. destruct (Z.eqb_spec s (-1)); [lia|]. destruct (Z.eqb_spec s 0); cbn [fst snd]; lia. Qed.
Lemma row_slots_ok row : okrow row -> forall n j s, In (j, s) (row_slots n row) -> 0 <= fst s /\ 0 < snd s.
Proof.
  induction row as [|[x|] row IH]; intros H n j s Hin; [destruct Hin| |]; inversion H; subst; cbn [row_slots] in Hin.
  - destruct Hin as [E|Hin]; [injection E as <- <-; apply slot_range; auto|eapply IH; eauto].
  - eapply IH; eauto.
Qed.
Lemma row_slots_ge row : forall n j s, In (j, s) (row_slots n row) -> (n <= j < n + length row)%nat.
Proof.
  induction row as [|[x|] row IH]; intros n j s Hin; [destruct Hin| |]; cbn [row_slots length] in *.
  - destruct Hin as [E|Hin]; [injection E as <- <-; lia|]. apply IH in Hin. lia.
  - apply IH in Hin. lia.
Qed.

Section P.
Variable w : world.
Hypothesis Hw : world_ok w.
Notation vars := (W_vars w).
Variable lof lsf : Z.
Variable bf : Z -> Z.
Variable param : Z.
Notation FL := [lof; lsf; bf 1; bf 2; bf 3].
Variable V : list Z.
Hypothesis Hnd : NoDup (param :: FL).
Hypothesis HF : incl (param :: FL) vars.
Hypothesis HV : incl V vars.
Hypothesis HVF : forall v, In v V -> ~ In v (param :: FL).
Notation invm := (inv lof lsf bf V).
Notation ex := (exec bf param).

Definition fcell (a : Z) : Prop := exists f, In f (param :: FL) /\ idx a = idx (vc f FVal).
Lemma fcell_V v : In v V -> ~ fcell (vc v FVal).
Proof.
  intros Hv (f & Hf & E). destruct (wo_sep w Hw v f FVal FVal (HV v Hv) (HF f Hf) E) as [-> _]. apply (HVF f Hv Hf).
Qed.
Lemma fcell_patch e : patchable w e -> ~ fcell e.
Proof. intros [_ H] (f & Hf & E). apply (H f FVal (HF f Hf) E). Qed.

Lemma inv_same m m' : (forall v f, In v vars -> f <> FVal -> get m' (vc v f) = get m (vc v f)) -> invm m -> invm m'.
Proof.
  intros G I. assert (Ff : forall f, In f FL -> In f vars) by (intros f Hf; apply HF; right; exact Hf).
  constructor.
  - rewrite G by (try discriminate; apply Ff; cbn; auto 10). apply (i_lo _ _ _ _ m I).
  - rewrite G by (try discriminate; apply Ff; cbn; auto 10). apply (i_ls _ _ _ _ m I).
  - intros b Hb. rewrite G by (try discriminate; apply Ff, bf_in, Hb). apply (i_b _ _ _ _ m I b Hb).
  - intros f Hf. rewrite G by (try discriminate; auto). apply (i_mod _ _ _ _ m I f Hf).
  - intros u Hu. destruct (i_ord _ _ _ _ m I u Hu) as [O1 O2]. split; rewrite G; auto; discriminate.
Qed.

Lemma filler_okop size e v : okslot size -> patchable w e -> In v V -> Forall (okop w lof lsf bf param V) (filler lof lsf bf size e v).
Proof.
  intros Hs He Hv. unfold filler.
  destruct (Z.eqb_spec size (-1)); [|destruct (Z.eqb_spec size 0); [|destruct (Z.eqb_spec size 2)]].
  - constructor; [split; [exact He|left; auto]|constructor].
  - constructor; [split; [cbn; auto|left; auto]|]. constructor; [split; [exact He|right; split; [cbn; auto|reflexivity]]|constructor].
  - constructor; [split; [cbn; auto|left; auto]|]. constructor; [split; [exact He|right; split; [cbn; auto|reflexivity]]|constructor].
  - assert (1 <= size - 2 <= 3) by (destruct Hs as [H|[H|H]]; lia).
    constructor; [split; auto|]. constructor; [split; [exact He|right; split; [apply bf_in; lia|reflexivity]]|constructor].
Qed.

Lemma filler_exec size e v m : okslot size -> patchable w e -> In v V -> invm m ->
  let m' := fold_left ex (filler lof lsf bf size e v) m in
  let (lo, len) := slot size in
  invm m' /\ fld (get m' e) lo len = get m (vc v FVal) mod 2^len /\
  (forall lo' len', 0 <= lo' -> 0 <= len' -> disj (lo', len') (lo, len) -> fld (get m' e) lo' len' = fld (get m e) lo' len') /\
  (forall a, idx a <> idx e -> ~ fcell a -> get m' a = get m a).
Proof.
  intros Hs He Hv I.
  pose proof (get_range m (vc v FVal)) as Rv. pose proof (get_range m e) as Re.
  assert (Hfe : forall f g, In f (param :: FL) -> idx (vc f g) <> idx e) by (intros f g Hf E; apply (proj2 He f g (HF f Hf)); auto).
  assert (Hvv : In v vars) by auto.
  assert (Hve : forall g, idx (vc v g) <> idx e) by (intros g E; apply (proj2 He v g Hvv); auto).
  assert (Gen : forall lo len x (m1 : mem), 0 <= lo -> 0 < len -> (forall u f, In u vars -> f <> FVal -> get m1 (vc u f) = get m (vc u f)) ->
     get m1 e = get m e -> (forall a, idx a <> idx e -> ~ fcell a -> get m1 a = get m a) ->
     0 <= x < 2^32 -> fld x lo len = get m (vc v FVal) mod 2^len -> fmask lo len < 2^32 ->
     let m' := upd m1 e (do_modx SetTo (fmask lo len) (get m1 e) x) in
     invm m' /\ fld (get m' e) lo len = get m (vc v FVal) mod 2^len /\
     (forall lo' len', 0 <= lo' -> 0 <= len' -> disj (lo', len') (lo, len) -> fld (get m' e) lo' len' = fld (get m e) lo' len') /\
     (forall a, idx a <> idx e -> ~ fcell a -> get m' a = get m a)).
  { intros lo len x m1 Hlo Hlen G E1 O1 Hx Hfx Hmk m'. subst m'.
    assert (Hk : 0 <= fmask lo len) by (unfold fmask; apply Z.shiftl_nonneg; rewrite Z.ones_equiv; pose proof (Z.pow_pos_nonneg 2 len ltac:(lia) ltac:(lia)); lia).
    split; [|split; [|split]].
    - apply inv_same with m; [|exact I]. intros u f Hu Hf. rewrite get_upd_ne; [auto|]. apply not_eq_sym. intros E. apply (proj2 He u f Hu). auto.
    - rewrite get_upd_eq, u32_small by (apply do_modx_range; auto; rewrite E1; exact Re). rewrite E1.
      destruct (modx_field SetTo (get m e) x lo len) as [Q _]; try lia. rewrite Q. cbn [fop]. exact Hfx.
    - intros lo' len' H1 H2 H3. rewrite get_upd_eq, u32_small by (apply do_modx_range; auto; rewrite E1; exact Re). rewrite E1.
      destruct (modx_field SetTo (get m e) x lo len) as [_ Q]; try lia. apply Q; auto.
    - intros a Ha Hf. rewrite get_upd_ne by congruence. auto. }
  unfold filler, slot.
  destruct (Z.eqb_spec size (-1)) as [->|N1]; [|destruct (Z.eqb_spec size 0) as [->|N2]; [|]].
  - cbn [fold_left exec res assign1 dst_epd]. destruct (i_ord _ _ _ _ m I v Hv) as [-> _].
    change 0xFFFFFFFF with (fmask 0 32). apply Gen; auto; try lia; try (unfold fld; rewrite Z.pow_0_r, Z.div_1_r; reflexivity).
    change (2^32) with 4294967296. reflexivity.
  - cbn [fold_left exec res assign1 dst_epd]. set (m1 := upd m (vc lof FVal) _).
    assert (Hl : In lof (param :: FL)) by (cbn; auto).
    assert (E1 : get m1 (vc lof FVal) = get m (vc v FVal)).
    { unfold m1. rewrite get_upd_eq. destruct (i_ord _ _ _ _ m I v Hv) as [-> _].
      change 0xFFFFFFFF with (Z.ones 32). rewrite do_modx_full by (auto using get_range). cbn [do_mod]. apply u32_small. exact Rv. }
    assert (E2 : get m1 (vc lof FMask) = fmask 0 16).
    { unfold m1. rewrite get_upd_ne by (apply (vsep w Hw); auto; right; discriminate). apply (i_lo _ _ _ _ m I). }
    rewrite E1, E2. apply Gen; try lia.
    + intros u f Hu Hf. apply get_upd_ne. apply (vsep w Hw); auto.
    + apply get_upd_ne. apply Hfe, Hl.
    + intros a Ha Hfc. apply get_upd_ne. intros E. apply Hfc. exists lof. auto.
    + unfold fld. rewrite Z.pow_0_r, Z.div_1_r. reflexivity.
    + reflexivity.
  - destruct (Z.eqb_spec size 2) as [->|N3].
    + cbn [fold_left exec res assign1 dst_epd]. set (m1 := upd m (vc lsf FVal) _). change (8 * (2 - 2)) with 0.
      assert (Hl : In lsf (param :: FL)) by (cbn; auto).
      assert (E1 : get m1 (vc lsf FVal) = get m (vc v FVal)).
      { unfold m1. rewrite get_upd_eq. destruct (i_ord _ _ _ _ m I v Hv) as [-> _].
        change 0xFFFFFFFF with (Z.ones 32). rewrite do_modx_full by (auto using get_range). cbn [do_mod]. apply u32_small. exact Rv. }
      assert (E2 : get m1 (vc lsf FMask) = fmask 0 8).
      { unfold m1. rewrite get_upd_ne by (apply (vsep w Hw); auto; right; discriminate). apply (i_ls _ _ _ _ m I). }
      rewrite E1, E2. apply Gen; try lia.
      * intros u f Hu Hf. apply get_upd_ne. apply (vsep w Hw); auto.
      * apply get_upd_ne. apply Hfe, Hl.
      * intros a Ha Hfc. apply get_upd_ne. intros E. apply Hfc. exists lsf. auto.
      * unfold fld. rewrite Z.pow_0_r, Z.div_1_r. reflexivity.
      * reflexivity.
    + assert (Hb : 1 <= size - 2 <= 3) by (destruct Hs as [H|[H|H]]; lia).
      cbv zeta. set (b := size - 2) in *. clearbody b. cbn [fold_left exec res assign1 dst_epd].
      set (x := get m (vc v FVal) mod 256 * 2^(8 * b)).
      pose proof (Z.mod_pos_bound (get m (vc v FVal)) 256 ltac:(lia)) as Mb.
      assert (P24 : 2^(8*b) <= 2^24) by (apply Z.pow_le_mono_r; lia). assert (P0 : 0 < 2^(8*b)) by (apply Z.pow_pos_nonneg; lia).
      assert (Hx : 0 <= x < 2^32) by (unfold x; nia).
      set (m1 := upd _ (vc (bf b) FVal) x).
      assert (Hl : In (bf b) (param :: FL)) by (right; apply bf_in, Hb).
      assert (E1 : get m1 (vc (bf b) FVal) = x) by (unfold m1; rewrite get_upd_eq; apply u32_small, Hx).
      assert (G1 : forall u f, In u vars -> f <> FVal -> get m1 (vc u f) = get m (vc u f)).
      { intros u f Hu Hf. unfold m1. rewrite !get_upd_ne; [reflexivity| |]; apply (vsep w Hw); auto. apply HF. left. reflexivity. }
      assert (E2 : get m1 (vc (bf b) FMask) = fmask (8 * b) 8).
      { rewrite G1 by (auto; discriminate). rewrite (i_b _ _ _ _ m I b Hb). unfold fmask. rewrite Z.shiftl_mul_pow2 by lia. reflexivity. }
      rewrite E1, E2. apply Gen; try lia; auto.
      * unfold m1. rewrite !get_upd_ne; [reflexivity| |]; apply Hfe; auto. left. reflexivity.
      * intros a Ha Hfc. unfold m1. rewrite !get_upd_ne; [reflexivity| |]; intros E; apply Hfc; [exists param|exists (bf b)]; auto. split; [left; reflexivity|auto].
      * unfold x, fld. rewrite Z.div_mul by lia. change (2^8) with 256. apply Z.mod_mod. lia.
      * unfold fmask. rewrite Z.shiftl_mul_pow2 by lia. change (Z.ones 8) with 255. lia.
Qed.

Variable fields : list field.
Definition fieldat (j : nat) : field := nth j fields (Fc 0).
(* value of a field afterwards *)
Definition newval (m : mem) (e : Z) (j : nat) (s : Z * Z) : Z :=
  match fieldat j with Fv v => get m (vc v FVal) mod 2^(snd s) | Fc _ => fld (get m e) (fst s) (snd s) end.

Lemma row_exec e : patchable w e -> forall row n m, okrow row -> pdisj (row_slots n row) -> invm m ->
  (forall j s v, In (j, s) (row_slots n row) -> fieldat j = Fv v -> In v V) ->
  Forall (okop w lof lsf bf param V) (row_ops lof lsf bf e fields n row) /\
  let m' := fold_left ex (row_ops lof lsf bf e fields n row) m in
  invm m' /\
  (forall j s, In (j, s) (row_slots n row) -> fld (get m' e) (fst s) (snd s) = newval m e j s) /\
  (forall lo len, 0 <= lo -> 0 <= len -> (forall j s, In (j, s) (row_slots n row) -> disj (lo, len) s) -> fld (get m' e) lo len = fld (get m e) lo len) /\
  (forall a, idx a <> idx e -> ~ fcell a -> get m' a = get m a).
Proof.
  intros He. induction row as [|x row IH]; intros n m Hr Hd I Hv; cbn [row_ops].
  - split; [constructor|]. split; [exact I|]. split; [intros ? ? []|]. split; auto.
  - inversion Hr as [|y ys Hx Hr']. subst. destruct x as [size|]; cbn [row_slots pdisj] in Hd, Hv |- *.
    2:{ destruct (IH (S n) m Hr' Hd I Hv) as (A & B). split; [exact A|exact B]. }
    destruct Hd as [Hd1 Hd2]. pose proof (slot_range size Hx) as [S1 S2].
    assert (First : Forall (okop w lof lsf bf param V) (match nth n fields (Fc 0) with Fc _ => [] | Fv v => filler lof lsf bf size e v end) /\
      let m1 := fold_left ex (match nth n fields (Fc 0) with Fc _ => [] | Fv v => filler lof lsf bf size e v end) m in
      invm m1 /\ fld (get m1 e) (fst (slot size)) (snd (slot size)) = newval m e n (slot size) /\
      (forall lo' len', 0 <= lo' -> 0 <= len' -> disj (lo', len') (slot size) -> fld (get m1 e) lo' len' = fld (get m e) lo' len') /\
      (forall a, idx a <> idx e -> ~ fcell a -> get m1 a = get m a)).
    { unfold newval. destruct (nth n fields (Fc 0)) as [z|v] eqn:En.
      - split; [constructor|]. cbn [fold_left]. unfold fieldat. rewrite En. auto.
      - assert (HvV : In v V) by (eapply Hv; [left; reflexivity|exact En]).
        split; [apply filler_okop; auto|]. pose proof (filler_exec size e v m Hx He HvV I) as Q. cbv zeta in Q |- *.
        unfold fieldat. rewrite En. destruct (slot size) as [lo len]. exact Q. }
    destruct First as (F0 & I1 & F1 & F2 & F3). set (m1 := fold_left ex _ m) in *.
    destruct (IH (S n) m1 Hr' Hd2 I1) as (A & B1 & B2 & B3 & B4).
    { intros j s v Hin Hf. apply (Hv j s v); [right; exact Hin|exact Hf]. }
    split; [apply Forall_app; split; auto|]. cbv zeta. rewrite fold_left_app. fold m1.
    set (m' := fold_left ex (row_ops lof lsf bf e fields (S n) row) m1) in *.
    split; [exact B1|]. split; [|split].
    + intros j s [E|Hin].
      * injection E as <- <-. rewrite B3; [exact F1|exact S1|lia|]. intros j s Hin. specialize (Hd1 j s Hin). destruct (slot size). exact Hd1.
      * rewrite (B2 j s Hin). unfold newval. destruct (fieldat j) as [z|v] eqn:Ej.
        -- destruct (row_slots_ok row Hr' (S n) j s Hin). apply F2; [lia|lia|]. specialize (Hd1 j s Hin). unfold disj in *. destruct s; cbn [fst snd] in *. lia.
        -- f_equal. assert (In v V) by (eapply Hv; [right; exact Hin|exact Ej]). apply F3; [|apply fcell_V; auto].
           intros E. apply (proj2 He v FVal); auto.
    + intros lo len H1 H2 H3. rewrite B3; [apply F2; auto|auto|auto|].
      * apply (H3 n (slot size)). left. reflexivity.
      * intros j s Hin. apply (H3 j s). right. exact Hin.
    + intros a Ha Hfc. rewrite B4, F3 by auto. reflexivity.
Qed.

(* all dwords *)
Fixpoint table_slots (n : nat) (d : Z) (table : list (list (option Z))) : list (nat * Z * (Z * Z)) :=
  match table with
  | [] => []
  | row :: r => map (fun p => (fst p, d, snd p)) (row_slots n row) ++ table_slots (n + length row) (d + 1) r
  end.
Fixpoint oktable (n : nat) (table : list (list (option Z))) : Prop :=
  match table with [] => True | row :: r => okrow row /\ pdisj (row_slots n row) /\ oktable (n + length row) r end.

Lemma table_exec e table : forall n d m, oktable n table -> invm m ->
  (forall i, 0 <= i < Z.of_nat (length table) -> patchable w (e + d + i)) ->
  (forall i i', 0 <= i < Z.of_nat (length table) -> 0 <= i' < Z.of_nat (length table) -> i <> i' -> idx (e + d + i) <> idx (e + d + i')) ->
  (forall j d' s v, In (j, d', s) (table_slots n d table) -> fieldat j = Fv v -> In v V) ->
  Forall (okop w lof lsf bf param V) (table_ops lof lsf bf (e + d) fields n table) /\
  let m' := fold_left ex (table_ops lof lsf bf (e + d) fields n table) m in
  invm m' /\
  (forall j d' s, In (j, d', s) (table_slots n d table) -> fld (get m' (e + d')) (fst s) (snd s) = newval m (e + d') j s) /\
  (forall d' lo len, d <= d' < d + Z.of_nat (length table) -> 0 <= lo -> 0 <= len -> (forall j s, In (j, d', s) (table_slots n d table) -> disj (lo, len) s) ->
     fld (get m' (e + d')) lo len = fld (get m (e + d')) lo len) /\
  (forall a, (forall i, 0 <= i < Z.of_nat (length table) -> idx a <> idx (e + d + i)) -> ~ fcell a -> get m' a = get m a).
Proof.
  induction table as [|row table IH]; intros n d m Ht I Hp Hs Hv; cbn [table_ops].
  - split; [constructor|]. split; [exact I|]. split; [intros ? ? ? []|]. split; [|auto]. auto.
  - destruct Ht as (Hr & Hd & Ht). cbn [length] in Hp, Hs.
    assert (He : patchable w (e + d)) by (replace (e + d) with (e + d + 0) by lia; apply Hp; lia).
    cbn [table_slots] in Hv.
    destruct (row_exec (e + d) He row n m Hr Hd I) as (A0 & I1 & A1 & A2 & A3).
    { intros j s v Hin Hf. apply (Hv j d s v); [|exact Hf]. apply in_or_app. left. apply in_map_iff. exists (j, s). auto. }
    set (m1 := fold_left ex _ m) in *.
    destruct (IH (n + length row)%nat (d + 1) m1 Ht I1) as (B0 & I2 & B1 & B2 & B3).
    { intros i Hi. replace (e + (d + 1) + i) with (e + d + (i + 1)) by lia. apply Hp. lia. }
    { intros i i' Hi Hi' Hn. replace (e + (d + 1) + i) with (e + d + (i + 1)) by lia. replace (e + (d + 1) + i') with (e + d + (i' + 1)) by lia. apply Hs; lia. }
    { intros j d' s v Hin Hf. apply (Hv j d' s v); [|exact Hf]. apply in_or_app. right. exact Hin. }
    replace (e + d + 1) with (e + (d + 1)) by lia.
    split; [apply Forall_app; split; auto|]. cbv zeta. rewrite fold_left_app. fold m1.
    set (m' := fold_left ex (table_ops lof lsf bf (e + (d + 1)) fields (n + length row) table) m1) in *.
    assert (Keep : get m' (e + d) = get m1 (e + d)).
    { apply B3; [|apply fcell_patch, He]. intros i Hi. replace (e + d) with (e + d + 0) by lia. replace (e + (d + 1) + i) with (e + d + (i + 1)) by lia. apply Hs; lia. }
    assert (Slots : forall j d' s n0 d0 t, In (j, d', s) (table_slots n0 d0 t) -> d0 <= d' < d0 + Z.of_nat (length t)).
    { clear. intros j d' s n0 d0 t. revert n0 d0. induction t as [|r t IHt]; intros n0 d0 Hin; cbn [table_slots length] in *; [destruct Hin|].
      apply in_app_or in Hin. destruct Hin as [Hin|Hin]; [|apply IHt in Hin; lia].
      apply in_map_iff in Hin. destruct Hin as (p & E & _). injection E as _ <- _. lia. }
    assert (Prev : forall d', d + 1 <= d' < d + 1 + Z.of_nat (length table) -> get m1 (e + d') = get m (e + d')).
    { intros d' Hd'. apply A3.
      - replace (e + d) with (e + d + 0) by lia. replace (e + d') with (e + d + (d' - d)) by lia. apply Hs; lia.
      - apply fcell_patch. replace (e + d') with (e + d + (d' - d)) by lia. apply Hp. lia. }
    split; [exact I2|]. split; [|split].
    + intros j d' s Hin. cbn [table_slots] in Hin. apply in_app_or in Hin. destruct Hin as [Hin|Hin].
      * apply in_map_iff in Hin. destruct Hin as ([j0 s0] & E & Hin). cbn [fst snd] in E. injection E as <- <- <-.
        rewrite Keep. apply A1, Hin.
      * rewrite (B1 j d' s Hin). unfold newval. destruct (fieldat j) as [z|v] eqn:Ej.
        -- rewrite Prev; [reflexivity|]. eapply Slots; eauto.
        -- f_equal. assert (In v V) by (eapply Hv; [apply in_or_app; right; exact Hin|exact Ej]). apply A3; [|apply fcell_V; auto].
           intros E. apply (proj2 He v FVal); auto.
    + intros d' lo len Hd' H1 H2 H3. cbn [table_slots] in H3. destruct (Z.eq_dec d' d) as [->|N].
      * rewrite Keep. apply A2; auto. intros j s Hin. apply (H3 j s). apply in_or_app. left. apply in_map_iff. exists (j, s). auto.
      * rewrite B2; auto; [|cbn [length] in Hd'; lia|].
        -- rewrite Prev; [reflexivity|]. cbn [length] in Hd'. lia.
        -- intros j s Hin. apply (H3 j s). apply in_or_app. right. exact Hin.
    + intros a Ha Hfc. rewrite B3; [apply A3; auto| |auto].
      * replace (e + d) with (e + d + 0) by lia. apply Ha. cbn [length]. lia.
      * intros i Hi. replace (e + (d + 1) + i) with (e + d + (i + 1)) by lia. apply Ha. cbn [length]. lia.
Qed.
End P.
