(* Final theorems: setting, moving and dilating locations (C65). *)
From Coq Require Import ZArith Lia Bool List ZifyBool ZifyNat Permutation.
From Verif Require Import Lib Word Machine MachineProofs VarModel VarSpec VarProofs OpsModel OpsSpec OpsBase CurplModel LocModel SymExec NonSeqProofs PropFunc VbufModel VbufWorld ExWorld ExTools SeqRefute.
Import ListNotations.
Open Scope Z_scope.

(* ---------- specification ---------- *)
(* Locations are numbered from 1; location loc has its five dwords at byte address
   0x58DC60 + 20 * (loc - 1): left, top, right, bottom, and name and flags.
   loc_cell loc i is the cell (dword index) of the i-th. *)
Definition loc_cell (loc i : Z) : Z := (0x58DC60 + 20 * (loc - 1) + 4 * i - 0x58A364) / 4.
Definition box (m : mem) (loc : Z) : list Z := map (fun i => get m (loc_cell loc i)) [0; 1; 2; 3].
(* a variable as Python creates it: full mask, modifier SetTo *)
Definition pristine (m : mem) (v : Z) : Prop := get m (vc v FMask) = 0xFFFFFFFF /\ get m (vc v FMod) = w6 SetTo.

Lemma loc_cell_eq loc i : loc_cell loc i = loct + 5 * loc + i.
Proof.
  unfold loc_cell, loct. replace (0x58DC60 + 20 * (loc - 1) + 4 * i - 0x58A364) with ((3642 + 5 * loc + i) * 4) by lia.
  rewrite Z.div_mul by lia. reflexivity.
Qed.

(* ---------- the function bodies ---------- *)
Lemma neg_trick X : 0 <= X < 2^32 -> u32 (Z.max 0 (u32 (-1) - X) + u32 1) = u32 (- X).
Proof.
  intros H. change (u32 (-1)) with (2^32 - 1). change (u32 1) with 1. rewrite Z.max_r by lia.
  replace (2^32 - 1 - X + 1) with (- X + 1 * 2^32) by lia. unfold u32. apply Z.mod_add. lia.
Qed.

Definition patch_cells (T : nat -> Z) (k : nat) : list Z :=
  [lplayer T k 0; lvalue T k 0; lplayer T k 1; lvalue T k 1; lplayer T k 2; lvalue T k 2; lplayer T k 3; lvalue T k 3].
Definition box_cells (loc : Z) : list Z := [loc_cell loc 0; loc_cell loc 1; loc_cell loc 2; loc_cell loc 3].

Lemma u32_add2 a b : u32 (u32 a + u32 b) = u32 (a + b).
Proof. rewrite u32_add_l, u32_add_r. reflexivity. Qed.
Lemma Runs_use w cells pc st pc' st' m : Runs w cells pc st pc' st' -> holds cells m st ->
  exists m', runs w (pc, m) (pc', m') /\ holds cells m' st' /\ others cells m m'.
Proof. intros R H. exact (R m H). Qed.
Ltac len := cbn; lia.
Ltac samecell := try reflexivity; cbn; unfold lplayer, lvalue; lia.
Ltac rd1 := cbn [setn nth do_mod Nat.add]; rewrite ?u32_add2, ?neg_trick by assumption.
Ltac dest c := cbn [nth Nat.add]; apply f_equal; unfold c; cbn [app vcells patch_cells box_cells nth]; rewrite ?loc_cell_eq; unfold lplayer, lvalue; lia.

Section Loc2.
Variable w : world.
Variable T : nat -> Z.
Variable k : nat.
Variable epd x y loc : Z.
Definition cells2 : list Z := vcells epd ++ vcells x ++ vcells y ++ patch_cells T k ++ box_cells loc.
Hypothesis Hwr : forall a, In a cells2 -> writable w a.
Hypothesis Hnd : NoDup (map idx cells2).
Hypothesis Pe : W_P w (pa epd) = Some (vtrig epd).
Hypothesis Px : W_P w (pa x) = Some (vtrig x).
Hypothesis Py : W_P w (pa y) = Some (vtrig y).

Definition arg (signed : bool) (X : Z) : Z := if signed then u32 (- X) else X.

Ltac aM i := eapply (aM w cells2 Hwr Hnd i); [len|samecell|rd1].

Ltac hop b v Pv t md := eapply Runs_trans; [eapply (rHop w cells2 Hwr Hnd b v t md); [exact Pv|len|len|reflexivity|reflexivity|reflexivity|dest cells2|lia|first [apply u32_pa|apply u32_lbl]]|rd1].
Ltac aD i := eapply (aD w cells2 Hwr Hnd (15 + 2 * i) (16 + 2 * i) (23 + i)); [len|len|len|samecell|samecell|dest cells2|rd1].
Ltac aMd i := eapply (aMod w cells2 Hwr Hnd i); [len|reflexivity|reflexivity|rd1].

Lemma locf2_run md signed m :
  placed w T k (locf2 T k epd x y md signed) ->
  pristine m epd -> pristine m x -> pristine m y ->
  get m (vc epd FVal) = u32 (5 * loc) ->
  let X := get m (vc x FVal) in let Y := get m (vc y FVal) in
  exists m', runs w (lbl T k, m) (lbl T (k + 5), m') /\
    box m' loc = [do_mod md (get m (loc_cell loc 0)) (arg signed X); do_mod md (get m (loc_cell loc 1)) (arg signed Y);
                  do_mod md (get m (loc_cell loc 2)) X; do_mod md (get m (loc_cell loc 3)) Y] /\
    (pristine m' epd /\ pristine m' x /\ pristine m' y) /\
    others cells2 m m'.
Proof.
  intros Hp [Ke Me] [Kx Mx] [Ky My] He X Y.
  assert (RX : 0 <= X < 2^32) by apply get_range. assert (RY : 0 <= Y < 2^32) by apply get_range.
  assert (H0 : holds cells2 m
    ([get m (vc epd FNext); 0xFFFFFFFF; get m (vc epd FDest); u32 (5 * loc); w6 SetTo;
      get m (vc x FNext); 0xFFFFFFFF; get m (vc x FDest); X; w6 SetTo;
      get m (vc y FNext); 0xFFFFFFFF; get m (vc y FDest); Y; w6 SetTo] ++ map (get m) (patch_cells T k) ++ box m loc)).
  { unfold holds, cells2. cbn [map app vcells]. rewrite Ke, Me, Kx, Mx, Ky, My, He. reflexivity. }
  unfold box in H0. cbn [map app patch_cells] in H0.
  assert (P0 : W_P w (lbl T k) = Some (RawTrig [] ([AddNumber (vc epd FVal) loct; SetDest epd (lact T k + 4)] ++ load_first signed x (lact T k + 5) ++ [SetNextPtr epd (pa x); SetNextPtr x (lbl T (k + 1))]) (pa epd))).
  { rewrite <- (Nat.add_0_r k) at 1. apply Hp. destruct signed; reflexivity. }
  assert (P1 : W_P w (lbl T (k + 1)) = Some (RawTrig []
    (opt_act signed (SetM (lact T k + 5) Add 1) ++
     [AddNumber (vc epd FVal) 2; AddDest epd 16; AddDest x 16; SetNextPtr x (lbl T (k + 2))] ++
     opt_act signed (SetM (vc x FMod) Subtract 0x02000000)) (pa epd))).
  { apply Hp. destruct signed; reflexivity. }
  assert (P2 : W_P w (lbl T (k + 2)) = Some (RawTrig [] ([AddNumber (vc epd FVal) (-1); AddDest epd (-8)] ++ load_first signed y (lact T k + 8 + 5) ++ [SetNextPtr epd (pa y); SetNextPtr y (lbl T (k + 3))]) (pa epd))).
  { apply Hp. replace (k + 3)%nat with (k + 2 + 1)%nat by lia. destruct signed; reflexivity. }
  assert (P3 : W_P w (lbl T (k + 3)) = Some (RawTrig []
    (opt_act signed (SetM (lact T k + 13) Add 1) ++
     [AddNumber (vc epd FVal) 2; AddDest epd 16; AddDest y 16; SetNextPtr y (lbl T (k + 4))] ++
     opt_act signed (SetM (vc y FMod) Subtract 0x02000000)) (pa epd))).
  { apply Hp. destruct signed; reflexivity. }
  assert (P4 : W_P w (lbl T (k + 4)) = Some (RawTrig [] (loc_set T k md) (lbl T (k + 5)))).
  { apply Hp. destruct signed; reflexivity. }
  assert (St : exists st', (exists m', runs w (lbl T k, m) (lbl T (k + 5), m') /\ holds cells2 m' st' /\ others cells2 m m') /\
    skipn 23 st' = [do_mod md (get m (loc_cell loc 0)) (arg signed X); do_mod md (get m (loc_cell loc 1)) (arg signed Y);
                  do_mod md (get m (loc_cell loc 2)) X; do_mod md (get m (loc_cell loc 3)) Y] /\
    map (fun i => nth i st' 0) [1; 4; 6; 9; 11; 14]%nat = [0xFFFFFFFF; w6 SetTo; 0xFFFFFFFF; w6 SetTo; 0xFFFFFFFF; w6 SetTo]).
  { unfold AddNumber, SetDest, SetNextPtr, AddDest in P0, P1, P2, P3. unfold loc_set in P4. cbn [map seq] in P4.
    destruct signed; cbn [load_first opt_act app QueueSubtractTo] in P0, P1, P2, P3; unfold SetDest in P0, P2.
    - eexists. split; [|split].
      + eapply Runs_use; [|exact H0].
        eapply Runs_trans.
        { eapply Runs_raw; [exact P0|apply u32_pa|].
          aM 3%nat. aM 2%nat. aM 16%nat. aM 7%nat. aMd 9%nat. aM 0%nat. aM 5%nat. apply Acts_nil. }
        hop 0%nat epd Pe 15%nat SetTo. hop 5%nat x Px 16%nat Subtract.
        eapply Runs_trans.
        { eapply Runs_raw; [exact P1|apply u32_pa|].
          aM 16%nat. aM 3%nat. aM 2%nat. aM 7%nat. aM 5%nat. aM 9%nat. apply Acts_nil. }
        hop 0%nat epd Pe 19%nat SetTo. hop 5%nat x Px 20%nat SetTo.
        eapply Runs_trans.
        { eapply Runs_raw; [exact P2|apply u32_pa|].
          aM 3%nat. aM 2%nat. aM 18%nat. aM 12%nat. aMd 14%nat. aM 0%nat. aM 10%nat. apply Acts_nil. }
        hop 0%nat epd Pe 17%nat SetTo. hop 10%nat y Py 18%nat Subtract.
        eapply Runs_trans.
        { eapply Runs_raw; [exact P3|apply u32_pa|].
          aM 18%nat. aM 3%nat. aM 2%nat. aM 12%nat. aM 10%nat. aM 14%nat. apply Acts_nil. }
        hop 0%nat epd Pe 21%nat SetTo. hop 10%nat y Py 22%nat SetTo.
        eapply Runs_raw; [exact P4|apply u32_lbl|].
        aD 0%nat. aD 1%nat. aD 2%nat. aD 3%nat. apply Acts_nil.
      + reflexivity.
      + reflexivity.
    - eexists. split; [|split].
      + eapply Runs_use; [|exact H0].
        eapply Runs_trans.
        { eapply Runs_raw; [exact P0|apply u32_pa|].
          aM 3%nat. aM 2%nat. aM 7%nat. aM 0%nat. aM 5%nat. apply Acts_nil. }
        hop 0%nat epd Pe 15%nat SetTo. hop 5%nat x Px 16%nat SetTo.
        eapply Runs_trans.
        { eapply Runs_raw; [exact P1|apply u32_pa|].
          aM 3%nat. aM 2%nat. aM 7%nat. aM 5%nat. apply Acts_nil. }
        hop 0%nat epd Pe 19%nat SetTo. hop 5%nat x Px 20%nat SetTo.
        eapply Runs_trans.
        { eapply Runs_raw; [exact P2|apply u32_pa|].
          aM 3%nat. aM 2%nat. aM 12%nat. aM 0%nat. aM 10%nat. apply Acts_nil. }
        hop 0%nat epd Pe 17%nat SetTo. hop 10%nat y Py 18%nat SetTo.
        eapply Runs_trans.
        { eapply Runs_raw; [exact P3|apply u32_pa|].
          aM 3%nat. aM 2%nat. aM 12%nat. aM 10%nat. apply Acts_nil. }
        hop 0%nat epd Pe 21%nat SetTo. hop 10%nat y Py 22%nat SetTo.
        eapply Runs_raw; [exact P4|apply u32_lbl|].
        aD 0%nat. aD 1%nat. aD 2%nat. aD 3%nat. apply Acts_nil.
      + reflexivity.
      + reflexivity. }
  destruct St as (st' & (m' & R & H1 & O) & E1 & E2). exists m'. split; [exact R|].
  unfold holds in H1.
  split; [|split; [|exact O]].
  - rewrite <- E1, <- H1. reflexivity.
  - rewrite <- H1 in E2. cbn in E2. injection E2 as A1 A2 A3 A4 A5 A6. unfold pristine. auto 10.
Qed.
End Loc2.

Section Loc4.
Variable w : world.
Variable T : nat -> Z.
Variable k : nat.
Variable epd l t r b loc : Z.
Definition cells4 : list Z := vcells epd ++ vcells l ++ vcells t ++ vcells r ++ vcells b ++ patch_cells T k ++ box_cells loc.
Hypothesis Hwr : forall a, In a cells4 -> writable w a.
Hypothesis Hnd : NoDup (map idx cells4).
Hypothesis Pe : W_P w (pa epd) = Some (vtrig epd).
Hypothesis Pl : W_P w (pa l) = Some (vtrig l).
Hypothesis Pt : W_P w (pa t) = Some (vtrig t).
Hypothesis Pr : W_P w (pa r) = Some (vtrig r).
Hypothesis Pb : W_P w (pa b) = Some (vtrig b).

Ltac aM i := eapply (aM w cells4 Hwr Hnd i); [len|samecell|rd1].
Ltac hop b v Pv t md := eapply Runs_trans; [eapply (rHop w cells4 Hwr Hnd b v t md); [exact Pv|len|len|reflexivity|reflexivity|reflexivity|dest cells4|lia|first [apply u32_pa|apply u32_lbl]]|rd1].
Ltac aD i := eapply (aD w cells4 Hwr Hnd (25 + 2 * i) (26 + 2 * i) (33 + i)); [len|len|len|samecell|samecell|dest cells4|rd1].
Ltac aMd i := eapply (aMod w cells4 Hwr Hnd i); [len|reflexivity|reflexivity|rd1].

(* the modifiers of l and t do not matter when signed: they are set first *)
Lemma locf4_run md signed m (ml mt : modifier) :
  placed w T k (locf4 T k epd l t r b md signed) ->
  pristine m epd -> pristine m r -> pristine m b ->
  get m (vc l FMask) = 0xFFFFFFFF -> get m (vc t FMask) = 0xFFFFFFFF ->
  get m (vc l FMod) = w6 ml -> get m (vc t FMod) = w6 mt -> (signed = false -> ml = SetTo /\ mt = SetTo) ->
  get m (vc epd FVal) = u32 (5 * loc) ->
  let L := get m (vc l FVal) in let Y := get m (vc t FVal) in let R := get m (vc r FVal) in let B := get m (vc b FVal) in
  exists m', runs w (lbl T k, m) (lbl T (k + 5), m') /\
    box m' loc = [do_mod md (get m (loc_cell loc 0)) (arg signed L); do_mod md (get m (loc_cell loc 1)) (arg signed Y);
                  do_mod md (get m (loc_cell loc 2)) R; do_mod md (get m (loc_cell loc 3)) B] /\
    (pristine m' epd /\ pristine m' r /\ pristine m' b /\
     get m' (vc l FMask) = 0xFFFFFFFF /\ get m' (vc t FMask) = 0xFFFFFFFF /\
     get m' (vc l FMod) = w6 (if signed then Subtract else SetTo) /\ get m' (vc t FMod) = w6 (if signed then Subtract else SetTo)) /\
    others cells4 m m'.
Proof.
  intros Hp [Ke Me] [Kr Mr] [Kb Mb] Kl Kt Ml Mt Hs He L Y R B.
  assert (RL : 0 <= L < 2^32) by apply get_range. assert (RY : 0 <= Y < 2^32) by apply get_range.
  assert (H0 : holds cells4 m
    ([get m (vc epd FNext); 0xFFFFFFFF; get m (vc epd FDest); u32 (5 * loc); w6 SetTo;
      get m (vc l FNext); 0xFFFFFFFF; get m (vc l FDest); L; w6 ml;
      get m (vc t FNext); 0xFFFFFFFF; get m (vc t FDest); Y; w6 mt;
      get m (vc r FNext); 0xFFFFFFFF; get m (vc r FDest); R; w6 SetTo;
      get m (vc b FNext); 0xFFFFFFFF; get m (vc b FDest); B; w6 SetTo] ++ map (get m) (patch_cells T k) ++ box m loc)).
  { unfold holds, cells4. cbn [map app vcells]. rewrite Ke, Me, Kl, Ml, Kt, Mt, Kr, Mr, Kb, Mb, He. reflexivity. }
  unfold box in H0. cbn [map app patch_cells] in H0.
  assert (Wml : w6 ml mod 2^24 = 45 * 2^16) by (destruct ml; reflexivity).
  assert (Wmt : w6 mt mod 2^24 = 45 * 2^16) by (destruct mt; reflexivity).
  assert (P0 : W_P w (lbl T k) = Some (RawTrig [] ([AddNumber (vc epd FVal) loct; SetDest epd (lact T k + 4)] ++ load_first signed l (lact T k + 5) ++ [SetNextPtr epd (pa l); SetNextPtr l (lbl T (k + 1))]) (pa epd))).
  { rewrite <- (Nat.add_0_r k) at 1. apply Hp. destruct signed; reflexivity. }
  assert (P1 : W_P w (lbl T (k + 1)) = Some (RawTrig []
    (opt_act signed (SetM (lact T k + 5) Add 1) ++ [AddNumber (vc epd FVal) 1; AddDest epd 8] ++
     load_first signed t (lact T k + 8 + 5) ++ [SetNextPtr epd (pa t); SetNextPtr t (lbl T (k + 2))]) (pa epd))).
  { apply Hp. replace (k + 2)%nat with (k + 1 + 1)%nat by lia. destruct signed; reflexivity. }
  assert (P2 : W_P w (lbl T (k + 2)) = Some (RawTrig []
    (opt_act signed (SetM (lact T k + 13) Add 1) ++ [AddNumber (vc epd FVal) 1; AddDest epd 8] ++
     [SetDest r (lact T k + 16 + 5)] ++ [SetNextPtr epd (pa r); SetNextPtr r (lbl T (k + 3))]) (pa epd))).
  { apply Hp. replace (k + 3)%nat with (k + 2 + 1)%nat by lia. destruct signed; reflexivity. }
  assert (P3 : W_P w (lbl T (k + 3)) = Some (RawTrig []
    ([AddNumber (vc epd FVal) 1; AddDest epd 8] ++
     [SetDest b (lact T k + 24 + 5)] ++ [SetNextPtr epd (pa b); SetNextPtr b (lbl T (k + 4))]) (pa epd))).
  { apply Hp. replace (k + 4)%nat with (k + 3 + 1)%nat by lia. destruct signed; reflexivity. }
  assert (P4 : W_P w (lbl T (k + 4)) = Some (RawTrig [] (loc_set T k md) (lbl T (k + 5)))).
  { apply Hp. destruct signed; reflexivity. }
  assert (St : exists st', (exists m', runs w (lbl T k, m) (lbl T (k + 5), m') /\ holds cells4 m' st' /\ others cells4 m m') /\
    skipn 33 st' = [do_mod md (get m (loc_cell loc 0)) (arg signed L); do_mod md (get m (loc_cell loc 1)) (arg signed Y);
                  do_mod md (get m (loc_cell loc 2)) R; do_mod md (get m (loc_cell loc 3)) B] /\
    map (fun i => nth i st' 0) [1; 4; 6; 9; 11; 14; 16; 19; 21; 24]%nat =
      [0xFFFFFFFF; w6 SetTo; 0xFFFFFFFF; w6 (if signed then Subtract else SetTo); 0xFFFFFFFF; w6 (if signed then Subtract else SetTo); 0xFFFFFFFF; w6 SetTo; 0xFFFFFFFF; w6 SetTo]).
  { unfold AddNumber, SetDest, SetNextPtr, AddDest in P0, P1, P2, P3. unfold loc_set in P4. cbn [map seq] in P4.
    destruct signed; cbn [load_first opt_act app QueueSubtractTo] in P0, P1, P2, P3; unfold SetDest in P0, P1.
    - eexists. split; [|split].
      + eapply Runs_use; [|exact H0].
        eapply Runs_trans.
        { eapply Runs_raw; [exact P0|apply u32_pa|].
          aM 3%nat. aM 2%nat. aM 26%nat. aM 7%nat.
          eapply (aMod w cells4 Hwr Hnd 9); [len|reflexivity|exact Wml|rd1]. aM 0%nat. aM 5%nat. apply Acts_nil. }
        hop 0%nat epd Pe 25%nat SetTo. hop 5%nat l Pl 26%nat Subtract.
        eapply Runs_trans.
        { eapply Runs_raw; [exact P1|apply u32_pa|].
          aM 26%nat. aM 3%nat. aM 2%nat. aM 28%nat. aM 12%nat.
          eapply (aMod w cells4 Hwr Hnd 14); [len|reflexivity|exact Wmt|rd1]. aM 0%nat. aM 10%nat. apply Acts_nil. }
        hop 0%nat epd Pe 27%nat SetTo. hop 10%nat t Pt 28%nat Subtract.
        eapply Runs_trans.
        { eapply Runs_raw; [exact P2|apply u32_pa|].
          aM 28%nat. aM 3%nat. aM 2%nat. aM 17%nat. aM 0%nat. aM 15%nat. apply Acts_nil. }
        hop 0%nat epd Pe 29%nat SetTo. hop 15%nat r Pr 30%nat SetTo.
        eapply Runs_trans.
        { eapply Runs_raw; [exact P3|apply u32_pa|].
          aM 3%nat. aM 2%nat. aM 22%nat. aM 0%nat. aM 20%nat. apply Acts_nil. }
        hop 0%nat epd Pe 31%nat SetTo. hop 20%nat b Pb 32%nat SetTo.
        eapply Runs_raw; [exact P4|apply u32_lbl|].
        aD 0%nat. aD 1%nat. aD 2%nat. aD 3%nat. apply Acts_nil.
      + reflexivity.
      + reflexivity.
    - destruct (Hs eq_refl) as [-> ->]. eexists. split; [|split].
      + eapply Runs_use; [|exact H0].
        eapply Runs_trans.
        { eapply Runs_raw; [exact P0|apply u32_pa|].
          aM 3%nat. aM 2%nat. aM 7%nat. aM 0%nat. aM 5%nat. apply Acts_nil. }
        hop 0%nat epd Pe 25%nat SetTo. hop 5%nat l Pl 26%nat SetTo.
        eapply Runs_trans.
        { eapply Runs_raw; [exact P1|apply u32_pa|].
          aM 3%nat. aM 2%nat. aM 12%nat. aM 0%nat. aM 10%nat. apply Acts_nil. }
        hop 0%nat epd Pe 27%nat SetTo. hop 10%nat t Pt 28%nat SetTo.
        eapply Runs_trans.
        { eapply Runs_raw; [exact P2|apply u32_pa|].
          aM 3%nat. aM 2%nat. aM 17%nat. aM 0%nat. aM 15%nat. apply Acts_nil. }
        hop 0%nat epd Pe 29%nat SetTo. hop 15%nat r Pr 30%nat SetTo.
        eapply Runs_trans.
        { eapply Runs_raw; [exact P3|apply u32_pa|].
          aM 3%nat. aM 2%nat. aM 22%nat. aM 0%nat. aM 20%nat. apply Acts_nil. }
        hop 0%nat epd Pe 31%nat SetTo. hop 20%nat b Pb 32%nat SetTo.
        eapply Runs_raw; [exact P4|apply u32_lbl|].
        aD 0%nat. aD 1%nat. aD 2%nat. aD 3%nat. apply Acts_nil.
      + reflexivity.
      + reflexivity. }
  destruct St as (st' & (m' & Rn & H1 & O) & E1 & E2). exists m'. split; [exact Rn|].
  unfold holds in H1.
  split; [|split; [|exact O]].
  - rewrite <- E1, <- H1. reflexivity.
  - rewrite <- H1 in E2. cbn [map nth cells4 app vcells] in E2. injection E2 as A1 A2 A3 A4 A5 A6 A7 A8 A9 A10. unfold pristine. auto 20.
Qed.
End Loc4.

(* ---------- theorems ---------- *)
(* What is needed to run the code at k: it is in place, so are its parameters, and
   the cells it writes (transfer fields of the parameters, player and value of its
   last four actions, the location) are different cells and may be written. *)
Definition ready_at (w : world) (T : nat -> Z) (k : nat) (code : list trig) (params : list Z) (loc : Z) : Prop :=
  let cells := flat_map vcells params ++ patch_cells T k ++ box_cells loc in
  placed w T k code /\ (forall v, In v params -> W_P w (pa v) = Some (vtrig v)) /\
  (forall a, In a cells -> writable w a) /\ NoDup (map idx cells).
(* cells outside the code's own and the location are as before *)
Definition only (T : nat -> Z) (k : nat) (params : list Z) (loc : Z) (m m' : mem) : Prop :=
  forall c, ~ In (idx c) (map idx (flat_map vcells params ++ patch_cells T k ++ box_cells loc)) -> get m' c = get m c.

Theorem C65_setloc : forall w T k epd x y loc m,
  ready_at w T k (SetLoc2 T k epd x y) [epd; x; y] loc ->
  (forall v, In v [epd; x; y] -> pristine m v) -> get m (vc epd FVal) = u32 (5 * loc) ->
  let X := get m (vc x FVal) in let Y := get m (vc y FVal) in
  exists m', runs w (lbl T k, m) (lbl T (k + 5), m') /\ box m' loc = [X; Y; X; Y] /\
    (forall v, In v [epd; x; y] -> pristine m' v) /\ only T k [epd; x; y] loc m m'.
Proof.
  intros w T k epd x y loc m (A & B & C & D) P He X Y.
  destruct (locf2_run w T k epd x y loc C D (B epd ltac:(cbn; auto)) (B x ltac:(cbn; auto)) (B y ltac:(cbn; auto)) SetTo false m A) as (m' & R & E & (Q1 & Q2 & Q3) & O); try (apply P; cbn; auto); auto.
  exists m'. split; [exact R|]. split; [exact E|]. split; [|exact O]. intros v [<-|[<-|[<-|[]]]]; assumption.
Qed.
Print Assumptions C65_setloc.

Theorem C65_addloc : forall w T k epd x y loc m,
  ready_at w T k (AddLoc2 T k epd x y) [epd; x; y] loc ->
  (forall v, In v [epd; x; y] -> pristine m v) -> get m (vc epd FVal) = u32 (5 * loc) ->
  let X := get m (vc x FVal) in let Y := get m (vc y FVal) in
  exists m', runs w (lbl T k, m) (lbl T (k + 5), m') /\
    box m' loc = [u32 (get m (loc_cell loc 0) + X); u32 (get m (loc_cell loc 1) + Y); u32 (get m (loc_cell loc 2) + X); u32 (get m (loc_cell loc 3) + Y)] /\
    (forall v, In v [epd; x; y] -> pristine m' v) /\ only T k [epd; x; y] loc m m'.
Proof.
  intros w T k epd x y loc m (A & B & C & D) P He X Y.
  destruct (locf2_run w T k epd x y loc C D (B epd ltac:(cbn; auto)) (B x ltac:(cbn; auto)) (B y ltac:(cbn; auto)) Add false m A) as (m' & R & E & (Q1 & Q2 & Q3) & O); try (apply P; cbn; auto); auto.
  exists m'. split; [exact R|]. split; [exact E|]. split; [|exact O]. intros v [<-|[<-|[<-|[]]]]; assumption.
Qed.
Print Assumptions C65_addloc.

Theorem C65_dilateloc : forall w T k epd x y loc m,
  ready_at w T k (DilateLoc2 T k epd x y) [epd; x; y] loc ->
  (forall v, In v [epd; x; y] -> pristine m v) -> get m (vc epd FVal) = u32 (5 * loc) ->
  let X := get m (vc x FVal) in let Y := get m (vc y FVal) in
  exists m', runs w (lbl T k, m) (lbl T (k + 5), m') /\
    box m' loc = [u32 (get m (loc_cell loc 0) - X); u32 (get m (loc_cell loc 1) - Y); u32 (get m (loc_cell loc 2) + X); u32 (get m (loc_cell loc 3) + Y)] /\
    (forall v, In v [epd; x; y] -> pristine m' v) /\ only T k [epd; x; y] loc m m'.
Proof.
  intros w T k epd x y loc m (A & B & C & D) P He X Y.
  destruct (locf2_run w T k epd x y loc C D (B epd ltac:(cbn; auto)) (B x ltac:(cbn; auto)) (B y ltac:(cbn; auto)) Add true m A) as (m' & R & E & (Q1 & Q2 & Q3) & O); try (apply P; cbn; auto); auto.
  exists m'. split; [exact R|]. cbn [arg do_mod] in E. rewrite !u32_add_r in E. split; [exact E|]. split; [|exact O]. intros v [<-|[<-|[<-|[]]]]; assumption.
Qed.
Print Assumptions C65_dilateloc.

(* four coordinates. For DilateLoc4 the modifiers of l and t are Subtract after a
   call; they are set before they are used, so any modifier will do at entry. *)
Definition some_mod (m : mem) (v : Z) : Prop := get m (vc v FMask) = 0xFFFFFFFF /\ exists md, get m (vc v FMod) = w6 md.

Theorem C65_setloc4 : forall w T k epd l t r b loc m,
  ready_at w T k (SetLoc4 T k epd l t r b) [epd; l; t; r; b] loc ->
  (forall v, In v [epd; l; t; r; b] -> pristine m v) -> get m (vc epd FVal) = u32 (5 * loc) ->
  exists m', runs w (lbl T k, m) (lbl T (k + 5), m') /\
    box m' loc = [get m (vc l FVal); get m (vc t FVal); get m (vc r FVal); get m (vc b FVal)] /\
    (forall v, In v [epd; l; t; r; b] -> pristine m' v) /\ only T k [epd; l; t; r; b] loc m m'.
Proof.
  intros w T k epd l t r b loc m (A & B & C & D) P He.
  destruct (P l ltac:(cbn; auto)) as [Kl Ml]. destruct (P t ltac:(cbn; auto)) as [Kt Mt].
  destruct (locf4_run w T k epd l t r b loc C D (B epd ltac:(cbn; auto)) (B l ltac:(cbn; auto)) (B t ltac:(cbn; auto)) (B r ltac:(cbn; auto)) (B b ltac:(cbn; auto 10)) SetTo false m SetTo SetTo A) as (m' & R & E & (Q1 & Q2 & Q3 & Q4 & Q5 & Q6 & Q7) & O);
    try (apply P; cbn; auto 10); auto.
  exists m'. split; [exact R|]. split; [exact E|]. split; [|exact O]. intros v [<-|[<-|[<-|[<-|[<-|[]]]]]]; try assumption; split; assumption.
Qed.
Print Assumptions C65_setloc4.
Theorem C65_addloc4 : forall w T k epd l t r b loc m,
  ready_at w T k (AddLoc4 T k epd l t r b) [epd; l; t; r; b] loc ->
  (forall v, In v [epd; l; t; r; b] -> pristine m v) -> get m (vc epd FVal) = u32 (5 * loc) ->
  exists m', runs w (lbl T k, m) (lbl T (k + 5), m') /\
    box m' loc = [u32 (get m (loc_cell loc 0) + get m (vc l FVal)); u32 (get m (loc_cell loc 1) + get m (vc t FVal));
                  u32 (get m (loc_cell loc 2) + get m (vc r FVal)); u32 (get m (loc_cell loc 3) + get m (vc b FVal))] /\
    (forall v, In v [epd; l; t; r; b] -> pristine m' v) /\ only T k [epd; l; t; r; b] loc m m'.
Proof.
  intros w T k epd l t r b loc m (A & B & C & D) P He.
  destruct (P l ltac:(cbn; auto)) as [Kl Ml]. destruct (P t ltac:(cbn; auto)) as [Kt Mt].
  destruct (locf4_run w T k epd l t r b loc C D (B epd ltac:(cbn; auto)) (B l ltac:(cbn; auto)) (B t ltac:(cbn; auto)) (B r ltac:(cbn; auto)) (B b ltac:(cbn; auto 10)) Add false m SetTo SetTo A) as (m' & R & E & (Q1 & Q2 & Q3 & Q4 & Q5 & Q6 & Q7) & O);
    try (apply P; cbn; auto 10); auto.
  exists m'. split; [exact R|]. split; [exact E|]. split; [|exact O]. intros v [<-|[<-|[<-|[<-|[<-|[]]]]]]; try assumption; split; assumption.
Qed.
Print Assumptions C65_addloc4.
Theorem C65_dilateloc4 : forall w T k epd l t r b loc m,
  ready_at w T k (DilateLoc4 T k epd l t r b) [epd; l; t; r; b] loc ->
  (forall v, In v [epd; r; b] -> pristine m v) -> some_mod m l -> some_mod m t -> get m (vc epd FVal) = u32 (5 * loc) ->
  exists m', runs w (lbl T k, m) (lbl T (k + 5), m') /\
    box m' loc = [u32 (get m (loc_cell loc 0) - get m (vc l FVal)); u32 (get m (loc_cell loc 1) - get m (vc t FVal));
                  u32 (get m (loc_cell loc 2) + get m (vc r FVal)); u32 (get m (loc_cell loc 3) + get m (vc b FVal))] /\
    (forall v, In v [epd; r; b] -> pristine m' v) /\ some_mod m' l /\ some_mod m' t /\ only T k [epd; l; t; r; b] loc m m'.
Proof.
  intros w T k epd l t r b loc m (A & B & C & D) P (Kl & ml & Ml) (Kt & mt & Mt) He.
  destruct (locf4_run w T k epd l t r b loc C D (B epd ltac:(cbn; auto)) (B l ltac:(cbn; auto)) (B t ltac:(cbn; auto)) (B r ltac:(cbn; auto)) (B b ltac:(cbn; auto 10)) Add true m ml mt A) as (m' & R & E & (Q1 & Q2 & Q3 & Q4 & Q5 & Q6 & Q7) & O);
    try solve [apply P; cbn; auto 10]; auto; [discriminate|].
  exists m'. split; [exact R|]. cbn [arg do_mod] in E. rewrite !u32_add_r in E. split; [exact E|].
  split; [intros v [<-|[<-|[<-|[]]]]; assumption|]. split; [split; [exact Q4|eexists; exact Q6]|]. split; [split; [exact Q5|eexists; exact Q7]|exact O].
Qed.
Print Assumptions C65_dilateloc4.

(* f_setloc_epd: the location becomes the point (X, Y), the current player is
   restored from its cache, and the function can be entered again *)
Section Epd.
Variable w : world.
Variable T : nat -> Z.
Variable k : nat.
Variable K L loc : Z.
Definition epd_cells : list Z := [CPcell; L; xyval T k; xyval T k + 16; T (k + 1)%nat + 1] ++ vcells K ++ box_cells loc.
Hypothesis Hwr : forall a, In a epd_cells -> writable w a.
Hypothesis Hnd : NoDup (map idx epd_cells).
Hypothesis PK : W_P w (pa K) = Some (vtrig K).
Hypothesis Hp : placed w T k (setloc_epd T k K L).

Ltac aM i := eapply (aM w epd_cells Hwr Hnd i); [len|reflexivity|rd1].
Ltac aCP v t := eapply (aCP w epd_cells Hwr Hnd 0 v t); [len|len|len|reflexivity|reflexivity|dest epd_cells|rd1].

Theorem C65_setloc_epd : forall m,
  get m L = u32 (5 * loc) -> get m (T (k + 1)%nat + 1) = lbl T (k + 2) -> pristine m K ->
  let X := get m (xyval T k) in let Y := get m (xyval T k + 16) in
  exists m', runs w (lbl T k, m) (lbl T (k + 4), m') /\ box m' loc = [X; Y; X; Y] /\
    get m' CPcell = get m (vc K FVal) /\ get m' (T (k + 1)%nat + 1) = lbl T (k + 2) /\ pristine m' K /\
    get m' (vc K FVal) = get m (vc K FVal) /\ others epd_cells m m'.
Proof.
  intros m HL HN [Kk Km] X Y.
  assert (H0 : holds epd_cells m
    ([get m CPcell; u32 (5 * loc); X; Y; lbl T (k + 2);
      get m (vc K FNext); 0xFFFFFFFF; get m (vc K FDest); get m (vc K FVal); w6 SetTo] ++ box m loc)).
  { unfold holds, epd_cells. cbn [map app vcells]. rewrite HL, HN, Kk, Km. reflexivity. }
  unfold box in H0. cbn [map app] in H0.
  assert (P0 : W_P w (lbl T k) = Some (RawTrig [] [SetD (Imm CPcell) SetTo (Mem L); SetM CPcell Add loct] (lbl T (k + 1)))).
  { rewrite <- (Nat.add_0_r k) at 1. apply Hp. reflexivity. }
  assert (P1 := Hp 1%nat _ eq_refl). assert (P2 := Hp 2%nat _ eq_refl).
  assert (P3 : W_P w (lbl T (k + 3)) = Some (RawTrig [] [SetM (T (k + 1)%nat + 1) SetTo (lbl T (k + 2)); SetDest K CPcell; SetNextPtr K (lbl T (k + 4))] (pa K))).
  { apply Hp. replace (k + 4)%nat with (k + 3 + 1)%nat by lia. reflexivity. }
  unfold SetDest, SetNextPtr in P3.
  assert (St : exists st', (exists m', runs w (lbl T k, m) (lbl T (k + 4), m') /\ holds epd_cells m' st' /\ others epd_cells m m') /\
    skipn 10 st' = [X; Y; X; Y] /\
    map (fun i => nth i st' 0) [0; 4; 6; 8; 9]%nat = [get m (vc K FVal); lbl T (k + 2); 0xFFFFFFFF; get m (vc K FVal); w6 SetTo]).
  { eexists. split; [|split].
    - eapply Runs_use; [|exact H0].
      eapply Runs_trans.
      { eapply Runs_raw; [exact P0|apply u32_lbl|].
        eapply (aV w epd_cells Hwr Hnd 0 1); [len|len|reflexivity|reflexivity|rd1]. aM 0%nat. apply Acts_nil. }
      eapply Runs_trans.
      { eapply (Runs_raw_mem w epd_cells _ _ 4); [len|exact P1|]. aCP 2%nat 10%nat. aM 0%nat. aCP 3%nat 11%nat. apply Acts_nil. }
      cbn [nth]. eapply Runs_trans.
      { eapply Runs_raw; [exact P2|apply u32_lbl|]. aM 0%nat. aM 4%nat. rewrite u32_lbl. apply Acts_nil. }
      eapply Runs_trans.
      { eapply (Runs_raw_mem w epd_cells _ _ 4); [len|exact P1|]. aCP 2%nat 12%nat. aM 0%nat. aCP 3%nat 13%nat. apply Acts_nil. }
      cbn [nth]. eapply Runs_trans.
      { eapply Runs_raw; [exact P3|apply u32_pa|]. aM 4%nat. aM 7%nat. aM 5%nat. rewrite !u32_lbl. apply Acts_nil. }
      eapply (rHop w epd_cells Hwr Hnd 5 K 0 SetTo); [exact PK|len|len|reflexivity|reflexivity|reflexivity|dest epd_cells|lia|reflexivity].
    - reflexivity.
    - reflexivity. }
  destruct St as (st' & (m' & R & H1 & O) & E1 & E2). exists m'. split; [exact R|].
  unfold holds in H1. split; [rewrite <- E1, <- H1; reflexivity|].
  rewrite <- H1 in E2. cbn [map nth epd_cells app vcells] in E2. injection E2 as A1 A2 A3 A4 A5. unfold pristine. auto 10.
Qed.
End Epd.
Print Assumptions C65_setloc_epd.

(* ---------- a location number known when compiling ---------- *)
Lemma lc_idx loc i j : 0 <= i < 4 -> 0 <= j < 4 -> idx (loc_cell loc i) = idx (loc_cell loc j) -> i = j.
Proof. rewrite !loc_cell_eq. unfold idx. intros. pose proof (Z.div_mod (loct + 5 * loc + i) (2^30)). pose proof (Z.div_mod (loct + 5 * loc + j) (2^30)). lia. Qed.

(* action = True: the returned actions do what is asked, whatever the coordinates *)
Lemma loc_acts_do prot loc md skip l t r b m :
  (skip = true -> md = Add) ->
  (forall i, 0 <= i < 4 -> plain (loc_cell loc i) /\ prot (idx (loc_cell loc i)) = false) ->
  exists m', acts_do prot m (loc_acts loc md skip [l; t; r; b]) m' /\
    box m' loc = [do_mod md (get m (loc_cell loc 0)) (u32 l); do_mod md (get m (loc_cell loc 1)) (u32 t);
                  do_mod md (get m (loc_cell loc 2)) (u32 r); do_mod md (get m (loc_cell loc 3)) (u32 b)] /\
    forall c, (forall i, 0 <= i < 4 -> idx c <> idx (loc_cell loc i)) -> get m' c = get m c.
Proof.
  intros Hs Hw.
  set (F := fun i z (m : mem) => if skip && (z =? 0) then m else upd m (loc_cell loc i) (do_mod md (get m (loc_cell loc i)) (u32 z))).
  assert (FE : forall i z x, get (F i z x) (loc_cell loc i) = do_mod md (get x (loc_cell loc i)) (u32 z)).
  { intros i z x. unfold F. destruct (skip && (z =? 0)) eqn:Q.
    - apply andb_true_iff in Q as [Q1 Q2]. rewrite (Hs Q1). apply Z.eqb_eq in Q2. subst z. cbn [do_mod]. change (u32 0) with 0. rewrite Z.add_0_r. symmetry. apply u32_get.
    - rewrite get_upd_eq. apply u32_small. apply do_mod_range; [apply get_range|apply u32_range]. }
  assert (FN : forall i z x c, idx c <> idx (loc_cell loc i) -> get (F i z x) c = get x c).
  { intros i z x c Hc. unfold F. destruct (skip && (z =? 0)); [reflexivity|apply get_upd_ne; auto]. }
  assert (FA : forall i z x rest x', 0 <= i < 4 -> acts_do prot (F i z x) rest x' ->
            acts_do prot x ((if negb (skip && (z =? 0)) then [SetM (loc_cell loc i) md z] else []) ++ rest) x').
  { intros i z x rest x' Hi H. unfold F in H. destruct (skip && (z =? 0)); cbn [negb app]; [exact H|].
    destruct (Hw i Hi). apply do_cons_M; auto. }
  assert (EQ : loc_acts loc md skip [l; t; r; b] =
    (if negb (skip && (l =? 0)) then [SetM (loc_cell loc 0) md l] else []) ++
    (if negb (skip && (t =? 0)) then [SetM (loc_cell loc 1) md t] else []) ++
    (if negb (skip && (r =? 0)) then [SetM (loc_cell loc 2) md r] else []) ++
    (if negb (skip && (b =? 0)) then [SetM (loc_cell loc 3) md b] else []) ++ []).
  { rewrite !loc_cell_eq. unfold loc_acts, number. cbn [filter snd fst].
    destruct (negb (skip && (l =? 0))), (negb (skip && (t =? 0))), (negb (skip && (r =? 0))), (negb (skip && (b =? 0))); reflexivity. }
  exists (F 3 b (F 2 r (F 1 t (F 0 l m)))). split; [|split].
  - rewrite EQ. repeat (apply FA; [lia|]). apply do_nil.
  - assert (N : forall i j, 0 <= i < 4 -> 0 <= j < 4 -> i <> j -> idx (loc_cell loc i) <> idx (loc_cell loc j)) by (intros i j H1 H2 H3 H4; apply H3; eapply lc_idx; eauto).
    unfold box. cbn [map].
    rewrite (FN 3 b _ (loc_cell loc 0)), (FN 2 r _ (loc_cell loc 0)), (FN 1 t _ (loc_cell loc 0)), (FE 0) by (apply N; lia).
    rewrite (FN 3 b _ (loc_cell loc 1)), (FN 2 r _ (loc_cell loc 1)), (FE 1), (FN 0 l _ (loc_cell loc 1)) by (apply N; lia).
    rewrite (FN 3 b _ (loc_cell loc 2)), (FE 2), (FN 1 t _ (loc_cell loc 2)), (FN 0 l _ (loc_cell loc 2)) by (apply N; lia).
    rewrite (FE 3), (FN 2 r _ (loc_cell loc 3)), (FN 1 t _ (loc_cell loc 3)), (FN 0 l _ (loc_cell loc 3)) by (apply N; lia). reflexivity.
  - intros c Hc. rewrite !FN by (apply Hc; lia). reflexivity.
Qed.

(* coordinates in the order left, top, right, bottom; two mean a point *)
Definition corners {A} (coords : list A) (l t r b : A) : Prop :=
  coords = [l; t; r; b] \/ (coords = [l; t] /\ r = l /\ b = t).
Lemma corners_four {A} (coords : list A) l t r b : corners coords l t r b -> four coords = Some [l; t; r; b].
Proof. intros [->|(-> & -> & ->)]; reflexivity. Qed.

Theorem C65_actions : forall prot loc coords l t r b m,
  corners coords l t r b ->
  (forall i, 0 <= i < 4 -> plain (loc_cell loc i) /\ prot (idx (loc_cell loc i)) = false) ->
  exists sa aa da s a d, f_setloc_acts loc coords = Some sa /\ f_addloc_acts loc coords = Some aa /\ f_dilateloc_acts loc coords = Some da /\
    acts_do prot m sa s /\ acts_do prot m aa a /\ acts_do prot m da d /\
    box s loc = [u32 l; u32 t; u32 r; u32 b] /\
    box a loc = [u32 (get m (loc_cell loc 0) + l); u32 (get m (loc_cell loc 1) + t); u32 (get m (loc_cell loc 2) + r); u32 (get m (loc_cell loc 3) + b)] /\
    box d loc = [u32 (get m (loc_cell loc 0) - l); u32 (get m (loc_cell loc 1) - t); u32 (get m (loc_cell loc 2) + r); u32 (get m (loc_cell loc 3) + b)] /\
    forall c, (forall i, 0 <= i < 4 -> idx c <> idx (loc_cell loc i)) -> get s c = get m c /\ get a c = get m c /\ get d c = get m c.
Proof.
  intros prot loc coords l t r b m Hc Hw. unfold f_setloc_acts, f_addloc_acts, f_dilateloc_acts. rewrite (corners_four _ _ _ _ _ Hc). cbn [option_map neg2].
  destruct (loc_acts_do prot loc SetTo false l t r b m) as (s & S1 & S2 & S3); [discriminate|exact Hw|].
  destruct (loc_acts_do prot loc Add true l t r b m) as (a & A1 & A2 & A3); [reflexivity|exact Hw|].
  destruct (loc_acts_do prot loc Add true (- l) (- t) r b m) as (d & D1 & D2 & D3); [reflexivity|exact Hw|].
  cbn [do_mod] in *. rewrite !u32_add_r in A2, D2. do 6 eexists. split; [reflexivity|]. split; [reflexivity|]. split; [reflexivity|].
  split; [exact S1|]. split; [exact A1|]. split; [exact D1|]. split; [exact S2|]. split; [exact A2|]. split; [exact D2|].
  intros c H. auto.
Qed.
Print Assumptions C65_actions.

(* NonSeqCompute: coordinates are constants or variables *)
Lemma aa_other rl : forall m b, (forall d md s, In (d, md, s) rl -> idx (dst_epd d) <> idx b) -> get (assign_all m rl) b = get m b.
Proof.
  induction rl as [|[[d md] s] rl IH]; intros m b H; [reflexivity|]. cbn [assign_all fold_left]. change (fold_left assign1 rl ?x) with (assign_all x rl).
  rewrite IH by (intros; eapply H; right; eauto). destruct s; cbn [assign1]; apply get_upd_ne; eapply H; left; reflexivity.
Qed.
Lemma assign_indep l : forall m p, ForallOrdPairs indep l -> In p l -> get (assign_all m l) (rpair_dst p) = get (assign1 m p) (rpair_dst p).
Proof.
  induction l as [|q l IH]; intros m p H Hin; [destruct Hin|]. inversion H as [|? ? F1 F2]. subst. cbn [assign_all fold_left]. change (fold_left assign1 l ?x) with (assign_all x l).
  rewrite Forall_forall in F1. destruct Hin as [<-|Hin].
  - apply aa_other. intros d md s Hd. specialize (F1 _ Hd). destruct F1 as (N & _ & _). unfold rpair_dst in N at 2. cbn [fst] in N. auto.
  - rewrite (IH _ p F2 Hin). destruct (F1 _ Hin) as (N1 & N2 & N3).
    destruct (assign1_eff m p) as (v & E & G). destruct (assign1_eff m q) as (v' & E' & _).
    rewrite (G (assign1 m q)), E.
    + rewrite !get_upd_eq. reflexivity.
    + rewrite E'. apply get_upd_ne. exact N1.
    + intros a Ha. rewrite E'. apply get_upd_ne. apply N2. exact Ha.
Qed.

Lemma in_number {A} (l : list A) : forall i p, In p (number i l) <-> exists j, nth_error l j = Some (snd p) /\ fst p = i + Z.of_nat j.
Proof.
  induction l as [|x l IH]; intros i [a y]; cbn [number In fst snd].
  - split; [intros []|intros ([|j] & H & _); discriminate].
  - rewrite IH. cbn [fst snd]. split.
    + intros [H|(j & H1 & H2)]; [injection H as <- <-; exists 0%nat; cbn; split; [reflexivity|lia]|exists (S j); split; [exact H1|lia]].
    + intros ([|j] & H1 & H2); [left; cbn in H1; injection H1 as ->; f_equal; lia|right; exists j; split; [exact H1|lia]].
Qed.
Lemma number_fst {A} (l : list A) : forall i, NoDup (map fst (number i l)).
Proof.
  induction l as [|x l IH]; intros i; cbn [number map fst]; constructor; [|apply IH].
  intros H. apply in_map_iff in H as (p & E & Hin). apply in_number in Hin as (j & _ & Hj). lia.
Qed.

Section Const.
Variable w : world.
Hypothesis Hw : world_ok w.
Variable same same_u : dst -> dst -> bool.
Hypothesis Hsame : forall a b, same a b = true -> u32 (dst_epd a) = u32 (dst_epd b).
Variable perm : list pair -> list pair.
Hypothesis Hperm : forall x, Permutation (perm x) x.
Variable T : nat -> Z.

Lemma loc_pairs_run k loc md skip coords m :
  (skip = true -> md = Add) -> length coords = 4%nat ->
  (forall i, 0 <= i < 4 -> patchable w (loc_cell loc i) /\ loc_cell loc i <> 0) ->
  (forall s, In s coords -> ord_src w m s) ->
  let pl := map with_mod (loc_pairs loc md skip coords) in
  let code := SeqCompute same same_u T k (nonseq_order perm pl) in
  placed w T k code ->
  exists m', runs w (lbl T k, m) (lbl T (k + length code), m') /\
    (forall i s, nth_error coords i = Some s -> get m' (loc_cell loc (Z.of_nat i)) = do_mod md (get m (loc_cell loc (Z.of_nat i))) (sval m s)) /\
    forall c, (forall i, 0 <= i < 4 -> idx c <> idx (loc_cell loc i)) -> ~ scratch (flat_map svar coords) c -> get m' c = get m c.
Proof.
  intros Hs Hlen Hloc Hord pl code Hpl. set (l := loc_pairs loc md skip coords) in *.
  assert (Hin : forall p, In p l -> exists i s, nth_error coords i = Some s /\ p = (DInt (loc_cell loc (Z.of_nat i)), md, s) /\ (i < 4)%nat /\ In s coords /\ skip && is_zero s = false).
  { intros p Hp. apply in_map_iff in Hp as ([a s] & <- & Hf). apply filter_In in Hf as [Hn Hz]. apply in_number in Hn as (j & Hj & E). cbn [fst snd] in *. subst a.
    exists j, s. rewrite loc_cell_eq, Z.add_0_l. split; [exact Hj|]. split; [reflexivity|]. split; [rewrite <- Hlen; apply nth_error_Some; congruence|]. split; [eapply nth_error_In; eauto|]. destruct (skip && is_zero s); [discriminate|reflexivity]. }
  assert (Hin2 : forall i s, nth_error coords i = Some s -> skip && is_zero s = false -> In (DInt (loc_cell loc (Z.of_nat i)), md, s) l).
  { intros i s Hi Hz. unfold l, loc_pairs. apply in_map_iff. exists (Z.of_nat i, s). cbn [fst snd]. rewrite loc_cell_eq. split; [reflexivity|].
    apply filter_In. cbn [snd]. rewrite Hz. split; [|reflexivity]. apply in_number. exists i. split; [exact Hi|cbn; lia]. }
  assert (Hsrc : forall v, In v (srcs_of pl) -> In v (flat_map svar coords) /\ In v (W_vars w) /\ ordinary m v).
  { intros v Hv. apply in_flat_map in Hv as (q & Hq & Hv). apply in_map_iff in Hq as (p & <- & Hp). destruct (Hin p Hp) as (i & s & _ & -> & _ & His & _).
    cbn [with_mod snd] in Hv. destruct s as [c|u]; [destruct Hv|]. destruct Hv as [<-|[]]. split; [apply in_flat_map; exists (SVar u); cbn; auto|]. apply (Hord (SVar u) His). }
  assert (Hincl : incl (srcs_of pl) (W_vars w)) by (intros v Hv; apply Hsrc, Hv).
  assert (Hind : ForallOrdPairs indep l).
  { apply FuncProofs.ford_indep.
    - unfold l, loc_pairs. rewrite map_map. cbn [rpair_dst fst dst_epd].
      assert (ND : NoDup (map fst (filter (fun p => negb (skip && is_zero (snd p))) (number 0 coords)))).
      { pose proof (number_fst coords 0) as N. induction (number 0 coords) as [|q r IH]; [constructor|]. cbn [filter map] in *. inversion N as [|? ? N1 N2]. subst.
        destruct (negb (skip && is_zero (snd q))); [|apply IH, N2]. cbn [map]. constructor; [|apply IH, N2].
        intros H. apply N1. apply in_map_iff in H as (z & E & Hz). apply filter_In in Hz as [Hz _]. rewrite <- E. apply in_map, Hz. }
      assert (RG : forall p, In p (filter (fun p => negb (skip && is_zero (snd p))) (number 0 coords)) -> 0 <= fst p < 4).
      { intros p Hp. apply filter_In in Hp as [Hp _]. apply in_number in Hp as (j & Hj & E). assert (j < length coords)%nat by (apply nth_error_Some; congruence). lia. }
      revert ND RG. generalize (filter (fun p => negb (skip && is_zero (snd p))) (number 0 coords)) as q. induction q as [|p q IH]; intros ND RG; [constructor|].
      cbn [map] in *. inversion ND as [|? ? N1 N2]. subst. constructor; [|apply IH; [exact N2|intros; apply RG; right; auto]].
      intros H. apply in_map_iff in H as (z & E & Hz). apply N1. apply in_map_iff. exists z. split; [|exact Hz].
      unfold rpair_dst in E. cbn [fst dst_epd] in E. rewrite <- !loc_cell_eq in E. eapply lc_idx; [apply RG; right; exact Hz|apply RG; left; reflexivity|exact E].
    - intros p q a Hp Hq Ha. destruct (Hin p Hp) as (i & s & _ & -> & Hi & _ & _). destruct (Hin q Hq) as (j & s' & _ & -> & _ & Hs' & _).
      unfold rpair_dst. cbn [fst dst_epd]. unfold rpair_reads in Ha. cbn [snd] in Ha. destruct s' as [c|v]; [destruct Ha|].
      destruct (Hord _ Hs') as [Hv _]. destruct (Hloc (Z.of_nat i) ltac:(lia)) as [[_ Sp] _]. destruct Ha as [<-|[<-|[]]]; apply Sp; exact Hv. }
  destruct (C09_nonseq_compute w same same_u perm T k l m Hw Hsame Hperm) as (m' & R & A).
  - exact Hincl.
  - intros d omd s Hd. apply in_map_iff in Hd as (p & E & Hp). destruct (Hin p Hp) as (i & s' & _ & -> & Hi & His & _). cbn [with_mod] in E. injection E as <- <- <-.
    destruct (Hloc (Z.of_nat i) ltac:(lia)) as [[W Sp] NZ]. cbn [dst_epd]. split; [exact W|]. split; [apply (sep_not_scratch w); auto|].
    destruct s' as [c|v]; [exact I|]. split; [|cbn [truthy]; destruct (Z.eqb_spec (loc_cell loc (Z.of_nat i)) 0); [contradiction|reflexivity]].
    apply in_flat_map. exists (with_mod (DInt (loc_cell loc (Z.of_nat i)), md, SVar v)). split; [apply in_map, Hp|left; reflexivity].
  - intros v Hv. apply (Hsrc v Hv).
  - exact Hind.
  - exact Hpl.
  - exists m'. split; [exact R|]. specialize (A l (Permutation_refl _)).
    assert (NS : forall i, 0 <= i < 4 -> ~ scratch (srcs_of pl) (loc_cell loc i)) by (intros i Hi; destruct (Hloc i Hi) as [[_ Sp] _]; apply (sep_not_scratch w); auto).
    split.
    + intros i s Hi. assert (Li : (i < 4)%nat) by (rewrite <- Hlen; apply nth_error_Some; congruence). rewrite A by (apply NS; lia).
      destruct (skip && is_zero s) eqn:Z0.
      * apply andb_true_iff in Z0 as [Z1 Z2]. rewrite (Hs Z1). destruct s as [c|v]; [|discriminate]. cbn [is_zero] in Z2. apply Z.eqb_eq in Z2. subst c. cbn [do_mod sval]. change (u32 0) with 0.
        rewrite Z.add_0_r, u32_get. apply aa_other. intros d md' s' Hd. destruct (Hin _ Hd) as (j & s2 & Hj & E & Lj & _ & Hz). injection E as -> -> ->. cbn [dst_epd].
        intros Q. apply lc_idx in Q; [|lia|lia]. assert (j = i) by lia. subst j. rewrite Hi in Hj. injection Hj as <-. cbn [is_zero] in Hz. rewrite Z1 in Hz. discriminate.
      * pose proof (assign_indep l m _ Hind (Hin2 i s Hi Z0)) as AI. unfold rpair_dst in AI. cbn [fst dst_epd] in AI. rewrite AI. cbn [assign1 dst_epd].
        assert (Os := Hord s (nth_error_In _ _ Hi)). destruct s as [c|v]; cbn [sval].
        -- rewrite get_upd_eq. apply u32_small. apply do_mod_range; [apply get_range|apply u32_range].
        -- destruct Os as [_ [O1 _]]. rewrite get_upd_eq, O1. change 0xFFFFFFFF with (Z.ones 32). rewrite do_modx_full by apply get_range.
           apply u32_small. apply do_mod_range; apply get_range.
    + intros c Hc Hsc. rewrite A.
      * apply aa_other. intros d md' s Hd. destruct (Hin _ Hd) as (j & s2 & _ & E & Lj & _). injection E as -> -> ->. cbn [dst_epd]. intros Q. apply (Hc (Z.of_nat j)); [lia|auto].
      * intros Q. apply Hsc. eapply scratch_incl; [|exact Q]. intros v Hv. apply (Hsrc v Hv).
Qed.

Theorem C65_constant_location : forall k loc coords l t r b m md pairs,
  corners coords l t r b ->
  (md = SetTo /\ f_setloc_pairs loc coords = Some pairs \/ md = Add /\ f_addloc_pairs loc coords = Some pairs) ->
  (forall i, 0 <= i < 4 -> patchable w (loc_cell loc i) /\ loc_cell loc i <> 0) ->
  (forall s, In s coords -> ord_src w m s) ->
  let code := SeqCompute same same_u T k (nonseq_order perm (map with_mod pairs)) in
  placed w T k code ->
  exists m', runs w (lbl T k, m) (lbl T (k + length code), m') /\
    box m' loc = (if mod_eqb md SetTo then [sval m l; sval m t; sval m r; sval m b]
                  else [u32 (get m (loc_cell loc 0) + sval m l); u32 (get m (loc_cell loc 1) + sval m t);
                        u32 (get m (loc_cell loc 2) + sval m r); u32 (get m (loc_cell loc 3) + sval m b)]) /\
    forall c, (forall i, 0 <= i < 4 -> idx c <> idx (loc_cell loc i)) -> ~ scratch (flat_map svar coords) c -> get m' c = get m c.
Proof.
  intros k loc coords l t r b m md pairs Hc Hmd Hloc Hord code Hpl. unfold f_setloc_pairs, f_addloc_pairs in Hmd. rewrite (corners_four _ _ _ _ _ Hc) in Hmd. cbn [option_map] in Hmd.
  assert (Hsub : forall v, In v (flat_map svar [l; t; r; b]) -> In v (flat_map svar coords)).
  { intros v Hv. destruct Hc as [->|(-> & -> & ->)]; [exact Hv|]. cbn [flat_map] in *. rewrite !in_app_iff in *. tauto. }
  assert (Hord4 : forall s, In s [l; t; r; b] -> ord_src w m s) by (intros s Hs; apply Hord; destruct Hc as [->|(-> & -> & ->)]; cbn [In] in *; tauto).
  assert (E : exists skip, pairs = loc_pairs loc md skip [l; t; r; b] /\ (skip = true -> md = Add) /\ (md = SetTo \/ md = Add)).
  { destruct Hmd as [[-> E]|[-> E]]; injection E as <-; eexists; (split; [reflexivity|]); split; auto. discriminate. }
  destruct E as (skip & -> & Hs & Hmd2).
  destruct (loc_pairs_run k loc md skip [l; t; r; b] m Hs eq_refl Hloc Hord4 Hpl) as (m' & R & A & B).
  exists m'. split; [exact R|]. split.
  - unfold box. cbn [map]. change 0 with (Z.of_nat 0). rewrite (A 0%nat l eq_refl). change 1 with (Z.of_nat 1) at 1. rewrite (A 1%nat t eq_refl). change 2 with (Z.of_nat 2) at 1. rewrite (A 2%nat r eq_refl). change 3 with (Z.of_nat 3) at 1. rewrite (A 3%nat b eq_refl).
    destruct Hmd2 as [-> | ->]; reflexivity.
  - intros c H1 H2. apply B; [exact H1|]. intros Q. apply H2. eapply scratch_incl; [|exact Q]. exact Hsub.
Qed.
End Const.
Print Assumptions C65_constant_location.

(* ---------- concrete instances ---------- *)
Lemma exw_all n code l : forallb (fun e => negb (u32 e =? 13) && negb (special (u32 e))) l = true -> forall c, In c l -> writable (exworld n code) c.
Proof.
  intros H c Hc. rewrite forallb_forall in H. specialize (H c Hc). apply andb_true_iff in H as [H1 H2].
  split; [split|reflexivity]; [intros Q; rewrite Q in H1; discriminate|destruct (special (u32 c)); [discriminate|reflexivity]].
Qed.
Fixpoint ndb (l : list Z) : bool := match l with [] => true | x :: r => negb (existsb (Z.eqb x) r) && ndb r end.
Lemma ndb_ok l : ndb l = true -> NoDup l.
Proof.
  induction l as [|x l IH]; intros H; [constructor|]. cbn [ndb] in H. apply andb_true_iff in H as [H1 H2]. constructor; [|apply IH, H2].
  intros Hx. assert (existsb (Z.eqb x) l = true) as Q by (apply existsb_exists; exists x; split; [exact Hx|apply Z.eqb_refl]). rewrite Q in H1. discriminate.
Qed.
Definition lv (i : nat) : Z := nth i (exvars 5) 0.
(* location 2 is (100, 50) - (140, 90) *)
Definition lm (vals : list Z) : mem :=
  upd (upd (upd (upd (exmem 5 vals) (loc_cell 2 0) 100) (loc_cell 2 1) 50) (loc_cell 2 2) 140) (loc_cell 2 3) 90.
Lemma ex_ready n code : (n = 3 \/ n = 5)%nat -> Z.of_nat (length code) < 100000 -> ready_at (exworld 5 code) exT 0 code (map lv (seq 0 n)) 2.
Proof.
  intros Hn Hc. split; [apply exworld_placed; [reflexivity|exact Hc]|]. split; [|split].
  - intros v Hv. apply (wo_prog _ (exworld_ok 5 code eq_refl)). destruct Hn; subst n; cbn [map seq In] in Hv; vm_compute; vm_compute in Hv; tauto.
  - destruct Hn; subst n; apply exw_all; vm_compute; reflexivity.
  - destruct Hn; subst n; apply ndb_ok; vm_compute; reflexivity.
Qed.
Example C65_dilate_example : exists m', runs (exworld 5 (DilateLoc2 exT 0 (lv 0) (lv 1) (lv 2))) (lbl exT 0, lm [10; 20; 2^32 - 5]) (lbl exT 5, m') /\
  box m' 2 = [80; 55; 160; 85].
Proof.
  destruct (C65_dilateloc (exworld 5 (DilateLoc2 exT 0 (lv 0) (lv 1) (lv 2))) exT 0 (lv 0) (lv 1) (lv 2) 2 (lm [10; 20; 2^32 - 5])) as (m' & R & E & _).
  - apply (ex_ready 3); [auto|vm_compute; reflexivity].
  - intros v [<-|[<-|[<-|[]]]]; split; vm_compute; reflexivity.
  - vm_compute. reflexivity.
  - exists m'. split; [exact R|]. rewrite E. vm_compute. reflexivity.
Qed.
Example C65_add4_example : exists m', runs (exworld 5 (AddLoc4 exT 0 (lv 0) (lv 1) (lv 2) (lv 3) (lv 4))) (lbl exT 0, lm [10; 1; 2; 3; 2^32 - 4]) (lbl exT 5, m') /\
  box m' 2 = [101; 52; 143; 86].
Proof.
  destruct (C65_addloc4 (exworld 5 (AddLoc4 exT 0 (lv 0) (lv 1) (lv 2) (lv 3) (lv 4))) exT 0 (lv 0) (lv 1) (lv 2) (lv 3) (lv 4) 2 (lm [10; 1; 2; 3; 2^32 - 4])) as (m' & R & E & _).
  - apply (ex_ready 5); [auto|vm_compute; reflexivity].
  - intros v [<-|[<-|[<-|[<-|[<-|[]]]]]]; split; vm_compute; reflexivity.
  - vm_compute. reflexivity.
  - exists m'. split; [exact R|]. rewrite E. vm_compute. reflexivity.
Qed.
Definition ex_lcode : list trig := setloc_epd exT 0 (lv 0) 300000.
Definition ex_lm : mem := upd (upd (upd (upd (exmem 1 [7]) 300000 10) (xyval exT 0) 320) (xyval exT 0 + 16) 288) (exT 1 + 1) (lbl exT 2).
Example C65_setloc_epd_example : exists m', runs (exworld 1 ex_lcode) (lbl exT 0, ex_lm) (lbl exT 4, m') /\
  box m' 2 = [320; 288; 320; 288] /\ get m' CPcell = 7.
Proof.
  destruct (C65_setloc_epd (exworld 1 ex_lcode) exT 0 (lv 0) 300000 2) with (m := ex_lm) as (m' & R & E & F & _).
  - apply exw_all; vm_compute; reflexivity.
  - apply ndb_ok; vm_compute; reflexivity.
  - apply (wo_prog _ (exworld_ok 1 ex_lcode eq_refl)). vm_compute. auto.
  - apply exworld_placed; reflexivity.
  - vm_compute. reflexivity.
  - vm_compute. reflexivity.
  - split; vm_compute; reflexivity.
  - exists m'. split; [exact R|]. split; [rewrite E; vm_compute; reflexivity|rewrite F; vm_compute; reflexivity].
Qed.
(* a constant location, two variables as coordinates *)
Definition ex_coords : list src := [SVar (lv 0); SVar (lv 1)].
Definition ex_pairs : list (dst * modifier * src) := loc_pairs 2 Add true [SVar (lv 0); SVar (lv 1); SVar (lv 0); SVar (lv 1)].
Definition ex_ccode : list trig := SeqCompute fresh_same user_same exT 0 (nonseq_order (@rev pair) (map with_mod ex_pairs)).
Example C65_constant_example : exists m', runs (exworld 5 ex_ccode) (lbl exT 0, lm [3; 4]) (lbl exT (length ex_ccode), m') /\ box m' 2 = [103; 54; 143; 94].
Proof.
  destruct (C65_constant_location (exworld 5 ex_ccode) (exworld_ok 5 ex_ccode eq_refl) fresh_same user_same fresh_same_ok (@rev pair)
    (fun x => Permutation_sym (Permutation_rev x)) exT 0 2 ex_coords (SVar (lv 0)) (SVar (lv 1)) (SVar (lv 0)) (SVar (lv 1)) (lm [3; 4]) Add ex_pairs) as (m' & R & E & _).
  - right. auto.
  - right. split; reflexivity.
  - intros i Hi. split; [|rewrite loc_cell_eq; unfold loct; lia]. split.
    + eapply (exw_all 5 ex_ccode (map (fun i => loc_cell 2 i) [0; 1; 2; 3])); [vm_compute; reflexivity|]. apply in_map_iff. exists i. split; [reflexivity|cbn; lia].
    + intros v f Hv Q. rewrite loc_cell_eq in Q. assert (R : 3652 <= loct + 5 * 2 + i < 3660) by (change loct with 3642; lia).
      unfold idx in Q. rewrite Z.mod_small in Q by lia. vm_compute in Hv. decompose [or] Hv; subst; try contradiction; destruct f; (match type of Q with _ = ?r => let r' := eval vm_compute in r in change r with r' in Q end); lia.
  - intros s [<-|[<-|[]]]; (split; [vm_compute; tauto|split; vm_compute; reflexivity]).
  - apply exworld_placed; vm_compute; reflexivity.
  - exists m'. split; [exact R|]. rewrite E. vm_compute. reflexivity.
Qed.
