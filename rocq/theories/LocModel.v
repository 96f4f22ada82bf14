(* Location functions.
   Source: src/eudplib/eudlib/locf/locf.py *)
From Coq Require Import ZArith List Bool.
From Verif Require Import Word Machine MachineProofs VarModel OpsModel CurplModel.
Import ListNotations.
Open Scope Z_scope.

(* locf.py 17 *)
Definition loct : Z := (0x58DC60 - 0x58A364) / 4 - 5.
(* eudv.py 206-208 *)
Definition AddDest (v c : Z) : act := SetM (vc v FDest) Add c.

(* The last trigger, number k + 4, has four SetDeaths whose player and value
   (dwords 4 and 5 of the action) are filled in at run time; "act" is its first
   action, at dword 82 of the trigger. *)
Definition lact (T : nat -> Z) (k : nat) : Z := T (k + 4)%nat + 82.
Definition lplayer (T : nat -> Z) (k i : nat) : Z := lact T k + 8 * Z.of_nat i + 4.
Definition lvalue (T : nat -> Z) (k i : nat) : Z := lact T k + 8 * Z.of_nat i + 5.
(* locf.py 78-85, 141-148 *)
Definition loc_set (T : nat -> Z) (k : nat) (md : modifier) : list act :=
  map (fun i => SetD (Mem (lplayer T k i)) md (Mem (lvalue T k i))) (seq 0 4).

(* x.SetDest(EPD(act) + 5) resp. [SetMemory(act + 20, SetTo, ~0), x.QueueSubtractTo(EPD(act) + 5)] *)
Definition load_first (signed : bool) (x cell : Z) : list act :=
  if signed then SetM cell SetTo (-1) :: QueueSubtractTo x cell else [SetDest x cell].
Definition opt_act (b : bool) (a : act) : list act := if b then [a] else [].

(* locf.py 20-87 _locfgen2; the four modifiers given to it are equal in every
   use (153-155), so there is one. EUDFunc's call and return are not part of it. *)
Definition locf2 (T : nat -> Z) (k : nat) (epd x y : Z) (md : modifier) (signed : bool) : list trig :=
  VProc T k [epd; x]
    ([AddNumber (vc epd FVal) loct; SetDest epd (lact T k + 4)] ++ load_first signed x (lact T k + 5)) ++
  [RawTrig []
    (opt_act signed (SetM (lact T k + 5) Add 1) ++
     [AddNumber (vc epd FVal) 2; AddDest epd 16; AddDest x 16; SetNextPtr x (lbl T (k + 2))] ++
     opt_act signed (SetM (vc x FMod) Subtract 0x02000000)) (pa epd)] ++
  VProc T (k + 2) [epd; y]
    ([AddNumber (vc epd FVal) (-1); AddDest epd (-8)] ++ load_first signed y (lact T k + 8 + 5)) ++
  [RawTrig []
    (opt_act signed (SetM (lact T k + 13) Add 1) ++
     [AddNumber (vc epd FVal) 2; AddDest epd 16; AddDest y 16; SetNextPtr y (lbl T (k + 4))] ++
     opt_act signed (SetM (vc y FMod) Subtract 0x02000000)) (pa epd)] ++
  [RawTrig [] (loc_set T k md) (lbl T (k + 5))].

(* locf.py 90-150 _locfgen4 *)
Definition locf4 (T : nat -> Z) (k : nat) (epd l t r b : Z) (md : modifier) (signed : bool) : list trig :=
  VProc T k [epd; l]
    ([AddNumber (vc epd FVal) loct; SetDest epd (lact T k + 4)] ++ load_first signed l (lact T k + 5)) ++
  VProc T (k + 1) [epd; t]
    (opt_act signed (SetM (lact T k + 5) Add 1) ++ [AddNumber (vc epd FVal) 1; AddDest epd 8] ++
     load_first signed t (lact T k + 8 + 5)) ++
  VProc T (k + 2) [epd; r]
    (opt_act signed (SetM (lact T k + 13) Add 1) ++ [AddNumber (vc epd FVal) 1; AddDest epd 8] ++
     [SetDest r (lact T k + 16 + 5)]) ++
  VProc T (k + 3) [epd; b]
    ([AddNumber (vc epd FVal) 1; AddDest epd 8] ++ [SetDest b (lact T k + 24 + 5)]) ++
  [RawTrig [] (loc_set T k md) (lbl T (k + 5))].

(* locf.py 153-158 *)
Definition SetLoc2 T k epd x y := locf2 T k epd x y SetTo false.
Definition AddLoc2 T k epd x y := locf2 T k epd x y Add false.
Definition DilateLoc2 T k epd x y := locf2 T k epd x y Add true.
Definition SetLoc4 T k epd l t r b := locf4 T k epd l t r b SetTo false.
Definition AddLoc4 T k epd l t r b := locf4 T k epd l t r b Add false.
Definition DilateLoc4 T k epd l t r b := locf4 T k epd l t r b Add true.

(* ---- a location number known when compiling ---- *)
(* enumerate((left, t, r, b)), without the ints 0 when skip is set *)
Definition is_zero (s : src) : bool := match s with SConst c => c =? 0 | SVar _ => false end.
Fixpoint number {A} (i : Z) (l : list A) : list (Z * A) :=
  match l with [] => [] | x :: r => (i, x) :: number (i + 1) r end.
Definition loc_pairs (loc : Z) (md : modifier) (skip : bool) (coords : list src) : list (dst * modifier * src) :=
  map (fun p => (DInt (loct + 5 * loc + fst p), md, snd p))
    (filter (fun p => negb (skip && is_zero (snd p))) (number 0 coords)).
Definition loc_acts (loc : Z) (md : modifier) (skip : bool) (coords : list Z) : list act :=
  map (fun p => SetM (loct + 5 * loc + fst p) md (snd p))
    (filter (fun p => negb (skip && (snd p =? 0))) (number 0 coords)).
(* two coordinates stand for four: locf.py 181-185 and likewise 225-229, 271-275 *)
Definition four {A} (coords : list A) : option (list A) :=
  match coords with
  | [l; t] => Some [l; t; l; t]
  | [l; t; r; b] => Some coords
  | _ => None
  end.
(* locf.py 170-203 f_setloc, 216-247 f_addloc: pairs handed to NonSeqCompute *)
Definition f_setloc_pairs (loc : Z) (coords : list src) := option_map (loc_pairs loc SetTo false) (four coords).
Definition f_addloc_pairs (loc : Z) (coords : list src) := option_map (loc_pairs loc Add true) (four coords).
(* action = True; 260-297 f_dilateloc *)
Definition f_setloc_acts (loc : Z) (coords : list Z) := option_map (loc_acts loc SetTo false) (four coords).
Definition f_addloc_acts (loc : Z) (coords : list Z) := option_map (loc_acts loc Add true) (four coords).
Definition neg2 (coords : list Z) : list Z :=
  match coords with l :: t :: r => - l :: - t :: r | _ => coords end.
Definition f_dilateloc_acts (loc : Z) (coords : list Z) := option_map (fun c => loc_acts loc Add true (neg2 c)) (four coords).

(* locf.py 325-366 _setloc_epd after f_posread_cp has stored both coordinates
   (dword 82 + 5 of trigger k + 1 for x, 16 dwords later for y) and the caller has
   stored 5 * loc in the action _set_loc (cell L, its value field).
   Trigger k: _set_loc, Add _loct; k + 1: set_xy; k + 2: one_more; k + 3: done.
   The next pointer of set_xy is run-time data; it is one_more when the function
   is entered (360-366). *)
Definition xyval (T : nat -> Z) (k : nat) : Z := T (k + 1)%nat + 82 + 5.
Definition setloc_epd (T : nat -> Z) (k : nat) (K L : Z) : list trig :=
  [RawTrig [] [SetD (Imm CPcell) SetTo (Mem L); SetM CPcell Add loct] (lbl T (k + 1));
   mktrig [] [SetD (Imm 13) SetTo (Mem (xyval T k)); SetM CPcell Add 1; SetD (Imm 13) SetTo (Mem (xyval T k + 16))]
     (Mem (T (k + 1)%nat + 1)) (Imm 4);
   RawTrig [] [SetM CPcell Add 1; SetM (T (k + 1)%nat + 1) SetTo (lbl T (k + 3))] (lbl T (k + 1))] ++
  f_setcurpl2cpcache T (k + 3) K [SetM (T (k + 1)%nat + 1) SetTo (lbl T (k + 2))].
