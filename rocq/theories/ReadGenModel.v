(* Generated readers: functions that read the cell at the current player bit by bit.
   Source: src/eudplib/memio/memifgen.py, specialized.py, dwepdio.py *)
From Coq Require Import ZArith List Bool.
From Verif Require Import Word Machine MachineProofs VarModel BinModel CurplModel ReadModel.
Import ListNotations.
Open Scope Z_scope.

(* triggers k, k + 1, ... in a row *)
Fixpoint seqtrigs (T : nat -> Z) (k : nat) (l : list (list cond * list act)) : list trig :=
  match l with
  | [] => []
  | (c, a) :: r => RawTrig c a (lbl T (k + 1)) :: seqtrigs T (k + 1) r
  end.

(* ---- the triggers for the bits ---- *)
(* the result cells are the value fields of the variables of readerfunc._frets;
   a result is described by its start value and the function of a bit (memifgen.py
   95-100), python integers of any size *)
Definition arg : Type := Z * (Z -> Z).
(* retv.AddNumber(arg[nth]) for ... if arg[nth] != 0 *)
Fixpoint adds (rets vals : list Z) : list act :=
  match rets, vals with
  | r :: rets, a :: vals => if a =? 0 then adds rets vals else SetM r Add a :: adds rets vals
  | _, _ => []
  end.
Definition row : Type := Z * list Z.
Definition body (cnd : Z -> cond) (rets : list Z) (x : row) : list cond * list act := ([cnd (fst x)], adds rets (snd x)).
(* memifgen.py 104-105: vals *)
Definition rows (mask : Z) (args : list arg) : list row := map (fun b => (b, map (fun a => snd a b) args)) (bits (u32 mask)).
(* 48-49: if all(arg[nth] == 0 for arg in args): continue *)
Definition used (x : row) : bool := negb (forallb (Z.eqb 0) (snd x)).
(* DeathsX(cp.CP, AtLeast, 1, 0, i) *)
Definition cnd0 (b : Z) : cond := CondDX (Imm 13) AtLeast (Imm 1) (Imm b).
Definition bodies (rets : list Z) (mask : Z) (args : list arg) : list (list cond * list act) :=
  map (body cnd0 rets) (filter used (rows mask args)).

(* ---- memifgen.py 22-67 _read_epd_func ---- *)
(* The caller has stored the player in the current player (_EUDPredefineParam).
   K: the variable of the current player cache.  Trigger k is `check` if there is one;
   its next pointer is run-time data.  At most 62 results, so that every list of
   actions fits in one trigger. *)
Definition reader_epd_of (T : nat -> Z) (k : nat) (K : Z) (rets : list Z) (args : list arg) (empty : bool) (bs : list (list cond * list act)) : list trig :=
  let i := (if empty then k + 1 else k)%nat in
  let done := (i + 1 + length bs)%nat in
  (if empty then [mktrig [CondD (Imm 13) Exactly (Imm 0)]
                    (map (fun r => SetM r SetTo 0) rets ++ [SetM (T k + 1) SetTo (lbl T done)]) (Mem (T k + 1)) (Imm 4)] else []) ++
  [RawTrig [] (map (fun p => SetM (fst p) SetTo (fst (snd p))) (combine rets args)) (lbl T (i + 1))] ++
  seqtrigs T (i + 1) bs ++
  f_setcurpl2cpcache T done K (if empty then [SetM (T k + 1) SetTo (lbl T i)] else []).
Definition reader_epd T k K rets (mask : Z) args empty : list trig := reader_epd_of T k K rets args empty (bodies rets mask args).

(* ---- memifgen.py 145-203 _read_cp_func, reader ---- *)
(* Trigger k: start values; k + 1: check, if there is one *)
Definition reader_cp_of (T : nat -> Z) (k : nat) (rets : list Z) (args : list arg) (empty : bool) (bs : list (list cond * list act)) : list trig :=
  let i := (if empty then k + 2 else k + 1)%nat in
  let done := (i + length bs)%nat in
  [RawTrig [] (map (fun p => SetM (fst p) SetTo (fst (snd p))) (combine rets args) ++
               (if empty then [SetM (T (k + 1)%nat + 1) SetTo (lbl T i)] else [])) (lbl T (k + 1))] ++
  (if empty then [mktrig [CondD (Imm 13) Exactly (Imm 0)]
                    (map (fun p => SetM (fst p) SetTo 0) (filter (fun p => negb (fst (snd p) =? 0)) (combine rets args)) ++
                     [SetM (T (k + 1)%nat + 1) SetTo (lbl T done)]) (Mem (T (k + 1)%nat + 1)) (Imm 4)] else []) ++
  seqtrigs T i bs.
Definition reader_cp T k rets (mask : Z) args empty : list trig := reader_cp_of T k rets args empty (bodies rets mask args).
(* 205-211 readerfunc with a constant cpo; the call of reader is straight-line here *)
Definition readerfunc_cp (T : nat -> Z) (k : nat) (rets : list Z) (mask : Z) (args : list arg) (empty : bool) (cpo : Z) : list trig :=
  let pre := if cpo =? 0 then [] else [RawTrig [] [SetM CPcell Add cpo] (lbl T (k + 1))] in
  let k1 := (k + length pre)%nat in
  let rd := reader_cp T k1 rets mask args empty in
  let k2 := (k1 + length rd)%nat in
  pre ++ rd ++ (if cpo =? 0 then [] else [RawTrig [] [SetM CPcell Add (- cpo)] (lbl T (k2 + 1))]).

(* ---- memifgen.py 95-141 f_readgen_epd, 214-259 f_readgen_cp: which reader ---- *)
Inductive choice := Table (shift : Z) | Generic | Raises.
Fixpoint all2 (p : Z -> Z -> bool) (l1 l2 : list Z) : bool :=
  match l1, l2 with x :: l1, y :: l2 => p x y && all2 p l1 l2 | _, _ => true end.
(* memifgen.py 109-130: is the function a shift on the bits of the mask?
   divmod of python: Raises for a zero divisor *)
Definition choose (bs : list Z) (f : Z -> Z) : choice :=
  let vals := map f bs in
  let bit0 := hd 0 bs in
  let shift0 := hd 0 vals in
  let lsh := bit0 <? shift0 in
  if negb lsh && (shift0 =? 0) then Raises
  else
    let coef := if lsh then shift0 / bit0 else bit0 / shift0 in
    let rem := if lsh then shift0 mod bit0 else bit0 mod shift0 in
    if (rem =? 0) && (Z.land coef (coef - 1) =? 0) && negb (coef =? 0)
       && all2 (fun b s => if lsh then b * coef =? s else s * coef =? b) (tl bs) (tl vals)
    then Table (if lsh then Z.log2 coef else - Z.log2 coef)
    else Generic.
(* _is_consecutive(0) shifts by -1 and raises *)
Definition readgen (mask : Z) (args : list arg) (empty : bool) : choice :=
  let mask := u32 mask in
  match empty, args with
  | false, [(0, f)] =>
      if mask =? 0 then Raises
      else if negb (is_consecutive mask) then Generic
      else choose (bits mask) f
  | _, _ => Generic
  end.

(* ---- specialized.py ---- *)
Definition EPD0 : Z := 0x58A364 / 4.
(* 11-34 *)
Definition cunit_mask : Z := 0x3FFFF0.
Definition cunitread_args : list arg := [(0x400008, fun x => x)].
Definition cunitepdread_args : list arg := [(0x400008, fun x => x); (0x100002 - EPD0, fun y => y / 4)].
Definition epdcunitread_args : list arg := [(0x100002 - EPD0, fun y => y / 4)].
(* 36-55 *)
Definition sprite_mask : Z := 0x1FFFC.
Definition epdspriteread_args : list arg := [(0x188000 - EPD0, fun x => x / 4)].
Definition spriteepdread_args : list arg := [(0x620000, fun x => x); (0x188000 - EPD0, fun y => y / 4)].
(* 58-67 _map_xy_mask for a map of w x h tiles *)
Definition bit_length (n : Z) : Z := if n =? 0 then 0 else Z.log2 n + 1.
Definition axis_mask (n : Z) : Z := 2 ^ (bit_length (n - 1) + 5) - 1.
(* 70-95 f_posread_epd, f_posread_cp *)
Definition pos_mask (w h : Z) : Z := axis_mask w + 65536 * axis_mask h.
Definition posread_args : list arg := [(0, fun x => if x <=? 0xFFFF then x else 0); (0, fun y => Z.shiftr y 16)].

(* ---- dwepdio.py 19-44 f_dwepdread_epd; u: the random unit ---- *)
Definition cndu (u b : Z) : cond := DeathsX 13 AtLeast 1 u b.
Definition dwepd_rows : list row :=
  map (fun i => (2 ^ i, [2 ^ i; if 2 <=? i then 2 ^ (i - 2) else 0])) (map Z.of_nat (seq 0 32)).
Definition f_dwepdread_epd (T : nat -> Z) (k : nat) (K ptr epd u : Z) : list trig :=
  [RawTrig [] [SetM ptr SetTo 0; SetM epd SetTo (- EPD0); SetM CPcell Add (- 12 * u)] (lbl T (k + 1))] ++
  seqtrigs T (k + 1) (map (body (cndu u) [ptr; epd]) dwepd_rows) ++
  f_setcurpl2cpcache T (k + 33) K [].

(* ---- dwepdio.py 62-95 f_flagread_epd: the function body; flags: the python integers ---- *)
Definition flag_rows (flags : list Z) : list row :=
  map (fun i => (2 ^ i, map (fun f => Z.land f (2 ^ i)) flags)) (map (fun i => 31 - Z.of_nat i) (seq 0 32)).
(* if sum(bitandflags) == 0: continue *)
Definition flag_used (flags : list Z) : list row := filter (fun x => negb (fold_right Z.add 0 (snd x) =? 0)) (flag_rows flags).
(* at most 64 flags, so that the actions fit in one trigger *)
Definition f_flagread_epd (T : nat -> Z) (k : nat) (K : Z) (rets flags : list Z) : list trig :=
  let bs := map (body cnd0 rets) (flag_used flags) in
  [RawTrig [] (map (fun r => SetM r SetTo 0) rets) (lbl T (k + 1))] ++
  seqtrigs T (k + 1) bs ++
  f_setcurpl2cpcache T (k + 1 + length bs) K [].
