(* Byte, word and dword access.
   Source: src/eudplib/memio/bwepdio.py, cpmemio.py, dwepdio.py *)
From Coq Require Import ZArith List Bool.
From Verif Require Import Word Machine MachineProofs VarModel OpsModel ReadModel.
Import ListNotations.
Open Scope Z_scope.

(* the mask of n bytes: 0xFF (n = 1) or 0xFFFF (n = 2) *)
Definition nmask (n : Z) : Z := 2^(8 * n) - 1.
(* bwepdio.py 23-28 _lshift of a constant, and the mask expressions 0xFF << (8 * subp) *)
Definition lane (subp x : Z) : Z := Z.shiftl x (8 * subp).

(* f_wwrite_epd, f_wadd_epd, f_wsubtract_epd (subp 0..2), f_bwrite_epd,
   f_badd_epd, f_bsubtract_epd with constant subp and value:
   bwepdio.py 54-58, 80-86, 108-115, 144-148, 217-221, 239-245 *)
Definition const_acts (n epd subp b : Z) (md : modifier) : list act :=
  [SetDX (Imm epd) md (Imm (lane subp b)) (Imm (lane subp (nmask n)))].
(* the switch cases of _wwriter (i < 3), _wadder, _wsubtracter, _bwriter,
   _badder, _bsubtracter: bwepdio.py 36-39, 65-68, 93-96, 127-136, 206-209,
   229-232.  x: the operand that holds the shifted value; the current player is
   the address. *)
Definition cp_acts (n subp : Z) (md : modifier) (x : operand) : list act :=
  [SetDX (Imm 13) md x (Imm (lane subp (nmask n)))].
(* cpmemio.py 241-258 f_bwrite_cp, 204-221 f_wwrite_cp with a constant subp:
   x holds the product with 256 ** subp *)
Definition write_cp_acts (n cpo subp : Z) (x : operand) : list act :=
  (if cpo =? 0 then [] else [SetM CPcell Add cpo]) ++
  [SetDX (Imm 13) SetTo x (Imm (lane subp (nmask n)))] ++
  (if cpo =? 0 then [] else [SetM CPcell Add (- cpo)]).
(* bwepdio.py 43-46 _wwriter, case 3.  x0, x1: byte 0 times 2^24 and byte 1 of the word *)
Definition wwrite3_acts (x0 x1 : operand) : list act := write_cp_acts 1 0 3 x0 ++ write_cp_acts 1 1 0 x1.
(* cpmemio.py 183-187 and 229-234 _wwriter, _bwriter of cpmemio (variable subp),
   case i: the lane is cleared, then the value times 256 ** i is added to the dword *)
Definition cpwriter_acts (n subp : Z) (x : operand) : list act :=
  [SetDX (Imm 13) SetTo (Imm 0) (Imm (lane subp (nmask n))); SetD (Imm 13) Add x].

(* bwepdio.py 156-173 _bitwrite_epd with constant subp; v: the variable, or a constant *)
Definition bitwrite_const (epd subp bit b : Z) : list act :=
  let k := lane subp bit in
  if b =? 0 then [SetDX (Imm epd) SetTo (Imm 0) (Imm k)] else [SetDX (Imm epd) SetTo (Imm k) (Imm k)].
Definition bitwrite_var (T : nat -> Z) (k : nat) (epd subp bit v : Z) : list trig :=
  let x := lane subp bit in
  [mktrig [] [SetDX (Imm epd) SetTo (Imm 0) (Imm x)] (Imm (lbl T (k + 1))) (Imm 4);
   mktrig [CondM v AtLeast 1] [SetDX (Imm epd) SetTo (Imm x) (Imm x)] (Imm (lbl T (k + 2))) (Imm 4)].

(* bwepdio.py 283-303, case 3 of _wread_epd (and cpmemio.py 70-90): b3 and b0 are
   the table triggers for (0xFF000000, -24) and (0xFF, 8); the destination of
   copy_ret is set before.  [back] is what the last trigger adds to the current
   player: 0 (no action) in bwepdio.py, -1 in cpmemio.py *)
Definition wread3 (E : Z) (T : nat -> Z) (A : nat -> Z) (b3 b0 : nat) (back fin : Z) : list trig :=
  [mktrig [] [SetM (E + 1) SetTo (lbl T 1)] (Imm (pa (A b3))) (Imm 4);
   mktrig [] [SetM CPcell Add 1; SetMX (cr_mod E) SetTo (8 * 2^24) 0xFF000000; SetM (E + 1) SetTo (lbl T 2)] (Imm (pa (A b0))) (Imm 4);
   mktrig [] (SetMX (cr_mod E) SetTo (7 * 2^24) 0xFF000000 :: (if back =? 0 then [] else [SetM CPcell Add back])) (Imm fin) (Imm 4)].

(* dwepdio.py 98-131 setdw_epd *)
Definition setdw_epd (T : nat -> Z) (k : nat) (p : src) (md : modifier) (v : src) : list trig :=
  match p, v with
  | SVar p, SVar v =>
      if p =? v then
        let c := VProc T k [v] [SetDest v (vc v FVal); SetModifier v SetTo] in
        c ++ VProc T (k + length c) [v] [SetModifier v md]
      else VProc T k [p; v] [SetDest p (vc v FDest); SetModifier p SetTo; SetModifier v md]
  | SConst p, SVar v => VProc T k [v] [SetDest v p; SetModifier v md]
  | SConst p, SConst v => [mktrig [] [SetD (Imm p) md (Imm v)] (Imm (lbl T (k + 1))) (Imm 4)]
  | SVar _, SConst _ => []   (* not modelled: DoActions with a variable player *)
  end.

(* dwepdio.py 147-181 f_dwbreak: the variables before the return, for the bits
   8..31 of the argument in order *)
Definition addif (v i x e : Z) : Z := if 1 <=? Z.land v (2^i) then u32 (x + 2^e) else x.
Record broken := mkbroken { bw1 : Z; bb1 : Z; bb2 : Z; bb3 : Z }.
Definition dwbreak_step (v : Z) (s : broken) (i : Z) : broken :=
  let '(mkbroken w1 b1 b2 b3) := s in
  let be := i mod 8 in let we := i mod 16 in
  mkbroken (if i / 16 =? 1 then addif v i w1 we else w1)
           (if i / 8 =? 1 then addif v i b1 be else b1)
           (if i / 8 =? 2 then addif v i b2 be else b2)
           (if i / 8 =? 3 then addif v i b3 be else b3).
Definition dwbreak_loop (v : Z) : broken := fold_left (dwbreak_step v) (map Z.of_nat (seq 8 24)) (mkbroken 0 0 0 0).
(* values left in the return variables (r0..r5 before) : word[0] and byte[0] have
   masks 0xFFFF and 0xFF; byte[0] was set from word[0] under mask 0xFFFF (y: before) *)
Definition f_dwbreak (v y : Z) (r0 r2 : Z) : Z * Z * Z * Z * Z * Z :=
  let s := dwbreak_loop v in
  let byte0 := wset 0xFFFF y v in
  (wset 0xFFFF r0 v, bw1 s, wset 0xFF r2 byte0, bb1 s, bb2 s, bb3 s).
(* dwepdio.py 184-213 f_dwbreak2 *)
Definition f_dwbreak2 (v : Z) : Z * Z * Z * Z * Z * Z :=
  (wset (u32 (Z.lnot 0xFFFF)) v 0, wset 0xFFFF v 0, wset (u32 (Z.lnot 0xFF)) v 0,
   wset (u32 (Z.lnot 0xFF00)) v 0, wset (u32 (Z.lnot 0xFF0000)) v 0, wset 0xFFFFFF v 0).
(* bwepdio.py 370-374: one case of _boolread_epd; b is the return variable, reset before the switch *)
Definition boolread_case (b i fin : Z) : trig :=
  mktrig [CondDX (Imm 13) AtLeast (Imm 1) (Imm (lane i 0xFF))] [SetM b SetTo 1] (Imm fin) (Imm 4).
