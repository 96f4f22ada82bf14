(* EPD() on constants and variables, and light booleans.
   Source: src/eudplib/utils/etc.py 28-91, core/variable/eudlv.py 30-73 *)
From Coq Require Import ZArith List Bool.
From Verif Require Import Word Machine MachineProofs VarModel OpsModel.
Import ListNotations.
Open Scope Z_scope.

(* ---------- etc.py ---------- *)
(* 39, on Python integers (relocatable expressions: ConstModel) *)
Definition EPD_const (p : Z) : Z := (p + (-0x58A364)) / 4.
(* 47-56: the variable is an rvalue and is converted in place; a: its value cell *)
Definition EPD_acts (a : Z) : list act :=
  AddNumber a (-0x58A364)
  :: SetNumberX a 0 (Z.shiftr 7 1)
  :: map (fun t => SubtractNumberX a (Z.shiftl (Z.shiftr 7 1) (Z.of_nat t)) (Z.shiftl 7 (Z.of_nat t))) (seq 0 30).
Definition EPD_inplace (T : nat -> Z) (k : nat) (a : Z) : list trig := Raw1 T k [] (EPD_acts a).
(* 58-72: the shared trigger at EPD f. Its action 32 is the setter: fields player
   (dword 4) and value (dword 5) are written by the callers, as is the next pointer. *)
Definition setter (f : Z) : Z := f + 82 + 8 * 32.
Definition EPD_ftrg (f : Z) : trig :=
  mktrig [] (EPD_acts (setter f + 5) ++ [SetD (Mem (setter f + 4)) SetTo (Mem (setter f + 5))]) (Mem (f + 1)) (Imm 4).
(* 80-86: what a caller stores before it jumps to the shared trigger *)
Definition EPD_call (f nexttrg dst p : Z) : list pair :=
  [(DExpr (f + 1), Some SetTo, SConst nexttrg); (DExpr (setter f + 4), Some SetTo, SConst dst);
   (DExpr (setter f + 5), Some SetTo, SVar p)].

(* ---------- eudlv.py ---------- *)
(* The class attributes; light variables are numbered in order of creation,
   each with its initial content: [lb_init] is that of number 0, 1, ... *)
Record lb_class := mklb { lb_tlv : nat; lb_tbit : Z; lb_flv : nat; lb_fbit : Z; lb_init : list Z }.
(* 32-35 *)
Definition lb_start : lb_class := mklb 0 0 1 0 [0xFFFFFFFF; 0].
(* 37-55: number of the light variable, mask *)
Definition lb_new (initval : bool) (c : lb_class) : (nat * Z) * lb_class :=
  if initval then
    let c := if 32 <=? lb_tbit c then mklb (length (lb_init c)) 0 (lb_flv c) (lb_fbit c) (lb_init c ++ [0xFFFFFFFF]) else c in
    ((lb_tlv c, Z.shiftl 1 (lb_tbit c)), mklb (lb_tlv c) (lb_tbit c + 1) (lb_flv c) (lb_fbit c) (lb_init c))
  else
    let c := if 32 <=? lb_fbit c then mklb (lb_tlv c) (lb_tbit c) (length (lb_init c)) 0 (lb_init c ++ [0]) else c in
    ((lb_flv c, Z.shiftl 1 (lb_fbit c)), mklb (lb_tlv c) (lb_tbit c) (lb_flv c) (lb_fbit c + 1) (lb_init c)).
Fixpoint lb_news (l : list bool) (c : lb_class) : list (nat * Z) * lb_class :=
  match l with
  | [] => ([], c)
  | b :: r => let (x, c) := lb_new b c in let (xs, c) := lb_news r c in (x :: xs, c)
  end.
(* 60-73; e: the cell of the light variable, k: the mask *)
Definition lb_Set (e k : Z) : act := SetMX e SetTo k k.
Definition lb_Clear (e k : Z) : act := SetMX e SetTo 0 k.
Definition lb_Toggle (e k : Z) : act := SetMX e Add k k.
Definition lb_IsSet (e k : Z) : cond := CondMX e AtLeast 1 k.
Definition lb_IsCleared (e k : Z) : cond := CondMX e Exactly 0 k.
