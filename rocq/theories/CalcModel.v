(* What a use of f_mul, f_div, _quot, _rem, f_bitlshift and f_bitrshift emits.
   Source: src/eudplib/core/calcf/muldiv.py 20-144 (top level), 150-197 (_const_mul),
   477-490 (_eud_quot, _eud_rem), bitwise.py 143-200, 201-221.
   The functions themselves (MulModel) are compiled when first used and then
   shared: the library maps each of them to where it was put. *)
From Coq Require Import ZArith List Bool.
From Verif Require Import Word Machine MachineProofs VarModel OpsModel FuncModel FuncSpec MulModel.
Import ListNotations.
Open Scope Z_scope.

Inductive kind := KMul | KDiv | KShl | KShr | KCMul (n : Z) | KCDiv (n : Z) | KCQuot (n : Z) | KCRem (n : Z).
Record lib := mklib {
  L_fn : kind -> fdesc;       (* the compiled function *)
  L_shn : nat -> efunc;       (* _fdict of f_bitlshift, bitwise.py 143 *)
  L_adder : Z;                (* _selfadder *)
  L_spare : Z }.              (* _ev[4] *)

Section Code.
Variable same same_u : dst -> dst -> bool.
Variable perm : list pair -> list pair.
Variable T : nat -> Z.
Variable L : lib.
Notation Seq := (SeqCompute same same_u T).
Notation Call k K args rds := (func_call same same_u perm T k (fd_f (L_fn L K)) args rds).
Notation set := (v_assign same same_u T).
(* bitwise.py 152-188: shift by the constant n >= 0 (a negative one raises in
   vbase.py); [x =? r] is [a is ret]. A variable is given by its EPD; r is the
   variable given as ret=, or a new one. *)
Definition shl_const (k : nat) (x n r : Z) : list trig :=
  if n =? 0 then (if x =? r then [] else set k r (SVar x))
  else if n <=? 10 then func_call same same_u perm T k (L_shn L (Z.to_nat n)) [SConst (val r); SVar x] []
  else andthen k (if x =? r then [] else set k r (SVar x)) (fun j => lv_ilshift T j (val r) n).
(* bitwise.py 210-219 *)
Definition shr_const (k : nat) (x n r : Z) : list trig :=
  if n =? 0 then (if x =? r then [] else set k r (SVar x))
  else andthen k (if x =? r then [] else set k r (SVar x)) (fun j => lv_irshift T j (val r) n).
(* both operands constant: no code is emitted unless ret= is given, and then an
   exception is raised (148-150); not modelled here *)
Definition f_bitlshift (k : nat) (a b : src) (r : Z) : option (list trig) :=
  match a, b with
  | SVar x, SConst n => if n <? 0 then None else Some (shl_const k x n r)
  | SConst _, SConst _ => None
  | _, SVar _ => Some (Call k KShl [a; b] [val r])
  end.
Definition f_bitrshift (k : nat) (a b : src) (r : Z) : option (list trig) :=
  match a, b with
  | SVar x, SConst n => if n <? 0 then None else Some (shr_const k x n r)
  | SConst _, SConst _ => None
  | _, SVar _ => Some (Call k KShr [a; b] [val r])
  end.
(* muldiv.py 150-197: the dictionary maps 2^1..2^7 to f_bitlshift *)
Definition pow_case (n : Z) : option Z := find (fun p => n =? 2 ^ p) [1; 2; 3; 4; 5; 6; 7].
Definition const_mul (k : nat) (n x r : Z) : list trig :=
  match pow_case (u32 n) with
  | Some p => shl_const k x p r
  | None => Call k (KCMul (u32 n)) [SVar x] [val r]
  end.
(* 20-37 *)
Definition f_mul (k : nat) (a b : src) (r : Z) : list trig :=
  match a, b with
  | SVar _, SVar _ => Call k KMul [a; b] [val r]
  | SVar x, SConst n => const_mul k n x r
  | SConst n, SVar x => const_mul k n x r
  | SConst x, SConst y => set k r (SConst (x * y))
  end.
(* 44-57, 79-92, 114-127: negative constants raise *)
Definition neg_arg (s : src) : bool := match s with SConst n => n <? 0 | SVar _ => false end.
(* 59-74 *)
Definition f_div (k : nat) (a b : src) (q r : Z) : option (list trig) :=
  if neg_arg a || neg_arg b then None else
  match a, b with
  | _, SVar _ => Some (Call k KDiv [a; b] [val q; val r])
  | SVar x, SConst n => Some (Call k (KCDiv n) [SVar x] [val q; val r])
  | SConst x, SConst y =>
    let (d, m) := if y =? 0 then (0xFFFFFFFF, x) else (x / y, x mod y) in
    Some (Seq k [(DVar q, Some SetTo, SConst d); (DVar r, Some SetTo, SConst m)])
  end.
(* 77-109, 477-482: with ret= the remainder goes to the spare variable. *)
Definition f_quot (k : nat) (a b : src) (q : Z) : option (list trig) :=
  if neg_arg a || neg_arg b then None else
  match a, b with
  | _, SVar _ => Some (Call k KDiv [a; b] [val q; val (L_spare L)])
  | SVar x, SConst n => Some (Call k (KCQuot n) [SVar x] [val q])
  | SConst x, SConst y =>
    (* 103: for y = 0 the assigned value is a tuple, which no action accepts *)
    if y =? 0 then None else Some (Seq k [(DVar q, Some SetTo, SConst (x / y))])
  end.
(* 112-144, 485-490 *)
Definition f_rem (k : nat) (a b : src) (r : Z) : option (list trig) :=
  if neg_arg a || neg_arg b then None else
  match a, b with
  | _, SVar _ => Some (Call k KDiv [a; b] [val (L_spare L); val r])
  | SVar x, SConst n => Some (Call k (KCRem n) [SVar x] [val r])
  | SConst x, SConst y => Some (Seq k [(DVar r, Some SetTo, SConst (if y =? 0 then x else x mod y))])
  end.
End Code.
