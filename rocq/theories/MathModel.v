(* Library functions over variables: signed division, power, binary search,
   square root.
   Source: src/eudplib/eudlib/mathf/{div,pow,sqrt}.py, eudlib/utilf/binsearch.py

   Level of the model: a variable is its 32-bit value; each operation of the
   core library on variables is its 32-bit meaning (proved of the generated
   code elsewhere: assignments and arithmetic C07, comparisons C10, bit masks
   C14, f_mul C11, f_div C12, structured statements C20, function calls C24).
   Reading and writing of triggers is not part of this file. *)
From Coq Require Import ZArith List Bool.
From Verif Require Import Word.
Import ListNotations.
Open Scope Z_scope.

(* x.SubtractNumber(n): the engine's Subtract stops at 0 *)
Definition sub_sat (x n : Z) : Z := Z.max 0 (x - n).
(* x.ineg() *)
Definition ineg (x : Z) : Z := u32 (- x).
(* x.AddNumber(n), x += n *)
Definition add (x n : Z) : Z := u32 (x + n).
(* x.ExactlyX(v, mask), x.AtLeastX(v, mask) *)
Definition ExactlyX (x v mask : Z) : bool := Z.land x mask =? v.
Definition AtLeastX (x v mask : Z) : bool := v <=? Z.land x mask.
(* c.f_div on variables (core/calcf/muldiv.py; C12_f_div) *)
Definition f_div (a b : Z) : Z * Z := if b =? 0 then (2^32 - 1, a) else (a / b, a mod b).

(* ---------- mathf/div.py ---------- *)
(* The divisor: a variable, or a Python int *)
Inductive divisor := DVar (v : Z) | DConst (n : Z).
(* the part the three functions share: 50-71, 122-143, 227-248.
   Result: sign flag, |a|, |b| *)
Definition split_signs (a : Z) (b : divisor) : Z * Z * Z :=
  let flag := match b with DVar _ => 0 | DConst n => if n <? 0 then 2 else 0 end in
  let '(flag, a) := if 2^31 <=? a then (add flag 1, ineg a) else (flag, a) in
  match b with
  | DVar v => if 2^31 <=? v then (add flag 2, a, ineg v) else (flag, a, v)
  | DConst n => (flag, a, Z.abs n)
  end.
(* 75, 173: 1 <= _signflag, _signflag <= 2 *)
Definition one_negative (flag : Z) : bool := (1 <=? flag) && (flag <=? 2).

(* 49-83 *)
Definition div_towards_zero (a : Z) (b : divisor) : Z * Z :=
  let '(flag, a, b) := split_signs a b in
  let (quotient, modulo) := f_div a b in
  let quotient := if one_negative flag then ineg quotient else quotient in
  let modulo := if ExactlyX flag 1 1 then ineg modulo else modulo in
  (quotient, modulo).

(* 145-170 and 250-275: the check trigger and its two continuations *)
Definition adjust (c : bool) (b quotient modulo : Z) : Z * Z :=
  if c && (1 <=? modulo) then (add quotient 1, add (ineg modulo) b) else (quotient, modulo).

(* 121-181 *)
Definition div_floor (a : Z) (b : divisor) : Z * Z :=
  let '(flag, a, b) := split_signs a b in
  let (quotient, modulo) := f_div a b in
  let (quotient, modulo) := adjust (one_negative flag) b quotient modulo in
  let quotient := if one_negative flag then ineg quotient else quotient in
  let modulo := if ExactlyX flag 2 2 then ineg modulo else modulo in
  (quotient, modulo).

(* 226-282 *)
Definition div_euclid (a : Z) (b : divisor) : Z * Z :=
  let '(flag, a, b) := split_signs a b in
  let (quotient, modulo) := f_div a b in
  let (quotient, modulo) := adjust (ExactlyX flag 1 1) b quotient modulo in
  let quotient := if one_negative flag then ineg quotient else quotient in
  (quotient, modulo).

(* ---------- mathf/pow.py 11-24 ---------- *)
Record pow_st := mkpow { p_ret : Z; p_2n : Z; p_a : Z }.
(* one pass of the EUDWhile: None when its condition fails *)
Definition pow_pass (b : Z) (s : pow_st) : option pow_st :=
  if p_2n s <=? b then
    let ret := if AtLeastX b 1 (p_2n s) then u32 (p_ret s * p_a s) else p_ret s in
    Some (mkpow ret (add (p_2n s) (p_2n s)) (u32 (p_a s * p_a s)))
  else None.
Inductive pow_loop (b : Z) : pow_st -> Z -> Prop :=
| pow_exit s : pow_pass b s = None -> pow_loop b s (p_ret s)
| pow_more s s' r : pow_pass b s = Some s' -> pow_loop b s' r -> pow_loop b s r.
(* f_pow a b terminates with r; a, b variables *)
Definition f_pow (a b r : Z) : Prop := pow_loop b (mkpow 1 1 a) r.

(* ---------- utilf/binsearch.py ---------- *)
(* The bounds: Python ints, or variables. Only with two ints are steps left out
   (28-32, 70-74). *)
Inductive bound := BConst (n : Z) | BVar (v : Z).
Definition bval (b : bound) : Z := match b with BConst n => n | BVar v => v end.
Definition span (minv maxv : bound) : option Z :=
  match minv, maxv with BConst a, BConst b => Some (b - a) | _, _ => None end.
(* 36-38, 78-80: `if r and 2**i > r: continue` *)
Definition skipped (r : option Z) (i : Z) : bool :=
  match r with Some r => negb (r =? 0) && (r <? 2^i) | None => false end.
(* range(31, -1, -1) *)
Definition down32 : list Z := map Z.of_nat (rev (seq 0 32)).
Definition steps_of (minv maxv : bound) : list Z :=
  filter (fun i => negb (skipped (span minv maxv) i)) down32.

(* 40-50; [first] is nth == 0 *)
Definition max_step (cond : Z -> bool) (minv maxv : bound) (first : bool) (i x : Z) : Z :=
  if first then
    let x := u32 (bval minv + 2^i) in
    if negb (cond x) then sub_sat x (2^i) else x
  else
    let x := add x (2^i) in
    if negb ((x <=? bval maxv) && cond x) then sub_sat x (2^i) else x.
(* 82-94 *)
Definition min_step (cond : Z -> bool) (minv maxv : bound) (first : bool) (i x : Z) : Z :=
  if first then
    let x := u32 (bval maxv - 2^i) in
    if negb (cond x) then add x (2^i) else x
  else if 2^i <=? x then
    let x := sub_sat x (2^i) in
    if negb ((bval minv <=? x) && cond x) then add x (2^i) else x
  else x.
Fixpoint search (step : bool -> Z -> Z -> Z) (first : bool) (l : list Z) (x : Z) : Z :=
  match l with [] => x | i :: r => search step false r (step first i x) end.
(* the variable x starts as 0 (EUDVariable()) *)
Definition EUDBinaryMax (cond : Z -> bool) (minv maxv : bound) : Z :=
  search (max_step cond minv maxv) true (steps_of minv maxv) 0.
Definition EUDBinaryMin (cond : Z -> bool) (minv maxv : bound) : Z :=
  search (min_step cond minv maxv) true (steps_of minv maxv) 0.

(* mathf/sqrt.py 10-14 *)
Definition f_sqrt (n : Z) : Z := EUDBinaryMax (fun x => u32 (x * x) <=? n) (BConst 0) (BConst 0xFFFF).
