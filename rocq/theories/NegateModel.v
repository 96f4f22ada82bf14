(* Negation of a condition. Source: src/eudplib/core/rawtrigger/condition.py. *)
From Coq Require Import ZArith List Bool.
Import ListNotations.
Open Scope Z_scope.

(* condition.py 72-97: the nine fields, all constants (negate asserts that the
   ones it looks at are) *)
Record condition := mk_cond {
  locid : Z; player : Z; amount : Z; unitid : Z; comparison : Z; condtype : Z; restype : Z; flags : Z; eudx : Z }.
Definition set_amount (c : condition) (a : Z) := mk_cond (locid c) (player c) a (unitid c) (comparison c) (condtype c) (restype c) (flags c) (eudx c).
Definition set_comparison (c : condition) (x : Z) := mk_cond (locid c) (player c) (amount c) (unitid c) x (condtype c) (restype c) (flags c) (eudx c).
Definition set_condtype (c : condition) (x : Z) := mk_cond (locid c) (player c) (amount c) (unitid c) (comparison c) x (restype c) (flags c) (eudx c).
Definition mem (x : Z) (l : list Z) : bool := existsb (Z.eqb x) l.
(* b2i2(u2b("SC")) = 0x4353 *)
Definition SC : Z := 0x4353.

(* condition.py 192-256 (None: EPError). -((-1) ** comparison) is -1 for
   comparison 0 and 1 for comparison 1. *)
Definition negate (c : condition) : option condition :=
  if mem (condtype c) [0; 22] then Some (set_condtype c 23)
  else if mem (condtype c) [13; 23] then Some (set_condtype c 22)
  else if condtype c =? 11 then Some (set_comparison c (Z.lxor (comparison c) 1))
  else if mem (condtype c) [1; 2; 3; 4; 5; 12; 14; 15; 21] then
    let am := Z.land (amount c) 0xFFFFFFFF in
    if (comparison c =? 10) && (am =? 0) then Some (set_amount (set_comparison c 0) 1)
    else if (comparison c =? 0) && (am =? 1) then Some (set_amount (set_comparison c 10) 0)
    else if (comparison c =? 0) && (am =? 0) then Some (set_condtype c 23)
    else if mem (condtype c) [2; 3] then None
    else if mem (comparison c) [0; 1] then
      Some (set_amount (set_comparison c (Z.lxor (comparison c) 1))
                       (amount c + (if comparison c =? 0 then -1 else 1)))
    else if negb (comparison c =? 10) then None
    else if (condtype c =? 15) && (eudx c =? SC) then
      let mask := Z.land (locid c) 0xFFFFFFFF in
      if negb (Z.land am (Z.lnot mask) =? 0) then Some (set_condtype c 23)
      else if am =? mask then Some (set_amount (set_comparison c 1) (mask - 1))
      else None
    else if am =? 0xFFFFFFFF then Some (set_amount (set_comparison c 1) 0xFFFFFFFE)
    else None
  else None.
