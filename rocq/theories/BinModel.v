(* Byte conversions. Source: src/eudplib/utils/binio.py.
   A byte string is a list of integers; None is IndexError. Only non-negative
   indices are modelled. *)
From Coq Require Import ZArith List.
Import ListNotations.
Open Scope Z_scope.

(* binio.py 10-11 *)
Definition b2i1 (b : list Z) (index : nat) : option Z := nth_error b index.
(* binio.py 14-15 *)
Definition b2i2 (b : list Z) (index : nat) : option Z :=
  match nth_error b index, nth_error b (index + 1) with
  | Some b0, Some b1 => Some (Z.lor b0 (Z.shiftl b1 8))
  | _, _ => None
  end.
(* binio.py 18-21 *)
Definition b2i4 (b : list Z) (index : nat) : option Z :=
  match nth_error b index, nth_error b (index + 1), nth_error b (index + 2), nth_error b (index + 3) with
  | Some b0, Some b1, Some b2, Some b3 =>
      Some (Z.lor (Z.lor (Z.lor b0 (Z.shiftl b1 8)) (Z.shiftl b2 16)) (Z.shiftl b3 24))
  | _, _, _, _ => None
  end.
(* binio.py 24-25 *)
Definition i2b1 (i : Z) : list Z := [Z.land i 0xFF].
(* binio.py 28-30 *)
Definition i2b2 (i : Z) : list Z :=
  let i := Z.land i 0xFFFF in [Z.land i 0xFF; Z.land (Z.shiftr i 8) 0xFF].
(* binio.py 33-35 *)
Definition i2b4 (i : Z) : list Z :=
  let i := Z.land i 0xFFFFFFFF in
  [Z.land i 0xFF; Z.land (Z.shiftr i 8) 0xFF; Z.land (Z.shiftr i 16) 0xFF; Z.land (Z.shiftr i 24) 0xFF].
(* binio.py 38-43: the generator's values; 33 iterations suffice (each removes
   one of 32 bits), which the theorem about it shows *)
Fixpoint bits_loop (fuel : nat) (n : Z) : list Z :=
  match fuel with
  | O => []
  | S f => if n =? 0 then []
           else let b := Z.land n (Z.lnot n + 1) in b :: bits_loop f (Z.lxor n b)
  end.
Definition bits (n : Z) : list Z := bits_loop 33 (Z.land n 0xFFFFFFFF).
