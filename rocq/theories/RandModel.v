From Coq Require Import ZArith List Bool.
From Verif Require Import Word.
Import ListNotations.
Open Scope Z_scope.

(* Variable level model: [Z] is the content of an EUDVariable, f_mul is
   multiplication mod 2^32 (C13), << >> and += are the operations of C07-C11. *)

(* ---- eudlib/utilf/random.py ---- *)
(* 18-27 f_getseed, f_srand: the state is the one variable _seed *)
Definition f_getseed (seed : Z) : Z * Z := (seed, seed).
Definition f_srand (v : Z) (_ : Z) : Z := u32 v.

(* 30-63 f_randomize.  [coin i] is what the engine's random SetSwitch draws in
   round i; the state is (seed, switch 1).  Result: new seed, switch 1. *)
Fixpoint randomize_loop (coin : nat -> bool) (n : nat) (i : nat) (seed : Z) : Z :=
  match n with
  | O => seed                                            (* 51 EUDWhileNot()(n == 0) *)
  | S n' =>
      let sw := coin i in                                (* 56 SetSwitch Random *)
      let seed := u32 (seed + seed) in                   (* 53 seed += seed *)
      let seed := if sw then u32 (seed + 1) else seed in (* 60-62 *)
      randomize_loop coin n' (S i) seed
  end.
Definition f_randomize (coin : nat -> bool) (sw : bool) : Z * bool :=
  let restore := if sw then true else false in           (* 41, 45-48: end's action is Clear, or Set if the switch was set *)
  (randomize_loop coin 32 0 0, restore).                 (* 40, 65 *)

(* 66-74 f_rand: returns (ret, new seed) *)
Definition f_rand (seed : Z) : Z * Z :=
  let seed := u32 (seed * 1103515245) in
  let seed := u32 (seed + 12345) in
  let ret := seed in
  (Z.shiftr ret 16, seed).

(* 77-97 f_dwrand: returns (dseed, new seed) *)
Definition dw_step (seed : Z) (dseed : Z) (i : Z) : Z :=
  if 1 <=? Z.land seed (2^i) then u32 (dseed + 2^(i - 16)) else dseed.
Definition dw_range : list Z := map Z.of_nat (seq 16 16).
Definition f_dwrand (seed : Z) : Z * Z :=
  let dseed := u32 (seed * 1103515245) in
  let dseed := u32 (dseed + 12345) in
  let seed := u32 (dseed * 1103515245) in
  let seed := u32 (seed + 12345) in
  let dseed := Z.ldiff dseed 0xFFFF in                   (* SetNumberX(0, 0xFFFF) *)
  (fold_left (dw_step seed) dw_range dseed, seed).

(* ---- memio/muldiv4table.py ---- *)
(* 19-26 _varcount *)
Fixpoint varcount (strides : list Z) : nat :=
  match strides with [] => 0%nat | x :: r => ((if (x mod 4 =? 0)%Z then 1 else 2) + varcount r)%nat end.
(* 69-82: the actions of the trigger for bit x as (cell, amount); cell i is the
   value field of action i of read_end.  [strides] is the sorted list. *)
Fixpoint md4_actions (x : Z) (strides : list Z) (index : nat) : list (nat * Z) :=
  match strides with
  | [] => []
  | k :: r =>
      let qq := Z.shiftl k x / 4 in
      let rr := Z.shiftl k x mod 4 in
      let a1 := if qq =? 0 then [] else [(index, qq)] in
      if k mod 4 =? 0 then a1 ++ md4_actions x r (S index)
      else a1 ++ (if rr =? 0 then [] else [(S index, rr)]) ++ md4_actions x r (S (S index))
  end.
Definition cells := nat -> Z.
Definition cadd (i : nat) (t : Z) (c : cells) : cells := fun j => if (j =? i)%nat then u32 (c j + t) else c j.
Definition md4_bit (strides : list Z) (lv : Z) (c : cells) (x : Z) : cells :=
  if 1 <=? Z.land lv (Z.shiftl 1 x) then fold_left (fun c a => cadd (fst a) (snd a) c) (md4_actions x strides 0) c else c.
(* 95-109: carry; k % 4 != 3 as in the source *)
Fixpoint md4_carry (strides : list Z) (index : nat) (c : cells) : cells :=
  match strides with
  | [] => c
  | k :: r =>
      if k mod 4 =? 0 then md4_carry r (S index) c
      else
        let c := if negb (k mod 4 =? 3) then
                   (if 4 <=? c (S index) then cadd index 1 (fun j => if (j =? S index)%nat then c j - 4 else c j) else c)
                 else c in
        md4_carry r (S (S index)) c
  end.
(* 64-110 and 57-62: from msb down to bit 0, then the carries; read_end copies the
   cells to the derived variables and clears them for the next use. *)
Fixpoint md4_bits (n : nat) : list Z := match n with O => [0] | S k => Z.of_nat n :: md4_bits k end.
Definition md4_run (msb : nat) (strides : list Z) (lv : Z) (c : cells) : list Z * cells :=
  let c := fold_left (md4_bit strides lv) (md4_bits msb) c in
  let c := md4_carry strides 0 c in
  (map c (seq 0 (varcount strides)), fun j => if (j <? varcount strides)%nat then 0 else c j).
