(* Static relocation of a payload, and the compile-time address algebra. *)
From Coq Require Import ZArith List Bool.
From Verif Require Import AllocModel PayloadModel.
Import ListNotations.
Open Scope Z_scope.

(* utils/binio.py b2i4: little-endian value of 4 bytes *)
Definition of_le (bs : list Z) : Z := fold_right (fun b acc => b + 256 * acc) 0 bs.

Definition read_dword (data : list Z) (p : nat) : Z := of_le (firstn 4 (skipn p data)).

(* bytearray slice assignment new_payload[p:p+4] = bs, p+4 in range *)
Definition write4 (data : list Z) (p : nat) (bs : list Z) : list Z :=
  firstn p data ++ bs ++ skipn (p + 4) data.

(* maprw/injector/payload_init.py 48-55, body of the two relocation loops;
   i2b4 reduces modulo 2^32 (utils/binio.py). *)
Definition reloc1 (v : Z) (data : list Z) (p : nat) : list Z :=
  write4 data p (le_bytes 4 (read_dword data p + v)).

(* payload_init.py 48-55: all prt entries by payload_offset // 4, then all ort
   entries by payload_offset *)
Definition relocate (base : Z) (prt ort : list nat) (data : list Z) : list Z :=
  fold_left (reloc1 base) ort (fold_left (reloc1 (base / 4)) prt data).

(* ------------------------------------------------------------------ *)
(* i32 wrap-around (Rust release arithmetic) *)
Definition s32 (x : Z) : Z := (x + 2^31) mod 2^32 - 2^31.

(* constexpr.rs 8-12. An expression refers to at most one base object; the base
   is [false] = None, [true] = the atom (an EUDObject or a Forward). *)
Record ce := mkce { c_base : bool; c_off : Z; c_mode : Z }.

(* constexpr.rs 206-217 and eudobj.rs 23-26: a Forward or EUDObject itself is a
   ConstExpr with baseobj None, offset 0, rlocmode 4; operators applied to it
   take the object itself as base ("baseobj = slf" branch). [raw] marks it. *)
Inductive cval := Raw | CE (c : ce).

Definition cbase (v : cval) : bool := match v with Raw => false | CE c => c_base c end.
Definition coff (v : cval) : Z := match v with Raw => 0 | CE c => c_off c end.
Definition cmode (v : cval) : Z := match v with Raw => 4 | CE c => c_mode c end.

(* "if rlocmode != 0 && baseobj is None { slf } else { baseobj }". Taking slf
   as base is meaningful only for Raw: for a computed ConstExpr with base None
   (only -Raw) evaluation then recurses into an expression without Evaluate
   and fails, see [evaluate]. *)
Definition newbase (v : cval) (mode : Z) : bool :=
  match v with Raw => negb (mode =? 0) | CE c => c_base c end.

Inductive cex :=
| XAtom
| XAdd (e : cex) (c : Z)      (* e + c, c + e   constexpr.rs 77-93 *)
| XSub (e : cex) (c : Z)      (* e - c          constexpr.rs 95-107 *)
| XRSub (c : Z) (e : cex)     (* c - e          constexpr.rs 109-121 *)
| XMul (e : cex) (c : Z)      (* e * c, c * e   constexpr.rs 123-141 *)
| XDiv (e : cex) (c : Z)      (* e // c         constexpr.rs 143-162 *)
| XNeg (e : cex).             (* -e             constexpr.rs 199-205 *)

(* python ints reach add/sub as i64 (else an error) and mul/div as i32 *)
Definition i64_ok (c : Z) : bool := (- 2^63 <=? c) && (c <? 2^63).
Definition i32_ok (c : Z) : bool := (- 2^31 <=? c) && (c <? 2^31).

Fixpoint build (e : cex) : option cval :=
  match e with
  | XAtom => Some Raw
  | XAdd e c => match build e with
    | Some v => if i64_ok c
        then Some (CE (mkce (newbase v (cmode v)) (s32 (coff v + s32 c)) (cmode v))) else None
    | None => None end
  | XSub e c => match build e with
    | Some v => if i64_ok c
        then Some (CE (mkce (newbase v (cmode v)) (s32 (coff v - s32 c)) (cmode v))) else None
    | None => None end
  | XRSub c e => match build e with
    | Some v => if i64_ok c
        then Some (CE (mkce (newbase v (- cmode v)) (s32 (s32 c - coff v)) (s32 (- cmode v)))) else None
    | None => None end
  | XMul e c => match build e with
    | Some v => if i32_ok c
        then let m := s32 (cmode v * c) in
             Some (CE (mkce (if m =? 0 then false else newbase v m) (s32 (coff v * c)) m)) else None
    | None => None end
  | XDiv e c => match build e with
    | Some v =>
        (* rlocmode % 0 panics; div_floor by 0 panics *)
        if negb (i32_ok c) || (c =? 0) then None
        else if negb (cmode v =? 0) && negb (cmode v mod c =? 0) then None
        else let m := cmode v / c in
             Some (CE (mkce (newbase v m) (s32 (coff v / c)) (s32 m)))
    | None => None end
  | XNeg e => match build e with
    | Some v => Some (CE (mkce (cbase v) (s32 (- coff v)) (s32 (- cmode v))))
    | None => None end
  end.

(* constexpr.rs 42-60 Evaluate with rlocint.rs 369-378 (wrapping mul),
   409-423 (checked division by 4) and 302-311 (wrapping add).
   [atom] is what the base object evaluates to. *)
Definition evaluate (atom : rloc) (v : cval) : option rloc :=
  match v with
  | Raw => Some atom
  | CE c =>
    if c_mode c =? 0 then Some (mkrloc (c_off c) 0)
    else if negb (c_base c) then None                (* None.Evaluate() *)
    else
      let o := s32 (r_off atom * c_mode c) in
      let m := s32 (r_mode atom * c_mode c) in
      if (m =? 0) || ((o mod 4 =? 0) && (m mod 4 =? 0))
      then Some (mkrloc (s32 (o / 4 + c_off c)) (m / 4))
      else None
  end.

(* constexpr.rs 164-173, e % c *)
Definition cmod (v : cval) (c : Z) : option Z :=
  if c =? 0 then None
  else if negb (cmode v =? 4) || negb (4 mod c =? 0) then None
  else Some (coff v mod c).

(* utils/etc.py 28-44, EPD of a constant expression *)
Definition epd_expr (e : cex) : cex := XDiv (XAdd e (- 0x58A364)) 4.

(* rlocint.rs 100-276: operators on RlocInt values (Python side). Results out
   of i32 overflow; modelled with wrap. None = raised error. *)
Definition rl_add (a b : rloc) := mkrloc (s32 (r_off a + r_off b)) (s32 (r_mode a + r_mode b)).
Definition rl_sub (a b : rloc) := mkrloc (s32 (r_off a - r_off b)) (s32 (r_mode a - r_mode b)).
Definition rl_mul (a : rloc) (c : Z) := mkrloc (s32 (r_off a * c)) (s32 (r_mode a * c)).
Definition rl_floordiv (a : rloc) (c : Z) : option rloc :=
  if c =? 0 then None else Some (mkrloc (r_off a / c) (r_mode a / c)).
Definition rl_and (a : rloc) (c : Z) : option rloc :=
  if negb (r_mode a =? 0) && negb (r_mode a =? 4) then None
  else if (r_mode a =? 4) && negb (Z.land c 3 =? c) then None
  else Some (mkrloc (Z.land (r_off a) c) (r_mode a)).
Definition rl_or (a : rloc) (c : Z) : option rloc :=
  if negb (r_mode a =? 0) && negb (r_mode a =? 4) then None
  else if (r_mode a =? 4) && negb (Z.land c 3 =? c) then None
  else Some (mkrloc (Z.lor (r_off a) c) (r_mode a)).
(* __ror__ calls __and__ (rlocint.rs 254-256) *)
Definition rl_ror (a : rloc) (c : Z) : option rloc := rl_and a c.
(* rlocint.rs 268-276 *)
Definition rl_neg (a : rloc) : option rloc :=
  if negb (r_mode a =? 0) && negb (r_mode a =? 4) then None
  else Some (mkrloc (s32 (- r_off a)) 0).
