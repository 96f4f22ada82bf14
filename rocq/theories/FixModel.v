(* Repairs of the map's data before compiling.
   Source: src/eudplib/core/mapdata/fixmapdata.py.  A section is a function from offsets
   to bytes (and a length); an offset outside
   raises IndexError in the code; an odd last byte of MTXM is never changed.  The warning about
   null tiles (90-102) is left out. *)
From Coq Require Import ZArith List Bool.
Import ListNotations.
Open Scope Z_scope.

(* 20, 61, 82: bytearray *)
Definition bytes := Z -> Z.
(* b[o] = v *)
Definition set (b : bytes) (o v : Z) : bytes := fun x => if x =? o then v else b x.

(* 19-51 _fix_unit_map: an entry of UNIT; the bytes 12, 14, 17, 18, 19, 20-23, 24-25, 26 of one entry *)
Record urec := mkurec { u12 : Z; u14 : Z; u17 : Z; u18 : Z; u19 : Z; u20 : Z; u21 : Z; u22 : Z; u23 : Z; u24 : Z; u25 : Z; u26 : Z }.
(* x &= ~m *)
Definition off (x m : Z) : Z := Z.land x (Z.lnot m).
(* 30-32 and 47-49: for k in range(n): if a & (2**k) == 0: b &= ~(2**k) *)
Fixpoint off_loop (n : nat) (a b : Z) : Z :=
  match n with
  | O => b
  | S k => let b := off_loop k a b in if Z.land a (2 ^ Z.of_nat k) =? 0 then off b (2 ^ Z.of_nat k) else b
  end.
(* 24-49 *)
Definition fix_entry (u : urec) : urec :=
  let f := u14 u in
  let f := if u17 u =? 100 then off f 2 else f in
  let f := if u18 u =? 100 then off f 4 else f in
  let f := if (u24 u =? 0) && (u25 u =? 0) then off f 32 else f in
  let s := off_loop 5 (u26 u) (u12 u) in
  mkurec s f
    (if Z.land f 2 =? 0 then 0 else u17 u)
    (if Z.land f 4 =? 0 then 0 else u18 u)
    (if Z.land f 8 =? 0 then 0 else u19 u)
    (if Z.land f 16 =? 0 then 0 else u20 u) (if Z.land f 16 =? 0 then 0 else u21 u)
    (if Z.land f 16 =? 0 then 0 else u22 u) (if Z.land f 16 =? 0 then 0 else u23 u)
    (if Z.land f 32 =? 0 then 0 else u24 u) (if Z.land f 32 =? 0 then 0 else u25 u)
    (off_loop 5 s (u26 u)).
(* the bytes of an entry in the section, read and written by 24-49 *)
Definition load_entry (b : bytes) (i : Z) : urec :=
  mkurec (b (i + 12)) (b (i + 14)) (b (i + 17)) (b (i + 18)) (b (i + 19)) (b (i + 20)) (b (i + 21)) (b (i + 22)) (b (i + 23)) (b (i + 24)) (b (i + 25)) (b (i + 26)).
Definition store_entry (b : bytes) (i : Z) (u : urec) : bytes :=
  set (set (set (set (set (set (set (set (set (set (set (set b (i + 12) (u12 u)) (i + 14) (u14 u)) (i + 17) (u17 u)) (i + 18) (u18 u)) (i + 19) (u19 u))
    (i + 20) (u20 u)) (i + 21) (u21 u)) (i + 22) (u22 u)) (i + 23) (u23 u)) (i + 24) (u24 u)) (i + 25) (u25 u)) (i + 26) (u26 u).
(* 22-51: n entries of 36 bytes, from offset i *)
Fixpoint fix_unit_map (n : nat) (i : Z) (b : bytes) : bytes :=
  match n with O => b | S n => fix_unit_map n (i + 36) (store_entry b i (fix_entry (load_entry b i))) end.

(* 70-71: data[o + k] = 0 for k in range(n) *)
Fixpoint zero_bytes (n : nat) (o : Z) (b : bytes) : bytes :=
  match n with O => b | S n => zero_bytes n (o + 1) (set b o 0) end.
(* 69-72 *)
Fixpoint zero_settings (settings : list Z) (count offset i : Z) (b : bytes) : bytes :=
  match settings with
  | [] => b
  | s :: r => zero_settings r count (offset + s * count) i (zero_bytes (Z.to_nat s) (offset + s * i) b)
  end.
(* 63-72: the items i, i+1, ... *)
Fixpoint fix_items (n : nat) (i count base : Z) (settings : list Z) (b : bytes) : bytes :=
  match n with
  | O => b
  | S n => fix_items n (i + 1) count base settings (if b i =? 0 then b else zero_settings settings count base i b)
  end.
(* 55-59, 66-68: the three sections *)
Definition fix_unix := fix_items 228 0 228 228 [4; 2; 1; 2; 2; 2; 2].
Definition fix_upgx := fix_items 61 0 61 (61 + 1) [2; 2; 2; 2; 2; 2].
Definition fix_tecx := fix_items 44 0 44 44 [2; 2; 2; 2].

(* 81-88, 104 _fix_mtxm_0_0_null: n whole tiles, from offset i; also the numbers of the tiles *)
Fixpoint fix_mtxm (n : nat) (i : Z) (b : bytes) : bytes * list Z :=
  match n with
  | O => (b, [])
  | S n =>
      if (b i =? 0) && (b (i + 1) =? 0)
      then let (b, l) := fix_mtxm n (i + 2) (set (set b i 1) (i + 1) 0) in (b, i / 2 :: l)
      else fix_mtxm n (i + 2) b
  end.
