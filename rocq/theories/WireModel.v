(* Tables of wire frames.
   Source: src/eudplib/eudlib/wireframe/wireframe.py *)
From Coq Require Import ZArith List Bool.
From Verif Require Import Word Machine.
Import ListNotations.
Open Scope Z_scope.

(* 206-248 _set_wireframe.  ptr: the variable of the table (EPD of the dword after its first);
   default32, default64: EPDs of the two arrays; is64: is64bit.  The current player is set
   back from its cache (C16); the readers are C66. *)
Definition set_wireframe (unit wireframe size ptr default32 default64 : Z) (is64 : bool) (m : mem) : mem :=
  if (unit <=? size) && (wireframe <=? size) then
    let unit := u32 (unit + unit) in
    let wireframe := u32 (wireframe + wireframe) in
    let unit := u32 (unit + ptr) in
    let cp := default32 in
    let cp := if is64 then default64 else cp in
    let cp := u32 (cp + wireframe) in
    let v1 := Z.land (get m cp) 0xFFFF0000 in
    let cp := u32 (cp + 1) in
    let v3 := get m cp in
    let cp := u32 (cp + 1) in
    let v5 := Z.land (get m cp) 0xFFFF in
    let m := upd m unit (wset 0xFFFF0000 (get m unit) v1) in
    let cp := u32 (unit + 1) in
    let m := upd m cp v3 in
    let cp := u32 (cp + 1) in
    upd m cp (wset 0xFFFF (get m cp) v5)
  else m.
(* 251-272 *)
Definition SetTranWire (unit wireframe ptr d32 d64 : Z) := set_wireframe unit wireframe 105 ptr d32 d64.
Definition SetGrpWire (unit wireframe ptr d32 d64 : Z) := set_wireframe unit wireframe 130 ptr d32 d64.
Definition SetWirefram (unit wireframe ptr d32 d64 : Z) := set_wireframe unit wireframe 227 ptr d32 d64.

(* utils: i2b2, i2b4 *)
Definition i2b2 (x : Z) : list Z := [x mod 256; x / 256 mod 256].
Definition i2b4 (x : Z) : list Z := [x mod 256; x / 256 mod 256; x / 65536 mod 256; x / 16777216 mod 256].
Definition at_ (data : list Z) (i : Z) : Z := nth (Z.to_nat i) data 0.
(* a dict of units: keys occur once *)
Definition dict := list (Z * Z).
Fixpoint find (n : Z) (src : dict) : option Z :=
  match src with [] => None | (k, v) :: r => if n =? k then Some v else find n r end.
(* 100, 136-140 *)
Definition wf (src : dict) (n : Z) : Z := match find n src with Some v => 2 * v | None => 2 * n end.
(* 101-106, 144-150 *)
Definition entry (src : dict) (data : list Z) (n : Z) : list Z :=
  let x := wf src n in
  if x =? 2 * n then [0; 0; 0; 0; 0; 0; 0; 0]
  else i2b2 (Z.shiftr (at_ data x) 16) ++ i2b4 (at_ data (x + 1)) ++ i2b2 (at_ data (x + 2)).
(* a, a + 1, .. *)
Fixpoint zrange (a : Z) (n : nat) : list Z := match n with O => [] | S n => a :: zrange (a + 1) n end.
(* 95-116 create_init64 with replacements: the bytes of the Db *)
Definition create_init64 (src : dict) (data : list Z) (size : nat) : list Z :=
  i2b2 (at_ data 0) ++ flat_map (entry src data) (zrange 0 size)
    ++ i2b2 (Z.shiftr (at_ data (Z.of_nat (length data) - 2)) 16) ++ i2b4 (at_ data (Z.of_nat (length data) - 1)).
(* 133-134 *)
Definition key_min (src : dict) : Z := fold_right Z.min 3 (map fst src).
Definition key_max (src : dict) : Z := fold_right Z.max 87 (map fst src).
(* 127-159 init32 with replacements: the bytes of the Db, which are copied to byte
   8 * key_min of the table *)
Definition init32 (src : dict) (data : list Z) : list Z :=
  i2b2 (at_ data (wf src (key_min src)))
    ++ flat_map (entry src data) (zrange (key_min src) (Z.to_nat (key_max src + 1 - key_min src)))
    ++ i2b2 (Z.shiftr (at_ data (wf src (key_max src) + 2)) 16).
