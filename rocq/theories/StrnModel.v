(* Byte streams and searching in strings.
   Source: src/eudplib/memio/byterw.py (EUDByteStream), src/eudplib/string/strfunc.py

   Variable level, as in TextModel.v: a stream is (offset, suboffset). *)
From Coq Require Import ZArith List Bool.
From Verif Require Import Word Machine MachineProofs VarModel ReadModel BlkModel.
Import ListNotations.
Open Scope Z_scope.

(* byterw.py 258-263: EUDByteStream.seekoffset *)
Definition bs_seek (offset : Z) : pos := (u32 (u32 offset / 4 + - (0x58A364 / 4)), u32 offset mod 4).
(* 304-308: the eight triggers that read byte i of the cell *)
Definition bs_bits (v : Z) (i : Z) : Z :=
  fold_left (fun ret j => if Z.testbit v (j + 8 * i) then u32 (ret + 2 ^ j) else ret) [0; 1; 2; 3; 4; 5; 6; 7] 0.
(* 284-318: EUDByteStream.readbyte *)
Definition bs_read (m : mem) (q : pos) : Z * pos :=
  let '(o, s) := q in
  if s =? 0 then (bs_bits (get m o) 0, (o, u32 (s + 1)))
  else if s =? 1 then (bs_bits (get m o) 1, (o, u32 (s + 1)))
  else if s =? 2 then (bs_bits (get m o) 2, (o, u32 (s + 1)))
  else (bs_bits (get m o) 3, (u32 (o + 1), 0)).
(* 347-355: the value of the action `write`, for suboffset i > 0 *)
Definition bs_value (byte i : Z) : Z :=
  fold_left (fun v j => if Z.testbit byte j then u32 (v + 2 ^ (j + i * 8)) else v) [0; 1; 2; 3; 4; 5; 6; 7] 0.
(* 320-370: EUDByteStream.writebyte; the suboffset is always below 4 *)
Definition bs_write (m : mem) (q : pos) (byte : Z) : mem * pos :=
  let '(o, s) := q in
  let value := if s =? 0 then byte else bs_value byte s in
  let m := upd m o (wset (Z.shiftl 0xFF (8 * s)) (get m o) value) in
  let s := u32 (s + 1) in
  (m, if 4 <=? s then (u32 (o + 1), 0) else (o, s)).

(* ---- strfunc.py 129-170: f_strnstr ---- *)
(* 153-158: compare the rest of the substring; true: its end is reached *)
Fixpoint match_loop (fuel : nat) (r : pos) (q : pos) (m : mem) : option bool :=
  match fuel with
  | O => None
  | S n =>
      let (d, r) := readbyte m r in
      if d =? 0 then Some true
      else let (a, q) := bs_read m q in if a =? d then match_loop n r q m else Some false
  end.
(* 140-169; q: the stream bs1, r: the reader br2 *)
Fixpoint strnstr_loop (fuel : nat) (string substring b count dst : Z) (q r : pos) (m : mem) : option Z :=
  match fuel with
  | O => None
  | S n =>
      if 1 <=? count then
        let (a, q) := bs_read m q in
        let dst := u32 (dst + 1) in
        let count := u32 (count - 1) in
        if a =? 0 then Some (u32 (-1))
        else if negb (a =? b) then strnstr_loop n string substring b count dst q r m
        else
          match match_loop fuel r q m with
          | None => None
          | Some true => Some (u32 (string + dst))
          | Some false => strnstr_loop n string substring b count dst q (seekoffset (u32 (substring + 1))) m
          end
      else Some (u32 (-1))
  end.
Definition f_strnstr (fuel : nat) (string substring count : Z) (m : mem) : option Z :=
  let (b, r) := readbyte m (seekoffset substring) in
  if b =? 0 then Some string else strnstr_loop fuel string substring b count (u32 (-1)) (bs_seek string) r m.
