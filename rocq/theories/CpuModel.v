(* Conversion of text from code page 949 to UTF-8.
   Source: src/eudplib/string/cputf8.py, lines cited.  Reader br1 and writer bw1 are
   those of BlkModel.v. *)
From Coq Require Import ZArith List Bool.
From Verif Require Import Word Machine MachineProofs VarModel ReadModel BlkModel.
Import ListNotations.
Open Scope Z_scope.

(* 30-33: the conversion table, a list assigned entry by entry and then a constant EUDArray;
   here a function from indices *)
Definition cvtb (table : list (Z * Z * Z)) : Z -> Z :=
  fold_left (fun f e => let '(ch1, ch2, tab) := e in fun k => if k =? ch1 + ch2 * 256 then tab else f k) table (fun _ => 0).

(* 38-78: the loop; also the final byte and the result.  The table is not part of m: the
   text is not written over it.  b1, b2, b3 are dword variables *)
Fixpoint cvt_loop (fuel : nat) (tab : Z -> Z) (r q : pos) (dst : Z) (m : mem) : option (Z * mem) :=
  match fuel with
  | O => None
  | S n =>
      let (b1, r) := readbyte m r in
      if b1 =? 0 then Some (dst, fst (writebyte m q 0))
      else if b1 <? 128 then
        let dst := u32 (dst + 1) in
        let (m, q) := writebyte m q b1 in cvt_loop n tab r q dst m
      else
        let (b2, r) := readbyte m r in
        if b2 =? 0 then Some (dst, fst (writebyte m q 0))
        else
          let code := u32 (tab (b2 * 256 + b1)) in
          if code <=? 0x07FF then
            let (m, q) := writebyte m q (u32 (code / 64 + 192)) in
            let (m, q) := writebyte m q (u32 (Z.land code 63 + 128)) in
            cvt_loop n tab r q (u32 (dst + 2)) m
          else
            let (m, q) := writebyte m q (u32 (code / 4096 + 224)) in
            let (m, q) := writebyte m q (u32 (Z.land (code / 64) 63 + 128)) in
            let (m, q) := writebyte m q (u32 (Z.land code 63 + 128)) in
            cvt_loop n tab r q (u32 (dst + 3)) m
  end.
(* 27-36 *)
Definition f_cp949_to_utf8_cpy (fuel : nat) (table : list (Z * Z * Z)) (dst src : Z) (m : mem) : option (Z * mem) :=
  cvt_loop fuel (cvtb table) (seekoffset src) (seekoffset dst) dst m.
