(* Images given as GRP files.  Source: src/eudplib/eudlib/eudgrp.py, lines cited. *)
From Coq Require Import ZArith List Bool.
From Verif Require Import Word Machine BinModel.
Import ListNotations.
Open Scope Z_scope.

(* 30-31 Evaluate; objaddr: the address of the object (C01, C04) *)
Definition Evaluate (objaddr : Z) : Z := objaddr + 2.
(* 33-34 GetDataSize *)
Definition GetDataSize (content : list Z) : nat := length content + 2.
(* 49-60: the headers of the frames i, i + 1, .. (n of them); None: struct.error, too few bytes.
   The sum of an offset and the address is taken modulo 2^32, as it is in memory after relocation (C04) *)
Fixpoint frame_headers (b : list Z) (selfaddr : Z) (i n : nat) : option (list Z) :=
  match n with
  | O => Some []
  | S n =>
      let fhoffset := (6 + 8 * i)%nat in
      match b2i1 b fhoffset, b2i1 b (fhoffset + 1), b2i1 b (fhoffset + 2), b2i1 b (fhoffset + 3), b2i4 b (fhoffset + 4), frame_headers b selfaddr (i + 1) n with
      | Some xoff, Some yoff, Some w, Some h, Some lto, Some r => Some (xoff :: yoff :: w :: h :: i2b4 (lto + selfaddr) ++ r)
      | _, _, _, _, _, _ => None
      end
  end.
(* 36-62 WritePayload: the bytes of the object *)
Definition WritePayload (b : list Z) (objaddr : Z) : option (list Z) :=
  match b2i2 b 0, b2i2 b 2, b2i2 b 4 with
  | Some fn, Some w, Some h =>
      match frame_headers b (Evaluate objaddr) 0 (Z.to_nat fn) with
      | Some fh => Some ([0; 0] ++ i2b2 fn ++ i2b2 w ++ i2b2 h ++ fh ++ skipn (6 + 8 * Z.to_nat fn) b)
      | None => None
      end
  | _, _, _ => None
  end.
