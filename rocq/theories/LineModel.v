(* Line tables of compiled epScript modules, for Python 3.11 (get_instructions leaves out the
   cache units, get_instruction_size puts them back).  Mapping of lines (epsimp.py line_mapper) is applied before.
   Source: src/eudplib/epscript/linetable_calculator.py, lines cited. *)
From Coq Require Import ZArith List Bool.
Import ListNotations.
Open Scope Z_scope.

(* 274-283 _encode_varint; fuel: enough steps for the loop *)
Fixpoint varint_loop (fuel : nat) (num : Z) : list Z :=
  match fuel with
  | O => []
  | S f => if 0x40 <=? num then Z.lor (Z.land num 0x3F) 0x40 :: varint_loop f (Z.shiftr num 6) else [Z.lor num 0]
  end.
Definition encode_varint (num : Z) : list Z := varint_loop (S (Z.to_nat (Z.log2 num))) num.
(* 285-290 _encode_svarint *)
Definition encode_svarint (num : Z) : list Z := encode_varint (if num <? 0 then Z.lor (Z.shiftl (- num) 1) 1 else Z.shiftl num 1).
(* 292-301 _encode_bytecode_to_entries_py311; byte_offset counts code units *)
Fixpoint entries_loop (fuel : nat) (line_offset : Z) (byte_offset : nat) : list Z :=
  match fuel with
  | O => []
  | S f =>
      if Nat.eqb byte_offset 0 then []
      else if Nat.leb byte_offset 8 then Z.lor 232 (Z.of_nat byte_offset - 1) :: encode_svarint line_offset
      else (Z.lor 232 (Z.of_nat 8 - 1) :: encode_svarint line_offset) ++ entries_loop f line_offset (byte_offset - 8)
  end.
Definition encode_entries (line_offset : Z) (byte_offset : nat) : list Z := entries_loop (S byte_offset) line_offset byte_offset.
(* 138-158 assemble with 303-318 calc_linetable_py311 and 219-223 update_cursor.  An instruction is the line it
   starts (already mapped), if any, and its number of code units (198-202 get_instruction_size / 2).
   cur_lineno; units: code units between cur_bytecode and the end of the code so far *)
Fixpoint assemble (cur_lineno : Z) (units : nat) (instrs : list (option Z * nat)) : list Z :=
  match instrs with
  | [] => encode_entries 0 units (* 156-158 *)
  | (starts_line, size) :: r =>
      let line_offset := match starts_line with Some l => l - cur_lineno | None => 0 end in
      encode_entries line_offset units ++ assemble (match starts_line with Some l => l | None => cur_lineno end) size r
  end.
(* 136, 215-216: the table of a code object whose mapped first line is firstlineno *)
Definition linetable (firstlineno : Z) (instrs : list (option Z * nat)) : list Z := assemble firstlineno 0 instrs.
