(* generate_linetable of the Rust extension.
   Source: src/rust/eudplib-epscript/src/linetable.rs, lines cited.  Bytes are integers 0..255; u32 arithmetic wraps (release build). *)
From Coq Require Import ZArith List Bool.
Import ListNotations.
Open Scope Z_scope.

Definition u32 (x : Z) : Z := x mod 2 ^ 32.
(* cast of a u32 to i32 *)
Definition as_i32 (x : Z) : Z := if x <? 2 ^ 31 then x else x - 2 ^ 32.
Definition as_u8 (x : Z) : Z := x mod 2 ^ 8.
(* 115-120 the bytes of an item after its first one *)
Fixpoint item_rest (l : list Z) : list Z * list Z :=
  match l with
  | b :: r => if Z.land b 0x80 =? 0x80 then ([], l) else let '(x, y) := item_rest r in (b :: x, y)
  | [] => ([], [])
  end.
(* 107-124 LinetableReader; fuel: the number of bytes bounds the number of items *)
Fixpoint items (fuel : nat) (l : list Z) : list (list Z) :=
  match fuel with
  | O => []
  | S f => match l with [] => [] | h :: r => let '(x, y) := item_rest r in (h :: x) :: items f y end
  end.
(* 146-154 encode_varint *)
Fixpoint varint_loop (fuel : nat) (num : Z) : list Z :=
  match fuel with
  | O => []
  | S f => if 0x40 <=? num then Z.lor (as_u8 (Z.land num 0x3F)) 0x40 :: varint_loop f (Z.shiftr num 6) else [Z.land (as_u8 num) 0xBF]
  end.
Definition encode_varint (num : Z) : list Z := varint_loop (S (Z.to_nat (Z.log2 num))) num.
(* 156-163 encode_svarint *)
Definition encode_svarint (num : Z) : list Z :=
  encode_varint (if num <? 0 then Z.lor (u32 (Z.shiftl (u32 (- num)) 1)) 1 else u32 (Z.shiftl (u32 num) 1)).
(* 165-179 encode_bytecode_to_entries *)
Fixpoint entries_loop (fuel : nat) (line_offset : Z) (byte_offset : nat) : list Z :=
  match fuel with
  | O => []
  | S f =>
      if Nat.eqb byte_offset 0 then []
      else if Nat.leb byte_offset 8 then as_u8 (Z.lor 232 (Z.of_nat byte_offset - 1)) :: encode_svarint line_offset
      else (as_u8 (Z.lor 232 (Z.of_nat 8 - 1)) :: encode_svarint line_offset) ++ entries_loop f line_offset (byte_offset - 8)
  end.
(* 141-144, 181-185 update_cursor and calc_linetable: the bytes added *)
Definition calc_linetable (cur_lineno : Z) (cur_bytecode : nat) (starts_line : Z) (code_length : nat) : list Z :=
  entries_loop (S (code_length - cur_bytecode)) (as_i32 (u32 (starts_line - cur_lineno))) (code_length - cur_bytecode).
(* 76-90 the loop; eps_line: lookup in eps_linemap (81); None: index out of range (panic) *)
Fixpoint generate_loop (eps_line : Z -> Z) (epspy_lines : list Z) (its : list (list Z)) (cur_lineno : Z) (cur_bytecode code_length : nat) : option (list Z) :=
  match its with
  | [] => Some (calc_linetable cur_lineno cur_bytecode cur_lineno code_length)
  | entry :: r =>
      match nth_error epspy_lines code_length with
      | Some epspy_line =>
          let new_startline := eps_line epspy_line in
          let num_bytecode := Z.to_nat (Z.land (hd 0 entry) 0x07 + 1) in
          match generate_loop eps_line epspy_lines r new_startline code_length (code_length + num_bytecode) with
          | Some t => Some (calc_linetable cur_lineno cur_bytecode new_startline code_length ++ t)
          | None => None
          end
      | None => None
      end
  end.
(* 41-91 generate_linetable with the map of lines and the lines of co_positions given *)
Definition generate_linetable (eps_line : Z -> Z) (linetable epspy_lines : list Z) : option (list Z) :=
  generate_loop eps_line epspy_lines (items (length linetable) linetable) 0 0 0.
