(* Line tables of compiled epScript modules on Python 3.10.
   Source: src/eudplib/epscript/epsimp.py, lines cited. *)
From Coq Require Import ZArith List Bool.
Import ListNotations.
Open Scope Z_scope.

(* 65-67 the loop over steps of 0xFF and more; fuel: enough steps *)
Fixpoint steps_loop (fuel : nat) (new_line_advance : Z) : list Z * Z :=
  match fuel with
  | O => ([], new_line_advance)
  | S f => if 0xFF <=? new_line_advance then let '(x, y) := steps_loop f (new_line_advance - 0xFF) in (0 :: 0xFF :: x, y) else ([], new_line_advance)
  end.
(* 60-70 the loop over pairs of co_lnotab; ep_lineno_map: line_mapper (C83); None: an exception (bytes of a negative number,
   or an odd number of bytes) *)
Fixpoint modify_lnotab (ep_lineno_map : Z -> Z) (current_line : Z) (co_lnotab : list Z) : option (list Z) :=
  match co_lnotab with
  | [] => Some []
  | [_] => None
  | bytecode_len :: line_advance :: r =>
      let next_line := current_line + line_advance in
      let new_line_advance := ep_lineno_map next_line - ep_lineno_map current_line in
      let '(x, y) := steps_loop (Z.to_nat new_line_advance) new_line_advance in
      if y <? 0 then None
      else match modify_lnotab ep_lineno_map next_line r with Some t => Some (x ++ bytecode_len :: y :: t) | None => None end
  end.
