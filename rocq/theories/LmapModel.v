(* The map from lines of a compiled epScript module to lines of its source.
   Source: src/eudplib/epscript/epsimp.py, lines cited.  Bytes are integers 0..255. *)
From Coq Require Import ZArith List Bool.
Import ListNotations.
Open Scope Z_scope.

(* 144 data.replace(b"\r\n", b"\n") *)
Fixpoint replace_crlf (l : list Z) : list Z :=
  match l with
  | [] => []
  | b :: r => match r with c :: r' => if (b =? 13) && (c =? 10) then 10 :: replace_crlf r' else b :: replace_crlf r | [] => [b] end
  end.
(* 145 data.split(b"\n") *)
Fixpoint split_lf (l : list Z) : list (list Z) :=
  match l with
  | [] => [[]]
  | b :: r => if b =? 10 then [] :: split_lf r else match split_lf r with x :: t => (b :: x) :: t | [] => [[b]] end
  end.
(* 24 lineno_regex: b" *# \\(Line (\\d+)\\) (.+)", matched at the start of a line without line feeds (146), and 149 int of
   the first group *)
Fixpoint skip_spaces (l : list Z) : list Z := match l with b :: r => if b =? 32 then skip_spaces r else l | [] => [] end.
Fixpoint strip (p l : list Z) : option (list Z) :=
  match p, l with
  | [], _ => Some l
  | a :: p', b :: l' => if a =? b then strip p' l' else None
  | _, [] => None
  end.
Fixpoint digits (acc : Z) (seen : bool) (l : list Z) : option (Z * list Z) :=
  match l with
  | b :: r => if (48 <=? b) && (b <=? 57) then digits (10 * acc + (b - 48)) true r else if seen then Some (acc, l) else None
  | [] => if seen then Some (acc, l) else None
  end.
Definition match_line (l : list Z) : option Z :=
  match strip [35; 32; 40; 76; 105; 110; 101; 32] (skip_spaces l) with
  | Some r =>
      match digits 0 false r with
      | Some (n, r') => match strip [41; 32] r' with Some (_ :: _) => Some n | _ => None end
      | None => None
      end
  | None => None
  end.
(* 142-149 the loop that fills code_line and ep_lineno_map *)
Fixpoint scan (lineno : Z) (ls : list (list Z)) (code_line ep_lineno_map : list Z) : list Z * list Z :=
  match ls with
  | [] => (code_line, ep_lineno_map)
  | l :: r =>
      match match_line l with
      | Some n => scan (lineno + 1) r (code_line ++ [lineno + 1]) (ep_lineno_map ++ [n])
      | None => scan (lineno + 1) r code_line ep_lineno_map
      end
  end.
(* 154 bisect_right of the standard library *)
Fixpoint bisect_loop (fuel : nat) (a : list Z) (x : Z) (lo hi : nat) : nat :=
  match fuel with
  | O => lo
  | S f =>
      if Nat.ltb lo hi then
        let mid := Nat.div (lo + hi) 2 in
        if x <? nth mid a 0 then bisect_loop f a x lo mid else bisect_loop f a x (mid + 1) hi
      else lo
  end.
Definition bisect_right (a : list Z) (x : Z) : nat := bisect_loop (length a) a x 0 (length a).
(* 152-157 line_mapper; lines are not negative, so the index is not *)
Definition line_mapper (data : list Z) (line : Z) : Z :=
  let '(code_line, ep_lineno_map) := scan 0 (split_lf (replace_crlf data)) [0] [0] in
  let lineno := nth (bisect_right code_line line - 1) ep_lineno_map 0 in
  if negb (line =? 0) then Z.max 0 lineno else lineno.
