(* Shared storage of variables and jump triggers.
   Source: src/eudplib/core/variable/vbuf.py, src/eudplib/ctrlstru/jumptable.py *)
From Coq Require Import ZArith List Bool.
From Verif Require Import AllocModel PayloadModel.
Import ListNotations.
Open Scope Z_scope.

(* An initial value: a Python int, or an address expression (here by its value). *)
Inductive ival := VInt (z : Z) | VAddr (z : Z).
Definition ival_val (v : ival) : Z := match v with VInt z => z | VAddr z => z end.
Definition ival_is (v : ival) (z : Z) : bool := match v with VInt x => x =? z | VAddr _ => false end.
(* WriteDword of a value (relocation of address expressions is the subject of
   C05; here the value is final) *)
Definition wdword (z : Z) : wop := WDword (mkrloc z 0).

(* output[p:p+len] = bs, in range *)
Definition put (out : list Z) (p : nat) (bs : list Z) : list Z :=
  firstn p out ++ bs ++ skipn (p + length bs) out.
(* output[a:b] *)
Definition slice {A} (out : list A) (a b : nat) : list A := firstn (b - a) (skipn a out).

(* ---------------- EUDVarBuffer, vbuf.py 57-102 ---------------- *)
(* vbuf.py 58-67; 59 is inside "for _ in range(4)" *)
Definition vb_head : list wop :=
  concat (repeat [wdword 0; WSpace 15; WByte 0; WSpace 52] 4) ++ [wdword 0; WSpace 15; WByte 0; WSpace 16].

(* vbuf.py 69-71 *)
Definition vb_template : list Z :=
  put (put (repeat 0 72) 0 [255; 255; 255; 255]) 24 [0; 0; 45; 7; 0; 0; 83; 67; 4; 0; 0; 0].

(* vbuf.py 74-88: the loop over initial values; state (output, heads, writes) *)
Fixpoint vb_loop (i : nat) (vals : list ival) (out : list Z) (heads : nat) (ws : list wop)
  : list Z * nat * list wop :=
  match vals with
  | [] => (out, heads, ws)
  | v :: r =>
      if ival_is v 0 then vb_loop (S i) r out heads ws
      else
        let heade := (i * 72 + 20)%nat in
        match v with
        | VInt z => vb_loop (S i) r (put out heade (le_bytes 4 z)) heads ws
        | VAddr z => vb_loop (S i) r out (heade + 4) (ws ++ [WBytes (slice out heads heade); wdword z])
        end
  end.

(* vbuf.py 90-102 *)
Definition vb_tail : list wop :=
  [WSpace 32; wdword 4; WSpace 27; WByte 0]
  ++ concat (repeat [WSpace 40; wdword 4; WSpace 27; WByte 0] 27).

Definition vb_ops (vals : list ival) : list wop :=
  let '(out, heads, ws) := vb_loop 0 vals (concat (repeat vb_template (length vals))) 0 [] in
  vb_head ++ ws ++ [WBytes (skipn heads out)] ++ vb_tail.

(* vbuf.py 50-51 GetDataSize *)
Definition vb_size (n : nat) : Z := 2404 + 72 * (Z.of_nat n - 1).

(* vbuf.py 38-42 create_vartrigger / Evaluate: trigger i starts 4 bytes before
   object offset 72*i *)
Definition vb_trigger (i : nat) : Z := 72 * Z.of_nat i - 4.

(* ---------------- EUDJumpBuffer, jumptable.py 53-82 ---------------- *)
Definition jb_a (p : Z) : list wop := [wdword p; WSpace 12; wdword 0].
Definition jb_b (p : Z) : list wop := [wdword p; WSpace 4; wdword 0; WSpace 4; wdword 0].
Definition jb_c (p : Z) : list wop := [wdword p; WSpace 4; wdword 0; wdword 8; wdword 0].
Definition jb_tail : list wop :=
  [WSpace 8; wdword 0; wdword 8]
  ++ concat (repeat [WSpace 12; wdword 0; wdword 8] 16)
  ++ concat (repeat [WSpace 16; wdword 8] (117 - 16)).
Definition jb_ops (ptrs : list Z) : list wop :=
  flat_map jb_a (firstn 17 ptrs)
  ++ flat_map jb_b (firstn (118 - 17) (skipn 17 ptrs))
  ++ flat_map jb_c (skipn 118 ptrs)
  ++ jb_tail.
Definition jb_size (n : nat) : Z := 2356 + 20 * Z.of_nat n.
Definition jb_trigger (i : nat) : Z := 20 * Z.of_nat i - 4.
