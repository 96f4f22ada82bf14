(* Making a payload trigger from the 2400 bytes of a map trigger.
   Source: src/eudplib/core/rawtrigger/rawtriggerdef.py 134-157, 190-219 *)
From Coq Require Import ZArith List Bool.
From Verif Require Import AllocModel PayloadModel PackModel.
Import ListNotations.
Open Scope Z_scope.

(* a constant field *)
Definition con (v : Z) : rloc := mkrloc v 0.
(* little-endian, struct.unpack_from *)
Definition word (t : bytes) (i : Z) : Z := bat t i + 2^8 * bat t (i + 1).
(* 142-145: "<IIIHBBBBH" and Condition(first eight, eudx = ninth): condition.py keeps the order *)
Definition cond_fields (t : bytes) (i : nat) : list (Z * rloc) :=
  let o := 20 * Z.of_nat i in
  [(4, con (dword t o)); (4, con (dword t (o + 4))); (4, con (dword t (o + 8))); (2, con (word t (o + 12)));
   (1, con (bat t (o + 14))); (1, con (bat t (o + 15))); (1, con (bat t (o + 16))); (1, con (bat t (o + 17))); (2, con (word t (o + 18)))].
(* 152-156: "<IIIIIIHBBBBH" and Action(first ten, eudx = twelfth): action.py 126-139 writes 0 for the eleventh *)
Definition act_fields (t : bytes) (i : nat) : list (Z * rloc) :=
  let o := 320 + 32 * Z.of_nat i in
  [(4, con (dword t o)); (4, con (dword t (o + 4))); (4, con (dword t (o + 8))); (4, con (dword t (o + 12)));
   (4, con (dword t (o + 16))); (4, con (dword t (o + 20))); (2, con (word t (o + 24)));
   (1, con (bat t (o + 26))); (1, con (bat t (o + 27))); (1, con (bat t (o + 28))); (1, con 0); (2, con (word t (o + 30)))].
(* 136-141 and 147-151 *)
Definition kept_conds (t : bytes) : list nat :=
  filter (fun i => let ty := bat t (20 * Z.of_nat i + 15) in negb (ty =? 22) && (1 <=? ty)) (seq 0 16).
Definition kept_acts (t : bytes) : list nat :=
  filter (fun i => let ty := bat t (320 + 32 * Z.of_nat i + 26) in negb (ty =? 47) && (1 <=? ty)) (seq 0 64).
(* 211-219; flags 146 *)
Definition section_trigger (prev next : rloc) (t : bytes) : wop :=
  WTrigger prev next (map (cond_fields t) (kept_conds t)) (map (act_fields t) (kept_acts t)) (con (Z.land (bat t (320 + 2048)) 5)).
(* 190-191, 207-219 *)
Definition section_obj (prev next : rloc) (t : bytes) : obj := mkobj [section_trigger prev next t] (Z.to_nat 2408).
