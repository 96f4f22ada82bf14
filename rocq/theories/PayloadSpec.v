(* What a sequence of writes means, independent of the two buffers: a sequence
   of items laid out one after another. *)
From Coq Require Import ZArith List Bool.
From Verif Require Import AllocModel PayloadModel.
Import ListNotations.
Open Scope Z_scope.

Inductive item :=
| IB (bs : list Z)      (* literal bytes *)
| IR (r : rloc)         (* a dword holding a (possibly relocatable) value *)
| IS (n : nat).         (* bytes left alone *)

Definition field_item (f : Z * rloc) : item :=
  if fst f =? 4 then IR (snd f) else IB (le_bytes (Z.to_nat (fst f)) (r_off (snd f))).

Definition items (o : wop) : list item :=
  match o with
  | WByte v => [IB (le_bytes 1 v)]
  | WWord v => [IB (le_bytes 2 v)]
  | WDword r => [IR r]
  | WPack fs => map field_item fs
  | WBytes bs => [IB bs]
  | WSpace n => [IS n]
  | WTrigger p n cs acts f =>
      [IR p; IR n] ++ concat (map (map field_item) cs)
      ++ (if Nat.ltb (length cs) 16 then [IB (repeat 0 20); IS (20 * (15 - length cs))] else [])
      ++ concat (map (map field_item) acts)
      ++ (if Nat.ltb (length acts) 64 then [IB (repeat 0 32); IS (32 * (63 - length acts))] else [])
      ++ [IR f; IS 27; IB [0]]
  end.

Definition all_items (ops : list wop) : list item := concat (map items ops).

Definition item_len (i : item) : nat :=
  match i with IB bs => length bs | IR _ => 4%nat | IS n => n end.

Fixpoint items_len (is : list item) : nat :=
  match is with [] => O | i :: r => (item_len i + items_len r)%nat end.

Definition item_byte (i : item) (k : nat) : option Z :=
  match i with
  | IB bs => nth_error bs k
  | IR r => nth_error (le_bytes 4 (r_off r)) k
  | IS _ => None
  end.

(* byte written at relative position k, if any *)
Fixpoint byte_at (is : list item) (k : nat) : option Z :=
  match is with
  | [] => None
  | i :: r => if Nat.ltb k (item_len i) then item_byte i k else byte_at r (k - item_len i)
  end.

(* positions (from [cur]) and values of all dword items *)
Fixpoint rels_at (cur : nat) (is : list item) : list (nat * rloc) :=
  match is with
  | [] => []
  | IR r :: rest => (cur, r) :: rels_at (cur + 4) rest
  | i :: rest => rels_at (cur + item_len i) rest
  end.

(* positions of the dwords with relocation mode m *)
Definition mode_positions (m : Z) (l : list (nat * rloc)) : list nat :=
  map fst (filter (fun p => r_mode (snd p) =? m) l).

(* A write sequence is aligned when every write of 4 or more bytes starts at a
   multiple of 4 (relative to the object), and triggers are well formed. *)
Definition op_aligned (cur : nat) (o : wop) : bool :=
  match o with
  | WByte _ | WWord _ | WSpace _ => true
  | WDword _ => Nat.eqb (Nat.modulo cur 4) 0
  | WPack fs => Nat.ltb (pack_size fs) 4 || Nat.eqb (Nat.modulo cur 4) 0
  | WBytes bs => Nat.ltb (length bs) 4 || Nat.eqb (Nat.modulo cur 4) 0
  | WTrigger _ _ cs acts _ =>
      Nat.eqb (Nat.modulo cur 4) 0 &&
      Nat.leb (length cs) 16 && Nat.leb (length acts) 64 &&
      forallb (fun c => Nat.eqb (pack_size c) 20) cs &&
      forallb (fun a => Nat.eqb (pack_size a) 32) acts
  end.

Fixpoint ops_aligned (cur : nat) (ops : list wop) : bool :=
  match ops with
  | [] => true
  | o :: rest => op_aligned cur o && ops_aligned (cur + items_len (items o)) rest
  end.

(* Field sizes are those of the struct codes 'B','H','I'. *)
Definition field_ok (f : Z * rloc) : bool :=
  (fst f =? 1) || (fst f =? 2) || (fst f =? 4).
Definition op_fields_ok (o : wop) : bool :=
  match o with
  | WPack fs => forallb field_ok fs
  | WTrigger _ _ cs acts _ => forallb (forallb field_ok) cs && forallb (forallb field_ok) acts
  | _ => true
  end.
