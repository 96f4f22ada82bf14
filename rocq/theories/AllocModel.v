(* Model of the object layout phase of the payload builder.
   Source: src/rust/src/allocator/payload.rs *)
From Coq Require Import ZArith List Bool.
Import ListNotations.
Open Scope Z_scope.

(* Outcome of a Rust function that may abort (index out of bounds = panic).
   [NoFuel] is only produced by the recursion bound of the model; the proofs
   show it is never produced. *)
Inductive res (A : Type) : Type :=
| Ok (a : A)
| Panic
| NoFuel.
Arguments Ok {A} _.
Arguments Panic {A}.
Arguments NoFuel {A}.

Definition bind {A B} (r : res A) (f : A -> res B) : res B :=
  match r with Ok a => f a | Panic => Panic | NoFuel => NoFuel end.

(* payload.rs 43-52, ObjAllocator::push: append one dword to the occupancy map;
   -1 = unused, otherwise index of the first dword of the run of used dwords.
   Simplified: i32 index arithmetic is unbounded (an object has < 2^31 dwords). *)
Definition push (occupmap : list Z) (b : bool) : list Z :=
  occupmap ++
  [ if negb b then -1
    else if negb (last occupmap (-1) =? -1) then last occupmap (-1)
    else Z.of_nat (length occupmap) ].

(* Occupancy map produced by a sequence of [push] calls. *)
Definition occup_of (pattern : list bool) : list Z := fold_left push pattern [].

(* payload.rs 183-192, the [while] loop: look for a position for one object,
   starting at [l] and object index [i]. Every Vec index is checked.
   The cast [as usize] of a negative i32 yields a huge index, which the next
   index operation rejects: modelled by Panic directly. *)
Fixpoint find_pos (fuel : nat) (sum occ : list Z) (l i : nat) : res nat :=
  match fuel with
  | O => NoFuel
  | S fuel' =>
    if Nat.ltb i (length occ) then
      match nth_error occ i with
      | None => Panic
      | Some o =>
        if o =? -1 then find_pos fuel' sum occ l (S i)
        else match nth_error sum (l + i) with
             | None => Panic
             | Some s =>
               if s =? -1 then find_pos fuel' sum occ l (S i)
               else if s - o <? 0 then Panic
               else find_pos fuel' sum occ (Z.to_nat (s - o)) 0
             end
      end
    else Ok l
  end.

(* Vec element update (IndexMut). *)
Fixpoint set_nth (xs : list Z) (i : nat) (v : Z) : list Z :=
  match xs, i with
  | [], _ => []
  | _ :: t, O => v :: t
  | x :: t, S i' => x :: set_nth t i' v
  end.

(* payload.rs 195-204, "Apply occupation map": reversed enumeration of the
   object's map; [n] counts down, the current index is n-1. *)
Fixpoint apply_occ (sum occ : list Z) (l n : nat) : res (list Z) :=
  match n with
  | O => Ok sum
  | S i =>
    let curoff := (l + i)%nat in
    match nth_error occ i, nth_error sum curoff with
    | Some occup, Some s =>
      if negb (occup =? -1) || negb (s =? -1) then
        match nth_error sum (S curoff) with
        | None => Panic
        | Some nx =>
          apply_occ (set_nth sum curoff
                       (if nx =? -1 then Z.of_nat curoff + 1 else nx))
                    occ l i
        end
      else apply_occ sum occ l i
    | Some occup, None =>
      (* [occup != -1 || sum[curoff] != -1] short-circuits; either way the
         out-of-range element is indexed afterwards or immediately *)
      Panic
    | None, _ => Panic
    end
  end.

(* payload.rs 174-214, body of the [for dwoccupmap in dwoccupmap_list] loop.
   State: (sum table, lallocaddr, payload_size in dwords, offsets in dwords). *)
Record st := mkst { s_sum : list Z; s_l : nat; s_size : nat; s_table : list nat }.

Definition fuel_for (sum occ : list Z) : nat :=
  (S (S (length sum)) * S (S (length occ)))%nat.

Definition place (s : st) (occ : list Z) : res st :=
  bind (find_pos (fuel_for (s_sum s) occ) (s_sum s) occ (s_l s) 0) (fun l =>
  bind (apply_occ (s_sum s) occ l (length occ)) (fun sum' =>
  Ok (mkst sum' l (Nat.max (s_size s) (l + length occ)) (s_table s ++ [l])))).

Fixpoint place_all (s : st) (occs : list (list Z)) : res st :=
  match occs with
  | [] => Ok s
  | occ :: rest => bind (place s occ) (fun s' => place_all s' rest)
  end.

Definition total_len (occs : list (list Z)) : nat :=
  fold_right (fun o n => (length o + n)%nat) O occs.

(* payload.rs 174-214, stack_objects: byte offsets and payload size in bytes. *)
Definition stack_objects (occs : list (list Z)) : res (list Z * Z) :=
  bind (place_all (mkst (repeat (-1) (total_len occs)) 0 0 []) occs) (fun s =>
  Ok (map (fun l => Z.of_nat l * 4) (s_table s), Z.of_nat (s_size s) * 4)).
