(* Flattening of nested iterables. Source: src/eudplib/utils/etc.py 96-125.
   A Python value is seen through what the two functions ask of it: whether it
   is a string or has dont_flatten (Whole), and otherwise what "for item in v"
   does: produce items and then stop, raise TypeError (values that are not
   iterable do so before the first item) or raise something else. Values with
   the same id are the same object. Iterators that are shared and therefore
   exhausted half-way, and Python's recursion limit, are not modelled. *)
From Coq Require Import ZArith List.
Import ListNotations.
Open Scope Z_scope.

Inductive ending := Stop | TypeErr | OtherErr.
Inductive val :=
| Whole (id : Z)
| Iter (id : Z) (items : list val) (e : ending).

(* etc.py 99-114: the list after the call, or None if an exception other than
   TypeError propagates. A nested call can only raise such an exception. *)
Fixpoint FlattenList (lst : val) (ret : list val) : option (list val) :=
  match lst with
  | Whole _ => Some (ret ++ [lst])
  | Iter _ items e =>
      match (fix loop (items : list val) (ret : list val) : option (list val) :=
               match items with
               | [] => Some ret
               | item :: rest =>
                   match FlattenList item ret with
                   | Some ret => loop rest ret
                   | None => None
                   end
               end) items ret with
      | None => None
      | Some ret =>
          match e with
          | Stop => Some ret
          | TypeErr => Some (ret ++ [lst])
          | OtherErr => None
          end
      end
  end.

(* etc.py 117-125: the values yielded, and whether an exception other than
   TypeError then comes out of the generator *)
Fixpoint FlattenIter (lst : val) : list val * bool :=
  match lst with
  | Whole _ => ([lst], false)
  | Iter _ items e =>
      let (ys, ex) :=
        (fix loop (items : list val) : list val * bool :=
           match items with
           | [] => ([], false)
           | item :: rest =>
               let (ys, ex) := FlattenIter item in
               if ex then (ys, true)
               else let (zs, ex') := loop rest in (ys ++ zs, ex')
           end) items in
      if ex then (ys, true)
      else match e with
           | Stop => (ys, false)
           | TypeErr => (ys ++ [lst], false)
           | OtherErr => (ys, true)
           end
  end.
