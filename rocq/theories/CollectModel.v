(* Collection of the objects a payload consists of.
   Source: src/eudplib/core/allocator/payload.py 80-180 and 240-263,
   core/variable/vbuf.py 26-62 and 123-178, ctrlstru/jumptable.py 15-50 and
   96-112, core/variable/eudv.py 94-108, core/variable/eudxv.py 18-32,
   core/eudstruct/vararray.py 36-63, collections/objpool.py 21-36.

   Level of the model: an expression is represented by what evaluating it
   touches in the collecting phase. An expression with an object below it
   touches that object; a variable, variable array, object pool or jump table
   (a "key") is given slots in the current buffer the first time it is
   evaluated, and then touches the buffer. Integers touch nothing and are left
   out. Progress output is left out. A Python exception is Err. The order in
   which Python goes through a set is a parameter. *)
From Coq Require Import List Arith Bool.
Import ListNotations.

(* rust allocator/constexpr.rs 43-55, 274-283: an expression evaluates its base *)
Inductive ref := RObj (o : nat) | RKey (b k : nat).

(* One variable of a buffer: what its fields other than the next pointer
   touch, and what the next pointer touches (vbuf.py 143-155). EUDVarBuffer and
   EUDJumpBuffer have one field per slot; it is put in s_act. *)
Record slot := mkslot { s_act : list ref; s_nptr : list ref }.
Definition slot_refs (s : slot) : list ref := s_act s ++ s_nptr s.

(* How CollectDependency goes through the object.
   KPlain: a fixed list of expressions (rawtriggerdef.py 197-205, or the default
   of rust eudobj.rs 67-70), and what DynamicConstructed says (strcommon.py 194).
   KList: EUDVarBuffer, EUDJumpBuffer (vbuf.py 59-62, jumptable.py 47-50).
   KDeque: EUDCustomVarBuffer (vbuf.py 167-178). *)
Inductive kind := KPlain (dyn : bool) (deps : list ref) | KList | KDeque.

Record prog := mkprog { p_kind : nat -> kind; p_slots : nat -> list slot }.

Definition is_dyn (P : prog) (o : nat) : bool :=
  match p_kind P o with KPlain d _ => d | _ => true end.

(* _found_objects_dict in insertion order, _untraversed_objects (last first),
   _dynamic_objects_set; the keys of all _vdict/_jdict; the slots of a buffer *)
Record st := mkst { c_found : list (nat * nat); c_stack : list nat; c_dyn : list nat;
                    c_keys : list (nat * nat); c_slots : nat -> list slot }.
Definition st0 : st := mkst [] [] [] [] (fun _ => []).
Definition objs (s : st) : list nat := map fst (c_found s).

Inductive res := Done (s : st) | Err | Fuel.

Definition memb (o : nat) (l : list nat) : bool := existsb (Nat.eqb o) l.
Definition memk (b k : nat) (l : list (nat * nat)) : bool :=
  existsb (fun p => Nat.eqb b (fst p) && Nat.eqb k (snd p)) l.

(* payload.py 246-253 GetObjectAddr *)
Definition touch (P : prog) (o : nat) (s : st) : st :=
  if memb o (objs s) then s
  else mkst (c_found s ++ [(o, length (c_found s))]) (o :: c_stack s)
            (if is_dyn P o then c_dyn s ++ [o] else c_dyn s) (c_keys s) (c_slots s).

(* vbuf.py 44-54, 143-162, jumptable.py 38-42: new slots at the end *)
Definition new_key (P : prog) (b k : nat) (s : st) : st :=
  mkst (c_found s) (c_stack s) (c_dyn s) (c_keys s ++ [(b, k)])
       (fun b' => if Nat.eqb b' b then c_slots s b' ++ p_slots P k else c_slots s b').

(* payload.py 101-103, 105-108; eudv.py 102-108, eudxv.py 26-32,
   vararray.py 58-63, objpool.py 30-36, jumptable.py 105-111 *)
Definition eval (P : prog) (r : ref) (s : st) : st :=
  match r with
  | RObj o => touch P o s
  | RKey b k => touch P b (if memk b k (c_keys s) then s else new_key P b k s)
  end.
Definition evals (P : prog) (l : list ref) (s : st) : st :=
  fold_left (fun s r => eval P r s) l s.

Section S.
Variable P : prog.
(* the order of iteration over a set with these elements *)
Variable ord : list nat -> list nat.

(* vbuf.py 59-62, jumptable.py 47-50: a Python list that grows while it is gone
   through; the loop sees the new items *)
Fixpoint klist (fuel b i : nat) (s : st) : res :=
  match fuel with
  | O => Fuel
  | S fuel =>
      match nth_error (c_slots s b) i with
      | None => Done s
      | Some sl => klist fuel b (S i) (evals P (slot_refs sl) s)
      end
  end.

(* vbuf.py 168-170: _5nptrs, the next pointers of the first five slots. It is a
   deque: when it has changed, the loop raises RuntimeError. *)
Fixpoint dq_nptrs (b n : nat) (l : list slot) (s : st) : res :=
  match l with
  | [] => Done s
  | sl :: t => let s' := evals P (s_nptr sl) s in
               if Nat.eqb (min 5 (length (c_slots s' b))) n then dq_nptrs b n t s' else Err
  end.
(* vbuf.py 171-174: _actnptr_pairs, a list: the fields of slot j together with
   the next pointer of slot j + 5 (see 146-152) *)
Fixpoint dq_pairs (fuel b j : nat) (s : st) : res :=
  match fuel with
  | O => Fuel
  | S fuel =>
      match nth_error (c_slots s b) j, nth_error (c_slots s b) (j + 5) with
      | Some a, Some n => dq_pairs fuel b (S j) (evals P (s_act a ++ s_nptr n) s)
      | _, _ => Done s
      end
  end.
(* vbuf.py 175-178: _5acts, the fields of the last five slots, again a deque;
   every new slot changes it *)
Fixpoint dq_acts (b n : nat) (l : list slot) (s : st) : res :=
  match l with
  | [] => Done s
  | sl :: t => let s' := evals P (s_act sl) s in
               if Nat.eqb (length (c_slots s' b)) n then dq_acts b n t s' else Err
  end.
Definition bindr (r : res) (f : st -> res) : res :=
  match r with Done s => f s | Err => Err | Fuel => Fuel end.
(* vbuf.py 167-178 *)
Definition kdeque (fuel b : nat) (s : st) : res :=
  bindr (dq_nptrs b (min 5 (length (c_slots s b))) (firstn 5 (c_slots s b)) s) (fun s1 =>
  bindr (dq_pairs fuel b 0 s1) (fun s2 =>
  let n := length (c_slots s2 b) in dq_acts b n (skipn (n - 5) (c_slots s2 b)) s2)).

(* obj.CollectDependency(objc) *)
Definition collect1 (fuel o : nat) (s : st) : res :=
  match p_kind P o with
  | KPlain _ deps => Done (evals P deps s)
  | KList => klist fuel o 0 s
  | KDeque => kdeque fuel o s
  end.

(* payload.py 137-149 *)
Fixpoint traverse (cfuel fuel : nat) (s : st) : res :=
  match fuel with
  | O => Fuel
  | S fuel =>
      match c_stack s with
      | [] => Done s
      | o :: t => bindr (collect1 cfuel o (mkst (c_found s) t (c_dyn s) (c_keys s) (c_slots s)))
                        (traverse cfuel fuel)
      end
  end.

(* payload.py 151-155. A set that changed size raises RuntimeError. *)
Fixpoint pass (cfuel n : nat) (l : list nat) (s : st) : res :=
  match l with
  | [] => Done s
  | o :: t => bindr (collect1 cfuel o s) (fun s' =>
              if Nat.eqb (length (c_dyn s')) n then pass cfuel n t s' else Err)
  end.

(* payload.py 136-155 *)
Fixpoint outer (cfuel fuel : nat) (s : st) : res :=
  match fuel with
  | O => Fuel
  | S fuel =>
      match c_stack s with
      | [] => Done s
      | _ => bindr (traverse cfuel cfuel s) (fun s1 =>
             bindr (pass cfuel (length (c_dyn s1)) (ord (c_dyn s1)) s1) (outer cfuel fuel))
      end
  end.

(* payload.py 113-158; root is an object (a Forward touches what it stands for) *)
Definition collect_objects (fuel root : nat) : res :=
  bindr (outer fuel fuel (eval P (RObj root) st0)) (fun s =>
  match c_found s with [] => Err | _ => Done s end).
End S.

(* payload.py 160-169; sh: random.shuffle *)
Definition shuffled (sh : list nat -> list nat) (found : list (nat * nat)) : list (nat * nat) :=
  match map fst found with
  | [] => []
  | root :: t => let l := rev (sh t ++ [root]) in combine l (seq 0 (length l))
  end.
