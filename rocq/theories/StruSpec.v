(* Meaning of structured programs, written without reference to triggers or
   jumps: a relation between the memory before, the way the statement ends, and
   the memory after. *)
From Coq Require Import ZArith List Bool.
From Verif Require Import Word Machine StruModel.
Import ListNotations.
Open Scope Z_scope.

Inductive outcome := Norm | Brk | Cnt.
Definition rel := mem -> outcome -> mem -> Prop.

(* all conditions hold (or, for neg, not all) *)
Definition holds (neg : bool) (cs : list cond) (m : mem) : bool := xorb neg (forallb (eval_cond m) cs).

Definition skip_rel : rel := fun m o m' => o = Norm /\ m' = m.
Definition seq_rel (A B : rel) : rel := fun m o m' =>
  (o <> Norm /\ A m o m') \/ exists m1, A m Norm m1 /\ B m1 o m'.
Definition if_rel (b : mem -> bool) (A B : rel) : rel := fun m o m' =>
  if b m then A m o m' else B m o m'.
Definition stop_rel (x : outcome) : rel := fun m o m' => o = x /\ m' = m.

(* the part of a loop body after the continue point; continue there starts it
   again. The boolean: the loop was left by break. *)
Inductive tail_rel (S : rel) : mem -> bool -> mem -> Prop :=
| tail_norm m m' : S m Norm m' -> tail_rel S m false m'
| tail_brk m m' : S m Brk m' -> tail_rel S m true m'
| tail_cnt m m1 b m' : S m Cnt m1 -> tail_rel S m1 b m' -> tail_rel S m b m'.
(* repeat the body until break *)
Inductive loop_rel (B S : rel) : mem -> mem -> Prop :=
| loop_brk m m' : B m Brk m' -> loop_rel B S m m'
| loop_tail m o m1 m' : B m o m1 -> o <> Brk -> tail_rel S m1 true m' -> loop_rel B S m m'
| loop_next m o m1 m2 m' : B m o m1 -> o <> Brk -> tail_rel S m1 false m2 -> loop_rel B S m2 m' -> loop_rel B S m m'.
(* the same at most n times *)
Inductive times_rel (B S : rel) : nat -> mem -> mem -> Prop :=
| times_0 m : times_rel B S 0 m m
| times_brk n m m' : B m Brk m' -> times_rel B S (Datatypes.S n) m m'
| times_tail n m o m1 m' : B m o m1 -> o <> Brk -> tail_rel S m1 true m' -> times_rel B S (Datatypes.S n) m m'
| times_next n m o m1 m2 m' : B m o m1 -> o <> Brk -> tail_rel S m1 false m2 -> times_rel B S n m2 m' -> times_rel B S (Datatypes.S n) m m'.
Definition done (R : mem -> mem -> Prop) : rel := fun m o m' => o = Norm /\ R m m'.

Fixpoint den (p : stmt) : rel :=
  let step o := match o with Some st => den st | None => skip_rel end in
  match p with
  | SLeaf c => done (lf_sem c)
  | SSkip => skip_rel
  | SSeq a b => seq_rel (den a) (den b)
  | SIf neg pre cs body rest => seq_rel (den pre) (if_rel (holds neg cs) (den body) (den_chain rest))
  | SWhile neg pre cs body st =>
      done (loop_rel (seq_rel (den pre) (if_rel (holds neg cs) (den body) (stop_rel Brk))) (step st))
  | SInf body st => done (loop_rel (den body) (step st))
  | SLoopN n body st => done (times_rel (den body) (step st) (Z.to_nat (u32 n)))
  | SBreak => stop_rel Brk
  | SContinue => stop_rel Cnt
  | SBreakIf neg cs => if_rel (holds neg cs) (stop_rel Brk) skip_rel
  | SContinueIf neg cs => if_rel (holds neg cs) (stop_rel Cnt) skip_rel
  end
with den_chain (c : chain) : rel :=
  match c with
  | CEnd => skip_rel
  | CElse p => den p
  | CElif neg pre cs body rest => seq_rel (den pre) (if_rel (holds neg cs) (den body) (den_chain rest))
  end.

(* conditions and leaves of a program *)
Fixpoint parts (p : stmt) : list leaf * list cond :=
  let app2 a b := (fst a ++ fst b, snd a ++ snd b) in
  let step o := match o with Some st => parts st | None => ([], []) end in
  match p with
  | SLeaf c => ([c], [])
  | SSkip | SBreak | SContinue => ([], [])
  | SSeq a b => app2 (parts a) (parts b)
  | SIf _ pre cs body rest => app2 (parts pre) (app2 ([], cs) (app2 (parts body) (parts_chain rest)))
  | SWhile _ pre cs body st => app2 (parts pre) (app2 ([], cs) (app2 (parts body) (step st)))
  | SInf body st => app2 (parts body) (step st)
  | SLoopN _ body st => app2 (parts body) (step st)
  | SBreakIf _ cs | SContinueIf _ cs => ([], cs)
  end
with parts_chain (c : chain) : list leaf * list cond :=
  let app2 a b := (fst a ++ fst b, snd a ++ snd b) in
  match c with
  | CEnd => ([], [])
  | CElse p => parts p
  | CElif _ pre cs body rest => app2 (parts pre) (app2 ([], cs) (app2 (parts body) (parts_chain rest)))
  end.

(* break and continue occur only inside loops *)
Fixpoint in_loops (inl : bool) (p : stmt) : bool :=
  let step o := match o with Some st => in_loops true st | None => true end in
  match p with
  | SLeaf _ | SSkip => true
  | SSeq a b => in_loops inl a && in_loops inl b
  | SIf _ pre _ body rest => in_loops inl pre && in_loops inl body && in_loops_chain inl rest
  | SWhile _ pre _ body st => in_loops true pre && in_loops true body && step st
  | SInf body st => in_loops true body && step st
  | SLoopN _ body st => in_loops true body && step st
  | SBreak | SContinue | SBreakIf _ _ | SContinueIf _ _ => inl
  end
with in_loops_chain (inl : bool) (c : chain) : bool :=
  match c with
  | CEnd => true
  | CElse p => in_loops inl p
  | CElif _ pre _ body rest => in_loops inl pre && in_loops inl body && in_loops_chain inl rest
  end.
