(* Structured control flow: the trigger scope, branches, jumps, if / while /
   loop blocks, extended triggers.
   Source: src/eudplib/core/rawtrigger/triggerscope.py, trigger/branch.py,
   trigger/triggerdef.py, ctrlstru/{basicstru,simpleblock,loopblock}.py *)
From Coq Require Import ZArith List Bool.
From Verif Require Import Word Machine MachineProofs VarModel FuncModel.
Import ListNotations.
Open Scope Z_scope.

(* A place control can go to: an emitted trigger (by number), or a Forward. *)
Inductive loc := P (k : nat) | F (f : nat).
(* What the linker fixes: EPD index of each trigger, of what each Forward
   resolves to, and of each Db(4). *)
Record lay := mklay { L_T : nat -> Z; L_F : nat -> Z; L_D : nat -> Z }.
Definition lv (L : lay) (l : loc) : Z := match l with P k => L_T L k | F f => L_F L f end.
Definition item := lay -> trig.
(* a condition, whose fields may refer to places *)
Definition cnd := lay -> cond.
Definition konst (cs : list cond) : list cnd := map (fun c _ => c) cs.
Definition at_lay (L : lay) (cs : list cnd) : list cond := map (fun c => c L) cs.

(* The state of code generation in one trigger scope.
   b_pend: nexttrigger_list. b_sets: Forward << target, so far. b_nf, b_nd:
   numbers of Forwards and of Db(4) made. b_init: initial contents (the nextptr
   argument) of the next pointers that the code itself rewrites.
   A second << to the same Forward is an error in the library and is recorded
   here as a second entry. *)
Record bs := mkbs { b_trs : list item; b_pend : list nat; b_sets : list (nat * loc);
                    b_nf : nat; b_nd : nat; b_init : list (nat * loc) }.
Definition pos (s : bs) : nat := length (b_trs s).

(* allocator Forward() *)
Definition Forward (s : bs) : nat * bs :=
  (b_nf s, mkbs (b_trs s) (b_pend s) (b_sets s) (S (b_nf s)) (b_nd s) (b_init s)).
(* Forward.__lshift__ *)
Definition fset (f : nat) (l : loc) (s : bs) : bs :=
  mkbs (b_trs s) (b_pend s) ((f, l) :: b_sets s) (b_nf s) (b_nd s) (b_init s).
(* triggerscope.py 22-27 *)
Definition SetNextTrigger (l : loc) (s : bs) : bs :=
  mkbs (b_trs s) [] (map (fun f => (f, l)) (b_pend s) ++ b_sets s) (b_nf s) (b_nd s) (b_init s).
(* triggerscope.py 30-34 *)
Definition NextTrigger (s : bs) : nat * bs :=
  (b_nf s, mkbs (b_trs s) (b_pend s ++ [b_nf s]) (b_sets s) (S (b_nf s)) (b_nd s) (b_init s)).
(* rawtriggerdef.py 60-160: registration of a trigger (_register_trigger) *)
Definition emit (it : item) (s : bs) : bs :=
  let s := SetNextTrigger (P (pos s)) s in
  mkbs (b_trs s ++ [it]) (b_pend s) (b_sets s) (b_nf s) (b_nd s) (b_init s).
(* the next pointer of the trigger just emitted will be rewritten; it starts
   out as l *)
Definition selfnext (k : nat) (l : loc) (s : bs) : bs :=
  mkbs (b_trs s) (b_pend s) (b_sets s) (b_nf s) (b_nd s) ((k, l) :: b_init s).
Definition Db4 (s : bs) : nat * bs :=
  (b_nd s, mkbs (b_trs s) (b_pend s) (b_sets s) (b_nf s) (S (b_nd s)) (b_init s)).
(* RawTrigger(nextptr=l, ...) and RawTrigger(...) *)
Definition RawTriggerTo (cs : list cond) (acts : lay -> list act) (l : loc) (s : bs) : bs :=
  emit (fun L => RawTrig cs (acts L) (pa (lv L l))) s.
Definition RawTrigger (cs : list cond) (acts : lay -> list act) (s : bs) : bs :=
  let f := b_nf s in
  snd (NextTrigger (emit (fun L => RawTrig cs (acts L) (pa (L_F L f))) s)).

(* next pointer of trigger k *)
Definition nx (L : lay) (k : nat) : Z := L_T L k + 1.

(* ---------- trigger/branch.py ---------- *)
(* 20-46. brtrg is bound to the trigger being built at once, so its number is
   used. [xacts] is the argument _actions. *)
Definition branch_sub (cs : list cnd) (ontrue onfalse : loc) (xacts : lay -> list act) (s : bs) : bs :=
  let k := pos s in
  let (tj, s) := Forward s in
  let s := emit (fun L => mktrig (at_lay L cs) [SetM (nx L k) SetTo (pa (L_F L tj))] (Mem (nx L k)) (Imm 4)) s in
  let s := selfnext k onfalse s in
  let s := emit (fun L => RawTrig [] (xacts L ++ [SetM (nx L k) SetTo (pa (lv L onfalse))]) (pa (lv L ontrue))) s in
  fset tj (P (S k)) s.
(* consecutive groups of n *)
Fixpoint groups_of {A} (n fuel : nat) (l : list A) : list (list A) :=
  match fuel, l with
  | S fu, _ :: _ => firstn n l :: groups_of n fu (skipn n l)
  | _, _ => []
  end.
Definition every {A} (n : nat) (l : list A) : list (list A) := groups_of n (length l) l.
Definition no_acts : lay -> list act := fun _ => [].
Fixpoint branch_chunks (ch : list (list cnd)) (ontrue onfalse : loc) (xacts : lay -> list act) (s : bs) : bs :=
  match ch with
  | [] => s
  | [c] =>
      let (so, s) := Forward s in
      let s := branch_sub c (F so) onfalse xacts s in
      fset so ontrue s
  | c :: r =>
      let (so, s) := Forward s in
      let s := branch_sub c (F so) onfalse no_acts s in
      let (f, s) := NextTrigger s in
      let s := fset so (F f) s in
      branch_chunks r ontrue onfalse xacts s
  end.
(* 49-86, conditions already flattened and patched (constant fields) *)
Definition EUDBranch (cs : list cnd) (ontrue onfalse : loc) (s : bs) : bs :=
  match cs with
  | [] => SetNextTrigger ontrue s
  | _ => branch_chunks (every 16 cs) ontrue onfalse no_acts s
  end.
(* the same with _actions given *)
Definition EUDBranchA (cs : list cnd) (ontrue onfalse : loc) (xacts : lay -> list act) (s : bs) : bs :=
  match cs with
  | [] => RawTriggerTo [] xacts ontrue s
  | _ => branch_chunks (every 16 cs) ontrue onfalse xacts s
  end.

(* ---------- ctrlstru/basicstru.py ---------- *)
(* 20-31 with a constant target; 23 raises without a pending trigger *)
Definition EUDJump (l : loc) (s : bs) : option bs :=
  match b_pend s with [] => None | _ => Some (SetNextTrigger l s) end.
(* 34-37, 40-43 *)
Definition EUDJumpIf (cs : list cnd) (ontrue : loc) (s : bs) : bs :=
  let (onfalse, s) := Forward s in
  let s := EUDBranch cs ontrue (F onfalse) s in
  let (f, s) := NextTrigger s in
  fset onfalse (F f) s.
Definition EUDJumpIfNot (cs : list cnd) (onfalse : loc) (s : bs) : bs :=
  let (ontrue, s) := Forward s in
  let s := EUDBranch cs (F ontrue) onfalse s in
  let (f, s) := NextTrigger s in
  fset ontrue (F f) s.
Definition jump_if (neg : bool) (cs : list cnd) (l : loc) (s : bs) : bs :=
  if neg then EUDJumpIf cs l s else EUDJumpIfNot cs l s.

(* ---------- structured programs ---------- *)
(* A piece of straight-line code: how it is generated, and what it is meant to
   do to memory. *)
Record leaf := mkleaf { lf_emit : bs -> bs; lf_sem : mem -> mem -> Prop }.

(* The calls a program makes. [pre]: code generated between the opening call,
   e.g. EUDIf(), and the call with the conditions, e.g. by computing them.
   [neg]: the ...Not variants. [step]: code after set_continuepoint(). *)
Inductive stmt :=
| SLeaf (c : leaf)
| SSkip
| SSeq (a b : stmt)
| SIf (neg : bool) (pre : stmt) (cs : list cond) (body : stmt) (rest : chain)
| SWhile (neg : bool) (pre : stmt) (cs : list cond) (body : stmt) (step : option stmt)
| SInf (body : stmt) (step : option stmt)
| SLoopN (n : Z) (body : stmt) (step : option stmt)
| SBreak
| SContinue
| SBreakIf (neg : bool) (cs : list cond)
| SContinueIf (neg : bool) (cs : list cond)
with chain :=
| CEnd
| CElse (s : stmt)
| CElif (neg : bool) (pre : stmt) (cs : list cond) (body : stmt) (rest : chain).

(* Generate code that falls through and does not itself refer to Forwards:
   n >= 1 triggers (code T k: the first has number k; it continues at trigger
   number k + n). *)
Definition emit_code (n : nat) (code : (nat -> Z) -> nat -> list trig) (s : bs) : bs :=
  let k := pos s in let f := b_nf s in
  let s := SetNextTrigger (P k) s in
  let its := map (fun i L => nth i (code (jump_to (L_T L) (k + n) (L_F L f)) k) (RawTrig [] [] 0)) (seq 0 (n)) in
  snd (NextTrigger (mkbs (b_trs s ++ its) (b_pend s) (b_sets s) (b_nf s) (b_nd s) (b_init s))).

(* loopend and contpoint of the innermost loop block (loopblock.py 178-183) *)
Definition env := option (nat * nat).
Definition bindo {A B} (x : option A) (f : A -> option B) : option B := match x with Some a => f a | None => None end.
Notation "x <- e ;; r" := (bindo e (fun x => r)) (at level 61, e at next level, right associativity).

(* The tail of a loop: set_continuepoint (loopblock.py 206-208) and the code
   after it, or contpoint set by the closing call. *)
Definition jump_warn (l : loc) (s : bs) : bs := match EUDJump l s with Some s' => s' | None => s end.

(* closing an if block, simpleblock.py 99-108 *)
Definition end_if (nei : option nat) (ifend : nat) (s : bs) : bs :=
  let s := match nei with Some n => let (f, s) := NextTrigger s in fset n (F f) s | None => s end in
  let (f, s) := NextTrigger s in fset ifend (F f) s.

(* None: the library raises (break or continue outside a loop) *)
Fixpoint comp (e : env) (p : stmt) (s : bs) {struct p} : option bs :=
  match p with
  | SLeaf c => Some (lf_emit c s)
  | SSkip => Some s
  | SSeq a b => s <- comp e a s ;; comp e b s
  (* simpleblock.py 22-44 *)
  | SIf neg pre cs body rest =>
      let (ifend, s) := Forward s in
      let (nei, s) := Forward s in
      s <- comp e pre s ;;
      let s := jump_if neg (konst cs) (F nei) s in
      s <- comp e body s ;;
      comp_chain e ifend nei rest s
  (* loopblock.py 99-123, 158-163 *)
  | SWhile neg pre cs body step =>
      let (loopstart, s) := NextTrigger s in
      let (loopend, s) := Forward s in
      let (contpoint, s) := Forward s in
      let e' := Some (loopend, contpoint) in
      s <- comp e' pre s ;;
      let s := jump_if neg (konst cs) (F loopend) s in
      s <- comp e' body s ;;
      s <- match step with
           | Some st => let (f, s) := NextTrigger s in comp e' st (fset contpoint (F f) s)
           | None => Some (fset contpoint (F loopstart) s)
           end ;;
      let s := SetNextTrigger (F loopstart) s in
      let (f, s) := NextTrigger s in
      Some (fset loopend (F f) s)
  (* loopblock.py 24-43 *)
  | SInf body step =>
      let (loopstart, s) := NextTrigger s in
      let (loopend, s) := Forward s in
      let (contpoint, s) := Forward s in
      let e' := Some (loopend, contpoint) in
      s <- comp e' body s ;;
      s <- match step with
           | Some st => let (f, s) := NextTrigger s in comp e' st (fset contpoint (F f) s)
           | None => Some (fset contpoint (F loopstart) s)
           end ;;
      let s := SetNextTrigger (F loopstart) s in
      let (f, s) := NextTrigger s in
      Some (fset loopend (F f) s)
  (* loopblock.py 49-78 *)
  | SLoopN n body step =>
      let (d, s) := Db4 s in
      let s := RawTrigger [] (fun L => [SetM (L_D L d) SetTo n]) s in
      let (loopstart, s) := NextTrigger s in
      let (loopend, s) := Forward s in
      let (contpoint, s) := Forward s in
      let e' := Some (loopend, contpoint) in
      let s := EUDJumpIf [fun L => CondM (L_D L d) Exactly 0] (F loopend) s in
      s <- comp e' body s ;;
      s <- match step with
           | Some st => let (f, s) := NextTrigger s in comp e' st (fset contpoint (F f) s)
           | None => let (f, s) := NextTrigger s in Some (fset contpoint (F f) s)
           end ;;
      let s := RawTriggerTo [] (fun L => [SetM (L_D L d) Subtract 1]) (F loopstart) s in
      let (f, s) := NextTrigger s in
      Some (fset loopend (F f) s)
  (* loopblock.py 186-203, 211-227 *)
  | SBreak => match e with Some (brk, _) => Some (jump_warn (F brk) s) | None => None end
  | SContinue => match e with Some (_, cont) => Some (jump_warn (F cont) s) | None => None end
  | SBreakIf neg cs => match e with Some (brk, _) => Some (jump_if (negb neg) (konst cs) (F brk) s) | None => None end
  | SContinueIf neg cs => match e with Some (_, cont) => Some (jump_if (negb neg) (konst cs) (F cont) s) | None => None end
  end
with comp_chain (e : env) (ifend nei : nat) (c : chain) (s : bs) {struct c} : option bs :=
  match c with
  | CEnd => Some (end_if (Some nei) ifend s)
  (* simpleblock.py 80-96 *)
  | CElse p =>
      let s := SetNextTrigger (F ifend) s in
      let (f, s) := NextTrigger s in
      let s := fset nei (F f) s in
      s <- comp e p s ;;
      Some (end_if None ifend s)
  (* simpleblock.py 45-77 *)
  | CElif neg pre cs body rest =>
      let s := SetNextTrigger (F ifend) s in
      let (f, s) := NextTrigger s in
      let s := fset nei (F f) s in
      let (nei, s) := Forward s in
      s <- comp e pre s ;;
      let s := jump_if neg (konst cs) (F nei) s in
      s <- comp e body s ;;
      comp_chain e ifend nei rest s
  end.
