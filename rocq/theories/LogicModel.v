(* Logical connectives: ctrlstru/logic.py, ctrlstru/shortcircuit.py and
   EUDTernary of ctrlstru/basicstru.py. *)
From Coq Require Import ZArith List Bool.
From Verif Require Import Word Machine MachineProofs VarModel OpsModel FuncModel StruModel EpdModel.
Import ListNotations.
Open Scope Z_scope.

(* ---------- trigger scopes inside trigger scopes ---------- *)
(* triggerscope.py 17-19: the waiting list of the enclosing scope is put aside *)
Definition PushTriggerScope (s : bs) : list nat * bs :=
  (b_pend s, mkbs (b_trs s) [] (b_sets s) (b_nf s) (b_nd s) (b_init s)).
(* triggerscope.py 41-44. The library sets what still waits to 0, where nothing
   may jump; here such a Forward is set to itself, i.e. it may be anything. *)
Definition PopTriggerScope (outer : list nat) (s : bs) : bs :=
  mkbs (b_trs s) outer (map (fun f => (f, F f)) (b_pend s) ++ b_sets s) (b_nf s) (b_nd s) (b_init s).

(* ---------- one argument of a chain of calls ---------- *)
(* t_pre: the code generated while the argument is computed, if any.
   t_patch: None if is_const_cond (tpatcher.py 135-158); otherwise the code by
   which EUDBranch fills in the variable fields. t_conds: the conditions.
   t_neg: the argument neg. t_flip: negate_cond of the condition if
   is_nagatable_cond (tpatcher.py 170-231, 234-257). *)
Record test := mktest { t_pre : option stmt; t_patch : option stmt; t_conds : list cond; t_neg : bool; t_flip : option cond }.
Definition opt_comp (o : option stmt) (s : bs) : option bs :=
  match o with Some p => comp None p s | None => Some s end.
(* the jumps EUDJumpIf / EUDJumpIfNot of one argument: shortcircuit.py 55-59,
   73-76, 87, 96-99 (stop = false) and 118-123 (stop = true) *)
Definition sc_jump (stop : bool) (t : test) (to : loc) (s : bs) : option bs :=
  s <- opt_comp (t_patch t) s ;;
  Some (jump_if (xorb stop (t_neg t)) (konst (t_conds t)) to s).

(* ---------- EUDSCOr: shortcircuit.py 103-123 ---------- *)
(* the bit k of the dword at e is the EUDLightBool self.v *)
Fixpoint sc_or_calls (tb : loc) (l : list test) (s : bs) : option bs :=
  match l with
  | [] => Some s
  | t :: r => s <- opt_comp (t_pre t) s ;; s <- sc_jump true t tb s ;; sc_or_calls tb r s
  end.
Definition EUDSCOr (e k : Z) (l : list test) (s : bs) : option bs :=
  let (jb, s) := Forward s in
  let s := RawTrigger [] (fun _ => [lb_Clear e k]) s in
  let (outer, s) := PushTriggerScope s in
  let tb := pos s in
  let s := RawTriggerTo [] (fun _ => [lb_Set e k]) (F jb) s in
  let s := PopTriggerScope outer s in
  s <- sc_or_calls (P tb) l s ;;
  let (f, s) := NextTrigger s in
  Some (fset jb (F f) s).

(* ---------- EUDSCAnd: shortcircuit.py 16-100 ---------- *)
(* the object: const, cond, the waiting list of the enclosing scope,
   side_effect, fb, jb *)
Record sca := mksca { sa_const : bool; sa_cond : list cond; sa_outer : list nat; sa_side : nat; sa_fb : nat; sa_jb : nat }.
(* 17-23 *)
Definition sa_new (s : bs) : sca * bs :=
  let (outer, s) := PushTriggerScope s in
  let (side, s) := NextTrigger s in
  (mksca true [] outer side 0 0, s).
(* 25-41. scope[1] is the inner trigger scope, which has no entry "conditional",
   so the result is an EUDVariable, with value at EPD v. *)
Definition sa_patch (v : Z) (a : sca) (s : bs) : sca * bs :=
  let (jb, s) := Forward s in
  let fb := pos s in
  let s := RawTriggerTo [] (fun _ => [SetNumber v 0]) (F jb) s in
  let s := PopTriggerScope (sa_outer a) s in
  let s := RawTrigger [] (fun _ => [SetNumber v 1]) s in
  (mksca false (sa_cond a) (sa_outer a) (sa_side a) fb jb, s).
(* 50-51, 68-70, 84-86, 93-95 *)
Definition sa_flush (a : sca) (s : bs) : sca * bs :=
  match sa_cond a with
  | [] => (a, s)
  | cs => (mksca (sa_const a) [] (sa_outer a) (sa_side a) (sa_fb a) (sa_jb a), jump_if false (konst cs) (P (sa_fb a)) s)
  end.
Definition sa_add (a : sca) (cs : list cond) : sca :=
  mksca (sa_const a) (sa_cond a ++ cs) (sa_outer a) (sa_side a) (sa_fb a) (sa_jb a).
Definition only (l : list nat) (f : nat) : bool := match l with [g] => Nat.eqb g f | _ => false end.
(* 55-100 *)
Definition sa_call (v : Z) (t : test) (a : sca) (s : bs) : option (sca * bs) :=
  if negb (sa_const a) then s <- sc_jump false t (P (sa_fb a)) s ;; Some (a, s)
  else if negb (only (b_pend s) (sa_side a)) then
    let (ifcond, s) := Forward s in
    let s := SetNextTrigger (F ifcond) s in
    let (a, s) := sa_patch v a s in
    let (a, s) := sa_flush a s in
    let s := SetNextTrigger (F (sa_side a)) s in
    let (f, s) := NextTrigger s in
    let s := fset ifcond (F f) s in
    s <- sc_jump false t (P (sa_fb a)) s ;; Some (a, s)
  else match t_patch t, t_neg t, t_flip t with
       | None, false, _ => Some (sa_add a (t_conds t), s)
       | None, true, Some c => Some (sa_add a [c], s)
       | _, _, _ =>
           let (a, s) := sa_patch v a s in
           let (a, s) := sa_flush a s in
           s <- sc_jump false t (P (sa_fb a)) s ;; Some (a, s)
       end.
Fixpoint sa_calls (v : Z) (l : list test) (a : sca) (s : bs) : option (sca * bs) :=
  match l with
  | [] => Some (a, s)
  | t :: r => s <- opt_comp (t_pre t) s ;; x <- sa_call v t a s ;; sa_calls v r (fst x) (snd x)
  end.
(* 46-53; the result as it is used as a condition
   (tpatcher.py 98-99: a variable is tested for being at least 1) *)
Definition sa_result (v : Z) (a : sca) (s : bs) : list cond * bs :=
  if sa_const a then (sa_cond a, PopTriggerScope (sa_outer a) s)
  else
    let (a, s) := sa_flush a s in
    let (f, s) := NextTrigger s in
    ([CondM v AtLeast 1], fset (sa_jb a) (F f) s).
Definition EUDSCAnd (v : Z) (l : list test) (s : bs) : option (list cond * bs) :=
  let (a, s) := sa_new s in
  x <- sa_calls v l a s ;;
  Some (sa_result v (fst x) (snd x)).

(* ---------- logic.py ---------- *)
Definition raw_leaf (acts : list act) (sem : mem -> mem -> Prop) : leaf := mkleaf (RawTrigger [] (fun _ => acts)) sem.
(* 13-30, 33-55: the blocks EUDIf, EUDElseIf, EUDElse around one trigger each.
   The arguments are computed before the call. *)
Fixpoint else_ifs (neg : bool) (conds : list (list cond)) (hit miss : leaf) : chain :=
  match conds with
  | [] => CElse (SLeaf miss)
  | cs :: r => CElif neg SSkip cs (SLeaf hit) (else_ifs neg r hit miss)
  end.
Definition EUDOr (set clear : leaf) (cond1 : list cond) (conds : list (list cond)) : stmt :=
  SIf false SSkip cond1 (SLeaf set) (else_ifs false conds set clear).
Definition EUDAnd (set clear : leaf) (cond1 : list cond) (conds : list (list cond)) : stmt :=
  SIf true SSkip cond1 (SLeaf clear) (else_ifs true conds clear set).
(* 64-69: the argument is a variable with value at EPD u; the result at EPD v *)
Definition EUDNot_var (u v : Z) (s : bs) : bs :=
  RawTrigger [CondM u Exactly 0] (fun _ => [SetNumber v 1]) (RawTrigger [] (fun _ => [SetNumber v 0]) s).
(* 79-84: conditions that negate_cond does not take *)
Definition EUDNot_conds (set clear : leaf) (cs : list cond) : stmt :=
  SSeq (SLeaf set) (SIf false SSkip cs (SLeaf clear) CEnd).

(* ---------- basicstru.py 46-70 ---------- *)
(* on1, on2: the code that computes the two arguments and stores them in v *)
Definition EUDTernary (neg : bool) (cs : list cond) (on1 on2 : stmt) (s : bs) : option bs :=
  let (t, s) := Forward s in
  let (fin, s) := Forward s in
  let s := jump_if neg (konst cs) (F t) s in
  s <- comp None on1 s ;;
  let s := SetNextTrigger (F fin) s in
  let (f, s) := NextTrigger s in
  let s := fset t (F f) s in
  s <- comp None on2 s ;;
  let (f, s) := NextTrigger s in
  Some (fset fin (F f) s).
