(* EUDExecuteOnce with conditions.  Source: src/eudplib/ctrlstru/simpleblock.py 117-172 and
   trigger/branch.py, lines cited.  Conditions have constant fields (already patched). *)
From Coq Require Import ZArith List Bool.
From Verif Require Import Word Machine MachineProofs VarModel StruModel.
Import ListNotations.
Open Scope Z_scope.

(* branch.py 17-41, 66-78: the triggers of EUDBranch for the groups ch of conditions, at k, k+1, ..;
   t, f: addresses of ontrue and onfalse; x: _actions.  flag: the flags of the first trigger
   (the code after it may rewrite them) *)
Fixpoint branch_code (T : nat -> Z) (k : nat) (flag : operand) (ch : list (list cond)) (t f : Z) (x : list act) : list trig :=
  match ch with
  | [] => []
  | c :: r =>
      mktrig c [SetM (T k + 1) SetTo (lbl T (k + 1))] (Mem (T k + 1)) flag
      :: RawTrig [] ((match r with [] => x | _ => [] end) ++ [SetM (T k + 1) SetTo f]) (match r with [] => t | _ => lbl T (k + 2) end)
      :: branch_code T (k + 2) (Imm 4) r t f x
  end.
(* simpleblock.py 143-146 and 164-168; bstart: EPD of blockstart, bend: address of blockend *)
Definition skip_writes (bstart bend : Z) : list (Z * Z) := [(bstart + 1, bend); (bstart + 594, 8)].
Definition writes (l : list (Z * Z)) : list act := map (fun x => SetM (fst x) SetTo (snd x)) l.
(* 134-149: the triggers of the header, from blockstart on; the body starts at the trigger after them *)
Definition once_header (T : nat -> Z) (neg : bool) (cs : list cond) (bend : Z) : list trig :=
  let flag := Mem (T 0%nat + 594) in
  match cs with
  | [] => (* branch.py 59-64 *)
      (* neg: SetNextTrigger(blockend), no trigger at all *)
      if neg then []
      else [mktrig [] (writes (skip_writes (T 0%nat) bend)) (Mem (T 0%nat + 1)) flag]
  | _ =>
      let ch := every 16 cs in
      let body := lbl T (2 * length ch) in
      if neg then branch_code T 0 flag ch bend body []
      else branch_code T 0 flag ch body bend (writes (skip_writes (T 0%nat) bend))
  end.
(* 160-172: the last trigger of a block with neg (blockmode False), number n *)
Definition once_end (T : nat -> Z) (bend : Z) : trig := RawTrig [] (writes (skip_writes (T 0%nat) bend)) bend.
