(* ctrlstru/simpleblock.py: EUDExecuteOnce blocks (without conditions). *)
From Coq Require Import ZArith List Bool.
From Verif Require Import Word Machine MachineProofs VarModel VarSpec FuncModel StruModel.
Import ListNotations.
Open Scope Z_scope.

(* 117-157 (EUDExecuteOnce()(), blockmode False) and 160-172 (EUDEndExecuteOnce).
   The result: blockstart, and the new state. The body may not contain break or
   continue of an enclosing loop. 2376 bytes = 594 dwords. *)
Definition ExecuteOnce (body : stmt) (s : bs) : option (nat * bs) :=
  let (blockstart, s) := Forward s in
  let (blockend, s) := Forward s in
  let (f, s) := NextTrigger s in
  let s := fset blockstart (F f) s in
  s <- comp None body s ;;
  let s := RawTrigger [] (fun L => [SetM (L_F L blockstart + 1) SetTo (pa (L_F L blockend));
                                    SetM (L_F L blockstart + 594) SetTo 8]) s in
  let (f, s) := NextTrigger s in
  Some (blockstart, fset blockend (F f) s).

(* The first trigger of the block: its next pointer and its flags are rewritten,
   so they are read from memory. *)
Definition stored (L : lay) (k : nat) (t : trig) : trig :=
  mktrig (t_conds t) (t_acts t) (Mem (L_T L k + 1)) (Mem (L_T L k + 594)).
