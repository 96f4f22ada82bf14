(* Functions and function calls. Source: src/eudplib/core/eudfunc/eudfuncn.py. *)
From Coq Require Import ZArith List Bool.
From Verif Require Import Word Machine MachineProofs VarModel.
Import ListNotations.
Open Scope Z_scope.

(* A compiled function (eudfuncn.py 64-70, 78-133). [fn_T] places its triggers,
   number 0 is fstart and number [fn_len] is fend. Parameters are variables, or
   other cells for functions that predefine them (eudf.py 104-135); results are
   variables. *)
Record efunc := mkfunc { fn_T : nat -> Z; fn_len : nat; fn_args : list dst; fn_rets : list Z }.

(* eudfuncn.py 112-118: the field that holds the return address. Without results
   it is the next pointer of the last trigger; otherwise the value of the last
   action of VProc. *)
Definition fn_nptr (f : efunc) : Z :=
  match fn_rets f with
  | [] => fn_T f (fn_len f) + 1
  | _ => let n := (length (fn_rets f) - 1)%nat in
         fn_T f (fn_len f + n / 64) + 82 + 8 * Z.of_nat (n mod 64) + 5
  end.
(* eudv.py 666-685 with the return address as run-time data *)
Fixpoint ret_links (vs : list Z) (nptr : Z) : list act :=
  match vs with
  | [] => []
  | [v] => [SetD (Imm (vc v FNext)) SetTo (Mem nptr)]
  | v :: ((u :: _) as r) => SetNextPtr v (pa u) :: ret_links r nptr
  end.
(* eudfuncn.py 111-118 *)
Definition func_end (f : efunc) : list trig :=
  match fn_rets f with
  | [] => [mktrig [] [] (Mem (fn_nptr f)) (Imm 4)]
  | _ => chain_trigs (fn_T f) (fn_len f) (chunks (ret_links (fn_rets f) (fn_nptr f))) (pa (hd 0 (fn_rets f)))
  end.

Section Call.
Variable same same_u : dst -> dst -> bool.
Variable perm : list pair -> list pair.

Definition arg_pairs (fargs : list dst) (args : list src) : list pair :=
  map (fun x => (fst x, Some SetTo, snd x)) (combine fargs args).
Definition src_is_var (s : src) : bool := match s with SVar _ => true | SConst _ => false end.
(* eudfuncn.py 231-252: return address, destinations of the results, constant
   arguments, variable arguments. [nx] is the address after the call; [rds] are
   the cells that get the results. *)
Definition call_pairs (f : efunc) (nx : Z) (rds : list Z) (args : list src) : list pair :=
  (DExpr (fn_nptr f), Some SetTo, SConst nx)
  :: map (fun x => (DExpr (vc (fst x) FDest), Some SetTo, SConst (snd x))) (combine (fn_rets f) rds)
  ++ filter (fun p => negb (src_is_var (snd p))) (arg_pairs (fn_args f) args)
  ++ filter (fun p => src_is_var (snd p)) (arg_pairs (fn_args f) args).
(* eudfuncn.py 253-256 *)
Definition call_order (args : list src) (l : list pair) : list pair :=
  if (length (filter src_is_var args) <=? 2)%nat then l else nonseq_order perm l.
(* the trigger after number j is the one at EPD index e
   (triggerscope.py 22-27, SetNextTrigger) *)
Definition jump_to (T : nat -> Z) (j : nat) (e : Z) : nat -> Z := fun i => if Nat.eqb i j then e else T i.
(* eudfuncn.py 206-257 *)
Definition func_call (T : nat -> Z) (k : nat) (f : efunc) (args : list src) (rds : list Z) : list trig :=
  let code T' nx := SeqCompute same same_u T' k (call_order args (call_pairs f nx rds args)) in
  let n := length (code T 0) in
  code (jump_to T (k + n) (fn_T f 0)) (lbl T (k + n)).

(* eudfuncn.py 155-189, _add_return at the end of the body: results to the
   result variables (EUDReturn in the middle of a body is not modelled) *)
Definition ret_pairs (f : efunc) (vals : list src) : list pair :=
  let l := arg_pairs (map DVar (fn_rets f)) vals in
  filter (fun p => negb (src_is_var (snd p))) l ++ filter (fun p => src_is_var (snd p)) l.
Definition func_return (T : nat -> Z) (k : nat) (f : efunc) (vals : list src) : list trig :=
  SeqCompute same same_u T k (call_order vals (ret_pairs f vals)).
End Call.

(* a straight sequence of triggers, each continuing at the next *)
Fixpoint straight (T : nat -> Z) (k : nat) (l : list (list cond * list act)) : list trig :=
  match l with
  | [] => []
  | (cs, acts) :: r => RawTrig cs acts (lbl T (S k)) :: straight T (S k) r
  end.
