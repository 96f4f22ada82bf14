(* Function pointers.  Source: src/eudplib/core/eudfunc/eudfptr.py, lines cited; the
   functions themselves are those of FuncModel.v. *)
From Coq Require Import ZArith List Bool.
From Verif Require Import Word Machine MachineProofs VarModel OpsModel FuncModel.
Import ListNotations.
Open Scope Z_scope.

(* the trigger f._fend: eudfuncn.py 111-118 *)
Definition fend (f : efunc) : Z := fn_T f (fn_len f).
(* 36-49: for every pair VProc(from, from.QueueAssignTo(to)) *)
Fixpoint fill (T : nat -> Z) (k : nat) (l : list (Z * Z)) : list trig :=
  match l with
  | [] => []
  | (v, u) :: r => let c := VProc T k [v] (QueueAssignTo v (vc u FVal)) in c ++ fill T (k + length c) r
  end.
(* 61-76: the triggers of the indirect caller of f, placed by U; fargs are f's parameters,
   astore and rstore the common storages (22-33: one list of variables for every number of
   arguments or results) *)
Definition idc_args (U : nat -> Z) (fargs astore : list Z) : list trig := fill U 0 (combine astore fargs).
Definition idc_rets (U : nat -> Z) (f : efunc) (fargs astore rstore : list Z) : list trig :=
  fill U (length (idc_args U fargs astore) + 1) (combine (fn_rets f) rstore).
(* number of caller_end, and of the trigger after the call (fcallend, 54) *)
Definition idc_back (U : nat -> Z) (fargs astore : list Z) : nat := length (idc_args U fargs astore) + 1.
Definition idc_end (U : nat -> Z) (f : efunc) (fargs astore rstore : list Z) : nat :=
  idc_back U fargs astore + length (idc_rets U f fargs astore rstore).
Definition indirect_caller (U : nat -> Z) (f : efunc) (fargs astore rstore : list Z) : list trig :=
  idc_args U fargs astore
  (* 52-58 _call_func_body *)
  ++ [RawTrig [] [SetM (fend f + 1) SetTo (lbl U (idc_back U fargs astore))] (lbl (fn_T f) 0)]
  ++ idc_rets U f fargs astore rstore
  (* 71: its next pointer is set by callers *)
  ++ [mktrig [] [] (Mem (U (idc_end U f fargs astore rstore) + 1)) (Imm 4)].
(* eudfuncn.py 111-118 for at most 64 results: the actions of func_end, and a next pointer
   that is run-time data now *)
Definition func_end_p (f : efunc) : trig := mktrig [] (ret_links (fn_rets f) (fn_nptr f)) (Mem (fend f + 1)) (Imm 4).
(* 153-162: the trigger t; SetVariables (155-158) has written its next pointer and the
   destination of its action (action 0 at +328, destination at +16: dword 86) *)
Definition ptr_trig (t fcallend : Z) : trig := mktrig [] [SetD (Mem (t + 86)) SetTo (Imm fcallend)] (Mem (t + 1)) (Imm 4).
