(* Conditions and actions with variable fields: trigger/tpatcher.py and
   trigger/filler.py. *)
From Coq Require Import ZArith List Bool.
From Verif Require Import Word Machine MachineProofs VarModel OpsModel.
Import ListNotations.
Open Scope Z_scope.

(* a field of a Condition or Action (condition.py 84-94, action.py 125-138): a
   constant expression or an EUDVariable *)
Inductive field := Fc (z : Z) | Fv (v : Z).

(* tpatcher.py 54-60, 62-71: for each dword, how its fields are filled *)
Definition condpt : list (list (option Z)) :=
  [[Some (-1)]; [Some (-1)]; [Some (-1)]; [Some 0; Some 4; Some 5]; [Some 2; Some 3; None; None]].
Definition actpt : list (list (option Z)) :=
  [[Some (-1)]; [Some (-1)]; [Some (-1)]; [Some (-1)]; [Some (-1)]; [Some (-1)];
   [Some 0; Some 4; Some 5]; [Some 2; None; None; None]].

Section Patch.
Variable same same_u : dst -> dst -> bool.
(* filler.py 17-21: _lowordfilter, _lsbytefilter, and the filters of bytes 1-3
   (_lobytefilter, _hibytefilter, _msbytefilter) *)
Variable lof lsf : Z.
Variable bf : Z -> Z.
(* eudf.py 117-149: the shared parameter variable _ev[0] of the three _fill
   functions *)
Variable param : Z.

(* what a filler does: append an assignment to the pending list, or flush the
   list and compute a byte filter *)
Inductive op := Assign (p : pair) | Fill (b v : Z).

(* filler.py 40-52, 55-61, 75-78, 92-95, 109-112; the dictionary in tpatcher.py
   39-47 (no other sizes occur in the two tables) *)
Definition filler (size e v : Z) : list op :=
  if size =? -1 then [Assign (DExpr e, Some SetTo, SVar v)]
  else if size =? 0 then [Assign (DVar lof, Some SetTo, SVar v); Assign (DExpr e, None, SVar lof)]
  else if size =? 2 then [Assign (DVar lsf, Some SetTo, SVar v); Assign (DExpr e, None, SVar lsf)]
  else let b := size - 2 in [Fill b v; Assign (DExpr e, None, SVar (bf b))].

(* tpatcher.py 32-51: one dword at EPD e whose first field has number n *)
Fixpoint row_ops (e : Z) (fields : list field) (n : nat) (row : list (option Z)) : list op :=
  match row with
  | [] => []
  | s :: r =>
      (match s with
       | Some size => match nth n fields (Fc 0) with Fv v => filler size e v | Fc _ => [] end
       | None => []
       end) ++ row_ops e fields (S n) r
  end.
Fixpoint table_ops (e : Z) (fields : list field) (n : nat) (table : list (list (option Z))) : list op :=
  match table with
  | [] => []
  | row :: r => row_ops e fields n row ++ table_ops (e + 1) fields (n + length row) r
  end.

(* filler.py 64-72, 81-89, 98-106: _fill_b__ and its siblings. The call is
   written in line: the argument is copied to the parameter, then the body runs
   (call and return themselves: property C24). *)
Fixpoint fill_bits (T : nat -> Z) (k : nat) (b i : Z) (n : nat) : list trig :=
  match n with
  | O => []
  | S n' => Raw1 T k [CondMX (vc param FVal) AtLeast 1 (2^i)] [AddNumber (vc (bf b) FVal) (2^(i + 8 * b))]
            ++ fill_bits T (S k) b (i + 1) n'
  end.
Definition fill_body (T : nat -> Z) (k : nat) (b : Z) : list trig :=
  Raw1 T k [] [SetNumber (vc (bf b) FVal) 0] ++ fill_bits T (S k) b 0 8.
Definition fill_call (T : nat -> Z) (k : nat) (b v : Z) : list trig :=
  let c := SeqCompute same same_u T k [(DVar param, Some SetTo, SVar v)] in
  c ++ fill_body T (k + length c) b.

(* filler.py 33-37 and the fillers' calls of it; [pend] is
   _fillers_use_seqcompute. The final flush is that of apply_patch_table. *)
Fixpoint emit_ops (T : nat -> Z) (k : nat) (ops : list op) (pend : list pair) : list trig :=
  match ops with
  | [] => SeqCompute same same_u T k pend
  | Assign p :: r => emit_ops T k r (pend ++ [p])
  | Fill b v :: r =>
      let c1 := SeqCompute same same_u T k pend in
      let c2 := fill_call T (k + length c1) b v in
      c1 ++ c2 ++ emit_ops T (k + length c1 + length c2) r []
  end.

(* tpatcher.py 32-51, 88-117 (Condition at EPD e), 120-129 (Action) *)
Definition apply_patch_table (T : nat -> Z) (k : nat) (e : Z) (fields : list field) (table : list (list (option Z))) : list trig :=
  emit_ops T k (table_ops e fields 0 table) [].
Definition patch_condition (T : nat -> Z) (k : nat) (e : Z) (fields : list field) : list trig :=
  apply_patch_table T k e fields condpt.
Definition patch_action (T : nat -> Z) (k : nat) (e : Z) (fields : list field) : list trig :=
  apply_patch_table T k e fields actpt.
(* tpatcher.py 49: the constants written in the object afterwards *)
Definition zeroed (f : field) : Z := match f with Fc z => z | Fv _ => 0 end.

(* triggerdef.py 51-60: all conditions, then all actions, of a trigger at EPD t;
   rawtriggerdef.py: condition i at dword 2 + 5 i, action i at 82 + 8 i *)
Fixpoint patch_list (pt : list (list (option Z))) (size : Z) (T : nat -> Z) (k : nat) (e : Z) (l : list (list field)) : list trig :=
  match l with
  | [] => []
  | f :: r => let c := apply_patch_table T k e f pt in c ++ patch_list pt size T (k + length c) (e + size) r
  end.
Definition patch_trigger (T : nat -> Z) (k : nat) (t : Z) (conds acts : list (list field)) : list trig :=
  let c := patch_list condpt 5 T k (t + 2) conds in
  c ++ patch_list actpt 8 T (k + length c) (t + 82) acts.
End Patch.
