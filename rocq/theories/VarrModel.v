(* EUDVArray: arrays of variable triggers.
   Source: src/eudplib/core/eudstruct/vararray.py *)
From Coq Require Import ZArith List Bool.
From Verif Require Import Word Machine MachineProofs VarModel OpsModel OpsSpec.
Import ListNotations.
Open Scope Z_scope.

(* Places of the shared triggers (63-97): _getter, _get_index, _set_index, the
   value of _lv, _index_for_get, _index_for_set *)
Record vashared := mkva { va_G : Z; va_GI : Z; va_SI : Z; va_lv : Z; va_ig : nat -> Z; va_is : nat -> Z }.

(* 63-67: the destination and value of the action and the next pointer are run-time data *)
Definition getter_trig (h : vashared) : trig :=
  mktrig [] [SetD (Mem (va_G h + 86)) SetTo (Mem (va_G h + 87))] (Mem (va_G h + 1)) (Imm 4).
(* 70-74; _convert_index is action 0: destination at +86, value at +87 *)
Definition get_index_trig (h : vashared) : trig :=
  mktrig [] [SetD (Mem (va_GI h + 86)) Add (Mem (va_GI h + 87)); SetM (va_GI h + 87) SetTo 0] (Mem (va_GI h + 1)) (Imm 4).
(* 76-83 *)
Definition index_for_get (h : vashared) (i : nat) : trig :=
  mktrig [CondMX (va_lv h) AtLeast 1 (Z.shiftl 1 (Z.of_nat i))]
         [SetM (va_GI h + 87) Add (Z.shiftl 72 (Z.of_nat i))]
         (Imm (pa (match i with O => va_GI h | S i => va_ig h i end))) (Imm 4).
(* 85-86 *)
Definition set_index_trig (h : vashared) : trig :=
  mktrig [] [SetD (Mem (va_SI h + 86)) SetTo (Mem (va_SI h + 87))] (Mem (va_SI h + 1)) (Imm 4).
(* 88-95 *)
Definition index_for_set (h : vashared) (i : nat) : trig :=
  mktrig [CondMX (va_lv h) AtLeast 1 (Z.shiftl 1 (Z.of_nat i))]
         [SetM (va_SI h + 86) Add (Z.shiftl 18 (Z.of_nat i))]
         (Imm (pa (match i with O => va_SI h | S i => va_is h i end))) (Imm 4).

(* 177, 243: size.bit_length() - 1, as an index in a list of 28 *)
Definition size_msb (size : Z) : nat := if size =? 0 then 27%nat else Z.to_nat (Z.log2 size).

(* 160-228 get.  self: the byte address of the array; dst: where the result goes.
   A constant index is checked by _bound_check (142-148), not repeated here. *)
Definition varr_get (h : vashared) (T : nat -> Z) (k : nat) (size : Z) (self index : src) (dst : Z) : list trig :=
  let nexttrg := lbl T (S k) in
  let convert_start := pa (va_ig h (size_msb size)) in
  let G := va_G h in let GI := va_GI h in
  match index, self with
  | SVar x, SVar p =>
      [RawTrig [] (SetNextPtr x (pa p) :: QueueAssignTo x (va_lv h) ++
                   SetNextPtr p convert_start :: QueueAssignTo p (GI + 1) ++
                   [SetM (GI + 86) SetTo (GI + 1); SetM (G + 1) SetTo nexttrg; SetM (G + 86) SetTo dst]) (pa x)]
  | SVar x, SConst a =>
      [RawTrig [] (SetNextPtr x convert_start :: QueueAssignTo x (va_lv h) ++
                   [SetM (GI + 1) SetTo a; SetM (GI + 86) SetTo (GI + 1); SetM (G + 1) SetTo nexttrg; SetM (G + 86) SetTo dst]) (pa x)]
  | SConst i, SVar p =>
      [RawTrig [] (SetNextPtr p (72 * i) :: QueueAddTo p (vc p FNext) ++
                   [SetM (G + 1) SetTo nexttrg; SetM (G + 86) SetTo dst]) (pa p)]
  | SConst i, SConst a =>
      [RawTrig [] [SetM (G + 1) SetTo nexttrg; SetM (G + 86) SetTo dst] (a + 72 * i)]
  end.

(* 230-341 set.  epd: the EPD of the array *)
Definition cst (s : src) : Z := match s with SConst c => c | SVar _ => 0 end.
Definition is_var (s : src) : bool := match s with SVar _ => true | SConst _ => false end.
Definition same_src (a b : src) : bool := match a, b with SVar a, SVar b => a =? b | _, _ => false end.
(* 298-299 *)
Fixpoint links (vv : list Z) : list act :=
  match vv with v :: ((u :: _) as r) => SetNextPtr v (pa u) :: links r | _ => [] end.
Definition varr_set (h : vashared) (T : nat -> Z) (k : nat) (size : Z) (epd index value : src) : list trig :=
  let SI := va_SI h in
  let convert_start := pa (va_is h (size_msb size)) in
  if negb (is_var epd || is_var index || is_var value) then
    Raw1 T k [] [SetM (87 + cst epd + 18 * cst index) SetTo (cst value)]
  else if same_src index value then
    match index with
    | SVar x =>
        let c := match epd with
          | SVar e => VProc T k [e; x] (SetM (SI + 86) SetTo 87 :: QueueAddTo e (SI + 86) ++ QueueAssignTo x (SI + 87))
          | SConst e => VProc T k [x] (SetM (SI + 86) SetTo (87 + e) :: QueueAssignTo x (SI + 87))
          end in
        let k := (k + length c)%nat in
        c ++ [RawTrig [] (SetNextPtr x convert_start :: SetM (SI + 1) SetTo (lbl T (S k)) :: QueueAssignTo x (va_lv h)) (pa x)]
    | SConst _ => []
    end
  else
    let nexttrg := lbl T (S k) in
    let wt := match value, index with SVar v, SConst _ => v | _, _ => SI end in
    let vv := svar epd ++ svar value ++ svar index in
    [RawTrig [] (SetM (wt + 1) SetTo nexttrg :: links vv ++
       [SetM (wt + 86) SetTo (87 + cst epd + 18 * cst index)] ++
       (match epd with SVar e => (if Nat.eqb (length vv) 1 then [SetNextPtr e (pa wt)] else []) ++ QueueAddTo e (wt + 86) | SConst _ => [] end) ++
       (match index with SVar x => SetNextPtr x convert_start :: QueueAssignTo x (va_lv h) | SConst _ => [] end) ++
       (match value with
        | SVar v => if is_var index then QueueAssignTo v (SI + 87) else [SetModifier v SetTo]
        | SConst c => [SetM (SI + 87) SetTo c] end)) (pa (hd 0 vv))].
