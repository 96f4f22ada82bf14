(* Operators of EUDVariable and VariableBase as emitted triggers.
   Source: src/eudplib/core/variable/{eudv,vbase}.py.
   A variable that Python creates inside an operator (t) and the shared
   variable _addor (evcommon.py 16) are parameters. Whether an operand is an
   rvalue (eudv.py 63-72, a reference-count test) is a boolean parameter.
   A constant operand is an arbitrary integer. *)
From Coq Require Import ZArith List Bool.
From Verif Require Import Word Machine MachineProofs VarModel.
Import ListNotations.
Open Scope Z_scope.

(* vbase.py 34-74, on the value cell a *)
Definition SetNumber (a c : Z) : act := SetM a SetTo c.
Definition AddNumber (a c : Z) : act := SetM a Add c.
Definition SubtractNumber (a c : Z) : act := SetM a Subtract c.
Definition SetNumberX (a c k : Z) : act := SetMX a SetTo c k.
Definition AddNumberX (a c k : Z) : act := SetMX a Add c k.
Definition SubtractNumberX (a c k : Z) : act := SetMX a Subtract c k.

(* eudv.py 158-159 *)
Definition SetMask (v c : Z) : act := SetM (vc v FMask) SetTo c.
(* eudv.py 240-247 *)
Definition QueueAssignTo (v d : Z) : list act := [SetDest v d; SetModifier v SetTo].
Definition QueueAddTo (v d : Z) : list act := [SetDest v d; SetModifier v Add].
Definition QueueSubtractTo (v d : Z) : list act := [SetDest v d; SetModifier v Subtract].

(* one trigger that continues at the next emitted one *)
Definition Raw1 (T : nat -> Z) (k : nat) (cs : list cond) (acts : list act) : list trig :=
  [RawTrig cs acts (lbl T (S k))].

(* ---------- VariableBase, value cell a ---------- *)
(* vbase.py 78-91 *)
Definition lv_assign T k a c := Raw1 T k [] [SetNumber a c].
Definition lv_iadd T k a c := Raw1 T k [] [AddNumber a c].
Definition lv_isub T k a c := Raw1 T k [] [SubtractNumber a c].
(* vbase.py 97-99 *)
Definition lv_ior T k a c := Raw1 T k [] [SetNumberX a 0xFFFFFFFF c].
(* vbase.py 101-103 (int) *)
Definition lv_iand T k a c := Raw1 T k [] [SetNumberX a 0 (Z.lnot c)].
(* vbase.py 104-113 (address expression of value c): the fourth action's mask,
   dword 82 + 3*8 of the trigger, is computed by the first three *)
Definition lv_iand_expr (T : nat -> Z) (k : nat) (a c : Z) : list trig :=
  let cell := T k + 82 + 8 * 3 in
  Raw1 T k [] [SetM cell SetTo c; SetMX cell Add 0xFFFFFFFF 0x55555555; SetMX cell Add 0xFFFFFFFF 0xAAAAAAAA;
               SetDX (Imm a) SetTo (Imm 0) (Mem cell)].
(* vbase.py 116-123 *)
Definition ixor_acts (a c : Z) : list act := [AddNumberX a c 0x55555555; AddNumberX a c 0xAAAAAAAA].
Definition lv_ixor T k a c := Raw1 T k [] (ixor_acts a c).
(* vbase.py 125-127 *)
Definition lv_iinvert T k a := lv_ixor T k a 0xFFFFFFFF.
(* vbase.py 137-148 *)
Definition ineg_acts (a : Z) : list act :=
  [AddNumberX a 0xFFFFFFFF 0x55555555; AddNumberX a 0xFFFFFFFF 0xAAAAAAAA; AddNumber a 1].
Definition lv_ineg T k a := Raw1 T k [] (ineg_acts a).
(* vbase.py 150-155 *)
Definition lv_iabs T k a := Raw1 T k [CondM a AtLeast 0x80000000] (ineg_acts a).
(* vbase.py 157-165; n is the shift, loop over t = 31-n .. 0 *)
Definition shmask (n : Z) : Z := Z.shiftl 1 (n + 1) - 1.
Fixpoint ilshift_loop (a n : Z) (t : nat) : list act :=
  match t with
  | O => []
  | S t' => SetNumberX a 0 (Z.shiftl (Z.shiftr (shmask n) 1) (Z.of_nat t' + 1))
            :: AddNumberX a (Z.shiftl (Z.shiftr (shmask n) 1) (Z.of_nat t')) (Z.shiftl (shmask n) (Z.of_nat t'))
            :: ilshift_loop a n t'
  end.
Definition ilshift_acts (a n : Z) : list act :=
  ilshift_loop a n (Z.to_nat (32 - n)) ++ [SetNumberX a 0 (Z.shiftr (shmask n) 1)].
Definition lv_ilshift T k a n := Raw1 T k [] (ilshift_acts a n).
(* vbase.py 167-174 *)
Definition irshift_acts (a n : Z) : list act :=
  SetNumberX a 0 (Z.shiftr (shmask n) 1)
  :: map (fun t => SubtractNumberX a (Z.shiftl (Z.shiftr (shmask n) 1) (Z.of_nat t)) (Z.shiftl (shmask n) (Z.of_nat t)))
         (seq 0 (Z.to_nat (32 - n))).
Definition lv_irshift T k a n := Raw1 T k [] (irshift_acts a n).

(* vbase.py 178-203: comparisons with constants, VariableBase *)
Definition lv_eq (a c : Z) : cond := CondM a Exactly c.
Definition lv_ne (a c : Z) : option cond :=
  if u32 c =? 0 then Some (CondM a AtLeast 1)
  else if u32 c =? 0xFFFFFFFF then Some (CondM a AtMost 0xFFFFFFFE) else None.
Definition lv_le (a c : Z) : cond := CondM a AtMost c.
Definition lv_lt (a c : Z) : cond := CondM a AtMost (c - 1).
Definition lv_ge (a c : Z) : cond := CondM a AtLeast c.
Definition lv_gt (a c : Z) : cond := CondM a AtLeast (c + 1).

(* ---------- EUDVariable ---------- *)
Section Ops.
Variable same same_u : dst -> dst -> bool.
Variable addor : Z.
Variable T : nat -> Z.
Notation Seq := (SeqCompute same same_u T).
Notation val v := (vc v FVal).

(* code, then code placed after it *)
Definition andthen (k : nat) (c1 : list trig) (c2 : nat -> list trig) : list trig :=
  c1 ++ c2 (k + length c1)%nat.

(* eudv.py 251-261 *)
Definition v_assign k self other := Seq k [(DVar self, Some SetTo, other)].
Definition v_iadd k self other := Seq k [(DVar self, Some Add, other)].
(* eudv.py 263-277 *)
Definition v_isub k self other :=
  match other with
  | SConst c => v_iadd k self (SConst (- c))
  | SVar o => Seq k [(DVar self, Some Add, SConst 1); (DVar addor, Some SetTo, SConst 0xFFFFFFFF);
                     (DVar addor, Some Subtract, SVar o); (DVar self, None, SVar addor)]
  end.

(* Operators with a result: code and the variable that holds it. *)
(* eudv.py 281-290 *)
Definition v_add k (self_r other_r : bool) self other t : list trig * Z :=
  if self_r then (v_iadd k self other, self)
  else match other with
       | SVar o => if other_r then (v_iadd k o (SVar self), o)
                   else (Seq k [(DVar t, Some SetTo, other); (DVar t, Some Add, SVar self)], t)
       | SConst _ => (Seq k [(DVar t, Some SetTo, other); (DVar t, Some Add, SVar self)], t)
       end.
(* eudv.py 292-297 *)
Definition v_radd k (self_r : bool) self other t : list trig * Z :=
  if self_r then (v_iadd k self other, self)
  else (Seq k [(DVar t, Some SetTo, other); (DVar t, Some Add, SVar self)], t).
(* eudv.py 299-338 *)
Definition v_sub k (self_r other_r : bool) self other t : list trig * Z :=
  match other with
  | SVar o =>
      if other_r then
        (VProc T k [self] ([AddNumberX (val o) 0xFFFFFFFF 0x55555555; AddNumberX (val o) 0xFFFFFFFF 0xAAAAAAAA;
                            AddNumber (val o) 1] ++ QueueAddTo self (val o)), o)
      else if self_r then (v_isub k self other, self)
      else (Seq k [(DVar t, Some SetTo, SConst 0xFFFFFFFF); (DVar t, Some Subtract, other);
                   (DVar t, Some Add, SConst 1); (DVar t, Some Add, SVar self)], t)
  | SConst c =>
      if self_r then (v_isub k self other, self)
      else (Seq k [(DVar t, Some SetTo, SConst (- c)); (DVar t, Some Add, SVar self)], t)
  end.
(* eudv.py 340-370 *)
Definition v_rsub k (self_r : bool) self other t : list trig * Z :=
  match other with
  | SConst c =>
      if self_r then
        (Raw1 T k [] [AddNumberX (val self) 0xFFFFFFFF 0x55555555; AddNumberX (val self) 0xFFFFFFFF 0xAAAAAAAA;
                      AddNumber (val self) (c + 1)], self)
      else (Seq k [(DVar t, Some SetTo, SConst 0xFFFFFFFF); (DVar t, Some Subtract, SVar self);
                   (DVar t, Some Add, SConst (c + 1))], t)
  | SVar o => (Seq k [(DVar t, Some SetTo, SConst 0xFFFFFFFF); (DVar t, Some Subtract, SVar self);
                      (DVar t, Some Add, SConst 1); (DVar t, Some Add, SVar o)], t)
  end.
(* eudv.py 372-375; in (0 - self) the variable is not an rvalue *)
Definition v_neg k (self_r : bool) self t : list trig * Z :=
  if self_r then (lv_ineg T k (val self), self) else v_rsub k false self (SConst 0) t.
(* eudv.py 377-382 *)
Definition v_invert k (self_r : bool) self t : list trig * Z :=
  if self_r then (lv_iinvert T k (val self), self)
  else (Seq k [(DVar t, Some SetTo, SConst 0xFFFFFFFF); (DVar t, Some Subtract, SVar self)], t).

(* The action "write" is the first of a trigger; its mask (dword 82 of that
   trigger) is where SeqCompute stores the other operand. *)
Definition wmask (j : nat) : Z := T j + 82.
Definition write (j : nat) (a c : Z) : act := SetDX (Imm a) SetTo (Imm c) (Mem (wmask j)).
(* list that refers to the trigger emitted just after it *)
Definition patched k (l : Z -> list pair) (a c : Z) : list trig :=
  let j := (k + length (Seq k (l 0%Z)))%nat in
  Seq k (l (wmask j)) ++ Raw1 T j [] [write j a c].

(* eudv.py 386-394 *)
Definition v_ior k self other :=
  match other with
  | SVar o => patched k (fun e => [(DExpr e, Some SetTo, SVar o)]) (val self) 0xFFFFFFFF
  | SConst c => lv_ior T k (val self) c
  end.
(* eudv.py 396-409 *)
Definition v_iand k self other :=
  match other with
  | SVar o => patched k (fun e => [(DExpr e, Some SetTo, SConst 0xFFFFFFFF); (DExpr e, Some Subtract, SVar o)]) (val self) 0
  | SConst c => lv_iand T k (val self) c
  end.
(* eudv.py 413-434, 436-454 (the latter with other_r = false) *)
Definition v_and k (self_r other_r : bool) self other t : list trig * Z :=
  if self_r then (v_iand k self other, self)
  else match other with
       | SVar o =>
           if other_r then (v_iand k o (SVar self), o)
           else (patched k (fun e => [(DExpr e, Some SetTo, SConst 0xFFFFFFFF); (DVar t, Some SetTo, SVar self);
                                      (DExpr e, Some Subtract, SVar o)]) (val t) 0, t)
       | SConst c => (andthen k (v_assign k t (SVar self)) (fun j => v_iand j t other), t)
       end.
(* eudv.py 456-471, 473-485 *)
Definition v_or k (self_r other_r : bool) self other t : list trig * Z :=
  if self_r then (v_ior k self other, self)
  else match other with
       | SVar o =>
           if other_r then (v_ior k o (SVar self), o)
           else (patched k (fun e => [(DVar t, Some SetTo, SVar self); (DExpr e, Some SetTo, SVar o)]) (val t) 0xFFFFFFFF, t)
       | SConst c => (andthen k (v_assign k t (SVar self)) (fun j => v_ior j t other), t)
       end.
(* eudv.py 489-505 *)
Definition v_ixor k self other :=
  match other with
  | SVar o =>
      andthen k (VProc T k [o] (SetMask o 0x55555555 :: QueueAddTo o (val self))) (fun k1 =>
      andthen k1 (VProc T k1 [o] [SetMask o 0xAAAAAAAA]) (fun k2 =>
      Raw1 T k2 [] [SetMask o 0xFFFFFFFF]))
  | SConst c => lv_ixor T k (val self) c
  end.
(* eudv.py 507-531 *)
Definition v_xor k (self_r other_r : bool) self other t : list trig * Z :=
  if self_r then (v_ixor k self other, self)
  else match other with
       | SVar o =>
           if other_r then (v_ixor k o (SVar self), o)
           else (andthen k (VProc T k [self; o] (SetMask o 0x55555555 :: QueueAssignTo self (val t) ++ QueueAddTo o (val t))) (fun k1 =>
                 andthen k1 (VProc T k1 [o] [SetMask o 0xAAAAAAAA]) (fun k2 =>
                 Raw1 T k2 [] [SetMask o 0xFFFFFFFF])), t)
       | SConst c => (andthen k (v_assign k t (SVar self)) (fun j => v_ixor j t other), t)
       end.
(* eudv.py 533-553 *)
Definition v_rxor k (self_r : bool) self other t : list trig * Z :=
  if self_r then (v_ixor k self other, self)
  else match other with
       | SVar o =>
           (andthen k (Seq k [(DExpr (vc o FMask), Some SetTo, SConst 0x55555555); (DVar t, Some SetTo, SVar self);
                              (DVar t, Some Add, SVar o)]) (fun k1 =>
            andthen k1 (VProc T k1 [o] [SetMask o 0xAAAAAAAA]) (fun k2 =>
            Raw1 T k2 [] [SetMask o 0xFFFFFFFF])), t)
       | SConst c => (andthen k (v_assign k t (SVar self)) (fun j => v_ixor j t other), t)
       end.

(* ---------- comparisons: code to run before, and the condition ---------- *)
(* cell: EPD index of the condition record once it is placed in a trigger *)
(* eudv.py 557-559 with a constant *)
Definition v_eq_c self c : cond := CondM (val self) Exactly c.
(* Exactly(variable) raises, so (self - other).Exactly(0), eudv.py 561-564 *)
Definition v_eq k self_r other_r self o t : list trig * cond :=
  let (code, r) := v_sub k self_r other_r self (SVar o) t in (code, CondM (val r) Exactly 0).
(* eudv.py 566-572 *)
Definition v_ne k self_r other_r self other t : list trig * cond :=
  let gen := let (code, r) := v_sub k self_r other_r self other t in (code, CondM (val r) AtLeast 1) in
  match other with
  | SConst c => if u32 c =? 0 then ([], CondM (val self) AtLeast 1)
                else if u32 c =? 0xFFFFFFFF then ([], CondM (val self) AtMost 0xFFFFFFFE) else gen
  | SVar _ => gen
  end.
(* eudv.py 574-594: a variable operand is stored in dword 2 of the condition *)
Definition v_cmp k (cm : cmp) self other cell : list trig * cond :=
  match other with
  | SConst c => ([], CondM (val self) cm c)
  | SVar _ => (Seq k [(DExpr (cell + 2), Some SetTo, other)], CondD (Imm (val self)) cm (Mem (cell + 2)))
  end.
Definition v_le k := v_cmp k AtMost.
Definition v_ge k := v_cmp k AtLeast.
(* eudv.py 596-622: the condition reads its own first dword *)
Definition selfcond (cell : Z) : cond :=
  mkcond (Mem cell) (Imm cell) (Imm 1) (Imm (enc_cmp AtLeast * 2^16 + 15 * 2^24)) (Imm 0).
Definition v_lt k self other cell : list trig * cond :=
  match other with
  | SVar _ => (Seq k [(DExpr cell, Some SetTo, other); (DExpr cell, Some Subtract, SVar self)], selfcond cell)
  | SConst c => if c <=? 0 then ([], Never) else ([], CondM (val self) AtMost (c - 1))
  end.
Definition v_gt k self other cell : list trig * cond :=
  match other with
  | SVar _ => (Seq k [(DExpr cell, Some SetTo, SVar self); (DExpr cell, Some Subtract, other)], selfcond cell)
  | SConst c => if 0xFFFFFFFF <=? c then ([], Never) else ([], CondM (val self) AtLeast (c + 1))
  end.

(* ---------- core/calcf/bitwise.py 19-57 ---------- *)
(* f_bitand, f_bitor, f_bitxor and f_bitnot are v_and, v_or, v_xor, v_invert.
   The result of (a & b) is then inverted in place (32-37, 40-45). *)
Definition f_bitnand k (self_r other_r : bool) self other t : list trig * Z :=
  let (c, r) := v_and k self_r other_r self other t in (andthen k c (fun j => lv_iinvert T j (val r)), r).
Definition f_bitnor k (self_r other_r : bool) self other t : list trig * Z :=
  let (c, r) := v_or k self_r other_r self other t in (andthen k c (fun j => lv_iinvert T j (val r)), r).
(* 48-50: a ^ ~b. The value ~b is a temporary t1 (or b itself when b is an
   rvalue); r_r says whether Python sees it as an rvalue when ^ is applied. *)
Definition f_bitnxor k (a_r b_r r_r : bool) a other t1 t : list trig * Z :=
  match other with
  | SVar b =>
      let (c1, r1) := v_invert k b_r b t1 in
      let (c2, r) := v_xor (k + length c1) a_r r_r a (SVar r1) t in (c1 ++ c2, r)
  | SConst c => v_xor k a_r false a (SConst (Z.lnot c)) t
  end.
End Ops.
