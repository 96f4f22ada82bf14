(* Multiplication, division and shifts.
   Source: src/eudplib/core/calcf/muldiv.py and bitwise.py.
   Every function body is given as the list of its triggers, numbered from 0.
   Local variables and the shared variables _ev are parameters. A value field or
   next pointer that the code itself rewrites is a [Mem] operand. *)
From Coq Require Import ZArith List Bool.
From Verif Require Import Word Machine MachineProofs VarModel OpsModel FuncModel.
Import ListNotations.
Open Scope Z_scope.

Notation val v := (vc v FVal).
(* conditions of VariableBase, vbase.py 17-32 *)
Definition AtLeastX (v n k : Z) : cond := CondMX (val v) AtLeast n k.
Definition ExactlyX (v n k : Z) : cond := CondMX (val v) Exactly n k.

Section Code.
Variable same same_u : dst -> dst -> bool.
Variable perm : list pair -> list pair.
Variable T : nat -> Z.
Notation Seq := (SeqCompute same same_u T).
Notation Ret := (func_return same same_u perm T).

(* body followed by the assignment of the returned values (eudfuncn.py 103-105);
   f is the function being compiled *)

(* ---------- constant multiplication, muldiv.py 150-218 ---------- *)
(* 161-171 *)
Definition mul_m1_body (x_r : bool) (x t : Z) (f : efunc) : list trig :=
  let (c, r) := v_neg same same_u T 0 x_r x t in andthen 0 c (fun k => Ret k f [SVar r]).
Definition mul0_body (f : efunc) : list trig := Ret 0 f [SConst 0].
Definition mul1_body (x : Z) (f : efunc) : list trig := Ret 0 f [SVar x].
(* 205-215 *)
Definition mul_step (a ret number : Z) (i : nat) : list (list cond * list act) :=
  if u32 (2 ^ Z.of_nat i * number) =? 0 then []
  else [([AtLeastX a 1 (2 ^ Z.of_nat i)], [AddNumber (val ret) (2 ^ Z.of_nat i * number)])].
Definition mulf_body (a ret number : Z) : list trig :=
  andthen 0 (v_assign same same_u T 0 ret (SConst 0)) (fun k => straight T k (flat_map (mul_step a ret number) (seq 0 32))).

(* ---------- constant division, muldiv.py 221-387 ---------- *)
(* 230-236, 287-293, 345-351 *)
Definition div0_body (x : Z) (f : efunc) : list trig := Ret 0 f [SConst (-1); SVar x].
Definition div1_body (x : Z) (f : efunc) : list trig := Ret 0 f [SVar x; SConst 0].
Definition quot0_body (f : efunc) : list trig := Ret 0 f [SConst (-1)].
(* _quot1 and _rem0 return x: mul1_body; _rem1 returns 0: mul0_body *)

(* 252-255, 263-269: subtract 2^i * number when possible; [q] is the quotient
   variable, if there is one (382 has none) *)
Definition div_step (a : Z) (q : option Z) (number : Z) (i : nat) : list (list cond * list act) :=
  let n := 2 ^ Z.of_nat i * number in
  if 2^32 <=? n then []
  else [([CondM (val a) AtLeast n],
         SubtractNumber (val a) n :: match q with Some q => [AddNumber (val q) (2 ^ Z.of_nat i)] | None => [] end)].
(* 257-261 *)
Definition div_step2 (a q number : Z) (i : nat) : list (list cond * list act) :=
  let n := 2 ^ Z.of_nat i * number in
  if 2^32 <=? n then [] else [([AtLeastX a 1 n], [AddNumber (val q) (2 ^ Z.of_nat i)])].
Definition down32 : list nat := rev (seq 0 32).
Definition is_pow2 (number : Z) : bool := Z.land number (number - 1) =? 0.
(* 249-272 *)
Definition divf_body (a q number : Z) : list trig :=
  andthen 0 (v_assign same same_u T 0 q (SConst 0)) (fun k =>
    if is_pow2 number
    then andthen k (straight T k (flat_map (div_step2 a q number) down32)) (fun j => lv_iand T j (val a) (number - 1))
    else straight T k (flat_map (div_step a (Some q) number) down32)).
(* 302-309; math.log2 of a power of two is exact *)
Definition quotf2_body (q number : Z) : list trig := lv_irshift T 0 (val q) (Z.log2 number).
(* 315-330 *)
Definition quotf_body (a q number : Z) : list trig :=
  andthen 0 (v_assign same same_u T 0 q (SConst 0)) (fun k => straight T k (flat_map (div_step a (Some q) number) down32)).
(* 365-367 *)
Definition remf2_body (a number : Z) : list trig := lv_iand T 0 (val a) (number - 1).
(* 374-384 *)
Definition remf_body (a number : Z) : list trig := straight T 0 (flat_map (div_step a None number) down32).

(* ---------- variable multiplication, muldiv.py 393-427 ---------- *)
(* triggers: 0 init; for i = 0..30: p1 at 1+4i, p3 at 2+4i, p2 at 3+4i, p4 at
   4+4i; for i = 31: p1 at 125, p3 at 126, p2 is endmul; endmul at 127 *)
Definition m_p1 (i : nat) : nat := 1 + 4 * i.
Definition m_p2 (i : nat) : nat := 3 + 4 * i.
Definition m_p4 (i : nat) : nat := 4 + 4 * i.
Definition m_end : nat := 127.
(* next pointers rewritten by the code; fields of the action reset_nptr *)
Definition m_c1 (i : nat) : Z := T (m_p1 i) + 1.
Definition m_c2 (i : nat) : Z := T (m_p2 i) + 1.
Definition m_rd : Z := T m_end + 82 + 4.
Definition m_rv : Z := T m_end + 82 + 5.
(* bits above i (401, 405) *)
Definition remaining (i : nat) : Z := 2^32 - 2 ^ (Z.of_nat i + 1).
Definition mul_block (a b ret : Z) (i : nat) : list trig :=
  mktrig [AtLeastX a 1 (2 ^ Z.of_nat i)] [SetM (m_c1 i) SetTo (lbl T (2 + 4 * i))] (Mem (m_c1 i)) (Imm 4)
  :: VProc T (2 + 4 * i) [b] [SetDest b (val ret); SetM (m_c1 i) SetTo (lbl T (m_p2 i))]
  ++ (if (i <=? 30)%nat then
        mktrig [ExactlyX a 0 (remaining i)]
               [SetM (m_c2 i) SetTo (lbl T m_end); SetM m_rd SetTo (m_c2 i); SetM m_rv SetTo (lbl T (m_p4 i))]
               (Mem (m_c2 i)) (Imm 4)
        :: VProc T (m_p4 i) [b] [SetDest b (val b)]
      else []).
Definition eud_mul_body (a b ret : Z) : list trig :=
  Raw1 T 0 [] [SetNumber (val ret) 0; SetModifier b Add]
  ++ flat_map (mul_block a b ret) (seq 0 32)
  ++ [RawTrig [] [SetD (Mem m_rd) SetTo (Mem m_rv)] (lbl T 128)].
(* cells rewritten by the body *)
Definition mul_cells : list Z := map m_c1 (seq 0 32) ++ map m_c2 (seq 0 31) ++ [m_rd; m_rv].

(* ---------- variable division, muldiv.py 430-474 ---------- *)
(* triggers: 0 init; for i: two of SeqCompute at 1+5i, p1 at 3+5i, p3 at 4+5i,
   x += x at 5+5i; chain[i] at 192-i; return at 193 *)
Definition d_p1 (i : nat) : nat := 3 + 5 * i.
Definition d_chain (i : nat) : nat := 192 - i.
Definition d_c1 (i : nat) : Z := T (d_p1 i) + 1.
(* amount of the condition (cx0 + 8), value of the first action (cx1 + 20) *)
Definition d_x0 (i : nat) : Z := T (d_chain i) + 2 + 2.
Definition d_x1 (i : nat) : Z := T (d_chain i) + 82 + 5.
Definition div_block (x : Z) (i : nat) : list trig :=
  Seq (1 + 5 * i) [(DExpr (d_x0 i), Some SetTo, SVar x); (DExpr (d_x1 i), Some SetTo, SVar x)]
  ++ [mktrig [AtLeastX x 1 0x80000000] [SetM (d_c1 i) SetTo (lbl T (4 + 5 * i))] (Mem (d_c1 i)) (Imm 4);
      RawTrig [] [SetM (d_c1 i) SetTo (lbl T (5 + 5 * i))] (lbl T (d_chain i))]
  ++ Seq (5 + 5 * i) [(DVar x, Some Add, SVar x)].
Definition div_chain (a ret : Z) (i : nat) : trig :=
  RawTrig [CondD (Imm (val a)) AtLeast (Mem (d_x0 i))]
          [SetD (Imm (val a)) Subtract (Mem (d_x1 i)); AddNumber (val ret) (2 ^ Z.of_nat i)] (lbl T (S (d_chain i))).
Definition eud_div_body (a b ret x : Z) (f : efunc) : list trig :=
  Seq 0 [(DVar ret, Some SetTo, SConst 0); (DVar x, Some SetTo, SVar b)]
  ++ flat_map (div_block x) (seq 0 32)
  ++ map (div_chain a ret) down32
  ++ Ret 193 f [SVar ret; SVar a].
Definition div_cells : list Z := map d_c1 (seq 0 32) ++ map d_x0 (seq 0 32) ++ map d_x1 (seq 0 32).

(* ---------- shifts, bitwise.py 79-141, 159-181 ---------- *)
(* 82-87 *)
Definition exp2_body (n ret : Z) : list trig :=
  andthen 0 (v_assign same same_u T 0 ret (SConst 0)) (fun k =>
    straight T k (map (fun i => ([CondM (val n) Exactly (Z.of_nat i)], [SetNumber (val ret) (2 ^ Z.of_nat i)])) (seq 0 32))).
(* 122-141: 0 init, 1 loopstart, 2 loopcnt, 3 return *)
Definition lsh_c : Z := T 1%nat + 1.
Definition bitlshift_body (a b : Z) (f : efunc) : list trig :=
  [RawTrig [] (SetNextPtr a (lbl T 2) :: QueueAddTo a (val a)) (lbl T 1);
   mktrig [CondM (val a) AtLeast 1; CondM (val b) AtLeast 1] [SetM lsh_c SetTo (pa a)] (Mem lsh_c) (Imm 4);
   RawTrig [] [SubtractNumber (val b) 1; SetM lsh_c SetTo (lbl T 3)] (lbl T 1)]
  ++ Ret 3 f [SVar a].
(* 159-181: shift by a constant 1..10 through _selfadder, whose destination is
   its own value. [n] VProcs double it, then the result is written: the
   destination is the first parameter, the value field of set_ret. *)
Definition sh_ret (n : nat) : Z := T n + 82 + 5.
Definition shn_body (n : nat) (adder : Z) : list trig :=
  flat_map (fun i => VProc T i [adder] []) (seq 0 n)
  ++ VProc T n [adder] [SetD (Imm (vc adder FDest)) SetTo (Mem (sh_ret n)); SetModifier adder SetTo]
  ++ [RawTrig [] [SetDest adder (val adder); SetModifier adder Add] (lbl T (S (S n)))].
End Code.

(* 99-119. exp2: the function _exp2_vv; dv: the function _eud_div; e, q, r: the
   variables that receive their results. *)
Section Rshift.
Variable same same_u : dst -> dst -> bool.
Variable perm : list pair -> list pair.
Variable T : nat -> Z.
Definition rsh_c : Z := T 0%nat + 1.
Definition rsh_quot (exp2 dv : efunc) (a b ret e q r : Z) (k : nat) : list trig :=
  andthen k (func_call same same_u perm T k exp2 [SVar b] [val e]) (fun k1 =>
  andthen k1 (func_call same same_u perm T k1 dv [SVar a; SVar e] [val q; val r]) (fun k2 =>
  v_assign same same_u T k2 ret (SVar q))).
Definition bitrshift_body (exp2 dv : efunc) (a b ret e q r : Z) (f : efunc) : list trig :=
  let n := length (rsh_quot exp2 dv a b ret e q r 2) in
  [mktrig [CondM (val b) AtLeast 32] [SetNumber (val ret) 0; SetM rsh_c SetTo (lbl T 1)] (Mem rsh_c) (Imm 4);
   RawTrig [] [SetM rsh_c SetTo (lbl T 2)] (lbl T (2 + n))]
  ++ rsh_quot exp2 dv a b ret e q r 2
  ++ func_return same same_u perm T (2 + n) f [SVar ret].
End Rshift.
