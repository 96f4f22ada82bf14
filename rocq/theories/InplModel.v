(* In-place operations on memory items.
   Source: src/eudplib/core/inplacecw.py *)
From Coq Require Import ZArith List Bool.
From Verif Require Import Word Machine MachineProofs VarModel OpsModel BwModel.
Import ListNotations.
Open Scope Z_scope.

(* The actions that put the address a + b to cell X, and the variables to run;
   32-50, 60-71 and 73-91, 113-131, 142-156: one variable: X is set to the
   constant and the variable added; two: the first assigned, the second added.
   (For 67-77, X is the destination field of v and SetDest v b is SetM X SetTo b.) *)
Definition addr_vars (a b : src) : list Z :=
  match a, b with
  | SConst _, SConst _ => [] | SVar a, SVar b => [a; b] | SVar a, SConst _ => [a] | SConst _, SVar b => [b]
  end.
Definition addr_acts (X : Z) (a b : src) : list act :=
  match a, b with
  | SConst _, SConst _ => []
  | SVar a, SVar b => QueueAssignTo a X ++ QueueAddTo b X
  | SVar a, SConst b | SConst b, SVar a => SetM X SetTo b :: QueueAddTo a X
  end.
Definition both_const (a b : src) : bool := match a, b with SConst _, SConst _ => true | _, _ => false end.
Definition csum (a b : src) : Z := match a, b with SConst a, SConst b => a + b | _, _ => 0 end.
Definition same_var (a b : src) : bool := match a, b with SVar a, SVar b => a =? b | _, _ => false end.

(* 22-49 cpset: code, and the destination used afterwards *)
Definition cpset (T : nat -> Z) (k : nat) (a b : src) : list trig :=
  if both_const a b then []
  else if same_var a b then
    match a with
    | SVar a => let c := VProc T k [a] (SetM CPcell SetTo 0 :: QueueAddTo a CPcell) in c ++ VProc T (k + length c) [a] []
    | _ => [] end
  else VProc T k (addr_vars a b) (addr_acts CPcell a b).
Definition cpdst (a b : src) : Z := if both_const a b then csum a b else 13.
(* the second component of the result of cpset: RawTrigger, or
   f_setcurpl2cpcache (memio/modcurpl.py 39-44); K is the cache *)
Definition cptrg (T : nat -> Z) (k : nat) (K : Z) (a b : src) (acts : list act) : list trig :=
  if both_const a b then [RawTrig [] acts (lbl T (k + 1))] else VProc T k [K] (acts ++ [SetDest K CPcell]).

Definition and_then (c : list trig) (f : nat -> list trig) (k : nat) : list trig := c ++ f (k + length c)%nat.

(* masked writes to player d *)
Definition dacts (d : Z) (ops : list (modifier * Z * Z)) : list act :=
  map (fun p => let '(md, c, k) := p in SetDX (Imm d) md (Imm c) (Imm k)) ops.

(* 52-97 iset; the variables are different (58: otherwise a + b is computed first
   and setdw_epd is used) *)
Definition iset (T : nat -> Z) (k : nat) (a b : src) (md : modifier) (v : src) : list trig :=
  if both_const a b then setdw_epd T k (SConst (csum a b)) md v
  else match v with
  | SVar v => VProc T k (addr_vars a b ++ [v]) (addr_acts (vc v FDest) a b ++ [SetModifier v md])
  | SConst v =>
      and_then (VProc T k (addr_vars a b) (addr_acts (T (k + 1)%nat + 86) a b))
        (fun j => [RawTrig [] [SetD (Mem (T j + 86)) md (Imm v)] (lbl T (j + 1))]) k
  end.

(* 100-121 isub *)
Definition isub_ops : list (modifier * Z * Z) := [(Add, -1, 0x55555555); (Add, -1, 0xAAAAAAAA)].
Definition isub (T : nat -> Z) (k : nat) (K : Z) (a b : src) (v : src) : list trig :=
  match v with
  | SConst c => iset T k a b Add (SConst (- c))
  | SVar v =>
      let d := cpdst a b in
      let acts := dacts d isub_ops ++ [SetD (Imm d) Add (Imm 1)] in
      and_then (cpset T k a b) (fun k1 => and_then (VProc T k1 [v] (acts ++ QueueAddTo v d))
        (fun k2 => cptrg T k2 K a b acts) k1) k
  end.

(* 124-181 iand (neg = true, 0) and 184-244 ior (neg = false, ~0).  The action is
   the last one of the final trigger: number 2 for iand of a variable, else 0.
   156-177: VProc [a; v], the address acts, then v to the mask. *)
Definition ibit_const (T : nat -> Z) (k : nat) (a b : src) (c mask : Z) : list trig :=
  if both_const a b then [RawTrig [] [SetDX (Imm (csum a b)) SetTo (Imm c) (Imm mask)] (lbl T (k + 1))]
  else and_then (VProc T k (addr_vars a b) (addr_acts (T (k + 1)%nat + 86) a b))
         (fun j => [RawTrig [] [SetDX (Mem (T j + 86)) SetTo (Imm c) (Imm mask)] (lbl T (j + 1))]) k.
Definition ibit_var (T : nat -> Z) (k : nat) (a b : src) (v c : Z) (neg : bool) : list trig :=
  let off := if neg then 98 else 82 in   (* offset of the mask of the action *)
  let j := (k + 1)%nat in
  and_then (VProc T k (addr_vars a b ++ [v]) (addr_acts (T j + off + 4) a b ++ QueueAssignTo v (T j + off)))
    (fun j => [RawTrig []
       ((if neg then [SetMX (T j + off) Add (-1) 0x55555555; SetMX (T j + off) Add (-1) 0xAAAAAAAA] else []) ++
        [SetDX (if both_const a b then Imm (csum a b) else Mem (T j + off + 4)) SetTo (Imm c) (Mem (T j + off))]) (lbl T (j + 1))]) k.
Definition iand (T : nat -> Z) (k : nat) (a b : src) (v : src) : list trig :=
  match v with SConst v => ibit_const T k a b 0 (Z.lnot v) | SVar v => ibit_var T k a b v 0 true end.
Definition ior (T : nat -> Z) (k : nat) (a b : src) (v : src) : list trig :=
  match v with SConst v => ibit_const T k a b (-1) v | SVar v => ibit_var T k a b v (-1) false end.

(* 247-284 ixor *)
Definition ixor (T : nat -> Z) (k : nat) (K : Z) (a b : src) (v : src) : list trig :=
  match v with
  | SConst c => and_then (cpset T k a b) (fun k1 => cptrg T k1 K a b (dacts (cpdst a b) [(Add, c, 0x55555555); (Add, c, 0xAAAAAAAA)])) k
  | SVar v =>
      let d := vc v FDest in
      and_then
        (match a, b with
         | SConst a, SConst b => VProc T k [v] (QueueAddTo v (a + b) ++ [SetMask v 0x55555555])
         | SVar a, SVar b => VProc T k [a; b; v] (QueueAssignTo a d ++ QueueAddTo b d ++ [SetMask v 0x55555555; SetModifier v Add])
         | SVar a, SConst b | SConst b, SVar a => VProc T k [a; v] (QueueAddTo a d ++ QueueAddTo v b ++ [SetMask v 0x55555555])
         end)
        (fun k1 => and_then (VProc T k1 [v] [SetMask v 0xAAAAAAAA]) (fun k2 => [RawTrig [] [SetMask v 0xFFFFFFFF] (lbl T (k2 + 1))]) k1) k
  end.

(* 287-311 ilshift, irshift, n >= 1 (n = 0: no code) *)
Fixpoint ilshift_ops (n : Z) (t : nat) : list (modifier * Z * Z) :=
  match t with
  | O => [(SetTo, 0, Z.shiftr (shmask n) 1)]
  | S t' => (SetTo, 0, Z.shiftl (Z.shiftr (shmask n) 1) (Z.of_nat t' + 1))
            :: (Add, Z.shiftl (Z.shiftr (shmask n) 1) (Z.of_nat t'), Z.shiftl (shmask n) (Z.of_nat t')) :: ilshift_ops n t'
  end.
Definition ilshift (T : nat -> Z) (k : nat) (K : Z) (a b : src) (n : Z) : list trig :=
  if n =? 0 then [] else
  and_then (cpset T k a b) (fun k1 => cptrg T k1 K a b (dacts (cpdst a b) (ilshift_ops n (Z.to_nat (32 - n))))) k.
Definition irshift_ops (n : Z) : list (modifier * Z * Z) :=
  (SetTo, 0, Z.shiftr (shmask n) 1)
  :: map (fun t => (Subtract, Z.shiftl (Z.shiftr (shmask n) 1) (Z.of_nat t), Z.shiftl (shmask n) (Z.of_nat t))) (seq 0 (Z.to_nat (32 - n))).
Definition irshift (T : nat -> Z) (k : nat) (K : Z) (a b : src) (n : Z) : list trig :=
  if n =? 0 then [] else
  and_then (cpset T k a b) (fun k1 => cptrg T k1 K a b (dacts (cpdst a b) (irshift_ops n))) k.
