(* The current player and its cache.
   Source: src/eudplib/core/curpl.py, src/eudplib/memio/modcurpl.py, memio/s.py *)
From Coq Require Import ZArith List Bool.
From Verif Require Import Word Machine MachineProofs VarModel OpsModel.
Import ListNotations.
Open Scope Z_scope.

(* curpl.py 12-19: K is _curpl_var (cpcache), A the EPD of the amount of
   _curpl_checkcond (cpcond + 8, EPD(cpcond) + 2) *)
Definition cpcond (A : Z) : cond := CondD (Imm CPcell) Exactly (Mem A).
(* curpl.py 22-28, 31-37 *)
Definition SetCurrentPlayer (K A p : Z) : list act := [SetM (vc K FVal) SetTo p; SetM A SetTo p; SetM CPcell SetTo p].
Definition AddCurrentPlayer (K A p : Z) : list act := [SetM (vc K FVal) Add p; SetM A Add p; SetM CPcell Add p].

(* modcurpl.py 18-36 f_setcurpl; cp: a constant or a variable.  The conditional
   expression takes in the whole sum: with set_modifier False, actions are dropped. *)
Definition f_setcurpl (T : nat -> Z) (k : nat) (K A : Z) (cp : src) (actions : list act) (set_modifier : bool) : list trig :=
  match cp with
  | SVar v =>
      let c := VProc T k [v] (if set_modifier then actions ++ QueueAssignTo v (vc K FVal) else [SetDest v (vc K FVal)]) in
      c ++ VProc T (k + length c) [v; K] [SetDest v A; SetDest K CPcell]
  | SConst p => [RawTrig [] (SetCurrentPlayer K A p) (lbl T (k + 1))]
  end.
(* modcurpl.py 39-44, without extra variables *)
Definition f_setcurpl2cpcache (T : nat -> Z) (k : nat) (K : Z) (actions : list act) : list trig :=
  VProc T k [K] (actions ++ [SetDest K CPcell]).
(* modcurpl.py 80-92 *)
Definition f_addcurpl (T : nat -> Z) (k : nat) (K A : Z) (cp : src) : list trig :=
  match cp with
  | SVar v =>
      let c1 := VProc T k [v] (QueueAddTo v (vc K FVal)) in
      let c2 := VProc T (k + length c1) [v] [SetDest v A] in
      let c3 := VProc T (k + length c1 + length c2) [v] [SetDest v CPcell] in c1 ++ c2 ++ c3
  | SConst p => [RawTrig [] (AddCurrentPlayer K A p) (lbl T (k + 1))]
  end.

(* s.py 65-86 SetMemoryC: unit u, unused location, random flags without bit 1 *)
Definition SetMemoryC (a : Z) (md : modifier) (v u loc fl : Z) : act :=
  mkact (Imm loc) (Imm (a - 12 * u)) (Imm v) (Imm (u + 45 * 2^16 + enc_mod md * 2^24)) (Imm (Z.land fl 0xFD)).
(* stockcond DeathsX with unit u *)
Definition DeathsX (p : Z) (cm : cmp) (n u k : Z) : cond :=
  mkcond (Imm k) (Imm p) (Imm n) (Imm (u + enc_cmp cm * 2^16 + 15 * 2^24)) (Imm 0x43530000).
(* the random numbers of one trigger: bit, unit of the condition, unit, location and flags of the action *)
Record rnd := mkrnd { r_bit : Z; r_cu : Z; r_au : Z; r_loc : Z; r_fl : Z }.
Definition update_bit (T : nat -> Z) (k : nat) (K : Z) (r : rnd) : trig :=
  RawTrig [DeathsX (CPcell - 12 * r_cu r) AtLeast 1 (r_cu r) (2^r_bit r)]
    [SetMemoryC (vc K FVal) Add (2^r_bit r) (r_au r) (r_loc r) (r_fl r)] (lbl T (k + 1)).
Fixpoint update_bits (T : nat -> Z) (k : nat) (K : Z) (l : list rnd) : list trig :=
  match l with [] => [] | r :: l => update_bit T k K r :: update_bits T (S k) K l end.
(* modcurpl.py 48-62 _f_updatecpcache; r0: random numbers of the first action *)
Definition f_updatecpcache (T : nat -> Z) (k : nat) (K A : Z) (r0 : rnd) (l : list rnd) : list trig :=
  let c := RawTrig [] [SetMemoryC (vc K FVal) SetTo 0 (r_au r0) (r_loc r0) (r_fl r0)] (lbl T (k + 1)) :: update_bits T (S k) K l in
  let d := VProc T (k + length c) [K] [SetDest K A] in
  c ++ d ++ f_setcurpl2cpcache T (k + length c + length d) K [].
(* modcurpl.py 65-77, the body of f_getcurpl: EUDIfNot()(cpcond) is trigger/branch.py
   20-46 with the condition placed in the first trigger (its amount is dword 4 of
   trigger 0), then the block *)
Definition f_getcurpl (T : nat -> Z) (K : Z) (r0 : rnd) (l : list rnd) : list trig :=
  let body := f_updatecpcache T 2 K (T 0%nat + 4) r0 l in
  mktrig [cpcond (T 0%nat + 4)] [SetM (T 0%nat + 1) SetTo (lbl T 1)] (Mem (T 0%nat + 1)) (Imm 4) ::
  RawTrig [] [SetM (T 0%nat + 1) SetTo (lbl T 2)] (lbl T (2 + length body)) :: body.

(* a sequence of operations on the current player *)
Inductive curpl_op :=
| OSet (p : src)            (* f_setcurpl(p) *)
| OAdd (p : src)            (* f_addcurpl(p) *)
| OMove (d : Z)             (* SetMemory(0x6509B0, Add, d): the cache is not told *)
| OMoveTo (d : Z)           (* SetMemory(0x6509B0, SetTo, d) *)
| ORestore.                 (* f_setcurpl2cpcache() *)
Definition curpl_code (T : nat -> Z) (k : nat) (K A : Z) (o : curpl_op) : list trig :=
  match o with
  | OSet p => f_setcurpl T k K A p [] true
  | OAdd p => f_addcurpl T k K A p
  | OMove d => [RawTrig [] [SetM CPcell Add d] (lbl T (k + 1))]
  | OMoveTo d => [RawTrig [] [SetM CPcell SetTo d] (lbl T (k + 1))]
  | ORestore => f_setcurpl2cpcache T k K []
  end.
Fixpoint curpl_prog (T : nat -> Z) (k : nat) (K A : Z) (l : list curpl_op) : list trig :=
  match l with
  | [] => []
  | o :: l => let c := curpl_code T k K A o in c ++ curpl_prog T (k + length c) K A l
  end.
