(* What it means for emitted code to compute something: the vocabulary used to
   state theorems about operators. Independent of the code generators. *)
From Coq Require Import ZArith List Bool.
From Verif Require Import Word Machine MachineProofs VarModel VarSpec.
Import ListNotations.
Open Scope Z_scope.

(* A variable in ordinary condition: full mask, and the action part of its
   modifier dword is SetDeaths with some modifier. *)
Definition ordinary (m : mem) (v : Z) : Prop :=
  get m (vc v FMask) = 0xFFFFFFFF /\ get m (vc v FMod) mod 2^24 = 45 * 2^16.
Definition keeps (w : world) (m m' : mem) : Prop :=
  forall v, In v (W_vars w) -> ordinary m v -> ordinary m' v.

(* Cells whose content afterwards is unspecified: transfer fields (next
   pointer, destination, modifier) of the variables vs, and the listed cells. *)
Definition tmp (vs cells : list Z) (a : Z) : Prop :=
  scratch vs a \/ exists c, In c cells /\ idx a = idx c.

(* The listed cells have the listed values; no other cell outside S changed. *)
Definition changes (S : Z -> Prop) (m m' : mem) (l : list (Z * Z)) : Prop :=
  (forall a x, In (a, x) l -> get m' a = x) /\
  (forall b, ~ S b -> (forall a x, In (a, x) l -> idx a <> idx b) -> get m' b = get m b).

(* Running the code placed from trigger number k reaches the trigger after it,
   with exactly these effects. *)
Definition does (w : world) (T : nat -> Z) (k : nat) (code : list trig) (S : Z -> Prop) (m : mem)
  (l : list (Z * Z)) : Prop :=
  exists m', runs w (lbl T k, m) (lbl T (k + length code), m') /\ changes S m m' l /\ keeps w m m'.

(* a cell of program text (or data) that code may write, apart from variables *)
Definition sepcell (w : world) (a : Z) : Prop := forall v f, In v (W_vars w) -> idx a <> idx (vc v f).
Definition patchable (w : world) (a : Z) : Prop := writable w a /\ sepcell w a.

(* value of an operand *)
Definition sval (m : mem) (s : src) : Z := match s with SConst c => u32 c | SVar v => get m (vc v FVal) end.
Definition svar (s : src) : list Z := match s with SConst _ => [] | SVar v => [v] end.
Definition ord_src (w : world) (m : mem) (s : src) : Prop :=
  match s with SConst _ => True | SVar v => In v (W_vars w) /\ ordinary m v end.

(* a cell whose change does not disturb any variable's transfer: a value cell or
   a cell apart from variables *)
Definition valcell (w : world) (a : Z) : Prop :=
  writable w a /\ forall v f, In v (W_vars w) -> f <> FVal -> idx a <> idx (vc v f).

(* A comparison: run the code, then condition c (evaluated in a state that
   still has the same content in the listed cells) holds exactly when b. *)
Definition tests (w : world) (T : nat -> Z) (k : nat) (code : list trig) (S : Z -> Prop) (m : mem)
  (cells : list Z) (c : cond) (b : bool) : Prop :=
  exists m', runs w (lbl T k, m) (lbl T (k + length code), m') /\ changes S m m' [] /\ keeps w m m' /\
    forall m2, (forall a, In a cells -> get m2 a = get m' a) -> conds_are m2 [c] b.

(* The result of an operator is the fresh variable t, or an operand that is an
   rvalue (nobody else can see it). *)
Definition fresh_result (self_r other_r : bool) (self : Z) (other : src) (t r : Z) : Prop :=
  r = t \/ (self_r = true /\ r = self) \/ (other_r = true /\ other = SVar r).

(* mask fields (dword 82) of the triggers of a piece of code *)
Definition code_masks (T : nat -> Z) (k : nat) (code : list trig) : list Z :=
  map (fun j => T j + 82) (seq k (length code)).
