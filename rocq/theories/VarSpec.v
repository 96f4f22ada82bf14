(* What it means for code to run in a world of variables; meaning of a list of
   assignments. Independent of how SeqCompute generates code. *)
From Coq Require Import ZArith List Bool.
From Verif Require Import Word Machine MachineProofs VarModel.
Import ListNotations.
Open Scope Z_scope.

Record world := mkworld { W_P : prog; W_prot : Z -> bool; W_vars : list Z }.

(* Variables are in place, their run-time cells are pairwise distinct, are
   addressable, and are not program text. *)
Record world_ok (w : world) : Prop := mkworld_ok {
  wo_prog : forall v, In v (W_vars w) -> W_P w (pa v) = Some (vtrig v);
  wo_sep : forall v u f g, In v (W_vars w) -> In u (W_vars w) ->
    idx (vc v f) = idx (vc u g) -> v = u /\ f = g;
  wo_plain : forall v f, In v (W_vars w) -> plain (vc v f);
  wo_prot : forall v f, In v (W_vars w) -> W_prot w (idx (vc v f)) = false }.

Definition runs (w : world) := steps (W_P w) (W_prot w).

(* the code is placed: trigger number k+i of the program is at T (k+i) *)
Definition placed (w : world) (T : nat -> Z) (k : nat) (code : list trig) : Prop :=
  forall i t, nth_error code i = Some t -> W_P w (lbl T (k + i)) = Some t.

(* cells of variables that only matter while a computation is in progress *)
Definition scratch (vs : list Z) (a : Z) : Prop :=
  exists v f, In v vs /\ (f = FNext \/ f = FDest \/ f = FMod) /\ idx a = idx (vc v f).

Definition agree (S : Z -> Prop) (m m' : mem) : Prop := forall a, ~ S a -> get m a = get m' a.

(* an address that an assignment may target *)
Definition writable (w : world) (a : Z) : Prop := plain a /\ W_prot w (idx a) = false.

(* ---- meaning of assignments ---- *)
Definition rpair := (dst * modifier * src)%type.
(* replace a modifier None by the modifier the source variable already has *)
Fixpoint resolve (cur : Z -> option modifier) (l : list pair) : option (list rpair) :=
  match l with
  | [] => Some []
  | (d, Some md, SConst c) :: r =>
      match resolve cur r with Some r' => Some ((d, md, SConst c) :: r') | None => None end
  | (_, None, SConst _) :: _ => None
  | (d, Some md, SVar v) :: r =>
      match resolve (fun u => if u =? v then Some md else cur u) r with
      | Some r' => Some ((d, md, SVar v) :: r') | None => None end
  | (d, None, SVar v) :: r =>
      match cur v with
      | Some md => match resolve cur r with Some r' => Some ((d, md, SVar v) :: r') | None => None end
      | None => None
      end
  end.

(* one assignment: destination, modifier, source value, under the source
   variable's mask *)
Definition assign1 (m : mem) (p : rpair) : mem :=
  let '(d, md, s) := p in
  let a := dst_epd d in
  match s with
  | SConst c => upd m a (do_mod md (get m a) (u32 c))
  | SVar v => upd m a (do_modx md (get m (vc v FMask)) (get m a) (get m (vc v FVal)))
  end.
Definition assign_all (m : mem) (l : list rpair) : mem := fold_left assign1 l m.

Definition srcs_of (l : list pair) : list Z :=
  flat_map (fun p => match snd p with SVar v => [v] | SConst _ => [] end) l.

(* modifiers known to be held by variables *)
Definition mods_known (m : mem) (cur : Z -> option modifier) (vs : list Z) : Prop :=
  forall v md, In v vs -> cur v = Some md -> get m (vc v FMod) = w6 md.
(* unit and action-type bits of the modifier dword are those of a SetDeaths *)
Definition mods_wf (m : mem) (vs : list Z) : Prop :=
  forall v, In v vs -> (get m (vc v FMod)) mod 2^24 = 45 * 2^16.

(* what a list of assignments may target: ordinary cells that are not transfer
   fields of its own source variables. (A destination that is the Python
   int 0 is excluded for variable sources; see C08_destination_zero_refuted.) *)
Definition pairs_ok (w : world) (vs : list Z) (l : list pair) : Prop :=
  forall d md s, In (d, md, s) l ->
    writable w (dst_epd d) /\ ~ scratch vs (dst_epd d) /\
    match s with SVar v => In v vs /\ truthy d = true | SConst _ => True end.
