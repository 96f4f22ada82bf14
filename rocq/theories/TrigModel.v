(* trigger/triggerdef.py: Trigger(conditions, actions, preserved), with any
   number of conditions and actions. *)
From Coq Require Import ZArith List Bool.
From Verif Require Import Word Machine MachineProofs VarModel FuncModel StruModel.
Import ListNotations.
Open Scope Z_scope.

(* 75-96: a trigger for one group of conditions; it goes to nextcond when they
   hold (rewriting its own next pointer), else to cend *)
Definition cond_trig (cs : list cond) (cend : nat) (s : bs) : bs :=
  let k := pos s in
  let (nextcond, s) := Forward s in
  let s := emit (fun L => mktrig cs [SetM (nx L k) SetTo (pa (L_F L nextcond))] (Mem (nx L k)) (Imm 4)) s in
  let s := selfnext k (F cend) s in
  let (f, s) := NextTrigger s in
  fset nextcond (F f) s.
Fixpoint cond_trigs (ch : list (list cond)) (cend : nat) (s : bs) : list nat * bs :=
  match ch with
  | [] => ([], s)
  | c :: r => let k := pos s in
              let (ks, s) := cond_trigs r cend (cond_trig c cend s) in (k :: ks, s)
  end.
(* 103-109 *)
Fixpoint act_trigs (ch : list (list (lay -> act))) (s : bs) : bs :=
  match ch with
  | [] => s
  | a :: r => act_trigs r (RawTrigger [] (fun L => map (fun x => x L) a) s)
  end.
(* 116-119 *)
Fixpoint revert_trigs (ch : list (list nat)) (cend : nat) (s : bs) : bs :=
  match ch with
  | [] => s
  | ks :: r => revert_trigs r cend (RawTrigger [] (fun L => map (fun k => SetM (nx L k) SetTo (pa (L_F L cend))) ks) s)
  end.

(* 22-124. Conditions and actions already flattened and patched (constant
   fields). tstart is the Forward returned by NextTrigger(). skipt is made in
   both cases by the library, but not used when preserved.
   preserved=False without conditions rewrites the next pointer of the first
   action trigger; that case is not modelled (its next pointer is a constant
   here). *)
Definition Trigger (cs : list cond) (acts : list act) (preserved : bool) (s : bs) : bs :=
  let (tstart, s) := NextTrigger s in
  if (length cs <=? 16)%nat && (length acts <=? 64)%nat then
    let f := b_nf s in
    snd (NextTrigger (emit (fun L => mktrig cs acts (Imm (pa (L_F L f))) (Imm (if preserved then 4 else 0))) s))
  else
    let (cend, s) := Forward s in
    let (ks, s) := cond_trigs (every 16 cs) cend s in
    let (skipt, s) := if preserved then (0%nat, s) else Forward s in
    let acts := map (fun a _ => a) acts ++
      (if preserved then [] else [fun L => SetM (L_F L tstart + 1) SetTo (pa (L_F L skipt))]) in
    let s := act_trigs (every 64 acts) s in
    let s := if preserved then s else SetNextTrigger (F skipt) s in
    let (f, s) := NextTrigger s in
    let s := fset cend (F f) s in
    let s := revert_trigs (every 64 ks) cend s in
    if preserved then s else let (f, s) := NextTrigger s in fset skipt (F f) s.
