(* Where SeqCompute does not do what its assignment list says, and where its
   size estimate is wrong. *)
From Coq Require Import ZArith Lia Bool List ZifyBool ZifyNat.
From Verif Require Import Lib Word Machine MachineProofs VarModel VarSpec VarProofs SeqProofs VbufModel VbufWorld ExWorld.
Import ListNotations.
Open Scope Z_scope.

(* Python identity of destinations: computed destinations of variables are fresh
   objects each time; small ints and identical expressions may be shared *)
Definition fresh_same (a b : dst) : bool := match a, b with DInt x, DInt y => x =? y | _, _ => false end.
Definition user_same (a b : dst) : bool := match a, b with DVar x, DVar y => x =? y | DInt x, DInt y => x =? y | _, _ => false end.

(* 1. Destination int 0 *)
Definition zero_list : list pair := [(DInt 0, Some SetTo, SVar 999)].
Definition zero_code : list trig := SeqCompute fresh_same user_same exT 0 zero_list.
Definition zero_mem : mem := fun a =>
  if a =? vc 999 FMask then 0xFFFFFFFF else if a =? vc 999 FDest then 500
  else if a =? vc 999 FVal then 5 else if a =? vc 999 FMod then w6 SetTo else 0.
Lemma zero_code_eq : zero_code =
  [RawTrig [] [SetModifier 999 SetTo; SetNextPtr 999 (lbl exT 1)] (pa 999)].
Proof. reflexivity. Qed.

Lemma dest_zero :
  exists m', runs (exworld 1 zero_code) (lbl exT 0, zero_mem) (lbl exT 1, m') /\
    get m' 0 = 0 /\ get m' 500 = 5.
Proof.
  assert (Hw : world_ok (exworld 1 zero_code)) by (apply exworld_ok; reflexivity).
  assert (Hv : In 999 (W_vars (exworld 1 zero_code))) by (left; reflexivity).
  pose (m1 := upd zero_mem (vc 999 FMod) (w6 SetTo)).
  pose (m2 := upd m1 (vc 999 FNext) (lbl exT 1)).
  exists (upd m2 500 5). split; [|split; reflexivity].
  eapply steps_trans.
  - apply (run_true (W_P (exworld 1 zero_code)) (W_prot (exworld 1 zero_code)) (lbl exT 0) zero_mem
             [] [SetModifier 999 SetTo; SetNextPtr 999 (lbl exT 1)] (Imm (pa 999)) (Imm 4) m2 (pa 999)).
    + pose proof (exworld_placed 1 zero_code ltac:(reflexivity) ltac:(vm_compute; reflexivity) 0%nat) as H.
      cbn [Nat.add] in H. apply H. reflexivity.
    + reflexivity.
    + apply conds_nil.
    + apply do_cons_MX; [apply (wo_plain _ Hw); exact Hv|reflexivity|].
      change (upd zero_mem (vc 999 FMod) _) with m1.
      apply do_cons_M; [apply (wo_plain _ Hw); exact Hv|reflexivity|].
      change (upd m1 (vc 999 FNext) _) with m2. apply do_nil.
    + reflexivity.
  - change (upd m2 500 5) with (upd m2 500 (do_modx SetTo (get m2 (vc 999 FMask)) (get m2 500) (get m2 (vc 999 FVal)))).
    apply (hop _ Hw); auto.
    + split; [|reflexivity]. split; [discriminate|reflexivity].
    + intros f ->. discriminate.
Qed.

(* 2. The estimate of the number of actions *)
Definition many (n : nat) : list pair :=
  map (fun i => (DVar (vb_var 1000 (n + i)), Some SetTo, SVar (vb_var 1000 i))) (seq 0 n).
Definition too_many : list pair := many 40 ++ rev (many 40).
Lemma too_many_acts :
  existsb (fun t => Nat.ltb 64 (length (t_acts t))) (SeqCompute fresh_same user_same exT 0 too_many) = true.
Proof. vm_compute. reflexivity. Qed.
