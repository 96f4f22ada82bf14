(* More about the concrete worlds of ExWorld.v. *)
From Coq Require Import ZArith Lia Bool List.
From Verif Require Import Lib Word Machine MachineProofs VarModel VarSpec VbufModel VbufWorld ExWorld OpsSpec SeqRefute.
Import ListNotations.
Open Scope Z_scope.

Lemma exworld_patchable n code e : Z.of_nat n < 5000 -> 100000 <= e < 2^28 -> patchable (exworld n code) e.
Proof.
  intros Hn He. split; [split|].
  - split; rewrite u32_small by lia; [lia|]. unfold special. destruct (Z.eqb_spec e 12); [lia|].
    destruct (Z.leb_spec 14 e), (Z.leb_spec e 26); auto; lia.
  - reflexivity.
  - intros v f Hv. apply exvars_range in Hv; [|lia]. unfold vc, idx. destruct f; cbn [foff]; rewrite !Z.mod_small; lia.
Qed.
Lemma fresh_same_ok : forall a b, fresh_same a b = true -> u32 (dst_epd a) = u32 (dst_epd b).
Proof. intros [|x|] [|y|] H; try discriminate. apply Z.eqb_eq in H. subst. reflexivity. Qed.
(* variables in their initial state *)
Definition exmem (n : nat) (vals : list Z) : mem := fun a =>
  if existsb (fun v => a =? vc v FMod) (exvars n) then w6 SetTo
  else if existsb (fun v => a =? vc v FMask) (exvars n) then 0xFFFFFFFF
  else match find (fun x => a =? vc (fst x) FVal) (combine (exvars n) vals) with Some x => snd x | None => 0 end.
