(* Final theorems about variables, their storage and assignment lists. *)
From Coq Require Import ZArith Lia List Bool.
From Verif Require Import Word Machine MachineProofs MachineRefine VarModel VarSpec VarProofs SeqProofs
  PayloadModel PayloadSpec VbufModel VbufProofs VbufWorld ExWorld SeqRefute.
Import ListNotations.
Open Scope Z_scope.

(* The machine with constant fields is the stored-program machine. *)
Theorem machine_refines_stored_program : forall prot m0 P,
  (forall pc t, P pc = Some t -> pc mod 4 = 0 /\ trig_matches prot m0 (epd_of pc) t) ->
  forall s s', steps P prot s s' -> intact prot m0 (snd s) ->
  steps RawP (fun _ => false) s s' /\ intact prot m0 (snd s').
Proof. exact steps_refine. Qed.
Print Assumptions machine_refines_stored_program.

(* C08 *)
Theorem C08_seqcompute : forall w same same_u T k l cur rl m,
  world_ok w ->
  (forall a b, same a b = true -> u32 (dst_epd a) = u32 (dst_epd b)) ->
  incl (srcs_of l) (W_vars w) -> pairs_ok w (srcs_of l) l ->
  placed w T k (SeqCompute same same_u T k l) ->
  resolve cur l = Some rl ->
  mods_known m cur (srcs_of l) -> mods_wf m (srcs_of l) ->
  exists m', runs w (lbl T k, m) (lbl T (k + length (SeqCompute same same_u T k l)), m') /\
    agree (scratch (srcs_of l)) m' (assign_all m rl) /\
    mods_known m' (cur_after cur l) (srcs_of l) /\ mods_wf m' (srcs_of l) /\
    dests_known m' (dst_after (fun _ => None) l) (srcs_of l).
Proof. exact SeqCompute_correct. Qed.
Print Assumptions C08_seqcompute.

(* Full property without "destination is not the int 0" is false: the list says
   cell 0 becomes 5, but the value goes to the variable's previous destination. *)
Theorem C08_destination_zero_refuted :
  exists w T l rl m m',
    world_ok w /\ placed w T 0 (SeqCompute fresh_same user_same T 0 l) /\
    resolve (fun _ => None) l = Some rl /\ incl (srcs_of l) (W_vars w) /\ mods_wf m (srcs_of l) /\
    runs w (lbl T 0, m) (lbl T (length (SeqCompute fresh_same user_same T 0 l)), m') /\
    get (assign_all m rl) 0 = 5 /\ get m' 0 = 0.
Proof.
  destruct dest_zero as (m' & H1 & H2 & _).
  exists (exworld 1 zero_code), exT, zero_list, [(DInt 0, SetTo, SVar 999)], zero_mem, m'.
  split; [apply exworld_ok; reflexivity|].
  split; [apply exworld_placed; vm_compute; reflexivity|].
  split; [reflexivity|]. split; [intros v Hv; exact Hv|].
  split; [intros v [<-|[]]; reflexivity|]. auto.
Qed.
Print Assumptions C08_destination_zero_refuted.

(* Triggers have at most 64 actions when no variable is a source twice ... *)
Theorem C08_fits_partial : forall same same_u T k l, NoDup (srcs_of l) ->
  Forall (fun t => (length (t_acts t) <= 64)%nat) (SeqCompute same same_u T k l).
Proof. exact SeqCompute_fits. Qed.
Print Assumptions C08_fits_partial.
(* ... but not always (RawTrigger then raises). *)
Theorem C08_fits_refuted : exists l,
  existsb (fun t => Nat.ltb 64 (length (t_acts t))) (SeqCompute fresh_same user_same exT 0 l) = true.
Proof. exact (ex_intro _ too_many too_many_acts). Qed.
Print Assumptions C08_fits_refuted.

(* Non-vacuity of C08: constants, repeated sources, kept modifiers, chained use. *)
Definition v0 := vb_var 1000 0.
Definition v1 := vb_var 1000 1.
Definition v2 := vb_var 1000 2.
Definition ex_list : list pair :=
  [(DVar v1, Some SetTo, SConst 7); (DVar v1, Some Add, SVar v0); (DVar v2, Some SetTo, SVar v1);
   (DExpr 5000, None, SVar v1); (DExpr 5001, Some Subtract, SVar v1); (DVar v0, Some Add, SConst 1)].
Definition ex_code := SeqCompute fresh_same user_same exT 0 ex_list.
Definition ex_mem : mem := fun a =>
  if existsb (fun v => a =? vc v FMod) [v0; v1; v2] then w6 SetTo
  else if existsb (fun v => a =? vc v FMask) [v0; v1; v2] then 0xFFFFFFFF
  else if a =? vc v0 FVal then 5 else 0.
Example ex_seqcompute :
  world_ok (exworld 3 ex_code) /\ placed (exworld 3 ex_code) exT 0 ex_code /\
  pairs_ok (exworld 3 ex_code) (srcs_of ex_list) ex_list /\ incl (srcs_of ex_list) (exvars 3) /\
  (exists rl, resolve (fun _ => None) ex_list = Some rl /\
     map (get (assign_all ex_mem rl)) [vc v0 FVal; vc v1 FVal; vc v2 FVal; 5000; 5001] = [6; 12; 12; 12; 0]) /\
  mods_wf ex_mem (srcs_of ex_list) /\ length ex_code = 4%nat.
Proof.
  split; [apply exworld_ok; reflexivity|].
  split; [apply exworld_placed; vm_compute; reflexivity|].
  split.
  { assert (Hd : forall a, existsb (fun v => existsb (fun f => idx a =? idx (vc v f)) [FNext; FDest; FMod]) [v0; v1; v1; v1] = false ->
              ~ scratch (srcs_of ex_list) a).
    { intros a H (v & f & Hv & Hf & E). assert (Ht : existsb (fun v => existsb (fun f => idx a =? idx (vc v f)) [FNext; FDest; FMod]) [v0; v1; v1; v1] = true).
      { apply existsb_exists. exists v. split; [exact Hv|]. apply existsb_exists. exists f.
        split; [destruct Hf as [->|[->| ->]]; cbn; auto|]. apply Z.eqb_eq. exact E. }
      congruence. }
    intros d md s H. cbn [ex_list In] in H.
    repeat (destruct H as [H|H]; [injection H as <- <- <-;
      (split; [split; [split; [discriminate|reflexivity]|reflexivity]|split; [apply Hd; reflexivity|cbn; auto 10]])|]).
    destruct H. }
  split. { intros v Hv. cbn in Hv. cbn. tauto. }
  split. { eexists. split; [reflexivity|]. vm_compute. reflexivity. }
  split. { intros v Hv. cbn in Hv. repeat (destruct Hv as [<-|Hv]; [reflexivity|]). destruct Hv. }
  vm_compute. reflexivity.
Qed.

(* C42: the variable buffer. [o] is the EPD index of the object. *)
Theorem C42_varbuffer_contents : forall o vals m0,
  image m0 o (vb_ops vals) ->
  forall i, (i < length vals)%nat ->
  let v := o - 1 + 18 * Z.of_nat i in
  vb_trigger i = 4 * (v - o) /\
  trig_matches (vb_prot o (length vals)) m0 v (vtrig v) /\
  get m0 (v + 82) = 0xFFFFFFFF /\ get m0 (v + 86) = 0 /\
  get m0 (v + 87) = (ival_val (nth i vals (VInt 0))) mod 2^32 /\
  get m0 (v + 88) = 45 * 2^16 + 7 * 2^24 /\ get m0 (v + 1) = 0.
Proof.
  intros o vals m0 Him i Hi v.
  assert (E : v = vb_var o i) by (symmetry; apply vb_var_eq).
  destruct (vb_initial o vals m0 Him i Hi) as (H1 & H2 & H3 & H4 & H5 & _).
  rewrite E. split.
  - rewrite <- E. unfold v, vb_trigger. lia.
  - split; [exact (vb_matches o vals m0 Him i Hi)|]. auto.
Qed.
Print Assumptions C42_varbuffer_contents.

(* run-time cells of different variables, and constant cells, are all different *)
Theorem C42_variables_separate : forall o (vals : list ival) i j f g,
  18 * Z.of_nat (length vals) + 700 < 2^30 -> (i < length vals)%nat -> (j < length vals)%nat ->
  (idx (vc (vb_var o i) f) = idx (vc (vb_var o j) g) -> i = j /\ f = g) /\
  vb_prot o (length vals) (idx (vc (vb_var o i) f)) = false.
Proof.
  exact (fun o vals i j f g Hn Hi Hj =>
    conj (vb_sep o vals Hn i j f g Hi Hj) (vb_prot_false o vals Hn i f Hi)).
Qed.
Print Assumptions C42_variables_separate.

Theorem C42_varbuffer_size : forall vals, vals <> [] ->
  Z.of_nat (items_len (all_items (vb_ops vals))) = vb_size (length vals).
Proof. intros vals _. rewrite vb_total. unfold vb_size. lia. Qed.
Print Assumptions C42_varbuffer_size.

Theorem C42_jumpbuffer_contents : forall o ptrs m0, image m0 o (jb_ops ptrs) ->
  forall i, (i < length ptrs)%nat ->
  let v := o - 1 + 5 * Z.of_nat i in
  jb_trigger i = 4 * (v - o) /\
  trig_matches (jb_prot o (length ptrs)) m0 v (mktrig [] [] (Imm (nth i ptrs 0)) (Imm 8)) /\
  Z.of_nat (items_len (all_items (jb_ops ptrs))) = jb_size (length ptrs).
Proof.
  intros o ptrs m0 Him i Hi v.
  assert (E : v = jb_var o i) by (symmetry; apply jb_var_eq).
  split; [unfold v, jb_trigger; lia|]. split.
  - rewrite E. exact (jb_matches o ptrs m0 Him i Hi).
  - rewrite jb_total. unfold jb_size. lia.
Qed.
Print Assumptions C42_jumpbuffer_contents.

Theorem C42_jump_trigger_runs : forall P prot pc p m,
  P pc = Some (mktrig [] [] (Imm p) (Imm 8)) -> steps P prot (pc, m) (p mod 2^32, m).
Proof. exact jtrig_step. Qed.
Print Assumptions C42_jump_trigger_runs.

(* Non-vacuity: a memory that holds a buffer of three variables *)
Definition mem_of_ops (o : Z) (ops : list wop) : mem := fun a =>
  let k := Z.to_nat (4 * (a - o)) in
  let b j := match byte_at (all_items ops) (k + j) with Some v => v | None => 0 end in
  if (o <=? a) && (a <? o + 800) then b 0%nat + 256 * b 1%nat + 65536 * b 2%nat + 16777216 * b 3%nat else 0.
Definition ex_vals := [VInt 5; VAddr 77; VInt (-1)].
Example ex_image :
  forallb (fun k => match byte_at (all_items (vb_ops ex_vals)) k with
                    | Some v => byte_of (get (mem_of_ops 1000 (vb_ops ex_vals)) (1000 + Z.of_nat (k / 4))) (k mod 4) =? v
                    | None => true end) (seq 0 (items_len (all_items (vb_ops ex_vals)))) = true /\
  map (get (mem_of_ops 1000 (vb_ops ex_vals))) [vc v0 FVal; vc v1 FVal; vc v2 FVal] = [5; 77; 4294967295].
Proof. vm_compute. auto. Qed.
