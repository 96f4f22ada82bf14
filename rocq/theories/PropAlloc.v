(* Final theorems about layout, payload construction, relocation and the
   address algebra (C01-C06). *)
From Coq Require Import ZArith List Bool.
From Verif Require Import AllocModel AllocProofs PayloadModel PayloadSpec PayloadProofs RelocModel RelocProofs.
Import ListNotations.
Open Scope Z_scope.

(* C01. [pats]: for each object, which dwords it uses. Offsets and size in bytes. *)
Theorem C01_layout_disjoint : forall pats offs size,
  stack_objects (map occup_of pats) = Ok (offs, size) ->
  length offs = length pats /\
  (forall n off, nth_error offs n = Some off -> 0 <= off /\ off mod 4 = 0) /\
  (forall m n p q om on b, m <> n ->
     nth_error pats m = Some p -> nth_error pats n = Some q ->
     nth_error offs m = Some om -> nth_error offs n = Some on ->
     ~ (uses_byte p om b /\ uses_byte q on b)) /\
  (forall n p off, nth_error pats n = Some p -> nth_error offs n = Some off ->
     off + 4 * Z.of_nat (length p) <= size) /\
  (forall off, nth_error offs 0 = Some off -> off = 0).
Proof. exact stack_objects_spec. Qed.
Print Assumptions C01_layout_disjoint.

(* C02. Full property (layout always completes) is false: *)
Theorem C02_layout_completes_refuted :
  exists pats, stack_objects (map occup_of pats) = Panic.
Proof. exact (ex_intro _ [[true]] stack_objects_panics). Qed.
Print Assumptions C02_layout_completes_refuted.

(* It completes unless the last non-empty object uses its last dword; the search
   itself always terminates. *)
Theorem C02_layout_completes_partial : forall pats,
  (exists offs size, stack_objects (map occup_of pats) = Ok (offs, size)) \/
  (stack_objects (map occup_of pats) = Panic /\
   exists pre p post, pats = pre ++ (p ++ [true]) :: post /\ Forall (fun x => x = []) post).
Proof. exact stack_objects_complete. Qed.
Print Assumptions C02_layout_completes_partial.

(* C03. Full property (every written byte is recorded) is false for unaligned writes: *)
Theorem C03_occupancy_refuted :
  exists ops, length (dry_run ops) = ((items_len (all_items ops) + 3) / 4)%nat /\
  exists k, byte_at (all_items ops) k <> None /\ nth_error (dry_run ops) (k / 4) = Some (-1).
Proof.
  exact (ex_intro _ unaligned_ops
          (conj (proj1 dry_run_unaligned) (ex_intro _ 4%nat (proj2 dry_run_unaligned)))).
Qed.
Print Assumptions C03_occupancy_refuted.

(* It holds when every write of four or more bytes is aligned. *)
Theorem C03_occupancy_partial : forall ops,
  ops_aligned 0 ops = true -> forallb op_fields_ok ops = true ->
  exists pat, dry_run ops = occup_of pat /\
    length pat = ((items_len (all_items ops) + 3) / 4)%nat /\
    forall k v, byte_at (all_items ops) k = Some v -> nth (k / 4) pat false = true.
Proof. exact dry_run_covers. Qed.
Print Assumptions C03_occupancy_partial.

(* C04 *)
Theorem C04_payload_contents : forall objs offs s,
  all_aligned objs -> construct_payload objs = Ok (offs, s) ->
  let l := combine objs offs in
  length offs = length objs /\
  (forall n k v, obj_byte l n k v -> nth_error (b_data s) k = Some v) /\
  (forall k, (k < length (b_data s))%nat -> (forall n v, ~ obj_byte l n k v) -> nth_error (b_data s) k = Some 0) /\
  (forall p, In p (b_prt s) <-> exists n r, obj_rel l n p r /\ r_mode r = 1) /\
  (forall p, In p (b_ort s) <-> exists n r, obj_rel l n p r /\ r_mode r = 4) /\
  NoDup (b_prt s) /\ NoDup (b_ort s) /\
  (forall n p r, obj_rel l n p r -> r_mode r <> 0 -> (p mod 4 = 0)%nat) /\
  (forall a b k v w, a <> b -> obj_byte l a k v -> obj_byte l b k w -> False).
Proof. exact construct_payload_spec. Qed.
Print Assumptions C04_payload_contents.

(* C05 *)
Theorem C05_relocated_payload : forall objs offs s base,
  all_aligned objs -> modes_ok objs ->
  construct_payload objs = Ok (offs, s) -> base mod 4 = 0 ->
  let l := combine objs offs in
  let mem := relocate base (b_prt s) (b_ort s) (b_data s) in
  length mem = length (b_data s) /\
  (forall n p r, obj_rel l n p r -> read_dword mem p = (r_off r + r_mode r * (base / 4)) mod 2^32) /\
  (forall n k v, obj_byte l n k v -> (forall m p r, obj_rel l m p r -> ~ (p <= k < p + 4)%nat) ->
     nth_error mem k = Some v).
Proof. exact relocated_payload. Qed.
Print Assumptions C05_relocated_payload.

(* Without [modes_ok]: a value with another relocation mode written through
   WritePack is silently left unrelocated. *)
Theorem C05_pack_mode_refuted :
  exists objs offs s n p r base, construct_payload objs = Ok (offs, s) /\ base mod 4 = 0 /\
    obj_rel (combine objs offs) n p r /\
    read_dword (relocate base (b_prt s) (b_ort s) (b_data s)) p <> (r_off r + r_mode r * (base / 4)) mod 2^32.
Proof.
  destruct bad_mode_unrelocated as (offs & s & H1 & H2 & H3).
  exact (ex_intro _ [bad_mode_obj] (ex_intro _ offs (ex_intro _ s (ex_intro _ 0%nat (ex_intro _ 0%nat
        (ex_intro _ (mkrloc 8 2) (ex_intro _ 4096 (conj H1 (conj eq_refl (conj H2 H3)))))))))).
Qed.
Print Assumptions C05_pack_mode_refuted.

(* C06. Address expressions over one object/forward at payload offset [o],
   payload loaded at address 4*b. *)
Theorem C06_constexpr_sound : forall e v o r,
  build e = Some v -> fits e = true ->
  o mod 4 = 0 -> i32_ok (o * mpart e) = true -> i32_ok (4 * mpart e) = true ->
  evaluate (mkrloc o 4) v = Some r ->
  forall b, rvalue r b = den (o + 4 * b) e mod 2^32.
Proof. exact evaluate_sound. Qed.
Print Assumptions C06_constexpr_sound.

Theorem C06_constexpr_mod_sound : forall e v c q,
  build e = Some v -> fits e = true -> i32_ok (cpart e) = true -> cmod v c = Some q ->
  forall A, A mod 4 = 0 -> q = den A e mod c.
Proof. exact cmod_sound. Qed.
Print Assumptions C06_constexpr_mod_sound.

Theorem C06_epd_sound : forall e v o r,
  build (epd_expr e) = Some v -> fits (epd_expr e) = true ->
  o mod 4 = 0 -> i32_ok (o * mpart (epd_expr e)) = true -> i32_ok (4 * mpart (epd_expr e)) = true ->
  evaluate (mkrloc o 4) v = Some r ->
  forall b, rvalue r b = ((den (o + 4 * b) e - 0x58A364) / 4) mod 2^32.
Proof. exact epd_expr_sound. Qed.
Print Assumptions C06_epd_sound.

Theorem C06_rlocint_sound : forall a b c k,
  rvalue (rl_add a b) k = (rvalue a k + rvalue b k) mod 2^32 /\
  rvalue (rl_sub a b) k = (rvalue a k - rvalue b k) mod 2^32 /\
  rvalue (rl_mul a c) k = (rvalue a k * c) mod 2^32.
Proof. exact (fun a b c k => conj (rl_add_sound a b k) (conj (rl_sub_sound a b k) (rl_mul_sound a c k))). Qed.
Print Assumptions C06_rlocint_sound.

Theorem C06_rlocint_neg_refuted : exists a r k, rl_neg a = Some r /\ rvalue r k <> (- rvalue a k) mod 2^32.
Proof. exact rl_neg_unsound. Qed.
Print Assumptions C06_rlocint_neg_refuted.
Theorem C06_rlocint_and_refuted : exists a c r k, rl_and a c = Some r /\ rvalue r k <> Z.land (rvalue a k) c.
Proof. exact rl_and_unsound. Qed.
Print Assumptions C06_rlocint_and_refuted.
Theorem C06_rlocint_ror_refuted : exists a c r k, rl_ror a c = Some r /\ rvalue r k <> Z.lor c (rvalue a k).
Proof. exact rl_ror_unsound. Qed.
Print Assumptions C06_rlocint_ror_refuted.
Theorem C06_rlocint_floordiv_refuted : exists a c r k, rl_floordiv a c = Some r /\ rvalue r k <> rvalue a k / c.
Proof. exact rl_floordiv_unsound. Qed.
Print Assumptions C06_rlocint_floordiv_refuted.

(* Non-vacuity: a trigger that points at itself and at a data block, plus the
   data block, are laid out, written and relocated. *)
Definition ex_act : list (Z * rloc) :=
  [(4, mkrloc 0 0); (4, mkrloc 0 0); (4, mkrloc 0 0); (4, mkrloc 0 0); (4, mkrloc (-1452249) 1);
   (4, mkrloc 5 0); (2, mkrloc 0 0); (1, mkrloc 45 0); (1, mkrloc 7 0); (1, mkrloc 20 0); (1, mkrloc 0 0);
   (2, mkrloc 0 0)].
Definition ex_objs : list obj :=
  [ mkobj [WTrigger (mkrloc 0 0) (mkrloc 8 4) [] [ex_act] (mkrloc 4 0)] 2408;
    mkobj [WBytes [1; 2; 3; 4; 5]] 5 ].
Lemma modes_ok_dec objs :
  forallb (fun o => forallb (fun pr : nat * rloc => (r_mode (snd pr) =? 0) || (r_mode (snd pr) =? 1) || (r_mode (snd pr) =? 4))
    (rels_at 0 (all_items (ob_ops o)))) objs = true -> modes_ok objs.
Proof.
  intros H. rewrite forallb_forall in H. apply Forall_forall. intros o Ho.
  specialize (H o Ho). rewrite forallb_forall in H. apply Forall_forall. intros pr Hp.
  specialize (H pr Hp). apply orb_prop in H. destruct H as [H|H]; [apply orb_prop in H; destruct H as [H|H]|];
    apply Z.eqb_eq in H; auto.
Qed.

Example ex_objs_meet_hypotheses :
  all_aligned ex_objs /\ modes_ok ex_objs /\
  match construct_payload ex_objs with
  | Ok (offs, s) => offs = [0; 28] /\ b_prt s = [344%nat] /\ b_ort s = [4%nat] /\ length (b_data s) = Z.to_nat 2408
      /\ read_dword (relocate 4096 (b_prt s) (b_ort s) (b_data s)) 4 = 4104
  | _ => False end.
Proof.
  split; [|split].
  - apply Forall_forall. intros o [<-|[<-|[]]]; vm_compute; reflexivity.
  - apply modes_ok_dec. vm_compute. reflexivity.
  - vm_compute. repeat split.
Qed.
