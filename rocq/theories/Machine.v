(* The machine that runs the compiled output: StarCraft's trigger engine
   restricted to what eudplib's core relies on (death-table reads and writes at
   arbitrary dword addresses, trigger chains through next pointers).
   This file is the environment of the code, not part of /repo; field offsets
   follow core/rawtrigger/condition.py 49-66, core/rawtrigger/action.py 83-103,
   core/rawtrigger/rawtriggerdef.py 184-203.

   Memory is dword addressed by "EPD" index: index i is the dword at byte
   address 0x58A364 + 4*i (modulo 2^32), so indices count modulo 2^30. *)
From Coq Require Import ZArith Lia Bool List.
From Verif Require Import Word.
Import ListNotations.
Open Scope Z_scope.

Definition mem := Z -> Z.
Definition idx (a : Z) : Z := a mod 2^30.
Definition get (m : mem) (a : Z) : Z := u32 (m (idx a)).
Definition upd (m : mem) (a v : Z) : mem := fun b => if b =? idx a then v else m b.

(* A field of a condition, action or trigger: a constant, or the dword of
   memory that holds it (for fields that the program itself modifies).
   Writing every field as [Mem] gives the plain stored-program machine; see
   MachineRefine.v for the relation between the two. *)
Inductive operand := Imm (z : Z) | Mem (a : Z).
Definition rd (m : mem) (o : operand) : Z :=
  match o with Imm z => u32 z | Mem a => get m a end.

(* five dwords of a condition: bitmask, player, amount,
   unitid | comparison<<16 | condtype<<24, restype | flags<<8 | eudx<<16 *)
Record cond := mkcond { c_mask : operand; c_player : operand; c_amount : operand;
                        c_w3 : operand; c_w4 : operand }.
(* dwords 0,4,5,6,7 of an action: bitmask, player, value,
   unitid | acttype<<16 | modifier<<24, flags | 0<<8 | eudx<<16 *)
Record act := mkact { a_mask : operand; a_dest : operand; a_val : operand;
                      a_w6 : operand; a_w7 : operand }.
Record trig := mktrig { t_conds : list cond; t_acts : list act; t_next : operand; t_flags : operand }.

(* CurrentPlayer: address 0x6509B0 *)
Definition CPcell : Z := (0x6509B0 - 0x58A364) / 4.
Definition player_base (m : mem) (p : Z) : Z := if p =? 13 then get m CPcell else p.
(* player numbers 12 and 14..26 denote groups of players; not modelled *)
Definition special (p : Z) : bool := (p =? 12) || ((14 <=? p) && (p <=? 26)).
Definition target (m : mem) (p w : Z) : Z := player_base m p + 12 * (w mod 2^16).

Definition eudx_on (w : Z) : bool := w / 2^16 =? 0x4353.
Definition eff_mask (mask w : Z) : Z := if eudx_on w then mask else Z.ones 32.

(* the value stored by modifier SetTo (7), Add (8), Subtract (9) under a mask *)
Definition wset (k d v : Z) : Z := Z.lor (Z.ldiff d k) (Z.land v k).
Definition wadd (k d v : Z) : Z := Z.lor (Z.ldiff d k) (Z.land (Z.land d k + Z.land v k) k).
Definition wsub (k d v : Z) : Z := Z.lor (Z.ldiff d k) (Z.land (Z.max 0 (Z.land d k - Z.land v k)) k).
Definition apply_mod (md k d v : Z) : Z :=
  if md =? 7 then wset k d v else if md =? 8 then wadd k d v else if md =? 9 then wsub k d v else d.

Definition act_type (w6 : Z) : Z := (w6 / 2^16) mod 2^8.
Definition act_mod (w6 : Z) : Z := w6 / 2^24.
Definition act_off (w7 : Z) : bool := Z.testbit w7 1.

Definition exec_act (m : mem) (a : act) : mem :=
  let w6 := rd m (a_w6 a) in let w7 := rd m (a_w7 a) in
  if act_off w7 then m else
  let d := target m (rd m (a_dest a)) w6 in
  upd m d (apply_mod (act_mod w6) (eff_mask (rd m (a_mask a)) w7) (get m d) (rd m (a_val a))).

(* What the model covers: SetDeaths with one of the three modifiers, at a cell
   that is not protected. [prot] marks cells that hold program text treated as
   constant. *)
Definition act_ok (prot : Z -> bool) (m : mem) (a : act) : Prop :=
  let w6 := rd m (a_w6 a) in let w7 := rd m (a_w7 a) in
  act_type w6 = 45 /\
  (act_off w7 = false ->
   (act_mod w6 = 7 \/ act_mod w6 = 8 \/ act_mod w6 = 9) /\
   special (rd m (a_dest a)) = false /\ prot (idx (target m (rd m (a_dest a)) w6)) = false).

(* actions run in order, each reading the memory left by the previous one; an
   action of type 0 ends the list *)
Fixpoint exec_acts (m : mem) (l : list act) : mem :=
  match l with
  | [] => m
  | a :: r => if act_type (rd m (a_w6 a)) =? 0 then m else exec_acts (exec_act m a) r
  end.
Fixpoint acts_ok (prot : Z -> bool) (m : mem) (l : list act) : Prop :=
  match l with
  | [] => True
  | a :: r => act_type (rd m (a_w6 a)) = 0 \/ (act_ok prot m a /\ acts_ok prot (exec_act m a) r)
  end.

Definition cond_type (w3 : Z) : Z := w3 / 2^24.
Definition cond_cmp (w3 : Z) : Z := (w3 / 2^16) mod 2^8.
Definition cond_off (w4 : Z) : bool := Z.testbit w4 9.
Definition compare (c x y : Z) : bool :=
  if c =? 0 then y <=? x else if c =? 1 then x <=? y else if c =? 10 then x =? y else false.

Definition eval_cond (m : mem) (c : cond) : bool :=
  let w3 := rd m (c_w3 c) in let w4 := rd m (c_w4 c) in
  if cond_off w4 then true
  else if cond_type w3 =? 22 then true
  else if cond_type w3 =? 23 then false
  else compare (cond_cmp w3)
         (Z.land (get m (target m (rd m (c_player c)) w3)) (eff_mask (rd m (c_mask c)) w4))
         (rd m (c_amount c)).

Definition cond_ok (m : mem) (c : cond) : Prop :=
  let w3 := rd m (c_w3 c) in let w4 := rd m (c_w4 c) in
  cond_off w4 = true \/ cond_type w3 = 22 \/ cond_type w3 = 23 \/
  (cond_type w3 = 15 /\ (cond_cmp w3 = 0 \/ cond_cmp w3 = 1 \/ cond_cmp w3 = 10)
   /\ special (rd m (c_player c)) = false).

Fixpoint eval_conds (m : mem) (l : list cond) : bool :=
  match l with
  | [] => true
  | c :: r => if cond_type (rd m (c_w3 c)) =? 0 then true else eval_cond m c && eval_conds m r
  end.
Fixpoint conds_ok (m : mem) (l : list cond) : Prop :=
  match l with
  | [] => True
  | c :: r => cond_type (rd m (c_w3 c)) = 0 \/ (cond_ok m c /\ (eval_cond m c = true -> conds_ok m r))
  end.

(* one trigger: skipped when flag 8 is set; otherwise conditions, then actions;
   then the next pointer as left by the actions is followed.
   Only triggers with flag 4 (preserved) are covered by [trig_ok]. *)
Definition fires (m : mem) (t : trig) : bool :=
  negb (Z.testbit (rd m (t_flags t)) 3) && eval_conds m (t_conds t).
Definition exec_trig (m : mem) (t : trig) : mem :=
  if fires m t then exec_acts m (t_acts t) else m.
Definition trig_ok (prot : Z -> bool) (m : mem) (t : trig) : Prop :=
  Z.testbit (rd m (t_flags t)) 3 = false ->
  conds_ok m (t_conds t) /\
  (eval_conds m (t_conds t) = true ->
   Z.testbit (rd m (t_flags t)) 2 = true /\ acts_ok prot m (t_acts t)).

(* a program: triggers by byte address *)
Definition prog := Z -> option trig.

Definition state := (Z * mem)%type.
Inductive step (P : prog) (prot : Z -> bool) : state -> state -> Prop :=
| step_intro pc m t :
    P pc = Some t -> trig_ok prot m t ->
    step P prot (pc, m) (rd (exec_trig m t) (t_next t), exec_trig m t).

Inductive steps (P : prog) (prot : Z -> bool) : state -> state -> Prop :=
| steps_refl s : steps P prot s s
| steps_cons s s' s'' : step P prot s s' -> steps P prot s' s'' -> steps P prot s s''.
