(* EUDSwitch / EPDSwitch: the triggers that EUDEndSwitch builds to find the
   case (ctrlstru/swblock.py).  Every trigger built there tests at most one
   condition on the switched dword, its actions write next pointers, and then
   it follows its own next pointer; the model keeps exactly that: "nodes" with
   next pointers held in a state.  SwMachine.v places the nodes in memory and
   relates their runs to the machine of Machine.v. *)
From Coq Require Import ZArith Lia Bool List.
From Verif Require Import Word Machine MachineProofs.
Import ListNotations.
Open Scope Z_scope.

(* Where a next pointer leads: trigger n of the switch, entry k of its jump
   table, or out of the switch: to the case block of a key (Some key) or to
   the default block (None).  X t d: 20 * d bytes behind t, where nothing is
   known to be (only for adding to a pointer that is not into the table). *)
Inductive tgt := N (n : nat) | J (k : Z) | L (c : option Z) | X (t : tgt) (d : Z).

(* ASet n t: SetNextPtr(n, t).  AAdd n d: SetMemory(n + 4, Add, 20 * d), used on
   pointers into the jump table only.  ARec n t: SetMemory(restore + 16, SetTo,
   EPD(n) + 1) and SetMemory(restore + 20, SetTo, t).  ARestore: the action
   `restore` itself (swblock.py 168-178). *)
Inductive lact := ASet (n : nat) (t : tgt) | AAdd (n : nat) (d : Z) | ARec (n : nat) (t : tgt) | ARestore.

(* A trigger: MemoryXEPD(epd, comparison, amount, mask) or no condition;
   actions; next pointer when the map starts. *)
Record lnode := mknode { n_cond : option (cmp * Z * Z); n_acts : list lact; n_next : tgt }.

(* next pointers, and player/value fields of the action `restore` *)
Record lstate := mkl { nx : nat -> tgt; rn : nat; rt : tgt }.

Definition set_nx (s : lstate) (n : nat) (t : tgt) : lstate :=
  mkl (fun k => if Nat.eqb k n then t else nx s k) (rn s) (rt s).
Definition add_tgt (t : tgt) (d : Z) : tgt := match t with J k => J (k + d) | _ => X t d end.
Definition do_lact (s : lstate) (a : lact) : lstate :=
  match a with
  | ASet n t => set_nx s n t
  | AAdd n d => set_nx s n (add_tgt (nx s n) d)
  | ARec n t => mkl (nx s) n t
  | ARestore => set_nx s (rn s) (rt s)
  end.
Definition do_lacts (s : lstate) (l : list lact) : lstate := fold_left do_lact l s.

Definition cond_holds (v : Z) (c : option (cmp * Z * Z)) : bool :=
  match c with None => true | Some (o, k, mk) => do_cmp o (Z.land v mk) k end.

(* triggers by number; table: the entries of the jump table *)
Definition lprog := nat -> option lnode.
Inductive lstep (P : lprog) (T : list tgt) (v : Z) : tgt * lstate -> tgt * lstate -> Prop :=
| ls_node n nd s s' : P n = Some nd ->
    s' = (if cond_holds v (n_cond nd) then do_lacts s (n_acts nd) else s) ->
    lstep P T v (N n, s) (nx s' n, s')
| ls_jump k t s : 0 <= k -> nth_error T (Z.to_nat k) = Some t -> lstep P T v (J k, s) (t, s).
Inductive lsteps (P : lprog) (T : list tgt) (v : Z) : tgt * lstate -> tgt * lstate -> Prop :=
| lss_refl x : lsteps P T v x x
| lss_cons x y z : lstep P T v x y -> lsteps P T v y z -> lsteps P T v x z.

(* the code generated at numbers base, base+1, ... *)
Definition placed (P : lprog) (base : nat) (code : list lnode) : Prop :=
  forall i nd, nth_error code i = Some nd -> P (base + i)%nat = Some nd.

(* casebrlist.get(key, defbranch) *)
Definition look (keys : list Z) (w : Z) : option Z := if in_dec Z.eq_dec w keys then Some w else None.

(* swblock.py 327-401: binary search on a dword at a fixed address.
   [reset] is the list `reset` at the time of the call; node base is `ret`.
   Within one call the numbers are branch/br1 = base, jump/jump1 = base+1, then
   goto_defbranch or the triggers of the recursive calls in order. *)
Definition resets (reset : list (nat * tgt)) : list lact := map (fun p => ASet (fst p) (snd p)) reset.
Fixpoint key_selector (fuel : nat) (mask : Z) (keys : list Z) (reset : list (nat * tgt)) (base : nat) : list lnode :=
  match fuel with
  | O => []
  | S fuel =>
    match keys with
    | [] => []
    | [k] =>
        let gd := match reset with [] => L None | _ => N (base + 2) end in
        [ mknode (Some (Exactly, k, mask)) (ASet base (N (base + 1)) :: resets reset) gd;
          mknode None [ASet base gd] (L (Some k)) ]
        ++ match reset with [] => [] | _ => [mknode None (resets reset) (L None)] end
    | [k; k2] =>
        [ mknode (Some (Exactly, k, mask)) (ASet base (N (base + 1)) :: resets reset) (N (base + 2));
          mknode None [ASet base (N (base + 2))] (L (Some k)) ]
        ++ key_selector fuel mask [k2] reset (base + 2)
    | _ =>
        let midpos := (length keys / 2)%nat in
        let left := key_selector fuel mask (firstn midpos keys) reset (base + 1) in
        let br2 := (base + 1 + length left)%nat in
        mknode (Some (AtLeast, nth midpos keys 0, mask)) (ASet base (N br2) :: resets reset) (N (base + 1))
        :: left ++ key_selector fuel mask (skipn midpos keys) [(base, N (base + 1))] br2
    end
  end.

(* swblock.py 254-326: the same search on the dword that CurrentPlayer selects;
   node V is cpcache.GetVTable(), which restores CurrentPlayer and then follows
   its next pointer.  The starting VProc has set that pointer to the default. *)
Fixpoint key_selector_cp (fuel : nat) (V : nat) (mask : Z) (keys : list Z) (reset : list (nat * tgt)) (base : nat) : list lnode :=
  match fuel with
  | O => []
  | S fuel =>
    match keys with
    | [] => []
    | [k] =>
        match reset with [] => [] | _ => [mknode None (resets reset) (N (base + 1))] end
        ++ [mknode (Some (Exactly, k, mask)) [ASet V (L (Some k))] (N V)]
    | [k; k2] =>
        [ mknode (Some (Exactly, k, mask)) (ASet base (N (base + 1)) :: resets reset) (N (base + 2));
          mknode None [ASet V (L (Some k)); ASet base (N (base + 2))] (N V) ]
        ++ key_selector_cp fuel V mask [k2] reset (base + 2)
    | _ =>
        let midpos := (length keys / 2)%nat in
        let left := key_selector_cp fuel V mask (firstn midpos keys) reset (base + 1) in
        let br2 := (base + 1 + length left)%nat in
        mknode (Some (AtLeast, nth midpos keys 0, mask)) (ASet base (N br2) :: resets reset) (N (base + 1))
        :: left ++ key_selector_cp fuel V mask (skipn midpos keys) [(base, N (base + 1))] br2
    end
  end.

(* swblock.py 165-187: at most three cases, compared one after the other.
   Node 0 holds `restore`, node i+1 compares with the i-th key. *)
Definition simple_next (keys : list Z) (i : nat) : tgt :=
  if Nat.eqb (S i) (length keys) then L None else N (S (S i)).
Definition simple_node (mask : Z) (keys : list Z) (i : nat) : lnode :=
  mknode (Some (Exactly, nth i keys 0, mask))
         [ASet (S i) (L (Some (nth i keys 0))); ARec (S i) (simple_next keys i)] (simple_next keys i).
Definition simple_code (mask : Z) (keys : list Z) : list lnode :=
  mknode None [ARestore] (N 1) :: map (simple_node mask keys) (seq 0 (length keys)).

(* swblock.py 146-163: two keys that differ in one bit and lead to the same
   block, by one EUDBranch (trigger/branch.py 16-43).  The result of the branch
   is the block of the first key. *)
Definition merge_code (mask k1 k2 : Z) : list lnode :=
  let keyand := Z.land k1 k2 in let keyxor := Z.lor k1 k2 - keyand in
  [ mknode (Some (Exactly, keyand, Z.land (Z.lnot keyxor) mask)) [ASet 0 (N 1)] (L None);
    mknode None [ASet 0 (L None)] (L (Some k1)) ].

(* swblock.py 189-194 *)
Definition key_and (keys : list Z) : Z := fold_left Z.land keys (hd 0 keys).
Definition key_or (keys : list Z) : Z := fold_left Z.lor keys 0.
Definition key_xor (keys : list Z) : Z := key_or keys - key_and keys.
(* utils/binio.py 38-43: the set bits of a number, ascending (written as a
   filter instead of the loop that clears the lowest set bit) *)
Definition bits (n : Z) : list Z := map (fun i => 2 ^ Z.of_nat i) (filter (fun i => Z.testbit n (Z.of_nat i)) (seq 0 32)).
Definition key_bits (keys : list Z) : list Z := bits (key_xor keys).
(* itertools powerset and sorted(map(sum, ..)) (swblock.py 205-210); the order
   of the subsets does not matter after sorting *)
Fixpoint subset_sums (l : list Z) : list Z :=
  match l with [] => [0] | b :: r => subset_sums r ++ map (Z.add b) (subset_sums r) end.
Fixpoint insert (x : Z) (l : list Z) : list Z :=
  match l with [] => [x] | y :: r => if x <=? y then x :: l else y :: insert x r end.
Definition sorted (l : list Z) : list Z := fold_right insert [] l.
Definition key_list (keys : list Z) : list Z := sorted (subset_sums (key_bits keys)).
(* the entries of JumpTriggerForward (swblock.py 211-213) *)
Definition jump_entries (keys : list Z) : list tgt :=
  map (fun key => L (look keys (key_and keys + key))) (key_list keys).

(* swblock.py 198-203: EUDJumpIfNot(check_invariant, defbranch) = EUDBranch
   (trigger/branch.py 16-43) at node base *)
Definition inv_mask (mask : Z) (keys : list Z) : Z := Z.land (Z.lor (Z.lnot (key_or keys)) (key_and keys)) mask.
Definition check_code (mask : Z) (keys : list Z) (base : nat) : list lnode :=
  if inv_mask mask keys =? 0 then []
  else [ mknode (Some (Exactly, key_and keys, inv_mask mask keys)) [ASet base (N (base + 1))] (L None);
         mknode None [ASet base (L None)] (N (base + 2)) ].
(* swblock.py 231-235: one trigger for each bit; [after] follows the last *)
Fixpoint bit_nodes (jumper : nat) (i : Z) (bs : list Z) (base : nat) (after : tgt) : list lnode :=
  match bs with
  | [] => []
  | b :: r => mknode (Some (AtLeast, 1, b)) [AAdd jumper (2 ^ i)]
                (match r with [] => after | _ => N (base + 1) end)
              :: bit_nodes jumper (i + 1) r (base + 1) after
  end.
(* swblock.py 196-241 with a fixed address: the last bit trigger is the jumper.
   (Its first next pointer, the trigger behind the switch, is always
   overwritten before it is used.) *)
Definition table_code (mask : Z) (keys : list Z) : list lnode :=
  let ck := check_code mask keys 0 in
  let st := length ck in
  let bs := key_bits keys in
  let jumper := (st + length bs)%nat in
  ck ++ mknode None [ASet jumper (J 0)] (match bs with [] => L None | _ => N (S st) end)
     :: bit_nodes jumper 0 bs (S st) (L None).
(* ... with the address in a variable: the jumper is cpcache's trigger V; the
   VProc that sets CurrentPlayer stands at node [length check] *)
Definition table_code_cp (V : nat) (mask : Z) (keys : list Z) (base : nat) : list lnode :=
  let ck := check_code mask keys base in
  let st := (base + length ck)%nat in
  let bs := key_bits keys in
  ck ++ mknode None [ASet V (J 0)] (match bs with [] => N V | _ => N (S st) end)
     :: bit_nodes V 0 bs (S st) (N V).

(* density = len(casebrlist) / (2 ** len(keybits)) >= 0.4 (swblock.py 196-197) *)
Definition dense (keys : list Z) : bool := 2 * 2 ^ Z.of_nat (length (key_bits keys)) <=? 5 * Z.of_nat (length keys).

(* EUDSwitchCase (swblock.py 66-83): the keys of the cases in the order given;
   None = rejected *)
Fixpoint add_cases (mask : Z) (nums : list Z) (keys : list Z) : option (list Z) :=
  match nums with
  | [] => Some keys
  | n :: r =>
      let case := Z.land n mask in
      if negb ((mask =? 0xFFFFFFFF) || (case =? n)) then None
      else if in_dec Z.eq_dec case keys then None
      else add_cases mask r (case :: keys)
  end.
Definition case_keys (mask : Z) (nums : list Z) : option (list Z) :=
  match add_cases mask nums [] with Some l => Some (sorted l) | None => None end.

(* EUDEndSwitch (swblock.py 115-403) on a variable or a dword at a fixed
   address: program and jump table.  The switch starts at node 0 (or at
   [start_of], when there is no trigger at all). *)
Definition switch_code (mask : Z) (keys : list Z) : list lnode :=
  match keys with
  | [] => []
  | _ => if Nat.leb (length keys) 3 then simple_code mask keys
         else if dense keys then table_code mask keys
         else key_selector (length keys) mask keys [] 0
  end.
Definition start_of (code : list lnode) : tgt := match code with [] => L None | _ => N 0 end.
(* ... on a dword whose EPD is in a variable.  Node 0 is cpcache's trigger V,
   node 1 the VProc trigger (or the check before it). *)
Definition switch_code_cp (mask : Z) (keys : list Z) : list lnode :=
  match keys with
  | [] => []
  | _ => if dense keys then table_code_cp 0 mask keys 1
         else mknode None [ASet 0 (L None)] (N 2) :: key_selector_cp (length keys) 0 mask keys [] 2
  end.
(* ... on a constant (swblock.py 138-145) *)
Definition switch_const (keys : list Z) (v : Z) : option Z := look keys v.

(* the state when the map starts *)
Definition init_state (base : nat) (code : list lnode) : lstate :=
  mkl (fun n => match nth_error code (n - base) with Some nd => n_next nd | None => L None end)
      (base + 1) (match nth_error code 1 with Some nd => n_next nd | None => L None end).
Definition code_prog (base : nat) (code : list lnode) : lprog :=
  fun n => if Nat.ltb n base then None else nth_error code (n - base).

(* EUDJumpBuffer (ctrlstru/jumptable.py 20-77): the dwords of the buffer; None =
   not written (WriteSpace), other objects may lie there. *)
Definition slot_a (p : Z) : list (option Z) := [Some p; None; None; None; Some 0].
Definition slot_b (p : Z) : list (option Z) := [Some p; None; Some 0; None; Some 0].
Definition slot_c (p : Z) : list (option Z) := [Some p; None; Some 0; Some 8; Some 0].
Definition jump_img (l : list Z) : list (option Z) :=
  flat_map slot_a (firstn 17 l) ++ flat_map slot_b (firstn 101 (skipn 17 l)) ++ flat_map slot_c (skipn 118 l)
  ++ [None; None; Some 0; Some 8]
  ++ flat_map (fun _ => [None; None; None; Some 0; Some 8]) (repeat tt 16)
  ++ flat_map (fun _ => [None; None; None; None; Some 8]) (repeat tt 101).
(* Evaluate: entry i is the trigger at the buffer's address - 4 + 20 * i *)
Definition jump_entry_epd (q : Z) (i : nat) : Z := q - 1 + 5 * Z.of_nat i.

(* an executable run of the nodes, for examples *)
Fixpoint lrun (fuel : nat) (P : lprog) (T : list tgt) (v : Z) (x : tgt * lstate) : tgt * lstate :=
  match fuel with
  | O => x
  | S fuel =>
    match fst x with
    | N n => match P n with
             | Some nd => let s' := if cond_holds v (n_cond nd) then do_lacts (snd x) (n_acts nd) else snd x in
                          lrun fuel P T v (nx s' n, s')
             | None => x
             end
    | J k => match nth_error T (Z.to_nat k) with Some t => lrun fuel P T v (t, snd x) | None => x end
    | _ => x
    end
  end.
