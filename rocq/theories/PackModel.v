(* Moving map triggers to the payload; inline code; the size estimate.
   Source: src/eudplib/maprw/inlinecode/ilcprocesstrig.py, btinliner.py
   A trigger is its 2400 bytes. Compiling Python source found in a trigger
   (_compile_inline_code) is not modelled: the code is kept as bytes. *)
From Coq Require Import ZArith List Bool.
Import ListNotations.
Open Scope Z_scope.

Definition bytes := list Z.
Definition bat (t : bytes) (i : Z) : Z := nth (Z.to_nat i) t 0.
Definition seg_len : nat := Z.to_nat 2400.
(* binio.py 18-21 *)
Definition dword (t : bytes) (i : Z) : Z := bat t i + 2^8 * bat t (i + 1) + 2^16 * bat t (i + 2) + 2^24 * bat t (i + 3).
Definition flags (t : bytes) : Z := dword t (320 + 2048).
Definition eff (t : bytes) (p : Z) : bool := negb (bat t (320 + 2048 + 4 + p) =? 0).

(* btinliner.py 19-33; force p: GetPlayerInfo(p).force *)
Definition get_executing_players (force : Z -> Z) (t : bytes) (p : Z) : bool :=
  if eff t 17 then true else eff t p || eff t (18 + force p).
Definition players8 : list Z := [0; 1; 2; 3; 4; 5; 6; 7].
(* btinliner.py 36-49: actions whose flag 2 is clear are skipped, as in the source *)
Fixpoint wait_scan (t : bytes) (i : Z) (n : nat) (exec_once : bool) : option bool :=
  match n with
  | O => Some exec_once
  | S n =>
      if Z.testbit (bat t (320 + 32 * i + 28)) 1 then
        let b := bat t (320 + 32 * i + 26) in
        if (b =? 4) || (b =? 7) then None
        else wait_scan t (i + 1) n (if b =? 3 then false else exec_once)
      else wait_scan t (i + 1) n exec_once
  end.
Definition preserved_and_has_no_wait (t : bytes) : bool :=
  match wait_scan t 0 64 true with
  | None => false
  | Some exec_once => if exec_once && negb (Z.testbit (bat t (320 + 2048)) 2) then false else true
  end.

(* what a (code_start, code_end) pair runs: a list of triggers (btinliner.py 153-217),
   inline code, or one trigger behind a test of the current player (52-96) *)
Inductive func := FTrigs (l : list bytes) | FCode (data : bytes) | FOne (t : bytes).
Definition codes := list (Z * func).

(* ilcprocesstrig.py 193-221 *)
Definition disp_byte (func_id player_code : Z) (i : Z) : Z :=
  if i <? 4 then Z.land (Z.shiftr func_id (8 * i)) 0xFF
  else if (320 <=? i) && (i <? 320 + 32 * 4) then
    let o := (i - 320) mod 32 in if o =? 26 then 45 else if o =? 27 then 7 else if o =? 28 then 20 else 0
  else if i =? 2371 then 0x10
  else if (2372 <=? i) && (i <? 2372 + 27) then (if Z.testbit player_code (i - 2372) then 1 else 0)
  else 0.
Definition new_trigger (func_id player_code : Z) : bytes := map (fun k => disp_byte func_id player_code (Z.of_nat k)) (seq 0 seg_len).
Definition create_dispatcher (cs : codes) (f : func) (player_code : Z) : codes * bytes :=
  let func_id := Z.of_nat (length cs) + 1024 in (cs ++ [(func_id, f)], new_trigger func_id player_code).

(* ilcprocesstrig.py 144-157 *)
Definition GetInlineCodePlayerList (t : bytes) : option Z :=
  if existsb (fun k => eff t (Z.of_nat k)) (seq 0 28) then None
  else if negb (bat t 15 =? 0) then None else if negb (bat t 346 =? 0) then None else Some (dword t 24).
(* 160-177; decoding and stripping the text is part of the compiler *)
Definition code_data (t : bytes) : bytes := firstn (320 - 28) (skipn 28 t) ++ firstn (Z.to_nat 2020) (skipn 352 t).
Definition inline_player_code (t : bytes) : option Z :=
  if negb (dword t 20 =? 0x10978D4A) then None
  else match GetInlineCodePlayerList t with
       | Some c => if c =? 0 then None else Some c
       | None => None end.

(* 79 and 133: tt.Trigger(players=[AllPlayers]) *)
Definition blank : bytes := map (fun k => let i := Z.of_nat k in if i =? 2368 then 4 else if i =? 2372 + 17 then 1 else 0) (seq 0 seg_len).

(* 99-102: pieces of 2400 bytes; a shorter last piece is dropped *)
Fixpoint segments (fuel : nat) (sec : bytes) : list bytes :=
  match fuel with
  | O => []
  | S f => if Nat.ltb (length sec) seg_len then [] else firstn seg_len sec :: segments f (skipn seg_len sec)
  end.

(* 85-136 _consecutive_inline_trig_section. [cut size count]: the decision of line 117
   (a product with a floating point rate) *)
Record st := mkst { s_codes : codes; s_segs : list bytes; s_q : Z -> list bytes }.
Definition append_ptriggers (s : st) (p : Z) : st :=
  match s_q s p with
  | [] => s
  | q => let '(cs, t) := create_dispatcher (s_codes s) (FTrigs q) (Z.shiftl 1 p) in
         mkst cs (s_segs s ++ [t]) (fun r => if r =? p then [] else s_q s r)
  end.
Definition flush (ex : Z -> bool) (s : st) : st :=
  fold_left (fun s p => if ex p then append_ptriggers s p else s) players8 s.
Definition enqueue (ex : Z -> bool) (t : bytes) (s : st) : st :=
  mkst (s_codes s) (s_segs s) (fun p => if existsb (Z.eqb p) players8 && ex p then s_q s p ++ [t] else s_q s p).
Definition add_seg (t : bytes) (s : st) : st := mkst (s_codes s) (s_segs s ++ [t]) (s_q s).

(* 99-143 get_trigger_size, see below *)
Definition count_conds (t : bytes) : nat :=
  length (filter (fun k => let b := bat t (Z.of_nat k * 20 + 15) in negb (b =? 22) && (1 <=? b)) (seq 0 16)).
Definition count_acts (t : bytes) : nat :=
  length (filter (fun k => let b := bat t (320 + Z.of_nat k * 32 + 26) in negb (b =? 47) && (1 <=? b)) (seq 0 64)).
(* btinliner.py 117-128: the dwords of a trigger that matter *)
Definition used_dwords (cc ac : nat) : list nat :=
  [1; 594]%nat ++ seq 2 (5 * cc) ++ (if Nat.eqb cc 16 then [] else [5 + 5 * cc]%nat) ++
  seq 82 (8 * ac) ++ (if Nat.eqb ac 64 then [] else [88 + 8 * ac]%nat).
(* 133-139 *)
Fixpoint place (ret : nat) (output : list nat) (l : list nat) : bool :=
  match l with
  | [] => true
  | x :: r => if existsb (Nat.eqb (x mod ret)%nat) output then false else place ret ((x mod ret)%nat :: output) r
  end.
(* 130-143 *)
Fixpoint first_fit (used : list nat) (ret n : nat) : option nat :=
  match n with
  | O => None
  | S n => if place ret [] used then Some ret else first_fit used (S ret) n
  end.
Definition trigger_size (cc ac : nat) : Z :=
  let min_size := (4 + 5 * cc + 8 * ac)%nat in
  match first_fit (used_dwords cc ac) min_size (602 - min_size) with Some r => 4 * Z.of_nat r | None => 2408 end.
Definition get_trigger_size (t : bytes) : Z := trigger_size (count_conds t) (count_acts t).

Definition one_segment (cut : Z -> Z -> bool) (force : Z -> Z) (t : bytes) (s : st) : st :=
  let ex := get_executing_players force t in
  match inline_player_code t with
  | Some pc => let '(cs, d) := create_dispatcher (s_codes s) (FCode (code_data t)) pc in
               add_seg d (flush ex (mkst cs (s_segs s) (s_q s)))
  | None =>
    if flags t <? 0x80000000 then
      let player_count := Z.of_nat (length (filter ex players8)) in
      if (2 <=? player_count) && negb (preserved_and_has_no_wait t) && cut (get_trigger_size t) player_count
      then add_seg t (flush ex s)
      else enqueue ex t s
    else add_seg t (flush ex s)
  end.
Definition consecutive (cut : Z -> Z -> bool) (force : Z -> Z) (sec : bytes) : codes * list bytes :=
  let s := fold_left (fun s t => one_segment cut force t s) (segments (length sec) sec) (mkst [] [] (fun _ => [])) in
  let s := flush (fun _ => true) s in
  (s_codes s, s_segs s ++ [blank]).

(* 42-82 with an inlining rate below 1; [coin i]: random() < rate for segment i *)
Definition eff_code (t : bytes) : Z :=
  fold_left (fun c k => if eff t (Z.of_nat k) then Z.lor c (Z.shiftl 1 (Z.of_nat k)) else c) (seq 0 27) 0.
Fixpoint preprocess (coin : nat -> bool) (i : nat) (l : list bytes) (cs : codes) : codes * list bytes :=
  match l with
  | [] => (cs, [blank])
  | t :: r =>
      let '(cs, t) := match inline_player_code t with
        | Some pc => create_dispatcher cs (FCode (code_data t)) pc
        | None => if (flags t <? 0x80000000) && coin i then create_dispatcher cs (FOne t) (eff_code t) else (cs, t)
        end in
      let '(cs, out) := preprocess coin (S i) r cs in (cs, t :: out)
  end.

(* btinliner.py 63-96: how often the trigger runs when the current player is cp;
   None: Python raises (max of an empty list) *)
Definition one_runs (force : Z -> Z) (t : bytes) (cp : Z) : option nat :=
  let ex := get_executing_players force t in
  let execp := filter ex players8 in
  let nw := preserved_and_has_no_wait t in
  let first := if nw && Nat.eqb (length execp) 8 then 1%nat else 0%nat in
  if nw then
    match execp with
    | [] => None
    | a :: _ =>
        let b := last execp a in
        if b - a =? Z.of_nat (length execp) - 1
        then Some (first + (if (a <=? cp)%Z && (cp <=? b)%Z then 1 else 0))%nat
        else Some (if existsb (Z.eqb cp) execp then 1 else 0)%nat
    end
  else Some (if existsb (Z.eqb cp) execp then 1 else 0)%nat.

(* ---------- shared triggers ---------- *)
(* btinliner.py 146-217. The only caller (ilcprocesstrig.py 125) passes bytes, never numbers: the
   number returned by try_share_trigger is dropped, so sharing does not happen in the code as it is. A player's list holds own triggers (bytes) and numbers of shared
   triggers; a trigger is named by its list and position, or by its shared number *)
Inductive item := IOwn | IShr (j : nat).
Inductive node := Own (k i : nat) | Shr (j : nat) | Ret (r : nat).
Definition node_eqb (a b : node) : bool :=
  match a, b with
  | Own k i, Own k' i' => Nat.eqb k k' && Nat.eqb i i'
  | Shr j, Shr j' => Nat.eqb j j'
  | Ret r, Ret r' => Nat.eqb r r'
  | _, _ => false end.
Definition nexts := node -> option node.
Definition nset (a : node) (b : node) (n : nexts) : nexts := fun c => if node_eqb c a then Some b else n c.
(* b_made: shared triggers already created; b_pend: the trigger of the scope whose next
   pointer is not set yet (triggerscope.py); b_b2s: 171 *)
Record bst := mkb { b_made : list nat; b_next : nexts; b_pend : option node; b_b2s : bool }.
Definition link (s : bst) (n : node) : nexts := match b_pend s with Some q => nset q n (b_next s) | None => b_next s end.
(* 175-203 *)
Definition build_item (k i : nat) (it : item) (s : bst) : bst :=
  match it with
  | IOwn => mkb (b_made s) (link s (Own k i)) (Some (Own k i)) true
  | IShr j =>
      if existsb (Nat.eqb j) (b_made s)
      then if b_b2s s then mkb (b_made s) (link s (Shr j)) None false
           else mkb (b_made s) (b_next s) (b_pend s) false
      else mkb (j :: b_made s) (link s (Shr j)) (Some (Shr j)) false
  end.
Fixpoint build_items (k i : nat) (l : list item) (s : bst) : bst :=
  match l with [] => s | it :: r => build_items k (S i) r (build_item k i it s) end.
(* one list after the other *)
Fixpoint build_lists (k : nat) (ls : list (list item)) (made : list nat) (n : nexts) : nexts :=
  match ls with
  | [] => n
  | l :: r => let s := build_items k 0 l (mkb made n None false) in build_lists (S k) r (b_made s) (b_next s)
  end.
Definition node_of (k i : nat) (it : item) : node := match it with IOwn => Own k i | IShr j => Shr j end.
(* 193-195: SetNextPtr for shared triggers that are not the last of the list *)
Fixpoint start_acts (k i : nat) (l : list item) (n : nexts) : nexts :=
  match l with
  | [] => n
  | it :: r =>
      match it, r with
      | IShr j, it' :: _ => start_acts k (S i) r (nset (Shr j) (node_of k (S i) it') n)
      | _, _ => start_acts k (S i) r n
      end
  end.
(* inj_finalizer.py 46-64: the caller sets the next pointer of the last trigger *)
Definition last_node (k : nat) (l : list item) : option node :=
  match l with [] => None | it :: r => Some (node_of k (length r) (last l it)) end.
Definition call (k : nat) (l : list item) (r : nat) (n : nexts) : nexts :=
  match last_node k l with Some t => start_acts k 0 l (nset t (Ret r) n) | None => n end.
