(* Block bookkeeping of structured control flow.
   Source: src/eudplib/utils/blockstru.py. *)
From Coq Require Import ZArith List Bool String.
From Verif Require Import Dict.
Import ListNotations.
Open Scope Z_scope.

(* blockstru.py 12, 38: a block is (name, userdata); userdata is an identity *)
Definition block := (string * Z)%type.
(* blockstru.py 15-18; both stacks have their last element first *)
Record manager := mk_manager { blockstru : list block; lastblockdict : dict string (list block) }.
Definition empty_manager : manager := mk_manager [] [].
(* blockstru.py 20-21 *)
Definition manager_empty (m : manager) : bool := match blockstru m with [] => true | _ => false end.

(* blockstru.py 34-43 *)
Definition EUDCreateBlock (name : string) (userdata : Z) (m : manager) : manager :=
  let block := (name, userdata) in
  let stru := block :: blockstru m in
  let d := match dget string_dec name (lastblockdict m) with
           | None => dset string_dec name [] (lastblockdict m)
           | Some _ => lastblockdict m end in
  match dget string_dec name d with
  | Some l => mk_manager stru (dset string_dec name (block :: l) d)
  | None => mk_manager stru d (* not reached *)
  end.
(* blockstru.py 46-48 (None: IndexError) *)
Definition EUDGetLastBlock (m : manager) : option block := hd_error (blockstru m).
(* blockstru.py 51-58 (None: TriggerScopeError or EPError) *)
Definition EUDGetLastBlockOfName (name : string) (m : manager) : option block :=
  match dget string_dec name (lastblockdict m) with Some l => hd_error l | None => None end.
(* blockstru.py 61-69 (None: IndexError or EPError) *)
Definition EUDPeekBlock (name : string) (m : manager) : option block :=
  match EUDGetLastBlock m with
  | Some b => if string_dec (fst b) name then Some b else None
  | None => None
  end.
(* blockstru.py 72-84 (None: IndexError, EPError or KeyError) *)
Definition EUDPopBlock (name : string) (m : manager) : option (block * manager) :=
  match blockstru m with
  | [] => None
  | lastblock :: rest =>
      if string_dec (fst lastblock) name then
        match dget string_dec name (lastblockdict m) with
        | Some (_ :: l) => Some (lastblock, mk_manager rest (dset string_dec name l (lastblockdict m)))
        | _ => None
        end
      else None
  end.

(* calls made by a program that is being compiled *)
Inductive call := Begin (name : string) (userdata : Z) | End (name : string).
Definition run_call (m : manager) (c : call) : option manager :=
  match c with
  | Begin n u => Some (EUDCreateBlock n u m)
  | End n => match EUDPopBlock n m with Some (_, m') => Some m' | None => None end
  end.
Fixpoint run_calls (m : manager) (l : list call) : option manager :=
  match l with
  | [] => Some m
  | c :: l' => match run_call m c with Some m' => run_calls m' l' | None => None end
  end.
(* core/eudfunc/eudfuncn.py 92-93, 100-128: a function body runs with its own
   manager, which has to be empty at the end. Reduced to the block calls. *)
Definition func_body (l : list call) : bool :=
  match run_calls empty_manager l with Some m => manager_empty m | None => false end.
