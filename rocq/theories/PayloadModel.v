(* Model of the two write phases of the payload builder: the dry run that
   records occupancy (ObjAllocator) and the real run (PayloadBuffer).
   Source: src/rust/src/allocator/payload.rs and pbuffer.rs *)
From Coq Require Import ZArith List Bool.
From Verif Require Import AllocModel.
Import ListNotations.
Open Scope Z_scope.

(* rlocint.rs 48-57: value "offset + (payload base) * rlocmode / 4".
   offset is an i32; only its value modulo 2^32 reaches the payload. *)
Record rloc := mkrloc { r_off : Z; r_mode : Z }.

(* Write operations an object may issue in WritePayload
   (pbuffer.rs 45-169 and payload.rs 75-171, same method names). *)
Inductive wop :=
| WByte (v : Z)
| WWord (v : Z)
| WDword (r : rloc)
| WPack (fields : list (Z * rloc))       (* (argsize in {1,2,4}, value) *)
| WBytes (bs : list Z)
| WSpace (n : nat)
| WTrigger (prev next : rloc) (conds acts : list (list (Z * rloc))) (flags : rloc).

(* ---------------- dry run: payload.rs 13-171 ---------------- *)
(* payload.rs 14-18; occupmap as produced by [push] *)
Record oa := mkoa { o_sub : bool; o_idx : nat; o_map : list Z }.

(* payload.rs 43-52 *)
Definition oa_push (s : oa) (b : bool) : oa := mkoa (o_sub s) (o_idx s) (push (o_map s) b).

Fixpoint oa_pushn (n : nat) (b : bool) (s : oa) : oa :=
  match n with O => s | S n' => oa_pushn n' b (oa_push s b) end.

(* payload.rs 64-72, occup1 *)
Definition occup1 (s : oa) : oa :=
  if Nat.eqb (S (o_idx s)) 4 then mkoa false 0 (push (o_map s) true)
  else mkoa true (S (o_idx s)) (o_map s).

Fixpoint occup1n (n : nat) (s : oa) : oa :=
  match n with O => s | S n' => occup1n n' (occup1 s) end.

(* payload.rs 126-137, WriteSpace *)
Definition oa_space (n : nat) (s : oa) : oa :=
  let idx := (o_idx s + n)%nat in
  if Nat.leb 4 idx then
    let s1 := oa_push s (o_sub s) in
    let idx1 := (idx - 4)%nat in
    let s2 := oa_pushn (Nat.div idx1 4) false s1 in
    mkoa false (Nat.modulo idx1 4) (o_map s2)
  else mkoa (o_sub s) idx (o_map s).

Definition pack_size (fields : list (Z * rloc)) : nat :=
  fold_right (fun f n => (Z.to_nat (fst f) + n)%nat) O fields.

(* payload.rs 91-124, WritePack / WriteBytes: ssize>>2 used dwords, then
   ssize&3 used bytes *)
Definition oa_bytes (n : nat) (s : oa) : oa :=
  occup1n (Nat.modulo n 4) (oa_pushn (Nat.div n 4) true s).

(* payload.rs 139-170, _write_trigger. u32 subtraction 15-conditions and
   63-actions happen only when they do not underflow. *)
Definition oa_trigger (nc na : nat) (s : oa) : oa :=
  let s := oa_push (oa_push s true) true in
  let s := oa_pushn (nc * 5) true s in
  let s := if Nat.ltb nc 16 then oa_space (20 * (15 - nc)) (oa_pushn 5 true s) else s in
  let s := oa_pushn (na * 8) true s in
  let s := if Nat.ltb na 64 then oa_space (32 * (63 - na)) (oa_pushn 8 true s) else s in
  let s := oa_push s true in
  occup1 (oa_space 27 s).

Definition oa_op (s : oa) (o : wop) : oa :=
  match o with
  | WByte _ => occup1 s                                   (* 77-79 *)
  | WWord _ => occup1 (occup1 s)                          (* 82-85 *)
  | WDword _ => oa_push s true                            (* 88-90 *)
  | WPack fs => oa_bytes (pack_size fs) s
  | WBytes bs => oa_bytes (length bs) s
  | WSpace n => oa_space n s
  | WTrigger _ _ cs acts _ => oa_trigger (length cs) (length acts) s
  end.

(* payload.rs 29-41, start_write .. end_write *)
Definition dry_run (ops : list wop) : list Z :=
  let s := fold_left oa_op ops (mkoa false 0 []) in
  if Nat.ltb 0 (o_idx s) then push (o_map s) (o_sub s) else o_map s.

(* ---------------- real run: pbuffer.rs ---------------- *)
(* pbuffer.rs 8-14 *)
Record pb := mkpb { b_cur : nat; b_data : list Z; b_prt : list nat; b_ort : list nat }.

(* little-endian bytes: to_le_bytes()[..n] *)
Fixpoint le_bytes (n : nat) (v : Z) : list Z :=
  match n with O => [] | S n' => v mod 256 :: le_bytes n' (v / 256) end.

(* data[cur..cur+len].copy_from_slice(bs): panics when out of range *)
Definition splice (data : list Z) (cur : nat) (bs : list Z) : res (list Z) :=
  if Nat.leb (cur + length bs) (length data)
  then Ok (firstn cur data ++ bs ++ skipn (cur + length bs) data)
  else Panic.

(* pbuffer.rs 126-128: WriteBytes; also the store part of every other write *)
Definition pb_bytes (bs : list Z) (s : pb) : res pb :=
  bind (splice (b_data s) (b_cur s) bs) (fun d =>
  Ok (mkpb (b_cur s + length bs) d (b_prt s) (b_ort s))).

(* pbuffer.rs 131-133 *)
Definition pb_space (n : nat) (s : pb) : pb :=
  mkpb (b_cur s + n) (b_data s) (b_prt s) (b_ort s).

(* pbuffer.rs 59-82, WriteDword. Errors and failed asserts are [Panic]. *)
Definition pb_dword (r : rloc) (s : pb) : res pb :=
  if r_mode r =? 0 then pb_bytes (le_bytes 4 (r_off r)) s
  else if negb (Nat.eqb (Nat.modulo (b_cur s) 4) 0) then Panic
  else if r_mode r =? 1 then
    pb_bytes (le_bytes 4 (r_off r)) (mkpb (b_cur s) (b_data s) (b_prt s ++ [b_cur s]) (b_ort s))
  else if r_mode r =? 4 then
    pb_bytes (le_bytes 4 (r_off r)) (mkpb (b_cur s) (b_data s) (b_prt s) (b_ort s ++ [b_cur s]))
  else Panic.

(* pbuffer.rs 85-123, one iteration of the WritePack loop *)
Definition pb_field (f : Z * rloc) (s : pb) : res pb :=
  let (argsize, r) := f in
  if negb ((argsize =? 1) || (argsize =? 2) || (argsize =? 4)) then Panic
  else if negb ((r_mode r =? 0) || ((argsize =? 4) && Nat.eqb (Nat.modulo (b_cur s) 4) 0)) then Panic
  else
    let s := if r_mode r =? 1 then mkpb (b_cur s) (b_data s) (b_prt s ++ [b_cur s]) (b_ort s)
             else if r_mode r =? 4 then mkpb (b_cur s) (b_data s) (b_prt s) (b_ort s ++ [b_cur s])
             else s in
    pb_bytes (le_bytes (Z.to_nat argsize) (r_off r)) s.

Fixpoint pb_pack (fs : list (Z * rloc)) (s : pb) : res pb :=
  match fs with
  | [] => Ok s
  | f :: rest => bind (pb_field f s) (pb_pack rest)
  end.

Fixpoint pb_packs (l : list (list (Z * rloc))) (s : pb) : res pb :=
  match l with
  | [] => Ok s
  | f :: rest => bind (pb_pack f s) (pb_packs rest)
  end.

(* pbuffer.rs 135-169, _write_trigger *)
Definition pb_trigger (prev next : rloc) (conds acts : list (list (Z * rloc))) (flags : rloc) (s : pb)
  : res pb :=
  bind (pb_dword prev s) (fun s =>
  bind (pb_dword next s) (fun s =>
  bind (pb_packs conds s) (fun s =>
  bind (if Nat.ltb (length conds) 16
        then bind (pb_bytes (repeat 0 20) s) (fun s => Ok (pb_space (20 * (15 - length conds)) s))
        else Ok s) (fun s =>
  bind (pb_packs acts s) (fun s =>
  bind (if Nat.ltb (length acts) 64
        then bind (pb_bytes (repeat 0 32) s) (fun s => Ok (pb_space (32 * (63 - length acts)) s))
        else Ok s) (fun s =>
  bind (pb_dword flags s) (fun s =>
  pb_bytes (le_bytes 1 0) (pb_space 27 s)))))))).

Definition pb_op (s : pb) (o : wop) : res pb :=
  match o with
  | WByte v => pb_bytes (le_bytes 1 v) s                  (* 48-51 *)
  | WWord v => pb_bytes (le_bytes 2 v) s                  (* 54-57 *)
  | WDword r => pb_dword r s
  | WPack fs => pb_pack fs s
  | WBytes bs => pb_bytes bs s
  | WSpace n => Ok (pb_space n s)
  | WTrigger p n cs acts f => pb_trigger p n cs acts f s
  end.

Fixpoint pb_ops (s : pb) (ops : list wop) : res pb :=
  match ops with
  | [] => Ok s
  | o :: rest => bind (pb_op s o) (fun s' => pb_ops s' rest)
  end.

(* An object: the writes of its WritePayload and its GetDataSize.
   Simplified: WritePayload issues the same sequence of writes in both phases
   (RawTrigger switches between _allocate_trigger and _write_trigger with the
   same counts, payload.py 231-236). *)
Record obj := mkobj { ob_ops : list wop; ob_size : nat }.

(* payload.rs 257-293, alloc_objects *)
Definition alloc_objects (objs : list obj) : res (list Z * Z) :=
  if forallb (fun o => Nat.eqb (length (dry_run (ob_ops o))) (Nat.div (ob_size o + 3) 4)) objs
  then stack_objects (map (fun o => dry_run (ob_ops o)) objs)
  else Panic.

(* payload.rs 295-334, construct_payload *)
Fixpoint write_objects (objs : list (obj * Z)) (s : pb) : res pb :=
  match objs with
  | [] => Ok s
  | (o, addr) :: rest =>
    let start := Z.to_nat addr in
    bind (pb_ops (mkpb start (b_data s) (b_prt s) (b_ort s)) (ob_ops o)) (fun s' =>
    if Nat.eqb (b_cur s' - start) (ob_size o) then write_objects rest s' else Panic)
  end.

Definition construct_payload (objs : list obj) : res (list Z * pb) :=
  bind (alloc_objects objs) (fun '(offs, size) =>
  bind (write_objects (combine objs offs) (mkpb 0 (repeat 0 (Z.to_nat size)) [] [])) (fun s =>
  Ok (offs, s))).
