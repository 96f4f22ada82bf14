(* The shared table of reading triggers.
   Source: src/eudplib/memio/readtable.py, dwepdio.py *)
From Coq Require Import ZArith List Bool.
From Verif Require Import Word Machine MachineProofs VarModel.
Import ListNotations.
Open Scope Z_scope.

(* ---- the table, readtable.py 15-16 ---- *)
(* consecutive_table[shift][endswith][x] -> number of a trigger.  A dictionary
   consecutive_table[shift][endswith] exists iff it has an entry (it is filled
   when it is made, 71-99). *)
Inductive rnext := REnd | RTrig (l : nat).
Record rtab := mkrtab { rt_map : list ((Z * Z * Z) * nat); rt_trigs : list (Z * Z * rnext) }.
Definition key_eqb (a b : Z * Z * Z) : bool :=
  let '(s, e, x) := a in let '(s', e', x') := b in (s =? s') && (e =? e') && (x =? x').
Fixpoint rfind (k : Z * Z * Z) (l : list ((Z * Z * Z) * nat)) : option nat :=
  match l with [] => None | (k', n) :: r => if key_eqb k k' then Some n else rfind k r end.
Definition has_table (sh e : Z) (t : rtab) : bool :=
  existsb (fun p => let '(s, e', _) := fst p in (s =? sh) && (e' =? e)) (rt_map t).

(* Python int helpers: bit_length() - 1 of a positive number is log2 *)
Definition msb_index (n : Z) : Z := Z.log2 n.
Definition lsb_index (n : Z) : Z := Z.log2 (Z.land n (- n)).
(* 31-34; not defined for n <= 0 *)
Definition is_consecutive (n : Z) : bool :=
  let n' := Z.shiftr n (lsb_index n) in Z.land n' (n' + 1) =? 0.
(* 37-44 *)
Definition guess_ordering (bitmask shift : Z) : bool :=
  if lsb_index bitmask =? - shift then true else if shift =? 0 then false else true.
(* 47-51 *)
Definition signed_shift (a b : Z) : Z := if 0 <=? b then Z.shiftl a b else Z.shiftr a (- b).

(* 84-97: one round of the loop; None: KeyError *)
Definition rins (sh e step : Z) (t : rtab) (x : Z) : option rtab :=
  match rfind (sh, e, x) (rt_map t) with
  | Some _ => Some t
  | None =>
      match (if x =? e then Some REnd else option_map RTrig (rfind (sh, e, x - step) (rt_map t))) with
      | None => None
      | Some nx => Some (mkrtab (rt_map t ++ [((sh, e, x), length (rt_trigs t))]) (rt_trigs t ++ [(x, sh, nx)]))
      end
  end.
Fixpoint rins_all (sh e step : Z) (t : rtab) (xs : list Z) : option rtab :=
  match xs with
  | [] => Some t
  | x :: r => match rins sh e step t x with None => None | Some t' => rins_all sh e step t' r end
  end.
(* range(e, s + step, step) for step = 1 (s >= e) or -1 (s <= e) *)
Definition rrange (e step : Z) (n : nat) : list Z := map (fun i => e + step * Z.of_nat i) (seq 0 n).

(* 54-102 _insert; None: an assertion failed or KeyError *)
Definition rt_insert (bitmask shift : Z) (dec : option bool) (t : rtab) : option (nat * rtab) :=
  if (bitmask <=? 0) || negb (is_consecutive bitmask) then None else
  let dec := match dec with Some b => b | None => guess_ordering bitmask shift end in
  let msb := msb_index bitmask in
  let lsb := lsb_index bitmask in
  let '(s, e) := if dec then (msb, lsb) else (lsb, msb) in
  match rfind (shift, e, s) (rt_map t) with
  | Some l => Some (l, t)
  | None =>
      let step := if dec then 1 else -1 in
      match rins_all shift e step t (rrange e step (Z.to_nat (msb - lsb + 1))) with
      | None => None
      | Some t' => match rfind (shift, e, s) (rt_map t') with Some l => Some (l, t') | None => None end
      end
  end.
(* 105-119 _get *)
Definition rt_get (bitmask shift : Z) (t : rtab) : option nat :=
  if (bitmask <=? 0) || negb (is_consecutive bitmask) then None else
  let msb := msb_index bitmask in
  let lsb := lsb_index bitmask in
  if has_table shift lsb t then rfind (shift, lsb, msb) (rt_map t)
  else rfind (shift, msb, lsb) (rt_map t).
(* 122-128 _insert_or_get *)
Definition rt_insert_or_get (bitmask shift : Z) (dec : option bool) (t : rtab) : option (nat * rtab) :=
  match rt_get bitmask shift t with
  | Some l => Some (l, t)
  | None => rt_insert bitmask shift dec t
  end.

(* ---- the triggers ---- *)
(* E: place of read_end_common; A l: place of table trigger l.
   copy_ret is action 0 of read_end_common (byte offset 328). *)
Definition cr_dest (E : Z) : Z := E + 86.
Definition cr_val (E : Z) : Z := E + 87.
Definition cr_mod (E : Z) : Z := E + 88.
Definition rnext_addr (E : Z) (A : nat -> Z) (n : rnext) : Z := match n with REnd => pa E | RTrig l => pa (A l) end.
(* 88-97 *)
Definition rtrig (E : Z) (A : nat -> Z) (t : Z * Z * rnext) : trig :=
  let '(x, sh, nx) := t in
  mktrig [CondDX (Imm 13) AtLeast (Imm 1) (Imm (Z.shiftl 1 x))]
         [SetM (cr_val E) Add (signed_shift 1 (x + sh))] (Imm (rnext_addr E A nx)) (Imm 4).
(* 18-28; the destination, value and modifier of copy_ret and the next pointer are run-time data *)
Definition read_end (E : Z) : trig :=
  mktrig [] [mkact (Imm 0) (Mem (cr_dest E)) (Mem (cr_val E)) (Mem (cr_mod E)) (Imm 20);
             SetM (cr_val E) SetTo 0] (Mem (E + 1)) (Imm 4).

(* 165-196 _epd_caller: the operations given to NonSeqCompute, after which the
   flow continues at readtrg.  retepd: where the result goes; cpc: the variable
   of the current player cache. *)
Definition epd_ops (E cpc nexttrg retepd : Z) (epd : src) (extra : list (dst * modifier * src)) : list (dst * modifier * src) :=
  [(DExpr (E + 1), SetTo, SConst (pa cpc)); (DExpr (vc cpc FNext), SetTo, SConst nexttrg);
   (DExpr (vc cpc FDest), SetTo, SConst CPcell); (DExpr (cr_dest E), SetTo, SConst retepd);
   (DInt CPcell, SetTo, epd)] ++ extra.
(* 131-162 _cp_caller with a constant cpo (the current player moves by cpo and back);
   the restoring trigger is at nexttrg *)
Definition cp_ops (E nexttrg retepd cpo : Z) (extra : list (dst * modifier * src)) : list (dst * modifier * src) :=
  (if cpo =? 0 then [] else [(DInt CPcell, Add, SConst cpo)]) ++
  [(DExpr (E + 1), SetTo, SConst nexttrg); (DExpr (cr_dest E), SetTo, SConst retepd)] ++ extra.
Definition cp_restore (cpo fin : Z) : list trig := if cpo =? 0 then [] else [mktrig [] [SetM CPcell Add (- cpo)] (Imm fin) (Imm 4)].
(* dwepdio.py 47-58 f_dwread_epd, f_epdread_epd *)
Definition dwread_ops E cpc nexttrg retepd epd := epd_ops E cpc nexttrg retepd epd [].
Definition epdread_ops E cpc nexttrg retepd epd :=
  epd_ops E cpc nexttrg retepd epd [(DExpr (cr_val E), SetTo, SConst (- (0x58A364 / 4)))].
(* readtable.py 199-206: what is in the table from the start *)
Definition rt_init : option rtab :=
  match rt_insert 0xFFFFFFFF 0 (Some true) (mkrtab [] []) with
  | None => None
  | Some (_, t) =>
  match rt_insert 0xFFFFFF00 0 (Some false) t with
  | None => None
  | Some (_, t) =>
  match rt_insert 0xFF00 (-8) (Some true) t with
  | None => None
  | Some (_, t) =>
  match rt_insert 0xFF0000 (-16) (Some true) t with
  | None => None
  | Some (_, t) => option_map snd (rt_insert 0xFF000000 (-24) (Some true) t)
  end end end end.
