(* Printing texts and numbers into memory.
   Source: src/eudplib/string/eudprint.py, src/eudplib/string/strcommon.py

   Variable level: the state is the memory, the positions of the byte reader
   br1 and the byte writer bw1 (BlkModel.v: pos, readbyte, writebyte) and the
   variables of the functions.  Divisions by the constants 10 and 16 are the
   f_div of C09 (quotient and remainder).  Loops that run until a byte is zero
   take fuel; None: not finished, or a Python exception at compile time. *)
From Coq Require Import ZArith List Bool.
From Verif Require Import Word Machine MachineProofs VarModel ReadModel BlkModel.
Import ListNotations.
Open Scope Z_scope.

(* ---- strcommon.py 130-204: ObfuscatedBytes ---- *)
(* bytes.find (180-184): the first place where bb occurs *)
Fixpoint prefixb (bb data : list Z) : bool :=
  match bb, data with
  | [], _ => true
  | b :: bb, d :: data => (b =? d) && prefixb bb data
  | _ :: _, [] => false
  end.
Fixpoint bfind (bb data : list Z) (at_ : Z) : option Z :=
  if prefixb bb data then Some at_
  else match data with [] => None | _ :: data => bfind bb data (at_ + 1) end.
(* 186-192: the offset in the object, and the data afterwards *)
Definition find_or_add (key : Z) (data b : list Z) : Z * list Z :=
  let bb := map (fun x => Z.lxor x key) (rev b) in
  match bfind bb data 0 with
  | Some i => (i + (Z.of_nat (length bb) - 1), data)
  | None => let data := data ++ bb in (Z.of_nat (length data) - 1, data)
  end.
(* random.randrange(lo, hi); x is what the generator yields *)
Definition randrange (lo hi x : Z) : option Z := if lo <? hi then Some (lo + x mod (hi - lo)) else None.
(* 145-146 *)
Definition add_count (len x : Z) : option Z :=
  let randmax := if len =? 1 then 0xFFFFFFFF else 0x80000000 / (len - 1) in
  randrange (0x80000000 / len + 1) randmax x.
(* 147, 148: r is random.randint(0, 0xFFFFFF) *)
Definition junk_key (key k r : Z) : Z := Z.lor (Z.lxor key k) (Z.shiftl (r mod 0x1000000) 8).
(* 150-156: offset of the text in the object, add_count, k1, k2 *)
Record textjob := mkjob { j_off : Z; j_add : Z; j_k1 : Z; j_k2 : Z }.
(* what the random generator yields for one text *)
Record draw := mkdraw { d_add : Z; d_r1 : Z; d_r2 : Z }.
Definition dbstr_print (key key1 key2 : Z) (data b : list Z) (d : draw) : option (textjob * list Z) :=
  let (off, data) := find_or_add key data b in
  match add_count (Z.of_nat (length b)) (d_add d) with
  | None => None
  | Some a => Some (mkjob off a (junk_key key key1 (d_r1 d)) (junk_key key key2 (d_r2 d)), data)
  end.
(* 154: EPD(ptr) and ptr % 4 of the constant expression object + off, the
   object at the address D (constexpr.rs 143-174: the offset is divided on its
   own, the address of the object must be divisible) *)
Definition text_pos (D off : Z) : pos := (u32 (D / 4 + (off + - 0x58A364) / 4), off mod 4).

(* ---- strcommon.py 48-86: dbstr_start, the loop, dbstr_end ---- *)
(* 51-52, 53-54 *)
Definition start_key (v k : Z) : Z := wadd 0x55 (wadd 0xAA v k) k.
(* 60-67 and 73-74: from the position after a byte to the position before it *)
Definition step_back (r : pos) : pos :=
  let '(e, i) := r in
  let e := if i <=? 1 then e else u32 (e + 1) in
  (u32 (e + -1), (i + 2) mod 4).
(* 57-78; k1, k2: the values of the actions of dbstr_cont at 380 and 412 *)
Fixpoint text_loop (fuel : nat) (add k1 k2 count : Z) (r q : pos) (m : mem) : option (mem * pos) :=
  match fuel with
  | O => None
  | S n =>
      if 0x80000000 <=? count then Some (m, q)
      else
        let (b, r) := readbyte m r in
        let r := step_back r in
        let count := u32 (count + add) in
        let b := wadd 0xAA b k1 in
        let b := wadd 0x55 b k2 in
        let (m, q) := writebyte m q b in
        text_loop n add k1 k2 count r q m
  end.
(* count is 0 outside of the loop (42, 82) *)
Definition text_run (fuel : nat) (D key1 key2 : Z) (j : textjob) (q : pos) (m : mem) : option (mem * pos) :=
  text_loop fuel (j_add j) (start_key (j_k1 j) key1) (start_key (j_k2 j) key2) 0 (text_pos D (j_off j)) q m.

(* ---- eudprint.py 16-56: _add_str; n: the counter at end + 348 ---- *)
Fixpoint add_str (fuel : nat) (r q : pos) (n : Z) (m : mem) : option (mem * pos * Z) :=
  match fuel with
  | O => None
  | S k =>
      let (b, r) := readbyte m r in
      if b =? 0 then Some (m, q, n)
      else let (m, q) := writebyte m q b in add_str k r q (u32 (n + 1)) m
  end.
Fixpoint write_all (bs : list Z) (m : mem) (q : pos) : mem * pos :=
  match bs with [] => (m, q) | b :: bs => let (m, q) := writebyte m q b in write_all bs m q end.
(* ---- 93-143: _add_dw; the characters in the order they are written: i digits
   are still to be split off, the last one (i = 0) without a jump ---- *)
Fixpoint dw_chars (i : nat) (number : Z) (ch : list Z) : list Z :=
  let c := u32 (number mod 10 + 48) in
  match i with
  | O => c :: ch
  | S i => if number / 10 =? 0 then c :: ch else dw_chars i (number / 10) (c :: ch)
  end.
Definition add_dw (number : Z) (q : pos) (m : mem) : mem * pos * Z :=
  let cs := dw_chars 9 number [] in
  let (m, q) := write_all cs m q in (m, q, u32 (Z.of_nat (length cs))).
(* ---- 161-200: _add_ptr ---- *)
Fixpoint ptr_digits (i : nat) (number : Z) (ch : list Z) : list Z :=
  match i with O => ch | S i => ptr_digits i (number / 16) (number mod 16 :: ch) end.
Definition ptr_char (d : Z) : Z :=
  let c := u32 (d + 48) in if 48 + 10 <=? c then u32 (c + (65 - 48 - 10)) else c.
Definition add_ptr (number : Z) (q : pos) (m : mem) : mem * pos * Z :=
  let (m, q) := write_all (map ptr_char (ptr_digits 8 number [])) m q in (m, q, 8).

(* ---- 218-272: f_dbstr_print ---- *)
(* the arguments after fmt(), unProxy and encode: bytes, a Python integer, a
   text at an address or at an EPD, a number in hexadecimal, a number *)
Inductive item := IBytes (b : list Z) | IInt (z : Z) | IPtr (p : Z) | IEpd (e : Z) | IHex (v : Z) | INum (v : Z).
(* str(n) of Python for 0 <= n < 10^10 *)
Fixpoint py_str (fuel : nat) (n : Z) : list Z :=
  match fuel with
  | O => []
  | S k => if n <? 10 then [48 + n] else py_str k (n / 10) ++ [48 + n mod 10]
  end.
(* what is emitted for an argument *)
Inductive step := SText (j : textjob) | SStr (r : pos) | SHex (v : Z) | SNum (v : Z).
(* 230-264, at compile time; one draw for every text *)
Fixpoint emit (key key1 key2 : Z) (data : list Z) (items : list item) (ds : list draw) (static_len : Z)
  : option (list step * Z * list Z) :=
  match items with
  | [] => Some ([], static_len, data)
  | it :: items =>
      let put s := match emit key key1 key2 data items ds static_len with
                   | None => None | Some (steps, n, data) => Some (s :: steps, n, data) end in
      let text b :=
        match b, ds with
        | [], _ => emit key key1 key2 data items ds static_len
        | _ :: _, [] => None
        | _ :: _, d :: ds =>
            match dbstr_print key key1 key2 data b d with
            | None => None
            | Some (j, data) =>
                match emit key key1 key2 data items ds (static_len + Z.of_nat (length b)) with
                | None => None | Some (steps, n, data) => Some (SText j :: steps, n, data)
                end
            end
        end in
      match it with
      | IBytes b => text b
      | IInt z => text (py_str 10 (z mod 2^32))
      | IPtr p => put (SStr (seekoffset p))
      | IEpd e => put (SStr (u32 e, 0))
      | IHex v => put (SHex v)
      | INum v => put (SNum v)
      end
  end.
(* at run time; D: the address of the ObfuscatedBytes object *)
Fixpoint run_steps (fuel : nat) (D key1 key2 : Z) (steps : list step) (ret : Z) (q : pos) (m : mem) : option (mem * pos * Z) :=
  match steps with
  | [] => Some (m, q, ret)
  | SText j :: steps =>
      match text_run fuel D key1 key2 j q m with
      | None => None | Some (m, q) => run_steps fuel D key1 key2 steps ret q m end
  | SStr r :: steps =>
      match add_str fuel r q 0 m with
      | None => None | Some (m, q, n) => run_steps fuel D key1 key2 steps (u32 (ret + n)) q m end
  | SHex v :: steps => let '(m, q, n) := add_ptr v q m in run_steps fuel D key1 key2 steps (u32 (ret + n)) q m
  | SNum v :: steps => let '(m, q, n) := add_dw v q m in run_steps fuel D key1 key2 steps (u32 (ret + n)) q m
  end.
Definition run_print (fuel : nat) (D key1 key2 dst : Z) (steps : list step) (static_len : Z) (EOS : bool) (m : mem) : option (mem * Z) :=
  match run_steps fuel D key1 key2 steps (u32 dst) (seekoffset dst) m with
  | None => None
  | Some (m, q, ret) =>
      let ret := if static_len =? 0 then ret else u32 (ret + static_len) in
      Some (if EOS then fst (writebyte m q 0) else m, ret)
  end.

(* ---- 59-90, 146-158, 203-215 ---- *)
Definition f_dbstr_add (fuel : nat) (dst : Z) (s : step) (m : mem) : option (mem * Z) := run_print fuel 0 0 0 dst [s] 0 true m.
Definition f_dbstr_addstr (fuel : nat) (dst src : Z) := f_dbstr_add fuel dst (SStr (seekoffset src)).
Definition f_dbstr_addstr_epd (fuel : nat) (dst epd : Z) := f_dbstr_add fuel dst (SStr (u32 epd, 0)).
Definition f_dbstr_adddw (dst number : Z) := f_dbstr_add 0 dst (SNum number).
Definition f_dbstr_addptr (dst number : Z) := f_dbstr_add 0 dst (SHex number).
