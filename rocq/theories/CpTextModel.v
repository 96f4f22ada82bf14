(* Printing texts and numbers at the current player.
   Source: src/eudplib/string/cpprint.py, cpstr.py, strcommon.py

   Variable level, as in TextModel.v.  The state is the CPByteWriter cw
   (BlkModel.v: cpw, cw_write, cw_flush), the current player and the memory;
   AddCurrentPlayer changes the current player and its cache alike. *)
From Coq Require Import ZArith List Bool.
From Verif Require Import Word Machine MachineProofs VarModel ReadModel BlkModel TextModel.
Import ListNotations.
Open Scope Z_scope.

Definition cpstate := (cpw * Z * mem)%type.
(* ---- strcommon.py 88-126: cp_start, the loop, cw.flushdword, cp_end ---- *)
Fixpoint cp_text_loop (fuel : nat) (add k1 k2 count : Z) (r : pos) (s : cpstate) : option cpstate :=
  match fuel with
  | O => None
  | S n =>
      if 0x80000000 <=? count then Some (cw_flush s)
      else
        let (b, r) := readbyte (snd s) r in
        let r := step_back r in
        let count := u32 (count + add) in
        let b := wadd 0xAA b k1 in
        let b := wadd 0x55 b k2 in
        cp_text_loop n add k1 k2 count r (cw_write s b)
  end.
(* 161-178: cp_print is dbstr_print with key3, key4 and the triggers cp_* *)
Definition cp_text_run (fuel : nat) (D key3 key4 : Z) (j : textjob) (s : cpstate) : option cpstate :=
  cp_text_loop fuel (j_add j) (start_key (j_k1 j) key3) (start_key (j_k2 j) key4) 0 (text_pos D (j_off j)) s.
(* ---- cpprint.py 113-121: _addstr_cp ---- *)
Fixpoint cp_str (fuel : nat) (r : pos) (s : cpstate) : option cpstate :=
  match fuel with
  | O => None
  | S n => let (b, r) := readbyte (snd s) r in if b =? 0 then Some (cw_flush s) else cp_str n r (cw_write s b)
  end.
(* ---- 144-165: f_cpstr_adddw; the digits and jumps are those of dw_chars ---- *)
Definition cp_num (number : Z) (s : cpstate) : cpstate := cw_flush (fold_left cw_write (dw_chars 9 number []) s).
(* ---- 168-210: f_cpstr_addptr ---- *)
(* 180-183 *)
Definition hex_weight (x : Z) : Z := let t := x mod 16 in 2 ^ (t mod 4 + 8 * (3 - t / 4)).
Definition bit_list (hi : Z) (n : nat) : list Z := map (fun k => hi - Z.of_nat k) (seq 0 n).
(* 189: the digit variable j after its four triggers *)
Definition hex_digit (number j : Z) : Z :=
  fold_left (fun d i => if Z.testbit number i then u32 (d + 2 ^ (i mod 4)) else d) (bit_list (4 * j + 3) 4) 0.
(* 185-203: the cell of the current player, h = 1 for the upper half (i = 31..16), 0 for the lower *)
Definition hex_cell (number h : Z) : Z :=
  let c := fold_left (fun c i => if Z.testbit number i then u32 (c + hex_weight i) else c) (bit_list (16 * h + 15) 16) 0x30303030 in
  fold_left (fun c j => if 10 <=? hex_digit number (j + 4 * h) then u32 (c + (65 - 58) * 256 ^ (3 - j)) else c) [0; 1; 2; 3] c.
Definition cp_hex (number : Z) (s : cpstate) : cpstate :=
  let '(c, e, m) := s in
  let m := upd m e (hex_cell number 1) in
  let e := u32 (e + 1) in
  let m := upd m e (hex_cell number 0) in
  (c, u32 (e + 1), m).

(* ---- cpstr.py 87-168: CPString ---- *)
(* SetDeaths(CurrentPlayer, SetTo, value, unit); SetMemory(0x6509B0, Add, n);
   the two actions on the cache of the current player *)
Inductive cpact := CSet (value unit : Z) | CAdd (n : Z) | CCache (n : Z).
(* the deaths of unit u of player p are at EPD p + 12 u *)
Definition cpexec1 (s : Z * Z * mem) (a : cpact) : Z * Z * mem :=
  let '(cp, cache, m) := s in
  match a with
  | CSet v u => (cp, cache, upd m (cp + 12 * u) v)
  | CAdd n => (u32 (cp + n), cache, m)
  | CCache n => (cp, u32 (cache + n), m)
  end.
Definition cpexec (l : list cpact) (s : Z * Z * mem) : Z * Z * mem := fold_left cpexec1 l s.
(* 87-92 and 116-119: bytes or str, or a capacity *)
Inductive cpsrc := SrcBytes (b : list Z) | SrcInt (n : Z).
Definition cps_content (s : cpsrc) : list Z :=
  match s with
  | SrcBytes b => let n := Z.of_nat (length b) in b ++ repeat 13 (Z.to_nat (- (- n / 4) * 4 - n))
  | SrcInt n => repeat 13 (Z.to_nat (- (- n / 4)) * 4)
  end.
Definition b2i4 (l : list Z) (i : nat) : Z := nth i l 0 + 2^8 * nth (i + 1) l 0 + 2^16 * nth (i + 2) l 0 + 2^24 * nth (i + 3) l 0.
(* 136: number of i in range(4 * mod, 4 * n, 48) *)
Definition cps_count (n mod_ : nat) : nat := ((n - mod_) + 11) / 12.
(* 129-137 *)
Definition cps_sets (content : list Z) (mod_ : nat) : list cpact :=
  map (fun k => let i := (4 * mod_ + 48 * k)%nat in CSet (b2i4 content i) (Z.of_nat (i / 48)))
      (seq 0 (cps_count (length content / 4) mod_)).
(* 146-147 *)
Definition cps_block (content : list Z) (mod_ : nat) : list cpact :=
  let a := cps_sets content mod_ in
  a ++ match a with [] => [] | _ => if Nat.ltb mod_ 11 then [CAdd 1] else [] end.
(* 140 and 149: how many blocks add 1 *)
Definition cps_adds (content : list Z) (mod_ : nat) : nat :=
  match cps_sets content mod_ with [] => 0 | _ => if Nat.ltb mod_ 11 then 1 else 0 end.
Definition cps_modlength (content : list Z) : Z :=
  Z.of_nat (length content / 4) - Z.of_nat (list_sum (map (cps_adds content) (seq 0 12))).
(* 128-156; cutting the list into triggers of 64 actions (158-160) does not
   change what is executed *)
Definition cps_actions (content : list Z) : list cpact :=
  concat (map (cps_block content) (seq 0 12)) ++
  (if cps_modlength content =? 0 then [] else [CAdd (cps_modlength content)]) ++ [CCache (Z.of_nat (length content / 4))].
(* 141-149: valueAddr, as number of the action; addr before block mod_ *)
Fixpoint cps_addr (content : list Z) (mod_ : nat) : nat :=
  match mod_ with O => 0 | S i => (cps_addr content i + length (cps_sets content i) + cps_adds content i)%nat end.
Definition cps_value (content : list Z) (cell : nat) : nat := (cps_addr content (cell mod 12) + cell / 12)%nat.
(* 170-176 *)
Definition cp_display (content : list Z) (s : cpstate) : cpstate :=
  let '(c, e, m) := s in let '(cp, _, m) := cpexec (cps_actions content) (e, e, m) in (c, cp, m).

(* ---- cpprint.py 213-249: f_cpstr_print ---- *)
Inductive citem := COf (it : item) | CCps (src : cpsrc).
Inductive cstep := KOf (s : step) | KCps (content : list Z).
Fixpoint cemit (key key3 key4 : Z) (data : list Z) (items : list citem) (ds : list draw) : option (list cstep * list Z) :=
  match items with
  | [] => Some ([], data)
  | it :: items =>
      let put s := match cemit key key3 key4 data items ds with
                   | None => None | Some (steps, data) => Some (s :: steps, data) end in
      let text b :=
        match b, ds with
        | [], _ => cemit key key3 key4 data items ds
        | _ :: _, [] => None
        | _ :: _, d :: ds =>
            match dbstr_print key key3 key4 data b d with
            | None => None
            | Some (j, data) =>
                match cemit key key3 key4 data items ds with
                | None => None | Some (steps, data) => Some (KOf (SText j) :: steps, data)
                end
            end
        end in
      match it with
      | COf (IBytes b) => text b
      | COf (IInt z) => text (py_str 10 (z mod 2^32))
      | COf (IPtr p) => put (KOf (SStr (seekoffset p)))
      | COf (IEpd e) => put (KOf (SStr (u32 e, 0)))
      | COf (IHex v) => put (KOf (SHex v))
      | COf (INum v) => put (KOf (SNum v))
      | CCps src => put (KCps (cps_content src))
      end
  end.
Definition crun1 (fuel : nat) (D key3 key4 : Z) (k : cstep) (s : cpstate) : option cpstate :=
  match k with
  | KOf (SText j) => cp_text_run fuel D key3 key4 j s
  | KOf (SStr r) => cp_str fuel r s
  | KOf (SHex v) => Some (cp_hex v s)
  | KOf (SNum v) => Some (cp_num v s)
  | KCps content => Some (cp_display content s)
  end.
Fixpoint crun (fuel : nat) (D key3 key4 : Z) (steps : list cstep) (s : cpstate) : option cpstate :=
  match steps with
  | [] => Some s
  | k :: steps => match crun1 fuel D key3 key4 k s with None => None | Some s => crun fuel D key3 key4 steps s end
  end.
(* 248-249 *)
Definition f_cpstr_print (fuel : nat) (D key3 key4 : Z) (steps : list cstep) (EOS : bool) (s : cpstate) : option cpstate :=
  match crun fuel D key3 key4 steps s with
  | None => None
  | Some (c, e, m) => Some (c, e, if EOS then upd m e 0 else m)
  end.
