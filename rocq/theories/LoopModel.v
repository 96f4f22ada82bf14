(* Loops over lists of units, sprites and other objects, at the level of variables.
   Source: src/eudplib/eudlib/utilf/listloop.py *)
From Coq Require Import ZArith List Bool.
From Verif Require Import Word Machine ReadGenModel.
Import ListNotations.
Open Scope Z_scope.

(* The loop variables ptr and epd, and memory.  A body (the code between two steps
   of the generator) is any function of them; it says whether it ended with EUDBreak.
   EUDContinue ends a body without EUDBreak. *)
Record st := mkst { ptr : Z; epd : Z; mm : mem }.
Definition bodyfun := st -> st * bool.
(* what a loop did: the (ptr, epd) that each round of the body started with, the last
   state, and whether the body broke it.  None: n rounds did not suffice. *)
Definition result := option (list (Z * Z) * st * bool).
Definition cons_result (x : Z * Z) (r : result) : result :=
  match r with Some (t, s, b) => Some (x :: t, s, b) | None => None end.
(* EUDWhile ... EUDSetContinuePoint ... EUDEndWhile; the statements are C15 *)
Fixpoint while (n : nat) (c : st -> bool) (body : bodyfun) (next : st -> st) (s : st) : result :=
  match n with
  | O => None
  | S n =>
      if c s then
        let (s1, brk) := body s in
        if brk then Some ([(ptr s, epd s)], s1, true)
        else cons_result (ptr s, epd s) (while n c body next (next s1))
      else Some ([], s, false)
  end.

(* f_dwepdread_epd and f_cunitepdread_epd on a cell with value v: C66_dwepdread,
   C66_reader_epd with _check_empty *)
Definition dwepd (v : Z) : Z * Z := (v, u32 (v / 4 - EPD0)).
Definition cunitepd (v : Z) : Z * Z :=
  if v =? 0 then (0, 0) else (u32 (0x400008 + Z.land v 0x3FFFF0), u32 (0x100002 - EPD0 + Z.land v 0x3FFFF0 / 4)).
Definition load (rd : Z -> Z * Z) (e : Z) (m : mem) : st := mkst (fst (rd (get m e))) (snd (rd (get m e))) m.
(* epd += 1; f_..read_epd(epd, ret=[ptr, epd]) *)
Definition follow (rd : Z -> Z * Z) (s : st) : st := load rd (u32 (epd s + 1)) (mm s).
(* EPD of a constant address *)
Definition cepd (a : Z) : Z := (a - 0x58A364) / 4.

(* listloop.py 28-49 EUDLoopList *)
Definition list_cond (brk : option Z) (s : st) : bool :=
  match brk with
  | Some b => negb (ptr s =? u32 b)
  | None => (0 <? ptr s) && (ptr s <=? 0x7FFFFFFF)
  end.
Definition EUDLoopList (n : nat) (header : Z) (brk : option Z) (body : bodyfun) (m : mem) : result :=
  while n (list_cond brk) body (follow dwepd) (load dwepd (cepd header) m).
(* 52-65 EUDLoopUnit *)
Definition EUDLoopUnit (n : nat) (body : bodyfun) (m : mem) : result :=
  while n (fun s => negb (ptr s =? 0)) body (follow cunitepd) (load cunitepd (cepd 0x628430) m).
(* 236-237 EUDLoopBullet *)
Definition EUDLoopBullet (n : nat) (body : bodyfun) (m : mem) : result := EUDLoopList n 0x64DEC4 None body m.

(* 203-233 EUDLoopPlayerUnit: the next unit is read before the body, into the two
   actions that set ptr and epd at the continue point *)
Fixpoint player_loop (n : nat) (body : bodyfun) (s : st) : result :=
  match n with
  | O => None
  | S n =>
      if negb (ptr s =? 0) then
        let nxt := cunitepd (get (mm s) (u32 (0x6C / 4 + epd s))) in
        let (s1, brk) := body s in
        if brk then Some ([(ptr s, epd s)], s1, true)
        else cons_result (ptr s, epd s) (player_loop n body (mkst (fst nxt) (snd nxt) (mm s1)))
      else Some ([], s, false)
  end.
(* player: 0 to 11, already encoded *)
Definition EUDLoopPlayerUnit (n : nat) (player : Z) (body : bodyfun) (m : mem) : result :=
  player_loop n body (load cunitepd (u32 (cepd 0x6283F8 + player)) m).

(* 165-200 EUDLoopUnit2.  p, e: the amounts of the actions set_ptr, set_epd;
   d: the player of the condition is_dead *)
Definition is_dead (unlimiter : bool) (m : mem) (d : Z) : bool :=
  if unlimiter then Z.land (get m d) 0xFF00 =? 0 else get m d =? 0.
Fixpoint unit2_loop (n : nat) (unlimiter : bool) (body : bodyfun) (p e d : Z) (s : st) : result :=
  match n with
  | O => None
  | S n =>
      if negb (0x59CCA8 + 336 * 1699 + 1 <=? ptr s) then
        let go m := unit2_loop n unlimiter body (u32 (p + 336)) (u32 (e + 84)) (u32 (d + 84)) (mkst (u32 (p + 336)) (u32 (e + 84)) m) in
        if is_dead unlimiter (mm s) d then go (mm s)
        else
          let (s1, brk) := body s in
          if brk then Some ([(ptr s, epd s)], s1, true)
          else cons_result (ptr s, epd s) (go (mm s1))
      else Some ([], s, false)
  end.
Definition EUDLoopUnit2 (n : nat) (unlimiter : bool) (body : bodyfun) (m : mem) : result :=
  let e := cepd 0x59CCA8 in
  unit2_loop n unlimiter body 0x59CCA8 e (e + (if unlimiter then 0x4C / 4 else 0x0C / 4)) (mkst 0x59CCA8 e m).

(* 240-258 EUDLoopSprite: EUDBreak in the body leaves the inner EUDWhile.
   rows: rounds of the outer loop; the flag tells whether the body broke any row *)
Fixpoint sprite_rows (rows n : nat) (body : bodyfun) (y : Z) (s : st) : result :=
  match rows with
  | O => None
  | S rows =>
      if y <? cepd 0x629688 + 256 then
        match while n (fun s => 1 <=? ptr s) body (follow dwepd) (load dwepd y (mm s)) with
        | None => None
        | Some (t, s1, b) =>
            match sprite_rows rows n body (u32 (y + 1)) s1 with
            | Some (t2, s2, b2) => Some (t ++ t2, s2, b || b2)
            | None => None
            end
        end
      else Some ([], s, false)
  end.
Definition EUDLoopSprite (rows n : nat) (body : bodyfun) (m : mem) : result :=
  sprite_rows rows n body (cepd 0x629688) (mkst 0 0 m).

(* 122-162 EUDLoopNewUnit.  ident: EPD of the _UniqueIdentifier object; the cell of a
   unit in it; the identifier of the unit is byte 1 of dword 0xA5 / 4 (f_bread_cp, C26) *)
Definition uniq_of (m : mem) (e : Z) : Z := Z.land (Z.shiftr (get m (u32 (0xA5 / 4 + e))) 8) 0xFF.
Definition mark_of (ident e : Z) : Z := u32 (u32 (0xA5 / 4 + e) + (ident - cepd 0x59CCA8 - 0xA5 / 4)).
Definition known (m : mem) (ident e : Z) : bool := Z.land (get m (mark_of ident e)) 0xFF =? uniq_of m e.
(* tos0: the light variable of the loop; gives its last value as well *)
Fixpoint new_loop (n : nat) (ident allowance : Z) (body : bodyfun) (tos0 : Z) (s : st) : result :=
  match n with
  | O => None
  | S n =>
      if negb (ptr s =? 0) then
        if negb (known (mm s) ident (epd s)) then
          let (s1, brk) := body (mkst (ptr s) (epd s) (upd (mm s) (mark_of ident (epd s)) (uniq_of (mm s) (epd s)))) in
          if brk then Some ([(ptr s, epd s)], s1, true)
          else cons_result (ptr s, epd s) (new_loop n ident allowance body tos0 (follow cunitepd s1))
        else
          let tos0 := u32 (tos0 + 1) in
          if u32 allowance <=? tos0 then Some ([], s, false)
          else new_loop n ident allowance body tos0 (follow cunitepd s)
      else Some ([], s, false)
  end.
(* tos0 is 0 at the start, and set to 0 after the loop *)
Definition EUDLoopNewUnit (n : nat) (ident allowance : Z) (body : bodyfun) (m : mem) : result :=
  new_loop n ident allowance body 0 (load cunitepd (cepd 0x628430) m).
