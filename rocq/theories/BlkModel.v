(* Block copies, byte streams and C strings.
   Source: src/eudplib/memio/mblockio.py, byterw.py, ptrmemio.py, cpbyterw.py,
   src/eudplib/string/strfunc.py *)
From Coq Require Import ZArith List Bool.
From Verif Require Import Word Machine MachineProofs VarModel ReadModel.
Import ListNotations.
Open Scope Z_scope.

(* ---- mblockio.py 14-50: f_repmovsd_epd ---- *)
(* L, Ct: loopstart, contpoint; rd: address of the trigger that starts reading
   a whole dword at the current player; cpc: the variable of the current player
   cache; fend: funcend.  The parameters live in read_end_common's copy_ret
   destination (dst), in the current player (src) and in the unused mask dword of
   loopstart's condition (copydwn), see 14-17 and 20. *)
Definition rep_cnt (L : Z) : Z := L + 2.
Definition rep_head (E L Ct cpc rd fend : Z) : trig :=
  mktrig [] [SetM (L + 1) SetTo rd; SetM (E + 1) SetTo (pa Ct); SetM (vc cpc FDest) SetTo CPcell; SetM (vc cpc FNext) SetTo fend]
         (Imm (pa L)) (Imm 4).
Definition rep_loop (L cpc : Z) : trig :=
  mktrig [mkcond (Mem (rep_cnt L)) (Imm (rep_cnt L)) (Imm 0) (Imm (enc_cmp Exactly * 2^16 + 15 * 2^24)) (Imm 0)]
         [SetM (L + 1) SetTo (pa cpc)] (Mem (L + 1)) (Imm 4).
Definition rep_cont (E L : Z) : trig :=
  mktrig [] [SetM (cr_dest E) Add 1; SetM CPcell Add 1; SetM (rep_cnt L) Subtract 1] (Imm (pa L)) (Imm 4).

(* ---- byterw.py 18-107: EUDByteReader ---- *)
(* R: _read; C i: _case[i]; br i: address of readtable._br[i] *)
Definition br_read (R : Z) : trig := mktrig [] [SetD (Imm CPcell) SetTo (Mem (R + 87))] (Mem (R + 1)) (Imm 4).
Definition br_case (R : Z) (C : nat -> Z) (br : nat -> Z) (i : nat) : trig :=
  mktrig [] (SetM (R + 1) SetTo (pa (C ((i + 1) mod 4)%nat)) :: if Nat.eqb i 3 then [SetM (R + 87) Add 1] else []) (Imm (br i)) (Imm 4).
(* 84-107 readbyte: the calling trigger; ret: EPD of the result *)
Definition br_call (E R cpc nexttrg ret : Z) : trig :=
  mktrig [] [SetM (E + 1) SetTo (pa cpc); SetM (vc cpc FNext) SetTo nexttrg; SetM (vc cpc FDest) SetTo CPcell; SetM (cr_dest E) SetTo ret]
         (Imm (pa R)) (Imm 4).

(* ---- byterw.py 110-236: EUDByteWriter ---- *)
(* W: _write (its mask, destination and value are run-time data); W2: the
   trigger after it; sub: cell of _suboffset; K i: _const[i]; F: the end of the
   function _writebyte (its next pointer is run-time data) *)
Definition bw_write (W W2 sub : Z) : trig :=
  mktrig [] [SetDX (Mem (W + 86)) SetTo (Mem (W + 87)) (Mem (W + 82)); SetM sub Add 1; SetM (W + 87) SetTo 0] (Imm (pa W2)) (Imm 4).
Definition bw_wrap (W F sub : Z) : trig :=
  mktrig [CondM sub AtLeast 4] [SetM sub SetTo 0; SetM (W + 86) Add 1] (Imm (pa F)) (Imm 4).
Definition bw_end (F : Z) : trig := mktrig [] [] (Mem (F + 1)) (Imm 4).
(* 121-131: a chain that continues at _write *)
Definition bw_const (W sub : Z) (K : nat -> Z) (i : nat) : trig :=
  mktrig [CondM sub Exactly (Z.of_nat i)] [SetD (Imm (W + 87)) SetTo (Mem (K i + 87)); SetM (W + 82) SetTo (Z.shiftl 0xFF (8 * Z.of_nat i))]
         (Imm (if Nat.eqb i 3 then pa W else pa (K (S i)))) (Imm 4).
(* 222-233: the caller with a constant byte *)
Definition bw_call (F : Z) (K : nat -> Z) (byte nextptr : Z) : trig :=
  mktrig [] (map (fun i => SetM (K i + 87) SetTo (Z.shiftl byte (8 * Z.of_nat i))) (seq 0 4) ++ [SetM (F + 1) SetTo nextptr]) (Imm (pa (K 0%nat))) (Imm 4).
(* 172-193: the cases of the switch in _writebyte for a byte in a variable; each
   ends at _write. The switch itself is not modelled here. *)
Definition bw_case0 (W byte : Z) : trig :=
  mktrig [] [SetM (vc byte FNext) SetTo (pa W); SetM (vc byte FDest) SetTo (W + 87); SetM (W + 82) SetTo 0xFF] (Imm (pa byte)) (Imm 4).
(* trigger number 0 of case i is at T 0; then 8 more *)
Definition bw_casei (W byte : Z) (T : nat -> Z) (i : Z) : list trig :=
  mktrig [] [SetM (W + 82) SetTo (Z.shiftl 0xFF (8 * i))] (Imm (lbl T 1)) (Imm 4) ::
  map (fun j => mktrig [CondMX (vc byte FVal) AtLeast 1 (2 ^ Z.of_nat j)] [SetM (W + 87) Add (2 ^ (Z.of_nat j + 8 * i))]
                       (Imm (if Nat.eqb j 7 then pa W else lbl T (S (S j)))) (Imm 4)) (seq 0 8).

(* ---- strfunc.py 62-121: _strlen_epd ---- *)
(* T 0 .. T 3: the four entry triggers, T 4 the jump; B i: b[i]; J: the cell of
   the value of the action `jump`, action 0 of trigger T 4; ret, epd, subp:
   variables; E: loopend *)
Definition sl_jump (T : nat -> Z) : Z := T 4%nat + 87.
Definition sl_enter (T B : nat -> Z) (E subp : Z) (i : nat) : trig :=
  mktrig [CondMX (vc subp FVal) Exactly (Z.of_nat i) 3] [SetM (sl_jump T) SetTo (pa (B i)); SetM (B i + 1) SetTo E] (Imm (lbl T (S i))) (Imm 4).
Definition sl_go (T : nat -> Z) (epd ret : Z) : trig :=
  mktrig [] [SetD (Imm (vc epd FNext)) SetTo (Mem (sl_jump T)); SetM (vc epd FDest) SetTo CPcell; SetM (vc ret FVal) SetTo 0] (Imm (pa epd)) (Imm 4).
Definition sl_byte (B : nat -> Z) (E ret : Z) (i : nat) : trig :=
  mktrig [CondDX (Imm 13) AtLeast (Imm 1) (Imm (Z.shiftl 0xFF (8 * Z.of_nat i)))]
         (SetM (B i + 1) SetTo (pa (B ((i + 1) mod 4)%nat)) :: SetM (B ((i + 1) mod 4)%nat + 1) SetTo E :: SetM (vc ret FVal) Add 1 ::
          if Nat.eqb i 3 then [SetM CPcell Add 1] else [])
         (Mem (B i + 1)) (Imm 4).

(* ---- functions built from readers and writers ---- *)
(* A reader or writer is (EPD, suboffset).  byterw.py 52-80 and 146-165: seekoffset.
   The machine-level behaviour of the steps is in PropBlk.v; the structured
   control flow around them (EUDWhile, EUDSwitch, EUDFunc) is modelled by Gallina
   control flow. *)
Definition pos := (Z * Z)%type.
Definition seekoffset (offset : Z) : pos := (u32 (u32 offset / 4 + - (0x58A364 / 4)), u32 offset mod 4).
(* 84-107 and 28-36 *)
Definition readbyte (m : mem) (r : pos) : Z * pos :=
  let '(e, i) := r in
  (Z.shiftr (Z.land (get m e) (Z.shiftl 0xFF (8 * i))) (8 * i), if i =? 3 then (u32 (e + 1), 0) else (e, i + 1)).
(* 170-211: value is only used under the mask of the suboffset *)
Definition writebyte (m : mem) (q : pos) (b : Z) : mem * pos :=
  let '(e, i) := q in
  (upd m e (wset (Z.shiftl 0xFF (8 * i)) (get m e) (u32 (Z.shiftl b (8 * i)))), if 4 <=? i + 1 then (u32 (e + 1), 0) else (e, i + 1)).

(* mblockio.py 53-64 *)
Fixpoint memcpy_loop (copylen : nat) (r q : pos) (m : mem) : mem :=
  match copylen with
  | O => m
  | S n => let (b, r) := readbyte m r in let (m, q) := writebyte m q b in memcpy_loop n r q m
  end.
Definition memcpy_var (dst src copylen : Z) (m : mem) : mem := memcpy_loop (Z.to_nat (u32 copylen)) (seekoffset src) (seekoffset dst) m.
(* the dword loop as proved for the triggers (PropBlk.v C28_repmovsd) *)
Fixpoint repmovsd (n : nat) (d s : Z) (m : mem) : mem :=
  match n with O => m | S n => repmovsd n (u32 (d + 1)) (u32 (s + 1)) (upd m d (get m s)) end.
(* 67-75; an argument is a Python int or a variable (with its run-time value) *)
Inductive parg := PInt (z : Z) | PVar (v : Z).
Definition pval (a : parg) : Z := match a with PInt z => z | PVar v => v end.
Definition f_memcpy (dst src copylen : parg) (m : mem) : mem :=
  match dst, src, copylen with
  | PInt d, PInt s, PInt n =>
      if (d mod 4 =? 0) && (s mod 4 =? 0) && (n mod 4 =? 0)
      then repmovsd (Z.to_nat (u32 (n / 4))) (u32 ((d - 0x58A364) / 4)) (u32 ((s - 0x58A364) / 4)) m
      else memcpy_var d s n m
  | _, _, _ => memcpy_var (pval dst) (pval src) (pval copylen) m
  end.
(* 78-91 *)
Fixpoint memcmp_loop (count : nat) (r1 r2 : pos) (m : mem) : Z :=
  match count with
  | O => 0
  | S n => let (c1, r1) := readbyte m r1 in let (c2, r2) := readbyte m r2 in
           if c1 =? c2 then memcmp_loop n r1 r2 m else u32 (c1 - c2)
  end.
Definition f_memcmp (buf1 buf2 count : Z) (m : mem) : Z := memcmp_loop (Z.to_nat (u32 count)) (seekoffset buf1) (seekoffset buf2) m.
(* strfunc.py 15-36; None: not finished after [fuel] bytes *)
Fixpoint strcpy_loop (fuel : nat) (r q : pos) (m : mem) : option mem :=
  match fuel with
  | O => None
  | S n => let (b, r) := readbyte m r in let (m, q) := writebyte m q b in if b =? 0 then Some m else strcpy_loop n r q m
  end.
Definition f_strcpy (fuel : nat) (dst src : Z) (m : mem) : option (mem * Z) :=
  option_map (fun m => (m, dst)) (strcpy_loop fuel (seekoffset src) (seekoffset dst) m).
(* 39-55 *)
Fixpoint strcmp_loop (fuel : nat) (r1 r2 : pos) (m : mem) : option Z :=
  match fuel with
  | O => None
  | S n => let (c1, r1) := readbyte m r1 in let (c2, r2) := readbyte m r2 in
           if c1 =? c2 then (if c1 =? 0 then Some 0 else strcmp_loop n r1 r2 m) else Some (u32 (c1 - c2))
  end.
Definition f_strcmp (fuel : nat) (s1 s2 : Z) (m : mem) : option Z := strcmp_loop fuel (seekoffset s1) (seekoffset s2) m.

(* ---- ptrmemio.py ---- *)
(* 51-86 _dwread: one trigger per bit *)
Definition addbit (v sh dw j : Z) : Z := if Z.testbit v j then u32 (dw + 2 ^ (j + sh)) else dw.
Definition zrange (a b : Z) : list Z := map (fun i => a + Z.of_nat i) (seq 0 (Z.to_nat (b - a))).
Definition dwread_var (ptr : Z) (m : mem) : Z :=
  let p := u32 (ptr - 0x58A364) in
  let e := p / 4 in let i := p mod 4 in
  if i =? 0 then get m e
  else let dw := fold_left (addbit (get m e) (- (8 * i))) (zrange (8 * i) 32) 0 in
       fold_left (addbit (get m (u32 (e + 1))) (32 - 8 * i)) (zrange 0 (8 * i)) dw.
(* 89-97 *)
Definition f_dwread (ptr : parg) (m : mem) : Z :=
  match ptr with
  | PInt p => if p mod 4 =? 0 then get m ((p - 0x58A364) / 4) else dwread_var p m
  | PVar v => dwread_var v m
  end.
(* dwepdio.py 148-182 f_dwbreak: the bytes *)
Definition dwbreak_byte (number : Z) (k : Z) : Z :=
  if k =? 0 then wset 0xFF 0 (wset 0xFFFF 0 number)
  else fold_left (addbit number (- (8 * k))) (zrange (8 * k) (8 * k + 8)) 0.
(* ptrmemio.py 24-36 *)
Definition dwwrite_bytes (ptr dw : Z) (m : mem) : mem :=
  let q := seekoffset ptr in
  let (m, q) := writebyte m q (dwbreak_byte dw 0) in
  let (m, q) := writebyte m q (dwbreak_byte dw 1) in
  let (m, q) := writebyte m q (dwbreak_byte dw 2) in
  fst (writebyte m q (dwbreak_byte dw 3)).
Definition f_dwwrite (ptr : parg) (dw : Z) (m : mem) : mem :=
  match ptr with
  | PInt p => if p mod 4 =? 0 then upd m ((p - 0x58A364) / 4) (u32 dw) else dwwrite_bytes p (u32 dw) m
  | PVar v => dwwrite_bytes v (u32 dw) m
  end.

(* ---- cpbyterw.py ---- *)
(* _suboffset, _b[0..3]; the position is the current player *)
Record cpw := mkcpw { cw_sub : Z; cw_b : nat -> Z }.
Definition cw_init : cpw := mkcpw 0 (fun _ => 13).
Definition setb (b : nat -> Z) (i : nat) (x : Z) : nat -> Z := fun j => if Nat.eqb j i then x else b j.
(* 47-70; state: writer, current player, memory *)
Definition cw_flush (s : cpw * Z * mem) : cpw * Z * mem :=
  let '(c, e, m) := s in
  let m := upd m e 0 in
  if cw_sub c =? 0 then (c, e, m)
  else
    let m := upd m e (cw_b c 0%nat) in
    let d := fold_left (fun d k => if Z.testbit (cw_b c (Z.to_nat (k / 8))) (k mod 8) then u32 (d + 2 ^ k) else d) (zrange 8 32) (get m e) in
    (cw_init, u32 (e + 1), upd m e d).
(* 22-45 *)
Definition cw_write (s : cpw * Z * mem) (byte : Z) : cpw * Z * mem :=
  let '(c, e, m) := s in
  if (0 <=? cw_sub c) && (cw_sub c <? 3) then (mkcpw (u32 (cw_sub c + 1)) (setb (cw_b c) (Z.to_nat (cw_sub c)) byte), e, m)
  else if cw_sub c =? 3 then cw_flush (mkcpw (cw_sub c) (setb (cw_b c) 3 byte), e, m)
  else s.

(* ---- byterw.py 273-288: EUDByteStream.copyto ---- *)
(* W: the writer's _write trigger. The stream's offset is stored at
   EPD(_write) + 4; the position of the writer is at EPD(_write) + 86
   (136-142). *)
Definition copyto_writer (W sub offset suboffset : Z) (m : mem) : mem := upd (upd m (W + 4) offset) sub suboffset.
