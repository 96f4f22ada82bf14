(* StringBuffer.  Source: src/eudplib/string/strbuffer.py, lines cited.
   Variable level: pos is the field of the buffer, cp the current player, user the number of the local player
   (C72); f_setcurpl and f_getcurpl are C47, printing is CpTextModel (C63).  The CPByteWriter is empty. *)
From Coq Require Import ZArith List Bool.
From Verif Require Import Word Machine BlkModel TextModel CpTextModel.
Import ListNotations.
Open Scope Z_scope.

Record sbst := mksbst { sb_pos : Z; sb_cp : Z; sb_m : mem }.
(* 107-122: a new buffer, _static_initval *)
Definition sb_new (cp : Z) (m : mem) : sbst := mksbst 0 cp m.
(* 244-270 _init_template, _cpblock: the block is skipped when the current player is not the local one *)
Definition cpblock (user : Z) (s : sbst) (body : option sbst) : option sbst := if sb_cp s =? user then body else Some s.
Section Printing.
(* the arguments of the printing, as in f_cpstr_print *)
Variables (fuel : nat) (D key3 key4 : Z) (steps : list cstep).
(* 272-278 append *)
Definition append (user : Z) (s : sbst) : option sbst :=
  cpblock user s
    (match f_cpstr_print fuel D key3 key4 steps true (cw_init, sb_pos s, sb_m s) with
     | Some (_, e, m) => Some (mksbst e user m)
     | None => None
     end).
(* 283-288 insert *)
Definition insert (user epd index : Z) (s : sbst) : option sbst :=
  cpblock user s
    (match f_cpstr_print fuel D key3 key4 steps false (cw_init, u32 (epd + index), sb_m s) with
     | Some (_, e, m) => Some (mksbst e user m)
     | None => None
     end).
(* 323-332 print, up to DisplayText: the text that is displayed is the string at epd *)
Definition print (user epd : Z) (s : sbst) : option sbst :=
  cpblock user s
    (match f_cpstr_print fuel D key3 key4 steps false (cw_init, epd, sb_m s) with
     | Some (_, e, m) => Some (mksbst (sb_pos s) user (upd m e 0))
     | None => None
     end).
End Printing.
(* 298-304: the actions of delete at the current player e *)
Fixpoint del_cells (n : nat) (e : Z) (m : mem) : mem :=
  match n with O => m | S n => del_cells n (u32 (e + 1)) (upd m e 0x0D0D0D0D) end.
(* 293-305 delete *)
Definition delete (user epd start : Z) (length : nat) (s : sbst) : option sbst :=
  cpblock user s (let pos := u32 (epd + start) in Some (mksbst pos user (del_cells length pos (sb_m s)))).
