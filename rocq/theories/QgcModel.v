(* Commands put into the game's packet queue.
   Source: src/eudplib/qgc/qgc.py *)
From Coq Require Import ZArith List Bool.
From Verif Require Import Word Machine MachineProofs VarModel ReadModel BlkModel.
Import ListNotations.
Open Scope Z_scope.

(* EPD of a constant address *)
Definition qepd (a : Z) : Z := (a - 0x58A364) / 4.
(* 22-25: the amount of the condition _len_cache, the variable _cmdqlen, memory *)
Record qst := mkqst { cache : Z; cmdqlen : Z; qm : mem }.
(* 27-32 _update_cmdqlen *)
Definition update_cmdqlen (s : qst) : qst :=
  if get (qm s) (qepd 0x654AA0) =? cache s then s
  else let v := get (qm s) (qepd 0x654AA0) in mkqst v v (qm s).
(* 40-49 _set_cmdqlen *)
Definition set_cmdqlen (new_len : Z) (s : qst) : qst := mkqst new_len new_len (upd (qm s) (qepd 0x654AA0) new_len).
(* 52-68 QueueGameCommandHelper: body is the code in the with statement, it gets the
   length of the queue and memory *)
Definition helper (size : Z) (body : Z -> mem -> mem) (s : qst) : qst :=
  let s := update_cmdqlen s in
  let new_len := u32 (cmdqlen s + size) in
  if negb (get (qm s) (qepd 0x57F0D8) <=? u32 (new_len + 1))
  then set_cmdqlen new_len (mkqst (cache s) (cmdqlen s) (body (cmdqlen s) (qm s)))
  else s.
(* 71-89 QueueGameCommand; f_memcpy is C28 *)
Definition QueueGameCommand (data size : Z) (s : qst) : qst :=
  helper size (fun len m => f_memcpy (PVar (u32 (0x654880 + len))) (PVar data) (PVar size) m) s.

(* 124-138: the triggers for bits n-1 .. 0 of the number of the unit; v: the cell of the
   array at the current player, rest: the amount of restore_arr, ui: the amount of
   cp2uniqueness_identifier *)
Record alpha := mkalpha { av : Z; arest : Z; aui : Z; ab0 : Z; ab1 : Z }.
Fixpoint alpha_bits (n : nat) (a : alpha) : alpha :=
  match n with
  | O => a
  | S i =>
      let k := Z.of_nat i in
      alpha_bits i
        (if 0x59CCA8 + Z.shiftl 336 k <=? av a
         then mkalpha (av a - Z.shiftl 336 k) (u32 (arest a + Z.shiftl 336 k)) (u32 (aui a + Z.shiftl 84 k))
                (if k <? 8 then u32 (ab0 a + Z.shiftl 1 k) else ab0 a)
                (if k <? 8 then ab1 a else u32 (ab1 a + Z.shiftl 1 (k - 8)))
         else a)
  end.
(* 145-150: the triggers for bits 0 .. n-1 of the identifier, dw: the dword at the current player *)
Fixpoint uniq_bits (n : nat) (dw b1 : Z) : Z :=
  match n with
  | O => b1
  | S i =>
      let b1 := uniq_bits i dw b1 in
      if 1 <=? Z.land dw (Z.shiftl 1 (Z.of_nat i + 8)) then u32 (b1 + Z.shiftl 1 (Z.of_nat i + 3)) else b1
  end.
(* 109-154: n rounds; arr: the amount of cp2arr; q: the byte writer *)
Fixpoint alpha_loop (n : nat) (arr : Z) (q : pos) (m : mem) : mem :=
  match n with
  | O => m
  | S n =>
      let a := alpha_bits 11 (mkalpha (get m arr) 0 (qepd 0x59CCA8 + 0xA5 / 4) 1 0) in
      let b0 := if 256 <=? ab0 a then ab0 a - 256 else ab0 a in
      let b1 := if 256 <=? ab0 a then u32 (ab1 a + 1) else ab1 a in
      let m := upd m arr (u32 (av a + arest a)) in
      let b1 := uniq_bits 8 (get m (aui a)) b1 in
      let (m, q) := writebyte m q b0 in
      let (m, q) := writebyte m q b1 in
      alpha_loop n (u32 (arr + 1)) q m
  end.
(* 94-155 _qgc_alphaids; the current player is set back from its cache (C16) *)
Definition qgc_alphaids (packet_id n arr : Z) (s : qst) : qst :=
  helper (u32 (2 + 2 * n))
    (fun len m =>
       let q := seekoffset (u32 (0x654880 + len)) in
       let (m, q) := writebyte m q packet_id in
       let (m, q) := writebyte m q n in
       alpha_loop (Z.to_nat n) arr q m) s.
(* 158-204 *)
Definition QueueGameCommand_Select := qgc_alphaids 0x09.
Definition QueueGameCommand_AddSelect := qgc_alphaids 0x0A.
Definition QueueGameCommand_RemoveSelect := qgc_alphaids 0x0B.

(* 206-244, 276-280: commands with a dword that is stored in a Db before it is queued.
   D: address of the Db, a multiple of 4; db: its bytes; the command starts at byte 3 *)
Definition db_command (D size v : Z) (s : qst) : qst :=
  QueueGameCommand (D + 3) size (mkqst (cache s) (cmdqlen s) (upd (qm s) (qepd (D + 4)) v)).
Definition db_RightClick : list Z := [46; 46; 46; 0x14; 88; 88; 89; 89; 0; 0; 0xE4; 0; 0].
Definition RightClick (D xy : Z) := db_command D 10 xy.
Definition db_QueuedRightClick : list Z := [46; 46; 46; 0x14; 88; 88; 89; 89; 0; 0; 0xE4; 0; 1].
Definition QueuedRightClick (D xy : Z) := db_command D 10 xy.
Definition db_MinimapPing : list Z := [46; 46; 46; 0x58; 88; 88; 89; 89].
Definition MinimapPing (D xy : Z) := db_command D 5 xy.
Definition db_TrainUnit : list Z := [46; 46; 46; 0x1F; 85; 85; 46; 46].
Definition TrainUnit (D unit : Z) := db_command D 3 unit.
Definition db_UseCheat : list Z := [46; 46; 46; 0x12; 67; 67; 67; 67].
Definition UseCheat (D flags : Z) := db_command D 5 flags.
(* 246-273: PauseGame, ResumeGame, RestartGame, MergeDarkArchon, MergeArchon: a Db of one byte *)
Definition byte_command (D : Z) := QueueGameCommand D 1.
