(* Loops over players, and the cells that hold the number of the local player.
   Source: src/eudplib/eudlib/utilf/pexist.py, userpl.py *)
From Coq Require Import ZArith List Bool String.
From Verif Require Import Word Machine.
Import ListNotations.
Open Scope Z_scope.

(* EPD of a constant address *)
Definition pepd (a : Z) : Z := (a - 0x58A364) / 4.

(* ---------------- pexist.py ---------------- *)
(* 18-44 f_playerexist: the switch (C21) on 0 to 7, its condition is one trigger *)
Definition playerexist (m : mem) (p : Z) : Z :=
  if (0 <=? p) && (p <? 8)
  then if get m (pepd (0x51A280 + p * 12 + 8)) =? u32 (Z.lnot (0x51A280 + p * 12 + 4)) then 0 else 1
  else 0.

(* core/mapdata/playerinfo.py 33-58 *)
Record pinfo := mkpinfo { force : Z; race : Z; type : Z }.
Definition racestr (x : Z) : string :=
  if x =? 0 then "Zerg" else if x =? 1 then "Terran" else if x =? 2 then "Protoss" else if x =? 3 then "Independent"
  else if x =? 4 then "Neutral" else if x =? 5 then "User selectable" else if x =? 7 then "Inactive" else if x =? 8 then "Human"
  else if x =? 0x0A then "Human" else if x =? 0x0D then "Starcraft Campaign Editor" else "".
Definition typestr (x : Z) : string :=
  if x =? 0 then "Unused" else if x =? 3 then "Rescuable" else if x =? 5 then "Computer" else if x =? 6 then "Human"
  else if x =? 7 then "Neutral" else "".
(* 69-77 encode_force on an int; None: EPError.  (A TrgPlayer must be 18 to 21.) *)
Definition encode_force (f : Z) : option Z :=
  let f := if (18 <=? f) && (f <=? 21) then f - 18 else f in
  if (0 <=? f) && (f <=? 3) then Some f else None.
(* not x, for None, a string, an int *)
Definition not_str (x : option string) : bool := match x with None => true | Some s => String.eqb s "" end.
Definition not_int (x : option Z) : bool := match x with None => true | Some f => f =? 0 end.
Definition str_is (x : option string) (s : string) : bool := match x with None => false | Some t => String.eqb s t end.
(* 82-86; None: EPError *)
Definition meets (ptype : option string) (fo : option Z) (ra : option string) (i : pinfo) : option bool :=
  if negb (not_str ptype || str_is ptype (typestr (type i))) then Some false
  else
    match (if not_int fo then Some true
           else match fo with
                | Some f => match encode_force f with Some f => Some (force i =? f) | None => None end
                | None => Some true end) with
    | None => None
    | Some false => Some false
    | Some true => Some (not_str ra || str_is ra (racestr (race i)))
    end.
(* 79-87 *)
Fixpoint collect (ps : list Z) (ptype : option string) (fo : option Z) (ra : option string) (info : Z -> pinfo) : option (list Z) :=
  match ps with
  | [] => Some []
  | p :: ps =>
      match meets ptype fo ra (info p), collect ps ptype fo ra info with
      | Some b, Some r => Some (if b then p :: r else r)
      | _, _ => None
      end
  end.
Definition players8 : list Z := [0; 1; 2; 3; 4; 5; 6; 7].
Definition lmin (l : list Z) : Z := fold_right Z.min 8 l.
Definition lmax (l : list Z) : Z := fold_right Z.max (-1) l.
Definition mem_z (x : Z) (l : list Z) : bool := existsb (Z.eqb x) l.

(* A body works on memory for the player v, and says whether it ended with EUDBreak; it
   does not change v.  A loop gives the players of its rounds, memory, and whether it was broken. *)
Definition pbody := Z -> mem -> mem * bool.
Definition presult := option (list Z * mem * bool).
Definition cons_p (x : Z) (r : presult) : presult :=
  match r with Some (t, m, b) => Some (x :: t, m, b) | None => None end.
(* 104-114; the statements are C15.  None: n rounds did not suffice. *)
Fixpoint player_while (n : nat) (plist : list Z) (start stop : Z) (body : pbody) (v : Z) (m : mem) : presult :=
  match n with
  | O => None
  | S n =>
      if v <=? stop then
        if (start <=? v) && (v <? stop) && negb (mem_z v plist) then player_while n plist start stop body (u32 (v + 1)) m
        else if playerexist m v =? 0 then player_while n plist start stop body (u32 (v + 1)) m
        else
          let (m, brk) := body v m in
          if brk then Some ([v], m, true)
          else cons_p v (player_while n plist start stop body (u32 (v + 1)) m)
      else Some ([], m, false)
  end.
(* 50-115 EUDLoopPlayer; None on the outside: EPError *)
Definition EUDLoopPlayer (n : nat) (ptype : option string) (fo : option Z) (ra : option string) (info : Z -> pinfo) (body : pbody) (m : mem) : option presult :=
  match collect players8 ptype fo ra info with
  | None => None
  | Some [] => None
  | Some plist => Some (player_while n plist (lmin plist) (lmax plist) body (lmin plist) m)
  end.

(* 121-147 EUDPlayerLoop, EUDEndPlayerLoop.  cp: the current player (f_getcurpl,
   f_setcurpl are C16); the body may change it *)
Definition cbody := Z -> mem -> Z * mem * bool.
Definition cresult := option (list Z * Z * mem * bool).
Definition cons_c (x : Z) (r : cresult) : cresult :=
  match r with Some (t, c, m, b) => Some (x :: t, c, m, b) | None => None end.
Fixpoint cp_while (n : nat) (body : cbody) (playerv cp : Z) (m : mem) : cresult :=
  match n with
  | O => None
  | S n =>
      if playerv <=? 7 then
        if playerexist m playerv =? 0 then cp_while n body (u32 (playerv + 1)) cp m
        else
          let '(cp, m, brk) := body playerv m in
          if brk then Some ([playerv], cp, m, true)
          else cons_c playerv (cp_while n body (u32 (playerv + 1)) cp m)
      else Some ([], cp, m, false)
  end.
Definition EUDPlayerLoop (n : nat) (body : cbody) (cp : Z) (m : mem) : cresult :=
  let origcp := cp in
  match cp_while n body 0 cp m with Some (t, _, m, b) => Some (t, origcp, m, b) | None => None end.

(* ---------------- userpl.py ---------------- *)
(* 19-20 _f_inituserplayerid *)
Definition inituserplayerid (m : mem) : Z := Z.land (get m (pepd 0x512684)) 0xFF.
(* 106-109 WritePayload: fws are the addresses dest + offset, in the order of the set *)
Definition userp_buffer (fws : list Z) : list Z := map (fun a => u32 (pepd a)) fws ++ [0xFFFFFFFF].
(* 120-126; None: n rounds did not suffice *)
Fixpoint userp_loop (n : nat) (userp ptr : Z) (m : mem) : option mem :=
  match n with
  | O => None
  | S n =>
      let v := get m ptr in
      if v =? 0xFFFFFFFF then Some m else userp_loop n userp (u32 (ptr + 1)) (upd m v userp)
  end.
(* 112-126 _f_initisusercp after _f_inituserplayerid; rb: EPD of the buffer *)
Definition initisusercp (n : nat) (rb : Z) (m : mem) : option mem := userp_loop n (inituserplayerid m) (u32 rb) m.
