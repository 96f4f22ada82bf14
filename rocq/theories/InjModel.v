(* Start-up relocation of the payload.
   Source: src/eudplib/maprw/injector/vector_reloc.py, payload_reloc.py *)
From Coq Require Import ZArith List Bool.
From Verif Require Import Word Machine MachineProofs VarModel MathModel MachineRefine.
Import ListNotations.
Open Scope Z_scope.

(* ---- vector_reloc.py 60-207: the sled in the string section and the two triggers in
   the location (MRGN) section. Triggers are given as the machine reads them; the
   byte layout of tt.Trigger is not repeated here. Memory cells that the code itself
   changes at run time are operands [Mem]. ---- *)
(* 86: mrgn = 0x58DC60, 93: mrgn_ort = mrgn + 836, as EPD indices; 87: packn *)
Definition mrgn : Z := (0x58DC60 - 0x58A364) / 4.
Definition mrgn_ort : Z := mrgn + 209.
Definition packn : nat := 15.
(* the cell mrgn + 328 + 32 * j + 16, player of action j; mrgn + 4, next pointer *)
Definition plc (B : Z) (j : nat) : Z := B + 86 + 8 * Z.of_nat j.
Definition nxc (B : Z) : Z := B + 1.

(* 101-103, 122-124: pieces of packn entries, divided by 4, filled up with -1 *)
Definition fill (l : list Z) : list Z := map (fun x => x / 4) l ++ repeat (-1) (packn - length l).
Fixpoint pieces (fuel : nat) (l : list Z) : list (list Z) :=
  match fuel, l with
  | S f, _ :: _ => fill (firstn packn l) :: pieces f (skipn packn l)
  | _, _ => []
  end.
Definition table_pieces (l : list Z) : list (list Z) := pieces (length l) l.
Definition noprev : list Z := repeat (-1) packn.
(* 100, 104-116 and 121, 125-137 *)
Definition sled_trig (B : Z) (prevoffset piece : list Z) : trig :=
  mktrig [] (map (fun j => SetM (plc B j) Add (nth j piece 0 - nth j prevoffset 0)) (seq 0 packn)) (Imm (pa B)) (Imm 4).
Fixpoint sled_trigs (B : Z) (prevoffset : list Z) (ps : list (list Z)) : list trig :=
  match ps with [] => [] | p :: r => sled_trig B prevoffset p :: sled_trigs B p r end.
(* 139-154 *)
Definition sled_last (prevoffset : list Z) : trig :=
  mktrig [] (map (fun j => SetM (plc mrgn_ort j) Add (0xFFFFFFFF - nth j prevoffset 0)) (seq 0 packn) ++ [SetM (nxc mrgn_ort) Add 4])
         (Imm (pa mrgn_ort)) (Imm 4).
Definition sled (prttable orttable : list Z) : list trig :=
  sled_trigs mrgn noprev (table_pieces prttable) ++ sled_trigs mrgn_ort noprev (table_pieces orttable) ++
  [sled_last (last (table_pieces orttable) noprev)].
(* 158-160: where things are; len: length of the string section without the sled *)
Definition strsled_offset (len : Z) : Z := len + (- len) mod 4 + 0x191943C8.
Definition payload_offset (len : Z) (prttable orttable : list Z) : Z :=
  strsled_offset len + 2408 * Z.of_nat (length (sled prttable orttable)) + 4.
(* 174-187 and 188-199: run-time triggers; the cells start at the values of [mrgn_init] *)
Definition mrgn_trig (B v : Z) : trig :=
  mktrig [] (map (fun j => SetD (Mem (plc B j)) Add (Imm v)) (seq 0 packn) ++ [SetM (nxc B) Add 2408]) (Mem (nxc B)) (Imm 4).
Record mrgn_init (len : Z) (prttable orttable : list Z) (m : mem) : Prop := mkmi {
  mi_next1 : get m (nxc mrgn) = strsled_offset len;
  mi_next2 : get m (nxc mrgn_ort) = strsled_offset len + 2408 * Z.of_nat (length (table_pieces prttable));
  mi_pl : forall B j, B = mrgn \/ B = mrgn_ort -> (j < packn)%nat -> get m (plc B j) = epd_of (payload_offset len prttable orttable - 4) }.

(* ---- the same triggers as dwords, little endian ---- *)
(* trigtrg.py 712-718, 824-825, 177-213: tt.SetMemory(.., Add, ..) at EPD pl *)
Definition act_img (a : Z * Z) : list Z := [0; 0; 0; 0; u32 (fst a); u32 (snd a); 45 * 2^16 + 8 * 2^24; 20].
(* trigtrg.py 216-244 with players = [AllPlayers] (byte 17), no conditions, preceded by the
   eight header bytes of vector_reloc.py 94-95, 106, 127, 141, 175-176, 189-190 *)
Definition trig_img (next : Z) (acts : list (Z * Z)) : list Z :=
  [0; u32 next] ++ repeat 0 80 ++ concat (map act_img acts) ++ repeat 0 (8 * (64 - length acts)) ++ [4; 0; 0; 0; 0; 256; 0; 0].
Definition sled_acts (B : Z) (prevoffset piece : list Z) : list (Z * Z) :=
  map (fun j => (plc B j, nth j piece 0 - nth j prevoffset 0)) (seq 0 packn).
Fixpoint sled_imgs (B : Z) (prevoffset : list Z) (ps : list (list Z)) : list (list Z) :=
  match ps with [] => [] | p :: r => trig_img (pa B) (sled_acts B prevoffset p) :: sled_imgs B p r end.
Definition last_acts (prevoffset : list Z) : list (Z * Z) :=
  map (fun j => (plc mrgn_ort j, 0xFFFFFFFF - nth j prevoffset 0)) (seq 0 packn) ++ [(nxc mrgn_ort, 4)].
(* 156: b"".join(str_sled) *)
Definition sled_img (prttable orttable : list Z) : list Z :=
  concat (sled_imgs mrgn noprev (table_pieces prttable) ++ sled_imgs mrgn_ort noprev (table_pieces orttable) ++
          [trig_img (pa mrgn_ort) (last_acts (last (table_pieces orttable) noprev))]).
(* 174-202: the two triggers, 209 dwords apart, combined with exclusive or *)
Definition mrgn_acts (B pl v : Z) : list (Z * Z) := repeat (pl, v) packn ++ [(nxc B, 2408)].
Fixpoint xors (a b : list Z) : list Z :=
  match a, b with x :: a', y :: b' => Z.lxor x y :: xors a' b' | _, _ => [] end.
Definition mrgn_img (next1 next2 pl v1 v2 : Z) : list Z :=
  xors (trig_img next1 (mrgn_acts mrgn pl v1) ++ repeat 0 209)
       (repeat 0 209 ++ trig_img next2 (mrgn_acts mrgn_ort pl v2)).
Definition mrgn_section (len : Z) (prttable orttable : list Z) : list Z :=
  let po := payload_offset len prttable orttable in
  mrgn_img (strsled_offset len) (strsled_offset len + 2408 * Z.of_nat (length (table_pieces prttable)))
           (epd_of (po - 4)) (po / 4) po.

(* ---- payload_reloc.py 33-65: the second relocation, for a payload inside a payload.
   Variable level: a loop over a table in memory, from the last entry to the first.
   db: EPD of the table, base: EPD of the payload, v: orig_payload // 4 or orig_payload ---- *)
Fixpoint reloc_loop (fuel : nat) (n db base v : Z) (m : mem) : option mem :=
  match fuel with
  | O => None
  | S f =>
    if 1 <=? n then
      let n := u32 (n + (db - 1)) in
      let epd := get m n in
      let n := sub_sat n (u32 db) in
      let epd := u32 (epd + base) in
      reloc_loop f n db base v (upd m epd (u32 (get m epd + v)))
    else Some m
  end.
Definition payload_reloc (fuel : nat) (nprt nort : nat) (prtdb ortdb orig_payload : Z) (m : mem) : option mem :=
  match (if Nat.eqb nprt 0 then Some m else reloc_loop fuel (Z.of_nat nprt) prtdb (epd_of orig_payload) (orig_payload / 4) m) with
  | Some m => if Nat.eqb nort 0 then Some m else reloc_loop fuel (Z.of_nat nort) ortdb (epd_of orig_payload) orig_payload m
  | None => None
  end.
