(* Tables of the game's texts (stat_txt.tbl).  Source: src/eudplib/string/tblprint.py, lines cited. *)
From Coq Require Import ZArith List Bool.
From Verif Require Import Word Machine BinModel.
Import ListNotations.
Open Scope Z_scope.

(* tbl[a:b] *)
Definition slice (tbl : list Z) (a b : Z) : list Z := firstn (Z.to_nat (b - a)) (skipn (Z.to_nat a) tbl).
(* 166-173: tbl_content of the entries i, i + 1, .. (n of them); None: IndexError *)
Fixpoint contents (tbl : list Z) (count i : nat) (n : nat) : option (list (list Z)) :=
  match n with
  | O => Some []
  | S n =>
      match b2i2 tbl (2 * (i + 1)), b2i2 tbl (2 * (i + 1) + 2), contents tbl count (i + 1) n with
      | Some tbl_start, Some e, Some r =>
          let tbl_end := if Nat.eqb (i + 1) count then Z.of_nat (length tbl) else e in
          Some (slice tbl tbl_start tbl_end :: r)
      | _, _, _ => None
      end
  end.
(* 186: -(-(len(tbl_content) + 3) // 4) * 4 *)
Definition new_tbl_len (c : list Z) : Z := - (- (Z.of_nat (length c) + 3) / 4) * 4.
(* 185, 187-189: the offsets and the texts *)
Fixpoint new_entries (tbl_offset : Z) (cs : list (list Z)) : list Z * list Z :=
  match cs with
  | [] => ([], [])
  | c :: r =>
      let (o, d) := new_entries (tbl_offset + new_tbl_len c) r in
      (i2b2 tbl_offset ++ o, c ++ repeat 0 (Z.to_nat (new_tbl_len c) - length c) ++ d)
  end.
(* 156-199 _AddStatText: the new table (the choice of the encoding is left out) *)
Definition AddStatText (tbl : list Z) : option (list Z) :=
  match b2i2 tbl 0 with
  | None => None
  | Some tbl_count =>
      let n := Z.to_nat tbl_count in
      let even := tbl_count mod 2 =? 0 in
      let tbl_offset := 2 * (tbl_count + 1) + (if even then 2 else 0) in
      match contents tbl n 0 n with
      | None => None
      | Some cs =>
          let (o, d) := new_entries tbl_offset cs in
          Some (i2b2 tbl_count ++ o ++ (if even then [0; 0] else []) ++ d)
      end
  end.

(* EPD of a constant address *)
Definition sepd (a : Z) : Z := (a - 0x58A364) / 4.
(* 31-47 GetTBLAddr: the amounts of check_pointer, add_tblepd and add_tblptr *)
Record tblst := mktblst { check_pointer : Z; add_tblepd : Z; add_tblptr : Z }.
Definition tbl_init : tblst := mktblst 0 0 0.
(* f_dwepdread_epd is C66/C27, f_wread_epd C27, f_div C11 *)
Definition GetTBLAddr (tbl_id : Z) (m : mem) (s : tblst) : Z * tblst :=
  let p := get m (sepd 0x6D5A30) in
  let s := if p =? check_pointer s then s else mktblst p (u32 (sepd p)) p in
  let r := tbl_id / 2 in
  let mo := tbl_id mod 2 in
  let mo := if mo =? 1 then 2 else mo in
  let r := u32 (r + add_tblepd s) in
  let ret := (get m r / 2 ^ (8 * mo)) mod 2 ^ 16 in
  (u32 (ret + add_tblptr s), s).
