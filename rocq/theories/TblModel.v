(* String tables. Sources: src/eudplib/core/mapdata/tblformat.py and
   stringmap.py. Strings are byte strings; the encoding of str arguments is not
   modelled. *)
From Coq Require Import String ZArith List Bool.
From Verif Require Import Dict BinModel ChkModel.
Import ListNotations.
Open Scope Z_scope.

(* tblformat.py 45-47, 50-52; size is 2 or 4 *)
Definition b2in (size : Z) (b : bytes) (i : nat) : option Z := if size =? 2 then b2i2 b i else b2i4 b i.
Definition i2bn (size : Z) (i : Z) : bytes := if size =? 2 then i2b2 i else i2b4 i.
(* tblformat.py 55-56 *)
Definition roundup_by_4 (num : Z) : Z := - ((- num) / 4) * 4.
Definition zlen {A} (l : list A) : Z := Z.of_nat (List.length l).

(* tblformat.py 74-84; an entry of _emptystring is (id, Some next) or (id, None)
   for a bare id; _finalized is left out (operations after finalize raise) *)
Record tbl := mk_tbl {
  datatb : list bytes;
  stringmap : dict bytes nat;
  dataindextb : list nat;
  capacity : Z;
  emptystring : list (nat * option bytes);
  tbl_loaded : bool;
  first_extended : option bytes }.
(* tblformat.py 74-80 *)
Definition new_tbl (se : Z) : tbl := mk_tbl [] [] [] se [] false None.

(* list.index (None: ValueError), list.insert *)
Fixpoint index_of (s : bytes) (l : list bytes) : option nat :=
  match l with
  | [] => None
  | x :: r => if bytes_dec s x then Some O else match index_of s r with Some i => Some (S i) | None => None end
  end.
Definition insert {A} (i : nat) (x : A) (l : list A) : list A := firstn i l ++ x :: skipn i l.
(* l[i] = x (None: IndexError) *)
Fixpoint set_nth {A} (i : nat) (x : A) (l : list A) : option (list A) :=
  match l, i with
  | [], _ => None
  | _ :: r, O => Some (x :: r)
  | a :: r, S j => match set_nth j x r with Some r' => Some (a :: r') | None => None end
  end.

(* tblformat.py 316-320 *)
Definition checked (se : Z) (stringindex : nat) (t : tbl) : option (nat * tbl) :=
  if capacity t <? Z.shiftl 1 (8 * se) then
    if Z.of_nat stringindex <? 65535 then Some (stringindex, t) else None
  else None.
(* tblformat.py 291: the truth value of _first_extended_string *)
Definition truthy (s : option bytes) : bool := match s with Some (_ :: _) => true | _ => false end.
(* tblformat.py 280-322 (None: an exception) *)
Definition AddString (se : Z) (string : bytes) (t : tbl) : option (nat * tbl) :=
  let stringindex := List.length (dataindextb t) in
  match dget bytes_dec string (stringmap t) with
  | Some repr =>
      match nth_error (dataindextb t) repr with
      | None => None
      | Some dataindex =>
          checked se stringindex
            (mk_tbl (datatb t) (stringmap t) (dataindextb t ++ [dataindex]) (capacity t + se)
                    (emptystring t) (tbl_loaded t) (first_extended t))
      end
  | None =>
      match emptystring t, tbl_loaded t && truthy (first_extended t) with
      | (empty, next) :: rest, true =>
          let nextstring := match next with Some n => n | None => match first_extended t with Some f => f | None => [] end end in
          match index_of nextstring (datatb t) with
          | None => None
          | Some dataindex =>
              match set_nth empty dataindex (map (fun v => if Nat.leb dataindex v then S v else v) (dataindextb t)) with
              | None => None
              | Some ix =>
                  checked se empty
                    (mk_tbl (insert dataindex string (datatb t)) (dset bytes_dec string empty (stringmap t)) ix
                            (capacity t + roundup_by_4 (zlen string + 1)) rest (tbl_loaded t) (first_extended t))
              end
          end
      | _, _ =>
          checked se stringindex
            (mk_tbl (datatb t ++ [string]) (dset bytes_dec string stringindex (stringmap t))
                    (dataindextb t ++ [List.length (datatb t)])
                    (capacity t + (roundup_by_4 (zlen string + 1) + se)) (emptystring t) (tbl_loaded t)
                    (match first_extended t with None => Some string | f => f end))
      end
  end.
(* tblformat.py 383-407 *)
Definition ForceAddString (se : Z) (string : bytes) (t : tbl) : option (nat * tbl) :=
  checked se (List.length (dataindextb t))
    (mk_tbl (datatb t ++ [string]) (stringmap t) (dataindextb t ++ [List.length (datatb t)])
            (capacity t + (roundup_by_4 (zlen string + 1) + se)) (emptystring t) (tbl_loaded t) (first_extended t)).
(* tblformat.py 324-332 for index >= 0 *)
Definition GetString (t : tbl) (index : nat) : option bytes :=
  match index with
  | O => None
  | S i => match nth_error (dataindextb t) i with
           | Some dataindex => nth_error (datatb t) dataindex
           | None => None
           end
  end.
(* tblformat.py 334-341 *)
Definition GetStringIndex (se : Z) (string : bytes) (t : tbl) : option (nat * tbl) :=
  match dget bytes_dec string (stringmap t) with
  | Some i => Some (S i, t)
  | None => match AddString se string t with Some (i, t') => Some (S i, t') | None => None end
  end.

(* tblformat.py 347-355 *)
Fixpoint stroffsets (outindex : Z) (d : list bytes) : list Z :=
  match d with
  | [] => []
  | s :: r => outindex :: stroffsets (outindex + roundup_by_4 (zlen s + 1)) r
  end.
Definition zeros (n : Z) : bytes := repeat 0 (Z.to_nat n).
(* tblformat.py 343-376 *)
Definition save_tbl (se : Z) (t : tbl) : bytes :=
  let offs := stroffsets (roundup_by_4 (se * zlen (dataindextb t) + se)) (datatb t) in
  let tablesize := se * (zlen (dataindextb t) + 1) in
  i2bn se (zlen (dataindextb t)) ++
  concat (map (fun d => i2bn se (nth d offs 0)) (dataindextb t)) ++
  zeros (roundup_by_4 tablesize - tablesize) ++
  concat (map (fun s => s ++ zeros (roundup_by_4 (zlen s + 1) - zlen s)) (datatb t)).

(* tblformat.py 108-112, 118-121, 226-229: the bytes up to the next NUL (None:
   IndexError) *)
Fixpoint upto_nul (b : bytes) : option bytes :=
  match b with
  | [] => None
  | c :: r => if c =? 0 then Some [] else match upto_nul r with Some s => Some (c :: s) | None => None end
  end.
Definition string_at (b : bytes) (off : Z) : option bytes := upto_nul (skipn (Z.to_nat off) b).
Definition entry (le : Z) (content : bytes) (i : nat) : option bytes :=
  match b2in le content (i * Z.to_nat le) with Some off => string_at content off | None => None end.
(* tblformat.py 114-126, 220-241: the entry of _emptystring for id i - 1; js are
   the ids that follow. None: IndexError. The set of skipped ids is empty in
   load_tbl; recode j is applied to the next string in load_tbl_with_chk *)
Fixpoint find_next (le : Z) (content : bytes) (skip : nat -> bool) (recode : nat -> bytes -> bytes) (js : list nat) : option (option bytes) :=
  match js with
  | [] => Some None
  | j :: r =>
      if skip j then find_next le content skip recode r
      else match entry le content j with
           | None => None
           | Some [] => find_next le content skip recode r
           | Some s => Some (Some (recode j s))
           end
  end.
Definition push_empty (e : nat * option bytes) (t : tbl) : tbl :=
  mk_tbl (datatb t) (stringmap t) (dataindextb t) (capacity t) (emptystring t ++ [e]) (tbl_loaded t) (first_extended t).
Definition set_loaded (t : tbl) : tbl :=
  mk_tbl (datatb t) (stringmap t) (dataindextb t) (capacity t) (emptystring t) true (first_extended t).

(* tblformat.py 105-127 from id i on *)
Fixpoint load_loop_tbl (se le : Z) (content : bytes) (is : list nat) (t : tbl) : option tbl :=
  match is with
  | [] => Some t
  | i :: r =>
      match entry le content i with
      | None => None
      | Some string =>
          match (match string with
                 | [] => match find_next le content (fun _ => false) (fun _ s => s) r with
                         | Some e => Some (push_empty (pred i, e) t)
                         | None => None
                         end
                 | _ => Some t
                 end) with
          | None => None
          | Some t1 =>
              match AddString se string t1 with
              | Some (_, t2) => load_loop_tbl se le content r t2
              | None => None
              end
          end
      end
  end.
(* tblformat.py 92-128 on a new table *)
Definition load_tbl (se le : Z) (content : bytes) : option tbl :=
  match b2in le content 0 with
  | None => None
  | Some stringcount =>
      match load_loop_tbl se le content (seq 1 (Z.to_nat stringcount)) (new_tbl se) with
      | Some t => Some (set_loaded t)
      | None => None
      end
  end.

(* ---------- names of locations, switches and units ---------- *)
(* stringmap.py 13-22; a value None marks an ambiguous string *)
Definition idmap := dict bytes (option nat).
Definition add_item (string : bytes) (strid : nat) (m : idmap) : idmap :=
  match dget bytes_dec string m with
  | Some _ => dset bytes_dec string None m
  | None => dset bytes_dec string (Some strid) m
  end.
(* stringmap.py 24-37 (None: KeyError) *)
Definition idmap_get (string : bytes) (m : idmap) : option nat :=
  match dget bytes_dec string m with Some (Some i) => Some i | _ => None end.

(* tblformat.py 163-168, 171-175, 178-182: string id -> number of the item; rd
   reads the string id of an item. None: IndexError *)
Fixpoint iddict (rd : nat -> option Z) (is : list nat) (d : dict Z nat) : option (dict Z nat) :=
  match is with
  | [] => Some d
  | i :: r =>
      match rd i with
      | None => None
      | Some strid => iddict rd r (if strid =? 0 then d else dset Z.eq_dec strid i d)
      end
  end.
(* tblformat.py 186-196 *)
Fixpoint nonzero_ids (rd : nat -> option Z) (is : list nat) : option (list Z) :=
  match is with
  | [] => Some []
  | i :: r =>
      match rd i, nonzero_ids rd r with
      | Some strid, Some l => Some (if strid =? 0 then l else strid :: l)
      | _, _ => None
      end
  end.
(* tblformat.py 31-42 *)
Definition is_color (x : Z) : bool := ((1 <=? x) && (x <=? 0x1F)) || (x =? 0x7F).
Definition ignore_color (s : bytes) : option bytes :=
  if existsb is_color s then Some (filter (fun x => negb (is_color x)) s) else None.
Definition has {A} (i : Z) (d : dict Z A) : bool := match dget Z.eq_dec i d with Some _ => true | None => false end.
Definition idmap_add (d : dict Z nat) (i : nat) (s : bytes) (m : idmap) : idmap :=
  match dget Z.eq_dec (Z.of_nat i) d with Some k => add_item s k m | None => m end.

Record maps := mk_maps { unitmap : idmap; locmap : idmap; swmap : idmap }.
Section Load.
Context (se le : Z).
(* the re-encoding of unit names chosen with DecodeUnitNameAs: the identity by
   default and when decoding fails (tblformat.py 231-237, 245-251) *)
Context (reenc : bytes -> bytes).
Context (unitdict locdict swnmdict : dict Z nat) (reserved : list Z).
Definition recode_unit (j : nat) (s : bytes) : bytes := if has (Z.of_nat j) unitdict then reenc s else s.
(* tblformat.py 200 *)
Definition removed (j : nat) : bool :=
  let z := Z.of_nat j in
  (has z locdict || has z swnmdict) && negb (has z unitdict || existsb (Z.eqb z) reserved).
(* tblformat.py 205-218: None: IndexError from reading the offset; Some None:
   invalid offset; a missing terminator ends the string at the end of content *)
Definition lenient_entry (content : bytes) (i : nat) : option (option bytes) :=
  match b2in le content (i * Z.to_nat le) with
  | None => None
  | Some off =>
      match string_at content off with
      | Some s => Some (Some s)
      | None => match skipn (Z.to_nat off) content with [] => Some None | s => Some (Some s) end
      end
  end.
(* tblformat.py 243-259 *)
Definition add_names (i : nat) (s : bytes) (m : maps) : maps :=
  match s with
  | [] => m
  | _ =>
      let u := idmap_add unitdict i s (unitmap m) in
      let u := match ignore_color s with Some (c :: r) => idmap_add unitdict i (c :: r) u | _ => u end in
      mk_maps u (idmap_add locdict i s (locmap m)) (idmap_add swnmdict i s (swmap m))
  end.
(* tblformat.py 203-264 from id i on *)
Fixpoint load_loop_chk (content : bytes) (is : list nat) (t : tbl) (m : maps) : option (tbl * maps) :=
  match is with
  | [] => Some (t, m)
  | i :: r =>
      match lenient_entry content i with
      | None => None
      | Some None => load_loop_chk content r t m
      | Some (Some string) =>
          match (if (match string with [] => true | _ => false end) || removed i then
                   match find_next le content removed recode_unit r with
                   | Some e => Some (push_empty (pred i, e) t)
                   | None => None
                   end
                 else Some t) with
          | None => None
          | Some t1 =>
              let string := match string with [] => [] | _ => recode_unit i string end in
              let m1 := add_names i string m in
              match AddString se (if removed i then [] else string) t1 with
              | Some (_, t2) => load_loop_chk content r t2 m1
              | None => None
              end
          end
      end
  end.
End Load.
Definition bytes_of (s : string) : bytes := map (fun c => Z.of_nat (Ascii.nat_of_ascii c)) (list_ascii_of_string s).
(* tblformat.py 143-201 and 265; None: an exception. An absent SWNM or MRGN
   section is allowed, the others are required *)
Definition load_tbl_with_chk (se le : Z) (reenc : bytes -> bytes) (chkt : sections) (content : bytes) : option (tbl * maps) :=
  let opt n := match getsection chkt (bytes_of n) with Some b => b | None => [] end in
  match getsection chkt (bytes_of "UNIx"), getsection chkt (bytes_of "SPRP"), getsection chkt (bytes_of "FORC") with
  | Some unix, Some sprp, Some forc =>
      let mrgn := opt "MRGN"%string in
      let swnm := opt "SWNM"%string in
      let some_len (b : bytes) (n : nat) := match b with [] => O | _ => n end in
      match iddict (fun i => b2i2 mrgn (20 * i + 16)) (seq 0 (Z.to_nat (zlen mrgn / 20))) [],
            iddict (fun i => b2i4 swnm (4 * i)) (seq 0 (some_len swnm 256%nat)) [],
            iddict (fun i => b2i2 unix (3192 + i * 2)) (seq 0 (some_len unix 228%nat)) [],
            nonzero_ids (fun i => b2i2 sprp (i * 2)) (seq 0 (some_len sprp 2%nat)),
            nonzero_ids (fun i => b2i2 forc (8 + i * 2)) (seq 0 (some_len forc 4%nat)),
            b2in le content 0 with
      | Some locdict, Some swnmdict, Some unitdict, Some r1, Some r2, Some stringcount =>
          match load_loop_chk se le reenc unitdict locdict swnmdict (r1 ++ r2) content
                  (seq 1 (Z.to_nat stringcount)) (new_tbl se) (mk_maps [] [] []) with
          | Some (t, m) => Some (set_loaded t, m)
          | None => None
          end
      | _, _, _, _, _, _ => None
      end
  | _, _, _ => None
  end.
