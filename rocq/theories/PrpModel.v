(* Unit property slots. Sources: src/eudplib/core/mapdata/unitprp.py and
   proptable.py. *)
From Coq Require Import ZArith List Bool.
From Verif Require Import Dict BinModel ChkModel.
Import ListNotations.
Open Scope Z_scope.

(* the ten fields of "<HHBBBBIHHI" (unitprp.py 141); x0 .. x9 *)
Record prp := mk_prp { x0 : Z; x1 : Z; x2 : Z; x3 : Z; x4 : Z; x5 : Z; x6 : Z; x7 : Z; x8 : Z; x9 : Z }.
(* struct.unpack_from (None: struct.error) *)
Definition unpack (b : bytes) (i : nat) : option prp :=
  match b2i2 b i, b2i2 b (i + 2), b2i1 b (i + 4), b2i1 b (i + 5), b2i1 b (i + 6), b2i1 b (i + 7),
        b2i4 b (i + 8), b2i2 b (i + 12), b2i2 b (i + 14), b2i4 b (i + 16) with
  | Some a, Some b, Some c, Some d, Some e, Some f, Some g, Some h, Some j, Some k => Some (mk_prp a b c d e f g h j k)
  | _, _, _, _, _, _, _, _, _, _ => None
  end.
(* struct.pack; the fields are in range here *)
Definition pack (x : prp) : bytes :=
  i2b2 (x0 x) ++ i2b2 (x1 x) ++ i2b1 (x2 x) ++ i2b1 (x3 x) ++ i2b1 (x4 x) ++ i2b1 (x5 x) ++
  i2b4 (x6 x) ++ i2b2 (x7 x) ++ i2b2 (x8 x) ++ i2b4 (x9 x).

(* "v &= ~m" when a condition holds, else v *)
Definition clear_if (b : bool) (v m : Z) : Z := if b then Z.land v (Z.lnot m) else v.
Definition off (v m : Z) : bool := Z.land v m =? 0.
(* unitprp.py 143-191 *)
Definition canon (x : prp) : prp :=
  let f0 := Z.land (x0 x) 31 in
  let f1 := Z.land (x1 x) 63 in
  let f8 := Z.land (x8 x) 31 in
  let f1 := clear_if (x3 x =? 100) f1 2 in
  let f1 := clear_if (x4 x =? 100) f1 4 in
  let f1 := clear_if (x7 x =? 0) f1 32 in
  let f3 := if off f1 2 then 0 else x3 x in
  let f4 := if off f1 4 then 0 else x4 x in
  let f5 := if off f1 8 then 0 else x5 x in
  let f6 := if off f1 16 then 0 else x6 x in
  let f7 := if off f1 32 then 0 else x7 x in
  let f0 := clear_if (off f8 1) f0 1 in
  let f0 := clear_if (off f8 2) f0 2 in
  let f0 := clear_if (off f8 4) f0 4 in
  let f0 := clear_if (off f8 8) f0 8 in
  let f0 := clear_if (off f8 16) f0 16 in
  let f8 := clear_if (off f0 1) f8 1 in
  let f8 := clear_if (off f0 2) f8 2 in
  let f8 := clear_if (off f0 4) f8 4 in
  let f8 := clear_if (off f0 8) f8 8 in
  let f8 := clear_if (off f0 16) f8 16 in
  mk_prp f0 f1 0 f3 f4 f5 f6 f7 f8 0.
(* unitprp.py 140-193 *)
Definition property_key (b : bytes) (i : nat) : option bytes :=
  match unpack b i with Some x => Some (pack (canon x)) | None => None end.

(* proptable.py 12-13; a slot holding b"" is free *)
Record prptable := mk_prptable { uprpdict : dict bytes nat; uprptable : list bytes }.
Fixpoint list_set {A} (i : nat) (x : A) (l : list A) : list A :=
  match l, i with
  | [], _ => []
  | _ :: r, O => x :: r
  | a :: r, S i => a :: list_set i x r
  end.
(* proptable.py 29-34 *)
Fixpoint init_loop (is : list nat) (uprp upus : bytes) (t : prptable) : option prptable :=
  match is with
  | [] => Some t
  | i :: r =>
      match nth_error upus i with
      | None => None
      | Some u =>
          if u =? 0 then init_loop r uprp upus t
          else match property_key uprp (20 * i) with
               | None => None
               | Some k => init_loop r uprp upus
                             (mk_prptable (dset bytes_dec k i (uprpdict t)) (list_set i k (uprptable t)))
               end
      end
  end.
(* proptable.py 16-34; upus = None: the map has no UPUS section *)
Definition init_property_map (uprp : bytes) (upus : option bytes) : option prptable :=
  init_loop (seq 0 64) uprp (match upus with Some u => u | None => repeat 1 64 end)
    (mk_prptable [] (repeat [] 64)).
(* proptable.py 48-54 *)
Fixpoint find_free (is : list nat) (tb : list bytes) : option nat :=
  match is with
  | [] => None
  | i :: r => match nth_error tb i with Some [] => Some i | _ => find_free r tb end
  end.
(* proptable.py 37-58 on the 20 bytes of a property (None: an exception) *)
Definition GetPropertyIndex (prop : bytes) (t : prptable) : option (nat * prptable) :=
  match property_key prop 0 with
  | None => None
  | Some k =>
      match dget bytes_dec k (uprpdict t) with
      | Some i => Some (i + 1, t)%nat
      | None =>
          match find_free (seq 0 64) (uprptable t) with
          | None => None
          | Some i => Some (i + 1, mk_prptable (dset bytes_dec k i (uprpdict t)) (list_set i k (uprptable t)))%nat
          end
      end
  end.
(* proptable.py 61-63 *)
Definition apply_property_map (t : prptable) : bytes :=
  concat (map (fun d => match d with [] => repeat 0 20 | _ => d end) (uprptable t)).
