(* Scenario file sections. Source: src/eudplib/core/mapdata/chktok.py. *)
From Coq Require Import ZArith List Bool.
From Verif Require Import Dict BinModel.
Import ListNotations.
Open Scope Z_scope.

Definition bytes := list Z.
Definition bytes_dec : forall a b : bytes, {a = b} + {a <> b} := list_eq_dec Z.eq_dec.
(* chktok.py 35 *)
Definition sections := dict bytes bytes.
(* b[i : j] for 0 <= i *)
Definition slice (b : bytes) (i j : Z) : bytes := firstn (Z.to_nat (j - i)) (skipn (Z.to_nat i) b).

(* chktok.py 17-30 on bytes (None: EPError). For str arguments the ASCII
   encoding happens first, which is not modelled. *)
Definition sectionname_format (sn : bytes) : option bytes :=
  if Nat.ltb (length sn) 4 then Some (sn ++ repeat 32 (4 - length sn))
  else if Nat.ltb 4 (length sn) then None else Some sn.

(* outcome of loadchk: what it returned and the sections the object then has *)
Inductive loaded :=
| Returned (ok : bool) (s : sections)
| Raised (s : sections).           (* IndexError from b2i4 *)

(* chktok.py 53-68; every turn advances index by at least 8, so the fuel
   |b| + 1 given by loadchk is never exhausted (loadchk_fuel) *)
Fixpoint load_loop (fuel : nat) (b : bytes) (old : sections) (index : Z) (s : sections) : loaded :=
  match fuel with
  | O => Raised s
  | S f =>
      if index <? Z.of_nat (length b) then
        let sectionname := slice b index (index + 4) in
        match b2i4 b (Z.to_nat (index + 4)) with
        | None => Raised s
        | Some sectionlength =>
            if sectionlength <? 0 then Returned false old
            else
              let section := slice b (index + 8) (index + 8 + sectionlength) in
              load_loop f b old (index + (sectionlength + 8)) (dset bytes_dec sectionname section s)
        end
      else Returned true s
  end.
(* chktok.py 40-68 *)
Definition loadchk (old : sections) (b : bytes) : loaded := load_loop (S (length b)) b old 0 [].

Definition ISOM : bytes := [73; 83; 79; 77].
(* chktok.py 75-88; r is the value of random.randint(0, 0xFFFFFFFF) *)
Definition savechk (s : sections) (r : Z) : bytes :=
  concat (map (fun p => fst p ++ i2b4 (Z.of_nat (length (snd p))) ++ snd p) s ++ [ISOM ++ i2b4 (Z.lor r 0x80000000)]).

(* chktok.py 93-95, 97-99, 101-103 (None: EPError or KeyError) *)
Definition getsection (s : sections) (n : bytes) : option bytes :=
  match sectionname_format n with Some n => dget bytes_dec n s | None => None end.
Definition setsection (s : sections) (n b : bytes) : option sections :=
  match sectionname_format n with Some n => Some (dset bytes_dec n b s) | None => None end.
Definition delsection (s : sections) (n : bytes) : option sections :=
  match sectionname_format n with Some n => ddel bytes_dec n s | None => None end.

(* chktok.py 108-113 *)
Definition used_section : list bytes :=
  [ [86;69;82;32]; [86;67;79;68]; [79;87;78;82]; [69;82;65;32]; [68;73;77;32]; [83;73;68;69]; [77;84;88;77];
    [85;78;73;84]; [84;72;71;50]; [77;65;83;75]; [83;84;82;120]; [85;80;82;80]; [77;82;71;78]; [84;82;73;71];
    [77;66;82;70]; [83;80;82;80]; [70;79;82;67]; [67;79;76;82]; [80;85;78;73]; [80;85;80;120]; [80;84;69;120];
    [85;78;73;120]; [85;80;71;120]; [84;69;67;120]; [67;82;71;66] ].
Definition is_used (n : bytes) : bool := existsb (fun u => if bytes_dec u n then true else false) used_section.
Fixpoint del_all (l : list bytes) (s : sections) : option sections :=
  match l with
  | [] => Some s
  | n :: l' => match ddel bytes_dec n s with Some s' => del_all l' s' | None => None end
  end.
(* chktok.py 105-118 *)
Definition optimize (s : sections) : option sections :=
  del_all (filter (fun n => negb (is_used n)) (keys s)) s.
