(* Files added to the output archive. Source: src/eudplib/maprw/mpqadd.py.
   Names are ASCII strings, as lists of codes. *)
From Coq Require Import ZArith List Bool.
From Verif Require Import Dict ChkModel.
Import ListNotations.
Open Scope Z_scope.

Definition name := list Z.
(* ntpath.normcase as Python defines it off Windows: "/" becomes "\", then lower() *)
Definition lower (c : Z) : Z := if (65 <=? c) && (c <=? 90) then c + 32 else c.
Definition normcase (n : name) : name := map (fun c => lower (if c =? 47 then 92 else c)) n.

Section Mpq.
(* ntpath.normpath followed by the encoding u2b; any function will do *)
Context (normpath : name -> name).
(* contents are abstract *)
Context {content : Type}.
(* mpqadd.py 13 *)
Definition added := dict name (name * option content).

(* mpqadd.py 33-49 (None: EPError) *)
Definition MPQCheckFile (fname : name) (a : added) : option name :=
  let key := normpath (normcase fname) in
  match dget bytes_dec key a with Some _ => None | None => Some key end.
(* mpqadd.py 52-79; the type check of the content and is_wav are left out *)
Definition MPQAddFile (fname : name) (c : option content) (a : added) : option added :=
  match MPQCheckFile fname a with
  | Some key => Some (dset bytes_dec key (fname, c) a)
  | None => None
  end.
Fixpoint add_files (l : list (name * option content)) (a : added) : option added :=
  match l with
  | [] => Some a
  | (n, c) :: l' => match MPQAddFile n c a with Some a' => add_files l' a' | None => None end
  end.
(* staredit\scenario.chk and (listfile) *)
Definition scenario : name := [115;116;97;114;101;100;105;116;92;115;99;101;110;97;114;105;111;46;99;104;107].
Definition listfile : name := [40;108;105;115;116;102;105;108;101;41].
(* mpqadd.py 16-30; None as argument: the archive has no listfile *)
Definition update_filelist_by_listfile (flist : option (list name)) : option added :=
  let l := match flist with Some (x :: r) => x :: r | _ => [scenario; listfile] end in
  add_files (map (fun n => (n, None)) l) [].

(* The archive: StormLib compares names without regard to ASCII case and to the
   kind of slash; add_file is called with replace_existing = true
   (src/rust/src/mpqapi.rs 39-49). StormLib itself is not part of the repository. *)
Definition archive := list (name * content).
Definition same_file (a b : name) : bool := if bytes_dec (normcase a) (normcase b) then true else false.
Fixpoint archive_get (n : name) (A : archive) : option content :=
  match A with
  | [] => None
  | (m, c) :: r => if same_file n m then Some c else archive_get n r
  end.
Fixpoint archive_add (n : name) (c : content) (A : archive) : archive :=
  match A with
  | [] => [(n, c)]
  | (m, d) :: r => if same_file n m then (n, c) :: r else (m, d) :: archive_add n c r
  end.
(* mpqadd.py 93-128: contents are taken as read; temporary files and the file
   count limit are left out *)
Fixpoint update_mpq (a : list (name * (name * option content))) (A : archive) : archive :=
  match a with
  | [] => A
  | (_, (_, None)) :: r => update_mpq r A
  | (_, (fname, Some c)) :: r => update_mpq r (archive_add fname c A)
  end.
End Mpq.
