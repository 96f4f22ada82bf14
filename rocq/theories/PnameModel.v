(* Comparison of player names.  Source: src/eudplib/string/pname.py, lines cited.  Characters are their code points. *)
From Coq Require Import ZArith List Bool.
From Verif Require Import Word Machine MachineProofs EpdModel.
Import ListNotations.
Open Scope Z_scope.

(* 51-53 append_cmp; stockcond.py 350-354 MemoryX *)
Definition append_cmp (src val mask : Z) : cond := CondMX (EPD_const (src - src mod 4)) Exactly val mask.
(* 55-63: the loop over the characters and the last comparison *)
Fixpoint cmp_loop (src val mask : Z) (seq : list Z) : list cond :=
  match seq with
  | [] => if mask =? 0 then [] else [append_cmp src val mask]
  | char :: r =>
      let lsh := 8 * (src mod 4) in
      let val := val + Z.shiftl char lsh in
      let mask := mask + Z.shiftl 0xFF lsh in
      if src mod 4 =? 3 then append_cmp src val mask :: cmp_loop (src + 1) 0 0 r
      else cmp_loop (src + 1) val mask r
  end.
(* 44-64 compare_sequence *)
Definition compare_sequence (src : Z) (seq : list Z) : list cond := cmp_loop src 0 0 (seq ++ [0]).
(* 97-103 IsPName for a constant player and a constant name *)
Definition IsPName (p : Z) (name : list Z) : list cond := compare_sequence (0x57EEEB + 36 * p) name.
(* 31, 35-42 _get_player_lightvar: PLVarUnit, PLVarMask, and the next values *)
Definition plv_init : Z * Z := (- ((- (0x58F500 - 0x58A364)) / 48), 0).
Definition get_player_lightvar (s : Z * Z) : (Z * Z) * (Z * Z) :=
  let ret := (fst s, Z.shiftl 1 (snd s)) in
  let k := snd s + 1 in
  (ret, if 32 <=? k then (fst s + 1, 0) else (fst s, k)).
