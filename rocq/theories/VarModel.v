(* Variables and the code generators VProc, SeqCompute, NonSeqCompute.
   Source: src/eudplib/core/variable/{eudv,vbuf,eudxv,evcommon}.py *)
From Coq Require Import ZArith List Bool.
From Verif Require Import Word Machine MachineProofs.
Import ListNotations.
Open Scope Z_scope.

(* byte address of the dword with EPD index e (inverse of utils/etc.py EPD) *)
Definition pa (e : Z) : Z := u32 (0x58A364 + 4 * e).

(* A variable is identified with the EPD index of its variable trigger.
   eudv.py 124-142 (getMaskAddr +328, getDestAddr +344, getValueAddr +348),
   252-258 (modifier dword +352), and the next pointer at +4. *)
Inductive vfield := FNext | FMask | FDest | FVal | FMod.
Definition foff (f : vfield) : Z :=
  match f with FNext => 1 | FMask => 82 | FDest => 86 | FVal => 87 | FMod => 88 end.
Definition vc (v : Z) (f : vfield) : Z := v + foff f.

(* vbuf.py 72-105: a variable trigger has no condition, one masked SetDeaths
   whose mask, destination, value and modifier are run-time data, and flags 4.
   Bytes 28..31 of the action are 00 00 'S' 'C'. *)
Definition vtrig (v : Z) : trig :=
  mktrig [] [mkact (Mem (vc v FMask)) (Mem (vc v FDest)) (Mem (vc v FVal)) (Mem (vc v FMod)) (Imm 0x43530000)]
         (Mem (vc v FNext)) (Imm 4).

(* rawtriggerdef.py 60-160: a trigger emitted into the current scope.
   triggerscope.py: without explicit nextptr it continues at the next emitted
   trigger. Emitted triggers are numbered; [T k] is the EPD index at which the
   k-th one is placed. *)
Definition lbl (T : nat -> Z) (k : nat) : Z := pa (T k).
Definition RawTrig (cs : list cond) (acts : list act) (nextptr : Z) : trig :=
  mktrig cs acts (Imm nextptr) (Imm 4).

(* eudv.py 203-225 SetDest; stockact.py 867-868 SetNextPtr; eudv.py 252-258 SetModifier *)
Definition SetDest (v d : Z) : act := SetM (vc v FDest) SetTo d.
Definition SetNextPtr (v p : Z) : act := SetM (vc v FNext) SetTo p.
Definition SetModifier (v : Z) (md : modifier) : act :=
  SetMX (vc v FMod) SetTo (enc_mod md * 2^24) 0xFF000000.

(* ---------------- VProc, eudv.py 666-685 ---------------- *)
Fixpoint vproc_links (vs : list Z) (fin : Z) : list act :=
  match vs with
  | [] => []
  | [v] => [SetNextPtr v fin]
  | v :: ((w :: _) as r) => SetNextPtr v (pa w) :: vproc_links r fin
  end.

(* [acts] cut in triggers of 64; the last one jumps to the first variable *)
Fixpoint chunk64 (n : nat) (acts : list act) : list (list act) :=
  match n with
  | O => []
  | S n' => match acts with [] => [] | _ => firstn 64 acts :: chunk64 n' (skipn 64 acts) end
  end.
Fixpoint chain_trigs (T : nat -> Z) (k : nat) (l : list (list act)) (fin : Z) : list trig :=
  match l with
  | [] => []
  | [a] => [RawTrig [] a fin]
  | a :: r => RawTrig [] a (lbl T (S k)) :: chain_trigs T (S k) r fin
  end.
Definition chunks (acts : list act) : list (list act) := chunk64 (S (length acts)) acts.

Definition VProc (T : nat -> Z) (k : nat) (vs : list Z) (acts : list act) : list trig :=
  (* number of emitted triggers does not depend on addresses *)
  let n := length (chunks (acts ++ vproc_links vs 0)) in
  chain_trigs T k (chunks (acts ++ vproc_links vs (lbl T (k + n)))) (pa (hd 0 vs)).

(* ---------------- SeqCompute ---------------- *)
(* Destination of an assignment after EncodePlayer/unProxy (eudv.py 825-826):
   a variable, a Python int, or an address expression with a given value. *)
Inductive dst := DVar (v : Z) | DInt (z : Z) | DExpr (z : Z).
(* eudv.py 696-700, _get_computedest *)
Definition dst_epd (d : dst) : Z :=
  match d with DVar v => vc v FVal | DInt z => z | DExpr z => z end.
(* Python truth value of the computed destination: only the int 0 is false *)
Definition truthy (d : dst) : bool := match d with DInt z => negb (z =? 0) | _ => true end.

Inductive src := SConst (c : Z) | SVar (v : Z).
(* (dst, modifier or None, src) *)
Definition pair := (dst * option modifier * src)%type.

(* what a variable's next pointer was last made to refer to *)
Inductive nxt := NVar (v : Z) | NEnd.

(* _srcdict of _seqcompute_sub: src -> (dst, mdt, nextptr) *)
Definition dict := list (Z * (option dst * option modifier * nxt)).
Fixpoint lookup {A} (v : Z) (d : list (Z * A)) : option A :=
  match d with
  | [] => None
  | (w, e) :: r => if w =? v then Some e else lookup v r
  end.

Definition mod_eqb (a b : modifier) : bool :=
  match a, b with SetTo, SetTo | Add, Add | Subtract, Subtract => true | _, _ => false end.
Definition omod_eqb (a b : option modifier) : bool :=
  match a, b with Some x, Some y => mod_eqb x y | None, None => true | _, _ => false end.

Section Seq.
(* Python object identity ("is") of two computed destinations; the only fact
   used about it is that identical objects have the same value. *)
Variable same : dst -> dst -> bool.
(* identity of two user-level destinations, used only to estimate sizes *)
Variable same_u : dst -> dst -> bool.

Definition odst_same (a : dst) (b : option dst) : bool :=
  match b with Some y => same a y | None => false end.

(* eudv.py 743-766, remove_duplicate_actions, for (src, dst, mdt) followed by
   [nx]; [fin] is the address of the next trigger *)
Definition nxt_addr (fin : Z) (n : nxt) : Z := match n with NVar w => pa w | NEnd => fin end.
Definition nxt_is (n : nxt) (prev : option nxt) : bool :=
  match n, prev with NVar v, Some (NVar w) => v =? w | _, _ => false end.

Definition pair_acts (fin : Z) (v : Z) (d : dst) (md : option modifier) (nx : nxt) (dc : dict)
  : list act * dict :=
  let '(pd, pm, pn) := match lookup v dc with
                       | Some (a, b, c) => (a, b, Some c)
                       | None => (None, None, None) end in
  ((if negb (odst_same d pd) && truthy d then [SetDest v (dst_epd d)] else [])
   ++ (match md with
       | Some x => if negb (omod_eqb md pm) then [SetModifier v x] else []
       | None => [] end)
   ++ (if nxt_is nx pn then [] else [SetNextPtr v (nxt_addr fin nx)]),
   (v, (if truthy d then Some d else pd, match md with Some _ => md | None => pm end, nx)) :: dc).

(* eudv.py 768-779: variable pairs in order *)
Fixpoint var_acts (fin : Z) (l : list (dst * option modifier * Z)) (dc : dict) : list act * dict :=
  match l with
  | [] => ([], dc)
  | (d, md, v) :: r =>
      let nx := match r with (_, _, w) :: _ => NVar w | [] => NEnd end in
      let '(a, dc') := pair_acts fin v d md nx dc in
      let '(b, dc'') := var_acts fin r dc' in
      (a ++ b, dc'')
  end.

(* eudv.py 718-729: leading constant pairs. SetDeaths with modifier None raises
   in EncodeModifier; not modelled (stated as a hypothesis where used). *)
Fixpoint const_acts (l : list (dst * option modifier * Z)) : list act :=
  match l with
  | [] => []
  | (d, md, c) :: r =>
      SetM (dst_epd d) (match md with Some x => x | None => SetTo end) c :: const_acts r
  end.

Fixpoint split_pairs (l : list pair) : list (dst * option modifier * Z) * list (dst * option modifier * Z) :=
  match l with
  | (d, md, SConst c) :: r => let '(a, b) := split_pairs r in ((d, md, c) :: a, b)
  | (d, md, SVar v) :: r => let '(a, b) := split_pairs r in (a, (d, md, v) :: b)
  | [] => ([], [])
  end.

(* eudv.py 703-779, _seqcompute_sub: one trigger. SeqCompute only calls it with
   constants before variables. *)
Definition seq_sub (T : nat -> Z) (k : nat) (l : list pair) (dc : dict) : trig * dict :=
  let '(cs, vs) := split_pairs l in
  let fin := lbl T (S k) in
  let '(va, dc') := var_acts fin vs dc in
  (RawTrig [] (const_acts cs ++ va) (match vs with (_, _, v) :: _ => pa v | [] => fin end), dc').

(* eudv.py 782-853, SeqCompute. State of the loop. *)
Record sst := mksst { q_sub : list pair;          (* subassignpairs *)
                      q_srcs : list Z;            (* srcvarset *)
                      q_const : bool;             (* constcollecting *)
                      q_count : Z;                (* actioncount *)
                      q_prev : list (Z * (dst * option modifier));  (* srcdict *)
                      q_dict : dict;              (* srcdictsub *)
                      q_out : list trig }.        (* emitted so far *)

(* eudv.py 803-817 *)
Definition flush (T : nat -> Z) (k : nat) (s : sst) : sst :=
  if q_count s =? 0 then s
  else let '(t, dc) := seq_sub T (k + length (q_out s)) (q_sub s) (q_dict s) in
       mksst [] [] true 0 (q_prev s) dc (q_out s ++ [t]).

Definition memZ (v : Z) (l : list Z) : bool := existsb (Z.eqb v) l.

(* eudv.py 819-851, loop body *)
Definition seq_step (T : nat -> Z) (k : nat) (s : sst) (p : pair) : sst :=
  let '(d, md, sr) := p in
  match sr with
  | SVar v =>
      let s := if memZ v (q_srcs s) then flush T k s
               else if 61 <=? q_count s then flush T k s else s in
      let n := match lookup v (q_prev s) with
               | Some (pd, pm) => 3 - (if same_u d pd then 1 else 0) - (if omod_eqb md pm then 1 else 0)
               | None => 3 end in
      mksst (q_sub s ++ [p]) (v :: q_srcs s) false (q_count s + n) ((v, (d, md)) :: q_prev s)
            (q_dict s) (q_out s)
  | SConst c =>
      let s := if negb (q_const s) then flush T k s
               else if 61 <=? q_count s then flush T k s else s in
      mksst (q_sub s ++ [p]) (q_srcs s) (q_const s) (q_count s + 1) (q_prev s) (q_dict s) (q_out s)
  end.

Definition SeqCompute (T : nat -> Z) (k : nat) (l : list pair) : list trig :=
  q_out (flush T k (fold_left (seq_step T k) l (mksst [] [] true 0 [] [] []))).
End Seq.

(* ---------------- NonSeqCompute, eudv.py 856-894 ---------------- *)
(* Pairs with a variable source, grouped by source in first-occurrence order.
   The two sorts of each group (by object id, then by modifier name) are some
   permutation: parameter [perm]. *)
Section NonSeq.
Variable perm : list pair -> list pair.
Definition pair_src (p : pair) : option Z := match snd p with SVar v => Some v | SConst _ => None end.

Fixpoint group_add (v : Z) (p : pair) (g : list (Z * list pair)) : list (Z * list pair) :=
  match g with
  | [] => [(v, [p])]
  | (w, ps) :: r => if w =? v then (w, ps ++ [p]) :: r else (w, ps) :: group_add v p r
  end.
Fixpoint groups (l : list pair) (g : list (Z * list pair)) : list (Z * list pair) :=
  match l with
  | [] => g
  | p :: r => match pair_src p with Some v => groups r (group_add v p g) | None => groups r g end
  end.
Definition const_pairs (l : list pair) : list pair :=
  filter (fun p => match pair_src p with None => true | Some _ => false end) l.

(* itertools.zip_longest over the groups, skipping the fill value *)
Definition heads (gs : list (list pair)) : list pair :=
  flat_map (fun g => match g with [] => [] | x :: _ => [x] end) gs.
Fixpoint zip_longest (n : nat) (gs : list (list pair)) : list pair :=
  match n with
  | O => []
  | S n' => heads gs ++ zip_longest n' (map (fun g => tl g) gs)
  end.

Definition nonseq_order (l : list pair) : list pair :=
  if Nat.eqb (length (const_pairs l)) (length l) then l
  else
    let gs := map (fun g => perm (snd g)) (groups l []) in
    const_pairs l ++ zip_longest (length l) gs.
End NonSeq.
