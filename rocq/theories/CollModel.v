(* Collections built on variable arrays: EUDStack, EUDQueue, EUDDeque, ObjPool,
   UnitGroup, and the patch stack.
   Source: src/eudplib/collections/{eudstack,eudqueue,objpool,unitgroup}.py,
   eudlib/utilf/mempatch.py

   Level of the model: memory is a function from EPD indices to 32-bit values.
   Cells inside the generated triggers that the code rewrites (a pointer held
   in an action, a next pointer) are fields of a record; every action of the
   source is one update, in source order. A variable trigger at address A is
   "read the cell EPD(A) + 87". Iteration over queues is not modelled (it uses
   engine details outside Machine.v). *)
From Coq Require Import ZArith List Bool.
From Verif Require Import Word MathModel.
Import ListNotations.
Open Scope Z_scope.

Definition memory := Z -> Z.
Definition set (m : memory) (a v : Z) : memory := fun b => if b =? a then v else m b.

(* ---------- eudstack.py ---------- *)
(* data: EPD of the array; pos: the field *)
Record stack := mkstack { k_mem : memory; k_pos : Z }.
(* 19-21 *)
Definition stk_push (data v : Z) (s : stack) : stack :=
  mkstack (set (k_mem s) (data + k_pos s) v) (add (k_pos s) 1).
(* 23-28 *)
Definition stk_pop (data : Z) (s : stack) : Z * stack :=
  let p := add (k_pos s) (-1) in (k_mem s (data + p), mkstack (k_mem s) p).
(* 30-31 *)
Definition stk_empty (s : stack) : bool := k_pos s =? 0.

(* ---------- eudqueue.py ---------- *)
(* Address of the array, and its EPD (a constant of the linked program). The
   variable trigger i of the array is at qb + 72*i, its value at qe + 87 + 18*i. *)
Record place := mkplace { qb : Z; qe : Z }.
Definition cell_of (pl : place) (addr : Z) : Z := qe pl + 87 + (addr - qb pl) / 4.

(* q_act: append_act + 16 (the destination of the store of append)
   q_jl: jumpleft + 4; q_i348, q_i380: iter_init + 348, + 380
   q_len: _length; q_wt: next pointer of append's check_wrap is wrap_tail
   q_ret: the variable ret *)
Record queue := mkqueue { q_mem : memory; q_act : Z; q_jl : Z; q_i348 : Z; q_i380 : Z;
                          q_len : Z; q_wt : bool; q_ret : Z }.
(* 28-44, 156: as loaded *)
Definition queue_new (pl : place) (m : memory) : queue :=
  mkqueue m (qe pl + 87) (qb pl - 72) (qe pl + 87) (qb pl - 72) 0 false 0.
(* 104-146 *)
Definition queue_append (pl : place) (cap v : Z) (q : queue) : queue :=
  (* 110-116 *)
  let m := set (q_mem q) (q_act q) v in
  let act := add (q_act q) 18 in
  let len := add (q_len q) 1 in
  (* check_wrap 117-127 *)
  let '(wt, jl, i348, i380, len) :=
    if cap + 1 <=? len then (true, add (q_jl q) 72, add (q_i348 q) 18, add (q_i380 q) 72, sub_sat len 1)
    else (q_wt q, q_jl q, q_i348 q, q_i380 q, len) in
  (* wrap_tail 128-138, reached only if check_wrap points to it *)
  let '(wt, jl, i348, i380) :=
    if wt && (qb pl + 72 * (cap - 1) <=? jl)
    then (false, add jl (- (72 * cap)), add i348 (- (18 * cap)), add i380 (- (72 * cap)))
    else (wt, jl, i348, i380) in
  (* wrap_head 139-146 *)
  let act := if qe pl + 87 + 18 * cap <=? act then add act (- (18 * cap)) else act in
  mkqueue m act jl i348 i380 len wt (q_ret q).
(* 149-175 *)
Definition queue_popleft (pl : place) (cap : Z) (q : queue) : queue :=
  (* jumpleft 155-164: actions, then the variable trigger its next pointer now
     names stores its value *)
  let jl := add (q_jl q) 72 in let i348 := add (q_i348 q) 18 in let i380 := add (q_i380 q) 72 in
  let len := sub_sat (q_len q) 1 in
  let ret := q_mem q (cell_of pl jl) in
  (* wraparound 165-174 *)
  let '(jl, i348, i380) :=
    if qb pl + 72 * (cap - 1) <=? jl then (add jl (- (72 * cap)), add i348 (- (18 * cap)), add i380 (- (72 * cap)))
    else (jl, i348, i380) in
  mkqueue (q_mem q) (q_act q) jl i348 i380 len (q_wt q) ret.
(* 177-186 *)
Definition queue_clear (pl : place) (q : queue) : queue :=
  mkqueue (q_mem q) (qe pl + 87) (qb pl - 72) (qe pl + 87) (qb pl - 72) 0 (q_wt q) (q_ret q).
(* 210-211 *)
Definition queue_empty (q : queue) : bool := q_len q =? 0.

(* d_al: appendleft_act + 16; d_jp: jump + 4; the rest as above *)
Record deque := mkdeque { d_mem : memory; d_act : Z; d_al : Z; d_jp : Z; d_jl : Z; d_i348 : Z; d_i380 : Z;
                          d_len : Z; d_ret : Z }.
Definition deque_new (pl : place) (m : memory) : deque :=
  mkdeque m (qe pl + 87) (qe pl + 87) (qb pl) (qb pl - 72) (qe pl + 87) (qb pl - 72) 0 0.
(* 309-359; the first trigger points check_wrap to wrap_head every time *)
Definition deque_append (pl : place) (cap v : Z) (d : deque) : deque :=
  let m := set (d_mem d) (d_act d) v in
  let act := add (d_act d) 18 in let jp := add (d_jp d) 72 in let len := add (d_len d) 1 in
  let '(al, jl, i348, i380, len) :=
    if cap + 1 <=? len then
      let '(al, jl, i348, i380) := (add (d_al d) 18, add (d_jl d) 72, add (d_i348 d) 18, add (d_i380 d) 72) in
      let len := sub_sat len 1 in
      (* wrap_tail *)
      if qb pl + 72 * (cap - 1) <=? jl
      then (add al (- (18 * cap)), add jl (- (72 * cap)), add i348 (- (18 * cap)), add i380 (- (72 * cap)), len)
      else (al, jl, i348, i380, len)
    else (d_al d, d_jl d, d_i348 d, d_i380 d, len) in
  (* wrap_head *)
  let '(act, jp) := if qe pl + 87 + 18 * cap <=? act then (add act (- (18 * cap)), add jp (- (72 * cap))) else (act, jp) in
  mkdeque m act al jp jl i348 i380 len (d_ret d).
(* 362-384 *)
Definition deque_pop (pl : place) (cap : Z) (d : deque) : deque :=
  let '(act, jp) := if d_jp d <=? qb pl then (add (d_act d) (18 * cap), add (d_jp d) (72 * cap)) else (d_act d, d_jp d) in
  let act := add act (-18) in let jp := add jp (-72) in let len := sub_sat (d_len d) 1 in
  let ret := d_mem d (cell_of pl jp) in
  mkdeque (d_mem d) act (d_al d) jp (d_jl d) (d_i348 d) (d_i380 d) len ret.
(* 388-434; check_wrap starts out pointing to wrap_tail and is put back by the
   last trigger *)
Definition deque_appendleft (pl : place) (cap v : Z) (d : deque) : deque :=
  let '(act, jp, len) :=
    if cap <=? d_len d then
      let '(act, jp) := (add (d_act d) (-18), add (d_jp d) (-72)) in
      let len := sub_sat (d_len d) 1 in
      (* wrap_head *)
      if jp <=? qb pl then (add act (18 * cap), add jp (72 * cap), len) else (act, jp, len)
    else (d_act d, d_jp d, d_len d) in
  (* wrap_tail *)
  let '(al, jl, i348, i380) :=
    if d_al d <=? qe pl + 87
    then (add (d_al d) (18 * cap), add (d_jl d) (72 * cap), add (d_i348 d) (18 * cap), add (d_i380 d) (72 * cap))
    else (d_al d, d_jl d, d_i348 d, d_i380 d) in
  let al := add al (-18) in let jl := add jl (-72) in let i348 := add i348 (-18) in let i380 := add i380 (-72) in
  mkdeque (set (d_mem d) al v) act al jp jl i348 i380 (add len 1) (d_ret d).
(* 437-465 *)
Definition deque_popleft (pl : place) (cap : Z) (d : deque) : deque :=
  let al := add (d_al d) 18 in let jl := add (d_jl d) 72 in let i348 := add (d_i348 d) 18 in let i380 := add (d_i380 d) 72 in
  let len := sub_sat (d_len d) 1 in
  let ret := d_mem d (cell_of pl jl) in
  let '(al, jl, i348, i380) :=
    if qb pl + 72 * (cap - 1) <=? jl
    then (add al (- (18 * cap)), add jl (- (72 * cap)), add i348 (- (18 * cap)), add i380 (- (72 * cap)))
    else (al, jl, i348, i380) in
  mkdeque (d_mem d) (d_act d) al (d_jp d) jl i348 i380 len ret.

(* ---------- objpool.py ---------- *)
(* o_data: the array data; o_rem: remaining; base: address of baseobj *)
Record pool := mkpool { o_data : Z -> Z; o_rem : Z }.
(* 40-46 *)
Definition pool_new (size fieldn : Z) : pool := mkpool (fun i => 72 * fieldn * i) size.
(* 51-60 *)
Definition pool_alloc (base : Z) (p : pool) : Z * pool :=
  if o_rem p =? 0 then (0, p)
  else let r := add (o_rem p) (-1) in (add (o_data p r) base, mkpool (o_data p) r).
(* 74-85, the destructor not modelled *)
Definition pool_free (base d : Z) (p : pool) : pool :=
  mkpool (set (o_data p) (o_rem p) (u32 (d - base))) (add (o_rem p) 1).

(* ---------- unitgroup.py ---------- *)
(* g_trg, g_pos: the variables trg and pos; va: address and EPD of varray *)
Record group := mkgroup { g_mem : memory; g_trg : Z; g_pos : Z; g_len : Z }.
(* 97-107 *)
Definition group_new (va : place) (cap : Z) (m : memory) : group :=
  mkgroup m (qb va + 72 * cap) (qe va + 87 + 18 * cap) 0.
(* 113-140: the value stored is the unit's EPD + 0x4C/4 *)
Definition group_add (u : Z) (g : group) : group :=
  let len := add (g_len g) 1 in let trg := add (g_trg g) (-72) in let pos := add (g_pos g) (-18) in
  mkgroup (set (g_mem g) pos (add u 19)) trg pos len.
(* 185-202 for the entry whose value is at EPD [pos]: the first variable of the
   group (at address trg) is run; it stores its value, through loopvar, at pos *)
Definition group_remove (va : place) (pos : Z) (g : group) : group :=
  mkgroup (set (g_mem g) pos (g_mem g (cell_of va (g_trg g)))) (add (g_trg g) 72) (add (g_pos g) 18) (sub_sat (g_len g) 1).
(* 147-224. loopstart, pos: copies of trg and pos made before the loop (156-163).
   The body on its k-th pass sees the current entry's value, adds some units
   to the group and says whether to remove the entry (remove(), or the end of the
   dying block); other effects of the body are not modelled.
   Result: values seen. fuel: number of passes looked at. *)
Fixpoint group_loop (va : place) (cap : Z) (body : nat -> Z -> list Z * bool) (fuel k : nat) (loopstart pos : Z) (g : group)
  : option (list Z * group) :=
  if qb va + 72 * cap <=? loopstart then Some ([], g)
  else match fuel with
  | O => None
  | S fu =>
      let x := g_mem g (cell_of va loopstart) in
      let (added, rm) := body k x in
      let g := fold_left (fun g u => group_add u g) added g in
      let g := if rm then group_remove va pos g else g in
      match group_loop va cap body fu (S k) (add loopstart 72) (add pos 18) g with
      | Some (l, g) => Some (x :: l, g)
      | None => None
      end
  end.
Definition group_cploop (va : place) (cap : Z) (body : nat -> Z -> list Z * bool) (fuel : nat) (g : group) :=
  group_loop va cap body fuel 0 (g_trg g) (g_pos g) g.

(* ---------- mempatch.py ---------- *)
(* ps, dws: EPDs of patchstack() and dwstack() *)
Record patches := mkpatches { x_mem : memory; x_ps : Z; x_dws : Z }.
(* 30-33 *)
Definition pushps (ps v : Z) (x : patches) : patches :=
  mkpatches (set (x_mem x) (ps + x_ps x) v) (add (x_ps x) 1) (x_dws x).
(* 36-39 *)
Definition popps (ps : Z) (x : patches) : Z * patches :=
  let t := add (x_ps x) (-1) in (x_mem x (ps + t), mkpatches (x_mem x) t (x_dws x)).
(* f_repmovsd_epd: n dwords, ascending *)
Fixpoint repmovsd (dst src : Z) (n : nat) (m : memory) : memory :=
  match n with O => m | S k => repmovsd (dst + 1) (src + 1) k (set m dst (m src)) end.
(* 42-62 *)
Definition dwpatch (ps dws dst v : Z) (x : patches) : patches :=
  let prev := x_mem x dst in
  let dpos := dws + x_dws x in
  let m := set (set (x_mem x) dst v) dpos prev in
  let x := mkpatches m (x_ps x) (x_dws x) in
  let x := pushps ps 1 (pushps ps dpos (pushps ps dst x)) in
  mkpatches (x_mem x) (x_ps x) (add (x_dws x) 1).
(* 65-109; tmp: EPD of tmpbuffer. Fuel: number of passes looked at *)
Fixpoint block_loop (tmp dst src : Z) (fuel : nat) (copydwn dwn : Z) (m : memory) : option memory :=
  if dwn =? 0 then Some m
  else match fuel with
  | O => None
  | S fu =>
      let copydwn := if dwn <=? 255 then dwn else copydwn in
      let dwn := sub_sat dwn 256 in
      let n := Z.to_nat copydwn in
      let m := repmovsd tmp dst n m in
      let m := repmovsd dst src n m in
      let m := repmovsd src tmp n m in
      block_loop tmp dst src fu copydwn dwn m
  end.
Definition blockpatch (ps tmp dst src dwn : Z) (fuel : nat) (x : patches) : option patches :=
  let x := pushps ps dwn (pushps ps src (pushps ps dst x)) in
  match block_loop tmp dst src fuel 256 dwn (x_mem x) with
  | Some m => Some (mkpatches m (x_ps x) (add (x_dws x) 1))
  | None => None
  end.
(* 112-121 *)
Fixpoint unpatchall (ps : Z) (fuel : nat) (x : patches) : option patches :=
  if 1 <=? x_ps x then
    match fuel with
    | O => None
    | S fu =>
        let x := mkpatches (x_mem x) (x_ps x) (add (x_dws x) (-1)) in
        let (dwn, x) := popps ps x in
        let (src, x) := popps ps x in
        let (dst, x) := popps ps x in
        unpatchall ps fu (mkpatches (repmovsd dst src (Z.to_nat dwn) (x_mem x)) (x_ps x) (x_dws x))
    end
  else Some x.
