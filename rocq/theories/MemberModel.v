(* Members of game data objects (scdata): the address of a member of an object whose
   number is a constant or a variable, with the cache of products, and the comparison,
   bit and flag members.
   Source: src/eudplib/scdata/offsetmap/{member,epdoffsetmap,memberkind,enummember}.py,
           src/eudplib/memio/muldiv4table.py *)
From Coq Require Import ZArith List Bool.
From Verif Require Import Word ReadGenModel.
Import ListNotations.
Open Scope Z_scope.

(* ================= products by table ================= *)
(* muldiv4table.py 62-79: what the trigger for bit x adds to the amounts of read_end, one
   amount per derived variable.  append leaves out amounts that are 0, here 0 is added. *)
Definition bit_adds (strides : list Z) (x : Z) : list Z :=
  flat_map (fun k => let t := Z.shiftl k x in
                     if k mod 4 =? 0 then [t / 4] else [t / 4; t mod 4]) strides.
Fixpoint vadd (acc t : list Z) : list Z :=
  match acc, t with
  | a :: acc, b :: t => u32 (a + b) :: vadd acc t
  | _, _ => acc
  end.
(* 81-90: the triggers for bits n-1 down to 0, lv holds the variable *)
Fixpoint bit_triggers (strides : list Z) (lv : Z) (n : nat) (acc : list Z) : list Z :=
  match n with
  | O => acc
  | S x =>
      bit_triggers strides lv x
        (if 1 <=? Z.land lv (Z.shiftl 1 (Z.of_nat x)) then vadd acc (bit_adds strides (Z.of_nat x)) else acc)
  end.
(* 91-107: carry 4 subp -> 1 epd *)
Fixpoint carries (strides acc : list Z) : list Z :=
  match strides with
  | [] => acc
  | k :: ks =>
      if k mod 4 =? 0 then
        match acc with q :: acc => q :: carries ks acc | [] => [] end
      else
        match acc with
        | q :: r :: acc =>
            if negb (k mod 4 =? 3) && (4 <=? r)
            then u32 (q + 1) :: r - 4 :: carries ks acc
            else q :: r :: carries ks acc
        | _ => acc
        end
  end.
(* 19-26 _varcount *)
Fixpoint varcount (strides : list Z) : nat :=
  match strides with
  | [] => O
  | k :: ks => ((if (k mod 4 =? 0)%Z then 1 else 2) + varcount ks)%nat
  end.
(* the amounts that read_end (50-59) writes to the derived variables; it sets them back
   to 0 afterwards, so every run starts with zeros *)
Definition muldiv (strides : list Z) (bits : nat) (v : Z) : list Z :=
  carries strides (bit_triggers strides v bits (repeat 0 (varcount strides))).

(* ================= the cache of a variable ================= *)
(* variables that the code generator created, by number *)
Definition var := nat.
(* epdoffsetmap.py 20-28: what is kept for a variable.  dict: sorted by stride, q and,
   unless the stride is a multiple of 4, r.  bits: number of bit triggers of the last
   update trigger that was built (only this one is in the map: the Forwards are reset). *)
Record cst := mkcst { dict : list (Z * (var * option var)); maxv : Z; bits : nat; fresh : var }.
Fixpoint lookup (k : Z) (d : list (Z * (var * option var))) : option (var * option var) :=
  match d with
  | [] => None
  | (k', v) :: d => if k =? k' then Some v else lookup k d
  end.
Fixpoint put (k : Z) (v : var * option var) (d : list (Z * (var * option var))) :=
  match d with
  | [] => [(k, v)]
  | (k', v') :: r => if k =? k' then (k, v) :: r else if k <? k' then (k, v) :: d else (k', v') :: put k v r
  end.
(* 78-84 derived_vars *)
Definition derived (d : list (Z * (var * option var))) : list var :=
  flat_map (fun e => match snd (snd e) with Some r => [fst (snd e); r] | None => [fst (snd e)] end) d.
(* 135-159 _get_stride_dict_and_maxvalue: None is the EPError *)
Definition stride_dict (range1 : Z) (c : option cst) : option cst :=
  match c with
  | Some c => Some c
  | None =>
      let m := Z.shiftl 1 (bit_length range1) - 1 in
      if m <? 1024 then Some (mkcst [] m 0 0%nat) else None
  end.
(* 59-133 _get_stride_cache; without a bit, _insert finds no trigger (KeyError) *)
Definition get_stride_cache (range1 stride : Z) (c : option cst) : option ((var * option var) * cst) :=
  match stride_dict range1 c with
  | None => None
  | Some c =>
      let new :=
        let q := fresh c in
        let r := if stride mod 4 =? 0 then None else Some (S (fresh c)) in
        let b := bit_length range1 in
        if b =? 0 then None
        else Some ((q, r), mkcst (put stride (q, r) (dict c)) (Z.shiftl 1 b - 1) (Z.to_nat b) (S (S (fresh c)))) in
      match lookup stride (dict c) with
      | Some qr => if maxv c <? range1 then new else Some (qr, c)
      | None => new
      end
  end.
(* the accesses of a program in the order of code generation: (range of the class, stride) *)
Fixpoint compile (accs : list (Z * Z)) (c : option cst) : option (list (var * option var) * option cst) :=
  match accs with
  | [] => Some ([], c)
  | (rg, k) :: accs =>
      match get_stride_cache rg k c with
      | None => None
      | Some (qr, c1) =>
          match compile accs (Some c1) with
          | Some (qrs, c2) => Some (qr :: qrs, c2)
          | None => None
          end
      end
  end.

(* ---- run time ---- *)
(* the variable, the amount of the condition of the update trigger, the derived variables *)
Record rst := mkrst { value : Z; cached : Z; vars : var -> Z }.
Definition setv (f : var -> Z) (x : var) (v : Z) : var -> Z := fun y => if Nat.eqb x y then v else f y.
Fixpoint setvs (f : var -> Z) (xs : list var) (vs : list Z) : var -> Z :=
  match xs, vs with
  | x :: xs, v :: vs => setvs (setv f x v) xs vs
  | _, _ => f
  end.
(* muldiv4table.py 127-153: jump_trg skips the rest when the variable is the one cached;
   otherwise it is cached and the derived variables are computed.
   member.py 167-176: where update_end goes on is set by each access (not modelled). *)
Definition update (c : cst) (s : rst) : rst :=
  if value s =? cached s then s
  else mkrst (value s) (value s)
         (setvs (vars s) (derived (dict c)) (muldiv (map fst (dict c)) (bits c) (value s))).
(* epdoffsetmap.py 96-129, 150-156, 161-180: x += 1 *)
Definition adv_add (f : var -> Z) (e : Z * (var * option var)) : var -> Z :=
  let f1 := setv f (fst (snd e)) (u32 (f (fst (snd e)) + fst e / 4)) in
  match snd (snd e) with
  | Some r => setv f1 r (u32 (f1 r + fst e mod 4))
  | None => f1
  end.
Definition adv_carry (f : var -> Z) (e : Z * (var * option var)) : var -> Z :=
  match snd (snd e) with
  | Some r =>
      if 4 <=? f r then
        let f1 := setv f r (f r - 4) in
        setv f1 (fst (snd e)) (u32 (f1 (fst (snd e)) + 1))
      else f
  | None => f
  end.
Definition advance (c : cst) (s : rst) : rst :=
  match dict c with
  | [] => mkrst (u32 (value s + 1)) (cached s) (vars s)
  | d => mkrst (u32 (value s + 1)) (u32 (cached s + 1)) (fold_left adv_carry d (fold_left adv_add d (vars s)))
  end.
(* what a program does with the variable: other code gives it a value, an access to a
   member runs the update, x += 1 *)
Inductive op := Assign (v : Z) | Access | Advance.
Definition step (c : cst) (s : rst) (o : op) : rst :=
  match o with
  | Assign v => mkrst (u32 v) (cached s) (vars s)
  | Access => update c s
  | Advance => advance c s
  end.
Definition run (c : cst) (os : list op) (s : rst) : rst := fold_left (step c) os s.

(* ================= the address of a member ================= *)
(* utils/etc.py 39 EPD of a constant *)
Definition EPDc (p : Z) : Z := (p - 0x58A364) / 4.
(* member.py 116-121: what the constructor accepts *)
Definition member_ok (size offset stride : Z) : bool :=
  (offset mod 4 + size <=? 4) && (size <=? stride).
(* 155-159 array, constant object *)
Definition get_epd_const (offset stride n : Z) : Z * Z :=
  let a := offset + n * stride in (EPDc 0 + a / 4, a mod 4).
(* 160-161 array of dwords, variable object *)
Definition get_epd_dword (offset v : Z) : Z * Z := (u32 (EPDc offset + v), offset mod 4).
(* 178-188 array, variable object, with q and r from the cache (r is 0 when there is none) *)
Definition get_epd_cache (offset stride q r : Z) : Z * Z :=
  let epd := u32 (EPDc offset + q) in
  if offset mod 4 =? 0 then (epd, r)
  else
    let subp := u32 (offset mod 4 + r) in
    if (4 <=? offset mod 4 + (4 - stride) mod 4) && (4 <=? subp)
    then (u32 (epd + 1), subp - 4) else (epd, subp).
(* 160-188 for a variable object: s is the state when the access starts *)
Definition get_epd_var (offset stride : Z) (qr : var * option var) (c : cst) (s : rst) : Z * Z :=
  if stride =? 4 then get_epd_dword offset (value s)
  else
    let s1 := update c s in
    get_epd_cache offset stride (vars s1 (fst qr)) (match snd qr with Some r => vars s1 r | None => 0 end).
(* 190-192 struct, e: the EPD of the object *)
Definition get_epd_struct (offset e : Z) : Z * Z := (e + offset / 4, offset mod 4).

(* ================= comparing, bits and flags ================= *)
(* epdoffsetmap.py 278-360 eqattr, leattr, geattr; the three differ in the comparison.
   dw is the dword at epd. *)
Inductive cmp := Exactly | AtMost | AtLeast.
(* condition MemoryXEPD(epd, cmp, value, mask) *)
Definition memoryx (c : cmp) (dw value mask : Z) : bool :=
  match c with
  | Exactly => Z.land dw mask =? value
  | AtMost => Z.land dw mask <=? value
  | AtLeast => value <=? Z.land dw mask
  end.
Definition size_mask (size subp : Z) : Z := Z.shiftl (Z.shiftl 1 (8 * size) - 1) (8 * subp).
(* constant subp and constant value: None is the EPError *)
Definition cmpattr_const (c : cmp) (size subp value dw : Z) : option bool :=
  let mask := size_mask size subp in
  let v := if subp =? 0 then value else Z.shiftl value (8 * subp) in
  if Z.land v (Z.lnot mask) =? 0 then Some (memoryx c dw v mask) else None.
(* subp or value is a variable: the shifts are made by the machine *)
Definition cmpattr_var (c : cmp) (size subp value dw : Z) : bool :=
  memoryx c dw (u32 (Z.shiftl value (8 * subp))) (u32 (size_mask size subp)).

(* memberkind.py 84-131 Bit0Kind (bit = 0x01), Bit1Kind (bit = 0x02);
   bwepdio.py 153-205 _bitwrite_epd, 385-415 _bitread_epd.  Machine level: C27 *)
Definition bit_read (bit subp dw : Z) : Z :=
  if 1 <=? Z.land dw (Z.shiftl bit (8 * subp)) then 1 else 0.
(* SetDeathsX(epd, SetTo, value, 0, mask) *)
Definition maskwrite (dw value mask : Z) : Z := Z.lor (Z.ldiff dw mask) (Z.land value mask).
Definition bit_write (bit subp b dw : Z) : Z :=
  let mask := Z.shiftl bit (8 * subp) in
  let dw := maskwrite dw 0 mask in
  if 1 <=? b then maskwrite dw mask mask else dw.

(* enummember.py 146-156 Flag.__get__ of a struct member, dw the dword at epd *)
Definition flag_get_struct (mask subp dw : Z) : Z :=
  let m := Z.shiftl mask (8 * subp) in
  if Z.land dw m <=? m - 1 then 0 else 1.
(* 157-166 of an array member: flags is the value of the member *)
Definition flag_get_array (mask flags : Z) : Z := if Z.land flags mask <=? mask - 1 then 0 else 1.
(* 170-195 Flag.__set__ with a variable: ~0 is written, then 0 if the value is 0 *)
Definition flag_set_var (mask subp value dw : Z) : Z :=
  let m := u32 (Z.shiftl mask (8 * subp)) in
  let dw := maskwrite dw 0xFFFFFFFF m in
  if value =? 0 then maskwrite dw 0 m else dw.
(* with a constant: None is the EPError *)
Definition flag_set_const (mask subp value dw : Z) : option Z :=
  let m := u32 (Z.shiftl mask (8 * subp)) in
  if value =? 0 then Some (maskwrite dw 0 m)
  else if value =? 1 then Some (maskwrite dw 0xFFFFFFFF m) else None.

(* ================= the members of the library ================= *)
(* a class: the last number of its range, its array members (size, offset, stride) *)
(* scdata/flingy.py class Flingy, range: 39 *)
Definition Flingy_members : Z * list (Z * Z * Z) :=
  (208, [(2, 0x6CA318, 2); (4, 0x6C9EF8, 4); (2, 0x6C9C78, 2); (4, 0x6C9930, 4); (1, 0x6C9E20, 1); (1, 0x6C9858, 1)]).
(* scdata/image.py class Image, range: 42 *)
Definition Image_members : Z * list (Z * Z * Z) :=
  (998, [(1, 0x66E860, 1); (1, 0x66C150, 1); (1, 0x66D4D8, 1); (1, 0x667718, 1); (1, 0x669E28, 1); (4, 0x66EC48, 4)]).
(* scdata/player.py class TrgPlayer, range: 91 *)
Definition TrgPlayer_members : Z * list (Z * Z * Z) :=
  (11, [(4, 0x57F0F0, 4); (4, 0x57F120, 4); (4, 0x57F150, 4); (4, 0x57F180, 4); (4, 0x582144, 4); (4, 0x582174, 4); (4, 0x5821A4, 4); (4, 0x5821D4, 4); (4, 0x582204, 4); (4, 0x582234, 4); (4, 0x582264, 4); (4, 0x582294, 4); (4, 0x5822C4, 4); (1, 0x581D76, 8); (1, 0x581DD6, 1); (1, 0x58D718, 1); (2, 0x58D6C4, 4); (4, 0x581E44, 4); (4, 0x582024, 4); (4, 0x581F04, 4); (4, 0x582054, 4); (4, 0x5822F4, 4)]).
(* scdata/sprite.py class Sprite, range: 31 *)
Definition Sprite_members : Z * list (Z * Z * Z) :=
  (516, [(2, 0x666160, 2); (1, 0x665C48, 1)]).
(* scdata/tech.py class Tech, range: 42 *)
Definition Tech_members : Z * list (Z * Z * Z) :=
  (43, [(2, 0x656248, 2); (2, 0x6561F0, 2); (2, 0x6563D8, 2); (2, 0x656380, 2); (2, 0x656198, 2); (2, 0x6562F8, 2); (2, 0x656430, 2); (2, 0x6562A0, 2); (1, 0x656488, 1); (1, 0x656350, 1); (1, 0x6564B4, 1)]).
(* scdata/unit.py class TrgUnit, range: 386 *)
Definition TrgUnit_members : Z * list (Z * Z * Z) :=
  (227, [(1, 0x6644F8, 1); (2, 0x6607C0, 2); (2, 0x6610B0, 4); (1, 0x6605F0, 1); (1, 0x6647B0, 1); (2, 0x660E00, 2); (4, 0x662350, 4); (1, 0x663150, 1); (1, 0x660FC8, 1); (1, 0x663DD0, 1); (1, 0x662EA0, 1); (1, 0x662268, 1); (1, 0x664898, 1); (1, 0x663320, 1); (1, 0x663A50, 1); (1, 0x6636B8, 1); (1, 0x6616E0, 1); (1, 0x6645E0, 1); (1, 0x65FC18, 1); (1, 0x660178, 1); (1, 0x660178, 1); (4, 0x664080, 4); (1, 0x662DB8, 1); (1, 0x663238, 1); (1, 0x6635D0, 1); (1, 0x662180, 1); (1, 0x65FEC8, 1); (1, 0x662098, 1); (2, 0x661FC0, 2); (2, 0x65FFB0, 2); (2, 0x662BF0, 2); (2, 0x663B38, 2); (2, 0x661EE8, 2); (2, 0x663C10, 2); (2, 0x661440, 2); (4, 0x662860, 4); (4, 0x6617C8, 8); (4, 0x6617CC, 8); (2, 0x6617C8, 8); (2, 0x6617CA, 8); (2, 0x6617CC, 8); (2, 0x6617CE, 8); (2, 0x662F88, 2); (2, 0x663888, 2); (2, 0x65FD00, 2); (2, 0x660428, 2); (2, 0x660A70, 2); (1, 0x6637A0, 1); (1, 0x6646C8, 1); (1, 0x663CE8, 1); (1, 0x660988, 1); (1, 0x664410, 1); (2, 0x663408, 2); (2, 0x663EB8, 2); (2, 0x660260, 2); (1, 0x6606D8, 1); (2, 0x661518, 2)]).
(* scdata/unitorder.py class UnitOrder, range: 59 *)
Definition UnitOrder_members : Z * list (Z * Z * Z) :=
  (188, [(2, 0x665280, 2); (1, 0x664B00, 1); (1, 0x664A40, 1); (1, 0x665040, 1); (1, 0x665100, 1); (1, 0x665700, 1); (1, 0x6651C0, 1); (1, 0x6654C0, 1); (1, 0x664C80, 1); (1, 0x665880, 1); (1, 0x664E00, 1); (1, 0x664D40, 1); (2, 0x664EC0, 2); (2, 0x665580, 2); (1, 0x665400, 1)]).
(* scdata/upgrade.py class Upgrade, range: 43 *)
Definition Upgrade_members : Z * list (Z * Z * Z) :=
  (60, [(2, 0x655740, 2); (2, 0x6559C0, 2); (2, 0x655840, 2); (2, 0x6557C0, 2); (2, 0x655B80, 2); (2, 0x655940, 2); (2, 0x6558C0, 2); (2, 0x655AC0, 2); (2, 0x655A40, 2); (1, 0x655BFC, 1); (1, 0x655700, 1); (1, 0x655B3C, 1)]).
(* scdata/weapon.py class Weapon, range: 81 *)
Definition Weapon_members : Z * list (Z * Z * Z) :=
  (129, [(2, 0x6572E0, 2); (1, 0x656CA8, 4); (2, 0x657998, 2); (4, 0x656A18, 4); (4, 0x657470, 4); (1, 0x6571D0, 1); (1, 0x657258, 1); (1, 0x656670, 1); (1, 0x657040, 1); (1, 0x6566F8, 1); (2, 0x656888, 2); (2, 0x6570C8, 2); (2, 0x657780, 2); (2, 0x656EB0, 2); (2, 0x657678, 2); (1, 0x656FB8, 1); (1, 0x6564E0, 1); (1, 0x656990, 1); (1, 0x657888, 1); (1, 0x657910, 1); (1, 0x657910, 1); (1, 0x656C20, 1); (1, 0x656C20, 1); (2, 0x656568, 2); (2, 0x656780, 2)]).
Definition library : list (Z * list (Z * Z * Z)) :=
  [Flingy_members; Image_members; TrgPlayer_members; Sprite_members; Tech_members; TrgUnit_members; UnitOrder_members; Upgrade_members; Weapon_members].
