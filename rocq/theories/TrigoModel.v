(* Angles: f_atan2, f_lengthdir and their 256-step versions.
   Source: src/eudplib/eudlib/mathf/atan2.py, lengthdir.py

   Level of the model: as in MathModel.v, a variable is its 32-bit value. The
   masked additions are the engine's (MachineProofs.v do_modx). *)
From Coq Require Import ZArith List Bool.
From Verif Require Import Word Machine MachineProofs MathModel.
Import ListNotations.
Open Scope Z_scope.

(* x.AddNumberX(v, mask) *)
Definition addx (x v mask : Z) : Z := do_modx Add mask x v.
(* the three actions atan2.py 26-28, 37-39 and 94-96 with n = 1, 181, ... *)
Definition flip_add (x n : Z) : Z := add (addx (addx x 0xFFFFFFFF 0x55555555) 0xFFFFFFFF 0xAAAAAAAA) n.
(* binary operators on variables: + - * are modulo 2^32, // is f_div *)
Definition mul32 (a b : Z) : Z := u32 (a * b).
Definition sub32 (a b : Z) : Z := u32 (a - b).
Definition quo (a b : Z) : Z := fst (f_div a b).

(* atan2.py 17-54 and 156-193: signs and order; result: flags, x, y *)
Definition at_signs (y x : Z) : Z * Z * Z :=
  let signflags := 0 in
  let '(signflags, x) := if 0x80000000 <=? x then (add signflags 1, flip_add x 1) else (signflags, x) in
  let '(signflags, y) := if 0x80000000 <=? y then (add signflags 2, flip_add y 1) else (signflags, y) in
  if x <=? y then (add signflags 4, y, x) else (signflags, x, y).
(* 59-65 and 198-204 *)
Definition at_norm (n x y : Z) : Z * Z :=
  if n <=? x then let divn := add (quo x n) 1 in (quo x divn, quo y divn) else (x, y).
(* 67-74 *)
Definition at_value (x y : Z) : Z :=
  let t1 := mul32 x x in
  let t2 := mul32 y (sub32 (mul32 45 t1) (mul32 (sub32 y x) (add (mul32 14 x) (mul32 4 y)))) in
  let t3 := mul32 x t1 in
  quo t2 t3.
(* 206-211 *)
Definition at_value_256 (x y : Z) : Z :=
  let t1 := mul32 45 (mul32 x x) in
  let t2 := mul32 y (mul32 32 (sub32 t1 (mul32 (sub32 y x) (add (mul32 14 x) (mul32 4 y))))) in
  let t3 := mul32 x t1 in
  quo t2 t3.
(* 87-151 and 215-276 with full = 360 or 256: the switch over signflags & 7 *)
Definition at_turn (full signflags v : Z) : Z :=
  match Z.land signflags 7 with
  | 0 => v
  | 1 => flip_add v (full / 2 + 1)
  | 2 => flip_add v (full + 1)
  | 3 => add v (full / 2)
  | 4 => flip_add v (full / 4 + 1)
  | 5 => add v (full / 4)
  | 6 => add v (full * 3 / 4)
  | _ => flip_add v (full * 3 / 4 + 1)
  end.
(* 14-152 *)
Definition f_atan2 (y x : Z) : Z :=
  let '(signflags, x, y) := at_signs y x in
  let '(x, y) := at_norm 400 x y in
  at_turn 360 signflags (at_value x y).
(* 155-279; the last trigger adds 64 under the mask 255 *)
Definition f_atan2_256 (y x : Z) : Z :=
  let '(signflags, x, y) := at_signs y x in
  let '(x, y) := at_norm 128 x y in
  addx (at_turn 256 signflags (at_value_256 x y)) 64 255.

(* lengthdir.py 18-28: the tables. The values of Python's math.cos and math.sin are
   written out here (floor(65536 * cos + 0.5)); the cosine table is the sine table
   backwards. *)
Definition sin_table : list Z :=
  [0; 1144; 2287; 3430; 4572; 5712; 6850; 7987; 9121; 10252; 11380; 12505; 13626; 14742; 15855;
   16962; 18064; 19161; 20252; 21336; 22415; 23486; 24550; 25607; 26656; 27697; 28729; 29753;
   30767; 31772; 32768; 33754; 34729; 35693; 36647; 37590; 38521; 39441; 40348; 41243; 42126;
   42995; 43852; 44695; 45525; 46341; 47143; 47930; 48703; 49461; 50203; 50931; 51643; 52339;
   53020; 53684; 54332; 54963; 55578; 56175; 56756; 57319; 57865; 58393; 58903; 59396; 59870;
   60326; 60764; 61183; 61584; 61966; 62328; 62672; 62997; 63303; 63589; 63856; 64104; 64332;
   64540; 64729; 64898; 65048; 65177; 65287; 65376; 65446; 65496; 65526; 65536].
(* 107-117 *)
Definition sin_table_256 : list Z :=
  [0; 1608; 3216; 4821; 6424; 8022; 9616; 11204; 12785; 14359; 15924; 17479; 19024; 20557; 22078;
   23586; 25080; 26558; 28020; 29466; 30893; 32303; 33692; 35062; 36410; 37736; 39040; 40320;
   41576; 42806; 44011; 45190; 46341; 47464; 48559; 49624; 50660; 51665; 52639; 53581; 54491;
   55368; 56212; 57022; 57798; 58538; 59244; 59914; 60547; 61145; 61705; 62228; 62714; 63162;
   63572; 63944; 64277; 64571; 64827; 65043; 65220; 65358; 65457; 65516; 65536].
Definition tab (t : list Z) (i : Z) : Z := nth (Z.to_nat i) t 0.
Definition cos_tab (t : list Z) (i : Z) : Z := tab (rev t) i.
(* 40-75: sign and table index for a quarter turn q and a full turn 4q *)
Definition ld_quadrant (q angle : Z) : Z * Z :=
  if angle <=? q - 1 then (0, angle)
  else if angle <=? 2 * q - 1 then (1, sub_sat (2 * q) angle)
  else if angle <=? 3 * q - 1 then (3, add (u32 (- (2 * q))) angle)
  else (2, sub_sat (4 * q) angle).
(* 77-110 and 163-196 *)
Definition ld_xy (t : list Z) (length sign tableangle : Z) : Z * Z :=
  let x := quo (mul32 (cos_tab t tableangle) length) 65536 in
  let y := quo (mul32 (tab t tableangle) length) 65536 in
  (if ExactlyX sign 1 1 then flip_add x 1 else x, if ExactlyX sign 2 2 then flip_add y 1 else y).
(* 16-110 *)
Definition f_lengthdir (length angle : Z) : Z * Z :=
  let angle := if 360 <=? angle then snd (f_div angle 360) else angle in
  let (sign, tableangle) := ld_quadrant 90 angle in ld_xy sin_table length sign tableangle.
(* 113-198; 130: add 192, then clear all but the low byte *)
Definition f_lengthdir_256 (length angle : Z) : Z * Z :=
  let angle := do_modx SetTo (u32 (Z.lnot 255)) (add angle 192) 0 in
  let (sign, tableangle) := ld_quadrant 64 angle in ld_xy sin_table_256 length sign tableangle.
