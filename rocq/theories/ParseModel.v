(* f_parse: numbers in texts.  Source: src/eudplib/string/parse.py

   Variable level: number, digits, b, radix are the contents of EUDVariables;
   a text is the list of its bytes, every byte after the end reads 0 (the text
   is terminated).  The next pointers the code rewrites (jumper, cont,
   is_digit, fin) select which of the functions below runs next. *)
From Coq Require Import ZArith List Bool.
From Verif Require Import Word.
Import ListNotations.
Open Scope Z_scope.

(* SetNumberX(v, mask), AtLeastX(v, mask) on a variable (rawtrigger, C02/C06) *)
Definition setx (x v mask : Z) : Z := Z.lor (Z.ldiff x mask) (Z.land v mask).
Definition atleastx (x v mask : Z) : bool := v <=? Z.land x mask.

Definition b31 : Z := 2147483648.
Definition b30 : Z := 1073741824.

(* 20-38 _trim: the byte sets digits to 1 << 31 if it is one of " \t\n\f\r" *)
Definition trim_digits (b digits : Z) : Z :=
  fold_left (fun d w => if b =? w then b31 else d) [32; 9; 10; 12; 13] digits.
(* 45-57 _sign: new digits, and whether cont goes back to loopstart *)
Definition sign_step (b digits : Z) : Z * bool :=
  let '(digits, loop) := if b =? 45 then (b31, true) else (digits, false) in
  (digits, if b =? 43 then true else loop).

(* 85-115: one decimal digit, b already has ord("0") subtracted *)
Definition dw_digit (number digits b : Z) : Z * Z :=
  let cutoff := 0x7FFFFFFF / 10 in
  let cutlim := 0x7FFFFFFF mod 10 in
  let digits := if (number =? cutoff) && atleastx digits (cutlim + 1) (b31 - 1) then setx digits b30 b30 else digits in
  let digits := if cutoff + 1 <=? number then setx digits b30 b30 else digits in
  let number := u32 (number * 10) in
  let digits := if number =? 0 then setx digits 0 (b30 - 1) else digits in
  let digits := u32 (digits + 1) in
  let number := u32 (number + b) in
  let digits := if atleastx digits 11 (b30 - 1) then setx digits 10 (b30 - 1) else digits in
  (number, digits).
(* 73-81: b is a digit: go on to the continue point, else break *)
Definition is_digit (b : Z) : bool := (48 <=? b) && (b <=? 57).
Fixpoint dw_digits (text : list Z) (number digits : Z) : Z * Z :=
  match text with
  | [] => (number, digits)                        (* byte 0 *)
  | b :: r =>
      if is_digit b then let (number, digits) := dw_digit number digits (b - 48) in dw_digits r number digits
      else (number, digits)
  end.
(* 62-81: jumper leads to trim until a byte is no white space, then past the sign *)
Fixpoint dw_start (text : list Z) (number digits : Z) : Z * Z :=
  match text with
  | [] => (number, digits)
  | b :: r =>
      let digits := trim_digits b digits in
      if digits =? b31 then dw_start r number 0
      else let (digits, loop) := sign_step b digits in
           if loop then dw_digits r number digits else dw_digits text number digits
  end.
(* 117-127 *)
Definition finish (nd : Z * Z) : Z * Z :=
  let (number, digits) := nd in
  let number := if atleastx digits 1 b30 then 0x7FFFFFFF else number in
  let number := if atleastx digits 1 b31 then u32 (- number) else number in
  (number, setx digits 0 (3 * b30)).
(* 59-129 _parse_dw *)
Definition parse_dw (text : list Z) : Z * Z := finish (dw_start text 0 0).

(* 196-218: digit value of a letter or digit, None: leave the loop *)
Definition alnum (b : Z) : option Z :=
  if is_digit b then Some (b - 48)
  else if (97 <=? b) && (b <=? 122) then Some (b - 87)
  else if (65 <=? b) && (b <=? 90) then Some (b - 55)
  else None.
(* 223-243; cutlim already incremented (188) *)
Definition rx_digit (radix cutoff cutlim number digits b : Z) : Z * Z :=
  let digits := if atleastx digits 1 b30 then u32 (digits - 1) else digits in
  let digits :=
    if (number =? cutoff) && atleastx digits cutlim (b31 - 1) then setx digits b30 b30
    else if u32 (cutoff + 1) <=? number then setx digits b30 b30 else digits in
  let number := u32 (number * radix) in
  let digits := if number =? 0 then setx digits 0 (b30 - 1) else digits in
  (u32 (number + b), u32 (digits + 1)).
Fixpoint rx_digits (radix cutoff cutlim : Z) (text : list Z) (number digits : Z) : Z * Z :=
  match text with
  | [] => (number, digits)
  | b :: r =>
      match alnum b with
      | None => (number, digits)
      | Some v => if radix <=? v then (number, digits)                 (* 221 EUDBreakIf(b >= radix) *)
                  else let (number, digits) := rx_digit radix cutoff cutlim number digits v in
                       rx_digits radix cutoff cutlim r number digits
      end
  end.
(* 180-189 assume_decimal, cont: text still holds the byte under b *)
Definition rx_decimal (radix : Z) (text : list Z) (number digits : Z) : Z * Z :=
  let radix := if radix =? 0 then 10 else radix in
  rx_digits radix (0xFFFFFFFF / radix) (u32 (0xFFFFFFFF mod radix + 1)) text number digits.
(* 166-178: after a leading zero: a literal prefix that fits the radix is skipped *)
Definition literals : list (Z * Z) := [(98, 2); (66, 2); (111, 8); (79, 8); (120, 16); (88, 16)].
Definition literal_step (b : Z) (s : Z * bool) (lit : Z * Z) : Z * bool :=
  let '(radix, loop) := s in
  let loop := if (b =? fst lit) && (radix =? snd lit) then true else loop in
  if (b =? fst lit) && (radix =? 0) then (snd lit, true) else (radix, loop).
Definition rx_literal (radix : Z) (text : list Z) (number digits : Z) : Z * Z :=
  match text with
  | [] => (number, digits)
  | b :: r =>
      let (radix, loop) := fold_left (literal_step b) literals (radix, false) in
      rx_decimal radix (if loop then r else text) number digits
  end.
(* 150-162 is_zero *)
Definition rx_zero (radix : Z) (text : list Z) (number digits : Z) : Z * Z :=
  match text with
  | [] => (number, digits)
  | b :: r => if b =? 48 then rx_literal radix r number (u32 (digits + 1)) else rx_decimal radix text number digits
  end.
Fixpoint rx_start (radix : Z) (text : list Z) (number digits : Z) : Z * Z :=
  match text with
  | [] => (number, digits)
  | b :: r =>
      let digits := trim_digits b digits in
      if digits =? b31 then rx_start radix r number 0
      else let (digits, loop) := sign_step b digits in
           rx_zero radix (if loop then r else text) number digits
  end.
(* 131-257 _parse_from_radix *)
Definition parse_radix (radix : Z) (text : list Z) : Z * Z := finish (rx_start radix text 0 0).
(* 267-291 f_parse *)
Definition f_parse (text : list Z) (radix : Z) : Z * Z :=
  if radix =? 10 then parse_dw text else parse_radix radix text.
