(** Model of the functions of Go's strconv that the parsers call: ParseUint
    and ParseInt with base 0 and 32 bits, and Atoi, with the errors of syntax
    and range as one. The source is Go's standard library
    (strconv/atoi.go), not part of /repo. Also the conversions
    float32(int32) and float64(int64). *)
From Coq Require Import Arith NArith ZArith String Ascii Bool List.
From Verif Require Import GoBase M_Text.
Import ListNotations.
Open Scope N_scope.

(** strconv/atoi.go lower: the lower case of a letter (c | 0x20). Called at
    wat/parse/parser.go:547 (Atoi), 782-785, 801-804 (ParseInt, ParseUint),
    wit/parse/parser.go:900 (ParseInt). *)
Definition lower (c : ascii) : N := N.lor (N_of_ascii c) 32.

(** strconv/atoi.go ParseUint: the value of a digit in bases up to 36. Called
    at wat/parse/parser.go:547 (Atoi), 782-785, 801-804 (ParseInt, ParseUint),
    wit/parse/parser.go:900 (ParseInt). *)
Definition digit_value (c : ascii) : option N :=
  if between "0" "9" c then Some (N_of_ascii c - 48)
  else if (97 <=? lower c) && (lower c <=? 122) then Some (lower c - 97 + 10)
  else None.

(** strconv/atoi.go ParseUint, the loop over the bytes. [sep] says that
    underscores are skipped (base 0). The result is the value, or None for a
    syntax or range error. Numbers are not bounded by 64 bits here: ParseUint
    compares with a cutoff so as to fail exactly when the value so far times
    the base, plus the digit, exceeds the maximum. Called at
    wat/parse/parser.go:547 (Atoi), 782-785, 801-804 (ParseInt, ParseUint),
    wit/parse/parser.go:900 (ParseInt). *)
Fixpoint uint_loop (base maxval : N) (sep : bool) (s : text) (n : N) : option N :=
  match s with
  | [] => Some n
  | c :: s' =>
      if sep && Ascii.eqb c "_" then uint_loop base maxval sep s' n
      else match digit_value c with
           | None => None
           | Some d =>
               if base <=? d then None
               else if maxval <? n * base + d then None
               else uint_loop base maxval sep s' (n * base + d)
           end
  end.

(** strconv/atoi.go underscoreOK: what was last seen. Called at
    wat/parse/parser.go:547 (Atoi), 782-785, 801-804 (ParseInt, ParseUint),
    wit/parse/parser.go:900 (ParseInt). *)
Inductive saw := SawNothing | SawDigit | SawUnderscore | SawOther.

(** strconv/atoi.go underscoreOK, the loop over the number proper. Called at
    wat/parse/parser.go:547 (Atoi), 782-785, 801-804 (ParseInt, ParseUint),
    wit/parse/parser.go:900 (ParseInt). *)
Fixpoint underscore_loop (hex : bool) (s : text) (i : saw) : bool :=
  match s with
  | [] => match i with SawUnderscore => false | _ => true end
  | c :: s' =>
      if between "0" "9" c || hex && ((97 <=? lower c) && (lower c <=? 102)) then underscore_loop hex s' SawDigit
      else if Ascii.eqb c "_" then
        match i with SawDigit => underscore_loop hex s' SawUnderscore | _ => false end
      else match i with SawUnderscore => false | _ => underscore_loop hex s' SawOther end
  end.

(** strconv/atoi.go underscoreOK. Called at wat/parse/parser.go:547 (Atoi),
    782-785, 801-804 (ParseInt, ParseUint), wit/parse/parser.go:900
    (ParseInt). *)
Definition underscore_ok (s : text) : bool :=
  let s := match s with
           | c :: s' => if Ascii.eqb c "-" || Ascii.eqb c "+" then s' else s
           | [] => s
           end in
  match s with
  | c :: x :: s' =>
      if Ascii.eqb c "0" && ((lower x =? 98) || (lower x =? 111) || (lower x =? 120))
      then underscore_loop (lower x =? 120) s' SawDigit
      else underscore_loop false s SawNothing
  | _ => underscore_loop false s SawNothing
  end.

(** strconv/atoi.go ParseUint: base and digits of a text, for base 0. Called
    at wat/parse/parser.go:547 (Atoi), 782-785, 801-804 (ParseInt, ParseUint),
    wit/parse/parser.go:900 (ParseInt). *)
Definition base_prefix (s : text) : N * text :=
  match s with
  | c :: r =>
      if Ascii.eqb c "0" then
        match r with
        | x :: ((_ :: _) as d) =>
            if lower x =? 98 then (2, d)
            else if lower x =? 111 then (8, d)
            else if lower x =? 120 then (16, d)
            else (8, r)
        | _ => (8, r)
        end
      else (10, s)
  | [] => (10, s)
  end.

(** strconv/atoi.go ParseUint(s, 0, bits). Called at wat/parse/parser.go:547
    (Atoi), 782-785, 801-804 (ParseInt, ParseUint), wit/parse/parser.go:900
    (ParseInt). *)
Definition parse_uint (s : text) (bits : N) : option N :=
  match s with
  | [] => None
  | _ =>
      let (base, d) := base_prefix s in
      match uint_loop base (2 ^ bits - 1) true d 0 with
      | None => None
      | Some n => if existsb (Ascii.eqb "_") d && negb (underscore_ok s) then None else Some n
      end
  end.

(** The sign of a text (ParseInt, Atoi). Called at wat/parse/parser.go:547
    (Atoi), 782-785, 801-804 (ParseInt, ParseUint), wit/parse/parser.go:900
    (ParseInt). *)
Definition cut_sign (s : text) : bool * text :=
  match s with
  | c :: r => if Ascii.eqb c "+" then (false, r) else if Ascii.eqb c "-" then (true, r) else (false, s)
  | [] => (false, s)
  end.

(** strconv/atoi.go ParseInt: the checks against the cutoff. Called at
    wat/parse/parser.go:547 (Atoi), 782-785, 801-804 (ParseInt, ParseUint),
    wit/parse/parser.go:900 (ParseInt). *)
Definition signed_value (neg : bool) (bits : N) (un : N) : option Z :=
  let cutoff := 2 ^ (bits - 1) in
  if neg then (if cutoff <? un then None else Some (- Z.of_N un)%Z)
  else (if cutoff <=? un then None else Some (Z.of_N un)).

(** strconv/atoi.go ParseInt(s, 0, bits). A range error of ParseUint is one of
    ParseInt. Called at wat/parse/parser.go:547 (Atoi), 782-785, 801-804
    (ParseInt, ParseUint), wit/parse/parser.go:900 (ParseInt). *)
Definition parse_int (s : text) (bits : N) : option Z :=
  match s with
  | [] => None
  | _ =>
      let (neg, r) := cut_sign s in
      match parse_uint r bits with
      | None => None
      | Some un => signed_value neg bits un
      end
  end.

(** strconv/atoi.go Atoi on a 64 bit machine: base 10, no underscores. The
    short and the long way give the same. Called at wat/parse/parser.go:547
    (Atoi), 782-785, 801-804 (ParseInt, ParseUint), wit/parse/parser.go:900
    (ParseInt). *)
Definition atoi (s : text) : option Z :=
  let (neg, r) := cut_sign s in
  match r with
  | [] => None
  | _ =>
      match uint_loop 10 (2 ^ 64 - 1) false r 0 with
      | None => None
      | Some un => signed_value neg 64 un
      end
  end.

(** ** Integers to floats: the nearest float, ties to even. [m] bits of
    fraction, [w] bits of exponent; the result is the bit pattern. No int32
    or int64 is too large for the float. *)
(** float32(parseInt32(...)) and float64(parseInt64(...)),
    wat/parse/parser.go:435-446, wast/parse/parser.go:299-310 *)
Definition float_bits (m w : N) (z : Z) : N :=
  if Z.eqb z 0 then 0
  else
    let a := Z.to_N (Z.abs z) in
    let e := N.log2 a in
    let sign := if Z.ltb z 0 then 2 ^ (m + w) else 0 in
    let bias := 2 ^ (w - 1) - 1 in
    (* the significand, with its leading one, rounded; rounding up to 2^(m+1)
       carries into the exponent by itself *)
    let sig :=
      if e <=? m then a * 2 ^ (m - e)
      else
        let d := 2 ^ (e - m) in
        let q := a / d in
        let r := a mod d in
        if (d <? 2 * r) || ((d =? 2 * r) && N.odd q) then q + 1 else q in
    sign + (e + bias) * 2 ^ m + sig - 2 ^ m.

(** float32(i) and float64(i). wat/parse/parser.go:435,
    wast/parse/parser.go:299 *)
Definition float32_of_int (z : Z) : N := float_bits 23 8 z.
(** wat/parse/parser.go:446, wast/parse/parser.go:310 *)
Definition float64_of_int (z : Z) : N := float_bits 52 11 z.
