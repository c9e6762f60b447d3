(** Specification of IEEE 754 floats as bit patterns, as far as C56 needs it. *)
From Coq Require Import NArith ZArith Bool.
Open Scope N_scope.

(** A format: the number of bits of the fraction and of the exponent. *)
Record format := mkFormat { fraction_bits : N; exponent_bits : N }.
Definition binary32 : format := mkFormat 23 8.
Definition binary64 : format := mkFormat 52 11.

(** The three fields of a bit pattern. *)
Definition sign_field (f : format) (b : N) : N := b / 2 ^ (fraction_bits f + exponent_bits f).
Definition exponent_field (f : format) (b : N) : N := b / 2 ^ fraction_bits f mod 2 ^ exponent_bits f.
Definition fraction_field (f : format) (b : N) : N := b mod 2 ^ fraction_bits f.

Definition is_pattern (f : format) (b : N) : Prop := b < 2 ^ (1 + exponent_bits f + fraction_bits f).
Definition all_ones (f : format) : N := 2 ^ exponent_bits f - 1.

Definition finite (f : format) (b : N) : Prop := exponent_field f b <> all_ones f.
Definition infinite (f : format) (b : N) : Prop := exponent_field f b = all_ones f /\ fraction_field f b = 0.
Definition not_a_number (f : format) (b : N) : Prop := exponent_field f b = all_ones f /\ fraction_field f b <> 0.

(** The finite numbers of a format are multiples of its smallest positive
    number, which is 2 to the power of [- places]: 149 for binary32, 1074 for
    binary64. *)
Definition places (f : format) : N := 2 ^ (exponent_bits f - 1) - 2 + fraction_bits f.

(** How many of them a finite pattern stands for: subnormal numbers have no
    implicit bit, and the exponent of the smallest normal ones. *)
Definition magnitude (f : format) (b : N) : N :=
  if exponent_field f b =? 0 then fraction_field f b
  else (2 ^ fraction_bits f + fraction_field f b) * 2 ^ (exponent_field f b - 1).
Definition units (f : format) (b : N) : Z :=
  if sign_field f b =? 0 then Z.of_N (magnitude f b) else (- Z.of_N (magnitude f b))%Z.

(** The patterns [b] of the format [f] and [b'] of [f'] stand for the same
    number; the zeros of the two signs and the two infinities are different. *)
Definition same_number (f f' : format) (b b' : N) : Prop :=
  (not_a_number f b <-> not_a_number f' b') /\
  (infinite f b <-> infinite f' b') /\
  sign_field f b = sign_field f' b' /\
  (finite f b -> (units f b * 2 ^ Z.of_N (places f') = units f' b' * 2 ^ Z.of_N (places f))%Z).

(** The finite pattern [b] is the nearest to the integer [z]: no other finite
    number is nearer, and of two that are equally near it is the one whose last
    bit is zero. *)
Definition distance (f : format) (z : Z) (b : N) : Z := Z.abs (z * 2 ^ Z.of_N (places f) - units f b).
Definition nearest (f : format) (z : Z) (b : N) : Prop :=
  is_pattern f b /\ finite f b /\
  forall b', is_pattern f b' -> finite f b' ->
    (distance f z b <= distance f z b')%Z /\
    (distance f z b = distance f z b' -> units f b <> units f b' -> N.even b = true).
