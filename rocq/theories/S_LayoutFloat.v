(** What is assumed of math.Log2. *)
From Coq Require Import NArith ZArith Reals.
From Flocq Require Import IEEE754.BinarySingleNaN.
From Verif Require Import M_AlignFloat.

(** On positive integers, it is exact for powers of two and within 2^-30
    otherwise (Go's documentation promises the former; its Log is within one
    unit in the last place). *)
Definition accurate_log2 (log2 : float64 -> float64) : Prop :=
  forall n : N, (0 < n < 2 ^ 53)%N ->
    let x := log2 (of_uint n) in
    is_finite x = true /\
    (Rabs (B2R x - ln (IZR (Z.of_N n)) / ln 2) <= / IZR (2 ^ 30))%R /\
    (forall k : Z, Z.of_N n = 2 ^ k -> 0 <= k -> B2R x = IZR k)%Z.
