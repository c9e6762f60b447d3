(** AlignTo with the float64 arithmetic the Go code uses. [M_Layout.align_to]
    computes with integers; [L_AlignFloat] proves the two equal. *)
From Coq Require Import NArith ZArith.
From Flocq Require Import IEEE754.BinarySingleNaN.
From Verif Require Import GoBase.

(** Go's float64: IEEE-754 binary64. The type used at abi/io/alignment.go:11.
    *)
Definition float64 := binary_float 53 1024.
(** Precision of that type (abi/io/alignment.go:11), for Flocq *)
Definition prec64 : (0 < 53)%Z := eq_refl.
(** Exponent range of that type (abi/io/alignment.go:11), for Flocq *)
Definition emax64 : (53 < 1024)%Z := eq_refl.

(** float64(n) for an unsigned n: round to nearest even. Used at
    abi/io/alignment.go:11. *)
Definition of_uint (n : N) : float64 :=
  binary_normalize 53 1024 prec64 emax64 mode_NE (Z.of_N n) 0 false.
(** The operators / and * on float64. Used at abi/io/alignment.go:11. *)
Definition fdiv (x y : float64) : float64 := @Bdiv 53 1024 prec64 emax64 mode_NE x y.
(** Used at abi/io/alignment.go:11 *)
Definition fmul (x y : float64) : float64 := @Bmult 53 1024 prec64 emax64 mode_NE x y.
(** math.Ceil. Used at abi/io/alignment.go:11. *)
Definition fceil (x : float64) : float64 := @Bnearbyint 53 1024 emax64 mode_UP x.
(** uint32(x) on amd64: truncation to int64, low 32 bits. Outside int64 and
    for NaN the instruction gives 2^63, whose low bits are 0; [Btrunc] is 0 on
    NaN and infinities. Used at abi/io/alignment.go:11. *)
Definition to_u32 (x : float64) : N :=
  let z := Btrunc x in
  if (andb (- 2 ^ 63 <=? z) (z <? 2 ^ 63))%Z then Z.to_N (z mod 2 ^ 32) else 0%N.

(** abi/io/alignment.go:10-12 AlignTo, operation by operation. *)
Definition align_to_float (ptr alignment : N) : outcome N :=
  Ok (to_u32 (fmul (fceil (fdiv (of_uint ptr) (of_uint alignment))) (of_uint alignment))).
