(** The other two places where the layout code computes with float64:
    DiscriminantType and NumI32Flags. [M_Layout] has the ranges of their
    results; [L_LayoutFloat] proves them equal. *)
From Coq Require Import NArith ZArith List String.
From Flocq Require Import IEEE754.BinarySingleNaN.
From Verif Require Import GoBase M_Types M_AlignFloat.
Open Scope N_scope.

(** uint64(x) on amd64. Values outside int64 are taken to 2^63; the
    instruction sequence gives other large numbers for some of them. Used at
    abi/io/alignment.go:119. *)
Definition to_u64 (x : float64) : N :=
  let z := Btrunc x in
  if (andb (0 <=? z) (z <? 2 ^ 63))%Z then Z.to_N z else 9223372036854775808.

(** abi/io/alignment.go:113-130 DiscriminantType; [log2] is math.Log2. The test
    against math.MaxInt always holds. *)
Definition discriminant_float (log2 : float64 -> float64) (n : nat) : outcome valtype :=
  if N.of_nat n =? 0 then Err EOther
  else match to_u64 (fceil (fdiv (log2 (of_uint (N.of_nat n))) (of_uint 8))) with
       | 0 => Ok TU8
       | 1 => Ok TU8
       | 2 => Ok TU16
       | 3 => Ok TU32
       | _ => Err EOther
       end.

(** abi/io/size.go:130-132 NumI32Flags *)
Definition num_flags_float (labels : list string) : N :=
  to_u32 (fceil (fdiv (of_uint (N.of_nat (List.length labels))) (of_uint 32))).
