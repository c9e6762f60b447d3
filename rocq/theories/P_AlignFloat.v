(** Property C04, for the float64 arithmetic of the Go code. *)
From Coq Require Import NArith ZArith Lia.
From Verif Require Import GoBase M_Types M_Layout S_Layout L_Layout M_AlignFloat L_AlignFloat P_Layout.
Open Scope N_scope.

(** AlignTo as written in Go (two conversions, a division, Ceil, a
    multiplication and a conversion back, each rounding as IEEE-754 says)
    computes what the integer model computes. *)
Theorem align_float_as_integers : forall ptr a, ptr < 2 ^ 32 -> a < 2 ^ 32 ->
  align_to_float ptr a = align_to ptr a.
Proof. exact align_float_exact. Qed.
Print Assumptions align_float_as_integers.

(** So it returns the least multiple not below the pointer, if that fits. *)
Theorem align_float_least : forall ptr a y, ptr < 2 ^ 32 -> 0 < a < 2 ^ 32 ->
  least_multiple a ptr y -> y < 2 ^ 32 -> align_to_float ptr a = Ok y.
Proof.
  intros ptr a y Hp Ha H Hy. rewrite align_float_exact by lia.
  apply align_to_least; [lia | exact H | exact Hy].
Qed.
Print Assumptions align_float_least.

(** A quotient that float64 cannot represent: 4294967291 / 3. *)
Example align_float_least_ex : least_multiple 3 4294967291 4294967292
  /\ align_to_float 4294967291 3 = Ok 4294967292.
Proof.
  assert (least_multiple 3 4294967291 4294967292) as H.
  { split; [exists 1431655764; reflexivity|]. split; [lia|]. intros z [k ->] K. lia. }
  split; [exact H|]. apply align_float_least; [reflexivity | lia | exact H | reflexivity].
Qed.
