(** Specification of the labels of tuple fields and union cases: positions in
    decimal. *)
From Coq Require Import NArith Ascii String.
Open Scope N_scope.

Definition digit (c : ascii) : Prop := 48 <= N_of_ascii c <= 57.
Fixpoint digits (s : string) : Prop :=
  match s with EmptyString => True | String c s' => digit c /\ digits s' end.

(** The number that digits stand for after the digits of [n]. *)
Fixpoint reads_after (n : N) (s : string) : N :=
  match s with EmptyString => n | String c s' => reads_after (n * 10 + (N_of_ascii c - 48)) s' end.

(** [s] is the decimal numeral of [n]: digits, without leading zeros. *)
Definition decimal (n : N) (s : string) : Prop :=
  digits s /\ reads_after 0 s = n /\
  match s with
  | EmptyString => False
  | String c s' => c = "0"%char -> s' = EmptyString
  end.
