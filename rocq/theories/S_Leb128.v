(** Specification of unsigned LEB128, independent of the model. *)
From Coq Require Import NArith List.
Import ListNotations.
Open Scope N_scope.

(** Value of a little-endian sequence of 7-bit groups. *)
Fixpoint leb_value (bs : list N) : N :=
  match bs with
  | [] => 0
  | b :: bs' => b mod 128 + 128 * leb_value bs'
  end.

(** Bytes with the continuation bit / without it. *)
Definition more_byte (b : N) : Prop := 128 <= b < 256.
Definition last_byte (b : N) : Prop := b < 128.

(** A LEB128 encoding: continuation bytes followed by one final byte. *)
Inductive leb_form : list N -> Prop :=
| leb_last b : last_byte b -> leb_form [b]
| leb_more b bs : more_byte b -> leb_form bs -> leb_form (b :: bs).
