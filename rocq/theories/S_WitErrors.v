(** Specification of the lexical errors of WIT: where there is one. *)
From Coq Require Import Arith NArith String Ascii List.
From Verif Require Import M_Text S_Utf M_WitLex S_WitLex.
Import ListNotations.

(** [v] is the first character of [s], which no token starts with, or the
    first byte where there is no character at all. *)
Definition strange (U : tables) (s v : text) : Prop :=
  (exists t, s = v ++ t) /\
  ((exists r, scalar_value r /\ bytes v = sp_utf8 r /\
      ~ space r /\ ~ letter U r /\ ~ digit U r /\ ~ In r (map code (txt "/=,:.;(){}<>*@-+%_"))) \/
   (length v = 1%nat /\ ~ begins (fun _ => True) s)).

(** A block comment that is not closed up to the end of the input. *)
Definition unclosed (s : text) : Prop :=
  exists u, s = txt "/*" ++ u /\ forall a t, u = a ++ t -> ~ closes a.

(** Nothing starts at [s]; [v] is what the lexer has read when it finds out. *)
Definition unreadable (U : tables) (s v : text) : Prop :=
  strange U s v \/ (unclosed s /\ v = s).

(** The line and column, counted from zero, of the place [p] of the input. *)
Definition place_of (input : text) (p line column : nat) : Prop :=
  line = newlines (firstn p input) /\ exists l, last_line (firstn p input) l /\ column = length l.
