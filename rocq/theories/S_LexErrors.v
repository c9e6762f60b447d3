(** Specification of the lexical errors of WAT: where there is one and what
    it should say. *)
From Coq Require Import Arith Ascii List.
From Verif Require Import M_Text M_WatLex S_WatLex M_LexErrors.
Import ListNotations.

(** No token and no comment starts here: a character that is neither blank nor part of
    a word nor a parenthesis, quotation mark or semicolon, or a semicolon followed by
    something else than a semicolon. *)
Definition no_start (s : text) : Prop :=
  exists c r, s = c :: r /\
    ((~ space c /\ ~ id_char c /\ ~ In c [";"%char; "("%char; ")"%char; quote]) \/
     (c = ";"%char /\ exists d r', r = d :: r' /\ d <> ";"%char)).

(** The line and column, counted from zero, of the place [p] of the input. *)
Definition place_of (input : text) (p line column : nat) : Prop :=
  line = newlines (firstn p input) /\ exists l, last_line (firstn p input) l /\ column = length l.
