(** Model of what a lexer says about an error: the arguments of the format
    string of lexerError, taken from the lexer as the failing call left it.
    The wording around them is not modelled. *)
From Coq Require Import Arith Ascii List.
From Verif Require Import M_Text.
From Verif Require M_WatLex M_WitLex.

(** The numbers printed at wat/lex/lexer.go:710-712 and
    wit/lex/lexer.go:325-327 *)
Record report := { r_line : nat; r_column : nat; r_position : nat }.

(** wat/lex/lexer.go:710-712 lexerError: line, column, position and the
    quoted text *)
Definition wat_error (l : M_WatLex.lexer) : report * text :=
  ({| r_line := M_WatLex.l_line l; r_column := M_WatLex.l_column l; r_position := M_WatLex.l_position l |},
   M_WatLex.capture l).

(** wit/lex/lexer.go:325-327 lexerError: line, column and position. The
    character named after it at line 176 is not modelled. *)
Definition wit_error (l : M_WitLex.lexer) : report :=
  {| r_line := M_WitLex.l_line l; r_column := M_WitLex.l_column l; r_position := M_WitLex.l_position l |}.
