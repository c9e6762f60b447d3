(** Model of the places that the errors of wit/parse/parser.go name: the
    parser over the lexer, with a note of the last token it was given. At
    lines 186, 437, 756, 891, 903 and 924 parseError is called with that
    token, whose line, column and position are printed (968-976). Three
    messages do not name it: line 370 (not implemented), line 900 (the error
    of strconv) and line 661, which names the place of the lexer
    (parseErrorFromLexer, 978-985). After an error of the lexer there is no
    token; its message is modelled in M_LexErrors.v. *)
From Coq Require Import Arith List.
From Verif Require Import GoBase M_Text M_WitLex M_ParseBase M_WitAst M_WitParse.

(** The lexer, and the token at hand when parseError is called
    (wit/parse/parser.go:968-976) *)
Record noted := { no_lexer : lexer; no_token : option token }.

Section Note.
Variable U : tables.

(** The results of next and peek, wit/parse/parser.go:927-962, with a note of
    the token *)
Definition note (p : parser lexer token) : parser noted (toktype * text) :=
  fun s => match p (no_lexer s) with
           | (Ok t, l) => (Ok (view t), {| no_lexer := l; no_token := Some t |})
           | (Err e, l) => (Err e, {| no_lexer := l; no_token := None |})
           | (Panic, l) => (Panic, {| no_lexer := l; no_token := None |})
           | (Diverge, l) => (Diverge, {| no_lexer := l; no_token := None |})
           end.
Definition noting : source noted toktype :=
  {| s_next := note (handled (fun l => next_loop (next U) skipped (rounds l) l));
     s_peek := note (handled (fun l => peek_loop (next U) (peek U) skipped (rounds l) l)) |}.

(** wit/parse/parser.go:18-21 Parse, with the lexer and the token at the end *)
Definition ParseAt (input : text) : outcome ast * noted :=
  let l := new_lexer input in parse_ast noting (S (rounds l)) {| no_lexer := l; no_token := None |}.

(** The token that the message of an error is about. The argument of
    wit/parse/parser.go:968-976. *)
Definition error_token (input : text) : option token := no_token (snd (ParseAt input)).
(** wit/parse/parser.go:968-976 parseError: the line, the column and the
    position that it prints *)
Definition parse_error (t : token) : nat * nat * nat := (S (t_line t), S (t_column t), t_position t).
(** wit/parse/parser.go:978-985 parseErrorFromLexer: the line and the column
    that it prints *)
Definition parse_error_from_lexer (input : text) : nat * nat :=
  let l := no_lexer (snd (ParseAt input)) in (S (l_line l), S (l_column l)).
End Note.
