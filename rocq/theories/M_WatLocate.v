(** Model of the places that the errors of wat/parse/parser.go name: the
    parser over the lexer, with a note of the last token it was given.
    parseError (954-962) is called with that token, and its line, column and
    position are printed. Two kinds of messages do not name it: line 70
    (unrecognized module section) and the errors of strconv (547, 782-783, 785-786,
    801-805, 850-851, 866, 880). After an error of the lexer there is no token;
    its message is modelled in M_LexErrors.v. *)
From Coq Require Import Arith NArith List.
From Verif Require Import GoBase M_Text M_WatLex M_ParseBase M_WatAst M_WatParse.

(** The lexer, and the token at hand when parseError is called
    (wat/parse/parser.go:954-962) *)
Record noted := { no_lexer : lexer; no_token : option token }.

(** The results of next and peek, wat/parse/parser.go:917-952, with a note of
    the token *)
Definition note (p : parser lexer token) : parser noted (toktype * text) :=
  fun s => match p (no_lexer s) with
           | (Ok t, l) => (Ok (view t), {| no_lexer := l; no_token := Some t |})
           | (Err e, l) => (Err e, {| no_lexer := l; no_token := None |})
           | (Panic, l) => (Panic, {| no_lexer := l; no_token := None |})
           | (Diverge, l) => (Diverge, {| no_lexer := l; no_token := None |})
           end.
Definition noting : source noted toktype :=
  {| s_next := note (handled (fun l => next_loop next skipped (rounds l) l));
     s_peek := note (handled (fun l => peek_loop next peek skipped (rounds l) l)) |}.

(** wat/parse/parser.go:19-21 Parse, with the lexer and the token at the end *)
Definition ParseAt (pf : text -> option N) (l : lexer) : outcome directive * noted :=
  parse_directive noting pf (S (rounds l)) {| no_lexer := l; no_token := None |}.

(** The token that the message of an error is about. The argument of
    wat/parse/parser.go:954-962. *)
Definition error_token (pf : text -> option N) (l : lexer) : option token := no_token (snd (ParseAt pf l)).
(** wat/parse/parser.go:954-962 parseError: the line, the column and the
    position that it prints *)
Definition parse_error (t : token) : nat * nat * nat := (S (t_line t), S (t_column t), t_position t).
