(** Model of the places that the errors of wast/parse/parser.go name: as in
    M_WatLocate.v, the parser with a note of the last token it was given.
    parseError (429-437) is called with that token. The errors of
    watparse.Parse (181-189), which the parser passes on, are those of
    M_WatLocate.v. These messages do not name the token: lines 325 (get is not
    implemented) and 172 (not reachable), and the errors of strconv. After an
    error of the lexer there is no token. *)
From Coq Require Import Arith NArith List.
From Verif Require Import GoBase M_Text M_WatLex M_ParseBase M_WatAst M_WatParse M_WastParse M_WatLocate.

(** wast/parse/parser.go:17-20 Parse, with the lexer and the token at the end *)
Definition ParseWastAt (pf : text -> option N) (swap : bool) (input : text) : outcome (list wdirective) * noted :=
  let l := new_lexer swap input in parse_wast noting pf (S (rounds l)) {| no_lexer := l; no_token := None |}.

(** The token that the message of an error is about. The argument of
    wast/parse/parser.go:429-437. *)
Definition wast_error_token (pf : text -> option N) (swap : bool) (input : text) : option token :=
  no_token (snd (ParseWastAt pf swap input)).
