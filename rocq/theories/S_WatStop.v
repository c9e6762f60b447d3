(** Specification of where the errors of a WAT file are: which sequences of
    tokens begin a file. How a text is cut into tokens is [cut] of
    S_WatParse.v. *)
From Coq Require Import Arith NArith String Ascii List.
From Verif Require Import GoBase M_Text M_WatLex M_WatAst S_WatLex S_WatParse M_WatParse.
Import ListNotations.

(** Parse accepts a file that consists of these tokens, with whitespace and
    comments. ([swap] is the order in which the lexer tries its rules, [pf]
    is strconv.ParseFloat.) *)
Definition acceptable (swap : bool) (pf : text -> option N) (w : list tk) : Prop :=
  exists input ts d, fst (parse pf (new_lexer swap input)) = Ok d /\ input = text_of ts /\ cut ts [] /\ significant ts = w.
