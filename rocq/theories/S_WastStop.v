(** Specification of where the errors of a WAST file are: which sequences of
    tokens are those of a script. *)
From Coq Require Import Arith NArith String Ascii List.
From Verif Require Import GoBase M_Text M_WatLex M_WatAst S_WatLex S_WatParse M_WastParse.
Import ListNotations.

(** Parse accepts a file that consists of these tokens, with whitespace and
    comments. ([swap] is the order in which the lexer tries its rules, [pf]
    is strconv.ParseFloat.) *)
Definition script_tokens (swap : bool) (pf : text -> option N) (w : list tk) : Prop :=
  exists input ts ds, ParseWast pf swap input = Ok ds /\ input = text_of ts /\ cut ts [] /\ significant ts = w.
