(** Texts: Go strings as lists of bytes. *)
From Coq Require Import NArith String Ascii Bool List.
Import ListNotations.
Open Scope N_scope.

(** Go strings, the input of wat/lex/lexer.go:32 and wit/lex/lexer.go:33 *)
Definition text := list ascii.
(** A string constant of the source, as at wat/lex/lexer.go:594-597 *)
Definition txt (s : string) : text := list_ascii_of_string s.

(** == on strings, as at wat/parse/parser.go:902 *)
Definition text_eqb (a b : text) : bool := if list_eq_dec ascii_dec a b then true else false.

(** 'lo' <= ch && ch <= 'hi' on bytes. wat/lex/lexer.go:652-697. *)
Definition between (lo hi ch : ascii) : bool :=
  (N_of_ascii lo <=? N_of_ascii ch) && (N_of_ascii ch <=? N_of_ascii hi).

(** The byte written '\n' at wat/lex/lexer.go:152-189 *)
Definition newline : ascii := ascii_of_N 10.

(** strings.HasPrefix followed by strings.TrimPrefix: the rest after the
    prefix, if it is there. wat/lex/lexer.go:482,559-560,584-585. *)
Fixpoint trim_prefix (p s : text) : option text :=
  match p, s with
  | [], _ => Some s
  | a :: p', b :: s' => if Ascii.eqb a b then trim_prefix p' s' else None
  | _ :: _, [] => None
  end.

(** Go map lookup with a string key. wat/lex/lexer.go:600. *)
Fixpoint text_get {A} (m : list (text * A)) (k : text) : option A :=
  match m with
  | [] => None
  | (k', v) :: m' => if text_eqb k' k then Some v else text_get m' k
  end.
