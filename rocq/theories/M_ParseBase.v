(** What the recursive descent parsers (wat/parse/parser.go,
    wast/parse/parser.go, wit/parse/parser.go) have in common: functions that
    change a lexer and return a types.Result, Unwrap, the deferred
    handle.Error, and the helpers next, peek, expect and eat, of which each
    package has its own copy of the same code. *)
From Coq Require Import Arith NArith String Ascii Bool List.
From Verif Require Import GoBase M_Text.
Import ListNotations.

(** A function from a *Lexer to a types.Result[A]; [Panic] is a panic that
    leaves the function. The panics of Unwrap carry the error; error values
    are not modelled, so [Panic] carries nothing. For example
    wat/parse/parser.go:27. *)
Definition parser (L A : Type) : Type := L -> outcome A * L.

(** return result.Ok(...), wat/parse/parser.go:44 for one *)
Definition pret {L A} (a : A) : parser L A := fun l => (Ok a, l).

(** return result.Errorf(...) and return result.Error(...).
    wat/parse/parser.go:42 for one. *)
Definition perr {L A} : parser L A := fun l => (Err EOther, l).

(** Unwrap of the result: panics on an error. wat/parse/parser.go:29 for one.
    *)
Definition unwrap {L A} (p : parser L A) : parser L A :=
  fun l => match p l with (Err _, l') => (Panic, l') | r => r end.

(** defer handle.Error(&res): a panic with an error becomes the result. All
    panics inside the parsers come from Unwrap. wat/parse/parser.go:28 for
    one. *)
Definition handled {L A} (p : parser L A) : parser L A :=
  fun l => match p l with (Panic, l') => (Err EOther, l') | r => r end.

(** Statements in sequence, without Unwrap. wat/parse/parser.go:27-44 for one.
    *)
Definition pbind {L A B} (p : parser L A) (f : A -> parser L B) : parser L B :=
  fun l => match p l with
           | (Ok a, l') => f a l'
           | (Err e, l') => (Err e, l')
           | (Panic, l') => (Panic, l')
           | (Diverge, l') => (Diverge, l')
           end.

Declare Scope parse_scope.
(** x := e.Unwrap(); f *)
Notation "'plet' x ':=' e 'in' f" := (pbind (unwrap e) (fun x => f))
  (at level 200, x pattern, e at level 100, f at level 200, right associativity) : parse_scope.
Notation "e ';;>' f" := (pbind (unwrap e) (fun _ => f)) (at level 110, right associativity) : parse_scope.
Open Scope parse_scope.

(** A loop that ran out of fuel. The theorems show that this never happens. Go
    has no fuel: the loops are those of wat/parse/parser.go:51-73, 917-952 and
    the like. *)
Definition pdiverge {L A} : parser L A := fun l => (Diverge, l).

(** clone := lexer.Clone(); run [p] on the clone; keep the clone ( *lexer =
    *clone ) if it says so, else go on with the lexer as it was. Simplified:
    after a failure the state is that of the clone, on which the error was
    found; in Go the lexer itself is left as it was. The parse has failed
    then, and nothing is read from that lexer any more.
    wat/parse/parser.go:705-738, wast/parse/parser.go:44, 135,
    wit/parse/parser.go:239, 723. *)
Definition trial {L A} (p : parser L (option A)) : parser L (option A) :=
  fun l => match p l with
           | (Ok None, _) => (Ok None, l)
           | r => r
           end.

(** ** Skipping whitespace and comments *)
Section Skip.
Context {Lx T : Type}.
Variable lex_next lex_peek : Lx -> outcome T * Lx.
Variable skipped : T -> bool.

(** wat/parse/parser.go:917-935 next; wast/parse/parser.go:394-412;
    wit/parse/parser.go:944-962. [Diverge] when [fuel] runs out. *)
Fixpoint next_loop (fuel : nat) : parser Lx T :=
  match fuel with
  | O => pdiverge
  | S n => plet t := lex_next in if skipped t then next_loop n else pret t
  end.

(** wat/parse/parser.go:937-952 peek; wast/parse/parser.go:414-427;
    wit/parse/parser.go:927-942 *)
Fixpoint peek_loop (fuel : nat) : parser Lx T :=
  match fuel with
  | O => pdiverge
  | S n =>
      plet t := lex_peek in
      if skipped t then (plet _ := lex_next in peek_loop n) else pret t
  end.
End Skip.

(** ** Parsers over any source of tokens. The parsers look only at the type
    and the captured text of a token; its position is used in error messages
    alone. *)
(** The lexers as next and peek use them: wat/parse/parser.go:917-952,
    wast/parse/parser.go:394-427, wit/parse/parser.go:927-962 *)
Record source (L K : Type) := { s_next : parser L (K * text); s_peek : parser L (K * text) }.
Arguments s_next {L K}.
Arguments s_peek {L K}.

Section Helpers.
Context {L K : Type}.
Variable eqb : K -> K -> bool.
Variable S : source L K.

(** wat/parse/parser.go:908-915 expect; wast/parse/parser.go:385-392;
    wit/parse/parser.go:918-925 *)
Definition expect (k : K) : parser L unit :=
  handled (plet t := s_next S in if eqb (fst t) k then pret tt else perr).

(** wat/parse/parser.go:883-893 eat; wast/parse/parser.go:361-371;
    wit/parse/parser.go:906-916 *)
Definition eat (k : K) : parser L bool :=
  handled (plet t := s_peek S in if eqb (fst t) k then (expect k ;;> pret true) else pret false).

(** wat/parse/parser.go:895-906 expectValue; wast/parse/parser.go:373-383 *)
Definition expect_value (k : K) (capture : text) : parser L unit :=
  handled (plet t := s_next S in
    if eqb (fst t) k then (if text_eqb (snd t) capture then pret tt else perr) else perr).

(** for eat(lexer, k).Unwrap() { x := body.Unwrap(); ... append }.
    wat/parse/parser.go:351, 532; wast/parse/parser.go:261, 332. *)
Fixpoint while_eat {A} (fuel : nat) (k : K) (body : parser L A) : parser L (list A) :=
  match fuel with
  | O => pdiverge
  | Datatypes.S n =>
      plet b := eat k in
      if b then (plet x := body in plet xs := while_eat n k body in pret (x :: xs))
      else pret []
  end.
End Helpers.
