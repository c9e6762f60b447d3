(** Model of wast/parse/parser.go and wast/ast/ast.go. As in M_WatParse the
    parser is written over any source of tokens. wast/parse/parser.go:361-427
    has its own copies of eat, expectValue, expect, next and peek, with the
    same code as the ones of wat/parse/parser.go; the model has one. *)
From Coq Require Import Arith NArith ZArith String Ascii Bool List.
From Verif Require Import GoBase M_Text M_WatLex M_ParseBase M_Strconv M_WatAst M_WatParse.
Import ListNotations.
Open Scope parse_scope.

(** wast/ast/ast.go:16-18,25-38 QuoteWat, Wat, QuoteModule, QuoteComponent *)
Inductive quote_wat := QWat (d : directive) | QModule (quote : text) | QComponent (quote : text).

(** wast/ast/ast.go:80-110 Const, Result and the structs that implement both.
    Floats are bit patterns. A nil interface is [None] where it is used. *)
Inductive wconst := CI32 (v : Z) | CI64 (v : Z) | CF32 (bits : N) | CF64 (bits : N).

(** wast/ast/ast.go:64-78 Action, Invoke. Get is never built. A nil interface
    is [None]. *)
Record invoke := { in_name : option text; in_string : text; in_consts : list (option wconst) }.

(** wast/ast/ast.go:8-14,20-23,40-62 Directive, WatDirective, AssertInvalid,
    AssertMalformed, AssertTrap, AssertReturn *)
Inductive wdirective :=
| DWat (q : quote_wat)
| DInvalid (q : quote_wat) (failure : text)
| DMalformed (q : quote_wat) (failure : text)
| DTrap (a : option invoke) (failure : text)
| DReturn (a : option invoke) (results : list wconst).

Section Parser.
Context {L : Type}.
Variable src : source L toktype.
(** strconv.ParseFloat(s, 32), as in M_WatParse *)
Variable pf : text -> option N.

(** wast/parse/parser.go:444-450 peekInteger, with wat/parse Peek; the token's type *)
Definition peek_integer : parser L bool :=
  handled (plet t := pk src in pret (tok_eqb (fst t) TInteger)).

(** wast/parse/parser.go:345-351 peekFloat, with wat/parse Peek *)
Definition wast_peek_float : parser L bool :=
  handled (plet t := pk src in pret (tok_eqb (fst t) TFloat)).

(** wast/parse/parser.go:270-322 parseConst. There is no handle.Error. The
    helpers parseInt32 and so on (353-359, 439-442, 452-460) only call watparse. The
    cases ref.null and ref.extern leave c nil. *)
Definition parse_const : parser L (option wconst) :=
  plet t := nxt src in
  if tok_eqb (fst t) Reserved then
    if text_eqb (snd t) (txt "i32.const") then
      plet v := parse_int32 src in pret (Some (CI32 v))
    else if text_eqb (snd t) (txt "i64.const") then
      plet v := parse_int64 src in pret (Some (CI64 v))
    else if text_eqb (snd t) (txt "f32.const") then
      plet b := wast_peek_float in
      if b then (plet v := parse_float32 src pf in pret (Some (CF32 v)))
      else (plet v := parse_int32 src in pret (Some (CF32 (float32_of_int v))))
    else if text_eqb (snd t) (txt "f64.const") then
      plet b := wast_peek_float in
      if b then (plet v := parse_float64 src pf in pret (Some (CF64 v)))
      else
        plet b := peek_integer in
        if b then (plet v := parse_int64 src in pret (Some (CF64 (float64_of_int v))))
        else pret (Some (CF64 0))
    else if text_eqb (snd t) (txt "ref.null") then pret None
    else if text_eqb (snd t) (txt "ref.extern") then pret None
    else perr
  else perr.

(** wast/parse/parser.go:258-268 parseConsts *)
Definition parse_consts (n : nat) : parser L (list (option wconst)) :=
  handled (while_eat tok_eqb src n OpenParen (closed src parse_const)).

(** wast/parse/parser.go:234-256 parseInvoke *)
Definition parse_invoke (n : nat) : parser L invoke :=
  handled (plet t := pk src in
    plet name := (if tok_eqb (fst t) TId then (exp src TId ;;> pret (Some (snd t))) else pret None) in
    plet s := parse_string src in
    plet cs := parse_consts n in
    pret {| in_name := name; in_string := s; in_consts := cs |}).

(** wast/parse/parser.go:207-232 parseAction; 324-326 parseGet always fails *)
Definition parse_action (n : nat) : parser L (option invoke) :=
  handled (exp src OpenParen ;;>
    plet t := nxt src in
    if tok_eqb (fst t) Reserved then
      plet a :=
        (if text_eqb (snd t) (txt "invoke") then (plet i := parse_invoke n in pret (Some i))
         else if text_eqb (snd t) (txt "get") then perr
         else pret None) in
      exp src CloseParen ;;> pret a
    else perr).

(** wast/parse/parser.go:331-340, the loop of parseResults. A nil constant is
    no Result: continue, without looking for the closing parenthesis. *)
Fixpoint results_loop (n : nat) : parser L (list wconst) :=
  match n with
  | O => pdiverge
  | S n =>
      plet b := ate src OpenParen in
      if b then
        plet c := parse_const in
        match c with
        | None => results_loop n
        | Some r => exp src CloseParen ;;> plet rs := results_loop n in pret (r :: rs)
        end
      else pret []
  end.

(** wast/parse/parser.go:328-343 parseResults *)
Definition parse_results (n : nat) : parser L (list wconst) := handled (results_loop n).

(** wast/parse/parser.go:134-160: on the clone, an open parenthesis, component
    or module, and the word quote. Without the word the clone is thrown away. *)
Definition at_quote : parser L (option bool) :=
  trial (exp src OpenParen ;;>
    plet c := ate src TComponent in
    plet ty := (if c then pret true
                else (plet m := ate src TModule in
                      if m then pret false else (plet t := nxt src in perr))) in
    plet t := nxt src in
    pret (if tok_eqb (fst t) Reserved && text_eqb (snd t) (txt "quote") then Some ty else None)).

(** wast/parse/parser.go:181-189 parseWat: watparse.Parse, which is modelled as
    M_WatParse.parse_directive *)
Definition parse_wat (n : nat) : parser L directive := parse_directive src pf n.

(** wast/parse/parser.go:131-179 parseQuoteWat *)
Definition parse_quote_wat (n : nat) : parser L quote_wat :=
  handled (plet q := at_quote in
    match q with
    | None => plet d := parse_wat n in pret (QWat d)
    | Some component =>
        plet s := parse_string src in
        exp src CloseParen ;;> pret (if component then QComponent s else QModule s)
    end).

(** wast/parse/parser.go:78-95 parseAssertReturn *)
Definition parse_assert_return (n : nat) : parser L wdirective :=
  handled (word src (txt "assert_return") ;;>
    plet a := parse_action n in plet rs := parse_results n in pret (DReturn a rs)).

(** wast/parse/parser.go:97-111 parseAssertInvalid *)
Definition parse_assert_invalid (n : nat) : parser L wdirective :=
  handled (word src (txt "assert_invalid") ;;>
    plet q := parse_quote_wat n in plet s := parse_string src in pret (DInvalid q s)).

(** wast/parse/parser.go:113-129 parseAssertMalformed *)
Definition parse_assert_malformed (n : nat) : parser L wdirective :=
  handled (word src (txt "assert_malformed") ;;>
    plet q := parse_quote_wat n in plet s := parse_string src in pret (DMalformed q s)).

(** wast/parse/parser.go:191-205 parseAssertTrap *)
Definition parse_assert_trap (n : nat) : parser L wdirective :=
  handled (exp src Reserved ;;>
    plet a := parse_action n in plet s := parse_string src in pret (DTrap a s)).

(** wast/parse/parser.go:50-72, the cases of parseDirective *)
Inductive kind := KReturn | KInvalid | KMalformed | KTrap.
Definition kinds : list (text * kind) :=
  [(txt "assert_return", KReturn); (txt "assert_invalid", KInvalid);
   (txt "assert_malformed", KMalformed); (txt "assert_trap", KTrap)].

(** wast/parse/parser.go:44-72: on the clone, an open parenthesis and then one
    of the words. Before a module or component the clone is thrown away. *)
Definition at_directive : parser L (option kind) :=
  trial (exp src OpenParen ;;>
    plet t := pk src in
    if text_eqb (snd t) (txt "module") || text_eqb (snd t) (txt "component") then pret None
    else match lookup kinds (snd t) with Some k => pret (Some k) | None => perr end).

(** wast/parse/parser.go:38-76 parseDirective *)
Definition parse_wdirective (n : nat) : parser L wdirective :=
  handled (plet k := at_directive in
    match k with
    | None => plet q := parse_quote_wat n in pret (DWat q)
    | Some k =>
        plet d := (match k with
                   | KReturn => parse_assert_return n
                   | KInvalid => parse_assert_invalid n
                   | KMalformed => parse_assert_malformed n
                   | KTrap => parse_assert_trap n
                   end) in
        exp src CloseParen ;;> pret d
    end).

(** wast/parse/parser.go:22-36 parseWast *)
Fixpoint wast_loop (n : nat) : parser L (list wdirective) :=
  match n with
  | O => pdiverge
  | S n =>
      plet t := pk src in
      if tok_eqb (fst t) EndOfStream then pret []
      else (plet d := parse_wdirective (S n) in plet ds := wast_loop n in pret (d :: ds))
  end.
Definition parse_wast (n : nat) : parser L (list wdirective) := handled (wast_loop n).
End Parser.

(** wast/parse/parser.go:17-20 Parse; [swap] is the order of a map in lex.New *)
Definition ParseWast (pf : text -> option N) (swap : bool) (input : text) : outcome (list wdirective) :=
  let l := new_lexer swap input in fst (parse_wast wat_source pf (S (rounds l)) l).
