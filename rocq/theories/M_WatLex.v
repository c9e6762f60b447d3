(** Model of wat/lex (lexer.go, dfa.go, string.go, lexeme.go, registry.go)
    and wat/token. The input is a Go string, read byte by byte. *)
From Coq Require Import Arith NArith String Ascii Bool List.
From Verif Require Import GoBase M_Text.
Import ListNotations.
Open Scope N_scope.

(** wat/token/token.go:3-20. The underlying strings are pairwise different. *)
Inductive toktype :=
| LineComment | BlockComment | Whitespace | OpenParen | CloseParen | TString | TId
| Keyword | Reserved | TInteger | TFloat | EndOfStream | TModule | TComponent.

(** wat/token/token.go:22-28 *)
Record token := { t_type : toktype; t_position : nat; t_column : nat; t_line : nat; t_capture : text }.

(** ** Character classes *)

(** wat/lex/lexer.go:670-682 isSpace: ' ', \t, \n, \f, \r, \v *)
Definition is_space (ch : ascii) : bool :=
  let n := N_of_ascii ch in
  (n =? 32) || (n =? 9) || (n =? 10) || (n =? 12) || (n =? 13) || (n =? 11).

(** wat/lex/lexer.go:695-697 isDigit *)
Definition is_digit (ch : ascii) : bool := between "0" "9" ch.

(** wat/lex/lexer.go:684-693 isHex *)
Definition is_hex (ch : ascii) : bool := is_digit ch || between "a" "f" ch || between "A" "F" ch.

(** wat/lex/lexer.go:626-650 idCharMap *)
Definition id_char_map : text := txt "!#$%&'*+-./:<=>?@\^_`|~".

(** wat/lex/lexer.go:652-668 isIdChar *)
Definition is_id_char (ch : ascii) : bool :=
  if existsb (Ascii.eqb ch) id_char_map then true
  else if is_space ch then false
  else between "0" "9" ch || between "A" "Z" ch || between "a" "z" ch.

(** wat/lex/lexer.go:699-708 not *)
Definition not_chars (chars : list ascii) (ch : ascii) : bool := negb (existsb (Ascii.eqb ch) chars).

(** ** Rules and lexemes *)

(** wat/lex/dfa.go:7-45 Edge, ByteEdge, FuncEdge, Node, Dfa. Nodes are
    numbered, the start node is 0; a node's edges are a list of tests and
    targets, in order. *)
Record dfa := { d_edges : nat -> list ((ascii -> bool) * nat); d_final : nat -> bool }.

(** wat/lex/dfa.go:47-50 DfaRule and wat/lex/string.go:7-10 StringRule. The
    StateRule of state.go is not used by the lexer. *)
Inductive rule :=
| DfaRule (d : dfa) (ty : toktype)
| StringRule (s : text) (ty : toktype).

(** wat/lex/dfa.go:52-54, string.go:12-14 Type *)
Definition rule_type (r : rule) : toktype :=
  match r with DfaRule _ ty => ty | StringRule _ ty => ty end.

(** The first edge whose test holds (dfa.go:57-61,83-89). *)
Fixpoint follow (edges : list ((ascii -> bool) * nat)) (ch : ascii) : option nat :=
  match edges with
  | [] => None
  | (test, n) :: edges' => if test ch then Some n else follow edges' ch
  end.

(** wat/lex/dfa.go:56-63, string.go:16-21 Check *)
Definition rule_check (r : rule) (ch : ascii) : bool :=
  match r with
  | DfaRule d _ => match follow (d_edges d 0%nat) ch with Some _ => true | None => false end
  | StringRule s _ => match s with [] => false | c :: _ => Ascii.eqb c ch end
  end.

(** wat/lex/dfa.go:69-72 DfaLexeme, string.go:27-30 StringLexeme: the rule
    and the current node (the start node for nil) or position. *)
Record lexeme := { lx_rule : rule; lx_at : nat }.

(** wat/lex/registry.go, dfa.go:100-105, string.go:54-60 *)
Definition new_lexeme (r : rule) : lexeme := {| lx_rule := r; lx_at := 0 |}.

(** wat/lex/dfa.go:78-91, string.go:36-45 Eat: [None] for false, else the
    moved lexeme. An unsuccessful Eat leaves the lexeme as it was. *)
Definition eat (x : lexeme) (ch : ascii) : option lexeme :=
  match lx_rule x with
  | DfaRule d _ =>
      match follow (d_edges d (lx_at x)) ch with
      | Some n => Some {| lx_rule := lx_rule x; lx_at := n |}
      | None => None
      end
  | StringRule s _ =>
      match nth_error s (lx_at x) with
      | Some c => if Ascii.eqb c ch then Some {| lx_rule := lx_rule x; lx_at := S (lx_at x) |} else None
      | None => None
      end
  end.

(** wat/lex/dfa.go:93-95, string.go:47-49 Accepted *)
Definition accepted (x : lexeme) : bool :=
  match lx_rule x with
  | DfaRule d _ => d_final d (lx_at x)
  | StringRule s _ => (length s <=? lx_at x)%nat
  end.

(** wat/lex/dfa.go:12-23 ByteEdge *)
Definition byte_edge (c : ascii) (n : nat) : (ascii -> bool) * nat := (Ascii.eqb c, n).

(** wat/lex/lexer.go:208-227 whitespace; 1 is [end] *)
Definition whitespace : rule :=
  DfaRule {| d_edges := fun n => match n with 0 | 1 => [(is_space, 1)] | _ => [] end;
             d_final := fun n => (n =? 1) |}%nat Whitespace.

(** wat/lex/lexer.go:229-258 lineComment; 1 semi, 2 semi2, 3 newLine *)
Definition line_comment : rule :=
  DfaRule {| d_edges := fun n => match n with
               | 0 => [byte_edge ";" 1]
               | 1 => [byte_edge ";" 2]
               | 2 => [byte_edge newline 3; (not_chars [newline], 2)]
               | _ => [] end;
             d_final := fun n => (n =? 3) |}%nat LineComment.

(** wat/lex/lexer.go:260-299 blockComment; 1 openParen, 2 semi, 3 semiEnd,
    4 closeParen *)
Definition block_comment : rule :=
  DfaRule {| d_edges := fun n => match n with
               | 0 => [byte_edge "(" 1]
               | 1 => [byte_edge ";" 2]
               | 2 => [byte_edge ";" 3; (not_chars [";"%char], 2)]
               | 3 => [byte_edge ")" 4; byte_edge ";" 3; (not_chars [")"%char; ";"%char], 2)]
               | _ => [] end;
             d_final := fun n => (n =? 4) |}%nat BlockComment.

(** The byte at wat/lex/lexer.go:301-322 *)
Definition quote : ascii := ascii_of_N 34.

(** wat/lex/lexer.go:301-322 str; 1 doubleQuote, 2 end *)
Definition str_rule : rule :=
  DfaRule {| d_edges := fun n => match n with
               | 0 => [byte_edge quote 1]
               | 1 => [byte_edge quote 2; (not_chars [quote], 1)]
               | _ => [] end;
             d_final := fun n => (n =? 2) |}%nat TString.

(** wat/lex/lexer.go:324-339 reserved; 1 idchar *)
Definition reserved : rule :=
  DfaRule {| d_edges := fun n => match n with 0 | 1 => [(is_id_char, 1)] | _ => [] end;
             d_final := fun n => (n =? 1) |}%nat Reserved.

(** wat/lex/lexer.go:605-624 identifier; 1 dollar, 2 idchar *)
Definition identifier : rule :=
  DfaRule {| d_edges := fun n => match n with
               | 0 => [byte_edge "$" 1]
               | 1 | 2 => [(is_id_char, 2)]
               | _ => [] end;
             d_final := fun n => (n =? 2) |}%nat TId.

(** wat/lex/lexer.go:28, 44-49 *)
Definition open_rule : rule := StringRule (txt "(") OpenParen.
(** wat/lex/lexer.go:29, 44-49 *)
Definition close_rule : rule := StringRule (txt ")") CloseParen.

(** wat/lex/lexer.go:27-49: the rules of New. The order of the last two is
    the iteration order of a Go map, which is not determined: [swap]. *)
Definition rules (swap : bool) : list rule :=
  [whitespace; line_comment; block_comment; str_rule; identifier; reserved] ++
  (if swap then [close_rule; open_rule] else [open_rule; close_rule]).

(** ** Classification of reserved tokens. An index into the string is
    represented by the rest of the string from there. *)

(** wat/lex/lexer.go:341-349 sign *)
Definition sign (s : text) : text * bool :=
  match s with
  | c :: s' => if Ascii.eqb c "+" || Ascii.eqb c "-" then (s', true) else (s, false)
  | [] => (s, false)
  end.

(** The loops at wat/lex/lexer.go:359-367, 378-386, 397-405, 416-424: skip
    digits of the class and underscores. *)
Fixpoint skip_digits (digit : ascii -> bool) (s : text) : text :=
  match s with
  | c :: s' => if Ascii.eqb c "_" || digit c then skip_digits digit s' else s
  | [] => []
  end.

(** wat/lex/lexer.go:351-369 num and 390-407 frac (the same code): false if
    something follows the digits *)
Definition num (s : text) : text * bool :=
  match s with
  | c :: _ =>
      if negb (is_digit c) then (s, false)
      else match skip_digits is_digit s with [] => ([], true) | r => (r, false) end
  | [] => (s, false)
  end.
Definition frac (s : text) : text * bool := num s.

(** wat/lex/lexer.go:371-388 hexnum and 409-426 hexfrac (the same code) *)
Definition hexnum (s : text) : text * bool :=
  match s with
  | c :: _ => if negb (is_hex c) then (s, false) else (skip_digits is_hex s, true)
  | [] => (s, false)
  end.
Definition hexfrac (s : text) : text * bool := hexnum s.

(** wat/lex/lexer.go:441-442,469 *)
Definition is_e (c : ascii) : bool := Ascii.eqb c "e" || Ascii.eqb c "E".
(** wat/lex/lexer.go:499-500,527 *)
Definition is_p (c : ascii) : bool := Ascii.eqb c "p" || Ascii.eqb c "P".

(** wat/lex/lexer.go:448-457, 473-478 (and 505-514, 531-536): sign and number
    after the exponent letter *)
Definition exponent (s : text) : bool :=
  match sign s with
  | (s', true) => snd (num s')
  | (_, false) => false
  end.

(** wat/lex/lexer.go:428-479 float: only the boolean is used. [num] fails when
    anything follows the digits, so everything after line 435 is
    unreachable; it is modelled all the same. *)
Definition float (s : text) : bool :=
  let (n, ok) := num s in
  if negb ok then false else
  match n with
  | [] => true
  | c :: s' =>
      if Ascii.eqb c "." && match s' with [] => true | _ => false end then true
      else if Ascii.eqb c "." && match s' with c' :: _ => is_e c' | [] => false end
        then exponent (tl s')
      else if is_e c then exponent s'
      else
        let (n, ok) := frac n in
        if negb ok then false else
        match n with
        | [] => true
        | c :: s' => if is_e c then exponent s' else false
        end
  end.

(** wat/lex/lexer.go:481-537 hexfloat *)
Definition hexfloat (s : text) : bool :=
  match trim_prefix (txt "0x") s with
  | None => false
  | Some s =>
      let (n, ok) := hexnum s in
      if negb ok then false else
      match n with
      | [] => true
      | c :: s' =>
          if Ascii.eqb c "." && match s' with [] => true | _ => false end then true
          else if Ascii.eqb c "." && match s' with c' :: _ => is_p c' | [] => false end
            then exponent (tl s')
          else if is_p c then exponent s'
          else
            let (n, ok) := hexfrac s' in
            if negb ok then false else
            match n with
            | [] => true
            | c :: s' => if is_p c then exponent s' else false
            end
      end
  end.

(** The optional sign at wat/lex/lexer.go:544-546 and 578-580 *)
Definition unsigned (s : text) : text := fst (sign s).

(** wat/lex/lexer.go:539-571 isFloat *)
Definition is_float (s : text) : bool :=
  match s with
  | [] => false
  | _ =>
      let s := unsigned s in
      if text_eqb s (txt "inf") then true
      else if text_eqb s (txt "nan") then true
      else if text_eqb s (txt "nan:arithmetic") then true
      else if text_eqb s (txt "nan:canonical") then true
      else match trim_prefix (txt "nan:0x") s with
           | Some s => snd (hexnum s)
           | None => float s || hexfloat s
           end
  end.

(** wat/lex/lexer.go:573-592 isInteger *)
Definition is_integer (s : text) : bool :=
  match s with
  | [] => false
  | _ =>
      let s := unsigned s in
      if snd (num s) then true
      else match trim_prefix (txt "0x") s with
           | Some s => match hexnum s with ([], true) => true | _ => false end
           | None => false
           end
  end.

(** wat/lex/lexer.go:594-602 keywordMap, keyword *)
Definition keyword (s : text) : option toktype :=
  text_get [(txt "module", TModule); (txt "component", TComponent)] s.

(** wat/lex/lexer.go:163-172 *)
Definition classify (ty : toktype) (s : text) : toktype :=
  match ty with
  | Reserved =>
      if is_integer s then TInteger
      else if is_float s then TFloat
      else match keyword s with Some kw => kw | None => ty end
  | _ => ty
  end.

(** ** The lexer *)

(** wat/lex/lexer.go:17-25 Lexer. Go ints are natural numbers here: an input
    is shorter than 2^63 bytes. *)
Record lexer := {
  l_rules : list rule;
  l_input : text;
  l_offset : nat;
  l_position : nat;
  l_column : nat;
  l_line : nat;
  l_peek : option token }.

(** wat/lex/lexer.go:32-54 New *)
Definition new_lexer (swap : bool) (input : text) : lexer :=
  {| l_rules := rules swap; l_input := input; l_offset := 0; l_position := 0;
     l_column := 0; l_line := 0; l_peek := None |}.

(** wat/lex/lexer.go:56-66 Clone: a copy of all fields. Tokens and rules are
    never changed after they are made, so sharing them is not visible. *)
Definition clone (l : lexer) : lexer := l.

(** l.position = p (wat/lex/lexer.go:17-25) *)
Definition set_position (l : lexer) (p : nat) : lexer :=
  {| l_rules := l_rules l; l_input := l_input l; l_offset := l_offset l; l_position := p;
     l_column := l_column l; l_line := l_line l; l_peek := l_peek l |}.
(** l.peek = t (wat/lex/lexer.go:17-25, 68-88) *)
Definition set_peek (l : lexer) (t : option token) : lexer :=
  {| l_rules := l_rules l; l_input := l_input l; l_offset := l_offset l; l_position := l_position l;
     l_column := l_column l; l_line := l_line l; l_peek := t |}.

(** wat/lex/lexer.go:191-197 peekRune *)
Definition peek_rune (l : lexer) : option ascii := nth_error (l_input l) (l_position l).

(** wat/lex/lexer.go:199-206 readRune *)
Definition read_rune (l : lexer) : option ascii * lexer :=
  match nth_error (l_input l) (l_position l) with
  | Some r => (Some r, set_position l (S (l_position l)))
  | None => (None, l)
  end.

(** l.input[l.offset:l.position]. wat/lex/lexer.go:152-189. *)
Definition capture (l : lexer) : text :=
  firstn (l_position l - l_offset l) (skipn (l_offset l) (l_input l)).

(** wat/lex/lexer.go:175-183: line and column after the captured bytes *)
Fixpoint advance (line column : nat) (s : text) : nat * nat :=
  match s with
  | [] => (line, column)
  | ch :: s' => if Ascii.eqb ch newline then advance (S line) 0%nat s' else advance line (S column) s'
  end.

(** wat/lex/lexer.go:152-189 token *)
Definition make_token (l : lexer) (ty : toktype) : token * lexer :=
  let c := capture l in
  let (line, column) := advance (l_line l) (l_column l) c in
  ({| t_type := classify ty c; t_position := l_offset l; t_column := l_column l; t_line := l_line l;
      t_capture := c |},
   {| l_rules := l_rules l; l_input := l_input l; l_offset := l_position l; l_position := l_position l;
      l_column := column; l_line := line; l_peek := l_peek l |}).

(** result.Ok of a token, wat/lex/lexer.go:152-189 *)
Definition ok_token (x : token * lexer) : outcome token * lexer := (Ok (fst x), snd x).

(** The first accepted lexeme (wat/lex/lexer.go:117-122, 136-141) *)
Fixpoint first_accepted (xs : list lexeme) : option toktype :=
  match xs with
  | [] => None
  | x :: xs' => if accepted x then Some (rule_type (lx_rule x)) else first_accepted xs'
  end.

(** wat/lex/lexer.go:128-133: the lexemes that eat the character *)
Fixpoint matches (xs : list lexeme) (ch : ascii) : list lexeme :=
  match xs with
  | [] => []
  | x :: xs' => match eat x ch with Some x' => x' :: matches xs' ch | None => matches xs' ch end
  end.

(** wat/lex/lexer.go:99-108: lexemes of the rules that match the first
    character *)
Fixpoint starts (rs : list rule) (ch : ascii) : list lexeme :=
  match rs with
  | [] => []
  | r :: rs' =>
      if rule_check r ch
      then match eat (new_lexeme r) ch with Some x => x | None => new_lexeme r end :: starts rs' ch
      else starts rs' ch
  end.

(** wat/lex/lexer.go:114-149: the loop. Every iteration reads one character
    of the input, so its length bounds the iterations; [Diverge] when [fuel]
    runs out, which never happens ([scan_total] in L_WatLex.v). *)
Fixpoint scan (fuel : nat) (xs : list lexeme) (l : lexer) : outcome token * lexer :=
  match fuel with
  | O => (Diverge, l)
  | S f =>
      match peek_rune l with
      | None =>
          match first_accepted xs with
          | Some ty => ok_token (make_token l ty)
          | None => ok_token (make_token l EndOfStream)
          end
      | Some r =>
          match matches xs r with
          | [] =>
              match first_accepted xs with
              | Some ty => ok_token (make_token l ty)
              | None => (Err EOther, l)
              end
          | matched => scan f matched (snd (read_rune l))
          end
      end
  end.

(** wat/lex/lexer.go:90-150 next. Nothing in it panics, so the deferred
    handle.Error has no effect. *)
Definition next_raw (l : lexer) : outcome token * lexer :=
  match read_rune l with
  | (None, l) => ok_token (make_token l EndOfStream)
  | (Some r, l) =>
      match starts (l_rules l) r with
      | [] => (Err EOther, l)
      | xs => scan (S (length (l_input l))) xs l
      end
  end.

(** wat/lex/lexer.go:68-76 Peek. Unwrap panics when next failed; the lexer
    has moved all the same. *)
Definition peek (l : lexer) : outcome token * lexer :=
  match l_peek l with
  | Some t => (Ok t, l)
  | None =>
      match next_raw l with
      | (Ok t, l') => (Ok t, set_peek l' (Some t))
      | (Err _, l') => (Panic, l')
      | r => r
      end
  end.

(** wat/lex/lexer.go:78-88 Next *)
Definition next (l : lexer) : outcome token * lexer :=
  match l_peek l with
  | None => next_raw l
  | Some t => (Ok t, set_peek l None)
  end.
