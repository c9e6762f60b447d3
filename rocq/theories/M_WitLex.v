(** Model of wit/lex/lexer.go and wit/token. The input is a Go string: a list
    of bytes, read as UTF-8. *)
From Coq Require Import Arith NArith String Ascii Bool List.
From Verif Require Import GoBase M_Text M_Utf.
Import ListNotations.
Open Scope N_scope.

(** wit/token/types.go:5-72, without None, which is not used. The underlying
    strings are pairwise different. *)
Inductive toktype :=
| OpenParen | CloseParen | OpenBrace | CloseBrace | Comma | Colon | Semicolon | At
| Minus | Plus | Greater | Less | Equal | Period | Slash | Underscore | Star | RightArrow
| KString | Whitespace | LineComment | BlockComment | EndOfStream
| KUse | KType | KFunc | KU8 | KU16 | KU32 | KU64 | KS8 | KS16 | KS32 | KS64
| KFloat32 | KFloat64 | KChar | KResource | KOwn | KBorrow | KRecord | KFlags | KVariant
| KEnum | KUnion | KBool | KOption | KResult | KFuture | KStream | KList | KAs | KFrom
| KTuple | KConstructor | KWith | KStatic | KInterface | KWorld | KImport | KExport
| KPackage | KInclude | Id | Integer | ExplicitId.

(** wit/token/token.go:3-9 *)
Record token := { t_type : toktype; t_position : nat; t_column : nat; t_line : nat; t_capture : text }.

(** ** Runes *)

(** unicode.IsLetter and unicode.IsDigit on runes from 128 up: tables of the
    Go library, not part of the repository. The model takes them as a
    parameter. Called at wit/lex/lexer.go:173-174,329-335. *)
Record tables := { tb_letter : N -> bool; tb_digit : N -> bool }.

(** unicode/utf8.DecodeRuneInString on a non-empty string: rune and width.
    Ill-formed bytes give U+FFFD and width 1. Called at
    wit/lex/lexer.go:312,320. *)
Definition decode_rune (s : text) : N * nat :=
  match map N_of_ascii (firstn 4 s) with
  | [] => (rune_error, 0%nat)
  | b0 :: bs =>
      if b0 <? 128 then (b0, 1%nat) else
      match bs with
      | [] => (rune_error, 1%nat)
      | b1 :: bs =>
          if lead2 b0 && second_ok b0 b1 then (b0 mod 32 * 64 + b1 mod 64, 2%nat) else
          match bs with
          | [] => (rune_error, 1%nat)
          | b2 :: bs =>
              if lead3 b0 && second_ok b0 b1 && cont_byte b2 then
                (b0 mod 16 * 4096 + b1 mod 64 * 64 + b2 mod 64, 3%nat)
              else
                match bs with
                | [] => (rune_error, 1%nat)
                | b3 :: _ =>
                    if lead4 b0 && second_ok b0 b1 && cont_byte b2 && cont_byte b3 then
                      (b0 mod 8 * 262144 + b1 mod 64 * 4096 + b2 mod 64 * 64 + b3 mod 64, 4%nat)
                    else (rune_error, 1%nat)
                end
          end
      end
  end.

(** unicode.IsSpace: the White_Space property, complete. Called at
    wit/lex/lexer.go:87-88. *)
Definition is_space (r : N) : bool :=
  existsb (N.eqb r) [9; 10; 11; 12; 13; 32; 133; 160; 5760; 8232; 8233; 8239; 8287; 12288] ||
  ((8192 <=? r) && (r <=? 8202)).
(** unicode.IsLetter, called at wit/lex/lexer.go:330,334 *)
Definition is_letter (U : tables) (r : N) : bool :=
  if r <? 128 then ((65 <=? r) && (r <=? 90)) || ((97 <=? r) && (r <=? 122)) else tb_letter U r.
(** unicode.IsDigit, called at wit/lex/lexer.go:173-174,334 *)
Definition is_digit (U : tables) (r : N) : bool :=
  if r <? 128 then (48 <=? r) && (r <=? 57) else tb_digit U r.

(** A character constant of the Go source. As at wit/lex/lexer.go:91. *)
Definition ch (c : ascii) : N := N_of_ascii c.

(** wit/lex/lexer.go:329-331 isKeyLikeStart *)
Definition is_key_start (U : tables) (r : N) : bool := is_letter U r || (r =? ch "_") || (r =? ch "-").
(** wit/lex/lexer.go:333-335 isKeyLikeContinue *)
Definition is_key_continue (U : tables) (r : N) : bool := is_letter U r || is_digit U r || (r =? ch "-").

(** wit/lex/lexer.go:183-226 keywordMap *)
Definition keyword_map : list (text * toktype) :=
  [(txt "use", KUse); (txt "type", KType); (txt "func", KFunc); (txt "u8", KU8); (txt "u16", KU16);
   (txt "u32", KU32); (txt "u64", KU64); (txt "s8", KS8); (txt "s16", KS16); (txt "s32", KS32);
   (txt "s64", KS64); (txt "float32", KFloat32); (txt "float64", KFloat64); (txt "char", KChar);
   (txt "resource", KResource); (txt "own", KOwn); (txt "borrow", KBorrow); (txt "record", KRecord);
   (txt "flags", KFlags); (txt "variant", KVariant); (txt "enum", KEnum); (txt "union", KUnion);
   (txt "bool", KBool); (txt "string", KString); (txt "option", KOption); (txt "result", KResult);
   (txt "future", KFuture); (txt "stream", KStream); (txt "list", KList); (txt "_", Underscore);
   (txt "as", KAs); (txt "from", KFrom); (txt "static", KStatic); (txt "interface", KInterface);
   (txt "tuple", KTuple); (txt "world", KWorld); (txt "import", KImport); (txt "export", KExport);
   (txt "package", KPackage); (txt "constructor", KConstructor); (txt "include", KInclude);
   (txt "with", KWith)].

(** ** The lexer *)

(** wit/lex/lexer.go:16-23 Lexer. Go ints are natural numbers here: an input
    is shorter than 2^63 bytes. *)
Record lexer := {
  l_input : text;
  l_offset : nat;
  l_position : nat;
  l_column : nat;
  l_line : nat;
  l_peek : option token }.

(** wit/lex/lexer.go:33-40 New *)
Definition new_lexer (input : text) : lexer :=
  {| l_input := input; l_offset := 0; l_position := 0; l_column := 0; l_line := 0; l_peek := None |}.

(** wit/lex/lexer.go:42-53 Clone: a copy of all fields. Tokens are never
    changed after they are made, so sharing them is not visible. *)
Definition clone (l : lexer) : lexer := l.

(** l.position = p (wit/lex/lexer.go:16-23) *)
Definition set_position (l : lexer) (p : nat) : lexer :=
  {| l_input := l_input l; l_offset := l_offset l; l_position := p;
     l_column := l_column l; l_line := l_line l; l_peek := l_peek l |}.
(** l.peekToken = t (wit/lex/lexer.go:16-23, 55-76) *)
Definition set_peek (l : lexer) (t : option token) : lexer :=
  {| l_input := l_input l; l_offset := l_offset l; l_position := l_position l;
     l_column := l_column l; l_line := l_line l; l_peek := t |}.

(** wit/lex/lexer.go:308-314 peekRune *)
Definition peek_rune (l : lexer) : option N :=
  if (length (l_input l) <=? l_position l)%nat then None
  else Some (fst (decode_rune (skipn (l_position l) (l_input l)))).

(** wit/lex/lexer.go:316-323 readRune *)
Definition read_rune (l : lexer) : option N * lexer :=
  if (length (l_input l) <=? l_position l)%nat then (None, l)
  else let (r, width) := decode_rune (skipn (l_position l) (l_input l)) in
       (Some r, set_position l (l_position l + width)).

(** wit/lex/lexer.go:260-272 eatIf with 288-296 expectIf, which reads the rune
    that was just peeked and so cannot fail *)
Definition eat_if (f : N -> bool) (l : lexer) : bool * lexer :=
  match peek_rune l with
  | None => (false, l)
  | Some p => if f p then (true, snd (read_rune l)) else (false, l)
  end.

(** wit/lex/lexer.go:274-286 eat with 298-306 expect *)
Definition eat (c : N) (l : lexer) : bool * lexer := eat_if (fun p => p =? c) l.

(** for l.eatIf(f).Unwrap() {}: every iteration reads at least one byte, so
    the length of the input bounds the iterations; [None] when [fuel] runs
    out, which never happens ([eat_while_total] in L_WitLex.v).
    wit/lex/lexer.go:88,95,157,164,174. *)
Fixpoint eat_while (fuel : nat) (f : N -> bool) (l : lexer) : option lexer :=
  match fuel with
  | O => None
  | S n => match eat_if f l with
           | (true, l') => eat_while n f l'
           | (false, l') => Some l'
           end
  end.

(** wit/lex/lexer.go:100-117: the loop of a block comment; [Some (true, l)]
    when it is closed, [Some (false, l)] at the end of the input. *)
Fixpoint block_loop (fuel : nat) (depth : nat) (l : lexer) : option (bool * lexer) :=
  match fuel with
  | O => None
  | S n =>
      match depth with
      | O => Some (true, l)
      | S d =>
          match read_rune l with
          | (None, l) => Some (false, l)
          | (Some r, l) =>
              if r =? ch "/" then
                match eat (ch "*") l with
                | (true, l) => block_loop n (S depth) l
                | (false, l) => block_loop n depth l
                end
              else if r =? ch "*" then
                match eat (ch "/") l with
                | (true, l) => block_loop n d l
                | (false, l) => block_loop n depth l
                end
              else block_loop n depth l
          end
      end
  end.

(** wit/lex/lexer.go:256-258 capture *)
Definition capture (l : lexer) : text :=
  firstn (l_position l - l_offset l) (skipn (l_offset l) (l_input l)).

(** wit/lex/lexer.go:240-248: line and column after the captured bytes *)
Fixpoint advance (line column : nat) (s : text) : nat * nat :=
  match s with
  | [] => (line, column)
  | ch :: s' => if Ascii.eqb ch newline then advance (S line) 0%nat s' else advance line (S column) s'
  end.

(** wit/lex/lexer.go:228-254 token *)
Definition make_token (l : lexer) (ty : toktype) : outcome token * lexer :=
  let c := capture l in
  let (line, column) := advance (l_line l) (l_column l) c in
  (Ok {| t_type := ty; t_position := l_offset l; t_column := l_column l; t_line := l_line l; t_capture := c |},
   {| l_input := l_input l; l_offset := l_position l; l_position := l_position l;
      l_column := column; l_line := line; l_peek := l_peek l |}).

(** eat_while and then token. wit/lex/lexer.go:88-90,95-97,157-171,174-176. *)
Definition while_token (f : N -> bool) (ty : lexer -> toktype) (l : lexer) : outcome token * lexer :=
  match eat_while (S (length (l_input l))) f l with
  | Some l' => make_token l' (ty l')
  | None => (Diverge, l)
  end.

(** The one-character tokens of the switch at wit/lex/lexer.go:121-159 *)
Definition single (r : N) : option toktype :=
  if r =? ch "=" then Some Equal
  else if r =? ch "," then Some Comma
  else if r =? ch ":" then Some Colon
  else if r =? ch "." then Some Period
  else if r =? ch ";" then Some Semicolon
  else if r =? ch "(" then Some OpenParen
  else if r =? ch ")" then Some CloseParen
  else if r =? ch "{" then Some OpenBrace
  else if r =? ch "}" then Some CloseBrace
  else if r =? ch "<" then Some Less
  else if r =? ch ">" then Some Greater
  else if r =? ch "*" then Some Star
  else if r =? ch "@" then Some At
  else None.

(** wit/lex/lexer.go:78-181 next. The two errors are returned, not raised, and
    no Unwrap in it fails, so the deferred handle.Error has no effect. *)
Definition next_raw (U : tables) (l : lexer) : outcome token * lexer :=
  match read_rune l with
  | (None, l) => make_token l EndOfStream
  | (Some r, l) =>
      if is_space r then while_token is_space (fun _ => Whitespace) l
      else if r =? ch "/" then
        match eat (ch "/") l with
        | (true, l) => while_token (fun r => negb (r =? 10)) (fun _ => LineComment) l
        | (false, l) =>
            match eat (ch "*") l with
            | (true, l) =>
                match block_loop (S (S (length (l_input l)))) 1 l with
                | Some (true, l) => make_token l BlockComment
                | Some (false, l) => (Err EOther, l)
                | None => (Diverge, l)
                end
            | (false, l) => make_token l Slash
            end
        end
      else match single r with
      | Some ty => make_token l ty
      | None =>
      if r =? ch "-" then
        match eat (ch ">") l with
        | (true, l) => make_token l RightArrow
        | (false, l) => make_token l Minus
        end
      else if r =? ch "+" then make_token l Plus
      else if r =? ch "%" then
        match eat_if (is_key_start U) l with
        | (true, l) => while_token (is_key_continue U) (fun _ => ExplicitId) l
        | (false, l) => make_token l ExplicitId
        end
      else if is_key_start U r then
        while_token (is_key_continue U)
          (fun l => match text_get keyword_map (capture l) with Some ty => ty | None => Id end) l
      else if is_digit U r then while_token (is_digit U) (fun _ => Integer) l
      else (Err EOther, l)
      end
  end.

(** wit/lex/lexer.go:67-76 Peek: Unwrap panics on an error. *)
Definition peek (U : tables) (l : lexer) : outcome token * lexer :=
  match l_peek l with
  | Some t => (Ok t, l)
  | None =>
      match next_raw U l with
      | (Ok t, l') => (Ok t, set_peek l' (Some t))
      | (Err _, l') => (Panic, l')
      | (r, l') => (r, l')
      end
  end.

(** wit/lex/lexer.go:55-65 Next *)
Definition next (U : tables) (l : lexer) : outcome token * lexer :=
  match l_peek l with
  | None => next_raw U l
  | Some t => (Ok t, set_peek l None)
  end.
