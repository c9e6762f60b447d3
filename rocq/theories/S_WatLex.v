(** Specification of the WAT tokens and of what a user of the lexer relies
    on. Independent of the lexer's rules; only texts, token types and tokens
    are shared with the model. *)
From Coq Require Import Arith NArith String Ascii Bool List.
From Verif Require Import GoBase M_Text M_WatLex.
Import ListNotations.

Definition code (c : ascii) : N := N_of_ascii c.

(** ** Characters *)

(** Blank, tab, newline, vertical tab, form feed, carriage return. *)
Definition space (c : ascii) : Prop := In (code c) [32; 9; 10; 11; 12; 13]%N.

(** WebAssembly text format 6.3.5: printable ASCII except space, quotation
    mark, comma, semicolon and brackets. *)
Definition id_char (c : ascii) : Prop :=
  (33 <= code c <= 126)%N /\ ~ In c (txt """,;()[]{}").

Definition dec_digit (c : ascii) : Prop := (48 <= code c <= 57)%N.
Definition hex_digit (c : ascii) : Prop :=
  dec_digit c \/ (97 <= code c <= 102)%N \/ (65 <= code c <= 70)%N.

(** ** Texts *)

Definition words (P : ascii -> Prop) (w : text) : Prop := w <> [] /\ Forall P w.

(** Digits with underscores between or after them. *)
Definition digits (P : ascii -> Prop) (w : text) : Prop :=
  exists c w', w = c :: w' /\ P c /\ Forall (fun x => P x \/ x = "_"%char) w'.

Definition opt_sign (s : text) : Prop := s = [] \/ s = txt "+" \/ s = txt "-".

(** Integers: an optional sign, then decimal digits, or 0x and hexadecimal
    digits. *)
Definition int_text (w : text) : Prop :=
  exists s d, opt_sign s /\ (w = s ++ d /\ digits dec_digit d \/ w = s ++ txt "0x" ++ d /\ digits hex_digit d).

(** No character of [b] continues the digits. *)
Definition stops (P : ascii -> Prop) (b : text) : Prop :=
  match b with [] => True | c :: _ => ~ (P c \/ c = "_"%char) end.

(** Exponents: a sign and digits. *)
Definition exp_letter (c : ascii) : Prop := c = "p"%char \/ c = "P"%char.
Definition exp_text (w : text) : Prop :=
  exists c d, w = c :: d /\ (c = "+"%char \/ c = "-"%char) /\ digits dec_digit d.
Definition exp_part (w : text) : Prop := exists p e, w = p :: e /\ exp_letter p /\ exp_text e.

(** What follows the hexadecimal mantissa of a float: a dot, an exponent, a
    dot and an exponent, or a fraction with or without exponent. The lexer
    takes any character for the dot of the fraction. *)
Definition hex_tail (r : text) : Prop :=
  r = txt "." \/ exp_part r \/ (exists r', r = "."%char :: r' /\ exp_part r') \/
  (exists c h t, r = c :: h ++ t /\ ~ exp_letter c /\ digits hex_digit h /\ stops hex_digit t /\
     (t = [] \/ exp_part t)).

(** What the lexer takes for a float: infinities and NaNs, and 0x followed by
    a hexadecimal mantissa and its tail. *)
Definition float_text (w : text) : Prop :=
  exists s d, opt_sign s /\ w = s ++ d /\
    (In d [txt "inf"; txt "nan"; txt "nan:arithmetic"; txt "nan:canonical"] \/
     (exists h r, d = txt "nan:0x" ++ h :: r /\ hex_digit h) \/
     (exists m r, d = txt "0x" ++ m ++ r /\ digits hex_digit m /\ stops hex_digit r /\ hex_tail r)).

(** Floats of the WebAssembly text format (6.3.2): digits may be separated by
    single underscores, the sign of the exponent is optional. *)
Inductive wasm_num (P : ascii -> Prop) : text -> Prop :=
| wasm_one c : P c -> wasm_num P [c]
| wasm_more c w : P c -> wasm_num P w -> wasm_num P (c :: w)
| wasm_sep c w : P c -> wasm_num P w -> wasm_num P (c :: "_"%char :: w).

Definition wasm_exponent (letters : list ascii) (e : text) : Prop :=
  exists p s n, e = p :: s ++ n /\ In p letters /\ opt_sign s /\ wasm_num dec_digit n.
Definition wasm_mantissa (P : ascii -> Prop) (m : text) : Prop :=
  wasm_num P m \/ exists a, wasm_num P a /\ (m = a ++ txt "." \/ exists b, wasm_num P b /\ m = a ++ txt "." ++ b).
Definition wasm_float (w : text) : Prop :=
  exists s d, opt_sign s /\ w = s ++ d /\
    ((exists m e, d = m ++ e /\ wasm_mantissa dec_digit m /\ (e = [] \/ wasm_exponent (txt "eE") e)) \/
     (exists m e, d = txt "0x" ++ m ++ e /\ wasm_mantissa hex_digit m /\ (e = [] \/ wasm_exponent (txt "pP") e)) \/
     d = txt "inf" \/ d = txt "nan" \/ exists n, d = txt "nan:0x" ++ n /\ wasm_num hex_digit n).

Definition block_end (w : text) : Prop :=
  exists a b, w = a ++ txt ";)" ++ b.

(** The text of a token of each type. *)
Definition whitespace_text (w : text) : Prop := words space w.
Definition line_comment_text (w : text) : Prop :=
  exists b, w = txt ";;" ++ b ++ [newline] /\ ~ In newline b.
Definition block_comment_text (w : text) : Prop :=
  exists b, w = txt "(;" ++ b ++ txt ";)" /\ ~ block_end (b ++ txt ";").
Definition string_text (w : text) : Prop :=
  exists b, w = [quote] ++ b ++ [quote] /\ ~ In quote b.
Definition id_text (w : text) : Prop :=
  exists b, w = "$"%char :: b /\ words id_char b.
Definition word_text (w : text) : Prop := words id_char w /\ ~ id_text w.

Definition token_text (ty : toktype) (w : text) : Prop :=
  match ty with
  | Whitespace => whitespace_text w
  | LineComment => line_comment_text w
  | BlockComment => block_comment_text w
  | OpenParen => w = txt "("
  | CloseParen => w = txt ")"
  | TString => string_text w
  | TId => id_text w
  | TInteger => int_text w
  | TFloat => word_text w /\ float_text w
  | TModule => w = txt "module"
  | TComponent => w = txt "component"
  | Reserved => word_text w /\ ~ int_text w /\ ~ float_text w /\ w <> txt "module" /\ w <> txt "component"
  | Keyword | EndOfStream => False
  end.

(** The text [r] that follows does not belong to the same token: a token is
    as long as it can be. *)
Definition begins_with (P : ascii -> Prop) (r : text) : Prop :=
  match r with [] => False | c :: _ => P c end.

Definition separate (ty : toktype) (r : text) : Prop :=
  match ty with
  | Whitespace => ~ begins_with space r
  | OpenParen => ~ begins_with (eq ";"%char) r
  | LineComment | BlockComment | CloseParen | TString => True
  | _ => ~ begins_with id_char r
  end.

(** What is left at the end of the input when a comment or string is not
    closed: the beginning of one. *)
Definition unfinished (w : text) : Prop :=
  w = txt ";" \/ (exists b, w = txt ";;" ++ b /\ ~ In newline b) \/
  (exists b, w = txt "(;" ++ b /\ ~ block_end b) \/
  (exists b, w = quote :: b /\ ~ In quote b).

(** Texts of a file as a list of tokens, each as long as it can be. *)
Fixpoint separated (ts : list (toktype * text)) : Prop :=
  match ts with
  | [] => True
  | (ty, w) :: ts' => token_text ty w /\ separate ty (concat (map snd ts')) /\ separated ts'
  end.

(** ** Lines and columns *)

(** The number of newlines of a text, and the length of its last line. *)
Definition newlines (w : text) : nat := count_occ ascii_dec w newline.
Definition last_line (w : text) : text -> Prop := fun l =>
  ~ In newline l /\ (w = l \/ exists a, w = a ++ newline :: l).

(** ** Histories of calls of a lexer's methods *)
Inductive op := ONext | OPeek.

Definition call (o : op) (l : lexer) : outcome token * lexer :=
  match o with ONext => next l | OPeek => peek l end.

Fixpoint calls (ops : list op) (l : lexer) : list (op * outcome token) * lexer :=
  match ops with
  | [] => ([], l)
  | o :: ops' =>
      let (r, l') := call o l in
      let (h, l'') := calls ops' l' in
      ((o, r) :: h, l'')
  end.

(** The tokens a history's Next calls gave. *)
Fixpoint taken (h : list (op * outcome token)) : list token :=
  match h with
  | [] => []
  | (ONext, Ok t) :: h' => t :: taken h'
  | _ :: h' => taken h'
  end.

(** The results of the Next calls. *)
Fixpoint next_results (h : list (op * outcome token)) : list (outcome token) :=
  match h with
  | [] => []
  | (ONext, r) :: h' => r :: next_results h'
  | (OPeek, _) :: h' => next_results h'
  end.

Definition captures (ts : list token) : text := concat (map t_capture ts).
Definition next_count (ops : list op) : nat :=
  length (filter (fun o => match o with ONext => true | OPeek => false end) ops).

Definition reachable (swap : bool) (input : text) (l : lexer) : Prop :=
  exists ops, l = snd (calls ops (new_lexer swap input)).
Definition no_error (h : list (op * outcome token)) : Prop :=
  forall o r, In (o, r) h -> exists t, r = Ok t.

(** Several lexers in use at once: Next and Peek on any of them, and Clone. *)
Inductive sop := SCall (i : nat) (o : op) | SClone (i : nat).

Fixpoint set_nth {A} (l : list A) (i : nat) (a : A) : list A :=
  match l, i with
  | [], _ => []
  | _ :: l', 0%nat => a :: l'
  | x :: l', S i' => x :: set_nth l' i' a
  end.

Definition sstep (o : sop) (s : list lexer) : option (nat * op * outcome token) * list lexer :=
  match o with
  | SCall i o =>
      match nth_error s i with
      | Some l => let (r, l') := call o l in (Some (i, o, r), set_nth s i l')
      | None => (None, s)
      end
  | SClone i => match nth_error s i with Some l => (None, s ++ [clone l]) | None => (None, s) end
  end.

Fixpoint ssteps (os : list sop) (s : list lexer) : list (nat * op * outcome token) * list lexer :=
  match os with
  | [] => ([], s)
  | o :: os' =>
      let (e, s') := sstep o s in
      let (h, s'') := ssteps os' s' in
      (match e with Some x => x :: h | None => h end, s'')
  end.

(** What lexer [i] was asked and what it answered. *)
Fixpoint answers (i : nat) (h : list (nat * op * outcome token)) : list (op * outcome token) :=
  match h with
  | [] => []
  | (j, o, r) :: h' => if (i =? j)%nat then (o, r) :: answers i h' else answers i h'
  end.
