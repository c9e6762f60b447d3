(** Specification of the WIT tokens and of what a user of the WIT lexer relies
    on. Independent of the lexer; only texts, token types, tokens, the tables
    of letters and digits and the methods under study are shared with the
    model. *)
From Coq Require Import Arith NArith String Ascii Bool List.
From Verif Require Import GoBase M_Text S_Utf M_WitLex.
Import ListNotations.

(** ** Characters (Unicode scalar values) *)
Definition code (c : ascii) : N := N_of_ascii c.

(** White space: the Unicode property White_Space. *)
Definition space (r : N) : Prop :=
  In r [9; 10; 11; 12; 13; 32; 133; 160; 5760; 8192; 8193; 8194; 8195; 8196; 8197; 8198; 8199; 8200; 8201; 8202;
        8232; 8233; 8239; 8287; 12288]%N.
Definition letter (U : tables) (r : N) : Prop :=
  ((65 <= r <= 90)%N \/ (97 <= r <= 122)%N) \/ ((128 <= r)%N /\ tb_letter U r = true).
Definition digit (U : tables) (r : N) : Prop :=
  (48 <= r <= 57)%N \/ ((128 <= r)%N /\ tb_digit U r = true).

(** What is needed of the tables: letters, digits and spaces are different,
    and the replacement character is none of them. *)
Definition good_tables (U : tables) : Prop :=
  tb_letter U 65533 = false /\ tb_digit U 65533 = false /\
  (forall r, space r -> tb_letter U r = false /\ tb_digit U r = false) /\
  (forall r, tb_letter U r = true -> tb_digit U r = false).

(** Characters inside a word: letters, digits, hyphen. *)
Definition inner (U : tables) (r : N) : Prop := letter U r \/ digit U r \/ r = code "-".

(** ** Texts *)
Definition bytes (w : text) : list N := map N_of_ascii w.

(** A text that encodes, in UTF-8, characters that all satisfy [P]. *)
Definition all_of (P : N -> Prop) (w : text) : Prop :=
  exists rs, Forall scalar_value rs /\ Forall P rs /\ bytes w = utf8_text rs.
(** The first character of the text satisfies [P]. *)
Definition begins (P : N -> Prop) (w : text) : Prop :=
  exists r t, scalar_value r /\ P r /\ bytes w = sp_utf8 r ++ t.

(** A first character and inner characters. *)
Definition word (U : tables) (first : N -> Prop) (w : text) : Prop :=
  exists r rs, scalar_value r /\ first r /\ Forall scalar_value rs /\ Forall (inner U) rs /\
    bytes w = utf8_text (r :: rs).

(** The keywords. *)
Definition keywords : list (string * toktype) :=
  [("use", KUse); ("type", KType); ("func", KFunc); ("u8", KU8); ("u16", KU16); ("u32", KU32); ("u64", KU64);
   ("s8", KS8); ("s16", KS16); ("s32", KS32); ("s64", KS64); ("float32", KFloat32); ("float64", KFloat64);
   ("char", KChar); ("bool", KBool); ("string", KString); ("option", KOption); ("result", KResult);
   ("future", KFuture); ("stream", KStream); ("list", KList); ("tuple", KTuple); ("own", KOwn);
   ("borrow", KBorrow); ("resource", KResource); ("record", KRecord); ("flags", KFlags); ("variant", KVariant);
   ("enum", KEnum); ("union", KUnion); ("_", Underscore); ("as", KAs); ("from", KFrom); ("static", KStatic);
   ("interface", KInterface); ("world", KWorld); ("import", KImport); ("export", KExport);
   ("package", KPackage); ("constructor", KConstructor); ("include", KInclude); ("with", KWith)]%string.

(** Punctuation. *)
Definition marks : list (string * toktype) :=
  [("=", Equal); (",", Comma); (":", Colon); (".", Period); (";", Semicolon); ("(", OpenParen); (")", CloseParen);
   ("{", OpenBrace); ("}", CloseBrace); ("<", Less); (">", Greater); ("*", Star); ("@", At); ("->", RightArrow);
   ("-", Minus); ("+", Plus); ("/", Slash)]%string.

(** What follows the opening of a block comment, up to and including its own
    closing: comments nest. *)
Definition starts_with (p w : text) : Prop := exists t, w = p ++ t.
Inductive closes : text -> Prop :=
| closes_here : closes (txt "*/")
| closes_char c w : ~ starts_with (txt "/*") (c :: w) -> ~ starts_with (txt "*/") (c :: w) ->
    closes w -> closes (c :: w)
| closes_nested a w : closes a -> closes w -> closes (txt "/*" ++ a ++ w).

Definition token_text (U : tables) (ty : toktype) (w : text) : Prop :=
  match ty with
  | Whitespace => w <> [] /\ all_of space w
  | LineComment => exists b, w = txt "//" ++ b /\ ~ In newline b
  | BlockComment => exists a, w = txt "/*" ++ a /\ closes a
  | Integer => w <> [] /\ all_of (digit U) w
  | ExplicitId => w = txt "%" \/
      exists v, w = txt "%" ++ v /\ word U (fun r => letter U r \/ r = code "_" \/ r = code "-") v
  | Id => word U (fun r => letter U r \/ r = code "_") w /\ ~ (exists s k, In (s, k) keywords /\ w = txt s)
  | EndOfStream => False
  | _ => exists s, In (s, ty) (keywords ++ marks) /\ w = txt s
  end.

(** The text [r] that follows does not belong to the same token. *)
Definition separate (U : tables) (ty : toktype) (w r : text) : Prop :=
  match ty with
  | Whitespace => ~ begins space r
  | LineComment => r = [] \/ exists t, r = newline :: t
  | Integer => ~ begins (digit U) r
  | ExplicitId => if text_eqb w (txt "%")
                  then ~ begins (fun r => letter U r \/ r = code "_" \/ r = code "-") r
                  else ~ begins (inner U) r
  | Slash => ~ starts_with (txt "/") r /\ ~ starts_with (txt "*") r
  | Minus => ~ starts_with (txt ">") r
  | BlockComment | Equal | Comma | Colon | Period | Semicolon | OpenParen | CloseParen | OpenBrace
  | CloseBrace | Less | Greater | Star | At | RightArrow | Plus | EndOfStream => True
  | _ => ~ begins (inner U) r
  end.

(** Texts of a file as a list of tokens, each as long as it can be. *)
Fixpoint separated (U : tables) (ts : list (toktype * text)) : Prop :=
  match ts with
  | [] => True
  | (ty, w) :: ts' => token_text U ty w /\ separate U ty w (concat (map snd ts')) /\ separated U ts'
  end.

(** ** Lines and columns *)

(** The number of newlines of a text, and the length of its last line. *)
Definition newlines (w : text) : nat := count_occ ascii_dec w newline.
Definition last_line (w : text) : text -> Prop := fun l =>
  ~ In newline l /\ (w = l \/ exists a, w = a ++ newline :: l).

(** ** Histories of calls of a lexer's methods *)
Inductive op := ONext | OPeek.

Definition call (U : tables) (o : op) (l : lexer) : outcome token * lexer :=
  match o with ONext => next U l | OPeek => peek U l end.

Fixpoint calls (U : tables) (ops : list op) (l : lexer) : list (op * outcome token) * lexer :=
  match ops with
  | [] => ([], l)
  | o :: ops' =>
      let (r, l') := call U o l in
      let (h, l'') := calls U ops' l' in
      ((o, r) :: h, l'')
  end.

(** The tokens a history's Next calls gave. *)
Fixpoint taken (h : list (op * outcome token)) : list token :=
  match h with
  | [] => []
  | (ONext, Ok t) :: h' => t :: taken h'
  | _ :: h' => taken h'
  end.

(** The results of the Next calls. *)
Fixpoint next_results (h : list (op * outcome token)) : list (outcome token) :=
  match h with
  | [] => []
  | (ONext, r) :: h' => r :: next_results h'
  | (OPeek, _) :: h' => next_results h'
  end.

Definition captures (ts : list token) : text := concat (map t_capture ts).
Definition next_count (ops : list op) : nat :=
  length (filter (fun o => match o with ONext => true | OPeek => false end) ops).

Definition reachable (U : tables) (input : text) (l : lexer) : Prop :=
  exists ops, l = snd (calls U ops (new_lexer input)).
Definition no_error (h : list (op * outcome token)) : Prop :=
  forall o r, In (o, r) h -> exists t, r = Ok t.

(** Several lexers in use at once: Next and Peek on any of them, and Clone. *)
Inductive sop := SCall (i : nat) (o : op) | SClone (i : nat).

Fixpoint set_nth {A} (l : list A) (i : nat) (a : A) : list A :=
  match l, i with
  | [], _ => []
  | _ :: l', 0%nat => a :: l'
  | x :: l', S i' => x :: set_nth l' i' a
  end.

Definition sstep (U : tables) (o : sop) (s : list lexer) : option (nat * op * outcome token) * list lexer :=
  match o with
  | SCall i o =>
      match nth_error s i with
      | Some l => let (r, l') := call U o l in (Some (i, o, r), set_nth s i l')
      | None => (None, s)
      end
  | SClone i => match nth_error s i with Some l => (None, s ++ [clone l]) | None => (None, s) end
  end.

Fixpoint ssteps (U : tables) (os : list sop) (s : list lexer) : list (nat * op * outcome token) * list lexer :=
  match os with
  | [] => ([], s)
  | o :: os' =>
      let (e, s') := sstep U o s in
      let (h, s'') := ssteps U os' s' in
      (match e with Some x => x :: h | None => h end, s'')
  end.

(** What lexer [i] was asked and what it answered. *)
Fixpoint answers (i : nat) (h : list (nat * op * outcome token)) : list (op * outcome token) :=
  match h with
  | [] => []
  | (j, o, r) :: h' => if (i =? j)%nat then (o, r) :: answers i h' else answers i h'
  end.
