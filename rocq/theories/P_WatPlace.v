(** C76: where parse errors of WAT are reported. *)
From Coq Require Import Arith NArith ZArith String Ascii Bool List Lia.
From Verif Require Import GoBase M_Text M_WatLex S_WatLex S_LexErrors.
From Verif Require Import M_ParseBase M_WatAst S_WatParse M_WatParse L_WatBridge.
From Verif Require Import M_WatLocate S_WatStop L_WatNote L_WatPlace.
Import ListNotations.
Open Scope nat_scope.

(** Noting the token does not change what is parsed. *)
Theorem wat_locating_parses : forall pf l, fst (ParseAt pf l) = fst (parse pf l).
Proof. intros pf l. apply (parse_at pf l). Qed.
Print Assumptions wat_locating_parses.

(** If a file is refused with a message about a token, that token is in the
    file at the line, the column and the position that are printed; or it is
    the end of the file, with the text of a comment or a string that does not
    end. *)
Theorem wat_error_token_is_there : forall pf swap input e t,
  fst (parse pf (new_lexer swap input)) = Err e -> error_token pf (new_lexer swap input) = Some t ->
  exists before after line column, input = text_of before ++ t_capture t ++ after /\ cut before (t_capture t ++ after) /\
  parse_error t = (S line, S column, length (text_of before)) /\ place_of input (length (text_of before)) line column /\
  (token_text (t_type t) (t_capture t) /\ separate (t_type t) after /\ space_or_comment (t_type t) = false \/
   t_type t = EndOfStream /\ (t_capture t = [] \/ unfinished (t_capture t)) /\ after = []).
Proof.
  intros pf swap input e t P Et. destruct (error_place pf swap input e P) as (before & after & R & Cu & _ & X). rewrite Et in X.
  destruct X as (Pt & Pl & X). rewrite Pt in Pl. unfold parse_error. rewrite Pt.
  destruct X as [(r & -> & C & Sp & _)|(Ty & Ca & Fi & _)].
  - exists before, r, (t_line t), (t_column t). split; [exact R|]. split; [exact Cu|]. split; [reflexivity|]. split; [exact Pl|]. left.
    apply cut_app in C. destruct C as (_ & H1 & H2 & _). auto.
  - exists before, [], (t_line t), (t_column t). rewrite app_nil_r, <- Ca. split; [exact R|]. split; [exact Cu|]. split; [reflexivity|]. split; [exact Pl|]. auto.
Qed.
Print Assumptions wat_error_token_is_there.

(** The message is about the first token that is wrong: no file begins with
    the tokens up to it, but some file begins with the tokens before it. At
    the end of the file: the tokens are not those of a file, but begin one. *)
Theorem wat_error_token_is_first : forall pf swap input e t,
  fst (parse pf (new_lexer swap input)) = Err e -> error_token pf (new_lexer swap input) = Some t ->
  exists before after, input = text_of before ++ t_capture t ++ after /\ cut before (t_capture t ++ after) /\
  t_position t = length (text_of before) /\
  (exists x, acceptable swap pf (significant before ++ x)) /\
  (t_type t <> EndOfStream -> forall x, ~ acceptable swap pf (significant before ++ (t_type t, t_capture t) :: x)) /\
  (t_type t = EndOfStream -> after = [] /\ ~ acceptable swap pf (significant before)).
Proof.
  intros pf swap input e t P Et. destruct (error_place pf swap input e P) as (before & after & R & Cu & V & X). rewrite Et in X.
  destruct X as (Pt & Pl & X). destruct X as [(r & -> & C & Sp & N)|(Ty & Ca & Fi & N)].
  - exists before, r. repeat (split; [assumption|]). split; [intros _; exact N|]. intros T.
    apply cut_app in C. destruct C as (_ & H1 & _). rewrite T in H1. destruct H1.
  - exists before, []. rewrite app_nil_r, <- Ca. repeat (split; [assumption|]). split; [congruence|]. auto.
Qed.
Print Assumptions wat_error_token_is_first.

(** There is one way to cut the text before a place into tokens. *)
Theorem wat_tokens_before_unique : forall before before' after after', cut before after -> cut before' after' ->
  text_of before ++ after = text_of before' ++ after' -> length (text_of before) = length (text_of before') -> before = before'.
Proof. intros b b' r r' C C' E L. exact (cut_unique false b b' r r' C C' E L). Qed.
Print Assumptions wat_tokens_before_unique.

(** If the message is not about a token, no token starts after tokens that
    begin a file. *)
Theorem wat_error_without_token : forall pf swap input e,
  fst (parse pf (new_lexer swap input)) = Err e -> error_token pf (new_lexer swap input) = None ->
  exists before after, input = text_of before ++ after /\ cut before after /\ no_start after /\
  exists x, acceptable swap pf (significant before ++ x).
Proof.
  intros pf swap input e P Et. destruct (error_place pf swap input e P) as (before & after & R & Cu & V & X). rewrite Et in X.
  exists before, after. auto.
Qed.
Print Assumptions wat_error_without_token.

(** A file that begins with the tokens of an accepted file is accepted,
    whatever follows. *)
Theorem wat_acceptable_begins : forall pf swap ts after, cut ts after -> acceptable swap pf (significant ts) ->
  exists d, fst (parse pf (new_lexer swap (text_of ts ++ after))) = Ok d.
Proof. exact acceptable_accepts. Qed.
Print Assumptions wat_acceptable_begins.

Definition seen (o : option token) : option (toktype * text * nat * nat * nat) :=
  match o with Some t => Some (t_type t, t_capture t, t_line t, t_column t, t_position t) | None => None end.
Definition none (w : text) : option N := None.
Definition result_of (swap : bool) (input : text) := fst (parse none (new_lexer swap input)).
Definition place (swap : bool) (input : text) := seen (error_token none (new_lexer swap input)).

Example wrong_section : forall swap, result_of swap (txt "(module (fun))") = Err EOther /\
  place swap (txt "(module (fun))") = Some (Reserved, txt "fun", 0, 9, 9).
Proof. intros []; vm_compute; auto. Qed.
Definition two_lines : text := txt "(module (func (param i32)" ++ newline :: txt "  local.get i32.add))".
Example missing_index : forall swap, result_of swap two_lines = Err EOther /\
  place swap two_lines = Some (Reserved, txt "i32.add", 1, 12, 38).
Proof. intros []; vm_compute; auto. Qed.
Example missing_paren : forall swap, result_of swap (txt "(module (func) ") = Err EOther /\
  place swap (txt "(module (func) ") = Some (EndOfStream, [], 0, 15, 15).
Proof. intros []; vm_compute; auto. Qed.
Example open_comment : forall swap, result_of swap (txt "(module (; ) ") = Err EOther /\
  place swap (txt "(module (; ) ") = Some (EndOfStream, txt "(; ) ", 0, 8, 8).
Proof. intros []; vm_compute; auto. Qed.
Example strange_character : forall swap, result_of swap (txt "(module , )") = Err EOther /\ place swap (txt "(module , )") = None.
Proof. intros []; vm_compute; auto. Qed.
