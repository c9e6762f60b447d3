(** C77: where parse errors of WAST are reported. *)
From Coq Require Import Arith NArith ZArith String Ascii Bool List Lia.
From Verif Require Import GoBase M_Text M_WatLex S_WatLex S_LexErrors.
From Verif Require Import M_ParseBase M_WatAst S_WatParse M_WatParse M_WastParse L_WatBridge.
From Verif Require Import M_WatLocate M_WastLocate S_WastStop L_WatNote L_WatPlace L_WastPlace.
Import ListNotations.
Open Scope nat_scope.

(** Noting the token does not change what is parsed. *)
Theorem wast_locating_parses : forall pf swap input, fst (ParseWastAt pf swap input) = ParseWast pf swap input.
Proof. intros pf swap input. apply parse_wast_at. Qed.
Print Assumptions wast_locating_parses.

(** If a script is refused with a message about a token, that token is in the
    script at the line, the column and the position that are printed; or it
    is the end of the script, with the text of a comment or a string that
    does not end. *)
Theorem wast_error_token_is_there : forall pf swap input e t,
  ParseWast pf swap input = Err e -> wast_error_token pf swap input = Some t ->
  exists before after line column, input = text_of before ++ t_capture t ++ after /\ cut before (t_capture t ++ after) /\
  parse_error t = (S line, S column, length (text_of before)) /\ place_of input (length (text_of before)) line column /\
  (token_text (t_type t) (t_capture t) /\ separate (t_type t) after /\ space_or_comment (t_type t) = false \/
   t_type t = EndOfStream /\ (t_capture t = [] \/ unfinished (t_capture t)) /\ after = []).
Proof.
  intros pf swap input e t P Et. destruct (wast_error_place pf swap input e P) as (before & after & R & Cu & _ & X). rewrite Et in X.
  destruct X as (Pt & Pl & X). rewrite Pt in Pl. unfold parse_error. rewrite Pt.
  destruct X as [(r & -> & C & Sp & _)|(Ty & Ca & Fi & _)].
  - exists before, r, (t_line t), (t_column t). split; [exact R|]. split; [exact Cu|]. split; [reflexivity|]. split; [exact Pl|]. left.
    apply cut_app in C. destruct C as (_ & H1 & H2 & _). auto.
  - exists before, [], (t_line t), (t_column t). rewrite app_nil_r, <- Ca. split; [exact R|]. split; [exact Cu|]. split; [reflexivity|]. split; [exact Pl|]. auto.
Qed.
Print Assumptions wast_error_token_is_there.

(** The message is about the first token that is wrong: no script begins with
    the tokens up to it, but some script begins with the tokens before it. At
    the end: the tokens are not those of a script, but begin one. *)
Theorem wast_error_token_is_first : forall pf swap input e t,
  ParseWast pf swap input = Err e -> wast_error_token pf swap input = Some t ->
  exists before after, input = text_of before ++ t_capture t ++ after /\ cut before (t_capture t ++ after) /\
  t_position t = length (text_of before) /\
  (exists x, script_tokens swap pf (significant before ++ x)) /\
  (t_type t <> EndOfStream -> forall x, ~ script_tokens swap pf (significant before ++ (t_type t, t_capture t) :: x)) /\
  (t_type t = EndOfStream -> after = [] /\ ~ script_tokens swap pf (significant before)).
Proof.
  intros pf swap input e t P Et. destruct (wast_error_place pf swap input e P) as (before & after & R & Cu & V & X). rewrite Et in X.
  destruct X as (Pt & Pl & X). destruct X as [(r & -> & C & Sp & N)|(Ty & Ca & Fi & N)].
  - exists before, r. repeat (split; [assumption|]). split; [intros _; exact N|]. intros T.
    apply cut_app in C. destruct C as (_ & H1 & _). rewrite T in H1. destruct H1.
  - exists before, []. rewrite app_nil_r, <- Ca. repeat (split; [assumption|]). split; [congruence|]. auto.
Qed.
Print Assumptions wast_error_token_is_first.

(** If the message is not about a token, no token starts after tokens that
    begin a script. *)
Theorem wast_error_without_token : forall pf swap input e,
  ParseWast pf swap input = Err e -> wast_error_token pf swap input = None ->
  exists before after, input = text_of before ++ after /\ cut before after /\ no_start after /\
  exists x, script_tokens swap pf (significant before ++ x).
Proof.
  intros pf swap input e P Et. destruct (wast_error_place pf swap input e P) as (before & after & R & Cu & V & X). rewrite Et in X.
  exists before, after. auto.
Qed.
Print Assumptions wast_error_without_token.

(** Whether a script is accepted depends on its tokens alone, however they are
    spaced and commented and even if it ends within a comment or a string. *)
Theorem wast_tokens_decide : forall pf swap ts after, cut ts after -> after = [] \/ unfinished after ->
  (script_tokens swap pf (significant ts) <-> exists ds, ParseWast pf swap (text_of ts ++ after) = Ok ds).
Proof. intros pf swap ts after C L. split; [exact (script_accepts pf swap ts after C L)|exact (script_accepted pf swap ts after C L)]. Qed.
Print Assumptions wast_tokens_decide.

Definition seen (o : option token) : option (toktype * text * nat * nat * nat) :=
  match o with Some t => Some (t_type t, t_capture t, t_line t, t_column t, t_position t) | None => None end.
Definition none (w : text) : option N := None.
Definition place (swap : bool) (input : text) := (ParseWast none swap input, seen (wast_error_token none swap input)).

Example wrong_action : forall swap, place swap (txt "(assert_return (get ""g""))") = (Err EOther, Some (Reserved, txt "get", 0, 16, 16)).
Proof. intros []; vm_compute; auto. Qed.
Example wrong_directive : forall swap, place swap (txt "(register ""m"")") = (Err EOther, Some (Reserved, txt "register", 0, 1, 1)).
Proof. intros []; vm_compute; auto. Qed.
Definition two_lines : text := txt "(module)" ++ newline :: txt "(assert_trap (invoke ""f"") trap)".
Example second_line : forall swap, place swap two_lines = (Err EOther, Some (Reserved, txt "trap", 1, 26, 35)).
Proof. intros []; vm_compute; auto. Qed.
Example missing_paren : forall swap, place swap (txt "(module) (module (func) ") = (Err EOther, Some (EndOfStream, [], 0, 24, 24)).
Proof. intros []; vm_compute; auto. Qed.
Example strange_character : forall swap, place swap (txt "(module) , ") = (Err EOther, None).
Proof. intros []; vm_compute; auto. Qed.
Example open_comment_accepted : forall swap, exists ds, ParseWast none swap (txt "(module) (; (") = Ok ds.
Proof. intros []; vm_compute; eauto. Qed.
