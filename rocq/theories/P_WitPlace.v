(** C75: where parse errors of WIT are reported. *)
From Coq Require Import Arith NArith ZArith String Ascii Bool List Lia.
From Verif Require Import GoBase M_Text S_Utf M_WitLex S_WitLex L_WitLex L_WitHist P_WitLex S_WitErrors.
From Verif Require Import M_ParseBase M_WitAst M_WitParse S_WitParse S_WitPrint L_WitPrint L_ParseBase P_WitParse.
From Verif Require Import M_WitLocate S_WitStop L_WitStop L_WitViable L_WitNote L_WitPlace.
Import ListNotations.
Open Scope nat_scope.

(** Noting the token does not change what is parsed. *)
Theorem wit_locating_parses : forall U input, fst (ParseAt U input) = Parse U input.
Proof. intros U input. apply (parse_at U input). Qed.
Print Assumptions wit_locating_parses.

(** If a file is refused with a message about a token, that token is in the
    file at the line, the column and the position that are printed; or it is
    the end of the file. *)
Theorem wit_error_token_is_there : forall U input e t, good_tables U -> Parse U input = Err e -> error_token U input = Some t ->
  exists before after line column, input = text_of before ++ t_capture t ++ after /\ cuts U before (t_capture t ++ after) /\
  parse_error t = (S line, S column, length (text_of before)) /\ place_of input (length (text_of before)) line column /\
  (token_text U (t_type t) (t_capture t) /\ separate U (t_type t) (t_capture t) after /\ space_or_comment (t_type t) = false \/
   t_type t = EndOfStream /\ t_capture t = [] /\ after = []).
Proof.
  intros U input e t HU P Et. destruct (error_place U HU input e P) as (before & after & R & Cu & _ & X). rewrite Et in X.
  destruct X as (Pt & Pl & X). rewrite Pt in Pl. unfold parse_error. rewrite Pt.
  destruct X as [(r & -> & C & Sp & _)|(Ty & Ca & -> & _)].
  - exists before, r, (t_line t), (t_column t). split; [exact R|]. split; [exact Cu|]. split; [reflexivity|]. split; [exact Pl|]. left.
    apply cuts_app in C. destruct C as (_ & H1 & H2 & _). auto.
  - exists before, [], (t_line t), (t_column t). rewrite Ca. split; [exact R|]. split; [exact Cu|]. split; [reflexivity|]. split; [exact Pl|]. auto.
Qed.
Print Assumptions wit_error_token_is_there.

(** The message is about the first token that is wrong: no file begins with
    the tokens up to it, but some file begins with the tokens before it,
    unless they end inside a path with a package. At the end of the file:
    the tokens are not those of a file, but begin one. *)
Theorem wit_error_token_is_first : forall U input e t, good_tables U -> Parse U input = Err e -> error_token U input = Some t ->
  exists before after, input = text_of before ++ t_capture t ++ after /\ cuts U before (t_capture t ++ after) /\
  t_position t = length (text_of before) /\
  (in_package_path (significant before) \/ exists x, acceptable U (significant before ++ x)) /\
  (t_type t <> EndOfStream -> forall x, ~ acceptable U (significant before ++ (t_type t, t_capture t) :: x)) /\
  (t_type t = EndOfStream -> after = [] /\ ~ acceptable U (significant before)).
Proof.
  intros U input e t HU P Et. destruct (error_place U HU input e P) as (before & after & R & Cu & V & X). rewrite Et in X.
  destruct X as (Pt & Pl & X). destruct X as [(r & -> & C & Sp & N)|(Ty & Ca & -> & N)].
  - exists before, r. repeat (split; [assumption|]). split; [intros _; exact N|]. intros T.
    apply cuts_app in C. destruct C as (_ & H1 & _). rewrite T in H1. destruct H1.
  - exists before, []. rewrite Ca. repeat (split; [assumption|]). split; [congruence|]. auto.
Qed.
Print Assumptions wit_error_token_is_first.

(** There is one way to cut the text before a place into tokens. *)
Theorem wit_tokens_before_unique : forall U before before' after after', good_tables U -> cuts U before after -> cuts U before' after' ->
  text_of before ++ after = text_of before' ++ after' -> length (text_of before) = length (text_of before') -> before = before'.
Proof. intros U b b' r r' HU C C' E L. exact (cuts_unique U HU b b' r r' C C' E L). Qed.
Print Assumptions wit_tokens_before_unique.

(** If the message is not about a token, the lexer refused the text after
    tokens that begin a file. *)
Theorem wit_error_without_token : forall U input e, good_tables U -> Parse U input = Err e -> error_token U input = None ->
  exists before after v, input = text_of before ++ after /\ cuts U before after /\ unreadable U after v /\
  (in_package_path (significant before) \/ exists x, acceptable U (significant before ++ x)).
Proof.
  intros U input e HU P Et. destruct (error_place U HU input e P) as (before & after & R & Cu & V & X). rewrite Et in X.
  destruct X as [v X]. exists before, after, v. auto.
Qed.
Print Assumptions wit_error_without_token.

Definition seen (o : option token) : option (toktype * text * nat * nat * nat) :=
  match o with Some t => Some (t_type t, t_capture t, t_line t, t_column t, t_position t) | None => None end.

Example missing_name : Parse latin (txt "interface { }") = Err EOther /\
  seen (error_token latin (txt "interface { }")) = Some (OpenBrace, txt "{", 0, 10, 10).
Proof. vm_compute. auto. Qed.
Definition two_lines : text := txt "world w {" ++ newline :: txt "  import a func();" ++ newline :: txt "}".
Example missing_colon : Parse latin two_lines = Err EOther /\
  seen (error_token latin two_lines) = Some (KFunc, txt "func", 1, 11, 21).
Proof. vm_compute. auto. Qed.
Example missing_brace : Parse latin (txt "interface i { ") = Err EOther /\
  seen (error_token latin (txt "interface i { ")) = Some (EndOfStream, [], 0, 14, 14).
Proof. vm_compute. auto. Qed.
Example strange_character : Parse latin (txt "interface i $") = Err EOther /\ error_token latin (txt "interface i $") = None.
Proof. vm_compute. auto. Qed.

(** *** What does not hold *)
(** The tokens before the error need not begin a file: paths with a package
    are read up to the name and then refused. *)
Definition package_path : list tk := [tok "use"; (Id, txt "a"); tok ":"; (Id, txt "a"); tok "/"].
Lemma package_path_refused U x : good_tables U -> ~ acceptable U (package_path ++ x).
Proof.
  intros HU A. destruct x as [|[k v] x].
  - destruct A as (input & ts & a & Pa & -> & S & W). pose proof (counts_text U HU ts S) as X. rewrite Pa, W in X.
    set (n := fuel _) in X. pose proof (more_fuel n (Nat.max 9 n) (begin_at (package_path ++ []) (Ends [])) ltac:(lia)) as M1.
    pose proof (more_fuel 9 (Nat.max 9 n) (begin_at (package_path ++ []) (Ends [])) ltac:(lia) ltac:(vm_compute; discriminate)) as M2.
    destruct (parse_ast counter n _) as [[b| | |] c]; cbn in X; try contradiction. specialize (M1 ltac:(discriminate)).
    rewrite M2 in M1. vm_compute in M1. discriminate M1.
  - change (package_path ++ (k, v) :: x) with ((package_path ++ [(k, v)]) ++ x) in A. revert A.
    apply (stopped_unacceptable U HU 9 _ EOther (snd (parse_ast first 9 (Some (package_path ++ [(k, v)]))))). destruct k; reflexivity.
Qed.
Theorem wit_error_before_is_viable_refuted : ~ (forall U input e t, good_tables U -> Parse U input = Err e -> error_token U input = Some t ->
  exists before after, input = text_of before ++ t_capture t ++ after /\ cuts U before (t_capture t ++ after) /\
  t_position t = length (text_of before) /\ exists x, acceptable U (significant before ++ x)).
Proof.
  intros H. destruct (H latin (txt "use a : a / a ") EOther {| t_type := Id; t_capture := txt "a"; t_line := 0; t_column := 12; t_position := 12 |}
    latin_good ltac:(vm_compute; reflexivity) ltac:(vm_compute; reflexivity)) as (before & after & R & Cu & P & x & A). clear H.
  assert (S : Forall (solid latin) (package_path ++ [(Id, txt "a")])).
  { assert (I : solid latin (Id, txt "a")) by (apply (proj1 (Forall_forall _ _) (vocab_solid latin)); cbn; tauto).
    cbn [package_path app]. repeat (apply Forall_cons; [first [exact I | apply solid_tok; reflexivity]|]). apply Forall_nil. }
  pose proof (blanks_separated latin latin_good _ S) as Sp. change (blanks (package_path ++ [(Id, txt "a")])) with (blanks package_path ++ blanks [(Id, txt "a")]) in Sp.
  apply cuts_separated, cuts_app in Sp. destruct Sp as [Sp _].
  assert (E : blanks package_path = before).
  { apply (cuts_unique latin latin_good _ _ _ _ Sp Cu); [rewrite <- R; reflexivity | rewrite <- P; reflexivity]. }
  apply Forall_app in S. destruct S as [S _].
  rewrite <- E, (blanks_significant latin _ S) in A. exact (package_path_refused latin x latin_good A).
Qed.
Print Assumptions wit_error_before_is_viable_refuted.

(** An item of a world that is not known is refused with the place after the
    token, not that of the token. *)
Theorem wit_world_item_place_refuted : ~ (forall U input e t line column position, good_tables U -> Parse U input = Err e ->
  error_token U input = Some t -> parse_error t = (line, column, position) -> parse_error_from_lexer U input = (line, column)).
Proof.
  intros H. specialize (H latin (txt "world w { enum e { a } }") EOther
    {| t_type := KEnum; t_capture := txt "enum"; t_line := 0; t_column := 10; t_position := 10 |} 1 11 10 latin_good
    ltac:(vm_compute; reflexivity) ltac:(vm_compute; reflexivity) eq_refl). vm_compute in H. discriminate H.
Qed.
Print Assumptions wit_world_item_place_refuted.
