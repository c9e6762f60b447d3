(** C78: the order in which Go ranges over a map decides nothing. lex.New
    appends the rules for parentheses in the iteration order of a map, which
    Go leaves open and changes from call to call; the Boolean argument of
    [new_lexer] stands for it. *)
From Coq Require Import Arith NArith ZArith String Ascii Bool List.
From Verif Require Import GoBase M_Text M_WatLex S_WatLex M_LexErrors.
From Verif Require Import M_ParseBase M_WatAst M_WatParse M_WastParse M_WatDecoder.
From Verif Require Import M_WatLocate M_WastLocate L_WatOrder.
Import ListNotations.
Open Scope nat_scope.

(** The order does differ. *)
Example orders_differ : l_rules (new_lexer true (txt "()")) <> l_rules (new_lexer false (txt "()")).
Proof. discriminate. Qed.

(** Next, Peek and Clone answer the same, whatever was called before and on
    whichever of the lexers that come from one lexer. *)
Theorem lexing_ignores_map_order : forall s s' input os,
  fst (ssteps os [new_lexer s input]) = fst (ssteps os [new_lexer s' input]).
Proof. intros s s' input os. apply alike_ssteps. constructor; [apply alike_new|constructor]. Qed.
Print Assumptions lexing_ignores_map_order.
Example lexing_ignores_map_order_used :
  fst (ssteps [SCall 0 OPeek; SClone 0; SCall 0 ONext; SCall 0 ONext; SCall 1 ONext] [new_lexer true (txt "()")]) =
  [(0, OPeek, Ok {| t_type := OpenParen; t_position := 0; t_column := 0; t_line := 0; t_capture := txt "(" |});
   (0, ONext, Ok {| t_type := OpenParen; t_position := 0; t_column := 0; t_line := 0; t_capture := txt "(" |});
   (0, ONext, Ok {| t_type := CloseParen; t_position := 1; t_column := 1; t_line := 0; t_capture := txt ")" |});
   (1, ONext, Ok {| t_type := OpenParen; t_position := 0; t_column := 0; t_line := 0; t_capture := txt "(" |})].
Proof. reflexivity. Qed.

(** The place and the text in the message of a lexer's error are the same. *)
Theorem lex_errors_ignore_map_order : forall s s' input ops,
  wat_error (snd (calls ops (new_lexer s input))) = wat_error (snd (calls ops (new_lexer s' input))).
Proof.
  intros s s' input ops. destruct (alike_calls ops _ _ (alike_new s s' input)) as [_ H]. unfold wat_error.
  rewrite (alike_capture _ _ H). destruct H as (_ & _ & _ & _ & -> & -> & -> & _). reflexivity.
Qed.
Print Assumptions lex_errors_ignore_map_order.
Example lex_errors_ignore_map_order_used :
  fst (calls [ONext; ONext] (new_lexer true (txt "( ,"))) <> [] /\
  exists h, fst (calls [ONext; ONext; ONext] (new_lexer true (txt "( ,"))) = h ++ [(ONext, Err EOther)] /\
  wat_error (snd (calls [ONext; ONext; ONext] (new_lexer true (txt "( ,")))) =
  ({| r_line := 0; r_column := 2; r_position := 3 |}, txt ",").
Proof. split; [discriminate|]. eexists [_; _]. split; reflexivity. Qed.

(** Parse has the same result, also on a lexer that was used before, and its
    errors are about the same token. *)
Theorem parse_ignores_map_order : forall pf s s' input ops,
  let l := snd (calls ops (new_lexer s input)) in
  let l' := snd (calls ops (new_lexer s' input)) in
  fst (parse pf l) = fst (parse pf l') /\ error_token pf l = error_token pf l' /\
  forall more, fst (calls more (snd (parse pf l))) = fst (calls more (snd (parse pf l'))).
Proof.
  intros pf s s' input ops l l'. pose proof (alike_calls ops _ _ (alike_new s s' input)) as [_ H]. fold l l' in H.
  clearbody l l'. destruct (parse_alike pf l l' H) as [E S1]. split; [exact E|]. split; [exact (error_token_alike pf l l' H)|].
  intros more. apply (alike_calls more _ _ S1).
Qed.
Print Assumptions parse_ignores_map_order.
Example parse_ignores_map_order_used :
  (exists d, fst (parse (fun _ => None) (new_lexer true (txt "(module (func (result i32) i32.const 1))"))) = Ok d) /\
  (exists t, fst (parse (fun _ => None) (new_lexer true (txt "(module ("))) = Err EOther /\
     error_token (fun _ => None) (new_lexer true (txt "(module (")) = Some t /\ t_position t = 9).
Proof. split; eexists; [vm_compute; reflexivity|]. split; [vm_compute; reflexivity|]. split; vm_compute; reflexivity. Qed.

(** The functions for literals *)
Theorem literals_ignore_map_order : forall pf s s' input ops,
  let l := snd (calls ops (new_lexer s input)) in
  let l' := snd (calls ops (new_lexer s' input)) in
  fst (ParseString l) = fst (ParseString l') /\ fst (ParseInt32 l) = fst (ParseInt32 l') /\
  fst (ParseInt64 l) = fst (ParseInt64 l') /\ fst (ParseFloat32 pf l) = fst (ParseFloat32 pf l') /\
  fst (ParseFloat64 pf l) = fst (ParseFloat64 pf l').
Proof.
  intros pf s s' input ops l l'. pose proof (alike_calls ops _ _ (alike_new s s' input)) as [_ H]. fold l l' in H.
  clearbody l l'.
  split; [exact (proj1 (spin_string alike wat_source pf wat_next wat_peek l l' H))|].
  split; [exact (proj1 (spin_int32 alike wat_source pf wat_next wat_peek l l' H))|].
  split; [exact (proj1 (spin_int64 alike wat_source pf wat_next wat_peek l l' H))|].
  split; [exact (proj1 (spin_float32 alike wat_source pf wat_next wat_peek l l' H))|].
  exact (proj1 (spin_float64 alike wat_source pf wat_next wat_peek l l' H)).
Qed.
Print Assumptions literals_ignore_map_order.
Example literals_ignore_map_order_used :
  fst (ParseInt32 (snd (calls [ONext] (new_lexer true (txt "( -7"))))) = Ok (-7)%Z.
Proof. vm_compute. reflexivity. Qed.

(** Scripts and files *)
Theorem wast_ignores_map_order : forall pf s s' input,
  ParseWast pf s input = ParseWast pf s' input /\ wast_error_token pf s input = wast_error_token pf s' input.
Proof.
  intros pf s s' input. pose proof (alike_new s s' input) as H.
  pose proof (spin_wast alike wat_source pf wat_next wat_peek (S (rounds (new_lexer s input))) _ _ H) as [E _].
  pose proof (spin_wast noted_alike noting pf noting_next noting_peek (S (rounds (new_lexer s input))) _ _ (noted_start _ _ H)) as [_ [_ E2]].
  split.
  - unfold ParseWast. rewrite <- (alike_rounds _ _ H). exact E.
  - unfold wast_error_token, ParseWastAt. rewrite <- (alike_rounds _ _ H). exact E2.
Qed.
Print Assumptions wast_ignores_map_order.
Example wast_ignores_map_order_used :
  exists d a, ParseWast (fun _ => None) true (txt "(module) (assert_trap (invoke ""f"") ""x"")") = Ok [DWat (QWat d); DTrap (Some a) (txt "x")].
Proof. do 2 eexists. vm_compute. reflexivity. Qed.

Theorem decode_ignores_map_order : forall pf s s' file, decode pf s file = decode pf s' file.
Proof.
  intros pf s s' [input| | |]; try reflexivity. unfold decode. now rewrite (proj1 (parse_alike pf _ _ (alike_new s s' input))).
Qed.
Print Assumptions decode_ignores_map_order.
Example decode_ignores_map_order_used : decode (fun _ => None) true (Ok (txt "(component)")) = Ok GotNilComponent.
Proof. vm_compute. reflexivity. Qed.
