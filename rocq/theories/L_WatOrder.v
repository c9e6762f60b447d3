(** The two orders that the rules of the WAT lexer may have, because New
    ranges over a Go map, lead to the same answers everywhere. *)
From Coq Require Import Arith NArith ZArith String Ascii Bool List.
From Verif Require Import GoBase M_Text M_WatLex S_WatLex.
From Verif Require Import M_ParseBase M_WatAst M_WatParse M_WastParse L_ParseBase L_ParseTotal L_WatSim L_WatBridge.
From Verif Require Import M_WatLocate M_WastLocate L_WatRel L_WatStop L_WatNote L_WastRel.
Import ListNotations.
Open Scope nat_scope.
Open Scope parse_scope.

(** Lexers that differ at most in the order of the rules *)
Definition ordered (rs : list rule) : Prop := rs = rules false \/ rs = rules true.
Definition alike (l l' : lexer) : Prop :=
  ordered (l_rules l) /\ ordered (l_rules l') /\
  l_input l = l_input l' /\ l_offset l = l_offset l' /\ l_position l = l_position l' /\
  l_column l = l_column l' /\ l_line l = l_line l' /\ l_peek l = l_peek l'.
Ltac alike := unfold alike in *; cbn in *; intuition congruence.

(** No character starts both an opening and a closing parenthesis. *)
Lemma starts_app rs rs' c : starts (rs ++ rs') c = starts rs c ++ starts rs' c.
Proof. induction rs as [|r rs IH]; [reflexivity|]. cbn [app starts]. destruct (rule_check r c); cbn; now rewrite IH. Qed.
Lemma starts_order c : starts (rules false) c = starts (rules true) c.
Proof.
  unfold rules. rewrite !starts_app. f_equal. unfold open_rule, close_rule. cbn [starts rule_check txt list_ascii_of_string].
  destruct (Ascii.eqb_spec "(" c) as [<-|N]; [reflexivity|]. now destruct (Ascii.eqb ")" c).
Qed.
Lemma starts_ordered rs rs' c : ordered rs -> ordered rs' -> starts rs c = starts rs' c.
Proof. intros [->| ->] [->| ->]; auto using starts_order. Qed.

(** The same answer, and lexers that are alike again *)
Definition agree {A} (p q : outcome A * lexer) : Prop := fst p = fst q /\ alike (snd p) (snd q).

Lemma alike_capture l l' : alike l l' -> capture l = capture l'.
Proof. intros (_ & _ & I & O & P & _). unfold capture. now rewrite I, O, P. Qed.
Lemma alike_token l l' ty : alike l l' -> agree (ok_token (make_token l ty)) (ok_token (make_token l' ty)).
Proof.
  intros H. pose proof (alike_capture l l' H) as C. destruct H as (R & R' & I & O & P & Co & Li & Pe).
  unfold make_token. rewrite <- C, <- Li, <- Co, <- O. destruct (advance _ _ _) as [a b]. split; [reflexivity|].
  cbn. unfold alike. cbn. auto 10.
Qed.
Lemma alike_read l l' : alike l l' -> fst (read_rune l) = fst (read_rune l') /\ alike (snd (read_rune l)) (snd (read_rune l')).
Proof.
  intros H. pose proof H as (R & R' & I & O & P & Co & Li & Pe). unfold read_rune. rewrite <- I, <- P.
  destruct (nth_error _ _); [|auto]. split; [reflexivity|]. unfold alike. cbn. rewrite P. auto 10.
Qed.
Lemma alike_scan n : forall xs l l', alike l l' -> agree (scan n xs l) (scan n xs l').
Proof.
  induction n as [|n IH]; intros xs l l' H; cbn [scan]; [split; auto|].
  assert (Pk : peek_rune l = peek_rune l') by (destruct H as (_ & _ & I & _ & P & _); unfold peek_rune; now rewrite I, P).
  rewrite <- Pk. destruct (peek_rune l) as [r|].
  - destruct (matches xs r) as [|x ys] eqn:M; [destruct (first_accepted xs); [now apply alike_token|split; auto]|].
    apply IH, alike_read, H.
  - destruct (first_accepted xs); now apply alike_token.
Qed.
Lemma alike_raw l l' : alike l l' -> agree (next_raw l) (next_raw l').
Proof.
  intros H. unfold next_raw. pose proof (alike_read l l' H) as [E H1].
  destruct (read_rune l) as [o l1], (read_rune l') as [o' l1']. cbn in E, H1. subst o'.
  destruct o as [r|]; [|now apply alike_token].
  rewrite <- (starts_ordered (l_rules l1) (l_rules l1')); [|apply H1..].
  replace (l_input l1') with (l_input l1) by apply H1.
  destruct (starts (l_rules l1) r); [split; auto|now apply alike_scan].
Qed.
Lemma alike_set l l' t : alike l l' -> alike (set_peek l t) (set_peek l' t).
Proof. unfold alike. cbn. intuition. Qed.
Lemma alike_next l l' : alike l l' -> agree (next l) (next l').
Proof.
  intros H. unfold next. replace (l_peek l') with (l_peek l) by apply H.
  destruct (l_peek l); [split; [reflexivity|now apply alike_set]|now apply alike_raw].
Qed.
Lemma alike_peek l l' : alike l l' -> agree (peek l) (peek l').
Proof.
  intros H. unfold peek. replace (l_peek l') with (l_peek l) by apply H.
  destruct (l_peek l); [split; auto|]. pose proof (alike_raw l l' H) as [E H1].
  destruct (next_raw l) as [o l1], (next_raw l') as [o' l1']. cbn in E, H1. subst o'.
  destruct o; split; auto. now apply alike_set.
Qed.
Lemma alike_new s s' input : alike (new_lexer s input) (new_lexer s' input).
Proof. unfold alike, ordered, new_lexer. cbn [l_rules l_input l_offset l_position l_column l_line l_peek]. destruct s, s'; auto 10. Qed.

(** ** Histories *)
Lemma alike_call o l l' : alike l l' -> agree (call o l) (call o l').
Proof. destruct o; [apply alike_next|apply alike_peek]. Qed.
Lemma alike_calls ops : forall l l', alike l l' -> fst (calls ops l) = fst (calls ops l') /\ alike (snd (calls ops l)) (snd (calls ops l')).
Proof.
  induction ops as [|o ops IH]; intros l l' H; [split; auto|]. cbn [calls]. destruct (alike_call o l l' H) as [E H1].
  destruct (call o l) as [r l1], (call o l') as [r' l1']. cbn in E, H1. subst r'. destruct (IH _ _ H1) as [E2 H2].
  destruct (calls ops l1), (calls ops l1'). cbn in *. now subst.
Qed.

Lemma alike_nth s s' i : Forall2 alike s s' -> match nth_error s i, nth_error s' i with
  | Some l, Some l' => alike l l' | None, None => True | _, _ => False end.
Proof. intros H. revert i. induction H as [|l l' s s' H _ IH]; intros [|i]; cbn; auto. apply IH. Qed.
Lemma alike_set_nth s s' i l l' : Forall2 alike s s' -> alike l l' -> Forall2 alike (set_nth s i l) (set_nth s' i l').
Proof. intros H Hl. revert i. induction H as [|? ? ? ? H Hs IH]; intros [|i]; cbn; constructor; auto. Qed.
Lemma alike_sstep o s s' : Forall2 alike s s' -> fst (sstep o s) = fst (sstep o s') /\ Forall2 alike (snd (sstep o s)) (snd (sstep o s')).
Proof.
  intros H. destruct o as [i o|i]; cbn [sstep]; pose proof (alike_nth s s' i H) as X;
    destruct (nth_error s i) as [l|], (nth_error s' i) as [l'|]; try contradiction; auto.
  - destruct (alike_call o l l' X) as [E H1]. destruct (call o l) as [r l1], (call o l') as [r' l1']. cbn in E, H1 |- *. subst r'.
    split; [reflexivity|now apply alike_set_nth].
  - split; [reflexivity|]. cbn. apply Forall2_app; [exact H|]. constructor; [exact X|constructor].
Qed.
Lemma alike_ssteps os : forall s s', Forall2 alike s s' -> fst (ssteps os s) = fst (ssteps os s') /\ Forall2 alike (snd (ssteps os s)) (snd (ssteps os s')).
Proof.
  induction os as [|o os IH]; intros s s' H; [split; auto|]. cbn [ssteps]. destruct (alike_sstep o s s' H) as [E H1].
  destruct (sstep o s) as [e t], (sstep o s') as [e' t']. cbn in E, H1. subst e'. destruct (IH _ _ H1) as [E2 H2].
  destruct (ssteps os t), (ssteps os t'). cbn in *. now subst.
Qed.

(** ** Parsers over lexers that are alike *)
Section Spin.
Context {L : Type}.
Variable same : L -> L -> Prop.
Definition spin (A : Type) (p q : parser L A) : Prop :=
  forall l l', same l l' -> fst (p l) = fst (q l') /\ same (snd (p l)) (snd (q l')).
Lemma spin_pret A (a : A) : spin A (pret a) (pret a).
Proof. intros l l' H. split; auto. Qed.
Lemma spin_perr A : spin A perr perr.
Proof. intros l l' H. split; auto. Qed.
Lemma spin_pdiverge A : spin A pdiverge pdiverge.
Proof. intros l l' H. split; auto. Qed.
Lemma spin_handled A p q : spin A p q -> spin A (handled p) (handled q).
Proof.
  intros H l l' S. destruct (H l l' S) as [H1 H2]. unfold handled. destruct (p l) as [[| | |] ?], (q l') as [[| | |] ?]; cbn in *;
    try discriminate; auto.
Qed.
Lemma spin_bind A B p q (f : A -> _) g : spin A p q -> (forall a, spin B (f a) (g a)) -> spin B (pbind (unwrap p) f) (pbind (unwrap q) g).
Proof.
  intros H F l l' S. destruct (H l l' S) as [H1 H2]. rewrite !plet_eq. destruct (p l) as [[| | |] ?], (q l') as [[| | |] ?]; cbn in *;
    try discriminate; auto. inversion H1; subst. now apply F.
Qed.
Lemma spin_trial A p q : spin (option A) p q -> spin (option A) (trial p) (trial q).
Proof.
  intros H l l' S. destruct (H l l' S) as [H1 H2]. unfold trial. destruct (p l) as [[[a|]| | |] ?], (q l') as [[[b|]| | |] ?]; cbn in *;
    try discriminate; auto.
Qed.
Lemma spin_zero x : 0 = x -> x = 0 \/ forall A (q : parser L A), spin A pdiverge q.
Proof. auto. Qed.
End Spin.

Lemma loop_next n : spin alike _ (next_loop next skipped n) (next_loop next skipped n).
Proof.
  induction n as [|n IH]; cbn [next_loop]; [apply spin_pdiverge|]. apply spin_bind; [exact alike_next|].
  intros t. destruct (skipped t); [exact IH|apply spin_pret].
Qed.
Lemma loop_peek n : spin alike _ (peek_loop next peek skipped n) (peek_loop next peek skipped n).
Proof.
  induction n as [|n IH]; cbn [peek_loop]; [apply spin_pdiverge|]. apply spin_bind; [exact alike_peek|].
  intros t. destruct (skipped t); [|apply spin_pret]. apply spin_bind; [exact alike_next|intros _; exact IH].
Qed.
Lemma alike_rounds l l' : alike l l' -> rounds l = rounds l'.
Proof. intros (_ & _ & I & _). unfold rounds. now rewrite I. Qed.
Lemma parser_next : spin alike _ (handled (fun l => next_loop next skipped (rounds l) l)) (handled (fun l => next_loop next skipped (rounds l) l)).
Proof. apply spin_handled. intros l l' H. rewrite <- (alike_rounds l l' H). now apply loop_next. Qed.
Lemma parser_peek : spin alike _ (handled (fun l => peek_loop next peek skipped (rounds l) l)) (handled (fun l => peek_loop next peek skipped (rounds l) l)).
Proof. apply spin_handled. intros l l' H. rewrite <- (alike_rounds l l' H). now apply loop_peek. Qed.

Lemma spin_viewed p : spin alike _ p p -> spin alike _ (viewed p) (viewed p).
Proof.
  intros H l l' S. destruct (H l l' S) as [H1 H2]. unfold viewed. destruct (p l) as [[| | |] ?], (p l') as [[| | |] ?]; cbn in *;
    try discriminate; inversion H1; subst; auto.
Qed.
Definition noted_alike (s s' : noted) : Prop := alike (no_lexer s) (no_lexer s') /\ no_token s = no_token s'.
Lemma spin_note p : spin alike _ p p -> spin noted_alike _ (note p) (note p).
Proof.
  intros H s s' [S _]. destruct (H _ _ S) as [H1 H2]. unfold note, noted_alike.
  destruct (p (no_lexer s)) as [[| | |] ?], (p (no_lexer s')) as [[| | |] ?]; cbn in *; try discriminate; inversion H1; subst; auto.
Qed.

Section Parsers.
Context {L : Type}.
Variable same : L -> L -> Prop.
Variable src : source L toktype.
Variable pf : text -> option N.
Hypothesis next_same : spin same _ (s_next src) (s_next src).
Hypothesis peek_same : spin same _ (s_peek src) (s_peek src).

Ltac rel_of H := apply (H next_same peek_same (spin_pret same) (spin_perr same) (spin_pdiverge same) (spin_handled same) (spin_bind same)
  eq (spin_zero same) same_S).
Lemma spin_string : spin same _ (parse_string src) (parse_string src).
Proof. rel_of (rel_string src src pf (spin same)). Qed.
Lemma spin_int32 : spin same _ (parse_int32 src) (parse_int32 src).
Proof. rel_of (rel_int32 src src pf (spin same)). Qed.
Lemma spin_int64 : spin same _ (parse_int64 src) (parse_int64 src).
Proof. rel_of (rel_int64 src src pf (spin same)). Qed.
Lemma spin_float32 : spin same _ (parse_float32 src pf) (parse_float32 src pf).
Proof. rel_of (rel_float32 src src pf (spin same)). Qed.
Lemma spin_float64 : spin same _ (parse_float64 src pf) (parse_float64 src pf).
Proof. rel_of (rel_float64 src src pf (spin same)). Qed.
Lemma spin_block : forall n n', n = n' -> spin same _ (parse_instruction src pf n) (parse_instruction src pf n') ->
  spin same _ (parse_block src (parse_instruction src pf n) n) (parse_block src (parse_instruction src pf n') n') /\
  spin same _ (parse_loop src (parse_instruction src pf n) n) (parse_loop src (parse_instruction src pf n') n').
Proof. apply (rel_block_trial src src pf (spin same) next_same peek_same (spin_pret same) (spin_perr same) (spin_pdiverge same)
  (spin_handled same) (spin_bind same) eq (spin_zero same) same_S (spin_trial same)). Qed.
Lemma spin_directive n : spin same _ (parse_directive src pf n) (parse_directive src pf n).
Proof. apply (rel_directive src src pf (spin same) next_same peek_same (spin_pret same) (spin_perr same) (spin_pdiverge same)
  (spin_handled same) (spin_bind same) eq (spin_zero same) same_S spin_block). reflexivity. Qed.
Lemma spin_wast n : spin same _ (parse_wast src pf n) (parse_wast src pf n).
Proof.
  apply (rel_wast src src pf (spin same) next_same peek_same (spin_pret same) (spin_perr same) (spin_pdiverge same)
    (spin_handled same) (spin_bind same) eq (spin_zero same) same_S spin_block); [|reflexivity].
  intros k j H. apply (rel_wdirective_trial src src pf (spin same) next_same peek_same (spin_pret same) (spin_perr same) (spin_pdiverge same)
    (spin_handled same) (spin_bind same) eq (spin_zero same) same_S spin_block (spin_trial same)). exact H.
Qed.
End Parsers.

Definition wat_next := spin_viewed _ parser_next.
Definition wat_peek := spin_viewed _ parser_peek.
Definition noting_next := spin_note _ parser_next.
Definition noting_peek := spin_note _ parser_peek.
Lemma noted_start l l' : alike l l' -> noted_alike {| no_lexer := l; no_token := None |} {| no_lexer := l'; no_token := None |}.
Proof. split; auto. Qed.

(** What the parsers do with lexers that are alike *)
Lemma parse_alike pf l l' : alike l l' -> fst (parse pf l) = fst (parse pf l') /\ alike (snd (parse pf l)) (snd (parse pf l')).
Proof.
  intros H. unfold parse. rewrite <- (alike_rounds l l' H).
  exact (spin_directive alike wat_source pf wat_next wat_peek (S (rounds l)) l l' H).
Qed.
Lemma error_token_alike pf l l' : alike l l' -> error_token pf l = error_token pf l'.
Proof.
  intros H. unfold error_token, ParseAt. rewrite <- (alike_rounds l l' H).
  exact (proj2 (proj2 (spin_directive noted_alike noting pf noting_next noting_peek (S (rounds l)) _ _ (noted_start l l' H)))).
Qed.
