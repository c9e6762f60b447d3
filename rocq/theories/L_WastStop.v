(** How far the WAST parser looks, as L_WatStop.v and L_WatEnd.v for WAT. *)
From Coq Require Import Arith NArith ZArith String Ascii Bool List Lia.
From Verif Require Import GoBase M_Text M_WatLex M_ParseBase M_Strconv M_WatAst M_WatParse M_WastParse S_WatParse L_ParseBase L_WatSim.
From Verif Require Import L_WatRel L_WatStop L_WatEnd L_WastRel.
Import ListNotations.
Open Scope nat_scope.
Open Scope parse_scope.
#[local] Arguments tok_eqb : simpl never.
#[local] Arguments text_eqb : simpl never.

(** ** Without a clone *)
Section Direct.
Variable pf : text -> option N.
Lemma kind_eq k k' : tok_eqb k k' = true -> k = k'.
Proof. destruct k, k'; try reflexivity; discriminate. Qed.

Lemma f_quote n s : parse_quote_wat first pf (S n) s = quote_direct first pf (S n) s.
Proof.
  unfold parse_quote_wat, quote_direct, quote_rest, at_quote, trial, handled. rewrite !plet_eq, f_exp.
  destruct s as [[|t ts]|]; try reflexivity. destruct (tok_eqb (fst t) OpenParen) eqn:Ht; [|reflexivity].
  rewrite !plet_eq, f_ate. destruct ts as [|u ts]; try reflexivity. destruct (tok_eqb (fst u) TComponent) eqn:Hu.
  - apply kind_eq in Hu. unfold pret at 1. rewrite !plet_eq, f_nxt, f_pk. destruct ts as [|v ts]; try reflexivity. unfold pret at 1.
    fold (is_quote v). destruct (is_quote v).
    + unfold quoted. rewrite !plet_eq, f_nxt. rewrite !plet_eq. destruct (parse_string first (Some ts)) as [[x| | |] s1]; reflexivity.
    + rewrite !plet_eq. unfold parse_wat, parse_directive, handled. rewrite !plet_eq, !f_exp, Ht, !plet_eq, f_pk, plet_eq, Hu.
      rewrite plet_eq. unfold parse_component, handled. rewrite plet_eq, f_exp, Hu. cbn [pret]. change (tok_eqb TComponent TComponent) with true.
      cbn [pret]. rewrite !plet_eq, !f_exp. destruct (tok_eqb (fst v) CloseParen); reflexivity.
  - rewrite !plet_eq, f_ate. destruct (tok_eqb (fst u) TModule) eqn:Hm.
    + apply kind_eq in Hm. unfold pret at 1. rewrite !plet_eq, f_nxt, f_pk. destruct ts as [|v ts]; try reflexivity. unfold pret at 1.
      fold (is_quote v). destruct (is_quote v).
      * unfold quoted. rewrite !plet_eq, f_nxt. rewrite !plet_eq. destruct (parse_string first (Some ts)) as [[x| | |] s1]; reflexivity.
      * rewrite !plet_eq. unfold parse_wat, parse_directive, handled. rewrite !plet_eq, !f_exp, Ht, !plet_eq, f_pk, plet_eq, Hm.
        rewrite plet_eq. unfold parse_module, handled. rewrite plet_eq, f_exp, Hm. change (tok_eqb TModule TModule) with true. cbv iota.
        destruct (sections first (S n) _ _ _) as [[m| | |] s1]; try reflexivity. cbn [pret]. rewrite !plet_eq.
        destruct (exp first CloseParen s1) as [[| | |] s2]; reflexivity.
    + rewrite !plet_eq, f_nxt. reflexivity.
Qed.

Lemma c_secs_unseen n s k : sections counter (S n) (module_section counter pf (S n)) no_module (unseen s k) =
  sections counter (S n) (module_section counter pf (S n)) no_module s.
Proof. cbn [sections]. rewrite !plet_eq, !c_ate. destruct s as [ts e m i]. reflexivity. Qed.
Lemma c_exp_unseen k s i : exp counter k (unseen s i) = exp counter k s.
Proof. rewrite !c_exp. destruct s as [ts e m j]. reflexivity. Qed.
Lemma c_ate_unseen k s i : ate counter k (unseen s i) = ate counter k s.
Proof. rewrite !c_ate. destruct s as [ts e m j]. reflexivity. Qed.
Lemma c_nxt_unseen s i : nxt counter (unseen s i) = nxt counter s.
Proof. destruct s as [ts e m j]. reflexivity. Qed.
Lemma c_pk_unseen s i : pk counter (unseen s i) = pk counter s.
Proof. destruct s as [ts e m j]. reflexivity. Qed.
Lemma c_pk_ok s t s' : pk counter s = (Ok t, s') -> s' = unseen s (c_k s').
Proof. destruct s as [[|x ts] [w|] m j]; intros H; inversion H; reflexivity. Qed.
(** Taking a token, and looking at it before *)
Lemma c_look s : match nxt counter s with
  | (Ok t, s') => exists s1, pk counter s = (Ok t, s1) /\ nxt counter s1 = (Ok t, s') /\ s1 = unseen s (c_k s1)
  | (o, s') => pk counter s = (o, s')
  end.
Proof. destruct s as [[|x ts] [w|] m j]; cbn; try reflexivity; eexists; repeat split; reflexivity. Qed.
Lemma c_peeked s t s1 : c_peek s = (Ok t, s1) -> c_next s = (Ok t, snd (c_next s)) /\ s1 = unseen s (c_k s1).
Proof. destruct s as [[|x ts] [w|] m j]; intros H; inversion H; split; reflexivity. Qed.

Lemma c_quote n s : parse_quote_wat counter pf (S n) s = quote_direct counter pf (S n) s.
Proof.
  unfold parse_quote_wat, quote_direct, quote_rest, at_quote, trial, handled. rewrite !plet_eq, c_exp.
  destruct (c_next s) as [[t| | |] s1] eqn:N0; try reflexivity. destruct (tok_eqb (fst t) OpenParen) eqn:Ht; [|reflexivity].
  rewrite !plet_eq, c_ate. destruct (c_peek s1) as [[u| | |] s2] eqn:P1; try reflexivity.
  destruct (c_peeked _ _ _ P1) as [N1 U1]. set (s3 := snd (c_next s1)) in *.
  destruct (tok_eqb (fst u) TComponent) eqn:Hu.
  - apply kind_eq in Hu. unfold pret at 1. rewrite !plet_eq. pose proof (c_look s3) as Lk.
    destruct (nxt counter s3) as [[v| | |] s4] eqn:N3; try (rewrite Lk; reflexivity). destruct Lk as (s5 & -> & N5 & U5). unfold pret at 1.
    fold (is_quote v). destruct (is_quote v).
    + unfold quoted. rewrite !plet_eq, N5. rewrite !plet_eq. destruct (parse_string counter s4) as [[x| | |] s6]; reflexivity.
    + rewrite !plet_eq. unfold parse_wat, parse_directive, handled. rewrite !plet_eq, c_exp, N0, Ht, !plet_eq.
      change (pk counter s1) with (c_peek s1). rewrite P1, plet_eq, Hu.
      rewrite plet_eq. unfold parse_component, handled. rewrite plet_eq, U1, c_exp_unseen, c_exp, N1, Hu. change (tok_eqb TComponent TComponent) with true.
      cbn [pret]. rewrite plet_eq, U5, c_exp_unseen. destruct (exp counter CloseParen s3) as [[| | |] s7]; reflexivity.
  - rewrite !plet_eq. rewrite U1, c_ate_unseen, c_ate, P1. fold s3. destruct (tok_eqb (fst u) TModule) eqn:Hm.
    + apply kind_eq in Hm. unfold pret at 1. rewrite !plet_eq. pose proof (c_look s3) as Lk.
      destruct (nxt counter s3) as [[v| | |] s4] eqn:N3; try (rewrite Lk; reflexivity). destruct Lk as (s5 & -> & N5 & U5). unfold pret at 1.
      fold (is_quote v). destruct (is_quote v).
      * unfold quoted. rewrite !plet_eq, N5. rewrite !plet_eq. destruct (parse_string counter s4) as [[x| | |] s6]; reflexivity.
      * rewrite !plet_eq. unfold parse_wat, parse_directive, handled. rewrite !plet_eq, c_exp, N0, Ht, !plet_eq.
        change (pk counter s1) with (c_peek s1). rewrite P1, plet_eq, Hm.
        rewrite plet_eq. unfold parse_module, handled. rewrite plet_eq, U1, c_exp_unseen, c_exp, N1, Hm. change (tok_eqb TModule TModule) with true. cbv iota.
        rewrite U5, c_secs_unseen.
        destruct (sections counter (S n) _ _ _) as [[m| | |] s6]; try reflexivity. cbn [pret]. rewrite !plet_eq.
        destruct (exp counter CloseParen s6) as [[| | |] s7]; reflexivity.
    + rewrite !plet_eq. destruct (nxt counter s2) as [[x| | |] s6]; reflexivity.
Qed.

(** The directive *)
Section Both.
Context {L : Type}.
Variable src : source L toktype.
Variable n : nat.
Hypothesis HQ : forall s, parse_quote_wat src pf n s = quote_direct src pf n s.
Lemma assertion_eq w make s : handled (word src w ;;> plet q := parse_quote_wat src pf n in plet s := parse_string src in pret (make q s)) s
  = assertion src pf n w make s.
Proof.
  unfold assertion, handled. rewrite !plet_eq. destruct (word src w s) as [[| | |] s1]; try reflexivity. rewrite !plet_eq, HQ. reflexivity.
Qed.
End Both.
Lemma f_wdirective n s : parse_wdirective first pf (S n) s = wdirective_direct first pf (S n) s.
Proof.
  unfold parse_wdirective, wdirective_direct, at_directive, trial. unfold handled at 1 2. rewrite !plet_eq, f_exp.
  destruct s as [[|t ts]|]; try reflexivity. destruct (tok_eqb (fst t) OpenParen) eqn:Ht; [|reflexivity].
  rewrite !plet_eq, f_pk. destruct ts as [|u ts]; try reflexivity. destruct (text_eqb (snd u) (txt "module") || text_eqb (snd u) (txt "component")).
  - unfold pret at 1. rewrite !plet_eq, f_quote. unfold quote_direct, handled. rewrite plet_eq, f_exp, Ht.
    destruct (quote_rest first pf (S n) _) as [[| | |] s1]; reflexivity.
  - destruct (lookup kinds (snd u)) as [[| | |]|]; [unfold pret at 1..|reflexivity]; rewrite !plet_eq; try reflexivity.
    + unfold parse_assert_invalid. rewrite (assertion_eq first (S n) (f_quote n)). reflexivity.
    + unfold parse_assert_malformed. rewrite (assertion_eq first (S n) (f_quote n)). reflexivity.
Qed.
Lemma c_rest_unseen n s i : quote_rest counter pf n (unseen s i) = quote_rest counter pf n s.
Proof. unfold quote_rest. rewrite !plet_eq, c_ate_unseen. reflexivity. Qed.
Lemma c_wdirective n s : parse_wdirective counter pf (S n) s = wdirective_direct counter pf (S n) s.
Proof.
  unfold parse_wdirective, wdirective_direct, at_directive, trial. unfold handled at 1 2. rewrite !plet_eq, c_exp.
  destruct (c_next s) as [[t| | |] s1] eqn:N0; try reflexivity. destruct (tok_eqb (fst t) OpenParen) eqn:Ht; [|reflexivity].
  rewrite !plet_eq. destruct (pk counter s1) as [[u| | |] s2] eqn:P1; try reflexivity. pose proof (c_pk_ok _ _ _ P1) as U1.
  destruct (text_eqb (snd u) (txt "module") || text_eqb (snd u) (txt "component")).
  - unfold pret at 1. rewrite !plet_eq, c_quote. unfold quote_direct, handled. rewrite plet_eq, c_exp, N0, Ht, U1, c_rest_unseen.
    destruct (quote_rest counter pf (S n) _) as [[| | |] s3]; reflexivity.
  - destruct (lookup kinds (snd u)) as [[| | |]|]; [unfold pret at 1..|reflexivity]; rewrite !plet_eq; try reflexivity.
    + unfold parse_assert_invalid. rewrite (assertion_eq counter (S n) (c_quote n)). reflexivity.
    + unfold parse_assert_malformed. rewrite (assertion_eq counter (S n) (c_quote n)). reflexivity.
Qed.
End Direct.

(** ** The parser on the first tokens of a file, and on the file *)
Section First.
Variables (m : nat) (rest : list tk) (fin : ending) (pf : text -> option N).
Notation r2 := (rel2 m rest fin).
Lemma rel2_wast n : r2 _ (parse_wast first pf n) (parse_wast counter pf n).
Proof.
  apply (rel_wast first counter pf r2 (rel2_next _ _ _) (rel2_peek _ _ _) (rel2_pret _ _ _) (rel2_perr _ _ _) (rel2_pdiverge _ _ _)
    (rel2_handled _ _ _) (rel2_bind _ _ _) eq (same_zero _ _ _) same_S (rel2_block _ _ _ pf)); [|reflexivity].
  intros k j H. injection H as <-. apply (rel2_eq _ _ _ _ _ _ _ _ (f_wdirective pf k) (c_wdirective pf k)).
  apply (rel_wdirective_direct first counter pf r2 (rel2_next _ _ _) (rel2_peek _ _ _) (rel2_pret _ _ _) (rel2_perr _ _ _) (rel2_pdiverge _ _ _)
    (rel2_handled _ _ _) (rel2_bind _ _ _) eq (same_zero _ _ _) same_S (rel2_block _ _ _ pf)). reflexivity.
Qed.
End First.

(** ** More fuel does not change an answer. *)
Lemma rel3_wast pf n n' : n <= n' -> rel3 _ (parse_wast counter pf n) (parse_wast counter pf n').
Proof.
  apply (rel_wast counter counter pf rel3 (rel3_refl _ _) (rel3_refl _ _) (fun A a => rel3_refl _ _) (fun A => rel3_refl _ _)
    (fun A => rel3_refl _ _) rel3_handled rel3_bind le le_zero le_succ (rel3_block pf)).
  intros k j H. apply (rel_wdirective_trial counter counter pf rel3 (rel3_refl _ _) (rel3_refl _ _) (fun A a => rel3_refl _ _) (fun A => rel3_refl _ _)
    (fun A => rel3_refl _ _) rel3_handled rel3_bind le le_zero le_succ (rel3_block pf) rel3_trial). exact H.
Qed.

(** ** The parser does not take the token at the end. *)
Section End.
Variable pf : text -> option N.
Variable w : text.
Hypothesis no_type : lookup valtypes w = None.
Notation quiet := (quiet w).
Ltac step :=
  match goal with
  | |- quiet (pret _) => apply quiet_pret
  | |- quiet perr => apply quiet_perr
  | |- quiet pdiverge => apply quiet_pdiverge
  | |- quiet (handled _) => apply quiet_handled
  | |- quiet (pbind (unwrap (nxt _)) _) => apply quiet_next; [intros ?; try reflexivity|intros ?]
  | |- quiet (pbind (unwrap _) _) => apply quiet_bind; [|intros ?]
  | |- quiet (exp _ _) => apply quiet_expect; reflexivity
  | |- quiet (ate _ _) => apply quiet_eat; reflexivity
  | |- quiet (word _ _) => apply quiet_word
  | |- quiet (pk _) => apply quiet_peek
  | |- quiet (of_option ?o) => unfold of_option
  | |- quiet (if ?b then _ else _) => destruct b
  | |- quiet (match ?x with _ => _ end) => destruct x
  end.
Ltac q := repeat (first [assumption | step | solve [eauto with quiets]]).
Create HintDb quiets.
Lemma q_string : quiet (parse_string counter). Proof. unfold parse_string. q. Qed.
Lemma q_int32 : quiet (parse_int32 counter). Proof. unfold parse_int32. q. Qed.
Lemma q_int64 : quiet (parse_int64 counter). Proof. unfold parse_int64. q. Qed.
Lemma q_float32 : quiet (parse_float32 counter pf). Proof. unfold parse_float32. q. Qed.
Lemma q_float64 : quiet (parse_float64 counter pf). Proof. unfold parse_float64. q. Qed.
Hint Resolve q_string q_int32 q_int64 q_float32 q_float64 : quiets.
Lemma q_while {A} n (p : parser cst A) : quiet p -> quiet (while_eat tok_eqb counter n OpenParen p).
Proof. intros H. induction n as [|n IH]; cbn [while_eat]; [q|]. apply quiet_bind; [apply quiet_eat; reflexivity|intros b; q]. Qed.
Lemma q_const : quiet (parse_const counter pf). Proof. unfold parse_const, wast_peek_float, peek_integer. q. Qed.
Lemma q_closed_const : quiet (closed counter (parse_const counter pf)). Proof. unfold closed. q. apply q_const. Qed.
Hint Resolve q_while q_const q_closed_const : quiets.
Lemma q_action n : quiet (parse_action counter pf n). Proof. unfold parse_action, parse_invoke, parse_consts. q. Qed.
Lemma q_results n : quiet (parse_results counter pf n).
Proof. unfold parse_results. apply quiet_handled. induction n as [|n IH]; cbn [results_loop]; q. Qed.
Hint Resolve q_action q_results : quiets.
Lemma q_quoted make (p : parser cst quote_wat) : quiet p -> quiet (plet t := pk counter in if is_quote t then quoted counter make else p).
Proof.
  intros H [[|t ts] e n k] E; cbn in E; subst e; rewrite plet_eq; cbn [pk counter s_peek c_peek c_ts c_end c_n].
  - change (is_quote (EndOfStream, w)) with false. cbv iota. destruct (H (mkC [] (Ends w) n (S n)) eq_refl) as [B X].
    unfold bound, whole in *. cbn in *. split; [lia|exact X].
  - destruct (is_quote t).
    + unfold quoted. rewrite plet_eq. cbn [nxt counter s_next c_next c_ts c_end c_n].
      assert (Q : quiet (plet s := parse_string counter in exp counter CloseParen ;;> pret (make s))) by q.
      destruct (Q (mkC ts (Ends w) (S n) (S n)) eq_refl) as [B X].
      unfold bound, whole in *. cbn [c_n c_k c_ts length] in *. split; [lia|].
      destruct (fst _); auto. destruct X as [X1 X2]. split; [exact X1|lia].
    + destruct (H (mkC (t :: ts) (Ends w) n (S n)) eq_refl) as [B X]. unfold bound, whole in *. cbn in *. split; [lia|exact X].
Qed.
Lemma q_secs n : quiet (sections counter n (module_section counter pf n) no_module).
Proof. apply quiet_sections. intros a. now apply quiet_module_section. Qed.
Hint Resolve q_secs : quiets.
Lemma q_quote_rest n : quiet (quote_rest counter pf n).
Proof.
  unfold quote_rest. apply quiet_bind; [apply quiet_eat; reflexivity|]. intros [|]; [apply q_quoted; q|].
  apply quiet_bind; [apply quiet_eat; reflexivity|]. intros [|]; [apply q_quoted; q|]. q.
Qed.
Hint Resolve q_quote_rest : quiets.
Lemma q_wdirective n : quiet (parse_wdirective counter pf (S n)).
Proof.
  assert (Q : quiet (wdirective_direct counter pf (S n))).
  { unfold wdirective_direct, assertion, quote_direct, parse_assert_return, parse_assert_trap. q. }
  intros s E. rewrite c_wdirective. now apply Q.
Qed.
Hint Resolve q_wdirective : quiets.
Lemma quiet_wast n : quiet (parse_wast counter pf n).
Proof. unfold parse_wast. apply quiet_handled. induction n as [|n IH]; cbn [wast_loop]; q. Qed.
End End.
