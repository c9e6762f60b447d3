(** The WAT parser at the end of the input: it does not read beyond it. *)
From Coq Require Import Arith NArith ZArith String Ascii Bool List Lia.
From Verif Require Import GoBase M_Text M_WatLex M_ParseBase M_Strconv M_WatAst S_WatParse M_WatParse L_ParseBase L_WatSim L_WatRel L_WatStop.
Import ListNotations.
Open Scope nat_scope.
Open Scope parse_scope.

Section End.
Variable pf : text -> option N.
(** The text of the token at the end *)
Variable w : text.
Hypothesis no_type : lookup valtypes w = None.

(** The parser does not take the token at the end, unless it fails. *)
Definition whole (s : cst) : nat := c_n s + length (c_ts s).
Definition bound (s s' : cst) : Prop := c_k s' <= Nat.max (c_k s) (S (whole s)).
Definition quiet {A} (q : parser cst A) : Prop :=
  forall s, c_end s = Ends w ->
  bound s (snd (q s)) /\ match fst (q s) with Ok _ => c_end (snd (q s)) = Ends w /\ whole (snd (q s)) = whole s | _ => True end.
Lemma quiet_pret A (a : A) : quiet (pret a).
Proof. intros s E. unfold bound. cbn. repeat split; [lia|exact E]. Qed.
Lemma quiet_perr A : quiet (@perr cst A).
Proof. intros s E. unfold bound. cbn. split; [lia|exact I]. Qed.
Lemma quiet_pdiverge A : quiet (@pdiverge cst A).
Proof. intros s E. unfold bound. cbn. split; [lia|exact I]. Qed.
Lemma quiet_handled A (p : parser cst A) : quiet p -> quiet (handled p).
Proof. intros H s E. specialize (H s E). unfold handled. destruct (p s) as [[| | |] ?]; exact H. Qed.
Lemma quiet_bind A B (p : parser cst A) (f : A -> parser cst B) : quiet p -> (forall a, quiet (f a)) -> quiet (pbind (unwrap p) f).
Proof.
  intros H F s E. specialize (H s E). rewrite plet_eq. destruct (p s) as [[a| | |] s1]; try exact H.
  cbn [fst snd] in H. destruct H as (L & E1 & W). specialize (F a s1 E1). unfold bound in *. destruct (f a s1) as [o s2]. cbn [fst snd] in *.
  destruct F as [L2 X]. split; [lia|]. destruct o; auto. destruct X as [X1 X2]. split; [exact X1|lia].
Qed.
Lemma quiet_peek : quiet (pk counter).
Proof. intros [[|t ts] e n k] E; unfold bound; cbn in *; subst; cbn; repeat split; lia. Qed.
Definition refuses {B} (f : tk -> parser cst B) : Prop :=
  forall s, match f (EndOfStream, w) s with (Ok _, _) => False | (_, s') => s' = s end.
Lemma quiet_next B (f : tk -> parser cst B) : refuses f -> (forall t, quiet (f t)) -> quiet (pbind (unwrap (nxt counter)) f).
Proof.
  intros H F [[|t ts] e n k] E; cbn in E; subst e; rewrite plet_eq; cbn [nxt counter s_next c_next c_ts c_end c_n].
  - specialize (H (mkC [] (Ends []) (S n) (S n))). unfold bound, whole. destruct (f _ _) as [[b| | |] s]; [destruct H|subst s; cbn; lia..].
  - specialize (F t (mkC ts (Ends w) (S n) (S n)) eq_refl). unfold bound, whole in *. cbn [c_n c_k c_ts length] in *.
    destruct (f t _) as [o s2]. cbn [fst snd] in *. destruct F as [L X]. split; [lia|]. destruct o; auto. destruct X as [X1 X2]. split; [exact X1|lia].
Qed.
Lemma quiet_trial A (p : parser cst (option A)) : quiet p -> quiet (trial p).
Proof.
  intros H s E. specialize (H s E). unfold trial. destruct (p s) as [[[a|]| | |] s1]; try exact H.
  unfold bound. cbn. repeat split; [lia|exact E].
Qed.
Lemma quiet_expect k : tok_eqb EndOfStream k = false -> quiet (exp counter k).
Proof.
  intros H. apply quiet_handled, quiet_next.
  - intros s. cbn [fst]. rewrite H. reflexivity.
  - intros t. destruct (tok_eqb (fst t) k); [apply quiet_pret|apply quiet_perr].
Qed.
Lemma quiet_eat k : tok_eqb EndOfStream k = false -> quiet (ate counter k).
Proof.
  intros H. apply quiet_handled, quiet_bind; [apply quiet_peek|]. intros t. destruct (tok_eqb (fst t) k); [|apply quiet_pret].
  apply quiet_bind; [now apply quiet_expect|intros; apply quiet_pret].
Qed.
Lemma quiet_word t : quiet (word counter t).
Proof.
  apply quiet_handled, quiet_next; [intros s; reflexivity|]. intros u.
  repeat match goal with |- context [if ?b then _ else _] => destruct b end; first [apply quiet_pret|apply quiet_perr].
Qed.

Ltac step :=
  match goal with
  | |- quiet (pret _) => apply quiet_pret
  | |- quiet perr => apply quiet_perr
  | |- quiet pdiverge => apply quiet_pdiverge
  | |- quiet (handled _) => apply quiet_handled
  | |- quiet (trial _) => apply quiet_trial
  | |- quiet (pbind (unwrap (nxt _)) _) => apply quiet_next; [intros ?; try reflexivity; cbn [snd]; rewrite no_type; reflexivity|intros ?]
  | |- quiet (pbind (unwrap _) _) => apply quiet_bind; [|intros ?]
  | |- quiet (exp _ _) => apply quiet_expect; reflexivity
  | |- quiet (ate _ _) => apply quiet_eat; reflexivity
  | |- quiet (word _ _) => apply quiet_word
  | |- quiet (pk _) => apply quiet_peek
  | |- quiet (of_option ?o) => unfold of_option
  | |- quiet (if ?b then _ else _) => destruct b
  | |- quiet (match ?x with _ => _ end) => destruct x
  end.
Ltac q := repeat (first [assumption | step | solve [eauto with quiet]]).

Lemma quiet_closed {A} (p : parser cst A) : quiet p -> quiet (closed counter p).
Proof. intros H. unfold closed. q. Qed.
Lemma quiet_id : quiet (parse_id counter).
Proof. unfold parse_id. q. Qed.
Hint Resolve quiet_closed quiet_id : quiet.
Lemma quiet_optional_id : quiet (parse_optional_id counter).
Proof. unfold parse_optional_id. q. Qed.
Lemma quiet_string : quiet (parse_string counter).
Proof. unfold parse_string. q. Qed.
Lemma quiet_int32 : quiet (parse_int32 counter).
Proof. unfold parse_int32. q. Qed.
Lemma quiet_int64 : quiet (parse_int64 counter).
Proof. unfold parse_int64. q. Qed.
Lemma quiet_peek_float : quiet (peek_float counter).
Proof. unfold peek_float. q. Qed.
Lemma quiet_float32 : quiet (parse_float32 counter pf).
Proof. unfold parse_float32. q. Qed.
Lemma quiet_float64 : quiet (parse_float64 counter pf).
Proof. unfold parse_float64. q. Qed.
Lemma quiet_val_type : quiet (parse_val_type counter).
Proof. unfold parse_val_type. q. Qed.
Lemma quiet_index : quiet (parse_index counter).
Proof. unfold parse_index. q. Qed.
Hint Resolve quiet_optional_id quiet_string quiet_int32 quiet_int64 quiet_peek_float quiet_float32 quiet_float64 quiet_val_type quiet_index : quiet.
Lemma quiet_result : quiet (parse_result counter).
Proof. unfold parse_result. q. Qed.
Lemma quiet_param_types n : quiet (param_types counter n).
Proof. induction n as [|n IH]; cbn [param_types]; q. Qed.
Hint Resolve quiet_result quiet_param_types : quiet.
Lemma quiet_parameter n : quiet (parse_parameter counter n).
Proof. unfold parse_parameter. q. Qed.
Lemma quiet_local : quiet (parse_local counter).
Proof. unfold parse_local. q. Qed.
Lemma quiet_export : quiet (parse_export counter).
Proof. unfold parse_export. q. Qed.
Lemma quiet_import : quiet (parse_import counter).
Proof. unfold parse_import. q. Qed.
Lemma quiet_call_indirect : quiet (parse_call_indirect counter).
Proof. unfold parse_call_indirect, parse_type_use. q. Qed.
Lemma quiet_until_close n : quiet (until_close counter n).
Proof. induction n as [|n IH]; cbn [until_close]; q. Qed.
Hint Resolve quiet_parameter quiet_local quiet_export quiet_import quiet_call_indirect quiet_until_close : quiet.
Lemma quiet_block_type n : quiet (parse_block_type counter n).
Proof. unfold parse_block_type. apply quiet_handled. induction n as [|n IH]; cbn [block_type_loop]; q. unfold at_result. q. Qed.
Lemma quiet_block_name : quiet (block_name counter).
Proof.
  intros [[|t ts] e n k] E; unfold block_name; rewrite plet_eq; cbn in E; subst e; unfold bound, whole; cbn [pk counter s_peek c_peek c_ts c_end c_n fst snd].
  - cbn. repeat split. lia.
  - destruct (tok_eqb (fst t) TId); cbn; repeat split; lia.
Qed.
Lemma quiet_func_id : quiet (func_id counter).
Proof.
  intros [[|t ts] e n k] E; unfold func_id; rewrite plet_eq; cbn in E; subst e; unfold bound, whole; cbn [pk counter s_peek c_peek c_ts c_end c_n fst snd].
  - cbn. repeat split. lia.
  - destruct (tok_eqb (fst t) TId) eqn:T; cbn; repeat split; lia.
Qed.
Lemma quiet_while {A} n (p : parser cst A) : quiet p -> quiet (while_eat tok_eqb counter n OpenParen p).
Proof. intros H. induction n as [|n IH]; cbn [while_eat]; [q|]. apply quiet_bind; [apply quiet_eat; reflexivity|intros b; q]. Qed.
Lemma quiet_sections {A} n (p : A -> parser cst A) : (forall a, quiet (p a)) -> forall a, quiet (sections counter n p a).
Proof. intros H. induction n as [|n IH]; intros a; cbn [sections]; q. Qed.
Hint Resolve quiet_block_type quiet_block_name quiet_func_id quiet_while quiet_sections : quiet.
Lemma quiet_instructions p n : quiet p -> quiet (parse_instructions counter p n).
Proof. intros H. unfold parse_instructions. q. Qed.
Hint Resolve quiet_instructions : quiet.
Lemma quiet_if_section p n a : quiet p -> quiet (if_section counter p n a).
Proof. intros H. unfold if_section, parse_then, parse_else. q. Qed.
Hint Resolve quiet_if_section : quiet.
Lemma quiet_instruction n : quiet (parse_instruction counter pf n).
Proof. induction n as [|n IH]; cbn [parse_instruction]; unfold instruction_body; q. unfold parse_operator, parse_block, parse_loop, parse_if. q. Qed.
Hint Resolve quiet_instruction : quiet.
Lemma quiet_plain_loop p n : quiet p -> quiet (plain_loop counter p n).
Proof. intros H. induction n as [|n IH]; cbn [plain_loop]; q. Qed.
Lemma quiet_func_section n f : quiet (func_section counter pf n f).
Proof. unfold func_section. q. Qed.
Hint Resolve quiet_plain_loop quiet_func_section : quiet.
Lemma quiet_func n : quiet (parse_func counter pf n).
Proof. unfold parse_func. q. Qed.
Lemma quiet_func_type_section n f : quiet (func_type_section counter n f).
Proof. unfold func_type_section. q. Qed.
Hint Resolve quiet_func quiet_func_type_section : quiet.
Lemma quiet_type n : quiet (parse_type counter n).
Proof. unfold parse_type, parse_func_type. q. apply quiet_closed. q. Qed.
Lemma quiet_limits : quiet (parse_limits counter).
Proof. unfold parse_limits. q. Qed.
Hint Resolve quiet_type quiet_limits : quiet.
Lemma quiet_table_element : quiet (table_element counter).
Proof. unfold table_element. q. Qed.
Hint Resolve quiet_table_element : quiet.
Lemma quiet_table n : quiet (parse_table counter n).
Proof. unfold parse_table, parse_table_type. q. Qed.
Lemma quiet_global n : quiet (parse_global counter pf n).
Proof. unfold parse_global, parse_global_type. q. Qed.
Lemma quiet_memory : quiet (parse_memory counter).
Proof. unfold parse_memory. q. Qed.
Hint Resolve quiet_table quiet_global quiet_memory : quiet.
Lemma quiet_module_section n a : quiet (module_section counter pf n a).
Proof. unfold module_section. q. Qed.
Hint Resolve quiet_module_section : quiet.
Lemma quiet_directive n : quiet (parse_directive counter pf n).
Proof. unfold parse_directive, parse_module, parse_component. q. Qed.
End End.
