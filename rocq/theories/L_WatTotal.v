(** The WAT parser over the machine never runs out of fuel. *)
From Coq Require Import Arith NArith ZArith String Ascii Bool List Lia.
From Verif Require Import GoBase M_Text M_WatLex M_ParseBase M_Strconv M_WatAst M_WatParse S_WatLex
  L_ParseBase L_ParseTotal L_WatSim.
Import ListNotations.
Open Scope nat_scope.
Open Scope parse_scope.

(** What the lexer's last token can hold *)
Definition fine (e : ending) : Prop :=
  match e with Ends w => w = [] \/ unfinished w | Fails => True end.

Definition marks (c : ascii) : bool := Ascii.eqb c ";" || Ascii.eqb c "(" || Ascii.eqb c quote.

Lemma fine_first w : fine (Ends w) -> w = [] \/ exists c r, w = c :: r /\ marks c = true.
Proof.
  intros [->|[->|[(b & -> & _)|[(b & -> & _)|(b & -> & _)]]]]; cbn; eauto.
Qed.

Lemma fine_lookup {A} (tbl : list (text * A)) w :
  forallb (fun x => match fst x with [] => false | c :: _ => negb (marks c) end) tbl = true ->
  fine (Ends w) -> lookup tbl w = None.
Proof.
  intros H Hw. apply fine_first in Hw. induction tbl as [|[k a] tbl IH]; [reflexivity|].
  cbn in *. apply andb_prop in H. destruct H as [H1 H2].
  destruct (text_eqb w k) eqn:E; [|auto]. apply text_eqb_true in E. subst k.
  destruct Hw as [->|(c & r & -> & Hc)]; [discriminate|]. rewrite Hc in H1. discriminate.
Qed.

Section Total.
Variable pf : text -> option N.
Notation mch := (machine EndOfStream).
Notation T := (@T toktype fine).

Lemma T_nxt n k {A} (f : toktype * text -> parser _ A) :
  (forall t, T (n - 1) (k - 1) (f t)) ->
  (forall w s, fine (Ends w) -> match f (EndOfStream, w) s with (Ok _, _) | (Diverge, _) => False | _ => True end) ->
  T n k (pbind (unwrap (nxt mch)) f).
Proof. apply T_next_then. Qed.
Lemma T_pk n : T n 0 (pk mch).
Proof. apply T_peek. Qed.
Lemma T_exp n k : k <> EndOfStream -> T n 1 (exp mch k).
Proof. apply T_expect. apply tok_eqb_spec. Qed.
Lemma T_word n w : T n 1 (word mch w).
Proof. apply T_expect_value; [apply tok_eqb_spec | discriminate]. Qed.
Lemma T_ate_if n k ty {A} (f : bool -> parser _ A) : ty <> EndOfStream ->
  T (n - 1) (k - 1) (f true) -> T n k (f false) -> T n k (pbind (unwrap (ate mch ty)) f).
Proof. apply T_eat_if. apply tok_eqb_spec. Qed.
Lemma T_loop n ty {A} (body : parser _ A) : ty <> EndOfStream -> forall m, m <= n ->
  T (m - 1) 0 body -> T m 0 (while_eat tok_eqb mch n ty body).
Proof. intros H m. apply T_while; [apply tok_eqb_spec | exact H]. Qed.

Ltac hint := solve [eauto with tdb].
Ltac tstep :=
  match goal with
  | |- T ?n ?k (pret _) => apply (T_weaken fine n 0 n k); [apply T_pret | lia | lia]
  | |- T _ _ perr => apply T_perr
  | |- T _ _ (handled _) => apply T_handled
  | |- T _ _ (pbind (unwrap (ate _ _)) _) => apply T_ate_if; [discriminate | |]; cbv iota
  | |- T _ _ (pbind (unwrap (pk _)) _) => eapply T_let; [apply T_pk | intros ?]
  | |- T _ _ (pbind (unwrap (word _ _)) _) => eapply T_let; [apply T_word | intros ?]
  | |- T _ _ (pbind (unwrap (exp _ _)) _) => eapply T_let; [apply T_exp; discriminate | intros ?]
  | |- T _ _ (pbind (unwrap (nxt _)) _) =>
      apply T_nxt; [intros ? | intros ? ? ?; cbn; auto]
  | |- T _ _ (if ?b then _ else _) => destruct b
  | |- T _ _ (match ?x with _ => _ end) => destruct x
  | |- T _ _ (pbind (unwrap _) _) => eapply T_let; [hint | intros ?]
  | |- T ?n ?k _ => eapply (T_weaken fine n _ n k); [hint | lia | lia]
  end.
Ltac total := repeat tstep.
Hint Extern 1 (_ <= _) => lia : tdb.

Lemma T_of_option n {A} (o : option A) : T n 0 (of_option o).
Proof. destruct o; cbn [of_option]; total. Qed.
Hint Resolve T_of_option T_pret : tdb.
Lemma T_closed n k {A} (p : parser _ A) : T n k p -> T n (S k) (closed mch p).
Proof.
  intros H. unfold closed. eapply T_let; [exact H|]. intros x. replace (S k - k) with 1 by lia.
  eapply T_let; [apply T_exp; discriminate|]. intros _. apply T_pret.
Qed.
Hint Resolve T_closed : tdb.
Lemma T_id n : T n 1 (parse_id mch).
Proof. unfold parse_id. total. Qed.
Hint Resolve T_id : tdb.
Lemma T_optional_id n : T n 0 (parse_optional_id mch).
Proof. unfold parse_optional_id. total. Qed.
Lemma T_string n : T n 1 (parse_string mch).
Proof. unfold parse_string. total. Qed.
Lemma T_int32 n : T n 1 (parse_int32 mch).
Proof. unfold parse_int32. total. Qed.
Lemma T_int64 n : T n 1 (parse_int64 mch).
Proof. unfold parse_int64. total. Qed.
Lemma T_peek_float n : T n 0 (peek_float mch).
Proof. unfold peek_float. total. Qed.
Lemma T_float32 n : T n 1 (parse_float32 mch pf).
Proof. unfold parse_float32. total. Qed.
Lemma T_float64 n : T n 1 (parse_float64 mch pf).
Proof. unfold parse_float64. total. Qed.
Lemma T_val_type n : T n 1 (parse_val_type mch).
Proof.
  unfold parse_val_type. apply T_handled, T_nxt; [intros t; total|].
  intros w s H. rewrite fine_lookup; [cbn; auto | reflexivity | exact H].
Qed.
Lemma T_index n : T n 1 (parse_index mch).
Proof. unfold parse_index. total. Qed.
Hint Resolve T_optional_id T_string T_int32 T_int64 T_peek_float T_float32 T_float64 T_val_type T_index : tdb.
Lemma T_result n : T n 2 (parse_result mch).
Proof. unfold parse_result. total. Qed.
Lemma T_param_types m : forall n, n <= m -> T n 0 (param_types mch m).
Proof.
  induction m as [|m IH]; intros n Hn; [replace n with 0 by lia; apply T_zero|]. cbn [param_types]. total.
Qed.
Hint Resolve T_result T_param_types : tdb.
Lemma T_parameter m n : n <= m -> T n 1 (parse_parameter mch m).
Proof. intros H. unfold parse_parameter. total. Qed.
Lemma T_local n : T n 1 (parse_local mch).
Proof. unfold parse_local. total. Qed.
Lemma T_export n : T n 1 (parse_export mch).
Proof. unfold parse_export. total. Qed.
Lemma T_import n : T n 1 (parse_import mch).
Proof. unfold parse_import. total. Qed.
Lemma T_type_use n : T n 1 (parse_type_use mch).
Proof. unfold parse_type_use. total. Qed.
Hint Resolve T_parameter T_local T_export T_import T_type_use : tdb.
Lemma T_call_indirect n : T n 1 (parse_call_indirect mch).
Proof. unfold parse_call_indirect. total. Qed.
Lemma T_until_close m : forall n, n <= m -> T n 0 (until_close mch m).
Proof.
  induction m as [|m IH]; intros n Hn; [replace n with 0 by lia; apply T_zero|]. cbn [until_close]. total.
Qed.
Lemma T_at_result n : T n 0 (at_result mch).
Proof. unfold at_result. apply T_trial. total. Qed.
Hint Resolve T_call_indirect T_until_close T_at_result : tdb.
Lemma T_block_type_loop m : forall n, n <= m -> T n 0 (block_type_loop mch m).
Proof.
  induction m as [|m IH]; intros n Hn; [replace n with 0 by lia; apply T_zero|]. cbn [block_type_loop]. total.
Qed.
Hint Resolve T_block_type_loop : tdb.
Lemma T_block_type m n : n <= m -> T n 0 (parse_block_type mch m).
Proof. intros H. unfold parse_block_type. total. Qed.
Lemma T_block_name n : T n 0 (block_name mch).
Proof.
  unfold block_name. intros ts e He Hl. unfold pbind, unwrap. cbn.
  destruct ts as [|t ts]; [destruct e; cbn; auto|]. cbn.
  destruct (tok_eqb (fst t) TId); cbn; split; auto; lia.
Qed.
Lemma T_func_id n : T n 0 (func_id mch).
Proof.
  unfold func_id. intros ts e He Hl. unfold pbind, unwrap. cbn.
  destruct ts as [|t ts]; [destruct e; cbn; auto|]. cbn.
  destruct (tok_eqb (fst t) TId); cbn; split; auto; lia.
Qed.
Hint Resolve T_block_type T_block_name T_func_id : tdb.
Lemma T_sections {A} m (b : A -> parser _ A) : forall n a, n <= m ->
  (forall a, T (n - 1) 0 (b a)) -> T n 0 (sections mch m b a).
Proof.
  induction m as [|m IH]; intros n a Hn Hb; [replace n with 0 by lia; apply T_zero|].
  cbn [sections]. tstep; [|total].
  eapply T_let; [apply T_closed, Hb|]. intros x. eapply T_weaken; [apply (IH (n - 1 - 1)) | lia | lia]; [lia|].
  intros y. eapply T_weaken; [apply Hb | lia | lia].
Qed.

Section Instr.
Variable pi : parser (stream toktype) instr.
Variable m : nat.
Hypothesis Hpi : forall n, n <= m -> T n 1 pi.
Lemma T_instructions n : n <= m -> T n 0 (parse_instructions mch pi m).
Proof.
  intros H. unfold parse_instructions. apply T_handled, T_loop; [discriminate | exact H|].
  eapply T_weaken; [apply T_closed, (Hpi (n - 1)); lia | lia | lia].
Qed.
Hint Resolve T_instructions Hpi : tdb.
Lemma T_block n : n <= m -> T n 0 (parse_block mch pi m).
Proof. intros H. unfold parse_block. total. Qed.
Lemma T_loop' n : n <= m -> T n 0 (parse_loop mch pi m).
Proof. intros H. unfold parse_loop. total. Qed.
Lemma T_then n : n <= m -> T n 0 (parse_then mch pi m).
Proof. intros H. unfold parse_then. total. Qed.
Lemma T_else n : n <= m -> T n 0 (parse_else mch pi m).
Proof. intros H. unfold parse_else. total. Qed.
Hint Resolve T_block T_loop' T_then T_else : tdb.
Lemma T_if_section n a : n <= m -> T n 0 (if_section mch pi m a).
Proof. intros H. unfold if_section. total. Qed.
Lemma T_parse_if n : n <= m -> T n 0 (parse_if mch pi m).
Proof.
  intros H. unfold parse_if. tstep. tstep. eapply T_let; [|intros ?; total].
  apply T_sections; [lia|]. intros a0. apply T_if_section. lia.
Qed.
Hint Resolve T_parse_if : tdb.
Lemma T_operator n w : n <= m -> T n 0 (parse_operator mch pf pi m w).
Proof. intros H. unfold parse_operator. total. Qed.
Hint Resolve T_operator : tdb.
Lemma T_instruction_body n : n <= S m -> T n 1 (instruction_body mch pf pi m).
Proof.
  intros H. unfold instruction_body. apply T_handled, T_nxt; [intros t | intros w s Hw; cbn; auto].
  tstep; [|total]. tstep. tstep. tstep; [|total].
  eapply T_let; [|intros ?; total]. apply T_loop; [discriminate | lia|].
  eapply T_weaken; [apply T_closed, (Hpi (n - 1 - 0 - 0 - 1)); lia | lia | lia].
Qed.
End Instr.

Lemma T_instruction m : forall n, n <= m -> T n 1 (parse_instruction mch pf m).
Proof.
  induction m as [|m IH]; intros n Hn; [replace n with 0 by lia; apply T_zero|].
  cbn [parse_instruction]. apply T_instruction_body; auto.
Qed.
Hint Resolve T_instruction : tdb.
Lemma T_plain_loop pi m : (forall n, n <= m -> T n 1 pi) ->
  forall k n, n <= k -> k <= m -> T n 0 (plain_loop mch pi k).
Proof.
  intros Hpi. induction k as [|k IH]; intros n Hn Hk; [replace n with 0 by lia; apply T_zero|].
  cbn [plain_loop]. tstep. tstep; [total|].
  eapply T_let; [apply Hpi; lia|]. intros i. eapply T_let; [apply IH; lia|]. intros is. total.
Qed.
Lemma T_func_section m n f : n <= m -> T n 0 (func_section mch pf m f).
Proof. intros H. unfold func_section. total. Qed.
Lemma T_func m n : n <= m -> T n 1 (parse_func mch pf m).
Proof.
  intros H. unfold parse_func. tstep. tstep. tstep.
  eapply T_let; [apply T_sections; [lia | intros; apply T_func_section; lia]|]. intros f.
  eapply T_let; [apply (T_plain_loop _ m); [apply T_instruction | lia | lia]|]. intros is. total.
Qed.
Lemma T_func_type_section m n f : n <= m -> T n 0 (func_type_section mch m f).
Proof. intros H. unfold func_type_section. total. Qed.
Lemma T_func_type m n : n <= m -> T n 1 (parse_func_type mch m).
Proof.
  intros H. unfold parse_func_type. tstep. tstep.
  change (1 - 1) with 0. apply T_sections; [lia|]. intros. apply T_func_type_section. lia.
Qed.
Hint Resolve T_func T_func_type : tdb.
Lemma T_type m n : n <= m -> T n 1 (parse_type mch m).
Proof. intros H. unfold parse_type. total. Qed.
Lemma T_limits n : T n 1 (parse_limits mch).
Proof. unfold parse_limits. total. Qed.
Hint Resolve T_type T_limits : tdb.
Lemma T_table_type n : T n 1 (parse_table_type mch).
Proof.
  unfold parse_table_type. tstep. tstep. eapply (T_let _ _ _ 0).
  - destruct (tok_eqb (fst a) TInteger); total.
  - intros lim. total.
Qed.
Lemma T_table_element n : T n 1 (table_element mch).
Proof. unfold table_element. total. Qed.
Hint Resolve T_table_type T_table_element : tdb.
Lemma T_table m n : n <= m -> T n 1 (parse_table mch m).
Proof.
  intros H. unfold parse_table. tstep. tstep. tstep. tstep.
  eapply T_let; [|intros ?; total]. apply T_loop; [discriminate | lia|].
  eapply T_weaken; [apply T_closed, T_table_element | |]; [reflexivity | lia].
Qed.
Lemma T_global_type n : T n 1 (parse_global_type mch).
Proof. unfold parse_global_type. total. Qed.
Hint Resolve T_table T_global_type : tdb.
Lemma T_global m n : n <= m -> T n 1 (parse_global mch pf m).
Proof.
  intros H. unfold parse_global. tstep. tstep. tstep. tstep.
  eapply T_let; [|intros ?; total]. apply T_instructions; [apply T_instruction | lia].
Qed.
Lemma T_memory n : T n 1 (parse_memory mch).
Proof. unfold parse_memory. total. Qed.
Hint Resolve T_global T_memory : tdb.
Lemma T_module_section m n x : n <= m -> T n 0 (module_section mch pf m x).
Proof. intros H. unfold module_section. total. Qed.
Lemma T_module m n : n <= m -> T n 1 (parse_module mch pf m).
Proof.
  intros H. unfold parse_module. tstep. tstep.
  change (1 - 1) with 0. apply T_sections; [lia|]. intros. apply T_module_section. lia.
Qed.
Lemma T_component n : T n 1 (parse_component mch).
Proof. unfold parse_component. total. Qed.
Hint Resolve T_module T_component : tdb.
Theorem T_directive m n : n <= m -> T n 1 (parse_directive mch pf m).
Proof.
  intros H. unfold parse_directive. tstep. tstep. tstep. eapply (T_let _ _ _ 0).
  - destruct (fst a0); total.
  - intros root. total.
Qed.
End Total.
