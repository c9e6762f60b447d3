(** The WAT parser over any source of tokens does what it does over the
    machine of L_ParseBase. *)
From Coq Require Import Arith NArith ZArith String Ascii Bool List Lia.
From Verif Require Import GoBase M_Text M_WatLex M_ParseBase M_Strconv M_WatAst M_WatParse L_ParseBase.
Import ListNotations.
Open Scope nat_scope.
Open Scope parse_scope.

Lemma tok_eqb_spec a b : reflect (a = b) (tok_eqb a b).
Proof. destruct a, b; cbn; constructor; congruence. Qed.

Section Sim.
Context {L : Type}.
Variable src : source L toktype.
Variable R : L -> stream toktype -> Prop.
Variable pf : text -> option N.
Hypothesis sim_next : sim R (s_next src) (m_next EndOfStream).
Hypothesis sim_peek : sim R (s_peek src) (m_peek EndOfStream).
Notation mch := (machine EndOfStream).

Ltac step :=
  match goal with
  | |- sim _ (pret _) (pret _) => apply sim_pret
  | |- sim _ perr perr => apply sim_perr
  | |- sim _ pdiverge pdiverge => apply sim_pdiverge
  | |- sim _ (handled _) (handled _) => apply sim_handled
  | |- sim _ (trial _) (trial _) => apply sim_trial
  | |- sim _ (unwrap _) (unwrap _) => apply sim_unwrap
  | |- sim _ (pbind _ _) (pbind _ _) => apply sim_pbind; [|intros ?]
  | |- sim _ (nxt _) (nxt _) => exact sim_next
  | |- sim _ (pk _) (pk _) => exact sim_peek
  | |- sim _ (exp _ _) (exp _ _) => apply (sim_expect _ _ _ _ sim_next)
  | |- sim _ (ate _ _) (ate _ _) => apply (sim_eat _ _ _ _ sim_next sim_peek)
  | |- sim _ (word _ _) (word _ _) => apply (sim_expect_value _ _ _ _ sim_next)
  | |- sim _ (while_eat _ _ _ _ _) (while_eat _ _ _ _ _) => apply (sim_while_eat _ _ _ _ sim_next sim_peek)
  | |- sim _ (if ?b then _ else _) (if ?b then _ else _) => apply sim_if
  | |- sim _ (match ?x with _ => _ end) (match ?x with _ => _ end) => destruct x
  end.
Ltac auto_sim := repeat (first [assumption | step | solve [eauto with simdb]]).

Lemma sim_of_option {A} (o : option A) : sim R (of_option o) (of_option o).
Proof. destruct o; cbn; auto_sim. Qed.
Hint Resolve sim_of_option : simdb.
Lemma sim_closed {A} (p : parser L A) q : sim R p q -> sim R (closed src p) (closed mch q).
Proof. intros H. unfold closed. auto_sim. Qed.
Hint Resolve sim_closed : simdb.
Lemma sim_parse_id : sim R (parse_id src) (parse_id mch).
Proof. unfold parse_id. auto_sim. Qed.
Hint Resolve sim_parse_id : simdb.
Lemma sim_optional_id : sim R (parse_optional_id src) (parse_optional_id mch).
Proof. unfold parse_optional_id. auto_sim. Qed.
Hint Resolve sim_optional_id : simdb.
Lemma sim_string : sim R (parse_string src) (parse_string mch).
Proof. unfold parse_string. auto_sim. Qed.
Hint Resolve sim_string : simdb.
Lemma sim_int32 : sim R (parse_int32 src) (parse_int32 mch).
Proof. unfold parse_int32. auto_sim. Qed.
Lemma sim_int64 : sim R (parse_int64 src) (parse_int64 mch).
Proof. unfold parse_int64. auto_sim. Qed.
Lemma sim_peek_float : sim R (peek_float src) (peek_float mch).
Proof. unfold peek_float. auto_sim. Qed.
Lemma sim_float32 : sim R (parse_float32 src pf) (parse_float32 mch pf).
Proof. unfold parse_float32. auto_sim. Qed.
Lemma sim_float64 : sim R (parse_float64 src pf) (parse_float64 mch pf).
Proof. unfold parse_float64. auto_sim. Qed.
Lemma sim_val_type : sim R (parse_val_type src) (parse_val_type mch).
Proof. unfold parse_val_type. auto_sim. Qed.
Lemma sim_index : sim R (parse_index src) (parse_index mch).
Proof. unfold parse_index. auto_sim. Qed.
Hint Resolve sim_int32 sim_int64 sim_peek_float sim_float32 sim_float64 sim_val_type sim_index : simdb.
Lemma sim_result : sim R (parse_result src) (parse_result mch).
Proof. unfold parse_result. auto_sim. Qed.
Lemma sim_param_types n : sim R (param_types src n) (param_types mch n).
Proof. induction n; cbn [param_types]; auto_sim. Qed.
Hint Resolve sim_result sim_param_types : simdb.
Lemma sim_parameter n : sim R (parse_parameter src n) (parse_parameter mch n).
Proof. unfold parse_parameter. auto_sim. Qed.
Lemma sim_local : sim R (parse_local src) (parse_local mch).
Proof. unfold parse_local. auto_sim. Qed.
Lemma sim_export : sim R (parse_export src) (parse_export mch).
Proof. unfold parse_export. auto_sim. Qed.
Lemma sim_import : sim R (parse_import src) (parse_import mch).
Proof. unfold parse_import. auto_sim. Qed.
Lemma sim_type_use : sim R (parse_type_use src) (parse_type_use mch).
Proof. unfold parse_type_use. auto_sim. Qed.
Hint Resolve sim_parameter sim_local sim_export sim_import sim_type_use : simdb.
Lemma sim_call_indirect : sim R (parse_call_indirect src) (parse_call_indirect mch).
Proof. unfold parse_call_indirect. auto_sim. Qed.
Lemma sim_until_close n : sim R (until_close src n) (until_close mch n).
Proof. induction n; cbn [until_close]; auto_sim. Qed.
Lemma sim_at_result : sim R (at_result src) (at_result mch).
Proof. unfold at_result. auto_sim. Qed.
Hint Resolve sim_call_indirect sim_until_close sim_at_result : simdb.
Lemma sim_block_type_loop n : sim R (block_type_loop src n) (block_type_loop mch n).
Proof. induction n; cbn [block_type_loop]; auto_sim. Qed.
Hint Resolve sim_block_type_loop : simdb.
Lemma sim_block_type n : sim R (parse_block_type src n) (parse_block_type mch n).
Proof. unfold parse_block_type. auto_sim. Qed.
Lemma sim_block_name : sim R (block_name src) (block_name mch).
Proof. unfold block_name. auto_sim. Qed.
Hint Resolve sim_block_type sim_block_name : simdb.
Lemma sim_sections {A} n (b : A -> parser L A) b' a :
  (forall a, sim R (b a) (b' a)) -> sim R (sections src n b a) (sections mch n b' a).
Proof. intros H. revert a. induction n; intros x; cbn [sections]; auto_sim; apply sim_closed, H. Qed.

Section Instr.
Variable pi : parser L instr.
Variable pi' : parser (stream toktype) instr.
Hypothesis Hpi : sim R pi pi'.
Variable n : nat.
Lemma sim_instructions : sim R (parse_instructions src pi n) (parse_instructions mch pi' n).
Proof. unfold parse_instructions. auto_sim. Qed.
Hint Resolve sim_instructions : simdb.
Lemma sim_block : sim R (parse_block src pi n) (parse_block mch pi' n).
Proof. unfold parse_block. auto_sim. Qed.
Lemma sim_loop : sim R (parse_loop src pi n) (parse_loop mch pi' n).
Proof. unfold parse_loop. auto_sim. Qed.
Lemma sim_then : sim R (parse_then src pi n) (parse_then mch pi' n).
Proof. unfold parse_then. auto_sim. Qed.
Lemma sim_else : sim R (parse_else src pi n) (parse_else mch pi' n).
Proof. unfold parse_else. auto_sim. Qed.
Hint Resolve sim_block sim_loop sim_then sim_else : simdb.
Lemma sim_if_section a : sim R (if_section src pi n a) (if_section mch pi' n a).
Proof. unfold if_section. auto_sim. Qed.
Hint Resolve sim_if_section : simdb.
Lemma sim_parse_if : sim R (parse_if src pi n) (parse_if mch pi' n).
Proof. unfold parse_if. auto_sim. apply sim_sections. auto_sim. Qed.
Hint Resolve sim_parse_if : simdb.
Lemma sim_operator w : sim R (parse_operator src pf pi n w) (parse_operator mch pf pi' n w).
Proof. unfold parse_operator. auto_sim. Qed.
Hint Resolve sim_operator : simdb.
Lemma sim_instruction_body : sim R (instruction_body src pf pi n) (instruction_body mch pf pi' n).
Proof. unfold instruction_body. auto_sim. Qed.
End Instr.
Hint Resolve sim_instructions : simdb.

Lemma sim_instruction n : sim R (parse_instruction src pf n) (parse_instruction mch pf n).
Proof. induction n; cbn [parse_instruction]; [auto_sim | apply sim_instruction_body; assumption]. Qed.
Hint Resolve sim_instruction : simdb.
Lemma sim_plain_loop pi pi' n : sim R pi pi' -> sim R (plain_loop src pi n) (plain_loop mch pi' n).
Proof. intros H. induction n; cbn [plain_loop]; auto_sim. Qed.
Lemma sim_func_section n f : sim R (func_section src pf n f) (func_section mch pf n f).
Proof. unfold func_section. auto_sim. Qed.
Lemma sim_func_id : sim R (func_id src) (func_id mch).
Proof. unfold func_id. auto_sim. Qed.
Hint Resolve sim_plain_loop sim_func_section sim_func_id : simdb.
Lemma sim_func n : sim R (parse_func src pf n) (parse_func mch pf n).
Proof. unfold parse_func. auto_sim. apply sim_sections. auto_sim. Qed.
Lemma sim_func_type_section n f : sim R (func_type_section src n f) (func_type_section mch n f).
Proof. unfold func_type_section. auto_sim. Qed.
Hint Resolve sim_func sim_func_type_section : simdb.
Lemma sim_func_type n : sim R (parse_func_type src n) (parse_func_type mch n).
Proof. unfold parse_func_type. auto_sim. apply sim_sections. auto_sim. Qed.
Hint Resolve sim_func_type : simdb.
Lemma sim_type n : sim R (parse_type src n) (parse_type mch n).
Proof. unfold parse_type. auto_sim. Qed.
Lemma sim_limits : sim R (parse_limits src) (parse_limits mch).
Proof. unfold parse_limits. auto_sim. Qed.
Hint Resolve sim_type sim_limits : simdb.
Lemma sim_table_type : sim R (parse_table_type src) (parse_table_type mch).
Proof. unfold parse_table_type. auto_sim. Qed.
Lemma sim_table_element : sim R (table_element src) (table_element mch).
Proof. unfold table_element. auto_sim. Qed.
Hint Resolve sim_table_type sim_table_element : simdb.
Lemma sim_table n : sim R (parse_table src n) (parse_table mch n).
Proof. unfold parse_table. auto_sim. Qed.
Lemma sim_global_type : sim R (parse_global_type src) (parse_global_type mch).
Proof. unfold parse_global_type. auto_sim. Qed.
Hint Resolve sim_table sim_global_type : simdb.
Lemma sim_global n : sim R (parse_global src pf n) (parse_global mch pf n).
Proof. unfold parse_global. auto_sim. Qed.
Lemma sim_memory : sim R (parse_memory src) (parse_memory mch).
Proof. unfold parse_memory. auto_sim. Qed.
Hint Resolve sim_global sim_memory : simdb.
Lemma sim_module_section n m : sim R (module_section src pf n m) (module_section mch pf n m).
Proof. unfold module_section. auto_sim. Qed.
Hint Resolve sim_module_section : simdb.
Lemma sim_module n : sim R (parse_module src pf n) (parse_module mch pf n).
Proof. unfold parse_module. auto_sim. apply sim_sections. auto_sim. Qed.
Lemma sim_component : sim R (parse_component src) (parse_component mch).
Proof. unfold parse_component. auto_sim. Qed.
Hint Resolve sim_module sim_component : simdb.
Theorem sim_directive n : sim R (parse_directive src pf n) (parse_directive mch pf n).
Proof. unfold parse_directive. auto_sim. Qed.
End Sim.
