(** The WIT parser over two sources of tokens: any relation between parsers
    that is respected by the statements the parser is made of relates the
    parser over the one source with the parser over the other. *)
From Coq Require Import Arith NArith ZArith String Ascii Bool List Lia.
From Verif Require Import GoBase M_Text M_WitLex M_ParseBase M_Strconv M_WitAst M_WitParse.
Import ListNotations.
Open Scope nat_scope.
Open Scope parse_scope.

Set Default Proof Using "All".
Section Rel.
Context {L1 L2 : Type}.
Variable src1 : source L1 toktype.
Variable src2 : source L2 toktype.
Variable rel : forall {A : Type}, parser L1 A -> parser L2 A -> Prop.
Arguments rel {A}.
Hypothesis rel_next : rel (s_next src1) (s_next src2).
Hypothesis rel_peek : rel (s_peek src1) (s_peek src2).
Hypothesis rel_pret : forall A (a : A), rel (pret a) (pret a).
Hypothesis rel_perr : forall A, rel (@perr L1 A) perr.
Hypothesis rel_pdiverge : forall A, rel (@pdiverge L1 A) pdiverge.
Hypothesis rel_handled : forall A (p : parser L1 A) q, rel p q -> rel (handled p) (handled q).
Hypothesis rel_bind : forall A B (p : parser L1 A) q (f : A -> parser L1 B) g, rel p q -> (forall a, rel (f a) (g a)) ->
  rel (pbind (unwrap p) f) (pbind (unwrap q) g).
(** Either the fuel is the same or the second may have more. *)
Variable fu : nat -> nat -> Prop.
Hypothesis fu_zero : forall m, fu 0 m -> m = 0 \/ forall A (q : parser L2 A), rel pdiverge q.
Hypothesis fu_S : forall n m, fu (S n) m -> exists m', m = S m' /\ fu n m'.

Lemma rel_if {A} (b : bool) (p : parser L1 A) q p' q' : rel p q -> rel p' q' -> rel (if b then p else p') (if b then q else q').
Proof. destruct b; auto. Qed.
Lemma rel_expect k : rel (exp src1 k) (exp src2 k).
Proof. apply rel_handled, rel_bind; [exact rel_next|]. intros t. apply rel_if; auto. Qed.
Lemma rel_eat k : rel (ate src1 k) (ate src2 k).
Proof. apply rel_handled, rel_bind; [exact rel_peek|]. intros t. apply rel_if; auto. apply rel_bind; [apply rel_expect|auto]. Qed.

Ltac step :=
  match goal with
  | |- rel (pret _) (pret _) => apply rel_pret
  | |- rel perr perr => apply rel_perr
  | |- rel pdiverge pdiverge => apply rel_pdiverge
  | |- rel (handled _) (handled _) => apply rel_handled
  | |- rel (pbind (unwrap _) _) (pbind (unwrap _) _) => apply rel_bind; [|intros ?]
  | |- rel (nxt _) (nxt _) => exact rel_next
  | |- rel (pk _) (pk _) => exact rel_peek
  | |- rel (exp _ _) (exp _ _) => apply rel_expect
  | |- rel (ate _ _) (ate _ _) => apply rel_eat
  | |- rel (if ?b then _ else _) (if ?b then _ else _) => apply rel_if
  | |- rel (match ?x with _ => _ end) (match ?x with _ => _ end) => destruct x
  end.
Ltac auto_rel := repeat (first [assumption | step | solve [eauto with witrel]]).
Ltac fuel :=
  match goal with HF : fu ?n ?m |- _ =>
    revert m HF; induction n as [|n IH]; intros m HF;
    [destruct (fu_zero m HF) as [->|Z]; [|apply Z] | destruct (fu_S n m HF) as (m' & -> & HF'); specialize (IH m' HF')]
  end.

Lemma rel_id : rel (parse_id src1) (parse_id src2).
Proof. unfold parse_id. auto_rel. Qed.
Lemma rel_integer : rel (parse_integer src1) (parse_integer src2).
Proof. unfold parse_integer. auto_rel. Qed.
Hint Resolve rel_id rel_integer : witrel.
Lemma rel_version : rel (parse_version src1) (parse_version src2).
Proof. unfold parse_version. auto_rel. Qed.
Hint Resolve rel_version : witrel.
Lemma rel_package : rel (parse_package src1) (parse_package src2).
Proof. unfold parse_package. auto_rel. Qed.
Lemma rel_path ns : rel (parse_path src1 ns) (parse_path src2 ns).
Proof. unfold parse_path, parse_optional_version. auto_rel. Qed.
Hint Resolve rel_package rel_path : witrel.
Lemma rel_use_path : rel (parse_use_path src1) (parse_use_path src2).
Proof. unfold parse_use_path. auto_rel. Qed.
Hint Resolve rel_use_path : witrel.
Lemma rel_top_use : rel (parse_top_use src1) (parse_top_use src2).
Proof. unfold parse_top_use. auto_rel. Qed.
Lemma rel_items {A} n m k (p : parser L1 A) q : fu n m -> rel p q -> rel (items_loop src1 n k p) (items_loop src2 m k q).
Proof. intros HF H. fuel; cbn [items_loop]; auto_rel. Qed.
Hint Resolve rel_top_use rel_items : witrel.
Lemma rel_item_list {A} n m b k (p : parser L1 A) q : fu n m -> rel p q -> rel (parse_item_list src1 n b k p) (parse_item_list src2 m b k q).
Proof. intros HF H. unfold parse_item_list. auto_rel. Qed.
Lemma rel_use_name : rel (parse_use_name src1) (parse_use_name src2).
Proof. unfold parse_use_name. auto_rel. Qed.
Hint Resolve rel_item_list rel_use_name : witrel.
Lemma rel_use n m : fu n m -> rel (parse_use src1 n) (parse_use src2 m).
Proof. intros HF. unfold parse_use. auto_rel. Qed.
Hint Resolve rel_use : witrel.

Lemma rel_two p q : rel p q -> rel (parse_two src1 p) (parse_two src2 q).
Proof. intros H. unfold parse_two. auto_rel. Qed.
Hint Resolve rel_two : witrel.
Lemma rel_type_body p q n m : fu n m -> rel p q -> rel (type_body src1 p n) (type_body src2 q m).
Proof.
  intros HF H. unfold type_body, parse_stream, parse_result, parse_future, parse_list, parse_option, parse_tuple. auto_rel.
Qed.
Lemma rel_type n m : fu n m -> rel (parse_type src1 n) (parse_type src2 m).
Proof. intros HF. fuel; cbn [parse_type]; [auto_rel | apply rel_type_body; auto].  Qed.
Hint Resolve rel_type : witrel.
Lemma rel_parameter n m : fu n m -> rel (parse_parameter src1 n) (parse_parameter src2 m).
Proof. intros HF. unfold parse_parameter. auto_rel. Qed.
Lemma rel_parameters_loop n m p q : fu n m -> rel p q -> rel (parameters_loop src1 n p) (parameters_loop src2 m q).
Proof. intros HF H. fuel; cbn [parameters_loop]; auto_rel. Qed.
Hint Resolve rel_parameter rel_parameters_loop : witrel.
Lemma rel_parameters n m : fu n m -> rel (parse_parameters src1 n) (parse_parameters src2 m).
Proof. intros HF. unfold parse_parameters. auto_rel. Qed.
Hint Resolve rel_parameters : witrel.
Lemma rel_func n m : fu n m -> rel (parse_func src1 n) (parse_func src2 m).
Proof. intros HF. unfold parse_func. auto_rel. Qed.
Hint Resolve rel_func : witrel.
Lemma rel_func_item n m : fu n m -> rel (parse_func_item src1 n) (parse_func_item src2 m).
Proof. intros HF. unfold parse_func_item. auto_rel. Qed.
Hint Resolve rel_func_item : witrel.
(** The two functions that look ahead on a clone *)
Definition respects_trial : Prop := forall A (p : parser L1 (option A)) q, rel p q -> rel (trial p) (trial q).
Lemma rel_method_trial : respects_trial -> forall n m, fu n m -> rel (parse_method src1 n) (parse_method src2 m).
Proof.
  intros HT n m HF. unfold parse_method. auto_rel. unfold at_static. apply HT. auto_rel.
Qed.
Hypothesis rel_method : forall n m, fu n m -> rel (parse_method src1 n) (parse_method src2 m).
Lemma rel_methods_loop n m p q : fu n m -> rel p q -> rel (methods_loop src1 n p) (methods_loop src2 m q).
Proof. intros HF H. fuel; cbn [methods_loop]; auto_rel. Qed.
Hint Resolve rel_method rel_methods_loop : witrel.
Lemma rel_resource n m : fu n m -> rel (parse_resource src1 n) (parse_resource src2 m).
Proof. intros HF. unfold parse_resource. auto_rel. Qed.
Lemma rel_field n m : fu n m -> rel (parse_field src1 n) (parse_field src2 m).
Proof. intros HF. unfold parse_field. auto_rel. Qed.
Lemma rel_case n m : fu n m -> rel (parse_case src1 n) (parse_case src2 m).
Proof. intros HF. unfold parse_case. auto_rel. Qed.
Lemma rel_enum_case : rel (parse_enum_case src1) (parse_enum_case src2).
Proof. unfold parse_enum_case. auto_rel. Qed.
Hint Resolve rel_resource rel_field rel_case rel_enum_case : witrel.
Lemma rel_record n m : fu n m -> rel (parse_record src1 n) (parse_record src2 m).
Proof. intros HF. unfold parse_record. auto_rel. Qed.
Lemma rel_flags n m : fu n m -> rel (parse_flags src1 n) (parse_flags src2 m).
Proof. intros HF. unfold parse_flags. auto_rel. Qed.
Lemma rel_variant n m : fu n m -> rel (parse_variant src1 n) (parse_variant src2 m).
Proof. intros HF. unfold parse_variant. auto_rel. Qed.
Lemma rel_enum n m : fu n m -> rel (parse_enum src1 n) (parse_enum src2 m).
Proof. intros HF. unfold parse_enum. auto_rel. Qed.
Lemma rel_type_item n m : fu n m -> rel (parse_type_item src1 n) (parse_type_item src2 m).
Proof. intros HF. unfold parse_type_item. auto_rel. Qed.
Hint Resolve rel_record rel_flags rel_variant rel_enum rel_type_item : witrel.
Lemma rel_type_def n m : fu n m -> rel (parse_type_def src1 n) (parse_type_def src2 m).
Proof. intros HF. unfold parse_type_def. auto_rel. Qed.
Hint Resolve rel_type_def : witrel.
Lemma rel_interface_item n m : fu n m -> rel (parse_interface_item src1 n) (parse_interface_item src2 m).
Proof. intros HF. unfold parse_interface_item. auto_rel. Qed.
Lemma rel_until {A} n m k (p : parser L1 A) q : fu n m -> rel p q -> rel (until_eat src1 n k p) (until_eat src2 m k q).
Proof. intros HF H. fuel; cbn [until_eat]; auto_rel. Qed.
Hint Resolve rel_interface_item rel_until : witrel.
Lemma rel_interface_items n m : fu n m -> rel (parse_interface_items src1 n) (parse_interface_items src2 m).
Proof. intros HF. unfold parse_interface_items. auto_rel. Qed.
Hint Resolve rel_interface_items : witrel.
Lemma rel_interface n m : fu n m -> rel (parse_interface src1 n) (parse_interface src2 m).
Proof. intros HF. unfold parse_interface. auto_rel. Qed.
Hint Resolve rel_interface : witrel.
Lemma rel_extern_trial : respects_trial -> forall n m, fu n m -> rel (parse_extern src1 n) (parse_extern src2 m).
Proof.
  intros HT n m HF. unfold parse_extern. auto_rel. unfold at_extern. apply HT. auto_rel.
Qed.
Hypothesis rel_extern : forall n m, fu n m -> rel (parse_extern src1 n) (parse_extern src2 m).
Hint Resolve rel_extern : witrel.
Lemma rel_export n m : fu n m -> rel (parse_export src1 n) (parse_export src2 m).
Proof. intros HF. unfold parse_export. auto_rel. Qed.
Lemma rel_import n m : fu n m -> rel (parse_import src1 n) (parse_import src2 m).
Proof. intros HF. unfold parse_import. auto_rel. Qed.
Lemma rel_include_name : rel (parse_include_name src1) (parse_include_name src2).
Proof. unfold parse_include_name. auto_rel. Qed.
Hint Resolve rel_export rel_import rel_include_name : witrel.
Lemma rel_include n m : fu n m -> rel (parse_include src1 n) (parse_include src2 m).
Proof. intros HF. unfold parse_include. auto_rel. Qed.
Hint Resolve rel_include : witrel.
Lemma rel_world_item n m : fu n m -> rel (parse_world_item src1 n) (parse_world_item src2 m).
Proof. intros HF. unfold parse_world_item. auto_rel. Qed.
Hint Resolve rel_world_item : witrel.
Lemma rel_world n m : fu n m -> rel (parse_world src1 n) (parse_world src2 m).
Proof. intros HF. unfold parse_world, parse_world_items. auto_rel. Qed.
Hint Resolve rel_world : witrel.
Lemma rel_ast_item n m k : fu n m -> rel (ast_item_after src1 n k) (ast_item_after src2 m k).
Proof. intros HF. unfold ast_item_after. auto_rel. Qed.
Hint Resolve rel_ast_item : witrel.
Lemma rel_ast_loop n m : fu n m -> forall k a b, fu a b -> rel (ast_loop src1 n a k) (ast_loop src2 m b k).
Proof.
  revert m. induction n as [|n IH]; intros m HF k a b HA.
  - destruct (fu_zero m HF) as [->|Z]; [apply rel_pdiverge | apply Z].
  - destruct (fu_S n m HF) as (m' & -> & HF'). cbn [ast_loop]. auto_rel.
Qed.
Hint Resolve rel_ast_loop : witrel.
Lemma rel_ast n m : fu n m -> rel (parse_ast src1 n) (parse_ast src2 m).
Proof. intros HF. unfold parse_ast. auto_rel. Qed.
End Rel.
