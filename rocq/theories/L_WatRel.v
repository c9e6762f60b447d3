(** The WAT parser over two sources of tokens: any relation between parsers
    that is respected by the statements the parser is made of relates the
    parser over the one source with the parser over the other. *)
From Coq Require Import Arith NArith ZArith String Ascii Bool List Lia.
From Verif Require Import GoBase M_Text M_WatLex M_ParseBase M_Strconv M_WatAst M_WatParse.
Import ListNotations.
Open Scope nat_scope.
Open Scope parse_scope.

(** ** Reading a block type and the instructions after it without a clone: the
    same with one token of lookahead *)
Section Direct.
Context {L : Type}.
Variable src : source L toktype.
Variable pi : parser L instr.
Variable n : nat.
Fixpoint block_direct (k : nat) : parser L (list (list valtype) * list instr) :=
  match k with
  | O => pdiverge
  | S k =>
      plet b := ate src OpenParen in
      if b then
        plet t := pk src in
        if text_eqb (snd t) (txt "result") then
          word src (txt "result") ;;> plet tys := until_close src k in exp src CloseParen ;;>
          plet r := block_direct k in pret (tys :: fst r, snd r)
        else match n with
             | O => pdiverge
             | S n' => plet x := closed src pi in plet xs := while_eat tok_eqb src n' OpenParen (closed src pi) in pret ([], x :: xs)
             end
      else match n with O => pdiverge | S _ => pret ([], []) end
  end.
Definition block_by {A} (make : option text -> list (list valtype) -> list instr -> A) : parser L A :=
  handled (plet name := block_name src in plet r := block_direct n in pret (make name (fst r) (snd r))).
End Direct.

Set Default Proof Using "All".
Section Rel.
Context {L1 L2 : Type}.
Variable src1 : source L1 toktype.
Variable src2 : source L2 toktype.
Variable pf : text -> option N.
Variable rel : forall {A : Type}, parser L1 A -> parser L2 A -> Prop.
Arguments rel {A}.
Hypothesis rel_next : rel (s_next src1) (s_next src2).
Hypothesis rel_peek : rel (s_peek src1) (s_peek src2).
Hypothesis rel_pret : forall A (a : A), rel (pret a) (pret a).
Hypothesis rel_perr : forall A, rel (@perr L1 A) perr.
Hypothesis rel_pdiverge : forall A, rel (@pdiverge L1 A) pdiverge.
Hypothesis rel_handled : forall A (p : parser L1 A) q, rel p q -> rel (handled p) (handled q).
Hypothesis rel_bind : forall A B (p : parser L1 A) q (f : A -> parser L1 B) g, rel p q -> (forall a, rel (f a) (g a)) ->
  rel (pbind (unwrap p) f) (pbind (unwrap q) g).
(** Either the fuel is the same or the second may have more. *)
Variable fu : nat -> nat -> Prop.
Hypothesis fu_zero : forall m, fu 0 m -> m = 0 \/ forall A (q : parser L2 A), rel pdiverge q.
Hypothesis fu_S : forall n m, fu (S n) m -> exists m', m = S m' /\ fu n m'.

Lemma rel_if {A} (b : bool) (p : parser L1 A) q p' q' : rel p q -> rel p' q' -> rel (if b then p else p') (if b then q else q').
Proof. destruct b; auto. Qed.
Lemma rel_expect k : rel (exp src1 k) (exp src2 k).
Proof. apply rel_handled, rel_bind; [exact rel_next|]. intros t. apply rel_if; auto. Qed.
Lemma rel_eat k : rel (ate src1 k) (ate src2 k).
Proof. apply rel_handled, rel_bind; [exact rel_peek|]. intros t. apply rel_if; auto. apply rel_bind; [apply rel_expect|auto]. Qed.
Lemma rel_word w : rel (word src1 w) (word src2 w).
Proof. apply rel_handled, rel_bind; [exact rel_next|]. intros t. repeat apply rel_if; auto. Qed.

Ltac step :=
  match goal with
  | |- rel (pret _) (pret _) => apply rel_pret
  | |- rel perr perr => apply rel_perr
  | |- rel pdiverge pdiverge => apply rel_pdiverge
  | |- rel (handled _) (handled _) => apply rel_handled
  | |- rel (pbind (unwrap _) _) (pbind (unwrap _) _) => apply rel_bind; [|intros ?]
  | |- rel (nxt _) (nxt _) => exact rel_next
  | |- rel (pk _) (pk _) => exact rel_peek
  | |- rel (exp _ _) (exp _ _) => apply rel_expect
  | |- rel (ate _ _) (ate _ _) => apply rel_eat
  | |- rel (word _ _) (word _ _) => apply rel_word
  | |- rel (if ?b then _ else _) (if ?b then _ else _) => apply rel_if
  | |- rel (match ?x with _ => _ end) (match ?x with _ => _ end) => destruct x
  end.
Ltac auto_rel := repeat (first [assumption | step | solve [eauto with watrel]]).
Ltac fuel :=
  match goal with HF : fu ?n ?m |- _ =>
    revert m HF; induction n as [|n IH]; intros m HF;
    [destruct (fu_zero m HF) as [->|Z]; [|apply Z] | destruct (fu_S n m HF) as (m' & -> & HF'); specialize (IH m' HF')]
  end.

Lemma rel_option {A} (o : option A) : rel (of_option o) (of_option o).
Proof. unfold of_option. auto_rel. Qed.
Hint Resolve rel_option : watrel.
Lemma rel_closed {A} (p : parser L1 A) q : rel p q -> rel (closed src1 p) (closed src2 q).
Proof. intros H. unfold closed. auto_rel. Qed.
Lemma rel_id : rel (parse_id src1) (parse_id src2).
Proof. unfold parse_id. auto_rel. Qed.
Hint Resolve rel_closed rel_id : watrel.
Lemma rel_optional_id : rel (parse_optional_id src1) (parse_optional_id src2).
Proof. unfold parse_optional_id. auto_rel. Qed.
Lemma rel_string : rel (parse_string src1) (parse_string src2).
Proof. unfold parse_string. auto_rel. Qed.
Lemma rel_int32 : rel (parse_int32 src1) (parse_int32 src2).
Proof. unfold parse_int32. auto_rel. Qed.
Lemma rel_int64 : rel (parse_int64 src1) (parse_int64 src2).
Proof. unfold parse_int64. auto_rel. Qed.
Lemma rel_peek_float : rel (peek_float src1) (peek_float src2).
Proof. unfold peek_float. auto_rel. Qed.
Lemma rel_float32 : rel (parse_float32 src1 pf) (parse_float32 src2 pf).
Proof. unfold parse_float32. auto_rel. Qed.
Lemma rel_float64 : rel (parse_float64 src1 pf) (parse_float64 src2 pf).
Proof. unfold parse_float64. auto_rel. Qed.
Lemma rel_val_type : rel (parse_val_type src1) (parse_val_type src2).
Proof. unfold parse_val_type. auto_rel. Qed.
Lemma rel_index : rel (parse_index src1) (parse_index src2).
Proof. unfold parse_index. auto_rel. Qed.
Hint Resolve rel_optional_id rel_string rel_int32 rel_int64 rel_peek_float rel_float32 rel_float64 rel_val_type rel_index : watrel.
Lemma rel_result : rel (parse_result src1) (parse_result src2).
Proof. unfold parse_result. auto_rel. Qed.
Lemma rel_param_types n m : fu n m -> rel (param_types src1 n) (param_types src2 m).
Proof. intros HF. fuel; cbn [param_types]; auto_rel. Qed.
Hint Resolve rel_result rel_param_types : watrel.
Lemma rel_parameter n m : fu n m -> rel (parse_parameter src1 n) (parse_parameter src2 m).
Proof. intros HF. unfold parse_parameter. auto_rel. Qed.
Lemma rel_local : rel (parse_local src1) (parse_local src2).
Proof. unfold parse_local. auto_rel. Qed.
Lemma rel_export : rel (parse_export src1) (parse_export src2).
Proof. unfold parse_export. auto_rel. Qed.
Lemma rel_import : rel (parse_import src1) (parse_import src2).
Proof. unfold parse_import. auto_rel. Qed.
Lemma rel_call_indirect : rel (parse_call_indirect src1) (parse_call_indirect src2).
Proof. unfold parse_call_indirect, parse_type_use. auto_rel. Qed.
Lemma rel_until_close n m : fu n m -> rel (until_close src1 n) (until_close src2 m).
Proof. intros HF. fuel; cbn [until_close]; auto_rel. Qed.
Hint Resolve rel_parameter rel_local rel_export rel_import rel_call_indirect rel_until_close : watrel.
Lemma rel_block_name : rel (block_name src1) (block_name src2).
Proof. unfold block_name. auto_rel. Qed.
Lemma rel_while {A} n m k (p : parser L1 A) q : fu n m -> rel p q -> rel (while_eat tok_eqb src1 n k p) (while_eat tok_eqb src2 m k q).
Proof. intros HF H. fuel; cbn [while_eat]; auto_rel; apply rel_eat. Qed.
Lemma rel_sections {A} n m (p : A -> parser L1 A) q : fu n m -> (forall a, rel (p a) (q a)) ->
  forall a, rel (sections src1 n p a) (sections src2 m q a).
Proof.
  intros HF H. revert m HF. induction n as [|n IH]; intros m HF a.
  - destruct (fu_zero m HF) as [->|Z]; [apply rel_pdiverge | apply Z].
  - destruct (fu_S n m HF) as (m' & -> & HF'). specialize (IH m' HF'). cbn [sections]. auto_rel.
Qed.
Hint Resolve rel_block_name rel_while rel_sections : watrel.
Lemma rel_instructions p q n m : fu n m -> rel p q -> rel (parse_instructions src1 p n) (parse_instructions src2 q m).
Proof. intros HF H. unfold parse_instructions. auto_rel. Qed.
Hint Resolve rel_instructions : watrel.

Lemma rel_block_direct p q n m : fu n m -> rel p q -> forall k j, fu k j -> rel (block_direct src1 p n k) (block_direct src2 q m j).
Proof.
  intros HF H k. induction k as [|k IH]; intros j HJ.
  - destruct (fu_zero j HJ) as [->|Z]; [apply rel_pdiverge | apply Z].
  - destruct (fu_S k j HJ) as (j' & -> & HJ'). specialize (IH j' HJ'). cbn [block_direct]. auto_rel.
    + destruct n as [|n]; [destruct (fu_zero m HF) as [->|Z]; [apply rel_pdiverge | apply Z]|].
      destruct (fu_S n m HF) as (m' & -> & HF'). auto_rel.
    + destruct n as [|n]; [destruct (fu_zero m HF) as [->|Z]; [apply rel_pdiverge | apply Z]|].
      destruct (fu_S n m HF) as (m' & -> & HF'). auto_rel.
Qed.
Hint Resolve rel_block_direct : watrel.
Lemma rel_block_by {A} p q n m (make : _ -> _ -> _ -> A) : fu n m -> rel p q -> rel (block_by src1 p n make) (block_by src2 q m make).
Proof. intros HF H. unfold block_by. auto_rel. Qed.

(** The function that looks ahead on a clone *)
Definition respects_trial : Prop := forall A (p : parser L1 (option A)) q, rel p q -> rel (trial p) (trial q).
Lemma rel_block_type_trial : respects_trial -> forall n m, fu n m -> rel (parse_block_type src1 n) (parse_block_type src2 m).
Proof.
  intros HT n m HF. unfold parse_block_type. apply rel_handled. fuel; cbn [block_type_loop]; auto_rel. unfold at_result. apply HT. auto_rel.
Qed.
Lemma rel_block_trial : respects_trial -> forall n m, fu n m -> rel (parse_instruction src1 pf n) (parse_instruction src2 pf m) ->
  rel (parse_block src1 (parse_instruction src1 pf n) n) (parse_block src2 (parse_instruction src2 pf m) m) /\
  rel (parse_loop src1 (parse_instruction src1 pf n) n) (parse_loop src2 (parse_instruction src2 pf m) m).
Proof.
  intros HT n m HF H. pose proof (rel_block_type_trial HT n m HF). unfold parse_block, parse_loop. split; auto_rel.
Qed.
Hypothesis rel_block : forall n m, fu n m -> rel (parse_instruction src1 pf n) (parse_instruction src2 pf m) ->
  rel (parse_block src1 (parse_instruction src1 pf n) n) (parse_block src2 (parse_instruction src2 pf m) m) /\
  rel (parse_loop src1 (parse_instruction src1 pf n) n) (parse_loop src2 (parse_instruction src2 pf m) m).

Lemma rel_if_section p q n m a : fu n m -> rel p q -> rel (if_section src1 p n a) (if_section src2 q m a).
Proof. intros HF H. unfold if_section, parse_then, parse_else. auto_rel. Qed.
Hint Resolve rel_if_section : watrel.
Lemma rel_parse_if p q n m : fu n m -> rel p q -> rel (parse_if src1 p n) (parse_if src2 q m).
Proof. intros HF H. unfold parse_if. auto_rel. Qed.
Hint Resolve rel_parse_if : watrel.
Lemma rel_instruction n : forall m, fu n m -> rel (parse_instruction src1 pf n) (parse_instruction src2 pf m).
Proof.
  intros m HF. fuel; cbn [parse_instruction]; [auto_rel|]. destruct (rel_block n m' HF' IH) as [B1 B2].
  unfold instruction_body. apply rel_handled, rel_bind; [exact rel_next|]. intros t. apply rel_if; [|apply rel_perr].
  apply rel_bind; [|intros i; auto_rel]. unfold parse_operator. auto_rel.
Qed.
Hint Resolve rel_instruction : watrel.
Lemma rel_plain_loop p q n m : fu n m -> rel p q -> rel (plain_loop src1 p n) (plain_loop src2 q m).
Proof. intros HF H. fuel; cbn [plain_loop]; auto_rel. Qed.
Lemma rel_func_section n m f : fu n m -> rel (func_section src1 pf n f) (func_section src2 pf m f).
Proof. intros HF. unfold func_section. auto_rel. Qed.
Hint Resolve rel_plain_loop rel_func_section : watrel.
Lemma rel_func n m : fu n m -> rel (parse_func src1 pf n) (parse_func src2 pf m).
Proof. intros HF. unfold parse_func, func_id. auto_rel. Qed.
Lemma rel_func_type_section n m f : fu n m -> rel (func_type_section src1 n f) (func_type_section src2 m f).
Proof. intros HF. unfold func_type_section. auto_rel. Qed.
Hint Resolve rel_func rel_func_type_section : watrel.
Lemma rel_func_type n m : fu n m -> rel (parse_func_type src1 n) (parse_func_type src2 m).
Proof. intros HF. unfold parse_func_type. auto_rel. Qed.
Hint Resolve rel_func_type : watrel.
Lemma rel_type n m : fu n m -> rel (parse_type src1 n) (parse_type src2 m).
Proof. intros HF. unfold parse_type. auto_rel. Qed.
Lemma rel_limits : rel (parse_limits src1) (parse_limits src2).
Proof. unfold parse_limits. auto_rel. Qed.
Hint Resolve rel_type rel_limits : watrel.
Lemma rel_table_type : rel (parse_table_type src1) (parse_table_type src2).
Proof. unfold parse_table_type. auto_rel. Qed.
Lemma rel_table_element : rel (table_element src1) (table_element src2).
Proof. unfold table_element. auto_rel. Qed.
Hint Resolve rel_table_type rel_table_element : watrel.
Lemma rel_table n m : fu n m -> rel (parse_table src1 n) (parse_table src2 m).
Proof. intros HF. unfold parse_table. auto_rel. Qed.
Lemma rel_global n m : fu n m -> rel (parse_global src1 pf n) (parse_global src2 pf m).
Proof. intros HF. unfold parse_global, parse_global_type. auto_rel. Qed.
Lemma rel_memory : rel (parse_memory src1) (parse_memory src2).
Proof. unfold parse_memory. auto_rel. Qed.
Hint Resolve rel_table rel_global rel_memory : watrel.
Lemma rel_module_section n m a : fu n m -> rel (module_section src1 pf n a) (module_section src2 pf m a).
Proof. intros HF. unfold module_section. auto_rel. Qed.
Hint Resolve rel_module_section : watrel.
Lemma rel_directive n m : fu n m -> rel (parse_directive src1 pf n) (parse_directive src2 pf m).
Proof. intros HF. unfold parse_directive, parse_module, parse_component. auto_rel. Qed.
End Rel.
