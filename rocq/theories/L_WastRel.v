(** The WAST parser over two sources of tokens, as L_WatRel.v for WAT. *)
From Coq Require Import Arith NArith ZArith String Ascii Bool List Lia.
From Verif Require Import GoBase M_Text M_WatLex M_ParseBase M_Strconv M_WatAst M_WatParse M_WastParse L_WatRel.
Import ListNotations.
Open Scope nat_scope.
Open Scope parse_scope.

(** ** Reading a directive without a clone: the same with one token of
    lookahead *)
Section Direct.
Context {L : Type}.
Variable src : source L toktype.
Variable pf : text -> option N.
Variable n : nat.
Definition is_quote (t : toktype * text) : bool := tok_eqb (fst t) Reserved && text_eqb (snd t) (txt "quote").
Definition quoted (make : text -> quote_wat) : parser L quote_wat :=
  nxt src ;;> plet s := parse_string src in exp src CloseParen ;;> pret (make s).
(** After the open parenthesis *)
Definition quote_rest : parser L quote_wat :=
  plet c := ate src TComponent in
  if c then
    plet t := pk src in
    if is_quote t then quoted QComponent else exp src CloseParen ;;> pret (QWat DComponent)
  else
    plet m := ate src TModule in
    if m then
      plet t := pk src in
      if is_quote t then quoted QModule
      else plet m := sections src n (module_section src pf n) no_module in exp src CloseParen ;;> pret (QWat (DModule m))
    else (nxt src ;;> perr).
Definition quote_direct : parser L quote_wat := handled (exp src OpenParen ;;> quote_rest).
Definition assertion (w : text) (make : quote_wat -> text -> wdirective) : parser L wdirective :=
  handled (word src w ;;> plet q := quote_direct in plet s := parse_string src in pret (make q s)).
Definition wdirective_direct : parser L wdirective :=
  handled (exp src OpenParen ;;>
    plet t := pk src in
    if text_eqb (snd t) (txt "module") || text_eqb (snd t) (txt "component") then (plet q := quote_rest in pret (DWat q))
    else match lookup kinds (snd t) with
         | Some k =>
             plet d := (match k with
                        | KReturn => parse_assert_return src pf n
                        | KInvalid => assertion (txt "assert_invalid") DInvalid
                        | KMalformed => assertion (txt "assert_malformed") DMalformed
                        | KTrap => parse_assert_trap src pf n
                        end) in
             exp src CloseParen ;;> pret d
         | None => perr
         end).
End Direct.

Set Default Proof Using "All".
Section Rel.
Context {L1 L2 : Type}.
Variable src1 : source L1 toktype.
Variable src2 : source L2 toktype.
Variable pf : text -> option N.
Variable rel : forall A : Type, parser L1 A -> parser L2 A -> Prop.
Arguments rel {A}.
Hypothesis rel_next : rel (s_next src1) (s_next src2).
Hypothesis rel_peek : rel (s_peek src1) (s_peek src2).
Hypothesis rel_pret : forall A (a : A), rel (pret a) (pret a).
Hypothesis rel_perr : forall A, rel (@perr L1 A) perr.
Hypothesis rel_pdiverge : forall A, rel (@pdiverge L1 A) pdiverge.
Hypothesis rel_handled : forall A (p : parser L1 A) q, rel p q -> rel (handled p) (handled q).
Hypothesis rel_bind : forall A B (p : parser L1 A) q (f : A -> parser L1 B) g, rel p q -> (forall a, rel (f a) (g a)) ->
  rel (pbind (unwrap p) f) (pbind (unwrap q) g).
Variable fu : nat -> nat -> Prop.
Hypothesis fu_zero : forall m, fu 0 m -> m = 0 \/ forall A (q : parser L2 A), rel pdiverge q.
Hypothesis fu_S : forall n m, fu (S n) m -> exists m', m = S m' /\ fu n m'.
Hypothesis rel_block : forall n m, fu n m -> rel (parse_instruction src1 pf n) (parse_instruction src2 pf m) ->
  rel (parse_block src1 (parse_instruction src1 pf n) n) (parse_block src2 (parse_instruction src2 pf m) m) /\
  rel (parse_loop src1 (parse_instruction src1 pf n) n) (parse_loop src2 (parse_instruction src2 pf m) m).

Ltac wat lem := apply (lem _ _ src1 src2 pf (@rel) rel_next rel_peek rel_pret rel_perr rel_pdiverge rel_handled rel_bind fu fu_zero fu_S).
Ltac watb lem := apply (lem _ _ src1 src2 pf (@rel) rel_next rel_peek rel_pret rel_perr rel_pdiverge rel_handled rel_bind fu fu_zero fu_S rel_block).

Lemma rel_exp k : rel (exp src1 k) (exp src2 k). Proof. wat (@L_WatRel.rel_expect). Qed.
Lemma rel_ate k : rel (ate src1 k) (ate src2 k). Proof. wat (@L_WatRel.rel_eat). Qed.
Lemma rel_words w : rel (word src1 w) (word src2 w). Proof. wat (@L_WatRel.rel_word). Qed.
Lemma rel_strings : rel (parse_string src1) (parse_string src2). Proof. wat (@L_WatRel.rel_string). Qed.
Lemma rel_i32 : rel (parse_int32 src1) (parse_int32 src2). Proof. wat (@L_WatRel.rel_int32). Qed.
Lemma rel_i64 : rel (parse_int64 src1) (parse_int64 src2). Proof. wat (@L_WatRel.rel_int64). Qed.
Lemma rel_f32 : rel (parse_float32 src1 pf) (parse_float32 src2 pf). Proof. wat (@L_WatRel.rel_float32). Qed.
Lemma rel_f64 : rel (parse_float64 src1 pf) (parse_float64 src2 pf). Proof. wat (@L_WatRel.rel_float64). Qed.
Lemma rel_close {A} (p : parser L1 A) q : rel p q -> rel (closed src1 p) (closed src2 q).
Proof. wat (@L_WatRel.rel_closed). Qed.
Lemma rel_if2 {A} (b : bool) (p : parser L1 A) q p' q' : rel p q -> rel p' q' -> rel (if b then p else p') (if b then q else q').
Proof. destruct b; auto. Qed.

Create HintDb wastrel.
Hint Resolve rel_strings rel_i32 rel_i64 rel_f32 rel_f64 rel_close : wastrel.
Ltac step :=
  match goal with
  | |- rel (pret _) (pret _) => apply rel_pret
  | |- rel perr perr => apply rel_perr
  | |- rel pdiverge pdiverge => apply rel_pdiverge
  | |- rel (handled _) (handled _) => apply rel_handled
  | |- rel (pbind (unwrap _) _) (pbind (unwrap _) _) => apply rel_bind; [|intros ?]
  | |- rel (nxt _) (nxt _) => exact rel_next
  | |- rel (pk _) (pk _) => exact rel_peek
  | |- rel (exp _ _) (exp _ _) => apply rel_exp
  | |- rel (ate _ _) (ate _ _) => apply rel_ate
  | |- rel (word _ _) (word _ _) => apply rel_words
  | |- rel (if ?b then _ else _) (if ?b then _ else _) => apply rel_if2
  | |- rel (match ?x with _ => _ end) (match ?x with _ => _ end) => destruct x
  end.
Ltac auto_rel := repeat (first [assumption | step | solve [eauto with wastrel]]).
Ltac fuel :=
  match goal with HF : fu ?n ?m |- _ =>
    revert m HF; induction n as [|n IH]; intros m HF;
    [destruct (fu_zero m HF) as [->|Z]; [|apply Z] | destruct (fu_S n m HF) as (m' & -> & HF'); specialize (IH m' HF')]
  end.

Lemma rel_loop {A} n m (p : parser L1 A) q : fu n m -> rel p q ->
  rel (while_eat tok_eqb src1 n OpenParen p) (while_eat tok_eqb src2 m OpenParen q).
Proof. intros HF H. fuel; cbn [while_eat]; [apply rel_pdiverge|]. apply rel_bind; [apply rel_ate|]. intros b. auto_rel. Qed.
Lemma rel_const : rel (parse_const src1 pf) (parse_const src2 pf).
Proof. unfold parse_const, wast_peek_float, peek_integer. auto_rel. Qed.
Hint Resolve rel_loop rel_const : wastrel.
Lemma rel_action n m : fu n m -> rel (parse_action src1 pf n) (parse_action src2 pf m).
Proof. intros HF. unfold parse_action, parse_invoke, parse_consts. auto_rel. Qed.
Lemma rel_results n m : fu n m -> rel (parse_results src1 pf n) (parse_results src2 pf m).
Proof. intros HF. unfold parse_results. apply rel_handled. fuel; cbn [results_loop]; auto_rel. Qed.
Hint Resolve rel_action rel_results : wastrel.
Lemma rel_return n m : fu n m -> rel (parse_assert_return src1 pf n) (parse_assert_return src2 pf m).
Proof. intros HF. unfold parse_assert_return. auto_rel. Qed.
Lemma rel_trap n m : fu n m -> rel (parse_assert_trap src1 pf n) (parse_assert_trap src2 pf m).
Proof. intros HF. unfold parse_assert_trap. auto_rel. Qed.
Lemma rel_wat n m : fu n m -> rel (parse_directive src1 pf n) (parse_directive src2 pf m).
Proof. watb (@L_WatRel.rel_directive). Qed.
Lemma rel_secs n m : fu n m -> rel (sections src1 n (module_section src1 pf n) no_module) (sections src2 m (module_section src2 pf m) no_module).
Proof.
  intros HF. wat (@L_WatRel.rel_sections); [exact HF|]. intros a. watb (@L_WatRel.rel_module_section). exact HF.
Qed.
Hint Resolve rel_return rel_trap rel_wat rel_secs : wastrel.

(** Without a clone *)
Lemma rel_quote_rest n m : fu n m -> rel (quote_rest src1 pf n) (quote_rest src2 pf m).
Proof. intros HF. unfold quote_rest, quoted. auto_rel. Qed.
Hint Resolve rel_quote_rest : wastrel.
Lemma rel_quote_direct n m : fu n m -> rel (quote_direct src1 pf n) (quote_direct src2 pf m).
Proof. intros HF. unfold quote_direct. auto_rel. Qed.
Hint Resolve rel_quote_direct : wastrel.
Lemma rel_wdirective_direct n m : fu n m -> rel (wdirective_direct src1 pf n) (wdirective_direct src2 pf m).
Proof. intros HF. unfold wdirective_direct, assertion. auto_rel. Qed.

(** With a clone *)
Lemma rel_wdirective_trial : (forall A (p : parser L1 (option A)) q, rel p q -> rel (trial p) (trial q)) ->
  forall n m, fu n m -> rel (parse_wdirective src1 pf n) (parse_wdirective src2 pf m).
Proof.
  intros HT n m HF.
  assert (Q : rel (parse_quote_wat src1 pf n) (parse_quote_wat src2 pf m)).
  { unfold parse_quote_wat, at_quote, parse_wat. apply rel_handled, rel_bind; [apply HT; auto_rel | intros q; auto_rel]. }
  unfold parse_wdirective, at_directive, parse_assert_invalid, parse_assert_malformed.
  apply rel_handled, rel_bind; [apply HT; auto_rel | intros k; auto_rel].
Qed.

Hypothesis rel_wd : forall n m, fu (S n) (S m) -> rel (parse_wdirective src1 pf (S n)) (parse_wdirective src2 pf (S m)).
Lemma rel_wast n m : fu n m -> rel (parse_wast src1 pf n) (parse_wast src2 pf m).
Proof.
  intros HF. unfold parse_wast. apply rel_handled. fuel; cbn [wast_loop]; [apply rel_pdiverge|].
  pose proof (rel_wd n m' HF). auto_rel.
Qed.
End Rel.
