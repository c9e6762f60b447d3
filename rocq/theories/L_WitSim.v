(** The WIT parser over any source of tokens does what it does over the
    machine of L_ParseBase, and over the machine it does not run out of
    fuel. *)
From Coq Require Import Arith NArith ZArith String Ascii Bool List Lia.
From Verif Require Import GoBase M_Text M_WitLex M_ParseBase M_Strconv M_WitAst M_WitParse L_ParseBase L_ParseTotal.
Import ListNotations.
Open Scope nat_scope.
Open Scope parse_scope.

Lemma kind_eqb_spec a b : reflect (a = b) (kind_eqb a b).
Proof. unfold kind_eqb. destruct (toktype_eq_dec a b); constructor; assumption. Qed.

Section Sim.
Context {L : Type}.
Variable src : source L toktype.
Variable R : L -> stream toktype -> Prop.
Hypothesis sim_next : sim R (s_next src) (m_next EndOfStream).
Hypothesis sim_peek : sim R (s_peek src) (m_peek EndOfStream).
Notation mch := (machine EndOfStream).

Ltac step :=
  match goal with
  | |- sim _ (pret _) (pret _) => apply sim_pret
  | |- sim _ perr perr => apply sim_perr
  | |- sim _ pdiverge pdiverge => apply sim_pdiverge
  | |- sim _ (handled _) (handled _) => apply sim_handled
  | |- sim _ (trial _) (trial _) => apply sim_trial
  | |- sim _ (unwrap _) (unwrap _) => apply sim_unwrap
  | |- sim _ (pbind _ _) (pbind _ _) => apply sim_pbind; [|intros ?]
  | |- sim _ (nxt _) (nxt _) => exact sim_next
  | |- sim _ (pk _) (pk _) => exact sim_peek
  | |- sim _ (exp _ _) (exp _ _) => apply (sim_expect _ _ _ _ sim_next)
  | |- sim _ (ate _ _) (ate _ _) => apply (sim_eat _ _ _ _ sim_next sim_peek)
  | |- sim _ (if ?b then _ else _) (if ?b then _ else _) => apply sim_if
  | |- sim _ (match ?x with _ => _ end) (match ?x with _ => _ end) => destruct x
  end.
Ltac auto_sim := repeat (first [assumption | step | solve [eauto with witsim]]).

Lemma sim_id : sim R (parse_id src) (parse_id mch).
Proof. unfold parse_id. auto_sim. Qed.
Lemma sim_integer : sim R (parse_integer src) (parse_integer mch).
Proof. unfold parse_integer. auto_sim. Qed.
Hint Resolve sim_id sim_integer : witsim.
Lemma sim_version : sim R (parse_version src) (parse_version mch).
Proof. unfold parse_version. auto_sim. Qed.
Hint Resolve sim_version : witsim.
Lemma sim_package : sim R (parse_package src) (parse_package mch).
Proof. unfold parse_package. auto_sim. Qed.
Lemma sim_path ns : sim R (parse_path src ns) (parse_path mch ns).
Proof. unfold parse_path, parse_optional_version. auto_sim. Qed.
Hint Resolve sim_package sim_path : witsim.
Lemma sim_use_path : sim R (parse_use_path src) (parse_use_path mch).
Proof. unfold parse_use_path. auto_sim. Qed.
Hint Resolve sim_use_path : witsim.
Lemma sim_top_use : sim R (parse_top_use src) (parse_top_use mch).
Proof. unfold parse_top_use. auto_sim. Qed.
Lemma sim_items {A} n k (p : parser L A) q : sim R p q -> sim R (items_loop src n k p) (items_loop mch n k q).
Proof. intros H. induction n; cbn [items_loop]; auto_sim. Qed.
Hint Resolve sim_top_use sim_items : witsim.
Lemma sim_item_list {A} n b k (p : parser L A) q : sim R p q -> sim R (parse_item_list src n b k p) (parse_item_list mch n b k q).
Proof. intros H. unfold parse_item_list. auto_sim. Qed.
Lemma sim_use_name : sim R (parse_use_name src) (parse_use_name mch).
Proof. unfold parse_use_name. auto_sim. Qed.
Hint Resolve sim_item_list sim_use_name : witsim.
Lemma sim_use n : sim R (parse_use src n) (parse_use mch n).
Proof. unfold parse_use. auto_sim. Qed.
Hint Resolve sim_use : witsim.

Lemma sim_two p q : sim R p q -> sim R (parse_two src p) (parse_two mch q).
Proof. intros H. unfold parse_two. auto_sim. Qed.
Hint Resolve sim_two : witsim.
Lemma sim_type_body p q n : sim R p q -> sim R (type_body src p n) (type_body mch q n).
Proof.
  intros H. unfold type_body, parse_stream, parse_result, parse_future, parse_list, parse_option, parse_tuple. auto_sim.
Qed.
Lemma sim_type n : sim R (parse_type src n) (parse_type mch n).
Proof. induction n; cbn [parse_type]; [auto_sim | apply sim_type_body; assumption]. Qed.
Hint Resolve sim_type : witsim.
Lemma sim_parameter n : sim R (parse_parameter src n) (parse_parameter mch n).
Proof. unfold parse_parameter. auto_sim. Qed.
Lemma sim_parameters_loop n p q : sim R p q -> sim R (parameters_loop src n p) (parameters_loop mch n q).
Proof. intros H. induction n; cbn [parameters_loop]; auto_sim. Qed.
Hint Resolve sim_parameter sim_parameters_loop : witsim.
Lemma sim_parameters n : sim R (parse_parameters src n) (parse_parameters mch n).
Proof. unfold parse_parameters. auto_sim. Qed.
Hint Resolve sim_parameters : witsim.
Lemma sim_func n : sim R (parse_func src n) (parse_func mch n).
Proof. unfold parse_func. auto_sim. Qed.
Hint Resolve sim_func : witsim.
Lemma sim_func_item n : sim R (parse_func_item src n) (parse_func_item mch n).
Proof. unfold parse_func_item. auto_sim. Qed.
Lemma sim_at_static : sim R (at_static src) (at_static mch).
Proof. unfold at_static. auto_sim. Qed.
Hint Resolve sim_func_item sim_at_static : witsim.
Lemma sim_method n : sim R (parse_method src n) (parse_method mch n).
Proof. unfold parse_method. auto_sim. Qed.
Lemma sim_methods_loop n p q : sim R p q -> sim R (methods_loop src n p) (methods_loop mch n q).
Proof. intros H. induction n; cbn [methods_loop]; auto_sim. Qed.
Hint Resolve sim_method sim_methods_loop : witsim.
Lemma sim_resource n : sim R (parse_resource src n) (parse_resource mch n).
Proof. unfold parse_resource. auto_sim. Qed.
Lemma sim_field n : sim R (parse_field src n) (parse_field mch n).
Proof. unfold parse_field. auto_sim. Qed.
Lemma sim_case n : sim R (parse_case src n) (parse_case mch n).
Proof. unfold parse_case. auto_sim. Qed.
Lemma sim_enum_case : sim R (parse_enum_case src) (parse_enum_case mch).
Proof. unfold parse_enum_case. auto_sim. Qed.
Hint Resolve sim_resource sim_field sim_case sim_enum_case : witsim.
Lemma sim_record n : sim R (parse_record src n) (parse_record mch n).
Proof. unfold parse_record. auto_sim. Qed.
Lemma sim_flags n : sim R (parse_flags src n) (parse_flags mch n).
Proof. unfold parse_flags. auto_sim. apply sim_item_list. auto_sim. Qed.
Lemma sim_variant n : sim R (parse_variant src n) (parse_variant mch n).
Proof. unfold parse_variant. auto_sim. Qed.
Lemma sim_enum n : sim R (parse_enum src n) (parse_enum mch n).
Proof. unfold parse_enum. auto_sim. Qed.
Lemma sim_type_item n : sim R (parse_type_item src n) (parse_type_item mch n).
Proof. unfold parse_type_item. auto_sim. Qed.
Hint Resolve sim_record sim_flags sim_variant sim_enum sim_type_item : witsim.
Lemma sim_type_def n : sim R (parse_type_def src n) (parse_type_def mch n).
Proof. unfold parse_type_def. auto_sim. Qed.
Hint Resolve sim_type_def : witsim.
Lemma sim_interface_item n : sim R (parse_interface_item src n) (parse_interface_item mch n).
Proof. unfold parse_interface_item. auto_sim. Qed.
Lemma sim_until {A} n k (p : parser L A) q : sim R p q -> sim R (until_eat src n k p) (until_eat mch n k q).
Proof. intros H. induction n; cbn [until_eat]; auto_sim. Qed.
Hint Resolve sim_interface_item sim_until : witsim.
Lemma sim_interface_items n : sim R (parse_interface_items src n) (parse_interface_items mch n).
Proof. unfold parse_interface_items. auto_sim. Qed.
Hint Resolve sim_interface_items : witsim.
Lemma sim_interface n : sim R (parse_interface src n) (parse_interface mch n).
Proof. unfold parse_interface. auto_sim. Qed.
Lemma sim_at_extern : sim R (at_extern src) (at_extern mch).
Proof. unfold at_extern. auto_sim. Qed.
Hint Resolve sim_interface sim_at_extern : witsim.
Lemma sim_extern n : sim R (parse_extern src n) (parse_extern mch n).
Proof. unfold parse_extern. auto_sim. Qed.
Hint Resolve sim_extern : witsim.
Lemma sim_export n : sim R (parse_export src n) (parse_export mch n).
Proof. unfold parse_export. auto_sim. Qed.
Lemma sim_import n : sim R (parse_import src n) (parse_import mch n).
Proof. unfold parse_import. auto_sim. Qed.
Lemma sim_include_name : sim R (parse_include_name src) (parse_include_name mch).
Proof. unfold parse_include_name. auto_sim. Qed.
Hint Resolve sim_export sim_import sim_include_name : witsim.
Lemma sim_include n : sim R (parse_include src n) (parse_include mch n).
Proof. unfold parse_include. auto_sim. Qed.
Hint Resolve sim_include : witsim.
Lemma sim_world_item n : sim R (parse_world_item src n) (parse_world_item mch n).
Proof. unfold parse_world_item. auto_sim. Qed.
Hint Resolve sim_world_item : witsim.
Lemma sim_world n : sim R (parse_world src n) (parse_world mch n).
Proof. unfold parse_world, parse_world_items. auto_sim. Qed.
Hint Resolve sim_world : witsim.
Lemma sim_ast_item n k : sim R (ast_item_after src n k) (ast_item_after mch n k).
Proof. unfold ast_item_after. auto_sim. Qed.
Hint Resolve sim_ast_item : witsim.
Lemma sim_ast_loop n m : forall k, sim R (ast_loop src n m k) (ast_loop mch n m k).
Proof. induction n; intros k; cbn [ast_loop]; auto_sim. Qed.
Hint Resolve sim_ast_loop : witsim.
Lemma sim_ast n : sim R (parse_ast src n) (parse_ast mch n).
Proof. unfold parse_ast. auto_sim. Qed.
End Sim.

(** ** Fuel *)

(** How a token stream can end: the lexer's last token is empty, or there is
    an error. *)
Definition wfine (e : ending) : Prop := match e with Ends w => w = [] | Fails => True end.

Section Total.
Notation mch := (machine EndOfStream).
Notation T := (@T toktype wfine).

Lemma wfine_end : wfine (Ends []). Proof. reflexivity. Qed.

Lemma T_nxt n k {A} (f : toktype * text -> parser _ A) :
  (forall t, T (n - 1) (k - 1) (f t)) ->
  (forall w s, wfine (Ends w) -> match f (EndOfStream, w) s with (Ok _, _) | (Diverge, _) => False | _ => True end) ->
  T n k (pbind (unwrap (nxt mch)) f).
Proof. apply T_next_then. Qed.
(** tok := next(lexer), where the rest may succeed at the end of the stream *)
Lemma T_nxt_any n {A} (f : toktype * text -> parser _ A) :
  (forall t, T (n - 1) 0 (f t)) -> (n <> 0 -> forall w, T 1 0 (f (EndOfStream, w))) ->
  T n 0 (pbind (unwrap (nxt mch)) f).
Proof.
  intros Hp Hq ts e He Hl. unfold pbind, unwrap. destruct ts as [|t ts]; cbn.
  - destruct e as [w|]; auto. apply (Hq ltac:(lia) w [] (Ends [])); [reflexivity | cbn; lia].
  - cbn in Hl. specialize (Hp t ts e He ltac:(lia)).
    destruct (f t (ts, e)) as [[b|? | |] [ts'' e'']]; auto. destruct Hp. split; [auto | lia].
Qed.
Lemma T_pk n : T n 0 (pk mch).
Proof. apply T_peek. Qed.
Lemma T_exp n k : k <> EndOfStream -> T n 1 (exp mch k).
Proof. apply T_expect. apply kind_eqb_spec. Qed.
Lemma T_ate_if n k ty {A} (f : bool -> parser _ A) : ty <> EndOfStream ->
  T (n - 1) (k - 1) (f true) -> T n k (f false) -> T n k (pbind (unwrap (ate mch ty)) f).
Proof. apply T_eat_if. apply kind_eqb_spec. Qed.

Ltac hint := solve [eauto with wtdb].
Ltac tstep :=
  match goal with
  | |- T ?n ?k (pret _) => apply (T_weaken wfine n 0 n k); [apply T_pret | lia | lia]
  | |- T _ _ perr => apply T_perr
  | |- T _ _ (handled _) => apply T_handled
  | |- T _ _ (pbind (unwrap (ate _ _)) _) => apply T_ate_if; [first [assumption | discriminate] | |]; cbv iota
  | |- T _ _ (pbind (unwrap (pk _)) _) => eapply T_let; [apply T_pk | intros ?]
  | |- T _ _ (pbind (unwrap (exp _ _)) _) => eapply T_let; [apply T_exp; first [assumption | discriminate] | intros ?]
  | |- T _ _ (pbind (unwrap (nxt _)) _) =>
      apply T_nxt; [intros ? | intros ? ? ?; cbn; auto]
  | |- T _ _ (if ?b then _ else _) => destruct b
  | |- T _ _ (match ?x with _ => _ end) => destruct x
  | |- T _ _ (pbind (unwrap (match ?x with _ => _ end)) _) => destruct x
  | |- T _ _ (pbind (unwrap _) _) => eapply T_let; [hint | intros ?]
  | |- T ?n ?k _ => eapply (T_weaken wfine n _ n k); [hint | lia | lia]
  end.
Ltac total := repeat tstep.
Hint Extern 1 (_ <= _) => lia : wtdb.
Hint Extern 1 (_ <> _) => discriminate : wtdb.

Lemma T_id n : T n 1 (parse_id mch).
Proof. unfold parse_id. total. Qed.
Lemma T_integer n : T n 1 (parse_integer mch).
Proof. unfold parse_integer. total. Qed.
Hint Resolve T_id T_integer : wtdb.
Lemma T_version n : T n 1 (parse_version mch).
Proof. unfold parse_version. total. Qed.
Hint Resolve T_version : wtdb.
Lemma T_opt_version n (b : bool) :
  T n 0 (if b then (plet v := parse_version mch in pret (Some v)) else pret None).
Proof. total. Qed.
Hint Resolve T_opt_version : wtdb.
Lemma T_package n : T n 1 (parse_package mch).
Proof.
  unfold parse_package. apply T_handled. apply (T_let wfine n 1 0); [apply T_next; reflexivity|]. intros t.
  eapply T_let; [apply T_exp; discriminate|]. intros _. eapply T_let; [apply T_id|]. intros id.
  eapply T_let; [apply T_eat; [apply kind_eqb_spec | discriminate]|]. intros b.
  eapply T_let; [apply T_opt_version|]. intros v. total.
Qed.
Lemma T_path n ns : T n 0 (parse_path mch ns).
Proof.
  unfold parse_path, parse_optional_version. total. eapply (T_let _ _ _ 0); [apply T_perr|]. intros v. total.
Qed.
Hint Resolve T_package T_path : wtdb.
Lemma T_use_path n : T n 1 (parse_use_path mch).
Proof. unfold parse_use_path. total. Qed.
Hint Resolve T_use_path : wtdb.
Lemma T_opt_id n (b : bool) : T n 0 (if b then (plet i := parse_id mch in pret (Some i)) else pret None).
Proof. total. Qed.
Hint Resolve T_opt_id : wtdb.
Lemma T_top_use n : T n 1 (parse_top_use mch).
Proof.
  unfold parse_top_use. apply T_handled. eapply T_let; [apply T_use_path|]. intros p.
  eapply T_let; [apply T_eat; [apply kind_eqb_spec | discriminate]|]. intros b.
  eapply T_let; [apply T_opt_id | intros a]. total.
Qed.
Lemma T_items {A} k (p : parser _ A) : k <> EndOfStream -> forall n m, m <= n -> T m 0 p -> T m 1 (items_loop mch n k p).
Proof.
  intros Hk. induction n as [|n IH]; intros m Hm Hp; [replace m with 0 by lia; apply T_zero|]. cbn [items_loop].
  apply T_ate_if; [exact Hk | total |]. cbv iota. eapply T_let; [exact Hp|]. intros x.
  apply T_ate_if; [discriminate | | total]. cbv iota.
  eapply T_weaken; [apply (T_let wfine (m - 1) 1 1); [apply IH; [lia|] | intros xs; apply T_pret] | lia | lia].
  eapply T_weaken; [exact Hp | lia | lia].
Qed.
Lemma T_item_list {A} b k (p : parser _ A) n m : b <> EndOfStream -> k <> EndOfStream -> m <= n -> T m 0 p ->
  T m 1 (parse_item_list mch n b k p).
Proof.
  intros Hb Hk Hm Hp. unfold parse_item_list. apply T_handled.
  eapply T_weaken; [apply (T_let wfine m 2 1); [apply T_exp, Hb|]; intros _ | lia | lia].
  apply T_items; [exact Hk | lia |]. eapply T_weaken; [exact Hp | lia | lia].
Qed.
Lemma T_down n k {A} (p : parser _ A) : T n k p -> T n 0 p.
Proof. intros H. eapply T_weaken; [exact H | lia | lia]. Qed.
Lemma T_use_name n : T n 0 (parse_use_name mch).
Proof. unfold parse_use_name. total. Qed.
Hint Resolve T_item_list T_use_name : wtdb.
Lemma T_use n m : m <= n -> T m 1 (parse_use mch n).
Proof. intros H. unfold parse_use. total. Qed.
Hint Resolve T_top_use T_use : wtdb.

Section Types.
Variable pt : parser (stream toktype) wtype.
Variable n : nat.
Hypothesis Hpt : forall m, m <= n -> T m 0 pt.
Hint Resolve Hpt : wtdb.
Lemma T_two m : m <= n -> T m 0 (parse_two mch pt).
Proof.
  intros H. unfold parse_two. total; (eapply (T_let _ _ _ 0); [|intros r; total]); total.
Qed.
Hint Resolve T_two : wtdb.
Lemma T_type_body m : m <= S n -> T m 0 (type_body mch pt n).
Proof.
  intros H. unfold type_body. apply T_handled, T_nxt_any.
  - intros t. destruct (fst t); total; unfold parse_stream, parse_result, parse_future, parse_list, parse_option, parse_tuple;
      (eapply (T_let _ _ _ 0); [|intros ty; total]); apply T_handled; total.
  - intros _ w. cbn [fst]. apply T_pret.
Qed.
End Types.
Lemma T_type n : forall m, m <= n -> T m 0 (parse_type mch n).
Proof.
  induction n as [|n IH]; intros m Hm; [replace m with 0 by lia; apply T_zero|].
  cbn [parse_type]. apply T_type_body; assumption.
Qed.
Hint Resolve T_type : wtdb.
Lemma T_parameter n m : m <= n -> T m 1 (parse_parameter mch n).
Proof. intros H. unfold parse_parameter. total. Qed.
Lemma T_parameters_loop p : forall n m, m <= n -> T m 0 p -> T m 0 (parameters_loop mch n p).
Proof.
  induction n as [|n IH]; intros m Hm Hp; [replace m with 0 by lia; apply T_zero|]. cbn [parameters_loop].
  apply T_ate_if; [discriminate | total |]. cbv iota. eapply T_let; [exact Hp|]. intros x.
  eapply T_let; [apply T_pk|]. intros t. destruct (fst t); total.
  eapply (T_let _ _ _ 0); [apply IH; [lia|] | intros xs; total].
  eapply T_weaken; [exact Hp | lia | lia].
Qed.
Lemma T_parameters n m : m <= n -> T m 1 (parse_parameters mch n).
Proof.
  intros H. unfold parse_parameters. eapply T_let; [apply T_exp; discriminate|]. intros _.
  apply T_parameters_loop; [lia|]. eapply T_down, T_parameter. lia.
Qed.
Hint Resolve T_parameters : wtdb.
Lemma T_func n m : m <= n -> T m 1 (parse_func mch n).
Proof.
  intros H. unfold parse_func. apply T_handled. eapply T_let; [apply T_exp; discriminate|]. intros _.
  eapply T_let; [apply T_parameters; lia|]. intros ps.
  eapply T_let; [apply T_eat; [apply kind_eqb_spec | discriminate]|]. intros b.
  eapply (T_let _ _ _ 0); [|intros rs; total]. destruct b; total.
Qed.
Hint Resolve T_func : wtdb.
Lemma T_func_item n m : m <= n -> T m 1 (parse_func_item mch n).
Proof. intros H. unfold parse_func_item. total. Qed.
Lemma T_at_static n : T n 0 (at_static mch).
Proof. unfold at_static. apply T_trial. total. Qed.
Hint Resolve T_func_item T_at_static : wtdb.
Lemma T_method n m : m <= n -> T m 1 (parse_method mch n).
Proof. intros H. unfold parse_method. total. Qed.
Lemma T_methods_loop p : forall n m, m <= n -> T m 1 p -> T m 0 (methods_loop mch n p).
Proof.
  induction n as [|n IH]; intros m Hm Hp; [replace m with 0 by lia; apply T_zero|]. cbn [methods_loop].
  eapply T_let; [apply T_pk|]. intros t. destruct (kind_eqb _ _); total.
  eapply T_let; [eapply T_weaken; [exact Hp | lia | reflexivity]|]. intros x.
  eapply (T_let _ _ _ 0); [apply IH; [lia|] | intros xs; total].
  eapply T_weaken; [exact Hp | lia | lia].
Qed.
Lemma T_resource n m : m <= n -> T m 1 (parse_resource mch n).
Proof.
  intros H. unfold parse_resource. total;
    (eapply (T_let _ _ _ 0); [|intros ms; total]); total.
  apply T_methods_loop; [lia|]. apply T_method. lia.
Qed.
Lemma T_field n m : m <= n -> T m 0 (parse_field mch n).
Proof. intros H. unfold parse_field. total. Qed.
Lemma T_case n m : m <= n -> T m 0 (parse_case mch n).
Proof. intros H. unfold parse_case. total. Qed.
Lemma T_enum_case n : T n 0 (parse_enum_case mch).
Proof. unfold parse_enum_case. total. Qed.
Lemma T_flag n : T n 0 (plet i := parse_id mch in pret i).
Proof. total. Qed.
Hint Resolve T_resource T_field T_case T_enum_case T_flag : wtdb.
Lemma T_record n m : m <= n -> T m 1 (parse_record mch n).
Proof. intros H. unfold parse_record. total. Qed.
Lemma T_flags n m : m <= n -> T m 1 (parse_flags mch n).
Proof. intros H. unfold parse_flags. total. Qed.
Lemma T_variant n m : m <= n -> T m 1 (parse_variant mch n).
Proof. intros H. unfold parse_variant. total. Qed.
Lemma T_enum n m : m <= n -> T m 1 (parse_enum mch n).
Proof. intros H. unfold parse_enum. total. Qed.
Lemma T_type_item n m : m <= n -> T m 1 (parse_type_item mch n).
Proof. intros H. unfold parse_type_item. total. Qed.
Hint Resolve T_record T_flags T_variant T_enum T_type_item : wtdb.
Lemma T_type_def n m : m <= n -> T m 1 (parse_type_def mch n).
Proof. intros H. unfold parse_type_def. total. Qed.
Hint Resolve T_type_def : wtdb.
Lemma T_interface_item n m : m <= n -> T m 1 (parse_interface_item mch n).
Proof. intros H. unfold parse_interface_item. total. Qed.
Lemma T_until {A} k (p : parser _ A) : k <> EndOfStream -> forall n m, m <= n -> T m 1 p -> T m 0 (until_eat mch n k p).
Proof.
  intros Hk. induction n as [|n IH]; intros m Hm Hp; [replace m with 0 by lia; apply T_zero|]. cbn [until_eat].
  apply T_ate_if; [exact Hk | total |]. cbv iota. eapply T_let; [exact Hp|]. intros x.
  eapply (T_let _ _ _ 0); [apply IH; [lia|] | intros xs; total].
  eapply T_weaken; [exact Hp | lia | lia].
Qed.
Lemma T_interface_items n m : m <= n -> T m 0 (parse_interface_items mch n).
Proof. intros H. unfold parse_interface_items. total. apply T_until; [discriminate | lia | apply T_interface_item; lia]. Qed.
Hint Resolve T_interface_items : wtdb.
Lemma T_interface n m : m <= n -> T m 0 (parse_interface mch n).
Proof. intros H. unfold parse_interface. total. Qed.
Lemma T_at_extern n : T n 0 (at_extern mch).
Proof. unfold at_extern. apply T_trial. total. Qed.
Hint Resolve T_interface T_at_extern : wtdb.
Lemma T_extern n m : m <= n -> T m 0 (parse_extern mch n).
Proof. intros H. unfold parse_extern. total. Qed.
Hint Resolve T_extern : wtdb.
Lemma T_export n m : m <= n -> T m 1 (parse_export mch n).
Proof. intros H. unfold parse_export. total. Qed.
Lemma T_import n m : m <= n -> T m 1 (parse_import mch n).
Proof. intros H. unfold parse_import. total. Qed.
Lemma T_include_name n : T n 1 (parse_include_name mch).
Proof. unfold parse_include_name. total. Qed.
Hint Resolve T_export T_import T_include_name : wtdb.
Lemma T_include n m : m <= n -> T m 1 (parse_include mch n).
Proof.
  intros H. unfold parse_include. apply T_handled. eapply T_let; [apply T_exp; discriminate|]. intros _.
  eapply T_let; [apply T_use_path|]. intros p.
  eapply T_let; [apply T_eat; [apply kind_eqb_spec | discriminate]|]. intros b.
  eapply (T_let _ _ _ 0); [|intros rs; total]. destruct b; total.
  apply T_until; [discriminate | lia | apply T_include_name].
Qed.
Hint Resolve T_include : wtdb.
Lemma T_world_item n m : m <= n -> T m 1 (parse_world_item mch n).
Proof. intros H. unfold parse_world_item. total. Qed.
Lemma T_world n m : m <= n -> T m 0 (parse_world mch n).
Proof.
  intros H. unfold parse_world, parse_world_items. total. eapply (T_let _ _ _ 0); [|intros is; total].
  apply T_handled, T_until; [discriminate | lia | apply T_world_item; lia].
Qed.
Hint Resolve T_world : wtdb.
Lemma T_ast_item n k m : m <= n -> T m 0 (ast_item_after mch n k).
Proof. intros H. unfold ast_item_after. total. Qed.
Lemma T_ast_loop n : forall fuel m k, m < fuel -> m <= n -> T m 0 (ast_loop mch fuel n k).
Proof.
  induction fuel as [|fuel IH]; intros m k Hm Hn; [lia|].
  destruct (Nat.eq_dec m 0) as [->|Hz]; [apply T_zero|]. cbn [ast_loop]. destruct (kind_eqb _ _); [total|].
  eapply T_let; [apply T_ast_item; exact Hn|]. intros i. cbn. apply T_nxt_any.
  - intros t. eapply (T_let _ _ _ 0); [apply IH; lia | intros is; total].
  - intros _ w. eapply (T_let _ _ _ 0); [|intros is; total].
    destruct fuel as [|fuel]; [lia|]. cbn [ast_loop fst]. apply T_pret.
Qed.
Lemma T_ast n m : m < n -> T m 0 (parse_ast mch n).
Proof.
  intros H. unfold parse_ast. apply T_handled, T_nxt_any.
  - intros t. destruct (kind_eqb _ _).
    + eapply T_let; [apply T_package|]. intros p. cbn. apply T_nxt_any.
      * intros t'. eapply (T_let _ _ _ 0); [apply T_ast_loop; lia | intros is; total].
      * intros Hz w. eapply (T_let _ _ _ 0); [|intros is; total]. destruct n; [lia|]. cbn [ast_loop fst]. apply T_pret.
    + eapply (T_let _ _ _ 0); [apply T_ast_loop; lia | intros is; total].
  - intros Hz w. cbn [fst]. change (kind_eqb EndOfStream KPackage) with false. cbv iota.
    eapply (T_let _ _ _ 0); [|intros is; total]. destruct n; [lia|]. cbn [ast_loop fst]. apply T_pret.
Qed.
End Total.
