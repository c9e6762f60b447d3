(** The WAST parser over the machine: simulation, termination, and the
    spellings that it accepts. *)
From Coq Require Import Arith NArith ZArith String Ascii Bool List Lia.
From Verif Require Import GoBase M_Text M_WatLex M_ParseBase M_Strconv M_WatAst M_WatParse M_WastParse
  S_WatLex S_WatParse S_WastParse L_WatLex L_WatTokens L_WatNum L_ParseBase L_ParseTotal L_WatSim L_WatTotal L_WatLit
  L_WatSound L_WatComplete.
Import ListNotations.
Open Scope nat_scope.
Open Scope parse_scope.

(** ** Simulation *)
Section Sim.
Context {L : Type}.
Variable src : source L toktype.
Variable R : L -> stream toktype -> Prop.
Variable pf : text -> option N.
Hypothesis sim_next : sim R (s_next src) (m_next EndOfStream).
Hypothesis sim_peek : sim R (s_peek src) (m_peek EndOfStream).
Notation mch := (machine EndOfStream).

Ltac step :=
  match goal with
  | |- sim _ (pret _) (pret _) => apply sim_pret
  | |- sim _ perr perr => apply sim_perr
  | |- sim _ pdiverge pdiverge => apply sim_pdiverge
  | |- sim _ (handled _) (handled _) => apply sim_handled
  | |- sim _ (trial _) (trial _) => apply sim_trial
  | |- sim _ (unwrap _) (unwrap _) => apply sim_unwrap
  | |- sim _ (pbind _ _) (pbind _ _) => apply sim_pbind; [|intros ?]
  | |- sim _ (nxt _) (nxt _) => exact sim_next
  | |- sim _ (pk _) (pk _) => exact sim_peek
  | |- sim _ (exp _ _) (exp _ _) => apply (sim_expect _ _ _ _ sim_next)
  | |- sim _ (ate _ _) (ate _ _) => apply (sim_eat _ _ _ _ sim_next sim_peek)
  | |- sim _ (word _ _) (word _ _) => apply (sim_expect_value _ _ _ _ sim_next)
  | |- sim _ (while_eat _ _ _ _ _) (while_eat _ _ _ _ _) => apply (sim_while_eat _ _ _ _ sim_next sim_peek)
  | |- sim _ (closed _ _) (closed _ _) => apply (sim_closed _ _ sim_next)
  | |- sim _ (parse_string _) _ => apply (sim_string _ _ sim_next)
  | |- sim _ (parse_int32 _) _ => apply (sim_int32 _ _ sim_next)
  | |- sim _ (parse_int64 _) _ => apply (sim_int64 _ _ sim_next)
  | |- sim _ (parse_float32 _ _) _ => apply (sim_float32 _ _ _ sim_next)
  | |- sim _ (parse_float64 _ _) _ => apply (sim_float64 _ _ _ sim_next)
  | |- sim _ (parse_directive _ _ _) _ => apply (sim_directive _ _ _ sim_next sim_peek)
  | |- sim _ (if ?b then _ else _) (if ?b then _ else _) => apply sim_if
  | |- sim _ (match ?x with _ => _ end) (match ?x with _ => _ end) => destruct x
  end.
Ltac auto_sim := repeat (first [assumption | step]).

Lemma sim_const : sim R (parse_const src pf) (parse_const mch pf).
Proof. unfold parse_const, wast_peek_float, peek_integer. auto_sim. Qed.
Lemma sim_results n : sim R (results_loop src pf n) (results_loop mch pf n).
Proof. induction n; cbn [results_loop]; auto_sim; apply sim_const. Qed.
Lemma sim_action n : sim R (parse_action src pf n) (parse_action mch pf n).
Proof. unfold parse_action, parse_invoke, parse_consts. auto_sim; apply sim_const. Qed.
Lemma sim_quote_wat n : sim R (parse_quote_wat src pf n) (parse_quote_wat mch pf n).
Proof. unfold parse_quote_wat, parse_wat, at_quote. auto_sim. Qed.
Lemma sim_wdirective n : sim R (parse_wdirective src pf n) (parse_wdirective mch pf n).
Proof.
  unfold parse_wdirective, at_directive, parse_assert_return, parse_assert_invalid, parse_assert_malformed,
    parse_assert_trap, parse_results.
  auto_sim; first [apply sim_action | apply sim_quote_wat | apply sim_results].
Qed.
Lemma sim_wast n : sim R (parse_wast src pf n) (parse_wast mch pf n).
Proof.
  unfold parse_wast. apply sim_handled. induction n; cbn [wast_loop]; auto_sim. apply sim_wdirective.
Qed.
End Sim.

(** ** Termination *)
Section Total.
Variable pf : text -> option N.
Notation mch := (machine EndOfStream).
Notation T := (@T toktype fine).

Ltac hint := solve [eauto with tdb].
Ltac tstep :=
  match goal with
  | |- T ?n ?k (pret _) => apply (T_weaken fine n 0 n k); [apply T_pret | lia | lia]
  | |- T _ _ perr => apply T_perr
  | |- T _ _ (handled _) => apply T_handled
  | |- T _ _ (pbind (unwrap (ate _ _)) _) => apply T_ate_if; [discriminate | |]; cbv iota
  | |- T _ _ (pbind (unwrap (pk _)) _) => eapply T_let; [apply T_pk | intros ?]
  | |- T _ _ (pbind (unwrap (word _ _)) _) => eapply T_let; [apply T_word | intros ?]
  | |- T _ _ (pbind (unwrap (exp _ _)) _) => eapply T_let; [apply T_exp; discriminate | intros ?]
  | |- T _ _ (pbind (unwrap (nxt _)) _) =>
      apply T_nxt; [intros ? | intros ? ? ?; cbn; auto]
  | |- T _ _ (if ?b then _ else _) => destruct b
  | |- T _ _ (match ?x with _ => _ end) => destruct x
  | |- T _ _ (pbind (unwrap _) _) => eapply T_let; [hint | intros ?]
  | |- T ?n ?k _ => eapply (T_weaken fine n _ n k); [hint | lia | lia]
  end.
Ltac total := repeat tstep.
Hint Extern 1 (_ <= _) => lia : tdb.
Hint Resolve T_pret T_closed T_string T_int32 T_int64 T_float32 T_float64 T_directive : tdb.

Lemma T_peek_integer n : T n 0 (peek_integer mch).
Proof. unfold peek_integer. total. Qed.
Lemma T_wast_peek_float n : T n 0 (wast_peek_float mch).
Proof. unfold wast_peek_float. total. Qed.
Hint Resolve T_peek_integer T_wast_peek_float : tdb.
Lemma T_const n : T n 1 (parse_const mch pf).
Proof. unfold parse_const. total. Qed.
Hint Resolve T_const : tdb.
Lemma T_consts m n : n <= m -> T n 0 (parse_consts mch pf m).
Proof.
  intros H. unfold parse_consts. tstep. apply T_loop; [discriminate | lia|].
  eapply T_weaken; [apply T_closed, T_const | reflexivity | lia].
Qed.
Hint Resolve T_consts : tdb.
Lemma T_invoke m n : n <= m -> T n 1 (parse_invoke mch pf m).
Proof.
  intros H. unfold parse_invoke. tstep. tstep. eapply (T_let _ _ _ 0); [|intros ?; total].
  destruct (tok_eqb (fst a) TId); total.
Qed.
Hint Resolve T_invoke : tdb.
Lemma T_action m n : n <= m -> T n 1 (parse_action mch pf m).
Proof.
  intros H. unfold parse_action. tstep. tstep. tstep. tstep; [|total].
  eapply (T_let _ _ _ 0); [total | intros ?; total].
Qed.
Lemma T_results m : forall n, n <= m -> T n 0 (results_loop mch pf m).
Proof.
  induction m as [|m IH]; intros n Hn; [replace n with 0 by lia; apply T_zero|]. cbn [results_loop]. total.
Qed.
Lemma T_at_quote n : T n 0 (at_quote mch).
Proof.
  unfold at_quote. apply T_trial. tstep.
  assert (N : forall n (c : bool), T n 0 (plet t := nxt mch in
    pret (if tok_eqb (fst t) Reserved && text_eqb (snd t) (txt "quote") then Some c else None))).
  { intros k c. eapply T_let; [apply T_next; left; reflexivity | intros ?; total]. }
  apply T_ate_if; [discriminate | |]; cbv iota.
  - eapply (T_let _ _ _ 0); [total | intros ?; apply N].
  - eapply (T_let _ _ _ 0); [|intros ?; apply N]. total.
Qed.
Hint Resolve T_at_quote T_action T_results : tdb.
Lemma T_quote_wat m n : n <= m -> T n 1 (parse_quote_wat mch pf m).
Proof. intros H. unfold parse_quote_wat, parse_wat. total. Qed.
Hint Resolve T_quote_wat : tdb.
Lemma T_parse_results m n : n <= m -> T n 0 (parse_results mch pf m).
Proof. intros H. unfold parse_results. tstep. now apply T_results. Qed.
Hint Resolve T_parse_results : tdb.
Lemma T_at_directive n : T n 0 (at_directive mch).
Proof. unfold at_directive. apply T_trial. total. Qed.
Hint Resolve T_at_directive : tdb.
Lemma T_wdirective m n : n <= m -> T n 1 (parse_wdirective mch pf m).
Proof.
  intros H. unfold parse_wdirective, parse_assert_return, parse_assert_invalid, parse_assert_malformed,
    parse_assert_trap.
  tstep. tstep. tstep; [|total]. eapply (T_let _ _ _ 0); [|intros ?; total].
  destruct k; total.
Qed.
Lemma T_wast m n : n <= m -> T n 0 (parse_wast mch pf m).
Proof.
  intros H. unfold parse_wast. tstep. revert n H.
  induction m as [|m IH]; intros n Hn; [replace n with 0 by lia; apply T_zero|]. cbn [wast_loop].
  tstep. tstep; [total|]. eapply (T_let _ _ _ 1); [apply T_wdirective; lia | intros ?].
  eapply (T_let _ _ _ 0); [|intros ?; total]. eapply T_weaken; [apply (IH (n - 0 - 1)) | |]; lia.
Qed.
End Total.

(** ** Soundness *)
Section Sound.
Variable pf : text -> option N.
Notation mch := (machine EndOfStream).
Notation F := (model_floats pf).

Ltac step :=
  match goal with
  | H : handled _ _ = (Ok _, _) |- _ => apply (proj1 (handled_ok _ _ _ _)) in H
  | H : pbind (unwrap _) _ _ = (Ok _, _) |- _ =>
      let a := fresh "a" in let s := fresh "s" in let E := fresh "E" in
      apply (proj1 (plet_ok _ _ _ _ _)) in H; destruct H as (a & s & E & H)
  | H : pret _ _ = (Ok _, _) |- _ => apply (proj1 (pret_ok _ _ _ _)) in H; destruct H as [<- <-]
  | H : perr _ = (Ok _, _) |- _ => discriminate
  | H : pdiverge _ = (Ok _, _) |- _ => discriminate
  | E : word mch _ _ = (Ok _, _) |- _ =>
      apply word_inv in E; let ts := fresh "ts" in destruct E as (ts & -> & ->)
  | V : Forall valid ((Reserved, _) :: _) |- _ => apply valid_tail in V
  | V : Forall valid ((TId, _) :: _) |- _ => apply valid_tail in V
  | E : exp mch OpenParen _ = (Ok _, _), V : Forall valid _ |- _ =>
      apply exp_inv in E; [|discriminate]; let ts := fresh "ts" in let w := fresh "w" in
      destruct E as (w & ts & -> & ->); apply valid_lp in V; destruct V as [-> V]
  | E : exp mch CloseParen _ = (Ok _, _), V : Forall valid _ |- _ =>
      apply exp_inv in E; [|discriminate]; let ts := fresh "ts" in let w := fresh "w" in
      destruct E as (w & ts & -> & ->); apply valid_rp in V; destruct V as [-> V]
  | E : ate mch OpenParen _ = (Ok ?b, _), V : Forall valid _ |- _ =>
      apply ate_inv in E; [|discriminate]; let ts := fresh "ts" in let w := fresh "w" in
      destruct E as [(-> & w & ts & -> & ->)|(-> & ->)]; [apply valid_lp in V; destruct V as [-> V]|]
  | E : pk mch _ = (Ok ?t, _) |- _ =>
      apply pk_inv in E; let P := fresh "P" in destruct E as [-> P]
  | H : (if tok_eqb ?a ?b then _ else _) _ = (Ok _, _) |- _ =>
      let E := fresh "Et" in destruct (tok_eqb_spec a b) as [E|E]
  | H : (if text_eqb ?a ?b then _ else _) _ = (Ok _, _) |- _ =>
      let E := fresh "Ew" in destruct (text_eqb a b) eqn:E;
      [apply text_eqb_true in E | apply text_eqb_false in E]
  end.
Ltac steps := repeat (step; cbv beta iota in *).
Tactic Notation "use" uconstr(L) "as" ident(w) ident(r) ident(G) :=
  match goal with E : _ = (Ok _, _) |- _ =>
    let V := fresh "V" in
    apply L in E; [destruct E as (w & r & -> & -> & V & G) | assumption ..]
  end.
Ltac answer w r := exists w, r; split; [cbn [app]; repeat (rewrite <- app_assoc; cbn [app]); reflexivity |
  split; [reflexivity | split; [try assumption|]]].
(** Take the first statement of [H] apart: its result and its run. *)
Tactic Notation "bnd" hyp(H) ident(a) ident(E) :=
  let s := fresh "s" in
  apply (proj1 (plet_ok _ _ _ _ _)) in H; destruct H as (a & s & E & H); cbv beta in H.

Lemma sound_const : sound (a_const F) (parse_const mch pf).
Proof.
  intros ts e x s' V He H. unfold parse_const in H. step. apply nxt_inv in E. cbv beta in H. step; [|discriminate].
  destruct E as [(ts' & -> & ->)|(_ & E & _)]; [|congruence].
  destruct a as [k v]. cbn [fst snd] in *. subst k. apply valid_tail in V.
  steps; subst v.
  - use sound_int32 as w r G. inversion G as [t z (u & -> & Hl)]; subst. answer [kw "i32.const"; (TInteger, u)] r.
    constructor. now constructor.
  - use sound_int64 as w r G. inversion G as [t z (u & -> & Hl)]; subst. answer [kw "i64.const"; (TInteger, u)] r.
    constructor. now constructor.
  - unfold wast_peek_float in *. steps.
    + use (sound_float32 pf) as w r G. inversion G as [t z (u & -> & Hl)]; subst. answer [kw "f32.const"; (TFloat, u)] r.
      constructor. constructor. now constructor.
    + use sound_int32 as w r G. inversion G as [t z (u & -> & Hl)]; subst. answer [kw "f32.const"; (TInteger, u)] r.
      constructor. constructor. now apply f32_of_int.
  - unfold wast_peek_float, peek_integer in *. steps.
    + use (sound_float64 pf) as w r G. inversion G as [t z (u & b & -> & Hl & ->)]; subst.
      answer [kw "f64.const"; (TFloat, u)] r.
      constructor. constructor. now apply (f64_of_float F).
    + use sound_int64 as w r G. inversion G as [t z (u & -> & Hl)]; subst. answer [kw "f64.const"; (TInteger, u)] r.
      constructor. constructor. now apply f64_of_int.
    + answer [kw "f64.const"] ts'. constructor. constructor.
  - answer [kw "ref.null"] ts'. apply c_reference. now left.
  - answer [kw "ref.extern"] ts'. apply c_reference. now right.
Qed.

Lemma sound_invoke n : sound (fun w x => exists wn nm w' s wc cs, w = wn ++ w' ++ wc /\ opt_id wn nm /\ a_string w' s /\
  many (paren (a_const F)) wc cs /\ x = {| in_name := nm; in_string := s; in_consts := cs |}) (parse_invoke mch pf n).
Proof.
  intros ts e x s' V He H. unfold parse_invoke in H. step. step. apply pk_inv in E. destruct E as [-> P].
  cbv beta in H. step.
  assert (I : exists wn r, ts = wn ++ r /\ s = (r, e) /\ Forall valid r /\ opt_id wn a0).
  { clear H. destruct (tok_eqb_spec (fst a) TId) as [Et|Et].
    - step. apply exp_inv in E0; [|discriminate]. destruct E0 as (w & ts' & -> & ->). apply valid_tail in V.
      destruct P as [(ts'' & Ep)|Ep]; [|congruence]. injection Ep as <- _.
      step. answer [(TId, w)] ts'. constructor.
    - steps. answer (@nil tk) ts. constructor. }
  destruct I as (wn & r & -> & -> & V' & O). clear E. cbv beta in H. step. use sound_string as w0 r0 G. cbv beta in H.
  step. unfold parse_consts in *. step. use (sound_while _ _ n sound_const) as w1 r1 G1. steps.
  answer (wn ++ w0 ++ w1) r1. exists wn, a0, w0, a1, w1, a2. auto.
Qed.

Lemma sound_action n : sound (an_action F) (parse_action mch pf n).
Proof.
  intros ts e x s' V He H. unfold parse_action in H. step. bnd H a E. bnd H t E0. step. apply nxt_inv in E0.
  step; [|discriminate].
  destruct E0 as [(ts' & -> & ->)|(_ & E & _)]; [|congruence].
  destruct t as [k v]. cbn [fst snd] in *. subst k. apply valid_tail in V. bnd H i E.
  destruct (text_eqb v (txt "invoke")) eqn:Ei.
  - apply text_eqb_true in Ei. subst v. bnd E i0 E0. use (sound_invoke n) as w r G.
    destruct G as (wn & nm & w' & q & wc & cs & -> & O & S & M & ->). steps.
    answer (lp :: kw "invoke" :: (wn ++ w' ++ wc) ++ [rp]) ts. now constructor.
  - apply text_eqb_false in Ei. destruct (text_eqb v (txt "get")) eqn:Eg; [discriminate|]. apply text_eqb_false in Eg.
    steps. answer [lp; (Reserved, v); rp] ts. now constructor.
Qed.

Lemma sound_results n : sound (fun w x => exists rs, many (a_result F) w rs /\ x = concat rs) (results_loop mch pf n).
Proof.
  induction n as [|n IH]; intros ts e x s' V He H; cbn [results_loop] in H; [discriminate|].
  step. step.
  - step. use sound_const as w r G. inversion G as [w0 c Hc|w0 Hr]; subst.
    + steps. use IH as w1 r1 G1. destruct G1 as (rs & M & ->).
      answer ((lp :: w ++ [rp]) ++ w1) r1. exists ([c] :: rs). split; [|reflexivity]. constructor; [|exact M].
      constructor. now constructor.
    + use IH as w1 r1 G1. destruct G1 as (rs & M & ->).
      answer ((lp :: w) ++ w1) r1. exists ([] :: rs). split; [|reflexivity]. constructor; [|exact M]. now constructor.
  - steps. answer (@nil tk) ts. exists []. split; [constructor | reflexivity].
Qed.

Lemma at_quote_inv ts e o s' : Forall valid ts -> at_quote mch (ts, e) = (Ok o, s') ->
  match o with
  | Some c => exists ts', ts = lp :: (if c then (TComponent, txt "component") else (TModule, txt "module")) :: kw "quote" :: ts' /\
      s' = (ts', e) /\ Forall valid ts'
  | None => s' = (ts, e)
  end.
Proof.
  intros V H. apply trial_ok in H. destruct o as [c|]; [|exact H].
  bnd H a E. bnd H a0 E0. bnd H a1 E1. bnd H a2 E2. step. apply pret_ok in H. destruct H as [H <-].
  assert (I : exists ts', ts0 = (if a1 then (TComponent, txt "component") else (TModule, txt "module")) :: ts' /\
    s1 = (ts', e) /\ Forall valid ts').
  { clear E2 H. apply ate_inv in E0; [|discriminate]. destruct E0 as [(-> & w & ts' & -> & ->)|(-> & ->)].
    - step. inversion V as [|? ? V1 V2]; subst. exists ts'. cbn in V1. subst w. auto.
    - bnd E1 m E3. apply ate_inv in E3; [|discriminate]. destruct E3 as [(-> & w & ts' & -> & ->)|(-> & ->)].
      + step. inversion V as [|? ? V1 V2]; subst. exists ts'. cbn in V1. subst w. auto.
      + bnd E1 m2 E4. discriminate. }
  destruct I as (ts' & -> & -> & V'). apply nxt_inv in E2.
  destruct (tok_eqb_spec (fst a2) Reserved) as [Et|]; [|discriminate]. cbn [andb] in H.
  destruct (text_eqb (snd a2) (txt "quote")) eqn:Eq; [|discriminate]. apply text_eqb_true in Eq. injection H as ->.
  destruct E2 as [(ts'' & -> & ->)|(_ & E2 & _)]; [|congruence].
  destruct a2 as [k v]. cbn [fst snd] in *. subst. exists ts''. apply valid_tail in V'. auto.
Qed.

Lemma sound_quote_wat n : sound (a_quote_wat F) (parse_quote_wat mch pf n).
Proof.
  intros ts e x s' V He H. unfold parse_quote_wat, parse_wat in H. step. step. apply at_quote_inv in E; [|exact V].
  destruct a as [c|].
  - destruct E as (ts' & -> & -> & V'). clear V. step. use sound_string as w r G. steps.
    destruct c; [answer (lp :: (TComponent, txt "component") :: kw "quote" :: w ++ [rp]) ts |
                 answer (lp :: (TModule, txt "module") :: kw "quote" :: w ++ [rp]) ts]; now constructor.
  - subst s. step. use (sound_directive pf n) as w r G. steps. answer w r. now constructor.
Qed.

Lemma at_directive_inv ts e o s' : Forall valid ts -> at_directive mch (ts, e) = (Ok o, s') ->
  match o with
  | Some k => exists ts' t, ts = lp :: ts' /\ s' = (ts', e) /\ Forall valid ts' /\
      lookup kinds (snd t) = Some k /\ ((exists ts'', ts' = t :: ts'') \/ ts' = [])
  | None => s' = (ts, e)
  end.
Proof.
  intros V H. apply trial_ok in H. destruct o as [c|]; [|exact H].
  bnd H a E. bnd H a0 E0.
  apply exp_inv in E; [|discriminate]. destruct E as (w & ts0 & -> & ->). apply valid_lp in V. destruct V as [-> V].
  assert (P : s0 = (ts0, e) /\ ((exists ts'', ts0 = a0 :: ts'') \/ ts0 = [])).
  { destruct ts0; cbn in E0; [destruct e|]; inversion E0; subst; eauto. }
  clear E0. destruct P as [-> P].
  destruct (text_eqb (snd a0) (txt "module") || text_eqb (snd a0) (txt "component")); [discriminate|].
  destruct (lookup kinds (snd a0)) as [k|] eqn:E; [|discriminate].
  apply pret_ok in H. destruct H as [H <-]. injection H as ->. eauto 10.
Qed.

Lemma sound_wdirective n : sound (a_wdirective F) (parse_wdirective mch pf n).
Proof.
  intros ts e x s' V He H. unfold parse_wdirective in H. step. step. apply at_directive_inv in E; [|exact V].
  destruct a as [k|].
  - destruct E as (ts' & t & -> & -> & V' & K & P). clear V. step.
    destruct k.
    + unfold parse_assert_return, parse_results in E. apply (proj1 (handled_ok _ _ _ _)) in E.
      bnd E u E0. bnd E ac E1. bnd E rs' E2. apply word_inv in E0. destruct E0 as (q & -> & ->). apply valid_tail in V'.
      apply (proj1 (handled_ok _ _ _ _)) in E2. apply (proj1 (pret_ok _ _ _ _)) in E. destruct E as [<- <-].
      apply sound_action in E1; [|assumption..]. destruct E1 as (w & r & -> & -> & V1 & G).
      apply sound_results in E2; [|assumption..]. destruct E2 as (w0 & r0 & -> & -> & V2 & rs & M & ->).
      clear V' V1. steps. answer (lp :: kw "assert_return" :: (w ++ w0) ++ [rp]) ts. now constructor.
    + unfold parse_assert_invalid in E. apply (proj1 (handled_ok _ _ _ _)) in E.
      bnd E u E0. bnd E ac E1. bnd E rs' E2. apply word_inv in E0. destruct E0 as (q & -> & ->). apply valid_tail in V'.
      apply (proj1 (pret_ok _ _ _ _)) in E. destruct E as [<- <-].
      apply sound_quote_wat in E1; [|assumption..]. destruct E1 as (w & r & -> & -> & V1 & G).
      apply sound_string in E2; [|assumption..]. destruct E2 as (w0 & r0 & -> & -> & V2 & G2).
      clear V' V1. steps. answer (lp :: kw "assert_invalid" :: (w ++ w0) ++ [rp]) ts. now constructor.
    + unfold parse_assert_malformed in E. apply (proj1 (handled_ok _ _ _ _)) in E.
      bnd E u E0. bnd E ac E1. bnd E rs' E2. apply word_inv in E0. destruct E0 as (q & -> & ->). apply valid_tail in V'.
      apply (proj1 (pret_ok _ _ _ _)) in E. destruct E as [<- <-].
      apply sound_quote_wat in E1; [|assumption..]. destruct E1 as (w & r & -> & -> & V1 & G).
      apply sound_string in E2; [|assumption..]. destruct E2 as (w0 & r0 & -> & -> & V2 & G2).
      clear V' V1. steps. answer (lp :: kw "assert_malformed" :: (w ++ w0) ++ [rp]) ts. now constructor.
    + unfold parse_assert_trap in E. apply (proj1 (handled_ok _ _ _ _)) in E.
      bnd E u E0. bnd E ac E1. bnd E rs' E2.
      apply exp_inv in E0; [|discriminate]. destruct E0 as (v & q & -> & ->). apply valid_tail in V'.
      apply (proj1 (pret_ok _ _ _ _)) in E. destruct E as [<- <-].
      apply sound_action in E1; [|assumption..]. destruct E1 as (w & r & -> & -> & V1 & G).
      apply sound_string in E2; [|assumption..]. destruct E2 as (w0 & r0 & -> & -> & V2 & G2).
      clear V' V1. steps.
      assert (Hv : v = txt "assert_trap").
      { destruct P as [(q & P)|P]; [|discriminate].
        - injection P as <- _. cbn [snd] in K. apply lookup_in in K. cbn in K.
          repeat (destruct K as [K|K]; [first [discriminate K | injection K as <-; reflexivity]|]). contradiction. }
      subst v. answer (lp :: kw "assert_trap" :: (w ++ w0) ++ [rp]) ts. now constructor.
  - subst s. step. use (sound_quote_wat n) as w r G. steps. answer w r. now constructor.
Qed.
End Sound.

Section Complete.
Variable pf : text -> option N.
Notation mch := (machine EndOfStream).
Notation F := (model_floats pf).

Ltac len := cbn [length app] in *; repeat (rewrite app_length in *; cbn [length] in * ); lia.
Ltac bind := eapply plet_run; [|cbv beta].
Ltac peek := eapply plet_run; [apply pk_run | cbv beta; cbn [fst snd]].
Ltac take := eapply plet_run; [apply nxt_run | cbv beta; cbn [fst snd]].
Ltac wd := eapply plet_run; [apply word_run | cbv beta].
Ltac flat := cbn [app]; repeat (rewrite <- app_assoc; cbn [app]).

Lemma wast_float_run t rest e : wast_peek_float mch (t :: rest, e) = (Ok (tok_eqb (fst t) TFloat), (t :: rest, e)).
Proof. unfold wast_peek_float. apply handled_run. peek. reflexivity. Qed.
Lemma peek_integer_run t rest e : peek_integer mch (t :: rest, e) = (Ok (tok_eqb (fst t) TInteger), (t :: rest, e)).
Proof. unfold peek_integer. apply handled_run. peek. reflexivity. Qed.

Lemma number_run w c rest e : a_number F w c -> Forall valid w ->
  parse_const mch pf (w ++ rp :: rest, e) = (Ok (Some c), (rp :: rest, e)).
Proof.
  intros H V. unfold parse_const. destruct H as [w z H|w z H|t b H|t b H|]; cbn [app]; take.
  - apply valid_tail in V. inversion V; subst. bind; [apply int32_run; eassumption | reflexivity].
  - apply valid_tail in V. inversion V; subst. bind; [apply int64_run; eassumption | reflexivity].
  - apply valid_tail in V. inversion V; subst. destruct H as [w b H|w z H];
      (bind; [apply wast_float_run|]); cbv iota; cbn [tok_eqb fst].
    + bind; [apply float32_run; eassumption | reflexivity].
    + bind; [apply int32_run; eassumption | reflexivity].
  - apply valid_tail in V. inversion V; subst. destruct H as [w b H|w z H];
      (bind; [apply wast_float_run|]); cbv iota; cbn [tok_eqb fst].
    + bind; [apply float64_run; eassumption | reflexivity].
    + bind; [apply peek_integer_run|]. cbn [tok_eqb fst]. bind; [apply int64_run; eassumption | reflexivity].
  - bind; [apply wast_float_run|]. cbn [tok_eqb fst rp]. cbv iota. bind; [apply peek_integer_run|]. reflexivity.
Qed.
Lemma reference_run w rest e : a_reference w -> parse_const mch pf (w ++ rest, e) = (Ok None, (rest, e)).
Proof. intros [->| ->]; unfold parse_const; cbn [app]; take; reflexivity. Qed.
Lemma const_run w c rest e : a_const F w c -> Forall valid w ->
  parse_const mch pf (w ++ rp :: rest, e) = (Ok c, (rp :: rest, e)).
Proof. intros [w' c' H|w' H] V; [now apply number_run | now apply reference_run]. Qed.

Lemma string_head w s : a_string w s -> exists v, w = [(TString, v)].
Proof. intros []. eexists. reflexivity. Qed.

Lemma action_run n w x rest e : an_action F w x -> Forall valid w -> length (w ++ rest) < n ->
  parse_action mch pf n (w ++ rest, e) = (Ok x, (rest, e)).
Proof.
  intros H V Hl. unfold parse_action. apply handled_run. destruct H as [wn nm w s wc cs Hn Hs Hc|w H1 H2]; flat.
  - bind; [apply (exp_run OpenParen (txt "("))|]. take. apply valid_tail, valid_tail in V. apply Forall_app in V.
    destruct V as [V _]. apply valid_app3 in V. destruct V as (V1 & V2 & V3).
    destruct (string_head _ _ Hs) as (v & Ev).
    bind; [bind; [unfold parse_invoke; apply handled_run | reflexivity]|bind; [apply rp_run | reflexivity]].
    assert (E : exists t r, wn ++ w ++ wc ++ rp :: rest = t :: r /\
      (fst t = TId /\ wn = [t] /\ nm = Some (snd t) \/ fst t <> TId /\ wn = [] /\ nm = None)).
    { destruct Hn; cbn [app]; [rewrite Ev; eexists _, _; split; [reflexivity|]; right; repeat split; discriminate|].
      eexists _, _. split; [reflexivity|]. left. auto. }
    destruct E as (t & r & E & D). rewrite E. peek.
    bind; [instantiate (1 := (w ++ wc ++ rp :: rest, e)); instantiate (1 := nm)|].
    { destruct D as [(D & -> & ->)|(D & -> & ->)].
      - rewrite D, tok_eqb_refl. cbn [app] in E. injection E as <-. destruct t as [k u]. cbn in D. subst k.
        bind; [apply exp_run | reflexivity].
      - rewrite tok_eqb_neq by exact D. cbn [app] in E. rewrite E. reflexivity. }
    bind; [apply string_run, Hs|].
    bind; [unfold parse_consts; apply handled_run;
      apply (while_run (a_const F) (parse_const mch pf) n); [|exact Hc | exact V3 | apply stop_open, rp_stop | len | len]|].
    + intros. now apply const_run.
    + reflexivity.
  - bind; [apply (exp_run OpenParen (txt "("))|]. take. apply text_eqb_false in H1, H2. rewrite H1, H2.
    bind; [reflexivity|]. bind; [apply rp_run | reflexivity].
Qed.

Lemma results_run n : forall w rs rest e, many (a_result F) w rs -> Forall valid w -> length (w ++ rest) < n -> no_open rest ->
  results_loop mch pf n (w ++ rest, e) = (Ok (concat rs), (rest, e)).
Proof.
  induction n as [|n IH]; intros w rs rest e H V Hl Hr; [lia|]. cbn [results_loop].
  destruct H as [|w ws x xs H H'].
  - bind; [apply ate_skip, Hr | reflexivity].
  - apply Forall_app in V. destruct V as [V1 V2]. destruct H as [w c [w' c' H]|w H].
    + flat. bind; [apply lp_run|]. cbv iota. apply valid_tail, Forall_app in V1. destruct V1 as [V1 _].
      bind; [apply number_run; [exact H | exact V1]|]. cbv iota. bind; [apply rp_run|].
      bind; [apply IH; [exact H' | exact V2 | len | exact Hr] | reflexivity].
    + flat. bind; [apply lp_run|]. cbv iota. bind; [apply reference_run, H|]. cbv iota.
      change (concat ([] :: xs)) with (concat xs). apply IH; [exact H' | exact V2 | len | exact Hr].
Qed.

Lemma ate_other k t ts e : fst t <> k -> ate mch k (t :: ts, e) = (Ok false, (t :: ts, e)).
Proof. intros H. apply eat_skip; [apply tok_eqb_spec | exact H]. Qed.
Lemma ate_this k w ts e : ate mch k ((k, w) :: ts, e) = (Ok true, (ts, e)).
Proof. apply eat_run. apply tok_eqb_spec. Qed.

(** The word quote is not the third word of a module or component. *)
Lemma directive_third w d : a_directive F w d -> exists c t w',
  w = lp :: (if (c : bool) then (TComponent, txt "component") else (TModule, txt "module")) :: t :: w' /\ fst t <> Reserved.
Proof.
  intros [ws ss H|].
  - exists false. destruct H as [|v ws x xs [v' x' H] H']; eexists _, _; (split; [reflexivity|discriminate]).
  - exists true. eexists _, _. split; [reflexivity | discriminate].
Qed.

Lemma trial_none {L A} (p : parser L (option A)) l l' : p l = (Ok None, l') -> trial p l = (Ok None, l).
Proof. intros H. unfold trial. now rewrite H. Qed.
Lemma trial_some {L A} (p : parser L (option A)) l l' a : p l = (Ok (Some a), l') -> trial p l = (Ok (Some a), l').
Proof. intros H. unfold trial. now rewrite H. Qed.

Notation opener c := (if (c : bool) then (TComponent, txt "component") else (TModule, txt "module")) (only parsing).
Lemma at_quote_run (c : bool) t rest e :
  at_quote mch (lp :: opener c :: t :: rest, e) =
  (if tok_eqb (fst t) Reserved && text_eqb (snd t) (txt "quote") then (Ok (Some c), (rest, e))
   else (Ok None, (lp :: opener c :: t :: rest, e))).
Proof.
  unfold at_quote. set (b := tok_eqb (fst t) Reserved && text_eqb (snd t) (txt "quote")).
  match goal with |- trial ?p ?s = _ =>
    assert (H : p s = (Ok (if b then Some c else None), (rest, e))) end.
  { bind; [apply (exp_run OpenParen (txt "("))|].
    destruct c.
    - bind; [apply ate_this|]. cbv iota. bind; [reflexivity|]. take. reflexivity.
    - bind; [apply ate_other; discriminate|]. cbv iota. bind; [bind; [apply ate_this | reflexivity]|]. take. reflexivity. }
  destruct b; [eapply trial_some | eapply trial_none]; exact H.
Qed.

Lemma quote_wat_run n w q rest e : a_quote_wat F w q -> Forall valid w -> length (w ++ rest) < n ->
  parse_quote_wat mch pf n (w ++ rest, e) = (Ok q, (rest, e)).
Proof.
  intros H V Hl. unfold parse_quote_wat. apply handled_run. destruct H as [w d H|w s H|w s H].
  - destruct (directive_third w d H) as (c & t & w' & E & Ht).
    bind; [rewrite E; cbn [app]; rewrite at_quote_run, tok_eqb_neq by exact Ht; reflexivity|]. cbv iota.
    bind; [|reflexivity]. unfold parse_wat. rewrite E in *. exact (directive_run pf n _ d rest e H V Hl).
  - flat. bind; [exact (at_quote_run false (kw "quote") (w ++ rp :: rest) e)|]. cbv iota. bind; [apply string_run, H|].
    bind; [apply rp_run | reflexivity].
  - flat. bind; [exact (at_quote_run true (kw "quote") (w ++ rp :: rest) e)|]. cbv iota. bind; [apply string_run, H|].
    bind; [apply rp_run | reflexivity].
Qed.

Lemma quote_wat_head w q : a_quote_wat F w q -> exists (c : bool) w', w = lp :: opener c :: w'.
Proof.
  intros [w' d H|w' s H|w' s H].
  - destruct (directive_third _ _ H) as (c & t & w2 & E & _). eauto.
  - exists false. eauto.
  - exists true. eauto.
Qed.

Lemma at_directive_run k v ts e : v <> txt "module" -> v <> txt "component" -> lookup kinds v = Some k ->
  at_directive mch (lp :: (Reserved, v) :: ts, e) = (Ok (Some k), ((Reserved, v) :: ts, e)).
Proof.
  intros H1 H2 H. apply trial_some with (l' := ((Reserved, v) :: ts, e)).
  bind; [apply (exp_run OpenParen (txt "("))|]. peek. apply text_eqb_false in H1, H2. rewrite H1, H2, H. reflexivity.
Qed.
Lemma at_directive_wat (c : bool) ts e :
  at_directive mch (lp :: opener c :: ts, e) = (Ok None, (lp :: opener c :: ts, e)).
Proof.
  destruct c; (eapply trial_none; bind; [apply (exp_run OpenParen (txt "("))|]; peek; reflexivity).
Qed.

Lemma wdirective_run n w d rest e : a_wdirective F w d -> Forall valid w -> length (w ++ rest) < n ->
  parse_wdirective mch pf n (w ++ rest, e) = (Ok d, (rest, e)).
Proof.
  intros H V Hl. unfold parse_wdirective. apply handled_run.
  destruct H as [w q H|wa a wr rs Ha Hr|wa a ws s Ha Hs|wq q ws s Hq Hs|wq q ws s Hq Hs].
  - destruct (quote_wat_head w q H) as (c & w' & E).
    bind; [rewrite E; cbn [app]; apply at_directive_wat|]. cbv iota.
    bind; [|reflexivity]. rewrite E in *. exact (quote_wat_run n _ _ rest e H V Hl).
  - flat. bind; [apply (at_directive_run KReturn); [discriminate | discriminate | reflexivity]|]. cbv iota.
    apply valid_tail, valid_tail, Forall_app in V. destruct V as [V _]. apply Forall_app in V. destruct V as [V1 V2].
    bind; [|bind; [apply rp_run | reflexivity]]. unfold parse_assert_return. apply handled_run. wd.
    bind; [apply action_run; [exact Ha | exact V1 | len]|].
    bind; [unfold parse_results; apply handled_run, results_run; [exact Hr | exact V2 | len | apply stop_open, rp_stop]|].
    reflexivity.
  - flat. bind; [apply (at_directive_run KTrap); [discriminate | discriminate | reflexivity]|]. cbv iota.
    apply valid_tail, valid_tail, Forall_app in V. destruct V as [V _]. apply Forall_app in V. destruct V as [V1 V2].
    bind; [|bind; [apply rp_run | reflexivity]]. unfold parse_assert_trap. apply handled_run.
    bind; [apply exp_run|].
    bind; [apply action_run; [exact Ha | exact V1 | len]|].
    bind; [apply string_run, Hs | reflexivity].
  - flat. bind; [apply (at_directive_run KInvalid); [discriminate | discriminate | reflexivity]|]. cbv iota.
    apply valid_tail, valid_tail, Forall_app in V. destruct V as [V _]. apply Forall_app in V. destruct V as [V1 V2].
    bind; [|bind; [apply rp_run | reflexivity]]. unfold parse_assert_invalid. apply handled_run. wd.
    bind; [apply quote_wat_run; [exact Hq | exact V1 | len]|].
    bind; [apply string_run, Hs | reflexivity].
  - flat. bind; [apply (at_directive_run KMalformed); [discriminate | discriminate | reflexivity]|]. cbv iota.
    apply valid_tail, valid_tail, Forall_app in V. destruct V as [V _]. apply Forall_app in V. destruct V as [V1 V2].
    bind; [|bind; [apply rp_run | reflexivity]]. unfold parse_assert_malformed. apply handled_run. wd.
    bind; [apply quote_wat_run; [exact Hq | exact V1 | len]|].
    bind; [apply string_run, Hs | reflexivity].
Qed.

Lemma wdirective_head w d : a_wdirective F w d -> exists w', w = lp :: w'.
Proof.
  intros [w' q H| | | |]; eauto. destruct (quote_wat_head _ _ H) as (c & w2 & ->). eauto.
Qed.

Theorem wast_run n : forall w ds e, a_script F w ds -> Forall valid w -> length w < n ->
  wast_loop mch pf n (w, Ends e) = (Ok ds, ([], Ends e)).
Proof.
  induction n as [|n IH]; intros w ds e H V Hl; [lia|]. cbn [wast_loop].
  destruct H as [|w ws d ds H H'].
  - bind; [reflexivity|]. reflexivity.
  - apply Forall_app in V. destruct V as [V1 V2]. destruct (wdirective_head w d H) as (w' & E).
    bind; [rewrite E; cbn [app]; apply pk_run|]. cbn [fst tok_eqb lp].
    bind; [|bind; [apply IH; [exact H' | exact V2 |]|reflexivity]].
    + rewrite E in *. exact (wdirective_run (S n) (lp :: w') d ws (Ends e) H V1 Hl).
    + rewrite E in Hl. len.
Qed.
End Complete.

Theorem sound_wast pf n : forall ts e ds s', Forall valid ts -> fine e ->
  wast_loop (machine EndOfStream) pf n (ts, e) = (Ok ds, s') -> e <> Fails /\ a_script (model_floats pf) ts ds.
Proof.
  induction n as [|n IH]; intros ts e ds s' V He H; cbn [wast_loop] in H; [discriminate|].
  apply (proj1 (plet_ok _ _ _ _ _)) in H. destruct H as (t & s & E & H). cbv beta in H.
  destruct ts as [|u ts].
  - destruct e as [w|]; [|discriminate]. injection E as <- <-. cbn in H. injection H as <- _.
    split; [discriminate | constructor].
  - injection E as <- <-. destruct (tok_eqb_spec (fst u) EndOfStream) as [Eu|Eu].
    + inversion V as [|? ? V1 _]; subst. unfold valid in V1. rewrite Eu in V1. destruct V1.
    + apply (proj1 (plet_ok _ _ _ _ _)) in H. destruct H as (d & s & E & H). cbv beta in H.
      apply (proj1 (plet_ok _ _ _ _ _)) in H. destruct H as (ds' & s2 & E2 & H). cbv beta in H.
      apply (proj1 (pret_ok _ _ _ _)) in H. destruct H as [<- <-].
      destruct (sound_wdirective pf _ _ _ _ _ V He E) as (w & r & -> & -> & Vr & G).
      destruct (IH r e ds' s2 Vr He E2) as [Hf Hs]. split; [exact Hf | now constructor].
Qed.
