(** The WAT parser over the machine: what it accepts is spelled as the grammar
    says. *)
From Coq Require Import Arith NArith ZArith String Ascii Bool List Lia.
From Verif Require Import GoBase M_Text M_WatLex M_ParseBase M_Strconv M_WatAst M_WatParse S_WatLex S_WatParse
  L_WatLex L_WatTokens L_WatNum L_ParseBase L_WatSim L_WatTotal L_WatLit.
Import ListNotations.
Open Scope nat_scope.
Open Scope parse_scope.

(** ** Tokens *)

Definition valid (t : tk) : Prop := token_text (fst t) (snd t).

Lemma word_type ty c r : is_id_char c = true -> c <> "$"%char -> token_text ty (c :: r) ->
  classify Reserved (c :: r) = ty.
Proof.
  intros Hc Hd H.
  assert (forall d, is_id_char d = false -> c <> d) as D by (intros d Hd' ->; congruence).
  destruct ty; cbn in H; try tauto.
  - destruct H as (b & E & _). injection E as -> _. specialize (D ";"%char eq_refl). congruence.
  - destruct H as (b & E & _). injection E as -> _. specialize (D "("%char eq_refl). congruence.
  - destruct H as [_ H]. inversion H as [|? ? Hs _]; subst. exfalso.
    apply id_char_ok in Hc. unfold space in Hs. destruct Hc as [Hc _]. cbn in Hs. lia.
  - injection H as -> _. specialize (D "("%char eq_refl). congruence.
  - injection H as -> _. specialize (D ")"%char eq_refl). congruence.
  - destruct H as (b & E & _). injection E as -> _. specialize (D quote eq_refl). congruence.
  - destruct H as (b & E & _). injection E as -> _. congruence.
  - eapply word_classify; [exact I | exact H].
  - eapply word_classify; [exact I | exact H].
  - eapply word_classify; [exact I | exact H].
  - rewrite H. reflexivity.
  - rewrite H. reflexivity.
Qed.

Section Sound.
Variable pf : text -> option N.
Notation mch := (machine EndOfStream).
Notation F := (model_floats pf).

(** On valid tokens [p] takes a spelling of its result and leaves the rest. *)
Definition sound {A} (G : spelling A) (p : parser (stream toktype) A) : Prop :=
  forall ts e x s', Forall valid ts -> fine e -> p (ts, e) = (Ok x, s') ->
  exists w rest, ts = w ++ rest /\ s' = (rest, e) /\ Forall valid rest /\ G w x.

Lemma nxt_inv ts e t s' : nxt mch (ts, e) = (Ok t, s') ->
  (exists ts', ts = t :: ts' /\ s' = (ts', e)) \/ ts = [] /\ fst t = EndOfStream /\ e = Ends (snd t).
Proof.
  intros H. change (m_next EndOfStream (ts, e) = (Ok t, s')) in H. apply m_next_ok in H. destruct H as [(ts' & e' & E & ->)|(w & E & -> & ->)].
  - injection E as -> ->. left. eauto.
  - injection E as -> ->. right. auto.
Qed.
Lemma pk_inv ts e t s' : pk mch (ts, e) = (Ok t, s') ->
  s' = (ts, e) /\ ((exists ts', ts = t :: ts') \/ fst t = EndOfStream).
Proof.
  destruct ts as [|x ts]; cbn; [destruct e|]; intros H; inversion H; subst; split; eauto.
Qed.
Lemma word_inv w ts e u s' : word mch w (ts, e) = (Ok u, s') -> exists ts', ts = (Reserved, w) :: ts' /\ s' = (ts', e).
Proof.
  intros H. apply (expect_value_ok EndOfStream tok_eqb tok_eqb_spec) in H; [|discriminate].
  destruct H as (ts' & e' & E & ->). injection E as -> ->. eauto.
Qed.
Lemma exp_inv k ts e u s' : k <> EndOfStream -> exp mch k (ts, e) = (Ok u, s') ->
  exists w ts', ts = (k, w) :: ts' /\ s' = (ts', e).
Proof.
  intros Hk H. apply (expect_ok EndOfStream tok_eqb tok_eqb_spec) in H; [|exact Hk].
  destruct H as (w & ts' & e' & E & ->). injection E as -> ->. eauto.
Qed.
Lemma ate_inv k ts e b s' : k <> EndOfStream -> ate mch k (ts, e) = (Ok b, s') ->
  (b = true /\ exists w ts', ts = (k, w) :: ts' /\ s' = (ts', e)) \/ (b = false /\ s' = (ts, e)).
Proof.
  intros Hk H. apply (eat_ok EndOfStream tok_eqb tok_eqb_spec) in H; [|exact Hk].
  destruct H as [(-> & w & ts' & e' & E & ->)|(-> & -> & _)]; [|auto]. injection E as -> ->. left. eauto.
Qed.

Lemma valid_lp w ts : Forall valid ((OpenParen, w) :: ts) -> w = txt "(" /\ Forall valid ts.
Proof. intros H. inversion H as [|? ? V ?]; subst. split; assumption. Qed.
Lemma valid_rp w ts : Forall valid ((CloseParen, w) :: ts) -> w = txt ")" /\ Forall valid ts.
Proof. intros H. inversion H as [|? ? V ?]; subst. split; assumption. Qed.
Lemma valid_tail t ts : Forall valid (t :: ts) -> Forall valid ts.
Proof. intros H. inversion H; assumption. Qed.

(** Steps of a proof of [sound]: take the run apart. *)
Ltac step :=
  match goal with
  | H : handled _ _ = (Ok _, _) |- _ => apply (proj1 (handled_ok _ _ _ _)) in H
  | H : pbind (unwrap _) _ _ = (Ok _, _) |- _ =>
      let a := fresh "a" in let s := fresh "s" in let E := fresh "E" in
      apply (proj1 (plet_ok _ _ _ _ _)) in H; destruct H as (a & s & E & H)
  | H : pret _ _ = (Ok _, _) |- _ => apply (proj1 (pret_ok _ _ _ _)) in H; destruct H as [<- <-]
  | H : perr _ = (Ok _, _) |- _ => discriminate
  | H : pdiverge _ = (Ok _, _) |- _ => discriminate
  | H : of_option ?o _ = (Ok _, _) |- _ =>
      let E := fresh "E" in destruct o eqn:E; cbn [of_option] in H
  | E : word mch _ _ = (Ok _, _) |- _ =>
      apply word_inv in E; let ts := fresh "ts" in destruct E as (ts & -> & ->)
  | V : Forall valid ((Reserved, _) :: _) |- _ => apply valid_tail in V
  | V : Forall valid ((TId, _) :: _) |- _ => apply valid_tail in V
  | E : exp mch OpenParen _ = (Ok _, _), V : Forall valid _ |- _ =>
      apply exp_inv in E; [|discriminate]; let ts := fresh "ts" in let w := fresh "w" in
      destruct E as (w & ts & -> & ->); apply valid_lp in V; destruct V as [-> V]
  | E : exp mch CloseParen _ = (Ok _, _), V : Forall valid _ |- _ =>
      apply exp_inv in E; [|discriminate]; let ts := fresh "ts" in let w := fresh "w" in
      destruct E as (w & ts & -> & ->); apply valid_rp in V; destruct V as [-> V]
  | E : ate mch OpenParen _ = (Ok ?b, _), V : Forall valid _ |- _ =>
      apply ate_inv in E; [|discriminate]; let ts := fresh "ts" in let w := fresh "w" in
      destruct E as [(-> & w & ts & -> & ->)|(-> & ->)]; [apply valid_lp in V; destruct V as [-> V]|]
  | E : pk mch _ = (Ok ?t, _) |- _ =>
      apply pk_inv in E; let P := fresh "P" in destruct E as [-> P]
  | H : (if tok_eqb ?a ?b then _ else _) _ = (Ok _, _) |- _ =>
      let E := fresh "Et" in destruct (tok_eqb_spec a b) as [E|E]
  | H : (if text_eqb ?a ?b then _ else _) _ = (Ok _, _) |- _ =>
      let E := fresh "Ew" in destruct (text_eqb a b) eqn:E;
      [apply text_eqb_true in E | apply text_eqb_false in E]
  end.
Ltac steps := repeat (step; cbv beta iota in *).
(** Use a lemma of the form [sound G p] on the first run that fits. *)
Tactic Notation "use" uconstr(L) "as" ident(w) ident(r) ident(G) :=
  match goal with E : _ = (Ok _, _) |- _ =>
    let V := fresh "V" in
    apply L in E; [destruct E as (w & r & -> & -> & V & G) | assumption ..]
  end.
Ltac answer w r := exists w, r; split; [cbn [app]; repeat (rewrite <- app_assoc; cbn [app]); reflexivity |
  split; [reflexivity | split; [try assumption|]]].

Lemma sound_id : sound (single (fun t x => t = (TId, x))) (parse_id mch).
Proof.
  intros ts e x s' V He H. unfold parse_id in H. steps.
  apply nxt_inv in E. destruct E as [(ts' & -> & ->)|(_ & E & _)]; [|congruence].
  answer [a] ts'; [eapply valid_tail, V|]. constructor. destruct a as [k w]. cbn [fst snd] in *. congruence.
Qed.

Lemma sound_optional_id : sound opt_id (parse_optional_id mch).
Proof.
  intros ts e x s' V He H. unfold parse_optional_id in H. steps.
  - use sound_id as w r G. inversion G; subst. answer [(TId, a0)] r. constructor.
  - answer (@nil tk) ts. constructor.
Qed.

Lemma trim_left_no c w : ~ In c w -> trim_left c w = w.
Proof.
  destruct w as [|x w]; intros H; [reflexivity|]. cbn.
  destruct (Ascii.eqb_spec x c) as [->|]; [exfalso; apply H; left; reflexivity | reflexivity].
Qed.
Lemma trim_quoted w : ~ In quote w -> trim quote ([quote] ++ w ++ [quote]) = w.
Proof.
  intros H. unfold trim. cbn [app trim_left]. rewrite Ascii.eqb_refl.
  destruct w as [|x w].
  - cbn. reflexivity.
  - replace (trim_left quote ((x :: w) ++ [quote])) with ((x :: w) ++ [quote]).
    + rewrite rev_app_distr. cbn [rev app trim_left]. rewrite Ascii.eqb_refl.
      change (rev w ++ [x]) with (rev (x :: w)). rewrite trim_left_no.
      * apply rev_involutive.
      * rewrite <- in_rev. exact H.
    + cbn [app trim_left]. destruct (Ascii.eqb_spec x quote) as [->|]; [exfalso; apply H; left; reflexivity | reflexivity].
Qed.

Lemma sound_string : sound a_string (parse_string mch).
Proof.
  intros ts e x s' V He H. unfold parse_string in H. steps.
  apply nxt_inv in E. destruct E as [(ts' & -> & ->)|(_ & E & _)]; [|congruence].
  destruct a as [k w]. cbn [fst snd] in *. subst k. inversion V as [|? ? V1 V2]; subst.
  change (string_text w) in V1. destruct V1 as (b & -> & Hb).
  answer [(TString, [quote] ++ b ++ [quote])] ts'. rewrite trim_quoted by exact Hb. constructor. exact Hb.
Qed.

Lemma sound_int32 : sound (single (fun t z => exists w, t = (TInteger, w) /\ i32_literal w z)) (parse_int32 mch).
Proof.
  intros ts e x s' V He H. unfold parse_int32 in H. steps.
  apply nxt_inv in E. destruct E as [(ts' & -> & ->)|(_ & E & _)]; [|congruence].
  destruct a as [k w]. cbn [fst snd] in *. subst k. inversion V as [|? ? V1 V2]; subst.
  answer [(TInteger, w)] ts'. constructor. exists w. split; [reflexivity|].
  apply int32_literal_spec; assumption.
Qed.
Lemma sound_int64 : sound (single (fun t z => exists w, t = (TInteger, w) /\ i64_literal w z)) (parse_int64 mch).
Proof.
  intros ts e x s' V He H. unfold parse_int64 in H. steps.
  apply nxt_inv in E. destruct E as [(ts' & -> & ->)|(_ & E & _)]; [|congruence].
  destruct a as [k w]. cbn [fst snd] in *. subst k. inversion V as [|? ? V1 V2]; subst.
  answer [(TInteger, w)] ts'. constructor. exists w. split; [reflexivity|].
  apply int64_literal_spec; assumption.
Qed.
Lemma sound_float32 : sound (single (fun t b => exists w, t = (TFloat, w) /\ f32_float F w b)) (parse_float32 mch pf).
Proof.
  intros ts e x s' V He H. unfold parse_float32 in H. steps.
  apply nxt_inv in E. destruct E as [(ts' & -> & ->)|(_ & E & _)]; [|congruence].
  destruct a as [k w]. cbn [fst snd] in *. subst k. inversion V as [|? ? V1 V2]; subst.
  answer [(TFloat, w)] ts'. constructor. exists w. split; [reflexivity|].
  apply float32_literal_spec; [apply V1 | assumption].
Qed.
Lemma sound_float64 : sound (single (fun t b => exists w b', t = (TFloat, w) /\ pf w = Some b' /\ b = widen b'))
  (parse_float64 mch pf).
Proof.
  intros ts e x s' V He H. unfold parse_float64 in H. steps.
  apply nxt_inv in E. destruct E as [(ts' & -> & ->)|(_ & E & _)]; [|congruence].
  destruct a as [k w]. cbn [fst snd] in *. subst k. inversion V as [|? ? V1 V2]; subst.
  destruct (pf w) as [b'|] eqn:E; [|discriminate]. injection E0 as <-.
  answer [(TFloat, w)] ts'. constructor. exists w, b'. auto.
Qed.

Lemma lookup_in {A} (tbl : list (text * A)) w a : lookup tbl w = Some a -> In (w, a) tbl.
Proof.
  induction tbl as [|[k b] tbl IH]; cbn; [discriminate|].
  destruct (text_eqb w k) eqn:E; [apply text_eqb_true in E; subst | auto].
  intros H. injection H as ->. auto.
Qed.

Lemma val_word ty t : token_text ty (txt (type_word t)) -> ty = Reserved.
Proof.
  intros H. destruct t;
    (apply word_type in H; [rewrite <- H; vm_compute; reflexivity | reflexivity | discriminate]).
Qed.
Lemma sound_val_type : sound val_type (parse_val_type mch).
Proof.
  intros ts e x s' V He H. unfold parse_val_type in H. steps.
  apply nxt_inv in E. destruct E as [(ts' & -> & ->)|(_ & E & ->)].
  - destruct a as [k w]. cbn [fst snd] in *. inversion V as [|? ? V1 V2]; subst.
    assert (w = txt (type_word v)) as ->.
    { apply lookup_in in E0. repeat (destruct E0 as [E0|E0]; [injection E0 as <- <-; reflexivity|]). destruct E0. }
    apply val_word in V1. cbn in V1. subst k. answer [kw (type_word v)] ts'. constructor.
  - exfalso. rewrite fine_lookup in E0; [discriminate | reflexivity | exact He].
Qed.
Lemma sound_index : sound an_index (parse_index mch).
Proof.
  intros ts e x s' V He H. unfold parse_index in H. steps.
  apply nxt_inv in E. destruct a as [k w]. cbn [fst snd] in *.
  destruct k; steps; (destruct E as [(ts' & -> & ->)|(_ & E & _)]; [|discriminate]); inversion V; subst.
  - answer [(TId, w)] ts'. constructor.
  - answer [(TInteger, w)] ts'. constructor. apply index_literal_spec. eauto.
Qed.

Lemma sound_result : sound one_result (parse_result mch).
Proof.
  intros ts e x s' V He H. unfold parse_result in H. steps. use sound_val_type as w r G.
  answer (kw "result" :: w) r. constructor. exact G.
Qed.
Lemma sound_param_types n : sound (many val_type) (M_WatParse.param_types mch n).
Proof.
  induction n as [|n IH]; intros ts e x s' V He H; cbn [M_WatParse.param_types] in H; steps.
  - use sound_val_type as w r G. use IH as w0 r0 G0. answer (w ++ w0) r0. constructor; assumption.
  - answer (@nil tk) ts. constructor.
Qed.
Lemma sound_parameter n : sound param (parse_parameter mch n).
Proof.
  intros ts e x s' V He H. unfold parse_parameter in H. steps. use sound_optional_id as w r G.
  inversion G; subst; cbv beta iota in H; steps.
  - use (sound_param_types n) as w1 r1 G1. answer (kw "param" :: w1) r1. constructor. assumption.
  - use sound_val_type as w1 r1 G1. answer (kw "param" :: (TId, w0) :: w1) r1. constructor. assumption.
Qed.
Lemma sound_local : sound (fun w t => exists w', w = kw "local" :: w' /\ val_type w' t) (parse_local mch).
Proof.
  intros ts e x s' V He H. unfold parse_local in H. steps. use sound_val_type as w r G.
  answer (kw "local" :: w) r. eauto.
Qed.
Lemma sound_export : sound (fun w t => exists w', w = kw "export" :: w' /\ a_string w' t) (parse_export mch).
Proof.
  intros ts e x s' V He H. unfold parse_export in H. steps. use sound_string as w r G.
  answer (kw "export" :: w) r. eauto.
Qed.
Lemma sound_import : sound (fun w t => exists w1 w2, w = kw "import" :: w1 ++ w2 /\ a_string w1 (fst t) /\ a_string w2 (snd t))
  (parse_import mch).
Proof.
  intros ts e x s' V He H. unfold parse_import in H. steps. use sound_string as w r G. use sound_string as w0 r0 G0.
  answer (kw "import" :: w ++ w0) r0. cbn. eauto 6.
Qed.
Lemma sound_type_use : sound (fun w id => w = [lp; kw "type"; (TId, id); rp]) (parse_type_use mch).
Proof.
  intros ts e x s' V He H. unfold parse_type_use in H. steps. use sound_id as w r G. inversion G; subst. steps.
  answer [lp; kw "type"; (TId, a1); rp] ts. reflexivity.
Qed.
Lemma sound_until_close n : sound (many val_type) (until_close mch n).
Proof.
  induction n as [|n IH]; intros ts e x s' V He H; cbn [until_close] in H; steps.
  - answer (@nil tk) ts. constructor.
  - use sound_val_type as w r G. use IH as w0 r0 G0. answer (w ++ w0) r0. constructor; assumption.
Qed.

Lemma trial_ok {L A} (p : parser L (option A)) l o l' : trial p l = (Ok o, l') ->
  match o with Some a => p l = (Ok (Some a), l') | None => l' = l end.
Proof. unfold trial. destruct (p l) as [[[a|]|?| |] l1]; intros H; inversion H; subst; reflexivity. Qed.

Lemma at_result_inv ts e o s' : Forall valid ts -> at_result mch (ts, e) = (Ok o, s') ->
  match o with
  | Some _ => exists ts', ts = lp :: ts' /\ s' = (ts', e) /\ Forall valid ts'
  | None => s' = (ts, e)
  end.
Proof.
  intros V H. apply trial_ok in H. destruct o as [[]|]; [|exact H].
  step. step; [|discriminate]. step. apply pret_ok in H. destruct H as [_ <-]. step. eauto.
Qed.
Lemma sound_block_type_loop n : sound (many (paren results)) (block_type_loop mch n).
Proof.
  induction n as [|n IH]; intros ts e x s' V He H; cbn [block_type_loop] in H; steps.
  apply at_result_inv in E; [|exact V]. destruct a as [[]|]; [|subst; steps; answer (@nil tk) ts; constructor].
  destruct E as (ts' & -> & -> & V'). clear V.
  steps. use (sound_until_close n) as w r G. steps. use IH as w0 r0 G0.
  answer ((lp :: (kw "result" :: w) ++ [rp]) ++ w0) r0. constructor; [|assumption]. constructor. constructor. assumption.
Qed.

Lemma sound_block_name : sound opt_id (block_name mch).
Proof.
  intros ts e x s' V He H. unfold block_name in H. steps.
  - apply nxt_inv in E. destruct P as [(ts' & ->)|P]; [|congruence].
    destruct E as [(ts'' & E & ->)|(E & _)]; [|discriminate].
    injection E as -> ->. destruct a0 as [k w]. cbn [fst snd] in *. subst k. inversion V; subst.
    answer [(TId, w)] ts''. constructor.
  - answer (@nil tk) ts. constructor.
Qed.
Lemma sound_func_id : sound opt_id (func_id mch).
Proof.
  intros ts e x s' V He H. unfold func_id in H. steps.
  - apply nxt_inv in E. destruct P as [(ts' & ->)|P]; [|congruence].
    destruct E as [(ts'' & E & ->)|(E & _)]; [|discriminate].
    injection E as -> ->. destruct a0 as [k w]. cbn [fst snd] in *. subst k. inversion V; subst.
    answer [(TId, w)] ts''. constructor.
  - answer (@nil tk) ts. constructor.
Qed.

(** ** Loops *)

Lemma sound_closed {A} (G : spelling A) p : sound G p ->
  sound (fun w x => exists w', w = w' ++ [rp] /\ G w' x) (closed mch p).
Proof.
  intros Hp ts e x s' V He H. unfold closed in H. steps. use Hp as w r Gw. steps.
  answer (w ++ [rp]) ts. eauto.
Qed.

Lemma sound_while {A} (G : spelling A) p n : sound G p ->
  sound (many (paren G)) (while_eat tok_eqb mch n OpenParen (closed mch p)).
Proof.
  intros Hp. pose proof (sound_closed G p Hp) as Hc.
  induction n as [|n IH]; intros ts e x s' V He H; cbn [while_eat] in H; [discriminate|].
  step. change (eat tok_eqb mch OpenParen) with (ate mch OpenParen) in E. step.
  - steps. use Hc as w r Gw. use IH as w0 r0 Gw0. destruct Gw as (w' & -> & Gw).
    answer ((lp :: w' ++ [rp]) ++ w0) r0. constructor; [constructor; assumption | assumption].
  - steps. answer (@nil tk) ts. constructor.
Qed.

Lemma sound_sections {A B} (G : spelling B) (add : A -> B -> A) body n :
  (forall a, sound (fun w a' => exists s, G w s /\ a' = add a s) (body a)) -> forall a,
  sound (fun w a' => exists ss, many (paren G) w ss /\ a' = fold_left add ss a) (sections mch n body a).
Proof.
  intros Hb. induction n as [|n IH]; intros a ts e x s' V He H; cbn [sections] in H; [discriminate|].
  step. step.
  - step. use (sound_closed _ _ (Hb a)) as w r Gw. use IH as w0 r0 Gw0.
    destruct Gw as (w' & -> & s0 & Gw & ->). destruct Gw0 as (ss & M & ->).
    answer ((lp :: w' ++ [rp]) ++ w0) r0. exists (s0 :: ss). split; [|reflexivity].
    constructor; [constructor; assumption | assumption].
  - steps. answer (@nil tk) ts. exists []. split; [constructor | reflexivity].
Qed.

(** ** Instructions *)

Lemma last_cons {A} (x : A) l d : last (x :: l) d = last l x.
Proof.
  revert x d. induction l as [|y l IH]; intros x d; [reflexivity|].
  change (last (y :: l) d = last (y :: l) x). rewrite !IH. reflexivity.
Qed.

Definition add_if (a : if_parts) (s : if_section) : if_parts :=
  match s with
  | SResult r => {| i_results := i_results a ++ [r]; i_else := i_else a; i_then := i_then a; i_clause := i_clause a |}
  | SThen b => {| i_results := i_results a; i_else := i_else a; i_then := b; i_clause := i_clause a |}
  | SElse b => {| i_results := i_results a; i_else := Some b; i_then := i_then a; i_clause := i_clause a |}
  | SClause i => {| i_results := i_results a; i_else := i_else a; i_then := i_then a; i_clause := i_clause a ++ [i] |}
  end.

Lemma fold_if_from ss : forall a,
  fold_left add_if ss a =
  {| i_results := i_results a ++ if_results ss;
     i_else := last (flat_map (fun s => match s with SElse b => [Some b] | _ => [] end) ss) (i_else a);
     i_then := last (flat_map (fun s => match s with SThen b => [b] | _ => [] end) ss) (i_then a);
     i_clause := i_clause a ++ if_clause ss |}.
Proof.
  induction ss as [|s ss IH]; intros a.
  - cbn. rewrite !app_nil_r. destruct a; reflexivity.
  - cbn [fold_left]. rewrite IH. destruct s; cbn [add_if i_results i_else i_then i_clause].
    + unfold if_results, if_clause. cbn [flat_map app]. rewrite <- app_assoc. reflexivity.
    + unfold if_results, if_clause. cbn [flat_map app]. rewrite last_cons. reflexivity.
    + unfold if_results, if_clause. cbn [flat_map app]. rewrite last_cons. reflexivity.
    + unfold if_results, if_clause. cbn [flat_map app]. rewrite <- app_assoc. reflexivity.
Qed.
Lemma fold_if ss : fold_left add_if ss no_parts =
  {| i_results := if_results ss; i_else := if_else ss; i_then := if_then ss; i_clause := if_clause ss |}.
Proof. apply (fold_if_from ss no_parts). Qed.

Lemma lookup_all {A} (P : text -> A -> Prop) tbl w a :
  Forall (fun x => P (fst x) (snd x)) tbl -> lookup tbl w = Some a -> P w a.
Proof.
  intros H E. apply lookup_in in E. rewrite Forall_forall in H. exact (H _ E).
Qed.

Lemma plain_sound : Forall (fun x => operator F [(Reserved, fst x)] (snd x)) plain_cases.
Proof.
  unfold plain_cases.
  repeat (apply Forall_cons; [cbn [fst snd];
    first [ match goal with |- operator _ _ (IPlain ?p) => exact (op_plain F p) end
          | match goal with |- operator _ [(Reserved, txt ?s)] INil => apply (op_forgotten F s); cbn; tauto end ] |]).
  apply Forall_nil.
Qed.
Lemma index_sound : Forall (fun x => fst x = txt (indexed_word (snd x))) index_cases.
Proof. unfold index_cases. repeat constructor. Qed.

Section Instr.
Variable pi : parser (stream toktype) instr.
Variable n : nat.
Hypothesis Hpi : sound (instruction F) pi.

Lemma sound_instructions : sound (many (paren (instruction F))) (parse_instructions mch pi n).
Proof. intros ts e x s' V He H. unfold parse_instructions in H. step. exact (sound_while _ _ n Hpi _ _ _ _ V He H). Qed.
Lemma sound_then : sound (fun w b => exists w', w = kw "then" :: w' /\ many (paren (instruction F)) w' b) (parse_then mch pi n).
Proof.
  intros ts e x s' V He H. unfold parse_then in H. steps. use sound_instructions as w r G. answer (kw "then" :: w) r. eauto.
Qed.
Lemma sound_else : sound (fun w b => exists w', w = kw "else" :: w' /\ many (paren (instruction F)) w' b) (parse_else mch pi n).
Proof.
  intros ts e x s' V He H. unfold parse_else in H. steps. use sound_instructions as w r G. answer (kw "else" :: w) r. eauto.
Qed.
Lemma sound_if_section a :
  sound (fun w a' => exists s, an_if_section F w s /\ a' = add_if a s) (M_WatParse.if_section mch pi n a).
Proof.
  intros ts e x s' V He H. unfold M_WatParse.if_section in H. steps.
  - use sound_result as w r G. answer w r. eexists. split; [apply s_result, G | reflexivity].
  - use sound_then as w r G. destruct G as (w' & -> & G). answer (kw "then" :: w') r.
    eexists. split; [apply s_then, G | reflexivity].
  - use sound_else as w r G. destruct G as (w' & -> & G). answer (kw "else" :: w') r.
    eexists. split; [apply s_else, G | reflexivity].
  - use Hpi as w r G. answer w r. eexists. split; [apply s_clause, G | reflexivity].
Qed.

(** What an operator with all that belongs to it is spelled like after the
    first word *)
Definition after (k : text) (i : instr) (w : list tk) : Prop :=
  operator F ((Reserved, k) :: w) i \/
  (match i with IBlock _ _ _ | ILoop _ _ _ | IIf _ _ _ _ _ => True | _ => False end /\
   instruction F ((Reserved, k) :: w) i).

Lemma sound_parse_operator k : sound (fun w i => after k i w) (parse_operator mch pf pi n k).
Proof.
  intros ts e x s' V He H. unfold parse_operator in H.
  destruct (lookup plain_cases k) as [i|] eqn:E1.
  { steps. answer (@nil tk) ts. left. exact (lookup_all (fun w a => operator F [(Reserved, w)] a) _ _ _ plain_sound E1). }
  destruct (lookup index_cases k) as [o|] eqn:E2.
  { steps. use sound_index as w r G. answer w r. left.
    rewrite (lookup_all (fun w a => w = txt (indexed_word a)) _ _ _ index_sound E2).
    apply op_indexed. exact G. }
  step; [subst k|step; [subst k|step; [subst k|step; [subst k|step; [subst k|step; [subst k|step; [subst k|step; [subst k|step; [subst k|]]]]]]]]].
  - steps. use sound_index as w r G. answer w r. left. apply op_br_table. exact G.
  - steps. use sound_int32 as w r G. answer w r. left. inversion G as [t z (w' & -> & L)]; subst. apply op_i32. exact L.
  - steps. use sound_int64 as w r G. answer w r. left. inversion G as [t z (w' & -> & L)]; subst. apply op_i64. exact L.
  - unfold peek_float in H. steps.
    + use sound_float32 as w r G. answer w r. left. inversion G as [t z (w' & -> & L)]; subst.
      apply op_f32, f32_of_float. exact L.
    + use sound_int32 as w r G. answer w r. left. inversion G as [t z (w' & -> & L)]; subst.
      apply op_f32, (f32_of_int F). exact L.
  - unfold peek_float in H. steps.
    + use sound_float64 as w r G. answer w r. left. inversion G as [t z (w' & b' & -> & L & ->)]; subst.
      apply op_f64, (f64_of_float F). exact L.
    + use sound_int64 as w r G. answer w r. left. inversion G as [t z (w' & -> & L)]; subst.
      apply op_f64, (f64_of_int F). exact L.
  - unfold parse_block in H. steps. use sound_block_name as w r G. unfold parse_block_type in E0.
    steps. use sound_block_type_loop as w0 r0 G0. use sound_instructions as w1 r1 G1.
    answer (w ++ w0 ++ w1) r1. right. split; [exact I|]. apply i_block; assumption.
  - unfold parse_loop in H. steps. use sound_block_name as w r G. unfold parse_block_type in E0.
    steps. use sound_block_type_loop as w0 r0 G0. use sound_instructions as w1 r1 G1.
    answer (w ++ w0 ++ w1) r1. right. split; [exact I|]. apply i_loop; assumption.
  - unfold parse_if in H. steps. use sound_block_name as w r G.
    use (sound_sections _ add_if _ n sound_if_section no_parts) as w0 r0 G0. destruct G0 as (ss & M & ->).
    answer (w ++ w0) r0. right. rewrite fold_if. split; [exact I|]. cbn. apply i_if; assumption.
  - unfold parse_call_indirect in H. steps. use sound_type_use as w r G. subst w.
    answer [lp; kw "type"; (TId, a); rp] r. left. apply op_call_indirect.
  - discriminate.
Qed.
End Instr.

(** The loops stop only where no parenthesis opens. *)
Lemma while_stop {A} (p : parser _ A) n : forall s x s',
  while_eat tok_eqb mch n OpenParen p s = (Ok x, s') -> not_next OpenParen (fst s').
Proof.
  induction n as [|n IH]; intros s x s' H; cbn [while_eat] in H; [discriminate|].
  step. apply (eat_ok EndOfStream tok_eqb tok_eqb_spec) in E; [|discriminate].
  destruct E as [(-> & _)|(-> & -> & N & _)].
  - steps. eauto.
  - steps. exact N.
Qed.
Lemma sections_stop {A} (b : A -> parser _ A) n : forall a s x s',
  sections mch n b a s = (Ok x, s') -> not_next OpenParen (fst s').
Proof.
  induction n as [|n IH]; intros a s x s' H; cbn [sections] in H; [discriminate|].
  step. apply (eat_ok EndOfStream tok_eqb tok_eqb_spec) in E; [|discriminate].
  destruct E as [(-> & _)|(-> & -> & N & _)].
  - step. eauto.
  - steps. exact N.
Qed.

Definition nested (i : instr) : Prop :=
  match i with IBlock _ _ _ | ILoop _ _ _ | IIf _ _ _ _ _ => True | _ => False end.

Lemma plain_not_nested : Forall (fun x => ~ nested (snd x)) plain_cases.
Proof. unfold plain_cases. repeat (apply Forall_cons; [cbn; tauto|]). apply Forall_nil. Qed.

Lemma operator_stop pi n k s x s' : parse_operator mch pf pi n k s = (Ok x, s') ->
  nested x -> not_next OpenParen (fst s').
Proof.
  intros H Hx. unfold parse_operator in H.
  destruct (lookup plain_cases k) as [i|] eqn:E1.
  { steps. exfalso. revert Hx. exact (lookup_all (fun w a => ~ nested a) _ _ _ plain_not_nested E1). }
  destruct (lookup index_cases k) as [o|] eqn:E2; [steps; destruct Hx|].
  step; [|step; [|step; [|step; [|step; [|step; [|step; [|step; [|step]]]]]]]]; try (steps; destruct Hx; fail).
  - step. cbv beta in H. destruct a; steps; destruct Hx.
  - step. cbv beta in H. destruct a; steps; destruct Hx.
  - unfold parse_block, parse_instructions in H. steps. eapply while_stop. eassumption.
  - unfold parse_loop, parse_instructions in H. steps. eapply while_stop. eassumption.
  - unfold parse_if in H. steps. eapply sections_stop. eassumption.
  - unfold parse_call_indirect in H. steps. destruct Hx.
Qed.

Lemma many_paren_head {A} (G : spelling A) w xs : many (paren G) w xs -> w <> [] -> exists w', w = lp :: w'.
Proof.
  intros H Hw. destruct H as [|w ws x xs H _]; [congruence|]. destruct H. eexists. reflexivity.
Qed.

Lemma sound_instruction n : sound (instruction F) (parse_instruction mch pf n).
Proof.
  induction n as [|n IH]; [intros ts e x s' V He H; discriminate|].
  intros ts e x s' V He H. cbn [parse_instruction] in H. unfold instruction_body in H. step. step. step; [|discriminate].
  apply nxt_inv in E. destruct E as [(ts' & -> & ->)|(_ & E & _)]; [|congruence].
  destruct a as [k w]. cbn [fst snd] in *. subst k. inversion V as [|? ? V1 V2]; subst. clear V.
  step. pose proof (operator_stop _ _ _ _ _ _ E) as Stop.
  use (sound_parse_operator _ n IH) as w0 r0 G0. step. step. cbv beta iota in H.
  destruct (tok_eqb_spec (fst a0) OpenParen) as [Et|Et].
  - destruct P as [(r1 & P)|P]; [|congruence].
    assert (~ nested a) as Nn by (intros Hn; apply Stop in Hn; cbn [fst] in Hn; rewrite P in Hn; cbn in Hn; congruence).
    destruct G0 as [G0|[Hn _]]; [|destruct (Nn Hn)].
    step. pose proof (while_stop _ _ _ _ _ E) as E'. clear Stop.
    use (sound_while _ _ n IH) as w1 r2 G1.
    step. answer (((Reserved, w) :: w0) ++ w1) r2. apply i_folded; try assumption.
    intros ->. inversion G1; subst. cbn [app] in P. subst r2.
    cbn in E'. congruence.
  - steps. answer ((Reserved, w) :: w0) r0.
    destruct G0 as [G0|[_ G0]]; [apply i_operator, G0 | exact G0].
Qed.

(** ** Functions *)

Definition add_func (f : func) (s : func_section) : func :=
  match s with
  | FLocal x =>
    {| f_id := f_id f; f_locals := f_locals f ++ [x]; f_exports := f_exports f; f_params := f_params f;
            f_results := f_results f; f_instrs := f_instrs f |}
  | FParam x =>
    {| f_id := f_id f; f_locals := f_locals f; f_exports := f_exports f; f_params := f_params f ++ [x];
            f_results := f_results f; f_instrs := f_instrs f |}
  | FResult x =>
    {| f_id := f_id f; f_locals := f_locals f; f_exports := f_exports f; f_params := f_params f;
            f_results := f_results f ++ [x]; f_instrs := f_instrs f |}
  | FExport x =>
    {| f_id := f_id f; f_locals := f_locals f; f_exports := f_exports f ++ [x]; f_params := f_params f;
            f_results := f_results f; f_instrs := f_instrs f |}
  | FImport _ _ => f
  | FInstr i => with_instrs f [i]
  end.

Definition func_of (n : option text) (ss : list func_section) (b : list instr) : func :=
  {| f_id := n;
     f_locals := flat_map (fun s => match s with FLocal t => [t] | _ => [] end) ss;
     f_exports := flat_map (fun s => match s with FExport e => [e] | _ => [] end) ss;
     f_params := flat_map (fun s => match s with FParam p => [p] | _ => [] end) ss;
     f_results := flat_map (fun s => match s with FResult r => [r] | _ => [] end) ss;
     f_instrs := flat_map (fun s => match s with FInstr i => [i] | _ => [] end) ss ++ b |}.

Lemma fold_func_from ss : forall f,
  fold_left add_func ss f =
  {| f_id := f_id f;
     f_locals := f_locals f ++ flat_map (fun s => match s with FLocal t => [t] | _ => [] end) ss;
     f_exports := f_exports f ++ flat_map (fun s => match s with FExport e => [e] | _ => [] end) ss;
     f_params := f_params f ++ flat_map (fun s => match s with FParam p => [p] | _ => [] end) ss;
     f_results := f_results f ++ flat_map (fun s => match s with FResult r => [r] | _ => [] end) ss;
     f_instrs := f_instrs f ++ flat_map (fun s => match s with FInstr i => [i] | _ => [] end) ss |}.
Proof.
  induction ss as [|s ss IH]; intros f.
  - cbn. rewrite !app_nil_r. destruct f; reflexivity.
  - cbn [fold_left]. rewrite IH. destruct s; cbn; try rewrite <- app_assoc; reflexivity.
Qed.
Lemma fold_func ss n b : with_instrs (fold_left add_func ss (no_func n)) b = func_of n ss b.
Proof. rewrite fold_func_from. reflexivity. Qed.

Lemma sound_func_section n a :
  sound (fun w a' => exists s, a_func_section F w s /\ a' = add_func a s) (M_WatParse.func_section mch pf n a).
Proof.
  intros ts e x s' V He H. unfold M_WatParse.func_section in H. steps.
  - use sound_local as w r G. destruct G as (w' & -> & G). answer (kw "local" :: w') r.
    eexists. split; [apply fs_local, G | reflexivity].
  - use (sound_parameter n) as w r G. answer w r. eexists. split; [apply fs_param, G | reflexivity].
  - use sound_result as w r G. answer w r. eexists. split; [apply fs_result, G | reflexivity].
  - use sound_export as w r G. destruct G as (w' & -> & G). answer (kw "export" :: w') r.
    eexists. split; [apply fs_export, G | reflexivity].
  - use sound_import as w r G. destruct G as (w1 & w2 & -> & G1 & G2). answer (kw "import" :: w1 ++ w2) r.
    exists (FImport (fst a1) (snd a1)). split; [apply fs_import; assumption | reflexivity].
  - use (sound_instruction n) as w r G. answer w r. eexists. split; [apply fs_instr, G | reflexivity].
Qed.

Lemma sound_plain_loop (pi : parser _ instr) n : sound (instruction F) pi ->
  sound (many (instruction F)) (plain_loop mch pi n).
Proof.
  intros Hpi. induction n as [|n IH]; intros ts e x s' V He H; cbn [plain_loop] in H; steps.
  - answer (@nil tk) ts. constructor.
  - use Hpi as w r G. use IH as w0 r0 G0. answer (w ++ w0) r0. constructor; assumption.
Qed.

Lemma sound_func n : sound (function F) (parse_func mch pf n).
Proof.
  intros ts e x s' V He H. unfold parse_func in H. steps. use sound_func_id as w r G.
  use (sound_sections _ add_func _ n (sound_func_section n) (no_func a0)) as w0 r0 G0.
  use (sound_plain_loop _ n (sound_instruction n)) as w1 r1 G1.
  destruct G0 as (ss & M & ->). answer (kw "func" :: w ++ w0 ++ w1) r1.
  rewrite fold_func. apply a_function; assumption.
Qed.

(** ** Types, tables, globals, memories *)

Definition add_type (f : functype) (s : type_section) : functype :=
  match s with
  | TParam x => {| ft_params := ft_params f ++ [x]; ft_results := ft_results f |}
  | TResult x => {| ft_params := ft_params f; ft_results := ft_results f ++ [x] |}
  | TNothing => f
  end.
Lemma fold_type_from ss : forall f, fold_left add_type ss f =
  {| ft_params := ft_params f ++ flat_map (fun s => match s with TParam p => [p] | _ => [] end) ss;
     ft_results := ft_results f ++ flat_map (fun s => match s with TResult r => [r] | _ => [] end) ss |}.
Proof.
  induction ss as [|s ss IH]; intros f.
  - cbn. rewrite !app_nil_r. destruct f; reflexivity.
  - cbn [fold_left]. rewrite IH. destruct s; cbn; try rewrite <- app_assoc; reflexivity.
Qed.
Lemma fold_type ss : fold_left add_type ss no_functype =
  {| ft_params := flat_map (fun s => match s with TParam p => [p] | _ => [] end) ss;
     ft_results := flat_map (fun s => match s with TResult r => [r] | _ => [] end) ss |}.
Proof. apply (fold_type_from ss no_functype). Qed.

Lemma sound_type_section n a :
  sound (fun w a' => exists s, a_type_section w s /\ a' = add_type a s) (func_type_section mch n a).
Proof.
  intros ts e x s' V He H. unfold func_type_section in H. steps.
  - use (sound_parameter n) as w r G. answer w r. eexists. split; [apply ts_param, G | reflexivity].
  - use sound_result as w r G. answer w r. eexists. split; [apply ts_result, G | reflexivity].
  - answer (@nil tk) ts. exists TNothing. split; [constructor | reflexivity].
Qed.
Lemma sound_func_type n : sound func_type (parse_func_type mch n).
Proof.
  intros ts e x s' V He H. unfold parse_func_type in H. steps.
  use (sound_sections _ add_type _ n (sound_type_section n) no_functype) as w r G.
  destruct G as (ss & M & ->). answer (kw "func" :: w) r. rewrite fold_type. apply a_func_type, M.
Qed.
Lemma sound_type n : sound type_def (parse_type mch n).
Proof.
  intros ts e x s' V He H. unfold parse_type in H. steps. use sound_optional_id as w r G. step; steps.
  - use (sound_closed _ _ (sound_func_type n)) as w1 r1 G1. destruct G1 as (w' & -> & G1).
    answer (kw "type" :: w ++ lp :: w' ++ [rp]) r1. apply a_type_def; [assumption | constructor; assumption].
  - answer (kw "type" :: w) r. apply no_type_def. assumption.
Qed.

Lemma u32_of_unsigned z : u32_of z = unsigned32 z.
Proof. reflexivity. Qed.

Lemma sound_limits : sound a_limits (parse_limits mch).
Proof.
  intros ts e x s' V He H. unfold parse_limits in H. steps.
  - use sound_int32 as w r G. steps. use sound_int32 as w1 r1 G1. answer (w ++ w1) r1.
    inversion G as [t z (v & -> & L)]; subst. inversion G1 as [t z (v1 & -> & L1)]; subst.
    rewrite !u32_of_unsigned. apply at_most; assumption.
  - use sound_int32 as w r G. steps. answer w r. inversion G as [t z (v & -> & L)]; subst.
    rewrite u32_of_unsigned. apply at_least; assumption.
Qed.

Lemma sound_table_type :
  sound (fun w x => exists wl wr, w = wl ++ wr /\ opt_limits wl (fst x) /\ ref_type wr (snd x)) (parse_table_type mch).
Proof.
  intros ts e x s' V He H. unfold parse_table_type in H. step. step. cbv beta in H.
  apply pk_inv in E. destruct E as [-> _]. step.
  assert (exists w r, ts = w ++ r /\ s = (r, e) /\ Forall valid r /\ opt_limits w a0) as (w & r & -> & -> & V1 & G).
  { destruct (tok_eqb (fst a) TInteger).
    - use sound_limits as w r G. answer w r. constructor. exact G.
    - apply pret_ok in E. destruct E as [<- <-]. answer (@nil tk) ts. constructor. }
  clear E. step. cbv beta in H. apply nxt_inv in E. destruct a1 as [k v]. cbn [fst snd] in *.
  destruct (tok_eqb_spec k Reserved) as [->|]; [|discriminate]. apply pret_ok in H. destruct H as [<- <-].
  destruct E as [(r1 & -> & ->)|(_ & E & _)]; [|discriminate].
  answer (w ++ [(Reserved, v)]) r1; [eapply valid_tail, V1|]. exists w, [(Reserved, v)]. split; [reflexivity|].
  split; [exact G|]. cbn [snd].
  destruct (text_eqb v (txt "externref")) eqn:E1; [apply text_eqb_true in E1; subst; apply rt_extern|].
  destruct (text_eqb v (txt "funcref")) eqn:E2; [apply text_eqb_true in E2; subst; apply rt_func|].
  apply text_eqb_false in E1, E2. apply rt_other; assumption.
Qed.

Lemma sound_element : sound element (table_element mch).
Proof.
  intros ts e x s' V He H. unfold table_element in H. step. cbv beta in H.
  apply nxt_inv in E. destruct a as [k v]. cbn [fst snd] in *.
  destruct (tok_eqb_spec k Reserved) as [->|]; [|discriminate].
  destruct (text_eqb v (txt "elem")) eqn:E1; [apply text_eqb_true in E1; subst v|discriminate].
  destruct E as [(r1 & -> & ->)|(_ & E & _)]; [|discriminate]. steps.
  use sound_id as w r G. inversion G; subst. answer [kw "elem"; (TId, x)] r. constructor.
Qed.

Lemma sound_table n : sound table_def (parse_table mch n).
Proof.
  intros ts e x s' V He H. unfold parse_table in H. steps. use sound_optional_id as w r G.
  use sound_table_type as w0 r0 G0. use (sound_while _ _ n sound_element) as w1 r1 G1.
  destruct G0 as (wl & wr & -> & Gl & Gr).
  answer (kw "table" :: w ++ wl ++ wr ++ w1) r1. apply a_table; assumption.
Qed.

Lemma sound_global_type : sound (fun (w : list tk) (x : bool * valtype) => if fst x
    then exists w', w = lp :: kw "mut" :: w' ++ [rp] /\ val_type w' (snd x) else val_type w (snd x))
  (parse_global_type mch).
Proof.
  intros ts e x s' V He H. unfold parse_global_type in H. step. step. step; steps.
  - use sound_val_type as w r G. steps. answer (lp :: kw "mut" :: w ++ [rp]) ts. cbn [fst snd]. eauto.
  - use sound_val_type as w r G. answer w r. exact G.
Qed.

Lemma sound_global n : sound (global_def F) (parse_global mch pf n).
Proof.
  intros ts e x s' V He H. unfold parse_global in H. steps. use sound_optional_id as w r G.
  use sound_global_type as w0 r0 G0. use (sound_instructions _ n (sound_instruction n)) as w1 r1 G1.
  destruct a1 as [m ty]. cbn [fst snd] in *. destruct m.
  - destruct G0 as (w' & -> & G0). answer (kw "global" :: w ++ (lp :: kw "mut" :: w' ++ [rp]) ++ w1) r1.
    apply a_variable; assumption.
  - answer (kw "global" :: w ++ w0 ++ w1) r1. apply a_constant; assumption.
Qed.

Lemma sound_memory : sound memory_def (parse_memory mch).
Proof.
  intros ts e x s' V He H. unfold parse_memory in H. steps. use sound_optional_id as w r G.
  use sound_limits as w0 r0 G0. answer (kw "memory" :: w ++ w0) r0. apply a_memory; assumption.
Qed.

(** ** Modules *)

Definition add_section (m : module) (s : section) : module :=
  match s with
  | SecFunc x =>
    {| md_funcs := md_funcs m ++ [x]; md_memories := md_memories m; md_types := md_types m;
            md_tables := md_tables m; md_globals := md_globals m |}
  | SecType x =>
    {| md_funcs := md_funcs m; md_memories := md_memories m; md_types := md_types m ++ [x];
            md_tables := md_tables m; md_globals := md_globals m |}
  | SecTable x =>
    {| md_funcs := md_funcs m; md_memories := md_memories m; md_types := md_types m;
            md_tables := md_tables m ++ [x]; md_globals := md_globals m |}
  | SecGlobal x =>
    {| md_funcs := md_funcs m; md_memories := md_memories m; md_types := md_types m;
            md_tables := md_tables m; md_globals := md_globals m ++ [x] |}
  | SecMemory x =>
    {| md_funcs := md_funcs m; md_memories := md_memories m ++ [x]; md_types := md_types m;
            md_tables := md_tables m; md_globals := md_globals m |}
  end.
Lemma fold_module_from ss : forall m, fold_left add_section ss m =
  {| md_funcs := md_funcs m ++ md_funcs (module_of ss); md_memories := md_memories m ++ md_memories (module_of ss);
     md_types := md_types m ++ md_types (module_of ss); md_tables := md_tables m ++ md_tables (module_of ss);
     md_globals := md_globals m ++ md_globals (module_of ss) |}.
Proof.
  induction ss as [|s ss IH]; intros m.
  - cbn. rewrite !app_nil_r. destruct m; reflexivity.
  - cbn [fold_left]. rewrite IH. destruct s; cbn; rewrite <- app_assoc; reflexivity.
Qed.
Lemma fold_module ss : fold_left add_section ss no_module = module_of ss.
Proof. rewrite fold_module_from. reflexivity. Qed.

Lemma sound_module_section n a :
  sound (fun w a' => exists s, a_section F w s /\ a' = add_section a s) (module_section mch pf n a).
Proof.
  intros ts e x s' V He H. unfold module_section in H. steps.
  - use (sound_func n) as w r G. answer w r. eexists. split; [apply sec_func, G | reflexivity].
  - use (sound_type n) as w r G. answer w r. eexists. split; [apply sec_type, G | reflexivity].
  - use (sound_table n) as w r G. answer w r. eexists. split; [apply sec_table, G | reflexivity].
  - use (sound_global n) as w r G. answer w r. eexists. split; [apply sec_global, G | reflexivity].
  - use sound_memory as w r G. answer w r. eexists. split; [apply sec_memory, G | reflexivity].
Qed.

Lemma sound_exp k w : k <> EndOfStream -> (forall v, token_text k v -> v = w) ->
  sound (fun ts _ => ts = [(k, w)]) (exp mch k).
Proof.
  intros Hk Hw ts e x s' V He H. apply exp_inv in H; [|exact Hk]. destruct H as (v & ts' & -> & ->).
  inversion V as [|? ? V1 V2]; subst. apply Hw in V1. cbn in V1. subst v. answer [(k, w)] ts'. reflexivity.
Qed.

Lemma sound_module n : sound (fun w m => exists ws ss, w = (TModule, txt "module") :: ws /\
  many (paren (a_section F)) ws ss /\ m = module_of ss) (parse_module mch pf n).
Proof.
  intros ts e x s' V He H. unfold parse_module in H. steps.
  use (sound_exp TModule (txt "module") ltac:(discriminate) (fun v H => H)) as w r G. subst w.
  use (sound_sections _ add_section _ n (sound_module_section n) no_module) as w r0 G. destruct G as (ss & M & ->).
  answer ((TModule, txt "module") :: w) r0. rewrite fold_module. eauto.
Qed.
Lemma sound_component : sound (fun w _ => w = [(TComponent, txt "component")]) (parse_component mch).
Proof.
  intros ts e x s' V He H. unfold parse_component in H. steps.
  use (sound_exp TComponent (txt "component") ltac:(discriminate) (fun v H => H)) as w r G. subst w.
  answer [(TComponent, txt "component")] r. reflexivity.
Qed.

Theorem sound_directive n : sound (a_directive F) (parse_directive mch pf n).
Proof.
  intros ts e x s' V He H. unfold parse_directive in H. step. step. cbv beta in H. step. cbv beta in H. step.
  cbv beta in H. destruct a0 as [k v]. cbn [fst] in *. destruct k; try discriminate; steps.
  - use (sound_module n) as w r G. destruct G as (ws & ss & -> & M & ->). steps.
    answer (lp :: (TModule, txt "module") :: ws ++ [rp]) ts. apply d_module. exact M.
  - use sound_component as w r G. subst w. steps.
    answer [lp; (TComponent, txt "component"); rp] ts. apply d_component.
Qed.
End Sound.
