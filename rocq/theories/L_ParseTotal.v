(** Parsers over the machine that do not run out of fuel. *)
From Coq Require Import Arith NArith ZArith String Ascii Bool List Lia.
From Verif Require Import GoBase M_Text M_ParseBase L_ParseBase.
Import ListNotations.
Open Scope nat_scope.
Open Scope parse_scope.

Section Total.
Context {K : Type}.
Variable eos : K.
Variable fine : ending -> Prop.
Hypothesis fine_end : fine (Ends []).
Notation mch := (machine eos).

(** On fewer than [n] tokens [p] ends, and if it succeeds then it has taken
    at least [k] of them. *)
Definition T (n k : nat) {A} (p : parser (stream K) A) : Prop :=
  forall ts e, fine e -> length ts < n ->
  match p (ts, e) with
  | (Ok _, (ts', e')) => fine e' /\ length ts' + k <= length ts
  | (Diverge, _) => False
  | _ => True
  end.

Lemma T_weaken n k n' k' {A} (p : parser (stream K) A) : T n k p -> n' <= n -> k' <= k -> T n' k' p.
Proof.
  intros H Hn Hk ts e He Hl. specialize (H ts e He ltac:(lia)).
  destruct (p (ts, e)) as [[a|? | |] [ts' e']]; auto. destruct H; split; [auto | lia].
Qed.
Lemma T_pret n {A} (a : A) : T n 0 (pret a).
Proof. intros ts e He Hl. cbn. split; [auto | lia]. Qed.
Lemma T_perr n k {A} : T n k (@perr _ A).
Proof. intros ts e He Hl. cbn. exact I. Qed.
Lemma T_unwrap n k {A} (p : parser _ A) : T n k p -> T n k (unwrap p).
Proof.
  intros H ts e He Hl. specialize (H ts e He Hl). unfold unwrap.
  destruct (p (ts, e)) as [[a|? | |] [ts' e']]; auto.
Qed.
Lemma T_handled n k {A} (p : parser _ A) : T n k p -> T n k (handled p).
Proof.
  intros H ts e He Hl. specialize (H ts e He Hl). unfold handled.
  destruct (p (ts, e)) as [[a|? | |] [ts' e']]; auto.
Qed.
Lemma T_trial n {A} (p : parser _ (option A)) : T n 0 p -> T n 0 (trial p).
Proof.
  intros H ts e He Hl. specialize (H ts e He Hl). unfold trial.
  destruct (p (ts, e)) as [[[a|]|? | |] [ts' e']]; auto. split; [auto | lia].
Qed.
Lemma T_bind n k1 k2 {A B} (p : parser _ A) (f : A -> parser _ B) :
  T n k1 p -> (forall a, T (n - k1) k2 (f a)) -> T n (k1 + k2) (pbind (unwrap p) f).
Proof.
  intros H Hf ts e He Hl. specialize (H ts e He Hl). unfold pbind, unwrap.
  destruct (p (ts, e)) as [[a|? | |] [ts' e']]; auto. destruct H as [He' Hk].
  specialize (Hf a ts' e' He' ltac:(lia)).
  destruct (f a (ts', e')) as [[b|? | |] [ts'' e'']]; auto. destruct Hf. split; [auto | lia].
Qed.
Lemma T_let n k k1 {A B} (p : parser _ A) (f : A -> parser _ B) :
  T n k1 p -> (forall a, T (n - k1) (k - k1) (f a)) -> T n k (pbind (unwrap p) f).
Proof.
  intros H Hf. eapply T_weaken; [eapply T_bind; [exact H | exact Hf] | lia | lia].
Qed.
Lemma T_zero k {A} (p : parser _ A) : T 0 k p.
Proof. intros ts e He Hl. lia. Qed.

Lemma T_next n : T n 0 (m_next eos).
Proof. intros [|t ts] [w|] He Hl; cbn; auto; split; auto; lia. Qed.
Lemma T_peek n : T n 0 (m_peek eos).
Proof. intros [|t ts] [w|] He Hl; cbn; auto; split; auto; lia. Qed.

Variable eqb : K -> K -> bool.
Hypothesis eqb_spec : forall a b, reflect (a = b) (eqb a b).

Lemma T_expect n k : k <> eos -> T n 1 (expect eqb mch k).
Proof.
  intros Hk ts e He Hl. destruct (expect eqb mch k (ts, e)) as [[u|? | |] [ts' e']] eqn:E; auto.
  - apply (expect_ok eos eqb eqb_spec) in E; [|exact Hk].
    destruct E as (w & ts0 & e0 & E & E'). injection E as -> ->. injection E' as -> ->. cbn. split; [auto | lia].
  - unfold expect, handled, pbind, unwrap in E. cbn in E.
    destruct ts as [|t ts]; [destruct e|]; cbn in E; try discriminate;
      destruct (eqb _ k); discriminate.
Qed.
Lemma T_expect_value n k w : k <> eos -> T n 1 (expect_value eqb mch k w).
Proof.
  intros Hk ts e He Hl. destruct (expect_value eqb mch k w (ts, e)) as [[u|? | |] [ts' e']] eqn:E; auto.
  - apply (expect_value_ok eos eqb eqb_spec) in E; [|exact Hk].
    destruct E as (ts0 & e0 & E & E'). injection E as -> ->. injection E' as -> ->. cbn. split; [auto | lia].
  - unfold expect_value, handled, pbind, unwrap in E. cbn in E.
    destruct ts as [|t ts]; [destruct e|]; cbn in E; try discriminate;
      destruct (eqb _ k); try discriminate; destruct (text_eqb _ w); discriminate.
Qed.
Lemma eat_total k ts e r : eat eqb mch k (ts, e) = (Diverge, r) -> False.
Proof.
  unfold eat, handled, pbind, unwrap. cbn.
  destruct ts as [|t ts]; [destruct e|]; cbn; try discriminate.
  - destruct (eqb eos k); [|discriminate]. unfold expect, handled, pbind, unwrap. cbn.
    destruct (eqb eos k); discriminate.
  - destruct (eqb (fst t) k) eqn:E; [|discriminate]. unfold expect, handled, pbind, unwrap. cbn.
    rewrite E. discriminate.
Qed.
Lemma T_eat n k : k <> eos -> T n 0 (eat eqb mch k).
Proof.
  intros Hk ts e He Hl. destruct (eat eqb mch k (ts, e)) as [[u|? | |] [ts' e']] eqn:E; auto.
  - apply (eat_ok eos eqb eqb_spec) in E; [|exact Hk].
    destruct E as [(-> & w & ts0 & e0 & E & E')|(-> & E & _)].
    + injection E as -> ->. injection E' as -> ->. cbn. split; [auto | lia].
    + injection E as -> ->. split; [auto | lia].
  - exact (eat_total _ _ _ _ E).
Qed.
(** if eat(...) { p } else { q } *)
Lemma T_eat_if n k ty {A} (f : bool -> parser _ A) : ty <> eos ->
  T (n - 1) (k - 1) (f true) -> T n k (f false) ->
  T n k (pbind (unwrap (eat eqb mch ty)) f).
Proof.
  intros Hk Hp Hq ts e He Hl. unfold pbind, unwrap.
  destruct (eat eqb mch ty (ts, e)) as [[b|? | |] [ts' e']] eqn:E; auto.
  - apply (eat_ok eos eqb eqb_spec) in E; [|exact Hk].
    destruct E as [(-> & w & ts0 & e0 & E & E')|(-> & E & _)].
    + injection E as -> ->. injection E' as -> ->. cbn in Hl.
      specialize (Hp ts0 e0 He ltac:(lia)).
      destruct (f true (ts0, e0)) as [[b|? | |] [ts'' e'']]; auto. destruct Hp. cbn. split; [auto | lia].
    + injection E as -> ->. apply Hq; auto.
  - exact (eat_total _ _ _ _ E).
Qed.
(** tok := next(lexer); the rest succeeds for no end of the stream *)
Lemma T_next_then n k {A} (f : K * text -> parser _ A) :
  (forall t, T (n - 1) (k - 1) (f t)) ->
  (forall w s, fine (Ends w) -> match f (eos, w) s with (Ok _, _) | (Diverge, _) => False | _ => True end) ->
  T n k (pbind (unwrap (m_next eos)) f).
Proof.
  intros Hp Hq ts e He Hl. unfold pbind, unwrap. destruct ts as [|t ts]; cbn.
  - destruct e as [w|]; auto. specialize (Hq w ([], Ends []) He).
    destruct (f (eos, w) ([], Ends [])) as [[b|? | |] [ts'' e'']]; tauto.
  - cbn in Hl. specialize (Hp t ts e He ltac:(lia)).
    destruct (f t (ts, e)) as [[b|? | |] [ts'' e'']]; auto. destruct Hp. split; [auto | lia].
Qed.
Lemma T_while n ty {A} (body : parser _ A) : ty <> eos -> forall m, m <= n ->
  T (m - 1) 0 body -> T m 0 (while_eat eqb mch n ty body).
Proof.
  intros Hty. induction n as [|n IH]; intros m Hm Hb; [replace m with 0 by lia; apply T_zero|].
  cbn [while_eat]. apply T_eat_if; [exact Hty | | apply T_pret].
  eapply T_weaken; [apply (T_let (m - 1) 0 0); [exact Hb|]; intros x | lia | lia].
  eapply T_weaken; [apply (T_let (m - 1) 0 0); [apply IH; [lia|] | intros xs; apply T_pret] | lia | lia].
  eapply T_weaken; [exact Hb | lia | lia].
Qed.
End Total.
