(** Lemmas for the parsers: a machine whose state is the list of the tokens
    still to come, in place of a lexer; simulation of a parser over any source
    of tokens by the same parser over the machine; and how a lexer with its
    loops that skip whitespace and comments is such a source. *)
From Coq Require Import Arith NArith String Ascii Bool List Lia.
From Verif Require Import GoBase M_Text M_ParseBase.
Import ListNotations.
Open Scope nat_scope.
Open Scope parse_scope.

(** ** Parsers that succeed *)

Lemma pbind_ok {L A B} (p : parser L A) (f : A -> parser L B) l b l' :
  pbind p f l = (Ok b, l') <-> exists a l1, p l = (Ok a, l1) /\ f a l1 = (Ok b, l').
Proof.
  unfold pbind. destruct (p l) as [[a|e| |] l1]; split; intros H; try discriminate.
  - eauto.
  - destruct H as (a' & l2 & E & F). injection E as -> ->. exact F.
  - destruct H as (? & ? & E & _); discriminate.
  - destruct H as (? & ? & E & _); discriminate.
  - destruct H as (? & ? & E & _); discriminate.
Qed.

Lemma unwrap_ok {L A} (p : parser L A) l a l' : unwrap p l = (Ok a, l') <-> p l = (Ok a, l').
Proof. unfold unwrap. destruct (p l) as [[ | | | ] ?]; split; intros H; congruence. Qed.

Lemma handled_ok {L A} (p : parser L A) l a l' : handled p l = (Ok a, l') <-> p l = (Ok a, l').
Proof. unfold handled. destruct (p l) as [[ | | | ] ?]; split; intros H; congruence. Qed.

Lemma plet_ok {L A B} (p : parser L A) (f : A -> parser L B) l b l' :
  pbind (unwrap p) f l = (Ok b, l') <-> exists a l1, p l = (Ok a, l1) /\ f a l1 = (Ok b, l').
Proof.
  rewrite pbind_ok. split; intros (a & l1 & E & F); exists a, l1; split; auto; apply unwrap_ok; auto.
Qed.

Lemma plet_run {L A B} (p : parser L A) (f : A -> parser L B) l a l1 r :
  p l = (Ok a, l1) -> f a l1 = r -> pbind (unwrap p) f l = r.
Proof. intros E F. unfold pbind, unwrap. rewrite E. exact F. Qed.

Lemma handled_run {L A} (p : parser L A) l a l1 : p l = (Ok a, l1) -> handled p l = (Ok a, l1).
Proof. intros E. unfold handled. rewrite E. reflexivity. Qed.

Lemma pret_ok {L A} (a : A) (l : L) b l' : pret a l = (Ok b, l') <-> a = b /\ l = l'.
Proof. unfold pret. split; [intros H; injection H; auto | intros [-> ->]; auto]. Qed.

Lemma text_eqb_true a b : text_eqb a b = true <-> a = b.
Proof. unfold text_eqb. destruct (list_eq_dec ascii_dec a b); split; congruence. Qed.

Lemma text_eqb_refl a : text_eqb a a = true.
Proof. apply text_eqb_true. reflexivity. Qed.

Lemma text_eqb_false a b : text_eqb a b = false <-> a <> b.
Proof. unfold text_eqb. destruct (list_eq_dec ascii_dec a b); split; congruence. Qed.

(** ** The machine *)

Inductive ending := Ends (w : text) | Fails.

Section Machine.
Context {K : Type}.
Variable eos : K.

Definition stream : Type := list (K * text) * ending.

Definition m_next : parser stream (K * text) :=
  fun s => match s with
           | (t :: ts, e) => (Ok t, (ts, e))
           | ([], Ends w) => (Ok (eos, w), ([], Ends []))
           | ([], Fails) => (Err EOther, s)
           end.
Definition m_peek : parser stream (K * text) :=
  fun s => match s with
           | (t :: _, _) => (Ok t, s)
           | ([], Ends w) => (Ok (eos, w), s)
           | ([], Fails) => (Err EOther, s)
           end.
Definition machine : source stream K := {| s_next := m_next; s_peek := m_peek |}.

(** Simulation *)
Section Sim.
Context {L : Type}.
Variable R : L -> stream -> Prop.

Definition agree {A} (x : outcome A * L) (y : outcome A * stream) : Prop :=
  match x, y with
  | (Ok a, l), (Ok b, s) => a = b /\ R l s
  | (Err _, _), (Err _, _) | (Panic, _), (Panic, _) | (Diverge, _), (Diverge, _) => True
  | _, _ => False
  end.

Definition sim {A} (p : parser L A) (q : parser stream A) : Prop :=
  forall l s, R l s -> agree (p l) (q s).

Lemma sim_pret {A} (a : A) : sim (pret a) (pret a).
Proof. intros l s H. cbn. auto. Qed.
Lemma sim_perr {A} : sim (@perr L A) (@perr stream A).
Proof. intros l s H. cbn. auto. Qed.
Lemma sim_pdiverge {A} : sim (@pdiverge L A) (@pdiverge stream A).
Proof. intros l s H. cbn. auto. Qed.
Lemma sim_unwrap {A} (p : parser L A) q : sim p q -> sim (unwrap p) (unwrap q).
Proof.
  intros H l s HR. specialize (H l s HR). unfold unwrap.
  destruct (p l) as [[ | | | ] ?], (q s) as [[ | | | ] ?]; cbn in *; tauto.
Qed.
Lemma sim_handled {A} (p : parser L A) q : sim p q -> sim (handled p) (handled q).
Proof.
  intros H l s HR. specialize (H l s HR). unfold handled.
  destruct (p l) as [[ | | | ] ?], (q s) as [[ | | | ] ?]; cbn in *; tauto.
Qed.
Lemma sim_pbind {A B} (p : parser L A) q (f : A -> parser L B) g :
  sim p q -> (forall a, sim (f a) (g a)) -> sim (pbind p f) (pbind q g).
Proof.
  intros H Hf l s HR. specialize (H l s HR). unfold pbind.
  destruct (p l) as [[ | | | ] ?], (q s) as [[ | | | ] ?]; cbn in *; try tauto.
  destruct H as [-> H]. apply Hf, H.
Qed.
Lemma sim_trial {A} (p : parser L (option A)) q : sim p q -> sim (trial p) (trial q).
Proof.
  intros H l s HR. specialize (H l s HR). unfold trial.
  destruct (p l) as [[[a|] | | | ] ?], (q s) as [[[b|] | | | ] ?]; cbn in *;
    try tauto; destruct H; discriminate.
Qed.
Lemma sim_if {A} (b : bool) (p : parser L A) q p' q' :
  sim p q -> sim p' q' -> sim (if b then p else p') (if b then q else q').
Proof. destruct b; auto. Qed.

Variable src : source L K.
Variable eqb : K -> K -> bool.
Hypothesis sim_next : sim (s_next src) m_next.
Hypothesis sim_peek : sim (s_peek src) m_peek.

Lemma sim_expect k : sim (expect eqb src k) (expect eqb machine k).
Proof.
  apply sim_handled, sim_pbind; [apply sim_unwrap, sim_next|].
  intros a. apply sim_if; [apply sim_pret | apply sim_perr].
Qed.
Lemma sim_eat k : sim (eat eqb src k) (eat eqb machine k).
Proof.
  apply sim_handled, sim_pbind; [apply sim_unwrap, sim_peek|].
  intros a. apply sim_if; [|apply sim_pret].
  apply sim_pbind; [apply sim_unwrap, sim_expect | intros _; apply sim_pret].
Qed.
Lemma sim_expect_value k w : sim (expect_value eqb src k w) (expect_value eqb machine k w).
Proof.
  apply sim_handled, sim_pbind; [apply sim_unwrap, sim_next|].
  intros a. apply sim_if; [|apply sim_perr]. apply sim_if; [apply sim_pret | apply sim_perr].
Qed.
Lemma sim_while_eat {A} n k (body : parser L A) body' :
  sim body body' -> sim (while_eat eqb src n k body) (while_eat eqb machine n k body').
Proof.
  intros H. induction n as [|n IH]; cbn [while_eat]; [apply sim_pdiverge|].
  apply sim_pbind; [apply sim_unwrap, sim_eat|]. intros b. apply sim_if; [|apply sim_pret].
  apply sim_pbind; [apply sim_unwrap, H|]. intros x.
  apply sim_pbind; [apply sim_unwrap, IH|]. intros xs. apply sim_pret.
Qed.
End Sim.

(** ** The machine's steps *)
Variable eqb : K -> K -> bool.
Hypothesis eqb_spec : forall a b, reflect (a = b) (eqb a b).

Lemma m_next_ok s t s' :
  m_next s = (Ok t, s') <->
  (exists ts e, s = (t :: ts, e) /\ s' = (ts, e)) \/
  (exists w, s = ([], Ends w) /\ t = (eos, w) /\ s' = ([], Ends [])).
Proof.
  split.
  - destruct s as [[|x ts] [w|]]; cbn; intros H; try discriminate; injection H as <- <-; eauto 10.
  - intros [(ts & e & -> & ->)|(w & -> & -> & ->)]; reflexivity.
Qed.

Lemma expect_run k w ts e : expect eqb machine k ((k, w) :: ts, e) = (Ok tt, (ts, e)).
Proof.
  unfold expect. apply handled_run. eapply plet_run; [reflexivity|]. cbn.
  destruct (eqb_spec k k); [reflexivity | congruence].
Qed.

Lemma expect_ok k s u s' : k <> eos ->
  expect eqb machine k s = (Ok u, s') -> exists w ts e, s = ((k, w) :: ts, e) /\ s' = (ts, e).
Proof.
  intros Hk H. apply handled_ok, plet_ok in H. destruct H as (t & s1 & H & H2).
  apply m_next_ok in H. destruct t as [k' w]. cbn in H2.
  destruct (eqb_spec k' k) as [->|]; [|discriminate]. injection H2 as <- <-.
  destruct H as [(ts & e & -> & ->)|(w' & -> & E & ->)]; [eauto|]. injection E as -> ->. congruence.
Qed.

Lemma eat_run k w ts e : eat eqb machine k ((k, w) :: ts, e) = (Ok true, (ts, e)).
Proof.
  unfold eat. apply handled_run. eapply plet_run; [reflexivity|]. cbn.
  destruct (eqb_spec k k); [|congruence].
  eapply plet_run; [apply expect_run | reflexivity].
Qed.

Lemma eat_skip k t ts e : fst t <> k -> eat eqb machine k (t :: ts, e) = (Ok false, (t :: ts, e)).
Proof.
  intros H. unfold eat. apply handled_run. eapply plet_run; [reflexivity|]. cbn.
  destruct (eqb_spec (fst t) k); [congruence | reflexivity].
Qed.

(** The next token, if any, is not of type [k]. *)
Definition not_next (k : K) (ts : list (K * text)) : Prop :=
  match ts with [] => True | t :: _ => fst t <> k end.

Lemma eat_ok k s b s' : k <> eos ->
  eat eqb machine k s = (Ok b, s') ->
  (b = true /\ exists w ts e, s = ((k, w) :: ts, e) /\ s' = (ts, e)) \/
  (b = false /\ s' = s /\ not_next k (fst s) /\ s <> ([], Fails)).
Proof.
  intros Hk H. apply handled_ok, plet_ok in H. destruct H as (t & s1 & H & H2).
  destruct s as [[|x ts] e]; cbn in H.
  - destruct e as [w|]; [|discriminate]. injection H as <- <-. cbn in H2.
    destruct (eqb_spec eos k); [congruence|]. injection H2 as <- <-. right. cbn. repeat split; congruence.
  - injection H as <- <-. destruct (eqb_spec (fst x) k) as [E|E].
    + apply plet_ok in H2. destruct H2 as (u & s2 & H2 & H3). injection H3 as <- <-.
      apply expect_ok in H2; [|exact Hk]. left. auto.
    + injection H2 as <- <-. right. cbn. repeat split; auto. congruence.
Qed.

Lemma expect_value_run k w ts e : expect_value eqb machine k w ((k, w) :: ts, e) = (Ok tt, (ts, e)).
Proof.
  unfold expect_value. apply handled_run. eapply plet_run; [reflexivity|]. cbn.
  destruct (eqb_spec k k); [|congruence].
  rewrite text_eqb_refl. reflexivity.
Qed.

Lemma expect_value_ok k w s u s' : k <> eos ->
  expect_value eqb machine k w s = (Ok u, s') -> exists ts e, s = ((k, w) :: ts, e) /\ s' = (ts, e).
Proof.
  intros Hk H. apply handled_ok, plet_ok in H. destruct H as (t & s1 & H & H2).
  apply m_next_ok in H. destruct t as [k' w']. cbn in H2.
  destruct (eqb_spec k' k) as [->|]; [|discriminate].
  destruct (text_eqb w' w) eqn:E; [|discriminate]. apply text_eqb_true in E. subst w'.
  injection H2 as <- <-.
  destruct H as [(ts & e & -> & ->)|(w' & -> & E & ->)]; [eauto|]. injection E as -> ->. congruence.
Qed.
End Machine.

Arguments stream : clear implicits.

(** ** A lexer as the source of tokens *)
Section Bridge.
Context {Lx T K : Type}.
Variable eos : K.
Variable lex_next lex_peek : Lx -> outcome T * Lx.
Variable skip : T -> bool.
Variable see : T -> K * text.
Variable inv spent : Lx -> Prop.
Variable left : Lx -> nat.

(** The tokens, without skipped ones, that a lexer will give *)
Inductive reads : Lx -> stream K -> Prop :=
| reads_skip l t l' s : lex_next l = (Ok t, l') -> skip t = true -> reads l' s -> reads l s
| reads_token l t l' ts e : lex_next l = (Ok t, l') -> skip t = false -> fst (see t) <> eos ->
    reads l' (ts, e) -> reads l (see t :: ts, e)
| reads_end l t l' w : lex_next l = (Ok t, l') -> skip t = false -> see t = (eos, w) -> spent l' ->
    reads l ([], Ends w)
| reads_error l e l' : lex_next l = (Err e, l') -> reads l ([], Fails).

Hypothesis inv_next : forall l t l', inv l -> lex_next l = (Ok t, l') -> inv l'.
Hypothesis peek_ok : forall l t l', inv l -> lex_next l = (Ok t, l') ->
  exists l1, lex_peek l = (Ok t, l1) /\ lex_next l1 = (Ok t, l') /\ inv l1.
Hypothesis peek_err : forall l e l', inv l -> lex_next l = (Err e, l') -> exists l1, lex_peek l = (Panic, l1).
Hypothesis spent_next : forall l, spent l ->
  exists t l', lex_next l = (Ok t, l') /\ skip t = false /\ see t = (eos, []) /\ spent l'.
Hypothesis left_skip : forall l t l', inv l -> lex_next l = (Ok t, l') -> skip t = true -> left l' < left l.

Definition R (l : Lx) (s : stream K) : Prop := inv l /\ reads l s.

Definition viewed_ (p : parser Lx T) : parser Lx (K * text) :=
  fun l => match p l with
           | (Ok t, l') => (Ok (see t), l')
           | (Err e, l') => (Err e, l')
           | (Panic, l') => (Panic, l')
           | (Diverge, l') => (Diverge, l')
           end.

Lemma spent_reads l : spent l -> reads l ([], Ends []).
Proof.
  intros H. destruct (spent_next l H) as (t & l' & E & S & V & H'). eapply reads_end; eauto.
Qed.

Lemma next_loop_sim n : forall l s, R l s -> left l < n ->
  agree R (viewed_ (handled (next_loop lex_next skip n)) l) (m_next eos s).
Proof.
  induction n as [|n IH]; intros l s [Hi Hr] Hn; [lia|].
  unfold viewed_, handled. cbn [next_loop]. unfold pbind, unwrap.
  inversion Hr as [l0 t l' s0 E Sk Hr' | l0 t l' ts e E Sk Ne Hr' | l0 t l' w E Sk V Sp | l0 e l' E];
    subst; rewrite E.
  - rewrite Sk.
    assert (left l' < n) as Hl by (pose proof (left_skip _ _ _ Hi E Sk); lia).
    specialize (IH l' s (conj (inv_next _ _ _ Hi E) Hr') Hl).
    unfold viewed_, handled in IH. exact IH.
  - rewrite Sk. cbn. split; [reflexivity|]. split; [eapply inv_next; eauto | exact Hr'].
  - rewrite Sk. cbn. split; [exact V|]. split; [eapply inv_next; eauto | apply spent_reads, Sp].
  - cbn. exact I.
Qed.

Lemma peek_loop_sim n : forall l s, R l s -> left l < n ->
  agree R (viewed_ (handled (peek_loop lex_next lex_peek skip n)) l) (m_peek eos s).
Proof.
  induction n as [|n IH]; intros l s [Hi Hr] Hn; [lia|].
  unfold viewed_, handled. cbn [peek_loop]. unfold pbind, unwrap.
  inversion Hr as [l0 t l' s0 E Sk Hr' | l0 t l' ts e E Sk Ne Hr' | l0 t l' w E Sk V Sp | l0 e l' E]; subst.
  - destruct (peek_ok _ _ _ Hi E) as (l1 & P & E1 & Hi1). rewrite P, Sk, E1.
    assert (left l' < n) as Hl by (pose proof (left_skip _ _ _ Hi E Sk); lia).
    specialize (IH l' s (conj (inv_next _ _ _ Hi E) Hr') Hl).
    unfold viewed_, handled in IH. exact IH.
  - destruct (peek_ok _ _ _ Hi E) as (l1 & P & E1 & Hi1). rewrite P, Sk. cbn.
    split; [reflexivity|]. split; [exact Hi1 | eapply reads_token; eauto].
  - destruct (peek_ok _ _ _ Hi E) as (l1 & P & E1 & Hi1). rewrite P, Sk. cbn.
    split; [exact V|]. split; [exact Hi1 | eapply reads_end; eauto].
  - destruct (peek_err _ _ _ Hi E) as (l1 & P). rewrite P. cbn. exact I.
Qed.
End Bridge.
