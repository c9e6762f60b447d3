(** The parser that notes the last token, over the lexer, does what it does
    over the machine that counts. *)
From Coq Require Import Arith NArith ZArith String Ascii Bool List Lia.
From Verif Require Import GoBase M_Text S_Utf M_WitLex S_WitLex L_WitLex L_WitToks L_WitHist.
From Verif Require Import M_ParseBase M_WitAst M_WitParse S_WitParse L_ParseBase L_ParseTotal L_WitSim L_WitSound L_WitComplete L_WitBridge.
From Verif Require Import M_WitLocate S_WitStop L_WitRel L_WitStop.
Import ListNotations.
Open Scope nat_scope.
Open Scope parse_scope.

(** ** Noting changes nothing. *)
Section Plain.
Variable U : tables.
Definition plain (A : Type) (p : parser lexer A) (q : parser noted A) : Prop :=
  forall s, fst (q s) = fst (p (no_lexer s)) /\ no_lexer (snd (q s)) = snd (p (no_lexer s)).
Lemma plain_pret A (a : A) : plain A (pret a) (pret a).
Proof. intros s. split; reflexivity. Qed.
Lemma plain_perr A : plain A perr perr.
Proof. intros s. split; reflexivity. Qed.
Lemma plain_pdiverge A : plain A pdiverge pdiverge.
Proof. intros s. split; reflexivity. Qed.
Lemma plain_note p : plain _ (viewed p) (note p).
Proof. intros s. unfold viewed, note. destruct (p (no_lexer s)) as [[| | |] ?]; split; reflexivity. Qed.
Lemma plain_handled A p q : plain A p q -> plain A (handled p) (handled q).
Proof.
  intros H s. destruct (H s) as [H1 H2]. unfold handled. destruct (p (no_lexer s)) as [[| | |] ?], (q s) as [[| | |] ?]; cbn in *;
    try discriminate; auto.
Qed.
Lemma plain_bind A B p q (f : A -> _) g : plain A p q -> (forall a, plain B (f a) (g a)) -> plain B (pbind (unwrap p) f) (pbind (unwrap q) g).
Proof.
  intros H F s. destruct (H s) as [H1 H2]. rewrite !plet_eq. destruct (p (no_lexer s)) as [[| | |] ?], (q s) as [[| | |] ?]; cbn in *;
    try discriminate; auto. inversion H1; subst. apply F.
Qed.
Lemma plain_trial A p q : plain (option A) p q -> plain (option A) (trial p) (trial q).
Proof.
  intros H s. destruct (H s) as [H1 H2]. unfold trial. destruct (p (no_lexer s)) as [[[a|]| | |] ?], (q s) as [[[b|]| | |] ?]; cbn in *;
    try discriminate; auto.
Qed.
Lemma same_zero' (rel : forall A, parser lexer A -> parser noted A -> Prop) x : 0 = x -> x = 0 \/ forall A (q : parser noted A), rel A pdiverge q.
Proof. auto. Qed.
Lemma plain_ast n : plain _ (parse_ast (wit_source U) n) (parse_ast (noting U) n).
Proof.
  assert (M : forall n n', n = n' -> plain _ (parse_method (wit_source U) n) (parse_method (noting U) n')).
  { apply (rel_method_trial (wit_source U) (noting U) plain (plain_note _) (plain_note _) plain_pret plain_perr plain_pdiverge plain_handled plain_bind
      eq (same_zero' plain) same_S plain_trial). }
  assert (X : forall n n', n = n' -> plain _ (parse_extern (wit_source U) n) (parse_extern (noting U) n')).
  { apply (rel_extern_trial (wit_source U) (noting U) plain (plain_note _) (plain_note _) plain_pret plain_perr plain_pdiverge plain_handled plain_bind
      eq (same_zero' plain) same_S M plain_trial). }
  apply (rel_ast (wit_source U) (noting U) plain (plain_note _) (plain_note _) plain_pret plain_perr plain_pdiverge plain_handled plain_bind
      eq (same_zero' plain) same_S M X). reflexivity.
Qed.
Lemma parse_at input : fst (ParseAt U input) = Parse U input /\
  no_lexer (snd (ParseAt U input)) = snd (parse_ast (wit_source U) (S (rounds (new_lexer input))) (new_lexer input)).
Proof. apply (plain_ast (S (rounds (new_lexer input))) {| no_lexer := new_lexer input; no_token := None |}). Qed.
End Plain.

(** ** What a lexer tells *)
Section Tells.
Variable U : tables.
Hypothesis HU : good_tables U.
Notation next := (M_WitLex.next U).
Notation peek := (M_WitLex.peek U).
Notation unpeek := (L_WitHist.unpeek U).

(** All tokens to come, and the token at the end, if there is no error *)
Inductive tells : lexer -> list token -> option token -> Prop :=
| tells_token l t l' F E : next l = (Ok t, l') -> t_type t <> EndOfStream -> tells l' F E -> tells l (t :: F) E
| tells_end l t l' : next l = (Ok t, l') -> t_type t = EndOfStream -> tells l [] (Some t)
| tells_error l l' : next l = (Err EOther, l') -> tells l [] None.

Definition sig (F : list token) : list token := filter (fun t => negb (skipped t)) F.
Lemma sig_view F : map view (sig F) = significant (map view F).
Proof.
  unfold sig, significant. induction F as [|t F IH]; [reflexivity|]. cbn [filter map]. rewrite skipped_ok.
  destruct (space_or_comment (fst (view t))); cbn [negb filter map]; now rewrite IH.
Qed.

Definition here (l : lexer) : Prop := inv l /\ unpeek l.
Lemma here_next l t l' : here l -> next l = (Ok t, l') ->
  here l' /\ aligned l' /\ l_input l' = l_input l /\ good_token (l_input l) t.
Proof.
  intros [I Up] E. destruct (unpeek_next U HU l t l' Up E) as (A & In & _).
  destruct (next_good U HU l I) as [(t0 & l0 & E0 & G & _ & _ & I' & _)|(l0 & E0 & _)]; rewrite E0 in E; inversion E; subst.
  split; [split; [exact I'|now left]|]. auto.
Qed.
Lemma here_error l : here l -> forall e l', next l = (Err e, l') -> e = EOther.
Proof.
  intros [I Up] e l' E. destruct (next_good U HU l I) as [(t0 & l0 & E0 & _)|(l0 & E0 & _)]; rewrite E0 in E; inversion E; reflexivity.
Qed.
Lemma here_result l : here l -> (exists t l', next l = (Ok t, l')) \/ exists l', next l = (Err EOther, l').
Proof. intros [I Up]. destruct (next_good U HU l I) as [(t0 & l0 & E0 & _)|(l0 & E0 & _)]; eauto. Qed.
Lemma here_ahead l : here l -> length (ahead l) <= length (l_input l).
Proof. intros [I Up]. now apply (ahead_length U HU). Qed.

Lemma end_empty l t l' : here l -> next l = (Ok t, l') -> t_type t = EndOfStream -> t_capture t = [].
Proof.
  intros [I Up] N T. destruct (unpeek_next U HU l t l' Up N) as (_ & _ & _ & [[D _]|(_ & _ & C)]); [|exact C].
  rewrite T in D. destruct D.
Qed.

(** After the end there is the end again. *)
Lemma tells_after_end l t l' : here l -> next l = (Ok t, l') -> t_type t = EndOfStream ->
  exists t', tells l' [] (Some t').
Proof.
  intros H E T. destruct (here_next l t l' H E) as (H' & A' & I' & _). destruct H as [I Up].
  destruct (unpeek_next U HU l t l' Up E) as (_ & _ & _ & [[D _]|(_ & R & _)]); [rewrite T in D; destruct D|].
  destruct (done_next U HU l' (conj A' R)) as (t' & l2 & E' & _ & V & _). exists t'. inversion V.
  eapply tells_end; eauto.
Qed.

(** What Peek leaves *)
Lemma here_peek l t l' : here l -> next l = (Ok t, l') -> exists l1, peek l = (Ok t, l1) /\ next l1 = (Ok t, l') /\ here l1 /\ l_input l1 = l_input l.
Proof.
  intros [I Up] E. destruct (unpeek_peek U HU l t l' Up E) as (l1 & P & N & Up1). exists l1.
  destruct (peek_good U HU l I) as [(t0 & l0 & E0 & _ & _ & In & I' & _)|(l0 & E0 & _)]; rewrite E0 in P; inversion P; subst.
  split; [exact E0|]. split; [exact N|]. split; [now split|exact In].
Qed.

(** The token at the end of the input *)
Definition end_token (input : text) (t : token) : Prop :=
  t_type t = EndOfStream /\ t_capture t = [] /\ good_token input t.

(** The loop of next *)
Lemma next_tells n : forall l F E, here l -> tells l F E -> length (ahead l) < n ->
  match sig F with
  | t :: _ => exists F0 F1 l', F = F0 ++ t :: F1 /\ sig F0 = [] /\ skipped t = false /\ next_loop next skipped n l = (Ok t, l') /\
      tells l' F1 E /\ here l' /\ l_input l' = l_input l
  | [] => match E with
      | Some t => exists l' t', next_loop next skipped n l = (Ok t, l') /\ tells l' [] (Some t') /\
          here l' /\ l_input l' = l_input l /\ end_token (l_input l) t
      | None => exists l', next_loop next skipped n l = (Panic, l')
      end
  end.
Proof.
  induction n as [|n IH]; intros l F E H T Hn; [lia|]. cbn [next_loop]. rewrite plet_eq.
  destruct T as [l t l' F E N Ht T|l t l' N Ht|l l' N]; rewrite N.
  - destruct (here_next l t l' H N) as (H' & A' & I' & G). cbn [sig filter]. fold (sig F). destruct (skipped t) eqn:S; cbn [negb].
    + pose proof (skip_shortens U HU l t l' (proj2 H) N S) as Sh. specialize (IH l' F E H' T ltac:(lia)).
      destruct (sig F) as [|u r] eqn:SF.
      * destruct E as [u|].
        -- destruct IH as (l2 & t2 & X & T2 & H2 & I2 & G2). rewrite I' in *. exists l2, t2. auto.
        -- exact IH.
      * destruct IH as (F0 & F1 & l2 & -> & S0 & S1 & X & T2 & H2 & I2). rewrite I' in *. exists (t :: F0), F1, l2. cbn [sig filter]. rewrite S. cbn [negb].
        repeat (split; [auto; fail|]). auto.
    + exists [], F, l'. repeat (split; [auto; fail|]). auto.
  - destruct (here_next l t l' H N) as (H' & A' & I' & G). cbn [sig filter]. unfold skipped. rewrite Ht. cbn.
    destruct (tells_after_end l t l' H N Ht) as (t' & T'). exists l', t'. split; [reflexivity|]. split; [exact T'|]. split; [exact H'|].
    split; [exact I'|]. split; [exact Ht|]. split; [exact (end_empty l t l' H N Ht)|exact G].
  - cbn [sig filter]. eauto.
Qed.

(** The loop of peek *)
Lemma peek_tells n : forall l F E, here l -> tells l F E -> length (ahead l) < n ->
  match sig F with
  | t :: _ => exists F0 F1 l', F = F0 ++ t :: F1 /\ sig F0 = [] /\ skipped t = false /\ peek_loop next peek skipped n l = (Ok t, l') /\
      tells l' (t :: F1) E /\ here l' /\ l_input l' = l_input l
  | [] => match E with
      | Some t => exists l', peek_loop next peek skipped n l = (Ok t, l') /\ tells l' [] (Some t) /\
          here l' /\ l_input l' = l_input l /\ end_token (l_input l) t
      | None => exists l', peek_loop next peek skipped n l = (Panic, l')
      end
  end.
Proof.
  induction n as [|n IH]; intros l F E H T Hn; [lia|]. cbn [peek_loop]. rewrite plet_eq.
  destruct T as [l t l' F E N Ht T|l t l' N Ht|l l' N].
  - destruct (here_next l t l' H N) as (H' & A' & I' & G). destruct (here_peek l t l' H N) as (l1 & P & N1 & H1 & I1). rewrite P.
    cbn [sig filter]. fold (sig F). destruct (skipped t) eqn:S; cbn [negb].
    + pose proof (skip_shortens U HU l t l' (proj2 H) N S) as Sh. specialize (IH l' F E H' T ltac:(lia)).
      rewrite plet_eq, N1. destruct (sig F) as [|u r] eqn:SF.
      * destruct E as [u|].
        -- destruct IH as (l2 & X & T2 & H2 & I2 & G2). rewrite I' in *. exists l2. auto.
        -- exact IH.
      * destruct IH as (F0 & F1 & l2 & -> & S0 & S1 & X & T2 & H2 & I2). rewrite I' in *. exists (t :: F0), F1, l2. cbn [sig filter]. rewrite S. cbn [negb].
        repeat (split; [auto; fail|]). auto.
    + exists [], F, l1. repeat (split; [auto; fail|]). split; [|auto]. eapply tells_token; eauto.
  - destruct (here_next l t l' H N) as (H' & A' & I' & G). destruct (here_peek l t l' H N) as (l1 & P & N1 & H1 & I1). rewrite P.
    cbn [sig filter]. unfold skipped. rewrite Ht. exists l1. split; [reflexivity|]. split; [eapply tells_end; eauto|]. split; [exact H1|]. split; [exact I1|].
    split; [exact Ht|]. split; [exact (end_empty l t l' H N Ht)|exact G].
  - destruct (unpeek_err U l EOther l' (proj2 H) N) as (l1 & P). rewrite P. cbn [sig filter]. eauto.
Qed.

(** ** The parser over the lexer and over the machine that counts *)
Section Count.
Variables (input : text) (G0 : list token) (E0 : option token).
Definition ending_of (E : option token) : ending := match E with Some _ => Ends [] | None => Fails end.

(** The note is of the token last looked at. *)
Definition look (s : noted) (k : nat) : Prop :=
  forall i, k = S i ->
  match nth_error (sig G0) i with
  | Some t => no_token s = Some t
  | None => match E0 with
            | Some _ => exists t, no_token s = Some t /\ end_token input t
            | None => i = length (sig G0) /\ no_token s = None
            end
  end.
Definition at_token (l : lexer) (c : cst) : Prop :=
  (exists F0 F, G0 = F0 ++ F /\ tells l F E0 /\ c_ts c = map view (sig F) /\ c_end c = ending_of E0 /\ c_n c = length (sig F0)) \/
  (exists t, tells l [] (Some t) /\ E0 <> None /\ c_ts c = [] /\ c_end c = Ends [] /\ length (sig G0) < c_n c).
Definition both (s : noted) (c : cst) : Prop :=
  here (no_lexer s) /\ l_input (no_lexer s) = input /\ at_token (no_lexer s) c /\ look s (c_k c).

Definition notes (A : Type) (p : parser noted A) (q : parser cst A) : Prop :=
  forall s c, both s c ->
  match p s, q c with
  | (Ok a, s'), (Ok b, c') => a = b /\ both s' c'
  | (Err e, s'), (Err e', c') => look s' (c_k c')
  | (Panic, s'), (Panic, c') => look s' (c_k c')
  | (Diverge, _), (Diverge, _) => True
  | _, _ => False
  end.
Lemma notes_pret A (a : A) : notes A (pret a) (pret a).
Proof. intros s c B. cbn. auto. Qed.
Lemma notes_perr A : notes A perr perr.
Proof. intros s c B. cbn. apply B. Qed.
Lemma notes_pdiverge A : notes A pdiverge pdiverge.
Proof. intros s c B. exact Logic.I. Qed.
Lemma notes_handled A p q : notes A p q -> notes A (handled p) (handled q).
Proof.
  intros H s c B. specialize (H s c B). unfold handled. destruct (p s) as [[| | |] ?], (q c) as [[| | |] ?]; auto; contradiction.
Qed.
Lemma notes_bind A B p q (f : A -> _) g : notes A p q -> (forall a, notes B (f a) (g a)) -> notes B (pbind (unwrap p) f) (pbind (unwrap q) g).
Proof.
  intros H F s c X. specialize (H s c X). rewrite !plet_eq. destruct (p s) as [[| | |] ?], (q c) as [[| | |] ?]; auto; try contradiction.
  destruct H as [-> H]. now apply F.
Qed.
Lemma notes_trial A p q : notes (option A) p q -> notes (option A) (trial p) (trial q).
Proof.
  intros H s c B. specialize (H s c B). unfold trial. destruct (p s) as [[[a|]| | |] ?], (q c) as [[[b|]| | |] ?]; auto; try contradiction;
    destruct H as [H H']; try discriminate; auto.
Qed.

Lemma sig_app F F' : sig (F ++ F') = sig F ++ sig F'.
Proof. apply filter_app. Qed.
Lemma rounds_ahead l : here l -> length (ahead l) < rounds l.
Proof. intros H. unfold rounds. pose proof (here_ahead l H). lia. Qed.
Lemma nth_mid {A} (l : list A) x r : nth_error (l ++ x :: r) (length l) = Some x.
Proof. rewrite nth_error_app2, Nat.sub_diag by lia. reflexivity. Qed.

Lemma look_ends s k t : E0 <> None -> length (sig G0) <= k -> no_token s = Some t -> end_token input t -> look s (S k).
Proof.
  intros HE L N T i Ei. injection Ei as <-. rewrite (proj2 (nth_error_None _ _) L). destruct E0; [eauto|congruence].
Qed.

Lemma notes_next : notes _ (s_next (noting U)) (s_next counter).
Proof.
  intros s c (H & I & A & L). cbn [s_next noting counter]. unfold note, handled, c_next.
  destruct c as [cts ce cn ck]. unfold at_token in A. cbn [c_ts c_end c_n c_k] in *.
  destruct A as [(F0 & F & HG & T & -> & -> & ->)|(t & T & HE & -> & -> & Hn)].
  - pose proof (next_tells (rounds (no_lexer s)) _ _ _ H T (rounds_ahead _ H)) as X. destruct (sig F) as [|t r] eqn:SF.
    + cbn [map]. destruct E0 as [t|] eqn:HE; cbn [ending_of].
      * destruct X as (l' & t' & -> & T' & H' & I' & Te). split; [unfold view; destruct Te as (-> & -> & _); reflexivity|].
        assert (Hl : length (sig G0) = length (sig F0)) by (rewrite HG, sig_app, SF, app_nil_r; reflexivity).
        split; [exact H'|]. split; [cbn; congruence|]. split.
        -- right. exists t'. cbn. repeat (split; [auto; fail|]). split; [congruence|]. repeat (split; [auto; fail|]). lia.
        -- cbn [c_k]. eapply look_ends; [congruence|lia|reflexivity|congruence].
      * destruct X as (l' & ->). cbn [c_k]. intros i Ei. injection Ei as <-. rewrite HE, HG, sig_app, SF, app_nil_r.
        rewrite (proj2 (nth_error_None _ _) (le_n _)). auto.
    + destruct X as (F1 & F2 & l' & HF & S1 & S2 & -> & T' & H' & I'). cbn [map]. subst F.
      rewrite sig_app, S1 in SF. cbn [app sig filter] in SF. rewrite S2 in SF. cbn [negb] in SF. injection SF as <-. fold (sig F2).
      split; [reflexivity|]. split; [exact H'|]. split; [cbn; congruence|]. split.
      * left. exists (F0 ++ F1 ++ [t]), F2. cbn. rewrite <- !app_assoc. repeat (split; [auto; fail|]).
        rewrite !sig_app, S1. cbn [sig filter]. rewrite S2. cbn. rewrite app_length. cbn. lia.
      * cbn [c_k]. intros i Ei. injection Ei as <-. rewrite HG, !sig_app, S1. cbn [app sig filter]. rewrite S2. cbn [negb]. rewrite nth_mid. reflexivity.
  - pose proof (next_tells (rounds (no_lexer s)) _ _ _ H T (rounds_ahead _ H)) as X. cbn [sig filter] in X.
    destruct X as (l' & t' & -> & T' & H' & I' & Te). split; [unfold view; destruct Te as (-> & -> & _); reflexivity|].
    split; [exact H'|]. split; [cbn; congruence|]. split.
    + right. exists t'. cbn. repeat (split; [auto; fail|]). lia.
    + cbn [c_k]. eapply look_ends; [exact HE|lia|reflexivity|congruence].
Qed.
Lemma notes_peek : notes _ (s_peek (noting U)) (s_peek counter).
Proof.
  intros s c (H & I & A & L). cbn [s_peek noting counter]. unfold note, handled, c_peek.
  destruct c as [cts ce cn ck]. unfold at_token in A. cbn [c_ts c_end c_n c_k] in *.
  destruct A as [(F0 & F & HG & T & -> & -> & ->)|(t & T & HE & -> & -> & Hn)].
  - pose proof (peek_tells (rounds (no_lexer s)) _ _ _ H T (rounds_ahead _ H)) as X. destruct (sig F) as [|t r] eqn:SF.
    + cbn [map]. destruct E0 as [t|] eqn:HE; cbn [ending_of].
      * destruct X as (l' & -> & T' & H' & I' & Te). split; [unfold view; destruct Te as (-> & -> & _); reflexivity|].
        assert (Hl : length (sig G0) = length (sig F0)) by (rewrite HG, sig_app, SF, app_nil_r; reflexivity).
        split; [exact H'|]. split; [cbn; congruence|]. split.
        -- left. exists (F0 ++ F), []. cbn. rewrite app_nil_r, HE, <- HG. repeat (split; [auto; fail|]). lia.
        -- cbn [c_k]. eapply look_ends; [congruence|lia|reflexivity|congruence].
      * destruct X as (l' & ->). cbn [c_k]. intros i Ei. injection Ei as <-. rewrite HE, HG, sig_app, SF, app_nil_r.
        rewrite (proj2 (nth_error_None _ _) (le_n _)). auto.
    + destruct X as (F1 & F2 & l' & HF & S1 & S2 & -> & T' & H' & I'). cbn [map]. subst F.
      rewrite sig_app, S1 in SF. cbn [app sig filter] in SF. rewrite S2 in SF. cbn [negb] in SF. injection SF as <-. fold (sig F2).
      split; [reflexivity|]. split; [exact H'|]. split; [cbn; congruence|]. split.
      * left. exists (F0 ++ F1), (t :: F2). cbn. rewrite <- !app_assoc, S2. repeat (split; [auto; fail|]).
        rewrite !sig_app, S1. cbn. now rewrite app_nil_r.
      * cbn [c_k]. intros i Ei. injection Ei as <-. rewrite HG, !sig_app, S1. cbn [app sig filter]. rewrite S2. cbn [negb]. rewrite nth_mid. reflexivity.
  - pose proof (peek_tells (rounds (no_lexer s)) _ _ _ H T (rounds_ahead _ H)) as X. cbn [sig filter] in X.
    destruct X as (l' & -> & T' & H' & I' & Te). split; [unfold view; destruct Te as (-> & -> & _); reflexivity|].
    split; [exact H'|]. split; [cbn; congruence|]. split.
    + right. exists t. cbn. repeat (split; [auto; fail|]). lia.
    + cbn [c_k]. eapply look_ends; [exact HE|lia|reflexivity|congruence].
Qed.

Lemma same_zero'' (rel : forall A, parser noted A -> parser cst A -> Prop) x : 0 = x -> x = 0 \/ forall A (q : parser cst A), rel A pdiverge q.
Proof. auto. Qed.
Lemma notes_ast n : notes _ (parse_ast (noting U) n) (parse_ast counter n).
Proof.
  assert (M : forall n n', n = n' -> notes _ (parse_method (noting U) n) (parse_method counter n')).
  { apply (rel_method_trial (noting U) counter notes notes_next notes_peek notes_pret notes_perr notes_pdiverge notes_handled notes_bind
      eq (same_zero'' notes) same_S notes_trial). }
  assert (X : forall n n', n = n' -> notes _ (parse_extern (noting U) n) (parse_extern counter n')).
  { apply (rel_extern_trial (noting U) counter notes notes_next notes_peek notes_pret notes_perr notes_pdiverge notes_handled notes_bind
      eq (same_zero'' notes) same_S M notes_trial). }
  apply (rel_ast (noting U) counter notes notes_next notes_peek notes_pret notes_perr notes_pdiverge notes_handled notes_bind
      eq (same_zero'' notes) same_S M X). reflexivity.
Qed.
End Count.
End Tells.
