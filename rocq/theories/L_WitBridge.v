(** The WIT lexer, with the loops that skip whitespace and comments, as the
    source of tokens for a parser: how the parser over the lexer relates to
    the parser over the list of tokens. *)
From Coq Require Import Arith NArith ZArith String Ascii Bool List Lia.
From Verif Require Import GoBase M_Text S_Utf M_WitLex S_WitLex L_WitLex L_WitToks L_WitHist.
From Verif Require Import M_ParseBase M_WitAst M_WitParse S_WitParse L_ParseBase L_ParseTotal L_WitSim L_WitSound L_WitComplete.
Import ListNotations.
Open Scope nat_scope.

Section Bridge.
Variable U : tables.
Hypothesis HU : good_tables U.
Notation next := (M_WitLex.next U).
Notation peek := (M_WitLex.peek U).
Notation unpeek := (L_WitHist.unpeek U).
Notation W_reads := (@reads lexer token toktype EndOfStream next skipped view
  (fun l => aligned l /\ rest l = [])).
Notation W_R := (@R lexer token toktype EndOfStream next skipped view unpeek
  (fun l => aligned l /\ rest l = [])).

(** What a lexer has still to read *)
Definition ahead (l : lexer) : text :=
  match l_peek l with Some t => t_capture t ++ rest l | None => rest l end.

Lemma ahead_length l : unpeek l -> length (ahead l) <= length (l_input l).
Proof.
  intros Up. unfold ahead. destruct Up as [A|(l0 & t & A & I & E & K)].
  - rewrite (al_peek l A). unfold rest. rewrite skipn_length. lia.
  - rewrite K. destruct (next_sound U HU l0 A) as [(t0 & l1 & E0 & A0 & I0 & P & Rr & D)|(l1 & E0 & _)];
      rewrite E0 in E; inversion E; subst.
    assert (Hr : rest (set_peek l None) = rest l) by (destruct l; reflexivity).
    rewrite Hr in Rr. rewrite <- Rr, <- I. unfold rest. rewrite skipn_length. lia.
Qed.

Lemma unpeek_next l t l' : unpeek l -> next l = (Ok t, l') -> aligned l' /\ l_input l' = l_input l /\
  ahead l = t_capture t ++ rest l' /\
  ((token_text U (t_type t) (t_capture t) /\ separate U (t_type t) (t_capture t) (rest l')) \/
   (t_type t = EndOfStream /\ rest l' = [] /\ t_capture t = [])).
Proof.
  intros [A|(l0 & t0 & A & I & E & K)] H.
  - destruct (next_sound U HU l A) as [(t0 & l1 & E0 & A0 & I0 & P & Rr & D)|(l1 & E0 & _)];
      rewrite E0 in H; inversion H; subst.
    unfold ahead. rewrite (al_peek l A). auto.
  - unfold M_WitLex.next in H. rewrite K in H. inversion H; subst.
    destruct (next_sound U HU l0 A) as [(t0 & l1 & E0 & A0 & I0 & P & Rr & D)|(l1 & E0 & _)];
      rewrite E0 in E; inversion E; subst.
    unfold ahead. rewrite K. assert (Hr : rest (set_peek l None) = rest l) by (destruct l; reflexivity).
    rewrite Hr in *. auto.
Qed.

Lemma unpeek_inv_next l t l' : unpeek l -> next l = (Ok t, l') -> unpeek l'.
Proof. intros Up H. left. now apply (unpeek_next l t l'). Qed.

Lemma unpeek_peek l t l' : unpeek l -> next l = (Ok t, l') ->
  exists l1, peek l = (Ok t, l1) /\ next l1 = (Ok t, l') /\ unpeek l1.
Proof.
  intros Up H. destruct (l_peek l) as [u|] eqn:K.
  - exists l. unfold M_WitLex.peek. unfold M_WitLex.next in H |- *. rewrite K in *. inversion H; subst. auto.
  - destruct Up as [A|(l0 & t0 & A & I & E & K')]; [|congruence].
    destruct (next_aligned_ok U HU _ _ _ A H) as [A' I'].
    pose proof (peek_next U l K) as P. rewrite H in P. destruct P as [P1 P2].
    exists (set_peek l' (Some t)). split; [exact P1|]. split; [apply P2, A'|].
    right. exists l, t. split; [exact A|]. cbn. split; [congruence|]. split; [|reflexivity].
    rewrite set_peek_twice by apply A'. exact H.
Qed.

Lemma unpeek_err l e l' : unpeek l -> next l = (Err e, l') -> exists l1, peek l = (Panic, l1).
Proof.
  intros Up H. destruct (l_peek l) as [u|] eqn:K.
  - unfold M_WitLex.next in H. rewrite K in H. discriminate.
  - pose proof (peek_next U l K) as P. rewrite H in P. eauto.
Qed.

Lemma text_nonempty ty w : token_text U ty w -> w <> [].
Proof. intros H ->. exact (token_nonempty U ty H). Qed.

Lemma done_next l : aligned l /\ rest l = [] ->
  exists t l', next l = (Ok t, l') /\ skipped t = false /\ view t = (EndOfStream, []) /\ aligned l' /\ rest l' = [].
Proof.
  intros [A Hr]. destruct (next_sound U HU l A) as [(t & l' & E & A' & I & P & Rr & D)|(l' & E & D)].
  - rewrite Hr in Rr. symmetry in Rr. apply app_eq_nil in Rr. destruct Rr as [R1 R2].
    exists t, l'. split; [exact E|]. destruct D as [[D _]|[D _]].
    + exfalso. rewrite R1 in D. now apply text_nonempty in D.
    + unfold skipped, view. rewrite D, R1. auto.
  - exfalso. unfold M_WitLex.next in E. rewrite (al_peek l A) in E.
    destruct (next_raw_shape U HU l (al_inside l A)) as [[Er E']|(w & s & Er & Nw & _)].
    + rewrite E' in E. unfold make_token in E. destruct (advance _ _ _); discriminate.
    + rewrite Hr in Er. symmetry in Er. apply app_eq_nil in Er. destruct Er. congruence.
Qed.

Lemma skip_shortens l t l' : unpeek l -> next l = (Ok t, l') -> skipped t = true ->
  length (ahead l') < length (ahead l).
Proof.
  intros Up H S. destruct (unpeek_next l t l' Up H) as (A' & I & Ha & D).
  unfold ahead at 1. rewrite (al_peek l' A'), Ha, app_length.
  destruct D as [[D _]|[D _]]; [|unfold skipped in S; rewrite D in S; discriminate].
  apply text_nonempty in D. destruct (t_capture t); [congruence|]. cbn. lia.
Qed.

Lemma wit_next_sim : sim W_R (s_next (wit_source U)) (m_next EndOfStream).
Proof.
  intros l s H. cbn [s_next wit_source]. unfold viewed, handled.
  pose proof (next_loop_sim EndOfStream next skipped view unpeek
    (fun l => aligned l /\ rest l = []) (fun l => length (ahead l))
    unpeek_inv_next done_next skip_shortens (rounds l) l s H) as X.
  apply X. unfold rounds. destruct H as [Up _]. pose proof (ahead_length l Up). lia.
Qed.

Lemma wit_peek_sim : sim W_R (s_peek (wit_source U)) (m_peek EndOfStream).
Proof.
  intros l s H. cbn [s_peek wit_source]. unfold viewed, handled.
  pose proof (peek_loop_sim EndOfStream next peek skipped view unpeek
    (fun l => aligned l /\ rest l = []) (fun l => length (ahead l))
    unpeek_inv_next unpeek_peek unpeek_err skip_shortens (rounds l) l s H) as X.
  apply X. unfold rounds. destruct H as [Up _]. pose proof (ahead_length l Up). lia.
Qed.

(** ** The tokens of a text *)
Lemma significant_length ts : length (significant ts) <= length ts.
Proof. unfold significant. induction ts as [|t ts IH]; cbn; [lia|]. destruct (negb _); cbn; lia. Qed.

Lemma separated_length ts : separated U ts -> length ts <= length (text_of ts).
Proof.
  induction ts as [|[ty w] ts IH]; cbn [separated length]; [lia|]. intros (H & _ & Hc). specialize (IH Hc).
  change (text_of ((ty, w) :: ts)) with (w ++ text_of ts). rewrite app_length. apply text_nonempty in H. destruct w; [congruence|]. cbn. lia.
Qed.
Lemma separated_valid ts : separated U ts -> Forall (valid U) ts.
Proof. induction ts as [|[ty w] ts IH]; cbn; constructor; [apply H | apply IH, H]. Qed.
Lemma significant_valid ts : Forall (valid U) ts -> Forall (valid U) (significant ts).
Proof. intros H. apply incl_Forall with ts; [apply incl_filter | exact H]. Qed.
Lemma valid_no_end ts : Forall (valid U) ts -> Forall (fun t => fst t <> EndOfStream) ts.
Proof. apply Forall_impl. intros [k w] H E. cbn in E. subst k. exact H. Qed.

Lemma skipped_ok t : skipped t = space_or_comment (fst (view t)).
Proof. unfold skipped. cbn. destruct (t_type t); reflexivity. Qed.

(** Reading a text made of tokens *)
Lemma reads_text ts : forall l, aligned l -> rest l = text_of ts -> separated U ts -> W_reads l (significant ts, Ends []).
Proof.
  induction ts as [|[ty w] ts IH]; intros l A Hr Hc.
  - apply (spent_reads EndOfStream next skipped view _ done_next). auto.
  - destruct Hc as (Ht & Hs & Hc). unfold text_of in Hr. cbn [map concat fst snd] in Hr.
    destruct (next_complete U HU l ty w _ A Hr Ht Hs) as (t & l1 & E & T1 & T2 & T3 & A1 & I & R1).
    specialize (IH l1 A1 R1 Hc). cbn [significant filter fst].
    assert (V : view t = (ty, w)) by (unfold view; now rewrite T1, T2).
    destruct (space_or_comment ty) eqn:S; cbn [negb].
    + eapply reads_skip; [exact E | rewrite skipped_ok, V; exact S | exact IH].
    + rewrite <- V. eapply reads_token; [exact E | rewrite skipped_ok, V; exact S | | exact IH].
      rewrite V. cbn. intros ->. exact Ht.
Qed.

(** Every lexer reads some tokens. *)
Lemma reads_some n : forall l, aligned l -> length (rest l) <= n ->
  exists ts e, W_reads l (significant ts, e) /\ Forall (valid U) ts /\ wfine e /\ length ts <= length (rest l) /\
    (e <> Fails -> rest l = text_of ts /\ separated U ts).
Proof.
  induction n as [|n IH]; intros l A Hn;
    (destruct (next_sound U HU l A) as [(t & l' & E & A' & I' & P & Rr & D)|(l' & E & D)];
     [|exists [], Fails; split; [now apply reads_error with EOther l'|]; repeat split; cbn; try lia; try constructor; congruence]);
    (destruct D as [[D Hs]|(D & R' & C)];
     [|exists [], (Ends (t_capture t)); rewrite Rr, R', C;
       split; [eapply reads_end; [exact E | unfold skipped; now rewrite D | unfold view; now rewrite D, C | auto]|];
       repeat split; cbn; try constructor; try lia]).
  - exfalso. apply text_nonempty in D. rewrite Rr, app_length in Hn. destruct (t_capture t); [congruence|]. cbn in Hn. lia.
  - assert (Hl : length (rest l') < length (rest l)).
    { pose proof (text_nonempty _ _ D). rewrite Rr, app_length. destruct (t_capture t); [congruence|]. cbn. lia. }
    destruct (IH l' A' ltac:(lia)) as (ts & e & H1 & H2 & H3 & H4 & H5).
    exists (view t :: ts), e. split; [|split; [|split; [|split]]].
    + cbn [significant filter view fst]. destruct (space_or_comment (t_type t)) eqn:S; cbn [negb].
      * eapply reads_skip; [exact E | rewrite skipped_ok; exact S | exact H1].
      * change (t_type t, t_capture t) with (view t).
        eapply reads_token; [exact E | rewrite skipped_ok; exact S | | exact H1].
        cbn. intros Q. rewrite Q in D. exact D.
    + constructor; [exact D | exact H2].
    + exact H3.
    + cbn [length]. lia.
    + intros He. destruct (H5 He) as [H6 H7]. split.
      * unfold text_of in *. cbn [map concat view snd]. now rewrite Rr, H6.
      * cbn [separated view]. rewrite H6 in Hs. auto.
Qed.
End Bridge.
