(** The WAT lexer, with the loops that skip whitespace and comments, as the
    source of tokens for a parser: how the parser over the lexer relates to
    the parser over the list of tokens. *)
From Coq Require Import Arith NArith ZArith String Ascii Bool List Lia.
From Verif Require Import GoBase M_Text M_WatLex S_WatLex L_WatLex L_WatTokens L_WatNum P_WatLex.
From Verif Require Import M_ParseBase M_WatAst M_WatParse S_WatParse L_ParseBase L_ParseTotal L_WatTotal.
Import ListNotations.
Open Scope nat_scope.

Notation W_reads := (@reads lexer token toktype EndOfStream next skipped view
  (fun l => aligned l /\ rest_of l = [])).
Notation W_R := (@R lexer token toktype EndOfStream next skipped view unpeek
  (fun l => aligned l /\ rest_of l = [])).

(** What a lexer has still to read *)
Definition ahead (l : lexer) : text :=
  match l_peek l with Some t => t_capture t ++ rest_of l | None => rest_of l end.

Lemma ahead_length l : unpeek l -> length (ahead l) <= length (l_input l).
Proof.
  intros U. unfold ahead. destruct U as [A|(l0 & t & A & I & E & K)].
  - rewrite (al_peek l A). unfold rest_of. rewrite skipn_length. lia.
  - rewrite K. destruct (next_sound l0 A) as [(t0 & l1 & E0 & A0 & I0 & P & Rr & D)|(l1 & E0 & _)];
      rewrite E0 in E; inversion E; subst.
    assert (Hr : rest_of (set_peek l None) = rest_of l) by (destruct l; reflexivity).
    rewrite Hr in Rr. rewrite <- Rr, <- I. unfold rest_of. rewrite skipn_length. lia.
Qed.

Lemma unpeek_next l t l' : unpeek l -> next l = (Ok t, l') -> aligned l' /\ l_input l' = l_input l /\
  ahead l = t_capture t ++ rest_of l' /\
  ((token_text (t_type t) (t_capture t) /\ separate (t_type t) (rest_of l')) \/
   (t_type t = EndOfStream /\ rest_of l' = [] /\ (t_capture t = [] \/ unfinished (t_capture t)))).
Proof.
  intros [A|(l0 & t0 & A & I & E & K)] H.
  - destruct (next_sound l A) as [(t0 & l1 & E0 & A0 & I0 & P & Rr & D)|(l1 & E0 & _)];
      rewrite E0 in H; inversion H; subst.
    unfold ahead. rewrite (al_peek l A). auto.
  - unfold next in H. rewrite K in H. inversion H; subst.
    destruct (next_sound l0 A) as [(t0 & l1 & E0 & A0 & I0 & P & Rr & D)|(l1 & E0 & _)];
      rewrite E0 in E; inversion E; subst.
    unfold ahead. rewrite K. assert (Hr : rest_of (set_peek l None) = rest_of l) by (destruct l; reflexivity).
    rewrite Hr in *. auto.
Qed.

Lemma unpeek_inv_next l t l' : unpeek l -> next l = (Ok t, l') -> unpeek l'.
Proof. intros U H. left. now apply (unpeek_next l t l'). Qed.

Lemma unpeek_peek l t l' : unpeek l -> next l = (Ok t, l') ->
  exists l1, peek l = (Ok t, l1) /\ next l1 = (Ok t, l') /\ unpeek l1.
Proof.
  intros U H. destruct (l_peek l) as [u|] eqn:K.
  - exists l. unfold peek. unfold next in H |- *. rewrite K in *. inversion H; subst. auto.
  - destruct U as [A|(l0 & t0 & A & I & E & K')]; [|congruence].
    destruct (next_aligned_ok _ _ _ A H) as [A' I'].
    pose proof (peek_next l K) as P. rewrite H in P. destruct P as [P1 P2].
    exists (set_peek l' (Some t)). split; [exact P1|]. split; [apply P2, A'|].
    right. exists l, t. split; [exact A|]. cbn. split; [congruence|]. split; [|reflexivity].
    rewrite set_peek_twice by apply A'. exact H.
Qed.

Lemma unpeek_err l e l' : unpeek l -> next l = (Err e, l') -> exists l1, peek l = (Panic, l1).
Proof.
  intros U H. destruct (l_peek l) as [u|] eqn:K.
  - unfold next in H. rewrite K in H. discriminate.
  - pose proof (peek_next l K) as P. rewrite H in P. eauto.
Qed.

Lemma text_nonempty ty w : token_text ty w -> w <> [].
Proof. intros H ->. destruct (brun_complete _ _ H) as (p & rt & B & _). discriminate. Qed.

Lemma eos_no_text w : ~ token_text EndOfStream w.
Proof. exact (fun H => H). Qed.

Lemma done_next l : aligned l /\ rest_of l = [] ->
  exists t l', next l = (Ok t, l') /\ skipped t = false /\ view t = (EndOfStream, []) /\ aligned l' /\ rest_of l' = [].
Proof.
  intros [A Hr]. destruct (next_sound l A) as [(t & l' & E & A' & I & P & Rr & D)|(l' & E & D)].
  - rewrite Hr in Rr. symmetry in Rr. apply app_eq_nil in Rr. destruct Rr as [R1 R2].
    exists t, l'. split; [exact E|]. destruct D as [[D _]|[D _]].
    + exfalso. rewrite R1 in D. now apply text_nonempty in D.
    + unfold skipped, view. rewrite D, R1. auto.
  - exfalso. unfold next in E. rewrite (al_peek l A), next_raw_cases in E. fold (rest_of l) in E. rewrite Hr in E.
    unfold ok_token in E. discriminate.
Qed.

Lemma skip_shortens l t l' : unpeek l -> next l = (Ok t, l') -> skipped t = true ->
  length (ahead l') < length (ahead l).
Proof.
  intros U H S. destruct (unpeek_next l t l' U H) as (A' & I & Ha & D).
  unfold ahead at 1. rewrite (al_peek l' A'), Ha, app_length.
  destruct D as [[D _]|[D _]]; [|unfold skipped in S; rewrite D in S; discriminate].
  apply text_nonempty in D. destruct (t_capture t); [congruence|]. cbn. lia.
Qed.

Lemma viewed_same p : viewed p = viewed_ view p.
Proof. reflexivity. Qed.

Lemma wat_next_sim : sim W_R (s_next wat_source) (m_next EndOfStream).
Proof.
  intros l s H. cbn [s_next wat_source]. unfold viewed, handled.
  pose proof (next_loop_sim EndOfStream next skipped view unpeek
    (fun l => aligned l /\ rest_of l = []) (fun l => length (ahead l))
    unpeek_inv_next done_next skip_shortens (rounds l) l s H) as X.
  apply X. unfold rounds. destruct H as [U _]. pose proof (ahead_length l U). lia.
Qed.

Lemma wat_peek_sim : sim W_R (s_peek wat_source) (m_peek EndOfStream).
Proof.
  intros l s H. cbn [s_peek wat_source]. unfold viewed, handled.
  pose proof (peek_loop_sim EndOfStream next peek skipped view unpeek
    (fun l => aligned l /\ rest_of l = []) (fun l => length (ahead l))
    unpeek_inv_next unpeek_peek unpeek_err skip_shortens (rounds l) l s H) as X.
  apply X. unfold rounds. destruct H as [U _]. pose proof (ahead_length l U). lia.
Qed.

(** ** The tokens of a text *)

Lemma cut_app a : forall b r, cut (a ++ b) r <-> cut a (text_of b ++ r) /\ cut b r.
Proof.
  induction a as [|[ty w] a IH]; intros b r; cbn [cut app]; [tauto|].
  rewrite IH. replace (text_of (a ++ b) ++ r) with (text_of a ++ text_of b ++ r); [tauto|].
  unfold text_of. rewrite map_app, concat_app, app_assoc. reflexivity.
Qed.

Lemma text_of_app a b : text_of (a ++ b) = text_of a ++ text_of b.
Proof. unfold text_of. now rewrite map_app, concat_app. Qed.

Lemma cut_length ts r : cut ts r -> length ts <= length (text_of ts).
Proof.
  induction ts as [|[ty w] ts IH]; cbn [cut length]; [lia|]. intros (H & _ & Hc). specialize (IH Hc).
  change (text_of ((ty, w) :: ts)) with (w ++ text_of ts). rewrite app_length. apply text_nonempty in H. destruct w; [congruence|]. cbn. lia.
Qed.

Lemma significant_length ts : length (significant ts) <= length ts.
Proof. unfold significant. induction ts as [|t ts IH]; cbn; [lia|]. destruct (negb _); cbn; lia. Qed.

Lemma significant_app a b : significant (a ++ b) = significant a ++ significant b.
Proof. apply filter_app. Qed.

Lemma significant_split w : forall ts rest, significant ts = w ++ rest ->
  exists a b, ts = a ++ b /\ significant a = w /\ significant b = rest.
Proof.
  induction w as [|t w IH]; intros ts rest H; cbn [app] in H.
  - exists [], ts. auto.
  - induction ts as [|u ts IHt]; [discriminate|]. cbn in H. destruct (negb _) eqn:E.
    + injection H as -> H. destruct (IH ts rest H) as (a & b & -> & Ha & Hb).
      exists (t :: a), b. unfold significant in *. cbn. rewrite E, Ha. auto.
    + destruct (IHt H) as (a & b & -> & Ha & Hb). exists (u :: a), b. unfold significant in *. cbn. rewrite E. auto.
Qed.

Lemma cut_valid ts r : cut ts r -> Forall (fun t => token_text (fst t) (snd t)) ts.
Proof. induction ts as [|[ty w] ts IH]; cbn; constructor; [apply H | apply IH, H]. Qed.

Lemma significant_valid ts r : cut ts r -> Forall (fun t => token_text (fst t) (snd t)) (significant ts).
Proof. intros H. apply incl_Forall with ts; [apply incl_filter | now apply cut_valid with r]. Qed.

Lemma skipped_ok t : skipped t = space_or_comment (fst (view t)).
Proof. unfold skipped. cbn. destruct (t_type t); reflexivity. Qed.

(** Reading a cut text *)
Lemma reads_text ts : forall l r, aligned l -> rest_of l = text_of ts ++ r -> cut ts r ->
  exists l', aligned l' /\ rest_of l' = r /\
    forall more e, W_reads l' (more, e) -> W_reads l (significant ts ++ more, e).
Proof.
  induction ts as [|[ty w] ts IH]; intros l r A Hr Hc.
  - exists l. auto.
  - destruct Hc as (Ht & Hs & Hc). unfold text_of in Hr. cbn [map concat fst snd] in Hr. rewrite <- app_assoc in Hr.
    destruct (next_complete l ty w _ A Hr Ht Hs) as (t & l1 & E & T1 & T2 & T3 & A1 & I & R1).
    destruct (IH l1 r A1 R1 Hc) as (l' & A' & R' & H'). exists l'. split; [exact A'|]. split; [exact R'|].
    intros more e Hm. specialize (H' more e Hm). cbn [significant filter fst].
    assert (V : view t = (ty, w)) by (unfold view; now rewrite T1, T2).
    destruct (space_or_comment ty) eqn:S; cbn [negb].
    + eapply reads_skip; [exact E | rewrite skipped_ok, V; exact S | exact H'].
    + cbn [app]. rewrite <- V. eapply reads_token; [exact E | rewrite skipped_ok, V; exact S | | exact H'].
      rewrite V. cbn. intros ->. exact Ht.
Qed.

(** Every lexer reads some tokens. *)
Lemma reads_some n : forall l, aligned l -> length (rest_of l) <= n ->
  exists ts r e, rest_of l = text_of ts ++ r /\ cut ts r /\ W_reads l (significant ts, e) /\ fine e /\
    match e with Ends w => r = w | Fails => True end.
Proof.
  induction n as [|n IH]; intros l A Hn;
    (destruct (next_sound l A) as [(t & l' & E & A' & I & P & Rr & D)|(l' & E & D)];
     [|exists [], (rest_of l), Fails; split; [reflexivity|]; split; [exact I|];
       split; [now apply reads_error with EOther l' | split; exact I]]);
    (destruct D as [[D Hs]|(D & R' & C)];
     [|exists [], (rest_of l), (Ends (t_capture t)); split; [reflexivity|]; split; [constructor|];
       split; [eapply reads_end; [exact E | unfold skipped; now rewrite D | unfold view; now rewrite D | auto]|];
       split; [exact C | now rewrite Rr, R', app_nil_r]]).
  - exfalso. apply text_nonempty in D. rewrite Rr, app_length in Hn. destruct (t_capture t); [congruence|]. cbn in Hn. lia.
  - assert (Hl : length (rest_of l') <= n).
    { pose proof (text_nonempty _ _ D). rewrite Rr, app_length in Hn. destruct (t_capture t); [congruence|]. cbn in Hn. lia. }
    destruct (IH l' A' Hl) as (ts & r & e & H1 & H2 & H3 & H4 & H5).
    exists (view t :: ts), r, e. split; [|split; [|split; [|split; assumption]]].
    + unfold text_of in *. cbn [map concat view snd]. rewrite Rr, H1. now rewrite app_assoc.
    + cbn [cut view]. rewrite H1 in Hs. auto.
    + cbn [significant filter view fst]. destruct (space_or_comment (t_type t)) eqn:S; cbn [negb].
      * eapply reads_skip; [exact E | rewrite skipped_ok; exact S | exact H3].
      * change (t_type t, t_capture t) with (view t).
        eapply reads_token; [exact E | rewrite skipped_ok; exact S | | exact H3].
        cbn. intros Q. rewrite Q in D. exact D.
Qed.
