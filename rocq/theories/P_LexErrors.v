(** C71: where lexical errors are reported. *)
From Coq Require Import Arith NArith String Ascii Bool Lia List.
From Verif Require Import GoBase M_Text M_WatLex S_WatLex L_WatLex L_WatTokens L_WatNum P_WatLex M_LexErrors S_LexErrors.
Import ListNotations.

Lemma first_none c : first c = None <-> ~ space c /\ ~ id_char c /\ ~ In c [";"%char; "("%char; ")"%char; quote].
Proof.
  unfold first. rewrite <- space_ok, <- id_char_ok. cbn [In].
  destruct (is_space c); [intuition discriminate|].
  destruct (Ascii.eqb_spec c ";") as [->|]; [intuition discriminate|].
  destruct (Ascii.eqb_spec c "(") as [->|]; [intuition discriminate|].
  destruct (Ascii.eqb_spec c ")") as [->|]; [intuition discriminate|].
  destruct (Ascii.eqb_spec c quote) as [->|]; [intuition discriminate|].
  destruct (Ascii.eqb_spec c "$") as [->|].
  - split; [discriminate|]. intros (_ & H & _). exfalso. apply H. reflexivity.
  - destruct (is_id_char c); intuition (try discriminate; congruence).
Qed.

Lemma first_semi c : first c = Some PSemi -> c = ";"%char.
Proof.
  unfold first. destruct (is_space c); [discriminate|]. destruct (Ascii.eqb_spec c ";") as [->|]; [reflexivity|].
  repeat (destruct (Ascii.eqb _ _); [discriminate|]). destruct (is_id_char c); discriminate.
Qed.

(** A phase in which the automaton may get stuck is the one after a
    semicolon, and nothing leads back to it. *)
Lemma stuck_semi q d : accept q = None -> step q d = None -> q = PSemi /\ d <> ";"%char.
Proof.
  destruct q; cbn; intros H; try discriminate; clear H.
  { destruct (Ascii.eqb_spec d ";"); [discriminate|auto]. }
  all: repeat match goal with |- context [if ?b then _ else _] => destruct b end; discriminate.
Qed.
Lemma step_not_semi p c : step p c <> Some PSemi.
Proof.
  destruct p; cbn; try discriminate; repeat match goal with |- context [if ?b then _ else _] => destruct b end; discriminate.
Qed.
Lemma arun_semi w : forall p, arun p w = Some PSemi -> w = [] /\ p = PSemi.
Proof.
  induction w as [|c w IH]; intros p H; cbn in H; [inversion H; auto|].
  destruct (step p c) as [q|] eqn:E; [|discriminate]. apply IH in H. destruct H as [-> ->]. now apply step_not_semi in E.
Qed.

(** Next fails exactly where nothing starts, one character on. *)
Lemma next_fails l : aligned l ->
  (no_start (rest_of l) -> next l = (Err EOther, set_position l (S (l_position l)))) /\
  (forall e l', next l = (Err e, l') -> no_start (rest_of l) /\ l' = set_position l (S (l_position l))).
Proof.
  intros A. destruct (rest_of l) as [|c s] eqn:Er.
  - split; [intros (c & r & E & _); discriminate|]. intros e l'. unfold next. rewrite (al_peek l A), next_raw_cases. fold (rest_of l).
    rewrite Er. discriminate.
  - destruct (first c) as [p|] eqn:Ef.
    + destruct (longest_run s p) as (w & r & q & -> & Ea & Hst).
      assert (Eb : brun (c :: w) = Some q) by (cbn; now rewrite Ef).
      pose proof (next_brun l (c :: w) q r A Er Eb Hst) as N. rewrite N. split.
      * intros (c0 & r0 & E & H). injection E as <- E. destruct H as [H|(-> & d & r' & -> & Hd)].
        -- apply first_none in H. congruence.
        -- inversion Ef; subst p. destruct w as [|x w].
           ++ cbn in E. subst r. cbn in Ea. inversion Ea; subst q. cbn [accept finish length]. do 2 f_equal. lia.
           ++ cbn in E. injection E as -> _. cbn in Ea. destruct (Ascii.eqb_spec d ";"); [congruence|discriminate].
      * destruct (accept q) as [ty|] eqn:Eq; [discriminate|]. destruct r as [|d r]; [discriminate|].
        cbn [finish]. intros e l' E. inversion E; subst. destruct (stuck_semi q d Eq Hst) as [-> Hd].
        apply arun_semi in Ea. destruct Ea as [-> ->]. apply first_semi in Ef. subst c. split.
        -- exists ";"%char, (d :: r). split; [reflexivity|]. right. eauto.
        -- cbn [length]. f_equal. lia.
    + assert (N : next l = (Err EOther, set_position l (S (l_position l)))).
      { unfold next. rewrite (al_peek l A), next_raw_cases. fold (rest_of l). rewrite Er.
        unfold lexemes. destruct (al_rules l A) as [swap ->]. rewrite first_ok, Ef. reflexivity. }
      rewrite N. split; [reflexivity|]. intros e l' E. inversion E; subst. split; [|reflexivity].
      exists c, s. split; [reflexivity|]. left. now apply first_none.
Qed.

(** After a history without errors, the next token is refused exactly where
    nothing can start; the error then says the line and column of that place,
    the position after it, and quotes the one character there. *)
Theorem wat_errors_are_located : forall swap input ops,
  no_error (fst (calls ops (new_lexer swap input))) ->
  let l := snd (calls ops (new_lexer swap input)) in
  let p := length (captures (taken (fst (calls ops (new_lexer swap input))))) in
  (fst (next l) = Err EOther <-> l_peek l = None /\ no_start (skipn p input)) /\
  (forall e l', next l = (Err e, l') ->
     place_of input p (r_line (fst (wat_error l'))) (r_column (fst (wat_error l'))) /\
     r_position (fst (wat_error l')) = S p /\
     exists c, nth_error input p = Some c /\ snd (wat_error l') = [c]).
Proof.
  intros swap input ops N l p.
  destruct (calls_aligned ops (new_lexer swap input) (or_introl (new_aligned _ _)) N) as (U & I & _).
  destruct (calls ops (new_lexer swap input)) as [h l9] eqn:Ec. cbn [fst snd] in *. subst l.
  destruct (calls_good _ _ _ _ (fresh_ok swap input) Ec) as (V & _ & _ & F & _). cbn in F, I.
  destruct (follows_text _ _ _ _ F ltac:(lia)) as (_ & _ & E3). cbn in E3. fold p in E3.
  destruct U as [A|(l0 & t0 & _ & _ & _ & K)].
  - assert (Ep : p = l_position l9) by (rewrite <- E3; unfold start; rewrite (al_peek _ A); apply A).
    assert (Er : skipn p input = rest_of l9) by (unfold rest_of; rewrite Ep, I; reflexivity).
    destruct (next_fails l9 A) as [F1 F2]. rewrite Er. split; [split|].
    + intros H. destruct (next l9) as [r l'] eqn:E. cbn in H. subst r. split; [apply A|]. now apply (F2 EOther l').
    + intros [_ H]. now rewrite (F1 H).
    + intros e l' E. destruct (F2 _ _ E) as [(c & r & Hc & _) ->]. cbn [wat_error fst snd r_line r_column r_position l_line l_column l_position set_position].
      split; [|split; [now rewrite Ep|]].
      * pose proof (inv_metrics _ V) as Sd. rewrite (al_pos _ A), <- Ep, I in Sd. unfold sound_at in Sd.
        pose proof (advance_newlines (firstn p input) 0 0) as L.
        destruct (advance_column (firstn p input)) as (ll & Hl & C). rewrite Sd in L, C. cbn in L, C. split; [assumption|]. now exists ll.
      * exists c. split; [rewrite nth_skipn, Er, Hc; reflexivity|]. unfold wat_error, capture.
        cbn [l_position l_offset l_input set_position snd]. rewrite (al_pos _ A). fold (rest_of l9). rewrite Hc.
        replace (S (l_position l9) - l_position l9)%nat with 1%nat by lia. reflexivity.
  - unfold next. rewrite K. split; [split; [discriminate|intros [E _]; congruence]|]. discriminate.
Qed.
Print Assumptions wat_errors_are_located.

(** A comma on the second line. *)
Definition with_comma : text := txt "(module" ++ [newline] ++ txt "  , )".
Example wat_errors_are_located_met :
  no_error (fst (calls (repeat ONext 3) (new_lexer false with_comma))) /\
  length (captures (taken (fst (calls (repeat ONext 3) (new_lexer false with_comma))))) = 10%nat /\
  fst (next (snd (calls (repeat ONext 3) (new_lexer false with_comma)))) = Err EOther /\
  wat_error (snd (next (snd (calls (repeat ONext 3) (new_lexer false with_comma))))) =
    ({| r_line := 1; r_column := 2; r_position := 11 |}, txt ",").
Proof.
  split; [|vm_compute; auto]. intros o r H. vm_compute in H. intuition (subst; match goal with H : _ = _ |- _ => inversion H end; eauto).
Qed.
