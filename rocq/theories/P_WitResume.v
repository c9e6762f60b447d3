(** C80: what a WIT lexer does after an error. *)
From Coq Require Import Arith NArith String Ascii Bool List Lia.
From Verif Require Import GoBase M_Text M_Utf S_Utf L_Utf M_WitLex S_WitLex L_WitLex L_WitToks L_WitHist P_WitLex M_LexErrors S_WitErrors P_WitErrors S_WitResume L_WitResume.
Import ListNotations.
Open Scope nat_scope.

Lemma place_ok input p line column : sound_at input p line column -> place_of input p line column.
Proof.
  intros Sd. unfold sound_at in Sd. pose proof (advance_newlines (firstn p input) 0 0) as L.
  destruct (advance_column (firstn p input)) as (ll & Hl & C). rewrite Sd in L, C. cbn in L, C. split; [assumption|]. now exists ll.
Qed.

Lemma resumed_capture U k l j : inv l -> skipn (l_offset l) (l_input l) = j ++ rest l -> l_position l = l_offset l + length j ->
  passed U (skipn (l_offset l) (l_input l)) k j -> capture l = j.
Proof.
  intros V E P _. unfold capture. rewrite P, E. replace (l_offset l + length j - l_offset l) with (length j) by lia.
  now rewrite firstn_app, Nat.sub_diag, firstn_all, firstn_O, app_nil_r.
Qed.

(** Every failed call passes over a piece of the input that nothing starts
    with, but what was passed over becomes the beginning of the next token.
    After any calls, let [p] be the length of the tokens taken and [junk] what
    was passed over since. Next fails exactly where nothing starts after
    [junk]; the error gives the place [p]. Otherwise it gives the token that a
    new lexer finds in the rest of the input, with [junk] put before it. *)
Theorem wit_refused_text_begins_next_token : forall U input ops, good_tables U ->
  let h := fst (calls U ops (new_lexer input)) in
  let l := snd (calls U ops (new_lexer input)) in
  let p := length (captures (taken h)) in
  l_peek l = None ->
  exists junk rest, skipn p input = junk ++ rest /\ passed U (skipn p input) (refused h) junk /\
  (fst (next U l) = Err EOther <-> exists v, unreadable U rest v) /\
  (forall e l', next U l = (Err e, l') ->
     place_of input p (r_line (wit_error l')) (r_column (wit_error l')) /\
     exists v, unreadable U rest v /\ r_position (wit_error l') = p + length junk + length v) /\
  (forall t0, fst (next U (new_lexer rest)) = Ok t0 ->
     exists t, fst (next U l) = Ok t /\
       t_capture t = junk ++ t_capture t0 /\
       (refused h = 0 -> t_type t = t_type t0) /\ (refused h <> 0 -> spoilt (t_type t0) (t_type t)) /\
       t_position t = p /\ place_of input p (t_line t) (t_column t)).
Proof.
  intros U input ops HU h l p Hp.
  pose proof (resumed_calls U HU ops 0 _ (resumed_new U input)) as R.
  change (resumed U (refused h) l) in R.
  destruct (calls_good U HU ops (new_lexer input) h l (fresh_ok input) (surjective_pairing _)) as (V & I & F & _).
  change (start (new_lexer input)) with 0 in F. cbn [l_input new_lexer] in F, I.
  destruct (follows_text _ _ _ _ F ltac:(lia)) as (_ & _ & E3). change (start l = p) in E3.
  assert (Eo : l_offset l = p) by (rewrite <- E3; unfold start; now rewrite Hp). clear E3 F.
  destruct R as [_ (junk & Ej & Ep & Hj) _]. pose proof (resumed_capture U _ _ _ V Ej Ep Hj) as Cj.
  rewrite Eo, I in Ej, Hj. rewrite Eo in Ep.
  exists junk, (rest l). split; [exact Ej|]. split; [exact Hj|].
  pose proof (inv_metrics _ V) as Me. rewrite I, Eo in Me.
  assert (In : inside l) by (unfold inside; destruct (inv_order l V); lia).
  unfold next. rewrite Hp. split; [|split].
  - split.
    + intros H. destruct (next_raw U l) as [r l'] eqn:E. cbn in H. subst r.
      apply (next_raw_error U HU) in E; [|exact In]. destruct E as (_ & v & H & _). now exists v.
    + intros [v H]. assert (E : next_raw U l = (Err EOther, adv l v)) by (apply (next_raw_error U HU); [exact In|eauto]). now rewrite E.
  - intros e l' E. apply (next_raw_error U HU) in E; [|exact In]. destruct E as (_ & v & H & ->).
    cbn [wit_error r_line r_column r_position adv set_position l_line l_column l_position]. split; [now apply place_ok|].
    exists v. split; [exact H|]. lia.
  - change (l_peek (new_lexer (rest l))) with (@None token). cbv iota. intros t0 E0.
    assert (J : inside (new_lexer (rest l))) by (unfold inside; cbn; lia).
    destruct (next_twin U l (new_lexer (rest l)) In J eq_refl) as [(w & s & g & E & Tg & N & N0)|(v & s & _ & _ & N0)];
      rewrite N0 in E0; [|discriminate].
    rewrite N. clear N N0. unfold make_token in E0 |- *. rewrite (capture_on l w s (inv_order l V) E), Cj.
    assert (C0 : capture (adv (new_lexer (rest l)) w) = w).
    { rewrite (capture_on (new_lexer (rest l)) w s); [reflexivity|cbn; lia|exact E]. }
    rewrite C0 in E0. destruct (advance (l_line (adv l w)) _ _), (advance (l_line (adv (new_lexer (rest l)) w)) _ _).
    cbn [fst] in E0. injection E0 as <-. eexists. split; [reflexivity|].
    cbn [t_capture t_type t_position t_line t_column l_offset l_line l_column adv set_position].
    split; [reflexivity|]. split; [|split; [|split; [exact Eo|now apply place_ok]]].
    + intros H0. rewrite H0 in Hj. assert (junk = []) as -> by (now inversion Hj). reflexivity.
    + intros H0. inversion Hj as [s0 E1 E2 E4|v t k j Hu Hk E1 E2 E4]; [congruence|].
      destruct (unreadable_head U _ _ Hu) as (c & v' & -> & H1 & H2). cbn [app]. now apply spoilt_typing.
Qed.
Print Assumptions wit_refused_text_begins_next_token.

(** What is passed over is determined by the number of failures. *)
Theorem passed_text_unique : forall U s k j j', good_tables U -> passed U s k j -> passed U s k j' -> j = j'.
Proof.
  intros U s k j j' HU H. revert j'. induction H as [s|v t k j Hu H IH]; intros j' H'; inversion H' as [|v' t' k' j2 Hu' H2 E]; subst; [reflexivity|].
  rewrite E in Hu'. pose proof (unreadable_piece_unique U _ _ _ HU Hu Hu') as ->. apply app_inv_head in E. subst t'. f_equal. auto.
Qed.
Print Assumptions passed_text_unique.

(** A strange character is refused before a keyword, and an unclosed comment
    before the end of the input. *)
Definition hash_record : text := txt "a#record/* x".
Example wit_refused_text_begins_next_token_met :
  let c := calls latin [ONext; OPeek] (new_lexer hash_record) in
  l_peek (snd c) = None /\ refused (fst c) = 1 /\
  option_map (fun t => (t_type t, t_capture t, t_position t)) (match fst (next latin (snd c)) with Ok t => Some t | _ => None end) =
    Some (Id, txt "#record", 1) /\
  option_map (fun t => (t_type t, t_capture t)) (match fst (next latin (new_lexer (txt "record/* x"))) with Ok t => Some t | _ => None end) =
    Some (KRecord, txt "record") /\
  map seen (fst (calls latin [ONext; ONext; ONext] (snd c))) =
    [(ONext, Some (Id, txt "#record")); (ONext, None); (ONext, Some (EndOfStream, txt "/* x"))].
Proof. vm_compute. auto 9. Qed.
Example passed_met : passed latin (txt "##b") 2 (txt "##").
Proof.
  assert (S : forall t, unreadable latin (txt "#" ++ t) (txt "#")).
  { intros t. left. split; [now exists t|]. left. exists 35%N. split; [unfold scalar_value; lia|]. split; [reflexivity|].
    apply (odd_rune_iff latin). vm_compute. auto 10. }
  apply (passed_more latin (txt "#") (txt "#b") 1 (txt "#")); [apply S|].
  apply (passed_more latin (txt "#") (txt "b") 0 []); [apply S|constructor].
Qed.

(** Once the last call gave a token, what came before has no influence: the
    following calls give the types and texts a new lexer gives on the rest of
    the input. *)
Theorem wit_lexer_recovers : forall U input ops more, good_tables U ->
  let h := fst (calls U ops (new_lexer input)) in
  let l := snd (calls U ops (new_lexer input)) in
  l_peek l = None -> refused h = 0 ->
  map seen (fst (calls U more l)) =
  map seen (fst (calls U more (new_lexer (skipn (length (captures (taken h))) input)))).
Proof.
  intros U input ops more HU h l Hp H0.
  pose proof (resumed_calls U HU ops 0 _ (resumed_new U input)) as R.
  change (resumed U (refused h) l) in R. rewrite H0 in R.
  destruct (calls_good U HU ops (new_lexer input) h l (fresh_ok input) (surjective_pairing _)) as (V & I & F & _).
  change (start (new_lexer input)) with 0 in F. cbn [l_input new_lexer] in F, I.
  destruct (follows_text _ _ _ _ F ltac:(lia)) as (_ & _ & E3). cbn in E3.
  assert (Eo : l_offset l = length (captures (taken h))) by (rewrite <- E3; unfold start; now rewrite Hp).
  rewrite <- Eo. destruct R as [_ (junk & Ej & Ep & Hj) _]. pose proof (resumed_capture U _ _ _ V Ej Ep Hj) as Cj.
  assert (Hn : junk = []) by (now inversion Hj). rewrite Hn in Ep, Cj. cbn [length] in Ep. rewrite Nat.add_0_r in Ep. pose proof (inv_order _ V) as Ord.
  apply like_calls. constructor; cbn [l_offset l_position l_input l_peek new_lexer]; [| |exact Ord|lia|now rewrite Hp].
  - unfold rest. cbn. now rewrite I, Ep.
  - rewrite Cj. reflexivity.
Qed.
Print Assumptions wit_lexer_recovers.

Example wit_lexer_recovers_met :
  let c := calls latin [ONext; OPeek; ONext] (new_lexer hash_record) in
  l_peek (snd c) = None /\ refused (fst c) = 0 /\ length (captures (taken (fst c))) = 8 /\
  map seen (fst (calls latin [ONext; ONext] (snd c))) = [(ONext, None); (ONext, Some (EndOfStream, txt "/* x"))].
Proof. vm_compute. auto. Qed.

(** So the text of a token need not be a text of its type. *)
Theorem wit_token_after_error_is_a_token_refuted :
  ~ (forall U input ops t, good_tables U -> fst (next U (snd (calls U ops (new_lexer input)))) = Ok t ->
       t_type t <> EndOfStream -> token_text U (t_type t) (t_capture t)).
Proof.
  intros H. specialize (H latin (txt "#1") [ONext]).
  assert (E : fst (next latin (snd (calls latin [ONext] (new_lexer (txt "#1"))))) =
    Ok {| t_type := Integer; t_position := 0; t_column := 0; t_line := 0; t_capture := txt "#1" |}) by (vm_compute; reflexivity).
  specialize (H _ latin_good E). cbn [t_type t_capture] in H. destruct H as (_ & rs & Sc & D & B); [discriminate|].
  destruct rs as [|r rs]; [discriminate|]. inversion Sc; inversion D; subst.
  assert (X : decode_rune (txt "#1") = (r, length (sp_utf8 r))) by (apply (decode_encoded _ r (utf8_text rs)); [assumption|exact B]).
  vm_compute in X. injection X as <- _. destruct H5 as [K|[K _]]; vm_compute in K; intuition discriminate.
Qed.
Print Assumptions wit_token_after_error_is_a_token_refuted.
