(** C80: what a WAT lexer does after an error. *)
From Coq Require Import Arith NArith String Ascii Bool Lia List.
From Verif Require Import GoBase M_Text M_WatLex S_WatLex L_WatLex L_WatTokens L_WatNum P_WatLex M_LexErrors S_LexErrors P_LexErrors S_LexResume L_LexResume.
Import ListNotations.
Open Scope nat_scope.

Lemma place_ok input p line column : sound_at input p line column -> place_of input p line column.
Proof.
  intros Sd. unfold sound_at in Sd. pose proof (advance_newlines (firstn p input) 0 0) as L.
  destruct (advance_column (firstn p input)) as (ll & Hl & C). rewrite Sd in L, C. cbn in L, C. split; [assumption|]. now exists ll.
Qed.

(** Every failed call skips one character, but what is skipped becomes the
    beginning of the next token. After any calls, let [p] be the length of the
    tokens taken and [junk] the characters skipped since. Next fails exactly
    where nothing starts after [junk], and the error then quotes [junk] and
    one more character. Otherwise it gives the token that a new lexer finds in
    the rest of the input, with [junk] put before it, at the place [p]. *)
Theorem refused_text_begins_next_token : forall swap input ops,
  let h := fst (calls ops (new_lexer swap input)) in
  let l := snd (calls ops (new_lexer swap input)) in
  let p := length (captures (taken h)) in
  let junk := firstn (refused h) (skipn p input) in
  let rest := skipn (p + refused h) input in
  l_peek l = None ->
  length junk = refused h /\
  (fst (next l) = Err EOther <-> no_start rest) /\
  (forall e l', next l = (Err e, l') ->
     place_of input p (r_line (fst (wat_error l'))) (r_column (fst (wat_error l'))) /\
     r_position (fst (wat_error l')) = S (p + refused h) /\
     exists c r, rest = c :: r /\ snd (wat_error l') = junk ++ [c]) /\
  (forall t0, fst (next (new_lexer swap rest)) = Ok t0 ->
     exists t, fst (next l) = Ok t /\
       t_capture t = junk ++ t_capture t0 /\
       t_type t = (if refused h =? 0 then t_type t0 else spoilt (t_type t0)) /\
       t_position t = p /\ place_of input p (t_line t) (t_column t)).
Proof.
  intros swap input ops h l p junk rest Hp.
  pose proof (resumed_calls swap ops 0 _ (resumed_new swap input)) as R.
  change (resumed swap (refused h) l) in R.
  destruct (calls_good ops (new_lexer swap input) h l (fresh_ok swap input) (surjective_pairing _)) as (V & I & Ru & F & _).
  change (start (new_lexer swap input)) with 0 in F. cbn [l_input l_rules new_lexer] in F, I, Ru.
  destruct (follows_text _ _ _ _ F ltac:(lia)) as (_ & E2 & E3). change (start l = p) in E3.
  assert (Eo : l_offset l = p) by (rewrite <- E3; unfold start; now rewrite Hp). clear E3 F E2.
  pose proof (rs_pos _ _ _ R) as Ep. rewrite Eo in Ep.
  pose proof (inv_order _ V) as Ord. rewrite I, Eo, Ep in Ord.
  assert (Er : rest_of l = rest) by (unfold rest_of, rest; now rewrite I, Ep).
  assert (Lj : length junk = refused h) by (unfold junk; rewrite firstn_length, skipn_length; lia).
  assert (Cp : forall n, capture (set_position l (l_position l + n)) = junk ++ firstn n rest).
  { intros n. rewrite capture_on by apply V. rewrite Er, Eo, I, Ep. unfold junk. do 2 f_equal. lia. }
  pose proof (inv_metrics _ V) as Me. rewrite I, Eo in Me.
  assert (C0 : forall n, capture (set_position (new_lexer swap rest) (l_position (new_lexer swap rest) + n)) = firstn n rest).
  { intros n. unfold capture. cbn. now rewrite Nat.sub_0_r. }
  assert (N0 : l_peek (new_lexer swap rest) = None /\ l_rules (new_lexer swap rest) = rules swap /\ rest_of (new_lexer swap rest) = rest) by auto.
  set (m := new_lexer swap rest) in *. destruct N0 as (N1 & N2 & N3). clearbody m.
  unfold next. rewrite Hp, N1, (next_act l Hp), (next_act m N1), (rs_rules _ _ _ R), Er, N2, N3.
  pose proof (act_fails swap rest) as AF. pose proof (act_type swap rest) as AT. pose proof (act_fails_one swap rest) as A1.
  destruct (act (rules swap) rest) as [n [ty|]]; cbn [fst snd finish] in *.
  - specialize (AT ty eq_refl). clear A1. split; [exact Lj|]. split; [split; [discriminate|intros H; apply AF in H; discriminate]|].
    split; [discriminate|]. intros t0 E0. unfold ok_token in *. cbn [fst] in *. injection E0 as <-.
    eexists. split; [reflexivity|]. unfold make_token. rewrite Cp.
    rewrite C0. destruct (advance (l_line (set_position l _)) _ _), (advance (l_line (set_position m _)) _ _).
    cbn [fst t_capture t_type t_position t_line t_column l_offset l_line l_column set_position].
    split; [reflexivity|]. split; [|split; [exact Eo|now apply place_ok]].
    destruct (Nat.eqb_spec (refused h) 0) as [Z|Z].
    + assert (junk = []) by (apply length_zero_iff_nil; lia). now rewrite H.
    + destruct (rs_junk _ _ _ R ltac:(lia)) as (c & Hc & Hi). rewrite Eo, I in Hc.
      assert (J : exists j, junk = c :: j).
      { unfold junk. rewrite nth_skipn in Hc. destruct (skipn p input); [discriminate|]. injection Hc as ->. destruct (refused h); [congruence|]. cbn. eauto. }
      destruct J as (j & ->). cbn [app]. rewrite classify_odd by exact Hi. now rewrite spoilt_classify.
  - split; [exact Lj|]. specialize (A1 eq_refl). subst n. assert (NS : no_start rest) by now apply AF. split; [tauto|].
    split; [|discriminate]. intros e l' E. injection E as _ <-.
    unfold wat_error. cbn [fst snd r_line r_column r_position l_line l_column l_position set_position].
    split; [now apply place_ok|]. split; [lia|]. destruct NS as (c & r & Ec & _). exists c, r. split; [exact Ec|].
    rewrite Cp, Ec. reflexivity.
Qed.
Print Assumptions refused_text_begins_next_token.

(** Two commas are refused before a number. *)
Definition two_commas : text := txt "(,,12 x)".
Definition after_commas := calls [ONext; ONext; OPeek] (new_lexer false two_commas).
Example refused_text_begins_next_token_met :
  l_peek (snd after_commas) = None /\ map seen (fst after_commas) = [(ONext, Some (OpenParen, txt "(")); (ONext, None); (OPeek, None)] /\
  refused (fst after_commas) = 2 /\
  option_map (fun t => (t_type t, t_capture t, t_position t)) (match fst (next (snd after_commas)) with Ok t => Some t | _ => None end) =
    Some (Reserved, txt ",,12", 1) /\
  option_map (fun t => (t_type t, t_capture t)) (match fst (next (new_lexer false (txt "12 x)"))) with Ok t => Some t | _ => None end) =
    Some (TInteger, txt "12").
Proof. vm_compute. auto 9. Qed.
Example refused_text_is_quoted_met :
  wat_error (snd (next (snd (calls [ONext; ONext] (new_lexer false two_commas))))) =
    ({| r_line := 0; r_column := 1; r_position := 3 |}, txt ",,").
Proof. vm_compute. reflexivity. Qed.

(** Once the last call gave a token, what came before has no influence: the
    following calls give the types and texts a new lexer gives on the rest of
    the input. *)
Theorem lexer_recovers : forall swap input ops more,
  let h := fst (calls ops (new_lexer swap input)) in
  let l := snd (calls ops (new_lexer swap input)) in
  l_peek l = None -> refused h = 0 ->
  map seen (fst (calls more l)) =
  map seen (fst (calls more (new_lexer swap (skipn (length (captures (taken h))) input)))).
Proof.
  intros swap input ops more h l Hp H0.
  pose proof (resumed_calls swap ops 0 _ (resumed_new swap input)) as R.
  change (resumed swap (refused h) l) in R. rewrite H0 in R.
  destruct (calls_good ops (new_lexer swap input) h l (fresh_ok swap input) (surjective_pairing _)) as (V & I & Ru & F & _).
  change (start (new_lexer swap input)) with 0 in F. cbn [l_input l_rules new_lexer] in F, I, Ru.
  destruct (follows_text _ _ _ _ F ltac:(lia)) as (_ & _ & E3).
  cbn in E3. assert (Eo : l_offset l = length (captures (taken h))) by (rewrite <- E3; unfold start; now rewrite Hp).
  rewrite <- Eo. apply like_calls. pose proof (rs_pos _ _ _ R) as Ep. rewrite Nat.add_0_r in Ep. pose proof (inv_order _ V) as Ord.
  constructor; cbn [l_rules l_offset l_position l_input l_peek new_lexer]; [exact Ru| | |exact Ord|lia|now rewrite Hp].
  - unfold rest_of. cbn. now rewrite I, Ep.
  - unfold capture. cbn. now rewrite Ep, Nat.sub_diag.
Qed.
Print Assumptions lexer_recovers.

Example lexer_recovers_met :
  let c := calls [ONext; ONext; OPeek; ONext] (new_lexer false two_commas) in
  l_peek (snd c) = None /\ refused (fst c) = 0 /\ length (captures (taken (fst c))) = 5 /\
  map seen (fst (calls [ONext; OPeek; ONext] (snd c))) =
    [(ONext, Some (Whitespace, txt " ")); (OPeek, Some (Reserved, txt "x")); (ONext, Some (Reserved, txt "x"))].
Proof. vm_compute. auto. Qed.

(** So the text of a token need not be a text of its type. *)
Theorem token_after_error_is_a_token_refuted :
  ~ (forall swap input ops t, fst (next (snd (calls ops (new_lexer swap input)))) = Ok t ->
       t_type t <> EndOfStream -> token_text (t_type t) (t_capture t)).
Proof.
  intros H. specialize (H false (txt ",1") [ONext]).
  assert (E : fst (next (snd (calls [ONext] (new_lexer false (txt ",1"))))) =
    Ok {| t_type := Reserved; t_position := 0; t_column := 0; t_line := 0; t_capture := txt ",1" |}) by (vm_compute; reflexivity).
  specialize (H _ E). cbn [t_type t_capture] in H. destruct H as [[[_ W] _] _]; [discriminate|].
  inversion W as [|c w [_ Hc] _]; subst. apply Hc. vm_compute. auto 9.
Qed.
Print Assumptions token_after_error_is_a_token_refuted.
