(** C71: where lexical errors of WIT are reported. *)
From Coq Require Import Arith NArith String Ascii Bool List Lia ZArith ZifyBool ZifyNat ZifyN.
From Verif Require Import GoBase M_Text M_Utf S_Utf L_Utf M_WitLex S_WitLex L_WitLex L_WitToks L_WitHist P_WitLex M_LexErrors S_WitErrors.
Ltac Zify.zify_post_hook ::= Z.div_mod_to_equations.
Import ListNotations.

(** The replacement character of width 1 stands for a byte that begins no
    character; every other rune is a character of the text. *)
Lemma decode_first s r k : s <> [] -> decode_rune s = (r, k) ->
  (scalar_value r /\ bytes (firstn k s) = sp_utf8 r) \/ (r = rune_error /\ k = 1%nat /\ ~ begins (fun _ => True) s).
Proof.
  intros Hs D. destruct (N.eq_dec r rune_error) as [->|Hr]; [|left; now apply decode_valid].
  assert (K : k = 1%nat \/ bytes (firstn k s) = sp_utf8 rune_error).
  { unfold decode_rune, bytes in *. destruct s as [|c0 s]; [congruence|]. cbn [firstn map] in D.
    destruct (N_of_ascii c0 <? 128)%N; [left; inversion D; reflexivity|].
    destruct s as [|c1 s]; [left; inversion D; reflexivity|]. cbn [firstn map] in D. pose proof (byte_lt c1) as B1. pose proof (byte_lt c0) as B0.
    destruct (lead2 (N_of_ascii c0) && second_ok (N_of_ascii c0) (N_of_ascii c1)).
    { exfalso. unfold rune_error in D. injection D as D _. revert D. clear.
      pose proof (N.mod_lt (N_of_ascii c0) 32 ltac:(lia)). pose proof (N.mod_lt (N_of_ascii c1) 64 ltac:(lia)). lia. }
    destruct s as [|c2 s]; [left; inversion D; reflexivity|]. cbn [firstn map] in D. pose proof (byte_lt c2) as B2.
    destruct (lead3 (N_of_ascii c0) && second_ok (N_of_ascii c0) (N_of_ascii c1) && cont_byte (N_of_ascii c2)) eqn:E3.
    { right. unfold rune_error in D. injection D as D <-. cbn [firstn map]. revert D E3. unfold lead3, second_ok, cont_byte, in_range.
      set (a := N_of_ascii c0) in *. set (b := N_of_ascii c1) in *. set (c := N_of_ascii c2) in *. clearbody a b c. intros D E3.
      assert (E : (224 <= a <= 239 /\ 128 <= b <= 191 /\ 128 <= c <= 191)%N).
      { destruct (N.eqb_spec a 224), (N.eqb_spec a 237), (N.eqb_spec a 240), (N.eqb_spec a 244); lia. }
      clear E3. assert (Q : (a = 239 /\ b = 191 /\ c = 189)%N) by lia. destruct Q as (-> & -> & ->). reflexivity. }
    destruct s as [|c3 s]; [left; inversion D; reflexivity|]. cbn [firstn map] in D. pose proof (byte_lt c3) as B3.
    destruct (lead4 _ && second_ok _ _ && cont_byte _ && cont_byte _) eqn:E4; [|left; inversion D; reflexivity].
    exfalso. unfold rune_error in D. injection D as D _. revert D E4. unfold lead4, second_ok, cont_byte, in_range.
    set (a := N_of_ascii c0) in *. set (b := N_of_ascii c1) in *. set (c := N_of_ascii c2) in *. set (d := N_of_ascii c3) in *.
    clearbody a b c d. intros D E4.
    assert (E : (240 <= a <= 244 /\ 128 <= b <= 191 /\ 128 <= c <= 191 /\ 128 <= d <= 191 /\ (a = 240 -> 144 <= b))%N).
    { destruct (N.eqb_spec a 224), (N.eqb_spec a 237), (N.eqb_spec a 240), (N.eqb_spec a 244); lia. }
    clear E4. assert (Q : (a mod 8 = a - 240)%N) by lia. lia. }
  destruct K as [->|K]; [|left; split; [unfold scalar_value, rune_error; lia|exact K]].
  right. split; [reflexivity|]. split; [reflexivity|]. intros (r & t & V & _ & B).
  pose proof (decode_encoded s r t V B) as E. rewrite D in E. injection E as <- E. discriminate.
Qed.

Section tables.
Variable U : tables.
Hypothesis HU : good_tables U.

Lemma single_none r : single r = None <-> ~ In r (map ch (txt "=,:.;(){}<>*@")).
Proof.
  unfold single. cbn [map txt In].
  repeat match goal with |- context [(?a =? ?b)%N] => destruct (N.eqb_spec a b) as [->|]; [split; [discriminate|intros H; exfalso; apply H; cbn; tauto]|] end.
  split; [|reflexivity]. intros _ H. repeat (destruct H as [H|H]; [cbn in H; now subst|]). exact H.
Qed.

(** The tests of the switch that lead to the error at its end. *)
Definition odd_rune (r : N) : Prop :=
  is_space r = false /\ (r =? ch "/")%N = false /\ single r = None /\ (r =? ch "-")%N = false /\ (r =? ch "+")%N = false /\
  (r =? ch "%")%N = false /\ is_key_start U r = false /\ is_digit U r = false.

Lemma odd_rune_iff r : odd_rune r <->
  (~ space r /\ ~ letter U r /\ ~ digit U r /\ ~ In r (map code (txt "/=,:.;(){}<>*@-+%_"))).
Proof.
  unfold odd_rune. rewrite single_none, !N.eqb_neq. rewrite <- (space_iff r), <- (letter_iff U r), <- (digit_iff U r).
  assert (K : is_key_start U r = false <-> is_letter U r = false /\ r <> ch "_" /\ r <> ch "-").
  { unfold is_key_start. rewrite !orb_false_iff, !N.eqb_neq. tauto. }
  assert (L : In r (map code (txt "/=,:.;(){}<>*@-+%_")) <->
    r = ch "/" \/ In r (map ch (txt "=,:.;(){}<>*@")) \/ r = ch "-" \/ r = ch "+" \/ r = ch "%" \/ r = ch "_").
  { change (map code (txt "/=,:.;(){}<>*@-+%_")) with ([ch "/"] ++ map ch (txt "=,:.;(){}<>*@") ++ [ch "-"; ch "+"; ch "%"; ch "_"]).
    rewrite !in_app_iff. cbn [In]. intuition. }
  rewrite K, L, <- !not_true_iff_false. tauto.
Qed.

Lemma odd_error : odd_rune rune_error.
Proof.
  repeat split; try reflexivity; [apply error_key_start|apply error_digit]; exact HU.
Qed.

Lemma make_token_ok l ty : exists t l', make_token l ty = (Ok t, l').
Proof. unfold make_token. destruct (advance _ _ _). eauto. Qed.

Lemma while_token_ok f ty l : inside l -> exists t l', while_token f ty l = (Ok t, l').
Proof. intros I. destruct (while_token_spec f ty l I) as (w & u & _ & _ & ->). apply make_token_ok. Qed.

Lemma next_raw_error l e l' : inside l ->
  next_raw U l = (Err e, l') <-> e = EOther /\ exists v, unreadable U (rest l) v /\ l' = adv l v.
Proof.
  intros I. unfold next_raw. destruct (rest l) as [|c0 t0] eqn:Er.
  { destruct (read_rune_end l I Er) as [-> _]. destruct (make_token_ok l EndOfStream) as (t & l1 & ->). split; [discriminate|].
    intros (_ & v & [((t' & E) & [(r & _ & B & _)|(L & _)])|((u & E & _) & _)] & _).
    - symmetry in E. apply app_eq_nil in E. destruct E as [-> _]. symmetry in B. now apply utf8_nonempty in B.
    - symmetry in E. apply app_eq_nil in E. destruct E as [-> _]. discriminate.
    - discriminate. }
  destruct (read_rune_some l) as (v & s & Ev & Nv & Lv & R & _); [congruence|].
  rewrite R. rewrite Er in *. clear R.
  destruct (decode_rune (c0 :: t0)) as [r k] eqn:D. cbn [fst snd] in *.
  pose proof (decode_first (c0 :: t0) r k ltac:(discriminate) D) as DF.
  rewrite Ev in *. clear c0 t0 Ev. rewrite <- Lv in DF. rewrite firstn_app, firstn_all, Nat.sub_diag, firstn_O, app_nil_r in DF.
  pose proof (adv_inside l v s I Er) as I1. pose proof (adv_rest l v s Er) as R1.
  (* the error at the end of the switch *)
  assert (Strange : forall w, strange U (v ++ s) w <-> odd_rune r /\ w = v).
  { intros w. split.
    - intros ((t & Et) & [(r' & V & B & H)|(L & Nb)]).
      + assert (D' : decode_rune (v ++ s) = (r', length (sp_utf8 r'))).
        { rewrite Et. apply (decode_encoded _ r' (bytes t) V). now rewrite bytes_app, B. }
        rewrite D in D'. injection D' as -> Ek. split; [now apply odd_rune_iff|].
        assert (Lw : length w = length v) by (rewrite <- (bytes_length w), B; lia).
        symmetry. apply (app_same_length v w s t); [lia|exact Et].
      + destruct DF as [[V B]|(-> & Ek & _)].
        * exfalso. apply Nb. exists r, (bytes s). split; [exact V|]. split; [exact Logic.I|]. now rewrite bytes_app, B.
        * split; [apply odd_error|]. symmetry. apply (app_same_length v w s t); [lia|exact Et].
    - intros (O & ->). split; [now exists s|]. destruct DF as [[V B]|(-> & Ek & Nb)].
      + left. exists r. split; [exact V|]. split; [exact B|]. now apply odd_rune_iff.
      + right. split; [lia|exact Nb]. }
  assert (Plain : forall (o : outcome token) l1, o = Ok l1 -> ~ odd_rune r -> ~ unclosed (v ++ s) -> forall l2 : lexer,
    (o, l2) = (Err e, l') <-> e = EOther /\ exists w, unreadable U (v ++ s) w /\ l' = adv l w).
  { intros o l1 -> No Nu l2. split; [discriminate|]. intros (_ & w & [H|[H _]] & _); [apply Strange in H; tauto|tauto]. }
  assert (NoSlash : forall u, v ++ s = txt "/*" ++ u -> r = ch "/").
  { intros u E. assert (D2 : decode_rune (v ++ s) = (ch "/", 1%nat)) by (rewrite E; apply decode_ascii; reflexivity). congruence. }
  destruct (is_space r) eqn:Esp.
  { destruct (while_token_ok is_space (fun _ => Whitespace) (adv l v) I1) as (t & l1 & ->).
    apply (Plain (Ok t) t eq_refl); [intros (K & _); congruence|].
    intros (u & E & _). apply NoSlash in E. subst r. discriminate. }
  destruct (N.eqb_spec r (ch "/")) as [Es|Es].
  { assert (No : ~ odd_rune r) by (intros (_ & K & _); rewrite Es in K; discriminate).
    assert (v = txt "/").
    { apply (low_rune v s "/"); [assumption|now rewrite D|now rewrite D|reflexivity]. }
    subst v. destruct (eat_char "/" (adv l (txt "/")) ltac:(reflexivity) I1) as [(u & Eu & Ee)|[Nu Ee]]; rewrite Ee.
    - rewrite R1 in Eu. clear R1. subst s. rewrite adv_adv.
      assert (Er' : rest l = txt "//" ++ u) by exact Er.
      pose proof (adv_inside l (txt "//") u I Er') as I2.
      destruct (while_token_ok (fun r => negb (r =? 10)%N) (fun _ => LineComment) (adv l (txt "//")) I2) as (t & l1 & E1).
      change (txt "/" ++ ["/"%char]) with (txt "//"). rewrite E1.
      apply (Plain (Ok t) t eq_refl No). intros (u' & E & _). discriminate.
    - destruct (eat_char "*" (adv l (txt "/")) ltac:(reflexivity) I1) as [(u & Eu & Ee2)|[Nu2 Ee2]]; rewrite Ee2.
      + rewrite R1 in Eu. clear R1. subst s. rewrite adv_adv.
        assert (Er' : rest l = txt "/*" ++ u) by exact Er.
        change (txt "/" ++ ["*"%char]) with (txt "/*").
        pose proof (adv_inside l (txt "/*") u I Er') as I2. pose proof (adv_rest l (txt "/*") u Er') as R2.
        pose proof (rest_le (adv l (txt "/*"))) as Lr.
        destruct (block_loop_spec (S (S (length (l_input (adv l (txt "/*")))))) 1 (adv l (txt "/*")) I2)
          as [(w & u' & Ew & Dp & B)|[Nv' B]]; [lia| |]; rewrite B.
        * rewrite R2 in Ew. destruct (make_token_ok (adv (adv l (txt "/*")) w) BlockComment) as (t & l1 & ->).
          apply (Plain (Ok t) t eq_refl No). intros (u2 & E & H). injection E as <-. apply (H w u' Ew). now apply deep_closes.
        * rewrite R2, adv_adv. split.
          -- intros E. injection E as <- <-. split; [reflexivity|]. exists (txt "/*" ++ u). split; [|reflexivity]. right.
             split; [|reflexivity]. exists u. split; [reflexivity|]. intros a t Ea Hc. rewrite R2 in Nv'.
             apply (Nv' a t Ea). now apply deep_closes.
          -- intros (-> & w & [H|[_ ->]] & ->); [apply Strange in H; tauto|reflexivity].
      + destruct (make_token_ok (adv l (txt "/")) Slash) as (t & l1 & ->).
        apply (Plain (Ok t) t eq_refl No). intros (u & E & _). injection E as E. apply Nu2. rewrite R1, E. now exists u. }
  assert (Nu : ~ unclosed (v ++ s)) by (intros (u & E & _); apply NoSlash in E; contradiction).
  destruct (single r) as [ty|] eqn:Esi.
  { destruct (make_token_ok (adv l v) ty) as (t & l1 & ->). apply (Plain (Ok t) t eq_refl); [intros (_ & _ & K & _); congruence|exact Nu]. }
  destruct (N.eqb_spec r (ch "-")) as [Em|Em].
  { assert (No : ~ odd_rune r) by (intros (_ & _ & _ & K & _); rewrite Em in K; discriminate).
    destruct (eat (ch ">") (adv l v)) as [[] l2].
    - destruct (make_token_ok l2 RightArrow) as (t & l1 & ->). now apply (Plain (Ok t) t eq_refl).
    - destruct (make_token_ok l2 Minus) as (t & l1 & ->). now apply (Plain (Ok t) t eq_refl). }
  destruct (N.eqb_spec r (ch "+")) as [Ep|Ep].
  { destruct (make_token_ok (adv l v) Plus) as (t & l1 & ->). apply (Plain (Ok t) t eq_refl); [|exact Nu].
    intros (_ & _ & _ & _ & K & _). rewrite Ep in K. discriminate. }
  destruct (N.eqb_spec r (ch "%")) as [Ec|Ec].
  { assert (No : ~ odd_rune r) by (intros (_ & _ & _ & _ & _ & K & _); rewrite Ec in K; discriminate).
    destruct (eat_if_cases (is_key_start U) (adv l v) I1) as [[Ee F]|(v2 & s2 & Ev2 & Nv2 & Lv2 & F & Ee)]; rewrite Ee.
    - destruct (make_token_ok (adv l v) ExplicitId) as (t & l1 & ->). now apply (Plain (Ok t) t eq_refl).
    - pose proof (adv_inside _ _ _ I1 Ev2) as I2.
      destruct (while_token_ok (is_key_continue U) (fun _ => ExplicitId) (adv (adv l v) v2) I2) as (t & l1 & ->).
      now apply (Plain (Ok t) t eq_refl). }
  destruct (is_key_start U r) eqn:Ek.
  { destruct (while_token_ok (is_key_continue U)
      (fun l => match text_get keyword_map (capture l) with Some ty => ty | None => Id end) (adv l v) I1) as (t & l1 & ->).
    apply (Plain (Ok t) t eq_refl); [|exact Nu]. intros K. apply K in Ek || (destruct K as (_ & _ & _ & _ & _ & _ & K & _); congruence). }
  destruct (is_digit U r) eqn:Ed.
  { destruct (while_token_ok (is_digit U) (fun _ => Integer) (adv l v) I1) as (t & l1 & ->).
    apply (Plain (Ok t) t eq_refl); [|exact Nu]. intros (_ & _ & _ & _ & _ & _ & _ & K). congruence. }
  assert (O : odd_rune r).
  { repeat split; try assumption; now apply N.eqb_neq. }
  split.
  - intros E. injection E as <- <-. split; [reflexivity|]. exists v. split; [|reflexivity]. left. now apply Strange.
  - intros (-> & w & [H|[H _]] & ->); [apply Strange in H; destruct H as [_ ->]; reflexivity|contradiction].
Qed.
End tables.

(** After a history without errors, the next token is refused exactly where
    nothing can start; the error then says the line and column of that place,
    and the position up to which the lexer had to read: after the strange
    character, or the end of the input for an unclosed comment. *)
Theorem wit_errors_are_located : forall U input ops, good_tables U ->
  no_error (fst (calls U ops (new_lexer input))) ->
  let l := snd (calls U ops (new_lexer input)) in
  let p := length (captures (taken (fst (calls U ops (new_lexer input))))) in
  (fst (next U l) = Err EOther <-> l_peek l = None /\ exists v, unreadable U (skipn p input) v) /\
  (forall e l', next U l = (Err e, l') ->
     place_of input p (r_line (wit_error l')) (r_column (wit_error l')) /\
     exists v, unreadable U (skipn p input) v /\ r_position (wit_error l') = (p + length v)%nat).
Proof.
  intros U input ops HU N l p.
  destruct (calls_aligned U HU ops (new_lexer input) (or_introl (new_aligned _)) N) as (Up & I & _).
  destruct (calls U ops (new_lexer input)) as [h l9] eqn:Ec. cbn [fst snd] in *. subst l.
  destruct (calls_good U HU _ _ _ _ (fresh_ok input) Ec) as (V & _ & F & _). cbn in F, I.
  destruct (follows_text _ _ _ _ F ltac:(lia)) as (_ & _ & E3). cbn in E3. fold p in E3.
  destruct Up as [A|(l0 & t0 & _ & _ & _ & K)].
  - assert (Ep : p = l_position l9) by (rewrite <- E3; unfold start; rewrite (al_peek _ A); apply A).
    assert (Er : skipn p input = rest l9) by (unfold rest; rewrite Ep, I; reflexivity).
    assert (En : next U l9 = next_raw U l9) by (unfold next; now rewrite (al_peek _ A)).
    rewrite Er, En. split; [split|].
    + intros H. destruct (next_raw U l9) as [r l'] eqn:E. cbn in H. subst r. split; [apply A|].
      apply (next_raw_error U HU) in E; [|apply A]. destruct E as (_ & v & H & _). now exists v.
    + intros [_ [v H]]. assert (E : next_raw U l9 = (Err EOther, adv l9 v)) by (apply (next_raw_error U HU); [apply A|eauto]).
      now rewrite E.
    + intros e l' E. apply (next_raw_error U HU) in E; [|apply A]. destruct E as (_ & v & H & ->).
      cbn [wit_error r_line r_column r_position adv set_position l_line l_column l_position]. split.
      * pose proof (inv_metrics _ V) as Sd. rewrite (al_pos _ A), <- Ep, I in Sd. unfold sound_at in Sd.
        pose proof (advance_newlines (firstn p input) 0 0) as L.
        destruct (advance_column (firstn p input)) as (ll & Hl & C). rewrite Sd in L, C. cbn in L, C. split; [assumption|]. now exists ll.
      * exists v. split; [exact H|]. now rewrite Ep.
  - unfold next. rewrite K. split; [split; [discriminate|intros [E _]; congruence]|]. discriminate.
Qed.
Print Assumptions wit_errors_are_located.

(** The place and the piece are determined. *)
Theorem unreadable_piece_unique : forall U s v v', good_tables U -> unreadable U s v -> unreadable U s v' -> v = v'.
Proof.
  intros U s v v' HU H H'.
  assert (I : inside (new_lexer s)) by (unfold inside; cbn; lia).
  pose proof (proj2 (next_raw_error U HU (new_lexer s) EOther (adv (new_lexer s) v) I) (conj eq_refl (ex_intro _ v (conj H eq_refl)))) as E.
  pose proof (proj2 (next_raw_error U HU (new_lexer s) EOther (adv (new_lexer s) v') I) (conj eq_refl (ex_intro _ v' (conj H' eq_refl)))) as E'.
  rewrite E in E'. injection E' as E'. 
  assert (P : forall w, unreadable U s w -> exists t, s = w ++ t).
  { intros w [[K _]|[_ ->]]; [exact K|]. exists []. now rewrite app_nil_r. }
  destruct (P _ H) as [t Et], (P _ H') as [t' Et']. rewrite Et in Et'. now apply (app_same_length v v' t t').
Qed.
Print Assumptions unreadable_piece_unique.

(** Three tokens, then a character nothing starts with; and three tokens,
    then a comment that is not closed. *)
Definition odd_character : text := txt "world" ++ ["010"%char] ++ txt "a#b".
Definition open_comment : text := txt "world" ++ ["010"%char] ++ txt "a/* b".
Example wit_errors_are_located_met :
  let run s := calls latin (repeat ONext 3) (new_lexer s) in
  no_error (fst (run odd_character)) /\ no_error (fst (run open_comment)) /\
  length (captures (taken (fst (run odd_character)))) = 7%nat /\
  next_results (fst (calls latin [ONext] (snd (run odd_character)))) = [Err EOther] /\
  wit_error (snd (next latin (snd (run odd_character)))) = {| r_line := 1; r_column := 1; r_position := 8 |} /\
  next_results (fst (calls latin [ONext] (snd (run open_comment)))) = [Err EOther] /\
  wit_error (snd (next latin (snd (run open_comment)))) = {| r_line := 1; r_column := 1; r_position := 11 |}.
Proof.
  cbv zeta. split; [|split]; [| |vm_compute; auto 10];
    intros o r H; vm_compute in H; intuition (subst; match goal with H : _ = _ |- _ => inversion H end; eauto).
Qed.

(** The pieces the specification names in the two cases. *)
Example unreadable_met : unreadable latin (txt "#b") (txt "#") /\ unreadable latin (txt "/* b") (txt "/* b").
Proof.
  split.
  - left. split; [now exists (txt "b")|]. left. exists 35%N. split; [unfold scalar_value; lia|]. split; [reflexivity|].
    apply (odd_rune_iff latin). vm_compute. auto 10.
  - pose proof (next_raw_error latin latin_good (new_lexer (txt "/* b")) EOther
      (snd (next_raw latin (new_lexer (txt "/* b")))) ltac:(unfold inside; cbn; lia)) as [H _].
    destruct (H ltac:(vm_compute; reflexivity)) as (_ & v & Hv & E).
    change (rest (new_lexer (txt "/* b"))) with (txt "/* b") in Hv. destruct Hv as [Hv|[Hv ->]].
    + exfalso. destruct Hv as ((t & Et) & [(r & V & B & _ & _ & _ & K)|(L & K)]).
      * assert (D : decode_rune (txt "/* b") = (r, length (sp_utf8 r))).
        { rewrite Et. apply (decode_encoded _ r (bytes t) V). now rewrite bytes_app, B. }
        vm_compute in D. injection D as <-. apply K. cbn. auto.
      * apply K. exists 47%N, (bytes (txt "* b")). split; [unfold scalar_value; lia|]. split; [exact Logic.I|reflexivity].
    + right. split; [exact Hv|reflexivity].
Qed.
