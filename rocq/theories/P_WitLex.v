(** Properties C39, C40 and C54: the WIT lexer. *)
From Coq Require Import Arith NArith String Ascii Bool List Lia.
From Verif Require Import GoBase M_Text S_Utf M_WitLex S_WitLex L_WitLex L_WitToks L_WitHist.
Import ListNotations.

(** Tables that know the Latin-1 letters, for the examples. *)
Definition latin : tables :=
  {| tb_letter := fun r => (192 <=? r)%N && (r <=? 255)%N && negb (r =? 215)%N && negb (r =? 247)%N;
     tb_digit := fun r => (1632 <=? r)%N && (r <=? 1641)%N |}.

Example latin_good : good_tables latin.
Proof.
  split; [reflexivity|]. split; [reflexivity|]. split.
  - intros r H. cbn in H. repeat (destruct H as [<-|H]; [split; reflexivity|]). destruct H.
  - intros r H. cbn in *. destruct (N.leb_spec 1632 r); [|reflexivity]. destruct (N.leb_spec r 255); [lia|].
    rewrite andb_false_r in H. discriminate.
Qed.

(** A file with a nested comment and a letter outside ASCII (two bytes). *)
Definition sample : text :=
  txt "use /* a /* b */ */ f" ++ map ascii_of_N [195; 169]%N ++ txt "-1;" ++ [newline] ++ txt " u32 // c".

(** C39: the tokens taken by any history of Next and Peek calls, with or
    without errors in between, cut the input into consecutive pieces: nothing
    is lost, nothing is invented, and each position is the length of what
    comes before. After an end-of-stream token nothing is left. *)
Theorem wit_tokens_cut_the_input : forall U input ops, good_tables U ->
  let ts := taken (fst (calls U ops (new_lexer input))) in
  exists rest, input = captures ts ++ rest /\
    (forall t, In t ts -> t_type t = EndOfStream -> rest = []) /\
    (forall before t after, ts = before ++ t :: after -> t_position t = length (captures before)).
Proof.
  intros U input ops HU. destruct (calls U ops (new_lexer input)) as [h l] eqn:E. cbn [fst].
  destruct (calls_good U HU _ _ _ _ (fresh_ok input) E) as (V & I & F & _). cbn in F.
  exists (skipn (start l) input).
  destruct (follows_text _ _ _ _ F ltac:(lia)) as (E1 & E2 & E3).
  split; [exact E1|]. split.
  - intros t Ht Hty. apply in_split in Ht. destruct Ht as (a & b & Eab). rewrite Eab in F.
    destruct (follows_split _ _ _ _ _ _ F) as (F1 & (rest & Er & Hle & _ & Heos & _) & F2).
    specialize (Heos Hty). subst rest. rewrite app_nil_r in Er.
    apply (f_equal (@length ascii)) in Er. rewrite skipn_length in Er.
    destruct (follows_text _ _ _ _ F2 ltac:(lia)) as (_ & E5 & E6). apply skipn_all2. lia.
  - intros before t after Eab. rewrite Eab in F.
    destruct (follows_split _ _ _ _ _ _ F) as (F1 & _ & _).
    destruct (follows_text _ _ _ _ F1 ltac:(lia)) as (_ & _ & E6). exact E6.
Qed.

Example wit_tokens_cut_the_input_case :
  map (fun t => (t_type t, t_position t))
    (taken (fst (calls latin [ONext; OPeek; ONext; ONext; ONext; OPeek; ONext; ONext; ONext] (new_lexer sample)))) =
  [(KUse, 0); (Whitespace, 3); (BlockComment, 4); (Whitespace, 19); (Id, 20); (Semicolon, 25); (Whitespace, 26)]%nat.
Proof. vm_compute. reflexivity. Qed.

(** C39: the line of a token is the number of newlines before it in the input
    and its column the number of bytes since the last of them. *)
Theorem wit_lines_and_columns : forall U input ops t, good_tables U ->
  (exists o, In (o, Ok t) (fst (calls U ops (new_lexer input)))) ->
  t_line t = newlines (firstn (t_position t) input) /\
  exists l, last_line (firstn (t_position t) input) l /\ t_column t = length l.
Proof.
  intros U input ops t HU (o & H). destruct (calls U ops (new_lexer input)) as [h l] eqn:E. cbn [fst] in H.
  destruct (calls_good U HU _ _ _ _ (fresh_ok input) E) as (V & I & F & A). cbn in A.
  destruct (A _ _ H) as [(t' & Et & G)|[[_ K]|[_ K]]]; try discriminate. inversion Et; subst t'.
  destruct G as (rest & _ & _ & Sd & _). unfold sound_at in Sd.
  pose proof (advance_newlines (firstn (t_position t) input) 0 0) as L.
  destruct (advance_column (firstn (t_position t) input)) as (ll & Hl & C).
  rewrite Sd in L, C. cbn in L, C. split; [assumption|]. now exists ll.
Qed.

Example wit_lines_and_columns_case :
  map (fun t => (t_type t, t_line t, t_column t)) (skipn 4 (taken (fst (calls latin (repeat ONext 10) (new_lexer sample))))) =
  [(Id, 0, 20); (Semicolon, 0, 25); (Whitespace, 0, 26); (KU32, 1, 1); (Whitespace, 1, 4); (LineComment, 1, 5)]%nat.
Proof. vm_compute. reflexivity. Qed.

(** C39: Next gives a token or an error, whatever happened before; it never
    panics. A token without text is the end of the stream. *)
Theorem wit_next_gives_token_or_error : forall U input l, good_tables U -> reachable U input l ->
  (exists t, fst (next U l) = Ok t /\ (t_capture t = [] -> t_type t = EndOfStream)) \/ fst (next U l) = Err EOther.
Proof.
  intros U input l HU H. apply (reachable_inv U HU) in H. destruct H as (Hi & _).
  destruct (next_good U HU l Hi) as [(t & l' & E & (rest & _ & _ & _ & _ & G) & _)|(l' & E & _)]; rewrite E; cbn; eauto.
Qed.

(** C39: once Next has been called as often as the input has bytes, every
    further call gives the end of the stream, whether or not there were errors
    or Peek calls in between. *)
Theorem wit_tokenisation_ends : forall U input ops, good_tables U -> (length input <= next_count ops)%nat ->
  exists t, fst (next U (snd (calls U ops (new_lexer input)))) = Ok t /\ t_type t = EndOfStream.
Proof.
  intros U input ops HU Hn.
  pose proof (calls_spent U HU ops (new_lexer input) 0 (fresh_ok input)) as Hs.
  specialize (Hs ltac:(left; cbn; lia)). rewrite Nat.add_0_r in Hs.
  destruct (calls U ops (new_lexer input)) as [h l] eqn:E. cbn [snd] in *.
  destruct (calls_good U HU _ _ _ _ (fresh_ok input) E) as (V & I & _). cbn in I.
  pose proof (inv_order _ V) as Q. rewrite I in Q. unfold spent in Hs. unfold next.
  destruct (l_peek l) as [t|] eqn:Ep.
  - destruct Hs as [Hs|[_ Hs]]; [lia|]. exists t. auto.
  - assert (Hin : inside l) by (unfold inside; rewrite I; lia).
    destruct (next_raw_shape U HU l Hin) as [[_ E2]|(w & s & Er & Nw & _)].
    + rewrite E2. unfold make_token. destruct (advance _ _ _). cbn. eauto.
    + exfalso. pose proof (rest_length l) as R. rewrite Er, app_length, I in R. rewrite I in Hs.
      destruct w; [congruence|]. cbn in R. lia.
Qed.

Example wit_tokenisation_ends_case :
  map (fun r => match r with Ok t => Some (t_type t) | _ => None end)
    (next_results (fst (calls latin (repeat ONext 4) (new_lexer (txt "#;;"))))) =
  [None; Some Semicolon; Some Semicolon; Some EndOfStream].
Proof. vm_compute. reflexivity. Qed.

(** C39: Peek gives the token the next Next gives, as often as it is asked,
    and does not change what Next gives or leaves. *)
Theorem wit_peek_is_next : forall U input l t l', good_tables U -> reachable U input l -> next U l = (Ok t, l') ->
  exists lp, peek U l = (Ok t, lp) /\ peek U lp = (Ok t, lp) /\ next U lp = (Ok t, l').
Proof.
  intros U input l t l' HU H E. apply (reachable_inv U HU) in H. destruct H as (Hi & _).
  destruct (l_peek l) as [u|] eqn:Ep.
  - exists l. unfold next, peek in *. rewrite Ep in *. inversion E; subst. auto.
  - pose proof (peek_next U l Ep) as P. rewrite E in P. destruct P as [P1 P2]. eexists. split; [exact P1|].
    split; [unfold peek; reflexivity|]. apply P2.
    destruct (next_good U HU l Hi) as [(t0 & l0 & E0 & _ & _ & _ & _ & K & _)|(l0 & E0 & _)]; rewrite E0 in E; inversion E; now subst.
Qed.

(** Where Next reports an error, Peek panics. *)
Theorem wit_peek_panics_on_error : forall U input l, good_tables U -> reachable U input l ->
  (fst (peek U l) = Panic <-> fst (next U l) = Err EOther).
Proof.
  intros U input l HU H. apply (reachable_inv U HU) in H. destruct H as (Hi & _).
  destruct (l_peek l) as [u|] eqn:Ep.
  - unfold next, peek. rewrite Ep. cbn. split; discriminate.
  - pose proof (peek_next U l Ep) as P.
    destruct (next_good U HU l Hi) as [(t & l' & E & _)|(l' & E & _)]; rewrite E in P.
    + destruct P as [P _]. rewrite P, E. cbn. split; discriminate.
    + rewrite P, E. cbn. tauto.
Qed.

Theorem wit_peek_reports_errors_refuted :
  ~ (forall U input l, good_tables U -> reachable U input l -> fst (peek U l) <> Panic).
Proof.
  intros H. apply (H latin (txt "#") (new_lexer (txt "#")) latin_good); [|vm_compute; reflexivity]. now exists [].
Qed.

(** C39: Peek calls are not visible: without them Next gives the same
    results. *)
Theorem wit_peeks_are_invisible : forall U input ops, good_tables U ->
  (forall o r, In (o, r) (fst (calls U ops (new_lexer input))) -> r <> Panic) ->
  next_results (fst (calls U ops (new_lexer input))) =
  next_results (fst (calls U (repeat ONext (next_count ops)) (new_lexer input))).
Proof.
  intros U input ops HU H.
  destruct (peeks_from U HU ops _ (fresh_ok input) H) as [E _]. rewrite E.
  assert (F : filter (fun o => match o with ONext => true | OPeek => false end) ops = repeat ONext (next_count ops)).
  { unfold next_count. clear. induction ops as [|[] ops IH]; cbn; auto. now rewrite <- IH. }
  now rewrite F.
Qed.

Example wit_peeks_are_invisible_case :
  let ops := [OPeek; OPeek; ONext; OPeek; ONext; ONext; OPeek] in
  (forall o r, In (o, r) (fst (calls latin ops (new_lexer sample))) -> r <> Panic) /\
  map (fun r => match r with Ok t => Some (t_type t) | _ => None end)
    (next_results (fst (calls latin ops (new_lexer sample)))) = [Some KUse; Some Whitespace; Some BlockComment].
Proof.
  split; [|vm_compute; reflexivity]. intros o r H. vm_compute in H. intuition congruence.
Qed.

(** C39: any number of lexers, some of them clones of others, in use in any
    order: each answers as if it were alone, starting from the lexer it was
    cloned from. *)
Theorem wit_clones_are_independent : forall U s i l os1 h1 s1,
  ssteps U os1 s = (h1, s1) -> nth_error s1 i = Some l ->
  forall os2 h2 s2, ssteps U (SClone i :: os2) s1 = (h2, s2) ->
  (exists ops l', calls U ops l = (answers i h2, l') /\ nth_error s2 i = Some l') /\
  (exists ops l', calls U ops l = (answers (length s1) h2, l') /\ nth_error s2 (length s1) = Some l').
Proof.
  intros U s i l os1 h1 s1 _ Hl os2 h2 s2 H.
  cbn in H. rewrite Hl in H. destruct (ssteps U os2 (s1 ++ [clone l])) as [h3 s3] eqn:E. inversion H; subst.
  split; eapply ssteps_answers; try exact E.
  - rewrite nth_error_app1; [assumption|]. apply nth_error_Some. congruence.
  - rewrite nth_error_app2, Nat.sub_diag by lia. reflexivity.
Qed.

Example wit_clones_are_independent_case :
  let (h, s) := ssteps latin [SCall 0 ONext; SClone 0; SCall 1 ONext; SCall 1 ONext; SCall 0 OPeek; SCall 0 ONext]
                  [new_lexer sample] in
  length s = 2%nat /\
  map (fun x => match x with (i, _, Ok t) => (i, t_type t) | (i, _, _) => (i, EndOfStream) end) h =
  [(0, KUse); (1, Whitespace); (1, BlockComment); (0, Whitespace); (0, Whitespace)]%nat.
Proof. vm_compute. auto. Qed.

(** ** Texts of tokens *)

(** C54: as long as no error was reported, every token's text is of the
    token's type, and the token could not have been longer. *)
Theorem wit_token_texts : forall U input ops o t, good_tables U ->
  no_error (fst (calls U ops (new_lexer input))) ->
  In (o, Ok t) (fst (calls U ops (new_lexer input))) ->
  exists rest, skipn (t_position t) input = t_capture t ++ rest /\
  ((token_text U (t_type t) (t_capture t) /\ separate U (t_type t) (t_capture t) rest) \/
   (t_type t = EndOfStream /\ rest = [] /\ t_capture t = [])).
Proof.
  intros U input ops o t HU N H.
  destruct (calls_aligned U HU ops (new_lexer input) (or_introl (new_aligned _)) N) as (_ & _ & T).
  exact (T _ _ H).
Qed.

(** C54, the other way round: a file written as tokens, each as long as it can
    be, is read back as exactly these tokens, then the end of the stream. *)
Theorem wit_tokens_read_back : forall U ts, good_tables U -> separated U ts ->
  exists rs l' te, calls U (repeat ONext (length ts)) (new_lexer (concat (map snd ts))) =
      (map (fun t => (ONext, Ok t)) rs, l') /\
    map (fun t => (t_type t, t_capture t)) rs = ts /\
    fst (next U l') = Ok te /\ t_type te = EndOfStream /\ t_capture te = [].
Proof. intros U ts HU H. apply read_back_from; [assumption|apply new_aligned|reflexivity|assumption]. Qed.

(** C54: a file is rejected only where no token fits. *)
Theorem wit_error_means_no_token : forall U input ops, good_tables U ->
  no_error (fst (calls U ops (new_lexer input))) ->
  let l := snd (calls U ops (new_lexer input)) in
  fst (next U l) = Err EOther ->
  forall ty w r, skipn (length (captures (taken (fst (calls U ops (new_lexer input)))))) input = w ++ r ->
  token_text U ty w -> ~ separate U ty w r.
Proof.
  intros U input ops HU N l E ty w r Hr.
  destruct (calls_aligned U HU ops (new_lexer input) (or_introl (new_aligned _)) N) as (Up & I & _). fold l in Up, I.
  destruct (calls U ops (new_lexer input)) as [h l9] eqn:Ec. cbn [fst snd] in *. subst l.
  destruct (calls_good U HU _ _ _ _ (fresh_ok input) Ec) as (V & _ & F & _). cbn in F.
  destruct (follows_text _ _ _ _ F ltac:(lia)) as (_ & _ & E3). cbn in E3.
  destruct Up as [A|(l0 & t0 & _ & _ & _ & K)].
  - destruct (next_sound U HU l9 A) as [(t & l' & En & _)|(l' & En & D)]; [rewrite En in E; discriminate|].
    apply D. unfold rest. rewrite I. cbn. rewrite <- Hr. f_equal. rewrite <- E3.
    unfold start. rewrite (al_peek _ A). symmetry. apply A.
  - unfold next in E. rewrite K in E. discriminate.
Qed.

(** An unclosed comment is an error, and no token fits there. *)
Example wit_error_case :
  fst (next latin (new_lexer (txt "/* a /* b */"))) = Err EOther.
Proof. vm_compute. reflexivity. Qed.

Lemma begins_ascii P c r : (N_of_ascii c < 128)%N -> begins P (c :: r) -> P (N_of_ascii c).
Proof.
  intros Hc (x & t & V & Px & B). pose proof (decode_encoded _ _ _ V B) as D. rewrite decode_ascii in D by assumption.
  inversion D. now subst.
Qed.
Lemma begins_nil P : ~ begins P [].
Proof. intros (x & t & V & Px & B). cbn in B. symmetry in B. apply app_eq_nil in B. now apply (utf8_nonempty x). Qed.

Lemma utf8_ascii rs : Forall (fun r => r < 128)%N rs -> utf8_text rs = rs.
Proof.
  induction 1 as [|r rs Hr _ IH]; [reflexivity|]. change (utf8_text (r :: rs)) with (sp_utf8 r ++ utf8_text rs)%list.
  rewrite IH. unfold sp_utf8. destruct (N.ltb_spec r 128); [reflexivity|lia].
Qed.
Lemma ascii_all (P : N -> Prop) w : Forall (fun r => (r < 128)%N /\ P r) (bytes w) -> all_of P w.
Proof.
  intros H. exists (bytes w). split; [|split].
  - eapply Forall_impl; [|exact H]. intros r [Hr _]. left. lia.
  - eapply Forall_impl; [|exact H]. now intros r [_ Hr].
  - symmetry. apply utf8_ascii. eapply Forall_impl; [|exact H]. now intros r [Hr _].
Qed.
Lemma ascii_word U (first : N -> Prop) c w : (N_of_ascii c < 128)%N -> first (N_of_ascii c) ->
  Forall (fun r => (r < 128)%N /\ inner U r) (bytes w) -> word U first (c :: w).
Proof.
  intros Hc Hf H. destruct (ascii_all _ _ H) as (rs & V & F & B). exists (N_of_ascii c), rs.
  split; [left; lia|]. repeat (split; [assumption|]). cbn [bytes map]. fold (bytes w). rewrite B.
  change (utf8_text (N_of_ascii c :: rs)) with (sp_utf8 (N_of_ascii c) ++ utf8_text rs)%list.
  unfold sp_utf8. destruct (N.ltb_spec (N_of_ascii c) 128); [reflexivity|lia].
Qed.

Lemma keyword_letter U s k : In (s, k) keywords -> word U (fun r => letter U r \/ r = code "_") (txt s).
Proof.
  intros H. destruct (keyword_word U s k H) as (c & w & -> & Hc & F & (rs & V & P & B)).
  exists (ch c), rs. split; [left; unfold ch; lia|]. repeat (split; [assumption|]). cbn [bytes map]. fold (bytes w).
  rewrite B. change (utf8_text (ch c :: rs)) with (sp_utf8 (ch c) ++ utf8_text rs)%list.
  unfold sp_utf8, ch. destruct (N.ltb_spec (N_of_ascii c) 128); [reflexivity|lia].
Qed.

Ltac ascii_chars := repeat (apply Forall_cons; [split; [reflexivity|unfold inner, letter, digit, space; cbn; first [lia|tauto]]|]); apply Forall_nil.
Ltac apart := first [intros H; exact (begins_nil _ H) | intros H; apply begins_ascii in H; [|reflexivity];
  vm_compute in H; intuition (try discriminate); intuition discriminate].

Example wit_tokens_read_back_case : separated latin
  [(KUse, txt "use"); (Whitespace, txt " "); (Id, txt "use-me"); (BlockComment, txt "/*/* */*/"); (RightArrow, txt "->");
   (ExplicitId, txt "%use"); (LineComment, txt "// use")].
Proof.
  split; [exists "use"%string; split; [cbn; tauto|reflexivity]|]. split; [cbn [concat map snd app]; apart|].
  split; [split; [discriminate|apply ascii_all; ascii_chars]|]. split; [cbn [concat map snd app]; apart|].
  split; [split; [apply ascii_word; [reflexivity|unfold letter; cbn; lia|ascii_chars]|]|].
  { intros (s & k & H & E).
    assert (G : text_get keyword_map (txt "use-me") = Some k) by (apply keyword_get; eauto). vm_compute in G. discriminate. }
  split; [cbn [concat map snd app]; apart|].
  split; [exists (txt "/* */*/"); split; [reflexivity|]|].
  { change (txt "/* */*/") with (txt "/*" ++ (txt " */") ++ txt "*/"). apply closes_nested; [|apply closes_here].
    apply closes_char; [intros (t & E); discriminate|intros (t & E); discriminate|apply closes_here]. }
  split; [exact I|].
  split; [exists "->"%string; split; [cbn; tauto|reflexivity]|]. split; [exact I|].
  split; [right; exists (txt "use"); split; [reflexivity|apply ascii_word; [reflexivity|unfold letter; cbn; lia|ascii_chars]]|].
  split; [cbn [concat map snd app]; apart|].
  split; [exists (txt " use"); split; [reflexivity|vm_compute; intuition discriminate]|]. split; [now left|exact I].
Qed.

(** ** C40: keywords *)

Lemma toktype_dec (a b : toktype) : {a = b} + {a <> b}.
Proof. decide equality. Defined.
Lemma nodup_check {A} (dec : forall a b : A, {a = b} + {a <> b}) l : (length (nodup dec l) =? length l)%nat = true -> NoDup l.
Proof.
  intros H. apply Nat.eqb_eq in H. induction l as [|a l IH]; [constructor|]. cbn in H.
  assert (L : (length (nodup dec l) <= length l)%nat).
  { clear. induction l as [|b l IH]; cbn; [lia|]. destruct (in_dec dec b l); cbn; lia. }
  destruct (in_dec dec a l); cbn in H; [lia|]. constructor; [assumption|]. apply IH. lia.
Qed.

Lemma names_nodup : NoDup (map fst (keywords ++ marks)) /\ NoDup (map snd (keywords ++ marks)).
Proof. split; [apply (nodup_check string_dec)|apply (nodup_check toktype_dec)]; vm_compute; reflexivity. Qed.

Lemma nodup_fst {A B} (l : list (A * B)) a b b' : NoDup (map fst l) -> In (a, b) l -> In (a, b') l -> b = b'.
Proof.
  induction l as [|[x y] l IH]; cbn; [tauto|]. intros N H H'. inversion N as [|? ? N1 N2]; subst.
  destruct H as [H|H], H' as [H'|H']; try congruence.
  - exfalso. apply N1. inversion H; subst. change a with (fst (a, b')). now apply in_map.
  - exfalso. apply N1. inversion H'; subst. change a with (fst (a, b)). now apply in_map.
  - now apply IH.
Qed.
Lemma nodup_snd {A B} (l : list (A * B)) a a' b : NoDup (map snd l) -> In (a, b) l -> In (a', b) l -> a = a'.
Proof.
  induction l as [|[x y] l IH]; cbn; [tauto|]. intros N H H'. inversion N as [|? ? N1 N2]; subst.
  destruct H as [H|H], H' as [H'|H']; try congruence.
  - exfalso. apply N1. inversion H; subst. change b with (snd (a', b)). now apply in_map.
  - exfalso. apply N1. inversion H'; subst. change b with (snd (a, b)). now apply in_map.
  - now apply IH.
Qed.

Lemma txt_inj a b : txt a = txt b -> a = b.
Proof.
  intros H. rewrite <- (string_of_list_ascii_of_string a), <- (string_of_list_ascii_of_string b). unfold txt in H. now rewrite H.
Qed.

(** A token is a keyword exactly when its whole text is that keyword. *)
Theorem keywords_are_whole_words : forall U input ops o t, good_tables U ->
  no_error (fst (calls U ops (new_lexer input))) ->
  In (o, Ok t) (fst (calls U ops (new_lexer input))) ->
  forall s k, In (s, k) keywords -> (t_type t = k <-> t_capture t = txt s).
Proof.
  intros U input ops o t HU N H s k Hk. destruct (wit_token_texts U input ops o t HU N H) as (rest & _ & D).
  assert (Hk' : In (s, k) (keywords ++ marks)) by (apply in_or_app; now left).
  destruct names_nodup as [N1 N2]. destruct (keyword_word U s k Hk) as (c & w & Ew & Hc & Hl & _). split.
  - intros E. destruct D as [[T _]|(T & _)]; [|exfalso; apply (keyword_not_eos s k Hk'); congruence].
    assert (T' : exists s', In (s', k) (keywords ++ marks) /\ t_capture t = txt s').
    { rewrite E in T. assert (F : Forall (fun p => token_text U (snd p) (t_capture t) ->
        exists s', In (s', snd p) (keywords ++ marks) /\ t_capture t = txt s') keywords).
      { unfold keywords at 2. repeat (apply Forall_cons; [exact (fun h => h)|]). apply Forall_nil. }
      rewrite Forall_forall in F. exact (F (s, k) Hk T). }
    destruct T' as (s' & Hs' & E'). now rewrite (nodup_snd _ s s' k N2 Hk' Hs').
  - intros E. destruct D as [[T _]|(_ & _ & T)]; [|exfalso; rewrite T, Ew in E; discriminate].
    rewrite E in T.
    assert (Named : (exists s', In (s', t_type t) (keywords ++ marks) /\ txt s = txt s') -> t_type t = k).
    { intros (s' & Hs' & E'). apply txt_inj in E'. subst s'. now apply (nodup_fst _ s _ _ N1). }
    destruct (letter_plain U HU (ch c) Hl) as (L1 & L2 & _ & _ & _ & L6 & L7).
    rewrite Ew in T, Named.
    assert (Vc : scalar_value (ch c)) by (left; unfold ch; lia).
    assert (First : forall P, c :: w <> [] -> all_of P (c :: w) -> P (ch c)).
    { intros P Nn A. apply all_of_parts in A; [|discriminate]. destruct A as (v & u & r & E2 & V & Pr & B & _).
      pose proof (decode_encoded (c :: w) r (bytes u) V) as D. rewrite E2, bytes_app, B in D. specialize (D eq_refl).
      rewrite <- E2, decode_ascii in D by assumption. inversion D. unfold ch. congruence. }
    destruct (t_type t) eqn:Et; try (apply Named; exact T); exfalso; cbn in T.
    + destruct T as [Nn T]. apply (First _ Nn) in T. apply space_iff in T. congruence.
    + destruct T as (b & E2 & _). inversion E2; subst c. discriminate.
    + destruct T as (b & E2 & _). inversion E2; subst c. discriminate.
    + destruct T.
    + destruct T as [_ T]. apply T. exists s, k. auto.
    + destruct T as [Nn T]. apply (First _ Nn) in T. destruct (digit_plain U HU _ T) as (_ & _ & _ & _ & _ & _ & L). congruence.
    + destruct T as [T|(b & T & _)]; inversion T; subst c; discriminate.
Qed.

Example keywords_case :
  map (fun t => (t_type t, t_capture t)) (taken (fst (calls latin (repeat ONext 5) (new_lexer (txt "used use use-"))))) =
  [(Id, txt "used"); (Whitespace, txt " "); (KUse, txt "use"); (Whitespace, txt " "); (Id, txt "use-")].
Proof. vm_compute. reflexivity. Qed.

(** Every keyword, followed by anything that is not part of a word, is found. *)
Theorem keywords_are_found : forall U s k rest, good_tables U -> In (s, k) keywords -> ~ begins (inner U) rest ->
  exists t l, next U (new_lexer (txt s ++ rest)) = (Ok t, l) /\ t_type t = k /\ t_capture t = txt s.
Proof.
  intros U s k rest HU Hk Hr.
  destruct (next_complete U HU (new_lexer (txt s ++ rest)) k (txt s) rest) as (t & l & E & T & C & _).
  - apply new_aligned.
  - reflexivity.
  - apply named_text. apply in_or_app. now left.
  - now rewrite (keyword_separate U s k).
  - exists t, l. auto.
Qed.

(** ** C54: comments and identifiers *)

(** Block comments nest: the token ends at the closing that belongs to its
    own opening, whatever follows. *)
Theorem block_comments_nest : forall U a rest, good_tables U -> closes a ->
  exists t l, next U (new_lexer ((txt "/*" ++ a) ++ rest)) = (Ok t, l) /\
    t_type t = BlockComment /\ t_capture t = txt "/*" ++ a.
Proof.
  intros U a rest HU Ha.
  destruct (next_complete U HU (new_lexer ((txt "/*" ++ a) ++ rest)) BlockComment (txt "/*" ++ a) rest) as (t & l & E & T & C & _).
  - apply new_aligned.
  - reflexivity.
  - now exists a.
  - exact I.
  - exists t, l. auto.
Qed.

(** A comment that is never closed is an error. *)
Theorem open_comments_rejected : forall U s, good_tables U -> (forall a r, s = a ++ r -> ~ closes a) ->
  fst (next U (new_lexer (txt "/*" ++ s))) = Err EOther.
Proof.
  intros U s HU Hs.
  destruct (next_sound U HU (new_lexer (txt "/*" ++ s)) (new_aligned _)) as [(t & l' & E & _ & _ & _ & R & D)|(l' & E & _)];
    rewrite E; [|reflexivity]. exfalso.
  change (rest (new_lexer (txt "/*" ++ s))) with (txt "/*" ++ s) in R.
  destruct D as [[T S]|(_ & K1 & K2)]; [|rewrite K1, K2 in R; discriminate].
  assert (First : forall P, all_of P (t_capture t) -> t_capture t <> [] -> P 47%N).
  { intros P A Nn. apply all_of_parts in A; [|assumption]. destruct A as (v & u & r & E2 & V & Pr & B & _).
    pose proof (decode_encoded (txt "/*" ++ s) r (bytes (u ++ rest l')) V) as D.
    rewrite R, E2, !bytes_app, B, <- app_assoc in D. specialize (D eq_refl).
    rewrite <- E2, <- R in D. cbn in D. inversion D. now subst. }
  assert (Word : forall f : N -> Prop, word U f (t_capture t) -> f 47%N).
  { intros f (r & rs & V & F & Vs & Ps & B).
    assert (A : all_of (fun x => x = r \/ In x rs) (t_capture t)).
    { exists (r :: rs). split; [now constructor|]. split; [|assumption]. apply Forall_forall. intros x [->|Hx]; auto. }
    pose proof (decode_encoded (txt "/*" ++ s) r (utf8_text rs ++ bytes (rest l'))%list V) as D.
    change (utf8_text (r :: rs)) with (sp_utf8 r ++ utf8_text rs)%list in B.
    rewrite R, bytes_app, B, <- app_assoc in D. specialize (D eq_refl). rewrite <- R in D. cbn in D. inversion D. now subst. }
  assert (Named : forall s', In (s', t_type t) (keywords ++ marks) -> t_capture t = txt s' -> t_type t = Slash).
  { intros s' Hin E'. rewrite E' in R. clear - R Hin.
    assert (F : Forall (fun p => match txt (fst p) with c :: _ => Ascii.eqb c "/" = true -> snd p = Slash | [] => False end) (keywords ++ marks)).
    { cbn [keywords marks app]. repeat (apply Forall_cons; [vm_compute; first [discriminate|reflexivity]|]). apply Forall_nil. }
    rewrite Forall_forall in F. specialize (F (s', t_type t) Hin). cbn [fst snd] in F.
    destruct (txt s') as [|c u]; [destruct F|]. cbn in R. inversion R; subst c. now apply F. }
  destruct (t_type t) eqn:Et; try (cbn in T; destruct T as (s' & Hin & E'); specialize (Named s' Hin E'); discriminate).
  - (* Slash *) destruct T as (s' & Hin & E'). destruct names_nodup as [_ N2].
    assert (Hs' : s' = "/"%string) by (apply (nodup_snd _ _ _ _ N2 Hin); cbn; tauto). subst s'.
    rewrite E' in R. cbn in R. inversion R as [R']. destruct S as [_ S]. apply S. rewrite <- R'. now exists s.
  - destruct T as [Nn T]. apply First in T; [|assumption]. cbn in T. intuition discriminate.
  - destruct T as (b & E' & _). rewrite E' in R. discriminate.
  - destruct T as (b & E' & Cb). rewrite E' in R. cbn in R. inversion R as [R']. now apply (Hs b (rest l')).
  - destruct T.
  - destruct T as [T _]. apply Word in T. unfold letter, code in T. cbn in T. destruct T as [[T|[T _]]|T]; [lia|lia|discriminate].
  - destruct T as [Nn T]. apply First in T; [|assumption]. unfold digit in T. lia.
  - destruct T as [T|(v & T & _)]; rewrite T in R; discriminate.
Qed.

Example open_comments_rejected_case : forall a r, txt " /* */" = a ++ r -> ~ closes a.
Proof.
  intros a r E C. destruct (block_comments_nest latin a r latin_good C) as (t & l & K & _).
  rewrite <- app_assoc, <- E in K. vm_compute in K. discriminate.
Qed.

(** Identifiers of the WIT grammar: words of lower-case or of upper-case
    letters and digits, joined by hyphens. *)
Definition lower (c : ascii) : Prop := (97 <= N_of_ascii c <= 122)%N.
Definition upper (c : ascii) : Prop := (65 <= N_of_ascii c <= 90)%N.
Definition number (c : ascii) : Prop := (48 <= N_of_ascii c <= 57)%N.
Inductive label_word : text -> Prop :=
| label_lower c w : lower c -> Forall (fun d => lower d \/ number d) w -> label_word (c :: w)
| label_upper c w : upper c -> Forall (fun d => upper d \/ number d) w -> label_word (c :: w).
Inductive label : text -> Prop :=
| label_one w : label_word w -> label w
| label_more w v : label_word w -> label v -> label (w ++ "-"%char :: v).

Definition label_char (c : ascii) : Prop := lower c \/ upper c \/ number c \/ c = "-"%char.
Lemma label_chars w : label w -> exists c v, w = c :: v /\ (lower c \/ upper c) /\ Forall label_char v.
Proof.
  unfold label_char.
  assert (Wd : forall w, label_word w -> exists c v, w = c :: v /\ (lower c \/ upper c) /\ Forall label_char v).
  { intros u [c v Hc Hv|c v Hc Hv]; exists c, v; split; auto; split; auto; eapply Forall_impl; try exact Hv; unfold label_char; intuition. }
  induction 1 as [w H|w v H Hv (c' & v' & -> & Hc' & Hv')]; [now apply Wd|].
  destruct (Wd w H) as (c & u & -> & Hc & Hu). exists c, (u ++ "-"%char :: c' :: v'). split; [reflexivity|]. split; [assumption|].
  apply Forall_app. split; [assumption|]. constructor; [unfold label_char; auto|]. constructor; [unfold label_char; tauto|assumption].
Qed.

(** Every identifier of the grammar that is no keyword is an identifier
    token. *)
Theorem labels_are_identifiers : forall U w rest, good_tables U -> label w ->
  ~ (exists s k, In (s, k) keywords /\ w = txt s) -> ~ begins (inner U) rest ->
  exists t l, next U (new_lexer (w ++ rest)) = (Ok t, l) /\ t_type t = Id /\ t_capture t = w.
Proof.
  intros U w rest HU Hw Hk Hr.
  destruct (next_complete U HU (new_lexer (w ++ rest)) Id w rest) as (t & l & E & T & C & _).
  - apply new_aligned.
  - reflexivity.
  - split; [|assumption]. destruct (label_chars w Hw) as (c & v & -> & Hc & Hv). apply ascii_word.
    + unfold lower, upper in Hc. lia.
    + left. unfold letter, lower, upper in *. lia.
    + unfold bytes. apply Forall_map. eapply Forall_impl; [|exact Hv]. intros d. cbn.
      unfold label_char, lower, upper, number, inner, letter, digit, code.
      intros [H|[H|[H|H]]]; [lia|lia|lia|subst d; split; [reflexivity|now right; right]].
  - assumption.
  - exists t, l. auto.
Qed.

Example labels_case : label (txt "a1-B") /\ ~ (exists s k, In (s, k) keywords /\ txt "a1-B" = txt s) /\ ~ begins (inner latin) (txt ";").
Proof.
  split; [|split].
  - change (txt "a1-B") with (txt "a1" ++ "-"%char :: txt "B"). apply label_more.
    + apply label_lower; [unfold lower; cbn; lia|]. apply Forall_cons; [right; unfold number; cbn; lia|apply Forall_nil].
    + apply label_one. apply label_upper; [unfold upper; cbn; lia|constructor].
  - intros (s & k & H & E).
    assert (G : text_get keyword_map (txt "a1-B") = Some k) by (apply keyword_get; eauto). vm_compute in G. discriminate.
  - apart.
Qed.

(** Not every identifier token is an identifier of the grammar. *)
Theorem identifiers_are_labels_refuted :
  ~ (forall U input t l, good_tables U -> next U (new_lexer input) = (Ok t, l) -> t_type t = Id -> label (t_capture t)).
Proof.
  intros H. remember (next latin (new_lexer (txt "a-"))) as r eqn:E. vm_compute in E. destruct r as [[t| | |] l]; try discriminate.
  assert (Et : t_type t = Id /\ t_capture t = txt "a-") by (inversion E; auto). destruct Et as [E1 E2].
  specialize (H latin (txt "a-") t l latin_good).
  assert (En : next latin (new_lexer (txt "a-")) = (Ok t, l)) by (rewrite E; vm_compute; reflexivity).
  specialize (H En E1). rewrite E2 in H. clear - H. inversion H as [w Hw E|w v Hw Hv E]; subst.
  - inversion Hw; subst.
    + inversion H3 as [|? ? K _]; subst. unfold lower, number in K. cbn in K. lia.
    + inversion H3 as [|? ? K _]; subst. unfold upper, number in K. cbn in K. lia.
  - destruct w as [|x [|y w]]; cbn in E; inversion E; subst.
    + inversion Hv as [u Hu|u1 u2 Hu1]; subst; [inversion Hu|]. destruct u1; discriminate || inversion Hu1.
    + destruct w; discriminate.
Qed.

(** An explicit identifier can be empty: a percent sign alone is accepted. *)
Theorem explicit_ids_have_names_refuted :
  ~ (forall U input t l, good_tables U -> next U (new_lexer input) = (Ok t, l) -> t_type t = ExplicitId -> t_capture t <> txt "%").
Proof.
  intros H. remember (next latin (new_lexer (txt "% "))) as r eqn:E. vm_compute in E. destruct r as [[t| | |] l]; try discriminate.
  specialize (H latin (txt "% ") t l latin_good). apply H.
  - rewrite E. vm_compute. reflexivity.
  - inversion E. reflexivity.
  - inversion E. reflexivity.
Qed.

Print Assumptions wit_tokens_cut_the_input.
Print Assumptions wit_lines_and_columns.
Print Assumptions wit_next_gives_token_or_error.
Print Assumptions wit_tokenisation_ends.
Print Assumptions wit_peek_is_next.
Print Assumptions wit_peek_panics_on_error.
Print Assumptions wit_peek_reports_errors_refuted.
Print Assumptions wit_peeks_are_invisible.
Print Assumptions wit_clones_are_independent.
Print Assumptions wit_token_texts.
Print Assumptions wit_tokens_read_back.
Print Assumptions wit_error_means_no_token.
Print Assumptions keywords_are_whole_words.
Print Assumptions keywords_are_found.
Print Assumptions block_comments_nest.
Print Assumptions open_comments_rejected.
Print Assumptions labels_are_identifiers.
Print Assumptions identifiers_are_labels_refuted.
Print Assumptions explicit_ids_have_names_refuted.
