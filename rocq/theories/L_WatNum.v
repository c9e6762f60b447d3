(** Classification of words: integers, floats and keywords. *)
From Coq Require Import Arith NArith String Ascii Bool List Lia.
From Verif Require Import GoBase M_Text M_WatLex S_WatLex L_WatLex L_WatTokens.
Import ListNotations.

Lemma text_eqb_eq a b : text_eqb a b = true <-> a = b.
Proof. unfold text_eqb. destruct (list_eq_dec ascii_dec a b); split; congruence. Qed.

Lemma trim_prefix_ok p : forall s r, trim_prefix p s = Some r <-> s = p ++ r.
Proof.
  induction p as [|a p IH]; intros s r; cbn; [split; congruence|].
  destruct s as [|b s]; [split; discriminate|]. destruct (Ascii.eqb a b) eqn:E.
  - apply Ascii.eqb_eq in E. subst b. rewrite IH. split; [now intros ->|]. intros H. now inversion H.
  - apply Ascii.eqb_neq in E. split; [discriminate|]. intros H. inversion H. congruence.
Qed.

Section Digits.
Variables (digit : ascii -> bool) (P : ascii -> Prop).
Hypothesis Hd : forall c, digit c = true <-> P c.

Lemma skip_digits_app m : forall r, Forall (fun x => P x \/ x = "_"%char) m -> stops P r ->
  skip_digits digit (m ++ r) = r.
Proof.
  induction m as [|c m IH]; intros r Hm Hr; cbn.
  - destruct r as [|c r]; cbn; [reflexivity|]. cbn in Hr.
    destruct (Ascii.eqb c "_") eqn:E1; [apply Ascii.eqb_eq in E1; tauto|].
    destruct (digit c) eqn:E2; [apply Hd in E2; tauto|]. reflexivity.
  - inversion Hm as [|? ? Hc Hm']; subst.
    replace (Ascii.eqb c "_" || digit c) with true; [now apply IH|].
    symmetry. apply orb_true_iff. rewrite Hd, Ascii.eqb_eq. tauto.
Qed.

Lemma skip_digits_inv s : exists m, s = m ++ skip_digits digit s /\ Forall (fun x => P x \/ x = "_"%char) m /\
  stops P (skip_digits digit s).
Proof.
  induction s as [|c s IH]; cbn; [exists []; cbn; auto|].
  destruct (Ascii.eqb c "_" || digit c) eqn:E.
  - destruct IH as (m & E' & Hm & Hs). exists (c :: m). cbn. split; [now rewrite <- E'|]. split; [|assumption].
    constructor; [|assumption]. apply orb_true_iff in E. rewrite Hd, Ascii.eqb_eq in E. tauto.
  - exists []. cbn. repeat split; auto. apply orb_false_iff in E. destruct E as [E1 E2].
    rewrite <- Hd. apply Ascii.eqb_neq in E1. intros [H|H]; congruence.
Qed.
End Digits.

Lemma num_ok s : snd (num s) = true <-> digits dec_digit s.
Proof.
  unfold num, digits. destruct s as [|c s].
  - cbn. split; [discriminate|]. intros (c & w & E & _). discriminate.
  - destruct (is_digit c) eqn:E; cbn [negb].
    + destruct (skip_digits_inv is_digit dec_digit digit_ok (c :: s)) as (m & Em & Hm & Hs).
      split.
      * destruct (skip_digits is_digit (c :: s)) as [|d r]; cbn; [|discriminate]. intros _.
        rewrite app_nil_r in Em. exists c, s. split; [reflexivity|]. split; [now apply digit_ok|].
        rewrite <- Em in Hm. now inversion Hm.
      * intros (c' & w & Ec & Hc & Hw). inversion Ec; subst.
        pose proof (skip_digits_app is_digit dec_digit digit_ok (c' :: w) []) as K. rewrite app_nil_r in K.
        rewrite K; [reflexivity| |exact I]. constructor; auto.
    + cbn. split; [discriminate|]. intros (c' & w & Ec & Hc & _). inversion Ec; subst. apply digit_ok in Hc. congruence.
Qed.

Lemma num_end s r : num s = (r, true) -> r = [].
Proof.
  unfold num. destruct s as [|c s]; [discriminate|]. destruct (negb (is_digit c)); [discriminate|].
  destruct (skip_digits is_digit (c :: s)); congruence.
Qed.

Lemma hexnum_ok s r : hexnum s = (r, true) <-> exists m, s = m ++ r /\ digits hex_digit m /\ stops hex_digit r.
Proof.
  unfold hexnum. destruct s as [|c s].
  - split; [discriminate|]. intros (m & E & (c & w & -> & _) & _). discriminate.
  - destruct (is_hex c) eqn:E; cbn [negb].
    + split.
      * intros H. assert (Hr : skip_digits is_hex (c :: s) = r) by congruence.
        destruct (skip_digits_inv is_hex hex_digit hex_ok s) as (m & Em & Hm & Hs).
        cbn [skip_digits] in Hr. rewrite E, orb_true_r in Hr. rewrite Hr in *.
        exists (c :: m). cbn. rewrite <- Em. split; [reflexivity|]. split; [|assumption].
        exists c, m. split; [reflexivity|]. split; [now apply hex_ok|assumption].
      * intros (m & Em & (c' & w & -> & Hc & Hw) & Hs). rewrite Em.
        rewrite (skip_digits_app is_hex hex_digit hex_ok); auto.
    + split; [discriminate|]. intros (m & Em & (c' & w & -> & Hc & Hw) & Hs). inversion Em; subst.
      apply hex_ok in Hc. congruence.
Qed.

Lemma hexnum_true s : snd (hexnum s) = true <-> exists h r, s = h :: r /\ hex_digit h.
Proof.
  unfold hexnum. destruct s as [|c s]; cbn.
  - split; [discriminate|]. intros (h & r & E & _). discriminate.
  - destruct (is_hex c) eqn:E; cbn.
    + split; [|reflexivity]. intros _. exists c, s. split; [reflexivity|now apply hex_ok].
    + split; [discriminate|]. intros (h & r & Eq & Hh). inversion Eq; subst. apply hex_ok in Hh. congruence.
Qed.

(** ** Signs *)
Lemma unsigned_split w : exists s, opt_sign s /\ w = s ++ unsigned w.
Proof.
  unfold unsigned, sign. destruct w as [|c w]; cbn.
  - exists []. split; [left|]; reflexivity.
  - destruct (Ascii.eqb c "+") eqn:E1; [|destruct (Ascii.eqb c "-") eqn:E2]; cbn.
    + apply Ascii.eqb_eq in E1. subst. exists (txt "+"). split; [right; left|]; reflexivity.
    + apply Ascii.eqb_eq in E2. subst. exists (txt "-"). split; [right; right|]; reflexivity.
    + exists []. split; [left|]; reflexivity.
Qed.

Lemma unsigned_app s d : opt_sign s ->
  match d with c :: _ => c <> "+"%char /\ c <> "-"%char | [] => False end -> unsigned (s ++ d) = d.
Proof.
  intros [->|[->| ->]] Hd; cbn; try reflexivity.
  destruct d as [|c d]; [tauto|]. unfold unsigned, sign. destruct Hd as [H1 H2].
  apply Ascii.eqb_neq in H1. apply Ascii.eqb_neq in H2. now rewrite H1, H2.
Qed.

Lemma digit_not_sign c : dec_digit c -> c <> "+"%char /\ c <> "-"%char.
Proof. intros H. split; intros ->; cbv in H; intuition discriminate. Qed.

(** ** Integers *)
Lemma is_integer_ok w : is_integer w = true <-> int_text w.
Proof.
  destruct w as [|c0 w0].
  { split; [discriminate|]. intros (s & d & Hs & [[E (c & w & -> & _)]|[E _]]); destruct s; discriminate. }
  unfold is_integer. set (w := c0 :: w0). change (match w with [] => false | _ :: _ => ?b end) with b.
  split.
  - destruct (unsigned_split w) as (s & Hs & Ew). destruct (snd (num (unsigned w))) eqn:En.
    + intros _. exists s, (unsigned w). split; [assumption|]. left. split; [assumption|]. now apply num_ok.
    + destruct (trim_prefix (txt "0x") (unsigned w)) as [r|] eqn:Et; [|discriminate].
      apply trim_prefix_ok in Et. destruct (hexnum r) as [[|] []] eqn:Eh; try discriminate. intros _.
      apply hexnum_ok in Eh. destruct Eh as (m & Em & Hm & _). rewrite app_nil_r in Em. subst r.
      exists s, m. split; [assumption|]. right. split; [|assumption]. now rewrite <- Et.
  - intros (s & d & Hs & [[E Hd]|[E Hd]]).
    + rewrite E, unsigned_app; [|assumption|].
      * apply num_ok in Hd. now rewrite Hd.
      * destruct Hd as (c & w' & -> & Hc & _). now apply digit_not_sign.
    + rewrite E, unsigned_app; [|assumption|cbn; split; discriminate].
      destruct (snd (num (txt "0x" ++ d))); [reflexivity|].
      replace (trim_prefix (txt "0x") (txt "0x" ++ d)) with (Some d) by (symmetry; now apply trim_prefix_ok).
      replace (hexnum d) with (@nil ascii, true); [reflexivity|]. symmetry. apply hexnum_ok.
      exists d. rewrite app_nil_r. split; [reflexivity|]. split; [assumption|exact I].
Qed.

(** ** Floats *)
Lemma exponent_ok s : exponent s = true <-> exp_text s.
Proof.
  unfold exponent, sign, exp_text. destruct s as [|c s].
  - split; [discriminate|]. intros (c & d & E & _). discriminate.
  - destruct (Ascii.eqb c "+" || Ascii.eqb c "-") eqn:E.
    + rewrite num_ok. apply orb_true_iff in E. rewrite !Ascii.eqb_eq in E. split.
      * intros H. exists c, s. auto.
      * intros (c' & d & E' & _ & H). inversion E'; now subst.
    + split; [discriminate|]. apply orb_false_iff in E. rewrite !Ascii.eqb_neq in E.
      intros (c' & d & E' & H & _). inversion E'; subst. tauto.
Qed.

Lemma is_p_ok c : is_p c = true <-> exp_letter c.
Proof. unfold is_p, exp_letter. now rewrite orb_true_iff, !Ascii.eqb_eq. Qed.

Lemma float_num s : float s = snd (num s).
Proof.
  unfold float. destruct (num s) as [n ok] eqn:E. destruct ok; cbn; [|reflexivity].
  now rewrite (num_end _ _ E).
Qed.

Lemma exp_part_ok c r : is_p c && exponent r = true <-> exp_part (c :: r).
Proof.
  rewrite andb_true_iff, is_p_ok, exponent_ok. unfold exp_part. split.
  - intros [H1 H2]. exists c, r. auto.
  - intros (p & e & E & H). inversion E; now subst.
Qed.

Definition tail_b (n : text) : bool :=
  match n with
  | [] => true
  | c :: s' =>
      if Ascii.eqb c "." && match s' with [] => true | _ => false end then true
      else if Ascii.eqb c "." && match s' with c' :: _ => is_p c' | [] => false end
        then exponent (tl s')
      else if is_p c then exponent s'
      else
        let (n, ok) := hexfrac s' in
        if negb ok then false else
        match n with
        | [] => true
        | c :: s' => if is_p c then exponent s' else false
        end
  end.

Lemma hexfloat_tail s : hexfloat s =
  match trim_prefix (txt "0x") s with
  | None => false
  | Some s => let (n, ok) := hexnum s in if negb ok then false else tail_b n
  end.
Proof. unfold hexfloat. destruct (trim_prefix (txt "0x") s); [|reflexivity]. destruct (hexnum t) as [n []]; reflexivity. Qed.

Lemma dot_not_p : is_p "." = false.
Proof. reflexivity. Qed.
Lemma p_not_hex c : is_p c = true -> is_hex c = false.
Proof. all_chars c; vm_compute; congruence. Qed.

Lemma tail_b_ok r : r <> [] -> (tail_b r = true <-> hex_tail r).
Proof.
  destruct r as [|c r]; [congruence|]. intros _. unfold hex_tail.
  assert (Frac : is_p c = false ->
    ((let (n, ok) := hexfrac r in if negb ok then false else
        match n with [] => true | c :: s' => if is_p c then exponent s' else false end) = true <->
     exists h t, r = h ++ t /\ digits hex_digit h /\ stops hex_digit t /\ (t = [] \/ exp_part t))).
  { intros _. unfold hexfrac. destruct (hexnum r) as [n ok] eqn:E. destruct ok; cbn [negb].
    - pose proof E as E0. apply hexnum_ok in E. destruct E as (m & -> & Hm & Hs).
      split.
      + intros H. exists m, n. split; [reflexivity|]. split; [assumption|]. split; [assumption|].
        destruct n as [|d n]; [now left|]. right. apply exp_part_ok. destruct (is_p d); [assumption|discriminate].
      + intros (h & t & E & Hh & Ht & H).
        assert (E1 : hexnum (m ++ n) = (t, true)) by (apply hexnum_ok; exists h; auto).
        rewrite E0 in E1. inversion E1; subst t. destruct H as [->|H]; [reflexivity|].
        destruct n as [|d n]; [reflexivity|]. apply exp_part_ok in H. apply andb_true_iff in H.
        destruct H as [-> H]. assumption.
    - split; [discriminate|]. intros (h & t & -> & Hh & Ht & _). exfalso.
      assert (E1 : hexnum (h ++ t) = (t, true)) by (apply hexnum_ok; exists h; auto). congruence. }
  unfold tail_b. destruct (is_p c) eqn:Ep.
  - assert (Nd : Ascii.eqb c "." = false).
    { destruct (Ascii.eqb c ".") eqn:E; [|reflexivity]. apply Ascii.eqb_eq in E. subst c. discriminate. }
    rewrite Nd. cbn [andb]. split.
    + intros H. right. left. apply exp_part_ok. now rewrite Ep.
    + intros [H|[H|[(r' & H & _)|(c' & h & t & H & Hc & _)]]].
      * inversion H; subst. discriminate.
      * apply exp_part_ok in H. now rewrite Ep in H.
      * inversion H; subst. discriminate.
      * inversion H; subst. exfalso. apply Hc. now apply is_p_ok.
  - specialize (Frac eq_refl).
    assert (Hp : ~ exp_letter c) by (rewrite <- is_p_ok; congruence).
    assert (Ne : ~ exp_part (c :: r)) by (rewrite <- exp_part_ok, Ep; discriminate).
    destruct (Ascii.eqb c ".") eqn:Ed; cbn [andb].
    + apply Ascii.eqb_eq in Ed. subst c. destruct r as [|d r].
      * split; [intros _; now left|reflexivity].
      * destruct (is_p d) eqn:Epd; cbn [tl].
        -- split.
           ++ intros H. right. right. left. exists (d :: r). split; [reflexivity|]. apply exp_part_ok. now rewrite Epd.
           ++ intros [H|[H|[(r' & H & H')|(c' & h & t & H & Hc & (x & y & -> & Hx & _) & _)]]].
              ** discriminate.
              ** tauto.
              ** inversion H; subst. apply exp_part_ok in H'. now rewrite Epd in H'.
              ** inversion H; subst. apply p_not_hex in Epd. apply hex_ok in Hx. congruence.
        -- rewrite Frac. split.
           ++ intros (h & t & E & Hh). right. right. right. exists "."%char, h, t. rewrite E. auto.
           ++ intros [H|[H|[(r' & H & H')|(c' & h & t & H & Hc & Hx)]]].
              ** discriminate.
              ** tauto.
              ** inversion H; subst. apply exp_part_ok in H'. now rewrite Epd in H'.
              ** inversion H; subst. exists h, t. auto.
    + apply Ascii.eqb_neq in Ed. rewrite Frac. split.
      * intros (h & t & E & Hh). right. right. right. exists c, h, t. rewrite E. auto.
      * intros [H|[H|[(r' & H & H')|(c' & h & t & H & Hc & Hx)]]].
        -- inversion H; congruence.
        -- tauto.
        -- inversion H; congruence.
        -- inversion H; subst. exists h, t. auto.
Qed.

Definition specials : list text := [txt "inf"; txt "nan"; txt "nan:arithmetic"; txt "nan:canonical"].

Lemma is_float_cases w : w <> [] -> is_float w =
  existsb (text_eqb (unsigned w)) specials ||
  match trim_prefix (txt "nan:0x") (unsigned w) with
  | Some s => snd (hexnum s)
  | None => float (unsigned w) || hexfloat (unsigned w)
  end.
Proof.
  destruct w as [|c w]; [congruence|]. intros _. unfold is_float, specials.
  set (u := unsigned (c :: w)). clearbody u. cbn [existsb].
  destruct (text_eqb u (txt "inf")); [reflexivity|].
  destruct (text_eqb u (txt "nan")); [reflexivity|].
  destruct (text_eqb u (txt "nan:arithmetic")); [reflexivity|].
  destruct (text_eqb u (txt "nan:canonical")); reflexivity.
Qed.

Lemma float_text_nonempty : ~ float_text [].
Proof.
  intros (s & d & _ & E & H). symmetry in E. apply app_eq_nil in E. destruct E as [_ ->].
  destruct H as [H|[(h & r & H & _)|(m & r & H & _)]]; [cbn in H; intuition discriminate|discriminate|discriminate].
Qed.

Lemma stops_cons (P : ascii -> Prop) r : r <> [] -> stops P r -> exists c r', r = c :: r' /\ ~ (P c \/ c = "_"%char).
Proof. destruct r as [|c r]; [congruence|]. intros _ H. now exists c, r. Qed.

Lemma hex_tail_nonempty : ~ hex_tail [].
Proof.
  intros [H|[(p & e & H & _)|[(r & H & _)|(c & h & t & H & _)]]]; discriminate.
Qed.

(** A float is not an integer. *)
Lemma float_not_int w : float_text w -> is_integer w = false.
Proof.
  intros (s & d & Hs & -> & H).
  assert (N : forall d, unsigned (s ++ d) = d -> s ++ d <> [] ->
     is_integer (s ++ d) = (if snd (num d) then true
      else match trim_prefix (txt "0x") d with
           | Some s => match hexnum s with ([], true) => true | _ => false end | None => false end)).
  { intros x Hx Hne. unfold is_integer. destruct (s ++ x) as [|c y]; [congruence|]. now rewrite Hx. }
  destruct H as [H|[(h & r & -> & Hh)|(m & r & -> & Hm & Hr & Ht)]].
  - repeat (destruct H as [<-|H]; [rewrite N; [reflexivity| |destruct Hs as [->|[->| ->]]; discriminate];
      apply unsigned_app; [assumption|cbn; split; discriminate]|]). destruct H.
  - rewrite N; [reflexivity| |destruct Hs as [->|[->| ->]]; discriminate].
    apply unsigned_app; [assumption|cbn; split; discriminate].
  - rewrite N; [| |destruct Hs as [->|[->| ->]]; discriminate].
    + change (trim_prefix (txt "0x") (txt "0x" ++ m ++ r)) with (Some (m ++ r)).
      replace (snd (num (txt "0x" ++ m ++ r))) with false by reflexivity.
      replace (hexnum (m ++ r)) with (r, true) by (symmetry; apply hexnum_ok; exists m; auto).
      destruct r; [now apply hex_tail_nonempty in Ht|reflexivity].
    + apply unsigned_app; [assumption|cbn; split; discriminate].
Qed.

Lemma is_float_ok w : is_integer w = false -> (is_float w = true <-> float_text w).
Proof.
  destruct w as [|c0 w0].
  { intros _. split; [discriminate|]. intros H. now apply float_text_nonempty in H. }
  set (w := c0 :: w0). assert (Hne : w <> []) by discriminate. clearbody w. intros Hi.
  rewrite is_float_cases by assumption. rewrite orb_true_iff.
  destruct (unsigned_split w) as (s & Hs & Ew).
  assert (Hi' : snd (num (unsigned w)) = false /\
    forall r, trim_prefix (txt "0x") (unsigned w) = Some r -> hexnum r <> ([], true)).
  { unfold is_integer in Hi. destruct w; [congruence|]. destruct (snd (num _)); [discriminate|].
    split; [reflexivity|]. intros r E. rewrite E in Hi. intros K. now rewrite K in Hi. }
  destruct Hi' as [Hn Hx]. split.
  - intros [H|H].
    + apply existsb_exists in H. destruct H as (x & Hx' & E). apply text_eqb_eq in E. subst x.
      exists s, (unsigned w). auto.
    + destruct (trim_prefix (txt "nan:0x") (unsigned w)) as [r|] eqn:Et.
      * apply trim_prefix_ok in Et. apply hexnum_true in H. destruct H as (h & r' & -> & Hh).
        exists s, (unsigned w). split; [assumption|]. split; [assumption|]. right. left. exists h, r'. auto.
      * rewrite float_num, Hn in H. cbn [orb] in H. rewrite hexfloat_tail in H.
        destruct (trim_prefix (txt "0x") (unsigned w)) as [r|] eqn:E0; [|discriminate].
        specialize (Hx r eq_refl). apply trim_prefix_ok in E0.
        destruct (hexnum r) as [n ok] eqn:Eh. destruct ok; [|discriminate]. cbn [negb] in H.
        assert (n <> []) by (intros ->; now apply Hx). apply hexnum_ok in Eh. destruct Eh as (m & -> & Hm & Hst).
        apply tail_b_ok in H; [|assumption].
        exists s, (unsigned w). split; [assumption|]. split; [assumption|]. right. right. exists m, n. auto.
  - intros (s' & d & Hs' & E & H).
    assert (U : unsigned w = d).
    { rewrite E. apply unsigned_app; [assumption|].
      destruct H as [H|[(h & r & -> & Hh)|(m & r & -> & _)]]; [|cbn; split; discriminate|cbn; split; discriminate].
      repeat (destruct H as [<-|H]; [cbn; split; discriminate|]). destruct H. }
    rewrite U. destruct H as [H|[(h & r & -> & Hh)|(m & r & -> & Hm & Hr & Ht)]].
    + left. apply existsb_exists. exists d. split; [assumption|now apply text_eqb_eq].
    + right. change (trim_prefix (txt "nan:0x") (txt "nan:0x" ++ h :: r)) with (Some (h :: r)).
      apply hexnum_true. now exists h, r.
    + right. change (trim_prefix (txt "nan:0x") (txt "0x" ++ m ++ r)) with (@None text).
      apply orb_true_iff. right. rewrite hexfloat_tail.
      change (trim_prefix (txt "0x") (txt "0x" ++ m ++ r)) with (Some (m ++ r)).
      assert (Eh : hexnum (m ++ r) = (r, true)) by (apply hexnum_ok; exists m; auto).
      cbv beta iota. fold (@app ascii). rewrite Eh. cbn [negb]. apply tail_b_ok; [|assumption]. intros ->. now apply hex_tail_nonempty in Ht.
Qed.

(** ** Classification *)
Lemma classify_word w : word_text w -> token_text (classify Reserved w) w.
Proof.
  intros Hw. unfold classify. destruct (is_integer w) eqn:Ei; [now apply is_integer_ok|].
  destruct (is_float w) eqn:Ef; [split; [assumption|now apply is_float_ok]|].
  unfold keyword. cbn [text_get].
  destruct (text_eqb (txt "module") w) eqn:E1; [apply text_eqb_eq in E1; now subst|].
  destruct (text_eqb (txt "component") w) eqn:E2; [apply text_eqb_eq in E2; now subst|].
  cbn. split; [assumption|]. split; [rewrite <- is_integer_ok; congruence|].
  split; [rewrite <- is_float_ok by assumption; congruence|].
  split; intros ->; vm_compute in E1, E2; discriminate.
Qed.

Definition wordy (ty : toktype) : Prop :=
  match ty with Reserved | TInteger | TFloat | TModule | TComponent => True | _ => False end.

Lemma hex_digit_id c : hex_digit c \/ c = "_"%char -> id_char c.
Proof. rewrite <- hex_ok, <- id_char_ok. intros [H| ->]; [|reflexivity]. revert H. all_chars c; vm_compute; congruence. Qed.

Lemma digits_id (P : ascii -> Prop) d : (forall c, P c -> hex_digit c) -> digits P d -> Forall id_char d /\ d <> [].
Proof.
  intros HP (c & w & -> & Hc & Hw). split; [|discriminate].
  constructor; [apply hex_digit_id; auto|]. eapply Forall_impl; [|exact Hw].
  intros x [Hx|Hx]; apply hex_digit_id; auto.
Qed.

Lemma not_id_text c w : c <> "$"%char -> ~ id_text (c :: w).
Proof. intros H (b & E & _). inversion E. congruence. Qed.

Lemma int_word w : int_text w -> word_text w.
Proof.
  intros (s & d & Hs & H).
  assert (K : exists e, w = s ++ e /\ Forall id_char e /\ exists c e', e = c :: e' /\ c <> "$"%char).
  { destruct H as [[-> Hd]|[-> Hd]].
    - exists d. split; [reflexivity|]. split; [apply (digits_id dec_digit); [intros; now left|assumption]|].
      destruct Hd as (c & e & -> & Hc & _). exists c, e. split; [reflexivity|]. intros ->. vm_compute in Hc. intuition.
    - exists (txt "0x" ++ d). split; [reflexivity|]. split.
      + apply Forall_app. split; [repeat constructor; apply id_char_ok; reflexivity|].
        apply (digits_id hex_digit); auto.
      + exists "0"%char, ("x"%char :: d). split; [reflexivity|discriminate]. }
  destruct K as (e & -> & He & c & e' & -> & Hc). split; [split|].
  - destruct Hs as [->|[->| ->]]; discriminate.
  - apply Forall_app. split; [|assumption].
    destruct Hs as [->|[->| ->]]; repeat constructor; apply id_char_ok; reflexivity.
  - destruct Hs as [->|[->| ->]]; cbn; apply not_id_text; auto; discriminate.
Qed.

Lemma word_classify ty w : wordy ty -> token_text ty w -> word_text w /\ classify Reserved w = ty.
Proof.
  unfold classify. destruct ty; cbn [wordy token_text]; try tauto; intros _.
  - intros (Hw & Hi & Hf & Hm & Hc). split; [assumption|].
    destruct (is_integer w) eqn:Ei; [apply is_integer_ok in Ei; tauto|].
    destruct (is_float w) eqn:Ef; [apply is_float_ok in Ef; tauto|].
    unfold keyword. cbn [text_get].
    destruct (text_eqb (txt "module") w) eqn:E1; [apply text_eqb_eq in E1; exfalso; apply Hm; now symmetry|].
    destruct (text_eqb (txt "component") w) eqn:E2; [apply text_eqb_eq in E2; exfalso; apply Hc; now symmetry|]. reflexivity.
  - intros H. split; [now apply int_word|]. apply is_integer_ok in H. now rewrite H.
  - intros [Hw Hf]. split; [assumption|]. pose proof (float_not_int _ Hf) as Hi. rewrite Hi.
    apply is_float_ok in Hf; [|assumption]. now rewrite Hf.
  - intros ->. split; [|reflexivity]. split; [split; [discriminate|]|apply not_id_text; discriminate].
    repeat constructor; apply id_char_ok; reflexivity.
  - intros ->. split; [|reflexivity]. split; [split; [discriminate|]|apply not_id_text; discriminate].
    repeat constructor; apply id_char_ok; reflexivity.
Qed.

(** ** Texts of the automaton *)
Lemma first_cases c p : first c = Some p ->
  (p = PWs /\ space c) \/ (p = PSemi /\ c = ";"%char) \/ (p = POpen /\ c = "("%char) \/
  (p = PClose /\ c = ")"%char) \/ (p = PStr /\ c = quote) \/ (p = PDollar /\ c = "$"%char) \/
  (p = PWord /\ id_char c /\ c <> "$"%char).
Proof.
  unfold first.
  destruct (is_space c) eqn:E1; [apply space_ok in E1; intros H; inversion H; tauto|].
  destruct (Ascii.eqb c ";") eqn:E2; [apply Ascii.eqb_eq in E2; intros H; inversion H; tauto|].
  destruct (Ascii.eqb c "(") eqn:E3; [apply Ascii.eqb_eq in E3; intros H; inversion H; tauto|].
  destruct (Ascii.eqb c ")") eqn:E4; [apply Ascii.eqb_eq in E4; intros H; inversion H; tauto|].
  destruct (Ascii.eqb c quote) eqn:E5; [apply Ascii.eqb_eq in E5; intros H; inversion H; tauto|].
  destruct (Ascii.eqb c "$") eqn:E6; [apply Ascii.eqb_eq in E6; intros H; inversion H; tauto|].
  destruct (is_id_char c) eqn:E7; [|discriminate].
  apply id_char_ok in E7. apply Ascii.eqb_neq in E6. intros H; inversion H; tauto.
Qed.

Lemma dollar_id : id_char "$".
Proof. apply id_char_ok. reflexivity. Qed.

Definition raw_text (ty : toktype) (w : text) : Prop :=
  match ty with Reserved => word_text w | _ => token_text ty w end.

Lemma brun_sound w p : brun w = Some p ->
  match accept p with Some ty => raw_text ty w | None => unfinished w end.
Proof.
  destruct w as [|c w]; [discriminate|]. cbn [brun].
  destruct (first c) as [p0|] eqn:E; [|discriminate]. intros H.
  apply first_cases in E. destruct E as [[-> Hc]|[[-> ->]|[[-> ->]|[[-> ->]|[[-> ->]|[[-> ->]|(-> & Hc & Hd)]]]]]].
  - apply arun_ws in H. destruct H as [-> H]. cbn. split; [discriminate|]. now constructor.
  - destruct w as [|d w]; cbn [arun step] in H; [inversion H; now left|].
    destruct (Ascii.eqb d ";") eqn:Ed; [|discriminate]. apply Ascii.eqb_eq in Ed. subst d.
    apply arun_line in H. destruct H as [[-> H]|[-> (b & -> & Hb)]]; cbn.
    + right. left. exists w. auto.
    + exists b. auto.
  - destruct w as [|d w]; cbn [arun step] in H; [inversion H; reflexivity|].
    destruct (Ascii.eqb d ";") eqn:Ed; [|discriminate]. apply Ascii.eqb_eq in Ed. subst d.
    apply arun_block in H. destruct H as [(-> & H & _)|[(-> & H & _)|(-> & b & -> & Hb)]]; cbn.
    + right. right. left. exists w. auto.
    + right. right. left. exists w. auto.
    + exists b. auto.
  - destruct w as [|d w]; cbn [arun step] in H; [inversion H; reflexivity|discriminate].
  - apply arun_str in H. destruct H as [[-> H]|[-> (b & -> & Hb)]]; cbn.
    + right. right. right. exists w. auto.
    + exists b. auto.
  - destruct w as [|d w]; cbn [arun step] in H.
    + inversion H. cbn. split; [split; [discriminate|repeat constructor; apply dollar_id]|].
      intros (b & E & Hb & _). inversion E. congruence.
    + destruct (is_id_char d) eqn:Ed; [|discriminate]. apply id_char_ok in Ed.
      apply arun_id in H. destruct H as [-> H]. cbn. exists (d :: w). split; [reflexivity|].
      split; [discriminate|]. now constructor.
  - apply arun_word in H. destruct H as [-> H]. cbn. split; [split; [discriminate|now constructor]|].
    now apply not_id_text.
Qed.

Lemma first_space c : space c -> first c = Some PWs.
Proof. intros H. apply space_ok in H. unfold first. now rewrite H. Qed.

Lemma first_word c : id_char c -> c <> "$"%char -> first c = Some PWord.
Proof.
  intros H N. apply id_char_ok in H. revert H N. all_chars c; vm_compute; congruence.
Qed.

Lemma brun_raw ty w : raw_text ty w -> ~ wordy ty \/ ty = Reserved ->
  exists p, brun w = Some p /\ accept p = Some ty.
Proof.
  intros H Hty.
  destruct ty; cbn in H; try tauto; try (exfalso; cbn in Hty; destruct Hty as [K|K]; [now apply K|discriminate]).
  - destruct H as (b & -> & Hb). exists PLineEnd. split; [|reflexivity].
    change (brun (txt ";;" ++ b ++ [newline])) with (arun PLine (b ++ [newline])).
    apply arun_line. right. split; [reflexivity|]. now exists b.
  - destruct H as (b & -> & Hb). exists PBlockEnd. split; [|reflexivity].
    change (brun (txt "(;" ++ b ++ txt ";)")) with (arun PBlock (b ++ txt ";)")).
    apply arun_block. right. right. split; [reflexivity|]. now exists b.
  - destruct H as [Hn H]. destruct w as [|c w]; [congruence|]. inversion H as [|? ? Hc Hw]; subst.
    exists PWs. split; [|reflexivity]. cbn [brun]. rewrite first_space by assumption. apply arun_ws. auto.
  - subst w. exists POpen. auto.
  - subst w. exists PClose. auto.
  - destruct H as (b & -> & Hb). exists PStrEnd. split; [|reflexivity].
    change (brun ([quote] ++ b ++ [quote])) with (arun PStr (b ++ [quote])).
    apply arun_str. right. split; [reflexivity|]. now exists b.
  - destruct H as (b & -> & Hn & Hb). destruct b as [|c b]; [congruence|]. inversion Hb as [|? ? Hc Hb']; subst.
    exists PId. split; [|reflexivity].
    change (brun ("$"%char :: c :: b)) with (match step PDollar c with Some q => arun q b | None => None end).
    cbn [step]. apply id_char_ok in Hc. rewrite Hc. apply arun_id. auto.
  - destruct H as [[Hn H] Hid]. destruct w as [|c w]; [congruence|]. inversion H as [|? ? Hc Hw]; subst.
    destruct (ascii_dec c "$") as [->|Nd].
    + destruct w as [|d w]; [exists PDollar; auto|]. exfalso. apply Hid. exists (d :: w).
      split; [reflexivity|]. split; [discriminate|assumption].
    + exists PWord. split; [|reflexivity]. cbn [brun]. rewrite first_word by assumption. apply arun_word. auto.
Qed.

Lemma brun_complete ty w : token_text ty w ->
  exists p rt, brun w = Some p /\ accept p = Some rt /\ classify rt w = ty.
Proof.
  intros H.
  assert (D : wordy ty \/ ~ wordy ty) by (destruct ty; cbn; tauto). destruct D as [D|D].
  - destruct (word_classify ty w D H) as [Hw Hc].
    destruct (brun_raw Reserved w Hw (or_intror eq_refl)) as (p & E & A). now exists p, Reserved.
  - assert (N : ty <> Reserved) by (intros ->; apply D; exact I).
    destruct (brun_raw ty w) as (p & E & A); [destruct ty; cbn in *; tauto|now left|].
    exists p, ty. split; [assumption|]. split; [assumption|]. destruct ty; try reflexivity. congruence.
Qed.

Lemma classify_text rt w p : brun w = Some p -> accept p = Some rt -> token_text (classify rt w) w.
Proof.
  intros E A. pose proof (brun_sound w p E) as H. rewrite A in H.
  destruct rt; try exact H; try (destruct p; discriminate). now apply classify_word.
Qed.

Lemma classify_wordy w : wordy (classify Reserved w).
Proof.
  unfold classify. destruct (is_integer w); [exact I|]. destruct (is_float w); [exact I|].
  unfold keyword. cbn [text_get]. destruct (text_eqb _ w); [exact I|]. destruct (text_eqb _ w); exact I.
Qed.

Lemma stop_ok p rt w c r : accept p = Some rt -> (step p c = None <-> separate (classify rt w) (c :: r)).
Proof.
  intros A.
  assert (S1 : forall a b, (if Ascii.eqb a b then Some PBlock else None) = None <-> a <> b).
  { intros a b. destruct (Ascii.eqb a b) eqn:E; [apply Ascii.eqb_eq in E|apply Ascii.eqb_neq in E]; intuition congruence. }
  assert (S2 : forall q : phase, (if is_id_char c then Some q else None) = None <-> ~ id_char c).
  { intros q. rewrite <- id_char_ok. destruct (is_id_char c); intuition congruence. }
  assert (S3 : (if is_space c then Some PWs else None) = None <-> ~ space c).
  { rewrite <- space_ok. destruct (is_space c); intuition congruence. }
  destruct p; cbn in A; inversion A; subst; cbn [step classify separate begins_with]; try tauto.
  - rewrite S1. intuition congruence.
  - pose proof (classify_wordy w) as K. cbn [classify] in K.
    rewrite S2. destruct (if is_integer w then _ else _); cbn in K; try tauto; reflexivity.
  - rewrite S2. reflexivity.
  - pose proof (classify_wordy w) as K. cbn [classify] in K.
    rewrite S2. destruct (if is_integer w then _ else _); cbn in K; try tauto; reflexivity.
Qed.

(** ** One call of Next on an aligned lexer *)
Record aligned (l : lexer) : Prop := {
  al_rules : exists swap, l_rules l = rules swap;
  al_pos : l_offset l = l_position l;
  al_peek : l_peek l = None }.

Definition rest_of (l : lexer) : text := skipn (l_position l) (l_input l).

Lemma make_token_at l p rt w r : aligned l -> rest_of l = w ++ r -> p = (l_position l + length w)%nat ->
  let (t, l') := make_token (set_position l p) rt in
  t_type t = classify rt w /\ t_capture t = w /\ t_position t = l_position l /\
  aligned l' /\ l_input l' = l_input l /\ rest_of l' = r.
Proof.
  intros [R P K] Hr ->.
  assert (C : capture (set_position l (l_position l + length w)) = w).
  { unfold capture. cbn. rewrite P. fold (rest_of l). rewrite Hr.
    replace (l_position l + length w - l_position l)%nat with (length w) by lia.
    rewrite firstn_app, Nat.sub_diag, firstn_all. cbn. apply app_nil_r. }
  unfold make_token. rewrite C. destruct (advance _ _ _) as [x y]. cbn.
  split; [reflexivity|]. split; [reflexivity|]. split; [assumption|].
  split; [constructor; cbn; auto|]. split; [reflexivity|]. unfold rest_of. cbn.
  rewrite <- skipn_skipn_add. fold (rest_of l). rewrite Hr.
  rewrite skipn_app, Nat.sub_diag, skipn_all. reflexivity.
Qed.

(** What next does, by the automaton. *)
Lemma next_brun l w p r : aligned l -> rest_of l = w ++ r -> brun w = Some p ->
  match r with [] => True | c :: _ => step p c = None end ->
  next l = finish (set_position l (l_position l + length w)%nat)
    (match accept p with
     | Some ty => Some ty
     | None => match r with [] => Some EndOfStream | _ => None end end).
Proof.
  intros [[swap R] P K] Hr Hb Hs. unfold next. rewrite K. rewrite next_raw_cases. fold (rest_of l).
  destruct w as [|c w]; [discriminate|]. cbn [app brun] in *. rewrite Hr.
  unfold lexemes. rewrite R, first_ok. destruct (first c) as [p0|]; [|discriminate]. cbn [lives].
  destruct (live p0) as [|y ys] eqn:El; [now apply live_nonempty in El|]. rewrite <- El. clear El.
  rewrite munch_exact; rewrite runs_live, Hb; cbn [lives].
  - f_equal; [f_equal; cbn [length]; lia|]. unfold emit. rewrite accept_ok.
    destruct (accept p); [reflexivity|]. destruct r; reflexivity.
  - apply live_nonempty.
  - destruct r as [|d r]; [exact I|]. now rewrite step_ok, Hs.
Qed.

(** The automaton's longest run on a text. *)
Lemma longest_run s p : exists w r q, s = w ++ r /\ arun p w = Some q /\
  match r with [] => True | c :: _ => step q c = None end.
Proof.
  revert p. induction s as [|c s IH]; intros p.
  - exists [], [], p. auto.
  - destruct (step p c) as [q|] eqn:E.
    + destruct (IH q) as (w & r & q' & -> & H & Hs). exists (c :: w), r, q'. cbn. now rewrite E.
    + exists [], (c :: s), p. auto.
Qed.

Lemma next_complete l ty w r : aligned l -> rest_of l = w ++ r -> token_text ty w -> separate ty r ->
  exists t l', next l = (Ok t, l') /\ t_type t = ty /\ t_capture t = w /\ t_position t = l_position l /\
    aligned l' /\ l_input l' = l_input l /\ rest_of l' = r.
Proof.
  intros A Hr Ht Hs. destruct (brun_complete ty w Ht) as (p & rt & Eb & Ea & Ec).
  rewrite (next_brun l w p r A Hr Eb).
  - rewrite Ea. cbn [finish]. pose proof (make_token_at l _ rt w r A Hr eq_refl) as M.
    destruct (make_token _ rt) as [t l'] eqn:E. exists t, l'. rewrite <- Ec. intuition.
  - destruct r as [|c r]; [exact I|]. rewrite <- Ec in Hs. now apply (stop_ok p rt w c r Ea).
Qed.

Lemma next_sound l : aligned l ->
  (exists t l', next l = (Ok t, l') /\ aligned l' /\ l_input l' = l_input l /\ t_position t = l_position l /\
     rest_of l = t_capture t ++ rest_of l' /\
     ((token_text (t_type t) (t_capture t) /\ separate (t_type t) (rest_of l')) \/
      (t_type t = EndOfStream /\ rest_of l' = [] /\ (t_capture t = [] \/ unfinished (t_capture t))))) \/
  (exists l', next l = (Err EOther, l') /\
     forall ty w r, rest_of l = w ++ r -> token_text ty w -> ~ separate ty r).
Proof.
  intros A. destruct (rest_of l) as [|c s] eqn:Er.
  - left. unfold next. rewrite (al_peek l A). rewrite next_raw_cases. fold (rest_of l). rewrite Er.
    pose proof (make_token_at l (l_position l) EndOfStream [] [] A Er ltac:(cbn; lia)) as M.
    rewrite set_position_same in M. unfold ok_token.
    destruct (make_token l EndOfStream) as [t l'] eqn:E. destruct M as (M1 & M2 & M3 & M4 & M5 & M6).
    exists t, l'. rewrite M2, M6. cbn. intuition.
  - destruct (first c) as [p|] eqn:Ef.
    + destruct (longest_run s p) as (w & r & q & -> & Ea & Hst).
      assert (Eb : brun (c :: w) = Some q) by (cbn; now rewrite Ef).
      pose proof (next_brun l (c :: w) q r A Er Eb Hst) as N. rewrite N.
      destruct (accept q) as [rt|] eqn:Eq.
      * left. cbn [finish]. pose proof (make_token_at l _ rt (c :: w) r A Er eq_refl) as M.
        unfold ok_token. destruct (make_token _ rt) as [t l'] eqn:E.
        destruct M as (M1 & M2 & M3 & M4 & M5 & M6). exists t, l'. rewrite M1, M2, M6.
        split; [reflexivity|]. split; [assumption|]. split; [assumption|]. split; [assumption|].
        split; [reflexivity|]. left. split; [now apply (classify_text rt _ q)|].
        destruct r as [|d r]; [destruct (classify rt (c :: w)); cbn; auto|]. now apply (stop_ok q rt _ d r Eq).
      * destruct r as [|d r].
        -- left. cbn [finish]. pose proof (make_token_at l _ EndOfStream (c :: w) [] A Er eq_refl) as M.
           unfold ok_token. destruct (make_token _ EndOfStream) as [t l'] eqn:E.
           destruct M as (M1 & M2 & M3 & M4 & M5 & M6). exists t, l'. rewrite M1, M2, M6.
           split; [reflexivity|]. split; [assumption|]. split; [assumption|]. split; [assumption|].
           split; [reflexivity|]. right. split; [reflexivity|]. split; [reflexivity|]. right.
           pose proof (brun_sound _ _ Eb) as B. now rewrite Eq in B.
        -- right. cbn [finish] in *. eexists. split; [reflexivity|]. intros ty w' r' Hs Ht Hsep.
           rewrite <- Er in Hs.
           destruct (next_complete l ty w' r' A Hs Ht Hsep) as (t & l' & N' & _). rewrite N in N'. discriminate.
    + right. assert (N : exists l', next l = (Err EOther, l')).
      { unfold next. rewrite (al_peek l A). rewrite next_raw_cases. fold (rest_of l). rewrite Er.
        unfold lexemes. destruct (al_rules l A) as [swap ->]. rewrite first_ok, Ef. cbn. now eexists. }
      destruct N as [l' N]. exists l'. split; [assumption|]. intros ty w' r' Hs Ht Hsep. rewrite <- Er in Hs.
      destruct (next_complete l ty w' r' A Hs Ht Hsep) as (t & l'' & N' & _). rewrite N in N'. discriminate.
Qed.
