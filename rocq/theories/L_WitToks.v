(** Proofs about the WIT lexer: tokens. *)
From Coq Require Import Arith NArith String Ascii Bool List Lia ZArith ZifyBool ZifyNat ZifyN.
From Verif Require Import GoBase M_Text M_Utf S_Utf L_Utf M_WitLex S_WitLex L_WitLex.
Import ListNotations.

Lemma text_eqb_eq a b : text_eqb a b = true <-> a = b.
Proof. unfold text_eqb. destruct (list_eq_dec ascii_dec a b); split; congruence. Qed.

(** ** Spans *)
Lemma app_same_length {A} (a : list A) : forall b x y, length a = length b -> a ++ x = b ++ y -> a = b /\ x = y.
Proof.
  induction a as [|c a IH]; intros [|d b] x y L E; try discriminate; [auto|].
  cbn in *. inversion E; subst. destruct (IH b x y) as [-> ->]; auto.
Qed.

Lemma span_det f w s : span f w s -> forall w' s', span f w' s' -> w ++ s = w' ++ s' -> w = w'.
Proof.
  induction 1 as [s F|v w s Nv Lv F Sp IH]; intros w' s' Sp' E.
  - destruct Sp' as [s' F'|v' w' s' Nv' Lv' F' Sp']; [reflexivity|].
    exfalso. cbn in E. rewrite <- app_assoc in E. rewrite <- E in F'. unfold first_rune in F. destruct s; [|congruence].
    symmetry in E. apply app_eq_nil in E. tauto.
  - destruct Sp' as [s' F'|v' w' s' Nv' Lv' F' Sp'].
    + exfalso. rewrite <- app_assoc in E. cbn in E. rewrite E in F. unfold first_rune in F'. destruct s'; [|congruence].
      apply app_eq_nil in E. tauto.
    + rewrite <- !app_assoc in E. rewrite <- E, <- Lv in Lv'.
      destruct (app_same_length v v' _ _ (eq_sym Lv') E) as [<- E']. f_equal. now apply (IH w' s' Sp').
Qed.

Definition istrue (f : N -> bool) (r : N) : Prop := f r = true.

Lemma utf8_nonempty r : sp_utf8 r <> [].
Proof. unfold sp_utf8. destruct (_ <? _)%N; [|destruct (_ <? _)%N; [|destruct (_ <? _)%N]]; discriminate. Qed.

Lemma decode_head s r k : s <> [] -> decode_rune s = (r, k) -> r <> rune_error ->
  exists v t, s = v ++ t /\ length v = k /\ scalar_value r /\ bytes v = sp_utf8 r.
Proof.
  intros N E R. exists (firstn k s), (skipn k s). pose proof (decode_width s N) as W. rewrite E in W. cbn in W.
  destruct (decode_valid s r k E N R) as [V B]. rewrite firstn_skipn. repeat split; auto. rewrite firstn_length. lia.
Qed.

Lemma first_rune_begins f s : f rune_error = false -> (first_rune f s = true <-> begins (istrue f) s).
Proof.
  intros Hf. unfold first_rune, begins, istrue. split.
  - destruct s as [|c s]; [discriminate|]. destruct (decode_rune (c :: s)) as [r k] eqn:E. cbn. intros F.
    destruct (decode_valid (c :: s) r k E) as [V B]; [discriminate|congruence|].
    exists r, (bytes (skipn k (c :: s))). split; [assumption|]. split; [assumption|].
    now rewrite <- B, <- bytes_app, firstn_skipn.
  - intros (r & t & V & F & B). destruct s as [|c s].
    + exfalso. symmetry in B. apply app_eq_nil in B. destruct B as [B _]. now apply (utf8_nonempty r).
    + now rewrite (decode_encoded (c :: s) r t V B).
Qed.

Lemma bytes_split w a b : bytes w = (a ++ b)%list -> exists v u, w = v ++ u /\ bytes v = a /\ bytes u = b.
Proof.
  intros H. exists (firstn (length a) w), (skipn (length a) w).
  split; [symmetry; apply firstn_skipn|]. unfold bytes in *.
  rewrite <- firstn_map, <- skipn_map, H. split.
  - rewrite firstn_app, firstn_all, Nat.sub_diag. cbn. apply app_nil_r.
  - rewrite skipn_app, skipn_all, Nat.sub_diag. reflexivity.
Qed.

Lemma span_iff f w s : f rune_error = false ->
  (span f w s <-> all_of (istrue f) w /\ ~ begins (istrue f) s).
Proof.
  intros Hf. split.
  - induction 1 as [s F|v w s Nv Lv F Sp [(rs & V & P & B) IH]].
    + split; [exists []; repeat split; constructor|]. intros K. apply (first_rune_begins f s Hf) in K. congruence.
    + split; [|assumption]. destruct (decode_rune (v ++ w ++ s)) as [r k] eqn:E. cbn in *.
      destruct (decode_valid _ r k E) as [Vr Br]; [intros K; apply app_eq_nil in K; tauto|congruence|].
      rewrite <- Lv, firstn_app, firstn_all, Nat.sub_diag in Br. cbn in Br. rewrite app_nil_r in Br.
      exists (r :: rs). split; [now constructor|]. split; [now constructor|].
      rewrite bytes_app, Br, B. reflexivity.
  - intros [(rs & V & P & B) H]. revert w B. induction rs as [|r rs IH]; intros w B.
    + destruct w; [|discriminate]. constructor. destruct (first_rune f s) eqn:E; [|reflexivity].
      apply first_rune_begins in E; [|assumption]. tauto.
    + inversion V as [|? ? Vr V']; subst. inversion P as [|? ? Pr P']; subst.
      change (utf8_text (r :: rs)) with (sp_utf8 r ++ utf8_text rs)%list in B.
      destruct (bytes_split _ _ _ B) as (v & u & -> & Bv & Bu).
      assert (D : decode_rune (v ++ u ++ s) = (r, length (sp_utf8 r))).
      { apply (decode_encoded _ r (bytes (u ++ s))); [assumption|]. now rewrite !bytes_app, Bv. }
      apply span_go; [| | |now apply IH].
      * intros ->. cbn in Bv. symmetry in Bv. now apply (utf8_nonempty r).
      * rewrite D. cbn. rewrite <- (bytes_length v). now rewrite Bv.
      * now rewrite D.
Qed.

(** The rest of the line *)
Definition not_newline (r : N) : bool := negb (r =? 10)%N.

Lemma newline_code c : (N_of_ascii c =? 10)%N = true <-> c = newline.
Proof.
  rewrite N.eqb_eq. split; [|now intros ->]. intros H. rewrite <- (ascii_N_embedding c), H. reflexivity.
Qed.

Lemma high_not_newline v : Forall (fun x => 128 <= N_of_ascii x)%N v -> ~ In newline v.
Proof. intros H K. rewrite Forall_forall in H. apply H in K. vm_compute in K. congruence. Qed.

Lemma span_line w s : span not_newline w s <-> ~ In newline w /\ (s = [] \/ exists t, s = newline :: t).
Proof.
  split.
  - induction 1 as [s F|v w s Nv Lv F Sp [IH1 IH2]].
    + split; [tauto|]. destruct s as [|c s]; [now left|]. right. unfold first_rune, not_newline in F.
      apply negb_false_iff in F. destruct (N.lt_ge_cases (N_of_ascii c) 128) as [Hc|Hc].
      * rewrite decode_ascii in F by assumption. apply newline_code in F. subst c. eauto.
      * destruct (decode_high c s Hc) as [K _]. apply N.eqb_eq in F. rewrite F in K. lia.
    + split; [|assumption]. rewrite in_app_iff. intros [K|K]; [|tauto]. destruct v as [|c v]; [congruence|].
      cbn [app] in *. destruct (N.lt_ge_cases (N_of_ascii c) 128) as [Hc|Hc].
      * rewrite decode_ascii in F, Lv by assumption. cbn in Lv. destruct v; [|discriminate]. destruct K as [K|[]].
        apply newline_code in K. unfold not_newline in F. cbn [fst] in F. rewrite K in F. discriminate.
      * destruct (decode_high c (v ++ w ++ s) Hc) as [_ K2]. rewrite <- Lv in K2.
        change (c :: v ++ w ++ s) with ((c :: v) ++ w ++ s) in K2.
        rewrite firstn_app, firstn_all, Nat.sub_diag in K2. cbn [firstn] in K2. rewrite app_nil_r in K2.
        now apply high_not_newline in K2.
  - intros [H Hs]. remember (length w) as n eqn:En. revert w H En.
    induction n as [n IH] using lt_wf_ind. intros w H En. destruct w as [|c w].
    + constructor. destruct Hs as [->|(t & ->)]; reflexivity.
    + pose proof (decode_width (c :: w ++ s) ltac:(discriminate)) as W.
      remember (snd (decode_rune (c :: w ++ s))) as k eqn:Ek.
      assert (Hk : (1 <= k <= length (c :: w))%nat /\ not_newline (fst (decode_rune (c :: w ++ s))) = true).
      { destruct (N.lt_ge_cases (N_of_ascii c) 128) as [Hc|Hc].
        - rewrite decode_ascii in * by assumption. cbn in Ek. subst k. split; [cbn; lia|]. cbn [fst].
          unfold not_newline. apply negb_true_iff. destruct (N.eqb_spec (N_of_ascii c) 10); [|reflexivity].
          exfalso. apply H. left. apply newline_code. now apply N.eqb_eq.
        - destruct (decode_high c (w ++ s) Hc) as [K1 K2]. rewrite <- Ek in K2. split.
          + split; [lia|]. destruct (Nat.le_gt_cases k (length (c :: w))) as [?|G]; [assumption|]. exfalso.
            destruct Hs as [->|(t & ->)].
            * rewrite app_nil_r in W. lia.
            * apply high_not_newline in K2. apply K2.
              change (c :: w ++ newline :: t) with ((c :: w) ++ newline :: t).
              replace k with (length (c :: w) + S (k - S (length (c :: w))))%nat by lia.
              rewrite firstn_app_2. apply in_or_app. right. now left.
          + unfold not_newline. apply negb_true_iff. apply N.eqb_neq. lia. }
      destruct Hk as [Hk F]. rewrite <- (firstn_skipn k (c :: w)).
      assert (Lf : length (firstn k (c :: w)) = k) by (rewrite firstn_length; lia).
      apply span_go.
      * intros K. rewrite K in Lf. cbn in Lf. lia.
      * rewrite app_assoc, firstn_skipn, Lf. exact Ek.
      * rewrite app_assoc, firstn_skipn. exact F.
      * apply (IH (length (skipn k (c :: w)))).
        -- rewrite skipn_length. lia.
        -- intros K. apply H. rewrite <- (firstn_skipn k (c :: w)). apply in_or_app. now right.
        -- reflexivity.
Qed.

(** ** Block comments *)
Lemma closes_two a : closes a -> exists x y t, a = x :: y :: t.
Proof.
  induction 1 as [|c w _ _ H (x & y & t & ->)|a w Ha _ Hw (x & y & t & ->)]; cbn; eauto.
Qed.

Lemma deep_of_closes a : closes a -> forall d w, deep d w -> deep (S d) (a ++ w).
Proof.
  induction 1 as [|c a N1 N2 H IH|a b Ha IHa Hb IHb]; intros d w D.
  - now apply deep_close.
  - destruct (closes_two _ H) as (x & y & t & ->). cbn [app]. apply deep_char; [| |now apply IH].
    + intros (u & E). apply N1. cbn in E. inversion E; subst. now exists (y :: t).
    + intros (u & E). apply N2. cbn in E. inversion E; subst. now exists (y :: t).
  - rewrite <- !app_assoc. apply deep_open. apply IHa. now apply IHb.
Qed.

Lemma closes_of_deep d w : deep d w -> exists l, length l = d /\ Forall closes l /\ w = concat l.
Proof.
  induction 1 as [|d w D (l & L & F & E)|d w D (l & L & F & E)|d c w N1 N2 D (l & L & F & E)].
  - exists []. repeat constructor.
  - destruct l as [|a [|b l]]; try discriminate. inversion F as [|? ? Fa F']; subst. inversion F' as [|? ? Fb F'']; subst.
    exists ((txt "/*" ++ a ++ b) :: l). cbn in L. split; [cbn; lia|]. split; [constructor; [now constructor|assumption]|].
    cbn. now rewrite <- app_assoc.
  - exists (txt "*/" :: l). cbn. split; [lia|]. split; [constructor; [constructor|assumption]|]. now subst.
  - destruct l as [|a l]; [discriminate|]. inversion F as [|? ? Fa F']; subst. exists ((c :: a) :: l).
    split; [exact L|]. split; [|reflexivity]. constructor; [|assumption]. constructor; [| |assumption].
    + intros (u & E). apply N1. exists (u ++ concat l). rewrite app_assoc, <- E. reflexivity.
    + intros (u & E). apply N2. exists (u ++ concat l). rewrite app_assoc, <- E. reflexivity.
Qed.

Lemma deep_closes a : deep 1 a <-> closes a.
Proof.
  split; intros H.
  - apply closes_of_deep in H. destruct H as (l & L & F & ->). destruct l as [|x [|y l]]; try discriminate.
    inversion F. cbn. now rewrite app_nil_r.
  - rewrite <- (app_nil_r a). apply deep_of_closes; [assumption|constructor].
Qed.

(** ** One token *)
Section Tables.
Variable U : tables.
Hypothesis HU : good_tables U.

Lemma space_iff r : is_space r = true <-> space r.
Proof.
  unfold is_space, space. rewrite orb_true_iff, existsb_exists. split.
  - intros [(x & Hx & E)|H].
    + apply N.eqb_eq in E. subst x. cbn in *. intuition auto 60.
    + assert (R : (r = 8192 \/ r = 8193 \/ r = 8194 \/ r = 8195 \/ r = 8196 \/ r = 8197 \/ r = 8198 \/ r = 8199 \/ r = 8200 \/ r = 8201 \/ r = 8202)%N) by lia.
      cbn. intuition auto 60.
  - intros H. cbn in H.
    assert (G : In r [9; 10; 11; 12; 13; 32; 133; 160; 5760; 8232; 8233; 8239; 8287; 12288]%N \/ (8192 <= r <= 8202)%N).
    { cbn. repeat (destruct H as [<-|H]; [first [right; lia|left; tauto]|]). destruct H. }
    destruct G as [G|G]; [left; exists r; split; [assumption|apply N.eqb_refl]|right; lia].
Qed.

Lemma letter_iff r : is_letter U r = true <-> letter U r.
Proof.
  unfold is_letter, letter. destruct (N.ltb_spec r 128); [lia|]. split; [auto|]. intros [?|[_ ?]]; [lia|assumption].
Qed.

Lemma digit_iff r : is_digit U r = true <-> digit U r.
Proof.
  unfold is_digit, digit. destruct (N.ltb_spec r 128); [lia|]. split; [auto|]. intros [?|[_ ?]]; [lia|assumption].
Qed.

Lemma key_start_iff r : is_key_start U r = true <-> (letter U r \/ r = code "_" \/ r = code "-").
Proof.
  unfold is_key_start. rewrite !orb_true_iff, letter_iff, !N.eqb_eq. unfold code, ch. tauto.
Qed.
Lemma key_continue_iff r : is_key_continue U r = true <-> inner U r.
Proof.
  unfold is_key_continue, inner. rewrite !orb_true_iff, letter_iff, digit_iff, !N.eqb_eq. unfold code, ch. tauto.
Qed.

Lemma error_space : is_space rune_error = false.
Proof. reflexivity. Qed.
Lemma error_letter : is_letter U rune_error = false.
Proof. unfold is_letter. destruct HU as (H & _). exact H. Qed.
Lemma error_digit : is_digit U rune_error = false.
Proof. unfold is_digit. destruct HU as (_ & H & _). exact H. Qed.
Lemma error_key_start : is_key_start U rune_error = false.
Proof. unfold is_key_start. now rewrite error_letter. Qed.
Lemma error_key_continue : is_key_continue U rune_error = false.
Proof. unfold is_key_continue. now rewrite error_letter, error_digit. Qed.

Lemma all_of_ext (P Q : N -> Prop) w : (forall r, P r <-> Q r) -> (all_of P w <-> all_of Q w).
Proof.
  intros H. unfold all_of. split; intros (rs & V & F & B); exists rs; split; auto; split; auto;
    eapply Forall_impl; try exact F; intros; now apply H.
Qed.
Lemma begins_ext (P Q : N -> Prop) w : (forall r, P r <-> Q r) -> (begins P w <-> begins Q w).
Proof. intros H. unfold begins. split; intros (r & t & V & F & B); exists r, t; split; auto; split; auto; now apply H. Qed.

Lemma span_space w s : span is_space w s <-> all_of space w /\ ~ begins space s.
Proof.
  rewrite span_iff by reflexivity. rewrite (all_of_ext (istrue is_space) space) by apply space_iff.
  now rewrite (begins_ext (istrue is_space) space) by apply space_iff.
Qed.
Lemma span_digit w s : span (is_digit U) w s <-> all_of (digit U) w /\ ~ begins (digit U) s.
Proof.
  rewrite span_iff by apply error_digit. rewrite (all_of_ext (istrue (is_digit U)) (digit U)) by apply digit_iff.
  now rewrite (begins_ext (istrue (is_digit U)) (digit U)) by apply digit_iff.
Qed.
Lemma span_inner w s : span (is_key_continue U) w s <-> all_of (inner U) w /\ ~ begins (inner U) s.
Proof.
  rewrite span_iff by apply error_key_continue.
  rewrite (all_of_ext (istrue (is_key_continue U)) (inner U)) by apply key_continue_iff.
  now rewrite (begins_ext (istrue (is_key_continue U)) (inner U)) by apply key_continue_iff.
Qed.

(** The first rune *)
Lemma read_first l r v s : rest l = v ++ s -> scalar_value r -> bytes v = sp_utf8 r ->
  read_rune l = (Some r, adv l v) /\ peek_rune l = Some r.
Proof.
  intros E V B.
  assert (N : rest l <> []).
  { intros K. rewrite K in E. symmetry in E. apply app_eq_nil in E. destruct E as [-> _]. cbn in B. symmetry in B.
    now apply (utf8_nonempty r). }
  assert (D : decode_rune (rest l) = (r, length (sp_utf8 r))).
  { apply (decode_encoded _ r (bytes s)); [assumption|]. now rewrite E, bytes_app, B. }
  destruct (read_rune_some l N) as (w & u & Ew & _ & Lw & R & P). rewrite D in *. cbn [fst snd] in *.
  assert (w = v).
  { rewrite Ew in E. apply app_same_length in E; [tauto|]. now rewrite Lw, <- B, bytes_length. }
  subst w. auto.
Qed.

Lemma ascii_utf8 c : (N_of_ascii c < 128)%N -> scalar_value (ch c) /\ bytes [c] = sp_utf8 (ch c).
Proof.
  intros H. unfold scalar_value, ch, sp_utf8. split; [lia|]. destruct (N.ltb_spec (N_of_ascii c) 128); [reflexivity|lia].
Qed.

Lemma read_ascii l c s : rest l = c :: s -> (N_of_ascii c < 128)%N ->
  read_rune l = (Some (ch c), adv l [c]) /\ peek_rune l = Some (ch c).
Proof. intros E H. destruct (ascii_utf8 c H). now apply (read_first l (ch c) [c] s). Qed.


(** ** Keywords and punctuation *)
Lemma text_get_some {A} (m : list (text * A)) w a : text_get m w = Some a -> In (w, a) m.
Proof.
  induction m as [|[k b] m IH]; cbn; [discriminate|]. destruct (text_eqb k w) eqn:E; [|auto].
  intros H. inversion H; subst. apply text_eqb_eq in E. subst. now left.
Qed.

Lemma keyword_get w ty : text_get keyword_map w = Some ty <-> exists s, In (s, ty) keywords /\ w = txt s.
Proof.
  split.
  - intros H. apply text_get_some in H.
    assert (F : Forall (fun p => exists s, In (s, snd p) keywords /\ fst p = txt s) keyword_map).
    { unfold keyword_map. repeat (apply Forall_cons; [eexists; split; [|reflexivity]; cbn; tauto|]). constructor. }
    rewrite Forall_forall in F. apply (F (w, ty) H).
  - intros (s & Hin & ->).
    assert (F : Forall (fun p => text_get keyword_map (txt (fst p)) = Some (snd p)) keywords).
    { unfold keywords. repeat (apply Forall_cons; [reflexivity|]). constructor. }
    rewrite Forall_forall in F. apply (F (s, ty) Hin).
Qed.

Lemma named_text s k : In (s, k) (keywords ++ marks) -> token_text U k (txt s).
Proof.
  intros H.
  assert (F : Forall (fun p => In p (keywords ++ marks) -> token_text U (snd p) (txt (fst p))) (keywords ++ marks)).
  { cbn [keywords marks app].
    repeat (apply Forall_cons; [cbn [fst snd]; intros K; eexists; split; [exact K|reflexivity]|]). constructor. }
  rewrite Forall_forall in F. now apply (F (s, k)).
Qed.

Lemma keyword_separate s k w r : In (s, k) keywords -> separate U k w r = ~ begins (inner U) r.
Proof.
  intros H. assert (F : Forall (fun p => separate U (snd p) w r = ~ begins (inner U) r) keywords).
  { unfold keywords. repeat (apply Forall_cons; [reflexivity|]). constructor. }
  rewrite Forall_forall in F. now apply (F (s, k)).
Qed.

Lemma keyword_not_eos s k : In (s, k) (keywords ++ marks) -> k <> EndOfStream.
Proof.
  intros H. assert (F : Forall (fun p => snd p <> EndOfStream) (keywords ++ marks)).
  { cbn [keywords marks app]. repeat (apply Forall_cons; [discriminate|]). constructor. }
  rewrite Forall_forall in F. now apply (F (s, k)).
Qed.

(** A keyword is a word. *)
Lemma keyword_word s k : In (s, k) keywords -> exists c w, txt s = c :: w /\ (N_of_ascii c < 128)%N /\
  (letter U (ch c) \/ ch c = code "_") /\ all_of (inner U) w.
Proof.
  intros H.
  assert (G : Forall (fun p => match txt (fst p) with [] => false | c :: w =>
      ((65 <=? ch c) && (ch c <=? 90) || (97 <=? ch c) && (ch c <=? 122) || (ch c =? 95))%N &&
      forallb (fun c => (65 <=? ch c) && (ch c <=? 90) || (97 <=? ch c) && (ch c <=? 122) || (48 <=? ch c) && (ch c <=? 57))%N w
      end = true) keywords).
  { unfold keywords. repeat (apply Forall_cons; [reflexivity|]). constructor. }
  rewrite Forall_forall in G. specialize (G (s, k) H). cbn [fst] in G. destruct (txt s) as [|c w]; [discriminate|].
  apply andb_true_iff in G. destruct G as [G1 G2]. exists c, w. unfold ch in G1.
  split; [reflexivity|]. split; [lia|]. split.
  - unfold letter, ch, code. change (N_of_ascii "_") with 95%N. lia.
  - exists (bytes w). rewrite forallb_forall in G2.
    assert (A : forall r, In r (bytes w) -> ((65 <= r <= 90) \/ (97 <= r <= 122) \/ (48 <= r <= 57))%N).
    { intros r Hr. unfold bytes in Hr. apply in_map_iff in Hr. destruct Hr as (d & <- & Hd). apply G2 in Hd. unfold ch in Hd. lia. }
    split; [|split].
    + apply Forall_forall. intros r Hr. apply A in Hr. left. lia.
    + apply Forall_forall. intros r Hr. apply A in Hr. unfold inner, letter, digit. lia.
    + clear - A. induction (bytes w) as [|r rs IH]; [reflexivity|].
      change (utf8_text (r :: rs)) with (sp_utf8 r ++ utf8_text rs)%list. rewrite <- IH by (intros; apply A; now right).
      specialize (A r (or_introl eq_refl)). unfold sp_utf8. destruct (N.ltb_spec r 128); [reflexivity|lia].
Qed.

Lemma single_ascii r ty : single r = Some ty -> exists c s, r = ch c /\ (N_of_ascii c < 128)%N /\
  In (s, ty) marks /\ txt s = [c] /\ is_space r = false /\ (r =? ch "/")%N = false /\ forall w t, separate U ty w t = True.
Proof.
  unfold single.
  repeat (match goal with |- context [(r =? ch ?c)%N] => destruct (N.eqb_spec r (ch c)); [
    intros H; inversion H; subst; exists c; eexists;
    repeat (split; [first [reflexivity|cbn; tauto]|]); reflexivity|] end).
  discriminate.
Qed.

Lemma while_token_exact f ty l w s : inside l -> rest l = w ++ s -> span f w s ->
  while_token f ty l = make_token (adv l w) (ty (adv l w)).
Proof.
  intros I E Sp. destruct (while_token_spec f ty l I) as (w' & s' & E' & Sp' & R). rewrite R.
  now rewrite (span_det f w' s' Sp' w s Sp ltac:(congruence)).
Qed.

Lemma low_rune v s c : v <> [] -> length v = snd (decode_rune (v ++ s)) -> fst (decode_rune (v ++ s)) = ch c ->
  (N_of_ascii c < 128)%N -> v = [c].
Proof.
  intros N L F H. destruct v as [|d v]; [congruence|]. cbn [app] in *.
  destruct (N.lt_ge_cases (N_of_ascii d) 128) as [Hd|Hd].
  - rewrite decode_ascii in * by assumption. cbn in L, F. destruct v; [|discriminate]. f_equal.
    apply ascii_of_code. exact F.
  - destruct (decode_high d (v ++ s) Hd) as [K _]. unfold ch in F. rewrite F in K. lia.
Qed.

Lemma capture_adv l w s : l_offset l = l_position l -> rest l = w ++ s -> capture (adv l w) = w.
Proof.
  intros A E. unfold capture, adv. cbn. rewrite A. fold (rest l). rewrite E.
  replace (l_position l + length w - l_position l)%nat with (length w) by lia.
  rewrite firstn_app, firstn_all, Nat.sub_diag. cbn. apply app_nil_r.
Qed.

(** Scanning reads a part of the text, and all of its first rune. *)
Definition is_token (l : lexer) (ty : toktype) (w s : text) : Prop :=
  ty <> EndOfStream /\ (l_offset l = l_position l -> token_text U ty w /\ separate U ty w s).

Lemma next_raw_shape l : inside l ->
  (rest l = [] /\ next_raw U l = make_token l EndOfStream) \/
  (exists w s, rest l = w ++ s /\ w <> [] /\
    ((exists ty, next_raw U l = make_token (adv l w) ty /\ is_token l ty w s) \/
     next_raw U l = (Err EOther, adv l w))).
Proof.
  intros I. unfold next_raw. destruct (rest l) as [|c0 t0] eqn:Er.
  { left. split; [reflexivity|]. now destruct (read_rune_end l I Er) as [-> _]. }
  right. destruct (read_rune_some l) as (v & s & Ev & Nv & Lv & R & _); [congruence|].
  rewrite R. rewrite Er in *. rewrite Ev in *. clear R c0 t0 Ev.
  remember (fst (decode_rune (v ++ s))) as r eqn:Edr.
  pose proof (adv_inside l v s I Er) as I1. pose proof (adv_rest l v s Er) as R1.
  destruct (is_space r) eqn:Esp.
  { destruct (while_token_spec is_space (fun _ => Whitespace) (adv l v) I1) as (w & u & Ew & Sp & ->).
    rewrite R1 in Ew. exists (v ++ w), u. rewrite Ew, app_assoc. split; [reflexivity|].
    split; [intros K; apply app_eq_nil in K; tauto|]. left. exists Whitespace. rewrite adv_adv. split; [reflexivity|].
    split; [discriminate|]. intros _. cbn.
    assert (Sp' : span is_space (v ++ w) u) by (apply span_go; try assumption; rewrite <- Ew; congruence).
    apply span_space in Sp'. destruct Sp'. repeat split; auto. intros K; apply app_eq_nil in K; tauto. }
  destruct (N.eqb_spec r (ch "/")) as [Es|Es].
  { assert (v = txt "/") by (apply (low_rune v s "/"); [assumption|assumption|congruence|reflexivity]). subst v.
    destruct (eat_char "/" (adv l (txt "/")) ltac:(reflexivity) I1) as [(u & Eu & Ee)|[Nu Ee]]; rewrite Ee.
    - rewrite R1 in Eu. rewrite adv_adv. rewrite Eu in Er.
      assert (Er' : rest l = txt "//" ++ u) by exact Er.
      pose proof (adv_inside l (txt "//") u I Er') as I2. pose proof (adv_rest l (txt "//") u Er') as R2.
      destruct (while_token_spec not_newline (fun _ => LineComment) (adv l (txt "//")) I2) as (w & u' & Ew & Sp & Wt).
      unfold not_newline at 1 in Wt. rewrite R2 in Ew.
      change (txt "/" ++ ["/"%char]) with (txt "//"). rewrite Wt. exists (txt "//" ++ w), u'.
      rewrite Eu, Ew. split; [reflexivity|]. split; [discriminate|]. left. exists LineComment. rewrite adv_adv.
      split; [reflexivity|]. split; [discriminate|]. intros _. apply span_line in Sp. destruct Sp. cbn. eauto.
    - destruct (eat_char "*" (adv l (txt "/")) ltac:(reflexivity) I1) as [(u & Eu & Ee2)|[Nu2 Ee2]]; rewrite Ee2.
      + rewrite R1 in Eu. rewrite adv_adv. rewrite Eu in Er.
        assert (Er' : rest l = txt "/*" ++ u) by exact Er.
        change (txt "/" ++ ["*"%char]) with (txt "/*").
        pose proof (adv_inside l (txt "/*") u I Er') as I2. pose proof (adv_rest l (txt "/*") u Er') as R2.
        pose proof (rest_le (adv l (txt "/*"))) as Lr.
        destruct (block_loop_spec (S (S (length (l_input (adv l (txt "/*")))))) 1 (adv l (txt "/*")) I2)
          as [(w & u' & Ew & D & B)|[Nv' B]]; [lia| |]; rewrite B.
        * rewrite R2 in Ew. rewrite adv_adv. exists (txt "/*" ++ w), u'. rewrite Eu, Ew. split; [reflexivity|].
          split; [discriminate|]. left. exists BlockComment. split; [reflexivity|]. split; [discriminate|]. intros _.
          split; [|exact Logic.I]. exists w. split; [reflexivity|]. now apply deep_closes.
        * rewrite R2, adv_adv. exists (txt "/*" ++ u), []. rewrite Eu, app_nil_r. split; [reflexivity|].
          split; [discriminate|]. now right.
      + exists (txt "/"), s. split; [reflexivity|]. split; [discriminate|]. left. exists Slash. split; [reflexivity|].
        split; [discriminate|]. intros _. split; [apply (named_text "/"); cbn; tauto|]. rewrite R1 in Nu, Nu2. split; assumption. }
  destruct (single r) as [ty|] eqn:Esi.
  { destruct (single_ascii r ty Esi) as (c & nm & -> & Hc & Hin & Hnm & _ & _ & Hsep).
    assert (v = [c]) by (apply (low_rune v s c); [assumption|assumption|congruence|assumption]). subst v.
    exists [c], s. split; [reflexivity|]. split; [discriminate|]. left. exists ty. split; [reflexivity|].
    assert (Hin' : In (nm, ty) (keywords ++ marks)) by (apply in_or_app; now right).
    split; [now apply (keyword_not_eos nm)|]. intros _. rewrite Hsep. split; [|exact Logic.I]. rewrite <- Hnm.
    now apply named_text. }
  destruct (N.eqb_spec r (ch "-")) as [Em|Em].
  { assert (v = txt "-") by (apply (low_rune v s "-"); [assumption|assumption|congruence|reflexivity]). subst v.
    destruct (eat_char ">" (adv l (txt "-")) ltac:(reflexivity) I1) as [(u & Eu & Ee)|[Nu Ee]]; rewrite Ee.
    - rewrite R1 in Eu. exists (txt "->"), u. rewrite Eu. split; [reflexivity|]. split; [discriminate|]. left.
      exists RightArrow. rewrite adv_adv. split; [reflexivity|]. split; [discriminate|]. intros _.
      split; [|exact Logic.I]. apply (named_text "->"). cbn. tauto.
    - exists (txt "-"), s. split; [reflexivity|]. split; [discriminate|]. left. exists Minus. split; [reflexivity|].
      split; [discriminate|]. intros _. split; [apply (named_text "-"); cbn; tauto|]. rewrite R1 in Nu. exact Nu. }
  destruct (N.eqb_spec r (ch "+")) as [Ep|Ep].
  { assert (v = txt "+") by (apply (low_rune v s "+"); [assumption|assumption|congruence|reflexivity]). subst v.
    exists (txt "+"), s. split; [reflexivity|]. split; [discriminate|]. left. exists Plus. split; [reflexivity|].
    split; [discriminate|]. intros _. split; [|exact Logic.I]. apply (named_text "+"). cbn. tauto. }
  destruct (N.eqb_spec r (ch "%")) as [Ec|Ec].
  { assert (v = txt "%") by (apply (low_rune v s "%"); [assumption|assumption|congruence|reflexivity]). subst v.
    destruct (eat_if_cases (is_key_start U) (adv l (txt "%")) I1) as [[Ee F]|(v2 & s2 & Ev2 & Nv2 & Lv2 & F & Ee)]; rewrite Ee.
    - exists (txt "%"), s. split; [reflexivity|]. split; [discriminate|]. left. exists ExplicitId. split; [reflexivity|].
      split; [discriminate|]. intros _. split; [now left|]. cbn [separate]. rewrite (proj2 (text_eqb_eq _ _) eq_refl).
      rewrite R1 in F. intros K.
      rewrite (begins_ext _ (istrue (is_key_start U))) in K by (intros; symmetry; apply key_start_iff).
      apply first_rune_begins in K; [congruence|apply error_key_start].
    - rewrite R1 in Ev2. rewrite adv_adv. rewrite Ev2 in Er. rewrite app_assoc in Er.
      pose proof (adv_inside _ _ _ I Er) as I2. pose proof (adv_rest _ _ _ Er) as R2.
      destruct (while_token_spec (is_key_continue U) (fun _ => ExplicitId) (adv l (txt "%" ++ v2)) I2) as (w & u & Ew & Sp & ->).
      rewrite R2 in Ew. rewrite adv_adv. exists ((txt "%" ++ v2) ++ w), u.
      rewrite Ev2, Ew. split; [now rewrite <- !app_assoc|]. split; [discriminate|]. left. exists ExplicitId.
      split; [reflexivity|]. split; [discriminate|]. intros _. apply span_inner in Sp. destruct Sp as [(rs & V & P & B) Nb].
      split.
      + right. exists (v2 ++ w). rewrite <- app_assoc. split; [reflexivity|].
        destruct (decode_rune (v2 ++ s2)) as [r2 k2] eqn:D2. cbn in F, Lv2.
        destruct (decode_valid _ _ _ D2) as [V2 B2]; [intros K; apply app_eq_nil in K; tauto|intros ->; now rewrite error_key_start in F|].
        rewrite <- Lv2, firstn_app, firstn_all, Nat.sub_diag in B2. cbn in B2. rewrite app_nil_r in B2.
        exists r2, rs. split; [assumption|]. split; [now apply key_start_iff|]. split; [assumption|]. split; [assumption|].
        change (utf8_text (r2 :: rs)) with (sp_utf8 r2 ++ utf8_text rs)%list. now rewrite bytes_app, B, B2.
      + cbn [separate]. destruct (text_eqb _ (txt "%")) eqn:E; [|assumption]. exfalso. apply text_eqb_eq in E.
        cbn in E. inversion E as [E2]. apply app_eq_nil in E2. tauto. }
  destruct (is_key_start U r) eqn:Ek.
  { destruct (while_token_spec (is_key_continue U)
      (fun l => match text_get keyword_map (capture l) with Some ty => ty | None => Id end) (adv l v) I1) as (w & u & Ew & Sp & ->).
    rewrite R1 in Ew. rewrite adv_adv. rewrite Ew, app_assoc in Er. exists (v ++ w), u. rewrite Ew, app_assoc.
    split; [reflexivity|]. split; [intros K; apply app_eq_nil in K; tauto|]. left. eexists. split; [reflexivity|].
    split.
    { destruct (text_get keyword_map _) as [ty|] eqn:G; [|discriminate]. apply keyword_get in G.
      destruct G as (nm & Hin & _). apply (keyword_not_eos nm). apply in_or_app. now left. }
    intros A. rewrite (capture_adv _ _ _ A Er). apply span_inner in Sp. destruct Sp as [(rs & V & P & B) Nb].
    destruct (text_get keyword_map (v ++ w)) as [ty|] eqn:G.
    - apply keyword_get in G. destruct G as (nm & Hin & ->). rewrite (keyword_separate nm ty _ _ Hin).
      split; [|assumption]. apply named_text. apply in_or_app. now left.
    - split; [|assumption]. split.
      + destruct (decode_rune (v ++ s)) as [r2 k2] eqn:D2. cbn in Edr, Lv. subst r2.
        destruct (decode_valid _ _ _ D2) as [V2 B2]; [intros K; apply app_eq_nil in K; tauto|intros ->; now rewrite error_key_start in Ek|].
        rewrite <- Lv, firstn_app, firstn_all, Nat.sub_diag in B2. cbn in B2. rewrite app_nil_r in B2.
        exists r, rs. split; [assumption|]. split.
        { apply key_start_iff in Ek. destruct Ek as [?|[?|?]]; auto. contradiction. }
        split; [assumption|]. split; [assumption|].
        change (utf8_text (r :: rs)) with (sp_utf8 r ++ utf8_text rs)%list. now rewrite bytes_app, B, B2.
      + intros (nm & k & Hin & E). assert (K : text_get keyword_map (v ++ w) = Some k) by (apply keyword_get; eauto). congruence. }
  destruct (is_digit U r) eqn:Ed.
  { destruct (while_token_spec (is_digit U) (fun _ => Integer) (adv l v) I1) as (w & u & Ew & Sp & ->).
    rewrite R1 in Ew. exists (v ++ w), u. rewrite Ew, app_assoc. split; [reflexivity|].
    split; [intros K; apply app_eq_nil in K; tauto|]. left. exists Integer. rewrite adv_adv. split; [reflexivity|].
    split; [discriminate|]. intros _. cbn.
    assert (Sp' : span (is_digit U) (v ++ w) u) by (apply span_go; try assumption; rewrite <- Ew; congruence).
    apply span_digit in Sp'. destruct Sp'. repeat split; auto. intros K; apply app_eq_nil in K; tauto. }
  exists v, s. split; [reflexivity|]. split; [assumption|]. now right.
Qed.

(** ** Every token is found *)
Lemma letter_plain r : letter U r \/ r = code "_" -> is_space r = false /\ (r =? ch "/")%N = false /\ single r = None /\
  (r =? ch "-")%N = false /\ (r =? ch "+")%N = false /\ (r =? ch "%")%N = false /\ is_key_start U r = true.
Proof.
  intros H. assert (H' := H).
  assert (Sp : is_space r = false).
  { destruct (is_space r) eqn:E; [|reflexivity]. exfalso. apply space_iff in E.
    destruct H as [[L|[_ L]]|E2].
    - cbn in E. lia.
    - destruct HU as (_ & _ & K & _). apply K in E. destruct E. congruence.
    - subst r. cbn in E. unfold code in E. intuition discriminate. }
  assert (S' : forall c, (N_of_ascii c < 128)%N -> (is_key_start U (ch c) && negb (ch c =? ch "-")%N = false) -> (r =? ch c)%N = false).
  { intros c Hc K. apply N.eqb_neq. intros ->. apply andb_false_iff in K. destruct K as [K|K].
    - rewrite (proj2 (key_start_iff (ch c))) in K; [discriminate|tauto].
    - apply negb_false_iff, N.eqb_eq in K. rewrite K in H. cbn in H. unfold letter, code, ch in H.
      change (N_of_ascii "-") with 45%N in H. change (N_of_ascii "_") with 95%N in H. lia. }
  split; [assumption|]. split; [now apply S'|]. split.
  - unfold single. rewrite !S' by reflexivity. reflexivity.
  - repeat (split; [now apply S'|]). apply key_start_iff. tauto.
Qed.

Lemma digit_plain r : digit U r -> is_space r = false /\ (r =? ch "/")%N = false /\ single r = None /\
  (r =? ch "-")%N = false /\ (r =? ch "+")%N = false /\ (r =? ch "%")%N = false /\ is_key_start U r = false.
Proof.
  intros H. destruct HU as (_ & _ & K1 & K2).
  assert (Sp : is_space r = false).
  { destruct (is_space r) eqn:E; [|reflexivity]. exfalso. apply space_iff in E. destruct H as [L|[_ L]].
    - cbn in E. lia.
    - apply K1 in E. destruct E. congruence. }
  assert (S' : forall c, (N_of_ascii c < 128)%N -> is_digit U (ch c) = false -> (r =? ch c)%N = false).
  { intros c Hc K. apply N.eqb_neq. intros ->. apply digit_iff in H. congruence. }
  split; [assumption|]. split; [now apply S'|]. split.
  - unfold single. rewrite !S' by reflexivity. reflexivity.
  - repeat (split; [now apply S'|]). unfold is_key_start. rewrite !S' by reflexivity.
    destruct (is_letter U r) eqn:E; [|reflexivity]. exfalso. apply letter_iff in E.
    destruct H as [L|[L D]], E as [L2|[L2 D2]]; try lia. apply K2 in D2. congruence.
Qed.

Lemma word_parts first w : word U first w -> exists v u r, w = v ++ u /\ scalar_value r /\ first r /\
  bytes v = sp_utf8 r /\ all_of (inner U) u.
Proof.
  intros (r & rs & V & F & Vs & P & B).
  change (utf8_text (r :: rs)) with (sp_utf8 r ++ utf8_text rs)%list in B.
  destruct (bytes_split _ _ _ B) as (v & u & -> & Bv & Bu). exists v, u, r. repeat split; auto. exists rs. auto.
Qed.

Lemma all_of_parts P w : w <> [] -> all_of P w -> exists v u r, w = v ++ u /\ scalar_value r /\ P r /\
  bytes v = sp_utf8 r /\ all_of P u.
Proof.
  intros N (rs & V & F & B). destruct rs as [|r rs]; [destruct w; [congruence|discriminate]|].
  inversion V; subst. inversion F; subst.
  change (utf8_text (r :: rs)) with (sp_utf8 r ++ utf8_text rs)%list in B.
  destruct (bytes_split _ _ _ B) as (v & u & -> & Bv & Bu). exists v, u, r. repeat split; auto. exists rs. auto.
Qed.

Lemma eat_yes l c s : inside l -> (ch c < 128)%N -> rest l = c :: s -> eat (ch c) l = (true, adv l [c]).
Proof.
  intros I H E. destruct (eat_char c l H I) as [(u & _ & Ee)|[N _]]; [assumption|]. exfalso. apply N. rewrite E. now exists s.
Qed.
Lemma eat_no l c : inside l -> (ch c < 128)%N -> ~ starts_with [c] (rest l) -> eat (ch c) l = (false, l).
Proof.
  intros I H E. destruct (eat_char c l H I) as [(u & Eu & Ee)|[N Ee]]; [|assumption]. exfalso. apply E. rewrite Eu. now exists u.
Qed.

(** A word after its first character *)
Lemma word_next l v u s r : inside l -> l_offset l = l_position l -> rest l = (v ++ u) ++ s ->
  scalar_value r -> letter U r \/ r = code "_" -> bytes v = sp_utf8 r -> all_of (inner U) u -> ~ begins (inner U) s ->
  next_raw U l = make_token (adv l (v ++ u)) (match text_get keyword_map (v ++ u) with Some ty => ty | None => Id end).
Proof.
  intros I A E V F B Au Nb. assert (E' : rest l = v ++ u ++ s) by now rewrite app_assoc.
  unfold next_raw. rewrite (proj1 (read_first l r v (u ++ s) E' V B)).
  destruct (letter_plain r F) as (-> & -> & -> & -> & -> & -> & ->).
  rewrite (while_token_exact (is_key_continue U) _ (adv l v) u s).
  - rewrite adv_adv, (capture_adv _ _ _ A E). reflexivity.
  - now apply (adv_inside l v (u ++ s)).
  - now apply adv_rest.
  - apply span_inner. auto.
Qed.

Lemma mark_single_next l c nm ty s : inside l -> rest l = c :: s -> single (ch c) = Some ty -> txt nm = [c] ->
  next_raw U l = make_token (adv l (txt nm)) ty.
Proof.
  intros I E Es En. destruct (single_ascii _ _ Es) as (c' & nm' & Ec & Hc & _ & _ & Hsp & Hsl & _).
  apply ascii_of_code in Ec. subst c'. unfold next_raw. rewrite (proj1 (read_ascii l c s E Hc)), Hsp, Hsl, Es, En. reflexivity.
Qed.

Lemma named_next l nm ty s : inside l -> l_offset l = l_position l -> In (nm, ty) (keywords ++ marks) ->
  rest l = txt nm ++ s -> separate U ty (txt nm) s -> next_raw U l = make_token (adv l (txt nm)) ty.
Proof.
  intros I A Hin E Hs. apply in_app_or in Hin. destruct Hin as [Hin|Hin].
  - rewrite (keyword_separate nm ty _ _ Hin) in Hs. destruct (keyword_word nm ty Hin) as (c & w & Ew & Hc & F & Aw).
    destruct (ascii_utf8 c Hc) as [V B]. rewrite Ew in E.
    rewrite (word_next l [c] w s (ch c) I A E V F B Aw Hs).
    change ([c] ++ w) with (c :: w). rewrite <- Ew.
    assert (G : text_get keyword_map (txt nm) = Some ty) by (apply keyword_get; eauto). now rewrite G.
  - cbn in Hin.
    repeat (destruct Hin as [Hin|Hin]; [inversion Hin; subst nm ty; clear Hin;
      try (eapply mark_single_next; [exact I|exact E|reflexivity|reflexivity])|]); [..|destruct Hin].
    + unfold next_raw. change (txt "->" ++ s) with (txt "-" ++ txt ">" ++ s) in E.
      rewrite (proj1 (read_ascii l "-" (txt ">" ++ s) E ltac:(reflexivity))). change (txt ">" ++ s) with (">"%char :: s) in E.
      pose proof (adv_rest l (txt "-") _ E) as R. pose proof (adv_inside l (txt "-") _ I E) as I'.
      cbn -[eat eat_if make_token adv ch]. change (eat (ch ">") (adv l ["-"%char])) with (eat (ch ">") (adv l (txt "-"))).
      rewrite (eat_yes _ ">" s I' ltac:(reflexivity) R). rewrite adv_adv. reflexivity.
    + unfold next_raw. rewrite (proj1 (read_ascii l "-" s E ltac:(reflexivity))).
      pose proof (adv_rest l (txt "-") _ E) as R. pose proof (adv_inside l (txt "-") _ I E) as I'.
      cbn -[eat eat_if make_token adv ch]. change (eat (ch ">") (adv l ["-"%char])) with (eat (ch ">") (adv l (txt "-"))).
      rewrite (eat_no _ ">" I' ltac:(reflexivity)); [reflexivity|]. rewrite R. exact Hs.
    + unfold next_raw. rewrite (proj1 (read_ascii l "+" s E ltac:(reflexivity))). reflexivity.
    + unfold next_raw. rewrite (proj1 (read_ascii l "/" s E ltac:(reflexivity))).
      pose proof (adv_rest l (txt "/") _ E) as R. pose proof (adv_inside l (txt "/") _ I E) as I'.
      cbn -[eat eat_if make_token adv ch while_token block_loop].
      change (adv l ["/"%char]) with (adv l (txt "/")).
      destruct Hs as [H1 H2].
      rewrite (eat_no _ "/" I' ltac:(reflexivity)) by (rewrite R; exact H1).
      rewrite (eat_no _ "*" I' ltac:(reflexivity)) by (rewrite R; exact H2). reflexivity.
Qed.

Lemma next_raw_complete l ty w s : inside l -> l_offset l = l_position l -> rest l = w ++ s ->
  token_text U ty w -> separate U ty w s -> next_raw U l = make_token (adv l w) ty.
Proof.
  intros I A E T Sp.
  assert (Named : (exists nm, In (nm, ty) (keywords ++ marks) /\ w = txt nm) -> next_raw U l = make_token (adv l w) ty).
  { intros (nm & Hin & ->). eapply named_next; eauto. }
  destruct ty; try (apply Named; exact T); clear Named.
  - (* Whitespace *)
    destruct T as [N T]. destruct (all_of_parts _ _ N T) as (v & u & r & -> & V & F & B & Au).
    rewrite <- app_assoc in E. unfold next_raw. rewrite (proj1 (read_first l r v _ E V B)).
    rewrite (proj2 (space_iff r) F).
    rewrite (while_token_exact is_space _ (adv l v) u s), adv_adv; [reflexivity| | |].
    + now apply (adv_inside l v (u ++ s)).
    + now apply adv_rest.
    + apply span_space. auto.
  - (* LineComment *)
    destruct T as (b & -> & Nb). change ((txt "//" ++ b) ++ s) with ("/"%char :: txt "/" ++ b ++ s) in E.
    assert (E2 : rest l = txt "//" ++ b ++ s) by exact E.
    unfold next_raw. rewrite (proj1 (read_ascii l "/" _ E ltac:(reflexivity))).
    pose proof (adv_rest l (txt "/") _ E) as R. pose proof (adv_inside l (txt "/") _ I E) as I'.
    cbn -[eat eat_if make_token adv ch while_token block_loop].
    change (adv l ["/"%char]) with (adv l (txt "/")).
    rewrite (eat_yes _ "/" (b ++ s) I' ltac:(reflexivity) R), adv_adv. change (txt "/" ++ ["/"%char]) with (txt "//").
    rewrite (while_token_exact not_newline _ (adv l (txt "//")) b s), adv_adv; [reflexivity| | |].
    + now apply (adv_inside l _ (b ++ s)).
    + now apply adv_rest.
    + apply span_line. auto.
  - (* BlockComment *)
    destruct T as (b & -> & Cb). change ((txt "/*" ++ b) ++ s) with ("/"%char :: txt "*" ++ b ++ s) in E.
    assert (E2 : rest l = txt "/*" ++ b ++ s) by exact E.
    unfold next_raw. rewrite (proj1 (read_ascii l "/" _ E ltac:(reflexivity))).
    pose proof (adv_rest l (txt "/") _ E) as R. pose proof (adv_inside l (txt "/") _ I E) as I'.
    cbn -[eat eat_if make_token adv ch while_token block_loop].
    change (adv l ["/"%char]) with (adv l (txt "/")).
    rewrite (eat_no _ "/" I' ltac:(reflexivity)) by (rewrite R; intros (u & Eu); discriminate).
    rewrite (eat_yes _ "*" (b ++ s) I' ltac:(reflexivity) R), adv_adv. change (txt "/" ++ ["*"%char]) with (txt "/*").
    pose proof (adv_rest l _ _ E2) as R2. pose proof (adv_inside l _ _ I E2) as I2.
    pose proof (rest_le (adv l (txt "/*"))) as Lr. apply deep_closes in Cb.
    destruct (block_loop_spec (S (S (length (l_input (adv l (txt "/*")))))) 1 (adv l (txt "/*")) I2)
      as [(w & u' & Ew & D & Bl)|[Nv' Bl]]; [lia| |]; rewrite Bl.
    + rewrite R2 in Ew. rewrite (deep_prefix b 1 s (b ++ s) Cb eq_refl w u' Ew D), adv_adv. reflexivity.
    + exfalso. rewrite R2 in Nv'. now apply (Nv' b s).
  - destruct T. (* EndOfStream *)
  - (* Id *)
    destruct T as [T Nk]. destruct (word_parts _ _ T) as (v & u & r & -> & V & F & B & Au).
    rewrite (word_next l v u s r I A E V F B Au Sp). destruct (text_get keyword_map (v ++ u)) eqn:G; [|reflexivity].
    exfalso. apply Nk. apply keyword_get in G. destruct G as (nm & Hin & En). eauto.
  - (* Integer *)
    destruct T as [N T]. destruct (all_of_parts _ _ N T) as (v & u & r & -> & V & F & B & Au).
    rewrite <- app_assoc in E. unfold next_raw. rewrite (proj1 (read_first l r v _ E V B)).
    destruct (digit_plain r F) as (-> & -> & -> & -> & -> & -> & ->). rewrite (proj2 (digit_iff r) F).
    rewrite (while_token_exact (is_digit U) _ (adv l v) u s), adv_adv; [reflexivity| | |].
    + now apply (adv_inside l v (u ++ s)).
    + now apply adv_rest.
    + apply span_digit. auto.
  - (* ExplicitId *)
    cbn [separate] in Sp. destruct T as [->|(v0 & -> & T)].
    + rewrite (proj2 (text_eqb_eq _ _) eq_refl) in Sp. unfold next_raw.
      rewrite (proj1 (read_ascii l "%" _ E ltac:(reflexivity))).
      pose proof (adv_rest l (txt "%") _ E) as R. pose proof (adv_inside l (txt "%") _ I E) as I'.
      cbn -[eat eat_if make_token adv ch while_token is_key_start].
      change (adv l ["%"%char]) with (adv l (txt "%")).
      destruct (eat_if_cases (is_key_start U) (adv l (txt "%")) I') as [[Ee _]|(v2 & s2 & Ev2 & Nv2 & Lv2 & F & Ee)]; rewrite Ee; [reflexivity|].
      exfalso. apply Sp. apply (begins_ext _ (istrue (is_key_start U))); [intros; symmetry; apply key_start_iff|].
      apply first_rune_begins; [apply error_key_start|]. rewrite <- R, Ev2. unfold first_rune.
      destruct (v2 ++ s2) eqn:K; [|assumption]. apply app_eq_nil in K. tauto.
    + destruct (word_parts _ _ T) as (v & u & r & -> & V & F & B & Au).
      assert (Sp' : ~ begins (inner U) s).
      { destruct (text_eqb _ (txt "%")) eqn:K; [|assumption]. exfalso. apply text_eqb_eq in K. cbn in K. inversion K as [K2].
        apply app_eq_nil in K2. destruct K2 as [-> _]. cbn in B. symmetry in B. now apply (utf8_nonempty r). }
      assert (E2 : rest l = "%"%char :: v ++ u ++ s) by (rewrite E; cbn; now rewrite !app_assoc).
      unfold next_raw. rewrite (proj1 (read_ascii l "%" _ E2 ltac:(reflexivity))).
      pose proof (adv_rest l (txt "%") _ E2) as R. pose proof (adv_inside l (txt "%") _ I E2) as I'.
      cbn -[eat eat_if make_token adv ch while_token is_key_start].
      change (adv l ["%"%char]) with (adv l (txt "%")).
      unfold eat_if. destruct (read_first (adv l (txt "%")) r v _ R V B) as [Rr Pr]. rewrite Pr, Rr.
      rewrite (proj2 (key_start_iff r) F). cbn [snd].
      rewrite (while_token_exact (is_key_continue U) _ (adv (adv l (txt "%")) v) u s), !adv_adv; [reflexivity| | |].
      * now apply (adv_inside _ v (u ++ s)).
      * now apply adv_rest.
      * apply span_inner. auto.
Qed.

End Tables.
