(** The lexer's rules as one automaton, and the texts it accepts. *)
From Coq Require Import Arith NArith String Ascii Bool List Lia.
From Verif Require Import GoBase M_Text M_WatLex S_WatLex L_WatLex.
Import ListNotations.

(** ** Characters *)
Ltac all_chars c := destruct c as [[] [] [] [] [] [] [] []].

Lemma space_ok c : is_space c = true <-> space c.
Proof. all_chars c; vm_compute; intuition (discriminate || auto). Qed.
Lemma id_char_ok c : is_id_char c = true <-> id_char c.
Proof.
  assert (H : id_char c <-> (((33 <=? N_of_ascii c) && (N_of_ascii c <=? 126))%N &&
     negb (existsb (Ascii.eqb c) (txt """,;()[]{}"))) = true).
  { unfold id_char, code. rewrite !andb_true_iff, negb_true_iff, !N.leb_le.
    assert (E : existsb (Ascii.eqb c) (txt """,;()[]{}") = false <-> ~ In c (txt """,;()[]{}")).
    { rewrite <- not_true_iff_false, existsb_exists. split.
      - intros H Hin. apply H. exists c. split; [assumption|apply Ascii.eqb_refl].
      - intros H (x & Hx & E). apply Ascii.eqb_eq in E. now subst. }
    rewrite E. tauto. }
  rewrite H. clear H. all_chars c; vm_compute; tauto.
Qed.
Lemma digit_ok c : is_digit c = true <-> dec_digit c.
Proof. unfold is_digit, dec_digit, between, code. rewrite andb_true_iff, !N.leb_le. reflexivity. Qed.
Lemma hex_ok c : is_hex c = true <-> hex_digit c.
Proof.
  unfold is_hex, hex_digit, between. rewrite !orb_true_iff, !andb_true_iff, !N.leb_le.
  rewrite <- digit_ok. unfold is_digit, between, code. rewrite !andb_true_iff, !N.leb_le. cbn. tauto.
Qed.

(** ** The automaton *)
Inductive phase :=
| PWs | PSemi | PLine | PLineEnd | POpen | PBlock | PBlockSemi | PBlockEnd
| PStr | PStrEnd | PDollar | PId | PWord | PClose.

Definition at_ (r : rule) (n : nat) : lexeme := {| lx_rule := r; lx_at := n |}.

Definition live (p : phase) : list lexeme :=
  match p with
  | PWs => [at_ whitespace 1]
  | PSemi => [at_ line_comment 1]
  | PLine => [at_ line_comment 2]
  | PLineEnd => [at_ line_comment 3]
  | POpen => [at_ block_comment 1; at_ open_rule 1]
  | PBlock => [at_ block_comment 2]
  | PBlockSemi => [at_ block_comment 3]
  | PBlockEnd => [at_ block_comment 4]
  | PStr => [at_ str_rule 1]
  | PStrEnd => [at_ str_rule 2]
  | PDollar => [at_ identifier 1; at_ reserved 1]
  | PId => [at_ identifier 2; at_ reserved 1]
  | PWord => [at_ reserved 1]
  | PClose => [at_ close_rule 1]
  end.

Definition first (c : ascii) : option phase :=
  if is_space c then Some PWs
  else if Ascii.eqb c ";" then Some PSemi
  else if Ascii.eqb c "(" then Some POpen
  else if Ascii.eqb c ")" then Some PClose
  else if Ascii.eqb c quote then Some PStr
  else if Ascii.eqb c "$" then Some PDollar
  else if is_id_char c then Some PWord
  else None.

Definition step (p : phase) (c : ascii) : option phase :=
  match p with
  | PWs => if is_space c then Some PWs else None
  | PSemi => if Ascii.eqb c ";" then Some PLine else None
  | PLine => if Ascii.eqb c newline then Some PLineEnd else Some PLine
  | POpen => if Ascii.eqb c ";" then Some PBlock else None
  | PBlock => if Ascii.eqb c ";" then Some PBlockSemi else Some PBlock
  | PBlockSemi => if Ascii.eqb c ")" then Some PBlockEnd else if Ascii.eqb c ";" then Some PBlockSemi else Some PBlock
  | PStr => if Ascii.eqb c quote then Some PStrEnd else Some PStr
  | PDollar | PId => if is_id_char c then Some PId else None
  | PWord => if is_id_char c then Some PWord else None
  | PLineEnd | PBlockEnd | PStrEnd | PClose => None
  end.

Definition lives (o : option phase) : list lexeme := match o with Some p => live p | None => [] end.

Lemma first_ok swap c : matches (map new_lexeme (rules swap)) c = lives (first c).
Proof. destruct swap; all_chars c; reflexivity. Qed.

Lemma step_ok p c : matches (live p) c = lives (step p c).
Proof. destruct p; all_chars c; reflexivity. Qed.

Definition accept (p : phase) : option toktype :=
  match p with
  | PWs => Some Whitespace
  | PLineEnd => Some LineComment
  | POpen => Some OpenParen
  | PBlockEnd => Some BlockComment
  | PStrEnd => Some TString
  | PId => Some TId
  | PDollar | PWord => Some Reserved
  | PClose => Some CloseParen
  | PSemi | PLine | PBlock | PBlockSemi | PStr => None
  end.

Lemma accept_ok p : first_accepted (live p) = accept p.
Proof. destruct p; reflexivity. Qed.

Lemma live_nonempty p : live p <> [].
Proof. destruct p; discriminate. Qed.

Fixpoint arun (p : phase) (w : text) : option phase :=
  match w with
  | [] => Some p
  | c :: w' => match step p c with Some q => arun q w' | None => None end
  end.

Lemma runs_live w : forall p, runs (live p) w = lives (arun p w).
Proof.
  induction w as [|c w IH]; intros p; cbn; [reflexivity|]. rewrite step_ok.
  destruct (step p c) as [q|]; cbn; [apply IH|apply runs_nil].
Qed.

Lemma arun_app a : forall p b, arun p (a ++ b) = match arun p a with Some q => arun q b | None => None end.
Proof. induction a as [|c a IH]; intros p b; cbn; [reflexivity|]. destruct (step p c); [apply IH|reflexivity]. Qed.

(** The whole automaton over a non-empty text. *)
Definition brun (w : text) : option phase :=
  match w with
  | [] => None
  | c :: w' => match first c with Some p => arun p w' | None => None end
  end.

(** ** Texts of the phases *)
Lemma arun_ws w q : arun PWs w = Some q <-> q = PWs /\ Forall space w.
Proof.
  induction w as [|c w IH]; cbn.
  - split; [intros H; inversion H; auto|intros [-> _]; reflexivity].
  - destruct (is_space c) eqn:E.
    + rewrite IH. apply space_ok in E. split; intros [H1 H2]; split; auto. now inversion H2.
    + split; [discriminate|]. intros [_ H]. inversion H as [|? ? Hc]; subst. apply space_ok in Hc. congruence.
Qed.

Lemma arun_word w q : arun PWord w = Some q <-> q = PWord /\ Forall id_char w.
Proof.
  induction w as [|c w IH]; cbn [arun step].
  - split; [intros H; inversion H; auto|intros [-> _]; reflexivity].
  - destruct (is_id_char c) eqn:E.
    + rewrite IH. apply id_char_ok in E. split; intros [H1 H2]; split; auto. now inversion H2.
    + split; [discriminate|]. intros [_ H]. inversion H as [|? ? Hc]; subst. apply id_char_ok in Hc. congruence.
Qed.

Lemma arun_id w q : arun PId w = Some q <-> q = PId /\ Forall id_char w.
Proof.
  induction w as [|c w IH]; cbn [arun step].
  - split; [intros H; inversion H; auto|intros [-> _]; reflexivity].
  - destruct (is_id_char c) eqn:E.
    + rewrite IH. apply id_char_ok in E. split; intros [H1 H2]; split; auto. now inversion H2.
    + split; [discriminate|]. intros [_ H]. inversion H as [|? ? Hc]; subst. apply id_char_ok in Hc. congruence.
Qed.

Lemma arun_line w q : arun PLine w = Some q <->
  (q = PLine /\ ~ In newline w) \/ (q = PLineEnd /\ exists b, w = b ++ [newline] /\ ~ In newline b).
Proof.
  revert q. induction w as [|c w IH] using rev_ind; intros q; cbn [arun].
  - split.
    + intros H; inversion H. left. auto.
    + intros [[-> _]|[_ (b & E & _)]]; [reflexivity|]. destruct b; discriminate.
  - rewrite arun_app. destruct (arun PLine w) as [p|] eqn:E.
    + destruct (proj1 (IH p) eq_refl) as [[-> Hn]|[-> (b & -> & Hb)]]; cbn [arun step].
      * destruct (Ascii.eqb c newline) eqn:En.
        -- apply Ascii.eqb_eq in En. subst c. split.
           ++ intros H; inversion H. right. split; [reflexivity|]. now exists w.
           ++ intros [[-> H]|[-> _]]; [|reflexivity]. exfalso. apply H. apply in_or_app. right. now left.
        -- apply Ascii.eqb_neq in En. split.
           ++ intros H; inversion H. left. split; [reflexivity|]. rewrite in_app_iff. cbn. intuition.
           ++ intros [[-> H]|[-> (b & E' & _)]]; [reflexivity|]. apply app_inj_tail in E'. intuition.
      * split; [discriminate|]. intros [[_ H]|[_ (b' & E' & H)]].
        -- exfalso. apply H. rewrite !in_app_iff. cbn. auto.
        -- apply app_inj_tail in E'. destruct E' as [<- _]. exfalso. apply H. apply in_or_app. right. now left.
    + split; [discriminate|]. intros H. exfalso. destruct H as [[_ H]|[_ (b & E' & H)]].
      * specialize (IH PLine). rewrite in_app_iff in H. destruct IH as [_ IH]. discriminate IH. left. tauto.
      * apply app_inj_tail in E'. destruct E' as [<- _]. specialize (IH PLine). destruct IH as [_ IH]. discriminate IH. tauto.
Qed.

Lemma arun_str w q : arun PStr w = Some q <->
  (q = PStr /\ ~ In quote w) \/ (q = PStrEnd /\ exists b, w = b ++ [quote] /\ ~ In quote b).
Proof.
  revert q. induction w as [|c w IH] using rev_ind; intros q; cbn [arun].
  - split.
    + intros H; inversion H. left. auto.
    + intros [[-> _]|[_ (b & E & _)]]; [reflexivity|]. destruct b; discriminate.
  - rewrite arun_app. destruct (arun PStr w) as [p|] eqn:E.
    + destruct (proj1 (IH p) eq_refl) as [[-> Hn]|[-> (b & -> & Hb)]]; cbn [arun step].
      * destruct (Ascii.eqb c quote) eqn:En.
        -- apply Ascii.eqb_eq in En. subst c. split.
           ++ intros H; inversion H. right. split; [reflexivity|]. now exists w.
           ++ intros [[-> H]|[-> _]]; [|reflexivity]. exfalso. apply H. apply in_or_app. right. now left.
        -- apply Ascii.eqb_neq in En. split.
           ++ intros H; inversion H. left. split; [reflexivity|]. rewrite in_app_iff. cbn. intuition.
           ++ intros [[-> H]|[-> (b & E' & _)]]; [reflexivity|]. apply app_inj_tail in E'. intuition.
      * split; [discriminate|]. intros [[_ H]|[_ (b' & E' & H)]].
        -- exfalso. apply H. rewrite !in_app_iff. cbn. auto.
        -- apply app_inj_tail in E'. destruct E' as [<- _]. exfalso. apply H. apply in_or_app. right. now left.
    + split; [discriminate|]. intros H. exfalso. destruct H as [[_ H]|[_ (b & E' & H)]].
      * specialize (IH PStr). rewrite in_app_iff in H. destruct IH as [_ IH]. discriminate IH. left. tauto.
      * apply app_inj_tail in E'. destruct E' as [<- _]. specialize (IH PStr). destruct IH as [_ IH]. discriminate IH. tauto.
Qed.

Lemma block_end_nil : ~ block_end [].
Proof. intros (a & b & E). destruct a; discriminate. Qed.

Lemma block_end_snoc w c : block_end (w ++ [c]) <-> block_end w \/ (c = ")"%char /\ exists v, w = v ++ [";"%char]).
Proof.
  split.
  - intros (a & b & E). destruct b as [|d b] using rev_ind.
    + right. rewrite app_nil_r in E. cbn in E. change (";"%char :: [")"%char]) with ([";"%char] ++ [")"%char]) in E.
      rewrite app_assoc in E. apply app_inj_tail in E. destruct E as [-> ->]. split; [reflexivity|]. now exists a.
    + left. rewrite !app_assoc in E. apply app_inj_tail in E. destruct E as [-> _]. exists a, b. now rewrite app_assoc.
  - intros [(a & b & ->)|[-> (v & ->)]].
    + exists a, (b ++ [c]). now rewrite <- !app_assoc.
    + exists v, []. now rewrite <- app_assoc.
Qed.

Definition ends_semi (w : text) : Prop := exists v, w = v ++ [";"%char].

Lemma arun_block w q : arun PBlock w = Some q <->
  (q = PBlock /\ ~ block_end w /\ ~ ends_semi w) \/ (q = PBlockSemi /\ ~ block_end w /\ ends_semi w) \/
  (q = PBlockEnd /\ exists b, w = b ++ txt ";)" /\ ~ block_end (b ++ txt ";")).
Proof.
  revert q. induction w as [|c w IH] using rev_ind; intros q; cbn [arun].
  - split.
    + intros H; inversion H. left. split; [reflexivity|]. split; [apply block_end_nil|]. intros (v & E). destruct v; discriminate.
    + intros [[-> _]|[[_ [_ (v & E)]]|[_ (b & E & _)]]]; [reflexivity| |]; [destruct v|destruct b]; discriminate.
  - assert (Es : ends_semi (w ++ [c]) <-> c = ";"%char).
    { split; [intros (v & E); apply app_inj_tail in E; tauto|intros ->; now exists w]. }
    assert (Eb : (exists b, w ++ [c] = b ++ txt ";)" /\ ~ block_end (b ++ txt ";")) <->
                 c = ")"%char /\ ends_semi w /\ ~ block_end w).
    { split.
      - intros (b & E & Hb). change (txt ";)") with (txt ";" ++ txt ")") in E. rewrite app_assoc in E.
        apply app_inj_tail in E. destruct E as [-> ->]. split; [reflexivity|]. split; [now exists b|assumption].
      - intros (-> & (v & ->) & H). exists v. split; [now rewrite <- app_assoc|assumption]. }
    rewrite Eb, Es, block_end_snoc. clear Eb Es. fold (ends_semi w).
    rewrite arun_app. destruct (arun PBlock w) as [p|] eqn:E.
    + destruct (proj1 (IH p) eq_refl) as [(-> & Hn & Hs)|[(-> & Hn & Hs)|(-> & b & -> & Hb)]]; cbn [arun step].
      * destruct (Ascii.eqb c ";") eqn:Ec.
        -- apply Ascii.eqb_eq in Ec. subst c. split.
           ++ intros H; inversion H. right. left. intuition discriminate.
           ++ intros [(-> & _ & H)|[(-> & _)|(-> & H & _)]]; [tauto|reflexivity|discriminate].
        -- apply Ascii.eqb_neq in Ec. split.
           ++ intros H; inversion H. left. intuition.
           ++ intros [(-> & _ & H)|[(-> & _ & H)|(-> & H & H1 & _)]]; [reflexivity|tauto|tauto].
      * destruct (Ascii.eqb c ")") eqn:Ep; [|destruct (Ascii.eqb c ";") eqn:Ec].
        -- apply Ascii.eqb_eq in Ep. subst c. split.
           ++ intros H; inversion H. right. right. auto.
           ++ intros [(-> & H & _)|[(-> & H & _)|(-> & _)]]; [exfalso; tauto|exfalso; tauto|reflexivity].
        -- apply Ascii.eqb_eq in Ec. subst c. split.
           ++ intros H; inversion H. right. left. intuition discriminate.
           ++ intros [(-> & _ & H)|[(-> & _)|(-> & H & _)]]; [tauto|reflexivity|discriminate].
        -- apply Ascii.eqb_neq in Ec. apply Ascii.eqb_neq in Ep. split.
           ++ intros H; inversion H. left. intuition.
           ++ intros [(-> & _ & H)|[(-> & _ & H)|(-> & H & H1 & _)]]; [reflexivity|tauto|tauto].
      * assert (B : block_end (b ++ txt ";)")) by (exists b, []; now rewrite app_nil_r).
        split; [discriminate|]. tauto.
    + split; [discriminate|]. intros H. exfalso.
      assert (N : ~ block_end w) by tauto.
      assert (D : ends_semi w \/ ~ ends_semi w).
      { destruct w as [|d v] using rev_ind; [right; intros (v & Ev); destruct v; discriminate|].
        destruct (ascii_dec d ";") as [->|Nd]; [left; now exists v|right].
        intros (u & Eu). apply app_inj_tail in Eu. tauto. }
      destruct D as [D|D].
      * destruct (IH PBlockSemi) as [_ I]. discriminate I. tauto.
      * destruct (IH PBlock) as [_ I]. discriminate I. tauto.
Qed.
