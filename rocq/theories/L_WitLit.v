(** The numbers of a version: strconv.ParseInt on the text of a token. *)
From Coq Require Import Arith NArith ZArith String Ascii Bool List Lia.
From Verif Require Import GoBase M_Text S_Utf M_WitLex M_Strconv M_WitAst M_WitParse S_WitLex S_WitParse.
From Verif Require L_WatLit.
Import ListNotations.
Open Scope N_scope.

Definition digit_byte (c : ascii) : Prop := 48 <= code c <= 57 \/ 128 <= code c.

Lemma utf8_high r : 128 <= r -> Forall (fun b => 128 <= b) (sp_utf8 r).
Proof.
  intros H. unfold sp_utf8. destruct (N.ltb_spec r 128); [lia|].
  assert (A : forall a b, 128 <= a -> 128 <= a + b) by (intros; lia).
  destruct (_ <? _); [|destruct (_ <? _)]; repeat (constructor; [apply A; discriminate|]); constructor.
Qed.
Lemma integer_bytes U w : all_of (digit U) w -> Forall digit_byte w.
Proof.
  intros (rs & S & D & E).
  assert (F : Forall (fun b => 48 <= b <= 57 \/ 128 <= b) (bytes w)).
  { rewrite E. clear E S. unfold utf8_text. induction D as [|r rs [Hr|[Hr _]] D IH]; cbn [flat_map]; [constructor| |];
      apply Forall_app; (split; [|exact IH]).
    - unfold sp_utf8. destruct (N.ltb_spec r 128); [|lia]. constructor; [lia | constructor].
    - eapply Forall_impl; [|apply utf8_high, Hr]. cbn. auto. }
  unfold bytes in F. apply Forall_map in F. exact F.
Qed.

Lemma byte_check (f : ascii -> bool) : forallb f L_WatLit.all_chars = true -> forall c, f c = true.
Proof. exact (L_WatLit.check_chars f). Qed.
Definition digit_byteb (c : ascii) : bool := (48 <=? code c) && (code c <=? 57) || (128 <=? code c).
Lemma digit_byteb_spec c : digit_byte c -> digit_byteb c = true.
Proof.
  unfold digit_byte, digit_byteb. intros H. apply orb_true_iff. rewrite andb_true_iff, !N.leb_le. tauto.
Qed.
Lemma byte_facts c : digit_byte c ->
  Ascii.eqb c "+" = false /\ Ascii.eqb c "-" = false /\ Ascii.eqb "_" c = false /\
  (lower c =? 98) = false /\ (lower c =? 111) = false /\ (lower c =? 120) = false.
Proof.
  intros H. apply digit_byteb_spec in H.
  assert (A : forall c, implb (digit_byteb c) (negb (Ascii.eqb c "+") && negb (Ascii.eqb c "-") && negb (Ascii.eqb "_" c) &&
    negb (lower c =? 98) && negb (lower c =? 111) && negb (lower c =? 120)) = true)
    by (apply byte_check; vm_compute; reflexivity).
  specialize (A c). rewrite H in A. cbn [implb] in A. rewrite !andb_true_iff, !negb_true_iff in A. tauto.
Qed.

Lemma base_prefix_digits c r : Forall digit_byte (c :: r) ->
  base_prefix (c :: r) = if Ascii.eqb c "0" then (8, r) else (10, c :: r).
Proof.
  intros F. unfold base_prefix. destruct (Ascii.eqb c "0"); [|reflexivity].
  destruct r as [|x [|d r]]; try reflexivity. inversion F as [|? ? _ F2]; subst. inversion F2 as [|? ? Hx _]; subst.
  destruct (byte_facts x Hx) as (_ & _ & _ & -> & -> & ->). reflexivity.
Qed.
Lemma no_scores d : Forall digit_byte d -> existsb (Ascii.eqb "_") d = false.
Proof.
  induction 1 as [|c d H F IH]; [reflexivity|]. cbn [existsb]. destruct (byte_facts c H) as (_ & _ & -> & _). exact IH.
Qed.

Lemma go_digits base d : base <= 10 -> Forall digit_byte d ->
  (Forall (fun c => L_WatLit.go_digit base c = true \/ true = true /\ c = "_"%char) d <->
   Forall (fun c => 48 <= code c < 48 + base) d).
Proof.
  intros Hb F. assert (A : forall c, digit_byte c ->
    (L_WatLit.go_digit base c = true \/ true = true /\ c = "_"%char <-> 48 <= code c < 48 + base)).
  { intros c H. assert (c <> "_"%char) as Hc.
    { intros ->. destruct (byte_facts _ H) as (_ & _ & X & _). discriminate. }
    unfold L_WatLit.go_digit.
    destruct H as [H|H].
    - unfold digit_value, between. change (N_of_ascii c) with (code c). change (N_of_ascii "0") with 48. change (N_of_ascii "9") with 57.
      destruct (N.leb_spec 48 (code c)); [|lia]. destruct (N.leb_spec (code c) 57); [|lia]. cbn [andb].
      rewrite N.ltb_lt. split; [intros [?|[_ ?]]; [lia|congruence] | intros; left; lia].
    - assert (X : forall c, implb (128 <=? code c) (negb (match digit_value c with Some d => true | None => false end)) = true)
        by (apply byte_check; vm_compute; reflexivity).
      specialize (X c). rewrite (proj2 (N.leb_le _ _) H) in X. cbn [implb] in X.
      split.
      + intros [G|[_ G]]; [|congruence]. destruct (digit_value c); discriminate.
      + intros G. lia. }
  split; intros G; rewrite Forall_forall in *; intros c Hc; specialize (G c Hc); specialize (F c Hc); apply A; auto.
Qed.

Lemma value_number base n d : Forall (fun c => 48 <= code c <= 57) d ->
  L_WatLit.value_from base n d = fold_left (fun (n : N) (c : ascii) => n * base + (code c - 48)) d n.
Proof.
  intros F. revert n. induction F as [|c d H F IH]; intros n; [reflexivity|].
  rewrite L_WatLit.value_from_cons. cbn [fold_left].
  assert (X : forall c, implb ((48 <=? code c) && (code c <=? 57)) (L_WatLit.noscore c && (S_WatParse.digit c =? code c - 48)) = true)
    by (apply byte_check; vm_compute; reflexivity).
  specialize (X c). rewrite (proj2 (N.leb_le 48 _)), (proj2 (N.leb_le _ 57)) in X by lia. cbn [andb implb] in X.
  apply andb_true_iff in X. destruct X as [-> X]. apply N.eqb_eq in X. rewrite X. apply IH.
Qed.

Lemma number_loop base d v : 2 <= base <= 10 -> Forall digit_byte d ->
  (uint_loop base (2 ^ 32 - 1) true d 0 = Some v <->
   Forall (fun c => 48 <= code c < 48 + base) d /\ v = number_value base d /\ v < 2 ^ 32).
Proof.
  intros Hb F. rewrite L_WatLit.uint_loop_spec by lia. rewrite go_digits by (lia || assumption).
  split; intros (G & E & M); split; [exact G | | exact G |].
  all: assert (G' : Forall (fun c => 48 <= code c <= 57) d) by (eapply Forall_impl; [|exact G]; intros a Ha; cbv beta in Ha; lia).
  all: rewrite (value_number base 0 d G') in *; fold (number_value base d) in *; split; [exact E|].
  - apply N.lt_succ_r in M. exact M.
  - apply N.lt_succ_r. exact M.
Qed.

Lemma bytes_value w z : w <> [] -> Forall digit_byte w ->
  (parse_int w 32 = Some z <-> exists n, number_text w n /\ n < 2 ^ 31 /\ z = Z.of_N n).
Proof.
  intros Hw D. destruct w as [|c r]; [congruence|]. clear Hw.
  unfold parse_int, cut_sign. inversion D as [|? ? Hc Hr]; subst.
  destruct (byte_facts c Hc) as (-> & -> & _).
  unfold parse_uint. rewrite (base_prefix_digits c r D).
  assert (L : forall base d, 2 <= base <= 10 -> Forall digit_byte d ->
    (match (match uint_loop base (2 ^ 32 - 1) true d 0 with
           | None => None
           | Some n => if existsb (Ascii.eqb "_") d && negb (underscore_ok (c :: r)) then None else Some n
           end) with None => None | Some un => signed_value false 32 un end = Some z <->
     Forall (fun c => 48 <= code c < 48 + base) d /\ number_value base d < 2 ^ 31 /\ z = Z.of_N (number_value base d))).
  { intros base d Hb Fd. rewrite (no_scores d Fd). cbn [andb]. unfold signed_value. change (2 ^ (32 - 1)) with (2 ^ 31).
    destruct (uint_loop base (2 ^ 32 - 1) true d 0) as [v|] eqn:E.
    - apply number_loop in E; [|assumption..]. destruct E as (G & -> & M).
      destruct (N.leb_spec (2 ^ 31) (number_value base d)); split; try discriminate.
      + intros (_ & ? & _). lia.
      + intros X. injection X as <-. auto.
      + intros (_ & _ & ->). reflexivity.
    - split; [discriminate|]. intros (G & M & _). exfalso.
      assert (uint_loop base (2 ^ 32 - 1) true d 0 = Some (number_value base d)) as X; [|congruence].
      apply number_loop; [assumption..|]. repeat split; auto. eapply N.lt_trans; [exact M | reflexivity]. }
  destruct (Ascii.eqb_spec c "0") as [->|Nc].
  - rewrite (L 8 r) by (lia || assumption). split.
    + intros (G & M & ->). exists (number_value 8 r). split; [|auto]. destruct r as [|x r]; [constructor|].
      apply number_octal; [discriminate|]. eapply Forall_impl; [|exact G]. intros a Ha; cbv beta in Ha |- *; lia.
    + intros (n & H & M & ->). inversion H as [|c' w' Hc' Hw' | w' Hw' Hd]; subst.
      * repeat split; try constructor; auto.
      * change (code "0") with 48 in Hc'. lia.
      * repeat split; auto. eapply Forall_impl; [|exact Hd]. intros a Ha; cbv beta in Ha |- *; lia.
  - rewrite (L 10 (c :: r)) by (lia || assumption). split.
    + intros (G & M & ->). exists (number_value 10 (c :: r)). split; [|auto].
      inversion G as [|? ? G1 G2]; subst. apply number_decimal.
      * assert (code c <> 48); [|lia]. intros X. apply Nc. unfold code in X.
        rewrite <- (ascii_N_embedding c), X. reflexivity.
      * eapply Forall_impl; [|exact G2]. intros a Ha; cbv beta in Ha |- *; lia.
    + intros (n & H & M & ->). inversion H as [|c' w' Hc' Hw' | w' Hw' Hd]; subst; try congruence.
      repeat split; auto. constructor; [lia|]. eapply Forall_impl; [|exact Hw']. intros a Ha; cbv beta in Ha |- *; lia.
Qed.

Lemma integer_value U w z : w <> [] -> all_of (digit U) w ->
  (parse_int w 32 = Some z <-> exists n, number_text w n /\ n < 2 ^ 31 /\ z = Z.of_N n).
Proof. intros Hw D. apply bytes_value; [exact Hw | eapply integer_bytes, D]. Qed.

Lemma number_value_read w n : number_text w n -> n < 2 ^ 31 -> parse_int w 32 = Some (Z.of_N n).
Proof.
  intros H L. apply bytes_value; [| |eauto].
  - destruct H; discriminate.
  - destruct H as [|c w Hc Hw|w Hw Hd].
    + constructor; [|constructor]. left. split; vm_compute; discriminate.
    + constructor; [left; lia|]. eapply Forall_impl; [|exact Hw]. intros a Ha; cbv beta in Ha. left. lia.
    + constructor; [left; split; vm_compute; discriminate|].
      eapply Forall_impl; [|exact Hd]. intros a Ha; cbv beta in Ha. left. lia.
Qed.
