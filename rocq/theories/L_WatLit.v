(** Numbers: strconv's functions on the texts of tokens. *)
From Coq Require Import Arith NArith ZArith String Ascii Bool List Lia.
From Verif Require Import GoBase M_Text M_WatLex M_Strconv M_WatAst M_WatParse S_WatLex S_WatParse L_ParseBase.
Import ListNotations.
Open Scope N_scope.

Definition score : ascii := "_"%char.
Definition noscore (c : ascii) : bool := negb (Ascii.eqb c "_").

Lemma all_ascii (P : ascii -> Prop) : (forall n, (n < 256)%nat -> P (ascii_of_nat n)) -> forall c, P c.
Proof.
  intros H c. rewrite <- (ascii_nat_embedding c). apply H. apply nat_ascii_bounded.
Qed.

Definition all_chars : list ascii := map ascii_of_nat (seq 0 256).
Lemma in_all_chars c : In c all_chars.
Proof.
  unfold all_chars. rewrite <- (ascii_nat_embedding c). apply in_map, in_seq.
  pose proof (nat_ascii_bounded c). lia.
Qed.

Lemma check_chars (f : ascii -> bool) : forallb f all_chars = true -> forall c, f c = true.
Proof. intros H c. exact (proj1 (forallb_forall f all_chars) H c (in_all_chars c)). Qed.

(** Decidable character classes *)
Definition dec_digitb (c : ascii) : bool := (48 <=? code c) && (code c <=? 57).
Definition oct_digitb (c : ascii) : bool := (48 <=? code c) && (code c <=? 55).
Definition hex_digitb (c : ascii) : bool :=
  dec_digitb c || ((97 <=? code c) && (code c <=? 102)) || ((65 <=? code c) && (code c <=? 70)).

Lemma dec_digitb_spec c : dec_digitb c = true <-> dec_digit c.
Proof. unfold dec_digitb, dec_digit. rewrite andb_true_iff, !N.leb_le. tauto. Qed.
Lemma oct_digitb_spec c : oct_digitb c = true <-> oct_digit c.
Proof. unfold oct_digitb, oct_digit. rewrite andb_true_iff, !N.leb_le. tauto. Qed.
Lemma hex_digitb_spec c : hex_digitb c = true <-> hex_digit c.
Proof.
  unfold hex_digitb, hex_digit. rewrite !orb_true_iff, dec_digitb_spec, !andb_true_iff, !N.leb_le. tauto.
Qed.

(** A digit of a base, as strconv sees it *)
Definition go_digit (base : N) (c : ascii) : bool :=
  match digit_value c with Some d => d <? base | None => false end.

Lemma go_digit_10 c : go_digit 10 c = dec_digitb c.
Proof.
  apply eqb_prop. revert c. apply check_chars. vm_compute. reflexivity.
Qed.
Lemma go_digit_8 c : go_digit 8 c = oct_digitb c.
Proof. apply eqb_prop. revert c. apply check_chars. vm_compute. reflexivity. Qed.
Lemma go_digit_16 c : go_digit 16 c = hex_digitb c.
Proof. apply eqb_prop. revert c. apply check_chars. vm_compute. reflexivity. Qed.
Lemma digit_value_16 c : hex_digitb c = true -> digit_value c = Some (digit c).
Proof.
  intros H.
  assert (forall c, (if hex_digitb c then match digit_value c with Some d => d =? digit c | None => false end else true) = true)
    as A by (apply check_chars; vm_compute; reflexivity).
  specialize (A c). rewrite H in A. destruct (digit_value c); [|discriminate]. apply N.eqb_eq in A. congruence.
Qed.
Lemma dec_hex c : dec_digitb c = true -> hex_digitb c = true.
Proof. unfold hex_digitb. intros ->. reflexivity. Qed.
Lemma oct_dec c : oct_digitb c = true -> dec_digitb c = true.
Proof. unfold oct_digitb, dec_digitb. rewrite !andb_true_iff, !N.leb_le. lia. Qed.
Lemma go_digit_hex base c : base <= 16 -> go_digit base c = true -> hex_digitb c = true.
Proof.
  intros Hb H. rewrite <- go_digit_16. unfold go_digit in *. destruct (digit_value c); [|discriminate].
  apply N.ltb_lt in H. apply N.ltb_lt. lia.
Qed.
Lemma score_no_digit : hex_digitb "_" = false.
Proof. reflexivity. Qed.

(** Values *)
Definition step (base : N) (n : N) (c : ascii) : N := n * base + digit c.
Definition value_from (base n : N) (w : text) : N := fold_left (step base) (filter noscore w) n.
Lemma value_is base w : value base w = value_from base 0 w.
Proof. reflexivity. Qed.
Lemma value_from_ge base n w : 1 <= base -> n <= value_from base n w.
Proof.
  intros Hb. unfold value_from. generalize (filter noscore w) as l. intros l. revert n.
  induction l as [|c l IH]; intros n; cbn [fold_left]; [lia|].
  etransitivity; [|apply IH]. unfold step. nia.
Qed.
Lemma value_from_cons base n c w :
  value_from base n (c :: w) = if noscore c then value_from base (n * base + digit c) w else value_from base n w.
Proof. unfold value_from. cbn [filter]. destruct (noscore c); reflexivity. Qed.

Lemma uint_loop_spec base maxv sep w : 1 <= base <= 16 -> forall n v, n <= maxv ->
  (uint_loop base maxv sep w n = Some v <->
   Forall (fun c => go_digit base c = true \/ sep = true /\ c = "_"%char) w /\
   v = value_from base n w /\ v <= maxv).
Proof.
  intros Hb. induction w as [|c w IH]; intros n v Hn.
  - cbn. unfold value_from. cbn. split.
    + intros H. injection H as <-. auto.
    + intros (_ & -> & _). reflexivity.
  - cbn [uint_loop]. rewrite value_from_cons. unfold noscore.
    destruct (Ascii.eqb_spec c "_") as [->|Hc].
    + cbn [negb]. destruct sep; cbn [andb].
      * rewrite IH by exact Hn. split; intros (F & E & M); repeat split; auto.
        inversion F; auto.
      * replace (digit_value "_") with (@None N) by reflexivity. split; [discriminate|].
        intros (F & _). inversion F as [|? ? [G|[G _]] _]; discriminate.
    + cbn [negb]. rewrite andb_false_r. unfold go_digit.
      destruct (digit_value c) as [d|] eqn:D.
      2:{ split; [discriminate|]. intros (F & _). inversion F as [|? ? [G|[_ G]] _]; [rewrite D in G; discriminate | congruence]. }
      destruct (N.leb_spec base d) as [Hd|Hd].
      { split; [discriminate|]. intros (F & _). inversion F as [|? ? [G|[_ G]] _]; [|congruence].
        rewrite D in G. apply N.ltb_lt in G. lia. }
      assert (go_digit base c = true) as G by (unfold go_digit; rewrite D; apply N.ltb_lt, Hd).
      assert (d = digit c) as ->.
      { apply go_digit_hex, digit_value_16 in G; [congruence | lia]. }
      destruct (N.ltb_spec maxv (n * base + digit c)) as [Hm|Hm].
      { split; [discriminate|]. intros (F & E & M).
        pose proof (value_from_ge base (n * base + digit c) w ltac:(lia)). lia. }
      rewrite IH by lia. split; intros (F & E & M); (split; [|auto]).
      * constructor; [left; exact G|]. exact F.
      * inversion F; auto.
Qed.

(** Underscores *)
Definition is_dig (hex : bool) (c : ascii) : bool :=
  between "0" "9" c || hex && ((97 <=? lower c) && (lower c <=? 102)).
Lemma is_dig_dec h c : dec_digitb c = true -> is_dig h c = true.
Proof.
  intros H.
  assert (forall c, (if dec_digitb c then between "0" "9" c else true) = true) as A
    by (apply check_chars; vm_compute; reflexivity).
  specialize (A c). rewrite H in A. unfold is_dig. rewrite A. reflexivity.
Qed.
Lemma is_dig_hex c : hex_digitb c = true -> is_dig true c = true.
Proof.
  intros H.
  assert (forall c, (if hex_digitb c then is_dig true c else true) = true) as A
    by (apply check_chars; vm_compute; reflexivity).
  specialize (A c). rewrite H in A. exact A.
Qed.
Lemma is_dig_score h : is_dig h "_" = false.
Proof. destruct h; reflexivity. Qed.

Lemma wasm_num_first P w : wasm_num P w -> exists c r, w = c :: r /\ P c.
Proof. destruct 1; eauto. Qed.

Section Under.
Variable P : ascii -> Prop.
Variable h : bool.
Hypothesis HP : forall c, P c -> is_dig h c = true.
Lemma P_no_score : ~ P "_"%char.
Proof. intros H. apply HP in H. rewrite is_dig_score in H. discriminate. Qed.

Lemma wasm_num_cons c d w : P c -> P d -> (wasm_num P (c :: d :: w) <-> wasm_num P (d :: w)).
Proof.
  intros Hc Hd. split; intros H.
  - inversion H; subst; auto. exfalso. exact (P_no_score Hd).
  - apply wasm_more; auto.
Qed.
Lemma wasm_num_score c w : P c -> (wasm_num P (c :: "_"%char :: w) <-> wasm_num P w).
Proof.
  intros Hc. split; intros H.
  - inversion H as [|? ? ? H'|]; subst; auto.
    apply wasm_num_first in H'. destruct H' as (x & r & E & Hx). injection E as <- _.
    exfalso. exact (P_no_score Hx).
  - apply wasm_sep; auto.
Qed.

Lemma underscores w : Forall (fun c => P c \/ c = "_"%char) w ->
  (forall c, P c -> underscore_loop h w SawDigit = true <-> wasm_num P (c :: w)) /\
  (underscore_loop h w SawUnderscore = true <-> wasm_num P w).
Proof.
  induction 1 as [|c w Hc Hw [IH1 IH2]].
  - cbn. split; [|split; intros H; [discriminate | inversion H]].
    intros c Hc. split; intros _; [constructor; exact Hc | reflexivity].
  - cbn [underscore_loop]. fold (is_dig h c). destruct Hc as [Hc| ->].
    + rewrite (HP c Hc). split.
      * intros d Hd. rewrite wasm_num_cons by assumption. apply IH1, Hc.
      * apply IH1, Hc.
    + rewrite is_dig_score, Ascii.eqb_refl. split.
      * intros d Hd. rewrite wasm_num_score by assumption. exact IH2.
      * split; intros H; [discriminate|].
        apply wasm_num_first in H. destruct H as (x & r & E & Hx). injection E as <- _.
        exfalso. exact (P_no_score Hx).
Qed.

Lemma no_underscores w i : Forall P w -> i <> SawUnderscore -> underscore_loop h w i = true.
Proof.
  intros H. revert i. induction H as [|c w Hc Hw IH]; intros i Hi.
  - cbn. destruct i; congruence.
  - cbn [underscore_loop]. fold (is_dig h c). rewrite (HP c Hc). apply IH. discriminate.
Qed.

Lemma wasm_num_chars w : wasm_num P w -> Forall (fun c => P c \/ c = "_"%char) w.
Proof. induction 1; auto. Qed.
End Under.

(** Digits in one base with what ParseUint asks of underscores *)
Lemma uint_digits base P h c w maxv n0 v :
  (forall c, P c <-> go_digit base c = true) -> (forall c, P c -> is_dig h c = true) ->
  1 <= base <= 16 -> n0 <= maxv -> P c ->
  (uint_loop base maxv true w n0 = Some v /\
   (existsb (Ascii.eqb "_") w && negb (underscore_loop h w SawDigit)) = false <->
   wasm_num P (c :: w) /\ v = value_from base n0 w /\ v <= maxv).
Proof.
  intros HPb HPd Hb Hn Hc. rewrite uint_loop_spec by assumption. split.
  - intros ((F & E & M) & U). split; [|auto].
    assert (Forall (fun c => P c \/ c = "_"%char) w) as F'.
    { revert F. apply Forall_impl. intros a [G|[_ G]]; [left; apply HPb, G | right; exact G]. }
    apply (proj1 (underscores P h HPd w F') c Hc).
    destruct (existsb (Ascii.eqb "_") w) eqn:X.
    + cbn in U. apply negb_false_iff in U. exact U.
    + apply no_underscores with (P := P); auto; [|discriminate].
      apply Forall_forall. intros a Ha. rewrite Forall_forall in F'. destruct (F' a Ha) as [|E2]; auto; subst a.
      assert (existsb (Ascii.eqb "_") w = true) as X' by (apply existsb_exists; exists "_"%char; auto).
      congruence.
  - intros (W & E & M).
    assert (Forall (fun c => P c \/ c = "_"%char) w) as F'.
    { apply wasm_num_chars in W. inversion W; auto. }
    split; [split; [|auto]|].
    + revert F'. apply Forall_impl. intros a [G|G]; [left; apply HPb, G | auto].
    + apply (proj1 (underscores P h HPd w F') c Hc) in W. rewrite W. apply andb_false_r.
Qed.

(** ParseUint(s, 0, bits) on the digits of a token *)
Lemma lower_x : lower "x" = 120. Proof. reflexivity. Qed.

(** The second character of a token that begins with a zero *)
Lemma dec_or_score_lower c : dec_digitb c = true \/ c = "_"%char ->
  (lower c =? 98) = false /\ (lower c =? 111) = false /\ (lower c =? 120) = false.
Proof.
  intros H.
  assert (forall c, (if dec_digitb c || Ascii.eqb c "_" then negb (lower c =? 98) && negb (lower c =? 111) && negb (lower c =? 120) else true) = true) as A
    by (apply check_chars; vm_compute; reflexivity).
  specialize (A c).
  assert (dec_digitb c || Ascii.eqb c "_" = true) as B.
  { destruct H as [->| ->]; [reflexivity | apply orb_true_r]. }
  rewrite B in A. apply andb_prop in A. destruct A as [A A3]. apply andb_prop in A. destruct A as [A1 A2].
  apply negb_true_iff in A1, A2, A3. auto.
Qed.

Definition dec_char (c : ascii) : Prop := dec_digit c \/ c = "_"%char.

Lemma base_prefix_dec c w : Forall dec_char w -> 
  base_prefix (c :: w) = if Ascii.eqb c "0" then (8, w) else (10, c :: w).
Proof.
  intros H. unfold base_prefix. destruct (Ascii.eqb c "0"); [|reflexivity].
  destruct w as [|x [|y w]]; try reflexivity. inversion H as [|? ? Hx _]; subst.
  unfold dec_char in Hx. rewrite <- dec_digitb_spec in Hx.
  destruct (dec_or_score_lower x Hx) as (-> & -> & ->). reflexivity.
Qed.

Lemma underscore_ok_dec c w : dec_digit c -> Forall dec_char w ->
  underscore_ok (c :: w) = underscore_loop false w SawDigit.
Proof.
  intros Hc H. unfold underscore_ok.
  assert (Ascii.eqb c "-" || Ascii.eqb c "+" = false) as ->.
  { assert (forall c, (if dec_digitb c then negb (Ascii.eqb c "-" || Ascii.eqb c "+") else true) = true) as A
      by (apply check_chars; vm_compute; reflexivity).
    specialize (A c). rewrite (proj2 (dec_digitb_spec c) Hc) in A. apply negb_true_iff in A. exact A. }
  assert (underscore_loop false (c :: w) SawNothing = underscore_loop false w SawDigit) as E.
  { cbn [underscore_loop]. fold (is_dig false c). rewrite is_dig_dec; [reflexivity | apply dec_digitb_spec, Hc]. }
  destruct w as [|x w]; [exact E|]. inversion H as [|? ? Hx _]; subst.
  unfold dec_char in Hx. rewrite <- dec_digitb_spec in Hx.
  destruct (dec_or_score_lower x Hx) as (-> & -> & ->). rewrite andb_false_r. exact E.
Qed.

Lemma pow_pos bits : 1 <= 2 ^ bits.
Proof. pose proof (N.pow_nonzero 2 bits). lia. Qed.

Lemma unsigned_first w n : unsigned_literal w n -> exists c r, w = c :: r /\ dec_digit c.
Proof.
  destruct 1 as [|c w Hc H|w H|w H]; try (eexists _, _; split; [reflexivity|]; unfold dec_digit, code; cbn; lia).
  apply wasm_num_first in H. destruct H as (x & r & E & Hx). eauto.
Qed.

Lemma dec_go c : dec_digit c <-> go_digit 10 c = true.
Proof. rewrite go_digit_10. symmetry. apply dec_digitb_spec. Qed.
Lemma oct_go c : oct_digit c <-> go_digit 8 c = true.
Proof. rewrite go_digit_8. symmetry. apply oct_digitb_spec. Qed.
Lemma hex_go c : hex_digit c <-> go_digit 16 c = true.
Proof. rewrite go_digit_16. symmetry. apply hex_digitb_spec. Qed.

Lemma uint_first base P h c w maxv n :
  (forall c, P c <-> go_digit base c = true) -> (forall c, P c -> is_dig h c = true) ->
  1 <= base <= 16 -> P c ->
  (match uint_loop base maxv true (c :: w) 0 with
   | Some n => if existsb (Ascii.eqb "_") (c :: w) && negb (underscore_loop h w SawDigit) then None else Some n
   | None => None end = Some n <->
   wasm_num P (c :: w) /\ n = value_from base 0 (c :: w) /\ n <= maxv).
Proof.
  intros HPb HPd Hb Hc.
  assert (hex_digitb c = true) as Hx by (apply (go_digit_hex base); [lia | apply HPb, Hc]).
  assert (noscore c = true) as Nc.
  { unfold noscore. destruct (Ascii.eqb_spec c "_") as [->|]; [discriminate | reflexivity]. }
  assert (Ascii.eqb "_" c = false) as Nc'.
  { unfold noscore in Nc. apply negb_true_iff in Nc. rewrite Ascii.eqb_sym. exact Nc. }
  cbn [existsb]. rewrite Nc'. cbn [orb].
  assert (go_digit base c = true) as G by (apply HPb, Hc).
  assert (digit_value c = Some (digit c)) as D by (apply digit_value_16, Hx).
  rewrite value_from_cons, Nc. cbn [uint_loop].
  rewrite Ascii.eqb_sym in Nc'. rewrite Nc'. rewrite andb_false_r, D.
  unfold go_digit in G. rewrite D in G. apply N.ltb_lt in G.
  destruct (N.leb_spec base (digit c)); [lia|].
  destruct (N.ltb_spec maxv (0 * base + digit c)) as [Hm|Hm].
  { split; [discriminate|]. intros (_ & -> & M).
    pose proof (value_from_ge base (0 * base + digit c) w ltac:(lia)). lia. }
  rewrite <- (uint_digits base P h c w maxv (0 * base + digit c) n); try assumption.
  destruct (uint_loop _ _ _ _ _) as [v|].
  + destruct (existsb _ w && _); split; intros H'; try discriminate; try (destruct H'; discriminate); intuition congruence.
  + split; intros H'; [discriminate | destruct H'; discriminate].
Qed.

(** Decimal digits *)
Lemma parse_uint_dec w bits n : digits dec_digit w ->
  (parse_uint w bits = Some n <-> unsigned_literal w n /\ n < 2 ^ bits).
Proof.
  intros (c & w' & -> & Hc & Hw). pose proof (pow_pos bits) as HB.
  unfold parse_uint. rewrite base_prefix_dec by exact Hw. rewrite underscore_ok_dec by assumption.
  destruct (Ascii.eqb_spec c "0") as [->|H0].
  - (* a leading zero: base 8 *)
    assert (match uint_loop 8 (2 ^ bits - 1) true w' 0 with
            | Some n => if existsb (Ascii.eqb "_") w' && negb (underscore_loop false w' SawDigit) then None else Some n
            | None => None end = Some n <->
            wasm_num oct_digit ("0"%char :: w') /\ n = value_from 8 0 w' /\ n <= 2 ^ bits - 1) as E.
    { rewrite <- (uint_digits 8 oct_digit false "0"%char w' (2 ^ bits - 1) 0 n); try lia.
      - destruct (uint_loop _ _ _ _ _) as [v|].
        + destruct (existsb _ w' && _); split; intros H; try discriminate; try (destruct H; discriminate); intuition congruence.
        + split; intros H; [discriminate | destruct H; discriminate].
      - apply oct_go.
      - intros x Hx. apply is_dig_dec, oct_dec, oct_digitb_spec, Hx.
      - unfold oct_digit, code. cbn. lia. }
    rewrite E. split.
    + intros (W & -> & M). split; [|lia]. destruct w' as [|x w'].
      * exact lit_zero.
      * rewrite <- value_is. apply lit_octal; [exact W | discriminate].
    + intros (U & M). remember ("0"%char :: w') as z eqn:Ez. destruct U as [|d v Hd _|v Hv|v Hv Hne].
      * injection Ez as <-. repeat split; [constructor; unfold oct_digit, code; cbn; lia | lia].
      * congruence.
      * exfalso. injection Ez as <-. 
        inversion Hw as [|? ? [Hx|Hx] _]; subst; [unfold dec_digit, code in Hx; cbn in Hx; lia | discriminate].
      * injection Ez as ->. repeat split; [exact Hv | lia].
  - assert (match uint_loop 10 (2 ^ bits - 1) true (c :: w') 0 with
            | Some n => if existsb (Ascii.eqb "_") (c :: w') && negb (underscore_loop false w' SawDigit) then None else Some n
            | None => None end = Some n <->
            wasm_num dec_digit (c :: w') /\ n = value_from 10 0 (c :: w') /\ n <= 2 ^ bits - 1) as E.
    { apply uint_first; [apply dec_go | | lia | exact Hc].
      intros x Hx. apply is_dig_dec, dec_digitb_spec, Hx. }
    rewrite E. split.
    + intros (W & -> & M). split; [|lia]. rewrite <- value_is. apply lit_decimal; assumption.
    + intros (U & M). remember (c :: w') as z eqn:Ez. destruct U as [|d v Hd Hv|v Hv|v Hv Hne].
      * injection Ez as <- <-. congruence.
      * injection Ez as -> ->. repeat split; [exact Hv | lia].
      * injection Ez as <- <-. congruence.
      * injection Ez as <- <-. congruence.
Qed.

(** 0x and what follows *)
Lemma parse_uint_hex h r bits n : hex_digit h ->
  (parse_uint (txt "0x" ++ h :: r) bits = Some n <-> unsigned_literal (txt "0x" ++ h :: r) n /\ n < 2 ^ bits).
Proof.
  intros Hh. pose proof (pow_pos bits) as HB. unfold parse_uint.
  change (base_prefix (txt "0x" ++ h :: r)) with (16, h :: r).
  assert (underscore_ok (txt "0x" ++ h :: r) = underscore_loop true r SawDigit) as U.
  { unfold underscore_ok. cbn [txt list_ascii_of_string app]. cbn -[lower underscore_loop].
    change (lower "x") with 120. cbn -[lower underscore_loop]. cbn [underscore_loop]. fold (is_dig true h).
    rewrite is_dig_hex; [reflexivity | apply hex_digitb_spec, Hh]. }
  rewrite U.
  assert (match uint_loop 16 (2 ^ bits - 1) true (h :: r) 0 with
          | Some n => if existsb (Ascii.eqb "_") (h :: r) && negb (underscore_loop true r SawDigit) then None else Some n
          | None => None end = Some n <->
          wasm_num hex_digit (h :: r) /\ n = value_from 16 0 (h :: r) /\ n <= 2 ^ bits - 1) as E.
  { apply uint_first; [apply hex_go | | lia | exact Hh].
    intros x Hx. apply is_dig_hex, hex_digitb_spec, Hx. }
  change (txt "0x" ++ h :: r)%list with ("0"%char :: "x"%char :: h :: r) in *. cbn iota beta.
  rewrite E. split.
  - intros (W & -> & M). split; [|lia]. rewrite <- value_is. exact (lit_hexadecimal _ W).
  - intros (V & M). remember ("0"%char :: "x"%char :: h :: r) as z eqn:Ez.
    destruct V as [|d v Hd Hv|v Hv|v Hv Hne].
    + discriminate.
    + injection Ez as -> ->. congruence.
    + injection Ez as ->. repeat split; [exact Hv | lia].
    + injection Ez as ->. exfalso. inversion Hv; subst.
      match goal with H : wasm_num oct_digit (_ :: _) |- _ => apply wasm_num_first in H; destruct H as (y & r' & Ey & Hy) end.
      injection Ey as <- _. unfold oct_digit, code in Hy. cbn in Hy. lia.
Qed.

(** ** Signed literals *)

(** The unsigned part of an integer token *)
Definition unsigned_text (d : text) : Prop :=
  digits dec_digit d \/ exists h r, d = txt "0x" ++ h :: r /\ hex_digit h.

Lemma parse_uint_spec d bits n : unsigned_text d ->
  (parse_uint d bits = Some n <-> unsigned_literal d n /\ n < 2 ^ bits).
Proof.
  intros [H|(h & r & -> & Hh)]; [apply parse_uint_dec, H | apply parse_uint_hex, Hh].
Qed.

Lemma unsigned_text_first d : unsigned_text d -> exists c r, d = c :: r /\ dec_digit c.
Proof.
  intros [(c & r & -> & Hc & _)|(h & r & -> & _)]; eexists _, _; (split; [reflexivity|]); [exact Hc|].
  unfold dec_digit, code. cbn. lia.
Qed.

Lemma int_text_cases w : int_text w ->
  exists s d, opt_sign s /\ w = s ++ d /\ unsigned_text d.
Proof.
  intros (s & d & Hs & [(-> & Hd)|(-> & Hd)]); exists s.
  - exists d. repeat split; auto. left. exact Hd.
  - exists (txt "0x" ++ d). repeat split; auto. right. destruct Hd as (c & d' & -> & Hc & _). eauto.
Qed.

Lemma dec_no_sign c : dec_digit c -> c <> "-"%char /\ c <> "+"%char.
Proof. intros H. split; intros ->; unfold dec_digit, code in H; cbn in H; lia. Qed.

Lemma parse_uint_plus d : parse_uint ("+"%char :: d) 32 = None.
Proof. reflexivity. Qed.

Lemma wrap_unique bits n z z' : (0 < bits)%Z -> wrap bits n z -> wrap bits n z' -> z = z'.
Proof.
  intros Hb [H1 E1] [H2 E2].
  assert (2 ^ bits = 2 * 2 ^ (bits - 1))%Z as EB.
  { rewrite <- Z.pow_succ_r by lia. f_equal. lia. }
  rewrite <- E2 in E1. clear E2 n.
  assert (0 < 2 ^ (bits - 1))%Z as HP by (apply Z.pow_pos_nonneg; lia).
  set (m := (2 ^ (bits - 1))%Z) in *. rewrite EB in E1.
  pose proof (Z.div_mod z (2 * m) ltac:(lia)). pose proof (Z.div_mod z' (2 * m) ltac:(lia)).
  assert (z / (2 * m) = z' / (2 * m))%Z; [|nia].
  pose proof (Z.mod_pos_bound z (2 * m) ltac:(lia)). pose proof (Z.mod_pos_bound z' (2 * m) ltac:(lia)).
  rewrite E1 in *. nia.
Qed.

Lemma int32_of_wrap n : n < 2 ^ 32 -> wrap 32 n (int32_of n).
Proof.
  intros H. change (2 ^ 32) with 4294967296 in H. unfold int32_of, u32. rewrite N.mod_small by exact H.
  unfold to_signed, wrap, two32. rewrite N.mod_small by exact H.
  change (2 ^ 32)%Z with 4294967296%Z. change (2 ^ (32 - 1))%Z with 2147483648%Z.
  destruct (N.ltb_spec (2 * n) 4294967296) as [L|L].
  - split; [lia|]. reflexivity.
  - split; [lia|]. change (Z.of_N 4294967296) with 4294967296%Z.
    replace (Z.of_N n - 4294967296)%Z with (Z.of_N n + (-1) * 4294967296)%Z by lia.
    apply Z.mod_add. lia.
Qed.

Lemma int64_of_small n : n < 2 ^ 32 -> int64_of n = Z.of_N n.
Proof.
  intros H. change (2 ^ 32) with 4294967296 in H. unfold int64_of, u64, to_signed, two64.
  rewrite !(N.mod_small n) by lia. destruct (N.ltb_spec (2 * n) 18446744073709551616); [reflexivity | lia].
Qed.

Lemma has_prefix_iff w p : has_prefix w p = true <-> exists r, w = p ++ r.
Proof.
  revert w. induction p as [|c p IH]; intros w; cbn [has_prefix].
  - split; [intros _; exists w; reflexivity | destruct w; reflexivity].
  - destruct w as [|x w].
    + split; [discriminate | intros (r & E); discriminate].
    + cbn [has_prefix]. rewrite andb_true_iff, IH, Ascii.eqb_eq. split.
      * intros (-> & r & ->). exists r. reflexivity.
      * intros (r & E). injection E as -> ->. eauto.
Qed.
Lemma has_prefix_app p r : has_prefix (p ++ r) p = true.
Proof. apply has_prefix_iff. eauto. Qed.
Lemma has_prefix_dec c r : dec_digit c -> has_prefix (c :: r) (txt "-") = false.
Proof.
  intros H. destruct (dec_no_sign c H) as [H1 _]. change (txt "-") with ["-"%char]. cbn [has_prefix].
  destruct (Ascii.eqb_spec c "-"); [congruence | reflexivity].
Qed.

Lemma cut_sign_dec c r : dec_digit c -> cut_sign (c :: r) = (false, c :: r).
Proof.
  intros H. destruct (dec_no_sign c H) as [H1 H2]. unfold cut_sign.
  destruct (Ascii.eqb_spec c "+"); [congruence|]. destruct (Ascii.eqb_spec c "-"); [congruence | reflexivity].
Qed.

Lemma signed_value_neg bits n z : signed_value true bits n = Some z <-> n <= 2 ^ (bits - 1) /\ z = (- Z.of_N n)%Z.
Proof.
  unfold signed_value. destruct (N.ltb_spec (2 ^ (bits - 1)) n); split; intros H'; try discriminate.
  - destruct H'. lia.
  - injection H' as <-. auto.
  - destruct H' as [_ ->]. reflexivity.
Qed.

Lemma parse_int_minus d z : unsigned_text d ->
  (parse_int ("-"%char :: d) 32 = Some z <-> exists n, unsigned_literal d n /\ n <= 2 ^ 31 /\ z = (- Z.of_N n)%Z).
Proof.
  intros Hd. unfold parse_int. change (cut_sign ("-"%char :: d)) with (true, d). cbn iota beta.
  split.
  - destruct (parse_uint d 32) as [n|] eqn:E; [|discriminate]. intros H.
    apply signed_value_neg in H. destruct H as [H ->]. apply parse_uint_spec in E; [|exact Hd].
    exists n. repeat split; [apply E | exact H].
  - intros (n & U & H & ->).
    assert (parse_uint d 32 = Some n) as ->.
    { apply parse_uint_spec; [exact Hd|]. split; [exact U|].
      change (2 ^ 31) with 2147483648 in H. change (2 ^ 32) with 4294967296. lia. }
    apply signed_value_neg. split; [exact H | reflexivity].
Qed.

Theorem int32_literal_spec w z : int_text w -> (int32_literal w = Some z <-> i32_literal w z).
Proof.
  intros Hw. apply int_text_cases in Hw. destruct Hw as (s & d & Hs & -> & Hd).
  pose proof (unsigned_text_first d Hd) as (c & r & Ed & Hc).
  unfold int32_literal. destruct Hs as [->|[->| ->]].
  - cbn [app]. rewrite Ed, has_prefix_dec by exact Hc. rewrite <- Ed. split.
    + destruct (parse_uint d 32) as [n|] eqn:E; [|discriminate]. intros H. injection H as <-.
      apply parse_uint_spec in E; [|exact Hd]. destruct E as [U L].
      eapply i32_unsigned; [exact U | exact L | apply int32_of_wrap, L].
    + intros H. inversion H as [w n z' U L W E1 E2|w n U L E1 E2]; subst.
      * assert (parse_uint (c :: r) 32 = Some n) as -> by (apply parse_uint_spec; auto).
        f_equal. apply (wrap_unique 32 n); [lia | apply int32_of_wrap, L | exact W].
      * exfalso. destruct (dec_no_sign _ Hc). congruence.
  - change (txt "+" ++ d)%list with ("+"%char :: d).
    change (has_prefix ("+"%char :: d) (txt "-")) with false. rewrite parse_uint_plus. split; [discriminate|].
    intros H. inversion H as [w n z' U L W E1 E2|w n U L E1 E2]; subst.
    apply unsigned_first in U. destruct U as (c' & r' & E & Hc'). injection E as <- _.
    destruct (dec_no_sign _ Hc'). congruence.
  - change (txt "-" ++ d)%list with ("-"%char :: d).
    replace (has_prefix ("-"%char :: d) (txt "-")) with true by (symmetry; apply (has_prefix_app (txt "-") d)). rewrite parse_int_minus by exact Hd. split.
    + intros (n & U & L & ->). apply i32_negative; assumption.
    + intros H. inversion H as [w n z' U L W E1 E2|w n U L E1 E2]; subst.
      * apply unsigned_first in U. destruct U as (c' & r' & E & Hc'). injection E as <- _.
        destruct (dec_no_sign _ Hc'). congruence.
      * eauto.
Qed.

Theorem int64_literal_spec w z : int_text w -> (int64_literal w = Some z <-> i64_literal w z).
Proof.
  intros Hw. apply int_text_cases in Hw. destruct Hw as (s & d & Hs & -> & Hd).
  pose proof (unsigned_text_first d Hd) as (c & r & Ed & Hc).
  unfold int64_literal. destruct Hs as [->|[->| ->]].
  - cbn [app]. rewrite Ed, has_prefix_dec by exact Hc. rewrite <- Ed. split.
    + destruct (parse_uint d 32) as [n|] eqn:E; [|discriminate]. intros H. injection H as <-.
      apply parse_uint_spec in E; [|exact Hd]. destruct E as [U L].
      rewrite int64_of_small by exact L. apply i64_unsigned; assumption.
    + intros H. inversion H as [w n U L E1 E2|w n U L E1 E2]; subst.
      * assert (parse_uint (c :: r) 32 = Some n) as -> by (apply parse_uint_spec; auto).
        f_equal. apply int64_of_small, L.
      * exfalso. destruct (dec_no_sign _ Hc). congruence.
  - change (txt "+" ++ d)%list with ("+"%char :: d).
    change (has_prefix ("+"%char :: d) (txt "-")) with false. rewrite parse_uint_plus. split; [discriminate|].
    intros H. inversion H as [w n U L E1 E2|w n U L E1 E2]; subst.
    apply unsigned_first in U. destruct U as (c' & r' & E & Hc'). injection E as <- _.
    destruct (dec_no_sign _ Hc'). congruence.
  - change (txt "-" ++ d)%list with ("-"%char :: d).
    replace (has_prefix ("-"%char :: d) (txt "-")) with true by (symmetry; apply (has_prefix_app (txt "-") d)). rewrite parse_int_minus by exact Hd. split.
    + intros (n & U & L & ->). apply i64_negative; assumption.
    + intros H. inversion H as [w n U L E1 E2|w n U L E1 E2]; subst.
      * apply unsigned_first in U. destruct U as (c' & r' & E & Hc'). injection E as <- _.
        destruct (dec_no_sign _ Hc'). congruence.
      * eauto.
Qed.

(** ** Indices *)

Lemma atoi_digits neg r z : r <> [] ->
  (match uint_loop 10 (2 ^ 64 - 1) false r 0 with None => None | Some un => signed_value neg 64 un end = Some z <->
   words dec_digit r /\ z = (if neg then - Z.of_N (value 10 r) else Z.of_N (value 10 r))%Z /\
   (- 2 ^ 63 <= z < 2 ^ 63)%Z).
Proof.
  intros Hr.
  assert (forall v, uint_loop 10 (2 ^ 64 - 1) false r 0 = Some v <->
                    Forall dec_digit r /\ v = value 10 r /\ v <= 2 ^ 64 - 1) as E.
  { intros v. rewrite uint_loop_spec by lia. rewrite value_is.
    assert (Forall (fun c => go_digit 10 c = true \/ false = true /\ c = "_"%char) r <-> Forall dec_digit r) as ->.
    { split; apply Forall_impl; intros c.
      - intros [H|[H _]]; [apply dec_go, H | discriminate].
      - intros H. left. apply dec_go, H. }
    tauto. }
  change (2 ^ 63)%Z with 9223372036854775808%Z. change (2 ^ 64 - 1) with 18446744073709551615 in *.
  unfold words, signed_value. change (2 ^ (64 - 1)) with 9223372036854775808.
  destruct (uint_loop 10 18446744073709551615 false r 0) as [v|] eqn:EU.
  - destruct (proj1 (E v) eq_refl) as (F & -> & M). destruct neg.
    + destruct (N.ltb_spec 9223372036854775808 (value 10 r)); split; intros H'; try discriminate.
      * destruct H' as (_ & -> & H'). lia.
      * injection H' as <-. repeat split; auto; lia.
      * destruct H' as (_ & -> & _). reflexivity.
    + destruct (N.leb_spec 9223372036854775808 (value 10 r)); split; intros H'; try discriminate.
      * destruct H' as (_ & -> & H'). lia.
      * injection H' as <-. repeat split; auto; lia.
      * destruct H' as (_ & -> & _). reflexivity.
  - split; [discriminate|]. intros ((_ & F) & -> & B). exfalso.
    assert (value 10 r <= 18446744073709551615) as M by (destruct neg; lia).
    assert (None = Some (value 10 r)) as X by (apply E; auto). discriminate.
Qed.

Theorem index_literal_spec w n :
  (exists i, atoi w = Some i /\ n = of_signed two32 i) <-> index_literal w n.
Proof.
  assert (forall z, of_signed two32 z = Z.to_N (z mod 2 ^ 32)) as W by reflexivity.
  split.
  - intros (i & H & ->). unfold atoi in H. rewrite W.
    destruct w as [|c r]; [discriminate|]. unfold cut_sign in H.
    destruct (Ascii.eqb_spec c "+") as [->|Hp].
    + destruct r as [|y r]; [discriminate|]. apply atoi_digits in H; [|discriminate]. destruct H as (D & E & B).
      apply (index_signed (txt "+") (y :: r) i); auto. right; left; reflexivity.
    + destruct (Ascii.eqb_spec c "-") as [->|Hm].
      * destruct r as [|y r]; [discriminate|]. apply atoi_digits in H; [|discriminate]. destruct H as (D & E & B).
        apply (index_signed (txt "-") (y :: r) i); auto. right; right; reflexivity.
      * apply atoi_digits in H; [|discriminate]. destruct H as (D & E & B).
        apply (index_signed [] (c :: r) i); auto. left; reflexivity.
  - intros H. inversion H as [s w' z Hs Hw Ez B E1 E2]; subst w n. exists z. split; [|rewrite W; reflexivity].
    pose proof Hw as [Hne HF]. destruct w' as [|y r]; [congruence|]. inversion HF as [|? ? Hy _]; subst.
    unfold atoi. destruct Hs as [->|[->| ->]].
    + cbn [app]. rewrite cut_sign_dec by exact Hy.
      apply (atoi_digits false (y :: r)); [discriminate|]. auto.
    + change (cut_sign (txt "+" ++ y :: r)) with (false, y :: r). cbn iota beta.
      apply (atoi_digits false (y :: r)); [discriminate|]. auto.
    + change (cut_sign (txt "-" ++ y :: r)) with (true, y :: r). cbn iota beta.
      apply (atoi_digits true (y :: r)); [discriminate|]. auto.
Qed.

(** ** Floats *)

Definition model_floats (pf : text -> option N) : floats :=
  {| read32 := pf; widen64 := widen; int_to_32 := float32_of_int; int_to_64 := float64_of_int |}.

Lemma lor_bound a b k : a < 2 ^ k -> b < 2 ^ k -> N.lor a b < 2 ^ k.
Proof.
  intros Ha Hb. destruct (N.eq_dec (N.lor a b) 0) as [->|H]; [apply N.neq_0_lt_0, N.pow_nonzero; lia|].
  apply N.log2_lt_pow2; [lia|]. rewrite N.log2_lor.
  destruct (N.eq_dec a 0) as [->|Ha0]; destruct (N.eq_dec b 0) as [->|Hb0]; cbn in *; try congruence.
  - change (N.log2 0) with 0. rewrite N.max_0_l. apply N.log2_lt_pow2; lia.
  - change (N.log2 0) with 0. rewrite N.max_0_r. apply N.log2_lt_pow2; lia.
  - apply N.max_lub_lt; apply N.log2_lt_pow2; lia.
Qed.

Lemma not_nan_first c r : c <> "n"%char -> c <> "-"%char -> ~ nan_text (c :: r).
Proof. intros H1 H2 (x & [E|E]); injection E as -> _; congruence. Qed.

Lemma f32_not_nan pf w b : ~ nan_text w -> (f32_float (model_floats pf) w b <-> pf w = Some b).
Proof.
  intros H. split; intros H'.
  - destruct H' as [w b _ E| | |s w Hs Hw|w n U L|w n U L]; [exact E | exfalso; apply H ..].
    + exists []. left. reflexivity.
    + exists []. right. reflexivity.
    + destruct Hw as [<-|[<-|[]]]; destruct Hs as [->| ->]; eexists; [left|right|left|right]; reflexivity.
    + exists (":"%char :: w). left. reflexivity.
    + exists (":"%char :: w). right. reflexivity.
  - apply f32_number; [exact H | exact H'].
Qed.

Lemma nan_textb w : (exists r, w = txt "nan" ++ r) \/ (exists r, w = txt "-nan" ++ r) \/
  (~ nan_text w /\ forall pf, float32_literal pf w = pf w).
Proof.
  destruct (has_prefix w (txt "nan")) eqn:E1; [left; apply has_prefix_iff, E1|].
  destruct (has_prefix w (txt "-nan")) eqn:E2; [right; left; apply has_prefix_iff, E2|].
  right; right. split.
  - intros (r & [->| ->]); rewrite has_prefix_app in *; discriminate.
  - intros pf. unfold float32_literal. destruct (has_prefix w (txt "-")) eqn:E.
    + apply has_prefix_iff in E. destruct E as (r & ->). change (skipn 1 (txt "-" ++ r)) with r.
      destruct (has_prefix r (txt "nan")) eqn:E3; [|reflexivity].
      apply has_prefix_iff in E3. destruct E3 as (r' & ->).
      change (txt "-" ++ txt "nan" ++ r')%list with (txt "-nan" ++ r')%list in E2.
      rewrite has_prefix_app in E2. discriminate.
    + rewrite E1. reflexivity.
Qed.

Lemma nan_payload pf (neg : bool) h r b : hex_digit h ->
  let mask := if neg then 0xFF800000 else 0x7F800000 in
  let pre := if neg then txt "-nan:" else txt "nan:" in
  (f32_float (model_floats pf) (pre ++ txt "0x" ++ h :: r) b <->
   exists n, parse_uint (txt "0x" ++ h :: r) 32 = Some n /\ b = N.lor n mask).
Proof.
  intros Hh mask pre. split.
  - intros H. remember (pre ++ txt "0x" ++ h :: r)%list as z eqn:Ez.
    destruct H as [w b Hn E| | |s w Hs Hw|w n U L|w n U L]; subst pre mask.
    + exfalso. apply Hn. exists (txt ":0x" ++ h :: r). subst w. destruct neg; [right | left]; reflexivity.
    + destruct neg; discriminate.
    + destruct neg; discriminate.
    + destruct Hw as [<-|[<-|[]]]; destruct Hs as [->| ->]; destruct neg; discriminate.
    + destruct neg; [discriminate|]. change (txt "nan:") with ["n"; "a"; "n"; ":"]%char in Ez. cbn [app] in Ez.
      injection Ez as ->. exists n. split; [apply parse_uint_hex; auto | reflexivity].
    + destruct neg; [|discriminate]. change (txt "-nan:") with ["-"; "n"; "a"; "n"; ":"]%char in Ez. cbn [app] in Ez.
      injection Ez as ->. exists n. split; [apply parse_uint_hex; auto | reflexivity].
  - intros (n & U & ->). apply parse_uint_hex in U; [|exact Hh]. destruct U as [U L].
    subst pre mask. destruct neg; [apply f32_neg_payload | apply f32_payload]; assumption.
Qed.

Lemma float32_payload pf (neg : bool) h r :
  float32_literal pf ((if neg then txt "-nan:" else txt "nan:") ++ txt "0x" ++ h :: r) =
  match parse_uint (txt "0x" ++ h :: r) 32 with
  | Some u => Some (N.lor u (if neg then 4286578688 else 2139095040) mod 2 ^ 32)
  | None => None
  end.
Proof.
  unfold float32_literal. destruct neg.
  - change (has_prefix (txt "-nan:" ++ txt "0x" ++ h :: r) (txt "-")) with
      (true && has_prefix (txt "nan:0x" ++ h :: r) [])%bool.
    replace (has_prefix (txt "nan:0x" ++ h :: r) []) with true by reflexivity. cbn [andb].
    change (skipn 1 (txt "-nan:" ++ txt "0x" ++ h :: r)) with (txt "nan" ++ txt ":0x" ++ h :: r)%list.
    rewrite has_prefix_app.
    change (skipn 3 (txt "nan" ++ txt ":0x" ++ h :: r)) with (txt ":" ++ txt "0x" ++ h :: r)%list.
    rewrite has_prefix_app.
    change (skipn 1 (txt ":" ++ txt "0x" ++ h :: r)) with (txt "0x" ++ h :: r)%list.
    change (has_prefix (txt "0x" ++ h :: r) (txt "canonical")) with false.
    change (has_prefix (txt "0x" ++ h :: r) (txt "arithmetic")) with false. reflexivity.
  - change (has_prefix (txt "nan:" ++ txt "0x" ++ h :: r) (txt "-")) with false. cbn iota.
    change (txt "nan:" ++ txt "0x" ++ h :: r)%list with (txt "nan" ++ txt ":0x" ++ h :: r)%list.
    rewrite has_prefix_app.
    change (skipn 3 (txt "nan" ++ txt ":0x" ++ h :: r)) with (txt ":" ++ txt "0x" ++ h :: r)%list.
    rewrite has_prefix_app.
    change (skipn 1 (txt ":" ++ txt "0x" ++ h :: r)) with (txt "0x" ++ h :: r)%list.
    change (has_prefix (txt "0x" ++ h :: r) (txt "canonical")) with false.
    change (has_prefix (txt "0x" ++ h :: r) (txt "arithmetic")) with false. reflexivity.
Qed.

Definition minus (neg : bool) : text := if neg then txt "-" else [].

Theorem float32_literal_spec pf w b : float_text w ->
  (float32_literal pf w = Some b <-> f32_float (model_floats pf) w b).
Proof.
  intros (s & d & Hs & -> & Hd).
  assert ((exists neg : bool, s = minus neg) \/ s = txt "+") as [(neg & ->)| ->].
  { destruct Hs as [->|[->| ->]]; [left; exists false; reflexivity | right; reflexivity | left; exists true; reflexivity]. }
  2:{ assert (~ nan_text (txt "+" ++ d)) as H by (apply not_nan_first; discriminate).
      rewrite f32_not_nan by exact H.
      destruct (nan_textb (txt "+" ++ d)) as [(r & E)|[(r & E)|(_ & ->)]]; [discriminate | discriminate | tauto]. }
  destruct Hd as [Hd|[(h & r & -> & Hh)|(m & r & -> & _ & _ & _)]].
  - destruct Hd as [<-|[<-|[<-|[<-|[]]]]].
    + (* inf *)
      rewrite f32_not_nan.
      * destruct neg; reflexivity.
      * intros (r & [E|E]); destruct neg; discriminate.
    + (* nan *)
      match goal with |- (?X = _ <-> _) => assert (X = Some (if neg then 4286578688 else 2139095040)) as EL by (destruct neg; reflexivity); rewrite EL; clear EL end.
      split.
      * intros H. injection H as <-. destruct neg; [apply f32_neg_nan | apply f32_nan].
      * intros H. remember (minus neg ++ txt "nan")%list as z eqn:Ez.
        destruct H as [w b Hn E| | |s w Hs' Hw|w n U L|w n U L]; try (destruct neg; discriminate).
        -- exfalso. apply Hn. exists []. subst w. destruct neg; [right | left]; reflexivity.
        -- destruct neg; [discriminate | reflexivity].
        -- destruct neg; [reflexivity | discriminate].
        -- destruct Hw as [<-|[<-|[]]]; destruct Hs' as [->| ->]; destruct neg; discriminate.
    + (* nan:arithmetic *)
      match goal with |- (?X = _ <-> _) => assert (X = Some 4290772992) as EL by (destruct neg; reflexivity); rewrite EL; clear EL end.
      split.
      * intros H. injection H as <-. apply f32_named; [destruct neg; auto | right; left; reflexivity].
      * intros H. remember (minus neg ++ txt "nan:arithmetic")%list as z eqn:Ez.
        destruct H as [w b Hn E| | |s w Hs' Hw|w n U L|w n U L]; try (destruct neg; discriminate).
        -- exfalso. apply Hn. exists (txt ":arithmetic"). subst w. destruct neg; [right | left]; reflexivity.
        -- reflexivity.
        -- exfalso. apply unsigned_first in U. destruct U as (c & r & -> & Hc).
           destruct neg; [discriminate|]. injection Ez as -> _. unfold dec_digit, code in Hc. cbn in Hc. lia.
        -- exfalso. apply unsigned_first in U. destruct U as (c & r & -> & Hc).
           destruct neg; [|discriminate]. injection Ez as -> _. unfold dec_digit, code in Hc. cbn in Hc. lia.
    + (* nan:canonical *)
      match goal with |- (?X = _ <-> _) => assert (X = Some 4290772992) as EL by (destruct neg; reflexivity); rewrite EL; clear EL end.
      split.
      * intros H. injection H as <-. apply f32_named; [destruct neg; auto | left; reflexivity].
      * intros H. remember (minus neg ++ txt "nan:canonical")%list as z eqn:Ez.
        destruct H as [w b Hn E| | |s w Hs' Hw|w n U L|w n U L]; try (destruct neg; discriminate).
        -- exfalso. apply Hn. exists (txt ":canonical"). subst w. destruct neg; [right | left]; reflexivity.
        -- reflexivity.
        -- exfalso. apply unsigned_first in U. destruct U as (c & r & -> & Hc).
           destruct neg; [discriminate|]. injection Ez as -> _. unfold dec_digit, code in Hc. cbn in Hc. lia.
        -- exfalso. apply unsigned_first in U. destruct U as (c & r & -> & Hc).
           destruct neg; [|discriminate]. injection Ez as -> _. unfold dec_digit, code in Hc. cbn in Hc. lia.
  - (* nan:0x... *)
    replace (minus neg ++ txt "nan:0x" ++ h :: r)%list
      with ((if neg then txt "-nan:" else txt "nan:") ++ txt "0x" ++ h :: r)%list by (destruct neg; reflexivity).
    rewrite float32_payload, (nan_payload pf neg h r b Hh).
    assert (forall u, u < 2 ^ 32 -> N.lor u (if neg then 4286578688 else 2139095040) mod 2 ^ 32
                                    = N.lor u (if neg then 4286578688 else 2139095040)) as M.
    { intros u Hu. apply N.mod_small, lor_bound; [exact Hu|]. destruct neg; reflexivity. }
    split.
    + destruct (parse_uint _ 32) as [u|] eqn:E; [|discriminate]. intros H. injection H as <-.
      exists u. split; [reflexivity|]. apply M. apply parse_uint_hex in E; [apply E | exact Hh].
    + intros (n & E & ->). rewrite E. f_equal. apply M. apply parse_uint_hex in E; [apply E | exact Hh].
  - (* 0x... *)
    assert (~ nan_text (minus neg ++ txt "0x" ++ m ++ r)) as H.
    { intros (x & [E|E]); destruct neg; discriminate. }
    rewrite f32_not_nan by exact H.
    destruct (nan_textb (minus neg ++ txt "0x" ++ m ++ r)) as [(x & E)|[(x & E)|(_ & ->)]];
      [exfalso; apply H; eexists; left; exact E | exfalso; apply H; eexists; right; exact E | tauto].
Qed.
