(** The transcoders invert each other on Unicode scalar values. *)
From Coq Require Import NArith ZArith List Bool Lia ZifyBool ZifyNat ZifyN.
From Verif Require Import GoBase M_State M_Utf S_Utf.
Import ListNotations.
Open Scope N_scope.
Ltac Zify.zify_post_hook ::= Z.div_mod_to_equations.

Lemma encode_rune_spec : forall c, scalar_value c -> utf8_encode_rune c = sp_utf8 c.
Proof.
  intros c H. unfold utf8_encode_rune, sp_utf8, utf8_rune3, is_surrogate, in_range, scalar_value in *.
  destruct (c <? 128); [reflexivity|]. destruct (c <? 2048); [reflexivity|].
  destruct ((1114111 <? c) || ((55296 <=? c) && (c <=? 57343))) eqn:E; [lia|].
  destruct (c <? 65536); reflexivity.
Qed.

Lemma utf8_encode_spec : forall cs, Forall scalar_value cs -> utf8_encode cs = utf8_text cs.
Proof.
  intros cs H. induction H as [|c cs Hc H IH]; [reflexivity|].
  unfold utf8_encode, utf8_text in *. cbn [flat_map]. rewrite IH, encode_rune_spec by assumption. reflexivity.
Qed.

(** A scalar value followed by anything decodes to itself and the rest. *)
Lemma utf8_runes_app : forall c s, scalar_value c -> utf8_runes (sp_utf8 c ++ s) = c :: utf8_runes s.
Proof.
  intros c s H. unfold sp_utf8, scalar_value in *.
  destruct (N.ltb_spec c 128).
  { cbn [app utf8_runes]. destruct (N.ltb_spec c 128); [reflexivity|lia]. }
  destruct (N.ltb_spec c 2048).
  { cbn [app utf8_runes]. change (2 ^ 6) with 64.
    destruct (N.ltb_spec (192 + c / 64) 128); [lia|].
    assert (E : lead2 (192 + c / 64) && second_ok (192 + c / 64) (128 + c mod 64) = true).
    { unfold lead2, second_ok, cont_byte, in_range.
      destruct (N.eqb_spec (192 + c / 64) 224); [lia|].
      destruct (N.eqb_spec (192 + c / 64) 237); [lia|].
      destruct (N.eqb_spec (192 + c / 64) 240); [lia|].
      destruct (N.eqb_spec (192 + c / 64) 244); lia. }
    rewrite E. f_equal. lia. }
  destruct (N.ltb_spec c 65536).
  { cbn [app utf8_runes]. change (2 ^ 6) with 64. change (2 ^ 12) with 4096.
    destruct (N.ltb_spec (224 + c / 4096) 128); [lia|].
    assert (E2 : lead2 (224 + c / 4096) = false) by (unfold lead2, in_range; lia).
    rewrite E2. cbn [andb].
    assert (E : lead3 (224 + c / 4096) && second_ok (224 + c / 4096) (128 + c / 64 mod 64) && cont_byte (128 + c mod 64) = true).
    { unfold lead3, second_ok, cont_byte, in_range.
      destruct (N.eqb_spec (224 + c / 4096) 224); [lia|].
      destruct (N.eqb_spec (224 + c / 4096) 237); [lia|].
      destruct (N.eqb_spec (224 + c / 4096) 240); [lia|].
      destruct (N.eqb_spec (224 + c / 4096) 244); lia. }
    rewrite E. f_equal. lia. }
  cbn [app utf8_runes]. change (2 ^ 6) with 64. change (2 ^ 12) with 4096. change (2 ^ 18) with 262144.
  destruct (N.ltb_spec (240 + c / 262144) 128); [lia|].
  assert (E2 : lead2 (240 + c / 262144) = false) by (unfold lead2, in_range; lia).
  assert (E3 : lead3 (240 + c / 262144) = false) by (unfold lead3, in_range; lia).
  rewrite E2, E3. cbn [andb].
  assert (E : lead4 (240 + c / 262144) && second_ok (240 + c / 262144) (128 + c / 4096 mod 64)
              && cont_byte (128 + c / 64 mod 64) && cont_byte (128 + c mod 64) = true).
  { unfold lead4, second_ok, cont_byte, in_range.
    destruct (N.eqb_spec (240 + c / 262144) 224); [lia|].
    destruct (N.eqb_spec (240 + c / 262144) 237); [lia|].
    destruct (N.eqb_spec (240 + c / 262144) 240); [lia|].
    destruct (N.eqb_spec (240 + c / 262144) 244); lia. }
  rewrite E. f_equal. lia.
Qed.

Lemma utf8_runes_text : forall cs, Forall scalar_value cs -> utf8_runes (utf8_text cs) = cs.
Proof.
  intros cs H. induction H as [|c cs Hc H IH]; [reflexivity|].
  unfold utf8_text in *. cbn [flat_map]. rewrite utf8_runes_app, IH by assumption. reflexivity.
Qed.

(** ** What the encoders are given *)

Lemma second_lead : forall b0 b, lead2 b || lead3 b || lead4 b = true -> second_ok b0 b = false.
Proof.
  intros b0 b H. unfold second_ok, cont_byte, lead2, lead3, lead4, in_range in *.
  destruct (b0 =? 224), (b0 =? 237), (b0 =? 240), (b0 =? 244); lia.
Qed.

Lemma not_full_lead : forall s, s <> [] -> full_rune s = false ->
  lead2 (hd 0 s) || lead3 (hd 0 s) || lead4 (hd 0 s) = true.
Proof.
  intros [|b0 [|b1 [|b2 [|b3 s]]]] Hn H; [contradiction| | | |discriminate H]; cbn [hd full_rune] in *;
    destruct (lead2 b0), (lead3 b0), (lead4 b0); reflexivity || discriminate H.
Qed.

(** Continuation bytes are passed on. *)
Lemma sent_cont : forall b s, cont_byte b = true -> sent (b :: s) = b :: sent s.
Proof.
  intros b s H. cbn [sent]. destruct (full_rune (b :: s)) eqn:E; [reflexivity|].
  apply not_full_lead in E; [|discriminate]. cbn [hd] in E.
  unfold cont_byte, lead2, lead3, lead4, in_range in *. lia.
Qed.

Lemma sent_full : forall b s, full_rune (b :: s) = true -> sent (b :: s) = b :: sent s.
Proof. intros b s H. cbn [sent]. rewrite H. reflexivity. Qed.

Lemma sent_app : forall c s, scalar_value c -> sent (sp_utf8 c ++ s) = (sp_utf8 c ++ sent s)%list.
Proof.
  intros c s H. unfold sp_utf8, scalar_value in *. change (2 ^ 6) with 64. change (2 ^ 12) with 4096. change (2 ^ 18) with 262144.
  destruct (N.ltb_spec c 128).
  { cbn [app]. apply sent_full.
    assert (E : lead2 c || lead3 c || lead4 c = false) by (unfold lead2, lead3, lead4, in_range; lia).
    destruct s as [|b1 [|b2 [|b3 s]]]; cbn [full_rune]; try reflexivity; [rewrite E; reflexivity| |];
      destruct (lead2 c), (lead3 c), (lead4 c); try discriminate E; reflexivity. }
  destruct (N.ltb_spec c 2048).
  { cbn [app]. rewrite sent_full.
    - rewrite sent_cont; [reflexivity|]. unfold cont_byte, in_range. lia.
    - assert (E : lead3 (192 + c / 64) = false /\ lead4 (192 + c / 64) = false)
        by (unfold lead3, lead4, in_range; lia). destruct E as [E3 E4].
      destruct s as [|b2 [|b3 s]]; cbn [full_rune]; rewrite ?E3, ?E4; reflexivity. }
  destruct (N.ltb_spec c 65536).
  { cbn [app]. rewrite sent_full.
    - rewrite !sent_cont; [reflexivity| |]; unfold cont_byte, in_range; lia.
    - assert (E4 : lead4 (224 + c / 4096) = false) by (unfold lead4, in_range; lia).
      destruct s as [|b3 s]; cbn [full_rune]; rewrite ?E4; reflexivity. }
  cbn [app]. rewrite sent_full; [|reflexivity].
  rewrite !sent_cont; [reflexivity| | |]; unfold cont_byte, in_range; lia.
Qed.

Lemma sent_text_app : forall cs s, Forall scalar_value cs -> sent (utf8_text cs ++ s) = (utf8_text cs ++ sent s)%list.
Proof.
  intros cs s H. induction H as [|c cs Hc H IH]; [reflexivity|].
  unfold utf8_text in *. cbn [flat_map]. rewrite <- !app_assoc, sent_app, IH by assumption. reflexivity.
Qed.

Lemma sent_text : forall cs, Forall scalar_value cs -> sent (utf8_text cs) = utf8_text cs.
Proof.
  intros cs H. rewrite <- (app_nil_r (utf8_text cs)) at 1. rewrite sent_text_app by exact H.
  cbn [sent]. apply app_nil_r.
Qed.

(** The beginning of a sequence is held back. *)
Lemma sent_cut : forall c t r, scalar_value c -> sp_utf8 c = (t ++ r)%list -> r <> [] -> sent t = [].
Proof.
  intros c t r H E Hr. destruct t as [|b t]; [reflexivity|].
  enough (F : full_rune (b :: t) = false) by (cbn [sent]; rewrite F; reflexivity).
  unfold sp_utf8, scalar_value in *. change (2 ^ 6) with 64 in E. change (2 ^ 12) with 4096 in E. change (2 ^ 18) with 262144 in E.
  destruct (N.ltb_spec c 128).
  { destruct t; [|discriminate E]. cbn [app] in E. inversion E; subst. contradiction. }
  destruct (N.ltb_spec c 2048).
  { assert (L : lead2 (192 + c / 64) = true) by (unfold lead2, in_range; lia).
    set (x := (192 + c / 64)) in *; clearbody x. set (y := (128 + c mod 64)) in *; clearbody y.
    destruct t as [|b1 [|b2 t]]; cbn [app] in E; inversion E; subst; [|contradiction].
    cbn [full_rune]. rewrite L. reflexivity. }
  destruct (N.ltb_spec c 65536).
  { assert (L : lead3 (224 + c / 4096) = true) by (unfold lead3, in_range; lia).
    assert (S : second_ok (224 + c / 4096) (128 + c / 64 mod 64) = true).
    { unfold second_ok, cont_byte, in_range.
      destruct (N.eqb_spec (224 + c / 4096) 224); [lia|].
      destruct (N.eqb_spec (224 + c / 4096) 237); [lia|].
      destruct (N.eqb_spec (224 + c / 4096) 240); [lia|].
      destruct (N.eqb_spec (224 + c / 4096) 244); lia. }
    set (x := (224 + c / 4096)) in *; clearbody x. set (y := (128 + c / 64 mod 64)) in *; clearbody y. set (z := (128 + c mod 64)) in *; clearbody z.
    destruct t as [|b1 [|b2 [|b3 t]]]; cbn [app] in E; inversion E; subst; [| |contradiction];
      cbn [full_rune]; rewrite ?L, ?S, ?orb_true_r; reflexivity. }
  assert (L : lead4 (240 + c / 262144) = true) by (unfold lead4, in_range; lia).
  assert (S : second_ok (240 + c / 262144) (128 + c / 4096 mod 64) = true).
  { unfold second_ok, cont_byte, in_range.
    destruct (N.eqb_spec (240 + c / 262144) 224); [lia|].
    destruct (N.eqb_spec (240 + c / 262144) 237); [lia|].
    destruct (N.eqb_spec (240 + c / 262144) 240); [lia|].
    destruct (N.eqb_spec (240 + c / 262144) 244); lia. }
  assert (T : cont_byte (128 + c / 64 mod 64) = true) by (unfold cont_byte, in_range; lia).
  set (x := (240 + c / 262144)) in *; clearbody x. set (y := (128 + c / 4096 mod 64)) in *; clearbody y. set (z := (128 + c / 64 mod 64)) in *; clearbody z.
  set (w := (128 + c mod 64)) in *; clearbody w.
  destruct t as [|b1 [|b2 [|b3 [|b4 t]]]]; cbn [app] in E; inversion E; subst; [| | |contradiction];
    cbn [full_rune]; rewrite ?L, ?S, ?T, ?orb_true_r; reflexivity.
Qed.

Lemma utf16_units_spec : forall c, utf16_units c = sp_utf16 c.
Proof. reflexivity. Qed.

Lemma bytes_units_bytes : forall big us, Forall (fun u => u < 65536) us ->
  bytes_units big (flat_map (unit_bytes big) us) = (us, false).
Proof.
  intros big us H. induction H as [|u us Hu H IH]; [reflexivity|].
  destruct big; cbn [flat_map unit_bytes app bytes_units]; rewrite IH; do 2 f_equal; lia.
Qed.

Lemma units_lt : forall cs, Forall scalar_value cs -> Forall (fun u => u < 65536) (flat_map utf16_units cs).
Proof.
  intros cs H. induction H as [|c cs Hc H IH]; cbn [flat_map]; [constructor|].
  apply Forall_app. split; [|assumption]. unfold utf16_units, scalar_value in *.
  destruct (N.ltb_spec c 65536); repeat constructor; lia.
Qed.

Lemma units_runes_units : forall cs, Forall scalar_value cs -> units_runes (flat_map utf16_units cs) = cs.
Proof.
  intros cs H. induction H as [|c cs Hc H IH]; [reflexivity|].
  cbn [flat_map]. unfold utf16_units at 1. unfold scalar_value in *. destruct (N.ltb_spec c 65536).
  - cbn [app units_runes]. assert (E : is_surrogate c = false) by (unfold is_surrogate, in_range; lia).
    rewrite E, IH. reflexivity.
  - cbn [app units_runes].
    assert (E : is_surrogate (55296 + (c - 65536) / 1024) = true) by (unfold is_surrogate, in_range; lia).
    assert (E1 : in_range 56320 57343 (56320 + (c - 65536) mod 1024) = true) by (unfold in_range; lia).
    assert (E2 : in_range 55296 56319 (55296 + (c - 65536) / 1024) = true) by (unfold in_range; lia).
    rewrite E, E1, E2, IH. f_equal. lia.
Qed.

Lemma utf16_decode_encode : forall big cs, Forall scalar_value cs ->
  utf16_decode big (utf16_encode big cs) = cs.
Proof.
  intros big cs H. unfold utf16_decode, utf16_encode. rewrite bytes_units_bytes by (apply units_lt; assumption).
  rewrite units_runes_units by assumption. apply app_nil_r.
Qed.

(** Lengths *)
Lemma utf8_length_pos : forall c, (1 <= length (sp_utf8 c))%nat.
Proof. intros c. unfold sp_utf8. destruct (c <? 128), (c <? 2048), (c <? 65536); cbn; lia. Qed.

Lemma utf16_units_le : forall cs, (length (flat_map utf16_units cs) <= length (utf8_text cs))%nat.
Proof.
  unfold utf8_text. induction cs as [|c cs IH]; [cbn; lia|]. cbn [flat_map]. rewrite !app_length.
  assert (length (utf16_units c) <= length (sp_utf8 c))%nat.
  { unfold utf16_units, sp_utf8. destruct (N.ltb_spec c 65536), (N.ltb_spec c 128), (N.ltb_spec c 2048);
      cbn; try lia. }
  lia.
Qed.

Lemma unit_bytes_length : forall big us, length (flat_map (unit_bytes big) us) = (2 * length us)%nat.
Proof. intros big us. induction us as [|u us IH]; [reflexivity|]. destruct big; cbn; lia. Qed.

Lemma utf16_length : forall big cs, (length (utf16_encode big cs) = 2 * length (flat_map utf16_units cs))%nat.
Proof. intros. apply unit_bytes_length. Qed.

Lemma runes_le : forall cs, (length cs <= length (utf8_text cs))%nat.
Proof.
  unfold utf8_text. induction cs as [|c cs IH]; [cbn; lia|]. cbn [flat_map length]. rewrite app_length.
  pose proof (utf8_length_pos c). lia.
Qed.
