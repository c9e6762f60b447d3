(** How long a text that is loaded can get. *)
From Coq Require Import NArith ZArith List String Ascii Bool Lia PeanoNat ZifyBool ZifyNat ZifyN.
From Verif Require Import GoBase M_Types M_Layout S_Layout L_Layout M_State M_Utf M_Load S_Utf S_Values S_Memory L_Access L_Mem L_Utf L_Frame L_RoundTrip L_StoreLoad L_Lifted L_Reached.
Import ListNotations.
Open Scope N_scope.
Open Scope go_scope.

Lemma rune_bytes : forall r, (List.length (utf8_encode_rune r) <= 4)%nat.
Proof.
  intros r. unfold utf8_encode_rune. destruct (r <? 128); [cbn; lia|]. destruct (r <? 2048); [cbn; lia|].
  destruct ((1114111 <? r) || is_surrogate r); [cbn; lia|]. destruct (r <? 65536); cbn; lia.
Qed.

Lemma utf8_runes_short : forall n s, (List.length s <= n)%nat -> (List.length (utf8_encode (utf8_runes s)) <= 3 * List.length s)%nat.
Proof.
  induction n as [|n IH]; intros s H; [destruct s; [cbn; lia|cbn in H; lia]|].
  destruct s as [|b0 s1]; [cbn; lia|]. cbn [List.length] in H.
  assert (C : forall r s', (List.length s' <= n)%nat -> (List.length (utf8_encode (r :: utf8_runes s')) <= List.length (utf8_encode_rune r) + 3 * List.length s')%nat).
  { intros r s' Hs. unfold utf8_encode. cbn [flat_map]. rewrite app_length. specialize (IH s' Hs). unfold utf8_encode in IH. lia. }
  assert (E : List.length (utf8_encode_rune rune_error) = 3%nat) by reflexivity.
  cbn [utf8_runes]. destruct (N.ltb_spec b0 128) as [Hb|Hb].
  { specialize (C b0 s1 ltac:(lia)). assert (B : List.length (utf8_encode_rune b0) = 1%nat) by (unfold utf8_encode_rune; destruct (N.ltb_spec b0 128); [reflexivity|lia]). cbn [List.length] in *. lia. }
  pose proof (C rune_error s1 ltac:(lia)) as C1. rewrite E in C1.
  destruct s1 as [|b1 s2]; [exact C1|]. cbn [List.length] in *.
  assert (R : forall x s', (List.length s' <= n)%nat -> (List.length (utf8_encode (x :: utf8_runes s')) <= 4 + 3 * List.length s')%nat).
  { intros x s' Hs. pose proof (C x s' Hs). pose proof (rune_bytes x). lia. }
  destruct (lead2 b0 && second_ok b0 b1); [pose proof (R (b0 mod 32 * 64 + b1 mod 64) s2 ltac:(lia)); lia|].
  destruct s2 as [|b2 s3]; [lia|]. cbn [List.length] in *.
  destruct (lead3 b0 && second_ok b0 b1 && cont_byte b2); [pose proof (R (b0 mod 16 * 4096 + b1 mod 64 * 64 + b2 mod 64) s3 ltac:(lia)); lia|].
  destruct s3 as [|b3 s4]; [lia|]. cbn [List.length] in *.
  destruct (lead4 b0 && second_ok b0 b1 && cont_byte b2 && cont_byte b3);
    [pose proof (R (b0 mod 8 * 262144 + b1 mod 64 * 4096 + b2 mod 64 * 64 + b3 mod 64) s4 ltac:(lia)); lia|lia].
Qed.

Lemma runes_bytes : forall rs, (List.length (utf8_encode rs) <= 4 * List.length rs)%nat.
Proof. induction rs as [|r rs IH]; [cbn; lia|]. unfold utf8_encode in *. cbn [flat_map]. rewrite app_length. pose proof (rune_bytes r). cbn [List.length]. lia. Qed.

Lemma units_runes_le : forall n us, (List.length us <= n)%nat -> (List.length (units_runes us) <= List.length us)%nat.
Proof.
  induction n as [|n IH]; intros us H; [destruct us; [cbn; lia|cbn in H; lia]|].
  destruct us as [|u us]; [cbn; lia|]. cbn [units_runes List.length] in *.
  destruct (is_surrogate u); [|cbn [List.length]; specialize (IH us ltac:(lia)); lia].
  destruct us as [|v us]; [cbn; lia|]. cbn [List.length] in *.
  destruct (in_range 56320 57343 v); cbn [List.length].
  - specialize (IH us ltac:(lia)). lia.
  - specialize (IH (v :: us) ltac:(cbn; lia)). cbn [List.length] in IH. lia.
Qed.

Lemma bytes_units_le : forall n big bs, (List.length bs <= n)%nat ->
  (2 * List.length (fst (bytes_units big bs)) + (if snd (bytes_units big bs) then 1 else 0) = List.length bs)%nat.
Proof.
  induction n as [|n IH]; intros big bs H; [destruct bs; [reflexivity|cbn in H; lia]|].
  destruct bs as [|a [|b bs]]; [reflexivity|reflexivity|]. cbn [bytes_units List.length] in *. specialize (IH big bs ltac:(lia)).
  destruct (bytes_units big bs) as [us odd]. cbn [fst snd List.length] in *. lia.
Qed.

Lemma decoded_short : forall c bs s, Forall (fun b => b < 256) bs -> decode_string c bs = Ok s -> (List.length s <= 3 * List.length bs)%nat.
Proof.
  intros c bs s Hb E. destruct c as [|big|]; cbn [decode_string] in E; injection E as <-.
  - eapply utf8_runes_short. apply Nat.le_refl.
  - unfold utf16_decode. pose proof (bytes_units_le _ big bs (Nat.le_refl _)) as H. destruct (bytes_units big bs) as [us odd]. cbn [fst snd] in H.
    unfold utf8_encode. rewrite flat_map_app, app_length. pose proof (runes_bytes (units_runes us)) as H1. pose proof (units_runes_le _ us (Nat.le_refl _)) as H2.
    unfold utf8_encode in H1. destruct odd; cbn [flat_map List.length app] in *; [change (List.length (utf8_encode_rune rune_error ++ [])) with 3%nat|]; lia.
  - induction Hb as [|b bs Hb HF IH]; [cbn; lia|]. unfold utf8_encode in *. cbn [flat_map]. rewrite app_length. cbn [List.length].
    assert (List.length (utf8_encode_rune b) <= 3)%nat; [|lia].
    unfold utf8_encode_rune. destruct (b <? 128); [cbn; lia|]. destruct (N.ltb_spec b 2048); [cbn; lia|lia].
Qed.

Lemma text_short : forall cx st w s v s', good s -> load_string_from_range cx st w s = (Ok v, s') ->
  exists t, v = VStr t /\ N.of_nat (List.length t) <= 3 * len s.
Proof.
  intros cx st w s v s' G E. unfold load_string_from_range in E.
  apply bind_inv in E. destruct E as (c & s0 & Ec & E). assert (s0 = s) as -> by (unfold lift_o in Ec; congruence).
  apply bind_inv in E. destruct E as ([] & s1 & Ea & E). assert (s1 = s) as ->.
  { unfold check_aligned in Ea. apply bind_inv in Ea. destruct Ea as (al & s2 & Eo & Ea). assert (s2 = s) as -> by (unfold lift_o in Eo; congruence).
    destruct (st =? al); unfold ret, lift_o in Ea; congruence. }
  apply bind_inv in E. destruct E as ([] & s2 & Eb & E). apply bounds_inv in Eb; [|exact G]. destruct Eb as [-> Hb].
  set (hi := add32 st _) in *. clearbody hi.
  apply bind_inv in E. destruct E as (m & s3 & Eg & E). injection Eg as <- <-.
  apply bind_inv in E. destruct E as (bs & s4 & Eo & E).
  apply bind_inv in E. destruct E as (t & s5 & Et & E). unfold ret in E. injection E as <- _. exists t. split; [reflexivity|].
  assert (Et' : decode_string c bs = Ok t) by (unfold lift_o in Et; congruence).
  match type of Eo with lift_o ?x _ = _ => assert (Eo' : x = Ok bs) by (unfold lift_o in Eo; congruence) end.
  unfold mem_slice in Eo'. match type of Eo' with (if ?b then _ else _) = _ => destruct b; [|discriminate] end.
  injection Eo' as <-. apply decoded_short in Et'.
  - match type of Et' with (_ <= 3 * ?x)%nat => assert (Hl : N.of_nat x <= len s); [|lia] end.
    rewrite firstn_length. lia.
  - destruct G as (_ & _ & G). rewrite <- (firstn_skipn (N.to_nat st) (m_data (s_mem s))) in G. apply Forall_app in G. destruct G as [_ G].
    match goal with |- Forall _ (firstn ?k ?l) => rewrite <- (firstn_skipn k l) in G end. apply Forall_app in G. apply G.
Qed.
