(** Proofs: texts cut between characters. *)
From Coq Require Import NArith ZArith String Bool Lia ZifyBool ZifyNat ZifyN List.
From Verif Require Import GoBase M_Types M_Layout S_Layout L_Layout M_State M_Utf M_Load M_Flat
  S_Utf S_Values S_Memory S_Format S_Cut L_Utf L_Access L_Mem L_Width L_Format L_RoundTrip L_Flat.
Import ListNotations.
Open Scope N_scope.
Open Scope go_scope.

Lemma bytes_at_app m p a b : bytes_at m p (a + b) = (bytes_at m p a ++ bytes_at m (p + a) b)%list.
Proof.
  unfold bytes_at. rewrite N2Nat.inj_add, seq_app, map_app. f_equal. cbn [Nat.add].
  rewrite <- (Nat.add_0_r (N.to_nat a)) at 1. generalize 0%nat as k. induction (N.to_nat b) as [|n IH]; intros k; [reflexivity|].
  cbn [seq map]. f_equal; [f_equal; lia|]. rewrite <- (IH (S k)). do 2 f_equal. lia.
Qed.

Lemma utf8_after cs s : Forall scalar_value cs -> utf8_runes (utf8_text cs ++ s) = (cs ++ utf8_runes s)%list.
Proof.
  intros H. induction H as [|c cs Hc H IH]; [reflexivity|]. unfold utf8_text in *. cbn [flat_map]. rewrite <- app_assoc, utf8_runes_app, IH by exact Hc.
  reflexivity.
Qed.

Lemma units_after big us bs : Forall (fun u => u < 65536) us ->
  bytes_units big (flat_map (unit_bytes big) us ++ bs) = (us ++ fst (bytes_units big bs), snd (bytes_units big bs))%list.
Proof.
  intros H. induction H as [|u us Hu H IH]; [cbn [flat_map app]; apply surjective_pairing|].
  destruct big; cbn [flat_map unit_bytes app bytes_units]; rewrite IH; cbn [app]; do 2 f_equal; lia.
Qed.
Lemma runes_after cs us : Forall scalar_value cs -> units_runes (flat_map utf16_units cs ++ us) = (cs ++ units_runes us)%list.
Proof.
  intros H. induction H as [|c cs Hc H IH]; [reflexivity|].
  cbn [flat_map]. rewrite <- app_assoc. unfold utf16_units at 1. unfold scalar_value in *. destruct (N.ltb_spec c 65536).
  - cbn [app units_runes]. assert (E : is_surrogate c = false) by (unfold is_surrogate, in_range; lia).
    rewrite E, IH. reflexivity.
  - cbn [app units_runes].
    assert (E : is_surrogate (55296 + (c - 65536) / 1024) = true) by (unfold is_surrogate, in_range; lia).
    assert (E1 : in_range 56320 57343 (56320 + (c - 65536) mod 1024) = true) by (unfold in_range; lia).
    assert (E2 : in_range 55296 56319 (55296 + (c - 65536) / 1024) = true) by (unfold in_range; lia).
    rewrite E, E1, E2, IH. f_equal. lia.
Qed.
Lemma utf16_after big cs bs : Forall scalar_value cs ->
  utf16_decode big (utf16_text big cs ++ bs) = (cs ++ utf16_decode big bs)%list.
Proof.
  intros H. unfold utf16_decode. change (utf16_text big cs) with (flat_map (unit_bytes big) (flat_map utf16_units cs)).
  rewrite units_after by (apply units_lt; exact H). destruct (bytes_units big bs) as [us odd]. cbn [fst snd].
  rewrite runes_after by exact H. symmetry. apply app_assoc.
Qed.

(** What is lifted from a text inside memory. *)
Lemma text_run cx c p n s t : get_codec (cx_enc cx) = Ok c -> cx_enc cx <> EncLatin1Utf16 -> wf_mem (s_mem s) ->
  n < 2 ^ 31 -> (codec_alignment c | p) -> p + n * codec_rune_size c <= m_len (s_mem s) ->
  decode_string c (bytes_at (s_mem s) p (n * codec_rune_size c)) = Ok t ->
  lift_flat cx TString (IBase [CU32 p; CU32 n] 0) s = (Ok (VStr t, IBase [CU32 p; CU32 n] 2), s).
Proof.
  intros Hc He W Hn Hd Hb Ht. cbn [lift_flat]. unfold lift_flat_string.
  erewrite bind_ok; [|apply next_u32_val; reflexivity]. cbv beta iota.
  erewrite bind_ok; [|apply next_u32_val; reflexivity]. cbv beta iota.
  erewrite bind_ok; [reflexivity|].
  unfold load_string_from_range.
  assert (Et : u32_to_tagged n = mkTagged n false) by (apply (tag_bits n false); exact Hn).
  rewrite Et. cbn [tcu_units tcu_utf16]. cbv zeta. pose proof W as (_ & Hm & _).
  replace (match cx_enc cx with EncLatin1Utf16 => EncLatin1 | e => e end) with (cx_enc cx) by (destruct (cx_enc cx); congruence).
  rewrite Hc, bind_lift_ok.
  assert (Em : mul32 n (codec_rune_size c) = n * codec_rune_size c) by (unfold mul32; apply N.mod_small; unfold two32; lia).
  rewrite Em.
  erewrite bind_ok; [|apply check_aligned_ok; [apply codec_alignment_valid|unfold two32; destruct c; cbn [codec_rune_size] in *; lia|exact Hd]].
  erewrite bind_ok; [|rewrite check_bounds_run by (assumption || lia);
    replace (p + n * codec_rune_size c <=? m_len (s_mem s)) with true by lia; reflexivity].
  erewrite bind_ok; [|reflexivity]. rewrite mem_slice_ok by (assumption || exact Hb). rewrite bind_lift_ok.
  rewrite slice_bytes_at by assumption. rewrite Ht, bind_lift_ok. reflexivity.
Qed.
