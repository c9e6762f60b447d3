(** Property theorems about parts of texts (C99). *)
From Coq Require Import NArith ZArith String Bool Lia ZifyBool ZifyNat ZifyN List.
From Verif Require Import GoBase M_Types M_Layout S_Layout L_Layout M_State M_Utf M_Load M_Flat
  S_Utf S_Values S_Memory S_Format S_Cut L_Utf L_Access L_Mem L_CutText P_Memory P_Format P_Inside.
Import ListNotations.
Open Scope N_scope.
Open Scope go_scope.

(** ** C99 *)

(** A text in UTF-8 may be passed in two parts if the first part is made of
    whole characters: whatever bytes follow, the text that is lifted is the
    first part followed by what is lifted from the second. *)
Theorem utf8_text_cut : forall cx p n1 n2 s cs,
  cx_enc cx = EncUtf8 -> wf_mem (s_mem s) -> n1 + n2 < 2 ^ 31 -> p + (n1 + n2) <= m_len (s_mem s) ->
  Forall scalar_value cs -> bytes_at (s_mem s) p n1 = utf8_text cs ->
  lift_flat cx TString (IBase [CU32 p; CU32 n1] 0) s = (Ok (VStr (utf8_text cs), IBase [CU32 p; CU32 n1] 2), s) /\
  exists rest,
    lift_flat cx TString (IBase [CU32 (p + n1); CU32 n2] 0) s = (Ok (VStr rest, IBase [CU32 (p + n1); CU32 n2] 2), s) /\
    lift_flat cx TString (IBase [CU32 p; CU32 (n1 + n2)] 0) s
    = (Ok (VStr (utf8_text cs ++ rest), IBase [CU32 p; CU32 (n1 + n2)] 2), s).
Proof.
  intros cx p n1 n2 s cs He W Hn Hb Hcs Eb.
  assert (Hc : get_codec (cx_enc cx) = Ok CUtf8) by (rewrite He; reflexivity).
  assert (Hx : cx_enc cx <> EncLatin1Utf16) by (rewrite He; discriminate).
  split.
  - apply (text_run cx CUtf8); try assumption; cbn [codec_alignment codec_rune_size]; [lia|apply N.divide_1_l|lia|].
    rewrite N.mul_1_r, Eb. cbn [decode_string]. rewrite utf8_runes_text, utf8_encode_spec by assumption. reflexivity.
  - eexists. split.
    + apply (text_run cx CUtf8); try assumption; cbn [codec_alignment codec_rune_size]; [lia|apply N.divide_1_l|lia|reflexivity].
    + apply (text_run cx CUtf8); try assumption; cbn [codec_alignment codec_rune_size]; [apply N.divide_1_l|lia|].
      rewrite !N.mul_1_r, bytes_at_app, Eb. cbn [decode_string]. rewrite utf8_after by assumption.
      unfold utf8_encode at 1. rewrite flat_map_app. fold (utf8_encode cs). rewrite utf8_encode_spec by assumption. reflexivity.
Qed.
Print Assumptions utf8_text_cut.

(** The same in UTF-16, with lengths in code units of two bytes. *)
Theorem utf16_text_cut : forall cx big p n1 n2 s cs,
  (if big : bool then cx_enc cx = EncUtf16BE else cx_enc cx = EncUtf16 \/ cx_enc cx = EncUtf16LE) ->
  wf_mem (s_mem s) -> (2 | p) -> p + 2 * (n1 + n2) <= m_len (s_mem s) ->
  Forall scalar_value cs -> bytes_at (s_mem s) p (2 * n1) = utf16_text big cs ->
  lift_flat cx TString (IBase [CU32 p; CU32 n1] 0) s = (Ok (VStr (utf8_text cs), IBase [CU32 p; CU32 n1] 2), s) /\
  exists rest,
    lift_flat cx TString (IBase [CU32 (p + 2 * n1); CU32 n2] 0) s = (Ok (VStr rest, IBase [CU32 (p + 2 * n1); CU32 n2] 2), s) /\
    lift_flat cx TString (IBase [CU32 p; CU32 (n1 + n2)] 0) s
    = (Ok (VStr (utf8_text cs ++ rest), IBase [CU32 p; CU32 (n1 + n2)] 2), s).
Proof.
  intros cx big p n1 n2 s cs He W Hd Hb Hcs Eb.
  assert (Hc : get_codec (cx_enc cx) = Ok (CUtf16 big)) by (destruct big; [rewrite He; reflexivity|destruct He as [-> | ->]; reflexivity]).
  assert (Hx : cx_enc cx <> EncLatin1Utf16) by (destruct big; [rewrite He; discriminate|destruct He as [-> | ->]; discriminate]).
  assert (Hn : n1 + n2 < 2 ^ 31) by (pose proof W as (_ & Hm & _); change (2 ^ 32) with (2 * 2 ^ 31) in Hm; lia).
  split.
  - apply (text_run cx (CUtf16 big)); try assumption; cbn [codec_alignment codec_rune_size]; [lia|lia|].
    rewrite N.mul_comm, Eb. cbn [decode_string]. rewrite <- (app_nil_r (utf16_text big cs)), utf16_after by assumption.
    cbn. rewrite app_nil_r, utf8_encode_spec by assumption. reflexivity.
  - eexists. split.
    + apply (text_run cx (CUtf16 big)); try assumption; cbn [codec_alignment codec_rune_size]; [lia| |lia|reflexivity].
      apply N.divide_add_r; [exact Hd|apply N.divide_factor_l].
    + apply (text_run cx (CUtf16 big)); try assumption; cbn [codec_alignment codec_rune_size]; [lia|].
      replace ((n1 + n2) * 2) with (2 * n1 + n2 * 2) by lia. rewrite bytes_at_app, Eb. cbn [decode_string].
      rewrite utf16_after by assumption.
      unfold utf8_encode at 1. rewrite flat_map_app. fold (utf8_encode cs). rewrite utf8_encode_spec by assumption. reflexivity.
Qed.
Print Assumptions utf16_text_cut.

(** The hypotheses can be met: an accented letter before a letter, and a
    character of two code units before one. *)
Definition utf8_cut_state : state := mkState (mkMem [0xC3; 0xA9; 0x61] 3) [] ins_world.
Example utf8_text_cut_applies :
  wf_mem (s_mem utf8_cut_state) /\ Forall scalar_value [0xE9] /\ bytes_at (s_mem utf8_cut_state) 0 2 = utf8_text [0xE9] /\
  fst (lift_flat (bump_ctx EncUtf8) TString (IBase [CU32 0; CU32 3] 0) utf8_cut_state)
  = Ok (VStr [0xC3; 0xA9; 0x61], IBase [CU32 0; CU32 3] 2).
Proof.
  split; [split; [cbn; lia|split; [reflexivity|repeat constructor]]|]. split; [constructor; [left; reflexivity|constructor]|].
  split; vm_compute; reflexivity.
Qed.
Definition utf16_cut_state : state := mkState (mkMem [0x3D; 0xD8; 0x00; 0xDE; 0x61; 0x00] 6) [] ins_world.
Example utf16_text_cut_applies :
  wf_mem (s_mem utf16_cut_state) /\ Forall scalar_value [0x1F600] /\
  bytes_at (s_mem utf16_cut_state) 0 (2 * 2) = utf16_text false [0x1F600] /\
  fst (lift_flat (bump_ctx EncUtf16) TString (IBase [CU32 0; CU32 3] 0) utf16_cut_state)
  = Ok (VStr [0xF0; 0x9F; 0x98; 0x80; 0x61], IBase [CU32 0; CU32 3] 2).
Proof.
  split; [split; [cbn; lia|split; [reflexivity|repeat constructor]]|]. split; [constructor; [right; split; reflexivity|constructor]|].
  split; vm_compute; reflexivity.
Qed.

(** A text may not be cut inside a character: neither part traps, but each
    ends or begins with a replacement character. *)
Theorem text_cut_anywhere_refuted :
  ~ (forall cx p n1 n2 s t1 t2 t it1 it2 it s1 s2 s3, cx_enc cx = EncUtf8 -> wf_mem (s_mem s) -> p + (n1 + n2) <= m_len (s_mem s) ->
       lift_flat cx TString (IBase [CU32 p; CU32 n1] 0) s = (Ok (VStr t1, it1), s1) ->
       lift_flat cx TString (IBase [CU32 (p + n1); CU32 n2] 0) s = (Ok (VStr t2, it2), s2) ->
       lift_flat cx TString (IBase [CU32 p; CU32 (n1 + n2)] 0) s = (Ok (VStr t, it), s3) -> t = (t1 ++ t2)%list).
Proof.
  intros H.
  assert (X : [0xC3; 0xA9; 0x61] = ([0xEF; 0xBF; 0xBD] ++ [0xEF; 0xBF; 0xBD; 0x61])%list); [|discriminate X].
  apply (H (bump_ctx EncUtf8) 0 1 2 utf8_cut_state _ _ _ (IBase [CU32 0; CU32 1] 2) (IBase [CU32 1; CU32 2] 2) (IBase [CU32 0; CU32 3] 2)
    utf8_cut_state utf8_cut_state utf8_cut_state); [reflexivity|apply utf8_text_cut_applies|cbn; lia|vm_compute; reflexivity..].
Qed.
Print Assumptions text_cut_anywhere_refuted.

(** Nor may a text in Latin-1 be cut anywhere, although every byte is a
    character: a part that begins at an odd address traps. *)
Theorem latin1_text_cut_refuted :
  ~ (forall cx p n1 n2 s t it, cx_enc cx = EncLatin1 -> wf_mem (s_mem s) -> p + (n1 + n2) <= m_len (s_mem s) ->
       lift_flat cx TString (IBase [CU32 p; CU32 (n1 + n2)] 0) s = (Ok (VStr t, it), s) ->
       exists t2 it2, lift_flat cx TString (IBase [CU32 (p + n1); CU32 n2] 0) s = (Ok (VStr t2, it2), s)).
Proof.
  intros H. destruct (H (bump_ctx EncLatin1) 0 1 2 utf8_cut_state [0xC3; 0x83; 0xC2; 0xA9; 0x61] (IBase [CU32 0; CU32 3] 2)) as (t2 & it2 & E);
    [reflexivity|apply utf8_text_cut_applies|cbn; lia|vm_compute; reflexivity|]. vm_compute in E. discriminate E.
Qed.
Print Assumptions latin1_text_cut_refuted.
