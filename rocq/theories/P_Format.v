(** Property theorems about the memory format of values (C57). *)
From Coq Require Import NArith ZArith List String Bool Lia ZifyBool ZifyNat ZifyN.
From Verif Require Import GoBase M_Types M_Layout S_Layout L_Layout M_State M_Utf M_Load M_Store
  S_Utf S_Values S_Memory S_Access S_Flat S_Format L_Mem L_Frame L_RoundTrip L_StoreLoad L_Format P_Memory.
Import ListNotations.
Open Scope N_scope.
Open Scope go_scope.

(** ** C57 *)

(** Load gives the value the bytes stand for, and traps exactly if they stand
    for none; it changes nothing. *)
Theorem load_reads_format : forall cx t a sz p s,
  sp_layout t = Some (a, sz) -> wf_type t -> handle_free t -> cx_enc cx <> EncUnknown ->
  wf_mem (s_mem s) -> (a | p) -> p + sz <= m_len (s_mem s) -> addressable (cx_enc cx) (s_mem s) t p ->
  (readable (cx_enc cx) (s_mem s) t p /\
   exists v, load cx t p s = (Ok v, s) /\ reads_as (cx_enc cx) (s_mem s) t p v)
  \/ (~ readable (cx_enc cx) (s_mem s) t p /\ load cx t p s = (Err ETrap, s)).
Proof.
  intros cx t a sz p s Hl Hwf Hh He Hm Hd Hp Had.
  destruct (reads_ok_all cx t a sz p s Hl Hwf Hh He Hm Hd Hp Had) as [(v & E & H)|(E & H)]; [left|right; auto].
  split; [eapply reads_readable; exact H|eauto].
Qed.
Print Assumptions load_reads_format.

(** A value the memory holds is loaded. *)
Theorem load_held_value : forall cx t a sz p s v,
  sp_layout t = Some (a, sz) -> wf_type t -> handle_free t -> cx_enc cx <> EncUnknown ->
  wf_mem (s_mem s) -> (a | p) -> p + sz <= m_len (s_mem s) -> addressable (cx_enc cx) (s_mem s) t p ->
  holds_exactly (cx_enc cx) (s_mem s) t p v ->
  exists v', load cx t p s = (Ok v', s) /\ same_value t v v'.
Proof.
  intros cx t a sz p s v Hl Hwf Hh He Hm Hd Hp Had Hv.
  destruct (reads_ok_all cx t a sz p s Hl Hwf Hh He Hm Hd Hp Had) as [(v' & E & H)|(E & H)].
  - exists v'. split; [exact E|]. eapply held_is_read; eassumption.
  - exfalso. apply H. eapply exactly_readable. exact Hv.
Qed.
Print Assumptions load_held_value.

(** Store writes the bytes that stand for the value, in canonical form. *)
Theorem store_writes_format : forall cx init t a sz v p s o s',
  correct_allocator cx init ->
  wf_type t -> has_type (cx_enc cx) t v ->
  sp_layout t = Some (a, sz) -> (a | p) ->
  wf_mem (s_mem s) -> p + sz <= m_len (s_mem s) ->
  (forall b, within p sz b -> owned init (s_hist s) b) ->
  store cx t v p s = (o, s') ->
  (o = Ok tt /\ exists v', holds_canonically (cx_enc cx) (s_mem s') t p v' /\ same_value t v v')
  \/ alloc_failed cx o.
Proof.
  intros cx init t a sz v p s o s' Hc Hwf Hty Hl Hd Hm Hb Ho E.
  assert (Hp : p + sz < two32) by (destruct Hm as (_ & Hm & _); unfold two32; lia).
  destruct (puts_ok_all cx init t Hc a sz v p Hl Hwf Hty Hd Hp s o s' Hm Ho Hb E) as [([] & -> & St & K)|Hf];
    [left|right; assumption].
  split; [reflexivity|]. apply K. split; [apply (st_good _ _ _ _ St)|]. split; [lia|reflexivity].
Qed.
Print Assumptions store_writes_format.

(** The canonical bytes of a value stand for it. *)
Theorem canonical_is_held : forall enc m t p v, holds_canonically enc m t p v -> holds_exactly enc m t p v.
Proof. exact canonically_exactly. Qed.
Print Assumptions canonical_is_held.

(** The relation distinguishes values: at most one value, up to the way cases
    are written and NaNs, is held at an address. *)
Theorem held_value_unique : forall enc m t p v w, wf_type t ->
  holds_exactly enc m t p v -> reads_as enc m t p w -> same_value t v w.
Proof. intros. eapply held_is_read; eassumption. Qed.
Print Assumptions held_value_unique.

(** The hypotheses can be met: the record of C12, stored by hand. *)
Definition fmt_type : valtype :=
  TRecord [("n", TS16); ("v", TList (TVariant [mkCase "a" (Some TU16) None; mkCase "b" None (Some "a")])); ("s", TString)]%string.
Definition fmt_bytes : list N :=
  [0xfe; 0xff; 0; 0;  20; 0; 0; 0;  2; 0; 0; 0;  28; 0; 0; 0;  2; 0; 0; 0;
   0; 0xee; 0x34; 0x12;  1; 0xee; 0xee; 0xee;  0xc3; 0xa9; 0; 0].
Definition fmt_state : state := mkState (mkMem fmt_bytes 32) [] demo_world.

Lemma fmt_wf : wf_type fmt_type.
Proof.
  cbn [wf_type fmt_type map fst snd]. split; [repeat constructor; cbn; intuition discriminate|].
  cbn [all fold_right]. split; [exact I|]. split; [|split; exact I].
  split; [|exists 2, 4; split; reflexivity]. split; [|repeat split].
  split; [repeat constructor; cbn; intuition discriminate|].
  split; [repeat constructor; cbn; try discriminate; exact I|].
  apply Forall_cons; [apply re_stop; reflexivity|]. apply Forall_cons; [|apply Forall_nil].
  eapply re_step; [reflexivity|apply re_stop; reflexivity].
Qed.

Lemma fmt_addressable : addressable EncUtf8 (s_mem fmt_state) fmt_type 0.
Proof.
  intros ls E. injection E as <-. apply Forall2_cons; [exact I|]. apply Forall2_cons; [|apply Forall2_cons; [|apply Forall2_nil]].
  - intros a sz Es. injection Es as <- <-. cbn zeta. cbn [snd fst]. split; [reflexivity|].
    intros i Hi. assert (X : i < 2) by exact Hi.
    assert (i = 0 \/ i = 1) as [-> | ->] by lia;
      intros d ls c Ed El Ec; injection Ed as <-; injection El as <-; vm_compute in Ec; injection Ec as <-; exact I.
  - split; [right; reflexivity|]. intros c n E. vm_compute in E. injection E as <- <-. reflexivity.
Qed.

Example load_reads_format_applies :
  sp_layout fmt_type = Some (4, 20) /\ wf_type fmt_type /\ handle_free fmt_type /\ wf_mem (s_mem fmt_state) /\
  addressable EncUtf8 (s_mem fmt_state) fmt_type 0 /\
  load (bump_ctx EncUtf8) fmt_type 0 fmt_state =
    (Ok (VMap [("n", VS16 (-2)); ("v", VList [VMap [("a", VU16 0x1234)]; VMap [("b|a", VNil)]]); ("s", VStr [0xc3; 0xa9])]%string), fmt_state).
Proof.
  split; [reflexivity|]. split; [apply fmt_wf|]. split; [repeat split|]. split; [|split; [apply fmt_addressable|vm_compute; reflexivity]].
  split; [reflexivity|]. split; [reflexivity|]. repeat constructor.
Qed.

(** With the second discriminant out of range the same bytes cannot be read. *)
Example load_unreadable_traps :
  let s := mkState (mkMem (firstn 24 fmt_bytes ++ [2] ++ skipn 25 fmt_bytes) 32) [] demo_world in
  load (bump_ctx EncUtf8) fmt_type 0 s = (Err ETrap, s).
Proof. vm_compute. reflexivity. Qed.

(** In encodings without a tag bit a length word of 2^31 or more is not
    refused: its top bit is dropped. *)
Theorem untagged_length_kept_refuted : exists cx p s v,
  cx_enc cx = EncUtf8 /\ wf_mem (s_mem s) /\ (4 | p) /\ p + 8 <= m_len (s_mem s) /\
  ~ readable (cx_enc cx) (s_mem s) TString p /\ load cx TString p s = (Ok v, s).
Proof.
  exists (bump_ctx EncUtf8), 0,
    (mkState (mkMem [8; 0; 0; 0; 2; 0; 0; 0x80; 0x68; 0x69; 0; 0] 12) [] demo_world), (VStr [0x68; 0x69]).
  split; [reflexivity|]. split; [split; [reflexivity|split; [reflexivity|repeat constructor]]|].
  split; [exists 0; reflexivity|]. split; [cbn; lia|]. split; [|vm_compute; reflexivity].
  intros (v & c & n & t & _ & E & _ & B & _). injection E as <- <-. cbn [unit_width] in B. vm_compute in B. apply B. reflexivity.
Qed.
Print Assumptions untagged_length_kept_refuted.

(** Bytes that encode no text are loaded as a string all the same. *)
Theorem ill_formed_text_rejected_refuted : exists cx p s v,
  wf_mem (s_mem s) /\ (4 | p) /\ p + 8 <= m_len (s_mem s) /\ addressable (cx_enc cx) (s_mem s) TString p /\
  (forall w, ~ holds_exactly (cx_enc cx) (s_mem s) TString p w) /\ load cx TString p s = (Ok v, s).
Proof.
  exists (bump_ctx EncUtf8), 0,
    (mkState (mkMem [8; 0; 0; 0; 1; 0; 0; 0; 0xff; 0; 0; 0] 12) [] demo_world), (VStr [0xef; 0xbf; 0xbd]).
  split; [split; [reflexivity|split; [reflexivity|repeat constructor]]|].
  split; [exists 0; reflexivity|]. split; [cbn; lia|].
  split; [split; [right; reflexivity|intros c n E; injection E as <- <-; reflexivity]|].
  split; [|vm_compute; reflexivity].
  intros w (c & n & t & _ & E & _ & _ & cs & Hs & _ & Hb & _). injection E as <- <-.
  change ([0xff] = utf8_text cs) in Hb.
  destruct cs as [|x cs]; [discriminate|]. inversion Hs as [|? ? Hx _]; subst. unfold scalar_value in Hx.
  unfold utf8_text in Hb. cbn [flat_map] in Hb. unfold sp_utf8 in Hb.
  repeat match type of Hb with context [if ?a <? ?b then _ else _] => destruct (N.ltb_spec a b) end; cbn [app] in Hb; first [discriminate|injection Hb; intros; lia].
Qed.
Print Assumptions ill_formed_text_rejected_refuted.

(** Text whose range wraps around the address space panics instead of trapping. *)
Theorem wrapped_text_traps_refuted : exists cx p s,
  cx_enc cx = EncUtf16 /\ wf_mem (s_mem s) /\ (4 | p) /\ p + 8 <= m_len (s_mem s) /\
  ~ readable (cx_enc cx) (s_mem s) TString p /\ load cx TString p s = (Panic, s).
Proof.
  exists (bump_ctx EncUtf16), 0,
    (mkState (mkMem [8; 0; 0; 0; 0xfe; 0xff; 0xff; 0x7f; 0x68; 0; 0; 0] 12) [] demo_world).
  split; [reflexivity|]. split; [split; [reflexivity|split; [reflexivity|repeat constructor]]|].
  split; [exists 0; reflexivity|]. split; [cbn; lia|]. split; [|vm_compute; reflexivity].
  intros (v & c & n & t & _ & E & _ & B & _). injection E as <- <-. cbn [unit_width] in B. vm_compute in B. apply B. reflexivity.
Qed.
Print Assumptions wrapped_text_traps_refuted.

Example store_writes_format_applies :
  let s' := snd (store (bump_ctx EncLatin1Utf16) demo_type demo_val 8 (demo_state 200)) in
  fst (store (bump_ctx EncLatin1Utf16) demo_type demo_val 8 (demo_state 200)) = Ok tt /\
  bytes_at (s_mem s') 8 20 = [64; 0; 0; 0; 2; 0; 0; 0; 68; 0; 0; 0; 3; 0; 0; 0; 5; 0; 0; 0] /\
  bytes_at (s_mem s') 64 2 = [72; 233] /\ number (s_mem s') 68 1 = 1 /\ number (s_mem s') 72 4 = 0x7fc00000.
Proof. vm_compute. repeat split. Qed.
