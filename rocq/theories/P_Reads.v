(** Property theorems about which bytes a stored value is read from (C94). *)
From Coq Require Import NArith ZArith List String Bool Lia ZifyBool ZifyNat ZifyN.
From Verif Require Import GoBase M_Types M_Layout S_Layout L_Layout M_State M_Utf M_Load M_Store
  S_Utf S_Values S_Memory S_Access S_Flat S_Format S_Looks S_Own S_Move L_Access L_Mem L_StoreLoad L_Format L_Looks L_Move L_Own L_OwnSame L_OwnPlace L_Reads
  P_Memory P_Format P_Looks P_Own.
Import ListNotations.
Open Scope N_scope.
Open Scope go_scope.

(** ** C94 *)

(** After a proper value of any type was stored, the bytes Load makes of it are
    exactly those that Store wrote the value to, and what its texts and lists
    point to. *)
Theorem read_where_written : forall cx init t a sz v p s s',
  correct_allocator cx init ->
  wf_type t -> has_type (cx_enc cx) t v ->
  sp_layout t = Some (a, sz) -> (a | p) ->
  wf_mem (s_mem s) -> p + sz <= m_len (s_mem s) ->
  (forall b, within p sz b -> owned init (s_hist s) b) ->
  store cx t v p s = (Ok tt, s') ->
  forall b, part_of (cx_enc cx) (s_mem s') t p b <->
    own_bytes t v p b \/ behind (cx_enc cx) (s_mem s') t p b.
Proof.
  intros cx init t a sz v p s s' Hc Hwf Hty Hl Hd Hm Hp Ho E b.
  destruct (store_writes_format cx init t a sz v p s _ s' Hc Hwf Hty Hl Hd Hm Hp Ho E) as [(_ & v' & Hv & Hs)|Hf].
  - rewrite (own_same t v v' p b Hwf Hs). apply held_parts; [exact Hwf|]. apply canonical_is_held, Hv.
  - destruct Hf as (? & ? & _ & _ & []).
Qed.
Print Assumptions read_where_written.

(** A stored value without texts and lists is read from the bytes it was
    written to, and from no others. *)
Theorem inline_read_where_written : forall cx init t a sz v p s s',
  correct_allocator cx init ->
  wf_type t -> has_type (cx_enc cx) t v -> inline t ->
  sp_layout t = Some (a, sz) -> (a | p) ->
  wf_mem (s_mem s) -> p + sz <= m_len (s_mem s) ->
  (forall b, within p sz b -> owned init (s_hist s) b) ->
  store cx t v p s = (Ok tt, s') ->
  forall b, part_of (cx_enc cx) (s_mem s') t p b <-> own_bytes t v p b.
Proof.
  intros cx init t a sz v p s s' Hc Hwf Hty Hi Hl Hd Hm Hp Ho E b.
  rewrite (read_where_written cx init t a sz v p s s' Hc Hwf Hty Hl Hd Hm Hp Ho E b).
  pose proof (inline_nothing_behind (cx_enc cx) (s_mem s') t p b Hi). tauto.
Qed.
Print Assumptions inline_read_where_written.

(** Whatever happens to the rest of memory afterwards, even to the padding in
    the value's place, the value is still loaded. *)
Theorem other_bytes_keep_value : forall cx init t a sz v p s s' s2,
  correct_allocator cx init ->
  wf_type t -> has_type (cx_enc cx) t v -> inline t ->
  sp_layout t = Some (a, sz) -> (a | p) ->
  wf_mem (s_mem s) -> p + sz <= m_len (s_mem s) ->
  (forall b, within p sz b -> owned init (s_hist s) b) ->
  store cx t v p s = (Ok tt, s') ->
  wf_mem (s_mem s2) -> s_world s2 = s_world s' ->
  same_at (s_mem s') (s_mem s2) (own_bytes t v p) ->
  exists v', load cx t p s2 = (Ok v', s2) /\ same_value t v v'.
Proof.
  intros cx init t a sz v p s s' s2 Hc Hwf Hty Hi Hl Hd Hm Hp Ho E W2 Ew [L B].
  destruct (load_after_store cx init t a sz v p s _ s' Hc Hwf Hty Hl Hd Hm Hp Ho E) as [(_ & v' & El & Hs)|Hf];
    [|destruct Hf as (? & ? & _ & _ & [])].
  destruct (store_frame cx init t a sz v p s _ s' Hc Hl (inline_fits t v Hi) Hm Hp E) as (W' & L' & _).
  exists v'. split; [|exact Hs].
  destruct (load_depends_on_parts cx t a sz p s' s2 Hl Hwf W' W2 (eq_sym Ew) Hd (N.le_trans _ _ _ Hp L') (inline_addressable _ _ _ _ Hi)) as (o & w & _ & E1 & E2).
  { split; [exact L|]. intros b Hb Hpart. apply B; [exact Hb|].
    apply (inline_read_where_written cx init t a sz v p s s' Hc Hwf Hty Hi Hl Hd Hm Hp Ho E). exact Hpart. }
  rewrite El in E1. injection E1 as <- E1. rewrite E2. f_equal.
  destruct s2 as [m2 h2 w2], s' as [m1 h1 w1]. unfold S_Inside.with_world in *. cbn in *. injection E1 as <-. subst w2. reflexivity.
Qed.
Print Assumptions other_bytes_keep_value.

(** Different values are written differently: if the bytes the first value
    occupies at its place are those at the same distances at the other value's
    place, then the two are the same value. The memories, allocators and
    encodings of texts may differ. *)
Theorem same_bytes_same_value : forall cx1 cx2 init1 init2 t a sz v1 v2 p1 p2 s1 s2 s1' s2',
  correct_allocator cx1 init1 -> correct_allocator cx2 init2 ->
  wf_type t -> inline t -> sp_layout t = Some (a, sz) ->
  has_type (cx_enc cx1) t v1 -> (a | p1) -> wf_mem (s_mem s1) -> p1 + sz <= m_len (s_mem s1) ->
  (forall b, within p1 sz b -> owned init1 (s_hist s1) b) -> store cx1 t v1 p1 s1 = (Ok tt, s1') ->
  has_type (cx_enc cx2) t v2 -> (a | p2) -> wf_mem (s_mem s2) -> p2 + sz <= m_len (s_mem s2) ->
  (forall b, within p2 sz b -> owned init2 (s_hist s2) b) -> store cx2 t v2 p2 s2 = (Ok tt, s2') ->
  (forall i, own_bytes t v1 p1 (p1 + i) -> byte (s_mem s1') (p1 + i) = byte (s_mem s2') (p2 + i)) ->
  exists w, same_value t v1 w /\ same_value t v2 w.
Proof.
  intros cx1 cx2 init1 init2 t a sz v1 v2 p1 p2 s1 s2 s1' s2' Hc1 Hc2 Hwf Hi Hl T1 D1 M1 L1 O1 E1 T2 D2 M2 L2 O2 E2 HB.
  destruct (store_writes_format cx1 init1 t a sz v1 p1 s1 _ s1' Hc1 Hwf T1 Hl D1 M1 L1 O1 E1) as [(_ & w1 & H1 & S1)|Hf];
    [|destruct Hf as (? & ? & _ & _ & [])].
  destruct (store_writes_format cx2 init2 t a sz v2 p2 s2 _ s2' Hc2 Hwf T2 Hl D2 M2 L2 O2 E2) as [(_ & w2 & H2 & S2)|Hf];
    [|destruct Hf as (? & ? & _ & _ & [])].
  apply canonical_is_held in H1. apply canonical_is_held in H2. exists w1. split; [exact S1|].
  apply (held_same (cx_enc cx2) (s_mem s2') t p2 v2 w2 w1 Hwf Hi H2); [|exact S2].
  apply (held_moves (cx_enc cx1) (cx_enc cx2) t w1 (s_mem s1') p1 (s_mem s2') p2 Hwf Hi); [|exact H1].
  intros i Hb. apply HB. apply (own_same t v1 w1 _ _ Hwf S1). exact Hb.
Qed.
Print Assumptions same_bytes_same_value.

(** The hypotheses can be met: of the 32 bytes of this place 5 are read, and the
    other case of the variant is written differently. *)
Definition own_val2 : any :=
  VMap [("a", VU8 7); ("v", VMap [("x", VU64 0x1234)]); ("f", VMap [("p", VBool false); ("q", VBool true)])]%string.
Lemma own_typed : has_type EncUtf8 own_type own_val /\ has_type EncUtf8 own_type own_val2.
Proof.
  split; cbn [has_type own_type own_val own_val2].
  - eexists. split; [reflexivity|]. repeat apply Forall_cons; try apply Forall_nil; cbn [fst snd].
    + eexists. split; [reflexivity|]. exists 7. split; [reflexivity|lia].
    + eexists. split; [reflexivity|]. exists "y"%string, (VU16 0x1234), 1%nat. eexists. split; [reflexivity|]. split.
      { exists [], "y"%string, []. repeat split; try constructor; try exact I; try (constructor; cbn; intuition discriminate). }
      split; [reflexivity|]. cbn. eexists. split; [reflexivity|lia].
    + eexists. split; [reflexivity|]. eexists. split; [reflexivity|]. repeat apply Forall_cons; try apply Forall_nil; cbn [fst snd]; eexists; (split; [reflexivity|eexists; reflexivity]).
  - eexists. split; [reflexivity|]. repeat apply Forall_cons; try apply Forall_nil; cbn [fst snd].
    + eexists. split; [reflexivity|]. exists 7. split; [reflexivity|lia].
    + eexists. split; [reflexivity|]. exists "x"%string, (VU64 0x1234), 0%nat. eexists. split; [reflexivity|]. split.
      { exists [], "x"%string, []. repeat split; try constructor; try exact I; try (constructor; cbn; intuition discriminate). }
      split; [reflexivity|]. cbn. eexists. split; [reflexivity|lia].
    + eexists. split; [reflexivity|]. eexists. split; [reflexivity|]. repeat apply Forall_cons; try apply Forall_nil; cbn [fst snd]; eexists; (split; [reflexivity|eexists; reflexivity]).
Qed.

Example read_where_written_applies :
  correct_allocator (bump_ctx EncUtf8) (fun b => b < 64) /\ wf_type own_type /\ inline own_type /\
  has_type EncUtf8 own_type own_val /\ has_type EncUtf8 own_type own_val2 /\
  sp_layout own_type = Some (8, 32) /\ (8 | 8) /\ wf_mem (s_mem (own_state 0xEE)) /\
  (forall b, within 8 32 b -> owned (fun b => b < 64) (s_hist (own_state 0xEE)) b) /\
  fst (store (bump_ctx EncUtf8) own_type own_val 8 (own_state 0xEE)) = Ok tt /\
  fst (store (bump_ctx EncUtf8) own_type own_val2 8 (own_state 0xEE)) = Ok tt /\
  (forall b, part_of EncUtf8 (s_mem (snd (store (bump_ctx EncUtf8) own_type own_val 8 (own_state 0xEE)))) own_type 8 b <->
     In b [8; 16; 24; 25; 32]) /\
  map (byte (s_mem (snd (store (bump_ctx EncUtf8) own_type own_val2 8 (own_state 0xEE))))) [8; 16; 24; 25; 32] = [7; 0; 0x34; 0x12; 2] /\
  fst (load (bump_ctx EncUtf8) own_type 8
    (mkState (mkMem ([1;2;3;4;5;6;7;8; 7;1;2;3;4;5;6;7; 1;9;8;7;6;5;4;3; 0x34;0x12;11;12;13;14;15;16; 2] ++ repeat 0x77 167) 200) [] demo_world))
  = Ok (VMap [("a", VU8 7); ("v", VMap [("y", VU16 0x1234)]); ("f", VMap [("p", VBool false); ("q", VBool true)])]%string).
Proof.
  destruct store_keeps_rest_applies as (C & L & _ & W & Hlen & O & Hw & Hi & Hown & Hst & _). destruct own_typed as [T1 T2].
  split; [exact C|]. split; [exact Hw|]. split; [exact Hi|]. split; [exact T1|]. split; [exact T2|].
  split; [exact L|]. split; [exists 1; reflexivity|]. split; [apply W; lia|]. split; [exact O|].
  split; [exact Hst|]. split; [vm_compute; reflexivity|]. split; [|split; vm_compute; reflexivity].
  intros b. rewrite <- Hown.
  assert (Wf : wf_mem (s_mem (own_state 0xEE))) by (apply W; lia).
  assert (D : (8 | 8)) by (exists 1; reflexivity).
  refine (inline_read_where_written (bump_ctx EncUtf8) _ own_type 8 32 own_val 8 (own_state 0xEE) _ C Hw T1 Hi L D Wf Hlen O _ b).
  rewrite <- Hst. apply surjective_pairing.
Qed.

(** For texts the bytes in the value's place do not settle the value: these two
    have the same pointer and the same length. *)
Theorem same_bytes_same_text_refuted : exists cx init p s s1' s2' v1 v2,
  correct_allocator cx init /\ has_type (cx_enc cx) TString v1 /\ has_type (cx_enc cx) TString v2 /\
  sp_layout TString = Some (4, 8) /\ (4 | p) /\ p + 8 <= m_len (s_mem s) /\
  wf_mem (s_mem s) /\ (forall b, within p 8 b -> owned init (s_hist s) b) /\
  store cx TString v1 p s = (Ok tt, s1') /\ store cx TString v2 p s = (Ok tt, s2') /\
  (forall b, own_bytes TString v1 p b -> byte (s_mem s1') b = byte (s_mem s2') b) /\
  ~ (exists w, same_value TString v1 w /\ same_value TString v2 w).
Proof.
  set (cx := bump_ctx EncUtf8). set (v1 := VStr [0x68; 0x69]). set (v2 := VStr [0x68; 0x6f]).
  exists cx, (fun b => b < 64), 8, (own_state 3).
  exists (snd (store cx TString v1 8 (own_state 3))), (snd (store cx TString v2 8 (own_state 3))), v1, v2.
  destruct store_keeps_rest_applies as (C & _ & _ & W & _).
  split; [exact C|]. split.
  { exists [0x68; 0x69]. split; [reflexivity|]. exists [0x68; 0x69]. repeat split; repeat constructor; lia. }
  split.
  { exists [0x68; 0x6f]. split; [reflexivity|]. exists [0x68; 0x6f]. repeat split; repeat constructor; lia. }
  split; [reflexivity|]. split; [exists 2; reflexivity|]. split; [cbn; lia|]. split; [apply W; lia|].
  split; [intros b [_ Hb]; left; lia|]. split; [vm_compute; reflexivity|]. split; [vm_compute; reflexivity|]. split.
  - intros b [H1 H2].
    assert (b = 8 \/ b = 9 \/ b = 10 \/ b = 11 \/ b = 12 \/ b = 13 \/ b = 14 \/ b = 15) as X by lia.
    repeat (destruct X as [-> | X]; [vm_compute; reflexivity|]). subst b. vm_compute. reflexivity.
  - intros (w & H1 & H2). cbn in H1, H2. subst w. discriminate H2.
Qed.
Print Assumptions same_bytes_same_text_refuted.
