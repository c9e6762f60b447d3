(** Property theorems about where a value is stored (C92). *)
From Coq Require Import NArith ZArith List String Bool Lia ZifyBool ZifyNat ZifyN.
From Verif Require Import GoBase M_Types M_Layout S_Layout L_Layout M_State M_Utf M_Load M_Store
  S_Utf S_Values S_Memory S_Access S_Looks S_Own L_Access L_Mem L_Frame L_Own L_OwnSame L_OwnPlace P_Memory P_Own.
Import ListNotations.
Open Scope N_scope.
Open Scope go_scope.

(** ** C92 *)

(** A value without texts and lists is written the same way everywhere: stored
    at two places, in two memories, with two allocators and for two calls with
    any encodings of texts, it is accepted or refused alike, and if it is
    accepted, the bytes it occupies at one place are those at the same distance
    at the other. The places may be of any kind, but both or none must be
    aligned. *)
Theorem bytes_same_everywhere : forall cx1 cx2 init1 init2 t a sz v p1 p2 s1 s2 o1 o2 s1' s2',
  correct_allocator cx1 init1 -> correct_allocator cx2 init2 ->
  sp_layout t = Some (a, sz) -> wf_type t -> inline t -> (a | p1) <-> (a | p2) ->
  wf_mem (s_mem s1) -> p1 + sz <= m_len (s_mem s1) -> (forall b, within p1 sz b -> owned init1 (s_hist s1) b) ->
  wf_mem (s_mem s2) -> p2 + sz <= m_len (s_mem s2) -> (forall b, within p2 sz b -> owned init2 (s_hist s2) b) ->
  store cx1 t v p1 s1 = (o1, s1') -> store cx2 t v p2 s2 = (o2, s2') ->
  o1 = o2 /\ (o1 = Ok tt -> forall i, own_bytes t v p1 (p1 + i) -> byte (s_mem s1') (p1 + i) = byte (s_mem s2') (p2 + i)).
Proof.
  intros cx1 cx2 init1 init2 t a sz v p1 p2 s1 s2 o1 o2 s1' s2' Hc1 Hc2 Hl Hwf Hi Hd M1 L1 O1 M2 L2 O2 E1 E2.
  assert (Hp1 : p1 + sz < two32) by (destruct M1 as (_ & Hm & _); unfold two32; lia).
  assert (Hp2 : p2 + sz < two32) by (destruct M2 as (_ & Hm & _); unfold two32; lia).
  exact (twin_ok_all cx1 cx2 init1 init2 Hc1 Hc2 t a sz v p1 p2 Hl Hwf Hi (inline_fits t v Hi) Hp1 Hp2 Hd _ _ _ _ _ _
    (conj M1 (conj L1 O1)) (conj M2 (conj L2 O2)) E1 E2).
Qed.
Print Assumptions bytes_same_everywhere.

(** Which bytes of its place a value of any type occupies does not depend on
    where the place is. *)
Theorem own_bytes_same_everywhere : forall t v p1 p2 i, own_bytes t v p1 (p1 + i) <-> own_bytes t v p2 (p2 + i).
Proof.
  intros t v p1 p2 i. split; intros H.
  - pose proof (own_shift t v p1 p2 0 i) as X. rewrite !N.add_0_r in X. exact (X H).
  - pose proof (own_shift t v p2 p1 0 i) as X. rewrite !N.add_0_r in X. exact (X H).
Qed.
Print Assumptions own_bytes_same_everywhere.

(** The hypotheses can be met, with two encodings and different memories. *)
Example bytes_same_everywhere_applies :
  correct_allocator (bump_ctx EncUtf8) (fun b => b < 64) /\ correct_allocator (bump_ctx EncUtf16) (fun b => b < 64) /\
  sp_layout own_type = Some (8, 32) /\ wf_type own_type /\ inline own_type /\
  (8 | 8) /\ (8 | 24) /\
  wf_mem (s_mem (own_state 0xEE)) /\ wf_mem (s_mem (own_state 0x11)) /\
  (forall b, within 8 32 b -> owned (fun b => b < 64) (s_hist (own_state 0xEE)) b) /\
  (forall b, within 24 32 b -> owned (fun b => b < 64) (s_hist (own_state 0x11)) b) /\
  map (byte (s_mem (snd (store (bump_ctx EncUtf8) own_type own_val 8 (own_state 0xEE))))) [8; 16; 24; 25; 32] = [7; 1; 0x34; 0x12; 2] /\
  map (byte (s_mem (snd (store (bump_ctx EncUtf16) own_type own_val 24 (own_state 0x11))))) [24; 32; 40; 41; 48] = [7; 1; 0x34; 0x12; 2].
Proof.
  destruct store_keeps_rest_applies as (C & L & _ & W & _ & O & Hw & Hi & _).
  split; [exact C|]. split; [apply bump_correct|]. split; [exact L|]. split; [exact Hw|]. split; [exact Hi|].
  split; [exists 1; reflexivity|]. split; [exists 3; reflexivity|].
  split; [apply W; lia|]. split; [apply W; lia|]. split; [exact O|].
  split; [intros b [_ Hb]; left; lia|]. split; vm_compute; reflexivity.
Qed.

(** Not so with texts: their bytes hold an address, which depends on what was
    allocated before. *)
Theorem text_same_everywhere_refuted : exists cx init t a sz v p s1 s2 s1' s2' b,
  correct_allocator cx init /\ sp_layout t = Some (a, sz) /\ wf_type t /\ has_type (cx_enc cx) t v /\ lists_fit t v /\ (a | p) /\
  wf_mem (s_mem s1) /\ p + sz <= m_len (s_mem s1) /\ (forall b, within p sz b -> owned init (s_hist s1) b) /\
  wf_mem (s_mem s2) /\ p + sz <= m_len (s_mem s2) /\ (forall b, within p sz b -> owned init (s_hist s2) b) /\
  store cx t v p s1 = (Ok tt, s1') /\ store cx t v p s2 = (Ok tt, s2') /\
  own_bytes t v p b /\ byte (s_mem s1') b <> byte (s_mem s2') b.
Proof.
  set (cx := bump_ctx EncUtf8). set (v := VStr [0x68; 0x69]).
  set (before := snd (store cx TString v 16 (own_state 3))).
  exists cx, (fun b => b < 64), TString, 4, 8, v, 8, (own_state 3), before.
  exists (snd (store cx TString v 8 (own_state 3))), (snd (store cx TString v 8 before)), 8.
  destruct store_keeps_rest_applies as (C & _ & _ & W & _).
  split; [exact C|]. split; [reflexivity|]. split; [exact I|]. split.
  { exists [0x68; 0x69]. split; [reflexivity|]. exists [0x68; 0x69]. repeat split; repeat constructor; lia. }
  split; [exact I|]. split; [exists 2; reflexivity|].
  split; [apply W; lia|]. split; [cbn; lia|]. split; [intros b [_ Hb]; left; lia|].
  split; [split; [reflexivity|split; [reflexivity|vm_compute; repeat constructor]]|].
  split; [vm_compute; discriminate|]. split; [intros b [_ Hb]; left; lia|].
  split; [vm_compute; reflexivity|]. split; [vm_compute; reflexivity|]. split; [cbn; unfold within; lia|]. vm_compute. discriminate.
Qed.
Print Assumptions text_same_everywhere_refuted.
