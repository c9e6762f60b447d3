(** Property theorems about what a successful load has reached (C74). *)
From Coq Require Import NArith ZArith List String Bool Lia ZifyBool ZifyNat ZifyN.
From Verif Require Import GoBase M_Types M_Layout S_Layout L_Layout M_State M_Utf M_Load M_Flat
  S_Utf S_Values S_Memory S_Access S_Flat S_Format S_FlatFormat S_Inside S_Looks S_Reached L_Access L_Mem L_Frame L_RoundTrip L_StoreLoad L_Lifted L_Flat L_Format L_FlatFormat
  L_Reached L_FlatReached L_TextSize P_Memory P_Format P_FlatFormat P_Inside P_Looks.
Import ListNotations.
Open Scope N_scope.
Open Scope go_scope.

(** ** C74 *)

(** A load that succeeds has stayed inside memory, whatever memory contains:
    every list and every text that the value is made of lies inside. No range
    that wraps around 2^32 gives a value. *)
Theorem loaded_lies_inside : forall cx t a sz p s v s',
  sp_layout t = Some (a, sz) -> wf_type t -> wf_mem (s_mem s) -> roomy (mem_cap (s_mem s)) t ->
  (a | p) -> p + sz <= m_len (s_mem s) ->
  load cx t p s = (Ok v, s') ->
  reached (s_mem s) (text_inside (cx_enc cx) (s_mem s)) (list_inside (s_mem s)) t p.
Proof. intros cx t. exact (reach_all cx t). Qed.
Print Assumptions loaded_lies_inside.

(** The same for a lift from core values. *)
Theorem lifted_lies_inside : forall cx t pre cs post s v it s',
  flattens t (kinds cs) -> Forall (fun c => core_bits c < 2 ^ core_width (cval_kind c)) cs -> wf_type t ->
  wf_mem (s_mem s) -> roomy (mem_cap (s_mem s)) t ->
  lift_flat cx t (IBase (pre ++ cs ++ post) (List.length pre)) s = (Ok (v, it), s') ->
  flat_reached (s_mem s) (text_inside (cx_enc cx) (s_mem s)) (list_inside (s_mem s)) t cs.
Proof.
  intros cx t pre cs post s v it s' Hk Hok Hwf W Hr E.
  assert (Hok' : Forall cval_ok cs) by (eapply Forall_impl; [|exact Hok]; intros [] X; exact X).
  exact (proj2 (proj2 (flat_reach_all cx t cs _ _ s v it s' (flatten_complete _ _ Hk) Hwf W Hr Hok' (yields_base cs pre post) E))).
Qed.
Print Assumptions lifted_lies_inside.

(** So if no text claims 2^31 or more code units, a value that is loaded is the
    one the memory format describes: nothing need be assumed about where lists
    and texts lie. *)
Theorem loaded_is_read : forall cx t a sz p s v s',
  sp_layout t = Some (a, sz) -> wf_type t -> handle_free t -> cx_enc cx <> EncUnknown ->
  wf_mem (s_mem s) -> roomy (mem_cap (s_mem s)) t -> (a | p) -> p + sz <= m_len (s_mem s) ->
  reached (s_mem s) (fun _ w => short_text (cx_enc cx) w) (fun _ _ _ => True) t p ->
  load cx t p s = (Ok v, s') ->
  s' = s /\ reads_as (cx_enc cx) (s_mem s) t p v.
Proof.
  intros cx t a sz p s v s' Hl Hwf Hh He W Hr Hd Hp Hs E.
  pose proof (loaded_lies_inside cx t a sz p s v s' Hl Hwf W Hr Hd Hp E) as Hi.
  pose proof (inside_addressable _ _ _ _ W Hi Hs) as Had.
  destruct (load_reads_format cx t a sz p s Hl Hwf Hh He W Hd Hp Had) as [(_ & v' & E' & R)|(_ & E')]; rewrite E in E'; [|discriminate].
  injection E' as <- <-. auto.
Qed.
Print Assumptions loaded_is_read.

Theorem lifted_is_read : forall cx t pre cs post s v it s',
  flattens t (kinds cs) -> Forall (fun c => core_bits c < 2 ^ core_width (cval_kind c)) cs ->
  wf_type t -> handle_free t -> cx_enc cx <> EncUnknown ->
  wf_mem (s_mem s) -> roomy (mem_cap (s_mem s)) t ->
  flat_reached (s_mem s) (fun _ w => short_text (cx_enc cx) w) (fun _ _ _ => True) t cs ->
  lift_flat cx t (IBase (pre ++ cs ++ post) (List.length pre)) s = (Ok (v, it), s') ->
  s' = s /\ lifts_as (cx_enc cx) (s_mem s) t cs v.
Proof.
  intros cx t pre cs post s v it s' Hk Hok Hwf Hh He W Hr Hs E.
  pose proof (lifted_lies_inside cx t pre cs post s v it s' Hk Hok Hwf W Hr E) as Hi.
  assert (Hok' : Forall cval_ok cs) by (eapply Forall_impl; [|exact Hok]; intros [] X; exact X).
  pose proof (flat_inside_addressable _ _ _ _ W Hok' Hi Hs) as Had.
  destruct (lift_reads_flat cx t pre cs post s Hk Hok Hwf Hh He W Had) as [(_ & v' & E' & R)|(_ & E')]; rewrite E in E'; [|discriminate].
  injection E' as <- _ <-. auto.
Qed.
Print Assumptions lifted_is_read.

(** A list that is loaded has no more elements than memory has room for. *)
Theorem loaded_list_fits : forall cx t a sz p s v s',
  sp_layout t = Some (a, sz) -> wf_type (TList t) -> wf_mem (s_mem s) -> roomy (mem_cap (s_mem s)) (TList t) ->
  (4 | p) -> p + 8 <= m_len (s_mem s) ->
  load cx (TList t) p s = (Ok v, s') ->
  exists l, v = VList l /\ N.of_nat (List.length l) * sz <= m_len (s_mem s).
Proof.
  intros cx t a sz p s v s' Hl Hwf W Hr Hd Hp E.
  pose proof (loaded_lies_inside cx (TList t) 4 8 p s v s' eq_refl Hwf W Hr Hd Hp E) as Hi.
  destruct (Hi a sz Hl) as [Hin _].
  assert (Hsz : sz < two32) by (destruct Hwf as [_ (a' & sz' & E' & H)]; rewrite Hl in E'; injection E' as _ <-; exact H).
  rewrite (load_list_ranges cx t a sz) in E by assumption.
  pose proof (number_lt 4 (s_mem s) p W) as B1. change (256 ^ N.of_nat 4) with two32 in B1.
  destruct Hwf as [Hwf _]. destruct Hr as [Hr1 Hr2].
  destruct (reach_items cx t a sz _ _ s v s' (reach_all cx t) Hl Hwf W B1 Hsz Hr2 (Hr1 a sz Hl) E) as (_ & l & -> & Hn).
  exists l. split; [reflexivity|]. unfold list_inside in Hin. rewrite Hn. lia.
Qed.
Print Assumptions loaded_list_fits.

(** A text that is loaded is at most three times as long as memory. *)
Theorem loaded_text_fits : forall cx p s v s',
  wf_mem (s_mem s) -> p + 8 <= m_len (s_mem s) ->
  load cx TString p s = (Ok v, s') ->
  exists t, v = VStr t /\ N.of_nat (List.length t) <= 3 * m_len (s_mem s).
Proof.
  intros cx p s v s' W Hp E. cbn [load] in E. unfold load_string in E.
  apply bind_inv in E. destruct E as (st & s1 & E1 & E). apply bind_inv in E. destruct E as (w & s2 & E2 & E).
  assert (M1 : s_mem s1 = s_mem s) by apply (gives_u32 p s _ s1 W E1).
  assert (W1 : wf_mem (s_mem s1)) by (rewrite M1; exact W).
  assert (M2 : s_mem s2 = s_mem s1) by apply (gives_u32 (add32 p 4) s1 _ s2 W1 E2).
  assert (W2 : wf_mem (s_mem s2)) by (rewrite M2; exact W1).
  destruct (text_short cx st w s2 v s' W2 E) as (t & -> & Ht). exists t. split; [reflexivity|].
  unfold len in Ht. rewrite M2, M1 in Ht. exact Ht.
Qed.
Print Assumptions loaded_text_fits.

(** What the claim would be without the size of the elements does not hold: a
    list whose elements take no room can be any length, however small memory
    is. Here eight bytes of memory give a list of 1000 elements. *)
Definition empties_state : state := mkState (mkMem [0; 0; 0; 0; 232; 3; 0; 0] 8) [] demo_world.
Theorem loaded_list_short_refuted :
  ~ (forall cx t p s l s', wf_type (TList t) -> wf_mem (s_mem s) -> roomy (mem_cap (s_mem s)) (TList t) ->
       (4 | p) -> p + 8 <= m_len (s_mem s) ->
       load cx (TList t) p s = (Ok (VList l), s') -> N.of_nat (List.length l) <= m_len (s_mem s)).
Proof.
  intros H.
  specialize (H (bump_ctx EncUtf8) (TTuple []) 0 empties_state (repeat (VMap []) 1000) empties_state).
  enough (X : 1000 <= 8) by lia. apply H.
  - split; [exact I|]. exists 1, 0. split; reflexivity.
  - split; [reflexivity|]. split; [reflexivity|repeat constructor].
  - split; [|exact I]. intros a sz E. injection E as _ <-. discriminate.
  - apply N.divide_0_r.
  - discriminate.
  - vm_compute. reflexivity.
Qed.
Print Assumptions loaded_list_short_refuted.

(** The hypotheses can be met: a list of records with a text each. The bytes of
    the second text are not well-formed. *)
Definition reached_type : valtype := TList (TRecord [("k", TU8); ("s", TString)])%string.
Definition reached_state : state :=
  mkState (mkMem [8; 0; 0; 0;  2; 0; 0; 0;
                  5; 0xEE; 0xEE; 0xEE;  32; 0; 0; 0;  2; 0; 0; 0;
                  6; 0xEE; 0xEE; 0xEE;  34; 0; 0; 0;  1; 0; 0; 0;
                  0x68; 0x69; 0xFF; 0xEE] 36) [] demo_world.
Lemma reached_wf : wf_type reached_type.
Proof.
  split; [|exists 4, 12; split; reflexivity]. split; [|split; [exact I|split; exact I]].
  constructor; [cbn; intuition discriminate|]. constructor; [cbn; tauto|constructor].
Qed.
Lemma reached_mem : wf_mem (s_mem reached_state).
Proof. split; [reflexivity|]. split; [reflexivity|repeat constructor]. Qed.
Lemma reached_roomy : roomy (mem_cap (s_mem reached_state)) reached_type.
Proof. split; [|split; [exact I|split; exact I]]. intros a sz E. injection E as _ <-. discriminate. Qed.

Example loaded_lies_inside_applies :
  sp_layout reached_type = Some (4, 8) /\ wf_type reached_type /\ handle_free reached_type /\ wf_mem (s_mem reached_state) /\
  roomy (mem_cap (s_mem reached_state)) reached_type /\
  reached (s_mem reached_state) (fun _ w => short_text EncUtf8 w) (fun _ _ _ => True) reached_type 0 /\
  fst (load (bump_ctx EncUtf8) reached_type 0 reached_state) =
    Ok (VList [VMap [("k", VU8 5); ("s", VStr [0x68; 0x69])]; VMap [("k", VU8 6); ("s", VStr [0xEF; 0xBF; 0xBD])]]%string).
Proof.
  split; [reflexivity|]. split; [exact reached_wf|]. split; [cbn; tauto|]. split; [exact reached_mem|]. split; [exact reached_roomy|].
  split; [|vm_compute; reflexivity].
  intros a sz E. injection E as <- <-. split; [exact I|]. intros i Hi. change (i < 2) in Hi.
  cbn [snd reached]. intros ls El. injection El as <-. constructor; [exact I|]. constructor; [|constructor].
  right. assert (i = 0 \/ i = 1) as [-> | ->] by lia; reflexivity.
Qed.

(** The core values of the same list, behind another. *)
Example lifted_lies_inside_applies :
  flattens reached_type (kinds [CU32 8; CU32 2]) /\
  Forall (fun c => core_bits c < 2 ^ core_width (cval_kind c)) [CU32 8; CU32 2] /\
  flat_reached (s_mem reached_state) (fun _ w => short_text EncUtf8 w) (fun _ _ _ => True) reached_type [CU32 8; CU32 2] /\
  fst (lift_flat (bump_ctx EncUtf8) reached_type (IBase ([CU64 1] ++ [CU32 8; CU32 2] ++ []) 1) reached_state) =
    Ok (VList [VMap [("k", VU8 5); ("s", VStr [0x68; 0x69])]; VMap [("k", VU8 6); ("s", VStr [0xEF; 0xBF; 0xBD])]]%string,
        IBase [CU64 1; CU32 8; CU32 2] 3).
Proof.
  split; [apply flattens_iff; reflexivity|]. split; [repeat constructor|]. split; [|vm_compute; reflexivity].
  cbn [flat_reached reached_type]. intros st n E. injection E as <- <-.
  intros a sz E. injection E as <- <-. split; [exact I|]. intros i Hi.
  cbn [snd reached]. intros ls El. injection El as <-. constructor; [exact I|]. constructor; [|constructor].
  right. assert (i = 0 \/ i = 1) as [-> | ->] by lia; reflexivity.
Qed.
