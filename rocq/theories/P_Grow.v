(** Property theorems about memory that grows (C97). *)
From Coq Require Import NArith ZArith String Bool Lia ZifyBool ZifyNat ZifyN List.
From Verif Require Import GoBase M_Types M_Layout S_Layout L_Layout M_State M_Utf M_Load M_Flat M_Canon
  S_Utf S_Values S_Memory S_Flat S_Format S_FlatFormat S_Looks S_Inside S_Grow L_Access L_Mem L_FlatFormat L_Grow P_Memory P_Format P_Inside P_Looks.
Import ListNotations.
Open Scope N_scope.
Open Scope go_scope.

(** ** C97 *)

(** A value that can be loaded can still be loaded after bytes were appended
    to memory. It is the same value, and the same happens to handles. Nothing
    is asked of the type, of the place or of what memory contains. *)
Theorem appended_keeps_value : forall cx t p s1 s2 v s1',
  appended (s_mem s1) (s_mem s2) -> s_world s1 = s_world s2 ->
  load cx t p s1 = (Ok v, s1') ->
  exists w, s1' = with_world s1 w /\ load cx t p s2 = (Ok v, with_world s2 w).
Proof. intros cx t p. exact (stable_load cx t p). Qed.
Print Assumptions appended_keeps_value.

(** The same for a value lifted from core values. *)
Theorem appended_keeps_lifted : forall cx t it s1 s2 v it' s1',
  appended (s_mem s1) (s_mem s2) -> s_world s1 = s_world s2 ->
  lift_flat cx t it s1 = (Ok (v, it'), s1') ->
  exists w, s1' = with_world s1 w /\ lift_flat cx t it s2 = (Ok (v, it'), with_world s2 w).
Proof. intros cx t it s1 s2 v it'. exact (stable_lifted cx t it s1 s2 (v, it')). Qed.
Print Assumptions appended_keeps_lifted.

(** And for all the arguments or results of a call, whether they are passed one
    by one or as a tuple in memory. *)
Theorem appended_keeps_values : forall order cx max ts it s1 s2 vs it' s1',
  appended (s_mem s1) (s_mem s2) -> s_world s1 = s_world s2 ->
  lift_values order cx max ts it s1 = (Ok (vs, it'), s1') ->
  exists w, s1' = with_world s1 w /\ lift_values order cx max ts it s2 = (Ok (vs, it'), with_world s2 w).
Proof. intros order cx max ts it s1 s2 vs it'. exact (stable_values order cx max ts it s1 s2 (vs, it')). Qed.
Print Assumptions appended_keeps_values.

(** A value in an aligned place inside memory keeps being loaded as memory
    grows, whatever becomes of the rest of the buffer: only the bytes inside
    the old memory need to stay. *)
Theorem grown_keeps_value : forall cx t a sz p s1 s2 v s1',
  sp_layout t = Some (a, sz) -> wf_type t ->
  wf_mem (s_mem s1) -> wf_mem (s_mem s2) -> grown (s_mem s1) (s_mem s2) -> s_world s1 = s_world s2 ->
  (a | p) -> p + sz <= m_len (s_mem s1) -> addressable (cx_enc cx) (s_mem s1) t p ->
  load cx t p s1 = (Ok v, s1') ->
  exists w, s1' = with_world s1 w /\ load cx t p s2 = (Ok v, with_world s2 w).
Proof.
  intros cx t a sz p s1 s2 v s1' Hl Hwf W1 W2 G Ew Hd Hp Had E.
  destruct (load_stays_inside cx t a sz p s1 (cut s1) Hl Hwf W1 (cut_wf s1 W1)) as (o & w & _ & E1 & E0);
    [split; [reflexivity|intros i Hi; symmetry; apply cut_byte; exact Hi]|reflexivity|assumption..|].
  rewrite E1 in E. injection E as -> <-.
  destruct (appended_keeps_value cx t p (cut s1) s2 v _ (cut_appended _ _ W1 W2 G) Ew E0) as (w' & Hw & E2).
  apply (f_equal s_world) in Hw. cbn in Hw. subst w'. exists w. split; [reflexivity|exact E2].
Qed.
Print Assumptions grown_keeps_value.

Theorem grown_keeps_lifted : forall cx t pre cs post s1 s2 v it s1',
  flattens t (kinds cs) -> Forall (fun c => core_bits c < 2 ^ core_width (cval_kind c)) cs -> wf_type t ->
  wf_mem (s_mem s1) -> wf_mem (s_mem s2) -> grown (s_mem s1) (s_mem s2) -> s_world s1 = s_world s2 ->
  flat_addressable (cx_enc cx) (s_mem s1) t cs ->
  lift_flat cx t (IBase (pre ++ cs ++ post) (List.length pre)) s1 = (Ok (v, it), s1') ->
  exists w, s1' = with_world s1 w /\
    lift_flat cx t (IBase (pre ++ cs ++ post) (List.length pre)) s2 = (Ok (v, it), with_world s2 w).
Proof.
  intros cx t pre cs post s1 s2 v it s1' Hf Hb Hwf W1 W2 G Ew Had E.
  destruct (lift_depends_on_parts cx t pre cs post s1 (cut s1) Hf Hb Hwf W1 (cut_wf s1 W1)) as (o & w & _ & _ & E1 & E0);
    [reflexivity|assumption|split; [reflexivity|intros i Hi _; symmetry; apply cut_byte; exact Hi]|].
  rewrite E1 in E. injection E as -> <-.
  destruct (appended_keeps_lifted cx t _ (cut s1) s2 v it _ (cut_appended _ _ W1 W2 G) Ew E0) as (w' & Hw & E2).
  apply (f_equal s_world) in Hw. cbn in Hw. subst w'. exists w. split; [reflexivity|exact E2].
Qed.
Print Assumptions grown_keeps_lifted.

(** The hypotheses can be met, by a type with handles and texts. What was in
    the buffer beyond the old length is lost. *)
Definition grow_state : state := mkState (mkMem (ins_bytes ++ [1; 2; 3; 4; 5]) 26) [(mkReq 0 0 1 4, 22)] ins_world.
Example grown_keeps_value_applies :
  sp_layout ins_type = Some (4, 16) /\ wf_type ins_type /\
  wf_mem (s_mem (ins_state [7; 7; 7])) /\ wf_mem (s_mem grow_state) /\
  grown (s_mem (ins_state [7; 7; 7])) (s_mem grow_state) /\ s_world (ins_state [7; 7; 7]) = s_world grow_state /\
  addressable EncUtf8 (s_mem (ins_state [7; 7; 7])) ins_type 0 /\
  fst (load (bump_ctx EncUtf8) ins_type 0 (ins_state [7; 7; 7])) = Ok (VMap [("h", VList [VU32 42]); ("t", VStr [0x68; 0x69])]%string) /\
  ~ appended (s_mem (ins_state [7; 7; 7])) (s_mem grow_state) /\ appended (s_mem (ins_state [])) (s_mem grow_state).
Proof.
  split; [reflexivity|]. split; [apply load_stays_inside_applies|].
  split; [split; [cbn; lia|split; [reflexivity|repeat constructor]]|].
  split; [split; [cbn; lia|split; [reflexivity|repeat constructor]]|].
  split.
  { split; [cbn; lia|]. intros i Hi. cbn in Hi. unfold byte. cbn [s_mem ins_state grow_state m_data].
    rewrite !app_nth1; [reflexivity|cbn; lia..]. }
  split; [reflexivity|]. split.
  { intros ls E. injection E as <-. apply Forall2_cons; [|apply Forall2_cons; [|apply Forall2_nil]].
    - intros a sz Es. injection Es as <- <-. split; [reflexivity|]. intros i Hi. exact I.
    - split; [right; reflexivity|]. intros c n E. vm_compute in E. injection E as <- <-. reflexivity. }
  split; [vm_compute; reflexivity|]. split; [|split; [cbn; lia|split; [reflexivity|exists [1; 2; 3; 4; 5]; reflexivity]]].
  intros (_ & _ & more & E). discriminate E.
Qed.

Example appended_keeps_values_applies :
  appended (s_mem (ins_state [])) (s_mem grow_state) /\
  fst (lift_values (fun m => m) (bump_ctx EncUtf8) 1 [TU32; TU8] (IBase [CU32 8] 0) (ins_state []))
  = Ok ([VU32 20; VU8 2], IBase [CU32 8] 1) /\
  fst (lift_values (fun m => m) (bump_ctx EncUtf8) 16 [TU8; TString] (IBase [CU32 7; CU32 20; CU32 2] 0) grow_state)
  = Ok ([VU8 7; VStr [0x68; 0x69]], IBase [CU32 7; CU32 20; CU32 2] 3).
Proof. split; [apply grown_keeps_value_applies|]. split; vm_compute; reflexivity. Qed.

Example grown_keeps_lifted_applies :
  let cs := [CU32 20; CU32 2] in
  flattens TString (kinds cs) /\ Forall (fun c => core_bits c < 2 ^ core_width (cval_kind c)) cs /\
  flat_addressable EncUtf8 (s_mem (ins_state [7; 7; 7])) TString cs /\
  fst (lift_flat (bump_ctx EncUtf8) TString (IBase cs 0) (ins_state [7; 7; 7])) = Ok (VStr [0x68; 0x69], IBase cs 2) /\
  fst (lift_flat (bump_ctx EncUtf8) TString (IBase cs 0) grow_state) = Ok (VStr [0x68; 0x69], IBase cs 2).
Proof.
  split; [apply flattens_iff; reflexivity|]. split; [repeat constructor|]. split; [|split; vm_compute; reflexivity].
  intros st w E. injection E as <- <-. split; [right; reflexivity|]. intros c n E. injection E as <- <-. reflexivity.
Qed.

(** Only success is kept: what lay outside memory may be inside afterwards. *)
Theorem grown_keeps_error_refuted :
  ~ (forall cx t p s1 s2 e s1', appended (s_mem s1) (s_mem s2) -> s_world s1 = s_world s2 ->
       load cx t p s1 = (Err e, s1') -> exists e' s2', load cx t p s2 = (Err e', s2')).
Proof.
  intros H.
  destruct (H (bump_ctx EncUtf8) TString 0 (mkState (mkMem [8; 0; 0; 0; 1; 0; 0; 0] 8) [] ins_world)
    (mkState (mkMem [8; 0; 0; 0; 1; 0; 0; 0; 0x68] 9) [] ins_world) ETrap (mkState (mkMem [8; 0; 0; 0; 1; 0; 0; 0] 8) [] ins_world)) as (e & s & E).
  - split; [cbn; lia|]. split; [reflexivity|]. exists [0x68]. reflexivity.
  - reflexivity.
  - vm_compute. reflexivity.
  - vm_compute in E. discriminate E.
Qed.
Print Assumptions grown_keeps_error_refuted.

(** The length has to fit in 32 bits. A memory of 4 GiB, the most there can be,
    has a length of which the program sees 0: every text that could be loaded
    traps once memory has grown to that, but for the empty one. *)
Theorem full_memory_keeps_texts_refuted : forall cx p more s1 s2 txt s1',
  m_data (s_mem s2) = (m_data (s_mem s1) ++ more)%list -> m_len (s_mem s2) = 2 ^ 32 ->
  load cx TString p s1 = (Ok (VStr txt), s1') -> txt <> [] ->
  load cx TString p s2 = (Err ETrap, s2).
Proof. intros cx p more s1 s2 txt s1'. exact (full_text cx p more s1 s2 txt s1'). Qed.
Print Assumptions full_memory_keeps_texts_refuted.

(** It is the same with lists: in such a memory none can be lifted, except an
    empty one at address 0. *)
Theorem full_memory_keeps_lists_refuted : forall cx t a sz p n s,
  sp_layout t = Some (a, sz) -> wf_type (TList t) -> m_len (s_mem s) = 2 ^ 32 ->
  (a | p) -> 0 < p + n * sz < 2 ^ 32 ->
  lift_flat cx (TList t) (IBase [CU32 p; CU32 n] 0) s = (Err ETrap, s).
Proof. intros cx t a sz p n s. exact (full_list cx t a sz p n s). Qed.
Print Assumptions full_memory_keeps_lists_refuted.

Definition small_text : list N := [8; 0; 0; 0; 1; 0; 0; 0; 0x68].
Example full_memory_applies : exists more s2,
  m_data (s_mem s2) = (small_text ++ more)%list /\ m_len (s_mem s2) = 2 ^ 32 /\ mem_cap (s_mem s2) = 2 ^ 32 /\
  fst (load (bump_ctx EncUtf8) TString 0 (mkState (mkMem small_text 9) [] ins_world)) = Ok (VStr [0x68]) /\
  fst (load (bump_ctx EncUtf8) TString 0 s2) = Err ETrap /\
  fst (lift_flat (bump_ctx EncUtf8) (TList TU8) (IBase [CU32 0; CU32 4] 0) (mkState (mkMem small_text 9) [] ins_world))
  = Ok (VList [VU8 8; VU8 0; VU8 0; VU8 0], IBase [CU32 0; CU32 4] 2) /\
  fst (lift_flat (bump_ctx EncUtf8) (TList TU8) (IBase [CU32 0; CU32 4] 0) s2) = Err ETrap.
Proof.
  assert (X : exists more, N.of_nat (List.length (small_text ++ more)) = 2 ^ 32).
  { exists (repeat 0 (N.to_nat (2 ^ 32 - 9))). rewrite app_length, repeat_length, Nat2N.inj_add, N2Nat.id. reflexivity. }
  destruct X as [more X]. exists more, (mkState (mkMem (small_text ++ more) (2 ^ 32)) [] ins_world).
  split; [reflexivity|]. split; [reflexivity|]. split; [exact X|]. split; [vm_compute; reflexivity|].
  split; [|split; [vm_compute; reflexivity|]].
  - erewrite (full_memory_keeps_texts_refuted _ _ more (mkState (mkMem small_text 9) [] ins_world) _ [0x68]);
      [reflexivity|reflexivity|reflexivity|vm_compute; reflexivity|discriminate].
  - rewrite (full_memory_keeps_lists_refuted _ TU8 1 1); [reflexivity|reflexivity| |reflexivity|exists 0; reflexivity|split; reflexivity].
    split; [exact I|]. exists 1, 1. split; reflexivity.
Qed.
