(** Property theorems about where loading looks (C69). *)
From Coq Require Import NArith ZArith List String Bool Lia ZifyBool ZifyNat ZifyN.
From Verif Require Import GoBase M_Types M_Layout S_Layout L_Layout M_State M_Utf M_Load
  S_Utf S_Values S_Memory S_Format S_Inside L_Access L_Mem L_Format L_Inside P_Memory P_Format.
Import ListNotations.
Open Scope N_scope.
Open Scope go_scope.

(** ** C69 *)

(** Loading a value from an aligned place inside memory returns, with a value
    or an error. What it returns and what it does to handles depends only on
    the bytes inside memory: whatever else the buffer has beyond the memory's
    length, and however far it extends, makes no difference. It leaves memory
    alone. *)
Theorem load_stays_inside : forall cx t a sz p s1 s2,
  sp_layout t = Some (a, sz) -> wf_type t ->
  wf_mem (s_mem s1) -> wf_mem (s_mem s2) -> same_inside (s_mem s1) (s_mem s2) -> s_world s1 = s_world s2 ->
  (a | p) -> p + sz <= m_len (s_mem s1) -> addressable (cx_enc cx) (s_mem s1) t p ->
  exists o w, returned o /\
    load cx t p s1 = (o, with_world s1 w) /\ load cx t p s2 = (o, with_world s2 w).
Proof.
  intros cx t a sz p s1 s2 Hl Hwf W1 W2 S Ew Hd Hp Had.
  apply (inside_all cx t a sz p s1 s2 Hl Hwf W1 W2 S Ew Hd Hp Had).
Qed.
Print Assumptions load_stays_inside.

(** The hypotheses can be met, by a type with handles in lists and two buffers
    that differ beyond the length. *)
Definition ins_type : valtype :=
  TRecord [("h", TList (TOwn (mkRType 3 None false))); ("t", TString)]%string.
Definition ins_bytes : list N :=
  [16; 0; 0; 0;  1; 0; 0; 0;  20; 0; 0; 0;  2; 0; 0; 0;  0; 0; 0; 0;  0x68; 0x69].
Definition ins_world : world :=
  mkWorld [mkElem 42 0 true None] [] [mkInst true true [(3, mkTable [Some 0%nat] [])]] [].
Definition ins_state (rest : list N) : state := mkState (mkMem (ins_bytes ++ rest) 22) [] ins_world.

Example load_stays_inside_applies :
  sp_layout ins_type = Some (4, 16) /\ wf_type ins_type /\
  wf_mem (s_mem (ins_state [])) /\ wf_mem (s_mem (ins_state [7; 7; 7])) /\
  same_inside (s_mem (ins_state [])) (s_mem (ins_state [7; 7; 7])) /\
  addressable EncUtf8 (s_mem (ins_state [])) ins_type 0 /\
  fst (load (bump_ctx EncUtf8) ins_type 0 (ins_state [])) = Ok (VMap [("h", VList [VU32 42]); ("t", VStr [0x68; 0x69])]%string) /\
  i_tables (nth 0 (w_insts (s_world (snd (load (bump_ctx EncUtf8) ins_type 0 (ins_state []))))) (mkInst true true []))
  = [(3, mkTable [None] [0])].
Proof.
  split; [reflexivity|]. split.
  { cbn [wf_type ins_type map fst snd]. split; [repeat constructor; cbn; intuition discriminate|].
    cbn [all fold_right]. split; [|split; exact I]. split; [exact I|]. exists 4, 4. split; reflexivity. }
  split; [split; [reflexivity|split; [reflexivity|repeat constructor]]|].
  split; [split; [cbn; lia|split; [reflexivity|repeat constructor]]|].
  split; [split; [reflexivity|]; intros i Hi; unfold byte; cbn [s_mem ins_state m_data]; symmetry; apply app_nth1; cbn in *; lia|].
  split; [|split; vm_compute; reflexivity].
  intros ls E. injection E as <-. apply Forall2_cons; [|apply Forall2_cons; [|apply Forall2_nil]].
  - intros a sz Es. injection Es as <- <-. split; [reflexivity|]. intros i Hi. exact I.
  - split; [right; reflexivity|]. intros c n E. vm_compute in E. injection E as <- <-. reflexivity.
Qed.

(** In particular such a load neither panics nor runs forever. *)
Theorem load_inside_returns : forall cx t a sz p s,
  sp_layout t = Some (a, sz) -> wf_type t -> wf_mem (s_mem s) ->
  (a | p) -> p + sz <= m_len (s_mem s) -> addressable (cx_enc cx) (s_mem s) t p ->
  (exists v, fst (load cx t p s) = Ok v) \/ (exists e, fst (load cx t p s) = Err e).
Proof.
  intros cx t a sz p s Hl Hwf W Hd Hp Had.
  destruct (load_stays_inside cx t a sz p s s Hl Hwf W W) as (o & w & [H1 H2] & E & _); try assumption; try reflexivity.
  { split; reflexivity. }
  rewrite E. cbn [fst]. destruct o; [left; eauto|right; eauto|congruence|congruence].
Qed.
Print Assumptions load_inside_returns.

(** Nothing keeps a place outside memory from being loaded: the number comes
    from what the buffer has beyond the memory's length ... *)
Theorem load_outside_traps_refuted : exists cx p s1 s2 v1 v2,
  wf_mem (s_mem s1) /\ wf_mem (s_mem s2) /\ same_inside (s_mem s1) (s_mem s2) /\
  s_world s1 = s_world s2 /\ (4 | p) /\ m_len (s_mem s1) <= p /\
  load cx TU32 p s1 = (Ok (VU32 v1), s1) /\ load cx TU32 p s2 = (Ok (VU32 v2), s2) /\ v1 <> v2.
Proof.
  exists (bump_ctx EncUtf8), 0, (mkState (mkMem [1; 0; 0; 0] 0) [] demo_world), (mkState (mkMem [2; 0; 0; 0] 0) [] demo_world), 1, 2.
  split; [split; [cbn; lia|split; [reflexivity|repeat constructor]]|].
  split; [split; [cbn; lia|split; [reflexivity|repeat constructor]]|].
  split; [split; [reflexivity|cbn; lia]|]. split; [reflexivity|]. split; [exists 0; reflexivity|]. split; [cbn; lia|].
  split; [vm_compute; reflexivity|]. split; [vm_compute; reflexivity|discriminate].
Qed.
Print Assumptions load_outside_traps_refuted.

(** ... and beyond the buffer's end the load panics instead of trapping,
    whatever the integer. *)
Theorem load_beyond_buffer_panics : forall cx p s,
  p + 8 < 2 ^ 32 ->
  (mem_cap (s_mem s) < p + 1 -> fst (load cx TU8 p s) = Panic) /\
  (mem_cap (s_mem s) < p + 2 -> fst (load cx TU16 p s) = Panic) /\
  (mem_cap (s_mem s) < p + 4 -> fst (load cx TU32 p s) = Panic) /\
  (mem_cap (s_mem s) < p + 8 -> fst (load cx TU64 p s) = Panic).
Proof.
  intros cx p s Hp. change (2 ^ 32) with two32 in Hp.
  assert (X : forall k, k <= 8 -> mem_cap (s_mem s) < p + k -> load_uint k p s = (Panic, s)).
  { intros k Hk H. unfold load_uint, bind, get_mem, lift_o. unfold add32. rewrite N.mod_small by lia.
    unfold mem_slice. destruct (N.leb_spec (p + k) (mem_cap (s_mem s))); [lia|]. rewrite andb_false_r. reflexivity. }
  repeat split; intros H; cbn [load load_int]; unfold bind; rewrite X by (assumption || lia); reflexivity.
Qed.
Print Assumptions load_beyond_buffer_panics.

Example load_beyond_buffer_panics_applies :
  mem_cap (s_mem (ins_state [])) < 20 + 4 /\ fst (load (bump_ctx EncUtf8) TU32 20 (ins_state [])) = Panic.
Proof. split; [reflexivity|]. vm_compute. reflexivity. Qed.

(** Nor is a place refused that is not a multiple of the alignment. *)
Theorem load_misaligned_refused_refuted : exists cx t a sz p s v,
  sp_layout t = Some (a, sz) /\ wf_type t /\ wf_mem (s_mem s) /\ ~ (a | p) /\ p + sz <= m_len (s_mem s) /\
  addressable (cx_enc cx) (s_mem s) t p /\ load cx t p s = (Ok v, s).
Proof.
  exists (bump_ctx EncUtf8), TU32, 4, 4, 1, (ins_state []), (VU32 0x01000000).
  split; [reflexivity|]. split; [exact I|]. split; [split; [reflexivity|split; [reflexivity|repeat constructor]]|].
  split; [intros [k E]; lia|]. split; [cbn; lia|]. split; [exact I|vm_compute; reflexivity].
Qed.
Print Assumptions load_misaligned_refused_refuted.

(** A misaligned record is even read at other places than its own: its fields
    are aligned one by one in memory, not relative to the record, and so past
    its end. *)
Theorem load_misaligned_record_inside_refuted : exists cx t a sz p s1 s2,
  sp_layout t = Some (a, sz) /\ wf_type t /\ wf_mem (s_mem s1) /\ wf_mem (s_mem s2) /\
  same_inside (s_mem s1) (s_mem s2) /\ s_world s1 = s_world s2 /\ p + sz <= m_len (s_mem s1) /\
  addressable (cx_enc cx) (s_mem s1) t p /\
  fst (load cx t p s1) <> fst (load cx t p s2).
Proof.
  exists (bump_ctx EncUtf8), (TRecord [("a", TU32)]%string), 4, 4, 1,
    (mkState (mkMem [0; 0; 0; 0; 0; 0; 0; 0] 5) [] demo_world), (mkState (mkMem [0; 0; 0; 0; 0; 9; 0; 0] 5) [] demo_world).
  split; [reflexivity|]. split; [split; [repeat constructor; cbn; tauto|split; exact I]|].
  split; [split; [cbn; lia|split; [reflexivity|repeat constructor]]|].
  split; [split; [cbn; lia|split; [reflexivity|repeat constructor]]|].
  split; [split; [reflexivity|]; cbn [s_mem m_len]; intros i Hi;
    assert (i = 0 \/ i = 1 \/ i = 2 \/ i = 3 \/ i = 4) as [-> | [-> | [-> | [-> | ->]]]] by lia; reflexivity|].
  split; [reflexivity|]. split; [cbn; lia|].
  split; [intros ls E; injection E as <-; repeat constructor|]. vm_compute. discriminate.
Qed.
Print Assumptions load_misaligned_record_inside_refuted.
