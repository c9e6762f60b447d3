(** Property theorems about values that are copied from one place to another (C91). *)
From Coq Require Import NArith ZArith List String Bool Lia ZifyBool ZifyNat ZifyN.
From Verif Require Import GoBase M_Types M_Layout S_Layout L_Layout M_State M_Utf M_Load
  S_Utf S_Values S_Memory S_Access S_Flat S_Format S_Inside S_Looks S_Move L_Access L_Mem L_Frame L_Looks L_Move
  P_Memory P_Format P_Inside P_Looks.
Import ListNotations.
Open Scope N_scope.
Open Scope go_scope.

(** ** C91 *)

(** Where a value without texts and lists lies does not matter, nor in which
    memory: the same bytes at two aligned places, in memories of any two
    lengths, load as the same value or fail with the same error, and do the same
    to handles. *)
Theorem bytes_load_alike : forall cx t a sz p1 p2 s1 s2,
  sp_layout t = Some (a, sz) -> wf_type t -> inline t ->
  wf_mem (s_mem s1) -> wf_mem (s_mem s2) -> s_world s1 = s_world s2 ->
  (a | p1) -> (a | p2) -> p1 + sz <= m_len (s_mem s1) -> p2 + sz <= m_len (s_mem s2) ->
  copied (s_mem s1) p1 (s_mem s2) p2 sz ->
  exists o w, returned o /\
    load cx t p1 s1 = (o, with_world s1 w) /\ load cx t p2 s2 = (o, with_world s2 w).
Proof.
  intros cx t a sz p1 p2 s1 s2 Hl Hwf Hi W1 W2 Ew D1 D2 H1 H2 C.
  exact (moves_all cx t a sz p1 p2 s1 s2 Hl Hwf (mkNear _ _ W1 W2 Ew) D1 D2 H1 H2 C (or_introl Hi)).
Qed.
Print Assumptions bytes_load_alike.

(** A guest may copy any value to another aligned place in its memory, even one
    that overlaps the old place, as long as it does not write over texts and
    lists of the value: the copy loads as what was there before. *)
Theorem copy_loads_alike : forall cx t a sz p1 p2 s1 s2,
  sp_layout t = Some (a, sz) -> wf_type t ->
  wf_mem (s_mem s1) -> wf_mem (s_mem s2) -> s_world s1 = s_world s2 -> m_len (s_mem s1) = m_len (s_mem s2) ->
  (a | p1) -> (a | p2) -> p1 + sz <= m_len (s_mem s1) -> p2 + sz <= m_len (s_mem s1) ->
  addressable (cx_enc cx) (s_mem s1) t p1 ->
  copied (s_mem s1) p1 (s_mem s2) p2 sz ->
  (forall b, b < m_len (s_mem s1) -> ~ within p2 sz b -> byte (s_mem s1) b = byte (s_mem s2) b) ->
  (forall b, behind (cx_enc cx) (s_mem s1) t p1 b -> ~ within p2 sz b) ->
  exists o w, returned o /\
    load cx t p1 s1 = (o, with_world s1 w) /\ load cx t p2 s2 = (o, with_world s2 w).
Proof.
  intros cx t a sz p1 p2 s1 s2 Hl Hwf W1 W2 Ew L D1 D2 H1 H2 Had C Hk Hb. rewrite L in H2.
  apply (moves_all cx t a sz p1 p2 s1 s2 Hl Hwf (mkNear _ _ W1 W2 Ew) D1 D2 H1 H2 C). right.
  split; [exact L|]. split; [exact Had|]. intros b Hlt B. apply Hk; auto.
Qed.
Print Assumptions copy_loads_alike.

(** Nothing is behind a value without texts and lists: it may be copied anywhere. *)
Theorem nothing_behind_inline : forall enc m t a sz p b, sp_layout t = Some (a, sz) -> inline t -> ~ behind enc m t p b.
Proof. intros enc m t a sz p b _. apply inline_nothing_behind. Qed.
Print Assumptions nothing_behind_inline.

(** What is behind a value is part of it. *)
Theorem behind_is_part : forall enc m t p b, behind enc m t p b -> part_of enc m t p b.
Proof. exact behind_part. Qed.
Print Assumptions behind_is_part.

(** The hypotheses can be met: a record with a text is copied over its own end,
    the text stays where it is. *)
Definition move_type : valtype := TRecord [("a", TU8); ("s", TString)]%string.
Definition move_state (copy : bool) : state :=
  mkState (mkMem ([7; 1; 2; 3;  33; 0; 0; 0] ++
    (if copy then [7; 1; 2; 3; 33; 0; 0; 0; 2; 0; 0; 0] else [2; 0; 0; 0; 0xEE; 0xEE; 0xEE; 0xEE; 0xEE; 0xEE; 0xEE; 0xEE]) ++
    [0xEE; 0xEE; 0xEE; 0xEE; 0xEE; 0xEE; 0xEE; 0xEE; 0xEE; 0xEE; 0xEE; 0xEE; 0xEE; 0x68; 0x69; 0xEE; 0xEE; 0xEE; 0xEE; 0xEE]) 40) [] demo_world.

Lemma below_cases : forall (P : N -> Prop) n, Forall P (map N.of_nat (seq 0 (N.to_nat n))) -> forall i, i < n -> P i.
Proof.
  intros P n H i Hi. rewrite Forall_forall in H. apply H. rewrite <- (N2Nat.id i). apply in_map. apply in_seq. lia.
Qed.

Example copy_loads_alike_applies :
  sp_layout move_type = Some (4, 12) /\ wf_type move_type /\
  wf_mem (s_mem (move_state false)) /\ wf_mem (s_mem (move_state true)) /\
  addressable EncUtf8 (s_mem (move_state false)) move_type 0 /\
  copied (s_mem (move_state false)) 0 (s_mem (move_state true)) 8 12 /\
  (forall b, b < 40 -> ~ within 8 12 b -> byte (s_mem (move_state false)) b = byte (s_mem (move_state true)) b) /\
  (forall b, behind EncUtf8 (s_mem (move_state false)) move_type 0 b -> ~ within 8 12 b) /\
  (exists b, behind EncUtf8 (s_mem (move_state false)) move_type 0 b) /\
  load (bump_ctx EncUtf8) move_type 8 (move_state true) =
    (Ok (VMap [("a", VU8 7); ("s", VStr [0x68; 0x69])]%string), move_state true).
Proof.
  split; [reflexivity|]. split.
  { cbn [wf_type move_type map fst snd]. split; [repeat constructor; cbn; intuition discriminate|]. cbn. auto. }
  split; [split; [reflexivity|split; [reflexivity|repeat constructor]]|].
  split; [split; [reflexivity|split; [reflexivity|repeat constructor]]|].
  split.
  { intros ls E. injection E as <-. constructor; [exact I|].
    constructor; [|constructor]. split; [right; reflexivity|]. intros c n E. vm_compute in E. injection E as <- <-. reflexivity. }
  split; [unfold copied; apply (below_cases (fun i => byte _ (0 + i) = byte _ (8 + i))); vm_compute; repeat constructor|].
  split.
  { apply (below_cases (fun b => ~ within 8 12 b -> byte _ b = byte _ b)).
    repeat constructor; intros X; try reflexivity; exfalso; apply X; split; vm_compute; congruence. }
  assert (W : forall b, behind EncUtf8 (s_mem (move_state false)) move_type 0 b <-> among 33 2 b).
  { intros b. split.
    - intros (ls & f & o & E & Hin & Hb). vm_compute in E. injection E as <-. cbn in Hin.
      destruct Hin as [X|[X|[]]]; injection X as <- <-; cbn [snd behind] in Hb; [contradiction|].
      destruct Hb as (c & n & Et & Hb). vm_compute in Et. injection Et as <- <-. exact Hb.
    - intros Hb. exists [(1, 1); (4, 8)], ("s"%string, (Some (4, 8), behind EncUtf8 (s_mem (move_state false)) TString)), 4.
      split; [reflexivity|]. split; [right; left; reflexivity|]. exists CUtf8, 2. split; [reflexivity|exact Hb]. }
  split; [intros b Hb [X Y]; apply W in Hb; destruct Hb; lia|].
  split; [exists 33; apply W; split; reflexivity|]. vm_compute. reflexivity.
Qed.

(** Alignment is needed: fields are looked for at aligned addresses, so that the
    same bytes at another place are another value. *)
Theorem misaligned_copy_refuted : exists cx t a sz p1 p2 s1 s2,
  sp_layout t = Some (a, sz) /\ wf_type t /\ inline t /\ wf_mem (s_mem s1) /\ wf_mem (s_mem s2) /\
  (a | p1) /\ p1 + sz <= m_len (s_mem s1) /\ p2 + sz <= m_len (s_mem s2) /\
  copied (s_mem s1) p1 (s_mem s2) p2 sz /\
  (exists v1 v2, load cx t p1 s1 = (Ok v1, s1) /\ load cx t p2 s2 = (Ok v2, s2) /\ v1 <> v2).
Proof.
  exists (bump_ctx EncUtf8), (TRecord [("a", TU8); ("b", TU16)]%string), 2, 4, 0, 1,
    (mkState (mkMem [1; 2; 3; 4; 5; 6; 7; 8] 8) [] demo_world), (mkState (mkMem [0; 1; 2; 3; 4; 5; 6; 7] 8) [] demo_world).
  split; [reflexivity|]. split; [split; [repeat constructor; cbn; intuition discriminate|cbn; auto]|]. split; [cbn; auto|].
  split; [split; [reflexivity|split; [reflexivity|repeat constructor]]|].
  split; [split; [reflexivity|split; [reflexivity|repeat constructor]]|].
  split; [exists 0; reflexivity|]. split; [vm_compute; congruence|]. split; [vm_compute; congruence|].
  split; [unfold copied; apply (below_cases (fun i => byte _ (0 + i) = byte _ (1 + i))); vm_compute; repeat constructor|].
  do 2 eexists. split; [vm_compute; reflexivity|]. split; [vm_compute; reflexivity|]. discriminate.
Qed.
Print Assumptions misaligned_copy_refuted.
