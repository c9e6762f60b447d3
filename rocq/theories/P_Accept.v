(** Property theorems about which Go values are accepted (C55). *)
From Coq Require Import NArith ZArith List String Bool Lia.
From Verif Require Import GoBase M_Types M_Layout S_Layout M_State M_Utf M_Load M_Store M_Flat
  S_Values S_Memory S_Flat S_Accept L_Accept P_Memory.
Import ListNotations.
Open Scope N_scope.
Open Scope go_scope.

(** ** C55 *)

(** Store succeeds only for values of the right dynamic types, at every depth. *)
Theorem store_accepts_only : forall cx t v p s s',
  store cx t v p s = (Ok tt, s') -> storable t v.
Proof. intros. eapply store_needs. eassumption. Qed.
Print Assumptions store_accepts_only.

(** So does LowerFlat, which also compares the widths of integers. *)
Theorem lower_accepts_only : forall cx t v s cs s',
  lower_flat cx t v s = (Ok cs, s') -> lowerable t v.
Proof. intros. eapply lower_needs. eassumption. Qed.
Print Assumptions lower_accepts_only.

(** Booleans, integers and chars of the wrong type are refused with an error,
    and nothing is written. *)
Theorem store_refuses_unchanged : forall cx t v p a n s,
  In t [TBool; TU8; TU16; TU32; TU64; TS8; TS16; TS32; TS64; TChar] ->
  sp_layout t = Some (a, n) -> p + n < 2 ^ 32 -> wf_mem (s_mem s) -> ~ storable t v ->
  exists e, store cx t v p s = (Err e, s).
Proof. exact store_refuses_scalar. Qed.
Print Assumptions store_refuses_unchanged.

(** LowerFlat refuses booleans, integers, floats and handles of the wrong type
    with an error, and changes nothing. *)
Theorem lower_refuses_unchanged : forall cx t v s,
  In t [TBool; TU8; TU16; TU32; TU64; TS8; TS16; TS32; TS64; TF32; TF64] \/ (exists rt, t = TOwn rt \/ t = TBorrow rt) ->
  ~ lowerable t v -> exists e, lower_flat cx t v s = (Err e, s).
Proof.
  intros cx t v s Ht Hn. unfold lowerable in Hn. destruct Ht as [Ht|(rt & [-> | ->])].
  - repeat (destruct Ht as [<-|Ht]; [cbn in Hn; destruct v; first [exfalso; apply Hn; eexists; reflexivity|eexists; reflexivity]|]). destruct Ht.
  - cbn in Hn. destruct v; first [exfalso; apply Hn; eexists; reflexivity|eexists; reflexivity].
  - cbn in Hn. destruct v; first [exfalso; apply Hn; eexists; reflexivity|eexists; reflexivity].
Qed.
Print Assumptions lower_refuses_unchanged.

Example lower_refuses_unchanged_applies : ~ lowerable TU8 (VU16 1) /\ ~ lowerable TF32 (VF64 0) /\ ~ lowerable TBool (VU8 1).
Proof. repeat split; intros [x H]; discriminate. Qed.

(** A record of a list of u16 and an option: accepted with the right types, and
    refused when a signed integer is put into the list. *)
Definition acc_type : valtype := TRecord [("l", TList TU16); ("o", TOption TS8)]%string.
Definition acc_val (x : any) : any := VMap [("l", VList [VU16 7; x]); ("o", VMap [("some", VS8 (-1))])]%string.

Example store_accepts_only_applies :
  fst (store (bump_ctx EncUtf8) acc_type (acc_val (VU16 8)) 8 (demo_state 200)) = Ok tt /\
  fst (store (bump_ctx EncUtf8) acc_type (acc_val (VS16 8)) 8 (demo_state 200)) = Err EOther /\
  fst (lower_flat (bump_ctx EncUtf8) acc_type (acc_val (VU16 8)) (demo_state 200)) = Ok [CU32 64; CU32 2; CU32 1; CU32 4294967295] /\
  fst (lower_flat (bump_ctx EncUtf8) acc_type (acc_val (VInt 8)) (demo_state 200)) = Err EOther.
Proof. vm_compute. repeat split. Qed.

Example store_refuses_unchanged_applies : ~ storable TU8 (VS8 1) /\ ~ storable TS8 (VU8 1) /\ ~ storable TU32 (VInt 1) /\ ~ storable TBool (VU8 1).
Proof.
  repeat split.
  - intros [H _]. apply H. exists 1%Z. auto.
  - intros (z & [H|[H|[H|H]]]); discriminate.
  - intros [_ H]. apply H. exists 1%Z, 0. auto.
  - intros [b H]. discriminate.
Qed.

(** Store does not compare widths: a u16 put at u8 loses its high byte. *)
Theorem store_exact_width_refuted : exists cx p s n,
  n < 2 ^ 16 /\ ~ exact_number TU8 (VU16 n) /\
  exists s', store cx TU8 (VU16 n) p s = (Ok tt, s') /\ number (s_mem s') p 1 <> n.
Proof.
  exists (bump_ctx EncUtf8), 0, (demo_state 16), 300. split; [reflexivity|]. split; [intros [k H]; discriminate|].
  eexists. split; [vm_compute; reflexivity|]. vm_compute. discriminate.
Qed.
Print Assumptions store_exact_width_refuted.

(** A value that is no number at all is stored as 0 at an unsigned type. *)
Theorem store_numbers_only_refuted : exists cx p s s1 s2 s3,
  store cx TU32 (VStr [104; 105]) p s = (Ok tt, s1) /\ number (s_mem s1) p 4 = 0 /\
  store cx TU32 (VF64 4607182418800017408) p s = (Ok tt, s2) /\ number (s_mem s2) p 4 = 0 /\
  store cx TU32 VNil p s = (Ok tt, s3) /\ number (s_mem s3) p 4 = 0.
Proof.
  exists (bump_ctx EncUtf8), 0, (demo_state 16). do 3 eexists.
  split; [vm_compute; reflexivity|]. split; [vm_compute; reflexivity|].
  split; [vm_compute; reflexivity|]. split; [vm_compute; reflexivity|].
  split; [vm_compute; reflexivity|]. vm_compute; reflexivity.
Qed.
Print Assumptions store_numbers_only_refuted.

(** So a record with a missing integer field is stored. *)
Theorem store_all_fields_refuted : exists cx p s s',
  store cx (TRecord [("a", TU8); ("b", TU8)]%string) (VMap [("a", VU8 1)]%string) p s = (Ok tt, s').
Proof. exists (bump_ctx EncUtf8), 0, (demo_state 16). eexists. vm_compute; reflexivity. Qed.
Print Assumptions store_all_fields_refuted.

(** Not every refusal is an error: floats and flags panic in Store, chars and
    strings in LowerFlat. *)
Theorem refusal_is_an_error_refuted : exists cx p s,
  store cx TF32 (VF64 0) p s = (Panic, s) /\ store cx TF64 (VF32 0) p s = (Panic, s) /\
  store cx (TFlags ["a"]%string) (VU8 1) p s = (Panic, s) /\
  lower_flat cx TChar (VU32 97) s = (Panic, s) /\ lower_flat cx TString (VU32 97) s = (Panic, s).
Proof. exists (bump_ctx EncUtf8), 0, (demo_state 16). repeat split; vm_compute; reflexivity. Qed.
Print Assumptions refusal_is_an_error_refuted.
