(** Property theorems about the core values of plain values (C96). *)
From Coq Require Import NArith ZArith List String Bool Lia ZifyBool ZifyNat ZifyN.
From Verif Require Import GoBase M_Types M_Layout S_Layout L_Layout M_State M_Utf M_Load M_Store M_Flat
  S_Utf S_Values S_Memory S_Flat L_CtxFree L_Flat L_Plain P_Memory P_Flat P_Alike.
Import ListNotations.
Open Scope N_scope.
Open Scope go_scope.

(** ** C96 *)

(** The core values of a value without texts, lists and handles depend on the
    value only: not on the call, the encoding, the allocator or the state. They
    are found without any effect. The value need not be of the type. *)
Theorem plain_lowering : forall t v, memory_free t ->
  exists o, forall cx s, lower_flat cx t v s = (o, s).
Proof.
  intros t v Hf. destruct (lower_plain (bump_ctx EncUtf8) (bump_ctx EncUtf8) t Hf v) as [o Ho]. exists o. intros cx s.
  destruct (lower_plain (bump_ctx EncUtf8) cx t Hf v) as [o' Ho']. destruct (Ho s) as [E _], (Ho' s) as [E1 E2]. congruence.
Qed.
Print Assumptions plain_lowering.

(** Which value core values stand for depends on them only. *)
Theorem plain_lifting : forall t it, memory_free t ->
  exists o, forall cx s, lift_flat cx t it s = (o, s).
Proof.
  intros t it Hf. destruct (lift_plain (bump_ctx EncUtf8) (bump_ctx EncUtf8) t Hf it) as [o Ho]. exists o. intros cx s.
  destruct (lift_plain (bump_ctx EncUtf8) cx t Hf it) as [o' Ho']. destruct (Ho s) as [E _], (Ho' s) as [E1 E2]. congruence.
Qed.
Print Assumptions plain_lifting.

(** Values with the same core values are the same value, whatever the calls and
    the states. *)
Theorem same_core_values_same_value : forall cx1 cx2 t ks v1 v2 s1 s2 cs,
  memory_free t -> wf_type t -> flattens t ks ->
  has_type (cx_enc cx1) t v1 -> has_type (cx_enc cx2) t v2 ->
  fst (lower_flat cx1 t v1 s1) = Ok cs -> fst (lower_flat cx2 t v2 s2) = Ok cs ->
  exists w, same_value t v1 w /\ same_value t v2 w.
Proof.
  intros cx1 cx2 t ks v1 v2 s1 s2 cs Hf Hwf Hk T1 T2 E1 E2.
  destruct (flat_round_trip cx1 t ks v1 [] [] s1 Hf Hwf Hk T1) as (c1 & w1 & L1 & _ & R1 & S1).
  destruct (flat_round_trip cx2 t ks v2 [] [] s2 Hf Hwf Hk T2) as (c2 & w2 & L2 & _ & R2 & S2).
  rewrite L1 in E1. rewrite L2 in E2. cbn in E1, E2. injection E1 as ->. injection E2 as ->.
  destruct (plain_lifting t (IBase ([] ++ cs ++ []) (List.length (@nil cval))) Hf) as [o Ho]. rewrite Ho in R1, R2.
  exists w1. split; [exact S1|]. assert (w2 = w1) as <- by congruence. exact S2.
Qed.
Print Assumptions same_core_values_same_value.

(** So two proper values have the same core values exactly if they are the same
    value. *)
Theorem core_values_tell_apart : forall t ks v1 v2 enc1 enc2,
  memory_free t -> wf_type t -> flattens t ks -> has_type enc1 t v1 -> has_type enc2 t v2 ->
  ((forall cx1 cx2 s1 s2, fst (lower_flat cx1 t v1 s1) = fst (lower_flat cx2 t v2 s2)) <->
   exists w, same_value t v1 w /\ same_value t v2 w).
Proof.
  intros t ks v1 v2 enc1 enc2 Hf Hwf Hk T1 T2. split.
  - intros H. set (s := mkState (mkMem [] 0) [] demo_world).
    destruct (flat_round_trip (bump_ctx enc1) t ks v1 [] [] s Hf Hwf Hk T1) as (c1 & w1 & L1 & _).
    apply (same_core_values_same_value (bump_ctx enc1) (bump_ctx enc2) t ks v1 v2 s s c1); try assumption.
    + rewrite L1. reflexivity.
    + rewrite <- (H (bump_ctx enc1) (bump_ctx enc2) s s), L1. reflexivity.
  - intros (w & S1 & S2) cx1 cx2 s1 s2.
    rewrite (same_value_lowered_alike cx1 t v1 w s1 Hwf S1), (same_value_lowered_alike cx2 t v2 w s2 Hwf S2).
    destruct (plain_lowering t w Hf) as [o Ho]. rewrite !Ho. reflexivity.
Qed.
Print Assumptions core_values_tell_apart.

(** The hypotheses can be met, here by the two values of C95. *)
Example plain_applies :
  memory_free alike_type /\ wf_type alike_type /\ flattens alike_type [KF32; KU32; KU32] /\
  has_type EncUtf8 alike_type alike_one /\ has_type EncUtf16 alike_type alike_two /\
  (forall cx s, lower_flat cx alike_type alike_one s = (Ok [CF32 0x7fc00000; CU32 0; CU32 3], s)) /\
  (forall cx s, fst (lift_flat cx alike_type (IBase [CF32 0x7fc00000; CU32 1; CU32 9] 0) s)
     = Ok (VMap [("f", VF32 0x7fc00000); ("v", VMap [("y", VNil)])]%string, IBase [CF32 0x7fc00000; CU32 1; CU32 9] 3)).
Proof.
  destruct same_value_alike_applies as (Hw & _).
  split; [repeat split|]. split; [exact Hw|]. split; [apply flatten_type_as_specified; reflexivity|]. split; [|split; [|split; reflexivity]].
  - cbn [has_type alike_type]. eexists. split; [reflexivity|]. repeat apply Forall_cons; try apply Forall_nil; cbn [fst snd]; eexists; (split; [reflexivity|]).
    + eexists. split; [reflexivity|lia].
    + exists "new|x"%string, (VU8 3), 0%nat. eexists. split; [reflexivity|]. split.
      { exists ["new"%string], "x"%string, []. repeat split; repeat constructor; cbn; intuition discriminate. }
      split; [reflexivity|]. cbn. eexists. split; [reflexivity|lia].
  - cbn [has_type alike_type]. eexists. split; [reflexivity|]. repeat apply Forall_cons; try apply Forall_nil; cbn [fst snd]; eexists; (split; [reflexivity|]).
    + eexists. split; [reflexivity|lia].
    + exists "x"%string, (VU8 3), 0%nat. eexists. split; [reflexivity|]. split.
      { exists [], "x"%string, []. repeat split; repeat constructor; cbn; intuition discriminate. }
      split; [reflexivity|]. cbn. eexists. split; [reflexivity|lia].
Qed.
