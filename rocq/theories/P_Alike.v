(** Property theorems about values that are the same (C95). *)
From Coq Require Import NArith ZArith List String Bool Lia ZifyBool ZifyNat ZifyN.
From Verif Require Import GoBase M_Types M_Layout S_Layout L_Layout M_State M_Utf M_Load M_Store M_Flat M_Canon
  S_Utf S_Values S_Memory S_Access S_Flat S_Alike L_Access L_Mem L_StoreLoad L_CtxFree L_Alike P_Memory P_Own P_Reads.
Import ListNotations.
Open Scope N_scope.
Open Scope go_scope.

(** ** C95 *)

(** Storing the one is storing the other, wherever and with whatever allocator:
    the outcome is the same and so are all effects. *)
Theorem same_value_stored_alike : forall cx t v v' p s,
  wf_type t -> same_value t v v' -> store cx t v p s = store cx t v' p s.
Proof. intros cx t v v' p s Hwf Hs. exact (store_alike cx t v v' p Hwf Hs s). Qed.
Print Assumptions same_value_stored_alike.

(** Both have the same core values. *)
Theorem same_value_lowered_alike : forall cx t v v' s,
  wf_type t -> same_value t v v' -> lower_flat cx t v s = lower_flat cx t v' s.
Proof. intros cx t v v' s Hwf Hs. exact (lower_alike cx t v v' Hwf Hs s). Qed.
Print Assumptions same_value_lowered_alike.

(** A core function called with the one or the other as arguments cannot tell
    them apart. *)
Theorem same_arguments_same_call : forall order opts inst callee ft args args' maxp maxr s,
  Forall wf_type (param_types ft) -> each_same (param_types ft) args args' ->
  canon_lift order opts inst callee ft args maxp maxr s = canon_lift order opts inst callee ft args' maxp maxr s.
Proof. intros. apply canon_lift_alike; assumption. Qed.
Print Assumptions same_arguments_same_call.

(** Core code that calls a host function cannot tell which of them it returned. *)
Theorem same_results_same_call : forall order opts inst host host' imp ft flat maxp maxr s,
  Forall wf_type (result_types ft) -> alike_hosts (result_types ft) host host' ->
  canon_lower order opts inst host imp ft flat maxp maxr s = canon_lower order opts inst host' imp ft flat maxp maxr s.
Proof. intros. apply canon_lower_alike; assumption. Qed.
Print Assumptions same_results_same_call.

(** What is loaded back after a store may be stored instead of the original:
    anywhere, in any state and for any call, with the same outcome and effects. *)
Theorem loaded_replaces_original : forall cx init t a sz v p s s',
  correct_allocator cx init ->
  wf_type t -> has_type (cx_enc cx) t v ->
  sp_layout t = Some (a, sz) -> (a | p) ->
  wf_mem (s_mem s) -> p + sz <= m_len (s_mem s) ->
  (forall b, within p sz b -> owned init (s_hist s) b) ->
  store cx t v p s = (Ok tt, s') ->
  exists v', load cx t p s' = (Ok v', s') /\
    (forall cx2 p2 s2, store cx2 t v' p2 s2 = store cx2 t v p2 s2) /\
    (forall cx2 s2, lower_flat cx2 t v' s2 = lower_flat cx2 t v s2).
Proof.
  intros cx init t a sz v p s s' Hc Hwf Hty Hl Hd Hm Hp Ho E.
  destruct (load_after_store cx init t a sz v p s _ s' Hc Hwf Hty Hl Hd Hm Hp Ho E) as [(_ & v' & El & Hs)|(? & ? & _ & _ & [])].
  exists v'. split; [exact El|]. split; intros; symmetry; [apply same_value_stored_alike|apply same_value_lowered_alike]; assumption.
Qed.
Print Assumptions loaded_replaces_original.

(** The hypotheses can be met by two values that are the same but not equal: a
    NaN with a payload, a further field, and a case named with refinements. *)
Definition alike_type : valtype :=
  TRecord [("f", TF32); ("v", TVariant [mkCase "x" (Some TU8) None; mkCase "y" None None])]%string.
Definition alike_one : any :=
  VMap [("more", VU8 9); ("v", VMap [("new|x", VU8 3)]); ("f", VF32 0x7fc12345)]%string.
Definition alike_two : any :=
  VMap [("f", VF32 0x7fc00000); ("v", VMap [("x", VU8 3)])]%string.
Example same_value_alike_applies :
  wf_type alike_type /\ same_value alike_type alike_one alike_two /\ alike_one <> alike_two /\
  fst (lower_flat (bump_ctx EncUtf8) alike_type alike_one (own_state 3)) = Ok [CF32 0x7fc00000; CU32 0; CU32 3] /\
  fst (store (bump_ctx EncUtf8) alike_type alike_one 8 (own_state 3)) = Ok tt /\
  each_same [alike_type; TU8] [alike_one; VU8 1] [alike_two; VU8 1] /\
  alike_hosts [alike_type] (fun _ => ret ([alike_one], None)) (fun _ => ret ([alike_two], None)).
Proof.
  assert (S : same_value alike_type alike_one alike_two).
  { cbn [same_value alike_type]. do 2 eexists. split; [reflexivity|]. split; [reflexivity|]. split.
    - repeat apply Forall_cons; try apply Forall_nil; cbn [fst snd].
      + do 2 eexists. split; [reflexivity|]. split; [reflexivity|]. do 2 eexists. split; [reflexivity|]. split; [reflexivity|].
        left. split; [split; [reflexivity|discriminate]|reflexivity].
      + do 2 eexists. split; [reflexivity|]. split; [reflexivity|]. exists "new|x"%string, (VU8 3), "x"%string, (VU8 3), 0%nat. eexists.
        split; [reflexivity|]. split; [reflexivity|]. split.
        { exists ["new"%string], "x"%string, []. repeat split; repeat constructor; cbn; intuition discriminate. }
        split.
        { exists [], "x"%string, []. repeat split; repeat constructor; cbn; intuition discriminate. }
        split; reflexivity.
    - intros l Hl. cbn in *. destruct (String.eqb l "f") eqn:E1; [apply String.eqb_eq in E1; subst; auto|].
      destruct (String.eqb l "v") eqn:E2; [apply String.eqb_eq in E2; subst; auto|]. contradiction Hl. reflexivity. }
  split.
  { cbn [wf_type alike_type map fst snd]. split; [repeat constructor; cbn; intuition discriminate|].
    cbn [all fold_right map snd wf_type c_type]. repeat split; repeat constructor; cbn; intuition discriminate. }
  split; [exact S|]. split; [discriminate|]. split; [vm_compute; reflexivity|]. split; [vm_compute; reflexivity|].
  split; [repeat constructor; exact S|]. intros vs s. right. do 4 eexists. split; [reflexivity|]. split; [reflexivity|]. repeat constructor. exact S.
Qed.
