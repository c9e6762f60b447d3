(** Property theorems about the names of fields, cases and flags (C90). *)
From Coq Require Import NArith ZArith List String Ascii Bool Lia ZifyBool ZifyNat ZifyN.
From Verif Require Import GoBase M_Types M_Layout S_Layout L_Layout M_State M_Utf M_Load M_Store M_Flat
  S_Values S_Memory S_Access S_Rename L_Labels L_Rename P_Memory P_Own.
Import ListNotations.
Open Scope N_scope.
Open Scope go_scope.

(** ** C90 *)

(** Renaming changes no alignment, no size and no core signature. *)
Theorem names_no_layout : forall r t, renaming r ->
  alignment (rename_type r t) = alignment t /\ size (rename_type r t) = size t /\
  flatten_type (rename_type r t) = flatten_type t.
Proof. intros r t H. exact (layout_same_all r H t). Qed.
Print Assumptions names_no_layout.

(** The renamed value at the renamed type is stored and lowered as before: the
    same outcome, the same memory, calls and tables, the same core values. *)
Theorem names_not_stored : forall r cx t v p s, renaming r ->
  store cx (rename_type r t) (rename_value r v) p s = store cx t v p s.
Proof.
  intros r cx t v p s H. rewrite (store_same_all r H cx t v p s), returning_id. destruct (store cx t v p s); reflexivity.
Qed.
Print Assumptions names_not_stored.

Theorem names_not_lowered : forall r cx t v s, renaming r ->
  lower_flat cx (rename_type r t) (rename_value r v) s = lower_flat cx t v s.
Proof.
  intros r cx t v s H. rewrite (lower_same_all r H cx t v s), returning_id. destruct (lower_flat cx t v s); reflexivity.
Qed.
Print Assumptions names_not_lowered.

(** Loading and lifting at the renamed type does what it does at the type, and
    gives the renamed value. *)
Theorem names_put_back : forall r cx t p s, renaming r ->
  load cx (rename_type r t) p s = (returning (rename_value r) (fst (load cx t p s)), snd (load cx t p s)).
Proof. intros r cx t p s H. exact (load_same_all r H cx t p s). Qed.
Print Assumptions names_put_back.

Theorem names_lifted_back : forall r cx t it s, renaming r ->
  lift_flat cx (rename_type r t) it s =
    (returning (fun x => (rename_value r (fst x), snd x)) (fst (lift_flat cx t it s)), snd (lift_flat cx t it s)).
Proof. intros r cx t it s H. exact (lift_same_all r H cx t it s). Qed.
Print Assumptions names_lifted_back.

(** There are such renamings: two names trade places. *)
Definition trade (s : string) : string :=
  if String.eqb s "x" then "y"%string else if String.eqb s "y" then "x"%string else s.

Lemma itoa_not_letter n : itoa n <> "x"%string /\ itoa n <> "y"%string.
Proof.
  split; intros E; pose proof (itoa_value n) as V; rewrite E in V; vm_compute in V; subst n; vm_compute in E; discriminate E.
Qed.

Example trade_renaming : renaming trade.
Proof.
  constructor; try reflexivity.
  - intros a b. unfold trade.
    destruct (String.eqb_spec a "x"), (String.eqb_spec a "y"), (String.eqb_spec b "x"), (String.eqb_spec b "y"); congruence.
  - intros a H. unfold trade. destruct (String.eqb a "x"), (String.eqb a "y"); try exact H; cbn; repeat split; discriminate.
  - intros n. unfold trade. destruct (itoa_not_letter n) as [A B].
    apply String.eqb_neq in A. apply String.eqb_neq in B. rewrite A, B. reflexivity.
Qed.

(** A type on which it does something: fields that trade names, a case that
    refines another, and flags. *)
Definition named : valtype :=
  TRecord [("x", TU8); ("y", TVariant [mkCase "x" (Some TU64) None; mkCase "y" (Some TU16) (Some "x"%string)]);
           ("f", TFlags ["y"; "q"])]%string.
Definition named_val : any :=
  VMap [("x", VU8 7); ("y", VMap [("y|x", VU16 0x1234)]); ("f", VMap [("y", VBool false); ("q", VBool true)])]%string.

Example names_apply :
  rename_type trade named =
    TRecord [("y", TU8); ("x", TVariant [mkCase "y" (Some TU64) None; mkCase "x" (Some TU16) (Some "y"%string)]);
             ("f", TFlags ["x"; "q"])]%string /\
  rename_value trade named_val =
    VMap [("y", VU8 7); ("x", VMap [("x|y", VU16 0x1234)]); ("f", VMap [("x", VBool false); ("q", VBool true)])]%string /\
  (exists s', store (bump_ctx EncUtf8) named named_val 8 (own_state 0xEE) = (Ok tt, s') /\
     fst (load (bump_ctx EncUtf8) named 8 s') = Ok named_val /\
     fst (load (bump_ctx EncUtf8) (rename_type trade named) 8 s') = Ok (rename_value trade named_val)).
Proof.
  split; [reflexivity|]. split; [reflexivity|]. eexists. split; [vm_compute; reflexivity|]. split; vm_compute; reflexivity.
Qed.

(** Giving two fields one name is another matter: one value is lost. *)
Theorem merging_names_refuted :
  exists r cx t v s s', store cx t v 8 s = (Ok tt, s') /\ rename_type r t <> t /\
    fst (load cx t 8 s') = Ok v /\
    fst (load cx (rename_type r t) 8 s') <> Ok (rename_value r v) /\
    byte (s_mem (snd (store cx (rename_type r t) (rename_value r v) 8 s))) 9 <> byte (s_mem s') 9.
Proof.
  exists (fun _ => "n"%string), (bump_ctx EncUtf8), (TRecord [("x", TU8); ("y", TU8)]%string),
    (VMap [("x", VU8 1); ("y", VU8 2)]%string), (own_state 0xEE).
  eexists. split; [vm_compute; reflexivity|]. split; [vm_compute; discriminate|]. split; [vm_compute; reflexivity|].
  split; vm_compute; discriminate.
Qed.
Print Assumptions merging_names_refuted.
