(** Specialised types behave as the record or variant they abbreviate. *)
From Coq Require Import NArith ZArith List String Bool.
From Verif Require Import GoBase M_Types M_Layout M_State M_Utf M_Load M_Store M_Flat L_Layout.
Import ListNotations.
Open Scope N_scope.
Open Scope go_scope.

Lemma despecialize_idempotent : forall t, despecialize (despecialize t) = despecialize t.
Proof. destruct t; reflexivity. Qed.

Lemma load_despecialize : forall cx t, load cx (despecialize t) = load cx t.
Proof.
  intros cx t. destruct t; try reflexivity; cbn [despecialize load].
  - rewrite (map_itoa_fields (fun t => mkComp (alignment t) (size t) (load cx t))). reflexivity.
  - rewrite map_enum_cases. reflexivity.
  - rewrite map_itoa_cases. reflexivity.
Qed.

Lemma store_despecialize : forall cx t, store cx (despecialize t) = store cx t.
Proof.
  intros cx t.
  pose proof (alignment_despecialize t) as Ha. pose proof (size_despecialize t) as Hs.
  destruct t; try reflexivity; cbn [despecialize] in *; unfold store; fold store; rewrite Ha, Hs.
  - rewrite (map_itoa_fields (fun t => mkComp (alignment t) (size t) (store cx t))). reflexivity.
  - rewrite map_enum_cases. reflexivity.
  - rewrite map_itoa_cases. reflexivity.
Qed.

Lemma lift_flat_despecialize : forall cx t, lift_flat cx (despecialize t) = lift_flat cx t.
Proof.
  intros cx t. pose proof (flatten_despecialize t) as Hf.
  destruct t; try reflexivity; cbn [despecialize lift_flat] in *; try rewrite Hf.
  - rewrite map_itoa_fields. reflexivity.
  - rewrite map_enum_cases. reflexivity.
  - rewrite map_itoa_cases. reflexivity.
Qed.

Lemma lower_flat_despecialize : forall cx t, lower_flat cx (despecialize t) = lower_flat cx t.
Proof.
  intros cx t. pose proof (flatten_despecialize t) as Hf.
  destruct t; try reflexivity; cbn [despecialize lower_flat] in *; try rewrite Hf.
  - rewrite map_itoa_fields. reflexivity.
  - rewrite map_enum_cases. reflexivity.
  - rewrite map_itoa_cases. reflexivity.
Qed.
