(** Proofs: values without texts, lists and handles are lowered and lifted
    without looking at anything else. *)
From Coq Require Import NArith ZArith List String Bool Lia ZifyBool ZifyNat ZifyN.
From Verif Require Import GoBase M_Types M_Layout S_Layout L_Layout M_State M_Utf M_Load M_Store M_Flat
  S_Utf S_Values S_Memory S_Flat L_Variant L_Labels L_Despecialize L_CtxFree L_Flat.
Import ListNotations.
Open Scope N_scope.
Open Scope go_scope.

(** Both have the same outcome in every state and leave it as it is. *)
Definition both {A} (m m' : M A) : Prop := exists o, forall s, m s = (o, s) /\ m' s = (o, s).

Lemma both_lift {A} (o : outcome A) : both (lift_o o) (lift_o o).
Proof. exists o. intros s. split; reflexivity. Qed.
Lemma both_ret {A} (x : A) : both (ret x) (ret x).
Proof. exists (Ok x). intros s. split; reflexivity. Qed.
Lemma both_bind {A B} (m m' : M A) (f f' : A -> M B) : both m m' -> (forall x, both (f x) (f' x)) -> both (bind m f) (bind m' f').
Proof.
  intros [o Hm] Hf. destruct o as [x|e| |].
  - destruct (Hf x) as [o Ho]. exists o. intros s. destruct (Hm s) as [E E'], (Ho s) as [F F']. unfold bind. rewrite E, E'. split; assumption.
  - exists (Err e). intros s. destruct (Hm s) as [E E']. unfold bind. rewrite E, E'. split; reflexivity.
  - exists Panic. intros s. destruct (Hm s) as [E E']. unfold bind. rewrite E, E'. split; reflexivity.
  - exists Diverge. intros s. destruct (Hm s) as [E E']. unfold bind. rewrite E, E'. split; reflexivity.
Qed.
Create HintDb both.
#[export] Hint Resolve both_lift both_ret : both.
Ltac both1 :=
  match goal with
  | |- both (bind _ _) (bind _ _) => apply both_bind; [|let x := fresh "x" in intros x]
  | |- both (match ?x with _ => _ end) (match ?x with _ => _ end) => destruct x
  | _ => solve [auto with both]
  end.
Ltac plainly := intros; repeat both1.

Lemma both_u32 it : both (next_u32 it) (next_u32 it).
Proof. unfold next_u32. plainly. Qed.
Lemma both_u64 it : both (next_u64 it) (next_u64 it).
Proof. unfold next_u64. plainly. Qed.
Lemma both_f32 it : both (next_f32 it) (next_f32 it).
Proof. unfold next_f32. plainly. Qed.
Lemma both_f64 it : both (next_f64 it) (next_f64 it).
Proof. unfold next_f64. plainly. Qed.
#[export] Hint Resolve both_u32 both_u64 both_f32 both_f64 : both.
Lemma both_words n : forall sh acc it, both (lift_flag_words n sh acc it) (lift_flag_words n sh acc it).
Proof. induction n as [|n IH]; intros sh acc it; cbn [lift_flag_words]; plainly. Qed.
#[export] Hint Resolve both_words : both.


Lemma lift_plain : forall cx cy t, memory_free t -> forall it, both (lift_flat cx t it) (lift_flat cy t it).
Proof.
  intros cx cy t. induction t using valtype_ind'; intros Hf it; cbn [lift_flat];
    try (cbn [memory_free] in Hf; contradiction Hf); try (unfold lmap, lift_flat_char, lift_flat_flags; plainly; fail).
  - unfold lift_flat_record. apply both_bind; [|plainly]. apply free_all in Hf.
    assert (F : forall acc it, both (lift_fields (map (fun f => (fst f, lift_flat cx (snd f))) fs) acc it)
                              (lift_fields (map (fun f => (fst f, lift_flat cy (snd f))) fs) acc it)); [|apply F].
    clear it. induction fs as [|[l t] fs IH]; intros acc it; cbn [map fst snd lift_fields]; [plainly|].
    inversion H; subst. inversion Hf; subst. cbn [snd] in *.
    apply both_bind; [apply H2; assumption|]. intros [v it1]. apply IH; assumption.
  - apply free_all in Hf. unfold lift_flat_variant. rewrite !map_length.
    apply both_bind; [plainly|]. intros [|first rest]; [plainly|]. destruct (negb (kind_eqb first KU32)); [plainly|].
    apply both_bind; [plainly|]. intros [i it1]. destruct (N.of_nat (List.length cs) <=? i); [plainly|].
    rewrite !nth_error_map. destruct (nth_error cs (N.to_nat i)) as [c|] eqn:Ec; cbn [option_map]; [|plainly].
    apply nth_error_In in Ec. rewrite Forall_forall in H, Hf. specialize (H c Ec). specialize (Hf c Ec).
    rewrite !case_label_map'. destruct c as [l [t|] r]; cbn [map_case c_type] in *; [|plainly].
    apply both_bind; [apply H; assumption|plainly].
  - rewrite <- (lift_flat_despecialize cx t), <- (lift_flat_despecialize cy t). apply IHt. apply memory_free_despecialize. exact Hf.
Qed.

Lemma lower_plain : forall cx cy t, memory_free t -> forall v, both (lower_flat cx t v) (lower_flat cy t v).
Proof.
  intros cx cy t. induction t using valtype_ind'; intros Hf v; cbn [lower_flat];
    try (cbn [memory_free] in Hf; contradiction Hf); try (plainly; fail).
  - apply free_all in Hf. unfold lower_flat_record. destruct v; try (plainly; fail).
    induction fs as [|[l t] fs IH]; cbn [map fst snd lower_fields]; [plainly|].
    inversion H; subst. inversion Hf; subst. cbn [snd] in *.
    apply both_bind; [apply H2; assumption|]. intros a. apply both_bind; [apply IH; assumption|]. plainly.
  - apply free_all in Hf. unfold lower_flat_variant. rewrite !match_case_map.
    apply both_bind; [plainly|]. intros [i x]. apply both_bind; [plainly|]. intros [|first rest]; [plainly|].
    destruct (negb (kind_eqb first KU32)); [plainly|].
    rewrite !nth_error_map. destruct (nth_error cs (N.to_nat i)) as [c|] eqn:Ec; cbn [option_map]; [|plainly].
    apply nth_error_In in Ec. rewrite Forall_forall in H, Hf. specialize (H c Ec). specialize (Hf c Ec).
    apply both_bind; [|plainly]. destruct c as [l [t|] r]; cbn [map_case c_type option_map] in *; [apply H; assumption|plainly].
  - rewrite <- (lower_flat_despecialize cx t), <- (lower_flat_despecialize cy t). apply IHt. apply memory_free_despecialize. exact Hf.
Qed.
