(** What lifting a value without handles depends on in its call context: the
    string encoding only. *)
From Coq Require Import NArith ZArith List String Bool Lia.
From Verif Require Import GoBase M_Types M_Layout S_Layout L_Layout M_State M_Utf M_Load M_Store M_Flat S_Flat
  L_Despecialize.
Import ListNotations.
Open Scope N_scope.
Open Scope go_scope.

Definition agree {A} (m m' : M A) : Prop := forall s, m s = m' s.

Lemma agree_refl : forall {A} (m : M A), agree m m.
Proof. intros A m s. reflexivity. Qed.
Lemma agree_bind : forall {A B} (m m' : M A) (f f' : A -> M B), agree m m' -> (forall x, agree (f x) (f' x)) -> agree (bind m f) (bind m' f').
Proof. intros A B m m' f f' Hm Hf s. unfold bind. rewrite (Hm s). destruct (m' s) as [[x|e| |] s1]; auto. apply Hf. Qed.

Create HintDb agree.

Ltac agree1 :=
  match goal with
  | |- agree ?m ?n => constr_eq m n; apply agree_refl
  | |- agree (bind _ _) (bind _ _) => apply agree_bind; [|let x := fresh "x" in intros x]
  | |- agree (match ?x with _ => _ end) (match ?x with _ => _ end) => destruct x
  | _ => solve [auto with agree]
  end.
Ltac concur := intros; repeat agree1.

Lemma agree_elems : forall n ld ld' p sz i, (forall q, agree (ld q) (ld' q)) -> agree (load_elems n ld p sz i) (load_elems n ld' p sz i).
Proof. induction n as [|n IH]; intros; cbn [load_elems]; concur. Qed.
#[export] Hint Resolve agree_elems : agree.
Lemma agree_list : forall al sz ld ld' p n, (forall q, agree (ld q) (ld' q)) ->
  agree (load_list_from_range al sz ld p n) (load_list_from_range al sz ld' p n).
Proof. intros. unfold load_list_from_range. concur. Qed.
#[export] Hint Resolve agree_list : agree.
Lemma agree_text : forall cx cy p n, cx_enc cx = cx_enc cy -> agree (load_string_from_range cx p n) (load_string_from_range cy p n).
Proof. intros cx cy p n E s. unfold load_string_from_range. rewrite E. reflexivity. Qed.
#[export] Hint Resolve agree_text : agree.

Lemma free_all : forall {A} (P : A -> Prop) (l : list A), fold_right and True (map P l) -> Forall P l.
Proof. intros A P l. induction l; cbn; [constructor|]. intros [H1 H2]. constructor; auto. Qed.
Lemma all_free : forall {A} (P : A -> Prop) (l : list A), Forall P l -> fold_right and True (map P l).
Proof. intros A P l. induction 1; cbn; auto. Qed.

Lemma handle_free_despecialize : forall t, handle_free t -> handle_free (despecialize t).
Proof.
  intros t H. destruct t; cbn [despecialize handle_free] in *; auto.
  - apply free_all in H. apply all_free. unfold itoa_fields. generalize 0. revert H.
    induction 1; intros k; cbn; [constructor|constructor; cbn; auto].
  - apply all_free. unfold enum_cases. apply Forall_map. apply Forall_forall. cbn. auto.
  - cbn. auto.
  - cbn. destruct H. destruct ok, err; cbn; auto.
  - apply free_all in H. apply all_free. unfold itoa_cases. generalize 0. revert H.
    induction 1; intros k; cbn; [constructor|constructor; cbn; auto].
Qed.

Lemma map_case_Forall : forall {A B C} (R : B -> C -> Prop) (f : A -> B) (g : A -> C) cs,
  Forall (fun c => forall x, c_type c = Some x -> R (f x) (g x)) cs ->
  forall i, match nth_error (map (map_case f) cs) i, nth_error (map (map_case g) cs) i with
            | Some c, Some c' => c_label c = c_label c' /\ c_refines c = c_refines c' /\
                match c_type c, c_type c' with Some x, Some y => R x y | None, None => True | _, _ => False end
            | None, None => True | _, _ => False end.
Proof.
  intros A B C R f g cs H. induction H as [|c cs Hc _ IH]; intros [|i]; cbn; auto.
  - destruct c as [l [x|] r]; cbn in *; auto.
  - apply IH.
Qed.

Lemma label_loop_map : forall {A B} (f : A -> B) cs fuel c l, label_loop fuel (map (map_case f) cs) (map_case f c) l = label_loop fuel cs c l.
Proof.
  intros A B f cs fuel. induction fuel as [|k IH]; intros c l; [reflexivity|]. cbn [label_loop map_case c_refines].
  destruct (c_refines c) as [r|]; [|reflexivity].
  assert (F : find_case (map (map_case f) cs) r = option_map (map_case f) (find_case cs r)).
  { clear. induction cs as [|x cs IH]; [reflexivity|]. cbn. destruct (String.eqb (c_label x) r); [reflexivity|exact IH]. }
  rewrite F. destruct (find_case cs r); cbn; [apply IH|reflexivity].
Qed.
Lemma case_label_map' : forall {A B} (f : A -> B) cs c, case_label (map_case f c) (map (map_case f) cs) = case_label c cs.
Proof. intros. unfold case_label. rewrite map_length. apply label_loop_map. Qed.

Lemma load_agree : forall cx cy t, cx_enc cx = cx_enc cy -> handle_free t -> forall p, agree (load cx t p) (load cy t p).
Proof.
  intros cx cy t E. induction t using valtype_ind'; intros Hf p; cbn [load]; try (match goal with |- agree ?m ?n => constr_eq m n; apply agree_refl end);
    try (cbn [handle_free] in Hf; contradiction Hf).
  - unfold load_string. concur.
  - unfold load_list. concur.
  - unfold load_record. apply agree_bind; [|concur]. apply free_all in Hf.
    assert (F : forall q acc, agree (load_fields (map (fun f => (fst f, mkComp (alignment (snd f)) (size (snd f)) (load cx (snd f)))) fs) q acc)
                              (load_fields (map (fun f => (fst f, mkComp (alignment (snd f)) (size (snd f)) (load cy (snd f)))) fs) q acc)); [|apply F].
    clear p. induction fs as [|[l t] fs IH]; intros q acc; cbn [map fst snd load_fields]; [concur|].
    inversion H; subst. inversion Hf; subst. cbn [snd] in *. cbn [q_al q_sz q_op].
    apply agree_bind; [concur|]. intros a. apply agree_bind; [concur|]. intros p0. apply agree_bind; [apply H2; assumption|]. concur.
  - apply free_all in Hf. unfold load_variant. rewrite !map_length.
    apply agree_bind; [concur|]. intros dt. apply agree_bind; [concur|]. intros iv. apply agree_bind; [concur|]. intros i.
    destruct (u32 (N.of_nat (List.length cs)) <=? i); [concur|].
    rewrite !nth_error_map. destruct (nth_error cs (N.to_nat i)) as [c|] eqn:Ec; cbn [option_map]; [|concur].
    assert (Q : forall cz, map (map_case q_al) (map (map_case (fun t => mkComp (alignment t) (size t) (load cz t))) cs) = map (map_case alignment) cs).
    { intros cz. rewrite map_map. apply map_ext. intros [l [t|] r]; reflexivity. }
    rewrite !Q. apply agree_bind; [concur|]. intros a. apply agree_bind; [concur|]. intros p0.
    rewrite !case_label_map'. apply agree_bind; [concur|]. intros lb. apply agree_bind; [|concur].
    apply nth_error_In in Ec. rewrite Forall_forall in H, Hf. specialize (H c Ec). specialize (Hf c Ec).
    destruct c as [l [t|] r]; cbn in *; [apply H; assumption|concur].
  - rewrite <- (load_despecialize cx t), <- (load_despecialize cy t). apply IHt. apply handle_free_despecialize. exact Hf.
Qed.

Lemma lift_agree : forall cx cy t, cx_enc cx = cx_enc cy -> handle_free t -> forall it, agree (lift_flat cx t it) (lift_flat cy t it).
Proof.
  intros cx cy t E. induction t using valtype_ind'; intros Hf it; cbn [lift_flat]; try (match goal with |- agree ?m ?n => constr_eq m n; apply agree_refl end);
    try (cbn [handle_free] in Hf; contradiction Hf).
  - unfold lift_flat_string. concur.
  - unfold lift_flat_list. apply agree_bind; [concur|]. intros [a it1]. apply agree_bind; [concur|]. intros [b it2].
    apply agree_bind; [|concur]. apply agree_list. apply load_agree; assumption.
  - unfold lift_flat_record. apply agree_bind; [|concur]. apply free_all in Hf.
    assert (F : forall acc it, agree (lift_fields (map (fun f => (fst f, lift_flat cx (snd f))) fs) acc it)
                              (lift_fields (map (fun f => (fst f, lift_flat cy (snd f))) fs) acc it)); [|apply F].
    clear it. induction fs as [|[l t] fs IH]; intros acc it; cbn [map fst snd lift_fields]; [concur|].
    inversion H; subst. inversion Hf; subst. cbn [snd] in *.
    apply agree_bind; [apply H2; assumption|]. intros [v it1]. apply IH; assumption.
  - apply free_all in Hf. unfold lift_flat_variant. rewrite !map_length.
    apply agree_bind; [concur|]. intros [|first rest]; [concur|]. destruct (negb (kind_eqb first KU32)); [concur|].
    apply agree_bind; [concur|]. intros [i it1]. destruct (N.of_nat (List.length cs) <=? i); [concur|].
    rewrite !nth_error_map. destruct (nth_error cs (N.to_nat i)) as [c|] eqn:Ec; cbn [option_map]; [|concur].
    apply nth_error_In in Ec. rewrite Forall_forall in H, Hf. specialize (H c Ec). specialize (Hf c Ec).
    rewrite !case_label_map'. destruct c as [l [t|] r]; cbn [map_case c_type] in *; [|concur].
    apply agree_bind; [apply H; assumption|concur].
  - rewrite <- (lift_flat_despecialize cx t), <- (lift_flat_despecialize cy t). apply IHt. apply handle_free_despecialize. exact Hf.
Qed.
