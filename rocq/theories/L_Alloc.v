(** Lifting and lowering in two calls that differ only in their allocators. *)
From Coq Require Import NArith ZArith List String Bool Lia.
From Verif Require Import GoBase M_Types M_Layout S_Layout L_Layout M_State M_Utf M_Load M_Store M_Flat M_Canon
  L_Despecialize L_CtxFree.
Import ListNotations.
Open Scope N_scope.
Open Scope go_scope.

Lemma label_index_map : forall {A B} (f : A -> B) cs i l acc, label_index (map (map_case f) cs) i l acc = label_index cs i l acc.
Proof. intros A B f cs. induction cs as [|[lb t r] cs IH]; intros; cbn; [reflexivity|]. apply IH. Qed.
Lemma match_labels_map : forall {A B} (f : A -> B) cs ls, match_labels (map (map_case f) cs) ls = match_labels cs ls.
Proof. intros A B f cs ls. induction ls as [|l ls IH]; cbn; [reflexivity|]. rewrite label_index_map, IH. reflexivity. Qed.
Lemma match_case_map : forall {A B} (f : A -> B) v cs, match_case v (map (map_case f) cs) = match_case v cs.
Proof. intros A B f v cs. unfold match_case. destruct v; try reflexivity. repeat match goal with |- context [match ?x with _ => _ end] => destruct x end; try reflexivity. rewrite match_labels_map. reflexivity. Qed.

Section Related.
Variable R : forall A, M A -> M A -> Prop.
Variables (id inst : nat) (enc : strenc) (al1 al2 : req -> state -> outcome N * (memory * world)).
Notation cx1 := (mkCtx id inst enc al1).
Notation cx2 := (mkCtx id inst enc al2).
Notation rel := (R _).
Notation self m := (R _ m m).

Hypothesis R_lift : forall A (o : outcome A), rel (lift_o o) (lift_o o).
Hypothesis R_get_mem : rel get_mem get_mem.
Hypothesis R_store_bytes : forall p n bs, self (store_bytes p n bs).
Hypothesis R_bind : forall A B (m m' : M A) (f f' : A -> M B), rel m m' -> (forall x, rel (f x) (f' x)) -> rel (bind m f) (bind m' f').
Hypothesis R_realloc : forall a b c d, rel (realloc cx1 a b c d) (realloc cx2 a b c d).
Hypothesis R_lift_own : forall i rt, rel (lift_own cx1 i rt) (lift_own cx2 i rt).
Hypothesis R_lift_borrow : forall i rt, rel (lift_borrow cx1 i rt) (lift_borrow cx2 i rt).
Hypothesis R_lower_own : forall v rt, rel (lower_own cx1 v rt) (lower_own cx2 v rt).
Hypothesis R_lower_borrow : forall v rt, rel (lower_borrow cx1 v rt) (lower_borrow cx2 v rt).

Lemma R_ret : forall A (x : A), rel (ret x) (ret x).
Proof. intros. apply R_lift. Qed.

Create HintDb rel.
Hint Resolve R_ret R_lift R_get_mem R_store_bytes R_realloc R_lift_own R_lift_borrow R_lower_own R_lower_borrow : rel.
Ltac rel1 := match goal with
  | |- rel (bind _ _) (bind _ _) => apply R_bind; [|let x := fresh "x" in intros x]
  | |- rel (let (_, _) := ?x in _) _ => destruct x
  | |- rel (if ?b then _ else _) _ => destruct b
  | |- rel (match ?x with _ => _ end) _ => destruct x
  | _ => solve [auto with rel]
  end.
Ltac go := intros; repeat rel1.

(** ** Loading *)
Lemma rel_load_uint : forall n p, self (load_uint n p).
Proof. intros. unfold load_uint. go. Qed.
Hint Resolve rel_load_uint : rel.
Lemma rel_load_int : forall t p, self (load_int t p).
Proof. intros. unfold load_int. go. Qed.
Hint Resolve rel_load_int : rel.
Lemma rel_load_int_with_size : forall p n, self (load_int_with_size p n).
Proof. intros. unfold load_int_with_size. go. Qed.
Lemma rel_load_u32 : forall p, self (load_u32 p).
Proof. intros. unfold load_u32. go. Qed.
Lemma rel_load_u64 : forall p, self (load_u64 p).
Proof. intros. unfold load_u64. go. Qed.
Lemma rel_check_aligned : forall e p a, self (check_aligned e p a).
Proof. intros. unfold check_aligned. go. Qed.
Lemma rel_check_bounds : forall e p a, self (check_bounds e p a).
Proof. intros. unfold check_bounds. go. Qed.
Hint Resolve rel_load_int_with_size rel_load_u32 rel_load_u64 rel_check_aligned rel_check_bounds : rel.
Lemma rel_load_string_from_range : forall p n, rel (load_string_from_range cx1 p n) (load_string_from_range cx2 p n).
Proof. intros. unfold load_string_from_range. cbn [cx_enc]. go. Qed.
Lemma rel_load_elems : forall n ld ld' p sz i, (forall q, rel (ld q) (ld' q)) -> rel (load_elems n ld p sz i) (load_elems n ld' p sz i).
Proof. induction n as [|n IH]; intros; cbn [load_elems]; go. Qed.
Hint Resolve rel_load_string_from_range rel_load_elems : rel.
Lemma rel_load_list_from_range : forall al sz ld ld' p n, (forall q, rel (ld q) (ld' q)) ->
  rel (load_list_from_range al sz ld p n) (load_list_from_range al sz ld' p n).
Proof. intros. unfold load_list_from_range. go. Qed.
Hint Resolve rel_load_list_from_range : rel.
Lemma rel_load_fields : forall fs, Forall (fun f => forall p, rel (load cx1 (snd f) p) (load cx2 (snd f) p)) fs -> forall p acc,
  rel (load_fields (map (fun f : string * valtype => (fst f, mkComp (alignment (snd f)) (size (snd f)) (load cx1 (snd f)))) fs) p acc)
      (load_fields (map (fun f : string * valtype => (fst f, mkComp (alignment (snd f)) (size (snd f)) (load cx2 (snd f)))) fs) p acc).
Proof. induction 1 as [|[l q] fs Hq _ IH]; intros; cbn [map fst snd load_fields q_al q_sz q_op] in *; go. Qed.
Lemma al_cases : forall {A} (mk mk' : valtype -> comp A) cs, (forall t, q_al (mk t) = q_al (mk' t)) ->
  map (map_case q_al) (map (map_case mk) cs) = map (map_case q_al) (map (map_case mk') cs).
Proof. intros A mk mk' cs H. rewrite !map_map. apply map_ext. intros [l [t|] r]; [exact (f_equal (fun x => mkCase l (Some x) r) (H t))|reflexivity]. Qed.
Lemma rel_load_variant : forall cs, Forall (fun c => opt_all (fun t => forall p, rel (load cx1 t p) (load cx2 t p)) (c_type c)) cs -> forall p,
  rel (load_variant (map (map_case (fun t => mkComp (alignment t) (size t) (load cx1 t))) cs) p)
      (load_variant (map (map_case (fun t => mkComp (alignment t) (size t) (load cx2 t))) cs) p).
Proof.
  intros cs H p. unfold load_variant. rewrite !map_length.
  rewrite (al_cases (fun t => mkComp (alignment t) (size t) (load cx1 t)) (fun t => mkComp (alignment t) (size t) (load cx2 t))) by reflexivity.
  do 3 (apply R_bind; [auto with rel|intros ?]). destruct (_ <=? _); [auto with rel|].
  rewrite !nth_error_map. destruct (nth_error cs _) as [c|] eqn:E; cbn [option_map]; [|auto with rel]. apply nth_error_In in E.
  rewrite Forall_forall in H. specialize (H c E). rewrite !case_label_map'. destruct c as [l [t|] r]; cbn [opt_all c_type map_case q_op option_map] in *; go.
Qed.
Lemma rel_load : forall t p, rel (load cx1 t p) (load cx2 t p).
Proof.
  intros t. induction t using valtype_ind'; intros p; cbn [load]; try solve [go].
  - unfold load_bool. go.
  - unfold load_f32. go.
  - unfold load_f64. go.
  - unfold load_char. go.
  - unfold load_string. go.
  - unfold load_list. go.
  - unfold load_record. apply R_bind; [|go]. apply rel_load_fields. exact H.
  - apply rel_load_variant. exact H.
  - unfold load_flags. go.
  - unfold ret_u32. go.
  - unfold ret_u32. go.
  - rewrite <- (load_despecialize cx1), <- (load_despecialize cx2). apply IHt.
Qed.
Hint Resolve rel_load : rel.

(** ** Storing *)
Lemma rel_store_validate : forall a s p, self (store_validate a s p).
Proof. intros. unfold store_validate. go. Qed.
Hint Resolve rel_store_validate : rel.
Lemma rel_store_u32 : forall v p, self (store_u32 v p).
Proof. intros. unfold store_u32. go. Qed.
Lemma rel_store_int : forall v p n b, self (store_int v p n b).
Proof. intros. unfold store_int. go. Qed.
Hint Resolve rel_store_u32 rel_store_int : rel.
Lemma rel_store_string_dynamic : forall s c, rel (store_string_dynamic cx1 s c) (store_string_dynamic cx2 s c).
Proof. intros. unfold store_string_dynamic. go. Qed.
Hint Resolve rel_store_string_dynamic : rel.
Lemma rel_store_string_into_range : forall s, rel (store_string_into_range cx1 s) (store_string_into_range cx2 s).
Proof.
  intros s. unfold store_string_into_range. cbn [cx_enc]. pose proof (rel_store_string_dynamic s) as H. revert H.
  generalize (store_string_dynamic cx1 s) (store_string_dynamic cx2 s). intros f g H. generalize enc. intros e. apply R_bind; [go|].
  intros c. destruct e; go.
Qed.
Lemma rel_store_elems : forall vs st st' p sz i, (forall v q, rel (st v q) (st' v q)) -> rel (store_elems vs st p sz i) (store_elems vs st' p sz i).
Proof. induction vs as [|v vs IH]; intros; cbn [store_elems]; go. Qed.
Hint Resolve rel_store_string_into_range rel_store_elems : rel.
Lemma rel_store_list_into_range : forall al sz st st' v, (forall v q, rel (st v q) (st' v q)) ->
  rel (store_list_into_range cx1 al sz st v) (store_list_into_range cx2 al sz st' v).
Proof. intros. unfold store_list_into_range. go. Qed.
Hint Resolve rel_store_list_into_range : rel.
Lemma rel_store_fields : forall fs, Forall (fun f => forall v p, rel (store cx1 (snd f) v p) (store cx2 (snd f) v p)) fs -> forall m p,
  rel (store_fields (map (fun f : string * valtype => (fst f, mkComp (alignment (snd f)) (size (snd f)) (store cx1 (snd f)))) fs) m p)
      (store_fields (map (fun f : string * valtype => (fst f, mkComp (alignment (snd f)) (size (snd f)) (store cx2 (snd f)))) fs) m p).
Proof. induction 1 as [|[l q] fs Hq _ IH]; intros; cbn [map fst snd store_fields q_al q_sz q_op] in *; go. Qed.
Lemma rel_store_variant : forall cs, Forall (fun c => opt_all (fun t => forall v p, rel (store cx1 t v p) (store cx2 t v p)) (c_type c)) cs -> forall v p,
  rel (store_variant (map (map_case (fun t => mkComp (alignment t) (size t) (store cx1 t))) cs) v p)
      (store_variant (map (map_case (fun t => mkComp (alignment t) (size t) (store cx2 t))) cs) v p).
Proof.
  intros cs H v p. unfold store_variant. rewrite !match_case_map, !map_length.
  rewrite (al_cases (fun t => mkComp (alignment t) (size t) (store cx1 t)) (fun t => mkComp (alignment t) (size t) (store cx2 t))) by reflexivity.
  apply R_bind; [auto with rel|]. intros [i payload]. do 4 (apply R_bind; [auto with rel|intros ?]).
  rewrite !nth_error_map. destruct (nth_error cs _) as [c|] eqn:E; cbn [option_map]; [|auto with rel]. apply nth_error_In in E.
  rewrite Forall_forall in H. specialize (H c E). destruct c as [l [t|] r]; cbn [opt_all c_type map_case q_op option_map] in *; go.
Qed.
Lemma rel_store : forall t v p, rel (store cx1 t v p) (store cx2 t v p).
Proof.
  intros t. induction t using valtype_ind'; intros v p;
    try (rewrite <- (store_despecialize cx1), <- (store_despecialize cx2); apply IHt);
    cbn [store]; unfold guarded; (apply R_bind; [auto with rel|intros _]); try solve [go].
  - unfold store_bool. go.
  - unfold store_f32. go.
  - unfold store_f64. go.
  - unfold store_char. go.
  - unfold store_str, store_string. go.
  - unfold store_list. go.
  - unfold store_record. destruct v; try solve [go]. apply rel_store_fields. exact H.
  - apply rel_store_variant. exact H.
  - unfold store_flags. go.
Qed.
Hint Resolve rel_store : rel.

(** ** Lifting *)
Lemma rel_next_u32 : forall it, self (next_u32 it).
Proof. intros. unfold next_u32. go. Qed.
Lemma rel_next_u64 : forall it, self (next_u64 it).
Proof. intros. unfold next_u64. go. Qed.
Lemma rel_next_f32 : forall it, self (next_f32 it).
Proof. intros. unfold next_f32. go. Qed.
Lemma rel_next_f64 : forall it, self (next_f64 it).
Proof. intros. unfold next_f64. go. Qed.
Hint Resolve rel_next_u32 rel_next_u64 rel_next_f32 rel_next_f64 : rel.
Lemma rel_lift_fields : forall fs, Forall (fun f => forall it, rel (lift_flat cx1 (snd f) it) (lift_flat cx2 (snd f) it)) fs -> forall acc it,
  rel (lift_fields (map (fun f : string * valtype => (fst f, lift_flat cx1 (snd f))) fs) acc it)
      (lift_fields (map (fun f : string * valtype => (fst f, lift_flat cx2 (snd f))) fs) acc it).
Proof. induction 1 as [|[l q] fs Hq _ IH]; intros; cbn [map fst snd lift_fields] in *; go. Qed.
Lemma rel_lift_flag_words : forall n sh acc it, self (lift_flag_words n sh acc it).
Proof. induction n as [|n IH]; intros; cbn [lift_flag_words]; go. Qed.
Hint Resolve rel_lift_flag_words : rel.
Lemma rel_lift_flat_variant : forall flat cs, Forall (fun c => opt_all (fun t => forall it, rel (lift_flat cx1 t it) (lift_flat cx2 t it)) (c_type c)) cs -> forall it,
  rel (lift_flat_variant flat (map (map_case (lift_flat cx1)) cs) it) (lift_flat_variant flat (map (map_case (lift_flat cx2)) cs) it).
Proof.
  intros flat cs H it. unfold lift_flat_variant. rewrite !map_length. apply R_bind; [auto with rel|]. intros [|first rest]; [go|].
  destruct (negb (kind_eqb first KU32)); [go|]. apply R_bind; [auto with rel|]. intros [i it1].
  destruct (_ <=? _); [go|]. rewrite !nth_error_map. destruct (nth_error cs _) as [c|] eqn:E; cbn [option_map]; [|auto with rel]. apply nth_error_In in E.
  rewrite Forall_forall in H. specialize (H c E). rewrite !case_label_map'. destruct c as [l [t|] r]; cbn [opt_all c_type c_label map_case option_map] in *; go.
Qed.
Lemma rel_lift_flat : forall t it, rel (lift_flat cx1 t it) (lift_flat cx2 t it).
Proof.
  intros t. induction t using valtype_ind'; intros it; cbn [lift_flat]; try solve [unfold lmap; go].
  - unfold lift_flat_char. go.
  - unfold lift_flat_string. go.
  - unfold lift_flat_list. go.
  - unfold lift_flat_record. apply R_bind; [|go]. apply rel_lift_fields. exact H.
  - apply rel_lift_flat_variant. exact H.
  - unfold lift_flat_flags. go.
  - unfold lift_flat_handle. go.
  - unfold lift_flat_handle. go.
  - rewrite <- (lift_flat_despecialize cx1), <- (lift_flat_despecialize cx2). apply IHt.
Qed.
Hint Resolve rel_lift_flat : rel.

(** ** Lowering *)
Lemma rel_lower_fields : forall fs, Forall (fun f => forall v, rel (lower_flat cx1 (snd f) v) (lower_flat cx2 (snd f) v)) fs -> forall m,
  rel (lower_fields (map (fun f : string * valtype => (fst f, lower_flat cx1 (snd f))) fs) m)
      (lower_fields (map (fun f : string * valtype => (fst f, lower_flat cx2 (snd f))) fs) m).
Proof. induction 1 as [|[l q] fs Hq _ IH]; intros; cbn [map fst snd lower_fields] in *; go. Qed.
Lemma rel_lower_flat_variant : forall flat cs, Forall (fun c => opt_all (fun t => forall v, rel (lower_flat cx1 t v) (lower_flat cx2 t v)) (c_type c)) cs -> forall v,
  rel (lower_flat_variant flat (map (map_case (lower_flat cx1)) cs) v) (lower_flat_variant flat (map (map_case (lower_flat cx2)) cs) v).
Proof.
  intros flat cs H v. unfold lower_flat_variant. rewrite !match_case_map. apply R_bind; [auto with rel|]. intros [i value].
  apply R_bind; [auto with rel|]. intros [|first rest]; [go|]. destruct (negb (kind_eqb first KU32)); [go|].
  rewrite !nth_error_map. destruct (nth_error cs _) as [c|] eqn:E; cbn [option_map]; [|auto with rel]. apply nth_error_In in E.
  rewrite Forall_forall in H. specialize (H c E). destruct c as [l [t|] r]; cbn [opt_all c_type map_case option_map] in *; go.
Qed.
Lemma rel_lower_flat : forall t v, rel (lower_flat cx1 t v) (lower_flat cx2 t v).
Proof.
  intros t. induction t using valtype_ind'; intros v; cbn [lower_flat]; try solve [go].
  - unfold lower_string. go.
  - unfold lower_flat_list. go.
  - unfold lower_flat_record. destruct v; try solve [go]. apply rel_lower_fields. exact H.
  - apply rel_lower_flat_variant. exact H.
  - unfold ret_handle. go.
  - unfold ret_handle. go.
  - rewrite <- (lower_flat_despecialize cx1), <- (lower_flat_despecialize cx2). apply IHt.
Qed.
Hint Resolve rel_lower_flat : rel.

(** ** Parameter lists *)
Lemma rel_lift_each : forall ts it, rel (lift_each (map (lift_flat cx1) ts) it) (lift_each (map (lift_flat cx2) ts) it).
Proof. induction ts as [|t ts IH]; intros; cbn [lift_each map]; go. Qed.
Hint Resolve rel_lift_each : rel.
Lemma rel_lift_values : forall order n ts it, rel (lift_values order cx1 n ts it) (lift_values order cx2 n ts it).
Proof. intros. unfold lift_values. go. Qed.
Lemma rel_lower_each : forall vs ts, rel (lower_each (map (lower_flat cx1) ts) vs) (lower_each (map (lower_flat cx2) ts) vs).
Proof. induction vs as [|v vs IH]; intros [|t ts]; cbn [lower_each map]; go. Qed.
Hint Resolve rel_lower_each : rel.
Lemma rel_lower_values : forall n vs ts out, rel (lower_values cx1 n vs ts out) (lower_values cx2 n vs ts out).
Proof. intros. unfold lower_values, lower_values_to_tuple. go. Qed.
End Related.
