(** Lifting, lowering, loading and storing leave the guards of every instance
    alone, as long as the allocator does. *)
From Coq Require Import NArith ZArith List String Bool Lia ZifyBool ZifyNat ZifyN.
From Verif Require Import GoBase M_Types M_Layout S_Layout L_Layout M_State M_Utf M_Load M_Store M_Flat M_Canon
  S_Canon L_Despecialize.
Import ListNotations.
Open Scope N_scope.
Open Scope go_scope.

(** [m] changes no guard. *)
Definition quiet {A} (m : M A) : Prop := forall s o s', m s = (o, s') -> guards s' = guards s.

Lemma quiet_lift : forall {A} (o : outcome A), quiet (lift_o o).
Proof. intros A o s o' s' E. inversion E. auto. Qed.
Lemma quiet_ret : forall {A} (x : A), quiet (ret x).
Proof. intros. apply quiet_lift. Qed.
Lemma quiet_bind : forall {A B} (m : M A) (f : A -> M B), quiet m -> (forall x, quiet (f x)) -> quiet (bind m f).
Proof.
  intros A B m f Hm Hf s o s' E. unfold bind in E. destruct (m s) as [[x|e| |] s1] eqn:E1; pose proof (Hm _ _ _ E1) as G.
  - pose proof (Hf _ _ _ _ E) as G'. congruence.
  - inversion E; subst. auto.
  - inversion E; subst. auto.
  - inversion E; subst. auto.
Qed.
Lemma quiet_get_mem : quiet get_mem.
Proof. intros s o s' E. inversion E. auto. Qed.
Lemma quiet_get_world : quiet get_world.
Proof. intros s o s' E. inversion E. auto. Qed.
Lemma quiet_put_mem : forall m, quiet (put_mem m).
Proof. intros m s o s' E. inversion E. auto. Qed.
Lemma quiet_realloc : forall cx a b c d, keeps_guards (cx_realloc cx) -> quiet (realloc cx a b c d).
Proof.
  intros cx a b c d H s o s' E. unfold realloc in E.
  destruct (cx_realloc cx (mkReq a b c d) s) as [o1 [m w]] eqn:Er. pose proof (H _ _ _ _ _ Er) as G. destruct o1; inversion E; exact G.
Qed.

Create HintDb quiet.
#[export] Hint Resolve quiet_ret quiet_lift quiet_get_mem quiet_get_world quiet_put_mem quiet_realloc : quiet.

Ltac quiet1 :=
  match goal with
  | |- quiet (bind _ _) => apply quiet_bind; [|let x := fresh "x" in intros x]
  | |- quiet (let (_, _) := ?x in _) => destruct x
  | |- quiet (if ?b then _ else _) => destruct b
  | |- quiet (match ?x with _ => _ end) => destruct x
  | _ => solve [auto with quiet]
  end.
Ltac hush := intros; repeat quiet1.

Definition world_quiet (w w' : world) : Prop :=
  map (fun i => (i_may_enter i, i_may_leave i)) (w_insts w') = map (fun i => (i_may_enter i, i_may_leave i)) (w_insts w).

Lemma map_list_upd : forall {A B} (f : A -> B) (l : list A) i x, nth_error (map f l) i = Some (f x) -> map f (list_upd l i x) = map f l.
Proof.
  intros A B f l. induction l as [|y l IH]; intros [|i] x H; try discriminate; cbn in *; [injection H as ->; reflexivity|].
  f_equal. apply IH. exact H.
Qed.

Lemma quiet_update : forall {A} (f : world -> outcome A * world), (forall w, world_quiet w (snd (f w))) ->
  quiet (fun s => let (o, w) := f (s_world s) in (o, mkState (s_mem s) (s_hist s) w)).
Proof.
  intros A f H s o s' E. specialize (H (s_world s)). destruct (f (s_world s)) as [o1 w1]. inversion E; subst. exact H.
Qed.
Lemma quiet_put : forall (f : world -> world), (forall w, world_quiet w (f w)) ->
  quiet (let* w := get_world in put_world (f w)).
Proof. intros f H s o s' E. inversion E; subst. apply H. Qed.

Lemma wq_refl : forall w, world_quiet w w.
Proof. reflexivity. Qed.
Lemma wq_trans : forall a b c, world_quiet a b -> world_quiet b c -> world_quiet a c.
Proof. unfold world_quiet. intros a b c H1 H2. congruence. Qed.
Lemma wq_table : forall w i rt t, world_quiet w (set_inst_table w i rt t).
Proof.
  intros w i rt t. unfold set_inst_table. destruct (nth_error (w_insts w) i) as [x|] eqn:E; [|apply wq_refl].
  unfold world_quiet. cbn [w_insts]. apply map_list_upd. rewrite (map_nth_error _ _ _ E). reflexivity.
Qed.
Lemma wq_borrow : forall w c d, world_quiet w (add_borrow w c d).
Proof. intros w c d. unfold add_borrow. destruct c as [c|]; [|apply wq_refl]. destruct (nth_error (w_calls w) c); reflexivity. Qed.
Lemma wq_lend : forall w i d, world_quiet w (set_lend w i d).
Proof. reflexivity. Qed.

Lemma quiet_handle_get : forall i rt n, quiet (handle_get i rt n).
Proof. intros i rt n s o s' E. inversion E; subst. apply wq_table. Qed.

Lemma quiet_handle_add : forall i rt h, quiet (handle_add i rt h).
Proof.
  intros i rt h s o s' E. unfold handle_add in E.
  set (w0 := mkWorld (w_elems (s_world s) ++ [h]) (w_calls (s_world s)) (w_insts (s_world s)) (w_dtors (s_world s))) in *.
  assert (Q0 : world_quiet (s_world s) w0) by reflexivity.
  unfold bind at 1, get_world in E. fold w0 in E.
  destruct (stack_pop (t_free (inst_table w0 i rt))) as [free [k|]].
  - destruct (nth_error (t_array (inst_table w0 i rt)) (N.to_nat k)) as [[x|]|]; inversion E; subst;
      (eapply wq_trans; [exact Q0|]); try apply wq_table.
    eapply wq_trans; [apply wq_table|apply wq_borrow].
  - inversion E; subst. eapply wq_trans; [exact Q0|]. eapply wq_trans; [apply wq_table|apply wq_borrow].
Qed.

Lemma quiet_handle_remove : forall i rt n, quiet (handle_remove i rt n).
Proof.
  intros i rt n. apply quiet_bind; [apply quiet_handle_get|]. intros id s o s' E. unfold bind at 1, get_world in E.
  destruct (h_lend (elem_at (s_world s) id) =? 0)%Z; inversion E; subst; [|apply wq_refl].
  eapply wq_trans; [apply wq_table|apply wq_borrow].
Qed.

Lemma quiet_lift_borrow_from : forall c i, quiet (lift_borrow_from c i).
Proof.
  intros c i s o s' E. unfold lift_borrow_from in E. unfold bind, get_world in E.
  destruct (nth_error (w_calls (set_lend (s_world s) i 1)) c); inversion E; subst; reflexivity.
Qed.

#[export] Hint Resolve quiet_handle_get quiet_handle_add quiet_handle_remove quiet_lift_borrow_from : quiet.

Lemma quiet_exit_call : forall c, quiet (exit_call c).
Proof.
  intros c s o s' E. unfold exit_call, bind, get_world in E.
  destruct (nth_error (w_calls (s_world s)) c) as [k|]; [|inversion E; subst; apply wq_refl].
  destruct (k_borrow k =? 0)%Z; inversion E; subst; [|apply wq_refl]. clear E.
  change (world_quiet (s_world s) (fold_left (fun w id => set_lend w id (-1)) (k_lenders k) (s_world s))).
  generalize (s_world s) as w. generalize (k_lenders k) as l. induction l as [|x l IH]; intros w; [apply wq_refl|].
  cbn [fold_left]. eapply wq_trans; [apply (wq_lend w x (-1))|apply IH].
Qed.
Lemma quiet_lift_own : forall cx i rt, quiet (lift_own cx i rt).
Proof. intros. unfold lift_own. hush. Qed.
Lemma quiet_lift_borrow : forall cx i rt, quiet (lift_borrow cx i rt).
Proof. intros. unfold lift_borrow. hush. Qed.
Lemma quiet_lower_own : forall cx v rt, quiet (lower_own cx v rt).
Proof. intros. unfold lower_own. hush. Qed.
Lemma quiet_lower_borrow : forall cx v rt, quiet (lower_borrow cx v rt).
Proof. intros. unfold lower_borrow. hush. Qed.
#[export] Hint Resolve quiet_exit_call quiet_lift_own quiet_lift_borrow quiet_lower_own quiet_lower_borrow : quiet.

(** ** Loading *)
Lemma quiet_load_uint : forall n p, quiet (load_uint n p).
Proof. intros. unfold load_uint. hush. Qed.
#[export] Hint Resolve quiet_load_uint : quiet.
Lemma quiet_load_int : forall t p, quiet (load_int t p).
Proof. intros. unfold load_int. hush. Qed.
#[export] Hint Resolve quiet_load_int : quiet.
Lemma quiet_load_int_with_size : forall p n, quiet (load_int_with_size p n).
Proof. intros. unfold load_int_with_size. hush. Qed.
Lemma quiet_load_u32 : forall p, quiet (load_u32 p).
Proof. intros. unfold load_u32. hush. Qed.
Lemma quiet_load_u64 : forall p, quiet (load_u64 p).
Proof. intros. unfold load_u64. hush. Qed.
Lemma quiet_check_aligned : forall e p a, quiet (check_aligned e p a).
Proof. intros. unfold check_aligned. hush. Qed.
Lemma quiet_check_bounds : forall e p a, quiet (check_bounds e p a).
Proof. intros. unfold check_bounds. hush. Qed.
#[export] Hint Resolve quiet_load_int_with_size quiet_load_u32 quiet_load_u64 quiet_check_aligned quiet_check_bounds : quiet.
Lemma quiet_load_string_from_range : forall cx p n, quiet (load_string_from_range cx p n).
Proof. intros. unfold load_string_from_range. hush. Qed.
Lemma quiet_load_elems : forall n ld p sz i, (forall q, quiet (ld q)) -> quiet (load_elems n ld p sz i).
Proof. induction n as [|n IH]; intros; cbn [load_elems]; hush. Qed.
#[export] Hint Resolve quiet_load_string_from_range quiet_load_elems : quiet.
Lemma quiet_load_list_from_range : forall al sz ld p n, (forall q, quiet (ld q)) -> quiet (load_list_from_range al sz ld p n).
Proof. intros. unfold load_list_from_range. hush. Qed.
#[export] Hint Resolve quiet_load_list_from_range : quiet.

Lemma quiet_load_fields : forall fs, Forall (fun f => forall p, quiet (q_op (snd f) p)) fs -> forall p acc, quiet (load_fields fs p acc).
Proof. induction 1 as [|[l q] fs Hq _ IH]; intros; cbn [load_fields snd] in *; hush. Qed.

Lemma quiet_load_variant : forall cs, Forall (fun c => opt_all (fun q => forall p, quiet (q_op q p)) (c_type c)) cs ->
  forall p, quiet (load_variant cs p).
Proof.
  intros cs H p. unfold load_variant. do 3 (apply quiet_bind; [auto with quiet|intros ?]).
  destruct (u32 (N.of_nat (List.length cs)) <=? x1); [auto with quiet|].
  destruct (nth_error cs (N.to_nat x1)) as [c|] eqn:E; [|auto with quiet]. apply nth_error_In in E.
  rewrite Forall_forall in H. specialize (H c E). destruct (c_type c); cbn [opt_all] in H; hush.
Qed.
Lemma quiet_load : forall cx t p, quiet (load cx t p).
Proof.
  intros cx t. induction t using valtype_ind'; intros p; cbn [load]; try solve [hush].
  - unfold load_bool. hush.
  - unfold load_f32. hush.
  - unfold load_f64. hush.
  - unfold load_char. hush.
  - unfold load_string. hush.
  - unfold load_list. hush.
  - unfold load_record. apply quiet_bind; [|hush]. apply quiet_load_fields. apply Forall_map. exact H.
  - apply quiet_load_variant. apply Forall_map. eapply Forall_impl; [|exact H]. intros [l [ty|] r] Hc; cbn in *; auto.
  - unfold load_flags. hush.
  - unfold ret_u32. hush.
  - unfold ret_u32. hush.
  - rewrite <- load_despecialize. apply IHt.
Qed.
#[export] Hint Resolve quiet_load : quiet.

(** ** Storing *)
Lemma quiet_store_validate : forall a s p, quiet (store_validate a s p).
Proof. intros. unfold store_validate. hush. Qed.
Lemma quiet_store_bytes : forall p n bs, quiet (store_bytes p n bs).
Proof. intros. unfold store_bytes. hush. Qed.
#[export] Hint Resolve quiet_store_validate quiet_store_bytes : quiet.
Lemma quiet_store_u32 : forall v p, quiet (store_u32 v p).
Proof. intros. unfold store_u32. hush. Qed.
Lemma quiet_store_int : forall v p n b, quiet (store_int v p n b).
Proof. intros. unfold store_int. hush. Qed.
#[export] Hint Resolve quiet_store_u32 quiet_store_int : quiet.
Lemma quiet_store_string_dynamic : forall cx s c, keeps_guards (cx_realloc cx) -> quiet (store_string_dynamic cx s c).
Proof. intros. unfold store_string_dynamic. hush. Qed.
#[export] Hint Resolve quiet_store_string_dynamic : quiet.
Lemma quiet_store_string_into_range : forall cx s, keeps_guards (cx_realloc cx) -> quiet (store_string_into_range cx s).
Proof. intros. unfold store_string_into_range. hush. Qed.
Lemma quiet_store_elems : forall vs st p sz i, (forall v q, quiet (st v q)) -> quiet (store_elems vs st p sz i).
Proof. induction vs as [|v vs IH]; intros; cbn [store_elems]; hush. Qed.
#[export] Hint Resolve quiet_store_string_into_range quiet_store_elems : quiet.
Lemma quiet_store_list_into_range : forall cx al sz st v, keeps_guards (cx_realloc cx) -> (forall v q, quiet (st v q)) -> quiet (store_list_into_range cx al sz st v).
Proof. intros. unfold store_list_into_range. hush. Qed.
#[export] Hint Resolve quiet_store_list_into_range : quiet.
Lemma quiet_store_fields : forall fs, Forall (fun f => forall v p, quiet (q_op (snd f) v p)) fs -> forall m p, quiet (store_fields fs m p).
Proof. induction 1 as [|[l q] fs Hq _ IH]; intros; cbn [store_fields snd] in *; hush. Qed.
Lemma quiet_store_variant : forall cs, Forall (fun c => opt_all (fun q => forall v p, quiet (q_op q v p)) (c_type c)) cs ->
  forall v p, quiet (store_variant cs v p).
Proof.
  intros cs H v p. unfold store_variant. apply quiet_bind; [auto with quiet|]. intros [i payload].
  do 4 (apply quiet_bind; [auto with quiet|intros ?]).
  destruct (nth_error cs (N.to_nat i)) as [c|] eqn:E; [|auto with quiet]. apply nth_error_In in E.
  rewrite Forall_forall in H. specialize (H c E). destruct (c_type c); cbn [opt_all] in H; hush.
Qed.
Lemma quiet_store : forall cx t v p, keeps_guards (cx_realloc cx) -> quiet (store cx t v p).
Proof.
  intros cx t v p Hal. revert v p. induction t using valtype_ind'; intros v p;
    try (rewrite <- store_despecialize; apply IHt);
    cbn [store]; unfold guarded; (apply quiet_bind; [auto with quiet|intros _]); try solve [hush].
  - unfold store_bool. hush.
  - unfold store_f32. hush.
  - unfold store_f64. hush.
  - unfold store_char. hush.
  - unfold store_str, store_string. hush.
  - unfold store_list. hush.
  - unfold store_record. destruct v; try solve [hush]. apply quiet_store_fields. apply Forall_map. exact H.
  - apply quiet_store_variant. apply Forall_map. eapply Forall_impl; [|exact H]. intros [l [ty|] r] Hc; cbn in *; auto.
  - unfold store_flags. hush.
Qed.
#[export] Hint Resolve quiet_store : quiet.

(** ** Lifting *)
Lemma quiet_next_u32 : forall it, quiet (next_u32 it).
Proof. intros. unfold next_u32. hush. Qed.
Lemma quiet_next_u64 : forall it, quiet (next_u64 it).
Proof. intros. unfold next_u64. hush. Qed.
Lemma quiet_next_f32 : forall it, quiet (next_f32 it).
Proof. intros. unfold next_f32. hush. Qed.
Lemma quiet_next_f64 : forall it, quiet (next_f64 it).
Proof. intros. unfold next_f64. hush. Qed.
#[export] Hint Resolve quiet_next_u32 quiet_next_u64 quiet_next_f32 quiet_next_f64 : quiet.
Lemma quiet_lift_fields : forall fs, Forall (fun f => forall it, quiet (snd f it)) fs -> forall acc it, quiet (lift_fields fs acc it).
Proof. induction 1 as [|[l q] fs Hq _ IH]; intros; cbn [lift_fields snd] in *; hush. Qed.
Lemma quiet_lift_flag_words : forall n sh acc it, quiet (lift_flag_words n sh acc it).
Proof. induction n as [|n IH]; intros; cbn [lift_flag_words]; hush. Qed.
#[export] Hint Resolve quiet_lift_flag_words : quiet.
Lemma quiet_lift_flat_variant : forall flat (cs : list (caseOf (LM any))), Forall (fun c => opt_all (fun f => forall it, quiet (f it)) (c_type c)) cs ->
  forall it, quiet (lift_flat_variant flat cs it).
Proof.
  intros flat cs H it. unfold lift_flat_variant. apply quiet_bind; [auto with quiet|]. intros [|first rest]; [hush|].
  destruct (negb (kind_eqb first KU32)); [hush|]. apply quiet_bind; [auto with quiet|]. intros [i it1].
  destruct (N.of_nat (List.length cs) <=? i); [hush|].
  destruct (nth_error cs (N.to_nat i)) as [c|] eqn:E; [|auto with quiet]. apply nth_error_In in E.
  rewrite Forall_forall in H. specialize (H c E). destruct c as [lb [f|] rf]; cbn [opt_all c_type] in H |- *; hush.
Qed.
Lemma quiet_lift_flat : forall cx t it, quiet (lift_flat cx t it).
Proof.
  intros cx t. induction t using valtype_ind'; intros it; cbn [lift_flat]; try solve [unfold lmap; hush].
  - unfold lift_flat_char. hush.
  - unfold lift_flat_string. hush.
  - unfold lift_flat_list. hush.
  - unfold lift_flat_record. apply quiet_bind; [|hush]. apply quiet_lift_fields. apply Forall_map. exact H.
  - apply quiet_lift_flat_variant. apply Forall_map. eapply Forall_impl; [|exact H]. intros [l [ty|] r] Hc; cbn in *; auto.
  - unfold lift_flat_flags. hush.
  - unfold lift_flat_handle. hush.
  - unfold lift_flat_handle. hush.
  - rewrite <- lift_flat_despecialize. apply IHt.
Qed.
#[export] Hint Resolve quiet_lift_flat : quiet.

(** ** Lowering *)
Lemma quiet_lower_fields : forall fs, Forall (fun f => forall v, quiet (snd f v)) fs -> forall m, quiet (lower_fields fs m).
Proof. induction 1 as [|[l q] fs Hq _ IH]; intros; cbn [lower_fields snd] in *; hush. Qed.
Lemma quiet_lower_flat_variant : forall flat cs, Forall (fun c => opt_all (fun f => forall v, quiet (f v)) (c_type c)) cs ->
  forall v, quiet (lower_flat_variant flat cs v).
Proof.
  intros flat cs H v. unfold lower_flat_variant. apply quiet_bind; [auto with quiet|]. intros [i value].
  apply quiet_bind; [auto with quiet|]. intros [|first rest]; [hush|].
  destruct (negb (kind_eqb first KU32)); [hush|].
  destruct (nth_error cs (N.to_nat i)) as [c|] eqn:E; [|auto with quiet]. apply nth_error_In in E.
  rewrite Forall_forall in H. specialize (H c E). destruct (c_type c); cbn [opt_all] in H; hush.
Qed.
Lemma quiet_lower_flat : forall cx t v, keeps_guards (cx_realloc cx) -> quiet (lower_flat cx t v).
Proof.
  intros cx t v Hal. revert v. induction t using valtype_ind'; intros v; cbn [lower_flat]; try solve [hush].
  - unfold lower_string. hush.
  - unfold lower_flat_list. hush.
  - unfold lower_flat_record. destruct v; try solve [hush]. apply quiet_lower_fields. apply Forall_map. exact H.
  - apply quiet_lower_flat_variant. apply Forall_map. eapply Forall_impl; [|exact H]. intros [l [ty|] r] Hc; cbn in *; auto.
  - unfold ret_handle. hush.
  - unfold ret_handle. hush.
  - rewrite <- lower_flat_despecialize. apply IHt.
Qed.
#[export] Hint Resolve quiet_lower_flat : quiet.

(** ** Calls *)
Lemma quiet_lift_each : forall cx ts it, quiet (lift_each (map (lift_flat cx) ts) it).
Proof. intros cx. induction ts as [|t ts IH]; intros; cbn [lift_each map]; hush. Qed.
#[export] Hint Resolve quiet_lift_each : quiet.
Lemma quiet_lift_values : forall order cx n ts it, quiet (lift_values order cx n ts it).
Proof. intros. unfold lift_values. hush. Qed.
Lemma quiet_lower_each : forall cx vs ts, keeps_guards (cx_realloc cx) -> quiet (lower_each (map (lower_flat cx) ts) vs).
Proof. intros cx vs ts Hal. revert ts. induction vs as [|v vs IH]; intros [|t ts]; cbn [lower_each map]; hush. Qed.
#[export] Hint Resolve quiet_lower_each : quiet.
Lemma quiet_lower_values : forall cx n vs ts out, keeps_guards (cx_realloc cx) -> quiet (lower_values cx n vs ts out).
Proof. intros. unfold lower_values, lower_values_to_tuple. hush. Qed.
Lemma quiet_exit_ignored : forall cx, quiet (exit_call_ignored cx).
Proof.
  intros cx s o s' E. unfold exit_call_ignored in E. destruct (exit_call (cx_id cx) s) as [o1 s1] eqn:E1.
  pose proof (quiet_exit_call _ _ _ _ E1). destruct o1; inversion E; subst; auto.
Qed.
Lemma quiet_new_call : forall o i, quiet (new_call o i).
Proof. intros o i s r s' E. inversion E; subst. reflexivity. Qed.
#[export] Hint Resolve quiet_lift_values quiet_lower_values quiet_exit_ignored quiet_new_call : quiet.
