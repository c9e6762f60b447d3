(** Whole calls change handles only through the operations of S_Handles.v. *)
From Coq Require Import NArith ZArith List String Bool Arith Lia ZifyBool ZifyNat ZifyN.
From Verif Require Import GoBase M_Types M_Layout S_Layout L_Layout M_State M_Utf M_Load M_Store M_Flat M_Canon
  S_Flat S_Canon L_Access L_Flat L_Canon L_Despecialize L_Alloc S_Handles L_Handles S_Linked S_HandleCalls.
Import ListNotations.
Open Scope N_scope.
Open Scope go_scope.

(** ** Operations depend on the heap alone *)
Definition worldly {A} (f : M A) : Prop := forall s m h,
  f (mkState m h (s_world s)) = (fst (f s), mkState m h (s_world (snd (f s)))).

Lemma worldly_bind : forall {A B} (m : M A) (f : A -> M B), worldly m -> (forall x, worldly (f x)) -> worldly (bind m f).
Proof.
  intros A B m f Hm Hf s m' h'. unfold bind. rewrite Hm. destruct (m s) as [[x|e| |] s1]; cbn [fst snd]; try reflexivity.
  apply Hf.
Qed.
Lemma worldly_lift : forall {A} (o : outcome A), worldly (lift_o o).
Proof. intros A o s m h. reflexivity. Qed.
Lemma worldly_ret : forall {A} (x : A), worldly (ret x).
Proof. intros A x s m h. reflexivity. Qed.
Lemma worldly_get : worldly get_world.
Proof. intros s m h. reflexivity. Qed.
Lemma worldly_put : forall w, worldly (put_world w).
Proof. intros w s m h. reflexivity. Qed.
Create HintDb worldly.
#[export] Hint Resolve worldly_ret worldly_lift worldly_get worldly_put : worldly.
Ltac worldly1 :=
  match goal with
  | |- worldly (bind _ _) => apply worldly_bind; [|let x := fresh "x" in intros x]
  | |- worldly (let (_, _) := ?x in _) => destruct x
  | |- worldly (if ?b then _ else _) => destruct b
  | |- worldly (match ?x with _ => _ end) => destruct x
  | _ => solve [auto with worldly]
  end.
Ltac worldly := repeat worldly1.

Lemma worldly_add : forall i rt h, worldly (handle_add i rt h).
Proof. intros. unfold handle_add. worldly. Qed.
Lemma worldly_hget : forall i rt n, worldly (handle_get i rt n).
Proof. intros. unfold handle_get. worldly. Qed.
#[export] Hint Resolve worldly_add worldly_hget : worldly.
Lemma worldly_remove : forall i rt n, worldly (handle_remove i rt n).
Proof. intros. unfold handle_remove. worldly. Qed.
Lemma worldly_lbf : forall c i, worldly (lift_borrow_from c i).
Proof. intros. unfold lift_borrow_from. worldly. Qed.
Lemma worldly_exit : forall c, worldly (exit_call c).
Proof. intros. unfold exit_call. worldly. Qed.
Lemma worldly_new_call : forall o i, worldly (new_call o i).
Proof. intros. unfold new_call. worldly. Qed.
Lemma worldly_leave : forall i b, worldly (set_may_leave i b).
Proof. intros. unfold set_may_leave. worldly. Qed.
Lemma worldly_enter : forall i b, worldly (set_may_enter i b).
Proof. intros. unfold set_may_enter. worldly. Qed.
#[export] Hint Resolve worldly_remove worldly_lbf worldly_exit worldly_new_call worldly_leave worldly_enter : worldly.
Lemma worldly_run : forall o, worldly (run o).
Proof.
  intros []; cbn [run]; unfold canon_resource_new, canon_resource_rep, canon_resource_drop, lift_own, lift_borrow, lower_own, lower_borrow; worldly.
Qed.

Lemma run_world : forall o s r s' t, run o s = (r, s') -> s_world t = s_world s ->
  run o t = (r, mkState (s_mem t) (s_hist t) (s_world s')).
Proof.
  intros o s r s' t E Hw. pose proof (worldly_run o s (s_mem t) (s_hist t)) as H. rewrite E in H. cbn [fst snd] in H.
  rewrite <- H, <- Hw. destruct t; reflexivity.
Qed.

Lemma history_world : forall insts ops rs s calls, history insts ops rs s calls -> forall t, s_world t = s_world s ->
  history insts ops rs t calls.
Proof.
  intros insts ops rs s calls H. induction H as [s He Hc Hd Hi Ht|ops rs s calls o r s' H IH Hp E]; intros t Hw.
  - constructor; rewrite Hw; assumption.
  - eapply h_step; [apply (IH (mkState (s_mem t) (s_hist t) (s_world s))); reflexivity|exact Hp|].
    rewrite (run_world o s r s' (mkState (s_mem t) (s_hist t) (s_world s)) E eq_refl). cbn [s_mem s_hist]. rewrite <- Hw. destruct t; reflexivity.
Qed.

Lemma found_world : forall s t inst rt i, s_world t = s_world s -> found t inst rt i = found s inst rt i.
Proof.
  intros s t inst rt i Hw. unfold found. destruct (canon_resource_rep inst rt i s) as [r s'] eqn:E.
  change (run (OpRep inst rt i) s = (r, s')) in E. pose proof (run_world _ _ _ _ t E Hw) as E'. cbn [run] in E'. rewrite E'. reflexivity.
Qed.
Lemma entry_world : forall s t k, s_world t = s_world s -> entry t k = entry s k.
Proof. intros s t [[a b] c] Hw. unfold entry. rewrite Hw. reflexivity. Qed.

Lemma after_world : forall insts s calls evs s' calls', after insts s calls evs s' calls' -> forall t, s_world t = s_world s ->
  exists t', after insts t calls evs t' calls' /\ s_world t' = s_world s'.
Proof.
  intros insts s calls evs s' calls' H. induction H as [|s calls evs s1 calls1 o r s2 H IH Hp E]; intros t Hw.
  - exists t. split; [constructor|exact Hw].
  - destruct (IH t Hw) as (t1 & A1 & W1). eexists. split; [eapply af_step; [exact A1|exact Hp|eapply run_world; [exact E|exact W1]]|reflexivity].
Qed.
Lemma after_trans : forall insts s1 c1 e2 s2 c2, after insts s1 c1 e2 s2 c2 -> forall s0 c0 e1, after insts s0 c0 e1 s1 c1 ->
  after insts s0 c0 (e1 ++ e2) s2 c2.
Proof.
  intros insts s1 c1 e2 s2 c2 H. induction H as [|s calls evs s1 calls1 o r s2 H IH Hp E]; intros s0 c0 e1 H1.
  - rewrite app_nil_r. exact H1.
  - rewrite app_assoc. eapply af_step; eauto.
Qed.

(** Operations lead from [s] to [s'], whatever happens to memory. *)
Definition evolves (insts : nat) (s : state) (calls : list nat) (evs : list (op * outcome N)) (s' : state) (calls' : list nat) : Prop :=
  exists s1, after insts s calls evs s1 calls' /\ s_world s1 = s_world s'.

Lemma evolves_nil : forall insts s calls s', s_world s' = s_world s -> evolves insts s calls [] s' calls.
Proof. intros. exists s. split; [constructor|congruence]. Qed.
Lemma evolves_one : forall insts s calls o r s', proper insts calls o -> run o s = (r, s') -> evolves insts s calls [(o, r)] s' (opened o r calls).
Proof.
  intros insts s calls o r s' Hp E. exists s'. split; [|reflexivity].
  exact (af_step insts s calls [] s calls o r s' (af_nil _ _ _) Hp E).
Qed.
Lemma evolves_trans : forall insts s calls e1 s1 c1 e2 s2 c2, evolves insts s calls e1 s1 c1 -> evolves insts s1 c1 e2 s2 c2 ->
  evolves insts s calls (e1 ++ e2) s2 c2.
Proof.
  intros insts s calls e1 s1 c1 e2 s2 c2 (t1 & A1 & W1) (t2 & A2 & W2).
  destruct (after_world _ _ _ _ _ _ A2 t1 W1) as (t3 & A3 & W3). exists t3. split; [eapply after_trans; eauto|congruence].
Qed.
Lemma evolves_history : forall insts ops rs s calls evs s' calls', history insts ops rs s calls -> evolves insts s calls evs s' calls' ->
  history insts (ops ++ map fst evs) (rs ++ map snd evs) s' calls'.
Proof.
  intros insts ops rs s calls evs s' calls' H (s1 & A & W). eapply history_world; [eapply history_after; eauto|congruence].
Qed.

(** ** Functions that act through operations of one call *)

(** [m] performs operations satisfying [P] for the call [cx], asking for at
    most [k] new handles. *)
Definition acts (insts : nat) (cx : callctx) (P : op -> Prop) (k : nat) {A} (m : M A) : Prop := forall s calls o s',
  (cx_inst cx < insts)%nat -> In (cx_id cx) calls -> m s = (o, s') ->
  exists evs, evolves insts s calls evs s' calls /\ Forall P (map fst evs) /\ (made (map fst evs) <= k)%nat.

Lemma acts_world : forall insts cx P {A} (m : M A), (forall s o s', m s = (o, s') -> s_world s' = s_world s) -> acts insts cx P 0 m.
Proof. intros insts cx P A m H s calls o s' _ _ E. exists []. split; [apply evolves_nil; eauto|]. split; [constructor|cbn; lia]. Qed.
Lemma acts_lift : forall insts cx P {A} (o : outcome A), acts insts cx P 0 (lift_o o).
Proof. intros. apply acts_world. intros s r s' E. inversion E. reflexivity. Qed.
Lemma acts_ret : forall insts cx P {A} (x : A), acts insts cx P 0 (ret x).
Proof. intros. apply acts_lift. Qed.
Lemma acts_get_mem : forall insts cx P, acts insts cx P 0 get_mem.
Proof. intros. apply acts_world. intros s r s' E. inversion E. reflexivity. Qed.
Lemma acts_get_world : forall insts cx P, acts insts cx P 0 get_world.
Proof. intros. apply acts_world. intros s r s' E. inversion E. reflexivity. Qed.
Lemma acts_put_mem : forall insts cx P m, acts insts cx P 0 (put_mem m).
Proof. intros. apply acts_world. intros s r s' E. inversion E. reflexivity. Qed.
Lemma acts_realloc : forall insts cx P cx' a b c d, leaves_world (cx_realloc cx') -> acts insts cx P 0 (realloc cx' a b c d).
Proof.
  intros insts cx P cx' a b c d Hw. apply acts_world. intros s o s' E. unfold realloc in E.
  destruct (cx_realloc cx' (mkReq a b c d) s) as [r [m w]] eqn:E1. pose proof (Hw _ _ _ _ _ E1) as ->.
  destruct r; inversion E; reflexivity.
Qed.
Lemma acts_more : forall insts cx P k k' {A} (m : M A), acts insts cx P k m -> (k <= k')%nat -> acts insts cx P k' m.
Proof. intros insts cx P k k' A m H Hk s calls o s' Hi Hc E. destruct (H _ _ _ _ Hi Hc E) as (evs & E1 & F1 & N1). exists evs. repeat split; auto. lia. Qed.
Lemma acts_bind : forall insts cx P k1 k2 {A B} (m : M A) (f : A -> M B), acts insts cx P k1 m -> (forall x, acts insts cx P k2 (f x)) ->
  acts insts cx P (k1 + k2) (bind m f).
Proof.
  intros insts cx P k1 k2 A B m f Hm Hf s calls o s' Hi Hc E. unfold bind in E.
  destruct (m s) as [[x|e| |] s1] eqn:E1; destruct (Hm _ _ _ _ Hi Hc E1) as (e1 & V1 & F1 & N1).
  2,3,4: (inversion E; subst; exists e1; repeat split; auto; lia).
  destruct (Hf _ _ _ _ _ Hi Hc E) as (e2 & V2 & F2 & N2). exists (e1 ++ e2)%list.
  rewrite map_app, made_app. split; [eapply evolves_trans; eauto|]. split; [apply Forall_app; auto|lia].
Qed.
Lemma acts_bind0 : forall insts cx P {A B} (m : M A) (f : A -> M B), acts insts cx P 0 m -> (forall x, acts insts cx P 0 (f x)) ->
  acts insts cx P 0 (bind m f).
Proof. intros. apply (acts_bind insts cx P 0 0); assumption. Qed.
Lemma acts_op : forall insts cx (P : op -> Prop) o k, (forall calls, (cx_inst cx < insts)%nat -> In (cx_id cx) calls -> proper insts calls o) ->
  (forall r calls, opened o r calls = calls) -> P o -> (made [o] <= k)%nat -> acts insts cx P k (run o).
Proof.
  intros insts cx P o k Hp Ho HP Hk s calls r s' Hi Hc E. exists [(o, r)]. split; [|split; [repeat constructor; exact HP|exact Hk]].
  pose proof (evolves_one insts s calls o r s' (Hp _ Hi Hc) E) as H. rewrite Ho in H. exact H.
Qed.
Lemma acts_lift_own : forall insts cx (P : op -> Prop) i rt, P (OpLiftOwn cx rt i) -> acts insts cx P 0 (lift_own cx i rt).
Proof. intros. apply (acts_op insts cx P (OpLiftOwn cx rt i)); auto; cbn; auto. Qed.
Lemma acts_lift_borrow : forall insts cx (P : op -> Prop) i rt, P (OpLiftBorrow cx rt i) -> acts insts cx P 0 (lift_borrow cx i rt).
Proof. intros. apply (acts_op insts cx P (OpLiftBorrow cx rt i)); auto; cbn; auto. Qed.
Lemma acts_lower_own : forall insts cx (P : op -> Prop) v rt, P (OpLowerOwn cx rt v) -> acts insts cx P 1 (lower_own cx v rt).
Proof. intros. apply (acts_op insts cx P (OpLowerOwn cx rt v)); auto; cbn; auto. Qed.
Lemma acts_lower_borrow : forall insts cx (P : op -> Prop) v rt, P (OpLowerBorrow cx rt v) -> acts insts cx P 1 (lower_borrow cx v rt).
Proof. intros. apply (acts_op insts cx P (OpLowerBorrow cx rt v)); auto; cbn; auto. Qed.

Create HintDb acts.
#[export] Hint Resolve acts_ret acts_lift acts_get_mem acts_get_world acts_put_mem acts_realloc
  acts_lift_own acts_lift_borrow : acts.

Ltac acts1 :=
  match goal with
  | |- acts _ _ _ 0 (bind _ _) => apply acts_bind0; [|let x := fresh "x" in intros x]
  | |- acts _ _ _ _ (let (_, _) := ?x in _) => destruct x
  | |- acts _ _ _ _ (if ?b then _ else _) => destruct b
  | |- acts _ _ _ _ (match ?x with _ => _ end) => destruct x
  | _ => solve [auto with acts]
  end.
Ltac act := intros; repeat acts1.

Section Acts.
Variables (insts : nat) (cx : callctx) (P : op -> Prop).
Notation acting := (acts insts cx P 0).
Definition lifts_ok (t : valtype) : Prop :=
  (forall rt i, In (true, rt) (handles_in t) -> P (OpLiftOwn cx rt i)) /\
  (forall rt i, In (false, rt) (handles_in t) -> P (OpLiftBorrow cx rt i)).
Definition lowers_ok (t : valtype) : Prop :=
  (forall rt v, In (true, rt) (handles_in t) -> P (OpLowerOwn cx rt v)) /\
  (forall rt v, In (false, rt) (handles_in t) -> P (OpLowerBorrow cx rt v)).

(** ** Loading *)
Lemma acts_load_uint : forall n p, acting (load_uint n p).
Proof. intros. unfold load_uint. act. Qed.
Hint Resolve acts_load_uint : acts.
Lemma acts_load_int : forall t p, acting (load_int t p).
Proof. intros. unfold load_int. act. Qed.
Hint Resolve acts_load_int : acts.
Lemma acts_load_int_with_size : forall p n, acting (load_int_with_size p n).
Proof. intros. unfold load_int_with_size. act. Qed.
Lemma acts_load_u32 : forall p, acting (load_u32 p).
Proof. intros. unfold load_u32. act. Qed.
Lemma acts_load_u64 : forall p, acting (load_u64 p).
Proof. intros. unfold load_u64. act. Qed.
Lemma acts_check_aligned : forall e p a, acting (check_aligned e p a).
Proof. intros. unfold check_aligned. act. Qed.
Lemma acts_check_bounds : forall e p a, acting (check_bounds e p a).
Proof. intros. unfold check_bounds. act. Qed.
Hint Resolve acts_load_int_with_size acts_load_u32 acts_load_u64 acts_check_aligned acts_check_bounds : acts.
Lemma acts_load_string_from_range : forall cx' p n, acting (load_string_from_range cx' p n).
Proof. intros. unfold load_string_from_range. act. Qed.
Lemma acts_load_elems : forall n ld p sz i, (forall q, acting (ld q)) -> acting (load_elems n ld p sz i).
Proof. induction n as [|n IH]; intros; cbn [load_elems]; act. Qed.
Hint Resolve acts_load_string_from_range acts_load_elems : acts.
Lemma acts_load_list_from_range : forall al sz ld p n, (forall q, acting (ld q)) -> acting (load_list_from_range al sz ld p n).
Proof. intros. unfold load_list_from_range. act. Qed.
Hint Resolve acts_load_list_from_range : acts.

Lemma acts_load_fields : forall fs, Forall (fun f => forall p, acting (q_op (snd f) p)) fs -> forall p acc, acting (load_fields fs p acc).
Proof. induction 1 as [|[l q] fs Hq _ IH]; intros; cbn [load_fields snd] in *; act. Qed.
Lemma acts_load_variant : forall cs, Forall (fun c => opt_all (fun q => forall p, acting (q_op q p)) (c_type c)) cs ->
  forall p, acting (load_variant cs p).
Proof.
  intros cs H p. unfold load_variant. do 3 (apply acts_bind0; [auto with acts|intros ?]).
  destruct (u32 (N.of_nat (List.length cs)) <=? x1); [auto with acts|].
  destruct (nth_error cs (N.to_nat x1)) as [c|] eqn:E; [|auto with acts]. apply nth_error_In in E.
  rewrite Forall_forall in H. specialize (H c E). destruct (c_type c); cbn [opt_all] in H; act.
Qed.

Lemma handles_despecialize : forall t, handles_in (despecialize t) = handles_in t.
Proof.
  assert (Hf : forall ts k, flat_map (fun f : string * valtype => handles_in (snd f)) (map (fun p => (itoa (fst p), snd p)) (enum_from k ts)) = flat_map handles_in ts).
  { induction ts as [|t ts IH]; intros k; [reflexivity|]. cbn. rewrite IH. reflexivity. }
  assert (Hc : forall ts k, flat_map (fun c : caseOf valtype => match c_type c with Some x => handles_in x | None => [] end)
    (map (fun p => mkCase (itoa (fst p)) (Some (snd p)) None) (enum_from k ts)) = flat_map handles_in ts).
  { induction ts as [|t ts IH]; intros k; [reflexivity|]. cbn. rewrite IH. reflexivity. }
  intros t. destruct t; try reflexivity; cbn [despecialize handles_in].
  - apply Hf.
  - induction labels as [|l ls IH]; [reflexivity|exact IH].
  - cbn. apply app_nil_r.
  - cbn. rewrite app_nil_r. reflexivity.
  - apply Hc.
Qed.

(** The parts of a type contain no other handles. *)
Lemma lifts_part : forall t u, incl (handles_in u) (handles_in t) -> lifts_ok t -> lifts_ok u.
Proof. intros t u H [H1 H2]. split; auto. Qed.
Lemma lowers_part : forall t u, incl (handles_in u) (handles_in t) -> lowers_ok t -> lowers_ok u.
Proof. intros t u H [H1 H2]. split; auto. Qed.
Lemma field_part : forall fs f, In f fs -> incl (handles_in (snd f)) (handles_in (TRecord fs)).
Proof. intros fs f Hf x Hx. cbn [handles_in]. apply in_flat_map. eauto. Qed.
Lemma case_part : forall cs c u, In c cs -> c_type c = Some u -> incl (handles_in u) (handles_in (TVariant cs)).
Proof. intros cs c u Hc Hu x Hx. cbn [handles_in]. apply in_flat_map. exists c. rewrite Hu. auto. Qed.

Lemma fields_all : forall (Q R : valtype -> Prop) fs, (forall f, In f fs -> R (snd f)) -> Forall (fun f : string * valtype => R (snd f) -> Q (snd f)) fs ->
  Forall (fun f => Q (snd f)) fs.
Proof. intros Q R fs H HF. rewrite Forall_forall in *. auto. Qed.
Lemma cases_all : forall (Q R : valtype -> Prop) cs, (forall c u, In c cs -> c_type c = Some u -> R u) ->
  Forall (fun c => opt_all (fun u => R u -> Q u) (c_type c)) cs -> Forall (fun c => opt_all Q (c_type c)) cs.
Proof.
  intros Q R cs H HF. rewrite Forall_forall in *. intros c Hc. specialize (HF c Hc). specialize (H c). destruct (c_type c) as [u|]; cbn in *; auto.
Qed.

Lemma acts_load : forall t, lifts_ok t -> forall p, acting (load cx t p).
Proof.
  intros t. induction t using valtype_ind'; intros HL p; cbn [load]; try solve [act].
  - unfold load_bool. act.
  - unfold load_f32. act.
  - unfold load_f64. act.
  - unfold load_char. act.
  - unfold load_string. act.
  - unfold load_list. assert (forall q, acting (load cx t q)) by (apply IHt; exact HL). act.
  - unfold load_record. apply acts_bind0; [|act]. apply acts_load_fields. apply Forall_map. cbn [q_op snd].
    apply fields_all with (R := lifts_ok) (Q := fun u => forall q, acting (load cx u q)); [|exact H].
    intros f Hf. eapply lifts_part; [apply field_part; exact Hf|exact HL].
  - apply acts_load_variant. apply Forall_map.
    apply cases_all with (R := lifts_ok) (Q := fun u => forall q, acting (load cx u q)) in H;
      [|intros c u Hc Hu; eapply lifts_part; [eapply case_part; eauto|exact HL]].
    eapply Forall_impl; [|exact H]. intros [l [ty|] r] Hc; cbn in *; auto.
  - unfold load_flags. act.
  - unfold ret_u32. apply acts_bind0; [act|]. intros i. apply acts_bind0; [|act]. apply acts_lift_own. apply HL. left. reflexivity.
  - unfold ret_u32. apply acts_bind0; [act|]. intros i. apply acts_bind0; [|act]. apply acts_lift_borrow. apply HL. left. reflexivity.
  - rewrite <- load_despecialize. apply IHt. unfold lifts_ok. rewrite handles_despecialize. exact HL.
Qed.
Hint Resolve acts_load : acts.

(** ** Storing *)
Lemma acts_store_validate : forall a s p, acting (store_validate a s p).
Proof. intros. unfold store_validate. act. Qed.
Lemma acts_store_bytes : forall p n bs, acting (store_bytes p n bs).
Proof. intros. unfold store_bytes. act. Qed.
Hint Resolve acts_store_validate acts_store_bytes : acts.
Lemma acts_store_u32 : forall v p, acting (store_u32 v p).
Proof. intros. unfold store_u32. act. Qed.
Lemma acts_store_int : forall v p n b, acting (store_int v p n b).
Proof. intros. unfold store_int. act. Qed.
Hint Resolve acts_store_u32 acts_store_int : acts.
Lemma acts_store_string_dynamic : forall cx' s c, leaves_world (cx_realloc cx') -> acting (store_string_dynamic cx' s c).
Proof. intros. unfold store_string_dynamic. act. Qed.
Hint Resolve acts_store_string_dynamic : acts.
Lemma acts_store_string_into_range : forall cx' s, leaves_world (cx_realloc cx') -> acting (store_string_into_range cx' s).
Proof. intros. unfold store_string_into_range. act. Qed.
Lemma acts_store_elems : forall vs st p sz i, (forall v q, acting (st v q)) -> acting (store_elems vs st p sz i).
Proof. induction vs as [|v vs IH]; intros; cbn [store_elems]; act. Qed.
Hint Resolve acts_store_string_into_range acts_store_elems : acts.
Lemma acts_store_list_into_range : forall cx' al sz st v, leaves_world (cx_realloc cx') -> (forall v q, acting (st v q)) -> acting (store_list_into_range cx' al sz st v).
Proof. intros. unfold store_list_into_range. act. Qed.
Hint Resolve acts_store_list_into_range : acts.
Lemma acts_store_fields : forall fs, Forall (fun f => forall v p, acting (q_op (snd f) v p)) fs -> forall m p, acting (store_fields fs m p).
Proof. induction 1 as [|[l q] fs Hq _ IH]; intros; cbn [store_fields snd] in *; act. Qed.
Lemma acts_store_variant : forall cs, Forall (fun c => opt_all (fun q => forall v p, acting (q_op q v p)) (c_type c)) cs ->
  forall v p, acting (store_variant cs v p).
Proof.
  intros cs H v p. unfold store_variant. apply acts_bind0; [auto with acts|]. intros [i payload].
  do 4 (apply acts_bind0; [auto with acts|intros ?]).
  destruct (nth_error cs (N.to_nat i)) as [c|] eqn:E; [|auto with acts]. apply nth_error_In in E.
  rewrite Forall_forall in H. specialize (H c E). destruct (c_type c); cbn [opt_all] in H; act.
Qed.
Lemma acts_store : forall cx' t v p, leaves_world (cx_realloc cx') -> acting (store cx' t v p).
Proof.
  intros cx' t v p Hw. revert v p. induction t using valtype_ind'; intros v p;
    try (rewrite <- store_despecialize; apply IHt);
    cbn [store]; unfold guarded; (apply acts_bind0; [auto with acts|intros _]); try solve [act].
  - unfold store_bool. act.
  - unfold store_f32. act.
  - unfold store_f64. act.
  - unfold store_char. act.
  - unfold store_str, store_string. act.
  - unfold store_list. act.
  - unfold store_record. destruct v; try solve [act]. apply acts_store_fields. apply Forall_map. exact H.
  - apply acts_store_variant. apply Forall_map. eapply Forall_impl; [|exact H]. intros [l [ty|] r] Hc; cbn in *; auto.
  - unfold store_flags. act.
Qed.
Hint Resolve acts_store : acts.

(** ** Lifting *)
Lemma acts_next_u32 : forall it, acting (next_u32 it).
Proof. intros. unfold next_u32. act. Qed.
Lemma acts_next_u64 : forall it, acting (next_u64 it).
Proof. intros. unfold next_u64. act. Qed.
Lemma acts_next_f32 : forall it, acting (next_f32 it).
Proof. intros. unfold next_f32. act. Qed.
Lemma acts_next_f64 : forall it, acting (next_f64 it).
Proof. intros. unfold next_f64. act. Qed.
Hint Resolve acts_next_u32 acts_next_u64 acts_next_f32 acts_next_f64 : acts.
Lemma acts_lift_fields : forall fs, Forall (fun f => forall it, acting (snd f it)) fs -> forall acc it, acting (lift_fields fs acc it).
Proof. induction 1 as [|[l q] fs Hq _ IH]; intros; cbn [lift_fields snd] in *; act. Qed.
Lemma acts_lift_flag_words : forall n sh acc it, acting (lift_flag_words n sh acc it).
Proof. induction n as [|n IH]; intros; cbn [lift_flag_words]; act. Qed.
Hint Resolve acts_lift_flag_words : acts.
Lemma acts_lift_flat_variant : forall flat (cs : list (caseOf (LM any))), Forall (fun c => opt_all (fun f => forall it, acting (f it)) (c_type c)) cs ->
  forall it, acting (lift_flat_variant flat cs it).
Proof.
  intros flat cs H it. unfold lift_flat_variant. apply acts_bind0; [auto with acts|]. intros [|first rest]; [act|].
  destruct (negb (kind_eqb first KU32)); [act|]. apply acts_bind0; [auto with acts|]. intros [i it1].
  destruct (N.of_nat (List.length cs) <=? i); [act|].
  destruct (nth_error cs (N.to_nat i)) as [c|] eqn:E; [|auto with acts]. apply nth_error_In in E.
  rewrite Forall_forall in H. specialize (H c E). destruct c as [lb [f|] rf]; cbn [opt_all c_type] in H |- *; act.
Qed.
Lemma acts_lift_flat : forall t, lifts_ok t -> forall it, acting (lift_flat cx t it).
Proof.
  intros t. induction t using valtype_ind'; intros HL it; cbn [lift_flat]; try solve [unfold lmap; act].
  - unfold lift_flat_char. act.
  - unfold lift_flat_string. act.
  - unfold lift_flat_list. assert (forall q, acting (load cx t q)) by (apply acts_load; exact HL). act.
  - unfold lift_flat_record. apply acts_bind0; [|act]. apply acts_lift_fields. apply Forall_map. cbn [snd].
    apply fields_all with (R := lifts_ok) (Q := fun u => forall q, acting (lift_flat cx u q)); [|exact H].
    intros f Hf. eapply lifts_part; [apply field_part; exact Hf|exact HL].
  - apply acts_lift_flat_variant. apply Forall_map.
    apply cases_all with (R := lifts_ok) (Q := fun u => forall q, acting (lift_flat cx u q)) in H;
      [|intros c u Hc Hu; eapply lifts_part; [eapply case_part; eauto|exact HL]].
    eapply Forall_impl; [|exact H]. intros [l [ty|] r] Hc; cbn in *; auto.
  - unfold lift_flat_flags. act.
  - unfold lift_flat_handle. apply acts_bind0; [act|]. intros [x it1]. destruct x; try solve [act].
    apply acts_bind0; [|act]. apply acts_lift_own. apply HL. left. reflexivity.
  - unfold lift_flat_handle. apply acts_bind0; [act|]. intros [x it1]. destruct x; try solve [act].
    apply acts_bind0; [|act]. apply acts_lift_borrow. apply HL. left. reflexivity.
  - rewrite <- lift_flat_despecialize. apply IHt. unfold lifts_ok. rewrite handles_despecialize. exact HL.
Qed.

(** ** Lowering *)
Lemma acts_lower_fields : forall fs k, Forall2 (fun f n => forall v, acts insts cx P n (snd f v)) fs k ->
  forall m, acts insts cx P (list_sum k) (lower_fields fs m).
Proof.
  induction 1 as [|[l q] n fs k Hq _ IH]; intros; cbn [lower_fields snd] in *; [act|]. change (list_sum (n :: k)) with (n + list_sum k)%nat.
  apply acts_bind; [apply Hq|]. intros a. replace (list_sum k) with (list_sum k + 0)%nat by lia. apply acts_bind; [apply IH|]. act.
Qed.
Lemma acts_lower_flat_variant : forall flat cs n, Forall (fun c => opt_all (fun f => forall v, acts insts cx P n (f v)) (c_type c)) cs ->
  forall v, acts insts cx P n (lower_flat_variant flat cs v).
Proof.
  intros flat cs n H v. unfold lower_flat_variant. apply (acts_bind insts cx P 0 n); [auto with acts|]. intros [i value].
  apply (acts_bind insts cx P 0 n); [auto with acts|].
  intros [|first rest]; [eapply acts_more; [apply acts_lift|lia]|].
  destruct (negb (kind_eqb first KU32)); [eapply acts_more; [apply acts_lift|lia]|].
  destruct (nth_error cs (N.to_nat i)) as [c|] eqn:E; [|eapply acts_more; [apply acts_lift|lia]]. apply nth_error_In in E.
  rewrite Forall_forall in H. specialize (H c E). replace n with (n + 0)%nat by lia. apply acts_bind; [|act].
  destruct (c_type c); cbn [opt_all] in H; [apply H|eapply acts_more; [apply acts_ret|lia]].
Qed.
Lemma handles_sum : forall fs, List.length (handles_in (TRecord fs)) = list_sum (map (fun f => List.length (handles_in (snd f))) fs).
Proof. intros fs. cbn [handles_in]. induction fs as [|f fs IH]; [reflexivity|]. cbn. rewrite app_length, IH. reflexivity. Qed.
Lemma handles_case : forall cs c u, In c cs -> c_type c = Some u -> (List.length (handles_in u) <= List.length (handles_in (TVariant cs)))%nat.
Proof.
  intros cs c u Hc Hu. cbn [handles_in]. induction cs as [|d cs IH]; [destruct Hc|]. cbn. rewrite app_length.
  destruct Hc as [->|Hc]; [rewrite Hu; lia|specialize (IH Hc); lia].
Qed.
Lemma acts_lower_flat : leaves_world (cx_realloc cx) -> forall t, lowers_ok t -> forall v, acts insts cx P (List.length (handles_in t)) (lower_flat cx t v).
Proof.
  intros Hw t. induction t using valtype_ind'; intros HL v; cbn [lower_flat]; try solve [cbn [handles_in List.length]; act].
  - unfold lower_string. cbn [handles_in List.length]. act.
  - eapply acts_more with (k := 0%nat); [|lia]. unfold lower_flat_list. act.
  - rewrite handles_sum. unfold lower_flat_record. destruct v; try (eapply acts_more; [apply acts_lift|lia]). apply acts_lower_fields.
    assert (Hall : Forall (fun f => forall v, acts insts cx P (List.length (handles_in (snd f))) (lower_flat cx (snd f) v)) fs).
    { apply fields_all with (R := lowers_ok) (Q := fun u => forall v, acts insts cx P (List.length (handles_in u)) (lower_flat cx u v)); [|exact H].
      intros f Hf. eapply lowers_part; [apply field_part; exact Hf|exact HL]. }
    clear H HL. induction Hall as [|f fs Hf _ IH]; cbn [map]; [constructor|]. constructor; [exact Hf|exact IH].
  - apply acts_lower_flat_variant. apply Forall_map.
    apply cases_all with (R := lowers_ok) (Q := fun u => forall v, acts insts cx P (List.length (handles_in u)) (lower_flat cx u v)) in H;
      [|intros c u Hc Hu; eapply lowers_part; [eapply case_part; eauto|exact HL]].
    rewrite Forall_forall in H |- *. intros c Hc. specialize (H c Hc). pose proof (handles_case cs c) as HC.
    destruct c as [l [ty|] r]; cbn in *; auto. intros v'. eapply acts_more; [apply H|apply HC; auto].
  - unfold ret_handle. cbn [handles_in List.length]. apply (acts_bind insts cx P 1 0); [|act]. apply acts_lower_own. apply HL. left. reflexivity.
  - unfold ret_handle. cbn [handles_in List.length]. apply (acts_bind insts cx P 1 0); [|act]. apply acts_lower_borrow. apply HL. left. reflexivity.
  - rewrite <- lower_flat_despecialize, <- handles_despecialize. apply IHt. unfold lowers_ok. rewrite handles_despecialize. exact HL.
Qed.

(** ** Parameter lists *)
Lemma acts_lift_each : forall ts, Forall lifts_ok ts -> forall it, acting (lift_each (map (lift_flat cx) ts) it).
Proof.
  induction 1 as [|t ts Ht _ IH]; intros; cbn [lift_each map]; [act|].
  apply acts_bind0; [apply acts_lift_flat; exact Ht|]. act.
Qed.
Lemma lifts_tuple : forall ts, Forall lifts_ok ts -> lifts_ok (TTuple ts).
Proof.
  intros ts H. rewrite Forall_forall in H. split; intros rt i Hin; cbn [handles_in] in Hin; apply in_flat_map in Hin;
    destruct Hin as (t & Ht & Hin); destruct (H t Ht); auto.
Qed.
Lemma acts_lift_values : forall order n ts it, Forall lifts_ok ts -> acting (lift_values order cx n ts it).
Proof.
  intros order n ts it H. unfold lift_values. apply acts_bind0; [act|]. intros flat. destruct (Nat.leb _ _); [apply acts_lift_each; exact H|].
  pose proof (acts_load (TTuple ts) (lifts_tuple ts H)). act.
Qed.
Lemma acts_lower_each : leaves_world (cx_realloc cx) -> forall vs ts, Forall lowers_ok ts ->
  acts insts cx P (List.length (flat_map handles_in ts)) (lower_each (map (lower_flat cx) ts) vs).
Proof.
  intros Hw. induction vs as [|v vs IH]; intros ts H; (destruct H as [|t ts Ht H]; cbn [lower_each map flat_map]).
  1,2: eapply acts_more; [apply acts_ret|lia].
  { eapply acts_more; [apply acts_lift|lia]. }
  rewrite app_length. apply acts_bind; [apply acts_lower_flat; [exact Hw|exact Ht]|]. intros a.
  replace (List.length (flat_map handles_in ts)) with (List.length (flat_map handles_in ts) + 0)%nat by lia.
  apply acts_bind; [apply IH; exact H|act].
Qed.
Lemma acts_lower_values : leaves_world (cx_realloc cx) -> forall n vs ts out, Forall lowers_ok ts ->
  acts insts cx P (List.length (flat_map handles_in ts)) (lower_values cx n vs ts out).
Proof.
  intros Hw n vs ts out H. unfold lower_values. set (m := List.length _). apply (acts_bind insts cx P 0 m); [auto with acts|].
  intros flat. destruct (Nat.leb _ _).
  - replace m with (m + 0)%nat by lia. apply acts_bind; [apply acts_lower_each; [exact Hw|exact H]|act].
  - eapply acts_more with (k := 0%nat); [|lia]. unfold lower_values_to_tuple. act.
Qed.
End Acts.

(** ** Calls are numbered in order *)
Definition ncalls (s : state) : nat := List.length (w_calls (s_world s)).
Definition steady {A} (m : M A) : Prop := forall s o s', m s = (o, s') -> ncalls s' = ncalls s.

Lemma steady_bind : forall {A B} (m : M A) (f : A -> M B), steady m -> (forall x, steady (f x)) -> steady (bind m f).
Proof.
  intros A B m f Hm Hf s o s' E. unfold bind in E. destruct (m s) as [[x|e| |] s1] eqn:E1; pose proof (Hm _ _ _ E1) as G.
  - rewrite <- G. eapply Hf. exact E.
  - inversion E; subst. exact G.
  - inversion E; subst. exact G.
  - inversion E; subst. exact G.
Qed.
Lemma steady_lift : forall {A} (o : outcome A), steady (lift_o o).
Proof. intros A o s r s' E. inversion E. reflexivity. Qed.
Lemma steady_ret : forall {A} (x : A), steady (ret x).
Proof. intros. apply steady_lift. Qed.
Lemma steady_get : steady get_world.
Proof. intros s r s' E. inversion E. reflexivity. Qed.
Lemma table_calls : forall w i rt t, w_calls (set_inst_table w i rt t) = w_calls w.
Proof. intros. unfold set_inst_table. destruct (nth_error _ _); reflexivity. Qed.
Lemma borrow_calls : forall w c d, List.length (w_calls (add_borrow w c d)) = List.length (w_calls w).
Proof. intros w [c|] d; [|reflexivity]. unfold add_borrow. destruct (nth_error _ _); [apply list_upd_length|reflexivity]. Qed.
Lemma steady_hget : forall i rt n, steady (handle_get i rt n).
Proof. intros i rt n s o s' E. inversion E; subst. unfold ncalls. cbn [s_world]. rewrite table_calls. reflexivity. Qed.
Lemma steady_hadd : forall i rt h, steady (handle_add i rt h).
Proof.
  intros i rt h s o s' E. unfold handle_add in E. unfold bind at 1, get_world in E. unfold ncalls.
  set (w0 := mkWorld (w_elems (s_world s) ++ [h]) (w_calls (s_world s)) (w_insts (s_world s)) (w_dtors (s_world s))) in *.
  change (w_calls (s_world s)) with (w_calls w0).
  destruct (stack_pop (t_free (inst_table w0 i rt))) as [free [k|]].
  - destruct (nth_error (t_array (inst_table w0 i rt)) (N.to_nat k)) as [[x|]|]; inversion E; subst; cbn [s_world]; rewrite ?borrow_calls, table_calls; reflexivity.
  - inversion E; subst. cbn [s_world]. rewrite borrow_calls, table_calls. reflexivity.
Qed.
Lemma steady_hremove : forall i rt n, steady (handle_remove i rt n).
Proof.
  intros i rt n. apply steady_bind; [apply steady_hget|]. intros id s o s' E. unfold bind at 1, get_world in E. unfold ncalls.
  destruct (h_lend (elem_at (s_world s) id) =? 0)%Z; inversion E; subst; [|reflexivity]. cbn [s_world]. rewrite borrow_calls, table_calls. reflexivity.
Qed.
Lemma steady_lbf : forall c i, steady (lift_borrow_from c i).
Proof.
  intros c i s o s' E. unfold lift_borrow_from in E. unfold bind, get_world in E. unfold ncalls.
  destruct (nth_error (w_calls (set_lend (s_world s) i 1)) c); inversion E; subst; [apply list_upd_length|reflexivity].
Qed.
Lemma steady_exit : forall c, steady (exit_call c).
Proof.
  intros c s o s' E. unfold exit_call, bind, get_world in E. unfold ncalls.
  destruct (nth_error (w_calls (s_world s)) c) as [k|]; [|inversion E; subst; reflexivity].
  destruct (k_borrow k =? 0)%Z; inversion E; subst; [|reflexivity]. clear E. cbn [s_world].
  generalize (s_world s) as w. induction (k_lenders k) as [|x l IH]; intros w; [reflexivity|]. cbn [fold_left]. rewrite IH. reflexivity.
Qed.

Lemma run_calls : forall o s r s', run o s = (r, s') ->
  match o with
  | OpEnter _ _ => r = Ok (N.of_nat (ncalls s)) /\ ncalls s' = S (ncalls s)
  | _ => ncalls s' = ncalls s
  end.
Proof.
  intros o s r s' E. destruct o; cbn [run] in E.
  - inversion E; subst. split; [reflexivity|]. unfold ncalls. cbn [s_world w_calls]. rewrite app_length. cbn. lia.
  - eapply (steady_bind _ _ (steady_exit call) (fun _ => steady_ret 0)). exact E.
  - eapply steady_hadd. exact E.
  - eapply (steady_bind _ _ (steady_hget inst (rt_id rt) i)); [|exact E]. intros id. apply steady_bind; [apply steady_get|intros; apply steady_ret].
  - eapply (steady_bind (canon_resource_drop inst rt i)); [|intros; apply steady_ret|exact E].
    apply steady_bind; [apply steady_hremove|]. intros id s0 o0 s0' E0. unfold bind at 1, get_world in E0.
    destruct (h_own (elem_at (s_world s0) id)); [|inversion E0; subst; reflexivity].
    destruct (rt_impl rt) as [impl|]; [|inversion E0; subst; reflexivity].
    destruct (negb (Nat.eqb inst impl) && _); [inversion E0; subst; reflexivity|]. destruct (rt_dtor rt); inversion E0; subst; reflexivity.
  - eapply (steady_bind _ _ (steady_hremove (cx_inst cx) (rt_id rt) i)); [|exact E]. intros id. apply steady_bind; [apply steady_get|intros; apply steady_ret].
  - eapply (steady_bind _ _ (steady_hget (cx_inst cx) (rt_id rt) i)); [|exact E]. intros id. apply steady_bind; [apply steady_lbf|].
    intros _. apply steady_bind; [apply steady_get|intros; apply steady_ret].
  - unfold lower_own in E. destruct v; try (inversion E; subst; reflexivity). eapply steady_hadd. exact E.
  - unfold lower_borrow in E. destruct v; try (inversion E; subst; reflexivity).
    destruct (match rt_impl rt with Some impl => Nat.eqb (cx_inst cx) impl | None => false end); [inversion E; subst; reflexivity|]. eapply steady_hadd. exact E.
  - inversion E; subst. reflexivity.
Qed.

Lemma calls_known : forall insts ops rs s calls, history insts ops rs s calls -> forall c, In c calls -> (c < ncalls s)%nat.
Proof.
  intros insts ops rs s calls H. induction H as [s He Hc Hd Hi Ht|ops rs s calls o r s' H IH Hp E]; intros c Hin; [destruct Hin|].
  pose proof (run_calls _ _ _ _ E) as R. destruct o; cbn [opened] in Hin; try (rewrite R; apply IH; destruct r; assumption).
  - destruct R as [-> ->]. destruct Hin as [<-|Hin]; [rewrite Nat2N.id; lia|]. specialize (IH _ Hin). lia.
  - rewrite R. apply IH. destruct r; try assumption. apply in_remove in Hin. tauto.
Qed.

(** ** Putting calls together *)
Lemma continues_trans : forall insts ops rs evs s' base, continues insts (ops ++ map fst evs) (rs ++ map snd evs) s' base ->
  continues insts ops rs s' base.
Proof.
  intros insts ops rs evs s' base (e2 & c2 & H & I). exists (evs ++ e2)%list, c2. rewrite !map_app, !app_assoc. auto.
Qed.
Lemma continues_nil : forall insts ops rs s s' calls base, history insts ops rs s calls -> s_world s' = s_world s -> incl base calls ->
  continues insts ops rs s' base.
Proof. intros. exists [], calls. cbn [map]. rewrite !app_nil_r. split; [eapply history_world; eauto|assumption]. Qed.
Lemma continues_evolves : forall insts ops rs s calls evs s' calls' base, history insts ops rs s calls -> evolves insts s calls evs s' calls' ->
  incl base calls' -> continues insts ops rs s' base.
Proof. intros. exists evs, calls'. split; [eapply evolves_history; eauto|assumption]. Qed.
Lemma continues_less : forall insts ops rs s' base base', continues insts ops rs s' base -> incl base' base -> continues insts ops rs s' base'.
Proof. intros insts ops rs s' base base' (evs & c & H & I) I'. exists evs, c. split; [exact H|]. eapply incl_tran; eauto. Qed.

Lemma closes_bind : forall insts outer mid inner {A B} (m : M A) (f : A -> M B), closes insts mid inner m -> incl outer mid ->
  (forall x, closes insts outer mid (f x)) -> closes insts outer inner (bind m f).
Proof.
  intros insts outer mid inner A B m f Hm Hi Hf ops rs s calls o s' H Hc E. unfold bind in E.
  destruct (m s) as [[x|e| |] s1] eqn:E1; pose proof (Hm _ _ _ _ _ _ H Hc E1) as C1.
  - destruct C1 as (evs & c1 & H1 & I1). eapply continues_trans. eapply Hf; eauto.
  - inversion E; subst. eapply continues_less; eauto.
  - inversion E; subst. eapply continues_less; eauto.
  - inversion E; subst. eapply continues_less; eauto.
Qed.
Lemma closes_weak : forall insts outer inner outer' inner' {A} (m : M A), closes insts outer inner m -> incl outer' outer -> incl inner inner' ->
  closes insts outer' inner' m.
Proof. intros insts outer inner outer' inner' A m H I1 I2 ops rs s calls o s' Hh Hc E. eapply continues_less; [eapply H; eauto; eapply incl_tran; eauto|exact I1]. Qed.
Lemma closes_lift : forall insts base {A} (o : outcome A), closes insts base base (lift_o o).
Proof. intros insts base A o ops rs s calls r s' H I E. inversion E; subst. eapply continues_nil; eauto. Qed.
Lemma closes_ret : forall insts base {A} (x : A), closes insts base base (ret x).
Proof. intros. apply closes_lift. Qed.
Lemma closes_get : forall insts base, closes insts base base get_world.
Proof. intros insts base ops rs s calls r s' H I E. inversion E; subst. eapply continues_nil; eauto. Qed.
Lemma closes_orderly : forall insts base {A} (m : M A), orderly insts m -> closes insts base base m.
Proof. intros insts base A m Hm ops rs s calls o s' H I E. eapply continues_less; [eapply Hm; eauto|exact I]. Qed.
Lemma orderly_closes : forall insts {A} (m : M A), (forall base, closes insts base base m) -> orderly insts m.
Proof. intros insts A m Hm ops rs s calls o s' H E. eapply Hm; eauto. apply incl_refl. Qed.
Lemma closes_acts : forall insts base cx P k {A} (m : M A), (cx_inst cx < insts)%nat -> In (cx_id cx) base -> acts insts cx P k m -> closes insts base base m.
Proof.
  intros insts base cx P k A m Hi Hc Hm ops rs s calls o s' H I E. destruct (Hm _ _ _ _ Hi (I _ Hc) E) as (evs & V & _).
  eapply continues_evolves; eauto.
Qed.

(** A state reached by a run of one operation, seen from the history. *)
Lemma closes_run : forall insts base o s ops rs calls r s' s2, history insts ops rs s calls -> proper insts calls o -> run o s = (r, s') ->
  s_world s2 = s_world s' -> incl base (opened o r calls) -> continues insts ops rs s2 base.
Proof.
  intros insts base o s ops rs calls r s' s2 H Hp E Hw I. eapply continues_evolves; [exact H| |exact I].
  destruct (evolves_one insts s calls o r s' Hp E) as (s1 & A & W). exists s1. split; [exact A|congruence].
Qed.

Lemma upd_same : forall {A} (l : list A) i d, list_upd l i (nth i l d) = l.
Proof. intros A l. induction l as [|x l IH]; intros [|i] d; cbn; try reflexivity. rewrite IH. reflexivity. Qed.
Lemma inst_eta : forall i, mkInst (i_may_enter i) (i_may_leave i) (i_tables i) = i.
Proof. intros []; reflexivity. Qed.
Lemma set_enter_noop : forall inst s, set_may_enter inst (i_may_enter (inst_at (s_world s) inst)) s = (Ok tt, s).
Proof.
  intros inst s. unfold set_may_enter, bind, get_world, put_world. rewrite inst_eta. unfold inst_at at 1. rewrite upd_same. destruct s as [? ? []]; reflexivity.
Qed.
Lemma set_leave_noop : forall inst s, set_may_leave inst (i_may_leave (inst_at (s_world s) inst)) s = (Ok tt, s).
Proof.
  intros inst s. unfold set_may_leave, bind, get_world, put_world. rewrite inst_eta. unfold inst_at at 1. rewrite upd_same. destruct s as [? ? []]; reflexivity.
Qed.
Lemma closes_set_leave : forall insts base inst b, (inst < insts)%nat -> closes insts base base (set_may_leave inst b).
Proof.
  intros insts base inst b Hi ops rs s calls o s' H I E.
  assert (R : run (OpGuards inst (i_may_enter (inst_at (s_world s) inst)) b) s = (Ok 0, s')).
  { cbn [run]. unfold bind at 1. rewrite set_enter_noop. unfold bind at 1. rewrite E. unfold set_may_leave, bind, get_world, put_world in E. inversion E. reflexivity. }
  eapply closes_run; [exact H| |exact R|reflexivity|]; [exact Hi|exact I].
Qed.
Lemma closes_set_enter : forall insts base inst b, (inst < insts)%nat -> closes insts base base (set_may_enter inst b).
Proof.
  intros insts base inst b Hi ops rs s calls o s' H I E.
  assert (R : run (OpGuards inst b (i_may_leave (inst_at (s_world s') inst))) s = (Ok 0, s')).
  { cbn [run]. unfold bind at 1. rewrite E. replace o with (@Ok unit tt) by (unfold set_may_enter, bind, get_world, put_world in E; inversion E; reflexivity).
    unfold bind at 1. rewrite set_leave_noop. reflexivity. }
  eapply closes_run; [exact H| |exact R|reflexivity|]; [exact Hi|exact I].
Qed.
Lemma closes_exit : forall insts base cx, ~ In (cx_id cx) base -> closes insts base (cx_id cx :: base) (exit_call_ignored cx).
Proof.
  intros insts base cx Hn ops rs s calls o s' H I E. unfold exit_call_ignored in E. destruct (exit_call (cx_id cx) s) as [o1 s1] eqn:E1.
  assert (R : run (OpExit (cx_id cx)) s = (match o1 with Ok _ => Ok 0 | Err e => Err e | Panic => Panic | Diverge => Diverge end, s1)).
  { cbn [run]. unfold bind. rewrite E1. destruct o1; reflexivity. }
  assert (Es : s' = s1) by (destruct o1; inversion E; reflexivity). subst s1.
  eapply closes_run; [exact H| |exact R|reflexivity|]; [apply I; left; reflexivity|].
  assert (I' : incl base calls) by (intros x Hx; apply I; right; exact Hx).
  destruct o1; cbn [opened]; try exact I'. intros x Hx. apply in_in_remove; [|apply I'; exact Hx]. intros ->. contradiction.
Qed.

Lemma any_lifts : forall cx ts, Forall (lifts_ok cx (fun _ => True)) ts.
Proof. intros. apply Forall_forall. intros t _. split; auto. Qed.
Lemma any_lowers : forall cx ts, Forall (lowers_ok cx (fun _ => True)) ts.
Proof. intros. apply Forall_forall. intros t _. split; auto. Qed.

Lemma begin_call : forall insts ops rs s calls opts inst o s', (inst < insts)%nat -> history insts ops rs s calls -> new_call opts inst s = (o, s') ->
  history insts (ops ++ [OpEnter opts inst]) (rs ++ [Ok (N.of_nat (ncalls s))]) s' (ncalls s :: calls) /\
  o = Ok (mkCtx (ncalls s) inst (o_enc opts) (o_realloc opts)) /\ ~ In (ncalls s) calls.
Proof.
  intros insts ops rs s calls opts inst o s' Hi H E.
  assert (R : run (OpEnter opts inst) s = (Ok (N.of_nat (ncalls s)), s')) by (inversion E; reflexivity).
  pose proof (h_step _ _ _ _ _ (OpEnter opts inst) _ _ H Hi R) as H1. cbn [opened] in H1. rewrite Nat2N.id in H1.
  split; [exact H1|]. split; [inversion E; reflexivity|]. intros Hin. apply (calls_known _ _ _ _ _ H) in Hin. lia.
Qed.

Lemma closes_get_mem : forall insts base, closes insts base base get_mem.
Proof. intros insts base ops rs s calls r s' H I E. inversion E; subst. eapply continues_nil; eauto. Qed.
Lemma closes_put_mem : forall insts base m, closes insts base base (put_mem m).
Proof. intros insts base m ops rs s calls r s' H I E. inversion E; subst. eapply continues_nil; [exact H|reflexivity|exact I]. Qed.
Lemma closes_realloc : forall insts base cx a b c d, orderly_allocator insts (cx_realloc cx) -> closes insts base base (realloc cx a b c d).
Proof.
  intros insts base cx a b c d Ha ops rs s calls o s' H I E. unfold realloc in E. specialize (Ha (mkReq a b c d) ops rs s calls). cbv beta in Ha.
  destruct (cx_realloc cx (mkReq a b c d) s) as [r [m w]] eqn:E1. cbn [fst snd] in Ha. destruct (Ha _ _ H eq_refl) as (evs & c' & H2 & I2).
  exists evs, c'. split; [|eapply incl_tran; eauto]. eapply history_world; [exact H2|]. destruct r; inversion E; reflexivity.
Qed.
(** Lowering, whatever the allocator does. *)
Lemma closes_lower_values : forall insts base cx n vs ts out, (cx_inst cx < insts)%nat -> In (cx_id cx) base ->
  orderly_allocator insts (cx_realloc cx) -> closes insts base base (lower_values cx n vs ts out).
Proof.
  intros insts base [id inst enc al] n vs ts out Hi Hc Ha.
  apply (rel_lower_values (fun A m _ => closes insts base base m) id inst enc al al); intros.
  - apply closes_lift.
  - apply closes_get_mem.
  - unfold store_bytes. apply closes_bind with (mid := base); [apply closes_get_mem|apply incl_refl|]. intros m.
    apply closes_bind with (mid := base); [apply closes_lift|apply incl_refl|]. intros x. apply closes_put_mem.
  - apply closes_bind with (mid := base); [assumption|apply incl_refl|assumption].
  - apply closes_realloc. exact Ha.
  - eapply closes_acts; [exact Hi|exact Hc|]. apply (acts_lower_own insts _ (fun _ => True)). exact I.
  - eapply closes_acts; [exact Hi|exact Hc|]. apply (acts_lower_borrow insts _ (fun _ => True)). exact I.
Qed.

Ltac closing := match goal with
  | |- closes _ ?b ?b (bind _ _) => apply closes_bind with (mid := b); [|apply incl_refl|let x := fresh "x" in intros x]
  | |- closes _ _ _ (let (_, _) := ?x in _) => destruct x
  | |- closes _ _ _ (if ?b then _ else _) => destruct b
  | |- closes _ _ _ (lift_o _) => apply closes_lift
  | |- closes _ _ _ (ret _) => apply closes_ret
  | |- closes _ _ _ (set_may_leave _ _) => apply closes_set_leave; assumption
  | |- closes _ _ _ (set_may_enter _ _) => apply closes_set_enter; assumption
  | |- closes _ _ _ (lift_values _ ?cx _ _ _) => eapply closes_acts with (cx := cx); [assumption|left; reflexivity|apply acts_lift_values; apply any_lifts]
  | |- closes _ _ _ (lower_values ?cx _ _ _ _) => apply closes_lower_values; [assumption|cbn; auto|assumption]
  end.

Lemma lifted_orderly : forall insts order opts inst callee ft maxp maxr, (inst < insts)%nat -> orderly_allocator insts (o_realloc opts) ->
  (forall vs, orderly insts (callee vs)) -> (forall f, o_post_return opts = Some f -> orderly insts f) ->
  forall args, orderly_call insts (fun r => Some (snd r)) (canon_lift order opts inst callee ft args maxp maxr).
Proof.
  intros insts order opts inst callee ft maxp maxr Hi Hal Hcal Hpost args ops rs s calls o s' H E.
  assert (Stop : forall e, (o, s') = (Err e, s) -> exists evs calls', history insts (ops ++ map fst evs) (rs ++ map snd evs) s' calls' /\ incl calls calls' /\
    match o with Ok r => match Some (snd r) with Some g => closes insts calls calls' g | None => True end | _ => True end).
  { intros e Ee. injection Ee as -> ->. exists [], calls. cbn [map]. rewrite !app_nil_r. split; [exact H|]. split; [apply incl_refl|exact I]. }
  unfold canon_lift in E. unfold bind at 1, get_world at 1 in E.
  destruct (negb (i_may_enter _)); [eapply Stop; symmetry; exact E|]. destruct (negb (i_may_leave _)); [eapply Stop; symmetry; exact E|]. clear Stop.
  unfold bind at 1 in E. destruct (new_call opts inst s) as [o1 s1] eqn:E1.
  destruct (begin_call _ _ _ _ _ _ _ _ _ Hi H E1) as (H1 & -> & Hn). set (cx := mkCtx (ncalls s) inst (o_enc opts) (o_realloc opts)) in *.
  assert (Hi' : (cx_inst cx < insts)%nat) by exact Hi.
  set (rest := (set_may_leave inst false ;; _)) in E.
  assert (HC : closes insts (ncalls s :: calls) (ncalls s :: calls) rest).
  { unfold rest. repeat closing. apply closes_orderly. apply Hcal.
    destruct x2; try apply closes_lift. repeat closing. }
  destruct (HC _ _ _ _ _ _ H1 (incl_refl _) E) as (evs & c' & H2 & I2).
  exists ((OpEnter opts inst, Ok (N.of_nat (ncalls s))) :: evs), c'. cbn [map fst snd]. rewrite <- !app_assoc in H2. split; [exact H2|].
  split; [intros x Hx; apply I2; right; exact Hx|]. destruct o as [[lifted post]|e| |]; try exact I. cbn [snd].
  assert (Hp : post = ((match o_post_return opts with Some f => f | None => ret tt end) ;; exit_call_ignored cx)).
  { unfold rest in E. repeat match type of E with bind ?m ?f ?st = (Ok _, _) => let x := fresh "x" in let E' := fresh "E'" in
      unfold bind at 1 in E; destruct (m st) as [[x|?| |] ?] eqn:E'; try discriminate; try (destruct x; try discriminate) end.
    all: try (unfold lift_o in E; discriminate).
    all: unfold ret in E; injection E as <- <- <-; reflexivity. }
  subst post. apply closes_weak with (outer := calls) (inner := ncalls s :: calls); [|apply incl_refl|exact I2].
  apply closes_bind with (mid := ncalls s :: calls); [|intros x Hx; right; exact Hx|intros _; apply (closes_exit insts calls cx); exact Hn].
  destruct (o_post_return opts) as [f|]; [apply closes_orderly; apply Hpost; reflexivity|apply closes_ret].
Qed.

Lemma lowered_orderly : forall insts order opts inst callee ci ft maxp maxr, (inst < insts)%nat -> orderly_allocator insts (o_realloc opts) ->
  (forall vs, orderly_call insts snd (callee vs)) ->
  forall args, orderly insts (canon_lower order opts inst callee ci ft args maxp maxr).
Proof.
  intros insts order opts inst callee ci ft maxp maxr Hi Hal Hcal args ops rs s calls o s' H E.
  unfold canon_lower in E. unfold bind at 1 in E. destruct (new_call opts inst s) as [o1 s1] eqn:E1.
  destruct (begin_call _ _ _ _ _ _ _ _ _ Hi H E1) as (H1 & -> & Hn). set (cx := mkCtx (ncalls s) inst (o_enc opts) (o_realloc opts)) in *.
  assert (Hi' : (cx_inst cx < insts)%nat) by exact Hi. set (base := ncalls s :: calls) in *.
  assert (Hb : incl calls base) by (intros x Hx; right; exact Hx).
  assert (HC : closes insts calls base (let* w := get_world in
    if negb (i_may_leave (inst_at w inst)) then lift_o (Err ETrap) else
    if negb (i_may_enter (inst_at w inst)) then lift_o (Err EOther) else
    let* args := lift_o (as_core args) in
    let* (lifted, it) := lift_values order cx maxp (param_types ft) (IBase args 0) in
    let* (results, post) := callee lifted in
    set_may_leave inst false ;;
    let* flat := lower_values cx maxr results (result_types ft) (Some it) in
    set_may_leave inst true ;;
    (match post with Some f => f | None => lift_o Panic end) ;;
    exit_call_ignored cx ;;
    (if ci then set_may_enter inst true else ret tt) ;;
    ret flat)).
  { apply closes_bind with (mid := base); [apply closes_get|exact Hb|intros w].
    assert (Hl : forall A (r : outcome A), closes insts calls base (lift_o r)) by (intros A r; eapply closes_weak; [apply closes_lift with (base := base)|exact Hb|apply incl_refl]).
    destruct (negb _); [apply Hl|]. destruct (negb _); [apply Hl|].
    apply closes_bind with (mid := base); [apply closes_lift|exact Hb|intros cargs].
    apply closes_bind with (mid := base); [closing|exact Hb|intros [lifted it]].
    clear ops rs s1 s' o H H1 E E1. intros ops rs t tcalls o t' H HI E. unfold bind at 1 in E.
    destruct (callee lifted t) as [o1 t1] eqn:E1. destruct (Hcal lifted _ _ _ _ _ _ H E1) as (evs & c1 & H1 & I1 & P1).
    assert (Hstop : forall e, (o, t') = (e, t1) -> continues insts ops rs t' calls).
    { intros e Ee. injection Ee as -> ->. exists evs, c1. split; [exact H1|]. eapply incl_tran; [exact Hb|]. eapply incl_tran; [exact HI|exact I1]. }
    destruct o1 as [[results post]|e| |]; try (eapply Hstop; symmetry; exact E). clear Hstop. cbn [snd] in P1.
    apply continues_trans with (evs := evs). revert H1 E. generalize (ops ++ map fst evs)%list (rs ++ map snd evs)%list. intros ops1 rs1 H1 E.
    assert (HbI : incl base c1) by (eapply incl_tran; eauto).
    assert (HC : closes insts calls c1 (set_may_leave inst false ;;
      let* flat := lower_values cx maxr results (result_types ft) (Some it) in
      set_may_leave inst true ;;
      (match post with Some f => f | None => lift_o Panic end) ;;
      exit_call_ignored cx ;;
      (if ci then set_may_enter inst true else ret tt) ;;
      ret flat)).
    { assert (Hcc : incl calls c1) by (eapply incl_tran; [exact Hb|exact HbI]).
      apply closes_bind with (mid := c1); [closing|exact Hcc|intros _].
      apply closes_bind with (mid := c1); [|exact Hcc|intros flat].
      { apply closes_lower_values; [exact Hi|apply HbI; left; reflexivity|exact Hal]. }
      apply closes_bind with (mid := c1); [closing|exact Hcc|intros _].
      apply closes_bind with (mid := base); [|exact Hb|intros _].
      { destruct post as [f|]; [|eapply closes_weak; [apply closes_lift with (base := c1)|exact HbI|apply incl_refl]].
        eapply closes_weak; [exact P1|exact HI|apply incl_refl]. }
      apply closes_bind with (mid := calls); [apply (closes_exit insts calls cx); exact Hn|apply incl_refl|intros _].
      apply closes_bind with (mid := calls); [|apply incl_refl|intros _; apply closes_ret].
      destruct ci; [closing|apply closes_ret]. }
    eapply HC; [exact H1|apply incl_refl|exact E]. }
  apply continues_trans with (evs := [(OpEnter opts inst, @Ok N (N.of_nat (ncalls s)))]). eapply HC; [exact H1|apply incl_refl|exact E].
Qed.

Lemma closes_elsewhere : forall insts outer inner {A} (m : memory) (h : list (req * N)) (f : M A), closes insts outer inner f ->
  closes insts outer inner (over_there m h f).
Proof.
  intros insts outer inner A m h f Hf ops rs s calls o s' H I E. unfold over_there in E.
  destruct (f (other m h s)) as [o1 s1] eqn:E1. injection E as <- <-.
  destruct (Hf ops rs (other m h s) calls o1 s1) as (evs & c' & H2 & I2); [eapply history_world; [exact H|reflexivity]|exact I|exact E1|].
  exists evs, c'. split; [eapply history_world; [exact H2|reflexivity]|exact I2].
Qed.

Lemma linked_orderly : forall insts order opts inst core ft maxp maxr m h, (inst < insts)%nat -> orderly_allocator insts (o_realloc opts) ->
  (forall vs, orderly insts (core vs)) -> (forall f, o_post_return opts = Some f -> orderly insts f) ->
  forall args, orderly_call insts snd (linked order opts inst core ft maxp maxr m h args).
Proof.
  intros insts order opts inst core ft maxp maxr m h Hi Hal Hcal Hpost args ops rs s calls o s' H E. unfold linked in E.
  destruct (canon_lift order opts inst core ft args maxp maxr (other m h s)) as [o1 s1] eqn:E1. injection E as <- <-.
  destruct (lifted_orderly insts order opts inst core ft maxp maxr Hi Hal Hcal Hpost args ops rs (other m h s) calls o1 s1) as (evs & c' & H2 & I2 & P2);
    [eapply history_world; [exact H|reflexivity]|exact E1|].
  exists evs, c'. split; [eapply history_world; [exact H2|reflexivity]|]. split; [exact I2|].
  destruct o1 as [[vs post]|e| |]; try exact I. cbn [snd] in *. apply closes_elsewhere. exact P2.
Qed.

(** ** What lifting and lowering do to single handles *)
Definition is_lift (o : op) : Prop := match o with OpLiftOwn _ _ _ | OpLiftBorrow _ _ _ => True | _ => False end.
Definition is_lower (o : op) : Prop := match o with OpLowerOwn _ _ _ | OpLowerBorrow _ _ _ => True | _ => False end.

Lemma made_lifts : forall evs : list (op * outcome N), Forall is_lift (map fst evs) -> made (map fst evs) = 0%nat.
Proof. intros evs H. unfold made. induction H as [|o l Ho _ IH]; [reflexivity|]. destruct o; try contradiction; exact IH. Qed.

(** A property of the abstract machine's state along [evolves]. *)
Lemma evolves_keeps : forall (P : handles -> Prop) (Q : op -> outcome N -> Prop),
  (forall a b, same a b -> P a -> P b) -> (forall a o r c, answers a o r c -> P a -> Q o r -> P c) ->
  forall insts s calls evs s' calls', evolves insts s calls evs s' calls' ->
  forall ops rs, history insts ops rs s calls -> N.of_nat (made ops + made (map fst evs)) < two32 ->
  P (view (s_world s) calls) -> Forall (fun e => Q (fst e) (snd e)) evs -> P (view (s_world s') calls').
Proof.
  intros P Q H1 H2 insts s calls evs s' calls' (s1 & A & W) ops rs H Hn HP HF. rewrite <- W. eapply after_keeps; eauto.
Qed.

Lemma history_at : forall insts ops rs s calls inst rt i, history insts ops rs s calls -> N.of_nat (made ops) < two32 -> (inst < insts)%nat ->
  found s inst rt i = match at_key (view (s_world s) calls) (inst, rt_id rt, i) with Some h => Ok (hd_rep h) | None => Err ETrap end.
Proof. intros insts ops rs s calls inst rt i H Hn Hi. destruct (history_inv _ _ _ _ _ H Hn) as [HI Hl]. eapply found_view; eauto. Qed.

(** Lifting never makes handles appear, and changes none. *)
Lemma lifts_key : forall a o r c k, answers a o r c -> is_lift o -> at_key c k = at_key a k \/ at_key c k = None.
Proof.
  intros a o r c k H Hl. destruct o; try contradiction; inversion H; subst; auto;
    match goal with X : takes _ _ _ _ |- _ => inversion X; subst; auto end; cbn; unfold put; destruct (key_dec _ k); auto.
Qed.
Lemma lifts_only_remove : forall insts ops rs s calls evs s' calls' inst rt i rep,
  history insts ops rs s calls -> N.of_nat (made ops) < two32 -> evolves insts s calls evs s' calls' -> Forall is_lift (map fst evs) ->
  (inst < insts)%nat -> found s' inst rt i = Ok rep -> found s inst rt i = Ok rep.
Proof.
  intros insts ops rs s calls evs s' calls' inst rt i rep H Hn V HF Hi Hf.
  pose proof (evolves_history _ _ _ _ _ _ _ _ H V) as H'. pose proof (made_lifts evs HF) as Hm.
  rewrite (history_at _ _ _ _ _ _ _ _ H' ltac:(rewrite made_app, Hm; lia) Hi) in Hf. rewrite (history_at _ _ _ _ _ _ _ _ H Hn Hi).
  assert (HP : (fun a => at_key a (inst, rt_id rt, i) = at_key (view (s_world s) calls) (inst, rt_id rt, i) \/ at_key a (inst, rt_id rt, i) = None) (view (s_world s') calls')).
  { eapply evolves_keeps with (Q := fun o _ => is_lift o); [| |exact V|exact H|rewrite Hm; lia|left; reflexivity|].
    - intros a b (S1 & _) X. rewrite <- S1. exact X.
    - intros a o r c HA X HQ. destruct (lifts_key _ _ _ _ (inst, rt_id rt, i) HA HQ) as [-> | ->]; auto.
    - rewrite Forall_map in HF. exact HF. }
  cbv beta in HP. destruct HP as [<-|E]; [exact Hf|]. rewrite E in Hf. discriminate.
Qed.
Lemma found_cases : forall insts ops rs s calls inst rt i, history insts ops rs s calls -> N.of_nat (made ops) < two32 -> (inst < insts)%nat ->
  (exists rep, found s inst rt i = Ok rep) \/ found s inst rt i = Err ETrap.
Proof. intros insts ops rs s calls inst rt i H Hn Hi. rewrite (history_at _ _ _ _ _ _ _ _ H Hn Hi). destruct (at_key _ _); eauto. Qed.

(** Lowering never takes handles away, and changes none. *)
Lemma lowers_key : forall a o r c k h, answers a o r c -> is_lower o -> at_key a k = Some h -> at_key c k = Some h.
Proof. intros a o r c k h H Hl Hk. eapply answers_keeps; [exact H|exact Hk|]. destruct o; try contradiction; exact I. Qed.
Lemma lowers_only_add : forall insts ops rs s calls evs s' calls' inst rt i rep,
  history insts ops rs s calls -> N.of_nat (made ops + made (map fst evs)) < two32 -> evolves insts s calls evs s' calls' -> Forall is_lower (map fst evs) ->
  (inst < insts)%nat -> found s inst rt i = Ok rep -> found s' inst rt i = Ok rep.
Proof.
  intros insts ops rs s calls evs s' calls' inst rt i rep H Hn V HF Hi Hf.
  pose proof (evolves_history _ _ _ _ _ _ _ _ H V) as H'.
  rewrite (history_at _ _ _ _ _ _ _ _ H' ltac:(rewrite made_app; lia) Hi). rewrite (history_at _ _ _ _ _ _ _ _ H ltac:(lia) Hi) in Hf.
  destruct (at_key (view (s_world s) calls) (inst, rt_id rt, i)) as [h|] eqn:Eh; [|discriminate].
  assert (HP : (fun a => at_key a (inst, rt_id rt, i) = Some h) (view (s_world s') calls')).
  { eapply evolves_keeps with (Q := fun o _ => is_lower o); [| |exact V|exact H|exact Hn|exact Eh|].
    - intros a b (S1 & _) X. rewrite <- S1. exact X.
    - intros a o r c HA X HQ. eapply lowers_key; eauto.
    - rewrite Forall_map in HF. exact HF. }
  cbv beta in HP. rewrite HP. exact Hf.
Qed.

(** Which operations lifting and lowering perform. *)
Definition lifting (cx : callctx) (hs : list (bool * rtype)) (o : op) : Prop :=
  match o with
  | OpLiftOwn cx' rt _ => cx' = cx /\ In (true, rt) hs
  | OpLiftBorrow cx' rt _ => cx' = cx /\ In (false, rt) hs
  | _ => False
  end.
Definition lowering (cx : callctx) (hs : list (bool * rtype)) (o : op) : Prop :=
  match o with
  | OpLowerOwn cx' rt _ => cx' = cx /\ In (true, rt) hs
  | OpLowerBorrow cx' rt _ => cx' = cx /\ In (false, rt) hs
  | _ => False
  end.
Lemma lifting_is_lift : forall cx hs l, Forall (lifting cx hs) l -> Forall is_lift l.
Proof. intros cx hs l H. eapply Forall_impl; [|exact H]. intros [] X; try contradiction; exact I. Qed.
Lemma lowering_is_lower : forall cx hs l, Forall (lowering cx hs) l -> Forall is_lower l.
Proof. intros cx hs l H. eapply Forall_impl; [|exact H]. intros [] X; try contradiction; exact I. Qed.

Lemma lift_values_acts : forall insts order cx n ts it, acts insts cx (lifting cx (flat_map handles_in ts)) 0 (lift_values order cx n ts it).
Proof.
  intros. apply acts_lift_values. apply Forall_forall. intros t Ht. split; intros rt i Hin; (split; [reflexivity|]); apply in_flat_map; eauto.
Qed.
Lemma lift_each_acts : forall insts cx ts it, acts insts cx (lifting cx (flat_map handles_in ts)) 0 (lift_each (map (lift_flat cx) ts) it).
Proof.
  intros. apply acts_lift_each. apply Forall_forall. intros t Ht. split; intros rt i Hin; (split; [reflexivity|]); apply in_flat_map; eauto.
Qed.
Lemma lower_values_acts : forall insts cx n vs ts out, leaves_world (cx_realloc cx) ->
  acts insts cx (lowering cx (flat_map handles_in ts)) (List.length (flat_map handles_in ts)) (lower_values cx n vs ts out).
Proof.
  intros. apply acts_lower_values; [assumption|]. apply Forall_forall. intros t Ht. split; intros rt i Hin; (split; [reflexivity|]); apply in_flat_map; eauto.
Qed.
Lemma lower_each_acts : forall insts cx vs ts, leaves_world (cx_realloc cx) ->
  acts insts cx (lowering cx (flat_map handles_in ts)) (List.length (flat_map handles_in ts)) (lower_each (map (lower_flat cx) ts) vs).
Proof.
  intros. apply acts_lower_each; [assumption|]. apply Forall_forall. intros t Ht. split; intros rt i Hin; (split; [reflexivity|]); apply in_flat_map; eauto.
Qed.

(** Lifting and lowering one parameter after another. *)
Lemma lift_each_app : forall fs1 f fs2 it s vs it' s', lift_each (fs1 ++ f :: fs2) it s = (Ok (vs, it'), s') ->
  exists vs1 it1 s1 v it2 s2 vs2, lift_each fs1 it s = (Ok (vs1, it1), s1) /\ f it1 s1 = (Ok (v, it2), s2) /\
    lift_each fs2 it2 s2 = (Ok (vs2, it'), s') /\ vs = (vs1 ++ v :: vs2)%list /\ List.length vs1 = List.length fs1.
Proof.
  induction fs1 as [|g fs1 IH]; intros f fs2 it s vs it' s' E; cbn [lift_each app] in E.
  - apply bind_inv in E. destruct E as ((v & it2) & s2 & E1 & E). apply bind_inv in E. destruct E as ((vs2 & it3) & s3 & E2 & E).
    unfold ret in E. injection E as <- <- <-. exists [], it, s, v, it2, s2, vs2. cbn. auto.
  - apply bind_inv in E. destruct E as ((v & it2) & s2 & E1 & E). apply bind_inv in E. destruct E as ((vs2 & it3) & s3 & E2 & E).
    unfold ret in E. injection E as <- <- <-. destruct (IH _ _ _ _ _ _ _ E2) as (vs1 & it1 & s1 & w & it4 & s4 & vs3 & A1 & A2 & A3 & -> & A5).
    exists (v :: vs1), it1, s1, w, it4, s4, vs3. cbn [lift_each]. split; [|cbn; auto].
    unfold bind. rewrite E1. cbv beta iota. rewrite A1. reflexivity.
Qed.
Lemma lift_each_pos : forall cx ts kss, Forall2 flattens ts kss -> forall cs n s vs it s',
  lift_each (map (lift_flat cx) ts) (IBase cs n) s = (Ok (vs, it), s') -> it = IBase cs (n + List.length (List.concat kss)).
Proof.
  intros cx ts kss H. induction H as [|t ks ts kss Hk _ IH]; intros cs n s vs it s' E; cbn [map lift_each] in E.
  - unfold ret in E. injection E as <- <- <-. cbn. f_equal. lia.
  - apply bind_inv in E. destruct E as ((v & it2) & s2 & E1 & E). apply bind_inv in E. destruct E as ((vs2 & it3) & s3 & E2 & E).
    unfold ret in E. injection E as <- <- <-. destruct (consumes_all cx t _ _ _ _ _ E1) as (ks' & Ek & A).
    apply flatten_complete in Hk. rewrite Hk in Ek. injection Ek as <-.
    destruct it2 as [cs' n'|]; [|contradiction]. destruct A as (-> & -> & _). rewrite (IH _ _ _ _ _ _ E2). f_equal.
    cbn [List.concat]. rewrite app_length. lia.
Qed.
Lemma lower_each_app : forall fs1 f fs2 vs1 v vs2 s cs s', List.length vs1 = List.length fs1 ->
  lower_each (fs1 ++ f :: fs2) (vs1 ++ v :: vs2) s = (Ok cs, s') ->
  exists cs1 s1 c s2 cs2, lower_each fs1 vs1 s = (Ok cs1, s1) /\ f v s1 = (Ok c, s2) /\ lower_each fs2 vs2 s2 = (Ok cs2, s') /\
    cs = (cs1 ++ c ++ cs2)%list.
Proof.
  induction fs1 as [|g fs1 IH]; intros f fs2 [|w vs1] v vs2 s cs s' HL E; try discriminate; cbn [lower_each app] in E.
  - apply bind_inv in E. destruct E as (c & s2 & E1 & E). apply bind_inv in E. destruct E as (cs2 & s3 & E2 & E).
    unfold ret in E. injection E as <- <-. exists [], s, c, s2, cs2. cbn. auto.
  - apply bind_inv in E. destruct E as (c & s2 & E1 & E). apply bind_inv in E. destruct E as (cs2 & s3 & E2 & E).
    unfold ret in E. injection E as <- <-. cbn [List.length] in HL. destruct (IH f fs2 vs1 v vs2 s2 cs2 s3 ltac:(lia) E2) as (cs1 & s1 & d & s4 & cs3 & A1 & A2 & A3 & ->).
    exists (c ++ cs1)%list, s1, d, s4, cs3. cbn [lower_each]. split; [|rewrite app_assoc; auto].
    unfold bind. rewrite E1. cbv beta iota. rewrite A1. reflexivity.
Qed.
Lemma lower_each_length : forall cx ts kss, Forall2 flattens ts kss -> forall vs s cs s', List.length vs = List.length ts ->
  lower_each (map (lower_flat cx) ts) vs s = (Ok cs, s') -> List.length cs = List.length (List.concat kss).
Proof.
  intros cx ts kss H. induction H as [|t ks ts kss Hk _ IH]; intros [|v vs] s cs s' HL E; try discriminate; cbn [map lower_each] in E.
  - unfold ret in E. injection E as <- <-. reflexivity.
  - apply bind_inv in E. destruct E as (a & s2 & E1 & E). apply bind_inv in E. destruct E as (b & s3 & E2 & E).
    unfold ret in E. injection E as <- <-. cbn [List.concat]. rewrite !app_length. f_equal; [|exact (IH vs s2 b s3 ltac:(cbn in HL; lia) E2)].
    apply kinds_all in E1. apply flatten_complete in Hk. rewrite Hk in E1. injection E1 as ->. rewrite map_length. reflexivity.
Qed.

(** ** One parameter among others *)
Lemma flat_types_ok : forall ts kss, Forall2 flattens ts kss -> flatten_types ts = Ok (List.concat kss).
Proof. intros ts kss H. apply flatten_types_ok. exact H. Qed.

Lemma lift_at : forall insts order cx maxf ts1 t ts2 kss1 ks kss2 cs s vs it s' calls,
  (cx_inst cx < insts)%nat -> In (cx_id cx) calls ->
  Forall2 flattens ts1 kss1 -> flattens t ks -> Forall2 flattens ts2 kss2 ->
  (List.length (List.concat (kss1 ++ ks :: kss2)) <= maxf)%nat ->
  lift_values order cx maxf (ts1 ++ t :: ts2) (IBase cs 0) s = (Ok (vs, it), s') ->
  exists evs1 s1 v it2 s2 evs2 vs1 vs2,
    evolves insts s calls evs1 s1 calls /\ Forall (lifting cx (flat_map handles_in ts1)) (map fst evs1) /\
    lift_flat cx t (IBase cs (List.length (List.concat kss1))) s1 = (Ok (v, it2), s2) /\
    evolves insts s2 calls evs2 s' calls /\ Forall (lifting cx (flat_map handles_in ts2)) (map fst evs2) /\
    vs = (vs1 ++ v :: vs2)%list /\ List.length vs1 = List.length ts1 /\
    lift_each (map (lift_flat cx) ts2) (IBase cs (List.length (List.concat kss1) + List.length ks)) s2 = (Ok (vs2, it), s').
Proof.
  intros insts order cx maxf ts1 t ts2 kss1 ks kss2 cs s vs it s' calls Hi Hc F1 Ft F2 Hl E.
  unfold lift_values in E. rewrite (flat_types_ok (ts1 ++ t :: ts2) (kss1 ++ ks :: kss2)) in E by (apply Forall2_app; [exact F1|constructor; assumption]).
  rewrite bind_lift_ok in E. apply Nat.leb_le in Hl. rewrite Hl in E. rewrite map_app in E. cbn [map] in E.
  destruct (lift_each_app _ _ _ _ _ _ _ _ E) as (vs1 & it1 & s1 & v & it2 & s2 & vs2 & A1 & A2 & A3 & -> & A5). rewrite map_length in A5.
  pose proof (lift_each_pos _ _ _ F1 _ _ _ _ _ _ A1) as ->. cbn [Nat.add] in A2.
  destruct (lift_each_acts insts cx ts1 _ _ _ _ _ Hi Hc A1) as (evs1 & V1 & Q1 & _).
  destruct (lift_each_acts insts cx ts2 _ _ _ _ _ Hi Hc A3) as (evs2 & V2 & Q2 & _).
  assert (Ep : it2 = IBase cs (List.length (List.concat kss1) + List.length ks)).
  { destruct (consumes_all cx t _ _ _ _ _ A2) as (ks' & Ek & A). apply flatten_complete in Ft. rewrite Ft in Ek. injection Ek as <-.
    destruct it2; [|contradiction]. destruct A as (-> & -> & _). reflexivity. }
  subst it2. exists evs1, s1, v, (IBase cs (List.length (List.concat kss1) + List.length ks)), s2, evs2, vs1, vs2. auto 12.
Qed.

Lemma lift_own_flat : forall cx rt cs n i s v it s', nth_error cs n = Some (CU32 i) ->
  lift_flat cx (TOwn rt) (IBase cs n) s = (Ok (v, it), s') -> exists rep, lift_own cx i rt s = (Ok rep, s') /\ v = VU32 rep.
Proof.
  intros cx rt cs n i s v it s' Hn E. cbn [lift_flat] in E. unfold lift_flat_handle, iter_next in E. rewrite Hn in E.
  destruct cs as [|c0 cs]; [destruct n; discriminate|]. cbn [cval_kind kind_eqb cval_any] in E.
  rewrite bind_lift_ok in E. apply bind_inv in E. destruct E as (r & s1 & E1 & E). unfold ret in E. injection E as <- <- <-. eauto.
Qed.
Lemma lift_borrow_flat : forall cx rt cs n i s v it s', nth_error cs n = Some (CU32 i) ->
  lift_flat cx (TBorrow rt) (IBase cs n) s = (Ok (v, it), s') -> exists rep, lift_borrow cx i rt s = (Ok rep, s') /\ v = VU32 rep.
Proof.
  intros cx rt cs n i s v it s' Hn E. cbn [lift_flat] in E. unfold lift_flat_handle, iter_next in E. rewrite Hn in E.
  destruct cs as [|c0 cs]; [destruct n; discriminate|]. cbn [cval_kind kind_eqb cval_any] in E.
  rewrite bind_lift_ok in E. apply bind_inv in E. destruct E as (r & s1 & E1 & E). unfold ret in E. injection E as <- <- <-. eauto.
Qed.

(** What the successful operations say of the handle. *)
Lemma lift_own_found : forall insts ops rs s calls cx rt i rep s', history insts ops rs s calls -> N.of_nat (made ops) < two32 ->
  (cx_inst cx < insts)%nat -> In (cx_id cx) calls -> lift_own cx i rt s = (Ok rep, s') ->
  found s (cx_inst cx) rt i = Ok rep /\ found s' (cx_inst cx) rt i = Err ETrap /\
  evolves insts s calls [(OpLiftOwn cx rt i, Ok rep)] s' calls.
Proof.
  intros insts ops rs s calls cx rt i rep s' H Hn Hi Hc E.
  pose proof (evolves_one insts s calls (OpLiftOwn cx rt i) (Ok rep) s' (conj Hi Hc) E) as V. cbn [opened] in V.
  pose proof (evolves_history _ _ _ _ _ _ _ _ H V) as H'. cbn [map fst snd] in H'.
  assert (Hn' : N.of_nat (made (ops ++ [OpLiftOwn cx rt i])) < two32) by (rewrite made_app; change (made [OpLiftOwn cx rt i]) with 0%nat; lia).
  rewrite (history_at _ _ _ _ _ _ _ _ H Hn Hi), (history_at _ _ _ _ _ _ _ _ H' Hn' Hi).
  destruct (history_inv _ _ _ _ _ H Hn) as [HI Hl].
  destruct (step insts s calls _ (OpLiftOwn cx rt i) (Ok rep) s' HI Hl) as (_ & _ & a & Ha & (S1 & _)); [exact Hn|split; assumption|exact E|].
  cbn [opened] in S1. rewrite <- S1. inversion Ha; subst. match goal with X : takes _ _ _ _ |- _ => inversion X; subst end.
  match goal with X : at_key _ _ = Some _ |- _ => rewrite X end. cbn. unfold put. destruct (key_dec _ _); [auto|congruence].
Qed.
Lemma lift_borrow_found : forall insts ops rs s calls cx rt i rep s', history insts ops rs s calls -> N.of_nat (made ops) < two32 ->
  (cx_inst cx < insts)%nat -> In (cx_id cx) calls -> lift_borrow cx i rt s = (Ok rep, s') ->
  found s (cx_inst cx) rt i = Ok rep /\ found s' (cx_inst cx) rt i = Ok rep /\
  evolves insts s calls [(OpLiftBorrow cx rt i, Ok rep)] s' calls.
Proof.
  intros insts ops rs s calls cx rt i rep s' H Hn Hi Hc E.
  pose proof (evolves_one insts s calls (OpLiftBorrow cx rt i) (Ok rep) s' (conj Hi Hc) E) as V. cbn [opened] in V.
  pose proof (evolves_history _ _ _ _ _ _ _ _ H V) as H'. cbn [map fst snd] in H'.
  assert (Hn' : N.of_nat (made (ops ++ [OpLiftBorrow cx rt i])) < two32) by (rewrite made_app; change (made [OpLiftBorrow cx rt i]) with 0%nat; lia).
  rewrite (history_at _ _ _ _ _ _ _ _ H Hn Hi), (history_at _ _ _ _ _ _ _ _ H' Hn' Hi).
  destruct (history_inv _ _ _ _ _ H Hn) as [HI Hl].
  destruct (step insts s calls _ (OpLiftBorrow cx rt i) (Ok rep) s' HI Hl) as (_ & _ & a & Ha & (S1 & _)); [exact Hn|split; assumption|exact E|].
  cbn [opened] in S1. rewrite <- S1. inversion Ha; subst.
  match goal with X : at_key _ _ = Some _ |- _ => cbn [with_loans at_key]; rewrite X end. auto.
Qed.

(** Lowering one value among others. *)
Lemma lower_at : forall insts cx maxf ts1 t ts2 kss1 ks kss2 vs1 v vs2 out s fl s' calls,
  leaves_world (cx_realloc cx) -> (cx_inst cx < insts)%nat -> In (cx_id cx) calls ->
  Forall2 flattens ts1 kss1 -> flattens t ks -> Forall2 flattens ts2 kss2 ->
  (List.length (List.concat (kss1 ++ ks :: kss2)) <= maxf)%nat -> List.length vs1 = List.length ts1 ->
  lower_values cx maxf (vs1 ++ v :: vs2) (ts1 ++ t :: ts2) out s = (Ok fl, s') ->
  exists evs1 s1 c s2 evs2 cs1 cs2,
    evolves insts s calls evs1 s1 calls /\ Forall (lowering cx (flat_map handles_in ts1)) (map fst evs1) /\
    (made (map fst evs1) <= List.length (flat_map handles_in ts1))%nat /\
    lower_flat cx t v s1 = (Ok c, s2) /\
    evolves insts s2 calls evs2 s' calls /\ Forall (lowering cx (flat_map handles_in ts2)) (map fst evs2) /\
    (made (map fst evs2) <= List.length (flat_map handles_in ts2))%nat /\
    fl = map VCore (cs1 ++ c ++ cs2) /\ List.length cs1 = List.length (List.concat kss1).
Proof.
  intros insts cx maxf ts1 t ts2 kss1 ks kss2 vs1 v vs2 out s fl s' calls Hw Hi Hc F1 Ft F2 Hl Hv E.
  unfold lower_values in E. rewrite (flat_types_ok (ts1 ++ t :: ts2) (kss1 ++ ks :: kss2)) in E by (apply Forall2_app; [exact F1|constructor; assumption]).
  rewrite bind_lift_ok in E. apply Nat.leb_le in Hl. rewrite Hl in E. rewrite map_app in E. cbn [map] in E.
  apply bind_inv in E. destruct E as (r & s3 & E & E'). unfold ret in E'. injection E' as <- <-.
  assert (Hv' : List.length vs1 = List.length (map (lower_flat cx) ts1)) by (rewrite map_length; exact Hv).
  destruct (lower_each_app _ _ _ _ _ _ _ _ _ Hv' E) as (cs1 & s1 & c & s2 & cs2 & A1 & A2 & A3 & ->).
  destruct (lower_each_acts insts cx vs1 ts1 Hw _ _ _ _ Hi Hc A1) as (evs1 & V1 & Q1 & N1).
  destruct (lower_each_acts insts cx vs2 ts2 Hw _ _ _ _ Hi Hc A3) as (evs2 & V2 & Q2 & N2).
  pose proof (lower_each_length _ _ _ F1 _ _ _ _ Hv A1) as L1.
  exists evs1, s1, c, s2, evs2, cs1, cs2. auto 12.
Qed.

Lemma lower_handle_found : forall insts ops rs s calls cx rt own rep c s', history insts ops rs s calls -> N.of_nat (made ops + 1) < two32 ->
  (cx_inst cx < insts)%nat -> In (cx_id cx) calls ->
  lower_flat cx (if own : bool then TOwn rt else TBorrow rt) (VU32 rep) s = (Ok c, s') ->
  (own = false /\ rt_impl rt = Some (cx_inst cx) /\ c = [CU32 rep] /\ s' = s) \/
  (exists j o, c = [CU32 j] /\ o = (if own then OpLowerOwn cx rt (VU32 rep) else OpLowerBorrow cx rt (VU32 rep)) /\
    run o s = (Ok j, s') /\ hands_out (cx_inst cx, rt_id rt, j) o (Ok j) /\ (own = true \/ rt_impl rt <> Some (cx_inst cx)) /\
    found s (cx_inst cx) rt j = Err ETrap /\
    at_key (view (s_world s') calls) (cx_inst cx, rt_id rt, j) = Some (mkHandle rep own (if own then None else Some (cx_id cx))) /\
    evolves insts s calls [(o, Ok j)] s' calls).
Proof.
  intros insts ops rs s calls cx rt own rep c s' H Hn Hi Hc E.
  assert (R : (own = false /\ rt_impl rt = Some (cx_inst cx) /\ c = [CU32 rep] /\ s' = s) \/
    exists j, c = [CU32 j] /\ run (if own then OpLowerOwn cx rt (VU32 rep) else OpLowerBorrow cx rt (VU32 rep)) s = (Ok j, s') /\
      (own = true \/ rt_impl rt <> Some (cx_inst cx))).
  { destruct own; cbn [lower_flat] in E; unfold ret_handle in E; apply bind_inv in E; destruct E as (j & s1 & E & E'); unfold ret in E'; injection E' as <- <-.
    - right. exists j. auto.
    - destruct (rt_impl rt) as [impl|] eqn:Er; [destruct (Nat.eq_dec impl (cx_inst cx)) as [->|Hne]|].
      + left. unfold lower_borrow in E. rewrite Er, Nat.eqb_refl in E. unfold ret in E. injection E as <- <-. auto.
      + right. exists j. split; [reflexivity|]. split; [exact E|right; congruence].
      + right. exists j. split; [reflexivity|]. split; [exact E|right; congruence]. }
  destruct R as [R|(j & -> & R & Ho)]; [left; exact R|right]. set (o := if own then _ else _) in R. exists j, o.
  split; [reflexivity|]. split; [reflexivity|]. split; [exact R|].
  assert (HO : hands_out (cx_inst cx, rt_id rt, j) o (Ok j)) by (destruct own; cbn; [reflexivity|split; [reflexivity|destruct Ho; congruence]]).
  split; [exact HO|]. split; [exact Ho|].
  assert (Hp : proper insts calls o) by (destruct own; split; assumption).
  pose proof (evolves_one insts s calls o (Ok j) s' Hp R) as V. replace (opened o (Ok j) calls) with calls in V by (destruct own; reflexivity).
  pose proof (evolves_history _ _ _ _ _ _ _ _ H V) as H'. cbn [map fst snd] in H'.
  assert (Hn' : N.of_nat (made (ops ++ [o])) < two32) by (rewrite made_app; pose proof (made_one o); lia).
  rewrite (history_at _ _ _ _ _ _ _ _ H ltac:(lia) Hi).
  destruct (history_inv _ _ _ _ _ H ltac:(lia)) as [HI Hl].
  destruct (step insts s calls _ o (Ok j) s' HI Hl) as (_ & _ & a & Ha & (S1 & _)); [lia|exact Hp|exact R|].
  replace (opened o (Ok j) calls) with calls in S1 by (destruct own; reflexivity). rewrite <- S1.
  destruct (answers_hands_out _ _ _ _ _ Ha HO) as (Hnone & rep' & Hk & Hr). rewrite Hnone, Hk. split; [reflexivity|]. split; [|exact V].
  destruct own; cbn in *; congruence.
Qed.

(** Operations that move no handle. *)
Definition quiet_op (o : op) : Prop := match o with OpEnter _ _ | OpGuards _ _ _ | OpRep _ _ _ | OpLiftBorrow _ _ _ => True | _ => False end.
(** Operations on handles of other instances, or of other resource types. *)
Definition away (inst : nat) (r : N) (o : op) : Prop :=
  match o with
  | OpNew i rt _ | OpDrop i rt _ => i <> inst \/ rt_id rt <> r
  | OpLiftOwn cx rt _ | OpLowerOwn cx rt _ | OpLowerBorrow cx rt _ => cx_inst cx <> inst \/ rt_id rt <> r
  | _ => True
  end.
Lemma quiet_away : forall o inst r, quiet_op o -> away inst r o.
Proof. intros o inst r H. destruct o; try contradiction; exact I. Qed.
Lemma away_key : forall a o r c inst t i, answers a o r c -> away inst t o -> at_key c (inst, t, i) = at_key a (inst, t, i).
Proof.
  assert (Hput : forall f inst0 rt0 i0 h inst t i, inst0 <> inst \/ rt_id rt0 <> t -> put f (inst0, rt_id rt0, i0) h (inst, t, i) = f (inst, t, i)).
  { intros f inst0 rt0 i0 h inst t i [Hne|Hne]; unfold put; destruct (key_dec _ _) as [E|]; try reflexivity; congruence. }
  intros a o r c inst t i H Ha. inversion H; subst; cbn [away] in Ha; try reflexivity;
    match goal with X : adds _ _ _ _ _ _ |- _ => inversion X; subst | X : takes _ _ _ _ |- _ => inversion X; subst end;
    cbn [with_handles with_destroyed at_key]; try reflexivity; apply Hput; assumption.
Qed.
Lemma away_found : forall insts ops rs s calls evs s' calls' inst rt i,
  history insts ops rs s calls -> N.of_nat (made ops + made (map fst evs)) < two32 -> evolves insts s calls evs s' calls' ->
  Forall (away inst (rt_id rt)) (map fst evs) -> (inst < insts)%nat -> found s' inst rt i = found s inst rt i.
Proof.
  intros insts ops rs s calls evs s' calls' inst rt i H Hn V HF Hi.
  pose proof (evolves_history _ _ _ _ _ _ _ _ H V) as H'.
  rewrite (history_at _ _ _ _ _ _ _ _ H' ltac:(rewrite made_app; lia) Hi), (history_at _ _ _ _ _ _ _ _ H ltac:(lia) Hi).
  assert (HP : (fun a => at_key a (inst, rt_id rt, i) = at_key (view (s_world s) calls) (inst, rt_id rt, i)) (view (s_world s') calls')).
  { eapply evolves_keeps with (Q := fun o _ => away inst (rt_id rt) o); [| |exact V|exact H|exact Hn|reflexivity|].
    - intros a b (S1 & _) X. rewrite <- S1. exact X.
    - intros a o r c HA X HQ. rewrite (away_key _ _ _ _ _ _ _ HA HQ). exact X.
    - rewrite Forall_map in HF. exact HF. }
  cbv beta in HP. rewrite HP. reflexivity.
Qed.
Lemma evolves_leave : forall insts inst b s calls o s', (inst < insts)%nat -> set_may_leave inst b s = (o, s') ->
  o = Ok tt /\ exists ev, evolves insts s calls [ev] s' calls /\ quiet_op (fst ev).
Proof.
  intros insts inst b s calls o s' Hi E.
  assert (R : run (OpGuards inst (i_may_enter (inst_at (s_world s) inst)) b) s = (Ok 0, s')).
  { cbn [run]. unfold bind at 1. rewrite set_enter_noop. unfold bind at 1. rewrite E. unfold set_may_leave, bind, get_world, put_world in E. inversion E. reflexivity. }
  split; [unfold set_may_leave, bind, get_world, put_world in E; inversion E; reflexivity|].
  exists (OpGuards inst (i_may_enter (inst_at (s_world s) inst)) b, Ok 0). split; [exact (evolves_one insts s calls (OpGuards inst (i_may_enter (inst_at (s_world s) inst)) b) (Ok 0) s' Hi R)|exact I].
Qed.

(** A handle stays as it is while values are lowered. *)
Lemma lowers_keep_handle : forall insts ops rs s calls evs s' calls' k h,
  history insts ops rs s calls -> N.of_nat (made ops + made (map fst evs)) < two32 -> evolves insts s calls evs s' calls' -> Forall is_lower (map fst evs) ->
  at_key (view (s_world s) calls) k = Some h -> at_key (view (s_world s') calls') k = Some h.
Proof.
  intros insts ops rs s calls evs s' calls' k h H Hn V HF Hk.
  eapply evolves_keeps with (P := fun a => at_key a k = Some h) (Q := fun o _ => is_lower o); [| |exact V|exact H|exact Hn|exact Hk|].
  - intros a b (S1 & _) X. rewrite <- S1. exact X.
  - intros a o r c HA X HQ. eapply lowers_key; eauto.
  - rewrite Forall_map in HF. exact HF.
Qed.
Lemma lowers_absent : forall insts ops rs s calls evs s' calls' inst rt i,
  history insts ops rs s calls -> N.of_nat (made ops + made (map fst evs)) < two32 -> evolves insts s calls evs s' calls' -> Forall is_lower (map fst evs) ->
  (inst < insts)%nat -> found s' inst rt i = Err ETrap -> found s inst rt i = Err ETrap.
Proof.
  intros insts ops rs s calls evs s' calls' inst rt i H Hn V HF Hi Hf.
  destruct (found_cases _ _ _ _ _ inst rt i H) as [(rep & X)|X]; [lia|exact Hi| |exact X].
  pose proof (lowers_only_add _ _ _ _ _ _ _ _ _ _ _ _ H Hn V HF Hi X). congruence.
Qed.
