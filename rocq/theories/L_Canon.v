(** Lemmas about CanonLift and CanonLower. *)
From Coq Require Import NArith ZArith List String Bool Lia ZifyBool ZifyNat ZifyN.
From Verif Require Import GoBase M_Types M_Layout S_Layout L_Layout M_State M_Utf M_Load M_Store M_Flat M_Canon
  S_Utf S_Values S_Memory S_Flat S_Canon L_Access L_Mem L_RoundTrip L_Flat L_Guards L_CtxFree.
Import ListNotations.
Open Scope N_scope.
Open Scope go_scope.

(** ** Guards *)

Lemma guards_nth : forall s i e l, nth_error (guards s) i = Some (e, l) ->
  exists x, nth_error (w_insts (s_world s)) i = Some x /\ i_may_enter x = e /\ i_may_leave x = l.
Proof.
  intros s i e l H. unfold guards in H. rewrite nth_error_map in H. destruct (nth_error (w_insts (s_world s)) i) as [x|]; [|discriminate].
  exists x. injection H as <- <-. auto.
Qed.

Lemma inst_at_nth : forall w i x, nth_error (w_insts w) i = Some x -> inst_at w i = x.
Proof. intros w i x H. unfold inst_at. apply nth_error_nth. exact H. Qed.

Lemma list_upd_nth : forall {A} (l : list A) i j x, nth_error (list_upd l i x) j =
  if Nat.eqb i j then match nth_error l i with Some _ => Some x | None => None end else nth_error l j.
Proof.
  intros A l. induction l as [|y l IH]; intros [|i] [|j] x; cbn; auto.
  destruct (Nat.eqb i j); reflexivity.
Qed.
Lemma list_upd_len : forall {A} (l : list A) i x, List.length (list_upd l i x) = List.length l.
Proof. intros A l. induction l; intros [|i] x; cbn; auto. Qed.

Lemma set_leave_run : forall inst b s, exists s', set_may_leave inst b s = (Ok tt, s') /\
  s_mem s' = s_mem s /\ s_hist s' = s_hist s /\ List.length (guards s') = List.length (guards s) /\
  (forall i, i <> inst -> nth_error (guards s') i = nth_error (guards s) i) /\
  (forall e l, nth_error (guards s) inst = Some (e, l) -> nth_error (guards s') inst = Some (e, b)) /\
  w_dtors (s_world s') = w_dtors (s_world s).
Proof.
  intros inst b s. unfold set_may_leave, bind, get_world, put_world. cbv zeta. eexists. split; [reflexivity|]. cbn [s_mem s_hist s_world w_dtors]. do 2 (split; [reflexivity|]).
  unfold guards. cbn [s_world w_insts]. rewrite !map_length, list_upd_len. split; [reflexivity|].
  split; [|split; [|reflexivity]].
  - intros i Hi. rewrite !nth_error_map, list_upd_nth. destruct (Nat.eqb_spec inst i); [congruence|reflexivity].
  - intros e l H. rewrite nth_error_map in *. rewrite list_upd_nth, Nat.eqb_refl.
    destruct (nth_error (w_insts (s_world s)) inst) as [x|] eqn:E; [|discriminate]. cbn in H |- *. injection H as <- <-.
    rewrite (inst_at_nth _ _ _ E). reflexivity.
Qed.

Lemma set_enter_run : forall inst b s, exists s', set_may_enter inst b s = (Ok tt, s') /\
  (forall i, i <> inst -> nth_error (guards s') i = nth_error (guards s) i) /\
  (forall e l, nth_error (guards s) inst = Some (e, l) -> nth_error (guards s') inst = Some (b, l)).
Proof.
  intros inst b s. unfold set_may_enter, bind, get_world, put_world. cbv zeta. eexists. split; [reflexivity|].
  unfold guards. cbn [s_world w_insts]. split.
  - intros i Hi. rewrite !nth_error_map, list_upd_nth. destruct (Nat.eqb_spec inst i); [congruence|reflexivity].
  - intros e l H. rewrite nth_error_map in *. rewrite list_upd_nth, Nat.eqb_refl.
    destruct (nth_error (w_insts (s_world s)) inst) as [x|] eqn:E; [|discriminate]. cbn in H |- *. injection H as <- <-.
    rewrite (inst_at_nth _ _ _ E). reflexivity.
Qed.

Lemma guards_with_call : forall s, guards (with_call s) = guards s.
Proof. reflexivity. Qed.

Lemma new_call_run : forall opts inst s, new_call opts inst s =
  (Ok (mkCtx (List.length (w_calls (s_world s))) inst (o_enc opts) (o_realloc opts)), with_call s).
Proof. reflexivity. Qed.

(** The context of a call made in state [s]. *)
Definition call_ctx (opts : options) (inst : nat) (s : state) : callctx :=
  mkCtx (List.length (w_calls (s_world s))) inst (o_enc opts) (o_realloc opts).

Definition lift_rest order opts inst (callee : list any -> M any) ft maxr cx (flat : list any) : M (list any * M unit) :=
  set_may_leave inst true ;;
  let* res := callee flat in
  match res with
  | VList vs =>
      let* cvs := lift_o (as_core vs) in
      let* (lifted, _) := lift_values order cx maxr (result_types ft) (IBase cvs 0) in
      ret (lifted,
           (match o_post_return opts with Some f => f | None => ret tt end) ;;
           exit_call_ignored cx)
  | _ => lift_o (Err ECast)
  end.

Lemma lift_runs : forall order opts inst callee ft args maxp maxr s,
  may_enter s inst -> may_leave s inst ->
  exists s0, locked s inst s0 /\ s_mem s0 = s_mem s /\ s_hist s0 = s_hist s /\
    set_may_leave inst false (with_call s) = (Ok tt, s0) /\
    canon_lift order opts inst callee ft args maxp maxr s =
    bind (lower_values (call_ctx opts inst s) maxp args (param_types ft) None)
         (lift_rest order opts inst callee ft maxr (call_ctx opts inst s)) s0.
Proof.
  intros order opts inst callee ft args maxp maxr s [l He] [e Hl]. rewrite He in Hl. injection Hl as <- ->.
  destruct (guards_nth _ _ _ _ He) as (x & Ex & Xe & Xl).
  destruct (set_leave_run inst false (with_call s)) as (s0 & E0 & M0 & H0 & L0 & O0 & I0 & _).
  exists s0. split; [|split; [exact M0|split; [exact H0|split; [exact E0|]]]].
  - split; [exact L0|]. split; [exact O0|exact I0].
  - unfold canon_lift. unfold bind at 1, get_world at 1. rewrite (inst_at_nth _ _ _ Ex), Xe, Xl. cbn [negb].
    erewrite bind_ok; [|apply new_call_run]. erewrite bind_ok; [|exact E0]. reflexivity.
Qed.

Lemma lift_refuses : forall order opts inst callee ft args maxp maxr s,
  may_not_enter s inst \/ may_not_leave s inst ->
  canon_lift order opts inst callee ft args maxp maxr s =
  (Err (if i_may_enter (inst_at (s_world s) inst) then EOther else ETrap), s).
Proof.
  intros order opts inst callee ft args maxp maxr s H. unfold canon_lift. unfold bind at 1, get_world at 1.
  assert (G : exists x, nth_error (w_insts (s_world s)) inst = Some x /\ (i_may_enter x = false \/ i_may_leave x = false)).
  { destruct H as [[l H]|[l H]]; destruct (guards_nth _ _ _ _ H) as (x & Ex & Xe & Xl); exists x; auto. }
  destruct G as (x & Ex & Hx). rewrite (inst_at_nth _ _ _ Ex).
  destruct (i_may_enter x); cbn [negb]; [|reflexivity]. destruct Hx as [|Hx]; [discriminate|]. rewrite Hx. reflexivity.
Qed.

Lemma lower_refuses : forall order opts inst callee ci ft args maxp maxr s,
  may_not_enter s inst \/ may_not_leave s inst ->
  canon_lower order opts inst callee ci ft args maxp maxr s =
  (Err (if i_may_leave (inst_at (s_world s) inst) then EOther else ETrap), with_call s).
Proof.
  intros order opts inst callee ci ft args maxp maxr s H. unfold canon_lower.
  erewrite bind_ok; [|apply new_call_run]. unfold bind at 1, get_world at 1.
  assert (G : exists x, nth_error (w_insts (s_world s)) inst = Some x /\ (i_may_enter x = false \/ i_may_leave x = false)).
  { destruct H as [[l H]|[l H]]; destruct (guards_nth _ _ _ _ H) as (x & Ex & Xe & Xl); exists x; auto. }
  destruct G as (x & Ex & Hx). rewrite (inst_at_nth (s_world (with_call s)) inst x Ex), (inst_at_nth _ _ _ Ex).
  destruct (i_may_leave x); cbn [negb]; [|reflexivity]. destruct Hx as [Hx|]; [|discriminate]. rewrite Hx. reflexivity.
Qed.

Definition lower_rest inst (ci : bool) ft maxr cx it (r : list any * option (M unit)) : M (list any) :=
  let (results, post) := r in
  set_may_leave inst false ;;
  let* flat := lower_values cx maxr results (result_types ft) (Some it) in
  set_may_leave inst true ;;
  (match post with Some f => f | None => lift_o Panic end) ;;
  exit_call_ignored cx ;;
  (if ci then set_may_enter inst true else ret tt) ;;
  ret flat.

Lemma lower_runs : forall order opts inst callee ci ft args maxp maxr s,
  may_enter s inst -> may_leave s inst ->
  canon_lower order opts inst callee ci ft args maxp maxr s =
  bind (lift_o (as_core args)) (fun args =>
  bind (lift_values order (call_ctx opts inst s) maxp (param_types ft) (IBase args 0)) (fun '(lifted, it) =>
  bind (callee lifted) (lower_rest inst ci ft maxr (call_ctx opts inst s) it))) (with_call s).
Proof.
  intros order opts inst callee ci ft args maxp maxr s [l He] [e Hl]. rewrite He in Hl. injection Hl as <- ->.
  destruct (guards_nth _ _ _ _ He) as (x & Ex & Xe & Xl). unfold canon_lower.
  erewrite bind_ok; [|apply new_call_run]. unfold bind at 1, get_world at 1.
  rewrite (inst_at_nth (s_world (with_call s)) inst x Ex), Xe, Xl. cbn [negb]. reflexivity.
Qed.

Lemma quiet_leave : forall {A} (m : M A) inst, quiet m -> keeps_leave inst m.
Proof. intros A m inst Q s o s' E [e H]. pose proof (Q _ _ _ E) as G. exists e. rewrite G. exact H. Qed.
Lemma keeps_bind : forall {A B} inst (m : M A) (f : A -> M B), keeps_leave inst m -> (forall x, keeps_leave inst (f x)) -> keeps_leave inst (bind m f).
Proof.
  intros A B inst m f Hm Hf s o s' E H. unfold bind in E. destruct (m s) as [[x|e| |] s1] eqn:E1; pose proof (Hm _ _ _ E1 H);
    try (inversion E; subst; assumption). eapply Hf; eassumption.
Qed.
Lemma keeps_set : forall inst, keeps_leave inst (set_may_leave inst true).
Proof.
  intros inst s o s' E [e H]. destruct (set_leave_run inst true s) as (s1 & E1 & _ & _ & _ & _ & G & _).
  rewrite E1 in E. injection E as <- <-. exists e. eapply G. exact H.
Qed.
Lemma keeps_enter : forall inst b, keeps_leave inst (set_may_enter inst b).
Proof.
  intros inst b s o s' E [e H]. destruct (set_enter_run inst b s) as (s1 & E1 & _ & G).
  rewrite E1 in E. injection E as <- <-. exists b. eapply G. exact H.
Qed.

(** ** Values *)

Lemma all_same_nil : all_same [] [] [].
Proof. split; [reflexivity|]. split; [reflexivity|]. intros [|i] t v v' H; discriminate. Qed.
Lemma all_same_cons : forall t ts v vs v' vs', same_value t v v' -> all_same ts vs vs' -> all_same (t :: ts) (v :: vs) (v' :: vs').
Proof.
  intros t ts v vs v' vs' H (L1 & L2 & H'). split; [cbn; congruence|]. split; [cbn; congruence|].
  intros [|i] t0 v0 v0' H1 H2 H3; cbn in *; [congruence|]. eapply H'; eassumption.
Qed.

Lemma lower_each_rt : forall cx init ts vs kss,
  correct_allocator cx init -> Forall wf_type ts -> Forall2 (has_type (cx_enc cx)) ts vs ->
  map flatten_type ts = map Ok kss ->
  writes cx init 0 0 (lower_each (map (lower_flat cx) ts) vs)
    (fun cs s => map cval_kind cs = List.concat kss /\ forall it it', yields it cs it' ->
       exists vs', lift_each (map (lift_flat cx) ts) it s = (Ok (vs', it'), s) /\ all_same ts vs vs').
Proof.
  intros cx init ts vs kss Hc Hwf Hty. revert kss. induction Hty as [|t v ts vs Ht _ IH]; intros kss Hk.
  - destruct kss; [|discriminate]. apply writes_ret. intros s _ _. split; [reflexivity|].
    intros it it' Y. cbn in Y. subst it'. exists []. split; [reflexivity|apply all_same_nil].
  - destruct kss as [|ks kss]; [discriminate|]. cbn [map] in Hk. injection Hk as Hk1 Hk2. inversion Hwf; subst.
    cbn [map lower_each]. eapply writes_mono.
    + eapply (writes_bind cx init 0 0 0 0 0 0); [eapply (flat_rt_all cx init t Hc); eassumption| |intros; unfold within in *; lia..].
      intros a.
      eapply (writes_bind cx init 0 0 0 0 0 0 _ _ _ (fun b c _ => c = (a ++ b)%list)); [apply (IH H2 kss); assumption| |intros; unfold within in *; lia..].
      intros b. apply writes_ret. reflexivity.
    + cbn beta. intros cs s _ _ (a & (Ka & _ & Ra) & b & (Kb & Rb) & ->). split.
      * rewrite map_app, Ka, Kb. reflexivity.
      * intros it it' Y. apply yields_app in Y. destruct Y as (it1 & Y1 & Y2).
        destruct (Ra it it1 Y1) as (v' & Ev & Sv). destruct (Rb it1 it' Y2) as (vs' & Es & Ss).
        exists (v' :: vs'). split; [|apply all_same_cons; assumption].
        cbn [lift_each]. erewrite bind_ok; [|exact Ev]. cbv beta iota. erewrite bind_ok; [|exact Es]. reflexivity.
Qed.

Lemma as_core_map : forall cs, as_core (map VCore cs) = Ok cs.
Proof. induction cs as [|c cs IH]; [reflexivity|]. cbn. rewrite IH. reflexivity. Qed.

Lemma flatten_types_ok : forall ts kss, Forall2 flattens ts kss -> map flatten_type ts = map Ok kss /\ flatten_types ts = Ok (List.concat kss).
Proof.
  intros ts kss H. assert (E : map flatten_type ts = map Ok kss).
  { induction H as [|t ks ts kss Hk _ IH]; [reflexivity|]. cbn. rewrite IH. f_equal. apply flatten_complete. exact Hk. }
  split; [exact E|]. unfold flatten_types. rewrite E. apply flatten_record_ok.
Qed.

Lemma lift_each_agree : forall cx cy ts, cx_enc cx = cx_enc cy -> Forall handle_free ts ->
  forall it, agree (lift_each (map (lift_flat cx) ts) it) (lift_each (map (lift_flat cy) ts) it).
Proof.
  intros cx cy ts E H. induction H as [|t ts Ht _ IH]; intros it; cbn [map lift_each]; [apply agree_refl|].
  apply agree_bind; [apply lift_agree; assumption|]. intros [v it1]. apply agree_bind; [apply IH|]. intros [vs it2]. apply agree_refl.
Qed.
