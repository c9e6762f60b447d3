(** Property theorems about calls of any width (C85). *)
From Coq Require Import NArith ZArith List String Bool Lia ZifyBool ZifyNat ZifyN Permutation.
From Verif Require Import GoBase M_Types M_Layout S_Layout L_Layout M_State M_Utf M_Load M_Store M_Flat M_Canon
  S_Utf S_Values S_Memory S_Access S_Flat S_Canon S_Format S_FlatFormat S_Calls L_Access L_Mem L_Frame L_RoundTrip L_StoreLoad L_Lifted L_Flat
  L_Format L_FlatFormat L_Guards L_CtxFree L_Canon L_Calls P_Memory P_Canon
  S_Requests S_Blame L_Blame P_Blame P_Calls S_Width L_Width.
Import ListNotations.
Open Scope N_scope.
Open Scope go_scope.

(** ** C85 *)

(** CanonLift, for parameters and results within or beyond the limits.
    Arguments beyond the limit are not looked at: the core function gets the
    address of a new block of the tuple's size, in which nothing was written.
    Results beyond the limit are the fields of the tuple at the address the
    core function returns, in some order. *)
Theorem lifted_call_any_width : forall order opts init inst callee ft args asked maxp maxr s,
  (forall m, Permutation (order m) m) ->
  correct_allocator (mkCtx 0 inst (o_enc opts) (o_realloc opts)) init -> o_enc opts <> EncUnknown ->
  Forall wf_type (param_types ft) -> Forall wf_type (result_types ft) -> Forall handle_free (result_types ft) ->
  sending (mkCtx 0 inst (o_enc opts) (o_realloc opts)) maxp (param_types ft) args asked ->
  wf_mem (s_mem s) -> may_enter s inst -> may_leave s inst ->
  let call := canon_lift order opts inst callee ft args maxp maxr s in
  let cx := mkCtx 0 inst (o_enc opts) (o_realloc opts) in
  (exists o s', call = (o, s') /\ refused cx asked s o s')
  \/ exists flat s1, made s s1 asked /\ sent (o_enc opts) init maxp (param_types ft) args s s1 flat /\
    wf_mem (s_mem s1) /\ guards s1 = guards s /\ in_use_kept init s s1 /\
    let (r, s2) := callee flat s1 in
    match r with
    | Ok (VList vs) =>
        ((forall rs, vs <> map VCore rs) -> call = (Err ECast, s2)) /\
        forall rs extra, vs = map VCore rs -> wf_mem (s_mem s2) ->
          presented (o_enc opts) (s_mem s2) maxr (result_types ft) rs extra ->
          (exists vs post, call = (Ok (vs, post), s2) /\ taken (o_enc opts) (s_mem s2) maxr (result_types ft) rs vs /\
             runs_post_return (o_post_return opts) post)
          \/ ((forall vs, ~ taken (o_enc opts) (s_mem s2) maxr (result_types ft) rs vs) /\ call = (Err ETrap, s2))
    | Ok _ => call = (Err ECast, s2)
    | Err e => call = (Err e, s2)
    | Panic => call = (Panic, s2)
    | Diverge => call = (Diverge, s2)
    end.
Proof.
  intros order opts init inst callee ft args asked maxp maxr s Hord Hc Hen Hwp Hwr Hhr Hsend Hm He Hl call cx0.
  unfold call. clear call.
  destruct (lift_runs order opts inst callee ft args maxp maxr s He Hl) as (s0 & Lk & M0 & H0 & _ & ->).
  set (cx := call_ctx opts inst s).
  assert (Hm0 : wf_mem (s_mem s0)) by (rewrite M0; exact Hm).
  assert (Hsend' : sending cx maxp (param_types ft) args asked) by (destruct Hsend; econstructor; eassumption).
  destruct (lower_values cx maxp args (param_types ft) None s0) as [o1 s1] eqn:E1.
  destruct (lower_any cx init maxp (param_types ft) args asked s0 o1 s1 Hc Hwp Hm0 Hsend' E1) as [(flat & -> & St & Md & Sn)|(R & F)].
  - right. destruct (set_leave_run inst true s1) as (s2 & E2 & M2 & H2 & L2 & O2 & I2 & _).
    assert (G : guards s1 = guards s0) by (unfold guards; rewrite (st_world _ _ _ _ St); reflexivity).
    exists flat, s2. split; [destruct Md as (bl & Hb & Hd); exists bl; rewrite H2, Hb, H0; auto|].
    split.
    { destruct Sn as [kss cs K1 K2 K3 K4|a sz ptr K1 K2 K3 K4]; [eapply sent_flat; [exact K1|exact K2|exact K3|rewrite M2; exact K4]|].
      eapply sent_tuple; [exact K1|exact K2|rewrite M2; exact K3|]. rewrite H2, <- H0. exact K4. }
    rewrite M2. split; [apply (st_good _ _ _ _ St)|].
    split; [eapply unlocked_guards; eassumption|]. split.
    { intros b Hb. rewrite M2, <- M0. apply (st_frame _ _ _ _ St); [rewrite H0; exact Hb|tauto]. }
    destruct (callee flat s2) as [r s3] eqn:Ec.
    assert (EB : bind (lower_values cx maxp args (param_types ft) None)
                  (lift_rest order opts inst callee ft maxr cx) s0 =
      match r with
      | Ok (VList vs) => bind (lift_o (as_core vs)) (fun cvs =>
          bind (lift_values order cx maxr (result_types ft) (IBase cvs 0)) (fun '(lifted, _) =>
          ret (lifted, (match o_post_return opts with Some f => f | None => ret tt end) ;; exit_call_ignored cx))) s3
      | Ok _ => (Err ECast, s3)
      | Err e => (Err e, s3) | Panic => (Panic, s3) | Diverge => (Diverge, s3)
      end).
    { unfold bind at 1. rewrite E1. unfold lift_rest. unfold bind at 1. rewrite E2. unfold bind at 1. rewrite Ec.
      destruct r as [x|e| |]; try reflexivity. destruct x; reflexivity. }
    rewrite EB. clear EB. destruct r as [x|e| |]; try reflexivity. destruct x; try reflexivity. split.
    + intros Hn. destruct (as_core_cases l) as [(rs & -> & _)|(_ & E)]; [exfalso; apply (Hn rs eq_refl)|].
      unfold bind, lift_o. rewrite E. reflexivity.
    + intros rs extra -> Hm3 Hpr. unfold bind at 1 3, lift_o at 1 2. rewrite as_core_map.
      destruct (lift_any order cx s3 maxr (result_types ft) rs extra Hord Hwr Hhr Hen Hm3 Hpr) as [(vs & pre & _ & E & Hr)|(E & Hr)].
      * left. exists vs. eexists. split; [unfold bind; rewrite E; reflexivity|]. split; [exact Hr|]. apply post_closure.
      * right. split; [exact Hr|]. unfold bind. rewrite E. reflexivity.
  - left. unfold bind. rewrite E1. destruct o1; [now destruct (F a)|..];
      (eexists; eexists; split; [reflexivity|]; eapply (refused_move cx cx0 asked s0 s); [reflexivity|exact H0|now rewrite M0| |exact R]; (reflexivity || exact I)).
Qed.
Print Assumptions lifted_call_any_width.

(** CanonLower with parameters within or beyond the limit and results within
    it. *)
Theorem lowered_call_any_width : forall order opts init inst callee ci ft cs extra maxp maxr s,
  (forall m, Permutation (order m) m) ->
  correct_allocator (mkCtx 0 inst (o_enc opts) (o_realloc opts)) init -> o_enc opts <> EncUnknown ->
  Forall wf_type (param_types ft) -> Forall handle_free (param_types ft) -> Forall wf_type (result_types ft) ->
  narrow maxr (result_types ft) -> wf_mem (s_mem s) ->
  presented (o_enc opts) (s_mem s) maxp (param_types ft) cs extra ->
  may_enter s inst -> may_leave s inst ->
  let call := canon_lower order opts inst callee ci ft (map VCore cs) maxp maxr s in
  ((forall vs, ~ taken (o_enc opts) (s_mem s) maxp (param_types ft) cs vs) /\ call = (Err ETrap, with_call s))
  \/ exists vs, taken (o_enc opts) (s_mem s) maxp (param_types ft) cs vs /\
    let (r, s1) := callee vs (with_call s) in
    match r with
    | Ok (results, post) =>
        Forall2 (has_type (o_enc opts)) (result_types ft) results -> wf_mem (s_mem s1) ->
        let cx := mkCtx 0 inst (o_enc opts) (o_realloc opts) in
        exists asked, all_ask cx (result_types ft) results asked /\
        ((exists o s', call = (o, s') /\ refused cx asked s1 o s')
        \/ exists flat s2, made s1 s2 asked /\ sent (o_enc opts) init maxr (result_types ft) results s1 s2 flat /\
             wf_mem (s_mem s2) /\ in_use_kept init s1 s2 /\
             match post with
             | None => call = (Panic, s2)
             | Some f =>
                 let (p, s3) := f s2 in
                 match p with
                 | Ok _ => exists s4, call = (Ok flat, s4) /\ s_mem s4 = s_mem s3
                 | Err e => call = (Err e, s3)
                 | Panic => call = (Panic, s3)
                 | Diverge => call = (Diverge, s3)
                 end
             end)
    | Err e => call = (Err e, s1)
    | Panic => call = (Panic, s1)
    | Diverge => call = (Diverge, s1)
    end.
Proof.
  intros order opts init inst callee ci ft cs extra maxp maxr s Hord Hc Hen Hwp Hhp Hwr Hnr Hm Hpr He Hl call.
  unfold call. clear call. remember (canon_lower order opts inst callee ci ft (map VCore cs) maxp maxr s) as call eqn:EC.
  rewrite (lower_runs order opts inst callee ci ft _ maxp maxr s He Hl) in EC.
  set (cx := call_ctx opts inst s) in EC. change (s_mem s) with (s_mem (with_call s)) in Hm, Hpr |- *.
  unfold bind at 1, lift_o in EC. rewrite as_core_map in EC.
  destruct (lift_any order cx (with_call s) maxp (param_types ft) cs extra Hord Hwp Hhp Hen Hm Hpr) as [(vs & pre & _ & E & Hr)|(E & Hr)].
  2:{ left. split; [exact Hr|]. unfold bind in EC. rewrite E in EC. exact EC. }
  right. exists vs. split; [exact Hr|]. unfold bind at 1 in EC. rewrite E in EC. unfold bind in EC.
  destruct (callee vs (with_call s)) as [r s1] eqn:Ec.
  destruct r as [[results post]|e| |]; try exact EC.
  intros Hty Hm1. set (cx0 := mkCtx 0 inst (o_enc opts) (o_realloc opts)). unfold lower_rest in EC.
  destruct (all_ask_exists cx (result_types ft) results Hwr Hty) as [asked Hask]. exists asked. split; [exact Hask|].
  destruct (set_leave_run inst false s1) as (s2 & E2 & M2 & H2 & _). unfold bind at 1 in EC. rewrite E2 in EC.
  unfold bind at 1 in EC. destruct Hnr as (krs & Hkr & Hnr).
  destruct (lower_values cx maxr results (result_types ft) (Some (IBase cs (List.length pre))) s2) as [o3 s3] eqn:E3.
  assert (Hm2 : wf_mem (s_mem s2)) by (rewrite M2; exact Hm1).
  pose proof (arguments_blame cx init (result_types ft) krs results asked _ maxr s2 o3 s3 Hc Hwr Hkr Hnr Hty Hask Hm2 E3) as BL.
  destruct (lower_values_passes cx init maxr (result_types ft) results krs _ s2 o3 s3 Hc Hwr Hty Hkr Hnr Hm2 E3) as [(rs & -> & St & Hwk3 & Hps)|F].
  - right. destruct BL as [(_ & _ & _ & _ & Md)|BL]; [|now apply refused_fails with (x := map VCore rs) in BL]. destruct (set_leave_run inst true s3) as (s4 & E4 & M4 & H4 & _). unfold bind at 1 in EC. rewrite E4 in EC.
    exists (map VCore rs), s4. split; [destruct Md as (bl & Hb & Hd); exists bl; rewrite H4, Hb, H2; auto|].
    split; [eapply sent_flat; [exact Hkr|exact Hnr|exact Hwk3|rewrite M4; exact Hps]|]. rewrite M4. split; [apply (st_good _ _ _ _ St)|]. split.
    { intros b Hb. rewrite M4, <- M2. apply (st_frame _ _ _ _ St); [rewrite H2; exact Hb|tauto]. }
    destruct post as [f|]; [|exact EC]. unfold bind at 1 in EC.
    destruct (f s4) as [[[]|e| |] s5] eqn:Ef; try exact EC.
    destruct (exit_ignored_run cx s5) as (s6 & E6 & M6 & _). unfold bind at 1 in EC. rewrite E6 in EC.
    destruct ci.
    + unfold bind, set_may_enter, get_world, put_world, ret in EC. cbv zeta in EC. eexists. split; [exact EC|]. exact M6.
    + eexists. split; [exact EC|]. exact M6.
  - left. destruct BL as [(rs & -> & _)|BL]; [now destruct F as (? & ? & _ & _ & [])|].
    destruct o3; [now destruct F as (? & ? & _ & _ & [])|..];
      (eexists; eexists; split; [exact EC|]; eapply (refused_move cx cx0 asked s2 s1); [reflexivity|exact H2|now rewrite M2| |exact BL]; (reflexivity || exact I)).
Qed.
Print Assumptions lowered_call_any_width.

(** CanonLower with results beyond the limit. The results are not looked at and
    nothing is written. The core argument after the ones of the parameters is
    checked: if it is an address at which the tuple could lie, it is what the
    call returns, as a plain number; if it is not, or is of another type, the
    call fails with an error that is not a trap; if there is none, the host
    crashes, unless there were no core arguments at all. After these failures
    the instance may not be left any more. *)
Theorem lowered_call_wide_results : forall order opts inst callee ci ft cs extra maxp maxr s a sz,
  (forall m, Permutation (order m) m) -> o_enc opts <> EncUnknown ->
  Forall wf_type (param_types ft) -> Forall handle_free (param_types ft) ->
  wide maxr (result_types ft) -> tuple_layout (result_types ft) a sz -> sz < 2 ^ 32 -> wf_mem (s_mem s) ->
  presented (o_enc opts) (s_mem s) maxp (param_types ft) cs extra ->
  may_enter s inst -> may_leave s inst ->
  let call := canon_lower order opts inst callee ci ft (map VCore cs) maxp maxr s in
  ((forall vs, ~ taken (o_enc opts) (s_mem s) maxp (param_types ft) cs vs) /\ call = (Err ETrap, with_call s))
  \/ exists vs, taken (o_enc opts) (s_mem s) maxp (param_types ft) cs vs /\
    let (r, s1) := callee vs (with_call s) in
    match r with
    | Ok (results, post) =>
        let fails o := exists s2, call = (o, s2) /\ s_mem s2 = s_mem s1 /\ s_hist s2 = s_hist s1 /\
          (may_leave s1 inst -> may_not_leave s2 inst) in
        match extra with
        | CU32 ptr :: _ => wf_mem (s_mem s1) -> ptr + sz < 2 ^ 32 ->
            (~ good_address (s_mem s1) a sz ptr /\ fails (Err EOther))
            \/ (good_address (s_mem s1) a sz ptr /\
               exists s2, s_mem s2 = s_mem s1 /\ s_hist s2 = s_hist s1 /\ (may_leave s1 inst -> guards s2 = guards s1) /\
               match post with
               | None => call = (Panic, s2)
               | Some f =>
                   let (p, s3) := f s2 in
                   match p with
                   | Ok _ => exists s4, call = (Ok [VU32 ptr], s4) /\ s_mem s4 = s_mem s3
                   | Err e => call = (Err e, s3)
                   | Panic => call = (Panic, s3)
                   | Diverge => call = (Diverge, s3)
                   end
               end)
        | _ :: _ => fails (Err EOther)
        | [] => match cs with [] => fails (Err EOther) | _ => fails Panic end
        end
    | Err e => call = (Err e, s1)
    | Panic => call = (Panic, s1)
    | Diverge => call = (Diverge, s1)
    end.
Proof.
  intros order opts inst callee ci ft cs extra maxp maxr s a sz Hord Hen Hwp Hhp Hwd Hlay Hsz Hm Hpr He Hl call.
  unfold call. clear call. remember (canon_lower order opts inst callee ci ft (map VCore cs) maxp maxr s) as call eqn:EC.
  rewrite (lower_runs order opts inst callee ci ft _ maxp maxr s He Hl) in EC.
  set (cx := call_ctx opts inst s) in EC. change (s_mem s) with (s_mem (with_call s)) in Hm, Hpr |- *.
  unfold bind at 1, lift_o in EC. rewrite as_core_map in EC.
  destruct (lift_any order cx (with_call s) maxp (param_types ft) cs extra Hord Hwp Hhp Hen Hm Hpr) as [(vs & pre & Ecs & E & Hr)|(E & Hr)].
  2:{ left. split; [exact Hr|]. unfold bind in EC. rewrite E in EC. exact EC. }
  right. exists vs. split; [exact Hr|]. unfold bind at 1 in EC. rewrite E in EC. unfold bind in EC. clear Hr E Hpr.
  destruct (callee vs (with_call s)) as [r s1] eqn:Ec.
  destruct r as [[results post]|e| |]; try exact EC. unfold lower_rest in EC.
  destruct (set_leave_run inst false s1) as (s2 & E2 & M2 & H2 & L2 & O2 & I2 & _). unfold bind at 1 in EC. rewrite E2 in EC.
  pose proof Hwd as (kss & Hk & Hn). destruct (flatten_types_ok _ kss Hk) as [_ Ef]. apply Nat.leb_gt in Hn.
  destruct (sp_layout_facts _ _ _ Hlay) as (Hal & Hv & _ & Hz).
  assert (EL : lower_values cx maxr results (result_types ft) (Some (IBase cs (List.length pre))) s2 =
    bind (next_u32 (IBase cs (List.length pre))) (fun '(ptr, _) => check_aligned EOther ptr a ;; check_bounds EOther ptr sz ;; ret [VU32 ptr]) s2).
  { unfold lower_values. unfold bind at 1, lift_o at 1. rewrite Ef, Hn. unfold lower_values_to_tuple.
    unfold bind at 1, lift_o at 1. rewrite Hal. unfold bind at 1, lift_o at 1. rewrite (Hz Hsz). unfold bind at 1 2 5.
    destruct (next_u32 _ s2) as [[[p i]|e| |] s']; reflexivity. }
  unfold bind at 1 in EC. rewrite EL in EC. clear EL.
  assert (ST : may_leave s1 inst -> may_not_leave s2 inst) by (intros [e X]; exists e; eapply I2; exact X).
  assert (NX : forall c ex, extra = c :: ex -> iter_next (IBase cs (List.length pre)) KU32 =
    if kind_eqb (cval_kind c) KU32 then Ok (cval_any c, IBase cs (S (List.length pre))) else Err EOther).
  { intros c ex ->. cbn [iter_next]. rewrite Ecs. destruct (pre ++ c :: ex)%list eqn:X; [destruct pre; discriminate|]. rewrite <- X.
    rewrite nth_error_app2, Nat.sub_diag by lia. reflexivity. }
  cbv zeta.
  destruct extra as [|c ex].
  - rewrite app_nil_r in Ecs. subst pre. unfold bind at 1, next_u32, bind at 1, lift_o at 1 in EC. cbn [iter_next] in EC.
    destruct cs as [|c cs]; [|rewrite (proj2 (nth_error_None _ _)) in EC by lia]; exists s2; repeat split; auto; congruence.
  - specialize (NX c ex eq_refl). unfold bind at 1, next_u32, bind at 1, lift_o at 1 in EC. rewrite NX in EC.
    destruct c as [ptr|x|x|x]; cbn [cval_kind kind_eqb cval_any] in EC; try (exists s2; repeat split; auto; congruence).
    intros Hm1 Hp. rewrite <- M2 in Hm1. unfold ret at 1 in EC.
    destruct (address_checked a sz ptr s2 Hv Hm1 Hp) as [(G & A)|(G & A)]; rewrite A in EC; rewrite M2 in G.
    + right. split; [exact G|]. destruct (set_leave_run inst true s2) as (s4 & E4 & M4 & H4 & L4 & O4 & I4 & _). unfold bind at 1 in EC. rewrite E4 in EC.
      exists s4. split; [congruence|]. split; [congruence|]. split.
      { intros Hlv. eapply (unlocked_guards s1 inst s2 s2 s4); try eassumption; [|reflexivity]. split; [exact L2|]. split; [exact O2|exact I2]. }
      destruct post as [f|]; [|exact EC]. unfold bind at 1 in EC.
      destruct (f s4) as [[[]|e| |] s5] eqn:Ef'; try exact EC.
      destruct (exit_ignored_run cx s5) as (s6 & E6 & M6 & _). unfold bind at 1 in EC. rewrite E6 in EC.
      destruct ci.
      * unfold bind, set_may_enter, get_world, put_world, ret in EC. cbv zeta in EC. eexists. split; [exact EC|]. exact M6.
      * eexists. split; [exact EC|]. exact M6.
    + left. split; [exact G|]. exists s2. repeat split; auto.
Qed.
Print Assumptions lowered_call_wide_results.

(** Results beyond the limit cannot make a difference: component functions that
    differ in nothing else are the same to the caller. *)
Theorem wide_results_lost : forall order opts inst callee callee' ci ft args maxp maxr,
  wide maxr (result_types ft) ->
  (forall vs s, match callee vs s, callee' vs s with
                | (Ok (_, post), s1), (Ok (_, post'), s1') => post = post' /\ s1 = s1'
                | (Err e, s1), (Err e', s1') => e = e' /\ s1 = s1'
                | (Panic, s1), (Panic, s1') | (Diverge, s1), (Diverge, s1') => s1 = s1'
                | _, _ => False
                end) ->
  forall s, canon_lower order opts inst callee ci ft args maxp maxr s = canon_lower order opts inst callee' ci ft args maxp maxr s.
Proof.
  intros order opts inst callee callee' ci ft args maxp maxr (kss & Hk & Hn) H s.
  destruct (flatten_types_ok _ kss Hk) as [_ Ef]. apply Nat.leb_gt in Hn.
  assert (EL : forall cx rs rs' out, lower_values cx maxr rs (result_types ft) out = lower_values cx maxr rs' (result_types ft) out).
  { intros. unfold lower_values. rewrite Ef. unfold bind, lift_o. rewrite Hn. reflexivity. }
  unfold canon_lower. unfold bind at 1. symmetry. unfold bind at 1. symmetry. destruct (new_call opts inst s) as [[cx|e| |] s1]; try reflexivity.
  unfold bind at 1. symmetry. unfold bind at 1. symmetry. unfold get_world. destruct (i_may_leave _); [|reflexivity]. destruct (i_may_enter _); [|reflexivity]. cbn [negb].
  unfold bind at 1. symmetry. unfold bind at 1. symmetry. destruct (lift_o (as_core args) s1) as [[cs|e| |] s2]; try reflexivity.
  unfold bind at 1. symmetry. unfold bind at 1. symmetry. destruct (lift_values order cx maxp (param_types ft) (IBase cs 0) s2) as [[[vs it]|e| |] s3]; try reflexivity.
  specialize (H vs s3). unfold bind at 1. symmetry. unfold bind at 1. symmetry.
  destruct (callee vs s3) as [[[rs post]|e| |] s4], (callee' vs s3) as [[[rs' post']|e'| |] s4']; try contradiction; [|destruct H; subst; reflexivity|subst; reflexivity|subst; reflexivity].
  destruct H; subst. rewrite (EL cx rs rs'). reflexivity.
Qed.
Print Assumptions wide_results_lost.

(** Arguments beyond the limit cannot make a difference either. *)
Theorem wide_arguments_lost : forall order opts inst callee ft args args' maxp maxr s,
  wide maxp (param_types ft) ->
  canon_lift order opts inst callee ft args maxp maxr s = canon_lift order opts inst callee ft args' maxp maxr s.
Proof.
  intros order opts inst callee ft args args' maxp maxr s (kss & Hk & Hn).
  destruct (flatten_types_ok _ kss Hk) as [_ Ef]. apply Nat.leb_gt in Hn.
  assert (EL : forall cx, lower_values cx maxp args (param_types ft) None = lower_values cx maxp args' (param_types ft) None).
  { intros. unfold lower_values. rewrite Ef. unfold bind, lift_o. rewrite Hn. reflexivity. }
  unfold canon_lift, bind, get_world. destruct (i_may_enter _); [|reflexivity]. destruct (i_may_leave _); [|reflexivity]. cbn [negb].
  destruct (new_call opts inst s) as [[cx|e| |] s1]; try reflexivity. rewrite (EL cx). reflexivity.
Qed.
Print Assumptions wide_arguments_lost.

(** ** The hypotheses are met *)

(** With room for two core values, a string and an option are beyond the limit. *)
Lemma demo_wide : wide 2 [TString; TOption TU8].
Proof.
  exists [[KU32; KU32]; [KU32; KU32]]. split; [|cbn; lia].
  repeat (constructor; [apply flattens_iff; reflexivity|]). constructor.
Qed.
(** A core function that returns the address 0 for its results. *)
Definition at_0 : list any -> M any := fun _ => ret (VList [VCore (CU32 0)]).
Example lifted_call_any_width_applies :
  correct_allocator (mkCtx 0 0 (o_enc demo_opts) (o_realloc demo_opts)) (fun b => b < 64) /\
  sending (mkCtx 0 0 (o_enc demo_opts) (o_realloc demo_opts)) 2 (param_types demo_ft) demo_args [new_block 4 12] /\
  presented EncUtf8 (s_mem demo_spilled) 2 (result_types demo_ft) [CU32 0] [] /\
  may_enter demo_spilled 0 /\ may_leave demo_spilled 0 /\
  (exists post s', canon_lift (fun m => m) demo_opts 0 at_0 demo_ft demo_args 2 2 demo_spilled = (Ok (demo_args, post), s')) /\
  exists post s', canon_lift (fun m => m) demo_opts 0 at_0 demo_ft [] 2 2 demo_spilled = (Ok (demo_args, post), s').
Proof.
  destruct (values_arrive_applies EncUtf8) as (_ & _ & _ & _ & H5).
  split; [exact H5|]. split; [apply sending_tuple; [exact demo_wide|vm_compute; reflexivity|reflexivity]|].
  split. { apply presented_tuple with (a := 4) (sz := 12); [exact demo_wide|vm_compute; reflexivity|reflexivity|]. intros _. apply spilled_values_read_applies. }
  split; [eexists; reflexivity|]. split; [eexists; reflexivity|].
  split; eexists; eexists; vm_compute; reflexivity.
Qed.

(** The parameters at address 0, the results within the limit. *)
Example lowered_call_any_width_applies :
  narrow 2 [TString] /\ wf_mem (s_mem demo_spilled) /\
  presented EncUtf8 (s_mem demo_spilled) 2 (param_types demo_ft) [CU32 0] [] /\
  Forall2 (has_type EncUtf8) [TString] [VStr [72; 105]] /\
  exists s', canon_lower (fun m => m) demo_opts 0 (fun vs => ret (firstn 1 vs, Some (ret tt))) true
    (mkFuncType (ft_params demo_ft) [("r", TString)])%string (map VCore [CU32 0]) 2 2 demo_spilled = (Ok (map VCore [CU32 64; CU32 2]), s').
Proof.
  split; [exists [[KU32; KU32]]; split; [constructor; [apply flattens_iff; reflexivity|constructor]|cbn; lia]|].
  split; [split; [reflexivity|split; [vm_compute; reflexivity|repeat constructor]]|].
  split. { apply presented_tuple with (a := 4) (sz := 12); [exact demo_wide|vm_compute; reflexivity|reflexivity|]. intros _. apply spilled_values_read_applies. }
  destruct (values_arrive_applies EncUtf8) as (_ & _ & _ & H4 & _). inversion H4; subst.
  split; [constructor; [assumption|constructor]|]. eexists. vm_compute. reflexivity.
Qed.

(** Results beyond the limit: the address is given back, refused, missing. *)
Example lowered_call_wide_results_applies :
  wide 2 (result_types demo_ft) /\ tuple_layout (result_types demo_ft) 4 12 /\
  presented EncUtf8 (s_mem demo_spilled) 2 (param_types demo_ft) [CU32 0; CU32 40] [CU32 40] /\
  good_address (s_mem demo_spilled) 4 12 40 /\ ~ good_address (s_mem demo_spilled) 4 12 42 /\
  let call cs := canon_lower (fun m => m) demo_opts 0 host_echo true demo_ft (map VCore cs) 2 2 demo_spilled in
  (exists s', call [CU32 0; CU32 40] = (Ok [VU32 40], s') /\ s_mem s' = s_mem demo_spilled) /\
  (exists s', call [CU32 0; CU32 42] = (Err EOther, s') /\ may_not_leave s' 0) /\
  (exists s', call [CU32 0; CU64 40] = (Err EOther, s') /\ may_not_leave s' 0) /\
  (exists s', call [CU32 0] = (Panic, s') /\ may_not_leave s' 0).
Proof.
  split; [exact demo_wide|]. split; [vm_compute; reflexivity|].
  split. { apply presented_tuple with (a := 4) (sz := 12); [exact demo_wide|vm_compute; reflexivity|reflexivity|]. intros _. apply spilled_values_read_applies. }
  split; [split; [exists 10; reflexivity|vm_compute; discriminate]|]. split; [intros [D _]; apply N.mod_divide in D; [discriminate D|discriminate]|].
  repeat split; (eexists; split; [vm_compute; reflexivity|]; first [reflexivity|eexists; reflexivity]).
Qed.

(** The results of a call to another component beyond the limit do not reach
    the place the caller gives for them. *)
Theorem wide_results_arrive_refuted : exists order opts inst callee ft cs maxp maxr s flat s',
  (forall m, Permutation (order m) m) /\ wide maxr (result_types ft) /\ may_enter s inst /\ may_leave s inst /\
  canon_lower order opts inst callee true ft (map VCore cs) maxp maxr s = (Ok flat, s') /\
  (exists results post, (forall vs s1, callee vs s1 = (Ok (results, post), s1)) /\ Forall2 (has_type (o_enc opts)) (result_types ft) results /\
     exists ptr fields, flat = [VU32 ptr] /\
       load (mkCtx 0 inst (o_enc opts) (o_realloc opts)) (TTuple (result_types ft)) ptr s' = (Ok (VMap fields), s') /\
       ~ Permutation results (map snd fields)).
Proof.
  exists (fun m => m), demo_opts, 0%nat, (fun vs => ret ([VU32 7; VU32 9], Some (ret tt))), (mkFuncType [] [("a", TU32); ("b", TU32)])%string,
    [CU32 40], 16%nat, 1%nat, (demo_insts 200). eexists. eexists.
  split; [reflexivity|]. split. { exists [[KU32]; [KU32]]. split; [|cbn; lia]. repeat (constructor; [apply flattens_iff; reflexivity|]). constructor. }
  split; [eexists; reflexivity|]. split; [eexists; reflexivity|]. split; [vm_compute; reflexivity|].
  exists [VU32 7; VU32 9], (Some (ret tt)). split; [reflexivity|]. split; [repeat constructor; eexists; split; reflexivity|].
  eexists. eexists. split; [reflexivity|]. split; [vm_compute; reflexivity|]. intros P.
  apply (Permutation_in (VU32 7)) in P; [|left; reflexivity]. cbn in P. destruct P as [P|[P|[]]]; discriminate.
Qed.
Print Assumptions wide_results_arrive_refuted.
