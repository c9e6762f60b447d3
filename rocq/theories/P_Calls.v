(** Property theorems about whole calls (C59): what the callee is given and what
    the caller gets back. *)
From Coq Require Import NArith ZArith List String Bool Lia ZifyBool ZifyNat ZifyN Permutation.
From Verif Require Import GoBase M_Types M_Layout S_Layout L_Layout M_State M_Utf M_Load M_Store M_Flat M_Canon
  S_Utf S_Values S_Memory S_Access S_Flat S_Canon S_Format S_FlatFormat S_Calls L_Access L_Mem L_Frame L_RoundTrip L_StoreLoad L_Lifted L_Flat
  L_Format L_FlatFormat L_Guards L_CtxFree L_Canon L_Calls P_Memory P_Canon
  S_Requests S_Blame L_Blame P_Blame.
Import ListNotations.
Open Scope N_scope.
Open Scope go_scope.

(** ** C59 *)

(** CanonLift within the flat limits. Either the allocator fails on one of the
    blocks the arguments take and the call ends there with its outcome; or all
    of them are granted and the core function is run, on canonical core
    values that stand for the arguments, with all guards as before the call
    and with no byte in use changed. What it returns is what counts: an error,
    a panic and the like are passed on, something else than a list of core
    values is refused, and core results of the flattened result types are read
    as the results in the memory the core function leaves, or the call traps
    exactly if they stand for none. More core results than that are ignored.
    The state after the call is the one the core function leaves. *)
Theorem lifted_call : forall order opts init inst callee ft kps krs args maxp maxr s,
  correct_allocator (mkCtx 0 inst (o_enc opts) (o_realloc opts)) init -> o_enc opts <> EncUnknown ->
  Forall wf_type (param_types ft) -> Forall wf_type (result_types ft) -> Forall handle_free (result_types ft) ->
  Forall2 flattens (param_types ft) kps -> (List.length (List.concat kps) <= maxp)%nat ->
  Forall2 flattens (result_types ft) krs -> (List.length (List.concat krs) <= maxr)%nat ->
  Forall2 (has_type (o_enc opts)) (param_types ft) args -> wf_mem (s_mem s) ->
  may_enter s inst -> may_leave s inst ->
  let call := canon_lift order opts inst callee ft args maxp maxr s in
  let cx := mkCtx 0 inst (o_enc opts) (o_realloc opts) in
  exists asked, all_ask cx (param_types ft) args asked /\
  ((exists o s', call = (o, s') /\ refused cx asked s o s')
  \/ exists cs s1, made s s1 asked /\
    well_kinded (List.concat kps) cs /\ passed_as (o_enc opts) (s_mem s1) (param_types ft) cs args /\
    wf_mem (s_mem s1) /\ guards s1 = guards s /\ in_use_kept init s s1 /\
    let (r, s2) := callee (map VCore cs) s1 in
    match r with
    | Ok (VList vs) =>
        ((forall rs, vs <> map VCore rs) -> call = (Err ECast, s2)) /\
        forall rs extra, vs = map VCore (rs ++ extra) -> well_kinded (List.concat krs) rs ->
          wf_mem (s_mem s2) -> all_addressable (o_enc opts) (s_mem s2) (result_types ft) rs ->
          (exists vs post, call = (Ok (vs, post), s2) /\ received_as (o_enc opts) (s_mem s2) (result_types ft) rs vs /\
             runs_post_return (o_post_return opts) post)
          \/ (~ receivable (o_enc opts) (s_mem s2) (result_types ft) rs /\ call = (Err ETrap, s2))
    | Ok _ => call = (Err ECast, s2)
    | Err e => call = (Err e, s2)
    | Panic => call = (Panic, s2)
    | Diverge => call = (Diverge, s2)
    end).
Proof.
  intros order opts init inst callee ft kps krs args maxp maxr s Hc Hen Hwp Hwr Hhr Hkp Hnp Hkr Hnr Hty Hm He Hl call cx0.
  unfold call. clear call.
  destruct (lift_runs order opts inst callee ft args maxp maxr s He Hl) as (s0 & Lk & M0 & H0 & _ & ->).
  set (cx := call_ctx opts inst s).
  destruct (all_ask_exists cx (param_types ft) args Hwp Hty) as [asked Hask]. exists asked. split; [exact Hask|].
  destruct (lower_values cx maxp args (param_types ft) None s0) as [o1 s1] eqn:E1.
  assert (Hm0 : wf_mem (s_mem s0)) by (rewrite M0; exact Hm).
  pose proof (arguments_blame cx init (param_types ft) kps args asked None maxp s0 o1 s1 Hc Hwp Hkp Hnp Hty Hask Hm0 E1) as BL.
  destruct (lower_values_passes cx init maxp (param_types ft) args kps None s0 o1 s1) as [(cs & -> & St & Hwk & Hps)|F]; try assumption.
  - right. destruct BL as [(_ & _ & _ & _ & Md)|BL]; [|now apply refused_fails with (x := map VCore cs) in BL]. destruct (set_leave_run inst true s1) as (s2 & E2 & M2 & H2 & L2 & O2 & I2 & _).
    assert (G : guards s1 = guards s0) by (unfold guards; rewrite (st_world _ _ _ _ St); reflexivity).
    exists cs, s2. split; [destruct Md as (bl & Hb & Hd); exists bl; rewrite H2, Hb, H0; auto|].
    split; [exact Hwk|]. rewrite M2. split; [exact Hps|]. split; [apply (st_good _ _ _ _ St)|].
    split; [eapply unlocked_guards; eassumption|]. split.
    { intros b Hb. rewrite M2, <- M0. apply (st_frame _ _ _ _ St); [rewrite H0; exact Hb|tauto]. }
    destruct (callee (map VCore cs) s2) as [r s3] eqn:Ec.
    assert (EB : bind (lower_values cx maxp args (param_types ft) None)
                  (lift_rest order opts inst callee ft maxr cx) s0 =
      match r with
      | Ok (VList vs) => bind (lift_o (as_core vs)) (fun cvs =>
          bind (lift_values order cx maxr (result_types ft) (IBase cvs 0)) (fun '(lifted, _) =>
          ret (lifted, (match o_post_return opts with Some f => f | None => ret tt end) ;; exit_call_ignored cx))) s3
      | Ok _ => (Err ECast, s3)
      | Err e => (Err e, s3) | Panic => (Panic, s3) | Diverge => (Diverge, s3)
      end).
    { unfold bind at 1. rewrite E1. unfold lift_rest. unfold bind at 1. rewrite E2. unfold bind at 1. rewrite Ec.
      destruct r as [x|e| |]; try reflexivity. destruct x; reflexivity. }
    rewrite EB. clear EB. destruct r as [x|e| |]; try reflexivity. destruct x; try reflexivity. split.
    + intros Hn. destruct (as_core_cases l) as [(rs & -> & _)|(_ & E)]; [exfalso; apply (Hn rs eq_refl)|].
      unfold bind, lift_o. rewrite E. reflexivity.
    + intros rs extra -> Hwk' Hm3 Had. unfold bind at 1 3, lift_o at 1 2. rewrite as_core_map.
      destruct (lift_values_decided order cx s3 maxr (result_types ft) krs rs extra) as [(vs & it & E & Hr)|(E & Hr)]; try assumption.
      * left. exists vs. eexists. split; [unfold bind; rewrite E; reflexivity|]. split; [exact Hr|]. apply post_closure.
      * right. split; [exact Hr|]. unfold bind. rewrite E. reflexivity.
  - left. destruct BL as [(cs & -> & _)|BL]; [now destruct F as (? & ? & _ & _ & [])|].
    unfold bind. rewrite E1. destruct o1; [now destruct F as (? & ? & _ & _ & [])|..];
      (eexists; eexists; split; [reflexivity|]; eapply (refused_move cx cx0 asked s0 s); [reflexivity|exact H0|now rewrite M0| |exact BL]; (reflexivity || exact I)).
Qed.
Print Assumptions lifted_call.

(** CanonLower within the flat limits. The core arguments are read in the
    memory of the call; if they stand for nothing the call traps. Otherwise
    the component function is run on the values read. If its results are
    values of the result types, then either the allocator fails on one of the
    blocks they take and the call ends there, or they are passed on as canonical core values that
    stand for them when its post-return step begins; whatever the outcome of
    that step, it is the call's outcome. More core arguments than the types
    need are ignored. *)
Theorem lowered_call : forall order opts init inst callee ci ft kps krs cs extra maxp maxr s,
  correct_allocator (mkCtx 0 inst (o_enc opts) (o_realloc opts)) init -> o_enc opts <> EncUnknown ->
  Forall wf_type (param_types ft) -> Forall handle_free (param_types ft) -> Forall wf_type (result_types ft) ->
  Forall2 flattens (param_types ft) kps -> (List.length (List.concat kps) <= maxp)%nat ->
  Forall2 flattens (result_types ft) krs -> (List.length (List.concat krs) <= maxr)%nat ->
  well_kinded (List.concat kps) cs -> wf_mem (s_mem s) ->
  all_addressable (o_enc opts) (s_mem s) (param_types ft) cs ->
  may_enter s inst -> may_leave s inst ->
  let call := canon_lower order opts inst callee ci ft (map VCore (cs ++ extra)) maxp maxr s in
  (~ receivable (o_enc opts) (s_mem s) (param_types ft) cs /\ call = (Err ETrap, with_call s))
  \/ exists vs, received_as (o_enc opts) (s_mem s) (param_types ft) cs vs /\
    let (r, s1) := callee vs (with_call s) in
    match r with
    | Ok (results, post) =>
        Forall2 (has_type (o_enc opts)) (result_types ft) results -> wf_mem (s_mem s1) ->
        let cx := mkCtx 0 inst (o_enc opts) (o_realloc opts) in
        exists asked, all_ask cx (result_types ft) results asked /\
        ((exists o s', call = (o, s') /\ refused cx asked s1 o s')
        \/ exists rs s2, made s1 s2 asked /\ well_kinded (List.concat krs) rs /\
             passed_as (o_enc opts) (s_mem s2) (result_types ft) rs results /\
             wf_mem (s_mem s2) /\ in_use_kept init s1 s2 /\
             match post with
             | None => call = (Panic, s2)
             | Some f =>
                 let (p, s3) := f s2 in
                 match p with
                 | Ok _ => exists s4, call = (Ok (map VCore rs), s4) /\ s_mem s4 = s_mem s3
                 | Err e => call = (Err e, s3)
                 | Panic => call = (Panic, s3)
                 | Diverge => call = (Diverge, s3)
                 end
             end)
    | Err e => call = (Err e, s1)
    | Panic => call = (Panic, s1)
    | Diverge => call = (Diverge, s1)
    end.
Proof.
  intros order opts init inst callee ci ft kps krs cs extra maxp maxr s Hc Hen Hwp Hhp Hwr Hkp Hnp Hkr Hnr Hwk Hm Had He Hl call.
  unfold call. clear call. remember (canon_lower order opts inst callee ci ft (map VCore (cs ++ extra)) maxp maxr s) as call eqn:EC.
  rewrite (lower_runs order opts inst callee ci ft _ maxp maxr s He Hl) in EC.
  set (cx := call_ctx opts inst s) in EC. change (s_mem s) with (s_mem (with_call s)) in Hm, Had |- *.
  unfold bind at 1, lift_o in EC. rewrite as_core_map in EC.
  destruct (lift_values_decided order cx (with_call s) maxp (param_types ft) kps cs extra) as [(vs & it & E & Hr)|(E & Hr)]; try assumption.
  2:{ left. split; [exact Hr|]. unfold bind in EC. rewrite E in EC. exact EC. }
  right. exists vs. split; [exact Hr|]. unfold bind at 1 in EC. rewrite E in EC. unfold bind in EC.
  destruct (callee vs (with_call s)) as [r s1] eqn:Ec.
  destruct r as [[results post]|e| |]; try exact EC.
  intros Hty Hm1. set (cx0 := mkCtx 0 inst (o_enc opts) (o_realloc opts)). unfold lower_rest in EC.
  destruct (all_ask_exists cx (result_types ft) results Hwr Hty) as [asked Hask]. exists asked. split; [exact Hask|].
  destruct (set_leave_run inst false s1) as (s2 & E2 & M2 & H2 & _). unfold bind at 1 in EC. rewrite E2 in EC.
  unfold bind at 1 in EC.
  destruct (lower_values cx maxr results (result_types ft) (Some it) s2) as [o3 s3] eqn:E3.
  assert (Hm2 : wf_mem (s_mem s2)) by (rewrite M2; exact Hm1).
  pose proof (arguments_blame cx init (result_types ft) krs results asked (Some it) maxr s2 o3 s3 Hc Hwr Hkr Hnr Hty Hask Hm2 E3) as BL.
  destruct (lower_values_passes cx init maxr (result_types ft) results krs (Some it) s2 o3 s3) as [(rs & -> & St & Hwk3 & Hps)|F]; try assumption.
  - right. destruct BL as [(_ & _ & _ & _ & Md)|BL]; [|now apply refused_fails with (x := map VCore rs) in BL]. destruct (set_leave_run inst true s3) as (s4 & E4 & M4 & H4 & _). unfold bind at 1 in EC. rewrite E4 in EC.
    exists rs, s4. split; [destruct Md as (bl & Hb & Hd); exists bl; rewrite H4, Hb, H2; auto|]. split; [exact Hwk3|]. rewrite M4. split; [exact Hps|]. split; [apply (st_good _ _ _ _ St)|]. split.
    { intros b Hb. rewrite M4, <- M2. apply (st_frame _ _ _ _ St); [rewrite H2; exact Hb|tauto]. }
    destruct post as [f|]; [|exact EC]. unfold bind at 1 in EC.
    destruct (f s4) as [[[]|e| |] s5] eqn:Ef; try exact EC.
    destruct (exit_ignored_run cx s5) as (s6 & E6 & M6 & _). unfold bind at 1 in EC. rewrite E6 in EC.
    destruct ci.
    + unfold bind, set_may_enter, get_world, put_world, ret in EC. cbv zeta in EC. eexists. split; [exact EC|]. exact M6.
    + eexists. split; [exact EC|]. exact M6.
  - left. destruct BL as [(rs & -> & _)|BL]; [now destruct F as (? & ? & _ & _ & [])|].
    destruct o3; [now destruct F as (? & ? & _ & _ & [])|..];
      (eexists; eexists; split; [exact EC|]; eapply (refused_move cx cx0 asked s2 s1); [reflexivity|exact H2|now rewrite M2| |exact BL]; (reflexivity || exact I)).
Qed.
Print Assumptions lowered_call.

(** Beyond the limit, the one core value is the address of a tuple: the values
    are the fields of the tuple that memory holds there, in some order, and
    the call traps exactly if the address is not aligned, or the tuple is not
    inside memory or not readable. *)
Theorem spilled_values_read : forall order cx maxf ts kss ptr extra s a sz,
  (forall m, Permutation (order m) m) ->
  Forall2 flattens ts kss -> (maxf < List.length (List.concat kss))%nat ->
  wf_type (TTuple ts) -> handle_free (TTuple ts) -> cx_enc cx <> EncUnknown -> wf_mem (s_mem s) ->
  sp_layout (TTuple ts) = Some (a, sz) -> ptr + sz < 2 ^ 32 ->
  ((a | ptr) -> ptr + sz <= m_len (s_mem s) -> addressable (cx_enc cx) (s_mem s) (TTuple ts) ptr) ->
  let result := lift_values order cx maxf ts (IBase (CU32 ptr :: extra) 0) s in
  let good_place := (a | ptr) /\ ptr + sz <= m_len (s_mem s) /\ readable (cx_enc cx) (s_mem s) (TTuple ts) ptr in
  (good_place /\ exists vs fields, result = (Ok (vs, IBase (CU32 ptr :: extra) 1), s) /\
     reads_as (cx_enc cx) (s_mem s) (TTuple ts) ptr (VMap fields) /\ Permutation vs (map snd fields))
  \/ (~ good_place /\ result = (Err ETrap, s)).
Proof.
  intros order cx maxf ts kss ptr extra s a sz Hord Hk Hn Hwf Hh He Hm Hl Hp Had result good_place.
  destruct (sp_layout_facts _ _ _ Hl) as (Hal & Hva & _ & Hsz).
  destruct (flatten_types_ok ts kss Hk) as [_ Ef]. apply Nat.leb_gt in Hn.
  assert (Es : size (TTuple ts) = Ok sz) by (apply Hsz; unfold two32; lia).
  assert (ER : result = bind (check_aligned ETrap ptr a) (fun _ => bind (check_bounds ETrap ptr sz) (fun _ =>
      bind (load cx (TTuple ts) ptr) (fun v => match v with VMap m => ret (map snd (order m), IBase (CU32 ptr :: extra) 1) | _ => lift_o (Err ECast) end))) s).
  { unfold result, lift_values. unfold bind at 1, lift_o at 1. rewrite Ef, Hn.
    unfold bind at 1. unfold next_u32. unfold bind at 1. cbn [iter_next nth_error cval_kind kind_eqb cval_any]. unfold lift_o at 1, ret at 1.
    cbv beta iota. unfold bind at 1, lift_o at 1. rewrite Hal.
    unfold bind. destruct (check_aligned ETrap ptr a s) as [[[]|e| |] s1]; try reflexivity.
    unfold lift_o. rewrite Es. reflexivity. }
  clearbody result.
  destruct (N.eq_dec (ptr mod a) 0) as [Hd|Hd].
  2:{ right. split; [intros (D & _); apply Hd; apply N.mod_divide; [apply valid_align_nz; exact Hva|exact D]|].
      unfold bind at 1 in ER. rewrite check_aligned_bad in ER; [exact ER|exact Hva|].
      intros D. apply Hd. apply N.mod_divide; [apply valid_align_nz; exact Hva|exact D]. }
  apply N.mod_divide in Hd; [|apply valid_align_nz; exact Hva].
  unfold bind at 1 in ER. rewrite check_aligned_ok in ER; [|exact Hva|unfold two32; lia|exact Hd].
  assert (CB : check_bounds ETrap ptr sz s = (if ptr + sz <=? m_len (s_mem s) then Ok tt else Err ETrap, s)).
  { unfold check_bounds. erewrite bind_ok; [|reflexivity]. rewrite mem_len32_ok by exact Hm. unfold add32. rewrite N.mod_small by (unfold two32; lia).
    unfold len. destruct (N.ltb_spec (m_len (s_mem s)) (ptr + sz)), (N.leb_spec (ptr + sz) (m_len (s_mem s))); try lia; reflexivity. }
  unfold bind at 1 in ER. rewrite CB in ER.
  destruct (N.leb_spec (ptr + sz) (m_len (s_mem s))) as [Hin|Hout].
  - unfold bind at 1 in ER.
    destruct (reads_ok_all cx (TTuple ts) a sz ptr s Hl Hwf Hh He Hm Hd Hin (Had Hd Hin)) as [(v & E & H)|(E & H)]; rewrite E in ER.
    + left. split; [split; [exact Hd|split; [exact Hin|eapply reads_readable; exact H]]|].
      pose proof H as H'. destruct H' as (fields & _ & -> & _). exists (map snd (order fields)), fields.
      split; [exact ER|]. split; [exact H|]. apply Permutation_map. apply Hord.
    + right. split; [intros (_ & _ & R); exact (H R)|exact ER].
  - right. split; [intros (_ & B & _); lia|exact ER].
Qed.
Print Assumptions spilled_values_read.

(** Too few core results, from a core function of the wrong type, crash the
    host instead of being refused. *)
Theorem short_results_refused_refuted : exists order opts inst ft maxp maxr s s',
  (forall m, Permutation (order m) m) /\ may_enter s inst /\ may_leave s inst /\
  canon_lift order opts inst (fun _ => ret (VList [VCore (CU32 1)])) ft [] maxp maxr s = (Panic, s').
Proof.
  exists (fun m => m), demo_opts, 0%nat, (mkFuncType [] [("a", TU32); ("b", TU32)]%string), 16%nat, 16%nat, (demo_insts 200).
  eexists. split; [reflexivity|]. split; [eexists; reflexivity|]. split; [eexists; reflexivity|]. vm_compute. reflexivity.
Qed.
Print Assumptions short_results_refused_refuted.

(** The hypotheses of [lifted_call] are met by the call with a string and an
    option, whose core function hands its parameters back: so are the ones on
    the core function's results. *)
Lemma demo_addressable : forall m a b, a + 2 < 2 ^ 32 ->
  all_addressable EncUtf8 m [TString; TOption TU8] [CU32 a; CU32 2; CU32 1; CU32 b].
Proof.
  intros m a b Ha css E F. inversion F as [|? c1 ? r1 K1 F1]; subst. inversion F1 as [|? c2 ? r2 K2 F2]; subst. inversion F2; subst.
  apply flatten_complete in K1. cbn in K1. injection K1 as K1. destruct c1 as [|x [|y [|]]]; try discriminate.
  cbn [List.concat app] in E. injection E as <- <- _.
  constructor; [|constructor; [|constructor]].
  - intros start w E. injection E as <- <-. split; [right; reflexivity|]. intros c n E. injection E as <- <-. cbn. lia.
  - intros i rest c q ps _ Ei Eq _ _. destruct i as [|[|i]]; cbn in Ei; [injection Ei as <-; discriminate|injection Ei as <-|destruct i; discriminate].
    injection Eq as <-. exact I.
Qed.

Lemma demo_memory : wf_mem (s_mem (demo_insts 200)).
Proof. split; [reflexivity|]. split; [vm_compute; reflexivity|]. apply Forall_forall. intros b Hb. apply repeat_spec in Hb. subst b. reflexivity. Qed.

Example lifted_call_applies :
  correct_allocator (mkCtx 0 0 (o_enc demo_opts) (o_realloc demo_opts)) (fun b => b < 64) /\
  Forall wf_type (param_types demo_ft) /\ Forall handle_free (result_types demo_ft) /\
  Forall2 flattens (param_types demo_ft) [[KU32; KU32]; [KU32; KU32]] /\
  Forall2 (has_type (o_enc demo_opts)) (param_types demo_ft) demo_args /\ wf_mem (s_mem (demo_insts 200)) /\
  may_enter (demo_insts 200) 0 /\ may_leave (demo_insts 200) 0 /\
  exists vs post s2, let cs := [CU32 64; CU32 2; CU32 1; CU32 7] in
    canon_lift (fun m => m) demo_opts 0 echo demo_ft demo_args 16 16 (demo_insts 200) = (Ok (vs, post), s2) /\
    vs = demo_args /\ well_kinded [KU32; KU32; KU32; KU32] cs /\
    all_addressable EncUtf8 (s_mem s2) (result_types demo_ft) cs /\ byte (s_mem s2) 65 = 105.
Proof.
  destruct (values_arrive_applies EncUtf8) as (H1 & H2 & H3 & H4 & H5).
  split; [exact H5|]. split; [exact H1|]. split; [exact H2|]. split; [exact H3|]. split; [exact H4|]. split; [exact demo_memory|].
  split; [eexists; reflexivity|]. split; [eexists; reflexivity|].
  eexists. eexists. eexists. cbv zeta. split; [vm_compute; reflexivity|]. split; [reflexivity|].
  split; [split; [reflexivity|repeat constructor]|]. split; [apply demo_addressable; reflexivity|reflexivity].
Qed.

(** The same types the other way round, the string being at address 64. *)
Definition demo_hi : state :=
  mkState (mkMem (repeat 0 64 ++ [72; 105] ++ repeat 0 134) 200) [] (s_world (demo_insts 200)).
Example lowered_call_applies :
  Forall wf_type (param_types demo_ft) /\ Forall handle_free (param_types demo_ft) /\
  Forall2 flattens (param_types demo_ft) [[KU32; KU32]; [KU32; KU32]] /\
  well_kinded [KU32; KU32; KU32; KU32] [CU32 64; CU32 2; CU32 1; CU32 7] /\ wf_mem (s_mem demo_hi) /\
  all_addressable EncUtf8 (s_mem demo_hi) (param_types demo_ft) [CU32 64; CU32 2; CU32 1; CU32 7] /\
  may_enter demo_hi 0 /\ may_leave demo_hi 0 /\
  Forall2 (has_type EncUtf8) (result_types demo_ft) demo_args /\
  host_echo demo_args (with_call demo_hi) = (Ok (demo_args, Some (ret tt)), with_call demo_hi) /\
  exists s', canon_lower (fun m => m) demo_opts 0 host_echo true demo_ft
    (map VCore [CU32 64; CU32 2; CU32 1; CU32 7]) 16 16 demo_hi
    = (Ok (map VCore [CU32 64; CU32 2; CU32 1; CU32 7]), s').
Proof.
  destruct (values_arrive_applies EncUtf8) as (H1 & H2 & H3 & H4 & H5).
  split; [exact H1|]. split; [exact H2|]. split; [exact H3|].
  split; [split; [reflexivity|repeat constructor]|].
  split; [split; [reflexivity|split; [vm_compute; reflexivity|repeat constructor]]|].
  split; [apply demo_addressable; reflexivity|].
  split; [eexists; reflexivity|]. split; [eexists; reflexivity|]. split; [exact H4|]. split; [reflexivity|].
  eexists. vm_compute. reflexivity.
Qed.

(** With room for two flat values, the string and option are read from memory. *)
Definition demo_spilled : state :=
  mkState (mkMem ([100; 0; 0; 0; 2; 0; 0; 0; 1; 7; 0; 0] ++ repeat 0 88 ++ [72; 105] ++ repeat 0 98) 200) [] (s_world (demo_insts 200)).
Example spilled_values_read_applies :
  let cx := mkCtx 0 0 EncUtf8 bump in
  wf_type (TTuple [TString; TOption TU8]) /\ handle_free (TTuple [TString; TOption TU8]) /\ wf_mem (s_mem demo_spilled) /\
  sp_layout (TTuple [TString; TOption TU8]) = Some (4, 12) /\
  addressable EncUtf8 (s_mem demo_spilled) (TTuple [TString; TOption TU8]) 0 /\
  lift_values (fun m => m) cx 2 [TString; TOption TU8] (IBase [CU32 0] 0) demo_spilled
    = (Ok (demo_args, IBase [CU32 0] 1), demo_spilled) /\
  lift_values (fun m => m) cx 2 [TString; TOption TU8] (IBase [CU32 2] 0) demo_spilled = (Err ETrap, demo_spilled).
Proof.
  cbv zeta. split; [repeat constructor|]. split; [repeat constructor|].
  split; [split; [reflexivity|split; [vm_compute; reflexivity|repeat constructor]]|].
  split; [vm_compute; reflexivity|]. split; [|split; vm_compute; reflexivity].
  intros ls E. injection E as <-. constructor; [|constructor; [|constructor]].
  - split; [right; reflexivity|]. intros c n E. injection E as <- <-. reflexivity.
  - intros d ls c Ed _ E. injection Ed as <-. vm_compute in E. injection E as <-. exact I.
Qed.
