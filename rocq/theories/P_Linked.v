(** Property theorem about calls between two components (C64). *)
From Coq Require Import NArith ZArith List String Bool Lia.
From Verif Require Import GoBase M_Types M_Layout S_Layout M_State M_Utf M_Load M_Store M_Flat M_Canon
  S_Utf S_Values S_Memory S_Access S_Flat S_Canon S_Format S_FlatFormat S_Calls S_Linked L_Mem L_Flat L_Canon L_Calls L_Linked P_Memory P_Canon P_Calls
  S_Requests S_Blame L_Blame.
Import ListNotations.
Open Scope N_scope.
Open Scope go_scope.

(** ** C64 *)

(** A call from component A to component B. A's core code passes [cs], which
    stand for [vs] in A's memory and encoding. Then either B's allocator fails
    on one of the blocks [vs] take in B and the call has its outcome, or B's core function is run on core
    values that stand for the same [vs] in B's memory and encoding, no byte in
    use in B's memory having changed. If the core function returns core values
    that stand for [ws] in its memory and encoding, then either A's allocator
    fails on one of the blocks [ws] take in A or A's core code gets core values that stand for the same [ws] in
    A's memory and encoding, no byte in use in A's memory having changed,
    provided B's post-return function succeeds. Any other outcome of B's core
    function is the outcome of the call. *)
Theorem component_call : forall order optsA optsB initA initB instA instB core ci ft kps krs cs extra vs maxp maxr s mB hB,
  let ctxA := mkCtx 0 instA (o_enc optsA) (o_realloc optsA) in
  let ctxB := mkCtx 0 instB (o_enc optsB) (o_realloc optsB) in
  correct_allocator ctxA initA -> correct_allocator ctxB initB -> o_enc optsA <> EncUnknown -> o_enc optsB <> EncUnknown ->
  Forall wf_type (param_types ft) -> Forall wf_type (result_types ft) ->
  Forall handle_free (param_types ft) -> Forall handle_free (result_types ft) ->
  Forall2 flattens (param_types ft) kps -> (List.length (List.concat kps) <= maxp)%nat ->
  Forall2 flattens (result_types ft) krs -> (List.length (List.concat krs) <= maxr)%nat ->
  wf_mem (s_mem s) -> wf_mem mB -> may_enter s instA -> may_leave s instA -> may_enter s instB -> may_leave s instB ->
  well_kinded (List.concat kps) cs -> all_addressable (o_enc optsA) (s_mem s) (param_types ft) cs ->
  in_turn (stands_exactly (o_enc optsA) (s_mem s)) (param_types ft) cs vs ->
  Forall2 (has_type (o_enc optsB)) (param_types ft) vs ->
  let call := canon_lower order optsA instA (linked order optsB instB core ft maxp maxr mB hB) ci ft
                (map VCore (cs ++ extra)) maxp maxr s in
  exists askedB, all_ask ctxB (param_types ft) vs askedB /\
  ((exists o s' sB, call = (o, s') /\ refused ctxB askedB (other mB hB s) o sB)
  \/ exists csB sB, made (other mB hB s) sB askedB /\ well_kinded (List.concat kps) csB /\
       passed_as (o_enc optsB) (s_mem sB) (param_types ft) csB vs /\
       wf_mem (s_mem sB) /\ guards sB = guards s /\ in_use_kept initB (other mB hB s) sB /\
       let (r, sB') := core (map VCore csB) sB in
       match r with
       | Ok (VList vs') => forall rsB moreB ws,
           vs' = map VCore (rsB ++ moreB) -> well_kinded (List.concat krs) rsB -> wf_mem (s_mem sB') ->
           all_addressable (o_enc optsB) (s_mem sB') (result_types ft) rsB ->
           in_turn (stands_exactly (o_enc optsB) (s_mem sB')) (result_types ft) rsB ws ->
           Forall2 (has_type (o_enc optsA)) (result_types ft) ws ->
           exists askedA, all_ask ctxA (result_types ft) ws askedA /\
           ((exists o s', call = (o, s') /\ refused ctxA askedA s o s')
           \/ exists rsA sA, made s sA askedA /\ well_kinded (List.concat krs) rsA /\
                passed_as (o_enc optsA) (s_mem sA) (result_types ft) rsA ws /\ wf_mem (s_mem sA) /\
                in_use_kept initA s sA /\
                let p := match o_post_return optsB with Some f => fst (f (other (s_mem sB') (s_hist sB') sA)) | None => Ok tt end in
                exists s', s_mem s' = s_mem sA /\
                  match p with
                  | Ok _ => call = (Ok (map VCore rsA), s')
                  | Err e => call = (Err e, s')
                  | Panic => call = (Panic, s')
                  | Diverge => call = (Diverge, s')
                  end)
       | Ok _ => exists s', call = (Err ECast, s')
       | Err e => exists s', call = (Err e, s')
       | Panic => exists s', call = (Panic, s')
       | Diverge => exists s', call = (Diverge, s')
       end).
Proof.
  intros order optsA optsB initA initB instA instB core ci ft kps krs cs extra vs maxp maxr s mB hB ctxA ctxB
    HcA HcB HeA HeB Hwp Hwr Hhp Hhr Hkp Hnp Hkr Hnr HmA HmB EA LA EB LB Hwk Had Hst Hty call.
  pose proof (lowered_call order optsA initA instA (linked order optsB instB core ft maxp maxr mB hB) ci ft kps krs cs extra
    maxp maxr s HcA HeA Hwp Hhp Hwr Hkp Hnp Hkr Hnr Hwk HmA Had EA LA) as LOW.
  cbv zeta in LOW. fold call in LOW. clearbody call. fold ctxA in LOW.
  destruct LOW as [[NR _]|(vs2 & Hrec & LOW)]; [exfalso; apply NR; eapply exact_receivable; exact Hst|].
  pose proof (in_turn_same _ _ _ _ _ _ Hwp Hst Hrec) as Hpw.
  pose proof (lifted_call order optsB initB instB core ft kps krs vs2 maxp maxr (other mB hB (with_call s)) HcB HeB Hwp Hwr Hhr Hkp Hnp Hkr Hnr
    (pairwise_types _ _ _ _ Hwp Hpw Hty) HmB) as LIFT.
  assert (G : guards (other mB hB (with_call s)) = guards s) by exact (guards_with_call s).
  specialize (LIFT ltac:(unfold may_enter in *; rewrite G; exact EB) ltac:(unfold may_leave in *; rewrite G; exact LB)).
  cbv zeta in LIFT. fold ctxB in LIFT. unfold linked in LOW.
  destruct (canon_lift order optsB instB core ft vs2 maxp maxr (other mB hB (with_call s))) as [oB s1] eqn:EL.
  destruct LIFT as (askedB & HaB & LIFT). exists askedB. split; [exact (pairwise_asks ctxB _ _ _ _ Hwp Hpw Hty HaB)|].
  destruct LIFT as [(o & s' & E & AF)|(csB & sB & MdB & WkB & PsB & MB & GB & KB & LIFT)].
  - left. injection E as <- <-. destruct oB as [x|e| |]; [now apply refused_fails with (x := x) in AF|..];
      (eexists; eexists; exists s1; split; [exact LOW|]; eapply refused_move; [| | | |exact AF]; (reflexivity || exact I)).
  - right. exists csB, sB. split; [exact MdB|]. split; [exact WkB|]. split; [eapply pairwise_passed; eassumption|]. split; [exact MB|].
    split; [rewrite GB; exact G|]. split; [exact KB|].
    destruct (core (map VCore csB) sB) as [r sB'] eqn:Ec.
    destruct r as [x|e| |]; [|injection LIFT as -> <-; eexists; exact LOW..].
    destruct x; try (injection LIFT as -> <-; eexists; exact LOW).
    destruct LIFT as [_ LIFT]. intros rsB moreB ws El WkR MB' AdR StR TyR.
    destruct (LIFT rsB moreB El WkR MB' AdR) as [(ws2 & post & E & RecR & Post)|(NR & _)];
      [|exfalso; apply NR; eapply exact_receivable; exact StR].
    injection E as -> ->. pose proof (in_turn_same _ _ _ _ _ _ Hwr StR RecR) as HpwR.
    destruct (LOW (pairwise_types _ _ _ _ Hwr HpwR TyR) HmA) as (askedA & HaA & LAST).
    exists askedA. split; [exact (pairwise_asks ctxA _ _ _ _ Hwr HpwR TyR HaA)|].
    destruct LAST as [(o & s' & E & F)|(rsA & sA & MdA & WkA & PsA & MA & KA & LAST)].
    { left. exists o, s'. split; [exact E|]. eapply refused_move; [| | | |exact F]; [reflexivity..|].
      destruct o as [l0|e| |]; [now apply refused_fails with (x := l0) in F|..]; (reflexivity || exact I). }
    right. exists rsA, sA. split; [exact MdA|]. split; [exact WkA|]. split; [eapply pairwise_passed; eassumption|]. split; [exact MA|]. split; [exact KA|].
    cbv zeta. unfold over_there in LAST. specialize (Post (other (s_mem sB') (s_hist sB') sA)).
    destruct (o_post_return optsB) as [f|].
    + destruct (f (other (s_mem sB') (s_hist sB') sA)) as [p s3]. destruct Post as (s4 & Ep & _). rewrite Ep in LAST. cbn [fst].
      destruct p as [[]|e| |]; [destruct LAST as (s5 & E5 & M5); exists s5; split; [exact M5|exact E5]|
        eexists; split; [|exact LAST]; reflexivity..].
    + destruct Post as (s4 & Ep & _). rewrite Ep in LAST. destruct LAST as (s5 & E5 & M5). exists s5. split; [exact M5|exact E5].
Qed.
Print Assumptions component_call.

(** A string "Hi" and an option, from a component that uses UTF-8 to one that
    uses UTF-16 and returns its parameters, and back. *)
Definition two_components : state :=
  mkState (s_mem demo_hi) [] (mkWorld [] [] [mkInst true true []; mkInst true true []] []).
Definition opts16 : options := mkOpts EncUtf16 bump None.
Definition memory16 : memory := mkMem (repeat 0 200) 200.

(** B's core function: it returns its parameters if it finds the "i" as the
    second UTF-16 code unit in its memory, and fails otherwise. *)
Definition echo16 : list any -> M any := fun flat =>
  let* m := get_mem in lift_o (if (byte m 66 =? 105) && (byte m 67 =? 0) then Ok (VList flat) else Err EOther).

Example component_call_applies :
  correct_allocator (mkCtx 0 0 (o_enc demo_opts) (o_realloc demo_opts)) (fun b => b < 64) /\
  correct_allocator (mkCtx 0 1 (o_enc opts16) (o_realloc opts16)) (fun b => b < 64) /\
  Forall wf_type (param_types demo_ft) /\ Forall handle_free (param_types demo_ft) /\
  Forall2 flattens (param_types demo_ft) [[KU32; KU32]; [KU32; KU32]] /\
  wf_mem (s_mem two_components) /\ wf_mem memory16 /\
  well_kinded [KU32; KU32; KU32; KU32] [CU32 64; CU32 2; CU32 1; CU32 7] /\
  all_addressable EncUtf8 (s_mem two_components) (param_types demo_ft) [CU32 64; CU32 2; CU32 1; CU32 7] /\
  in_turn (stands_exactly EncUtf8 (s_mem two_components)) (param_types demo_ft) [CU32 64; CU32 2; CU32 1; CU32 7] demo_args /\
  Forall2 (has_type EncUtf16) (param_types demo_ft) demo_args /\
  may_enter two_components 0 /\ may_leave two_components 0 /\ may_enter two_components 1 /\ may_leave two_components 1 /\
  exists s', canon_lower (fun m => m) demo_opts 0 (linked (fun m => m) opts16 1 echo16 demo_ft 16 16 memory16 []) true demo_ft
    (map VCore [CU32 64; CU32 2; CU32 1; CU32 7]) 16 16 two_components
    = (Ok (map VCore [CU32 64; CU32 2; CU32 1; CU32 7]), s').
Proof.
  destruct (values_arrive_applies EncUtf8) as (H1 & H2 & H3 & H4 & H5).
  split; [exact H5|]. split; [exact (proj2 (proj2 (proj2 (proj2 (values_arrive_applies EncUtf16)))))|].
  split; [exact H1|]. split; [exact H2|]. split; [exact H3|].
  split; [split; [reflexivity|split; [vm_compute; reflexivity|repeat constructor]]|].
  split; [split; [reflexivity|split; [vm_compute; reflexivity|repeat constructor]]|].
  split; [split; [reflexivity|repeat constructor]|].
  split; [apply demo_addressable; reflexivity|].
  split.
  { apply (in_turn_cons _ TString [TOption TU8] [CU32 64; CU32 2] [CU32 1; CU32 7] (VStr [72; 105]) [VMap [("some", VU8 7)]]%string).
    - constructor.
    - exists 64, 2. split; [reflexivity|]. exists CUtf8, 2, [72; 105]. split; [reflexivity|]. split; [reflexivity|]. cbv zeta.
      split; [exists 64; reflexivity|]. split; [discriminate|]. exists [72; 105].
      split; [repeat constructor; left; reflexivity|]. split; [exact I|]. split; vm_compute; reflexivity.
    - apply (in_turn_cons _ (TOption TU8) [] [CU32 1; CU32 7] [] (VMap [("some", VU8 7)]%string) []); [apply flatten_as_specified; reflexivity| |constructor].
      exists 1%nat, [CU32 7], (mkCase "some"%string (Some (flattens TU8, stands encodes (@some_label) False EncUtf8 (s_mem two_components) TU8)) None), "some"%string, (VU8 7).
      split; [reflexivity|]. split; [reflexivity|]. split; [reflexivity|]. split.
      + exists [], "some"%string, []. cbn. repeat split; try (constructor; [repeat split; discriminate|constructor]); constructor.
      + exists [CU32 7]. split; [split; [apply flatten_as_specified; reflexivity|exists 7; split; [reflexivity|split; [reflexivity|tauto]]]|].
        split; [|tauto]. constructor; [split; [reflexivity|tauto]|constructor]. }
  split.
  { constructor.
    + exists [72; 105]. split; [reflexivity|]. exists [72; 105]. split; [repeat constructor; left; lia|].
      split; [reflexivity|]. split; [cbn; lia|exact I].
    + constructor; [|constructor]. exists "some"%string. eexists. exists 1%nat. eexists. split; [reflexivity|]. split.
      * exists [], "some"%string, []. repeat split; repeat constructor; cbn; discriminate.
      * split; [reflexivity|]. cbn [c_type]. exists 7. split; [reflexivity|lia]. }
  split; [eexists; reflexivity|]. split; [eexists; reflexivity|]. split; [eexists; reflexivity|]. split; [eexists; reflexivity|].
  eexists. vm_compute. reflexivity.
Qed.
