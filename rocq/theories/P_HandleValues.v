(** The resource handles inside values that pass between components (C67). The
    specification is in S_HandleValues.v: [carries] says which resources a
    value carries, [took] and [gave] what happens to the handles. *)
From Coq Require Import NArith ZArith List String Bool Arith Permutation Lia ZifyBool ZifyNat ZifyN.
From Verif Require Import GoBase M_Types M_Layout S_Layout M_State M_Load M_Flat M_Canon S_Values S_Flat S_Canon L_Access L_Flat L_Canon S_Handles L_Handles S_Linked S_HandleCalls L_HandleCalls
  S_HandleValues L_HandleValues P_Handles P_HandleCalls.
Import ListNotations.
Open Scope N_scope.
Open Scope go_scope.

(** A value of a well-formed type carries one list of resources only. *)
Theorem carried_unique : forall t v hs hs', wf_type t -> carries t v hs -> carries t v hs' -> hs = hs'.
Proof. intros t v hs hs' Hw. exact (carries_unique t Hw v hs hs'). Qed.

(** ** Lifting *)

(** Lifting takes from the caller exactly the resources the lifted values carry:
    it had each of them, it no longer has the owned ones, and every other handle
    of every instance is as before. Values passed flat are in the order of their
    types. *)
Theorem lifting_takes_handles : forall insts ops rs s calls order cx maxf ts it vs it' s',
  history insts ops rs s calls -> N.of_nat (made ops) < 2 ^ 32 -> (cx_inst cx < insts)%nat -> In (cx_id cx) calls ->
  Forall wf_type ts -> (forall m, Permutation (order m) m) ->
  lift_values order cx maxf ts it s = (Ok (vs, it'), s') ->
  exists tvs hs xs, Permutation (map fst tvs) ts /\ map snd tvs = vs /\ carry_all tvs hs /\ Permutation hs (map fst xs) /\
    took insts (cx_inst cx) xs s s' /\
    (forall kss, Forall2 flattens ts kss -> (List.length (List.concat kss) <= maxf)%nat -> map fst tvs = ts /\ hs = map fst xs).
Proof.
  intros insts ops rs s calls order cx maxf ts it vs it' s' H Hn Hi Hc Hw Ho E.
  destruct (del_lift_values insts cx order maxf ts it Hw Ho s calls _ s' Hi Hc E) as (xs & V & tvs & hs & A & B & C & D & F).
  exists tvs, hs, xs. split; [exact A|]. split; [exact B|]. split; [exact C|]. split; [exact D|].
  split; [exact (evolves_took _ _ _ _ _ _ _ _ _ H Hn Hi V)|]. intros kss Hk Hl. apply (F (List.concat kss)); [apply flat_types_ok; exact Hk|exact Hl].
Qed.

(** ** Lowering *)

(** Lowering values flat gives the callee exactly the resources they carry, each
    under an index that was free and that is among the core values, in the order
    of the values. *)
Theorem lowering_gives_handles : forall insts ops rs s calls cx maxf ts kss vs out fl s', leaves_world (cx_realloc cx) ->
  history insts ops rs s calls -> N.of_nat (made ops + List.length (flat_map handles_in ts)) < 2 ^ 32 ->
  (cx_inst cx < insts)%nat -> In (cx_id cx) calls ->
  Forall2 flattens ts kss -> (List.length (List.concat kss) <= maxf)%nat ->
  lower_values cx maxf vs ts out s = (Ok fl, s') ->
  exists cs xs, fl = map VCore cs /\ carry_all (combine ts vs) (map fst xs) /\ appear (map snd xs) cs /\
    gave insts (cx_inst cx) xs s s'.
Proof.
  intros insts ops rs s calls cx maxf ts kss vs out fl s' Hlw H Hn Hi Hc Hk Hl E.
  destruct (del_lower_values insts cx Hlw maxf ts kss vs out Hk Hl s calls _ s' Hi Hc E) as (xs & V & cs & -> & _ & C & A & L).
  exists cs, xs. split; [reflexivity|]. split; [exact C|]. split; [exact A|].
  apply (evolves_gave _ _ _ _ _ _ _ _ calls H); [change two32 with (2 ^ 32); lia|exact Hi|exact V].
Qed.

(** ** Calls between components *)

(** When the core function of the callee runs, the resources in the parameters
    have moved from the caller to the callee. Anything the core function does
    otherwise than in such a state does not matter to the call. *)
Theorem component_call_moves_parameters : forall insts ops rs s calls order opts inst ci order' opts' inst' core core' ft kss m h cs maxp maxr maxp' maxr',
  leaves_world (o_realloc opts') -> history insts ops rs s calls ->
  N.of_nat (made ops + List.length (flat_map handles_in (param_types ft))) < 2 ^ 32 ->
  (inst < insts)%nat -> (inst' < insts)%nat ->
  Forall wf_type (param_types ft) -> Forall2 flattens (param_types ft) kss ->
  (List.length (List.concat kss) <= maxp)%nat -> (List.length (List.concat kss) <= maxp')%nat ->
  (forall args s1,
    (exists vs xs ys cs', List.length vs = List.length (param_types ft) /\ carry_all (combine (param_types ft) vs) (map fst xs) /\
      moved insts inst inst' xs ys s s1 /\ args = map VCore cs' /\ appear (map snd ys) cs') ->
    core args s1 = core' args s1) ->
  canon_lower order opts inst (linked order' opts' inst' core ft maxp' maxr' m h) ci ft (map VCore cs) maxp maxr s =
  canon_lower order opts inst (linked order' opts' inst' core' ft maxp' maxr' m h) ci ft (map VCore cs) maxp maxr s.
Proof.
  intros insts ops rs s calls order opts inst ci order' opts' inst' core core' ft kss m h cs maxp maxr maxp' maxr' Hlw H Hn Hi Hi' Hw Hk Hl Hl' Hcore.
  apply lowered_reaches. intros cx s1 vs it s2 E1 E2. unfold linked.
  erewrite (lifted_reaches order' opts' inst' core core'); [reflexivity|]. intros cx' t1 t2 flat t3 t4 C1 C2 C3 C4. apply Hcore. clear Hcore.
  destruct (call_moves insts ops rs s calls order opts inst opts' inst' (param_types ft) kss m h (IBase cs 0) maxp maxp' cx s1 vs it s2 cx' t1 t2 flat t3 t4 Hlw H Hn Hi Hi' Hw Hk Hl Hl' E1 E2 C1 C2 C3 C4)
    as (xs & ys & cs' & A & B & M & D & G & _). exists vs, xs, ys, cs'. auto 6.
Qed.

(** A call that succeeds moves the resources in the parameters to the callee,
    runs its core function, which may use handles and make calls itself, and
    moves the resources in the results back to the caller. *)
Theorem component_call_moves_values : forall insts ops rs s calls order opts inst ci order' opts' inst' core k ft kssp kssr m h args maxp maxr maxp' maxr' fl s',
  leaves_world (o_realloc opts) -> leaves_world (o_realloc opts') -> history insts ops rs s calls ->
  N.of_nat (made ops + List.length (flat_map handles_in (param_types ft)) + k + List.length (flat_map handles_in (result_types ft))) < 2 ^ 32 ->
  (inst < insts)%nat -> (inst' < insts)%nat ->
  Forall wf_type (param_types ft) -> Forall2 flattens (param_types ft) kssp ->
  (List.length (List.concat kssp) <= maxp)%nat -> (List.length (List.concat kssp) <= maxp')%nat ->
  Forall wf_type (result_types ft) -> Forall2 flattens (result_types ft) kssr ->
  (List.length (List.concat kssr) <= maxr)%nat -> (List.length (List.concat kssr) <= maxr')%nat ->
  (forall vs, orderly_within insts k (core vs)) -> o_post_return opts' = None ->
  canon_lower order opts inst (linked order' opts' inst' core ft maxp' maxr' m h) ci ft args maxp maxr s = (Ok fl, s') ->
  exists vs xs ys pcs s1 rcs s2 ws xs' ys' fcs,
    (List.length vs = List.length (param_types ft) /\ carry_all (combine (param_types ft) vs) (map fst xs) /\
     moved insts inst inst' xs ys s s1 /\ appear (map snd ys) pcs) /\
    core (map VCore pcs) s1 = (Ok (VList (map VCore rcs)), s2) /\
    (List.length ws = List.length (result_types ft) /\ carry_all (combine (result_types ft) ws) (map fst xs') /\
     moved insts inst' inst xs' ys' s2 s' /\ fl = map VCore fcs /\ appear (map snd ys') fcs).
Proof.
  intros insts ops rs s calls order opts inst ci order' opts' inst' core k ft kssp kssr m h args maxp maxr maxp' maxr' fl s'
    HlA HlB H Hn Hi Hi' Hwp Hkp Hlp Hlp' Hwr Hkr Hlr Hlr' Hcore Hpost E.
  unfold canon_lower in E. apply bind_inv in E. destruct E as (cx & s1 & E1 & E). apply bind_inv in E. destruct E as (w & s1' & Ew & E). injection Ew as <- <-.
  destruct (negb _); [discriminate|]. destruct (negb _); [discriminate|].
  apply bind_inv in E. destruct E as (cargs & s1' & Ea & E). unfold lift_o in Ea. injection Ea as _ <-.
  apply bind_inv in E. destruct E as ((lifted & it) & s2 & E2 & E).
  apply bind_inv in E. destruct E as ((results & post) & s3 & E3 & E).
  apply bind_inv in E. destruct E as ([] & s4 & E4 & E). apply bind_inv in E. destruct E as (flat & s5 & E5 & E).
  apply bind_inv in E. destruct E as ([] & s6 & E6 & E). apply bind_inv in E. destruct E as ([] & s7 & E7 & E).
  apply bind_inv in E. destruct E as ([] & s8 & E8 & E). apply bind_inv in E. destruct E as ([] & s9 & E9 & E). unfold ret in E. injection E as <- <-.
  unfold linked in E3. destruct (canon_lift order' opts' inst' core ft lifted maxp' maxr' (other m h s2)) as [oc sc] eqn:Ec.
  destruct oc as [[vs pst]|?| |]; try discriminate. injection E3 as <- <- E3.
  unfold canon_lift in Ec. apply bind_inv in Ec. destruct Ec as (w & t0 & Ew & Ec). injection Ew as <- <-.
  destruct (negb _); [discriminate|]. destruct (negb _); [discriminate|].
  apply bind_inv in Ec. destruct Ec as (cx' & t1 & C1 & Ec). apply bind_inv in Ec. destruct Ec as ([] & t2 & C2 & Ec).
  apply bind_inv in Ec. destruct Ec as (cflat & t3 & C3 & Ec). apply bind_inv in Ec. destruct Ec as ([] & t4 & C4 & Ec).
  apply bind_inv in Ec. destruct Ec as (res & t5 & C5 & Ec). destruct res; try discriminate.
  match goal with E : bind (lift_o (as_core ?l)) _ _ = _ |- _ => rename l into rl end.
  apply bind_inv in Ec. destruct Ec as (rcs & t6 & C6 & Ec). unfold lift_o in C6. injection C6 as C6 <-. apply as_core_inv in C6. subst rl.
  apply bind_inv in Ec. destruct Ec as ((rvs & it') & t7 & C7 & Ec). unfold ret at 1 in Ec. injection Ec as <- Epost <-. rewrite Hpost in Epost.
  set (kp := List.length (flat_map handles_in (param_types ft))) in *. set (kr := List.length (flat_map handles_in (result_types ft))) in *.
  destruct (call_moves insts ops rs s calls order opts inst opts' inst' (param_types ft) kssp m h (IBase cargs 0) maxp maxp' cx s1 lifted it s2 cx' t1 t2 cflat t3 t4)
    as (xs & ys & pcs & A & B & M & -> & G & Ici & Ira & Ici' & Hne & ops1 & rs1 & H4 & M4); try assumption; [fold kp; lia|]. fold kp in M4.
  destruct (Hcore _ _ _ _ _ _ _ H4 C5) as (evs & c5 & H5 & I5 & M5).
  assert (B5 : N.of_nat (made (ops1 ++ map fst evs) + kr) < two32) by (rewrite made_app; change two32 with (2 ^ 32); lia).
  assert (Icx' : In (cx_id cx') c5) by (apply I5; left; reflexivity). assert (Icx : In (cx_id cx) c5) by (apply I5; right; left; reflexivity).
  destruct (call_returns insts (ops1 ++ map fst evs) (rs1 ++ map snd evs) t5 c5 order' inst inst' (result_types ft) kssr rcs maxr maxr' cx cx' rvs it' t7 s3 s4 it flat s5 s6) 
    as (xs' & ys' & fcs & A' & B' & M' & -> & G' & ops2 & rs2 & H6 & M6); try assumption.
  { rewrite Ira. exact HlA. } { rewrite <- E3. reflexivity. }
  exists lifted, xs, ys, pcs, t4, rcs, t5, rvs, xs', ys', fcs. split; [auto|]. split; [exact C5|]. split; [exact A'|]. split; [exact B'|]. split; [|auto].
  (* to the end of the call *)
  assert (P7 : exists c7, still insts s6 c5 s7 c7 /\ In (cx_id cx) c7).
  { rewrite <- Epost in E7. unfold over_there in E7. destruct ((ret tt ;; exit_call_ignored cx') (other (s_mem t7) (s_hist t7) s6)) as [o7 u7] eqn:U7.
    injection E7 as -> <-. apply bind_inv in U7. destruct U7 as ([] & u6 & U6 & U7). unfold ret in U6. injection U6 as <-.
    destruct (still_exit insts cx' (other (s_mem t7) (s_hist t7) s6) c5 u7 Icx' U7) as (c7 & (eX & VX & FX & MX) & IX).
    exists c7. split; [|apply IX; apply in_in_remove; [exact Hne|exact Icx]].
    exists eX. split; [|auto]. destruct VX as (x1 & AX & WX). destruct (after_world _ _ _ _ _ _ AX s6 eq_refl) as (x2 & AX2 & WX2). exists x2. split; [exact AX2|]. rewrite WX2, WX. reflexivity. }
  destruct P7 as (c7 & P7 & I7). destruct (still_exit insts cx s7 c7 s8 I7 E8) as (c8 & P8 & _).
  assert (P9 : still insts s8 c8 s9 c8).
  { destruct ci; [exact (still_enter insts inst true s8 c8 s9 Hi E9)|unfold ret in E9; injection E9 as <-; apply still_world; reflexivity]. }
  pose proof (still_trans _ _ _ _ _ _ _ (still_trans _ _ _ _ _ _ _ P7 P8) P9) as PZ.
  destruct (still_alike _ _ _ _ _ _ _ H6 ltac:(lia) PZ) as (AL & _).
  destruct M' as (Mf & mid & T & Gv). split; [exact Mf|]. exists mid. split; [exact T|]. eapply gave_alike; [exact Hi|exact Gv|apply alike_refl|exact AL].
Qed.

(** ** Values too large to be passed flat *)

(** Lowering such values gives the callee none of the resources they carry. *)
Theorem spilled_values_give_nothing : forall cx maxf ts kss vs out fl s s', leaves_world (cx_realloc cx) ->
  Forall2 flattens ts kss -> (maxf < List.length (List.concat kss))%nat ->
  lower_values cx maxf vs ts out s = (Ok fl, s') -> forall inst rt i, found s' inst rt i = found s inst rt i.
Proof.
  intros cx maxf ts kss vs out fl s s' Hlw Hk Hl E inst rt i. apply found_world. unfold lower_values in E. apply bind_inv in E. destruct E as (flat & s1 & E1 & E).
  unfold lift_o in E1. injection E1 as E1 <-. rewrite (flat_types_ok _ _ Hk) in E1. injection E1 as <-. apply Nat.leb_gt in Hl. rewrite Hl in E.
  assert (A : acts (S (cx_inst cx)) cx (fun _ => False) 0 (lower_values_to_tuple cx ts out)).
  { unfold lower_values_to_tuple. do 2 (apply acts_bind0; [apply acts_lift|intros ?]). apply acts_bind0; [|intros ptr].
    - destruct out; [apply acts_bind0; [apply acts_next_u32|intros [? ?]; apply acts_ret]|apply acts_realloc; exact Hlw].
    - apply acts_bind0; [apply acts_check_aligned|intros ?]. apply acts_bind0; [apply acts_check_bounds|intros ?]. apply acts_ret. }
  destruct (delivers_silent (S (cx_inst cx)) cx (lift_event cx) _ A s [cx_id cx] _ s' ltac:(lia) (or_introl eq_refl) E) as (xs & V & ->).
  exact (evolves_nothing _ _ _ _ _ V).
Qed.

(** ** Concrete values and calls *)
Definition parcel : valtype := TRecord [("a", TOwn file); ("b", TOption (TBorrow file)); ("c", TU8)]%string.
Definition the_parcel (a b c : N) : any := VMap [("a", VU32 a); ("b", VMap [("some", VU32 b)]); ("c", VU8 c)]%string.
Definition two_files : state := snd (play [OpNew 0 file 42; OpNew 0 file 43] two_instances).
Definition in_call : state := snd (play [OpNew 0 file 42; OpNew 0 file 43; OpEnter no_options 0] two_instances).
Lemma in_call_history : history 2 [OpNew 0 file 42; OpNew 0 file 43; OpEnter no_options 0] [Ok 0; Ok 1; Ok 0] in_call [0%nat].
Proof. exact (play_two [OpNew 0 file 42; OpNew 0 file 43; OpEnter no_options 0] ltac:(proper_two)). Qed.
Lemma two_files_history : history 2 [OpNew 0 file 42; OpNew 0 file 43] [Ok 0; Ok 1] two_files [].
Proof. exact (play_two [OpNew 0 file 42; OpNew 0 file 43] ltac:(proper_two)). Qed.
Lemma parcel_wf : wf_type parcel.
Proof. cbn. repeat split; repeat constructor; cbn; intuition discriminate. Qed.
Lemma parcel_kinds : Forall2 flattens [parcel] [[KU32; KU32; KU32; KU32]].
Proof. constructor; [apply flatten_as_specified; reflexivity|constructor]. Qed.

Example parcel_carries : carries parcel (the_parcel 42 43 7) [mkCarried true file 42; mkCarried false file 43].
Proof.
  exists [("a", VU32 42); ("b", VMap [("some", VU32 43)]); ("c", VU8 7)]%string, [[mkCarried true file 42]; [mkCarried false file 43]; []].
  split; [reflexivity|]. split; [|reflexivity]. constructor; [exists 42; auto|]. constructor; [|constructor; [reflexivity|constructor]].
  exists "some"%string, (VU32 43), 1%nat, (mkCase "some"%string (Some (carries (TBorrow file))) None). split; [reflexivity|]. split; [|split; [reflexivity|exists 43; auto]].
  exists [], "some"%string, []. split; [reflexivity|]. split; [repeat constructor; intuition discriminate|]. split; [constructor|reflexivity].
Qed.

Example lifting_takes_handles_used : exists it' s',
  lift_values as_is ctx0 16 [parcel] (IBase [CU32 0; CU32 1; CU32 1; CU32 7] 0) in_call = (Ok ([the_parcel 42 43 7], it'), s') /\
  exists xs, map fst xs = [mkCarried true file 42; mkCarried false file 43] /\ took 2 0 xs in_call s'.
Proof.
  eexists _, _. split; [vm_compute; reflexivity|].
  edestruct (lifting_takes_handles 2 [OpNew 0 file 42; OpNew 0 file 43; OpEnter no_options 0] [Ok 0; Ok 1; Ok 0] in_call [0%nat] as_is ctx0 16 [parcel] (IBase [CU32 0; CU32 1; CU32 1; CU32 7] 0)) as (tvs & hs & xs & _ & B & C & _ & T & F);
    [exact in_call_history|vm_compute; reflexivity|cbn; lia|left; reflexivity|apply Forall_cons; [exact parcel_wf|apply Forall_nil]|intros m; apply Permutation_refl|vm_compute; reflexivity|].
  destruct (F _ parcel_kinds) as (E & ->); [cbn; lia|]. exists xs. split; [|exact T].
  destruct tvs as [|[t v] [|? ?]]; try discriminate. cbn in E, B. injection E as ->. injection B as ->.
  inversion C as [|? ? ? h0 hs0 X Y]; subst. inversion Y; subst. rewrite app_nil_r in *. symmetry. eapply carried_unique; [exact parcel_wf|exact parcel_carries|exact X].
Qed.

Example lowering_gives_handles_used : exists fl s', let cx := mkCtx 0 1 EncUtf8 no_alloc in
  lower_values cx 16 [the_parcel 42 43 7] [parcel] None in_call = (Ok fl, s') /\
  exists xs cs, fl = map VCore cs /\ map fst xs = [mkCarried true file 42; mkCarried false file 43] /\ appear (map snd xs) cs /\ gave 2 1 xs in_call s'.
Proof.
  eexists _, _. cbv zeta. split; [vm_compute; reflexivity|].
  edestruct (lowering_gives_handles 2 [OpNew 0 file 42; OpNew 0 file 43; OpEnter no_options 0] [Ok 0; Ok 1; Ok 0] in_call [0%nat] (mkCtx 0 1 EncUtf8 no_alloc) 16 [parcel] [[KU32; KU32; KU32; KU32]] [the_parcel 42 43 7] None) as (cs & xs & A & C & B & G);
    [exact no_alloc_leaves|exact in_call_history|vm_compute; reflexivity|cbn; lia|left; reflexivity|exact parcel_kinds|cbn; lia|vm_compute; reflexivity|].
  exists xs, cs. split; [exact A|]. split; [|auto]. cbn in C.
  inversion C as [|? ? ? h0 hs0 X Y]; subst. inversion Y; subst. rewrite app_nil_r in *. eapply carried_unique; [exact parcel_wf|exact X|exact parcel_carries].
Qed.

(** The callee gets a parcel and returns its file; the caller gets it back. *)
Definition send : functype := mkFuncType [("p", parcel)]%string [("r", TOwn file)]%string.
Definition send_back (args : list any) : M any := ret (VList [VCore (CU32 0)]).
Lemma send_back_within : forall vs, orderly_within 2 0 (send_back vs).
Proof.
  intros vs ops rs s calls o s' H E. injection E as <- <-. exists [], calls. cbn. rewrite !app_nil_r. split; [exact H|]. split; [apply incl_refl|lia].
Qed.
Lemma file_kinds : Forall2 flattens [TOwn file] [[KU32]].
Proof. constructor; [apply flatten_as_specified; reflexivity|constructor]. Qed.

Example component_call_moves_values_used : exists fl s',
  canon_lower as_is no_options 0 (linked as_is no_options 1 send_back send 16 16 (mkMem [] 0) []) false send
    (map VCore [CU32 0; CU32 1; CU32 1; CU32 7]) 16 16 two_files = (Ok fl, s') /\ fl = [VCore (CU32 0)] /\ found s' 0 file 0 = Ok 42 /\ found s' 1 file 0 = Err ETrap /\
  exists vs xs ys pcs s1 xs' ys' s2, moved 2 0 1 xs ys two_files s1 /\ send_back (map VCore pcs) s1 = (Ok (VList [VCore (CU32 0)]), s2) /\ moved 2 1 0 xs' ys' s2 s' /\
    carry_all [(parcel, vs)] (map fst xs).
Proof.
  eexists _, _. split; [vm_compute; reflexivity|]. split; [reflexivity|]. split; [vm_compute; reflexivity|]. split; [vm_compute; reflexivity|].
  edestruct (component_call_moves_values 2 [OpNew 0 file 42; OpNew 0 file 43] [Ok 0; Ok 1] two_files [] as_is no_options 0 false as_is no_options 1 send_back 0 send [[KU32; KU32; KU32; KU32]] [[KU32]] (mkMem [] 0) []
    (map VCore [CU32 0; CU32 1; CU32 1; CU32 7]) 16 16 16 16) as (vs & xs & ys & pcs & s1 & rcs & s2 & ws & xs' & ys' & fcs & (L & C & Mv & A) & K & (L' & C' & Mv' & A'));
    [exact no_alloc_leaves|exact no_alloc_leaves|exact two_files_history|vm_compute; reflexivity|lia|lia|apply Forall_cons; [exact parcel_wf|apply Forall_nil]|exact parcel_kinds|cbn; lia|cbn; lia
    |repeat constructor|exact file_kinds|cbn; lia|cbn; lia|exact send_back_within|reflexivity|vm_compute; reflexivity|].
  destruct vs as [|v [|? ?]]; try discriminate. exists v, xs, ys, pcs, s1, xs', ys', s2. split; [exact Mv|]. split; [|split; [exact Mv'|exact C]].
  unfold send_back, ret in *. injection K as K <-. reflexivity.
Qed.

(** When the core function runs, the parcel has arrived. *)
Example component_call_moves_parameters_applies : forall core core',
  (forall args s1, (exists v xs ys cs', carry_all [(parcel, v)] (map fst xs) /\ moved 2 0 1 xs ys two_files s1 /\ args = map VCore cs' /\ appear (map snd ys) cs') ->
    core args s1 = core' args s1) ->
  let call c := canon_lower as_is no_options 0 (linked as_is no_options 1 c send 16 16 (mkMem [] 0) []) false send
    (map VCore [CU32 0; CU32 1; CU32 1; CU32 7]) 16 16 two_files in
  call core = call core'.
Proof.
  intros core core' Hc. cbv zeta.
  apply (component_call_moves_parameters 2 [OpNew 0 file 42; OpNew 0 file 43] [Ok 0; Ok 1] two_files [] as_is no_options 0 false as_is no_options 1 core core' send [[KU32; KU32; KU32; KU32]] (mkMem [] 0) [] [CU32 0; CU32 1; CU32 1; CU32 7] 16 16 16 16);
    [exact no_alloc_leaves|exact two_files_history|vm_compute; reflexivity|lia|lia|apply Forall_cons; [exact parcel_wf|apply Forall_nil]|exact parcel_kinds|cbn; lia|cbn; lia|].
  intros args s1 (vs & xs & ys & cs' & L & C & Mv & A & B). apply Hc. destruct vs as [|v [|? ?]]; try discriminate. exists v, xs, ys, cs'. auto.
Qed.

(** A file among more values than fit. *)
Definition at_zero : req -> state -> outcome N * (memory * world) := fun _ s => (Ok 0, (s_mem s, s_world s)).
Definition zeros : memory := mkMem [0; 0; 0; 0] 4.
Example spilled_values_give_nothing_used : exists fl s', let cx := mkCtx 0 1 EncUtf8 at_zero in let s := mkState zeros [] (s_world in_call) in
  carry_all (combine [TOwn file] [VU32 42]) [mkCarried true file 42] /\
  lower_values cx 0 [VU32 42] [TOwn file] None s = (Ok fl, s') /\ forall inst rt i, found s' inst rt i = found s inst rt i.
Proof.
  destruct (lower_values (mkCtx 0 1 EncUtf8 at_zero) 0 [VU32 42] [TOwn file] None (mkState zeros [] (s_world in_call))) as [o s'] eqn:E.
  assert (Eo : o = Ok [VU32 0]) by (vm_compute in E; injection E as <- _; reflexivity). subst o. exists [VU32 0], s'. cbv zeta.
  split; [apply (ca_cons (TOwn file) (VU32 42) [] [mkCarried true file 42] []); [exists 42; auto|constructor]|]. split; [exact E|].
  refine (spilled_values_give_nothing _ _ _ _ _ _ _ _ _ _ file_kinds _ E); [|cbn; lia]. intros r s o m w X. injection X as _ _ <-. reflexivity.
Qed.

(** ** What does not hold *)

(** A file passed to a function whose parameters do not fit is lost: the call
    succeeds, the caller has the file no longer, and the callee has it neither. *)
Theorem spilled_file_arrives_refuted : exists s ops rs ft s', history 2 ops rs s [] /\ found s 0 file 0 = Ok 42 /\
  canon_lower as_is no_options 0 (linked as_is (mkOpts EncUtf8 at_zero None) 1 does_nothing ft 0 16 zeros []) false ft (map VCore [CU32 0]) 0 16 s = (Ok [], s') /\
  found s' 0 file 0 = Err ETrap /\ (forall j, found s' 1 file j = Err ETrap) /\ w_dtors (s_world s') = [].
Proof.
  exists (mkState zeros [] (s_world one_file)), [OpNew 0 file 42], [Ok 0], (mkFuncType [("f", TOwn file)]%string []). eexists.
  split; [eapply history_world; [exact one_file_history|reflexivity]|]. split; [vm_compute; reflexivity|]. split; [vm_compute; reflexivity|]. split; [vm_compute; reflexivity|].
  split; [|reflexivity].
  intros j. unfold found, canon_resource_rep. cbn -[N.of_nat table_get]. unfold table_get. cbn [t_array empty_table List.length]. change (u32 (N.of_nat 0)) with 0. replace (0 <=? j) with true by (symmetry; apply N.leb_le; lia). reflexivity.
Qed.

Print Assumptions carried_unique.
Print Assumptions lifting_takes_handles.
Print Assumptions lowering_gives_handles.
Print Assumptions component_call_moves_parameters.
Print Assumptions component_call_moves_values.
Print Assumptions spilled_values_give_nothing.
Print Assumptions spilled_file_arrives_refuted.
