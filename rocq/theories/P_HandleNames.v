(** Where the indices of the resources in a value are (C68). The specification
    is in S_HandleNames.v: [plain t] is the type [t] with [u32] in place of the
    handle types, [names] relates a value to the one with indices in it. *)
From Coq Require Import NArith ZArith List String Bool Arith Permutation Lia ZifyBool ZifyNat ZifyN.
From Verif Require Import GoBase M_Types M_Layout S_Layout M_State M_Load M_Flat M_Canon S_Values S_Flat S_Canon L_Access L_Flat L_Canon S_Handles L_Handles S_Linked S_HandleCalls L_HandleCalls
  S_HandleValues L_HandleValues S_HandleNames L_HandleNames P_Handles P_HandleCalls P_HandleValues.
Import ListNotations.
Open Scope N_scope.
Open Scope go_scope.

(** ** Lifting *)

(** Lifting values flat gives the values that lifting them with [u32] in place
    of the handle types gives, but with the resources in place of their indices.
    The instance had the resources under these indices and no longer has the
    owned ones; memory is as before. *)
Theorem lifting_reads_indices : forall insts ops rs s calls order cx maxf ts kss it vs it' s',
  history insts ops rs s calls -> N.of_nat (made ops) < 2 ^ 32 -> (cx_inst cx < insts)%nat -> In (cx_id cx) calls ->
  Forall wf_type ts -> Forall2 flattens ts kss -> (List.length (List.concat kss) <= maxf)%nat ->
  lift_values order cx maxf ts it s = (Ok (vs, it'), s') ->
  exists ws xs, lift_values order cx maxf (map plain ts) it s = (Ok (ws, it'), s) /\ name_all ts ws vs xs /\
    took insts (cx_inst cx) xs s s' /\ s_mem s' = s_mem s.
Proof.
  intros insts ops rs s calls order cx maxf ts kss it vs it' s' H Hn Hi Hc Hw Hk Hl E. unfold lift_values in *. apply bind_inv in E. destruct E as (flat & s1 & E1 & E). injection E1 as E1 <-.
  rewrite (flatten_types_plain ts). rewrite (flat_types_ok _ _ Hk) in *. injection E1 as <-. apply Nat.leb_le in Hl. unfold bind at 1, lift_o. rewrite Hl in *.
  destruct (twin_lift_each insts cx ts Hw it s calls _ s' Hi Hc E) as (xs & [ws it2] & V & M & _ & R & Eit & Nm). cbn [fst snd] in Eit, Nm. subst it2.
  exists ws, xs. split; [apply R; reflexivity|]. split; [exact Nm|]. split; [exact (evolves_took _ _ _ _ _ _ _ _ _ H Hn Hi V)|exact M].
Qed.

(** The same for a value in memory, *)
Theorem loading_reads_indices : forall insts ops rs s calls cx t p v s',
  history insts ops rs s calls -> N.of_nat (made ops) < 2 ^ 32 -> (cx_inst cx < insts)%nat -> In (cx_id cx) calls ->
  wf_type t -> load cx t p s = (Ok v, s') ->
  exists w xs, load cx (plain t) p s = (Ok w, s) /\ names t w v xs /\ took insts (cx_inst cx) xs s s' /\ s_mem s' = s_mem s.
Proof.
  intros insts ops rs s calls cx t p v s' H Hn Hi Hc Hw E.
  destruct (twin_load insts cx t Hw p s calls _ s' Hi Hc E) as (xs & w & V & M & _ & R & Nm).
  exists w, xs. split; [apply R; reflexivity|]. split; [exact Nm|]. split; [exact (evolves_took _ _ _ _ _ _ _ _ _ H Hn Hi V)|exact M].
Qed.

(** and so for values too large to be passed flat: they are the entries of the
    tuple in memory. *)
Theorem spilled_lifting_reads_indices : forall insts ops rs s calls order cx maxf ts kss it vs it' s',
  history insts ops rs s calls -> N.of_nat (made ops) < 2 ^ 32 -> (cx_inst cx < insts)%nat -> In (cx_id cx) calls ->
  Forall wf_type ts -> Forall2 flattens ts kss -> (maxf < List.length (List.concat kss))%nat ->
  lift_values order cx maxf ts it s = (Ok (vs, it'), s') ->
  exists ptr mv w xs, iter_next it KU32 = Ok (VU32 ptr, it') /\ load cx (TTuple (map plain ts)) ptr s = (Ok w, s) /\
    names (TTuple ts) w (VMap mv) xs /\ vs = map snd (order mv) /\ took insts (cx_inst cx) xs s s' /\ s_mem s' = s_mem s.
Proof.
  intros insts ops rs s calls order cx maxf ts kss it vs it' s' H Hn Hi Hc Hw Hk Hl E. unfold lift_values in *. apply bind_inv in E. destruct E as (flat & s1 & E1 & E). injection E1 as E1 <-.
  rewrite (flat_types_ok _ _ Hk) in *. injection E1 as <-. apply Nat.leb_gt in Hl. rewrite Hl in *.
  apply bind_inv in E. destruct E as ((ptr & it1) & s1 & E1 & E). unfold next_u32 in E1. apply bind_inv in E1. destruct E1 as ((x & it2) & s2 & E1 & E2). injection E1 as E1 <-.
  destruct x; try discriminate. unfold ret in E2. injection E2 as -> -> <-. 
  apply bind_inv in E. destruct E as (a & s1 & Ea & E). injection Ea as Ea <-. apply bind_inv in E. destruct E as ([] & s1 & Eb & E).
  destruct (reads_aligned ETrap ptr a) as (g & Hg). rewrite Hg in Eb. injection Eb as _ <-.
  apply bind_inv in E. destruct E as (sz & s1 & Ec & E). injection Ec as Ec <-. apply bind_inv in E. destruct E as ([] & s1 & Ed & E).
  destruct (reads_bounds ETrap ptr sz) as (g' & Hg'). rewrite Hg' in Ed. injection Ed as _ <-.
  apply bind_inv in E. destruct E as (v & s1 & Ev & E). destruct v; try discriminate. match type of E with ret (map snd (order ?x), _) _ = _ => rename x into mv end.
  unfold ret in E. injection E as <- <- <-.
  assert (Hwt : wf_type (TTuple ts)) by (cbn [wf_type]; clear - Hw; induction Hw; cbn; auto).
  destruct (loading_reads_indices insts ops rs s calls cx (TTuple ts) ptr _ s1 H Hn Hi Hc Hwt Ev) as (w & xs & L & Nm & T & M).
  exists ptr, mv, w, xs. auto 8.
Qed.

(** ** Lowering *)

(** Lowering values flat gives the core values, and the memory, that lowering
    them with the indices in the resources' places gives. *)
Theorem lowering_writes_indices : forall insts ops rs s calls cx maxf ts kss vs out fl s', leaves_world (cx_realloc cx) -> blind_to_handles (cx_realloc cx) ->
  history insts ops rs s calls -> N.of_nat (made ops + List.length (flat_map handles_in ts)) < 2 ^ 32 ->
  (cx_inst cx < insts)%nat -> In (cx_id cx) calls ->
  Forall wf_type ts -> Forall2 flattens ts kss -> (List.length (List.concat kss) <= maxf)%nat -> List.length vs = List.length ts ->
  lower_values cx maxf vs ts out s = (Ok fl, s') ->
  exists ws xs s'', lower_values cx maxf ws (map plain ts) out s = (Ok fl, s'') /\ s_mem s'' = s_mem s' /\ s_world s'' = s_world s /\
    name_all ts ws vs xs /\ gave insts (cx_inst cx) xs s s'.
Proof.
  intros insts ops rs s calls cx maxf ts kss vs out fl s' Hlw Hbl H Hn Hi Hc Hw Hk Hl Hlen E.
  destruct (lows_values insts cx Hlw Hbl maxf ts kss vs out Hw Hk Hl s calls fl s' Hi Hc E) as (xs & ws & V & R & Nm).
  destruct (R s (conj eq_refl eq_refl)) as (s'' & A & [B _] & C). rewrite Hlen, firstn_all in Nm.
  destruct (del_lower_values insts cx Hlw maxf ts kss vs out Hk Hl s calls fl s' Hi Hc E) as (ys & _ & cs & _ & _ & Cy & _ & L).
  assert (Lx : List.length xs = List.length ys).
  { rewrite <- (map_length fst xs), <- (map_length fst ys). f_equal. eapply carry_all_unique; [exact Hw|eapply name_all_carry; exact Nm|exact Cy]. }
  exists ws, xs, s''. split; [exact A|]. split; [exact B|]. split; [exact C|]. split; [exact Nm|].
  apply (evolves_gave _ _ _ _ _ _ _ _ calls H); [change two32 with (2 ^ 32); lia|exact Hi|exact V].
Qed.

(** ** Concrete values *)
Notation entering := [OpNew 0 file 42; OpNew 0 file 43; OpEnter no_options 0].

(** The parcel with the indices 0 and 1 in it. *)
Example lifting_reads_indices_used : exists it' s' xs,
  lift_values as_is ctx0 16 [parcel] (IBase [CU32 0; CU32 1; CU32 1; CU32 7] 0) in_call = (Ok ([the_parcel 42 43 7], it'), s') /\
  name_all [parcel] [the_parcel 0 1 7] [the_parcel 42 43 7] xs /\ took 2 0 xs in_call s'.
Proof.
  eexists _, _. edestruct (lifting_reads_indices 2 entering [Ok 0; Ok 1; Ok 0] in_call [0%nat] as_is ctx0 16 [parcel] [[KU32; KU32; KU32; KU32]] (IBase [CU32 0; CU32 1; CU32 1; CU32 7] 0)) as (ws & xs & L & Nm & T & _);
    [exact in_call_history|vm_compute; reflexivity|cbn; lia|left; reflexivity|apply Forall_cons; [exact parcel_wf|apply Forall_nil]|exact parcel_kinds|cbn; lia|vm_compute; reflexivity|].
  exists xs. split; [vm_compute; reflexivity|]. vm_compute in L. injection L as <-. split; [exact Nm|exact T].
Qed.

(** A list of two files in memory: the indices are 1 and 0. *)
Definition two_words : memory := mkMem [8; 0; 0; 0; 2; 0; 0; 0; 1; 0; 0; 0; 0; 0; 0; 0] 16.
Definition with_words : state := mkState two_words [] (s_world in_call).
Lemma with_words_history : history 2 entering [Ok 0; Ok 1; Ok 0] with_words [0%nat].
Proof. eapply history_world; [exact in_call_history|reflexivity]. Qed.
Lemma files_wf : wf_type (TList (TOwn file)).
Proof. split; [exact I|]. exists 4, 4. split; reflexivity. Qed.
Example loading_reads_indices_used : exists s' xs,
  load ctx0 (TList (TOwn file)) 0 with_words = (Ok (VList [VU32 43; VU32 42]), s') /\
  names (TList (TOwn file)) (VList [VU32 1; VU32 0]) (VList [VU32 43; VU32 42]) xs /\ took 2 0 xs with_words s'.
Proof.
  eexists _. edestruct (loading_reads_indices 2 entering [Ok 0; Ok 1; Ok 0] with_words [0%nat] ctx0 (TList (TOwn file)) 0) as (w & xs & L & Nm & T & _);
    [exact with_words_history|vm_compute; reflexivity|cbn; lia|left; reflexivity|exact files_wf|vm_compute; reflexivity|].
  exists xs. split; [vm_compute; reflexivity|]. vm_compute in L. injection L as <-. split; [exact Nm|exact T].
Qed.
Lemma files_kinds : Forall2 flattens [TList (TOwn file)] [[KU32; KU32]].
Proof. constructor; [apply flatten_as_specified; reflexivity|constructor]. Qed.
Example spilled_lifting_reads_indices_used : exists it' s' xs mv,
  lift_values as_is ctx0 1 [TList (TOwn file)] (IBase [CU32 0] 0) with_words = (Ok ([VList [VU32 43; VU32 42]], it'), s') /\
  names (TTuple [TList (TOwn file)]) (VMap [("0"%string, VList [VU32 1; VU32 0])]) (VMap mv) xs /\ took 2 0 xs with_words s'.
Proof.
  eexists _, _. edestruct (spilled_lifting_reads_indices 2 entering [Ok 0; Ok 1; Ok 0] with_words [0%nat] as_is ctx0 1 [TList (TOwn file)] [[KU32; KU32]] (IBase [CU32 0] 0)) as (ptr & mv & w & xs & P & L & Nm & _ & T & _);
    [exact with_words_history|vm_compute; reflexivity|cbn; lia|left; reflexivity|apply Forall_cons; [exact files_wf|apply Forall_nil]|exact files_kinds|cbn; lia|vm_compute; reflexivity|].
  exists xs, mv. split; [vm_compute; reflexivity|]. injection P as <-. vm_compute in L. injection L as <-. split; [exact Nm|exact T].
Qed.

Example lowering_writes_indices_used : exists s' ws xs s'', let cx := mkCtx 0 1 EncUtf8 no_alloc in
  lower_values cx 16 [the_parcel 42 43 7] [parcel] None in_call = (Ok (map VCore [CU32 0; CU32 1; CU32 1; CU32 7]), s') /\
  lower_values cx 16 ws [plain parcel] None in_call = (Ok (map VCore [CU32 0; CU32 1; CU32 1; CU32 7]), s'') /\
  name_all [parcel] ws [the_parcel 42 43 7] xs /\ gave 2 1 xs in_call s'.
Proof.
  eexists. edestruct (lowering_writes_indices 2 entering [Ok 0; Ok 1; Ok 0] in_call [0%nat] (mkCtx 0 1 EncUtf8 no_alloc) 16 [parcel] [[KU32; KU32; KU32; KU32]] [the_parcel 42 43 7] None (map VCore [CU32 0; CU32 1; CU32 1; CU32 7]))
    as (ws & xs & s'' & L & _ & _ & Nm & G);
    [exact no_alloc_leaves|intros r s t E _; split; [reflexivity|exact E]|exact in_call_history|vm_compute; reflexivity|cbn; lia|left; reflexivity|apply Forall_cons; [exact parcel_wf|apply Forall_nil]|exact parcel_kinds|cbn; lia|reflexivity|vm_compute; reflexivity|].
  exists ws, xs, s''. cbv zeta. split; [vm_compute; reflexivity|]. split; [exact L|]. split; [exact Nm|exact G].
Qed.

Print Assumptions lifting_reads_indices.
Print Assumptions loading_reads_indices.
Print Assumptions spilled_lifting_reads_indices.
Print Assumptions lowering_writes_indices.
