(** Property theorems about flattened values (C09-C11, C52). *)
From Coq Require Import NArith ZArith List String Bool Lia ZifyBool ZifyNat ZifyN.
From Verif Require Import GoBase M_Types M_Layout S_Layout L_Layout M_State M_Utf M_Load M_Store M_Flat
  S_Utf S_Values S_Memory S_Flat L_Access L_Mem L_Frame L_RoundTrip L_StoreLoad L_Flat P_Memory.
Import ListNotations.
Open Scope N_scope.
Open Scope go_scope.

(** ** C52 *)

(** FlattenType computes the specified core types, and accepts exactly the
    types that have some. *)
Theorem flatten_type_as_specified : forall t ks, flatten_type t = Ok ks <-> flattens t ks.
Proof. intros t ks. split; [apply flatten_as_specified|apply flatten_complete]. Qed.
Print Assumptions flatten_type_as_specified.

(** A variant with payloads of different shapes, one of them nested. *)
Definition flat_demo_type : valtype :=
  TVariant [mkCase "a" (Some TF32) None; mkCase "b" None None;
            mkCase "c" (Some (TTuple [TS8; TF64; TOption TF32])) None;
            mkCase "d" (Some (TRecord [("x", TF32); ("y", TU64)])) (Some "a");
            mkCase "e" (Some (TFlags ["p"; "q"])) None]%string.

Example flatten_demo : flattens flat_demo_type [KU32; KU32; KU64; KU32; KF32].
Proof. apply flatten_type_as_specified. reflexivity. Qed.

(** ** C09 *)

Theorem lower_flat_kinds : forall cx t v s cs s',
  lower_flat cx t v s = (Ok cs, s') -> flattens t (map cval_kind cs).
Proof. intros cx t v s cs s' E. apply flatten_type_as_specified. eapply kinds_all. exact E. Qed.
Print Assumptions lower_flat_kinds.

Example lower_flat_kinds_applies : forall cx s, exists cs,
  lower_flat cx flat_demo_type (VMap [("c", VMap [("0", VS8 (-1)); ("1", VF64 1); ("2", VMap [("some", VF32 5)])])]%string) s = (Ok cs, s)
  /\ cs = [CU32 2; CU32 4294967295; CU64 1; CU32 1; CF32 5].
Proof. intros cx s. eexists. split; reflexivity. Qed.

Example lower_flat_kinds_applies_short : forall cx s, exists cs,
  lower_flat cx flat_demo_type (VMap [("d|a", VMap [("x", VF32 7); ("y", VU64 9)])]%string) s = (Ok cs, s)
  /\ cs = [CU32 3; CU32 7; CU64 9; CU32 0; CF32 0].
Proof. intros cx s. eexists. split; reflexivity. Qed.

(** ** C11 *)

Lemma firstn_skipn_nth : forall (vals : list cval) ks i,
  (forall j k, nth_error ks j = Some k -> exists c, nth_error vals (i + j) = Some c /\ cval_kind c = k) ->
  map cval_kind (firstn (List.length ks) (skipn i vals)) = ks.
Proof.
  intros vals ks. induction ks as [|k ks IH]; intros i H; [reflexivity|].
  destruct (H 0%nat k eq_refl) as (c & Hc & Ek). rewrite Nat.add_0_r in Hc.
  assert (Es : skipn i vals = c :: skipn (S i) vals).
  { clear -Hc. revert vals Hc. induction i as [|i IH]; intros [|x vals] Hc; try discriminate; [injection Hc as ->; reflexivity|].
    cbn in Hc. cbn [skipn]. rewrite (IH vals Hc). destruct vals; reflexivity. }
  rewrite Es. cbn [List.length firstn map]. rewrite Ek. f_equal. apply IH. intros j x Hx.
  destruct (H (S j) x Hx) as (c' & Hc' & Ek'). exists c'. split; [|exact Ek']. rewrite <- Hc'. f_equal. lia.
Qed.

(** Lifting from the [i]-th of the values [vals] moves past as many values as
    the type flattens to, and these have exactly the flattened types. *)
Theorem lift_flat_consumes : forall cx t vals i s v it' s',
  lift_flat cx t (IBase vals i) s = (Ok (v, it'), s') ->
  exists ks, flattens t ks /\ it' = IBase vals (i + List.length ks) /\
    map cval_kind (firstn (List.length ks) (skipn i vals)) = ks.
Proof.
  intros cx t vals i s v it' s' E. destruct (consumes_all cx t _ _ _ _ _ E) as (ks & Ek & A).
  exists ks. split; [apply flatten_type_as_specified; exact Ek|]. destruct it' as [vals' i'|]; [|contradiction].
  destruct A as (-> & -> & A). split; [reflexivity|]. apply firstn_skipn_nth. exact A.
Qed.
Print Assumptions lift_flat_consumes.

(** The payload of case "a" is shorter than the join. *)
Example lift_flat_consumes_applies : forall cx s, exists v,
  lift_flat cx flat_demo_type (IBase [CU64 99; CU32 0; CU32 7; CU64 1; CU32 2; CF32 3; CU32 5] 1) s
  = (Ok (v, IBase [CU64 99; CU32 0; CU32 7; CU64 1; CU32 2; CF32 3; CU32 5] 6), s) /\ v = VMap [("a", VF32 7)]%string.
Proof. intros cx s. eexists. split; reflexivity. Qed.

(** ** C10 *)

(** Values whose type touches neither memory nor handles: lowering succeeds,
    changes nothing, and lifting the core values (wherever they stand in a
    longer list) gives the value back. *)
Theorem flat_round_trip : forall cx t ks v pre post s,
  memory_free t -> wf_type t -> flattens t ks -> has_type (cx_enc cx) t v ->
  exists cs v', lower_flat cx t v s = (Ok cs, s) /\ map cval_kind cs = ks /\
    lift_flat cx t (IBase (pre ++ cs ++ post) (List.length pre)) s
    = (Ok (v', IBase (pre ++ cs ++ post) (List.length pre + List.length cs)), s) /\
    same_value t v v'.
Proof.
  intros cx t ks v pre post s Hm Hwf Hk Hty. apply flatten_type_as_specified in Hk.
  destruct (flat_rt_free cx t ks v Hm Hwf Hk Hty) as (cs & Ek & Hlo & Hli).
  destruct (Hli _ _ (yields_base cs pre post)) as (v' & S & E). exists cs, v'. auto.
Qed.
Print Assumptions flat_round_trip.

(** All other types without handles, given a correct allocator: lifting may
    happen later, as long as the memory in use has not been changed. *)
Theorem flat_round_trip_memory : forall cx init t ks v pre post s o s1,
  correct_allocator cx init ->
  wf_type t -> flattens t ks -> has_type (cx_enc cx) t v -> wf_mem (s_mem s) ->
  lower_flat cx t v s = (o, s1) ->
  (exists cs, o = Ok cs /\ map cval_kind cs = ks /\
    forall s2, wf_mem (s_mem s2) -> m_len (s_mem s1) <= m_len (s_mem s2) ->
      (forall b, owned init (s_hist s1) b -> ~ owned init (s_hist s) b -> byte (s_mem s2) b = byte (s_mem s1) b) ->
      exists v', lift_flat cx t (IBase (pre ++ cs ++ post) (List.length pre)) s2
        = (Ok (v', IBase (pre ++ cs ++ post) (List.length pre + List.length cs)), s2) /\
        same_value t v v')
  \/ alloc_failed cx o.
Proof.
  intros cx init t ks v pre post s o s1 Hc Hwf Hk Hty Hm E. apply flatten_type_as_specified in Hk.
  destruct (flat_rt_all cx init t Hc v ks Hk Hwf Hty s o s1 Hm) as [(cs & -> & S & K)|F]; try assumption.
  - intros b [H1 H2]. lia.
  - destruct Hm. unfold len. lia.
  - left. exists cs. split; [reflexivity|].
    assert (K1 : kept init 0 0 s s1 s1) by (split; [apply (st_good _ _ _ _ S)|]; split; [lia|reflexivity]).
    split; [apply (K _ K1)|].
    intros s2 Hm2 Hl Hb. destruct (K s2) as (_ & _ & HL).
    { split; [exact Hm2|]. split; [exact Hl|]. intros b [[H1 H2]|[H1 H2]]; [lia|auto]. }
    apply HL. apply yields_base.
  - right. exact F.
Qed.
Print Assumptions flat_round_trip_memory.

Example flat_round_trip_applies : forall cx s,
  memory_free flat_demo_type /\ wf_type flat_demo_type /\ flattens flat_demo_type [KU32; KU32; KU64; KU32; KF32] /\
  has_type (cx_enc cx) flat_demo_type (VMap [("d|a", VMap [("x", VF32 2143289345); ("y", VU64 9)])]%string) /\
  lift_flat cx flat_demo_type (IBase ([CF64 1] ++ [CU32 3; CU32 2143289344; CU64 9; CU32 0; CF32 0] ++ [CU64 4]) 1) s
  = (Ok (VMap [("d|a", VMap [("x", VF32 2143289344); ("y", VU64 9)])]%string,
         IBase ([CF64 1] ++ [CU32 3; CU32 2143289344; CU64 9; CU32 0; CF32 0] ++ [CU64 4]) 6), s).
Proof.
  intros cx s. split; [cbn; tauto|]. split.
  { cbn [wf_type flat_demo_type]. split; [|cbn; repeat split; try lia; repeat constructor; cbn; intuition discriminate].
    split; [repeat constructor; cbn; intuition discriminate|]. split; [repeat constructor; cbn; try discriminate; exact I|].
    apply Forall_cons; [apply re_stop; reflexivity|]. apply Forall_cons; [apply re_stop; reflexivity|].
    apply Forall_cons; [apply re_stop; reflexivity|]. apply Forall_cons; [eapply re_step; [reflexivity|apply re_stop; reflexivity]|].
    apply Forall_cons; [apply re_stop; reflexivity|apply Forall_nil]. }
  split; [apply flatten_demo|]. split; [|reflexivity].
  exists "d|a"%string. eexists. exists 3%nat. eexists. split; [reflexivity|]. split.
  - exists [], "d"%string, ["a"%string]. repeat split; repeat constructor; cbn; discriminate.
  - split; [reflexivity|]. cbn [c_type map_case nth_error map flat_demo_type]. eexists. split; [reflexivity|].
    repeat constructor; cbn [fst snd map]; eexists; (split; [reflexivity|]); eexists; (split; [reflexivity|]); reflexivity.
Qed.

Example flat_round_trip_memory_applies :
  flattens demo_type [KU32; KU32; KU32; KU32; KU32] /\
  exists cs s', lower_flat (bump_ctx EncUtf8) demo_type demo_val (demo_state 200) = (Ok cs, s') /\
    cs = [CU32 64; CU32 3; CU32 68; CU32 3; CU32 5] /\
    fst (lift_flat (bump_ctx EncUtf8) demo_type (IBase cs 0) s') =
    Ok (VMap [("name", VStr [72; 195; 169]);
        ("items", VList [VMap [("b|a", VF32 2143289344)]; VMap [("c", VNil)]; VMap [("a", VU16 7)]]);
        ("opts", VMap [("x", VBool true); ("y", VBool false); ("z", VBool true)])], IBase cs 5)%string.
Proof.
  split; [apply flatten_type_as_specified; reflexivity|].
  eexists. eexists. split; [vm_compute; reflexivity|]. split; [reflexivity|]. vm_compute. reflexivity.
Qed.
