(** Property theorems about the flat format of values (C58). *)
From Coq Require Import NArith ZArith List String Bool Lia ZifyBool ZifyNat ZifyN.
From Verif Require Import GoBase M_Types M_Layout S_Layout L_Layout M_State M_Utf M_Load M_Store M_Flat
  S_Utf S_Values S_Memory S_Access S_Flat S_Format S_FlatFormat L_Mem L_Frame L_RoundTrip L_StoreLoad L_Lifted L_Flat
  L_Format L_FlatFormat P_Memory.
Import ListNotations.
Open Scope N_scope.
Open Scope go_scope.

(** ** C58 *)

(** LiftFlat gives the value the next core values stand for and consumes
    exactly these; it traps exactly if they stand for none. It changes nothing. *)
Theorem lift_reads_flat : forall cx t pre cs post s,
  flattens t (kinds cs) -> Forall (fun c => core_bits c < 2 ^ core_width (cval_kind c)) cs ->
  wf_type t -> handle_free t -> cx_enc cx <> EncUnknown ->
  wf_mem (s_mem s) -> flat_addressable (cx_enc cx) (s_mem s) t cs ->
  let vals := (pre ++ cs ++ post)%list in
  let result := lift_flat cx t (IBase vals (List.length pre)) s in
  (liftable (cx_enc cx) (s_mem s) t cs /\
   exists v, result = (Ok (v, IBase vals (List.length pre + List.length cs)), s) /\
     lifts_as (cx_enc cx) (s_mem s) t cs v)
  \/ (~ liftable (cx_enc cx) (s_mem s) t cs /\ result = (Err ETrap, s)).
Proof.
  intros cx t pre cs post s Hk Hok Hwf Hh He Hm Had vals result.
  assert (Hok' : Forall cval_ok cs) by (eapply Forall_impl; [|exact Hok]; intros [] X; exact X).
  destruct (lifts_ok_all cx t cs _ _ s (flatten_complete _ _ Hk) Hwf Hh He Hm Hok' Had (yields_base cs pre post))
    as [([v it] & E & Ei & H)|(E & H)]; [left|right; auto].
  cbn [fst snd] in *. subst it. split; [eapply lifted_liftable; exact H|]. exists v. auto.
Qed.
Print Assumptions lift_reads_flat.

(** A value the core values stand for is lifted. *)
Theorem lift_stood_value : forall cx t pre cs post s v,
  flattens t (kinds cs) -> Forall (fun c => core_bits c < 2 ^ core_width (cval_kind c)) cs ->
  wf_type t -> handle_free t -> cx_enc cx <> EncUnknown ->
  wf_mem (s_mem s) -> flat_addressable (cx_enc cx) (s_mem s) t cs ->
  stands_exactly (cx_enc cx) (s_mem s) t cs v ->
  exists v', lift_flat cx t (IBase (pre ++ cs ++ post) (List.length pre)) s
     = (Ok (v', IBase (pre ++ cs ++ post) (List.length pre + List.length cs)), s) /\ same_value t v v'.
Proof.
  intros cx t pre cs post s v Hk Hok Hwf Hh He Hm Had Hv.
  destruct (lift_reads_flat cx t pre cs post s Hk Hok Hwf Hh He Hm Had) as [(_ & v' & E & H)|(H & E)].
  - exists v'. split; [exact E|]. eapply stood_is_lifted; eassumption.
  - exfalso. apply H. eapply exact_liftable. exact Hv.
Qed.
Print Assumptions lift_stood_value.

(** LowerFlat gives core values of the flattened types that stand for the
    value, in canonical form. *)
Theorem lower_writes_flat : forall cx init t ks v s o s',
  correct_allocator cx init ->
  flattens t ks -> wf_type t -> has_type (cx_enc cx) t v -> wf_mem (s_mem s) ->
  lower_flat cx t v s = (o, s') ->
  (exists cs, o = Ok cs /\ kinds cs = ks /\ Forall (fun c => core_bits c < 2 ^ core_width (cval_kind c)) cs /\
     exists v', stands_canonically (cx_enc cx) (s_mem s') t cs v' /\ same_value t v v')
  \/ alloc_failed cx o.
Proof.
  intros cx init t ks v s o s' Hc Hk Hwf Hty Hm E.
  destruct (lowers_ok_all cx init t Hc v ks (flatten_complete _ _ Hk) Hwf Hty s o s' Hm) as [(cs & -> & St & K)|Hf];
    [intros b Hb; unfold within in Hb; lia|lia|exact E| |right; assumption].
  left. exists cs. split; [reflexivity|].
  assert (K' := K s'). destruct K' as (K1 & K2 & K3); [split; [apply (st_good _ _ _ _ St)|]; split; [lia|reflexivity]|].
  split; [exact K1|]. split; [|exact K3]. eapply Forall_impl; [|exact K2]. intros [] X; exact X.
Qed.
Print Assumptions lower_writes_flat.

(** Core values in canonical form stand for their value. *)
Theorem canonical_stands : forall enc m t cs v, stands_canonically enc m t cs v -> stands_exactly enc m t cs v.
Proof. exact stands_canonical_exact. Qed.
Print Assumptions canonical_stands.

(** Core values stand for at most one value, up to the way cases are written
    and NaNs. *)
Theorem stood_value_unique : forall enc m t cs v w, wf_type t ->
  stands_exactly enc m t cs v -> lifts_as enc m t cs w -> same_value t v w.
Proof. intros. eapply stood_is_lifted; eassumption. Qed.
Print Assumptions stood_value_unique.

(** The hypotheses can be met: a record with a variant whose payloads are
    joined, after one core value and before another. *)
Definition ff_type : valtype :=
  TRecord [("n", TS16);
           ("v", TVariant [mkCase "f" (Some TF32) None; mkCase "l" (Some (TTuple [TU64; TString])) None; mkCase "e" None (Some "f")]);
           ("g", TFlags ["x"; "y"])]%string.
Definition ff_cores : list cval := [CU32 0x1fffe; CU32 0; CU64 0xdeadbeef3f800000; CU32 77; CU32 78; CU32 6].
Definition ff_state : state := mkState (mkMem [0x68; 0x69; 0; 0] 4) [] demo_world.

Lemma ff_flattens : flattens ff_type (kinds ff_cores).
Proof. apply flattens_iff. reflexivity. Qed.
Lemma ff_wf : wf_type ff_type.
Proof.
  cbn [wf_type ff_type map fst snd]. split; [repeat constructor; cbn; intuition discriminate|].
  cbn [all fold_right]. split; [exact I|]. split; [|split; [split; [repeat constructor; cbn; intuition discriminate|cbn; lia]|exact I]].
  split; [|repeat split].
  split; [repeat constructor; cbn; intuition discriminate|].
  split; [repeat constructor; cbn; try discriminate; exact I|].
  apply Forall_cons; [apply re_stop; reflexivity|]. apply Forall_cons; [apply re_stop; reflexivity|].
  apply Forall_cons; [|apply Forall_nil]. eapply re_step; [reflexivity|apply re_stop; reflexivity].
Qed.

Lemma ff_addressable : flat_addressable EncUtf8 (s_mem ff_state) ff_type ff_cores.
Proof.
  intros css Ec HF. destruct css as [|a [|b [|c [|]]]]; try (exfalso; inversion HF as [|? ? ? ? _ HF1]; subst;
    inversion HF1 as [|? ? ? ? _ HF2]; subst; inversion HF2 as [|? ? ? ? _ HF3]; subst; inversion HF3; fail).
  inversion HF as [|? ? ? ? Ha HF1]; subst. inversion HF1 as [|? ? ? ? Hb HF2]; subst. inversion HF2 as [|? ? ? ? Hc HF3]; subst.
  cbn [fst snd] in *.
  apply Forall2_cons; [exact I|]. apply Forall2_cons; [|apply Forall2_cons; [exact I|apply Forall2_nil]].
  apply flattens_iff in Ha, Hb.
  assert (E : a = [CU32 0x1fffe] /\ exists r, b = CU32 0 :: r).
  { injection Ha as Ha. symmetry in Ha. apply kinds_u32 in Ha. destruct Ha as (n & ->). cbn in Ec. injection Ec as <- Ec.
    split; [reflexivity|]. vm_compute in Hb. destruct b as [|d r]; [discriminate|]. cbn in Ec. injection Ec as <- _. eauto. }
  destruct E as (-> & r & ->). cbn [snd flat_addressable]. intros i rest c0 q ps E Ei Eq _ _. injection E as E _.
  assert (i = 0)%nat as -> by lia. cbn in Ei. injection Ei as <-. cbn in Eq. injection Eq as <-. exact I.
Qed.

Example lift_reads_flat_applies :
  flattens ff_type (kinds ff_cores) /\ Forall (fun c => core_bits c < 2 ^ core_width (cval_kind c)) ff_cores /\
  wf_type ff_type /\ handle_free ff_type /\ wf_mem (s_mem ff_state) /\
  flat_addressable EncUtf8 (s_mem ff_state) ff_type ff_cores /\
  lift_flat (bump_ctx EncUtf8) ff_type (IBase (CF64 1 :: ff_cores ++ [CU32 9]) 1) ff_state =
    (Ok (VMap [("n", VS16 (-2)); ("v", VMap [("f", VF32 0x3f800000)]); ("g", VMap [("x", VBool false); ("y", VBool true)])]%string,
         IBase (CF64 1 :: ff_cores ++ [CU32 9]) 7), ff_state).
Proof.
  split; [apply ff_flattens|]. split; [repeat constructor|]. split; [apply ff_wf|]. split; [repeat split|].
  split; [split; [reflexivity|split; [reflexivity|repeat constructor]]|]. split; [apply ff_addressable|vm_compute; reflexivity].
Qed.

(** With a discriminant out of range the core values stand for nothing. *)
Example lift_unliftable_traps :
  lift_flat (bump_ctx EncUtf8) ff_type (IBase [CU32 0; CU32 3; CU64 0; CU32 0; CU32 0; CU32 0] 0) ff_state = (Err ETrap, ff_state).
Proof. vm_compute. reflexivity. Qed.

(** Lowering the lifted value gives the canonical core values. *)
Example lower_writes_flat_applies :
  has_type EncUtf8 ff_type (VMap [("g", VMap [("y", VBool true); ("x", VBool false)]); ("v", VMap [("e|f", VNil)]); ("n", VS16 (-2))]%string) /\
  lower_flat (bump_ctx EncUtf8) ff_type
    (VMap [("g", VMap [("y", VBool true); ("x", VBool false)]); ("v", VMap [("e|f", VNil)]); ("n", VS16 (-2))]%string) ff_state =
    (Ok [CU32 0xfffffffe; CU32 2; CU64 0; CU32 0; CU32 0; CU32 2], ff_state).
Proof.
  split; [|vm_compute; reflexivity].
  cbn [has_type ff_type]. eexists. split; [reflexivity|]. repeat apply Forall_cons; try apply Forall_nil; cbn [fst snd].
  - eexists. split; [reflexivity|]. cbn [has_type]. exists (-2)%Z. split; [reflexivity|]. unfold signed_range. cbn. lia.
  - eexists. split; [reflexivity|]. cbn [has_type]. exists "e|f"%string, VNil, 2%nat. eexists.
    split; [reflexivity|]. split; [|split; reflexivity].
    exists [], "e"%string, ["f"%string]. split; [reflexivity|]. split; [repeat constructor; cbn; intros; discriminate || exact I|].
    split; [constructor|reflexivity].
  - eexists. split; [reflexivity|]. cbn [has_type]. eexists. split; [reflexivity|].
    repeat apply Forall_cons; try apply Forall_nil; cbn [fst snd]; (eexists; split; [reflexivity|eexists; reflexivity]).
Qed.
