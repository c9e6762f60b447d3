(** Memory as variables (C84). The steps are those of S_Variables.v. *)
From Coq Require Import NArith ZArith String Bool Lia ZifyBool ZifyNat ZifyN List.
From Verif Require Import GoBase M_Types M_Layout S_Layout L_Layout M_State M_Utf M_Load M_Store M_Flat S_Utf S_Flat
  S_Values S_Memory L_Mem L_Frame P_Memory P_Flat S_Variables L_Variables.
Import ListNotations.
Open Scope N_scope.
Open Scope go_scope.

(** Whatever happened since, a variable loads as the value last stored in it. *)
Theorem variables_hold : forall cx init xs s c out i t p v,
  correct_allocator cx init -> reaches cx init xs s c out ->
  nth_error xs i = Some (t, p) -> c i = Some v ->
  exists v', load cx t p s = (Ok v', s) /\ same_value t v v'.
Proof.
  intros cx init xs s c out i t p v Hc R Hx Hv. destruct (reaches_stays _ _ _ _ _ _ Hc R) as (_ & (V & _) & H & _).
  destruct (V (t, p) (nth_error_In _ _ Hx)) as (_ & a & sz & Hl & _). cbn [fst] in Hl.
  exact (stays_now _ _ _ _ _ (H i t p v a sz Hx Hv Hl)).
Qed.
Print Assumptions variables_hold.

(** Core values that were sent at any time still lift to the value that was
    sent, wherever they stand in a longer list. *)
Theorem sent_values_arrive : forall cx init xs s c out t v cs pre post,
  correct_allocator cx init -> reaches cx init xs s c out -> In (mkSent t v cs) out ->
  exists v', lift_flat cx t (IBase (pre ++ cs ++ post) (List.length pre)) s
    = (Ok (v', IBase (pre ++ cs ++ post) (List.length pre + List.length cs)), s) /\ same_value t v v'.
Proof.
  intros cx init xs s c out t v cs pre post Hc R Hin. destruct (reaches_stays _ _ _ _ _ _ Hc R) as (_ & _ & _ & H).
  exact (stays_now _ _ _ _ _ (H _ Hin) pre post).
Qed.
Print Assumptions sent_values_arrive.

(** Lowering, whatever the value and the outcome, changes no byte in use. *)
Theorem lower_frame : forall cx init t v s o s',
  correct_allocator cx init -> handle_free t -> lists_fit t v -> wf_mem (s_mem s) ->
  lower_flat cx t v s = (o, s') ->
  wf_mem (s_mem s') /\ m_len (s_mem s) <= m_len (s_mem s') /\ s_world s' = s_world s /\
  (exists blocks, s_hist s' = (blocks ++ s_hist s)%list) /\
  forall b, owned init (s_hist s) b -> byte (s_mem s') b = byte (s_mem s) b.
Proof.
  intros cx init t v s o s' Hc Hh Hf Hm E. pose proof (silent_lower cx init t Hc Hh v Hf s o s' Hm E) as S.
  split; [apply S|]. split; [apply (st_len _ _ _ _ S)|]. split; [apply S|]. split; [apply S|].
  intros b Hb. apply (st_frame _ _ _ _ S); auto.
Qed.
Print Assumptions lower_frame.

(** ** A concrete run *)

(** A text and a pair of bytes; the text is set, a record sent, the pair set,
    the text set again. *)
Definition pair_type : valtype := TRecord [("a", TU8); ("b", TU8)]%string.
Definition pair_val (a b : any) : any := VMap [("a", a); ("b", b)]%string.
Definition two_vars : list variable := [(TString, 8); (pair_type, 16)].
Definition region (b : N) : Prop := b < 64.
Definition cxu := bump_ctx EncUtf8.
Definition st0 := demo_state 200.
Definition st1 := snd (store cxu TString (VStr [72; 105]) 8 st0).
Definition st2 := snd (lower_flat cxu demo_type demo_val st1).
Definition st3 := snd (store cxu pair_type (pair_val (VU8 1) (VU8 2)) 16 st2).
Definition st4 := snd (store cxu TString (VStr [72; 111]) 8 st3).

Lemma pair_wf : wf_type pair_type.
Proof. cbn. split; [|auto]. constructor; [cbn; intuition discriminate|]. constructor; [cbn; tauto|constructor]. Qed.
Lemma two_vars_ok : variables_ok region 200 two_vars.
Proof.
  split; [|split].
  - intros x [<-|[<-|[]]].
    + split; [exact I|]. exists 4, 8. split; [reflexivity|]. split; [exists 2; reflexivity|cbn; lia].
    + split; [exact pair_wf|]. exists 1, 2. split; [reflexivity|]. split; [exists 16; reflexivity|cbn; lia].
  - intros x b [<-|[<-|[]]] (a & sz & E & W); vm_compute in E; injection E as <- <-; unfold region, within in *; cbn [snd] in *; lia.
  - intros [|[|[|i]]] [|[|[|j]]] x y b Ex Ey Hne; try discriminate; try congruence; injection Ex as <-; injection Ey as <-;
      intros (a & sz & E & W) (a' & sz' & E' & W'); vm_compute in E; vm_compute in E'; injection E as <- <-; injection E' as <- <-; unfold within in *; cbn [snd] in *; lia.
Qed.

Lemma pair_typed : forall a b, a < 256 -> b < 256 -> has_type EncUtf8 pair_type (pair_val (VU8 a) (VU8 b)).
Proof.
  intros a b Ha Hb. eexists. split; [reflexivity|]. constructor; [|constructor; [|constructor]]; cbn [fst snd]; (eexists; split; [reflexivity|]); eexists; (split; [reflexivity|assumption]).
Qed.
Lemma text_typed : forall x y, x < 128 -> y < 128 -> has_type EncUtf8 TString (VStr [x; y]).
Proof.
  intros x y Hx Hy. eexists. split; [reflexivity|]. exists [x; y].
  split; [repeat constructor; unfold scalar_value; lia|]. split; [|split; [reflexivity|exact I]].
  unfold utf8_text. cbn [flat_map]. unfold sp_utf8. replace (x <? 128) with true by lia. replace (y <? 128) with true by lia. reflexivity.
Qed.

Example two_vars_run : exists out, reaches cxu region two_vars st4
    (assigned (assigned (assigned (fun _ => None) 0 (Some (VStr [72; 105]))) 1 (Some (pair_val (VU8 1) (VU8 2)))) 0 (Some (VStr [72; 111]))) out /\
  out = [mkSent demo_type demo_val [CU32 66; CU32 3; CU32 72; CU32 3; CU32 5]] /\
  fst (load cxu TString 8 st4) = Ok (VStr [72; 111]) /\ fst (load cxu pair_type 16 st4) = Ok (pair_val (VU8 1) (VU8 2)).
Proof.
  destruct (load_after_store_applies EncUtf8 (or_introl eq_refl)) as (_ & Hwf & Hty & _).
  eexists. split; [|split; [reflexivity|split; vm_compute; reflexivity]].
  apply (re_assign cxu region two_vars st3 _ _ 0 TString 8 (VStr [72; 111]) st4); [|reflexivity|apply text_typed; lia|vm_compute; reflexivity].
  apply (re_assign cxu region two_vars st2 _ _ 1 pair_type 16 (pair_val (VU8 1) (VU8 2)) st3); [|reflexivity|apply pair_typed; lia|vm_compute; reflexivity].
  apply (re_send cxu region two_vars st1 _ _ demo_type [KU32; KU32; KU32; KU32; KU32] demo_val _ st2); [|exact Hwf|apply flat_round_trip_memory_applies|exact Hty|vm_compute; reflexivity].
  apply (re_assign cxu region two_vars st0 _ _ 0 TString 8 (VStr [72; 105]) st1); [|reflexivity|apply text_typed; lia|vm_compute; reflexivity].
  apply re_start; [|exact two_vars_ok]. apply (load_after_store_applies EncUtf8 (or_introl eq_refl)).
Qed.

(** A store that fails does not leave the old value: the first field is already
    overwritten when the second is refused. *)
Theorem failed_store_keeps_value_refuted : exists s c out s' v e,
  reaches cxu region two_vars s c out /\ c 1%nat = Some v /\ lists_fit pair_type (pair_val (VU8 9) (VS16 8)) /\
  store cxu pair_type (pair_val (VU8 9) (VS16 8)) 16 s = (Err e, s') /\
  fst (load cxu pair_type 16 s) = Ok v /\ fst (load cxu pair_type 16 s') <> Ok v.
Proof.
  exists st3, (assigned (assigned (fun _ => None) 0 (Some (VStr [72; 105]))) 1 (Some (pair_val (VU8 1) (VU8 2)))). exists [mkSent demo_type demo_val [CU32 66; CU32 3; CU32 72; CU32 3; CU32 5]]. eexists. exists (pair_val (VU8 1) (VU8 2)). eexists.
  destruct (load_after_store_applies EncUtf8 (or_introl eq_refl)) as (_ & Hwf & Hty & _).
  split; [|split; [reflexivity|]].
  - apply (re_assign cxu region two_vars st2 (assigned (fun _ => None) 0 (Some (VStr [72; 105]))) _ 1 pair_type 16 (pair_val (VU8 1) (VU8 2)) st3); [|reflexivity|apply pair_typed; lia|vm_compute; reflexivity].
    apply (re_send cxu region two_vars st1 _ _ demo_type [KU32; KU32; KU32; KU32; KU32] demo_val _ st2); [|exact Hwf|apply flat_round_trip_memory_applies|exact Hty|vm_compute; reflexivity].
    apply (re_assign cxu region two_vars st0 _ _ 0 TString 8 (VStr [72; 105]) st1); [|reflexivity|apply text_typed; lia|vm_compute; reflexivity].
    apply re_start; [|exact two_vars_ok]. apply (load_after_store_applies EncUtf8 (or_introl eq_refl)).
  - split; [cbn; intros m E; repeat constructor|]. split; [vm_compute; reflexivity|]. split; [vm_compute; reflexivity|vm_compute; discriminate].
Qed.
Print Assumptions failed_store_keeps_value_refuted.
