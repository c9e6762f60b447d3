(** Property theorems about handing values on at a supertype (C86). *)
From Coq Require Import NArith ZArith List String Bool Lia ZifyBool ZifyNat ZifyN.
From Verif Require Import GoBase M_Types M_Layout S_Layout L_Layout M_State M_Utf M_Load M_Store M_Flat
  S_Utf S_Values S_Memory S_Access S_Flat S_Format S_FlatFormat L_Access L_Labels L_Mem L_Frame L_RoundTrip L_Lifted
  L_Format L_Flat L_Accept S_Subtype L_Subtype P_Memory P_Flat P_Values.
Import ListNotations.
Open Scope N_scope.
Open Scope go_scope.

(** ** C86 *)

(** What is loaded or lifted at a type is a value of each of its supertypes. *)
Theorem loaded_at_supertype : forall cx enc t u p s v s',
  wf_type t -> wf_type u -> subtype t u -> wf_mem (s_mem s) ->
  load cx t p s = (Ok v, s') -> fits enc u v -> has_type enc u v.
Proof.
  intros cx enc t u p s v s' Ht Hu Hs Hm E Hf. destruct (load_gives_own cx t Ht p s _ s' Hm E) as (_ & _ & H).
  eapply own_supertype; [exact Ht|exact Hu|exact Hs|apply H; reflexivity|exact Hf].
Qed.
Print Assumptions loaded_at_supertype.

Theorem lifted_at_supertype : forall cx enc t u cs n s v it s',
  wf_type t -> wf_type u -> subtype t u -> wf_mem (s_mem s) ->
  Forall (fun c => core_bits c < 2 ^ core_width (cval_kind c)) cs ->
  lift_flat cx t (IBase cs n) s = (Ok (v, it), s') -> fits enc u v -> has_type enc u v.
Proof.
  intros cx enc t u cs n s v it s' Ht Hu Hs Hm Hok E Hf.
  assert (Hi : iter_ok (IBase cs n)) by (cbn [iter_ok]; eapply Forall_impl; [|exact Hok]; intros [] X; exact X).
  destruct (lift_gives_own cx t Ht _ Hi s _ s' Hm E) as (_ & _ & H).
  eapply own_supertype; [exact Ht|exact Hu|exact Hs|apply (H (v, it)); reflexivity|exact Hf].
Qed.
Print Assumptions lifted_at_supertype.

(** Without texts and lists in the supertype: what LiftFlat gives at a type,
    LowerFlat takes at a supertype. It leaves the state alone, and LiftFlat
    there gives the same value, seen at the supertype. *)
Theorem lift_then_lower : forall cx cy t u ks cs n pre post s v it s',
  wf_type t -> wf_type u -> subtype t u -> memory_free u -> flattens u ks -> wf_mem (s_mem s) ->
  Forall (fun c => core_bits c < 2 ^ core_width (cval_kind c)) cs ->
  lift_flat cx t (IBase cs n) s = (Ok (v, it), s') ->
  forall s2, exists ds w, lower_flat cy u v s2 = (Ok ds, s2) /\ map cval_kind ds = ks /\
    lift_flat cy u (IBase (pre ++ ds ++ post) (List.length pre)) s2
    = (Ok (w, IBase (pre ++ ds ++ post) (List.length pre + List.length ds)), s2) /\
    same_value u v w.
Proof.
  intros. apply flat_round_trip; try assumption. apply (lifted_at_supertype cx _ t u cs n s v it s'); try assumption. apply fits_free. assumption.
Qed.
Print Assumptions lift_then_lower.

(** In general, given a correct allocator and values that can be written. *)
Theorem lift_then_lower_memory : forall cx cy init t u ks cs n pre post s v it s' s1 o s2,
  wf_type t -> wf_type u -> subtype t u -> flattens u ks -> wf_mem (s_mem s) ->
  Forall (fun c => core_bits c < 2 ^ core_width (cval_kind c)) cs ->
  lift_flat cx t (IBase cs n) s = (Ok (v, it), s') -> fits (cx_enc cy) u v ->
  correct_allocator cy init -> wf_mem (s_mem s1) -> lower_flat cy u v s1 = (o, s2) ->
  (exists ds w, o = Ok ds /\ map cval_kind ds = ks /\
    lift_flat cy u (IBase (pre ++ ds ++ post) (List.length pre)) s2
    = (Ok (w, IBase (pre ++ ds ++ post) (List.length pre + List.length ds)), s2) /\
    same_value u v w)
  \/ alloc_failed cy o.
Proof.
  intros cx cy init t u ks cs n pre post s v it s' s1 o s2 Ht Hu Hs Hk Hm Hok E Hf Hc Hm1 E1.
  assert (Hty : has_type (cx_enc cy) u v) by (apply (lifted_at_supertype cx _ t u cs n s v it s'); assumption).
  destruct (flat_round_trip_memory cy init u ks v pre post s1 o s2 Hc Hu Hk Hty Hm1 E1) as [(ds & -> & K & R)|F]; [left|right; exact F].
  assert (Hm2 : wf_mem (s_mem s2)).
  { pose proof (flatten_complete _ _ Hk) as Hk'.
    destruct (flat_rt_all cy init u Hc v ks Hk' Hu Hty s1 (Ok ds) s2 Hm1) as [(ds' & _ & S & _)|F];
      [intros b [H1 H2]; lia|destruct Hm1; unfold len; lia|exact E1|apply (st_good _ _ _ _ S)|].
    destruct F as (? & ? & _ & _ & []). }
  destruct (R s2 Hm2) as (w & L & S); [lia|auto|]. exists ds, w. auto.
Qed.
Print Assumptions lift_then_lower_memory.

Theorem load_then_store : forall cx cy init t u a sz p q s v s' s1 o s2,
  wf_type t -> wf_type u -> subtype t u -> wf_mem (s_mem s) ->
  load cx t p s = (Ok v, s') -> fits (cx_enc cy) u v ->
  correct_allocator cy init -> sp_layout u = Some (a, sz) -> (a | q) ->
  wf_mem (s_mem s1) -> q + sz <= m_len (s_mem s1) ->
  (forall b, within q sz b -> owned init (s_hist s1) b) ->
  store cy u v q s1 = (o, s2) ->
  (o = Ok tt /\ exists w, load cy u q s2 = (Ok w, s2) /\ same_value u v w)
  \/ alloc_failed cy o.
Proof.
  intros. apply (load_after_store cy init u a sz v q s1 o s2); try assumption. apply (loaded_at_supertype cx _ t u p s v s'); assumption.
Qed.
Print Assumptions load_then_store.

(** The case that is lowered is the nearest known one: of the labels of the
    lifted case and the cases it refines, the first that the other type has.
    The other type need not be a supertype. *)
Theorem lowers_nearest_case : forall cx cy cs ds pre i post s v it s' s1 out s2 c ls d j,
  wf_type (TVariant cs) -> wf_type (TVariant ds) -> N.of_nat (List.length ds) < 2 ^ 32 ->
  lift_flat cx (TVariant cs) (IBase (pre ++ CU32 (N.of_nat i) :: post) (List.length pre)) s = (Ok (v, it), s') ->
  nth_error cs i = Some c -> refinement_labels cs c ls ->
  nth_error ds j = Some d -> nearest (map c_label ds) ls (c_label d) ->
  lower_flat cy (TVariant ds) v s1 = (Ok out, s2) ->
  exists rest, out = CU32 (N.of_nat j) :: rest.
Proof.
  intros cx cy cs ds pre i post s v it s' s1 out s2 c ls d j Ht Hu Hlen E Hi Hr Hj Hn El.
  cbn [lift_flat] in E.
  eapply lift_variant_label in E; [|apply (next_u32_at pre (N.of_nat i) post s)].
  destruct E as (key & p & -> & Hk). rewrite Nat2N.id in Hk. apply (full_label_map (lift_flat cx)) in Hk.
  destruct Hk as (c' & ls' & Hi' & Hr' & ->). rewrite Hi in Hi'. injection Hi' as <-.
  rewrite (refinement_fun _ _ _ _ Hr' Hr) in *. destruct Ht as [(_ & Hb & _) _], Hu as [(Hnd & _) _].
  assert (Hsel : selects (map c_label (map (map_case (lower_flat cy)) ds)) (String.concat "|" ls) j).
  { rewrite map_map. eapply nearest_selects; [exact Hn| |rewrite nth_error_map, Hj; reflexivity].
    eapply refinement_bar_free; try eassumption. eapply nth_error_In. exact Hi. }
  cbn [lower_flat] in El. unfold lower_flat_variant in El.
  rewrite (match_case_selects _ _ p j) in El; [|rewrite map_map; exact Hnd|rewrite map_length; exact Hlen|exact Hsel].
  apply bind_inv in El. destruct El as ([i0 p0] & s3 & E3 & El). injection E3 as <- <- <-.
  apply bind_inv in El. destruct El as (ft & s4 & _ & El). destruct ft as [|first rest]; [discriminate|].
  destruct (negb _); [discriminate|]. rewrite Nat2N.id, nth_error_map, Hj in El. cbn [option_map] in El.
  apply bind_inv in El. destruct El as (pl & s5 & _ & El). apply bind_inv in El. destruct El as (x & s6 & _ & El).
  injection El as <- _. eauto.
Qed.
Print Assumptions lowers_nearest_case.

(** A case of which no label is known is refused, without an effect. *)
Theorem unknown_case_refused : forall cx cy cs ds pre i post s v it s' c ls,
  wf_type (TVariant cs) ->
  lift_flat cx (TVariant cs) (IBase (pre ++ CU32 (N.of_nat i) :: post) (List.length pre)) s = (Ok (v, it), s') ->
  nth_error cs i = Some c -> refinement_labels cs c ls ->
  (forall l, In l ls -> ~ In l (map c_label ds)) ->
  (forall s1, exists e, lower_flat cy (TVariant ds) v s1 = (Err e, s1)) /\
  (forall a sz q s1, sp_layout (TVariant ds) = Some (a, sz) -> q + sz < 2 ^ 32 -> wf_mem (s_mem s1) ->
     exists e, store cy (TVariant ds) v q s1 = (Err e, s1)).
Proof.
  intros cx cy cs ds pre i post s v it s' c ls Ht E Hi Hr Hun.
  cbn [lift_flat] in E.
  eapply lift_variant_label in E; [|apply (next_u32_at pre (N.of_nat i) post s)].
  destruct E as (key & p & -> & Hk). rewrite Nat2N.id in Hk. apply (full_label_map (lift_flat cx)) in Hk.
  destruct Hk as (c' & ls' & Hi' & Hr' & ->). rewrite Hi in Hi'. injection Hi' as <-.
  rewrite (refinement_fun _ _ _ _ Hr' Hr) in *. destruct Ht as [(_ & Hb & _) _].
  assert (F : forall {A} (f : valtype -> A), match_case (VMap [(String.concat "|" ls, p)]) (map (map_case f) ds) = Err EOther).
  { intros A f. apply match_case_unknown; [eapply refinement_nonempty; exact Hr| |rewrite map_map; apply Forall_forall; exact Hun].
    eapply refinement_bar_free; try eassumption. eapply nth_error_In. exact Hi. }
  split.
  - intros s1. exists EOther. cbn [lower_flat]. unfold lower_flat_variant. rewrite F. reflexivity.
  - intros a sz q s1 Hl Hq Hm. destruct (sp_layout_facts _ _ _ Hl) as (Ha & Hv & _ & Hsz). cbn [store].
    eapply guarded_refuses with (e := EOther); try eassumption; [apply Hsz; unfold two32; lia|]. unfold store_variant.
    rewrite (F _ (fun t => mkComp (alignment t) (size t) (store cy t))). reflexivity.
Qed.
Print Assumptions unknown_case_refused.

(** A type without handles is a subtype of itself; a record with more fields,
    flags with more labels, and a variant with fewer cases are subtypes. *)
Theorem subtype_refl : forall t, wf_type t -> handle_free t -> subtype t t.
Proof. exact sub_refl. Qed.
Print Assumptions subtype_refl.

Theorem more_fields_subtype : forall before fs after, wf_type (TRecord fs) -> handle_free (TRecord fs) ->
  subtype (TRecord (before ++ fs ++ after)) (TRecord fs).
Proof.
  intros before fs after [_ Hw] Hh. cbn [handle_free] in Hh. apply all_Forall in Hw, Hh. apply sub_record.
  rewrite Forall_forall in *. intros [l t] Hf. exists t. split; [apply in_or_app; right; apply in_or_app; left; exact Hf|].
  apply sub_refl; [apply (Hw _ Hf)|apply (Hh _ Hf)].
Qed.
Print Assumptions more_fields_subtype.

Theorem more_flags_subtype : forall before ls after, subtype (TFlags (before ++ ls ++ after)) (TFlags ls).
Proof. intros. apply sub_flags. intros l H. apply in_or_app. right. apply in_or_app. left. exact H. Qed.
Print Assumptions more_flags_subtype.

Theorem fewer_cases_subtype : forall before cs after, wf_type (TVariant cs) -> handle_free (TVariant cs) ->
  subtype (TVariant cs) (TVariant (before ++ cs ++ after)).
Proof.
  intros before cs after [_ Hw] Hh. cbn [handle_free] in Hh. apply all_Forall in Hw, Hh. apply sub_variant.
  intros c ls Hin Hr.
  assert (Hin' : In c (before ++ cs ++ after)) by (apply in_or_app; right; apply in_or_app; left; exact Hin).
  exists c. split; [exact Hin'|]. split.
  - assert (Y : exists rest, ls = c_label c :: rest) by (inversion Hr; eauto). destruct Y as [rest ->].
    exists [], rest. split; [reflexivity|]. split; [constructor|]. apply in_map. exact Hin'.
  - rewrite Forall_forall in *. specialize (Hw c Hin). specialize (Hh c Hin). cbn beta in *.
    destruct (c_type c); constructor. apply sub_refl; assumption.
Qed.
Print Assumptions fewer_cases_subtype.

(** The hypotheses can be met: of a record, a text and some flags are left out
    and a case is taken for the one it refines in two steps. *)
Definition many_cases : list (caseOf valtype) :=
  [mkCase "w" (Some TU8) None; mkCase "x" (Some TU8) (Some "w"); mkCase "z" (Some TU8) (Some "x")]%string.
Definition few_cases : list (caseOf valtype) := [mkCase "o" None None; mkCase "w" (Some TU8) None]%string.
Definition wide : valtype :=
  TRecord [("id", TU32); ("case", TVariant many_cases); ("perm", TFlags ["r"; "w"; "x"]); ("note", TString)]%string.
Definition narrow : valtype := TRecord [("perm", TFlags ["x"]); ("case", TVariant few_cases)]%string.
Definition noted : valtype := TRecord [("note", TString); ("perm", TFlags ["x"; "r"])]%string.
Definition hi_state : state := mkState (mkMem ([7; 0; 0; 0; 2; 42; 5; 0; 16; 0; 0; 0; 2; 0; 0; 0; 0x68; 0x69] ++ repeat 0 110) 128) [] demo_world.
Definition wide_value : any :=
  VMap [("id", VU32 7); ("case", VMap [("z|x|w", VU8 42)]);
        ("perm", VMap [("r", VBool true); ("w", VBool false); ("x", VBool true)]); ("note", VStr [0x68; 0x69])]%string.

Lemma many_wf : wf_type (TVariant many_cases).
Proof.
  split; [|cbn; tauto]. split; [|split].
  - repeat constructor; cbn; intuition discriminate.
  - repeat constructor; cbn; intuition discriminate.
  - assert (R1 : refines_end many_cases (mkCase "w"%string (Some TU8) None)) by (apply re_stop; reflexivity).
    assert (R2 : refines_end many_cases (mkCase "x"%string (Some TU8) (Some "w"%string))) by (eapply re_step; [reflexivity|exact R1]).
    apply Forall_cons; [exact R1|]. apply Forall_cons; [exact R2|]. apply Forall_cons; [|apply Forall_nil].
    eapply re_step; [reflexivity|exact R2].
Qed.
Lemma few_wf : wf_type (TVariant few_cases).
Proof.
  split; [|cbn; tauto]. split; [|split].
  - repeat constructor; cbn; intuition discriminate.
  - repeat constructor; cbn; intuition discriminate.
  - repeat (apply Forall_cons; [apply re_stop; reflexivity|]). apply Forall_nil.
Qed.
Lemma wide_wf : wf_type wide.
Proof.
  cbn [wf_type wide map fst snd]. split; [repeat constructor; cbn; intuition discriminate|].
  cbn [all fold_right]. split; [exact I|]. split; [exact many_wf|]. split; [|split; exact I].
  split; [repeat constructor; cbn; intuition discriminate|cbn; lia].
Qed.
Lemma narrow_wf : wf_type narrow.
Proof.
  cbn [wf_type narrow map fst snd]. split; [repeat constructor; cbn; intuition discriminate|].
  cbn [all fold_right]. split; [|split; [exact few_wf|exact I]].
  split; [repeat constructor; cbn; intuition discriminate|cbn; lia].
Qed.
Lemma noted_wf : wf_type noted.
Proof.
  cbn [wf_type noted map fst snd]. split; [repeat constructor; cbn; intuition discriminate|].
  cbn [all fold_right]. split; [exact I|]. split; [|exact I].
  split; [repeat constructor; cbn; intuition discriminate|cbn; lia].
Qed.

Lemma z_labels : refinement_labels many_cases (mkCase "z" (Some TU8) (Some "x"))%string ["z"; "x"; "w"]%string.
Proof. eapply rl_step; [reflexivity|]. eapply rl_step; [reflexivity|]. apply (rl_stop many_cases (mkCase "w" (Some TU8) None)%string). reflexivity. Qed.
Lemma x_labels : refinement_labels many_cases (mkCase "x" (Some TU8) (Some "w"))%string ["x"; "w"]%string.
Proof. eapply rl_step; [reflexivity|]. apply (rl_stop many_cases (mkCase "w" (Some TU8) None)%string). reflexivity. Qed.
Lemma w_labels : refinement_labels many_cases (mkCase "w" (Some TU8) None)%string ["w"]%string.
Proof. apply (rl_stop many_cases (mkCase "w" (Some TU8) None)%string). reflexivity. Qed.
Lemma w_nearest : forall before, Forall (fun x => x = "x" \/ x = "z")%string before ->
  nearest (map c_label few_cases) (before ++ ["w"]%string) "w".
Proof.
  intros before H. exists before, []. split; [reflexivity|]. split; [|cbn; tauto].
  eapply Forall_impl; [|exact H]. cbn. intros a [-> | ->]; intuition discriminate.
Qed.

Lemma cases_subtype : subtype (TVariant many_cases) (TVariant few_cases).
Proof.
  apply sub_variant. intros c ls Hc Hr. exists (mkCase "w" (Some TU8) None)%string. split; [cbn; tauto|].
  cbn [In many_cases] in Hc.
  destruct Hc as [<-|[<-|[<-|[]]]]; (split; [|cbn; constructor; apply sub_basic; unfold basic; cbn; tauto]).
  - rewrite (refinement_fun _ _ _ _ Hr w_labels). apply (w_nearest []). constructor.
  - rewrite (refinement_fun _ _ _ _ Hr x_labels). apply (w_nearest ["x"]%string). repeat constructor.
  - rewrite (refinement_fun _ _ _ _ Hr z_labels). apply (w_nearest ["z"; "x"]%string). constructor; [tauto|]. repeat constructor.
Qed.
Lemma wide_narrow : subtype wide narrow.
Proof.
  apply sub_record. apply Forall_cons; [|apply Forall_cons; [|apply Forall_nil]]; cbn [fst snd].
  - exists (TFlags ["r"; "w"; "x"]%string). split; [cbn; tauto|]. apply sub_flags. intros l [<-|[]]. cbn; tauto.
  - exists (TVariant many_cases). split; [cbn; tauto|exact cases_subtype].
Qed.
Lemma wide_noted : subtype wide noted.
Proof.
  apply sub_record. apply Forall_cons; [|apply Forall_cons; [|apply Forall_nil]]; cbn [fst snd].
  - exists TString. split; [cbn; tauto|]. apply sub_basic. unfold basic. cbn. tauto.
  - exists (TFlags ["r"; "w"; "x"]%string). split; [cbn; tauto|]. apply sub_flags. intros l [<-|[<-|[]]]; cbn; tauto.
Qed.

Example lift_then_lower_applies :
  wf_type wide /\ wf_type narrow /\ subtype wide narrow /\ memory_free narrow /\ flattens narrow [KU32; KU32; KU32] /\
  wf_mem (s_mem hi_state) /\
  lift_flat (bump_ctx EncUtf8) wide (IBase [CU32 7; CU32 2; CU32 42; CU32 5; CU32 16; CU32 2] 0) hi_state =
    (Ok (wide_value, IBase [CU32 7; CU32 2; CU32 42; CU32 5; CU32 16; CU32 2] 6), hi_state) /\
  lower_flat (bump_ctx EncUtf8) narrow wide_value hi_state = (Ok [CU32 1; CU32 1; CU32 42], hi_state) /\
  fst (lift_flat (bump_ctx EncUtf8) narrow (IBase [CU32 1; CU32 1; CU32 42] 0) hi_state) =
    Ok (VMap [("perm", VMap [("x", VBool true)]); ("case", VMap [("w", VU8 42)])]%string, IBase [CU32 1; CU32 1; CU32 42] 3).
Proof.
  split; [exact wide_wf|]. split; [exact narrow_wf|]. split; [exact wide_narrow|]. split; [cbn; tauto|].
  split; [apply flatten_type_as_specified; reflexivity|]. split; [split; [reflexivity|split; [reflexivity|repeat constructor]]|].
  repeat split; vm_compute; reflexivity.
Qed.

Lemma hi_fits : fits EncUtf8 noted wide_value.
Proof.
  cbn [fits noted map fst snd]. intros m E. injection E as <-. apply Forall_cons; [|apply Forall_cons; [|apply Forall_nil]]; cbn [fst snd].
  - intros x E s ->. injection E as <-. exists [0x68; 0x69]. split; [repeat constructor; unfold scalar_value; lia|].
    split; [reflexivity|]. split; [reflexivity|exact I].
  - intros x _. exact I.
Qed.

Example load_then_store_applies :
  wf_type noted /\ subtype wide noted /\ fits EncUtf8 noted wide_value /\ sp_layout noted = Some (4, 12) /\
  load (bump_ctx EncUtf8) wide 0 hi_state = (Ok wide_value, hi_state) /\
  fst (store (bump_ctx EncUtf8) noted wide_value 32 hi_state) = Ok tt /\
  fst (load (bump_ctx EncUtf8) noted 32 (snd (store (bump_ctx EncUtf8) noted wide_value 32 hi_state))) =
    Ok (VMap [("note", VStr [0x68; 0x69]); ("perm", VMap [("x", VBool true); ("r", VBool true)])]%string).
Proof.
  split; [exact noted_wf|]. split; [exact wide_noted|]. split; [exact hi_fits|].
  repeat split; vm_compute; reflexivity.
Qed.

Example nearest_case_applies :
  refinement_labels many_cases (mkCase "z" (Some TU8) (Some "x"))%string ["z"; "x"; "w"]%string /\
  nearest (map c_label few_cases) ["z"; "x"; "w"]%string "w" /\
  fst (lift_flat (bump_ctx EncUtf8) (TVariant many_cases) (IBase [CU32 2; CU32 42] 0) hi_state) =
    Ok (VMap [("z|x|w", VU8 42)]%string, IBase [CU32 2; CU32 42] 2) /\
  fst (lower_flat (bump_ctx EncUtf8) (TVariant few_cases) (VMap [("z|x|w", VU8 42)]%string) hi_state) = Ok [CU32 1; CU32 42] /\
  (forall l, In l ["z"; "x"; "w"]%string -> ~ In l (map c_label [mkCase "o" (@None valtype) None]%string)) /\
  lower_flat (bump_ctx EncUtf8) (TVariant [mkCase "o" None None]%string) (VMap [("z|x|w", VU8 42)]%string) hi_state = (Err EOther, hi_state).
Proof.
  split; [exact z_labels|]. split; [apply (w_nearest ["z"; "x"]%string); constructor; [tauto|]; repeat constructor|].
  split; [vm_compute; reflexivity|]. split; [vm_compute; reflexivity|]. split; [|vm_compute; reflexivity].
  cbn. intuition (subst; discriminate).
Qed.

(** A payload that was lifted can get lost: lowering at a variant whose case
    has none succeeds and drops it. *)
Theorem payload_kept_refuted :
  ~ (forall cx cs ds vals key p it s out s' key' p' it',
       wf_type (TVariant cs) -> wf_type (TVariant ds) ->
       lift_flat cx (TVariant cs) (IBase vals 0) s = (Ok (VMap [(key, p)], it), s) -> p <> VNil ->
       lower_flat cx (TVariant ds) (VMap [(key, p)]) s = (Ok out, s') ->
       lift_flat cx (TVariant ds) (IBase out 0) s' = (Ok (VMap [(key', p')], it'), s') -> p' <> VNil).
Proof.
  intros H.
  refine (H (bump_ctx EncUtf8) [mkCase "w" (Some TU8) None] [mkCase "w" None None]
    [CU32 0; CU32 42] "w"%string (VU8 42) _ hi_state [CU32 0] _ "w"%string VNil _
    _ _ eq_refl _ eq_refl eq_refl eq_refl).
  1,2: split; [|cbn; tauto]; split; [repeat constructor; cbn; intuition discriminate|]; split;
    [repeat constructor; cbn; intuition discriminate|apply Forall_cons; [apply re_stop; reflexivity|apply Forall_nil]].
  discriminate.
Qed.
Print Assumptions payload_kept_refuted.
