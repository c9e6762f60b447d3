(** Property theorems about wrong core values (C82). *)
From Coq Require Import NArith ZArith Arith String Bool Lia ZifyBool ZifyNat ZifyN List.
From Verif Require Import GoBase M_Types M_Layout S_Layout L_Layout M_State M_Utf M_Load M_Store M_Flat M_Canon
  S_Values S_Flat S_Format S_FlatFormat S_Inside S_Looks S_Blame S_NextCore L_Frame L_RoundTrip L_StoreLoad L_Flat L_FlatFormat L_Looks L_Access L_Mem L_Canon L_NextCore P_Flat.
Import ListNotations.
Open Scope N_scope.
Open Scope go_scope.

(** ** C82 *)

Lemma ahead_base : forall cs pre1 post1 pre2 post2,
  ahead (List.length cs) (IBase (pre1 ++ cs ++ post1) (List.length pre1)) (IBase (pre2 ++ cs ++ post2) (List.length pre2)).
Proof.
  intros cs pre1 post1 pre2 post2 j Hj. destruct (nth_error cs j) as [c|] eqn:E.
  - exists c. assert (X : forall pre post, nth_error (pre ++ cs ++ post) (List.length pre + j) = Some c); [|split; apply X].
    intros pre post. rewrite nth_error_app2 by lia. replace (List.length pre + j - List.length pre)%nat with j by lia.
    rewrite nth_error_app1 by exact Hj. exact E.
  - apply nth_error_None in E. lia.
Qed.

(** Lifting looks at as many core values as the type flattens to and at no
    others, whatever they are and whatever comes of it. Between other core
    values the same ones are lifted to the same value or fail alike, and
    leave the same state. *)
Theorem lift_looks_no_further : forall cx t ks pre1 post1 pre2 post2 cs s,
  flattens t ks -> List.length cs = List.length ks ->
  let at1 := lift_flat cx t (IBase (pre1 ++ cs ++ post1) (List.length pre1)) s in
  let at2 := lift_flat cx t (IBase (pre2 ++ cs ++ post2) (List.length pre2)) s in
  snd at1 = snd at2 /\
  ((exists v, fst at1 = Ok (v, IBase (pre1 ++ cs ++ post1) (List.length pre1 + List.length cs)) /\
              fst at2 = Ok (v, IBase (pre2 ++ cs ++ post2) (List.length pre2 + List.length cs))) \/
   same_failure (fst at1) (fst at2)).
Proof.
  intros cx t ks pre1 post1 pre2 post2 cs s Hk Hl at1 at2. pose proof (flatten_complete _ _ Hk) as Hf.
  destruct (ahead_all cx t False ks 0%nat (IBase (pre1 ++ cs ++ post1) (List.length pre1)) (IBase (pre2 ++ cs ++ post2) (List.length pre2)) s Hf) as (s' & X).
  { contradiction. }
  { rewrite <- Hl, Nat.add_0_r. apply ahead_base. }
  fold at1 at2 in X. destruct X as [([v i1] & [v' i2] & E1 & E2 & Ev & _)|[(e & E1 & E2)|[(_ & E1 & E2)|(_ & E1 & E2)]]].
  - cbn [fst] in Ev. subst v'. pose proof E1 as F1. pose proof E2 as F2.
    apply lift_flat_consumes in E1. apply lift_flat_consumes in E2. destruct E1 as (k1 & K1 & -> & _), E2 as (k2 & K2 & -> & _).
    apply flatten_complete in K1. apply flatten_complete in K2. rewrite Hf in K1, K2. injection K1 as <-. injection K2 as <-. rewrite <- Hl in F1, F2.
    rewrite F1, F2. split; [reflexivity|]. left. exists v. split; reflexivity.
  - rewrite E1, E2. split; [reflexivity|]. right. reflexivity.
  - rewrite E1, E2. split; [reflexivity|]. right. exact I.
  - rewrite E1, E2. split; [reflexivity|]. right. exact I.
Qed.
Print Assumptions lift_looks_no_further.

(** If one of these has another type than the flattened one, or there are
    fewer, no value is returned. *)
Theorem wrong_core_values_refused : forall cx t ks vals i s v it,
  flattens t ks -> kinds (firstn (List.length ks) (skipn i vals)) <> ks ->
  fst (lift_flat cx t (IBase vals i) s) <> Ok (v, it).
Proof.
  intros cx t ks vals i s v it Hk Hn E. destruct (lift_flat cx t (IBase vals i) s) as [o s'] eqn:El. cbn [fst] in E. subst o.
  destruct (lift_flat_consumes _ _ _ _ _ _ _ _ El) as (k1 & K1 & _ & E). apply flatten_complete in K1, Hk. rewrite Hk in K1. injection K1 as <-.
  exact (Hn E).
Qed.
Print Assumptions wrong_core_values_refused.

(** If there are enough, of whatever types, a value without texts and lists is
    lifted or refused with an error. *)
Theorem core_values_refused_with_error : forall cx t ks vals i s,
  flattens t ks -> wf_type t -> inline t -> (i + List.length ks <= List.length vals)%nat ->
  returned (fst (lift_flat cx t (IBase vals i) s)) /\
  (kinds (firstn (List.length ks) (skipn i vals)) <> ks -> exists e, fst (lift_flat cx t (IBase vals i) s) = Err e).
Proof.
  intros cx t ks vals i s Hk Hwf Hi Hl. pose proof (flatten_complete _ _ Hk) as Hf.
  assert (R : returned (fst (lift_flat cx t (IBase vals i) s))).
  { destruct (ahead_all cx t True ks 0%nat (IBase vals i) (IBase vals i) s Hf) as (s' & X).
    - auto.
    - intros j Hj. destruct (nth_error vals (i + j)) as [c|] eqn:E; [eauto|]. apply nth_error_None in E. lia.
    - destruct X as [(a & b & E1 & _)|[(e & E1 & E2)|[(N & _)|(N & _)]]]; [| |tauto|tauto]; rewrite E1; split; discriminate. }
  split; [exact R|]. intros Hn. destruct (fst (lift_flat cx t (IBase vals i) s)) as [[v it]|e| |] eqn:E.
  - exfalso. exact (wrong_core_values_refused _ _ _ _ _ _ _ _ Hk Hn E).
  - eauto.
  - destruct R; congruence.
  - destruct R; congruence.
Qed.
Print Assumptions core_values_refused_with_error.

(** Too few are not always refused with an error: the host crashes. *)
Theorem too_few_refused_refuted : exists t ks vals,
  flattens t ks /\ wf_type t /\ inline t /\ (List.length vals < List.length ks)%nat /\
  forall cx s, fst (lift_flat cx t (IBase vals 0) s) = Panic.
Proof.
  exists (TTuple [TU32; TU64]), [KU32; KU64], [CU32 7]. split; [apply flatten_type_as_specified; reflexivity|].
  split; [cbn; auto|]. split; [cbn; auto|]. split; [cbn; lia|]. reflexivity.
Qed.
Print Assumptions too_few_refused_refuted.

(** The hypotheses can be met, by core values that are right, by ones of the
    wrong type and by one that names no case. *)
Definition wrong_type : valtype := TRecord [("v", TVariant [mkCase "x" (Some TF32) None; mkCase "y" None None]); ("n", TU64)]%string.
Example wrong_core_values : flattens wrong_type [KU32; KF32; KU64] /\ wf_type wrong_type /\ inline wrong_type /\
  (forall cx s, 
    fst (lift_flat cx wrong_type (IBase [CU64 3; CU32 1; CF32 0; CU64 5; CU32 9] 1) s) =
      Ok (VMap [("v", VMap [("y", VNil)]); ("n", VU64 5)]%string, IBase [CU64 3; CU32 1; CF32 0; CU64 5; CU32 9] 4) /\
    fst (lift_flat cx wrong_type (IBase [CU64 3; CU32 1; CU32 0; CU64 5; CU32 9] 1) s) = Err EOther /\
    fst (lift_flat cx wrong_type (IBase [CU64 3; CU32 2; CF32 0; CU64 5; CU32 9] 1) s) = Err ETrap).
Proof.
  split; [apply flatten_type_as_specified; reflexivity|]. split.
  { cbn [wf_type wrong_type map fst snd]. split; [repeat constructor; cbn; intuition discriminate|].
    cbn [all fold_right]. split; [|split; exact I].
    split; [|repeat split]. split; [|split].
    - cbn. constructor; [cbn; intuition discriminate|]. constructor; [cbn; tauto|constructor].
    - repeat constructor; discriminate.
    - repeat (constructor; try (apply re_stop; reflexivity)). }
  split; [cbn; auto|]. intros cx s. repeat split.
Qed.

Lemma as_core_inv : forall vs cs, as_core vs = Ok cs -> vs = map VCore cs.
Proof.
  induction vs as [|v vs IH]; intros cs E; cbn [as_core] in E; [injection E as <-; reflexivity|].
  destruct v; try discriminate. destruct (as_core vs) as [r| | |] eqn:Er; try discriminate. cbn [obind] in E. injection E as <-.
  cbn [map]. f_equal. auto.
Qed.

Lemma skip_twice : forall {A} (l : list A) a b, skipn a (skipn b l) = skipn (b + a) l.
Proof. intros A l a b. revert l. induction b as [|b IH]; intros [|x l]; try reflexivity; [rewrite !skipn_nil; reflexivity|apply IH]. Qed.

Lemma lift_each_consumes : forall cx ts vals i s vs it s', lift_each (map (lift_flat cx) ts) (IBase vals i) s = (Ok (vs, it), s') ->
  exists kss, Forall2 flattens ts kss /\ it = IBase vals (i + List.length (List.concat kss)) /\
    kinds (firstn (List.length (List.concat kss)) (skipn i vals)) = List.concat kss.
Proof.
  intros cx ts. induction ts as [|t ts IH]; intros vals i s vs it s' E; cbn [map lift_each] in E.
  - injection E as <- <- <-. exists []. split; [constructor|]. cbn. rewrite Nat.add_0_r. auto.
  - apply bind_inv in E. destruct E as ([v i1] & s1 & E1 & E). apply bind_inv in E. destruct E as ([vs' i2] & s2 & E2 & E).
    injection E as <- <- <-. apply lift_flat_consumes in E1. destruct E1 as (ks & K & -> & H1).
    destruct (IH _ _ _ _ _ _ E2) as (kss & F & -> & H2). exists (ks :: kss). split; [constructor; assumption|]. cbn [List.concat].
    rewrite app_length. split; [f_equal; lia|]. 
    rewrite <- (firstn_skipn (List.length ks) (skipn i vals)) at 1.
    assert (L : List.length (firstn (List.length ks) (skipn i vals)) = List.length ks) by (rewrite <- H1 at 2; unfold kinds; rewrite map_length; reflexivity).
    rewrite firstn_app. rewrite L. replace (List.length ks + List.length (List.concat kss) - List.length ks)%nat with (List.length (List.concat kss)) by lia.
    rewrite (firstn_all2 (n := (List.length ks + List.length (List.concat kss))%nat)) by lia.
    unfold kinds in *. rewrite map_app. rewrite H1. f_equal. rewrite skip_twice. exact H2.
Qed.

Lemma flattens_all : forall ts kss, Forall2 flattens ts kss -> flatten_types ts = Ok (List.concat kss).
Proof.
  intros ts kss H. unfold flatten_types. rewrite <- flatten_record_ok. f_equal.
  induction H as [|t ks ts kss H _ IH]; [reflexivity|]. cbn [map]. f_equal; [apply flatten_complete; exact H|exact IH].
Qed.

Lemma begins_firstn : forall ks cs, kinds (firstn (List.length ks) cs) = ks -> begins ks (map VCore cs).
Proof. intros ks cs H. exists (firstn (List.length ks) cs), (skipn (List.length ks) cs). rewrite firstn_skipn. auto. Qed.

Lemma lift_values_begins : forall order cx maxf ts kss ks cs s vs it s', Forall2 flattens ts kss -> to_arrive maxf kss ks ->
  lift_values order cx maxf ts (IBase cs 0) s = (Ok (vs, it), s') -> begins ks (map VCore cs).
Proof.
  intros order cx maxf ts kss ks cs s vs it s' F T E. unfold lift_values in E. rewrite (flattens_all _ _ F), bind_lift_ok in E.
  destruct T as [[L ->]|[L ->]].
  - apply Nat.leb_le in L. rewrite L in E. apply lift_each_consumes in E. destruct E as (kss' & F' & _ & H). 
    apply flattens_all in F, F'. rewrite F in F'. injection F' as F'. rewrite <- F' in H. apply begins_firstn. exact H.
  - assert (L' : Nat.leb (List.length (List.concat kss)) maxf = false) by (apply Nat.leb_gt; exact L). rewrite L' in E.
    apply bind_inv in E. destruct E as ([p i1] & s1 & E1 & _). apply next_u32_inv in E1.
    destruct i1 as [v1 i1|]; [|contradiction]. destruct E1 as (-> & -> & A). destruct (A 0%nat KU32 eq_refl) as (c & Hc & Ek).
    destruct cs as [|c0 cs]; [discriminate|]. injection Hc as ->. exists [c], cs. split; [reflexivity|]. cbn. rewrite Ek. reflexivity.
Qed.

(** A lowered call whose core arguments do not begin with core values of the
    types that have to arrive fails, and the host function is not run. *)
Theorem lowered_call_wrong_arguments : forall order opts inst host host' imp ft kss ks args maxp maxr s,
  Forall2 flattens (param_types ft) kss -> to_arrive maxp kss ks -> ~ begins ks args ->
  let call h := canon_lower order opts inst h imp ft args maxp maxr s in
  call host = call host' /\ forall rs, fst (call host) <> Ok rs.
Proof.
  intros order opts inst host host' imp ft kss ks args maxp maxr s F T Hn call. 
  assert (X : exists o s', (forall rs, o <> Ok rs) /\ forall h, call h = (o, s')).
  { unfold call, canon_lower. unfold new_call. cbn [bind get_world put_world ret].
    set (s0 := mkState _ _ _). set (w0 := s_world s0).
    destruct (negb (i_may_leave (inst_at w0 inst))); [exists (Err ETrap), s0; split; [discriminate|reflexivity]|].
    destruct (negb (i_may_enter (inst_at w0 inst))); [exists (Err EOther), s0; split; [discriminate|reflexivity]|].
    destruct (as_core args) as [cs|e| |] eqn:Ea; cbn [lift_o bind].
    - apply as_core_inv in Ea. subst args.
      destruct (lift_values order (mkCtx (List.length (w_calls (s_world s))) inst (o_enc opts) (o_realloc opts)) maxp (param_types ft) (IBase cs 0) s0) as [o s1] eqn:El. destruct o as [[vs it]|e| |].
      + exfalso. apply Hn. eapply lift_values_begins; eassumption.
      + exists (Err e), s1. split; [discriminate|]. intros h. unfold bind at 1. rewrite El. reflexivity.
      + exists Panic, s1. split; [discriminate|]. intros h. unfold bind at 1. rewrite El. reflexivity.
      + exists Diverge, s1. split; [discriminate|]. intros h. unfold bind at 1. rewrite El. reflexivity.
    - exists (Err e), s0. split; [discriminate|reflexivity].
    - exists Panic, s0. split; [discriminate|reflexivity].
    - exists Diverge, s0. split; [discriminate|reflexivity]. }
  destruct X as (o & s' & Ho & E). rewrite !E. split; [reflexivity|exact Ho].
Qed.
Print Assumptions lowered_call_wrong_arguments.

(** A lifted call returns values only if the core function was run and gave
    back core values that begin with ones of the types that have to arrive. *)
Theorem lifted_call_right_results : forall order opts inst core ft kss ks args maxp maxr s rs post s',
  Forall2 flattens (result_types ft) kss -> to_arrive maxr kss ks ->
  canon_lift order opts inst core ft args maxp maxr s = (Ok (rs, post), s') ->
  exists given s1 back s2, core given s1 = (Ok (VList back), s2) /\ begins ks back.
Proof.
  intros order opts inst core ft kss ks args maxp maxr s rs post s' F T E. unfold canon_lift in E.
  apply bind_inv in E. destruct E as (w & s1 & _ & E). destruct (negb _); [discriminate|]. destruct (negb _); [discriminate|].
  apply bind_inv in E. destruct E as (cx & s2 & _ & E). apply bind_inv in E. destruct E as (u & s3 & _ & E).
  apply bind_inv in E. destruct E as (flat & s4 & _ & E). apply bind_inv in E. destruct E as (u' & s5 & _ & E).
  apply bind_inv in E. destruct E as (res & s6 & Ec & E). destruct res; try discriminate. rename l into back.
  apply bind_inv in E. destruct E as (cvs & s7 & Ea & E). injection Ea as Ea _. apply as_core_inv in Ea. subst back.
  apply bind_inv in E. destruct E as ([l it] & s8 & El & _).
  exists flat, s5, (map VCore cvs), s6. split; [exact Ec|]. eapply lift_values_begins; eassumption.
Qed.
Print Assumptions lifted_call_right_results.

(** The hypotheses of both can be met: by arguments of the right number but the
    wrong types, and by a core function whose result has the right type. *)
Definition wrong_ft : functype := mkFuncType [("a", TU32); ("b", TF32)]%string [("r", TU8)]%string.
Example wrong_arguments_applies : Forall2 flattens (param_types wrong_ft) [[KU32]; [KF32]] /\
  to_arrive 16 [[KU32]; [KF32]] [KU32; KF32] /\ to_arrive 1 [[KU32]; [KF32]] [KU32] /\
  ~ begins [KU32; KF32] [VCore (CU32 1); VCore (CU64 2)] /\ ~ begins [KU32; KF32] [VCore (CU32 1)] /\ ~ begins [KU32] [VU32 1] /\
  begins [KU32; KF32] [VCore (CU32 1); VCore (CF32 0); VCore (CU32 9)].
Proof.
  split; [apply Forall2_cons; [|apply Forall2_cons; [|apply Forall2_nil]]; apply flatten_type_as_specified; reflexivity|].
  split; [left; cbn; split; [lia|reflexivity]|]. split; [right; cbn; split; [lia|reflexivity]|].
  assert (X : forall k1 k2 vs, begins [k1; k2] vs -> exists c1 c2 rest, vs = VCore c1 :: VCore c2 :: rest /\ cval_kind c1 = k1 /\ cval_kind c2 = k2).
  { intros k1 k2 vs (cs & rest & -> & E). destruct cs as [|c1 [|c2 [|]]]; try discriminate. injection E as E1 E2. exists c1, c2, (map VCore rest). auto. }
  split; [|split; [|split]].
  - intros H. apply X in H. destruct H as (c1 & c2 & rest & E & _ & K). injection E as _ <- _. discriminate.
  - intros H. apply X in H. destruct H as (c1 & c2 & rest & E & _). discriminate.
  - intros (cs & rest & E & K). destruct cs as [|c [|]]; try discriminate.
  - exists [CU32 1; CF32 0], [CU32 9]. split; reflexivity.
Qed.

Definition wrong_state : state := mkState (mkMem [] 0) [] (mkWorld [] [] [mkInst true true []] []).
Example right_results_applies : forall order opts,
  match canon_lift order opts 0 (fun _ => ret (VList [VCore (CU32 300); VCore (CF64 1)])) wrong_ft [VU32 1; VF32 0] 16 1 wrong_state with
  | (Ok (rs, _), _) => rs = [VU8 44]
  | _ => False
  end.
Proof. intros order opts. vm_compute. reflexivity. Qed.
