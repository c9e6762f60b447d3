(** What whole calls do to resource handles (C65). The histories and the
    operations are those of S_Handles.v; [orderly], [handles_in] and the rest
    are in S_HandleCalls.v. *)
From Coq Require Import NArith ZArith List String Bool Arith Lia ZifyBool ZifyNat ZifyN.
From Verif Require Import GoBase M_Types M_Layout M_State M_Flat M_Canon S_Flat S_Canon L_Access L_Flat L_Canon S_Handles L_Handles S_Linked S_HandleCalls L_HandleCalls P_Handles.
Import ListNotations.
Open Scope N_scope.
Open Scope go_scope.

(** ** Whole calls are made of the operations of C24 to C28 *)

(** The three exported handle functions. *)
Theorem resource_functions_orderly : forall insts inst rt, (inst < insts)%nat ->
  (forall rep, orderly insts (canon_resource_new inst rt rep)) /\
  (forall i, orderly insts (canon_resource_rep inst rt i)) /\
  (forall i, orderly insts (canon_resource_drop inst rt i)).
Proof.
  intros insts inst rt Hi. split; [|split]; intros x ops rs s calls o s' H E.
  - exact (closes_run insts calls (OpNew inst rt x) s ops rs calls o s' s' H Hi E eq_refl (incl_refl _)).
  - exact (closes_run insts calls (OpRep inst rt x) s ops rs calls o s' s' H Hi E eq_refl (incl_refl _)).
  - assert (R : run (OpDrop inst rt x) s = (match o with Ok _ => Ok 0 | Err e => Err e | Panic => Panic | Diverge => Diverge end, s')).
    { cbn [run]. unfold bind. rewrite E. destruct o; reflexivity. }
    exact (closes_run insts calls (OpDrop inst rt x) s ops rs calls _ s' s' H Hi R eq_refl (incl_refl _)).
Qed.

(** One orderly step after another is orderly. *)
Theorem orderly_then : forall insts A B (m : M A) (f : A -> M B),
  orderly insts m -> (forall x, orderly insts (f x)) -> orderly insts (bind m f).
Proof.
  intros insts A B m f Hm Hf. apply orderly_closes. intros base.
  apply closes_bind with (mid := base); [apply closes_orderly; exact Hm|apply incl_refl|intros x; apply closes_orderly; apply Hf].
Qed.

(** Dropping a handle whose destructor is orderly: it may drop further
    handles and make calls. *)
Theorem drop_with_orderly : forall insts inst rt dtor, (inst < insts)%nat -> (forall rep, orderly insts (dtor rep)) ->
  forall i, orderly insts (canon_resource_drop_with dtor inst rt i).
Proof.
  intros insts inst rt dtor Hi Hd i ops rs s calls o s' H E.
  pose proof (proj2 (proj2 (resource_functions_orderly insts inst rt Hi)) i) as Ho.
  destruct (canon_resource_drop inst rt i s) as [r s1] eqn:E1. destruct (drop_runs_destructor dtor inst rt i s r s1 E1) as [D1 D2].
  destruct (drop_dtors inst rt i s) as [X|(t & rep & X)]; rewrite E1 in X; cbn [snd] in X.
  - rewrite (D1 X) in E. injection E as <- <-. eapply Ho; eassumption.
  - destruct (D2 _ _ X) as (-> & _ & D). rewrite D in E.
    apply (orderly_then insts _ _ (canon_resource_drop inst rt i) (fun _ => dtor rep) Ho (fun _ => Hd rep) ops rs s calls o s' H).
    unfold bind. rewrite E1. exact E.
Qed.

(** CanonLift, and the post-return step it gives back, when Realloc, the core
    function and the post-return function are orderly. *)
Theorem lifted_call_orderly : forall insts order opts inst core ft args maxp maxr, (inst < insts)%nat -> orderly_allocator insts (o_realloc opts) ->
  (forall vs, orderly insts (core vs)) -> (forall f, o_post_return opts = Some f -> orderly insts f) ->
  orderly_call insts (fun r => Some (snd r)) (canon_lift order opts inst core ft args maxp maxr).
Proof. intros. apply lifted_orderly; assumption. Qed.

(** CanonLower, when Realloc, the component function and its post-return step
    are. *)
Theorem lowered_call_orderly : forall insts order opts inst callee ci ft args maxp maxr, (inst < insts)%nat -> orderly_allocator insts (o_realloc opts) ->
  (forall vs, orderly_call insts snd (callee vs)) ->
  orderly insts (canon_lower order opts inst callee ci ft args maxp maxr).
Proof. intros. apply lowered_orderly; assumption. Qed.

(** A call from one component to another, when both Reallocs and the core
    function called are. *)
Theorem component_call_orderly : forall insts order opts inst ci order' opts' inst' core ft m h args maxp maxr maxp' maxr',
  (inst < insts)%nat -> (inst' < insts)%nat -> orderly_allocator insts (o_realloc opts) -> orderly_allocator insts (o_realloc opts') ->
  (forall vs, orderly insts (core vs)) -> (forall f, o_post_return opts' = Some f -> orderly insts f) ->
  orderly insts (canon_lower order opts inst (linked order' opts' inst' core ft maxp' maxr' m h) ci ft args maxp maxr).
Proof. intros. apply lowered_orderly; [assumption|assumption|]. apply linked_orderly; assumption. Qed.

(** ** Owned and borrowed parameters *)

(** An owned handle among the flat arguments: it was there, its representation
    is what the callee gets, and it is there no longer. *)
Theorem own_argument_taken : forall insts ops rs s calls order cx maxf ts1 rt ts2 kss1 kss2 cs i vs it s',
  history insts ops rs s calls -> N.of_nat (made ops) < 2 ^ 32 -> (cx_inst cx < insts)%nat -> In (cx_id cx) calls ->
  Forall2 flattens ts1 kss1 -> Forall2 flattens ts2 kss2 ->
  (List.length (List.concat (kss1 ++ [KU32] :: kss2)) <= maxf)%nat ->
  nth_error cs (List.length (List.concat kss1)) = Some (CU32 i) ->
  lift_values order cx maxf (ts1 ++ TOwn rt :: ts2) (IBase cs 0) s = (Ok (vs, it), s') ->
  exists rep, nth_error vs (List.length ts1) = Some (VU32 rep) /\
    found s (cx_inst cx) rt i = Ok rep /\ found s' (cx_inst cx) rt i = Err ETrap.
Proof.
  intros insts ops rs s calls order cx maxf ts1 rt ts2 kss1 kss2 cs i vs it s' H Hn Hi Hc F1 F2 Hl Hcs E.
  assert (Ft : flattens (TOwn rt) [KU32]) by (apply flatten_as_specified; reflexivity).
  destruct (lift_at _ _ _ _ _ _ _ _ _ _ _ _ _ _ _ _ Hi Hc F1 Ft F2 Hl E) as (evs1 & s1 & v & it2 & s2 & evs2 & vs1 & vs2 & V1 & Q1 & A & V2 & Q2 & -> & L1 & _).
  destruct (lift_own_flat _ _ _ _ _ _ _ _ _ Hcs A) as (rep & A' & ->). apply lifting_is_lift in Q1. apply lifting_is_lift in Q2.
  pose proof (evolves_history _ _ _ _ _ _ _ _ H V1) as H1.
  assert (N1 : N.of_nat (made (ops ++ map fst evs1)) < two32) by (rewrite made_app, (made_lifts _ Q1); change two32 with (2 ^ 32); lia).
  destruct (lift_own_found _ _ _ _ _ _ _ _ _ _ H1 N1 Hi Hc A') as (F & G & V).
  pose proof (evolves_history _ _ _ _ _ _ _ _ H1 V) as H2. cbn [map fst snd] in H2.
  assert (N2 : N.of_nat (made ((ops ++ map fst evs1) ++ [OpLiftOwn cx rt i])) < two32) by (rewrite made_app; change (made [OpLiftOwn cx rt i]) with 0%nat; lia).
  exists rep. split; [rewrite <- L1, nth_error_app2, Nat.sub_diag by lia; reflexivity|]. split.
  - eapply lifts_only_remove; [exact H|exact Hn|exact V1|exact Q1|exact Hi|exact F].
  - pose proof (evolves_history _ _ _ _ _ _ _ _ H2 V2) as H3.
    destruct (found_cases _ _ _ _ _ (cx_inst cx) rt i H3) as [(rep' & X)|X]; [rewrite made_app, (made_lifts _ Q2); lia|exact Hi| |exact X].
    pose proof (lifts_only_remove _ _ _ _ _ _ _ _ _ _ _ _ H2 N2 V2 Q2 Hi X). congruence.
Qed.

(** A borrowed handle: its representation is what the callee gets, and from
    then on it stays, undroppable and untransferable, while the call is in
    progress. *)
Theorem borrow_argument_lent : forall insts ops rs s calls order cx maxf ts1 rt ts2 kss1 kss2 cs i vs it s',
  history insts ops rs s calls -> N.of_nat (made ops) < 2 ^ 32 -> (cx_inst cx < insts)%nat -> In (cx_id cx) calls ->
  Forall2 flattens ts1 kss1 -> Forall2 flattens ts2 kss2 ->
  (List.length (List.concat (kss1 ++ [KU32] :: kss2)) <= maxf)%nat ->
  nth_error cs (List.length (List.concat kss1)) = Some (CU32 i) ->
  lift_values order cx maxf (ts1 ++ TBorrow rt :: ts2) (IBase cs 0) s = (Ok (vs, it), s') ->
  exists rep, nth_error vs (List.length ts1) = Some (VU32 rep) /\ found s (cx_inst cx) rt i = Ok rep /\
    forall evs s3 calls3, after insts s' calls evs s3 calls3 -> In (cx_id cx) calls3 -> N.of_nat (made ops + made (map fst evs)) < 2 ^ 32 ->
      found s3 (cx_inst cx) rt i = Ok rep /\
      fst (canon_resource_drop (cx_inst cx) rt i s3) = Err ETrap /\
      (forall cx', In (cx_id cx') calls3 -> cx_inst cx' = cx_inst cx -> fst (lift_own cx' i rt s3) = Err ETrap).
Proof.
  intros insts ops rs s calls order cx maxf ts1 rt ts2 kss1 kss2 cs i vs it s' H Hn Hi Hc F1 F2 Hl Hcs E.
  assert (Ft : flattens (TBorrow rt) [KU32]) by (apply flatten_as_specified; reflexivity).
  destruct (lift_at _ _ _ _ _ _ _ _ _ _ _ _ _ _ _ _ Hi Hc F1 Ft F2 Hl E) as (evs1 & s1 & v & it2 & s2 & evs2 & vs1 & vs2 & V1 & Q1 & A & V2 & Q2 & -> & L1 & _).
  destruct (lift_borrow_flat _ _ _ _ _ _ _ _ _ Hcs A) as (rep & A' & ->). apply lifting_is_lift in Q1. apply lifting_is_lift in Q2.
  pose proof (evolves_history _ _ _ _ _ _ _ _ H V1) as H1.
  assert (N1 : N.of_nat (made (ops ++ map fst evs1)) < two32) by (rewrite made_app, (made_lifts _ Q1); change two32 with (2 ^ 32); lia).
  destruct (lift_borrow_found _ _ _ _ _ _ _ _ _ _ H1 N1 Hi Hc A') as (F & G & V).
  exists rep. split; [rewrite <- L1, nth_error_app2, Nat.sub_diag by lia; reflexivity|]. split.
  - eapply lifts_only_remove; [exact H|exact Hn|exact V1|exact Q1|exact Hi|exact F].
  - intros evs s3 calls3 HA Hin Hb. destruct V2 as (t2 & A2 & W2).
    destruct (after_world _ _ _ _ _ _ HA t2 W2) as (t3 & A3 & W3).
    pose proof (after_trans _ _ _ _ _ _ A3 _ _ _ A2) as A23.
    destruct (lent_stays _ _ _ _ _ cx rt i rep s2 _ t3 calls3 H1 (conj Hi Hc) A' A23 Hin) as (X1 & X2).
    { rewrite map_app, !made_app, (made_lifts _ Q1), (made_lifts _ Q2). lia. }
    destruct (X2 rt eq_refl) as (X3 & X4). rewrite <- (found_world t3 s3) in X1 by (symmetry; exact W3). split; [exact X1|]. split.
    + destruct (canon_resource_drop (cx_inst cx) rt i s3) as [r u] eqn:Ed.
      assert (R : run (OpDrop (cx_inst cx) rt i) s3 = (match r with Ok _ => Ok 0 | Err e => Err e | Panic => Panic | Diverge => Diverge end, u)) by (cbn [run]; unfold bind; rewrite Ed; destruct r; reflexivity).
      pose proof (run_world _ _ _ _ t3 R W3) as R'. cbn [run] in R'. unfold bind in R'.
      destruct (canon_resource_drop (cx_inst cx) rt i t3) as [r' u'] eqn:Ed'. destruct (X3 _ _ eq_refl) as (-> & _). cbn [fst].
      destruct r; inversion R'. reflexivity.
    + intros cx' Hc' Ei. destruct (lift_own cx' i rt s3) as [r u] eqn:Eo.
      pose proof (run_world (OpLiftOwn cx' rt i) _ _ _ t3 Eo W3) as R'. cbn [run] in R'. destruct (X4 cx' _ _ Hc' Ei R') as (-> & _). reflexivity.
Qed.

(** Two parameters cannot both take or borrow the same handle if one of them
    takes it: the call is refused. *)
Theorem handle_not_passed_twice : forall insts ops rs s calls order cx maxf ts1 t1 ts2 t2 ts3 kss1 kss2 kss3 rt cs i r s',
  history insts ops rs s calls -> N.of_nat (made ops) < 2 ^ 32 -> (cx_inst cx < insts)%nat -> In (cx_id cx) calls ->
  Forall2 flattens ts1 kss1 -> Forall2 flattens ts2 kss2 -> Forall2 flattens ts3 kss3 ->
  (List.length (List.concat (kss1 ++ [KU32] :: kss2 ++ [KU32] :: kss3)) <= maxf)%nat ->
  (t1 = TOwn rt /\ (t2 = TOwn rt \/ t2 = TBorrow rt) \/ t1 = TBorrow rt /\ t2 = TOwn rt) ->
  nth_error cs (List.length (List.concat kss1)) = Some (CU32 i) ->
  nth_error cs (List.length (List.concat (kss1 ++ [KU32] :: kss2))) = Some (CU32 i) ->
  lift_values order cx maxf (ts1 ++ t1 :: ts2 ++ t2 :: ts3) (IBase cs 0) s = (r, s') -> forall x, r <> Ok x.
Proof.
  intros insts ops rs s calls order cx maxf ts1 t1 ts2 t2 ts3 kss1 kss2 kss3 rt cs i r s' H Hn Hi Hc F1 F2 F3 Hl Ht Hc1 Hc2 E [vs it] ->.
  assert (Ft1 : flattens t1 [KU32]) by (apply flatten_as_specified; destruct Ht as [[-> _]|[-> _]]; reflexivity).
  assert (Ft2 : flattens t2 [KU32]) by (apply flatten_as_specified; destruct Ht as [[_ [-> | ->]]|[_ ->]]; reflexivity).
  assert (F23 : Forall2 flattens (ts2 ++ t2 :: ts3) (kss2 ++ [KU32] :: kss3)) by (apply Forall2_app; [exact F2|constructor; assumption]).
  destruct (lift_at _ _ _ _ _ _ _ _ _ _ _ _ _ _ _ _ Hi Hc F1 Ft1 F23 Hl E)
    as (evs1 & s1 & v & it2 & s2 & _ & vs1 & vs2 & V1 & Q1 & A & _ & _ & -> & L1 & B).
  rewrite map_app in B. cbn [map] in B. destruct (lift_each_app _ _ _ _ _ _ _ _ B) as (ws1 & it3 & s3 & w & it4 & s4 & ws2 & B1 & B2 & _ & _ & _).
  pose proof (lift_each_pos _ _ _ F2 _ _ _ _ _ _ B1) as ->.
  destruct (lift_each_acts insts cx ts2 _ _ _ _ _ Hi Hc B1) as (evs2 & V2 & Q2 & _).
  apply lifting_is_lift in Q1. apply lifting_is_lift in Q2.
  replace (List.length (List.concat kss1) + List.length [KU32] + List.length (List.concat kss2))%nat with (List.length (List.concat (kss1 ++ [KU32] :: kss2))) in B2
    by (rewrite concat_app; cbn [List.concat]; rewrite !app_length; lia).
  pose proof (evolves_history _ _ _ _ _ _ _ _ H V1) as H1.
  assert (N1 : N.of_nat (made (ops ++ map fst evs1)) < two32) by (rewrite made_app, (made_lifts _ Q1); change two32 with (2 ^ 32); lia).
  destruct Ht as [[-> Ht2]|[-> ->]].
  - destruct (lift_own_flat _ _ _ _ _ _ _ _ _ Hc1 A) as (rep & A' & ->).
    destruct (lift_own_found _ _ _ _ _ _ _ _ _ _ H1 N1 Hi Hc A') as (_ & G & V).
    pose proof (evolves_history _ _ _ _ _ _ _ _ H1 V) as H2. cbn [map fst snd] in H2.
    assert (N2 : N.of_nat (made ((ops ++ map fst evs1) ++ [OpLiftOwn cx rt i])) < two32) by (rewrite made_app; change (made [OpLiftOwn cx rt i]) with 0%nat; lia).
    pose proof (evolves_history _ _ _ _ _ _ _ _ H2 V2) as H3.
    assert (N3 : N.of_nat (made (((ops ++ map fst evs1) ++ [OpLiftOwn cx rt i]) ++ map fst evs2)) < two32) by (rewrite made_app, (made_lifts _ Q2); lia).
    assert (X : exists rep', found s3 (cx_inst cx) rt i = Ok rep').
    { destruct Ht2 as [-> | ->].
      - destruct (lift_own_flat _ _ _ _ _ _ _ _ _ Hc2 B2) as (rep' & B' & _). exists rep'. exact (proj1 (lift_own_found _ _ _ _ _ _ _ _ _ _ H3 N3 Hi Hc B')).
      - destruct (lift_borrow_flat _ _ _ _ _ _ _ _ _ Hc2 B2) as (rep' & B' & _). exists rep'. exact (proj1 (lift_borrow_found _ _ _ _ _ _ _ _ _ _ H3 N3 Hi Hc B')). }
    destruct X as (rep' & X). pose proof (lifts_only_remove _ _ _ _ _ _ _ _ _ _ _ _ H2 N2 V2 Q2 Hi X). congruence.
  - destruct (lift_borrow_flat _ _ _ _ _ _ _ _ _ Hc1 A) as (rep & A' & ->).
    destruct (lift_own_flat _ _ _ _ _ _ _ _ _ Hc2 B2) as (rep' & B' & _).
    destruct V2 as (t2 & A2 & W2). pose proof (run_world (OpLiftOwn cx rt i) _ _ _ t2 B' W2) as R. cbn [run] in R.
    destruct (lent_stays _ _ _ _ _ cx rt i rep s2 _ t2 calls H1 (conj Hi Hc) A' A2 Hc) as (_ & X2); [rewrite !made_app, (made_lifts _ Q1), (made_lifts _ Q2); lia|].
    destruct (X2 rt eq_refl) as (_ & X4). destruct (X4 cx _ _ Hc eq_refl R) as (Y & _). discriminate.
Qed.

(** Lifting, whether it succeeds or not, leaves every handle alone that is of
    another instance or of a resource type no parameter owns. *)
Theorem lifting_leaves_others : forall insts ops rs s calls order cx maxf ts it o s' inst rt i,
  history insts ops rs s calls -> N.of_nat (made ops) < 2 ^ 32 -> (cx_inst cx < insts)%nat -> In (cx_id cx) calls -> (inst < insts)%nat ->
  lift_values order cx maxf ts it s = (o, s') ->
  (inst <> cx_inst cx \/ forall rt', In (true, rt') (flat_map handles_in ts) -> rt_id rt' <> rt_id rt) ->
  found s' inst rt i = found s inst rt i.
Proof.
  intros insts ops rs s calls order cx maxf ts it o s' inst rt i H Hn Hi Hc Hi' E Hne.
  destruct (lift_values_acts insts order cx maxf ts it _ _ _ _ Hi Hc E) as (evs & V & Q & _).
  eapply away_found; [exact H|rewrite (made_lifts _ (lifting_is_lift _ _ _ Q)); change two32 with (2 ^ 32); lia|exact V| |exact Hi'].
  eapply Forall_impl; [|exact Q]. intros [] X; try contradiction; cbn in *; try exact I. destruct X as [-> X]. destruct Hne as [Hne|Hne]; [left; congruence|right; auto].
Qed.

(** Lowering, whether it succeeds or not, takes no handle away, and adds only
    handles of its instance and of the types of its values. *)
Theorem lowering_leaves_handles : forall insts ops rs s calls cx maxf vs ts out o s' inst rt i, leaves_world (cx_realloc cx) ->
  history insts ops rs s calls -> N.of_nat (made ops + List.length (flat_map handles_in ts)) < 2 ^ 32 ->
  (cx_inst cx < insts)%nat -> In (cx_id cx) calls -> (inst < insts)%nat ->
  lower_values cx maxf vs ts out s = (o, s') ->
  (forall rep, found s inst rt i = Ok rep -> found s' inst rt i = Ok rep) /\
  (inst <> cx_inst cx \/ (forall own rt', In (own, rt') (flat_map handles_in ts) -> rt_id rt' <> rt_id rt) ->
   found s' inst rt i = found s inst rt i).
Proof.
  intros insts ops rs s calls cx maxf vs ts out o s' inst rt i Hw H Hn Hi Hc Hi' E.
  destruct (lower_values_acts insts cx maxf vs ts out Hw _ _ _ _ Hi Hc E) as (evs & V & Q & M).
  assert (Hb : N.of_nat (made ops + made (map fst evs)) < two32) by (change two32 with (2 ^ 32); lia). split.
  - intros rep Hf. eapply lowers_only_add; [exact H|exact Hb|exact V|eapply lowering_is_lower; exact Q|exact Hi'|exact Hf].
  - intros Hne. eapply away_found; [exact H|exact Hb|exact V| |exact Hi'].
    eapply Forall_impl; [|exact Q]. intros [] X; try contradiction; cbn in *; destruct X as [-> X]; (destruct Hne as [Hne|Hne]; [left; congruence|right; eauto]).
Qed.

(** An owned value among those lowered: the core value is an index nothing was
    found under, and is now an owned handle for the representation. *)
Lemma handle_given : forall insts ops rs s calls cx maxf ts1 own rt ts2 kss1 kss2 vs1 rep vs2 out fl s', leaves_world (cx_realloc cx) ->
  history insts ops rs s calls -> N.of_nat (made ops + List.length (flat_map handles_in (ts1 ++ (if own : bool then TOwn rt else TBorrow rt) :: ts2))) < 2 ^ 32 ->
  (cx_inst cx < insts)%nat -> In (cx_id cx) calls ->
  Forall2 flattens ts1 kss1 -> Forall2 flattens ts2 kss2 ->
  (List.length (List.concat (kss1 ++ [KU32] :: kss2)) <= maxf)%nat -> List.length vs1 = List.length ts1 ->
  lower_values cx maxf (vs1 ++ VU32 rep :: vs2) (ts1 ++ (if own then TOwn rt else TBorrow rt) :: ts2) out s = (Ok fl, s') ->
  exists j, nth_error fl (List.length (List.concat kss1)) = Some (VCore (CU32 j)) /\
    ((own = false /\ rt_impl rt = Some (cx_inst cx) /\ j = rep) \/
     ((own = true \/ rt_impl rt <> Some (cx_inst cx)) /\ found s (cx_inst cx) rt j = Err ETrap /\ found s' (cx_inst cx) rt j = Ok rep /\
      exists e, entry s' (cx_inst cx, rt_id rt, j) = Some e /\ h_rep e = rep /\ h_own e = own /\ h_scope e = if own then None else Some (cx_id cx))).
Proof.
  intros insts ops rs s calls cx maxf ts1 own rt ts2 kss1 kss2 vs1 rep vs2 out fl s' Hw H Hn Hi Hc F1 F2 Hl Hv E.
  assert (Ft : flattens (if own then TOwn rt else TBorrow rt) [KU32]) by (apply flatten_as_specified; destruct own; reflexivity).
  assert (Hh : List.length (flat_map handles_in (ts1 ++ (if own then TOwn rt else TBorrow rt) :: ts2)) = (List.length (flat_map handles_in ts1) + (1 + List.length (flat_map handles_in ts2)))%nat).
  { rewrite flat_map_app, app_length. cbn [flat_map]. rewrite app_length. destruct own; reflexivity. }
  destruct (lower_at _ _ _ _ _ _ _ _ _ _ _ _ _ _ _ _ _ Hw Hi Hc F1 Ft F2 Hl Hv E) as (evs1 & s1 & c & s2 & evs2 & cs1 & cs2 & V1 & Q1 & M1 & A & V2 & Q2 & M2 & -> & L1).
  apply lowering_is_lower in Q1. apply lowering_is_lower in Q2.
  pose proof (evolves_history _ _ _ _ _ _ _ _ H V1) as H1.
  assert (Hb : N.of_nat (made ops + made (map fst evs1) + 1 + made (map fst evs2)) < two32) by (change two32 with (2 ^ 32); lia).
  assert (N1 : N.of_nat (made (ops ++ map fst evs1) + 1) < two32) by (rewrite made_app; lia).
  destruct (lower_handle_found _ _ _ _ _ _ _ _ _ _ _ H1 N1 Hi Hc A) as [(-> & Hr & -> & ->)|(j & o & -> & Eo & R & HO & Ho & G & K & V)].
  - exists rep. split; [|left; auto]. rewrite !map_app, nth_error_app2 by (rewrite map_length; lia). rewrite map_length, L1, Nat.sub_diag. reflexivity.
  - exists j. split; [rewrite !map_app, nth_error_app2 by (rewrite map_length; lia); rewrite map_length, L1, Nat.sub_diag; reflexivity|].
    right. split; [exact Ho|].
    pose proof (evolves_history _ _ _ _ _ _ _ _ H1 V) as H2. cbn [map fst snd] in H2.
    assert (N2 : N.of_nat (made ((ops ++ map fst evs1) ++ [o]) + made (map fst evs2)) < two32) by (rewrite !made_app; pose proof (made_one o); lia).
    pose proof (lowers_keep_handle _ _ _ _ _ _ _ _ _ _ H2 N2 V2 Q2 K) as K'.
    pose proof (evolves_history _ _ _ _ _ _ _ _ H2 V2) as H3.
    split; [eapply lowers_absent; [exact H| |exact V1|exact Q1|exact Hi|exact G]; lia|]. split.
    + rewrite (history_at _ _ _ _ _ _ _ _ H3) by (try exact Hi; rewrite made_app; lia). rewrite K'. reflexivity.
    + rewrite entry_view in K'. destruct (entry s' (cx_inst cx, rt_id rt, j)) as [e|]; [|discriminate]. exists e.
      cbn [option_map] in K'. unfold face in K'. injection K' as K1 K2 K3. auto.
Qed.

Theorem own_value_given : forall insts ops rs s calls cx maxf ts1 rt ts2 kss1 kss2 vs1 rep vs2 out fl s', leaves_world (cx_realloc cx) ->
  history insts ops rs s calls -> N.of_nat (made ops + List.length (flat_map handles_in (ts1 ++ TOwn rt :: ts2))) < 2 ^ 32 ->
  (cx_inst cx < insts)%nat -> In (cx_id cx) calls ->
  Forall2 flattens ts1 kss1 -> Forall2 flattens ts2 kss2 ->
  (List.length (List.concat (kss1 ++ [KU32] :: kss2)) <= maxf)%nat -> List.length vs1 = List.length ts1 ->
  lower_values cx maxf (vs1 ++ VU32 rep :: vs2) (ts1 ++ TOwn rt :: ts2) out s = (Ok fl, s') ->
  exists j e, nth_error fl (List.length (List.concat kss1)) = Some (VCore (CU32 j)) /\
    found s (cx_inst cx) rt j = Err ETrap /\ found s' (cx_inst cx) rt j = Ok rep /\
    entry s' (cx_inst cx, rt_id rt, j) = Some e /\ h_own e = true /\ h_scope e = None.
Proof.
  intros insts ops rs s calls cx maxf ts1 rt ts2 kss1 kss2 vs1 rep vs2 out fl s' Hw H Hn Hi Hc F1 F2 Hl Hv E.
  destruct (handle_given _ _ _ _ _ _ _ _ true _ _ _ _ _ _ _ _ _ _ Hw H Hn Hi Hc F1 F2 Hl Hv E) as (j & A & [(X & _)|(_ & B & C & e & D & _ & F & G)]); [discriminate|].
  exists j, e. auto 8.
Qed.

(** A borrowed value: the instance that implements the resource gets the
    representation itself, any other a new handle that belongs to the call and
    does not own. *)
Theorem borrow_value_given : forall insts ops rs s calls cx maxf ts1 rt ts2 kss1 kss2 vs1 rep vs2 out fl s', leaves_world (cx_realloc cx) ->
  history insts ops rs s calls -> N.of_nat (made ops + List.length (flat_map handles_in (ts1 ++ TBorrow rt :: ts2))) < 2 ^ 32 ->
  (cx_inst cx < insts)%nat -> In (cx_id cx) calls ->
  Forall2 flattens ts1 kss1 -> Forall2 flattens ts2 kss2 ->
  (List.length (List.concat (kss1 ++ [KU32] :: kss2)) <= maxf)%nat -> List.length vs1 = List.length ts1 ->
  lower_values cx maxf (vs1 ++ VU32 rep :: vs2) (ts1 ++ TBorrow rt :: ts2) out s = (Ok fl, s') ->
  exists j, nth_error fl (List.length (List.concat kss1)) = Some (VCore (CU32 j)) /\
    (rt_impl rt = Some (cx_inst cx) -> j = rep) /\
    (rt_impl rt <> Some (cx_inst cx) ->
      found s (cx_inst cx) rt j = Err ETrap /\ found s' (cx_inst cx) rt j = Ok rep /\
      exists e, entry s' (cx_inst cx, rt_id rt, j) = Some e /\ h_own e = false /\ h_scope e = Some (cx_id cx)).
Proof.
  intros insts ops rs s calls cx maxf ts1 rt ts2 kss1 kss2 vs1 rep vs2 out fl s' Hw H Hn Hi Hc F1 F2 Hl Hv E.
  destruct (handle_given _ _ _ _ _ _ _ _ false _ _ _ _ _ _ _ _ _ _ Hw H Hn Hi Hc F1 F2 Hl Hv E) as (j & A & [(_ & X & ->)|([Y|Y] & B & C & e & D & _ & F & G)]); [|discriminate|].
  - exists rep. split; [exact A|]. split; [auto|]. intros Z. contradiction.
  - exists j. split; [exact A|]. split; [intros Z; contradiction|]. intros _. split; [exact B|]. split; [exact C|]. exists e. auto.
Qed.

(** ** A call from one component to another *)

(** The two halves of a call, up to the point where the callee runs. *)
Lemma bind_same : forall A B (m : M A) (f g : A -> M B) s, (forall x s1, m s = (Ok x, s1) -> f x s1 = g x s1) -> bind m f s = bind m g s.
Proof. intros A B m f g s H. unfold bind. destruct (m s) as [[x|e| |] s1]; try reflexivity. apply H. reflexivity. Qed.
Lemma lowered_reaches : forall order opts inst callee callee' ci ft cs maxp maxr s,
  (forall cx s1 vs it s2, new_call opts inst s = (Ok cx, s1) ->
    lift_values order cx maxp (param_types ft) (IBase cs 0) s1 = (Ok (vs, it), s2) -> callee vs s2 = callee' vs s2) ->
  canon_lower order opts inst callee ci ft (map VCore cs) maxp maxr s = canon_lower order opts inst callee' ci ft (map VCore cs) maxp maxr s.
Proof.
  intros order opts inst callee callee' ci ft cs maxp maxr s H. unfold canon_lower. apply bind_same. intros cx s1 E1.
  apply bind_same. intros w s1' Ew. injection Ew as <- <-. destruct (negb _); [reflexivity|]. destruct (negb _); [reflexivity|].
  rewrite as_core_map. apply bind_same. intros cs' s1' Ec. injection Ec as <- <-. apply bind_same. intros [vs it] s2 E2.
  unfold bind at 1. rewrite (H cx s1 vs it s2 E1 E2). reflexivity.
Qed.
Lemma lifted_reaches : forall order opts inst callee callee' ft args maxp maxr s,
  (forall cx s1 s2 flat s3 s4, new_call opts inst s = (Ok cx, s1) -> set_may_leave inst false s1 = (Ok tt, s2) ->
    lower_values cx maxp args (param_types ft) None s2 = (Ok flat, s3) -> set_may_leave inst true s3 = (Ok tt, s4) ->
    callee flat s4 = callee' flat s4) ->
  canon_lift order opts inst callee ft args maxp maxr s = canon_lift order opts inst callee' ft args maxp maxr s.
Proof.
  intros order opts inst callee callee' ft args maxp maxr s H. unfold canon_lift.
  apply bind_same. intros w s1' Ew. injection Ew as <- <-. destruct (negb _); [reflexivity|]. destruct (negb _); [reflexivity|].
  apply bind_same. intros cx s1 E1. apply bind_same. intros [] s2 E2. apply bind_same. intros flat s3 E3. apply bind_same. intros [] s4 E4.
  unfold bind at 1. rewrite (H cx s1 s2 flat s3 s4 E1 E2 E3 E4). reflexivity.
Qed.

(** From the moment the caller's arguments are lifted to the moment the
    callee's core function runs. *)
Lemma call_evolves : forall insts opts inst s cx s1 s2 s3 s4 calls maxp args ts flat, (inst < insts)%nat ->
  new_call opts inst s = (Ok cx, s1) -> set_may_leave inst false s1 = (Ok tt, s2) ->
  lower_values cx maxp args ts None s2 = (Ok flat, s3) -> set_may_leave inst true s3 = (Ok tt, s4) ->
  forall ops rs, history insts ops rs s calls ->
  cx_inst cx = inst /\ cx_realloc cx = o_realloc opts /\ exists e1 e3 calls2, evolves insts s calls e1 s2 calls2 /\ Forall quiet_op (map fst e1) /\ made (map fst e1) = 0%nat /\
    In (cx_id cx) calls2 /\ incl calls calls2 /\ evolves insts s3 calls2 e3 s4 calls2 /\ Forall quiet_op (map fst e3) /\ made (map fst e3) = 0%nat.
Proof.
  intros insts opts inst s cx s1 s2 s3 s4 calls maxp args ts flat Hi E1 E2 E3 E4 ops rs H.
  destruct (begin_call _ _ _ _ _ _ _ _ _ Hi H E1) as (H1 & Ecx & _). injection Ecx as ->.
  assert (R : run (OpEnter opts inst) s = (Ok (N.of_nat (ncalls s)), s1)) by (inversion E1; reflexivity).
  pose proof (evolves_one insts s calls (OpEnter opts inst) _ _ Hi R) as V1. cbn [opened] in V1. rewrite Nat2N.id in V1.
  destruct (evolves_leave insts inst false s1 (ncalls s :: calls) _ _ Hi E2) as (_ & ev2 & V2 & Q2).
  destruct (evolves_leave insts inst true s3 (ncalls s :: calls) _ _ Hi E4) as (_ & ev4 & V4 & Q4).
  split; [reflexivity|]. split; [reflexivity|]. exists ([(OpEnter opts inst, Ok (N.of_nat (ncalls s)))] ++ [ev2])%list, [ev4], (ncalls s :: calls).
  split; [eapply evolves_trans; eauto|]. split; [repeat constructor; exact Q2|].
  split; [cbn; unfold made; cbn; destruct (fst ev2); try contradiction; reflexivity|]. split; [left; reflexivity|]. split; [intros x Hx; right; exact Hx|].
  split; [exact V4|]. split; [repeat constructor; exact Q4|]. unfold made; cbn. destruct (fst ev4); try contradiction; reflexivity.
Qed.
Lemma quiet_found : forall insts ops rs s calls evs s' calls' inst rt i,
  history insts ops rs s calls -> N.of_nat (made ops) < two32 -> evolves insts s calls evs s' calls' -> made (map fst evs) = 0%nat ->
  Forall quiet_op (map fst evs) -> (inst < insts)%nat -> found s' inst rt i = found s inst rt i.
Proof.
  intros insts ops rs s calls evs s' calls' inst rt i H Hn V Hm HF Hi. eapply away_found; [exact H|rewrite Hm; lia|exact V| |exact Hi].
  eapply Forall_impl; [|exact HF]. intros o Ho. apply quiet_away. exact Ho.
Qed.

(** An owned handle passed in a call: when the callee's core function runs, the
    caller no longer has the handle, and the core argument in its place is an
    index the callee had not in use, now a handle for the same representation.
    Anything the core function does otherwise than in such a state does not
    matter to the call. *)
Theorem component_call_moves_handle : forall insts ops rs s calls order opts inst ci order' opts' inst' core core' ft ts1 rt ts2 kss1 kss2 m h cs i maxp maxr maxp' maxr', leaves_world (o_realloc opts') ->
  history insts ops rs s calls -> N.of_nat (made ops + List.length (flat_map handles_in (param_types ft))) < 2 ^ 32 ->
  (inst < insts)%nat -> (inst' < insts)%nat -> inst <> inst' ->
  param_types ft = (ts1 ++ TOwn rt :: ts2)%list -> Forall2 flattens ts1 kss1 -> Forall2 flattens ts2 kss2 ->
  (List.length (List.concat (kss1 ++ [KU32] :: kss2)) <= maxp)%nat -> (List.length (List.concat (kss1 ++ [KU32] :: kss2)) <= maxp')%nat ->
  nth_error cs (List.length (List.concat kss1)) = Some (CU32 i) ->
  (forall args s1,
    (exists rep j, found s inst rt i = Ok rep /\ found s1 inst rt i = Err ETrap /\
      nth_error args (List.length (List.concat kss1)) = Some (VCore (CU32 j)) /\
      found s inst' rt j = Err ETrap /\ found s1 inst' rt j = Ok rep) ->
    core args s1 = core' args s1) ->
  canon_lower order opts inst (linked order' opts' inst' core ft maxp' maxr' m h) ci ft (map VCore cs) maxp maxr s =
  canon_lower order opts inst (linked order' opts' inst' core' ft maxp' maxr' m h) ci ft (map VCore cs) maxp maxr s.
Proof.
  intros insts ops rs s calls order opts inst ci order' opts' inst' core core' ft ts1 rt ts2 kss1 kss2 m h cs i maxp maxr maxp' maxr'
    Hw H Hn Hi Hi' Hne Hft F1 F2 Hl Hl' Hcs Hcore.
  apply lowered_reaches. intros cx s1 vs it s2 E1 E2. unfold linked.
  erewrite (lifted_reaches order' opts' inst' core core'); [reflexivity|]. intros cx' s3 s4 flat s5 s6 E3 E4 E5 E6. apply Hcore. clear Hcore.
  rewrite Hft in *.
  destruct (begin_call _ _ _ _ _ _ _ _ _ Hi H E1) as (H1 & Ecx & _). injection Ecx as Ecx.
  assert (Ici : cx_inst cx = inst) by (rewrite Ecx; reflexivity). assert (Icd : In (cx_id cx) (ncalls s :: calls)) by (rewrite Ecx; left; reflexivity).
  assert (Hn1 : N.of_nat (made (ops ++ [OpEnter opts inst])) < two32) by (rewrite made_app; change (made [OpEnter opts inst]) with 0%nat; change two32 with (2 ^ 32); lia).
  assert (Fs : forall inst0 rt0 i0, (inst0 < insts)%nat -> found s1 inst0 rt0 i0 = found s inst0 rt0 i0).
  { intros inst0 rt0 i0 Hi0.
    assert (R : run (OpEnter opts inst) s = (Ok (N.of_nat (ncalls s)), s1)) by (inversion E1; reflexivity).
    pose proof (evolves_one insts s calls (OpEnter opts inst) _ _ Hi R) as V1.
    eapply quiet_found; [exact H|change two32 with (2 ^ 32); lia|exact V1|reflexivity|repeat constructor|exact Hi0]. }
  (* lifting *)
  destruct (own_argument_taken insts _ _ s1 _ order cx maxp ts1 rt ts2 kss1 kss2 cs i vs it s2 H1) as (rep & Hv & G1 & G2); try assumption; [rewrite Ici; exact Hi|].
  rewrite Ici in G1, G2.
  pose proof (lift_values_acts insts order cx maxp (ts1 ++ TOwn rt :: ts2) (IBase cs 0)) as HA.
  assert (Hci : (cx_inst cx < insts)%nat) by (rewrite Ici; exact Hi).
  destruct (HA _ _ _ _ Hci Icd E2) as (evs & V & Q & _). clear HA.
  pose proof (made_lifts _ (lifting_is_lift _ _ _ Q)) as Mq.
  pose proof (evolves_history _ _ _ _ _ _ _ _ H1 V) as H2.
  set (ops2 := ((ops ++ [OpEnter opts inst]) ++ map fst evs)%list) in *.
  assert (Mo : made ops2 = made ops) by (unfold ops2; rewrite !made_app, Mq; change (made [OpEnter opts inst]) with 0%nat; lia).
  assert (Eo : forall rt0 i0, found s2 inst' rt0 i0 = found s1 inst' rt0 i0).
  { intros rt0 i0. eapply (lifting_leaves_others insts _ _ s1 _ order cx maxp); [exact H1|exact Hn1|exact Hci|exact Icd|exact Hi'|exact E2|left; congruence]. }
  (* the callee's side starts in the other memory *)
  pose proof (history_world _ _ _ _ _ H2 (other m h s2) eq_refl) as H2'.
  destruct (call_evolves insts opts' inst' (other m h s2) cx' s3 s4 s5 s6 _ maxp' vs (ts1 ++ TOwn rt :: ts2) flat Hi' E3 E4 E5 E6 _ _ H2')
    as (Ici' & Ira' & e1 & e3 & calls2 & W1 & Y1 & Z1 & Ic2 & _ & W3 & Y3 & Z3).
  pose proof (evolves_history _ _ _ _ _ _ _ _ H2' W1) as H4.
  assert (B4 : made (ops2 ++ map fst e1) = made ops) by (rewrite made_app, Z1, Mo; lia).
  assert (Hvs : exists vs1 vs2, vs = (vs1 ++ VU32 rep :: vs2)%list /\ List.length vs1 = List.length ts1).
  { apply nth_error_split in Hv. exact Hv. }
  destruct Hvs as (vs1 & vs2 & -> & Lv).
  destruct (own_value_given insts _ _ s4 calls2 cx' maxp' ts1 rt ts2 kss1 kss2 vs1 rep vs2 None flat s5 ltac:(rewrite Ira'; exact Hw) H4) as (j & e & K1 & K2 & K3 & _); try assumption.
  { rewrite B4. exact Hn. } { rewrite Ici'. exact Hi'. }
  rewrite Ici' in K2, K3. assert (Hw' : leaves_world (cx_realloc cx')) by (rewrite Ira'; exact Hw).
  assert (Hci' : (cx_inst cx' < insts)%nat) by (rewrite Ici'; exact Hi').
  destruct (lower_values_acts insts cx' maxp' (vs1 ++ VU32 rep :: vs2) (ts1 ++ TOwn rt :: ts2) None Hw' _ _ _ _ Hci' Ic2 E5) as (ew & Ww & Yw & Mw).
  pose proof (evolves_history _ _ _ _ _ _ _ _ H4 Ww) as H5.
  assert (B5 : N.of_nat (made ((ops2 ++ map fst e1) ++ map fst ew)) < two32) by (rewrite made_app, B4; change two32 with (2 ^ 32); lia).
  assert (T6 : forall inst0 rt0 i0, (inst0 < insts)%nat -> found s6 inst0 rt0 i0 = found s5 inst0 rt0 i0).
  { intros inst0 rt0 i0 Hi0. eapply quiet_found; [exact H5|exact B5|exact W3|exact Z3|exact Y3|exact Hi0]. }
  assert (T4 : forall inst0 rt0 i0, (inst0 < insts)%nat -> found s4 inst0 rt0 i0 = found s2 inst0 rt0 i0).
  { intros inst0 rt0 i0 Hi0. transitivity (found (other m h s2) inst0 rt0 i0); [|apply found_world; reflexivity].
    eapply quiet_found; [exact H2'|rewrite Mo; change two32 with (2 ^ 32); lia|exact W1|exact Z1|exact Y1|exact Hi0]. }
  exists rep, j. split; [rewrite <- Fs by exact Hi; exact G1|]. split.
  - rewrite T6 by exact Hi. rewrite <- G2, <- T4 by exact Hi.
    eapply (proj2 (lowering_leaves_handles insts _ _ s4 calls2 cx' maxp' _ _ _ _ s5 inst rt i Hw' H4 ltac:(rewrite B4; exact Hn) Hci' Ic2 Hi E5)). left. congruence.
  - split; [exact K1|]. split; [rewrite <- Fs, <- Eo, <- T4 by assumption; exact K2|]. rewrite T6 by exact Hi'. exact K3.
Qed.

(** Stretches of a call that leave the handles of one type alone in two
    instances. *)
Definition apart (insts inst inst' : nat) (r : N) (k : nat) (s : state) (calls : list nat) (s' : state) (calls' : list nat) : Prop :=
  exists evs, evolves insts s calls evs s' calls' /\ Forall (fun o => away inst r o /\ away inst' r o) (map fst evs) /\ (made (map fst evs) <= k)%nat.
Lemma apart_trans : forall insts inst inst' r k1 k2 s c s1 c1 s2 c2,
  apart insts inst inst' r k1 s c s1 c1 -> apart insts inst inst' r k2 s1 c1 s2 c2 -> apart insts inst inst' r (k1 + k2) s c s2 c2.
Proof.
  intros insts inst inst' r k1 k2 s c s1 c1 s2 c2 (e1 & V1 & F1 & M1) (e2 & V2 & F2 & M2). exists (e1 ++ e2)%list.
  split; [eapply evolves_trans; eauto|]. rewrite map_app. split; [apply Forall_app; auto|]. rewrite made_app. lia.
Qed.
Lemma apart_world : forall insts inst inst' r s c s', s_world s' = s_world s -> apart insts inst inst' r 0 s c s' c.
Proof. intros. exists []. split; [apply evolves_nil; assumption|]. split; [constructor|cbn; lia]. Qed.
Lemma apart_quiet : forall insts inst inst' r s c ev s' c', evolves insts s c [ev] s' c' -> quiet_op (fst ev) -> apart insts inst inst' r 0 s c s' c'.
Proof.
  intros insts inst inst' r s c ev s' c' V Q. exists [ev]. split; [exact V|]. split; [repeat constructor; apply quiet_away; exact Q|].
  unfold made; cbn. destruct (fst ev); try contradiction; cbn; lia.
Qed.
Lemma apart_exit : forall insts inst inst' r cx s c s', In (cx_id cx) c -> exit_call_ignored cx s = (Ok tt, s') ->
  exists c', apart insts inst inst' r 0 s c s' c' /\ incl (remove Nat.eq_dec (cx_id cx) c) c'.
Proof.
  intros insts inst inst' r cx s c s' Hc E. unfold exit_call_ignored in E. destruct (exit_call (cx_id cx) s) as [o1 s1] eqn:E1.
  assert (R : run (OpExit (cx_id cx)) s = (match o1 with Ok _ => Ok 0 | Err e => Err e | Panic => Panic | Diverge => Diverge end, s1)).
  { cbn [run]. unfold bind. rewrite E1. destruct o1; reflexivity. }
  assert (Es : s' = s1) by (destruct o1; inversion E; reflexivity). subst s1.
  eexists. split; [exists [(OpExit (cx_id cx), match o1 with Ok _ => Ok 0 | Err e => Err e | Panic => Panic | Diverge => Diverge end)]; split; [exact (evolves_one insts s c (OpExit (cx_id cx)) _ s' Hc R)|split; [repeat constructor|cbn; lia]]|].
  destruct o1; cbn [opened]; intros x Hx; try exact Hx; apply in_remove in Hx; tauto.
Qed.
Lemma apart_found : forall insts inst inst' rt k s c s' c' ops rs i, apart insts inst inst' (rt_id rt) k s c s' c' ->
  history insts ops rs s c -> N.of_nat (made ops + k) < two32 -> (inst < insts)%nat -> (inst' < insts)%nat ->
  found s' inst rt i = found s inst rt i /\ found s' inst' rt i = found s inst' rt i /\
  exists ops' rs', history insts ops' rs' s' c' /\ (made ops' <= made ops + k)%nat.
Proof.
  intros insts inst inst' rt k s c s' c' ops rs i (evs & V & F & Mk) H Hn Hi Hi'.
  split; [|split].
  - eapply (away_found insts ops rs s c evs); [exact H|lia|exact V|eapply Forall_impl; [|exact F]; cbv beta; tauto|exact Hi].
  - eapply (away_found insts ops rs s c evs); [exact H|lia|exact V|eapply Forall_impl; [|exact F]; cbv beta; tauto|exact Hi'].
  - eexists _, _. split; [eapply evolves_history; eauto|]. rewrite made_app. lia.
Qed.
Lemma apart_new_call : forall insts inst inst' r opts i s c cx s', (i < insts)%nat -> new_call opts i s = (Ok cx, s') ->
  cx = mkCtx (ncalls s) i (o_enc opts) (o_realloc opts) /\ apart insts inst inst' r 0 s c s' (ncalls s :: c).
Proof.
  intros insts inst inst' r opts i s c cx s' Hi E.
  assert (R : run (OpEnter opts i) s = (Ok (N.of_nat (ncalls s)), s')) by (inversion E; reflexivity).
  pose proof (evolves_one insts s c (OpEnter opts i) _ _ Hi R) as V1. cbn [opened] in V1. rewrite Nat2N.id in V1.
  split; [inversion E; reflexivity|]. eapply apart_quiet; [exact V1|exact I].
Qed.
Lemma apart_leave : forall insts inst inst' r i b s c s', (i < insts)%nat -> set_may_leave i b s = (Ok tt, s') -> apart insts inst inst' r 0 s c s' c.
Proof. intros insts inst inst' r i b s c s' Hi E. destruct (evolves_leave insts i b s c _ _ Hi E) as (_ & ev & V & Q). eapply apart_quiet; eauto. Qed.
Lemma apart_enter : forall insts inst inst' r i b s c s', (i < insts)%nat -> set_may_enter i b s = (Ok tt, s') -> apart insts inst inst' r 0 s c s' c.
Proof.
  intros insts inst inst' r i b s c s' Hi E.
  assert (R : run (OpGuards i b (i_may_leave (inst_at (s_world s') i))) s = (Ok 0, s')).
  { cbn [run]. unfold bind at 1. rewrite E. unfold bind at 1. rewrite set_leave_noop. reflexivity. }
  pose proof (evolves_one insts s c (OpGuards i b (i_may_leave (inst_at (s_world s') i))) (Ok 0) s' Hi R) as V. eapply apart_quiet; [exact V|exact I].
Qed.
Definition free_of (rt : rtype) (ts : list valtype) : Prop := forall own rt', In (own, rt') (flat_map handles_in ts) -> rt_id rt' <> rt_id rt.
Lemma apart_lift : forall insts inst inst' rt order cx maxf ts it s c o s', (cx_inst cx < insts)%nat -> In (cx_id cx) c -> free_of rt ts ->
  lift_values order cx maxf ts it s = (o, s') -> apart insts inst inst' (rt_id rt) 0 s c s' c.
Proof.
  intros insts inst inst' rt order cx maxf ts it s c o s' Hi Hc Hf E.
  destruct (lift_values_acts insts order cx maxf ts it _ _ _ _ Hi Hc E) as (evs & V & Q & M). exists evs. split; [exact V|]. split; [|exact M].
  eapply Forall_impl; [|exact Q]. intros [] X; try contradiction; cbn in *; auto. destruct X as [_ X]. split; right; eauto.
Qed.
Lemma apart_lower : forall insts inst inst' rt cx maxf vs ts out s c o s', leaves_world (cx_realloc cx) -> (cx_inst cx < insts)%nat -> In (cx_id cx) c -> free_of rt ts ->
  lower_values cx maxf vs ts out s = (o, s') -> apart insts inst inst' (rt_id rt) (List.length (flat_map handles_in ts)) s c s' c.
Proof.
  intros insts inst inst' rt cx maxf vs ts out s c o s' Hw Hi Hc Hf E.
  destruct (lower_values_acts insts cx maxf vs ts out Hw _ _ _ _ Hi Hc E) as (evs & V & Q & M). exists evs. split; [exact V|]. split; [|exact M].
  eapply Forall_impl; [|exact Q]. intros [] X; try contradiction; cbn in *; destruct X as [_ X]; split; right; eauto.
Qed.

(** An owned handle returned from a call: afterwards the callee no longer has
    it, and the core result in its place is an index the caller had not in use,
    now a handle for the same representation. *)
Theorem component_call_returns_handle : forall insts ops rs s calls order opts inst ci order' opts' inst' core ft ts1 rt ts2 kss1 kss2 m h args cs i maxp maxr maxp' maxr' fl s',
  leaves_world (o_realloc opts) -> leaves_world (o_realloc opts') -> history insts ops rs s calls ->
  N.of_nat (made ops + List.length (flat_map handles_in (param_types ft)) + List.length (flat_map handles_in (result_types ft))) < 2 ^ 32 ->
  (inst < insts)%nat -> (inst' < insts)%nat -> inst <> inst' ->
  result_types ft = (ts1 ++ TOwn rt :: ts2)%list -> Forall2 flattens ts1 kss1 -> Forall2 flattens ts2 kss2 ->
  (List.length (List.concat (kss1 ++ [KU32] :: kss2)) <= maxr)%nat -> (List.length (List.concat (kss1 ++ [KU32] :: kss2)) <= maxr')%nat ->
  (forall own rt', In (own, rt') (flat_map handles_in (param_types ft)) -> rt_id rt' <> rt_id rt) ->
  (forall vs s1, exists s2, core vs s1 = (Ok (VList (map VCore cs)), s2) /\ s_world s2 = s_world s1) ->
  nth_error cs (List.length (List.concat kss1)) = Some (CU32 i) -> o_post_return opts' = None ->
  canon_lower order opts inst (linked order' opts' inst' core ft maxp' maxr' m h) ci ft args maxp maxr s = (Ok fl, s') ->
  exists rep j, found s inst' rt i = Ok rep /\ found s' inst' rt i = Err ETrap /\
    nth_error fl (List.length (List.concat kss1)) = Some (VCore (CU32 j)) /\
    found s inst rt j = Err ETrap /\ found s' inst rt j = Ok rep.
Proof.
  intros insts ops rs s calls order opts inst ci order' opts' inst' core ft ts1 rt ts2 kss1 kss2 m h args cs i maxp maxr maxp' maxr' fl s'
    HwA HwB H Hn Hi Hi' Hne Hft F1 F2 Hl Hl' Hfree Hcore Hcs Hpost E. rewrite Hft in Hn.
  change (free_of rt (param_types ft)) in Hfree.
  unfold canon_lower in E. apply bind_inv in E. destruct E as (cx & s1 & E1 & E). apply bind_inv in E. destruct E as (w & s1' & Ew & E). injection Ew as <- <-.
  destruct (negb _); [discriminate|]. destruct (negb _); [discriminate|].
  apply bind_inv in E. destruct E as (cargs & s1' & Ea & E). unfold lift_o in Ea. injection Ea as _ <-.
  apply bind_inv in E. destruct E as ((lifted & it) & s2 & E2 & E).
  apply bind_inv in E. destruct E as ((results & post) & s3 & E3 & E).
  apply bind_inv in E. destruct E as ([] & s4 & E4 & E). apply bind_inv in E. destruct E as (flat & s5 & E5 & E).
  apply bind_inv in E. destruct E as ([] & s6 & E6 & E). apply bind_inv in E. destruct E as ([] & s7 & E7 & E).
  apply bind_inv in E. destruct E as ([] & s8 & E8 & E). apply bind_inv in E. destruct E as ([] & s9 & E9 & E). unfold ret in E. injection E as <- <-.
  (* the callee's side *)
  unfold linked in E3. destruct (canon_lift order' opts' inst' core ft lifted maxp' maxr' (other m h s2)) as [oc sc] eqn:Ec.
  destruct oc as [[vs pst]|?| |]; try discriminate. injection E3 as <- <- E3.
  unfold canon_lift in Ec. apply bind_inv in Ec. destruct Ec as (w & t0 & Ew & Ec). injection Ew as <- <-.
  destruct (negb _); [discriminate|]. destruct (negb _); [discriminate|].
  apply bind_inv in Ec. destruct Ec as (cx' & t1 & C1 & Ec). apply bind_inv in Ec. destruct Ec as ([] & t2 & C2 & Ec).
  apply bind_inv in Ec. destruct Ec as (cflat & t3 & C3 & Ec). apply bind_inv in Ec. destruct Ec as ([] & t4 & C4 & Ec).
  apply bind_inv in Ec. destruct Ec as (res & t5 & C5 & Ec). destruct (Hcore cflat t4) as (t5' & C5' & W5). rewrite C5' in C5. injection C5 as <- <-.
  rewrite as_core_map in Ec. apply bind_inv in Ec. destruct Ec as (cvs & t6 & C6 & Ec). unfold lift_o in C6. injection C6 as <- <-.
  apply bind_inv in Ec. destruct Ec as ((rvs & it') & t7 & C7 & Ec). unfold ret at 1 in Ec. injection Ec as <- Epost <-. rewrite Hpost in Epost.
  (* up to the lifting of the result *)
  destruct (apart_new_call insts inst inst' (rt_id rt) opts inst s calls cx s1 Hi E1) as (Ecx & P1).
  assert (Ici : cx_inst cx = inst) by (rewrite Ecx; reflexivity). assert (Icd : cx_id cx = ncalls s) by (rewrite Ecx; reflexivity).
  pose proof (apart_lift insts inst inst' rt order cx maxp _ _ s1 (ncalls s :: calls) _ s2 ltac:(rewrite Ici; exact Hi) ltac:(rewrite Icd; left; reflexivity) Hfree E2) as P2.
  pose proof (apart_world insts inst inst' (rt_id rt) s2 (ncalls s :: calls) (other m h s2) eq_refl) as P3.
  destruct (apart_new_call insts inst inst' (rt_id rt) opts' inst' (other m h s2) (ncalls s :: calls) cx' t1 Hi' C1) as (Ecx' & P4).
  set (c2 := ncalls (other m h s2) :: ncalls s :: calls) in *.
  assert (Ici' : cx_inst cx' = inst') by (rewrite Ecx'; reflexivity). assert (Icd' : cx_id cx' = ncalls (other m h s2)) by (rewrite Ecx'; reflexivity).
  pose proof (apart_leave insts inst inst' (rt_id rt) inst' false t1 c2 t2 Hi' C2) as P5.
  pose proof (apart_lower insts inst inst' rt cx' maxp' _ _ _ t2 c2 _ t3 ltac:(rewrite Ecx'; exact HwB) ltac:(rewrite Ici'; exact Hi') ltac:(rewrite Icd'; left; reflexivity) Hfree C3) as P6.
  pose proof (apart_leave insts inst inst' (rt_id rt) inst' true t3 c2 t4 Hi' C4) as P7.
  pose proof (apart_world insts inst inst' (rt_id rt) t4 c2 t5' W5) as P8.
  pose proof (apart_trans _ _ _ _ _ _ _ _ _ _ _ _ (apart_trans _ _ _ _ _ _ _ _ _ _ _ _ (apart_trans _ _ _ _ _ _ _ _ _ _ _ _ (apart_trans _ _ _ _ _ _ _ _ _ _ _ _ (apart_trans _ _ _ _ _ _ _ _ _ _ _ _ (apart_trans _ _ _ _ _ _ _ _ _ _ _ _ (apart_trans _ _ _ _ _ _ _ _ _ _ _ _ P1 P2) P3) P4) P5) P6) P7) P8) as PA.
  clear P1 P2 P3 P4 P5 P6 P7 P8. set (kp := List.length (flat_map handles_in (param_types ft))) in *. cbn [Nat.add] in PA. rewrite !Nat.add_0_r in PA.
  set (kr := List.length (flat_map handles_in (ts1 ++ TOwn rt :: ts2))) in *.
  assert (Hn' : N.of_nat (made ops + kp + kr) < two32) by (change two32 with (2 ^ 32); exact Hn). clear Hn.
  destruct (apart_found _ _ _ _ _ _ _ _ _ _ _ i PA H ltac:(lia) Hi Hi') as (_ & A2 & opsA & rsA & HA & MA).
  (* the result leaves the callee *)
  rewrite Hft in C7, E5.
  assert (Hci' : (cx_inst cx' < insts)%nat) by (rewrite Ici'; exact Hi'). assert (Hcc' : In (cx_id cx') c2) by (rewrite Icd'; left; reflexivity).
  destruct (own_argument_taken insts opsA rsA t5' c2 order' cx' maxr' ts1 rt ts2 kss1 kss2 cs i rvs it' t7 HA) as (rep & R1 & R2 & R3); try assumption; [change (2 ^ 32) with two32; lia|].
  rewrite Ici' in R2, R3.
  destruct (lift_values_acts insts order' cx' maxr' (ts1 ++ TOwn rt :: ts2) (IBase cs 0) _ _ _ _ Hci' Hcc' C7) as (eL & VL & QL & _).
  pose proof (made_lifts _ (lifting_is_lift _ _ _ QL)) as ML. pose proof (evolves_history _ _ _ _ _ _ _ _ HA VL) as H7.
  (* and arrives at the caller *)
  assert (W3 : s_world s3 = s_world t7) by (rewrite <- E3; reflexivity).
  pose proof (history_world _ _ _ _ _ H7 s3 W3) as H3.
  pose proof (apart_leave insts inst inst' (rt_id rt) inst false s3 c2 s4 Hi E4) as P4.
  assert (M7 : made (opsA ++ map fst eL) = made opsA) by (rewrite made_app, ML; lia).
  destruct (apart_found _ _ _ _ _ _ _ _ _ _ _ i P4 H3 ltac:(rewrite M7; lia) Hi Hi') as (_ & B2 & opsB & rsB & HB & MB). rewrite M7 in MB.
  assert (Hvs : exists vs1 vs2, rvs = (vs1 ++ VU32 rep :: vs2)%list /\ List.length vs1 = List.length ts1) by (apply nth_error_split in R1; exact R1).
  destruct Hvs as (vs1 & vs2 & -> & Lv).
  assert (Hci : (cx_inst cx < insts)%nat) by (rewrite Ici; exact Hi). assert (Hcc : In (cx_id cx) c2) by (rewrite Icd; right; left; reflexivity).
  assert (BB : N.of_nat (made opsB + List.length (flat_map handles_in (ts1 ++ TOwn rt :: ts2))) < 2 ^ 32) by (fold kr; change (2 ^ 32) with two32; lia).
  destruct (own_value_given insts opsB rsB s4 c2 cx maxr ts1 rt ts2 kss1 kss2 vs1 rep vs2 (Some it) flat s5 ltac:(rewrite Ecx; exact HwA) HB) as (j & e & K1 & K2 & K3 & _); try assumption.
  rewrite Ici in K2, K3.
  pose proof (lowering_leaves_handles insts opsB rsB s4 c2 cx maxr _ _ _ _ s5 inst' rt i ltac:(rewrite Ecx; exact HwA) HB BB Hci Hcc Hi' E5) as (_ & L2).
  specialize (L2 ltac:(left; congruence)).
  destruct (lower_values_acts insts cx maxr (vs1 ++ VU32 rep :: vs2) (ts1 ++ TOwn rt :: ts2) (Some it) ltac:(rewrite Ecx; exact HwA) _ _ _ _ Hci Hcc E5) as (eW & VW & _ & MW).
  pose proof (evolves_history _ _ _ _ _ _ _ _ HB VW) as H5. fold kr in MW.
  (* to the end of the call *)
  pose proof (apart_leave insts inst inst' (rt_id rt) inst true s5 c2 s6 Hi E6) as P6.
  assert (P7 : exists c7, apart insts inst inst' (rt_id rt) 0 s6 c2 s7 c7 /\ In (cx_id cx) c7).
  { rewrite <- Epost in E7. unfold over_there in E7. destruct ((ret tt ;; exit_call_ignored cx') (other (s_mem t7) (s_hist t7) s6)) as [o7 u7] eqn:U7.
    injection E7 as -> <-. apply bind_inv in U7. destruct U7 as ([] & u6 & U6 & U7). unfold ret in U6. injection U6 as <-.
    destruct (apart_exit insts inst inst' (rt_id rt) cx' (other (s_mem t7) (s_hist t7) s6) c2 u7 Hcc' U7) as (c7 & (eX & VX & FX & MX) & IX).
    exists c7. split.
    - exists eX. split; [|auto]. destruct VX as (x1 & AX & WX). destruct (after_world _ _ _ _ _ _ AX s6 eq_refl) as (x2 & AX2 & WX2). exists x2. split; [exact AX2|]. rewrite WX2, WX. reflexivity.
    - apply IX. apply in_in_remove; [|exact Hcc]. rewrite Icd, Icd'. cbn [other s_world]. unfold ncalls.
      assert (Hlt : In (ncalls s) (ncalls s :: calls)) by (left; reflexivity).
      destruct (begin_call insts _ _ _ _ opts inst _ _ Hi H E1) as (H1 & _ & _).
      destruct (lift_values_acts insts order cx maxp (param_types ft) (IBase cargs 0) _ _ _ _ Hci ltac:(rewrite Icd; exact Hlt) E2) as (e2 & V2 & _).
      pose proof (evolves_history _ _ _ _ _ _ _ _ H1 V2) as H2. apply (calls_known _ _ _ _ _ H2) in Hlt. unfold ncalls in Hlt. cbn [other s_world]. lia. }
  destruct P7 as (c7 & P7 & I7).
  destruct (apart_exit insts inst inst' (rt_id rt) cx s7 c7 s8 I7 E8) as (c8 & P8 & _).
  assert (P9 : apart insts inst inst' (rt_id rt) 0 s8 c8 s9 c8).
  { destruct ci; [exact (apart_enter insts inst inst' (rt_id rt) inst true s8 c8 s9 Hi E9)|unfold ret in E9; injection E9 as <-; apply apart_world; reflexivity]. }
  pose proof (apart_trans _ _ _ _ _ _ _ _ _ _ _ _ (apart_trans _ _ _ _ _ _ _ _ _ _ _ _ (apart_trans _ _ _ _ _ _ _ _ _ _ _ _ P6 P7) P8) P9) as PZ. cbn [Nat.add] in PZ.
  assert (M5 : N.of_nat (made (opsB ++ map fst eW) + 0) < two32) by (rewrite made_app; lia).
  destruct (apart_found _ _ _ _ _ _ _ _ _ _ _ i PZ H5 M5 Hi Hi') as (_ & Z2 & _).
  destruct (apart_found _ _ _ _ _ _ _ _ _ _ _ j PZ H5 M5 Hi Hi') as (Z1 & _ & _).
  destruct (apart_found _ _ _ _ _ _ _ _ _ _ _ j PA H ltac:(lia) Hi Hi') as (A1 & _ & _).
  destruct (apart_found _ _ _ _ _ _ _ _ _ _ _ j P4 H3 ltac:(rewrite M7; lia) Hi Hi') as (B1 & _ & _).
  exists rep, j. split; [rewrite <- A2; exact R2|]. split.
  - rewrite Z2, L2, B2. rewrite (found_world t7 s3) by exact W3. exact R3.
  - split; [exact K1|]. split; [|rewrite Z1; exact K3].
    rewrite <- A1. rewrite B1, (found_world t7 s3) in K2 by exact W3.
    rewrite <- (lifting_leaves_others insts opsA rsA t5' c2 order' cx' maxr' _ _ _ t7 inst rt j HA ltac:(change (2 ^ 32) with two32; lia) Hci' Hcc' Hi C7 ltac:(left; congruence)).
    exact K2.
Qed.

(** ** Concrete calls *)
Definition as_is (m : list (string * any)) := m.
Definition give (t : valtype) : functype := mkFuncType [("a", TU8); ("h", t); ("b", TU8)]%string [].
Definition does_nothing (args : list any) : M any := ret (VList []).

(** Instance 0 has a file; a call of it to instance 1 has begun. *)
Definition with_file : state := snd (play [OpNew 0 file 42; OpEnter no_options 0] two_instances).
Definition ctx0 : callctx := mkCtx 0 0 EncUtf8 no_alloc.
Lemma with_file_history : history 2 [OpNew 0 file 42; OpEnter no_options 0] [Ok 0; Ok 0] with_file [0%nat].
Proof. exact (play_two [OpNew 0 file 42; OpEnter no_options 0] ltac:(proper_two)). Qed.
Lemma no_alloc_leaves : leaves_world no_alloc.
Proof. intros r s o m w E. injection E as <- <- <-. reflexivity. Qed.
Lemma no_alloc_orderly : forall insts, orderly_allocator insts no_alloc.
Proof.
  intros insts r ops rs s calls o s' H E. cbn in E. injection E as <- <-. exists [], calls. cbn [map]. rewrite !app_nil_r.
  split; [destruct s; exact H|apply incl_refl].
Qed.
Lemma byte_kinds : Forall2 flattens [TU8] [[KU32]].
Proof. constructor; [apply flatten_as_specified; reflexivity|constructor]. Qed.

Example own_argument_taken_used : exists vs it s',
  lift_values as_is ctx0 16 ([TU8] ++ TOwn file :: [TU8]) (IBase [CU32 5; CU32 0; CU32 6] 0) with_file = (Ok (vs, it), s') /\
  vs = [VU8 5; VU32 42; VU8 6] /\ found with_file 0 file 0 = Ok 42 /\ found s' 0 file 0 = Err ETrap.
Proof.
  eexists _, _, _. split; [vm_compute; reflexivity|]. split; [reflexivity|].
  destruct (own_argument_taken 2 _ _ _ _ as_is ctx0 16 [TU8] file [TU8] [[KU32]] [[KU32]] [CU32 5; CU32 0; CU32 6] 0
    [VU8 5; VU32 42; VU8 6] (IBase [CU32 5; CU32 0; CU32 6] 3) _ with_file_history ltac:(vm_compute; reflexivity) ltac:(vm_compute; lia) ltac:(left; reflexivity)
    byte_kinds byte_kinds ltac:(cbn; lia) eq_refl ltac:(vm_compute; reflexivity)) as (rep & A & B & C).
  injection A as <-. auto.
Qed.

Example borrow_argument_lent_used : exists s',
  lift_values as_is ctx0 16 ([TU8] ++ TBorrow file :: [TU8]) (IBase [CU32 5; CU32 0; CU32 6] 0) with_file =
    (Ok ([VU8 5; VU32 42; VU8 6], IBase [CU32 5; CU32 0; CU32 6] 3), s') /\
  found s' 0 file 0 = Ok 42 /\ fst (canon_resource_drop 0 file 0 s') = Err ETrap /\
  found (snd (exit_call 0 s')) 0 file 0 = Ok 42 /\ fst (canon_resource_drop 0 file 0 (snd (exit_call 0 s'))) = Ok tt.
Proof. eexists. split; [vm_compute; reflexivity|]. vm_compute. auto. Qed.

Example handle_not_passed_twice_used : forall t1 t2, In (t1, t2) [(TOwn file, TOwn file); (TOwn file, TBorrow file); (TBorrow file, TOwn file)] ->
  fst (lift_values as_is ctx0 16 ([] ++ t1 :: [TU8] ++ t2 :: []) (IBase [CU32 0; CU32 5; CU32 0] 0) with_file) = Err ETrap.
Proof. intros t1 t2 [E|[E|[E|[]]]]; injection E as <- <-; vm_compute; reflexivity. Qed.
(** Two borrows of the same handle are accepted. *)
Example borrowed_twice :
  exists s', lift_values as_is ctx0 16 [TBorrow file; TBorrow file] (IBase [CU32 0; CU32 0] 0) with_file = (Ok ([VU32 42; VU32 42], IBase [CU32 0; CU32 0] 2), s').
Proof. eexists. vm_compute. reflexivity. Qed.

Example value_given_used : exists s1 s2,
  lower_values (ctx1 0) 16 [VU8 5; VU32 42; VU8 6] ([TU8] ++ TOwn file :: [TU8]) None with_file = (Ok (map VCore [CU32 5; CU32 0; CU32 6]), s1) /\
  found with_file 1 file 0 = Err ETrap /\ found s1 1 file 0 = Ok 42 /\ found s1 0 file 0 = Ok 42 /\
  lower_values (ctx1 0) 16 [VU8 5; VU32 42; VU8 6] ([TU8] ++ TBorrow file :: [TU8]) None with_file = (Ok (map VCore [CU32 5; CU32 0; CU32 6]), s2) /\
  option_map h_own (entry s1 (1%nat, 7, 0)) = Some true /\ option_map h_own (entry s2 (1%nat, 7, 0)) = Some false /\
  fst (lower_values ctx0 16 [VU8 5; VU32 42; VU8 6] ([TU8] ++ TBorrow file :: [TU8]) None with_file) = Ok (map VCore [CU32 5; CU32 42; CU32 6]).
Proof. eexists _, _. split; [vm_compute; reflexivity|]. vm_compute. auto 10. Qed.

(** The callee gets the file, keeps it, and the caller has it no longer. *)
Definition pass (t : valtype) (core : list any -> M any) : M (list any) :=
  canon_lower as_is no_options 0 (linked as_is no_options 1 core (give t) 16 16 (mkMem [] 0) []) false (give t)
    (map VCore [CU32 5; CU32 0; CU32 6]) 16 16.
Definition one_file : state := snd (play [OpNew 0 file 42] two_instances).
Lemma one_file_history : history 2 [OpNew 0 file 42] [Ok 0] one_file [].
Proof. exact (play_two [OpNew 0 file 42] ltac:(proper_two)). Qed.

Example component_call_moves_handle_used : exists s', pass (TOwn file) does_nothing one_file = (Ok [], s') /\
  found one_file 0 file 0 = Ok 42 /\ found one_file 1 file 0 = Err ETrap /\ found s' 0 file 0 = Err ETrap /\ found s' 1 file 0 = Ok 42.
Proof. eexists. split; [vm_compute; reflexivity|]. vm_compute. auto. Qed.
(** The core function sees exactly that. *)
Example component_call_moves_handle_applies : forall core core',
  (forall args s1, (exists rep j, Ok rep = Ok (A := N) 42 /\ found s1 0 file 0 = Err ETrap /\ nth_error args 1 = Some (VCore (CU32 j)) /\
     found one_file 1 file j = Err ETrap /\ found s1 1 file j = Ok rep) -> core args s1 = core' args s1) ->
  pass (TOwn file) core one_file = pass (TOwn file) core' one_file.
Proof.
  intros core core' H. unfold pass.
  apply (component_call_moves_handle 2 _ _ one_file _ as_is no_options 0 false as_is no_options 1 core core' (give (TOwn file)) [TU8] file [TU8] [[KU32]] [[KU32]]
    (mkMem [] 0) [] [CU32 5; CU32 0; CU32 6] 0 16 16 16 16 no_alloc_leaves one_file_history); try exact byte_kinds; try reflexivity; try (cbn; lia); try (vm_compute; reflexivity).
  intros args s1 (rep & j & A1 & A2 & A3 & A4 & A5). apply H. exists rep, j. split; [symmetry; exact A1|]. auto.
Qed.

(** Instance 1 has a file and returns it. *)
Example component_call_returns_handle_used : exists s',
  let s := snd (play [OpNew 1 file 42] two_instances) in let ft := mkFuncType [("a", TU8)]%string [("r", TOwn file); ("b", TU8)]%string in
  canon_lower as_is no_options 0 (linked as_is no_options 1 (fun _ => ret (VList (map VCore [CU32 0; CU32 6]))) ft 16 16 (mkMem [] 0) []) false ft
    (map VCore [CU32 5]) 16 16 s = (Ok (map VCore [CU32 0; CU32 6]), s') /\
  found s 1 file 0 = Ok 42 /\ found s 0 file 0 = Err ETrap /\ found s' 1 file 0 = Err ETrap /\ found s' 0 file 0 = Ok 42.
Proof. eexists. cbv zeta. split; [vm_compute; reflexivity|]. vm_compute. auto. Qed.

Example drop_with_orderly_used : orderly 2 (canon_resource_drop_with (fun rep => canon_resource_drop 1 file rep) 0 file 3).
Proof. apply drop_with_orderly; [lia|]. intros rep. apply (proj2 (proj2 (resource_functions_orderly 2 1 file ltac:(lia)))). Qed.

Example component_call_orderly_used : orderly 2 (pass (TOwn file) (fun _ => let* _ := canon_resource_drop 1 file 0 in ret (VList []))).
Proof.
  apply component_call_orderly; [lia|lia|apply no_alloc_orderly|apply no_alloc_orderly| |discriminate].
  intros vs. apply orderly_then; [apply (proj2 (proj2 (resource_functions_orderly 2 1 file ltac:(lia))))|].
  intros x ops rs s calls o s' H E. inversion E; subst. exists [], calls. cbn. rewrite !app_nil_r. split; [exact H|apply incl_refl].
Qed.

(** ** What does not hold *)

(** A callee that keeps a borrowed handle does not make the call trap: the call
    succeeds, the owner can drop the resource, its destructor runs, and the
    callee still has its handle. *)
Theorem kept_borrow_traps_refuted : exists ops rs s s1 s2, history 2 ops rs s [] /\
  pass (TBorrow file) does_nothing s = (Ok [], s1) /\
  canon_resource_drop 0 file 0 s1 = (Ok tt, s2) /\ w_dtors (s_world s2) = [(7, 42)] /\ found s2 1 file 0 = Ok 42.
Proof.
  exists [OpNew 0 file 42], [Ok 0], one_file. eexists _, _. split; [exact one_file_history|].
  split; [vm_compute; reflexivity|]. split; [vm_compute; reflexivity|]. vm_compute. auto.
Qed.

(** A call that traps does not leave the handles as they were: the first
    parameter is gone although the second was not a handle. *)
Theorem trapping_call_keeps_handles_refuted : exists ops rs s ft s1, history 2 ops rs s [] /\ found s 0 file 0 = Ok 42 /\
  canon_lower as_is no_options 0 (linked as_is no_options 1 does_nothing ft 16 16 (mkMem [] 0) []) false ft
    (map VCore [CU32 0; CU32 9]) 16 16 s = (Err ETrap, s1) /\
  found s1 0 file 0 = Err ETrap /\ (forall j, found s1 1 file j = Err ETrap).
Proof.
  exists [OpNew 0 file 42], [Ok 0], one_file, (mkFuncType [("a", TOwn file); ("b", TOwn file)]%string []). eexists. split; [exact one_file_history|].
  split; [vm_compute; reflexivity|]. split; [vm_compute; reflexivity|]. split; [vm_compute; reflexivity|].
  intros j. unfold found, canon_resource_rep. cbn -[N.of_nat table_get]. unfold table_get. cbn [t_array empty_table List.length]. change (u32 (N.of_nat 0)) with 0. replace (0 <=? j) with true by (symmetry; apply N.leb_le; lia). reflexivity.
Qed.

Print Assumptions resource_functions_orderly.
Print Assumptions orderly_then.
Print Assumptions drop_with_orderly.
Print Assumptions lifted_call_orderly.
Print Assumptions lowered_call_orderly.
Print Assumptions component_call_orderly.
Print Assumptions own_argument_taken.
Print Assumptions borrow_argument_lent.
Print Assumptions handle_not_passed_twice.
Print Assumptions lifting_leaves_others.
Print Assumptions lowering_leaves_handles.
Print Assumptions own_value_given.
Print Assumptions borrow_value_given.
Print Assumptions component_call_moves_handle.
Print Assumptions component_call_returns_handle.
Print Assumptions kept_borrow_traps_refuted.
Print Assumptions trapping_call_keeps_handles_refuted.
