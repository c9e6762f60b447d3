(** Property theorems about CanonLift and CanonLower (C29-C31). *)
From Coq Require Import NArith ZArith List String Bool Lia ZifyBool ZifyNat ZifyN Permutation.
From Verif Require Import GoBase M_Types M_Layout S_Layout L_Layout M_State M_Utf M_Load M_Store M_Flat M_Canon
  S_Utf S_Values S_Memory S_Flat S_Canon L_Access L_Mem L_RoundTrip L_Flat L_Guards L_CtxFree L_Alloc L_Canon P_Memory.
Import ListNotations.
Open Scope N_scope.
Open Scope go_scope.

(** ** Concrete calls, to show the hypotheses can be met *)

Definition demo_opts : options := mkOpts EncUtf8 bump None.
(** Three instances: open, one that may not be entered, one that may not be left. *)
Definition demo_insts (n : nat) : state :=
  mkState (mkMem (repeat 0 n) (N.of_nat n)) []
    (mkWorld [] [] [mkInst true true []; mkInst false true []; mkInst true false []] []).
Definition demo_ft : functype :=
  mkFuncType [("a", TString); ("b", TOption TU8)]%string [("r", TString); ("q", TOption TU8)]%string.
Definition demo_args : list any := [VStr [72; 105]; VMap [("some", VU8 7)]]%string.
(** A core function that returns its parameters. *)
Definition echo : list any -> M any := fun flat => ret (VList flat).

Lemma list_ext : forall {A} (l l' : list A), (forall i, nth_error l i = nth_error l' i) -> l = l'.
Proof.
  intros A l. induction l as [|x l IH]; intros [|y l'] H; try (specialize (H 0%nat); discriminate); [reflexivity|].
  pose proof (H 0%nat) as H0. injection H0 as ->. f_equal. apply IH. intros i. exact (H (S i)).
Qed.

(** ** C29 *)

(** An instance that may not be entered, or not be left, refuses: an error, a
    trap when it may not be entered, and nothing has changed, whatever the
    callee, the types and the arguments. *)
Theorem lift_refused : forall s inst, may_not_enter s inst \/ may_not_leave s inst ->
  exists e, (may_not_enter s inst -> e = ETrap) /\
    forall order opts callee ft args maxp maxr,
      canon_lift order opts inst callee ft args maxp maxr s = (Err e, s).
Proof.
  intros s inst H. eexists. split; [|intros; apply lift_refuses; exact H].
  intros [l E]. destruct (guards_nth _ _ _ _ E) as (x & Ex & Xe & _). rewrite (inst_at_nth _ _ _ Ex), Xe. reflexivity.
Qed.

(** The same for the other direction, except that a call nothing refers to has
    been opened; here not being allowed to leave is the trap. *)
Theorem lower_refused : forall s inst, may_not_enter s inst \/ may_not_leave s inst ->
  exists e, (may_not_leave s inst -> e = ETrap) /\
    forall order opts callee ci ft args maxp maxr,
      canon_lower order opts inst callee ci ft args maxp maxr s = (Err e, with_call s).
Proof.
  intros s inst H. eexists. split; [|intros; apply lower_refuses; exact H].
  intros [l E]. destruct (guards_nth _ _ _ _ E) as (x & Ex & _ & Xl). rewrite (inst_at_nth _ _ _ Ex), Xl. reflexivity.
Qed.

Lemma memory_only_keeps : forall f, keeps_guards (memory_only f).
Proof.
  intros f r s o m w E. unfold memory_only in E. destruct (f (s_hist s) r (s_mem s)) as [[p m']|e| |]; inversion E; reflexivity.
Qed.
Lemma demo_keeps : keeps_guards (o_realloc demo_opts).
Proof. apply memory_only_keeps. Qed.

Example refused_applies : may_not_enter (demo_insts 200) 1 /\ may_not_leave (demo_insts 200) 2 /\
  may_enter (demo_insts 200) 0 /\ may_leave (demo_insts 200) 0 /\
  canon_lift (fun m => m) demo_opts 1 echo demo_ft demo_args 16 16 (demo_insts 200) = (Err ETrap, demo_insts 200).
Proof. repeat split; eexists; reflexivity. Qed.

(** While arguments are lowered the instance may not be left: whatever they
    are, they are lowered in a state that differs from the first one only in
    that guard (and in the call just opened), lowering changes no guard of any
    instance, and what the call does then depends on them only through what
    they are lowered to. The same guard is set while results are lowered. *)
Theorem lift_lowers_locked : forall order opts inst callee ft maxp maxr s, keeps_guards (o_realloc opts) ->
  may_enter s inst -> may_leave s inst ->
  exists cx s0 rest, cx_enc cx = o_enc opts /\ cx_realloc cx = o_realloc opts /\
    locked s inst s0 /\ s_mem s0 = s_mem s /\ s_hist s0 = s_hist s /\
    forall args,
      canon_lift order opts inst callee ft args maxp maxr s =
        bind (lower_values cx maxp args (param_types ft) None) rest s0 /\
      (forall o s1, lower_values cx maxp args (param_types ft) None s0 = (o, s1) -> locked s inst s1).
Proof.
  intros order opts inst callee ft maxp maxr s Hal He Hl.
  destruct (lift_runs order opts inst callee ft [] maxp maxr s He Hl) as (s0 & L & M0 & H0 & E0 & _).
  exists (call_ctx opts inst s), s0. eexists. split; [reflexivity|]. split; [reflexivity|]. split; [exact L|]. split; [exact M0|]. split; [exact H0|].
  intros args. split.
  { destruct (lift_runs order opts inst callee ft args maxp maxr s He Hl) as (s0' & _ & _ & _ & E0' & E). rewrite E0 in E0'. injection E0' as <-. exact E. }
  intros o s1 E1. pose proof (quiet_lower_values (call_ctx opts inst s) _ _ _ _ Hal _ _ _ E1) as G. unfold locked. rewrite G. exact L.
Qed.

Lemma lock_locked : forall s inst s', set_may_leave inst false s = (Ok tt, s') -> locked s inst s'.
Proof.
  intros s inst s' E. destruct (set_leave_run inst false s) as (s1 & E1 & _ & _ & L & O & I & _).
  rewrite E1 in E. injection E as <-. split; [exact L|]. split; [exact O|exact I].
Qed.

(** The same for results: once the callee has returned (state [s2]), they are,
    whatever they are, lowered in a state that differs from [s2] in that guard
    only. *)
Theorem lower_lowers_locked : forall order opts inst ci ft args maxp maxr s cargs vs it s1 post s2, keeps_guards (o_realloc opts) ->
  may_enter s inst -> may_leave s inst -> as_core args = Ok cargs ->
  (forall cx, cx_inst cx = inst -> lift_values order cx maxp (param_types ft) (IBase cargs 0) (with_call s) = (Ok (vs, it), s1)) ->
  exists cx s3 rest, cx_enc cx = o_enc opts /\ cx_realloc cx = o_realloc opts /\
    locked s2 inst s3 /\ s_mem s3 = s_mem s2 /\ s_hist s3 = s_hist s2 /\
    forall callee rs, callee vs s1 = (Ok (rs, post), s2) ->
      canon_lower order opts inst callee ci ft args maxp maxr s =
        bind (lower_values cx maxr rs (result_types ft) (Some it)) rest s3 /\
      (forall o s4, lower_values cx maxr rs (result_types ft) (Some it) s3 = (o, s4) -> locked s2 inst s4).
Proof.
  intros order opts inst ci ft args maxp maxr s cargs vs it s1 post s2 Hal He Hl Ea Ev.
  destruct (set_leave_run inst false s2) as (s3 & E3 & M3 & H3 & _).
  exists (call_ctx opts inst s), s3. eexists. split; [reflexivity|]. split; [reflexivity|].
  split; [apply lock_locked; exact E3|]. split; [exact M3|]. split; [exact H3|]. intros callee rs Ec. split.
  { rewrite (lower_runs order opts inst callee ci ft args maxp maxr s He Hl).
    unfold bind at 1, lift_o at 1. rewrite Ea. erewrite bind_ok; [|apply Ev; reflexivity]. cbv beta iota.
    erewrite bind_ok; [|exact Ec]. unfold lower_rest. erewrite bind_ok; [|exact E3]. reflexivity. }
  intros o s4 E4. pose proof (quiet_lower_values (call_ctx opts inst s) _ _ _ _ Hal _ _ _ E4) as G. unfold locked. rewrite G.
  apply lock_locked. exact E3.
Qed.

Example lower_lowers_locked_applies : forall cx, cx_inst cx = 0%nat ->
  lift_values (fun m => m) cx 16 [TU32; TOption TU8] (IBase [CU32 9; CU32 1; CU32 7] 0) (with_call (demo_insts 200))
  = (Ok ([VU32 9; VMap [("some", VU8 7)]]%string, IBase [CU32 9; CU32 1; CU32 7] 3), with_call (demo_insts 200)).
Proof. reflexivity. Qed.

(** Two computations that do the same in the states of [P] and stay there. *)
Definition same_in (P : state -> Prop) (A : Type) (m m' : M A) : Prop := forall s, P s -> m s = m' s /\ P (snd (m s)).
Lemma lower_values_same : forall (P : state -> Prop) id inst enc al1 al2 n vs ts out,
  (forall s s', guards s' = guards s -> P s -> P s') -> keeps_guards al1 -> (forall r s, P s -> al1 r s = al2 r s) ->
  same_in P _ (lower_values (mkCtx id inst enc al1) n vs ts out) (lower_values (mkCtx id inst enc al2) n vs ts out).
Proof.
  intros P id inst enc al1 al2 n vs ts out HP Hk Ha.
  assert (Q : forall A (m : M A), quiet m -> same_in P A m m).
  { intros A m Hq s Hs. split; [reflexivity|]. destruct (m s) as [o s1] eqn:E. eapply HP; [exact (Hq _ _ _ E)|exact Hs]. }
  apply (rel_lower_values (same_in P)); intros.
  - apply Q. apply quiet_lift.
  - apply Q. apply quiet_get_mem.
  - apply Q. apply quiet_store_bytes.
  - intros s Hs. destruct (H s Hs) as [E Hs1]. unfold bind. rewrite <- E. destruct (m s) as [[x|e| |] s1]; cbn [snd] in *; auto. apply H0. exact Hs1.
  - intros s Hs. split.
    + unfold realloc. cbn [cx_realloc]. rewrite (Ha _ s Hs). reflexivity.
    + destruct (realloc (mkCtx id inst enc al1) a b c d s) as [o s1] eqn:E. eapply HP; [|exact Hs]. eapply quiet_realloc; [|exact E]. exact Hk.
  - apply (Q _ (lower_own (mkCtx id inst enc al1) v rt)). apply quiet_lower_own.
  - apply (Q _ (lower_borrow (mkCtx id inst enc al1) v rt)). apply quiet_lower_borrow.
Qed.
Lemma lift_values_same : forall order id inst enc al1 al2 n ts it,
  agree (lift_values order (mkCtx id inst enc al1) n ts it) (lift_values order (mkCtx id inst enc al2) n ts it).
Proof.
  intros order id inst enc al1 al2 n ts it. apply (rel_lift_values (fun A (m m' : M A) => agree m m')); intros; try apply agree_refl.
  apply agree_bind; assumption.
Qed.

(** Realloc only ever runs while the instance may not be left, and with the
    other guards as they were before the call: how it behaves in other states
    does not matter. *)
Theorem lift_allocates_locked : forall order enc alloc alloc' post inst callee ft args maxp maxr s, keeps_guards alloc ->
  (inst < List.length (guards s))%nat ->
  (forall r s1, locked s inst s1 -> alloc r s1 = alloc' r s1) ->
  canon_lift order (mkOpts enc alloc post) inst callee ft args maxp maxr s = canon_lift order (mkOpts enc alloc' post) inst callee ft args maxp maxr s.
Proof.
  intros order enc alloc alloc' post inst callee ft args maxp maxr s Hal Hi H.
  destruct (nth_error (guards s) inst) as [[[|] [|]]|] eqn:E.
  5: apply nth_error_None in E; lia.
  2,3,4: (rewrite !lift_refuses; [reflexivity|first [left; eexists; exact E|right; eexists; exact E]..]).
  destruct (lift_runs order (mkOpts enc alloc post) inst callee ft args maxp maxr s) as (s0 & L & _ & _ & E0 & ->); try (eexists; exact E).
  destruct (lift_runs order (mkOpts enc alloc' post) inst callee ft args maxp maxr s) as (s0' & _ & _ & _ & E0' & ->); try (eexists; exact E).
  rewrite E0 in E0'. injection E0' as <-. unfold call_ctx. cbn [o_enc o_realloc]. generalize (List.length (w_calls (s_world s))). intros id.
  destruct (lower_values_same (locked s inst) id inst enc alloc alloc' maxp args (param_types ft) None) with (s := s0) as [E1 _]; try assumption.
  { intros u u' G (L1 & L2 & L3). unfold locked. rewrite G. auto. }
  unfold bind at 1. rewrite E1. unfold bind at 1.
  destruct (lower_values (mkCtx id inst enc alloc') maxp args (param_types ft) None s0) as [[flat|e| |] s1]; try reflexivity.
  revert s1 E1. unfold lift_rest. intros s1 _. revert s1.
  apply agree_bind; [apply agree_refl|]. intros _. apply agree_bind; [apply agree_refl|]. intros res. destruct res; try apply agree_refl.
  apply agree_bind; [apply agree_refl|]. intros cvs. apply agree_bind; [apply lift_values_same|]. intros [lifted it]. apply agree_refl.
Qed.

(** The same for results, when the callee leaves no fewer instances. *)
Theorem lower_allocates_locked : forall order enc alloc alloc' post inst callee ci ft args maxp maxr s, keeps_guards alloc ->
  (inst < List.length (guards s))%nat ->
  (forall vs s1 r s2, callee vs s1 = (Ok r, s2) -> (List.length (guards s1) <= List.length (guards s2))%nat) ->
  (forall r s1, may_not_leave s1 inst -> alloc r s1 = alloc' r s1) ->
  canon_lower order (mkOpts enc alloc post) inst callee ci ft args maxp maxr s = canon_lower order (mkOpts enc alloc' post) inst callee ci ft args maxp maxr s.
Proof.
  intros order enc alloc alloc' post inst callee ci ft args maxp maxr s Hal Hi Hcal H.
  destruct (nth_error (guards s) inst) as [[[|] [|]]|] eqn:E.
  5: apply nth_error_None in E; lia.
  2,3,4: (rewrite !lower_refuses; [reflexivity|first [left; eexists; exact E|right; eexists; exact E]..]).
  rewrite (lower_runs order (mkOpts enc alloc post)), (lower_runs order (mkOpts enc alloc' post)) by (eexists; exact E).
  unfold call_ctx. cbn [o_enc o_realloc]. generalize (List.length (w_calls (s_world s))). intros id.
  unfold bind at 1. unfold bind at 3. unfold lift_o at 1. unfold lift_o at 1. destruct (as_core args) as [cs|e| |]; try reflexivity.
  unfold bind at 1. unfold bind at 2. rewrite (lift_values_same order id inst enc alloc alloc' maxp (param_types ft) (IBase cs 0) (with_call s)).
  pose proof (quiet_lift_values order (mkCtx id inst enc alloc') maxp (param_types ft) (IBase cs 0)) as Hq.
  destruct (lift_values order (mkCtx id inst enc alloc') maxp (param_types ft) (IBase cs 0) (with_call s)) as [[[vs it]|e| |] s1] eqn:E1; try reflexivity.
  apply Hq in E1. unfold bind. destruct (callee vs s1) as [[[rs post']|e| |] s2] eqn:E2; try reflexivity.
  apply Hcal in E2. change (lower_rest inst ci ft maxr (mkCtx id inst enc alloc) it (rs, post') s2 = lower_rest inst ci ft maxr (mkCtx id inst enc alloc') it (rs, post') s2). unfold lower_rest.
  destruct (set_leave_run inst false s2) as (s3 & E3 & _ & _ & L3 & _ & I3 & _). rewrite !(bind_ok _ _ _ _ _ E3).
  assert (Hs3 : may_not_leave s3 inst).
  { destruct (nth_error (guards s2) inst) as [[e l]|] eqn:G; [exists e; exact (I3 _ _ eq_refl)|]. apply nth_error_None in G. rewrite E1 in E2.
    change (guards (with_call s)) with (guards s) in E2. lia. }
  destruct (lower_values_same (fun u => may_not_leave u inst) id inst enc alloc alloc' maxr rs (result_types ft) (Some it)) with (s := s3) as [E4 _]; try assumption.
  { intros u u' G (x & X). exists x. rewrite G. exact X. }
  unfold bind at 1. rewrite E4. reflexivity.
Qed.

(** An allocator that only works while instance 0 may not be left. *)
Definition picky : req -> state -> outcome N * (memory * world) := fun r s =>
  if i_may_leave (inst_at (s_world s) 0) then (Err EOther, (s_mem s, s_world s)) else bump r s.
Lemma picky_locked : forall r s, may_not_leave s 0 -> bump r s = picky r s.
Proof.
  intros r s [e H]. unfold picky. destruct (guards_nth _ _ _ _ H) as (x & Ex & _ & Xl). rewrite (inst_at_nth _ _ _ Ex), Xl. reflexivity.
Qed.
Example lift_allocates_locked_applies :
  canon_lift (fun m => m) (mkOpts EncUtf8 picky None) 0 echo demo_ft demo_args 16 16 (demo_insts 200) =
  canon_lift (fun m => m) demo_opts 0 echo demo_ft demo_args 16 16 (demo_insts 200) /\
  exists rs s1, canon_lift (fun m => m) demo_opts 0 echo demo_ft demo_args 16 16 (demo_insts 200) = (Ok rs, s1) /\ s_hist s1 <> [].
Proof.
  split.
  - symmetry. apply (lift_allocates_locked (fun m => m) EncUtf8 bump picky None); [apply memory_only_keeps|cbn; lia|].
    intros r s1 (_ & _ & L). apply picky_locked. exists true. exact (L true true eq_refl).
  - eexists _, _. split; [vm_compute; reflexivity|discriminate].
Qed.
Definition hello : list any -> M (list any * option (M unit)) := fun _ => ret ([VStr [72; 105]], Some (ret tt)).
Example lower_allocates_locked_applies : let ft := mkFuncType [] [("r", TString)]%string in
  canon_lower (fun m => m) (mkOpts EncUtf8 picky None) 0 hello false ft [] 16 16 (demo_insts 200) =
  canon_lower (fun m => m) demo_opts 0 hello false ft [] 16 16 (demo_insts 200) /\
  exists rs s1, canon_lower (fun m => m) demo_opts 0 hello false ft [] 16 16 (demo_insts 200) = (Ok rs, s1) /\ s_hist s1 <> [].
Proof.
  cbv zeta. split.
  - symmetry. apply (lower_allocates_locked (fun m => m) EncUtf8 bump picky None); [apply memory_only_keeps|cbn; lia| |exact picky_locked].
    intros vs s1 r s2 E. injection E as _ <-. lia.
  - eexists _, _. split; [vm_compute; reflexivity|discriminate].
Qed.

(** The callee of a lifted function only ever runs with all guards as they were
    before the call: how it behaves in other states does not matter. *)
Theorem lifted_callee_sees_guards : forall order opts inst callee callee' ft args maxp maxr s, keeps_guards (o_realloc opts) ->
  (inst < List.length (guards s))%nat ->
  (forall vs s1, guards s1 = guards s -> callee vs s1 = callee' vs s1) ->
  canon_lift order opts inst callee ft args maxp maxr s = canon_lift order opts inst callee' ft args maxp maxr s.
Proof.
  intros order opts inst callee callee' ft args maxp maxr s Hal Hi H.
  destruct (nth_error (guards s) inst) as [[[|] [|]]|] eqn:E.
  5: apply nth_error_None in E; lia.
  2,3,4: (rewrite !lift_refuses; [reflexivity|first [left; eexists; exact E|right; eexists; exact E]..]).
  destruct (lift_runs order opts inst callee ft args maxp maxr s) as (s0 & L & _ & _ & E0 & ->); try (eexists; exact E).
  destruct (lift_runs order opts inst callee' ft args maxp maxr s) as (s0' & _ & _ & _ & E0' & ->); try (eexists; exact E).
  rewrite E0 in E0'. injection E0' as <-. unfold bind.
  destruct (lower_values (call_ctx opts inst s) maxp args (param_types ft) None s0) as [[flat|e| |] s1] eqn:El; try reflexivity.
  unfold lift_rest, bind. destruct (set_leave_run inst true s1) as (s2 & E2 & _ & _ & L2 & O2 & I2 & _).
  rewrite E2. rewrite <- H; [reflexivity|].
  pose proof (quiet_lower_values (call_ctx opts inst s) _ _ _ _ Hal _ _ _ El) as G. rewrite G in L2, O2, I2. destruct L as (L & O & I).
  apply list_ext. intros i. destruct (Nat.eq_dec i inst) as [->|Hn].
  - rewrite E. eapply I2. eapply I. exact E.
  - rewrite O2, O by exact Hn. reflexivity.
Qed.

(** The host function behind a lowered import, too. *)
Theorem lowered_callee_sees_guards : forall order opts inst callee callee' ci ft args maxp maxr s,
  (inst < List.length (guards s))%nat ->
  (forall vs s1, guards s1 = guards s -> callee vs s1 = callee' vs s1) ->
  canon_lower order opts inst callee ci ft args maxp maxr s = canon_lower order opts inst callee' ci ft args maxp maxr s.
Proof.
  intros order opts inst callee callee' ci ft args maxp maxr s Hi H.
  destruct (nth_error (guards s) inst) as [[[|] [|]]|] eqn:E.
  5: apply nth_error_None in E; lia.
  2,3,4: (rewrite !lower_refuses; [reflexivity|first [left; eexists; exact E|right; eexists; exact E]..]).
  rewrite !lower_runs by (eexists; exact E). unfold bind, lift_o. destruct (as_core args) as [cargs|e| |]; try reflexivity.
  destruct (lift_values order (call_ctx opts inst s) maxp (param_types ft) (IBase cargs 0) (with_call s)) as [[[vs it]|e| |] s1] eqn:El; try reflexivity.
  pose proof (quiet_lift_values _ _ _ _ _ _ _ _ El) as G. rewrite <- H; [reflexivity|exact G].
Qed.

(** ** C30 *)

(** After a call of a lifted function that returned without error the instance
    may be left again, provided the callee did not itself forbid it; the
    post-return step, run at any later time, keeps it so. *)
Theorem lift_restores_leave : forall order opts inst callee ft args maxp maxr s rs post s', keeps_guards (o_realloc opts) ->
  (inst < List.length (guards s))%nat ->
  (forall vs, keeps_leave inst (callee vs)) ->
  (forall f, o_post_return opts = Some f -> keeps_leave inst f) ->
  canon_lift order opts inst callee ft args maxp maxr s = (Ok (rs, post), s') ->
  may_leave s' inst /\ keeps_leave inst post.
Proof.
  intros order opts inst callee ft args maxp maxr s rs post s' Hal Hi Hk Hp E.
  destruct (nth_error (guards s) inst) as [[[|] [|]]|] eqn:Eg.
  5: apply nth_error_None in Eg; lia.
  2,3,4: (rewrite lift_refuses in E; [discriminate|first [left; eexists; exact Eg|right; eexists; exact Eg]]).
  destruct (lift_runs order opts inst callee ft args maxp maxr s) as (s0 & L & _ & _ & _ & E0); try (eexists; exact Eg).
  rewrite E0 in E. unfold bind at 1 in E.
  destruct (lower_values (call_ctx opts inst s) maxp args (param_types ft) None s0) as [[flat|e| |] s1] eqn:El; try discriminate.
  pose proof (quiet_lower_values (call_ctx opts inst s) _ _ _ _ Hal _ _ _ El) as G. destruct L as (_ & _ & L). specialize (L _ _ Eg).
  unfold lift_rest in E. destruct (set_leave_run inst true s1) as (s2 & E2 & _ & _ & _ & _ & I2 & _).
  unfold bind at 1 in E. rewrite E2 in E.
  assert (V : may_leave s2 inst) by (eexists; eapply I2; rewrite G; exact L).
  unfold bind at 1 in E. destruct (callee flat s2) as [[res|e| |] s3] eqn:Ec; try discriminate.
  apply Hk in Ec. specialize (Ec V). destruct res; try discriminate.
  unfold bind at 1, lift_o at 1 in E. destruct (as_core l) as [cvs|e| |]; try discriminate.
  unfold bind at 1 in E.
  destruct (lift_values order (call_ctx opts inst s) maxr (result_types ft) (IBase cvs 0) s3) as [[[vs it]|e| |] s4] eqn:Ev; try discriminate.
  pose proof (quiet_lift_values _ _ _ _ _ _ _ _ Ev) as G4. unfold ret in E. injection E as <- Ep <-. split.
  - destruct Ec as [e4 E4]. exists e4. rewrite G4. exact E4.
  - rewrite <- Ep. apply keeps_bind; [|intros _; apply quiet_leave; apply quiet_exit_ignored].
    destruct (o_post_return opts) as [f|]; [apply Hp; reflexivity|apply quiet_leave; apply quiet_ret].
Qed.

(** The same for a lowered import, which runs the callee's post-return step
    itself; an import called from the instance may afterwards be entered. *)
Theorem lower_restores_leave : forall order opts inst callee ci ft args maxp maxr s flat s', keeps_guards (o_realloc opts) ->
  (inst < List.length (guards s))%nat ->
  (forall vs s1 rs post s2, callee vs s1 = (Ok (rs, Some post), s2) -> guards s1 = guards s ->
     List.length (guards s2) = List.length (guards s) /\ keeps_leave inst post) ->
  canon_lower order opts inst callee ci ft args maxp maxr s = (Ok flat, s') ->
  may_leave s' inst /\ (ci = true -> may_enter s' inst).
Proof.
  intros order opts inst callee ci ft args maxp maxr s flat s' Hal Hi Hk E.
  destruct (nth_error (guards s) inst) as [[[|] [|]]|] eqn:Eg.
  5: apply nth_error_None in Eg; lia.
  2,3,4: (rewrite lower_refuses in E; [discriminate|first [left; eexists; exact Eg|right; eexists; exact Eg]]).
  rewrite lower_runs in E by (eexists; exact Eg). unfold bind at 1, lift_o at 1 in E.
  destruct (as_core args) as [cargs|e| |]; try discriminate. unfold bind at 1 in E.
  destruct (lift_values order (call_ctx opts inst s) maxp (param_types ft) (IBase cargs 0) (with_call s)) as [[[vs it]|e| |] s1] eqn:El; try discriminate.
  pose proof (quiet_lift_values _ _ _ _ _ _ _ _ El) as G1. unfold bind at 1 in E.
  destruct (callee vs s1) as [[[rs post]|e| |] s2] eqn:Ec; try discriminate. cbv beta iota in E. unfold lower_rest in E.
  destruct (set_leave_run inst false s2) as (s3 & E3 & _ & _ & L3 & _ & _ & _).
  unfold bind at 1 in E. rewrite E3 in E. unfold bind at 1 in E.
  destruct (lower_values (call_ctx opts inst s) maxr rs (result_types ft) (Some it) s3) as [[fl|e| |] s4] eqn:Ew; try discriminate.
  pose proof (quiet_lower_values (call_ctx opts inst s) _ _ _ _ Hal _ _ _ Ew) as G4.
  destruct (set_leave_run inst true s4) as (s5 & E5 & _ & _ & _ & _ & I5 & _).
  unfold bind at 1 in E. rewrite E5 in E. unfold bind at 1 in E.
  destruct post as [f|]; [|discriminate]. destruct (Hk _ _ _ _ _ Ec G1) as [Hlen Hf].
  assert (V5 : may_leave s5 inst).
  { destruct (nth_error (guards s4) inst) as [[e4 l4]|] eqn:E4; [eexists; eapply I5; reflexivity|].
    apply nth_error_None in E4. rewrite G4, L3, Hlen in E4. lia. }
  destruct (f s5) as [[u|e| |] s6] eqn:E6; try discriminate. pose proof (Hf _ _ _ E6 V5) as V6.
  unfold bind at 1 in E. destruct (exit_call_ignored (call_ctx opts inst s) s6) as [[u'|e| |] s7] eqn:E7; try discriminate.
  pose proof (quiet_exit_ignored _ _ _ _ E7) as G7. destruct V6 as [b V6].
  unfold bind at 1 in E. destruct ci.
  - destruct (set_enter_run inst true s7) as (s8 & E8 & _ & I8). rewrite E8 in E. injection E as <- <-.
    rewrite G7 in I8. specialize (I8 _ _ V6). split; [|intros _]; eexists; exact I8.
  - injection E as <- <-. split; [|discriminate]. exists b. rewrite G7. exact V6.
Qed.

(** The conditions are met by every callee that leaves the guards alone. *)
Lemma echo_keeps : forall inst vs, keeps_leave inst (echo vs).
Proof. intros. apply quiet_leave. apply quiet_ret. Qed.

Example lift_restores_applies : exists rs post s',
  canon_lift (fun m => m) demo_opts 0 echo demo_ft demo_args 16 16 (demo_insts 200) = (Ok (rs, post), s') /\
  rs = demo_args /\ may_leave s' 0 /\ keeps_guards (o_realloc demo_opts).
Proof.
  eexists. eexists. eexists. split; [vm_compute; reflexivity|]. split; [reflexivity|]. split; [eexists; reflexivity|exact demo_keeps].
Qed.

(** A host function that returns its arguments, with a post-return step. *)
Definition host_echo : list any -> M (list any * option (M unit)) := fun vs => ret (vs, Some (ret tt)).

Example lower_restores_applies : exists flat s',
  canon_lower (fun m => m) demo_opts 0 host_echo true
    (mkFuncType [("a", TU32); ("b", TOption TU8)] [("r", TU32); ("q", TOption TU8)])%string
    (map VCore [CU32 9; CU32 1; CU32 7]) 16 16 (demo_insts 200) = (Ok flat, s') /\
  flat = map VCore [CU32 9; CU32 1; CU32 7] /\ may_leave s' 0 /\
  (forall vs s1 rs post s2, host_echo vs s1 = (Ok (rs, Some post), s2) -> guards s1 = guards (demo_insts 200) ->
     List.length (guards s2) = List.length (guards (demo_insts 200)) /\ keeps_leave 0 post).
Proof.
  eexists. eexists. split; [vm_compute; reflexivity|]. split; [reflexivity|]. split; [eexists; reflexivity|].
  intros vs s1 rs post s2 E G. inversion E; subst. split; [rewrite G; reflexivity|]. apply quiet_leave. apply quiet_ret.
Qed.

(** When lowering the arguments fails, the call fails with that error and the
    instance may not be left afterwards ... *)
Theorem failed_lowering_locks : forall order opts inst callee ft args maxp maxr s, keeps_guards (o_realloc opts) ->
  may_enter s inst -> may_leave s inst ->
  (forall cx s0, exists e s1, lower_values cx maxp args (param_types ft) None s0 = (Err e, s1)) ->
  exists e s', canon_lift order opts inst callee ft args maxp maxr s = (Err e, s') /\ locked s inst s'.
Proof.
  intros order opts inst callee ft args maxp maxr s Hal He Hl Hf.
  destruct (lift_lowers_locked order opts inst callee ft maxp maxr s Hal He Hl) as (cx & s0 & rest & _ & _ & L & _ & _ & EK).
  destruct (EK args) as [E K].
  destruct (Hf cx s0) as (e & s1 & E1). exists e, s1. rewrite E. unfold bind. rewrite E1. split; [reflexivity|].
  apply (K _ _ E1).
Qed.

(** ... for good: every later call through it, in either direction, fails and
    leaves the guards as they are. *)
Theorem locked_instance_stays_locked : forall s inst, may_not_leave s inst ->
  (forall order opts callee ft args maxp maxr, exists e s',
     canon_lift order opts inst callee ft args maxp maxr s = (Err e, s') /\ guards s' = guards s) /\
  (forall order opts callee ci ft args maxp maxr, exists e s',
     canon_lower order opts inst callee ci ft args maxp maxr s = (Err e, s') /\ guards s' = guards s).
Proof.
  intros s inst H. split.
  - intros. destruct (lift_refused s inst (or_intror H)) as (e & _ & E). exists e, s. split; [apply E|reflexivity].
  - intros. destruct (lower_refused s inst (or_intror H)) as (e & _ & E). eexists e, _. split; [apply E|reflexivity].
Qed.

Example failed_lowering_applies : forall cx s0, exists e s1,
  lower_values cx 16 [VStr [1]] (param_types (mkFuncType [("a", TU8)]%string [])) None s0 = (Err e, s1).
Proof. intros. eexists. eexists. reflexivity. Qed.

(** So it is not true that a call restores the guard whatever its outcome. *)
Theorem leave_restored_after_error_refuted : exists order opts inst callee ft args maxp maxr s e s',
  may_leave s inst /\ (forall vs, keeps_leave inst (callee vs)) /\
  canon_lift order opts inst callee ft args maxp maxr s = (Err e, s') /\ ~ may_leave s' inst.
Proof.
  exists (fun m => m), demo_opts, 0%nat, echo, (mkFuncType [("a", TU8)]%string []), [VStr [1]], 16%nat, 16%nat, (demo_insts 200).
  eexists. eexists. split; [eexists; reflexivity|]. split; [apply echo_keeps|]. split; [vm_compute; reflexivity|].
  intros [e E]. vm_compute in E. discriminate.
Qed.

(** ** C31 *)

(** Values lowered within the flat limit are all core values, of the flattened
    types; and lifted by any other context with the same string encoding, at
    any later time when the memory they use has not changed, they are the same
    values in the same order. *)
Theorem values_arrive : forall cx init ts kss vs out maxf s o s1,
  correct_allocator cx init -> Forall wf_type ts -> Forall handle_free ts ->
  Forall2 flattens ts kss -> (List.length (List.concat kss) <= maxf)%nat ->
  Forall2 (has_type (cx_enc cx)) ts vs -> wf_mem (s_mem s) ->
  lower_values cx maxf vs ts out s = (o, s1) ->
  (exists cs, o = Ok (map VCore cs) /\ as_core (map VCore cs) = Ok cs /\ map cval_kind cs = List.concat kss /\
    forall order cy maxf' s2, cx_enc cy = cx_enc cx -> (List.length (List.concat kss) <= maxf')%nat ->
      wf_mem (s_mem s2) -> m_len (s_mem s1) <= m_len (s_mem s2) ->
      (forall b, owned init (s_hist s1) b -> ~ owned init (s_hist s) b -> byte (s_mem s2) b = byte (s_mem s1) b) ->
      exists vs', lift_values order cy maxf' ts (IBase cs 0) s2 = (Ok (vs', IBase cs (List.length cs)), s2) /\
        all_same ts vs vs')
  \/ alloc_failed cx o.
Proof.
  intros cx init ts kss vs out maxf s o s1 Hc Hwf Hhf Hk Hn Hty Hm E.
  destruct (flatten_types_ok ts kss Hk) as [Ek Ef].
  unfold lower_values in E. unfold bind at 1, lift_o at 1 in E. rewrite Ef in E.
  apply Nat.leb_le in Hn. rewrite Hn in E. unfold bind in E.
  destruct (lower_each (map (lower_flat cx) ts) vs s) as [o1 s1'] eqn:E1.
  destruct (lower_each_rt cx init ts vs kss Hc Hwf Hty Ek s o1 s1' Hm) as [(cs & -> & S & K)|F]; try assumption.
  - intros b [H1 H2]. lia.
  - destruct Hm. unfold len. lia.
  - injection E as <- <-. left. exists cs. split; [reflexivity|]. split; [apply as_core_map|].
    assert (K1 : kept init 0 0 s s1' s1') by (split; [apply (st_good _ _ _ _ S)|]; split; [lia|reflexivity]).
    split; [apply (K _ K1)|]. intros order cy maxf' s2 Henc Hn' Hm2 Hl Hb. destruct (K s2) as (_ & HL).
    { split; [exact Hm2|]. split; [exact Hl|]. intros b [[H1 H2]|[H1 H2]]; [lia|auto]. }
    pose proof (yields_base cs [] []) as Y. rewrite app_nil_r in Y. cbn [app List.length Nat.add] in Y.
    destruct (HL _ _ Y) as (vs' & Ev & Sv). exists vs'. split; [|exact Sv].
    unfold lift_values. unfold bind at 1, lift_o at 1. rewrite Ef. apply Nat.leb_le in Hn'. rewrite Hn'.
    rewrite (lift_each_agree cy cx ts Henc Hhf). exact Ev.
  - right. destruct o1; inversion E; subst; try exact F.
Qed.

(** End to end: a lifted function whose core function returns its parameters
    returns its arguments. *)
Theorem echo_returns_arguments : forall order opts init inst fn ts kss vs maxp maxr s o s',
  correct_allocator (mkCtx 0 inst (o_enc opts) (o_realloc opts)) init -> Forall wf_type ts -> Forall handle_free ts ->
  Forall2 flattens ts kss -> (List.length (List.concat kss) <= maxp)%nat -> (List.length (List.concat kss) <= maxr)%nat ->
  Forall2 (has_type (o_enc opts)) ts vs -> wf_mem (s_mem s) ->
  may_enter s inst -> may_leave s inst ->
  param_types fn = ts -> result_types fn = ts ->
  canon_lift order opts inst echo fn vs maxp maxr s = (o, s') ->
  (exists vs' post, o = Ok (vs', post) /\ all_same ts vs vs') \/ alloc_failed (mkCtx 0 inst (o_enc opts) (o_realloc opts)) o.
Proof.
  intros order opts init inst fn ts kss vs maxp maxr s o s' Hc Hwf Hhf Hk Hp Hr Hty Hm He Hl Ep Er E.
  change (correct_allocator (call_ctx opts inst s) init) in Hc. change (alloc_failed (mkCtx 0 inst (o_enc opts) (o_realloc opts)) o) with (alloc_failed (call_ctx opts inst s) o).
  destruct (lift_runs order opts inst echo fn vs maxp maxr s He Hl) as (s0 & _ & M0 & H0 & _ & E0).
  rewrite E0 in E. clear E0. rewrite Ep in E. unfold bind at 1 in E.
  destruct (lower_values (call_ctx opts inst s) maxp vs ts None s0) as [o1 s1] eqn:E1.
  destruct (values_arrive (call_ctx opts inst s) init ts kss vs None maxp s0 o1 s1) as [(cs & -> & Ec & _ & K)|F]; try assumption.
  - rewrite M0. exact Hm.
  - left. destruct (set_leave_run inst true s1) as (s2 & E2 & M2 & H2 & _).
    unfold lift_rest in E. unfold bind at 1 in E. rewrite E2 in E. unfold bind at 1, echo, ret at 1 in E. unfold bind at 1, lift_o at 1 in E.
    rewrite Ec in E. rewrite Er in E. unfold bind at 1 in E.
    destruct (K order (call_ctx opts inst s) maxr s2) as (vs' & Ev & Sv); try assumption; try reflexivity.
    + rewrite M2. destruct (lower_each_rt (call_ctx opts inst s) init ts vs kss Hc Hwf Hty (proj1 (flatten_types_ok _ _ Hk)) s0 (Ok cs) s1) as [(cs' & _ & S & _)|F].
      * unfold good. rewrite M0. exact Hm.
      * intros b [B1 B2]. lia.
      * destruct Hm. unfold len. lia.
      * unfold lower_values in E1. unfold bind at 1, lift_o at 1 in E1. rewrite (proj2 (flatten_types_ok _ _ Hk)) in E1.
        apply Nat.leb_le in Hp. rewrite Hp in E1. unfold bind in E1.
        destruct (lower_each (map (lower_flat (call_ctx opts inst s)) ts) vs s0) as [[r|e| |] s1']; try discriminate.
        injection E1 as E1 <-. assert (r = cs); [|congruence]. clear -E1. revert cs E1.
        induction r as [|x r IH]; intros [|c cs] E1; try discriminate; [reflexivity|]. cbn in E1. injection E1 as -> E1. f_equal. auto.
      * exact (st_good _ _ _ _ S).
      * destruct F as (? & ? & _ & _ & []).
    + rewrite M2. lia.
    + intros b _ _. rewrite M2. reflexivity.
    + rewrite Ev in E. injection E as <- <-. eauto.
  - right. destruct o1; inversion E; subst; try exact F. destruct F as (? & ? & _ & _ & []).
Qed.

Example values_arrive_applies : forall enc,
  Forall wf_type [TString; TOption TU8] /\ Forall handle_free [TString; TOption TU8] /\
  Forall2 flattens [TString; TOption TU8] [[KU32; KU32]; [KU32; KU32]] /\
  Forall2 (has_type EncUtf8) [TString; TOption TU8] demo_args /\
  correct_allocator (mkCtx 0 0 enc (o_realloc demo_opts)) (fun b => b < 64).
Proof.
  intros enc. split; [repeat constructor|]. split; [repeat constructor|]. split.
  { constructor; [constructor|]. constructor; [|constructor]. apply flatten_as_specified. reflexivity. }
  split.
  - constructor.
    + exists [72; 105]. split; [reflexivity|]. exists [72; 105]. split; [repeat constructor; left; lia|].
      split; [reflexivity|]. split; [cbn; lia|exact I].
    + constructor; [|constructor]. exists "some"%string. eexists. exists 1%nat. eexists. split; [reflexivity|]. split.
      * exists [], "some"%string, []. repeat split; repeat constructor; cbn; discriminate.
      * split; [reflexivity|]. cbn [c_type]. exists 7. split; [reflexivity|lia].
  - exact (bump_correct enc).
Qed.

(** Beyond the limit the values are not passed at all: whatever they are, the
    outcome and the state are the same, and the memory is not written. *)
Theorem spilled_values_ignored : forall cx ts ks maxf out s vs vs',
  flatten_types ts = Ok ks -> (maxf < List.length ks)%nat ->
  lower_values cx maxf vs ts out s = lower_values cx maxf vs' ts out s.
Proof.
  intros cx ts ks maxf out s vs vs' Ef Hn. unfold lower_values. unfold bind at 1 3, lift_o. rewrite Ef.
  apply Nat.leb_gt in Hn. rewrite Hn. reflexivity.
Qed.

(** So values need not arrive beyond the limit ... *)
Theorem spilled_values_arrive_refuted : exists cx init ts ks vs maxf s flat s1,
  correct_allocator cx init /\ Forall wf_type ts /\ Forall handle_free ts /\ flatten_types ts = Ok ks /\
  Forall2 (has_type (cx_enc cx)) ts vs /\ wf_mem (s_mem s) /\
  lower_values cx maxf vs ts None s = (Ok flat, s1) /\
  (* the pointer is not even a core value *)
  (exists e, as_core flat = Err e) /\
  (* and what it points to is not the values *)
  forall order ptr, (forall m, Permutation (order m) m) -> flat = [VU32 ptr] ->
    ~ exists vs' it s2, lift_values order cx maxf ts (IBase [CU32 ptr] 0) s1 = (Ok (vs', it), s2) /\ all_same ts vs vs'.
Proof.
  exists (bump_ctx EncUtf8), (fun b => b < 64), [TU32; TU32], [KU32; KU32], [VU32 1; VU32 2], 1%nat, (demo_state 200).
  eexists. eexists. split; [apply bump_correct|]. split; [repeat constructor|]. split; [repeat constructor|]. split; [reflexivity|].
  split; [repeat constructor; eexists; (split; [reflexivity|lia])|]. split.
  { split; [vm_compute; discriminate|]. split; [reflexivity|]. apply Forall_forall. intros b Hb. apply repeat_spec in Hb. lia. }
  split; [vm_compute; reflexivity|]. split; [eexists; reflexivity|].
  intros order ptr Ho Ep. injection Ep as <-. intros (vs' & it & s2 & E & (_ & L & S)).
  vm_compute in E. injection E as <- _ _. set (m := [("0"%string, VU32 0); ("1"%string, VU32 0)]) in *.
  specialize (Ho m).
  destruct (order m) as [|[l v] r]; [apply Permutation_nil in Ho; discriminate|]. specialize (S 0%nat TU32 (VU32 1) v eq_refl eq_refl eq_refl).
  cbn in S. subst v. assert (I : In (l, VU32 1) m) by (eapply Permutation_in; [exact Ho|left; reflexivity]).
  destruct I as [I|[I|[]]]; discriminate.
Qed.

(** ... and results that were stored properly come back in the order in which a
    Go map happens to be visited. *)
Theorem spilled_results_ordered_refuted : exists order cx t ptr v1 v2 s s1,
  (forall m, Permutation (order m) m) /\
  store cx (TTuple [t; t]) (VMap [("0", v1); ("1", v2)]%string) ptr s = (Ok tt, s1) /\
  has_type (cx_enc cx) t v1 /\ has_type (cx_enc cx) t v2 /\ v1 <> v2 /\
  exists it, lift_values order cx 1 [t; t] (IBase [CU32 ptr] 0) s1 = (Ok ([v2; v1], it), s1).
Proof.
  exists (@rev _), (bump_ctx EncUtf8), TU32, 8, (VU32 1), (VU32 2), (demo_state 200). eexists.
  split; [intros m; apply Permutation_sym; apply Permutation_rev|]. split; [vm_compute; reflexivity|].
  split; [eexists; split; [reflexivity|lia]|]. split; [eexists; split; [reflexivity|lia]|]. split; [discriminate|].
  eexists. vm_compute. reflexivity.
Qed.

(** The number of values is not checked against the number of types: missing
    ones go unnoticed ... *)
Theorem missing_values_rejected_refuted : exists cx ts vs s flat s1,
  (List.length vs < List.length ts)%nat /\ lower_values cx 16 vs ts None s = (Ok flat, s1).
Proof. exists (bump_ctx EncUtf8), [TU32; TU32], [VU32 1], (demo_state 200). eexists. eexists. split; [cbn; lia|reflexivity]. Qed.

(** ... and superfluous ones, after the others have been lowered, are a panic. *)
Theorem superfluous_values_panic : forall cx ts vs v rest s cs s1 ks,
  flatten_types ts = Ok ks -> (List.length ks <= 16)%nat -> List.length vs = List.length ts ->
  lower_values cx 16 vs ts None s = (Ok cs, s1) -> lower_values cx 16 (vs ++ v :: rest) ts None s = (Panic, s1).
Proof.
  intros cx ts vs v rest s cs s1 ks Ef Hn Hl E. unfold lower_values in *. unfold bind at 1, lift_o at 1 in E. unfold bind at 1, lift_o at 1.
  rewrite Ef in *. apply Nat.leb_le in Hn. rewrite Hn in *. clear Ef Hn ks.
  assert (G : forall ts vs s r s1, List.length vs = List.length ts -> lower_each (map (lower_flat cx) ts) vs s = (Ok r, s1) ->
    lower_each (map (lower_flat cx) ts) (vs ++ v :: rest) s = (Panic, s1)).
  { clear. induction ts as [|t ts IH]; intros [|x vs] s r s1 Hl E; try discriminate.
    - cbn in E. inversion E. reflexivity.
    - cbn [map lower_each app] in *. unfold bind in *. destruct (lower_flat cx t x s) as [[a|e| |] s2]; try discriminate.
      destruct (lower_each (map (lower_flat cx) ts) vs s2) as [[b|e| |] s3] eqn:E3; try discriminate.
      injection E as _ <-. rewrite (IH vs s2 b s3); [reflexivity|cbn in Hl; lia|exact E3]. }
  unfold bind in *. destruct (lower_each (map (lower_flat cx) ts) vs s) as [[r|e| |] s2] eqn:E2; try discriminate.
  injection E as _ <-. rewrite (G _ _ _ _ _ Hl E2). reflexivity.
Qed.

Example superfluous_applies : exists cs s1, lower_values (bump_ctx EncUtf8) 16 [VU32 1] [TU32] None (demo_state 200) = (Ok cs, s1).
Proof. eexists. eexists. reflexivity. Qed.

Print Assumptions lift_refused.
Print Assumptions lower_refused.
Print Assumptions lift_lowers_locked.
Print Assumptions lower_lowers_locked.
Print Assumptions lift_allocates_locked.
Print Assumptions lower_allocates_locked.
Print Assumptions lifted_callee_sees_guards.
Print Assumptions lowered_callee_sees_guards.
Print Assumptions lift_restores_leave.
Print Assumptions lower_restores_leave.
Print Assumptions failed_lowering_locks.
Print Assumptions locked_instance_stays_locked.
Print Assumptions leave_restored_after_error_refuted.
Print Assumptions values_arrive.
Print Assumptions echo_returns_arguments.
Print Assumptions spilled_values_ignored.
Print Assumptions spilled_values_arrive_refuted.
Print Assumptions spilled_results_ordered_refuted.
Print Assumptions missing_values_rejected_refuted.
Print Assumptions superfluous_values_panic.
