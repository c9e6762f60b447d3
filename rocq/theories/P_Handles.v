(** Resource handles (C24-C28). The histories, operations and observations are
    those of S_Handles.v. *)
From Coq Require Import NArith ZArith List Bool Arith Lia ZifyBool ZifyNat ZifyN.
From Verif Require Import GoBase M_Types M_State M_Canon S_Handles L_Handles.
Import ListNotations.
Open Scope N_scope.
Open Scope go_scope.

(** ** The tables implement the abstract machine *)
Theorem handles_follow_spec : forall insts ops rs s calls,
  history insts ops rs s calls -> N.of_nat (made ops) < 2 ^ 32 ->
  exists start a, fresh start /\ allowed start ops rs a /\ open_calls a = calls /\ destroyed a = w_dtors (s_world s) /\
    forall inst rt i, (inst < insts)%nat ->
      found s inst rt i = match at_key a (inst, rt_id rt, i) with Some h => Ok (hd_rep h) | None => Err ETrap end.
Proof.
  intros insts ops rs s calls H Hn. destruct (refines _ _ _ _ _ H Hn) as (a & Ha & Hal).
  destruct (history_inv _ _ _ _ _ H Hn) as [HI Hlen].
  exists a, (view (s_world s) calls). repeat split; try assumption; try apply Ha. intros inst rt i Hi. eapply found_view; eauto.
Qed.
Print Assumptions handles_follow_spec.

Ltac small := match goal with |- ?x < two32 => change (x < 2 ^ 32) end; rewrite ?made_app; repeat match goal with |- context [made [?o]] => let c := eval cbn in (made [o]) in lazymatch c with O => change (made [o]) with O | S O => change (made [o]) with (S O) end end; repeat match goal with |- context [made [?o]] => lazymatch goal with _ : (made [o] <= 1)%nat |- _ => fail | _ => pose proof (made_one o) end end; lia.
Ltac reach H HI Hlen := destruct (history_inv _ _ _ _ _ H) as [HI Hlen]; [small|].

(** ** C24 *)

(** A new handle is found under the index it was given. *)
Theorem handle_found : forall insts ops rs s calls o r s' inst rt i,
  history insts ops rs s calls -> N.of_nat (made ops) + 1 < 2 ^ 32 ->
  proper insts calls o -> run o s = (r, s') -> hands_out (inst, rt_id rt, i) o r ->
  exists rep, handed_rep o = Some rep /\ found s' inst rt i = Ok rep.
Proof.
  intros insts ops rs s calls o r s' inst rt i H Hn Hp E Ho. reach H HI Hlen.
  destruct (step insts s calls _ o r s' HI Hlen) as (HI' & Hlen' & a & Ha & Hs); [small|exact Hp|exact E|].
  destruct (answers_hands_out _ _ _ _ _ Ha Ho) as (_ & rep & Hk & Hr).
  assert (Hi : (inst < insts)%nat) by (destruct o, r; cbn in Ho, Hp; try contradiction; try match type of Ho with _ /\ _ => destruct Ho as [Ho _] end; injection Ho as <- _ _; tauto).
  exists rep. split.
  - destruct o; cbn in *; try contradiction; subst; reflexivity.
  - rewrite (found_view insts s' _ _ inst rt i HI' Hlen' Hi); [|small].
    destruct Hs as (S1 & _). rewrite <- S1, Hk. destruct o; reflexivity.
Qed.
Print Assumptions handle_found.

(** It stays there until it is dropped or transferred, whatever else happens. *)
Theorem handle_stays : forall insts ops rs s calls evs s' calls' inst rt i rep,
  history insts ops rs s calls -> after insts s calls evs s' calls' ->
  N.of_nat (made ops + made (map fst evs)) < 2 ^ 32 -> (inst < insts)%nat ->
  found s inst rt i = Ok rep -> Forall (fun e => spares (inst, rt_id rt, i) (fst e) (snd e)) evs ->
  found s' inst rt i = Ok rep.
Proof.
  intros insts ops rs s calls evs s' calls' inst rt i rep H HA Hn Hi Hf HF. reach H HI Hlen.
  destruct (found_ok insts s calls _ inst rt i rep HI Hlen Hi) as (h & Hk & <-); [small|exact Hf|].
  pose proof (history_after _ _ _ _ _ _ HA _ _ H) as H'. reach H' HI' Hlen'.
  rewrite (found_view insts s' calls' _ inst rt i HI' Hlen' Hi); [|small].
  assert (HP : (fun a => at_key a (inst, rt_id rt, i) = Some h) (view (s_world s') calls')).
  { eapply after_keeps with (Q := spares (inst, rt_id rt, i)); [| |exact HA|exact H|exact Hn|exact Hk|exact HF].
    - intros a b (S1 & _) X. rewrite <- S1. exact X.
    - intros a o r c X Y Z. eapply answers_keeps; eauto. }
  cbv beta in HP. rewrite HP. reflexivity.
Qed.
Print Assumptions handle_stays.

(** Once dropped or transferred it is not found. *)
Theorem handle_gone : forall insts ops rs s calls o r s' inst rt i,
  history insts ops rs s calls -> N.of_nat (made ops) + 1 < 2 ^ 32 ->
  proper insts calls o -> run o s = (r, s') -> removes (inst, rt_id rt, i) o r ->
  found s' inst rt i = Err ETrap.
Proof.
  intros insts ops rs s calls o r s' inst rt i H Hn Hp E Ho. reach H HI Hlen.
  destruct (step insts s calls _ o r s' HI Hlen) as (HI' & Hlen' & a & Ha & Hs); [small|exact Hp|exact E|].
  assert (Hi : (inst < insts)%nat) by (destruct o, r; cbn in Ho, Hp; try contradiction; injection Ho as <- _ _; tauto).
  apply (found_trap insts s' _ _ inst rt i HI' Hlen' Hi); [small|].
  destruct Hs as (S1 & _). rewrite <- S1. eapply answers_removes; eauto.
Qed.
Print Assumptions handle_gone.

(** An unused index traps until it is handed out. *)
Theorem handle_absent : forall insts ops rs s calls evs s' calls' inst rt i,
  history insts ops rs s calls -> after insts s calls evs s' calls' ->
  N.of_nat (made ops + made (map fst evs)) < 2 ^ 32 -> (inst < insts)%nat ->
  found s inst rt i = Err ETrap -> Forall (fun e => ~ hands_out (inst, rt_id rt, i) (fst e) (snd e)) evs ->
  found s' inst rt i = Err ETrap.
Proof.
  intros insts ops rs s calls evs s' calls' inst rt i H HA Hn Hi Hf HF. reach H HI Hlen.
  apply (found_trap insts s calls _ inst rt i HI Hlen Hi) in Hf; [|small].
  pose proof (history_after _ _ _ _ _ _ HA _ _ H) as H'. reach H' HI' Hlen'.
  apply (found_trap insts s' calls' _ inst rt i HI' Hlen' Hi); [small|].
  eapply after_keeps with (P := fun a => at_key a (inst, rt_id rt, i) = None) (Q := fun o r => ~ hands_out (inst, rt_id rt, i) o r); [| |exact HA|exact H|exact Hn|exact Hf|exact HF].
  - intros a b (S1 & _) X. rewrite <- S1. exact X.
  - intros a o r c X Y Z. eapply answers_absent; eauto.
Qed.
Print Assumptions handle_absent.

(** A transfer that fails leaves the handle where it is. *)
Theorem failed_transfer_keeps : forall insts ops rs s calls cx rt i e s' inst' rt' i',
  history insts ops rs s calls -> N.of_nat (made ops) < 2 ^ 32 -> proper insts calls (OpLiftOwn cx rt i) -> (inst' < insts)%nat ->
  lift_own cx i rt s = (Err e, s') -> found s' inst' rt' i' = found s inst' rt' i'.
Proof.
  intros insts ops rs s calls cx rt i e s' inst' rt' i' H Hn Hp Hi E. reach H HI Hlen.
  destruct (step insts s calls _ (OpLiftOwn cx rt i) (Err e) s' HI Hlen) as (HI' & Hlen' & a & Ha & Hs); [small|exact Hp|exact E|].
  rewrite (found_view insts s' _ _ inst' rt' i' HI' Hlen' Hi) by (small).
  rewrite (found_view insts s _ _ inst' rt' i' HI Hlen Hi) by (small).
  destruct Hs as (S1 & _). rewrite <- S1. inversion Ha; subst. match goal with X : takes _ _ _ _ |- _ => inversion X; subst end; reflexivity.
Qed.
Print Assumptions failed_transfer_keeps.

(** ** C25 *)

(** A new handle goes under an index nothing is found under. *)
Theorem add_uses_free_index : forall insts ops rs s calls o r s' inst rt i,
  history insts ops rs s calls -> N.of_nat (made ops) + 1 < 2 ^ 32 ->
  proper insts calls o -> run o s = (r, s') -> hands_out (inst, rt_id rt, i) o r ->
  found s inst rt i = Err ETrap.
Proof.
  intros insts ops rs s calls o r s' inst rt i H Hn Hp E Ho. reach H HI Hlen.
  destruct (step insts s calls _ o r s' HI Hlen) as (HI' & Hlen' & a & Ha & Hs); [small|exact Hp|exact E|].
  destruct (answers_hands_out _ _ _ _ _ Ha Ho) as (Hk & _).
  assert (Hi : (inst < insts)%nat) by (destruct o, r; cbn in Ho, Hp; try contradiction; try match type of Ho with _ /\ _ => destruct Ho as [Ho _] end; injection Ho as <- _ _; tauto).
  apply (found_trap insts s calls _ inst rt i HI Hlen Hi); [small|exact Hk].
Qed.
Print Assumptions add_uses_free_index.

(** Adding, whether it succeeds or not, leaves every table entry as it was:
    representation, ownership, lend count and scope. *)
Theorem add_never_disturbs : forall insts ops rs s calls o r s' k e,
  history insts ops rs s calls -> N.of_nat (made ops) + 1 < 2 ^ 32 ->
  proper insts calls o -> run o s = (r, s') ->
  match o with OpNew _ _ _ | OpLowerOwn _ _ _ | OpLowerBorrow _ _ _ => True | _ => False end ->
  entry s k = Some e -> entry s' k = Some e.
Proof.
  intros insts ops rs s calls o r s' k e H Hn Hp E Ho Hk. reach H HI Hlen.
  rewrite entry_slot in *. destruct (slot (s_world s) k) as [id|] eqn:Es; [|discriminate]. injection Hk as <-.
  assert (Hid := v_live _ _ _ HI id (slot_live _ _ _ Es)).
  assert (Hadd : forall inst rt h, (inst < insts)%nat -> h_lend h = 0%Z -> (forall c, h_scope h = Some c -> In c calls) -> handle_add inst rt h s = (r, s') ->
    match slot (s_world s') k with Some id0 => Some (elem_at (s_world s') id0) | None => None end = Some (elem_at (s_world s) id)).
  { intros inst rt h Hi Hl Hsc Eh. rewrite <- Hlen in Hi.
    destruct (add_spec inst rt h s calls _ r s' HI Hi) as (w' & -> & _ & Q & X); [small|exact Hl| |exact Eh|].
    - intros c Hc. apply (v_calls _ _ _ HI). auto.
    - cbn [s_world with_world]. destruct Q as (Q1 & _). destruct X as [(j & -> & Hnone & _ & Hs)|(-> & Hs)]; rewrite Hs, ?Es.
      + destruct (key_dec _ k) as [Ek|]; [congruence|]. rewrite Q1 by exact Hid. reflexivity.
      + rewrite Q1 by exact Hid. reflexivity. }
  destruct o; try contradiction; cbn [run proper] in *.
  - eapply Hadd; [exact Hp| | |exact E]; [reflexivity|intros c X; discriminate].
  - destruct Hp as [Hp Hc]. unfold lower_own in E. destruct v; try (unfold lift_o in E; injection E as <- <-; rewrite Es; reflexivity).
    eapply Hadd; [exact Hp| | |exact E]; [reflexivity|intros c X; discriminate].
  - destruct Hp as [Hp Hc]. unfold lower_borrow in E. destruct v; try (unfold lift_o in E; injection E as <- <-; rewrite Es; reflexivity).
    destruct (match rt_impl rt with Some impl => Nat.eqb (cx_inst cx) impl | None => false end).
    + unfold ret in E. injection E as <- <-. rewrite Es. reflexivity.
    + eapply Hadd; [exact Hp| | |exact E]; [reflexivity|]. intros c X. injection X as <-. exact Hc.
Qed.
Print Assumptions add_never_disturbs.

(** ** C26 *)

(** While a call that borrowed from a handle is in progress, the handle is
    found, and neither a drop nor a transfer takes it away. *)
Theorem lent_stays : forall insts ops rs s calls cx rt i rep s1 evs s' calls',
  history insts ops rs s calls -> proper insts calls (OpLiftBorrow cx rt i) ->
  lift_borrow cx i rt s = (Ok rep, s1) -> after insts s1 calls evs s' calls' -> In (cx_id cx) calls' ->
  N.of_nat (made ops + made (map fst evs)) < 2 ^ 32 ->
  found s' (cx_inst cx) rt i = Ok rep /\
  forall rt', rt_id rt' = rt_id rt ->
    (forall s2 r, canon_resource_drop (cx_inst cx) rt' i s' = (r, s2) -> r = Err ETrap /\ found s2 (cx_inst cx) rt i = Ok rep /\ w_dtors (s_world s2) = w_dtors (s_world s')) /\
    (forall cx' s2 r, In (cx_id cx') calls' -> cx_inst cx' = cx_inst cx -> lift_own cx' i rt' s' = (r, s2) -> r = Err ETrap /\ found s2 (cx_inst cx) rt i = Ok rep).
Proof.
  intros insts ops rs s calls cx rt i rep s1 evs s' calls' H Hp E HA Hc Hn. reach H HI Hlen.
  destruct (step insts s calls _ (OpLiftBorrow cx rt i) (Ok rep) s1 HI Hlen) as (HI1 & Hlen1 & a & Ha & Hs); [small|exact Hp|exact E|].
  cbn [opened] in HI1, Hs. pose proof (h_step _ _ _ _ _ (OpLiftBorrow cx rt i) _ _ H Hp E) as H1. cbn [opened] in H1.
  destruct Hp as [Hi Hc0]. set (k := (cx_inst cx, rt_id rt, i)).
  assert (X : exists h, at_key (view (s_world s) calls) k = Some h /\ hd_rep h = rep /\
    a = with_loans (view (s_world s) calls) (fun c k' => loaned (view (s_world s) calls) c k' \/ (c = cx_id cx /\ k' = k))) by (inversion Ha; subst; eauto).
  destruct X as (h & Hk & Hrep & Ea). rewrite Ea in Hs. clear Ea Ha.
  assert (HH : held (cx_id cx) k h (view (s_world s1) calls)).
  { eapply held_same; [exact Hs|]. split; cbn; [apply (v_calls _ _ _ HI); exact Hc0|]. intros _. split; [right; auto|exact Hk]. }
  assert (Hh' : held (cx_id cx) k h (view (s_world s') calls')).
  { eapply after_keeps with (P := held (cx_id cx) k h) (Q := fun _ _ => True); [| |exact HA|exact H1| |exact HH|apply Forall_forall; auto].
    - intros x y. apply held_same.
    - intros x o r c X Y _. eapply held_step; eauto.
    - small. }
  destruct Hh' as (_ & Hh'). destruct (Hh' Hc) as [Hl Hk'].
  pose proof (history_after _ _ _ _ _ _ HA _ _ H1) as H'. reach H' HI' Hlen'.
  set (n := made ((ops ++ [OpLiftBorrow cx rt i]) ++ map fst evs)) in *.
  assert (Hnn : N.of_nat n < 2 ^ 32) by (unfold n; rewrite !made_app; change (made [OpLiftBorrow cx rt i]) with 0%nat; lia).
  assert (Hlent : lent (view (s_world s') calls') k) by (exists (cx_id cx); exact Hl).
  assert (Htk : forall q b, takes (view (s_world s') calls') k q b -> q = Err ETrap /\ b = view (s_world s') calls').
  { intros q b X. inversion X; subst; [contradiction| |]; auto. }
  split.
  - rewrite (found_view insts s' calls' n _ _ _ HI' Hlen' Hi) by (small). fold k. rewrite Hk', Hrep. reflexivity.
  - intros rt' Ert. split.
    + intros s2 r Ed.
      assert (Er : run (OpDrop (cx_inst cx) rt' i) s' = (match r with Ok _ => Ok 0 | Err e => Err e | Panic => Panic | Diverge => Diverge end, s2)).
      { cbn [run]. unfold bind. rewrite Ed. destruct r; reflexivity. }
      destruct (step insts s' calls' n (OpDrop (cx_inst cx) rt' i) _ s2 HI' Hlen' ltac:(small) Hi Er) as (HI2 & Hlen2 & b & Hb & Hs2). cbn [opened] in HI2, Hs2.
      assert (Hbb : match r with Ok _ => False | Err e => e = ETrap | Panic => False | Diverge => False end /\ b = view (s_world s') calls').
      { inversion Hb; subst; match goal with X : takes _ _ _ _ |- _ => rewrite Ert in X; fold k in X; destruct (Htk _ _ X) as [Y Z] end.
        - discriminate.
        - rewrite Z. destruct r; try discriminate; split; congruence. }
      destruct Hbb as [Hr ->]. split; [destruct r; try contradiction; congruence|]. split.
      * rewrite (found_view insts s2 calls' n _ _ _ HI2 Hlen2 Hi) by (small). fold k. destruct Hs2 as (S1 & _). rewrite <- S1, Hk', Hrep. reflexivity.
      * destruct Hs2 as (_ & _ & _ & _ & _ & S6). symmetry. exact S6.
    + intros cx' s2 r Hc' Ei El.
      destruct (step insts s' calls' n (OpLiftOwn cx' rt' i) r s2 HI' Hlen' ltac:(small)) as (HI2 & Hlen2 & b & Hb & Hs2); [split; [rewrite Ei; exact Hi|exact Hc']|exact El|].
      cbn [opened] in HI2, Hs2.
      assert (Hbb : r = Err ETrap /\ b = view (s_world s') calls').
      { inversion Hb; subst; match goal with X : takes _ _ _ _ |- _ => rewrite Ert, Ei in X; fold k in X; destruct (Htk _ _ X) as [Y Z] end.
        - discriminate.
        - split; congruence. }
      destruct Hbb as [-> ->]. split; [reflexivity|].
      rewrite (found_view insts s2 calls' n _ _ _ HI2 Hlen2 Hi) by (small). fold k. destruct Hs2 as (S1 & _). rewrite <- S1, Hk', Hrep. reflexivity.
Qed.
Print Assumptions lent_stays.

(** A handle all of whose borrowers have exited can be transferred. *)
Theorem unlent_leaves : forall insts ops rs s calls cx rt i rep,
  history insts ops rs s calls -> N.of_nat (made ops) < 2 ^ 32 -> proper insts calls (OpLiftOwn cx rt i) ->
  found s (cx_inst cx) rt i = Ok rep ->
  (forall o r c, In (o, r) (combine ops rs) -> borrows c (cx_inst cx, rt_id rt, i) o r -> ~ In c calls) ->
  fst (lift_own cx i rt s) = Ok rep.
Proof.
  intros insts ops rs s calls cx rt i rep H Hn Hp Hf Hb. reach H HI Hlen.
  destruct (found_ok insts s calls _ (cx_inst cx) rt i rep HI Hlen (proj1 Hp)) as (h & Hk & <-); [small|exact Hf|].
  destruct (lift_own cx i rt s) as [r s'] eqn:E. cbn [fst].
  destruct (step insts s calls _ (OpLiftOwn cx rt i) r s' HI Hlen) as (_ & _ & a & Ha & _); [small|exact Hp|exact E|].
  inversion Ha; subst; match goal with X : takes _ _ _ _ |- _ => inversion X; subst end; try congruence.
  exfalso. match goal with X : lent _ _ |- _ => destruct X as (c & Hl) end.
  destruct (loaned_history _ _ _ _ _ H ltac:(small) c _ Hl) as (Hin & o & r & Ho & Hbo). eapply Hb; eauto.
Qed.
Print Assumptions unlent_leaves.

(** The lend count of a handle is never negative, and positive exactly while a
    call in progress has borrowed from it. *)
Theorem lend_counts_balance : forall insts ops rs s calls k e,
  history insts ops rs s calls -> N.of_nat (made ops) < 2 ^ 32 -> entry s k = Some e ->
  (0 <= h_lend e)%Z /\
  (h_lend e = 0%Z <-> forall o r c, In (o, r) (combine ops rs) -> borrows c k o r -> ~ In c calls).
Proof.
  intros insts ops rs s calls k e H Hn He. reach H HI Hlen. rewrite entry_slot in He.
  destruct (slot (s_world s) k) as [id|] eqn:Es; [|discriminate]. injection He as <-.
  assert (Hid := v_live _ _ _ HI id (slot_live _ _ _ Es)). split; [rewrite (v_lend _ _ _ HI id Hid); lia|].
  pose proof (lent_view (s_world s) calls _ k id HI Es) as HL. split.
  { intros E0 o r c Ho Hb Hc. assert (Hl : lent (view (s_world s) calls) k) by (exists c; eapply history_loaned; eassumption).
    apply HL in Hl. rewrite E0 in Hl. discriminate. }
  intros Hb. destruct (h_lend (elem_at (s_world s) id) =? 0)%Z eqn:E0; [lia|].
  exfalso. destruct (proj2 HL eq_refl) as (c & Hl).
  destruct (loaned_history _ _ _ _ _ H Hn c k Hl) as (Hin & o & r & Ho & Hbo). eapply Hb; eauto.
Qed.
Print Assumptions lend_counts_balance.

(** ** C27 *)

(** The borrow count of a call is the number of table entries scoped to it. *)
Theorem borrow_count_exact : forall insts ops rs s calls c st,
  history insts ops rs s calls -> N.of_nat (made ops) < 2 ^ 32 -> nth_error (w_calls (s_world s)) c = Some st ->
  exists keys, NoDup keys /\ (forall k, In k keys <-> exists e, entry s k = Some e /\ h_scope e = Some c) /\
    k_borrow st = Z.of_nat (List.length keys).
Proof.
  intros insts ops rs s calls c st H Hn Hst. reach H HI Hlen. rewrite (v_borrow _ _ _ HI c st Hst). unfold nscoped.
  set (w := s_world s) in *. set (ids := filter (scoped w c) (live w)).
  assert (Hids : forall id, In id ids <-> In id (live w) /\ h_scope (elem_at w id) = Some c).
  { intros id. unfold ids. rewrite filter_In. unfold scoped. destruct (h_scope (elem_at w id)) as [c'|]; split; intros [X Y]; split; try assumption; try discriminate.
    - apply Nat.eqb_eq in Y. congruence.
    - injection Y as ->. apply Nat.eqb_refl. }
  assert (Hnd : NoDup ids) by (apply NoDup_filter; apply (v_nodup _ _ _ HI)).
  assert (X : exists keys, NoDup keys /\ List.length keys = List.length ids /\ forall k, In k keys <-> exists id, In id ids /\ slot w k = Some id).
  { assert (Hsub : forall id, In id ids -> In id (live w)) by (intros id Hin; apply Hids; exact Hin). clear Hids. revert Hnd Hsub. generalize ids as l. clear ids.
    induction l as [|x l IH]; intros Hnd Hsub.
    - exists []. repeat split; [constructor|intros []|intros (id & [] & _)].
    - apply NoDup_cons_iff in Hnd. destruct Hnd as [Hx Hnd]. destruct (IH Hnd) as (keys & K1 & K2 & K3); [intros id Hin; apply Hsub; right; exact Hin|].
      destruct (live_slot w x (v_keys _ _ _ HI) (Hsub x (or_introl eq_refl))) as (k & Ek). exists (k :: keys). split; [constructor; [|exact K1]|split; [cbn; congruence|]].
      + intros Hin. apply K3 in Hin. destruct Hin as (id & Hid & Eid). congruence.
      + intros k'. cbn [In]. rewrite K3. split.
        * intros [<-|(id & Hid & Eid)]; eauto.
        * intros (id & [<-|Hid] & Eid); [left; eapply slot_unique; [apply (v_nodup _ _ _ HI)|exact Ek|exact Eid]|right; eauto]. }
  destruct X as (keys & K1 & K2 & K3). exists keys. split; [exact K1|]. split; [|rewrite K2; reflexivity].
  intros k. rewrite K3, entry_slot. fold w. split.
  - intros (id & Hid & Ek). rewrite Ek. exists (elem_at w id). split; [reflexivity|apply Hids; exact Hid].
  - destruct (slot w k) as [id|] eqn:Ek; intros (e & Ee & Hsc); [|discriminate]. injection Ee as <-. exists id. split; [|reflexivity].
    apply Hids. split; [eapply slot_live; exact Ek|exact Hsc].
Qed.
Print Assumptions borrow_count_exact.

(** Leaving a call traps exactly when some handle lent to the call has been
    neither dropped nor transferred; otherwise it succeeds. *)
Theorem exit_traps_iff : forall insts ops rs s calls c,
  history insts ops rs s calls -> N.of_nat (made ops) < 2 ^ 32 -> In c calls ->
  (fst (exit_call c s) = Ok tt \/ fst (exit_call c s) = Err ETrap) /\
  (fst (exit_call c s) = Err ETrap <->
   exists k pre o r post, combine ops rs = (pre ++ (o, r) :: post)%list /\ lends_to c k o r /\
     Forall (fun e => ~ removes k (fst e) (snd e)) post).
Proof.
  intros insts ops rs s calls c H Hn Hc. reach H HI Hlen. destruct (exit_call c s) as [r s'] eqn:E. cbn [fst].
  assert (Er : run (OpExit c) s = (match r with Ok _ => Ok 0 | Err e => Err e | Panic => Panic | Diverge => Diverge end, s')).
  { cbn [run]. unfold bind. rewrite E. destruct r; reflexivity. }
  destruct (step insts s calls _ (OpExit c) _ s' HI Hlen ltac:(small) Hc Er) as (_ & _ & a & Ha & _).
  pose proof (scoped_history _ _ _ _ _ H ltac:(small) c) as HS.
  inversion Ha; subst.
  - destruct r as [[]| | |]; try discriminate. split; [auto|]. split; [discriminate|]. intros (k & X). exfalso.
    destruct (proj2 (HS k) X) as (h & Hk & Hsc). eapply H2; eauto.
  - destruct r as [[]|e| |]; try discriminate. assert (e = ETrap) as -> by congruence. split; [auto|]. split; [|reflexivity]. intros _. exists k. apply HS. exists h. auto.
Qed.
Print Assumptions exit_traps_iff.

(** ** C28 *)

(** What dropping does, by what the table holds under the index. *)
Theorem drop_effect : forall insts ops rs s calls inst rt i r s',
  history insts ops rs s calls -> N.of_nat (made ops) < 2 ^ 32 -> (inst < insts)%nat ->
  canon_resource_drop inst rt i s = (r, s') ->
  let k := (inst, rt_id rt, i) in
  let untouched := (forall k', entry s' k' = entry s k') /\ w_dtors (s_world s') = w_dtors (s_world s) in
  let taken := entry s' k = None /\ (forall k', k' <> k -> entry s' k' = entry s k') in
  match entry s k with
  | None => r = Err ETrap /\ untouched
  | Some e =>
      if negb (h_lend e =? 0)%Z then r = Err ETrap /\ untouched
      else taken /\
        match h_own e, rt_impl rt with
        | false, _ => r = Ok tt /\ w_dtors (s_world s') = w_dtors (s_world s)
        | true, None => r = Panic /\ w_dtors (s_world s') = w_dtors (s_world s)
        | true, Some impl =>
            if Nat.eqb inst impl || i_may_enter (nth impl (w_insts (s_world s)) default_inst)
            then r = Ok tt /\
              w_dtors (s_world s') = if rt_dtor rt then (rt_id rt, h_rep e) :: w_dtors (s_world s) else w_dtors (s_world s)
            else r = Err ETrap /\ w_dtors (s_world s') = w_dtors (s_world s)
        end
  end.
Proof.
  intros insts ops rs s calls inst rt i r s' H Hn Hi E k untouched taken. reach H HI Hlen. rewrite <- Hlen in Hi.
  unfold canon_resource_drop in E. unfold bind at 1 in E. destruct (handle_remove inst (rt_id rt) i s) as [o s1] eqn:Er.
  destruct (remove_spec _ _ _ _ _ _ _ _ HI Hi Hn Er) as (w' & -> & HI' & Q & Ee & X).
  destruct Q as (Q1 & Q2 & Q3 & Q4 & Q5 & Q6).
  assert (Hent : forall k' sx, w_elems (s_world sx) = w_elems w' -> w_insts (s_world sx) = w_insts w' ->
    entry sx k' = match slot w' k' with Some id => Some (elem_at (s_world s) id) | None => None end).
  { intros [[a b] c] sx E1 E2. rewrite entry_slot. unfold slot, inst_table, elem_at. rewrite E1, E2, Ee. reflexivity. }
  rewrite (entry_slot s k). destruct (slot (s_world s) (inst, rt_id rt, i)) as [id|] eqn:Es; fold k in Es; rewrite Es.
  2:{ destruct X as [-> Hs]. injection E as <- <-. split; [reflexivity|]. split; [|exact Q2]. intros k'. rewrite (Hent k' (with_world s w') eq_refl eq_refl), Hs, entry_slot. reflexivity. }
  destruct (h_lend (elem_at (s_world s) id) =? 0)%Z; cbn [negb]; destruct X as [-> Hs].
  2:{ injection E as <- <-. split; [reflexivity|]. split; [|exact Q2]. intros k'. rewrite (Hent k' (with_world s w') eq_refl eq_refl), Hs, entry_slot. reflexivity. }
  assert (Htk : forall sx, w_elems (s_world sx) = w_elems w' -> w_insts (s_world sx) = w_insts w' -> entry sx k = None /\ (forall k', k' <> k -> entry sx k' = entry s k')).
  { intros sx E1 E2. split; [rewrite (Hent k sx E1 E2), Hs; fold k; destruct (key_dec k k); [reflexivity|congruence]|].
    intros k' Hne. rewrite (Hent k' sx E1 E2), Hs, entry_slot. fold k. destruct (key_dec k k'); [congruence|reflexivity]. }
  unfold get_world in E. unfold bind at 1 in E. cbv beta iota in E. change (s_world (with_world s w')) with w' in E.
  assert (Eid : elem_at w' id = elem_at (s_world s) id) by (unfold elem_at; rewrite Ee; reflexivity). rewrite Eid in E.
  assert (Hen : forall impl, match nth_error (w_insts w') impl with Some ins => i_may_enter ins | None => true end = i_may_enter (nth impl (w_insts (s_world s)) default_inst)).
  { intros impl. change (enter_ok w' impl = i_may_enter (nth impl (w_insts (s_world s)) default_inst)). rewrite Q5. unfold enter_ok. destruct (nth_error (w_insts (s_world s)) impl) as [ins|] eqn:En.
    - erewrite nth_error_nth by exact En. reflexivity.
    - rewrite nth_overflow by (apply nth_error_None; exact En). reflexivity. }
  destruct (h_own (elem_at (s_world s) id)).
  2:{ unfold ret in E. injection E as <- <-. split; [apply Htk; reflexivity|]. split; [reflexivity|exact Q2]. }
  destruct (rt_impl rt) as [impl|].
  2:{ unfold lift_o in E. injection E as <- <-. split; [apply Htk; reflexivity|]. split; [reflexivity|exact Q2]. }
  rewrite Hen in E. rewrite <- negb_orb in E. destruct (Nat.eqb inst impl || i_may_enter (nth impl (w_insts (s_world s)) default_inst)); cbn [negb] in E.
  - destruct (rt_dtor rt); [unfold put_world in E|unfold ret in E]; injection E as <- <-; (split; [apply Htk; reflexivity|]); split; try reflexivity; [cbn; rewrite Q2; reflexivity|exact Q2].
  - unfold lift_o in E. injection E as <- <-. split; [apply Htk; reflexivity|]. split; [reflexivity|exact Q2].
Qed.
Print Assumptions drop_effect.

Lemma drop_dtors : forall inst rt i s, let s' := snd (canon_resource_drop inst rt i s) in
  w_dtors (s_world s') = w_dtors (s_world s) \/ exists t rep, w_dtors (s_world s') = (t, rep) :: w_dtors (s_world s).
Proof.
  intros inst rt i s. cbv zeta. unfold canon_resource_drop, bind. pose proof (remove_dtors inst (rt_id rt) i s) as Hd.
  destruct (handle_remove inst (rt_id rt) i s) as [[id|e| |] s1]; cbn [snd] in *; auto.
  unfold get_world. cbv beta iota zeta. destruct (h_own (elem_at (s_world s1) id)); [|auto]. destruct (rt_impl rt) as [impl|]; [|auto].
  destruct (negb (Nat.eqb inst impl) && _); [auto|]. destruct (rt_dtor rt); [|auto]. right. rewrite <- Hd. eexists _, _. reflexivity.
Qed.
(** With a destructor that acts on the state: where [drop_effect] says that it
    is called, it runs once, on that representation, in the state [drop_effect]
    describes, and what it does is what the whole function does. Where it is
    not called it makes no difference. *)
Theorem drop_runs_destructor : forall dtor inst rt i s r s', canon_resource_drop inst rt i s = (r, s') ->
  (w_dtors (s_world s') = w_dtors (s_world s) -> canon_resource_drop_with dtor inst rt i s = (r, s')) /\
  (forall t rep, w_dtors (s_world s') = (t, rep) :: w_dtors (s_world s) ->
    r = Ok tt /\ t = rt_id rt /\ canon_resource_drop_with dtor inst rt i s = dtor rep s').
Proof.
  intros dtor inst rt i s r s' E. remember (canon_resource_drop_with dtor inst rt i s) as X eqn:EX.
  unfold canon_resource_drop in E. unfold canon_resource_drop_with in EX. unfold bind at 1 in E. unfold bind at 1 in EX.
  assert (Hd : w_dtors (s_world (snd (handle_remove inst (rt_id rt) i s))) = w_dtors (s_world s)) by apply remove_dtors.
  assert (Hne : forall (x : N * N) l, l = x :: l -> False) by (intros x l Y; apply (f_equal (@List.length _)) in Y; cbn in Y; lia).
  destruct (handle_remove inst (rt_id rt) i s) as [[id|e| |] s1]; cbn [snd] in Hd.
  2,3,4: (injection E as <- <-; split; [intros _; exact EX|]; intros t rep Y; rewrite Hd in Y; destruct (Hne _ _ Y)).
  unfold get_world in E, EX. unfold bind at 1 in E. unfold bind at 1 in EX. cbv beta iota zeta in E, EX.
  assert (K : forall o, (o, s1) = (r, s') -> X = (o, s1) ->
    (w_dtors (s_world s') = w_dtors (s_world s) -> X = (r, s')) /\
    (forall t rep, w_dtors (s_world s') = (t, rep) :: w_dtors (s_world s) -> r = Ok tt /\ t = rt_id rt /\ X = dtor rep s')).
  { intros o Y Em. injection Y as <- <-. split; [intros _; exact Em|]. intros t rep Y. rewrite Hd in Y. destruct (Hne _ _ Y). }
  destruct (h_own (elem_at (s_world s1) id)); [|exact (K _ E EX)].
  destruct (rt_impl rt) as [impl|]; [|exact (K _ E EX)].
  destruct (negb (Nat.eqb inst impl) && _); [exact (K _ E EX)|].
  destruct (rt_dtor rt); [|exact (K _ E EX)]. clear K. unfold bind, put_world in E, EX. injection E as <- <-. split.
  - cbn [s_world w_dtors]. rewrite Hd. intros Y. symmetry in Y. destruct (Hne _ _ Y).
  - cbn [s_world w_dtors]. intros t rep Y. injection Y as <- <-. auto.
Qed.
Print Assumptions drop_runs_destructor.

(** Handles made by CanonResourceNew and LowerOwn own; those made by
    LowerBorrow do not, and belong to the call. *)
Theorem new_entry : forall insts ops rs s calls o r s' k,
  history insts ops rs s calls -> N.of_nat (made ops) + 1 < 2 ^ 32 ->
  proper insts calls o -> run o s = (r, s') -> hands_out k o r ->
  exists rep e, handed_rep o = Some rep /\ entry s' k = Some e /\ h_rep e = rep /\ h_lend e = 0%Z /\
    match o with OpLowerBorrow cx _ _ => h_own e = false /\ h_scope e = Some (cx_id cx) | _ => h_own e = true /\ h_scope e = None end.
Proof.
  intros insts ops rs s calls o r s' k H Hn Hp E Ho. reach H HI Hlen.
  destruct (step insts s calls _ o r s' HI Hlen) as (HI' & Hlen' & a & Ha & Hs); [small|exact Hp|exact E|].
  destruct (answers_hands_out _ _ _ _ _ Ha Ho) as (Hnone & rep & Hk & Hr). exists rep.
  destruct Hs as (S1 & S2 & _). rewrite S1, entry_view in Hk. destruct (entry s' k) as [e|] eqn:Ee; [|discriminate]. cbn [option_map] in Hk.
  exists e. assert (Hlend : h_lend e = 0%Z).
  { rewrite entry_slot in Ee. destruct (slot (s_world s') k) as [id|] eqn:Es; [|discriminate]. injection Ee as <-.
    pose proof (lent_view (s_world s') _ _ k id HI' Es) as HL. destruct (h_lend (elem_at (s_world s') id) =? 0)%Z eqn:E0; [lia|].
    exfalso. destruct (proj2 HL eq_refl) as (c & Hl). apply S2 in Hl.
    assert (Hla : loaned (view (s_world s) calls) c k).
    { inversion Ha; subst; cbn in Ho; try contradiction; try (destruct r; contradiction); try (match goal with X : adds _ _ _ _ _ _ |- _ => inversion X; subst end); exact Hl. }
    destruct Hla as (_ & id' & Es' & _). cbn [view at_key] in Hnone. rewrite Es' in Hnone. discriminate. }
  destruct o; cbn in Ho; try contradiction; injection Hk as Hk1 Hk2 Hk3; cbn [handed_rep]; subst; auto 10.
Qed.
Print Assumptions new_entry.

(** Over a whole history the destructor of a resource type is called for a
    representation at most as often as owned handles were made for it. *)
Theorem destructor_at_most_once : forall insts ops rs s calls t rep,
  history insts ops rs s calls -> N.of_nat (made ops) < 2 ^ 32 ->
  (destructions s t rep <= List.length (filter (creates t rep) (combine ops rs)))%nat.
Proof.
  intros insts ops rs s calls t rep H Hn. destruct (covered_history _ _ _ _ _ H Hn t rep) as (l & _ & _ & Hl).
  unfold destructions. cbn [view destroyed] in Hl.
  assert (Hc : forall d1 d2 : (forall a b : N * N, {a = b} + {a <> b}), forall l x, count_occ d1 l x = count_occ d2 l x).
  { intros d1 d2 l0 x. induction l0 as [|y l0 IH]; [reflexivity|]. cbn. destruct (d1 y x), (d2 y x); congruence. }
  rewrite (Hc _ pair_dec). lia.
Qed.
Print Assumptions destructor_at_most_once.

(** ** Concrete histories, and what does not hold *)
Definition no_alloc : req -> state -> outcome N * (memory * world) := fun _ s => (Err EOther, (s_mem s, s_world s)).
Definition no_options : options := mkOpts EncUtf8 no_alloc None.
Definition two_instances : state := mkState (mkMem [] 0) [] (mkWorld [] [] [mkInst true true []; mkInst true true []] []).
Definition file : rtype := mkRType 7 (Some 0%nat) true.
Definition ctx1 (c : nat) : callctx := mkCtx c 1 EncUtf8 no_alloc.

Fixpoint play (ops : list op) (s : state) : list (outcome N) * state :=
  match ops with
  | [] => ([], s)
  | o :: ops' => let (r, s1) := run o s in let (rs, s2) := play ops' s1 in (r :: rs, s2)
  end.
Fixpoint calls_of (ops : list op) (rs : list (outcome N)) (calls : list nat) : list nat :=
  match ops, rs with
  | o :: ops', r :: rs' => calls_of ops' rs' (opened o r calls)
  | _, _ => calls
  end.
Fixpoint all_proper (insts : nat) (ops : list op) (s : state) (calls : list nat) : Prop :=
  match ops with
  | [] => True
  | o :: ops' => proper insts calls o /\ all_proper insts ops' (snd (run o s)) (opened o (fst (run o s)) calls)
  end.
Lemma play_history : forall insts ops pre rpre s calls, history insts pre rpre s calls -> all_proper insts ops s calls ->
  history insts (pre ++ ops) (rpre ++ fst (play ops s)) (snd (play ops s)) (calls_of ops (fst (play ops s)) calls).
Proof.
  intros insts ops. induction ops as [|o ops IH]; intros pre rpre s calls H HP.
  - cbn. rewrite !app_nil_r. exact H.
  - destruct HP as [Hp HP]. cbn [play]. destruct (run o s) as [r s1] eqn:E. cbn [fst snd] in HP.
    pose proof (h_step _ _ _ _ _ o r s1 H Hp E) as H1. specialize (IH _ _ _ _ H1 HP). destruct (play ops s1) as [rs s2]. cbn [fst snd calls_of] in *.
    rewrite <- !app_assoc in IH. exact IH.
Qed.
Lemma two_start : history 2 [] [] two_instances [].
Proof. constructor; repeat constructor. Qed.
Lemma play_two : forall ops, all_proper 2 ops two_instances [] ->
  history 2 ops (fst (play ops two_instances)) (snd (play ops two_instances)) (calls_of ops (fst (play ops two_instances)) []).
Proof. intros ops HP. exact (play_history 2 ops [] [] two_instances [] two_start HP). Qed.
Ltac proper_two := cbn [all_proper proper]; repeat split; vm_compute; auto.

(** A destructor that drops the handle its representation names. *)
Example drop_runs_destructor_applies : let s := snd (canon_resource_new 0 file 9 (snd (canon_resource_new 0 file 0 two_instances))) in
  let dtor := fun rep => canon_resource_drop 0 file (rep - 9) in
  found s 0 file 0 = Ok 0 /\ found s 0 file 1 = Ok 9 /\
  let s' := snd (canon_resource_drop_with dtor 0 file 1 s) in
  found s' 0 file 0 = Err ETrap /\ found s' 0 file 1 = Err ETrap /\ w_dtors (s_world s') = [(7, 0); (7, 9)].
Proof. vm_compute. auto. Qed.

(** A full life: instance 0 makes a file, hands it to instance 1, which gets a
    second one lent, drops it, and drops the first. *)
Definition life : list op :=
  [OpNew 0 file 42; OpEnter no_options 1; OpLowerOwn (ctx1 0) file (VU32 42); OpLowerBorrow (ctx1 0) file (VU32 9);
   OpLiftBorrow (ctx1 0) file 0; OpDrop 1 file 0; OpExit 0; OpDrop 1 file 1; OpExit 0; OpDrop 1 file 0; OpRep 0 file 0; OpRep 1 file 1].
Example life_answers : fst (play life two_instances) =
  [Ok 0; Ok 0; Ok 0; Ok 1; Ok 42; Err ETrap; Err ETrap; Ok 0; Ok 0; Ok 0; Ok 42; Err ETrap].
Proof. vm_compute. reflexivity. Qed.
Example life_history : history 2 life (fst (play life two_instances)) (snd (play life two_instances)) [].
Proof.
  replace [] with (calls_of life (fst (play life two_instances)) []) by (vm_compute; reflexivity). apply play_two. proper_two.
Qed.
Example life_destroyed : destructions (snd (play life two_instances)) 7 42 = 1%nat /\ destructions (snd (play life two_instances)) 7 9 = 0%nat.
Proof. vm_compute. auto. Qed.

(** The hypotheses of the theorems above are met along that history. *)
Example handle_found_used : exists s', run (OpNew 0 file 42) two_instances = (Ok 0, s') /\ found s' 0 file 0 = Ok 42.
Proof. eexists. split; vm_compute; reflexivity. Qed.
Example lent_stays_used :
  let s := snd (play (firstn 4 life) two_instances) in
  exists s1, lift_borrow (ctx1 0) 0 file s = (Ok 42, s1) /\ proper 2 [0%nat] (OpLiftBorrow (ctx1 0) file 0) /\
    after 2 s1 [0%nat] [(OpRep 0 file 0, Ok 42)] (snd (canon_resource_rep 0 file 0 s1)) [0%nat].
Proof.
  intros s. eexists. split; [vm_compute; reflexivity|]. split; [cbn; auto|].
  refine (af_step 2 _ [0%nat] [] _ [0%nat] (OpRep 0 file 0) _ _ (af_nil _ _ _) _ _); [cbn; lia|vm_compute; reflexivity].
Qed.
Example exit_traps_iff_used : (* after six operations the lent handle is still there *)
  fst (exit_call 0 (snd (play (firstn 6 life) two_instances))) = Err ETrap /\
  fst (exit_call 0 (snd (play (firstn 8 life) two_instances))) = Ok tt.
Proof. vm_compute. auto. Qed.

(** Adding can fail although nothing limits the number of handles: dropping
    index 1 records index 0 as free. *)
Theorem add_always_succeeds_refuted : exists ops rs s calls inst rt rep s',
  history 2 ops rs s calls /\ (inst < 2)%nat /\ canon_resource_new inst rt rep s = (Err EOther, s').
Proof.
  exists [OpNew 0 file 1; OpNew 0 file 2; OpDrop 0 file 1]. do 3 eexists. exists 0%nat, file, 3. eexists.
  split; [apply play_two; proper_two|]. split; [lia|vm_compute; reflexivity].
Qed.
Print Assumptions add_always_succeeds_refuted.

(** Freed indices are not the ones reused: after dropping index 1 of three, the
    next two additions answer an error and index 3. *)
Theorem freed_index_reused_refuted : exists ops rs s calls s1 s2,
  history 2 ops rs s calls /\ found s 0 file 1 = Err ETrap /\ (exists s0 ops0 rs0 calls0, history 2 ops0 rs0 s0 calls0 /\ canon_resource_drop 0 file 1 s0 = (Ok tt, s)) /\
  canon_resource_new 0 file 8 s = (Err EOther, s1) /\ canon_resource_new 0 file 9 s1 = (Ok 3, s2) /\ found s2 0 file 1 = Err ETrap.
Proof.
  exists [OpNew 0 file 1; OpNew 0 file 2; OpNew 0 file 3; OpDrop 0 file 1]. do 5 eexists.
  split; [apply play_two; proper_two|]. split; [vm_compute; reflexivity|]. split.
  - exists (snd (play [OpNew 0 file 1; OpNew 0 file 2; OpNew 0 file 3] two_instances)). do 3 eexists. split; [apply play_two; proper_two|vm_compute; reflexivity].
  - split; [vm_compute; reflexivity|]. split; vm_compute; reflexivity.
Qed.
Print Assumptions freed_index_reused_refuted.

(** Leaving a call twice leaves a negative lend count, and the handle can then
    never be dropped although nobody borrows from it. *)
Theorem exit_twice_harmless_refuted : exists ops rs s calls s1 s2,
  history 2 ops rs s calls /\ In 0%nat calls /\ exit_call 0 s = (Ok tt, s1) /\ exit_call 0 s1 = (Ok tt, s2) /\
  fst (canon_resource_drop 1 file 0 s1) = Ok tt /\ fst (canon_resource_drop 1 file 0 s2) = Err ETrap.
Proof.
  exists [OpNew 1 file 1; OpEnter no_options 1; OpLiftBorrow (ctx1 0) file 0]. do 5 eexists.
  split; [apply play_two; proper_two|]. split; [vm_compute; auto|]. split; [vm_compute; reflexivity|]. split; [vm_compute; reflexivity|]. split; vm_compute; reflexivity.
Qed.
Print Assumptions exit_twice_harmless_refuted.

(** A drop can trap and still take the handle away, without running the
    destructor. *)
Theorem trapping_drop_harmless_refuted : exists ops rs s calls s1,
  history 2 ops rs s calls /\ found s 1 file 0 = Ok 5 /\ canon_resource_drop 1 file 0 s = (Err ETrap, s1) /\
  found s1 1 file 0 = Err ETrap /\ w_dtors (s_world s1) = [].
Proof.
  exists [OpNew 1 file 5; OpGuards 0 false true]. do 4 eexists.
  split; [apply play_two; proper_two|]. split; [vm_compute; reflexivity|]. split; [vm_compute; reflexivity|]. split; vm_compute; reflexivity.
Qed.
Print Assumptions trapping_drop_harmless_refuted.

(** A handle that was only lent to a call can be transferred as if owned. *)
Theorem borrowed_cannot_be_transferred_refuted : exists ops rs s calls,
  history 2 ops rs s calls /\ In (OpLowerBorrow (ctx1 0) file (VU32 9), Ok 0) (combine ops rs) /\
  fst (lift_own (ctx1 0) 0 file s) = Ok 9.
Proof.
  exists [OpEnter no_options 1; OpLowerBorrow (ctx1 0) file (VU32 9)]. do 3 eexists.
  split; [apply play_two; proper_two|]. split; [vm_compute; auto|vm_compute; reflexivity].
Qed.
Print Assumptions borrowed_cannot_be_transferred_refuted.
