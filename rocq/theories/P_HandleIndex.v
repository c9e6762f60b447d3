(** The index a new handle gets (C83). The counts kept along a history are those
    of S_HandleIndex.v. *)
From Coq Require Import NArith ZArith List Bool Arith Lia ZifyBool ZifyNat ZifyN.
From Verif Require Import GoBase M_Types M_State M_Canon S_Handles L_Handles P_Handles S_HandleIndex L_HandleIndex.
Import ListNotations.
Open Scope N_scope.

(** Every history has its counts. *)
Theorem every_history_counted : forall insts inst rt ops rs s calls, (inst < insts)%nat ->
  history insts ops rs s calls -> N.of_nat (made ops) < 2 ^ 32 ->
  exists slots spare gone, ledger insts inst rt ops rs s calls slots spare gone.
Proof. intros. apply ledger_total; assumption. Qed.
Print Assumptions every_history_counted.

(** The counts give the answer to the next request. *)
Theorem new_handle_index : forall insts inst rt ops rs s calls slots spare gone o r s', (inst < insts)%nat ->
  ledger insts inst rt ops rs s calls slots spare gone -> N.of_nat (made ops) < 2 ^ 32 ->
  proper insts calls o -> run o s = (r, s') -> asks inst (rt_id rt) o = true ->
  r = answer inst rt s slots spare.
Proof.
  intros insts inst rt ops rs s calls n f g o r s' Hi L Hn Hp E Ha.
  destruct (ledger_counts _ _ _ _ _ _ _ _ _ _ Hi L Hn) as [C1 C2].
  pose proof (ledger_history _ _ _ _ _ _ _ _ _ _ L) as H. destruct (history_inv _ _ _ _ _ H Hn) as [HI Hlen].
  pose proof (op_table insts inst (rt_id rt) s calls _ o r s' HI Hlen Hn Hp E) as Ht. unfold table_step in Ht. rewrite Ha in Ht.
  unfold grown in Ht. rewrite C2, C1 in Ht. unfold answer. destruct f as [|f]; [apply Ht|]. destruct Ht as (_ & _ & Ht).
  rewrite (found_slot insts s calls _ inst rt _ HI Hlen Hi Hn). cbn [slot]. rewrite Nat2N.id.
  destruct (nth_error _ f) as [[y|]|]; [exact Ht|exact Ht|contradiction].
Qed.
Print Assumptions new_handle_index.

(** Each request takes up a removal or a new slot. *)
Theorem requests_accounted : forall insts inst rt ops rs s calls slots spare gone,
  ledger insts inst rt ops rs s calls slots spare gone -> (asked inst rt ops + spare = slots + gone)%nat.
Proof.
  intros insts inst rt ops rs s calls n f g L.
  assert (A : forall ops o, asked inst rt (ops ++ [o]) = (asked inst rt ops + if asks inst (rt_id rt) o then 1 else 0)%nat).
  { intros l o. unfold asked. rewrite filter_app, app_length. cbn. destruct (asks inst (rt_id rt) o); reflexivity. }
  induction L; [reflexivity|rewrite A, H1; lia..].
Qed.
Print Assumptions requests_accounted.

Lemma combine_snoc : forall A B (l : list A) (m : list B) x y, List.length l = List.length m -> combine (l ++ [x]) (m ++ [y]) = combine l m ++ [(x, y)].
Proof. induction l as [|a l IH]; intros [|b m] x y E; try discriminate; [reflexivity|]. cbn. rewrite IH by (injection E; auto). reflexivity. Qed.
Lemma ledger_lengths : forall insts inst rt ops rs s calls n f g, ledger insts inst rt ops rs s calls n f g -> List.length ops = List.length rs.
Proof. intros. induction H; [reflexivity|rewrite !app_length; cbn; lia..]. Qed.

(** Requests are refused at most as often as handles left the table: each
    refusal uses up one removal. *)
Theorem refusals_bounded : forall insts inst rt ops rs s calls slots spare gone, (inst < insts)%nat ->
  ledger insts inst rt ops rs s calls slots spare gone -> N.of_nat (made ops) < 2 ^ 32 ->
  (refused inst rt (combine ops rs) + spare <= gone)%nat.
Proof.
  intros insts inst rt ops rs s calls n f g Hi L.
  assert (A : forall ops rs o r, List.length ops = List.length rs -> refused inst rt (combine (ops ++ [o]) (rs ++ [r])) =
    (refused inst rt (combine ops rs) + if asks inst (rt_id rt) o && match r with Ok _ => false | _ => true end then 1 else 0)%nat).
  { intros l m o r Hl. unfold refused. rewrite combine_snoc, filter_app, app_length by exact Hl. cbn [filter fst snd]. destruct (_ && _); reflexivity. }
  assert (M : forall ops o, (made ops <= made (ops ++ [o]))%nat) by (intros; rewrite made_app; lia).
  induction L as [s H|ops rs s calls n g o r s' L IH Hp E Ha|ops rs s calls n f g o r s' L IH Hp E Ha|ops rs s calls n f g o r s' L IH Hp E Ha Hl|ops rs s calls n f g o r s' L IH Hp E Ha Hl]; intros Hn;
    [reflexivity| | | |]; specialize (M ops o); rewrite (A _ _ _ _ (ledger_lengths _ _ _ _ _ _ _ _ _ _ L)), Ha; cbn [andb]; specialize (IH ltac:(lia)).
  - rewrite (new_handle_index insts inst rt ops rs s calls _ _ _ o r s' Hi L ltac:(lia) Hp E Ha). cbn [answer]. lia.
  - destruct r; lia.
  - lia.
  - lia.
Qed.
Print Assumptions refusals_bounded.

(** While no handle has left the table, the handles are numbered from zero in
    the order of the requests, and none is refused. *)
Theorem handles_numbered : forall insts inst rt ops rs s calls slots spare o r s', (inst < insts)%nat ->
  ledger insts inst rt ops rs s calls slots spare 0 -> N.of_nat (made ops) < 2 ^ 32 ->
  proper insts calls o -> run o s = (r, s') -> asks inst (rt_id rt) o = true ->
  r = Ok (N.of_nat (asked inst rt ops)).
Proof.
  intros insts inst rt ops rs s calls n f o r s' Hi L Hn Hp E Ha.
  pose proof (refusals_bounded _ _ _ _ _ _ _ _ _ _ Hi L Hn) as B. pose proof (requests_accounted _ _ _ _ _ _ _ _ _ _ L) as C.
  assert (f = 0%nat) as -> by lia. rewrite (new_handle_index _ _ _ _ _ _ _ _ _ _ _ _ _ Hi L Hn Hp E Ha). cbn [answer]. do 2 f_equal. lia.
Qed.
Print Assumptions handles_numbered.

(** ** When a freed index comes back *)

Lemma removed_was_there : forall insts s calls n o r s' inst rt i, Inv (s_world s) calls n -> List.length (w_insts (s_world s)) = insts -> N.of_nat n < two32 ->
  proper insts calls o -> run o s = (r, s') -> removes (inst, rt_id rt, i) o r ->
  (inst < insts)%nat /\ asks inst (rt_id rt) o = false /\ exists rep, found s inst rt i = Ok rep.
Proof.
  intros insts s calls n o r s' inst rt i HI Hlen Hn Hp E Hr.
  assert (Hi : (inst < insts)%nat) by (destruct o, r; cbn in Hr, Hp; try contradiction; injection Hr as <- _ _; tauto).
  split; [exact Hi|]. split; [destruct o; cbn in *; try reflexivity; contradiction|].
  rewrite (found_slot insts s calls n inst rt i HI Hlen Hi Hn).
  destruct (slot (s_world s) (inst, rt_id rt, i)) as [id|] eqn:Es; [eauto|]. exfalso.
  assert (R : fst (handle_remove inst (rt_id rt) i s) = Err ETrap).
  { unfold handle_remove, bind. destruct (handle_get inst (rt_id rt) i s) as [o1 s1] eqn:Eg. rewrite <- Hlen in Hi. destruct (get_spec _ _ _ _ _ _ _ _ HI Hi Hn Eg) as [_ ->].
    rewrite Es. reflexivity. }
  destruct o; cbn in Hr; try contradiction; destruct r; try contradiction; injection Hr as Q1 Q2 Q3; rewrite <- Q1, <- Q2, <- Q3 in R; cbn [run] in E.
  - unfold canon_resource_drop, bind in E. destruct (handle_remove inst0 (rt_id rt0) i0 s) as [o1 s1]. cbn in R. subst. discriminate.
  - unfold lift_own, bind in E. destruct (handle_remove (cx_inst cx) (rt_id rt0) i0 s) as [o1 s1]. cbn in R. subst. discriminate.
Qed.

(** A request that directly follows the removal of index [i] gets [i] again
    exactly if [i] equals the number of removals then outstanding; otherwise it
    gets that number as index, or is refused if that handle is there. *)
Theorem freed_index_back_iff : forall insts inst rt ops rs s calls slots spare gone o1 r1 s1 i o2 r2 s2,
  ledger insts inst rt ops rs s calls slots spare gone -> N.of_nat (made ops) + 1 < 2 ^ 32 ->
  proper insts calls o1 -> run o1 s = (r1, s1) -> removes (inst, rt_id rt, i) o1 r1 ->
  proper insts (opened o1 r1 calls) o2 -> run o2 s1 = (r2, s2) -> asks inst (rt_id rt) o2 = true ->
  (r2 = Ok i <-> i = N.of_nat spare) /\
  (i <> N.of_nat spare -> r2 = match found s inst rt (N.of_nat spare) with Ok _ => Err EOther | _ => Ok (N.of_nat spare) end).
Proof.
  intros insts inst rt ops rs s calls n f g o1 r1 s1 i o2 r2 s2 L Hn Hp1 E1 Hr Hp2 E2 Ha.
  pose proof (ledger_history _ _ _ _ _ _ _ _ _ _ L) as H. reach H HI Hlen.
  assert (Hn0 : N.of_nat (made ops) < two32) by (change two32 with (2 ^ 32); lia).
  destruct (removed_was_there _ _ _ _ _ _ _ inst rt i HI Hlen Hn0 Hp1 E1 Hr) as (Hi & Ha1 & rep & Hf).
  pose proof (handle_gone _ _ _ _ _ _ _ _ _ _ _ H Hn Hp1 E1 Hr) as Hg.
  assert (Hm : made [o1] = 0%nat) by (destruct o1; cbn in Hr; try contradiction; reflexivity).
  assert (Hn1 : N.of_nat (made (ops ++ [o1])) < 2 ^ 32) by (rewrite made_app, Hm; lia).
  assert (L1 : ledger insts inst rt (ops ++ [o1]) (rs ++ [r1]) s1 (opened o1 r1 calls) n (S f) (S g)).
  { eapply lg_left; try eassumption. exists i, rep. auto. }
  pose proof (new_handle_index _ _ _ _ _ _ _ _ _ _ _ _ _ Hi L1 Hn1 Hp2 E2 Ha) as ->. cbn [answer].
  assert (K : i <> N.of_nat f -> found s1 inst rt (N.of_nat f) = found s inst rt (N.of_nat f)).
  { intros Hne. destruct (found s inst rt (N.of_nat f)) as [q|e| |] eqn:Q.
    - eapply (handle_stays insts ops rs s calls [(o1, r1)] s1 _ inst rt _ q H); [|cbn [map fst]; rewrite Hm; lia|exact Hi|exact Q|].
      + refine (af_step _ _ _ [] _ _ _ _ _ (af_nil _ _ _) Hp1 E1).
      + constructor; [|constructor]. cbn [fst snd]. destruct o1, r1; cbn in Hr |- *; try exact I; try contradiction; congruence.
    - assert (e = ETrap) as -> by (rewrite (found_slot insts s calls _ inst rt _ HI Hlen Hi Hn0) in Q; destruct (slot _ _); congruence).
      eapply (handle_absent insts ops rs s calls [(o1, r1)] s1 _ inst rt _ H); [|cbn [map fst]; rewrite Hm; lia|exact Hi|exact Q|].
      + refine (af_step _ _ _ [] _ _ _ _ _ (af_nil _ _ _) Hp1 E1).
      + constructor; [|constructor]. cbn [fst snd]. destruct o1, r1; cbn in Hr |- *; auto.
    - rewrite (found_slot insts s calls _ inst rt _ HI Hlen Hi Hn0) in Q; destruct (slot _ _); congruence.
    - rewrite (found_slot insts s calls _ inst rt _ HI Hlen Hi Hn0) in Q; destruct (slot _ _); congruence. }
  split; [split|].
  - intros X. destruct (found s1 inst rt (N.of_nat f)); congruence.
  - intros ->. rewrite Hg. reflexivity.
  - intros Hne. rewrite (K Hne). destruct (found s inst rt (N.of_nat f)); reflexivity.
Qed.
Print Assumptions freed_index_back_iff.

(** ** One handle at a time *)

Lemma one_history : forall insts inst rt ops rs s calls, one_at_a_time insts inst rt ops rs s calls -> history insts ops rs s calls.
Proof. intros. induction H; [assumption|eapply h_step; eassumption]. Qed.

Definition one_table (w : world) (inst : nat) (t : N) : Prop :=
  let a := t_array (inst_table w inst t) in let f := List.length (t_free (inst_table w inst t)) in
  (a = [] /\ f = 0%nat) \/ (a = [None] /\ f = 1%nat) \/ (exists id, a = [Some id] /\ f = 0%nat).

Lemma asks_hands_out : forall inst rt o i, asks inst (rt_id rt) o = true -> hands_out (inst, rt_id rt, i) o (Ok i).
Proof.
  intros inst rt o i H. destruct o; cbn in H; try discriminate; try (destruct v; try discriminate); cbn;
    repeat match goal with X : _ && _ = true |- _ => apply andb_prop in X; destruct X end;
    repeat match goal with X : Nat.eqb _ _ = true |- _ => apply Nat.eqb_eq in X | X : (_ =? _) = true |- _ => apply N.eqb_eq in X end; subst; try congruence.
  split; [congruence|]. intros X. rewrite X, Nat.eqb_refl in *. discriminate.
Qed.

(** A table that is empty whenever a handle is asked for uses index 0 only and
    refuses nothing. *)
Theorem one_at_a_time_zero : forall insts inst rt ops rs s calls, (inst < insts)%nat ->
  one_at_a_time insts inst rt ops rs s calls -> N.of_nat (made ops) + 1 < 2 ^ 32 ->
  forall o r, In (o, r) (combine ops rs) -> asks inst (rt_id rt) o = true -> r = Ok 0.
Proof.
  intros insts inst rt ops rs s calls Hi O Hn.
  assert (X : one_table (s_world s) inst (rt_id rt) /\ List.length ops = List.length rs /\
    forall o r, In (o, r) (combine ops rs) -> asks inst (rt_id rt) o = true -> r = Ok 0); [|apply X].
  induction O as [s H|ops rs s calls o r s' O IH Hp E He].
  - split; [|split; [reflexivity|intros ? ? []]]. left.
    inversion H as [s0 Hee Hc Hd Hins Ht|ops' rs' s0 calls' o' r' s0' H' Hp' E' X1 X2]; [|destruct ops'; discriminate]. subst.
    unfold inst_table. destruct (nth_error (w_insts (s_world s)) inst) as [ins|] eqn:En; [|auto].
    rewrite Forall_forall in Ht. rewrite (Ht ins); [auto|]. eapply nth_error_In. exact En.
  - pose proof (made_app ops [o]) as Hm. rewrite Hm in Hn. destruct IH as (I1 & I2 & I3); [lia|].
    pose proof (one_history _ _ _ _ _ _ _ O) as H. reach H HI Hlen.
    pose proof (h_step _ _ _ _ _ _ _ _ H Hp E) as H'. destruct (history_inv _ _ _ _ _ H') as [HI' Hlen']; [rewrite Hm; change two32 with (2 ^ 32); lia|].
    pose proof (op_table insts inst (rt_id rt) s calls _ o r s' HI Hlen ltac:(change two32 with (2 ^ 32); lia) Hp E) as Ht. unfold table_step in Ht.
    assert (Y : one_table (s_world s') inst (rt_id rt) /\ (asks inst (rt_id rt) o = true -> r = Ok 0)).
    { destruct (asks inst (rt_id rt) o) eqn:Ha.
      - assert (Hne : forall i, slot (s_world s) (inst, rt_id rt, i) = None).
        { intros i. specialize (He eq_refl i). rewrite (found_slot insts s calls _ inst rt i HI Hlen Hi ltac:(change two32 with (2 ^ 32); lia)) in He. destruct (slot _ _); congruence. }
        assert (r = Ok 0 /\ List.length (t_array (inst_table (s_world s') inst (rt_id rt))) = 1%nat /\ List.length (t_free (inst_table (s_world s') inst (rt_id rt))) = 0%nat) as (-> & J2 & J3).
        { unfold grown in Ht. destruct I1 as [[J1 J2]|[[J1 J2]|(id & J1 & J2)]]; rewrite J1, J2 in Ht.
          - exact Ht.
          - cbn in Ht. tauto.
          - exfalso. specialize (Hne 0). cbn in Hne. rewrite J1 in Hne. cbn in Hne. discriminate. }
        split; [|auto]. right. right.
        destruct (handle_found insts ops rs s calls o (Ok 0) s' inst rt 0 H ltac:(lia) Hp E (asks_hands_out _ _ _ _ Ha)) as (rep & _ & Hf).
        rewrite (found_slot insts s' _ _ inst rt 0 HI' Hlen' Hi ltac:(rewrite Hm; change two32 with (2 ^ 32); lia)) in Hf. cbn in Hf.
        destruct (t_array (inst_table (s_world s') inst (rt_id rt))) as [|x [|y a]]; try discriminate. cbn in Hf. destruct x as [id|]; [|discriminate]. eauto.
      - split; [|discriminate]. destruct Ht as [Ht|(i & L1 & L2 & L3 & L4)]; [unfold one_table; rewrite Ht; exact I1|].
        destruct (v_tables _ _ _ HI' inst (rt_id rt)) as (f' & Ef & Hf & _).
        assert (Hfl : List.length (t_free (inst_table (s_world s') inst (rt_id rt))) = f') by (rewrite Ef, map_length, seq_length; reflexivity).
        destruct I1 as [[J1 J2]|[[J1 J2]|(id & J1 & J2)]].
        + exfalso. apply L1. cbn. rewrite J1. destruct (N.to_nat i); reflexivity.
        + exfalso. apply L1. cbn. rewrite J1. destruct (N.to_nat i) as [|[|]]; reflexivity.
        + right. left. rewrite J2 in L4. rewrite J1 in L3. split; [|exact L4]. rewrite Hfl in L4. subst f'.
          destruct (t_array (inst_table (s_world s') inst (rt_id rt))) as [|[x|] [|y a]]; try discriminate; [cbn in Hf; lia|reflexivity]. }
    destruct Y as [Y1 Y2]. split; [exact Y1|]. split; [rewrite !app_length; cbn; lia|].
    intros o' r' Hin Ha'. rewrite combine_snoc in Hin by exact I2. apply in_app_iff in Hin. destruct Hin as [Hin|[Q|[]]]; [eapply I3; eassumption|].
    injection Q as <- <-. apply Y2. exact Ha'.
Qed.
Print Assumptions one_at_a_time_zero.

(** ** Concrete cases *)

(** Three files; the second is dropped; a request is refused, and the next gets
    a new slot. *)
Definition three : list op := [OpNew 0 file 1; OpNew 0 file 2; OpNew 0 file 3].
Definition three_s := snd (play three two_instances).
Lemma three_ledger : ledger 2 0 file three [Ok 0; Ok 1; Ok 2] three_s [] 3 0 0.
Proof.
  assert (L0 := lg_start 2 0 file two_instances two_start).
  assert (L1 := lg_grow _ _ _ _ _ _ _ _ _ (OpNew 0 file 1) _ _ L0 ltac:(cbn; lia) (surjective_pairing _) eq_refl).
  assert (L2 := lg_grow _ _ _ _ _ _ _ _ _ (OpNew 0 file 2) _ _ L1 ltac:(cbn; lia) (surjective_pairing _) eq_refl).
  assert (L3 := lg_grow _ _ _ _ _ _ _ _ _ (OpNew 0 file 3) _ _ L2 ltac:(cbn; lia) (surjective_pairing _) eq_refl).
  vm_compute in L3. vm_compute. exact L3.
Qed.
Example handles_numbered_used : fst (run (OpNew 0 file 9) three_s) = Ok 3 /\ asked 0 file three = 3%nat.
Proof. vm_compute. auto. Qed.
Definition middle_dropped : state := snd (run (OpDrop 0 file 1) three_s).
Lemma middle_ledger : ledger 2 0 file (three ++ [OpDrop 0 file 1]) ([Ok 0; Ok 1; Ok 2] ++ [Ok 0]) middle_dropped [] 3 1 1.
Proof.
  refine (lg_left 2 0 file three _ three_s [] 3 0 0 (OpDrop 0 file 1) (Ok 0) middle_dropped three_ledger _ _ _ _); [cbn; lia|vm_compute; reflexivity|reflexivity|].
  exists 1, 2. split; vm_compute; reflexivity.
Qed.
Example new_handle_index_used : answer 0 file middle_dropped 3 1 = Err EOther /\ fst (run (OpNew 0 file 8) middle_dropped) = Err EOther /\
  fst (run (OpNew 0 file 9) (snd (run (OpNew 0 file 8) middle_dropped))) = Ok 3.
Proof. vm_compute. auto. Qed.
Example refusals_bounded_used : refused 0 file (combine (three ++ [OpDrop 0 file 1; OpNew 0 file 8]) [Ok 0; Ok 1; Ok 2; Ok 0; Err EOther]) = 1%nat.
Proof. reflexivity. Qed.
(** Dropping the first of the three, and then the second, frees 0 and 1 and
    gives 1 and 0 back in turn. *)
Example freed_index_back_used : fst (play [OpDrop 0 file 0; OpDrop 0 file 1; OpNew 0 file 8; OpNew 0 file 9] three_s) = [Ok 0; Ok 0; Ok 1; Ok 0] /\
  removes (0%nat, rt_id file, 0) (OpDrop 0 file 0) (Ok 0) /\ fst (play [OpDrop 0 file 0; OpNew 0 file 8] three_s) = [Ok 0; Ok 0].
Proof. vm_compute. auto. Qed.
Example one_at_a_time_used : one_at_a_time 2 0 file [OpNew 0 file 5; OpDrop 0 file 0; OpNew 0 file 6] [Ok 0; Ok 0; Ok 0] (snd (play [OpNew 0 file 5; OpDrop 0 file 0; OpNew 0 file 6] two_instances)) [].
Proof.
  assert (F : forall (s : state), (exists t, nth_error (w_insts (s_world s)) 0 = Some (mkInst true true t) /\ (t = [] \/ t = [(7, mkTable [None] [0])])) -> forall i, found s 0 file i = Err ETrap).
  { intros s (t & Ht & [->| ->]) i; unfold found, canon_resource_rep, handle_get, bind, get_world, put_world, lift_o, inst_table, table_get; rewrite Ht; cbn.
    - change (u32 0) with 0. replace (0 <=? i) with true by (symmetry; apply N.leb_le; lia). reflexivity.
    - change (u32 1) with 1. destruct (N.leb_spec 1 i); [reflexivity|]. replace i with 0 by lia. reflexivity. }
  pose (o1 := OpNew 0 file 5). pose (o2 := OpDrop 0 file 0). pose (o3 := OpNew 0 file 6).
  pose (s1 := snd (run o1 two_instances)). pose (s2 := snd (run o2 s1)).
  assert (L1 : one_at_a_time 2 0 file ([] ++ [o1]) ([] ++ [Ok 0]) s1 []).
  { apply (oa_step 2 0 file [] [] two_instances [] o1 (Ok 0) s1); [exact (oa_start 2 0 file two_instances two_start)|cbn; lia|vm_compute; reflexivity|].
    intros _. apply F. eexists. split; [vm_compute; reflexivity|auto]. }
  assert (L2 : one_at_a_time 2 0 file (([] ++ [o1]) ++ [o2]) (([] ++ [Ok 0]) ++ [Ok 0]) s2 []).
  { apply (oa_step 2 0 file _ _ s1 [] o2 (Ok 0) s2 L1); [cbn; lia|vm_compute; reflexivity|discriminate]. }
  refine (oa_step 2 0 file _ _ s2 [] o3 (Ok 0) _ L2 _ _ _); [cbn; lia|vm_compute; reflexivity|].
  intros _. apply F. eexists. split; [vm_compute; reflexivity|auto].
Qed.
