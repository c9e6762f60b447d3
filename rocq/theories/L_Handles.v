(** The handle tables implement the abstract machine of S_Handles. *)
From Coq Require Import NArith ZArith List Bool Arith Lia ZifyBool ZifyNat ZifyN Permutation.
From Verif Require Import GoBase M_Types M_State M_Canon S_Handles L_Access.
Import ListNotations.
Open Scope N_scope.
Open Scope go_scope.

(** ** Lists *)
Lemma list_upd_split : forall {A} (l : list A) i x, nth_error l i = Some x ->
  exists l1 l2, l = l1 ++ x :: l2 /\ List.length l1 = i /\ forall y, list_upd l i y = l1 ++ y :: l2.
Proof.
  induction l as [|a l IH]; intros [|i] x E; try discriminate.
  - injection E as ->. exists [], l. auto.
  - cbn in E. destruct (IH i x E) as (l1 & l2 & -> & <- & H). exists (a :: l1), l2. cbn. split; [reflexivity|].
    split; [reflexivity|]. intros y. cbn. rewrite H. reflexivity.
Qed.
Lemma list_upd_length : forall {A} (l : list A) i x, List.length (list_upd l i x) = List.length l.
Proof. induction l; intros [|i] x; cbn; auto. Qed.
Lemma list_upd_nth : forall {A} (l : list A) i x j, nth_error (list_upd l i x) j =
  if Nat.eqb j i && Nat.ltb i (List.length l) then Some x else nth_error l j.
Proof.
  induction l as [|a l IH]; intros [|i] x [|j]; cbn; try reflexivity.
  - destruct (Nat.eqb j i); reflexivity.
  - rewrite IH. reflexivity.
Qed.
Lemma list_upd_nth_default : forall {A} (l : list A) i x j d, nth j (list_upd l i x) d =
  if Nat.eqb j i && Nat.ltb i (List.length l) then x else nth j l d.
Proof.
  induction l as [|a l IH]; intros [|i] x [|j] d; cbn; try reflexivity.
  - destruct (Nat.eqb j i); reflexivity.
  - rewrite IH. reflexivity.
Qed.

Lemma filter_perm : forall {A} (f : A -> bool) l l', Permutation l l' -> List.length (filter f l) = List.length (filter f l').
Proof.
  intros A f l l' H. induction H; cbn; try reflexivity.
  - destruct (f x); cbn; congruence.
  - destruct (f x), (f y); reflexivity.
  - congruence.
Qed.

(** ** Tables *)
Definition occupants (a : list (option nat)) : list nat :=
  flat_map (fun o => match o with Some id => [id] | None => [] end) a.
Definition holes (a : list (option nat)) : nat :=
  List.length (filter (fun o => match o with None => true | Some _ => false end) a).
Definition live_table (t : htable) : list nat := occupants (t_array t).
Definition live_inst (ins : instance) : list nat := flat_map (fun p => live_table (snd p)) (i_tables ins).
Definition live (w : world) : list nat := flat_map live_inst (w_insts w).

Lemma occupants_app : forall a b, occupants (a ++ b) = (occupants a ++ occupants b)%list.
Proof. intros. unfold occupants. apply flat_map_app. Qed.
Lemma holes_app : forall a b, holes (a ++ b) = (holes a + holes b)%nat.
Proof. intros. unfold holes. rewrite filter_app, app_length. reflexivity. Qed.
Lemma holes_le : forall a, (holes a <= List.length a)%nat.
Proof. unfold holes. induction a as [|[x|] a IH]; cbn; lia. Qed.

Lemma find_table_some : forall ts rt t, find_table ts rt = Some t ->
  exists ts1 ts2, ts = ts1 ++ (rt, t) :: ts2 /\ ~ In rt (map fst ts1) /\ forall t', set_table ts rt t' = ts1 ++ (rt, t') :: ts2.
Proof.
  induction ts as [|[r t0] ts IH]; intros rt t E; [discriminate|]. cbn [find_table] in E. cbn [set_table].
  destruct (N.eqb_spec r rt) as [->|Hn].
  - injection E as ->. exists [], ts. split; [reflexivity|]. split; [intros []|reflexivity].
  - destruct (IH rt t E) as (t1 & t2 & -> & Hin & H). exists ((r, t0) :: t1), t2. split; [reflexivity|].
    split; [intros [|]; auto|]. intros t'. rewrite H. reflexivity.
Qed.
Lemma find_table_none : forall ts rt, find_table ts rt = None ->
  ~ In rt (map fst ts) /\ forall t', set_table ts rt t' = ts ++ [(rt, t')].
Proof.
  induction ts as [|[r t0] ts IH]; intros rt E; [split; [intros []|reflexivity]|]. cbn [find_table] in E. cbn [set_table].
  destruct (N.eqb_spec r rt) as [->|Hn]; [discriminate|]. destruct (IH rt E) as [H1 H2].
  split; [intros [|]; auto|]. intros t'. rewrite H2. reflexivity.
Qed.
Lemma find_set_table : forall ts rt t rt', find_table (set_table ts rt t) rt' = if rt =? rt' then Some t else find_table ts rt'.
Proof.
  induction ts as [|[r t0] ts IH]; intros rt t rt'; cbn [set_table find_table].
  - reflexivity.
  - destruct (N.eqb_spec r rt) as [->|Hn]; cbn [find_table].
    + destruct (rt =? rt'); reflexivity.
    + destruct (N.eqb_spec r rt') as [->|Hn']; [|apply IH]. destruct (N.eqb_spec rt rt'); congruence.
Qed.
Lemma set_table_nodup : forall ts rt t, NoDup (map fst ts) -> NoDup (map fst (set_table ts rt t)).
Proof.
  intros ts rt t H. destruct (find_table ts rt) as [t0|] eqn:E.
  - destruct (find_table_some _ _ _ E) as (t1 & t2 & -> & _ & Hs). rewrite Hs. rewrite map_app in *. exact H.
  - destruct (find_table_none _ _ E) as [Hn Hs]. rewrite Hs, map_app. cbn.
    apply Permutation_NoDup with (l := rt :: map fst ts); [apply Permutation_cons_append|]. constructor; assumption.
Qed.

Lemma set_inst_table_insts : forall w i rt t ins, nth_error (w_insts w) i = Some ins ->
  set_inst_table w i rt t = mkWorld (w_elems w) (w_calls w)
    (list_upd (w_insts w) i (mkInst (i_may_enter ins) (i_may_leave ins) (set_table (i_tables ins) rt t))) (w_dtors w).
Proof. intros w i rt t ins E. unfold set_inst_table. rewrite E. reflexivity. Qed.

Lemma inst_table_set : forall w i rt t i' rt', (i < List.length (w_insts w))%nat ->
  inst_table (set_inst_table w i rt t) i' rt' =
  if Nat.eqb i' i && (rt =? rt') then t else inst_table w i' rt'.
Proof.
  intros w i rt t i' rt' Hi. destruct (nth_error (w_insts w) i) as [ins|] eqn:E; [|apply nth_error_None in E; lia].
  rewrite (set_inst_table_insts _ _ _ _ _ E). unfold inst_table. cbn [w_insts]. rewrite list_upd_nth.
  apply Nat.ltb_lt in Hi. rewrite Hi, andb_true_r. destruct (Nat.eqb_spec i' i) as [->|]; [|reflexivity].
  cbn [andb i_tables]. unfold get_table. rewrite find_set_table. rewrite E. destruct (rt =? rt'); reflexivity.
Qed.

(** Replacing a table replaces its occupants. *)
Lemma live_set : forall w i rt t, (i < List.length (w_insts w))%nat -> exists rest,
  Permutation (live w) (live_table (inst_table w i rt) ++ rest) /\
  Permutation (live (set_inst_table w i rt t)) (live_table t ++ rest).
Proof.
  intros w i rt t Hi. destruct (nth_error (w_insts w) i) as [ins|] eqn:E; [|apply nth_error_None in E; lia].
  rewrite (set_inst_table_insts _ _ _ _ _ E). unfold live, inst_table. cbn [w_insts]. rewrite E.
  destruct (list_upd_split _ _ _ E) as (l1 & l2 & El & _ & Hu). rewrite Hu, El, !flat_map_app. cbn [flat_map].
  set (A := flat_map live_inst l1). set (B := flat_map live_inst l2).
  assert (X : exists r, Permutation (live_inst ins) (live_table (get_table (i_tables ins) rt) ++ r) /\
     Permutation (live_inst (mkInst (i_may_enter ins) (i_may_leave ins) (set_table (i_tables ins) rt t))) (live_table t ++ r)).
  { unfold live_inst, get_table. cbn [i_tables]. destruct (find_table (i_tables ins) rt) as [t0|] eqn:Ef.
    - destruct (find_table_some _ _ _ Ef) as (t1 & t2 & Et & _ & Hs). rewrite Hs, Et, !flat_map_app. cbn [flat_map snd].
      exists (flat_map (fun p => live_table (snd p)) t1 ++ flat_map (fun p => live_table (snd p)) t2)%list.
      split; rewrite !app_assoc; apply Permutation_app_tail; apply Permutation_app_comm.
    - destruct (find_table_none _ _ Ef) as [_ Hs]. rewrite Hs, flat_map_app. cbn [flat_map snd].
      exists (flat_map (fun p => live_table (snd p)) (i_tables ins)). split; [reflexivity|]. rewrite app_nil_r. apply Permutation_app_comm. }
  destruct X as (r & P1 & P2). exists (A ++ B ++ r)%list.
  split.
  - rewrite P1. rewrite <- !app_assoc. rewrite (Permutation_app_comm A). rewrite <- !app_assoc. apply Permutation_app_head.
    rewrite app_assoc. rewrite (Permutation_app_comm (r ++ B) A). apply Permutation_app_head. apply Permutation_app_comm.
  - rewrite P2. rewrite <- !app_assoc. rewrite (Permutation_app_comm A). rewrite <- !app_assoc. apply Permutation_app_head.
    rewrite app_assoc. rewrite (Permutation_app_comm (r ++ B) A). apply Permutation_app_head. apply Permutation_app_comm.
Qed.

(** ** Slots *)
Definition slot (w : world) (k : key) : option nat :=
  let '(inst, rt, i) := k in
  match nth_error (t_array (inst_table w inst rt)) (N.to_nat i) with Some (Some id) => Some id | _ => None end.

Lemma occupants_in : forall a id, In id (occupants a) <-> exists n, nth_error a n = Some (Some id).
Proof.
  intros a id. unfold occupants. rewrite in_flat_map. split.
  - intros (o & Ho & Hi). destruct o as [x|]; [|destruct Hi]. destruct Hi as [->|[]]. apply In_nth_error in Ho. exact Ho.
  - intros (n & E). exists (Some id). split; [eapply nth_error_In; exact E|cbn; auto].
Qed.

Lemma table_live : forall w i rt id, In id (live_table (inst_table w i rt)) -> In id (live w).
Proof.
  intros w i rt id H. unfold inst_table in H. destruct (nth_error (w_insts w) i) as [ins|] eqn:E; [|destruct H].
  unfold get_table in H. destruct (find_table (i_tables ins) rt) as [t|] eqn:Ef; [|destruct H].
  unfold live. apply in_flat_map. exists ins. split; [eapply nth_error_In; exact E|].
  destruct (find_table_some _ _ _ Ef) as (t1 & t2 & Et & _). unfold live_inst. apply in_flat_map.
  exists (rt, t). split; [rewrite Et; apply in_app_iff; cbn; auto|exact H].
Qed.

Lemma slot_live : forall w k id, slot w k = Some id -> In id (live w).
Proof.
  intros w [[i rt] n] id E. cbn in E. apply (table_live w i rt). apply occupants_in. exists (N.to_nat n).
  destruct (nth_error _ _) as [[x|]|]; congruence.
Qed.

Definition keys_ok (w : world) : Prop := Forall (fun ins => NoDup (map fst (i_tables ins))) (w_insts w).

Lemma find_table_in : forall ts rt t, NoDup (map fst ts) -> In (rt, t) ts -> find_table ts rt = Some t.
Proof.
  induction ts as [|[r t0] ts IH]; intros rt t Hn Hi; [destruct Hi|]. cbn in Hn. inversion Hn as [|? ? H1 H2]; subst.
  cbn [find_table]. destruct Hi as [E|Hi]; [injection E as -> ->; rewrite N.eqb_refl; reflexivity|].
  destruct (N.eqb_spec r rt) as [->|]; [|auto]. exfalso. apply H1. apply (in_map fst) in Hi. exact Hi.
Qed.

Lemma live_slot : forall w id, keys_ok w -> In id (live w) -> exists k, slot w k = Some id.
Proof.
  intros w id Hk H. unfold live in H. apply in_flat_map in H. destruct H as (ins & Hins & H).
  unfold keys_ok in Hk. rewrite Forall_forall in Hk. specialize (Hk _ Hins).
  unfold live_inst in H. apply in_flat_map in H. destruct H as ([rt t] & Ht & H). cbn [snd] in H.
  apply occupants_in in H. destruct H as (n & En). apply In_nth_error in Hins. destruct Hins as (i & Ei).
  exists (i, rt, N.of_nat n). cbn. unfold inst_table, get_table. rewrite Ei, (find_table_in _ _ _ Hk Ht), Nat2N.id, En. reflexivity.
Qed.

Lemma NoDup_app_disjoint : forall {A} (a b : list A) x, NoDup (a ++ b) -> In x a -> In x b -> False.
Proof.
  intros A a b x H Ha Hb. induction a as [|y a IH]; [destruct Ha|]. cbn in H. inversion H; subst.
  destruct Ha as [->|Ha]; [|auto]. apply H2. apply in_app_iff. auto.
Qed.
Lemma NoDup_app_l : forall {A} (a b : list A), NoDup (a ++ b) -> NoDup a.
Proof. intros A a b H. induction a; [constructor|]. cbn in H. inversion H; subst. constructor; [|auto]. rewrite in_app_iff in H2. tauto. Qed.
Lemma NoDup_app_r : forall {A} (a b : list A), NoDup (a ++ b) -> NoDup b.
Proof. intros A a b H. induction a; [exact H|]. cbn in H. inversion H; subst. auto. Qed.

Lemma occupants_unique : forall a id n m, NoDup (occupants a) ->
  nth_error a n = Some (Some id) -> nth_error a m = Some (Some id) -> n = m.
Proof.
  induction a as [|o a IH]; intros id [|n] [|m] Hn E1 E2; try discriminate; [reflexivity| | |].
  - injection E1 as ->. cbn in Hn. inversion Hn as [|? ? H1 H2]; subst. exfalso. apply H1. apply occupants_in. eauto.
  - injection E2 as ->. cbn in Hn. inversion Hn as [|? ? H1 H2]; subst. exfalso. apply H1. apply occupants_in. eauto.
  - f_equal. cbn in E1, E2. apply (IH id); try assumption. change (o :: a) with ([o] ++ a)%list in Hn. rewrite occupants_app in Hn.
    apply NoDup_app_r in Hn. exact Hn.
Qed.

Lemma slot_unique : forall w k k' id, NoDup (live w) -> slot w k = Some id -> slot w k' = Some id -> k = k'.
Proof.
  intros w [[i rt] n] [[i' rt'] n'] id Hn E1 E2.
  assert (X1 : exists n0, N.to_nat n = n0 /\ nth_error (t_array (inst_table w i rt)) n0 = Some (Some id)).
  { cbn in E1. destruct (nth_error _ _) as [[x|]|] eqn:E; try discriminate. injection E1 as ->. eauto. }
  assert (X2 : exists n0, N.to_nat n' = n0 /\ nth_error (t_array (inst_table w i' rt')) n0 = Some (Some id)).
  { cbn in E2. destruct (nth_error (t_array (inst_table w i' rt')) _) as [[x|]|] eqn:E; try discriminate. injection E2 as ->. eauto. }
  clear E1 E2. destruct X1 as (p & Ep & E1). destruct X2 as (p' & Ep' & E2).
  assert (L1 : In id (live_table (inst_table w i rt))) by (apply occupants_in; eauto).
  assert (L2 : In id (live_table (inst_table w i' rt'))) by (apply occupants_in; eauto).
  assert (Hi : i = i').
  { destruct (Nat.eq_dec i i') as [|Hne]; [assumption|exfalso]. unfold inst_table in L1, L2.
    destruct (nth_error (w_insts w) i) as [ins|] eqn:Ei; [|destruct L1].
    destruct (nth_error (w_insts w) i') as [ins'|] eqn:Ei'; [|destruct L2].
    assert (LI : In id (live_inst ins)).
    { unfold get_table in L1. destruct (find_table _ rt) as [t|] eqn:Ef; [|destruct L1]. destruct (find_table_some _ _ _ Ef) as (t1 & t2 & Et & _).
      unfold live_inst. apply in_flat_map. exists (rt, t). split; [rewrite Et; apply in_app_iff; cbn; auto|exact L1]. }
    assert (LI' : In id (live_inst ins')).
    { unfold get_table in L2. destruct (find_table _ rt') as [t|] eqn:Ef; [|destruct L2]. destruct (find_table_some _ _ _ Ef) as (t1 & t2 & Et & _).
      unfold live_inst. apply in_flat_map. exists (rt', t). split; [rewrite Et; apply in_app_iff; cbn; auto|exact L2]. }
    destruct (list_upd_split _ _ _ Ei) as (l1 & l2 & El & Hl & _). unfold live in Hn. rewrite El, flat_map_app in Hn. cbn [flat_map] in Hn.
    rewrite El in Ei'. destruct (Nat.lt_ge_cases i' (List.length l1)).
    - rewrite nth_error_app1 in Ei' by assumption. apply (NoDup_app_disjoint _ _ id Hn); [|apply in_app_iff; auto].
      apply in_flat_map. exists ins'. split; [eapply nth_error_In; exact Ei'|exact LI'].
    - rewrite nth_error_app2 in Ei' by assumption. apply NoDup_app_r in Hn. destruct (i' - List.length l1)%nat as [|d] eqn:Ed; [lia|].
      cbn in Ei'. apply (NoDup_app_disjoint _ _ id Hn); [exact LI|]. apply in_flat_map. exists ins'. split; [eapply nth_error_In; exact Ei'|exact LI']. }
  subst i'.
  assert (Hr : rt = rt').
  { destruct (N.eq_dec rt rt') as [|Hne]; [assumption|exfalso]. unfold inst_table in L1, L2.
    destruct (nth_error (w_insts w) i) as [ins|] eqn:Ei; [|destruct L1].
    unfold get_table in L1, L2. destruct (find_table _ rt) as [t|] eqn:Ef; [|destruct L1].
    destruct (find_table_some _ _ _ Ef) as (t1 & t2 & Et & Hnot & _).
    assert (Hn' : NoDup (live_inst ins)).
    { destruct (list_upd_split _ _ _ Ei) as (l1 & l2 & El & Hl & _). unfold live in Hn. rewrite El, flat_map_app in Hn. cbn [flat_map] in Hn.
      apply NoDup_app_r in Hn. apply NoDup_app_l in Hn. exact Hn. }
    unfold live_inst in Hn'. rewrite Et, flat_map_app in Hn'. cbn [flat_map snd] in Hn'.
    destruct (find_table (i_tables ins) rt') as [t'|] eqn:Ef'; [|destruct L2].
    destruct (find_table_some _ _ _ Ef') as (t1' & t2' & Et' & _ & _).
    assert (Hin : In (rt', t') (t1 ++ (rt, t) :: t2)) by (rewrite <- Et, Et'; apply in_app_iff; cbn; auto).
    apply in_app_iff in Hin. destruct Hin as [Hin|[Eq|Hin]].
    - apply (NoDup_app_disjoint _ _ id Hn'); [|apply in_app_iff; auto]. apply in_flat_map. exists (rt', t'). auto.
    - injection Eq as -> ->. congruence.
    - apply NoDup_app_r in Hn'. apply (NoDup_app_disjoint _ _ id Hn'); [exact L1|]. apply in_flat_map. exists (rt', t'). auto. }
  subst rt'. assert (p = p').
  { destruct (live_set w i rt (inst_table w i rt)) as (rest & P & _).
    - unfold inst_table in L1. destruct (nth_error (w_insts w) i) eqn:Ei; [|destruct L1]. apply nth_error_Some. congruence.
    - apply (Permutation_NoDup P) in Hn. apply NoDup_app_l in Hn. eapply occupants_unique; [exact Hn|exact E1|exact E2]. }
  repeat f_equal. lia.
Qed.

(** ** The invariant *)
Definition scoped (w : world) (c id : nat) : bool :=
  match h_scope (elem_at w id) with Some c' => Nat.eqb c' c | None => false end.
Definition nscoped (w : world) (c : nat) : nat := List.length (filter (scoped w c) (live w)).
Definition lenders_of (w : world) (c : nat) : list nat :=
  match nth_error (w_calls w) c with Some k => k_lenders k | None => [] end.
Definition loans (w : world) (calls : list nat) : list nat := flat_map (lenders_of w) calls.
Definition enter_ok (w : world) (i : nat) : bool :=
  match nth_error (w_insts w) i with Some ins => i_may_enter ins | None => true end.

(** The free list always counts up from 0, and is no longer than the number of
    empty slots. *)
Definition table_ok (n : nat) (t : htable) : Prop :=
  exists f, t_free t = map N.of_nat (seq 0 f) /\ (f <= holes (t_array t))%nat /\ (List.length (t_array t) <= n)%nat.

Record Inv (w : world) (calls : list nat) (n : nat) : Prop := mkInv {
  v_tables : forall i rt, table_ok n (inst_table w i rt);
  v_keys : keys_ok w;
  v_nodup : NoDup (live w);
  v_live : forall id, In id (live w) -> (id < List.length (w_elems w))%nat;
  v_scope : forall id c, In id (live w) -> h_scope (elem_at w id) = Some c -> (c < List.length (w_calls w))%nat;
  v_borrow : forall c k, nth_error (w_calls w) c = Some k -> k_borrow k = Z.of_nat (nscoped w c);
  v_open : NoDup calls;
  v_calls : forall c, In c calls -> (c < List.length (w_calls w))%nat;
  v_lend : forall id, (id < List.length (w_elems w))%nat -> h_lend (elem_at w id) = Z.of_nat (count_occ Nat.eq_dec (loans w calls) id);
  v_lenders : forall id, In id (loans w calls) -> In id (live w) }.

Lemma table_ok_mono : forall n m t, table_ok n t -> (n <= m)%nat -> table_ok m t.
Proof. intros n m t (f & H1 & H2 & H3) H. exists f. repeat split; try assumption. lia. Qed.

Lemma keys_ok_set : forall w i rt t, keys_ok w -> keys_ok (set_inst_table w i rt t).
Proof.
  intros w i rt t H. unfold keys_ok, set_inst_table in *. destruct (nth_error (w_insts w) i) as [ins|] eqn:E; [|exact H]. cbn [w_insts].
  destruct (list_upd_split _ _ _ E) as (l1 & l2 & El & _ & Hu). rewrite Hu. rewrite El in H.
  apply Forall_app in H. destruct H as [H1 H2]. inversion H2; subst. apply Forall_app. split; [assumption|].
  constructor; [|assumption]. cbn [i_tables]. apply set_table_nodup. assumption.
Qed.

Lemma set_inst_table_other : forall w i rt t, w_elems (set_inst_table w i rt t) = w_elems w /\
  w_calls (set_inst_table w i rt t) = w_calls w /\ w_dtors (set_inst_table w i rt t) = w_dtors w /\
  List.length (w_insts (set_inst_table w i rt t)) = List.length (w_insts w) /\
  forall j, enter_ok (set_inst_table w i rt t) j = enter_ok w j.
Proof.
  intros w i rt t. unfold set_inst_table, enter_ok. destruct (nth_error (w_insts w) i) as [ins|] eqn:E; [|auto 10]. cbn.
  rewrite list_upd_length. repeat split. intros j. rewrite list_upd_nth. destruct (Nat.eqb_spec j i) as [->|]; [|reflexivity].
  destruct (Nat.ltb i (List.length (w_insts w))); cbn; [|reflexivity]. rewrite E. reflexivity.
Qed.

Definition delta (sc : option nat) (d : Z) (c : nat) : Z :=
  match sc with Some c' => if Nat.eqb c' c then d else 0%Z | None => 0%Z end.
Lemma add_borrow_other : forall w sc d, w_elems (add_borrow w sc d) = w_elems w /\ w_insts (add_borrow w sc d) = w_insts w /\
  w_dtors (add_borrow w sc d) = w_dtors w /\ List.length (w_calls (add_borrow w sc d)) = List.length (w_calls w) /\
  (forall c, lenders_of (add_borrow w sc d) c = lenders_of w c) /\
  forall c, option_map k_borrow (nth_error (w_calls (add_borrow w sc d)) c) = option_map (fun k => (k_borrow k + delta sc d c)%Z) (nth_error (w_calls w) c).
Proof.
  intros w [c0|] d; cbn [add_borrow delta].
  - destruct (nth_error (w_calls w) c0) as [k|] eqn:E; cbn.
    + rewrite list_upd_length. assert (Hl : (c0 < List.length (w_calls w))%nat) by (apply nth_error_Some; congruence).
      apply Nat.ltb_lt in Hl. unfold lenders_of. cbn. repeat split; intros c; rewrite list_upd_nth, Hl, andb_true_r.
      * destruct (Nat.eqb_spec c c0) as [->|]; [rewrite E|]; reflexivity.
      * destruct (Nat.eqb_spec c c0) as [->|Hn].
        -- rewrite E, Nat.eqb_refl. reflexivity.
        -- destruct (Nat.eqb_spec c0 c); [congruence|]. destruct (nth_error (w_calls w) c); cbn; [f_equal; lia|reflexivity].
    + repeat split. intros c. destruct (Nat.eqb_spec c0 c) as [->|]; [rewrite E; reflexivity|].
      destruct (nth_error (w_calls w) c); cbn; [f_equal; lia|reflexivity].
  - repeat split. intros c. destruct (nth_error (w_calls w) c); cbn; [f_equal; lia|reflexivity].
Qed.

Lemma loans_ext : forall w w' calls, (forall c, lenders_of w' c = lenders_of w c) -> loans w' calls = loans w calls.
Proof. intros w w' calls H. unfold loans. induction calls; cbn; [reflexivity|]. rewrite H, IHcalls. reflexivity. Qed.

(** *** A table is replaced *)
Section Replace.
  Variables (w : world) (calls : list nat) (n m : nat) (i : nat) (rt : N) (t' : htable) (sc : option nat) (d : Z).
  Let w' := add_borrow (set_inst_table w i rt t') sc d.
  Hypothesis HI : Inv w calls n.
  Hypothesis Hi : (i < List.length (w_insts w))%nat.
  Hypothesis Hnm : (n <= m)%nat.
  Hypothesis Ht : table_ok m t'.

  Lemma rep_elems : w_elems w' = w_elems w.
  Proof. unfold w'. destruct (add_borrow_other (set_inst_table w i rt t') sc d) as (-> & _). apply set_inst_table_other. Qed.
  Lemma rep_insts : w_insts w' = w_insts (set_inst_table w i rt t').
  Proof. unfold w'. apply add_borrow_other. Qed.
  Lemma rep_dtors : w_dtors w' = w_dtors w.
  Proof. unfold w'. destruct (add_borrow_other (set_inst_table w i rt t') sc d) as (_ & _ & -> & _). apply set_inst_table_other. Qed.
  Lemma rep_ninsts : List.length (w_insts w') = List.length (w_insts w).
  Proof. rewrite rep_insts. apply set_inst_table_other. Qed.
  Lemma rep_ncalls : List.length (w_calls w') = List.length (w_calls w).
  Proof. unfold w'. destruct (add_borrow_other (set_inst_table w i rt t') sc d) as (_ & _ & _ & -> & _). destruct (set_inst_table_other w i rt t') as (_ & -> & _). reflexivity. Qed.
  Lemma rep_enter : forall j, enter_ok w' j = enter_ok w j.
  Proof. intros j. unfold enter_ok. rewrite rep_insts. apply set_inst_table_other. Qed.
  Lemma rep_lenders : forall c, lenders_of w' c = lenders_of w c.
  Proof.
    intros c. unfold w'. destruct (add_borrow_other (set_inst_table w i rt t') sc d) as (_ & _ & _ & _ & -> & _).
    unfold lenders_of. destruct (set_inst_table_other w i rt t') as (_ & -> & _). reflexivity.
  Qed.
  Lemma rep_elem : forall id, elem_at w' id = elem_at w id.
  Proof. intros id. unfold elem_at. rewrite rep_elems. reflexivity. Qed.
  Lemma rep_table : forall i' rt', inst_table w' i' rt' = if Nat.eqb i' i && (rt =? rt') then t' else inst_table w i' rt'.
  Proof. intros i' rt'. rewrite <- (inst_table_set w i rt t' i' rt' Hi). unfold inst_table. rewrite rep_insts. reflexivity. Qed.
  Lemma rep_live : live w' = live (set_inst_table w i rt t').
  Proof. unfold live. rewrite rep_insts. reflexivity. Qed.
  Lemma rep_borrow : forall c k', nth_error (w_calls w') c = Some k' ->
    exists k, nth_error (w_calls w) c = Some k /\ k_borrow k' = (k_borrow k + delta sc d c)%Z.
  Proof.
    intros c k' E. destruct (add_borrow_other (set_inst_table w i rt t') sc d) as (_ & _ & _ & _ & _ & H). specialize (H c).
    fold w' in H. rewrite E in H. cbn in H. destruct (set_inst_table_other w i rt t') as (_ & Ec & _). rewrite Ec in H.
    destruct (nth_error (w_calls w) c) as [k|]; [|discriminate]. injection H as H. eauto.
  Qed.
  Lemma rep_scoped : forall c id, scoped w' c id = scoped w c id.
  Proof. intros c id. unfold scoped. rewrite rep_elem. reflexivity. Qed.

  Lemma rep_inv :
    NoDup (live w') -> (forall id, In id (live w') -> (id < List.length (w_elems w))%nat) ->
    (forall id c, In id (live w') -> h_scope (elem_at w id) = Some c -> (c < List.length (w_calls w))%nat) ->
    (forall c, Z.of_nat (List.length (filter (scoped w c) (live w'))) = Z.of_nat (nscoped w c) + delta sc d c)%Z ->
    (forall id, In id (live w) -> In id (loans w calls) -> In id (live w')) ->
    Inv w' calls m.
  Proof.
    intros H1 H2 H3 H4 H5. destruct HI. constructor.
    - intros i' rt'. rewrite rep_table. destruct (Nat.eqb i' i && (rt =? rt')); [exact Ht|]. eapply table_ok_mono; [auto|exact Hnm].
    - unfold keys_ok. rewrite rep_insts. apply keys_ok_set. assumption.
    - exact H1.
    - rewrite rep_elems. exact H2.
    - intros id c Hin. rewrite rep_elem, rep_ncalls. apply H3. exact Hin.
    - intros c k' E. destruct (rep_borrow c k' E) as (k & Ek & ->). rewrite (v_borrow0 c k Ek). unfold nscoped at 2.
      erewrite (filter_ext (scoped w' c)); [|apply rep_scoped]. rewrite H4. reflexivity.
    - assumption.
    - intros c Hc. rewrite rep_ncalls. auto.
    - intros id Hid. rewrite rep_elems in Hid. rewrite rep_elem, (v_lend0 id Hid), (loans_ext w w'); [reflexivity|apply rep_lenders].
    - intros id Hid. rewrite (loans_ext w w') in Hid by apply rep_lenders. auto.
  Qed.

  Lemma rep_same : Permutation (live_table t') (live_table (inst_table w i rt)) -> sc = None -> Inv w' calls m.
  Proof.
    intros P Hsc. assert (PL : Permutation (live w') (live w)).
    { rewrite rep_live. destruct (live_set w i rt t' Hi) as (rest & P1 & P2). rewrite P1, P2, P. reflexivity. }
    destruct HI. apply rep_inv.
    - eapply Permutation_NoDup; [symmetry; exact PL|assumption].
    - intros id Hin. apply v_live0. eapply Permutation_in; [exact PL|exact Hin].
    - intros id c Hin. apply v_scope0. eapply Permutation_in; [exact PL|exact Hin].
    - intros c. rewrite (filter_perm _ _ _ PL), Hsc. cbn. unfold nscoped. lia.
    - intros id Hin _. eapply Permutation_in; [symmetry; exact PL|exact Hin].
  Qed.

  Lemma rep_put : forall id, Permutation (live_table t') (id :: live_table (inst_table w i rt)) ->
    (id < List.length (w_elems w))%nat -> ~ In id (live w) -> h_scope (elem_at w id) = sc ->
    (forall c, sc = Some c -> (c < List.length (w_calls w))%nat) -> d = 1%Z -> Inv w' calls m.
  Proof.
    intros id P Hid Hnew Hsc Hc Hd. assert (PL : Permutation (live w') (id :: live w)).
    { rewrite rep_live. destruct (live_set w i rt t' Hi) as (rest & P1 & P2). rewrite P1, P2, P. reflexivity. }
    destruct HI. apply rep_inv.
    - eapply Permutation_NoDup; [symmetry; exact PL|]. constructor; assumption.
    - intros x Hin. apply (Permutation_in _ PL) in Hin. destruct Hin as [<-|Hin]; auto.
    - intros x c Hin. apply (Permutation_in _ PL) in Hin. destruct Hin as [<-|Hin]; [|eauto]. rewrite Hsc. apply Hc.
    - intros c. rewrite (filter_perm _ _ _ PL). cbn [filter]. unfold scoped at 1. rewrite Hsc. unfold delta, nscoped. rewrite Hd.
      destruct sc as [c'|]; [destruct (Nat.eqb c' c)|]; cbn [List.length]; lia.
    - intros x Hin _. eapply Permutation_in; [symmetry; exact PL|]. right. exact Hin.
  Qed.

  Lemma rep_take : forall id, Permutation (live_table (inst_table w i rt)) (id :: live_table t') ->
    h_lend (elem_at w id) = 0%Z -> h_scope (elem_at w id) = sc -> d = (-1)%Z -> Inv w' calls m.
  Proof.
    intros id P Hl Hsc Hd. assert (PL : Permutation (live w) (id :: live w')).
    { rewrite rep_live. destruct (live_set w i rt t' Hi) as (rest & P1 & P2). rewrite P1, P2, P. reflexivity. }
    destruct HI. assert (Hn := Permutation_NoDup PL v_nodup0). apply NoDup_cons_iff in Hn. destruct Hn as [Hn1 Hn2].
    assert (Hsub : forall x, In x (live w') -> In x (live w)) by (intros x Hx; eapply Permutation_in; [symmetry; exact PL|right; exact Hx]).
    apply rep_inv.
    - assumption.
    - eauto.
    - eauto.
    - intros c. unfold nscoped. rewrite (filter_perm _ _ _ PL). cbn [filter]. unfold scoped at 2. unfold delta. rewrite Hsc, Hd.
      destruct sc as [c'|]; [destruct (Nat.eqb c' c)|]; cbn [List.length]; lia.
    - intros x Hin Hlo. apply (Permutation_in _ PL) in Hin. destruct Hin as [<-|Hin]; [exfalso|assumption].
      assert (Hlive : In id (live w)) by (eapply Permutation_in; [symmetry; exact PL|left; reflexivity]).
      rewrite (v_lend0 id (v_live0 id Hlive)) in Hl. apply (count_occ_In Nat.eq_dec) in Hlo. lia.
  Qed.

  Lemma rep_slot : forall j r x, slot w' (j, r, x) = if Nat.eqb j i && (rt =? r)
    then match nth_error (t_array t') (N.to_nat x) with Some (Some id) => Some id | _ => None end else slot w (j, r, x).
  Proof. intros j r x. cbn. rewrite rep_table. destruct (Nat.eqb j i && (rt =? r)); reflexivity. Qed.
End Replace.

(** *** A new element *)
Definition with_elem (w : world) (h : helem) : world := mkWorld (w_elems w ++ [h])%list (w_calls w) (w_insts w) (w_dtors w).
Lemma elem_at_old : forall w h id, (id < List.length (w_elems w))%nat -> elem_at (with_elem w h) id = elem_at w id.
Proof. intros w h id H. unfold elem_at. cbn. apply app_nth1. exact H. Qed.
Lemma elem_at_new : forall w h, elem_at (with_elem w h) (List.length (w_elems w)) = h.
Proof. intros w h. unfold elem_at. cbn. rewrite app_nth2, Nat.sub_diag by lia. reflexivity. Qed.
Lemma with_elem_inv : forall w calls n h, Inv w calls n -> h_lend h = 0%Z -> Inv (with_elem w h) calls n.
Proof.
  intros w calls n h [] Hh. constructor; try assumption.
  - intros id Hin. cbn. rewrite app_length. cbn. specialize (v_live0 id Hin). lia.
  - intros id c Hin. rewrite elem_at_old by auto. apply v_scope0. exact Hin.
  - intros c k E. rewrite (v_borrow0 c k E). unfold nscoped. do 2 f_equal. change (live (with_elem w h)) with (live w).
    apply filter_ext_in. intros id Hin. unfold scoped. rewrite elem_at_old by auto. reflexivity.
  - intros id Hid. cbn in Hid. rewrite app_length in Hid. cbn in Hid. change (loans (with_elem w h) calls) with (loans w calls).
    destruct (Nat.eq_dec id (List.length (w_elems w))) as [->|Hne].
    + rewrite elem_at_new, Hh. assert (Hno : ~ In (List.length (w_elems w)) (loans w calls)) by (intros Hin; specialize (v_live0 _ (v_lenders0 _ Hin)); lia).
      apply (count_occ_not_In Nat.eq_dec) in Hno. rewrite Hno. reflexivity.
    + rewrite elem_at_old by lia. apply v_lend0. lia.
Qed.

(** ** Operations *)
Definition with_world (s : state) (w : world) : state := mkState (s_mem s) (s_hist s) w.

Lemma stack_pop_seq : forall f, stack_pop (map N.of_nat (seq 0 f)) =
  match f with O => ([], None) | S f' => (map N.of_nat (seq 0 f'), Some (N.of_nat f')) end.
Proof.
  intros [|f]; [reflexivity|]. unfold stack_pop. rewrite seq_S, map_app, rev_app_distr. cbn. rewrite rev_involutive. reflexivity.
Qed.

Lemma holes_split : forall l1 o l2, holes (l1 ++ o :: l2) = (holes l1 + (if o then 0 else 1) + holes l2)%nat.
Proof. intros l1 o l2. rewrite holes_app. unfold holes at 2. cbn. destruct o; cbn; unfold holes; lia. Qed.
Lemma occupants_split : forall l1 o l2, occupants (l1 ++ o :: l2) = (occupants l1 ++ (match o with Some x => [x] | None => [] end) ++ occupants l2)%list.
Proof. intros. rewrite occupants_app. reflexivity. Qed.

(** What an operation on one instance's tables keeps. *)
Definition quiet (w w' : world) : Prop :=
  (forall id, (id < List.length (w_elems w))%nat -> elem_at w' id = elem_at w id) /\
  w_dtors w' = w_dtors w /\ (forall c, lenders_of w' c = lenders_of w c) /\
  List.length (w_calls w') = List.length (w_calls w) /\ (forall j, enter_ok w' j = enter_ok w j) /\
  List.length (w_insts w') = List.length (w_insts w).

Lemma quiet_elem : forall w h i rt t sc d, quiet w (add_borrow (set_inst_table (with_elem w h) i rt t) sc d).
Proof.
  intros. repeat split.
  - intros id Hid. rewrite rep_elem. apply elem_at_old. exact Hid.
  - rewrite rep_dtors. reflexivity.
  - intros c. rewrite rep_lenders. reflexivity.
  - rewrite rep_ncalls. reflexivity.
  - intros j. rewrite rep_enter. reflexivity.
  - rewrite rep_ninsts. reflexivity.
Qed.

Lemma add_spec : forall inst rt h s calls n o s',
  Inv (s_world s) calls n -> (inst < List.length (w_insts (s_world s)))%nat -> N.of_nat n < two32 ->
  h_lend h = 0%Z -> (forall c, h_scope h = Some c -> (c < List.length (w_calls (s_world s)))%nat) ->
  handle_add inst rt h s = (o, s') ->
  exists w', s' = with_world s w' /\ Inv w' calls (S n) /\ quiet (s_world s) w' /\
  ((exists i, o = Ok i /\ slot (s_world s) (inst, rt, i) = None /\
      elem_at w' (List.length (w_elems (s_world s))) = h /\
      forall k, slot w' k = if key_dec (inst, rt, i) k then Some (List.length (w_elems (s_world s))) else slot (s_world s) k)
   \/ (o = Err EOther /\ forall k, slot w' k = slot (s_world s) k)).
Proof.
  intros inst rt h s calls n o s' HI Hi Hn Hl Hsc E. set (w := s_world s) in *.
  pose proof (with_elem_inv w calls n h HI Hl) as HI0. set (w0 := with_elem w h) in *.
  destruct (v_tables _ _ _ HI inst rt) as (f & Ef & Hf & Hlen).
  unfold handle_add, get_world, put_world in E. unfold bind at 1 in E. cbv beta iota in E. fold w in E.
  fold (with_elem w h) in E. fold w0 in E. change (inst_table w0 inst rt) with (inst_table w inst rt) in E.
  set (t := inst_table w inst rt) in *. rewrite Ef, stack_pop_seq in E. destruct f as [|f].
  - set (t' := mkTable (t_array t ++ [Some (List.length (w_elems w))]) []) in *.
    cbn [bind ret] in E. unfold bind, ret in E. injection E as <- <-.
    assert (Eu : u32 (N.of_nat (List.length (t_array t))) = N.of_nat (List.length (t_array t))).
    { unfold u32. apply N.mod_small. lia. }
    exists (add_borrow (set_inst_table w0 inst rt t') (h_scope h) 1). split; [reflexivity|]. split; [|split; [apply quiet_elem|]].
    + apply (rep_put w0 calls n (S n) inst rt t' (h_scope h) 1 HI0 Hi) with (id := List.length (w_elems w)); try reflexivity.
      * lia.
      * exists 0%nat. split; [reflexivity|]. split; [lia|]. unfold t'. cbn [t_array]. rewrite app_length. cbn. lia.
      * unfold live_table, t'. cbn [t_array]. rewrite occupants_app. cbn. symmetry. apply Permutation_cons_append.
      * unfold w0, with_elem. cbn. rewrite app_length. cbn. lia.
      * intros Hin. apply (v_live _ _ _ HI) in Hin. lia.
      * unfold w0. rewrite elem_at_new. reflexivity.
      * exact Hsc.
    + left. exists (N.of_nat (List.length (t_array t))). rewrite Eu. split; [reflexivity|]. split; [|split].
      * cbn. fold t. rewrite Nat2N.id. rewrite (proj2 (nth_error_None _ _)) by lia. reflexivity.
      * rewrite rep_elem. apply elem_at_new.
      * intros [[j r] x]. rewrite rep_slot by exact Hi. change (slot w0 (j, r, x)) with (slot w (j, r, x)).
        unfold t'. cbn [t_array]. destruct (Nat.eqb_spec j inst) as [->|Hj].
        2:{ cbn [andb]. destruct (key_dec _ _) as [Ek|]; [congruence|reflexivity]. }
        cbn [andb]. destruct (N.eqb_spec rt r) as [<-|Hr].
        2:{ destruct (key_dec _ _) as [Ek|]; [congruence|reflexivity]. }
        destruct (key_dec _ _) as [Ek|Ek].
        -- injection Ek as <-. rewrite Nat2N.id, nth_error_app2, Nat.sub_diag by lia. reflexivity.
        -- cbn [slot]. fold t. destruct (Nat.lt_ge_cases (N.to_nat x) (List.length (t_array t))).
           ++ rewrite nth_error_app1 by assumption. reflexivity.
           ++ rewrite (proj2 (nth_error_None (t_array t) _)) by assumption. rewrite (proj2 (nth_error_None _ _)); [reflexivity|].
              rewrite app_length. cbn. assert (x <> N.of_nat (List.length (t_array t))) by congruence. lia.
  - pose proof (holes_le (t_array t)). rewrite Nat2N.id in E.
    destruct (nth_error (t_array t) f) as [[y|]|] eqn:En; [| |apply nth_error_None in En; lia].
    + unfold bind, lift_o in E. injection E as <- <-. set (t' := mkTable (t_array t) (map N.of_nat (seq 0 f))) in *.
      exists (add_borrow (set_inst_table w0 inst rt t') None 1). split; [reflexivity|]. split; [|split; [apply quiet_elem|]].
      * apply (rep_same w0 calls n (S n) inst rt t' None 1 HI0 Hi); try reflexivity; [lia|].
        exists f. split; [reflexivity|]. unfold t'. cbn [t_array]. split; lia.
      * right. split; [reflexivity|]. intros [[j r] x]. rewrite rep_slot by exact Hi. change (slot w0 (j, r, x)) with (slot w (j, r, x)).
        unfold t'. cbn [t_array]. destruct (Nat.eqb_spec j inst) as [->|Hj]; [|reflexivity].
        cbn [andb]. destruct (N.eqb_spec rt r) as [<-|Hr]; reflexivity.
    + unfold bind, ret in E. injection E as <- <-.
      set (t' := mkTable (list_upd (t_array t) f (Some (List.length (w_elems w)))) (map N.of_nat (seq 0 f))) in *.
      destruct (list_upd_split _ _ _ En) as (l1 & l2 & El & Hl1 & Hu).
      exists (add_borrow (set_inst_table w0 inst rt t') (h_scope h) 1). split; [reflexivity|]. split; [|split; [apply quiet_elem|]].
      * apply (rep_put w0 calls n (S n) inst rt t' (h_scope h) 1 HI0 Hi) with (id := List.length (w_elems w)); try reflexivity.
        -- lia.
        -- exists f. split; [reflexivity|]. unfold t'. cbn [t_array]. rewrite list_upd_length. split; [|lia].
           rewrite Hu, holes_split. rewrite El, holes_split in Hf. lia.
        -- unfold live_table, t'. cbn [t_array]. rewrite Hu. change (inst_table w0 inst rt) with t. rewrite El, !occupants_split.
           cbn [app]. symmetry. apply Permutation_middle.
        -- unfold w0, with_elem. cbn. rewrite app_length. cbn. lia.
        -- intros Hin. apply (v_live _ _ _ HI) in Hin. lia.
        -- unfold w0. rewrite elem_at_new. reflexivity.
        -- exact Hsc.
      * left. exists (N.of_nat f). split; [reflexivity|]. split; [|split].
        -- cbn. fold t. rewrite Nat2N.id, En. reflexivity.
        -- rewrite rep_elem. apply elem_at_new.
        -- intros [[j r] x]. rewrite rep_slot by exact Hi. change (slot w0 (j, r, x)) with (slot w (j, r, x)).
           unfold t'. cbn [t_array]. destruct (Nat.eqb_spec j inst) as [->|Hj].
           2:{ cbn [andb]. destruct (key_dec _ _) as [Ek|]; [congruence|reflexivity]. }
           cbn [andb]. destruct (N.eqb_spec rt r) as [<-|Hr].
           2:{ destruct (key_dec _ _) as [Ek|]; [congruence|reflexivity]. }
           rewrite list_upd_nth. assert (Hlt : Nat.ltb f (List.length (t_array t)) = true) by (apply Nat.ltb_lt; apply nth_error_Some; congruence).
           rewrite Hlt, andb_true_r. destruct (key_dec _ _) as [Ek|Ek].
           ++ injection Ek as <-. rewrite Nat2N.id, Nat.eqb_refl. reflexivity.
           ++ destruct (Nat.eqb_spec (N.to_nat x) f) as [Ex|]; [|reflexivity]. exfalso. apply Ek. f_equal. lia.
Qed.

Lemma quiet_rep : forall w i rt t sc d, quiet w (add_borrow (set_inst_table w i rt t) sc d).
Proof.
  intros. repeat split.
  - intros id Hid. rewrite rep_elem. reflexivity.
  - rewrite rep_dtors. reflexivity.
  - intros c. rewrite rep_lenders. reflexivity.
  - rewrite rep_ncalls. reflexivity.
  - intros j. rewrite rep_enter. reflexivity.
  - rewrite rep_ninsts. reflexivity.
Qed.
Lemma quiet_trans : forall w w1 w2, quiet w w1 -> List.length (w_elems w1) = List.length (w_elems w) -> quiet w1 w2 -> quiet w w2.
Proof.
  intros w w1 w2 (A1 & A2 & A3 & A4 & A5 & A6) El (B1 & B2 & B3 & B4 & B5 & B6). repeat split; intros; try congruence.
  - rewrite B1 by lia. apply A1. assumption.
Qed.

Definition touch (w : world) (i : nat) (rt : N) : world := set_inst_table w i rt (inst_table w i rt).

Lemma touch_spec : forall w calls n i rt, Inv w calls n -> (i < List.length (w_insts w))%nat ->
  Inv (touch w i rt) calls n /\ quiet w (touch w i rt) /\ w_elems (touch w i rt) = w_elems w /\
  (forall j r, inst_table (touch w i rt) j r = inst_table w j r) /\ forall k, slot (touch w i rt) k = slot w k.
Proof.
  intros w calls n i rt HI Hi. change (touch w i rt) with (add_borrow (set_inst_table w i rt (inst_table w i rt)) None 0).
  assert (HT : forall j r, inst_table (add_borrow (set_inst_table w i rt (inst_table w i rt)) None 0) j r = inst_table w j r).
  { intros j r. rewrite rep_table by exact Hi. destruct (Nat.eqb_spec j i) as [->|]; [|reflexivity]. destruct (N.eqb_spec rt r) as [->|]; reflexivity. }
  split; [|split; [apply quiet_rep|split; [apply rep_elems|split; [exact HT|]]]].
  - apply (rep_same w calls n n i rt _ None 0 HI Hi); try reflexivity. apply (v_tables _ _ _ HI).
  - intros [[j r] x]. unfold slot. rewrite HT. reflexivity.
Qed.

Lemma get_spec : forall inst rt i s calls n o s', Inv (s_world s) calls n -> (inst < List.length (w_insts (s_world s)))%nat ->
  N.of_nat n < two32 -> handle_get inst rt i s = (o, s') ->
  s' = with_world s (touch (s_world s) inst rt) /\
  o = match slot (s_world s) (inst, rt, i) with Some id => Ok id | None => Err ETrap end.
Proof.
  intros inst rt i s calls n o s' HI Hi Hn E. unfold handle_get, get_world, put_world, lift_o, bind in E. injection E as <- <-.
  split; [reflexivity|]. destruct (v_tables _ _ _ HI inst rt) as (f & _ & _ & Hlen). unfold table_get.
  assert (Eu : u32 (N.of_nat (List.length (t_array (inst_table (s_world s) inst rt)))) = N.of_nat (List.length (t_array (inst_table (s_world s) inst rt)))).
  { unfold u32. apply N.mod_small. lia. }
  rewrite Eu. cbn [slot]. destruct (N.leb_spec (N.of_nat (List.length (t_array (inst_table (s_world s) inst rt)))) i).
  - rewrite (proj2 (nth_error_None _ _)) by lia. reflexivity.
  - destruct (nth_error _ (N.to_nat i)) as [[x|]|] eqn:En; try reflexivity. apply nth_error_None in En. lia.
Qed.

Lemma remove_dtors : forall inst rt i s, w_dtors (s_world (snd (handle_remove inst rt i s))) = w_dtors (s_world s).
Proof.
  intros inst rt i s. unfold handle_remove, handle_get, bind, get_world, put_world, lift_o. cbn [s_world].
  destruct (set_inst_table_other (s_world s) inst rt (inst_table (s_world s) inst rt)) as (_ & _ & D & _).
  destruct (table_get _ i) as [id|e| |]; try exact D. set (w1 := set_inst_table (s_world s) inst rt (inst_table (s_world s) inst rt)) in *. cbv zeta.
  destruct (h_lend (elem_at w1 id) =? 0)%Z; [|exact D]. cbn [snd s_world ret].
  match goal with |- w_dtors (add_borrow ?w ?sc ?d) = _ => rewrite (proj1 (proj2 (proj2 (add_borrow_other w sc d)))) end.
  match goal with |- w_dtors (set_inst_table ?w ?x ?y ?z) = _ => rewrite (proj1 (proj2 (proj2 (set_inst_table_other w x y z)))) end.
  exact D.
Qed.

Lemma remove_spec : forall inst rt i s calls n o s', Inv (s_world s) calls n -> (inst < List.length (w_insts (s_world s)))%nat ->
  N.of_nat n < two32 -> handle_remove inst rt i s = (o, s') ->
  exists w', s' = with_world s w' /\ Inv w' calls n /\ quiet (s_world s) w' /\ w_elems w' = w_elems (s_world s) /\
  match slot (s_world s) (inst, rt, i) with
  | None => o = Err ETrap /\ forall k, slot w' k = slot (s_world s) k
  | Some id =>
      if (h_lend (elem_at (s_world s) id) =? 0)%Z
      then o = Ok id /\ forall k, slot w' k = if key_dec (inst, rt, i) k then None else slot (s_world s) k
      else o = Err ETrap /\ forall k, slot w' k = slot (s_world s) k
  end.
Proof.
  intros inst rt i s calls n o s' HI Hi Hn E. unfold handle_remove in E. unfold bind at 1 in E.
  destruct (handle_get inst rt i s) as [o1 s1] eqn:Eg. destruct (get_spec _ _ _ _ _ _ _ _ HI Hi Hn Eg) as [-> ->].
  set (w := s_world s) in *. destruct (touch_spec w calls n inst rt HI Hi) as (T1 & T2 & T3 & T4 & T5).
  destruct (slot w (inst, rt, i)) as [id|] eqn:Es.
  2:{ injection E as <- <-. exists (touch w inst rt). auto 10. }
  unfold get_world, put_world in E. unfold bind at 1 in E. cbv beta iota in E.
  change (s_world (with_world s (touch w inst rt))) with (touch w inst rt) in E.
  assert (Ee : elem_at (touch w inst rt) id = elem_at w id) by (unfold elem_at; rewrite T3; reflexivity). rewrite Ee in E.
  destruct (h_lend (elem_at w id) =? 0)%Z eqn:El.
  2:{ injection E as <- <-. exists (touch w inst rt). auto 10. }
  unfold bind, ret in E. injection E as <- <-. rewrite T4.
  set (t := inst_table w inst rt) in *. destruct (v_tables _ _ _ HI inst rt) as (f & Ef & Hf & Hlen). fold t in Ef, Hf, Hlen.
  assert (En : nth_error (t_array t) (N.to_nat i) = Some (Some id)).
  { cbn in Es. fold t in Es. destruct (nth_error _ _) as [[x|]|]; congruence. }
  destruct (list_upd_split _ _ _ En) as (l1 & l2 & Ela & Hl1 & Hu).
  set (t' := mkTable (list_upd (t_array t) (N.to_nat i) None) (stack_push (t_free t) (u32 (N.of_nat (List.length (t_free t)))))).
  assert (Hi1 : (inst < List.length (w_insts (touch w inst rt)))%nat) by (destruct T2 as (_ & _ & _ & _ & _ & ->); exact Hi).
  exists (add_borrow (set_inst_table (touch w inst rt) inst rt t') (h_scope (elem_at w id)) (-1)). split; [reflexivity|].
  split; [|split; [eapply quiet_trans; [exact T2|rewrite T3; reflexivity|apply quiet_rep]|split; [rewrite rep_elems; exact T3|]]].
  - apply (rep_take (touch w inst rt) calls n n inst rt t' _ _ T1 Hi1) with (id := id); try reflexivity.
    + unfold table_ok. exists (S f). unfold t'. cbn [t_free t_array]. rewrite Ef, map_length, seq_length. split; [|split].
      * unfold stack_push. rewrite seq_S, map_app. cbn [map]. repeat f_equal. unfold u32. apply N.mod_small.
        pose proof (holes_le (t_array t)). lia.
      * rewrite Hu, holes_split. rewrite Ela, holes_split in Hf. lia.
      * rewrite list_upd_length. exact Hlen.
    + rewrite T4. fold t. unfold live_table, t'. cbn [t_array]. rewrite Hu, Ela, !occupants_split. cbn [app]. symmetry. apply Permutation_middle.
    + rewrite Ee. lia.
    + rewrite Ee. reflexivity.
  - split; [reflexivity|]. intros [[j r] x]. rewrite rep_slot by exact Hi1. rewrite T5.
    destruct (Nat.eqb_spec j inst) as [->|Hj].
    2:{ cbn [andb]. destruct (key_dec _ _) as [Ek|]; [congruence|reflexivity]. }
    cbn [andb]. destruct (N.eqb_spec rt r) as [<-|Hr].
    2:{ destruct (key_dec _ _) as [Ek|]; [congruence|reflexivity]. }
    unfold t'. cbn [t_array]. rewrite list_upd_nth.
    assert (Hlt : Nat.ltb (N.to_nat i) (List.length (t_array t)) = true) by (apply Nat.ltb_lt; apply nth_error_Some; congruence).
    rewrite Hlt, andb_true_r. destruct (key_dec _ _) as [Ek|Ek].
    + injection Ek as <-. rewrite Nat.eqb_refl. reflexivity.
    + destruct (Nat.eqb_spec (N.to_nat x) (N.to_nat i)) as [Ex|]; [|reflexivity]. exfalso. apply Ek. f_equal. lia.
Qed.

(** *** Lending *)
Lemma set_lend_elem : forall w id d x, (id < List.length (w_elems w))%nat ->
  elem_at (set_lend w id d) x = if Nat.eqb x id then mkElem (h_rep (elem_at w id)) (h_lend (elem_at w id) + d)%Z (h_own (elem_at w id)) (h_scope (elem_at w id)) else elem_at w x.
Proof.
  intros w id d x Hid. unfold set_lend, elem_at at 1. cbn [w_elems]. rewrite list_upd_nth_default. apply Nat.ltb_lt in Hid. rewrite Hid, andb_true_r. reflexivity.
Qed.
Lemma set_lend_length : forall w id d, List.length (w_elems (set_lend w id d)) = List.length (w_elems w).
Proof. intros. unfold set_lend. cbn [w_elems]. apply list_upd_length. Qed.

Lemma flat_map_count : forall (L L' : nat -> list nat) cx id x calls,
  (forall c, L' c = if Nat.eqb c cx then (L c ++ [id])%list else L c) -> NoDup calls -> In cx calls ->
  count_occ Nat.eq_dec (flat_map L' calls) x = (count_occ Nat.eq_dec (flat_map L calls) x + (if Nat.eqb x id then 1 else 0))%nat.
Proof.
  intros L L' cx id x calls HL. induction calls as [|c calls IH]; intros Hn Hin; [destruct Hin|].
  apply NoDup_cons_iff in Hn. destruct Hn as [Hn1 Hn2]. cbn [flat_map]. rewrite !count_occ_app, HL.
  destruct (Nat.eqb_spec c cx) as [->|Hne].
  - rewrite count_occ_app. assert (Heq : flat_map L' calls = flat_map L calls).
    { clear -HL Hn1. induction calls as [|c calls IH]; [reflexivity|]. cbn. rewrite HL, IH by (intros H; apply Hn1; right; exact H).
      destruct (Nat.eqb_spec c cx) as [->|]; [exfalso; apply Hn1; left; reflexivity|reflexivity]. }
    rewrite Heq. cbn [count_occ]. destruct (Nat.eq_dec id x) as [->|Hx]; [rewrite Nat.eqb_refl; lia|].
    destruct (Nat.eqb_spec x id); [congruence|lia].
  - destruct Hin as [|Hin]; [congruence|]. rewrite (IH Hn2 Hin). lia.
Qed.

Definition scopes_same (w w' : world) : Prop := forall id, (id < List.length (w_elems w))%nat ->
  h_rep (elem_at w' id) = h_rep (elem_at w id) /\ h_own (elem_at w' id) = h_own (elem_at w id) /\ h_scope (elem_at w' id) = h_scope (elem_at w id).

Lemma lift_borrow_from_spec : forall cx id s calls n o s', Inv (s_world s) calls n -> In cx calls -> In id (live (s_world s)) ->
  lift_borrow_from cx id s = (o, s') ->
  exists w', s' = with_world s w' /\ o = Ok tt /\ Inv w' calls n /\
    w_insts w' = w_insts (s_world s) /\ w_dtors w' = w_dtors (s_world s) /\ List.length (w_calls w') = List.length (w_calls (s_world s)) /\
    scopes_same (s_world s) w' /\ (forall c, lenders_of w' c = if Nat.eqb c cx then (lenders_of (s_world s) c ++ [id])%list else lenders_of (s_world s) c).
Proof.
  intros cx id s calls n o s' HI Hcx Hid E. set (w := s_world s) in *.
  unfold lift_borrow_from, get_world, put_world in E. unfold bind in E. fold w in E.
  pose proof (v_calls _ _ _ HI cx Hcx) as Hlt. assert (Hid' := v_live _ _ _ HI id Hid).
  destruct (nth_error (w_calls w) cx) as [k|] eqn:Ek; [|apply nth_error_None in Ek; lia].
  cbn [w_calls set_lend] in E. rewrite Ek in E. injection E as <- <-.
  set (w1 := set_lend w id 1).
  set (w' := mkWorld _ _ _ _). exists w'. split; [reflexivity|]. split; [reflexivity|].
  assert (Hel : forall x, elem_at w' x = elem_at w1 x) by reflexivity.
  assert (Hlen : List.length (w_elems w') = List.length (w_elems w)) by (apply (set_lend_length w id 1)).
  assert (Hsc : scopes_same w w').
  { intros x Hx. rewrite !Hel. unfold w1. rewrite set_lend_elem by exact Hid'. destruct (Nat.eqb_spec x id) as [->|]; cbn; auto. }
  assert (Hlo : forall c, lenders_of w' c = if Nat.eqb c cx then (lenders_of w c ++ [id])%list else lenders_of w c).
  { intros c. unfold lenders_of, w'. cbn [w_calls]. rewrite list_upd_nth. apply Nat.ltb_lt in Hlt. rewrite Hlt, andb_true_r.
    destruct (Nat.eqb_spec c cx) as [->|]; [|reflexivity]. rewrite Ek. reflexivity. }
  assert (Hnc : List.length (w_calls w') = List.length (w_calls w)) by (unfold w'; cbn [w_calls]; apply list_upd_length).
  split; [|repeat split; try assumption; apply Hsc; assumption].
  destruct HI. constructor; try assumption.
  - rewrite Hlen. assumption.
  - intros x c Hx Es. rewrite Hnc. apply (v_scope0 x c Hx). destruct (Hsc x (v_live0 x Hx)) as (_ & _ & <-). exact Es.
  - intros c k' E. assert (Ek' : exists k0, nth_error (w_calls w) c = Some k0 /\ k_borrow k0 = k_borrow k').
    { unfold w' in E. cbn [w_calls] in E. rewrite list_upd_nth in E. destruct (Nat.eqb_spec c cx) as [->|].
      - apply Nat.ltb_lt in Hlt. rewrite Hlt in E. cbn in E. injection E as <-. exists k. auto.
      - cbn in E. eauto. }
    destruct Ek' as (k0 & E0 & <-). rewrite (v_borrow0 c k0 E0). unfold nscoped. do 2 f_equal. change (live w') with (live w).
    apply filter_ext_in. intros x Hx. unfold scoped. destruct (Hsc x (v_live0 x Hx)) as (_ & _ & ->). reflexivity.
  - intros c Hc. rewrite Hnc. auto.
  - intros x Hx. rewrite Hlen in Hx. unfold loans. rewrite (flat_map_count (lenders_of w) (lenders_of w') cx id x calls Hlo v_open0 Hcx).
    fold (loans w calls). rewrite Hel. unfold w1. rewrite set_lend_elem by exact Hid'. rewrite Nat2Z.inj_add, <- (v_lend0 x Hx).
    destruct (Nat.eqb_spec x id) as [->|]; cbn; lia.
  - intros x Hx. change (live w') with (live w). unfold loans in Hx. apply in_flat_map in Hx. destruct Hx as (c & Hc & Hx). rewrite Hlo in Hx.
    destruct (Nat.eqb_spec c cx) as [->|]; [apply in_app_iff in Hx; destruct Hx as [Hx|[<-|[]]]|].
    + apply v_lenders0. apply in_flat_map. eauto.
    + exact Hid.
    + apply v_lenders0. apply in_flat_map. eauto.
Qed.

(** *** Leaving a call *)
Lemma fold_lend : forall ids w, Forall (fun id => (id < List.length (w_elems w))%nat) ids ->
  let w' := fold_left (fun w id => set_lend w id (-1)) ids w in
  w_calls w' = w_calls w /\ w_insts w' = w_insts w /\ w_dtors w' = w_dtors w /\ List.length (w_elems w') = List.length (w_elems w) /\
  scopes_same w w' /\ forall x, (x < List.length (w_elems w))%nat -> h_lend (elem_at w' x) = (h_lend (elem_at w x) - Z.of_nat (count_occ Nat.eq_dec ids x))%Z.
Proof.
  induction ids as [|id ids IH]; intros w HF; cbn [fold_left].
  - repeat split; try reflexivity. intros x _. cbn. lia.
  - inversion HF as [|? ? H1 H2]; subst. destruct (IH (set_lend w id (-1))) as (A1 & A2 & A3 & A4 & A5 & A6).
    { rewrite set_lend_length. assumption. }
    rewrite set_lend_length in *. cbn [w_calls w_insts w_dtors set_lend] in A1, A2, A3. repeat split; try assumption.
    + intros. destruct (A5 id0) as (B1 & _ & _); [rewrite set_lend_length; assumption|]. rewrite B1, set_lend_elem by assumption. destruct (Nat.eqb_spec id0 id) as [->|]; reflexivity.
    + intros. destruct (A5 id0) as (_ & B1 & _); [rewrite set_lend_length; assumption|]. rewrite B1, set_lend_elem by assumption. destruct (Nat.eqb_spec id0 id) as [->|]; reflexivity.
    + intros. destruct (A5 id0) as (_ & _ & B1); [rewrite set_lend_length; assumption|]. rewrite B1, set_lend_elem by assumption. destruct (Nat.eqb_spec id0 id) as [->|]; reflexivity.
    + intros x Hx. rewrite A6 by assumption. rewrite set_lend_elem by assumption. cbn [count_occ].
      destruct (Nat.eqb_spec x id) as [Eq|Hne]; destruct (Nat.eq_dec id x); try congruence; cbn [h_lend]; subst; lia.
Qed.

Lemma remove_perm : forall c calls, NoDup calls -> In c calls -> Permutation calls (c :: remove Nat.eq_dec c calls).
Proof.
  intros c calls. induction calls as [|x calls IH]; intros Hn Hin; [destruct Hin|]. apply NoDup_cons_iff in Hn. destruct Hn as [H1 H2].
  cbn [remove]. destruct (Nat.eq_dec c x) as [->|Hne].
  - rewrite notin_remove by exact H1. reflexivity.
  - destruct Hin as [|Hin]; [congruence|]. rewrite (IH H2 Hin) at 1. apply perm_swap.
Qed.
Lemma NoDup_remove_dec : forall c calls, NoDup calls -> NoDup (remove Nat.eq_dec c calls).
Proof.
  intros c calls H. induction H as [|x l Hx H IH]; cbn; [constructor|]. destruct (Nat.eq_dec c x); [assumption|].
  constructor; [|assumption]. intros Hin. apply in_remove in Hin. tauto.
Qed.

Lemma exit_spec : forall c s calls n o s', Inv (s_world s) calls n -> In c calls -> exit_call c s = (o, s') ->
  exists w', s' = with_world s w' /\
    ((o = Ok tt /\ nscoped (s_world s) c = 0%nat /\ Inv w' (remove Nat.eq_dec c calls) n /\
      w_insts w' = w_insts (s_world s) /\ w_dtors w' = w_dtors (s_world s) /\ w_calls w' = w_calls (s_world s) /\ scopes_same (s_world s) w')
     \/ (o = Err ETrap /\ nscoped (s_world s) c <> 0%nat /\ w' = s_world s)).
Proof.
  intros c s calls n o s' HI Hc E. set (w := s_world s) in *. unfold exit_call, get_world in E. unfold bind in E. fold w in E.
  pose proof (v_calls _ _ _ HI c Hc) as Hlt. destruct (nth_error (w_calls w) c) as [k|] eqn:Ek; [|apply nth_error_None in Ek; lia].
  pose proof (v_borrow _ _ _ HI c k Ek) as Hb.
  destruct (k_borrow k =? 0)%Z eqn:Eb.
  - unfold put_world in E. injection E as <- <-. eexists. split; [reflexivity|]. left. split; [reflexivity|]. split; [lia|].
    assert (HF : Forall (fun id => (id < List.length (w_elems w))%nat) (k_lenders k)).
    { apply Forall_forall. intros id Hid. apply (v_live _ _ _ HI). apply (v_lenders _ _ _ HI). apply in_flat_map. exists c.
      split; [exact Hc|]. unfold lenders_of. rewrite Ek. exact Hid. }
    destruct (fold_lend (k_lenders k) w HF) as (A1 & A2 & A3 & A4 & A5 & A6).
    set (w' := fold_left (fun w id => set_lend w id (-1)) (k_lenders k) w) in *.
    split; [|auto 10]. destruct HI. assert (Elen : forall c0, lenders_of w' c0 = lenders_of w c0) by (intros c0; unfold lenders_of; rewrite A1; reflexivity).
    assert (Elive : live w' = live w) by (unfold live; rewrite A2; reflexivity).
    pose proof (remove_perm c calls v_open0 Hc) as PC.
    assert (PL : Permutation (loans w calls) (lenders_of w c ++ loans w (remove Nat.eq_dec c calls))).
    { unfold loans. rewrite (Permutation_flat_map (lenders_of w) PC). reflexivity. }
    constructor.
    + intros i rt. specialize (v_tables0 i rt). unfold inst_table in *. rewrite A2. assumption.
    + unfold keys_ok. rewrite A2. assumption.
    + rewrite Elive. assumption.
    + rewrite Elive, A4. assumption.
    + intros id c0 Hin. rewrite Elive in Hin. rewrite A1. destruct (A5 id (v_live0 id Hin)) as (_ & _ & ->). apply v_scope0. exact Hin.
    + intros c0 k0 E0. rewrite A1 in E0. rewrite (v_borrow0 c0 k0 E0). unfold nscoped. rewrite Elive. do 2 f_equal.
      apply filter_ext_in. intros x Hx. unfold scoped. destruct (A5 x (v_live0 x Hx)) as (_ & _ & ->). reflexivity.
    + apply NoDup_remove_dec. assumption.
    + intros c0 H0. apply in_remove in H0. rewrite A1. apply v_calls0. tauto.
    + intros id Hid. rewrite A4 in Hid. rewrite A6 by exact Hid. rewrite (v_lend0 id Hid).
      rewrite (loans_ext w w') by exact Elen.
      rewrite (proj1 (Permutation_count_occ Nat.eq_dec _ _) PL id). rewrite count_occ_app. unfold lenders_of. rewrite Ek. lia.
    + intros id Hid. rewrite (loans_ext w w') in Hid by exact Elen. rewrite Elive. apply v_lenders0.
      eapply Permutation_in; [symmetry; exact PL|]. apply in_app_iff. auto.
  - injection E as <- <-. exists w. split; [destruct s; reflexivity|]. right. split; [reflexivity|]. split; [lia|reflexivity].
Qed.

(** *** Entering a call, guards *)
Lemma enter_spec : forall opts inst s calls n o s', Inv (s_world s) calls n ->
  new_call opts inst s = (o, s') ->
  exists w', s' = with_world s w' /\ o = Ok (mkCtx (List.length (w_calls (s_world s))) inst (o_enc opts) (o_realloc opts)) /\
    Inv w' (List.length (w_calls (s_world s)) :: calls) n /\ w_insts w' = w_insts (s_world s) /\ w_dtors w' = w_dtors (s_world s) /\
    w_elems w' = w_elems (s_world s) /\ List.length (w_calls w') = S (List.length (w_calls (s_world s))) /\
    forall c, lenders_of w' c = lenders_of (s_world s) c.
Proof.
  intros opts inst s calls n o s' HI E. set (w := s_world s) in *. unfold new_call, get_world, put_world, bind, ret in E. fold w in E.
  injection E as <- <-. set (w' := mkWorld _ _ _ _). exists w'. split; [reflexivity|]. split; [reflexivity|].
  assert (Hlo : forall c, lenders_of w' c = lenders_of w c).
  { intros c. unfold lenders_of, w'. cbn [w_calls]. destruct (Nat.lt_ge_cases c (List.length (w_calls w))).
    - rewrite nth_error_app1 by assumption. reflexivity.
    - rewrite (proj2 (nth_error_None (w_calls w) c)) by assumption. rewrite nth_error_app2 by assumption.
      destruct (c - List.length (w_calls w))%nat as [|[|d]]; reflexivity. }
  assert (Hnc : List.length (w_calls w') = S (List.length (w_calls w))) by (unfold w'; cbn; rewrite app_length; cbn; lia).
  split; [|repeat split; try reflexivity; assumption].
  destruct HI. constructor; try assumption.
  - intros id c Hin Es. rewrite Hnc. specialize (v_scope0 id c Hin Es). lia.
  - intros c k E. unfold w' in E. cbn [w_calls] in E. destruct (Nat.lt_ge_cases c (List.length (w_calls w))).
    + rewrite nth_error_app1 in E by assumption. apply (v_borrow0 c k E).
    + rewrite nth_error_app2 in E by assumption. destruct (c - List.length (w_calls w))%nat as [|[|d]] eqn:Ed; try discriminate.
      injection E as <-. cbn [k_borrow]. unfold nscoped. change (live w') with (live w).
      rewrite (filter_ext_in (scoped w' c) (fun _ => false)).
      * assert (Hf : forall l : list nat, filter (fun _ => false) l = []) by (induction l; auto). rewrite Hf. reflexivity.
      * intros id Hin. unfold scoped. change (elem_at w' id) with (elem_at w id). destruct (h_scope (elem_at w id)) as [c'|] eqn:Es; [|reflexivity].
        specialize (v_scope0 id c' Hin Es). destruct (Nat.eqb_spec c' c); [lia|reflexivity].
  - constructor; [|assumption]. intros Hin. specialize (v_calls0 _ Hin). lia.
  - intros c [<-|Hc]; rewrite Hnc; [lia|]. specialize (v_calls0 _ Hc). lia.
  - intros id Hid. change (elem_at w' id) with (elem_at w id). rewrite (v_lend0 id Hid). do 2 f_equal.
    unfold loans. cbn [flat_map]. fold (loans w' calls). rewrite (loans_ext w w') by exact Hlo. rewrite Hlo. unfold lenders_of at 2.
    rewrite (proj2 (nth_error_None _ _)) by lia. reflexivity.
  - intros id Hid. unfold loans in Hid. cbn [flat_map] in Hid. fold (loans w' calls) in Hid. rewrite (loans_ext w w') in Hid by exact Hlo. rewrite Hlo in Hid.
    unfold lenders_of in Hid at 1. rewrite (proj2 (nth_error_None _ _)) in Hid by lia. apply v_lenders0. exact Hid.
Qed.

Definition guard (w : world) (inst : nat) (e l : bool) : world :=
  mkWorld (w_elems w) (w_calls w) (list_upd (w_insts w) inst (mkInst e l (i_tables (inst_at w inst)))) (w_dtors w).

Lemma guard_facts : forall w inst e l, (inst < List.length (w_insts w))%nat ->
  (forall i rt, inst_table (guard w inst e l) i rt = inst_table w i rt) /\ live (guard w inst e l) = live w /\
  (keys_ok w -> keys_ok (guard w inst e l)) /\ List.length (w_insts (guard w inst e l)) = List.length (w_insts w) /\
  forall i, enter_ok (guard w inst e l) i = if Nat.eqb i inst then e else enter_ok w i.
Proof.
  intros w inst e l Hi. destruct (nth_error (w_insts w) inst) as [ins|] eqn:E; [|apply nth_error_None in E; lia].
  assert (Ei : inst_at w inst = ins) by (unfold inst_at; apply nth_error_nth; exact E).
  unfold guard. rewrite Ei. destruct (list_upd_split _ _ _ E) as (l1 & l2 & El & _ & Hu).
  assert (Hlt := Hi). apply Nat.ltb_lt in Hlt. repeat split.
  - intros i rt. unfold inst_table. cbn [w_insts]. rewrite list_upd_nth, Hlt, andb_true_r.
    destruct (Nat.eqb_spec i inst) as [->|]; [rewrite E|]; reflexivity.
  - unfold live. cbn [w_insts]. rewrite Hu, El, !flat_map_app. reflexivity.
  - unfold keys_ok. cbn [w_insts]. rewrite Hu, El. intros H. apply Forall_app in H. destruct H as [H1 H2]. inversion H2; subst.
    apply Forall_app. split; [assumption|]. constructor; assumption.
  - cbn. apply list_upd_length.
  - intros i. unfold enter_ok. cbn [w_insts]. rewrite list_upd_nth, Hlt, andb_true_r. destruct (Nat.eqb i inst); reflexivity.
Qed.

Lemma guard_inv : forall w calls n inst e l, Inv w calls n -> (inst < List.length (w_insts w))%nat -> Inv (guard w inst e l) calls n.
Proof.
  intros w calls n inst e l [] Hi. destruct (guard_facts w inst e l Hi) as (G1 & G2 & G3 & _).
  constructor; try assumption.
  - intros i rt. rewrite G1. auto.
  - auto.
  - rewrite G2. assumption.
  - intros id. rewrite G2. apply v_live0.
  - intros id c. rewrite G2. apply v_scope0.
  - intros c k E. unfold nscoped. rewrite G2. apply v_borrow0. exact E.
  - intros id Hid. rewrite G2. apply v_lenders0. exact Hid.
Qed.

(** ** The abstract machine seen in a world *)
Definition face (e : helem) : handle := mkHandle (h_rep e) (h_own e) (h_scope e).
Definition view (w : world) (calls : list nat) : handles := mkHandles
  (fun k => match slot w k with Some id => Some (face (elem_at w id)) | None => None end)
  (fun c k => In c calls /\ exists id, slot w k = Some id /\ In id (lenders_of w c))
  calls (List.length (w_calls w)) (enter_ok w) (w_dtors w).

Lemma same_refl : forall a, same a a.
Proof. intros a. repeat split; auto. Qed.
Lemma same_sym : forall a b, same a b -> same b a.
Proof. intros a b (H1 & H2 & H3 & H4 & H5 & H6). repeat split; try (intros; congruence); intros; apply H2; assumption. Qed.
Lemma same_trans : forall a b c, same a b -> same b c -> same a c.
Proof.
  intros a b c (H1 & H2 & H3 & H4 & H5 & H6) (G1 & G2 & G3 & G4 & G5 & G6).
  repeat split; try (intros; congruence); intros; [apply G2, H2|apply H2, G2]; assumption.
Qed.

Lemma quiet_same : forall w w' calls n, Inv w calls n -> quiet w w' -> (forall k, slot w' k = slot w k) -> same (view w calls) (view w' calls).
Proof.
  intros w w' calls n HI (Q1 & Q2 & Q3 & Q4 & Q5 & Q6) Hs. unfold view. repeat split; cbn.
  - intros k. rewrite Hs. destruct (slot w k) as [id|] eqn:E; [|reflexivity]. rewrite Q1; [reflexivity|].
    apply (v_live _ _ _ HI). eapply slot_live. exact E.
  - apply H.
  - destruct H as (_ & id & E & Hin). exists id. rewrite Hs, Q3. auto.
  - apply H.
  - destruct H as (_ & id & E & Hin). exists id. rewrite Hs, Q3 in *. auto.
  - congruence.
  - intros i. symmetry. apply Q5.
  - congruence.
Qed.

Lemma lent_view : forall w calls n k id, Inv w calls n -> slot w k = Some id ->
  (lent (view w calls) k <-> (h_lend (elem_at w id) =? 0)%Z = false).
Proof.
  intros w calls n k id HI E. assert (Hid := v_live _ _ _ HI id (slot_live _ _ _ E)). rewrite (v_lend _ _ _ HI id Hid). split.
  - intros (c & Hc & id' & E' & Hin). rewrite E in E'. injection E' as <-.
    assert (Hl : In id (loans w calls)) by (apply in_flat_map; eauto). apply (count_occ_In Nat.eq_dec) in Hl. lia.
  - intros H. assert (Hl : In id (loans w calls)) by (apply (count_occ_In Nat.eq_dec); lia).
    apply in_flat_map in Hl. destruct Hl as (c & Hc & Hin). exists c. split; [exact Hc|eauto].
Qed.

Lemma add_step : forall inst rt h s calls n o s', Inv (s_world s) calls n -> (inst < List.length (w_insts (s_world s)))%nat -> N.of_nat n < two32 ->
  h_lend h = 0%Z -> (forall c, h_scope h = Some c -> In c calls) -> handle_add inst (rt_id rt) h s = (o, s') ->
  Inv (s_world s') calls (S n) /\ List.length (w_insts (s_world s')) = List.length (w_insts (s_world s)) /\
  exists a, adds (view (s_world s) calls) inst rt (face h) o a /\ same a (view (s_world s') calls).
Proof.
  intros inst rt h s calls n o s' HI Hi Hn Hl Hsc E.
  destruct (add_spec inst (rt_id rt) h s calls n o s' HI Hi Hn Hl) as (w' & -> & HI' & Q & H); [intros c Hc; apply (v_calls _ _ _ HI); auto|exact E|].
  set (w := s_world s) in *. cbn [s_world with_world]. split; [exact HI'|]. split; [apply Q|].
  destruct H as [(i & -> & Hnone & Hnew & Hs)|(-> & Hs)].
  - eexists. split; [apply add_ok with (i := i); cbn; cbn in Hnone; rewrite Hnone; reflexivity|].
    destruct Q as (Q1 & Q2 & Q3 & Q4 & Q5 & Q6).
    assert (Hne : forall k id, slot w k = Some id -> k <> (inst, rt_id rt, i)) by (intros k id Ek Heq; congruence).
    unfold view, with_handles. repeat split; cbn [at_key loaned open_calls call_count enterable destroyed].
    + intros k. rewrite Hs. unfold put. destruct (key_dec _ k) as [<-|Hk]; [rewrite Hnew; reflexivity|].
      destruct (slot w k) as [id|] eqn:Ek; [|reflexivity]. rewrite Q1; [reflexivity|]. apply (v_live _ _ _ HI). eapply slot_live. exact Ek.
    + apply H.
    + destruct H as (_ & id & Ek & Hin). exists id. rewrite Hs, Q3. destruct (key_dec _ k) as [<-|Hk]; [congruence|auto].
    + apply H.
    + destruct H as (Hc & id & Ek & Hin). exists id. rewrite Hs, Q3 in *. destruct (key_dec _ k) as [<-|Hk]; [|auto].
      injection Ek as <-. assert (Hlo : In (List.length (w_elems w)) (loans w calls)) by (apply in_flat_map; eauto).
      apply (v_lenders _ _ _ HI) in Hlo. apply (v_live _ _ _ HI) in Hlo. lia.
    + congruence.
    + intros j. symmetry. apply Q5.
    + congruence.
  - eexists. split; [apply add_fails|]. apply quiet_same with (n := n); assumption.
Qed.

Lemma Inv_mono : forall w calls n m, Inv w calls n -> (n <= m)%nat -> Inv w calls m.
Proof. intros w calls n m [] H. constructor; try assumption. intros. eapply table_ok_mono; eauto. Qed.

Lemma take_step : forall inst rt i s calls n o s', Inv (s_world s) calls n -> (inst < List.length (w_insts (s_world s)))%nat -> N.of_nat n < two32 ->
  handle_remove inst rt i s = (o, s') ->
  Inv (s_world s') calls n /\ List.length (w_insts (s_world s')) = List.length (w_insts (s_world s)) /\
  (forall id, elem_at (s_world s') id = elem_at (s_world s) id) /\
  exists r a, takes (view (s_world s) calls) (inst, rt, i) r a /\ same a (view (s_world s') calls) /\
    match o with Ok id => r = Ok (face (elem_at (s_world s) id)) | Err e => r = Err e | Panic => False | Diverge => False end.
Proof.
  intros inst rt i s calls n o s' HI Hi Hn E.
  destruct (remove_spec inst rt i s calls n o s' HI Hi Hn E) as (w' & -> & HI' & Q & Ee & H).
  set (w := s_world s) in *. cbn [s_world with_world]. split; [exact HI'|]. split; [apply Q|].
  split; [intros id; unfold elem_at; rewrite Ee; reflexivity|].
  destruct (slot w (inst, rt, i)) as [id|] eqn:Es.
  2:{ destruct H as [-> Hs]. exists (Err ETrap), (view w calls). split; [apply take_absent; cbn [at_key view]; rewrite Es; reflexivity|].
      split; [apply quiet_same with (n := n); assumption|reflexivity]. }
  pose proof (lent_view w calls n _ _ HI Es) as HL. destruct (h_lend (elem_at w id) =? 0)%Z.
  - destruct H as [-> Hs]. exists (Ok (face (elem_at w id))). eexists. split; [apply take_ok|split; [|reflexivity]].
    + cbn [at_key view]. rewrite Es. reflexivity.
    + rewrite HL. discriminate.
    + destruct Q as (Q1 & Q2 & Q3 & Q4 & Q5 & Q6). unfold view, with_handles. repeat split; cbn [at_key loaned open_calls call_count enterable destroyed].
      * intros k. rewrite Hs. unfold put. destruct (key_dec _ k) as [<-|Hk]; [reflexivity|].
        destruct (slot w k) as [x|] eqn:Ek; [|reflexivity]. rewrite Q1; [reflexivity|]. apply (v_live _ _ _ HI). eapply slot_live. exact Ek.
      * apply H.
      * destruct H as (Hc & x & Ek & Hin). exists x. rewrite Hs, Q3. destruct (key_dec _ k) as [<-|Hk]; [|auto].
        exfalso. assert (Hl : true = false) by (apply HL; exists c; split; eauto). discriminate.
      * apply H.
      * destruct H as (Hc & x & Ek & Hin). exists x. rewrite Hs, Q3 in *. destruct (key_dec _ k) as [<-|Hk]; [discriminate|auto].
      * congruence.
      * intros j. symmetry. apply Q5.
      * congruence.
  - destruct H as [-> Hs]. exists (Err ETrap), (view w calls). split; [apply take_lent; apply HL; reflexivity|].
    split; [apply quiet_same with (n := n); assumption|reflexivity].
Qed.

Lemma lend_same : forall w w' calls n, Inv w calls n -> w_insts w' = w_insts w -> scopes_same w w' ->
  (forall k, slot w' k = slot w k) /\ (forall k, at_key (view w' calls) k = at_key (view w calls) k) /\ (forall i, enter_ok w' i = enter_ok w i).
Proof.
  intros w w' calls n HI Ei Hs.
  assert (Hk : forall k, slot w' k = slot w k) by (intros [[i rt] x]; cbn; unfold inst_table; rewrite Ei; reflexivity).
  split; [exact Hk|]. split.
  - intros k. cbn [view at_key]. rewrite Hk. destruct (slot w k) as [id|] eqn:E; [|reflexivity]. unfold face.
    destruct (Hs id) as (-> & -> & ->); [|reflexivity]. apply (v_live _ _ _ HI). eapply slot_live. exact E.
  - intros i. unfold enter_ok. rewrite Ei. reflexivity.
Qed.

(** Every operation does what the abstract machine allows. *)
Theorem step : forall insts s calls n o r s', Inv (s_world s) calls n -> List.length (w_insts (s_world s)) = insts ->
  N.of_nat n < two32 -> proper insts calls o -> run o s = (r, s') ->
  Inv (s_world s') (opened o r calls) (made [o] + n) /\ List.length (w_insts (s_world s')) = insts /\
  exists a, answers (view (s_world s) calls) o r a /\ same a (view (s_world s') (opened o r calls)).
Proof.
  intros insts s calls n o r s' HI <- Hn Hp E. set (w := s_world s) in *. destruct o; cbn [run opened proper] in *.
  - (* enter *)
    unfold bind at 1 in E. destruct (new_call opts inst s) as [o1 s1] eqn:En.
    destruct (enter_spec _ _ _ calls n _ _ HI En) as (w' & -> & -> & HI' & Ei & Ed & Ee & Hc & Hlo). fold w in HI', Ei, Ed, Ee, Hc, Hlo, E.
    cbn [cx_id] in E. unfold ret in E. injection E as <- <-. rewrite Nat2N.id. cbn [s_world with_world].
    split; [apply Inv_mono with (n := n); [exact HI'|lia]|]. split; [rewrite Ei; reflexivity|].
    eexists. split; [apply an_enter|]. assert (Hss : scopes_same w w') by (intros x _; unfold elem_at; rewrite Ee; auto).
    destruct (lend_same w w' calls n HI Ei Hss) as (L1 & L2 & L3).
    unfold with_calls. repeat split; cbn [at_key loaned open_calls call_count enterable destroyed].
    + intros k. symmetry. apply (L2 k).
    + destruct H as [H _]. right. exact H.
    + destruct H as (_ & id & Ek & Hin). exists id. rewrite L1, Hlo. auto.
    + destruct H as ([<-|Hin] & id & Ek & Hin'); [|exact Hin]. exfalso. rewrite Hlo in Hin'. unfold lenders_of in Hin'.
      rewrite (proj2 (nth_error_None _ _)) in Hin' by lia. destruct Hin'.
    + destruct H as (_ & id & Ek & Hin). exists id. rewrite L1, Hlo in *. auto.
    + cbn [view call_count]. rewrite Hc. reflexivity.
    + intros i. symmetry. apply L3.
    + cbn [view destroyed]. rewrite Ed. reflexivity.
  - (* exit *)
    unfold bind in E. destruct (exit_call call s) as [o1 s1] eqn:Ex.
    destruct (exit_spec _ _ calls n _ _ HI Hp Ex) as (w' & -> & H). fold w in H. destruct H as [(-> & H0 & HI' & Ei & Ed & Ec & Hss)|(-> & H0 & ->)].
    + unfold ret in E. injection E as <- <-. cbn [s_world with_world]. split; [apply Inv_mono with (n := n); [exact HI'|lia]|].
      split; [rewrite Ei; reflexivity|]. destruct (lend_same w w' calls n HI Ei Hss) as (L1 & L2 & L3).
      assert (Hlo : forall c, lenders_of w' c = lenders_of w c) by (intros c; unfold lenders_of; rewrite Ec; reflexivity).
      eexists. split; [apply an_exit|].
      * intros k h Hk Hsc. cbn [view at_key] in Hk. destruct (slot w k) as [id|] eqn:Ek; [|discriminate]. injection Hk as <-. cbn in Hsc.
        assert (Hin : In id (filter (scoped w call) (live w))).
        { apply filter_In. split; [eapply slot_live; exact Ek|]. unfold scoped. rewrite Hsc. apply Nat.eqb_refl. }
        unfold nscoped in H0. destruct (filter (scoped w call) (live w)); [destruct Hin|discriminate].
      * unfold with_calls, with_loans. repeat split; cbn [at_key loaned open_calls call_count enterable destroyed view].
        -- intros k. symmetry. apply (L2 k).
        -- destruct H as ((Hc & _) & Hne). apply in_in_remove; assumption.
        -- destruct H as ((Hc & id & Ek & Hin) & Hne). exists id. rewrite L1, Hlo. auto.
        -- destruct H as (Hc & _). apply in_remove in Hc. tauto.
        -- destruct H as (Hc & id & Ek & Hin). exists id. rewrite L1, Hlo in *. auto.
        -- destruct H as (Hc & _). apply in_remove in Hc. tauto.
        -- rewrite Ec. reflexivity.
        -- intros i. symmetry. apply L3.
        -- rewrite Ed. reflexivity.
    + injection E as <- <-. cbn [s_world with_world]. split; [apply Inv_mono with (n := n); [exact HI|lia]|]. split; [reflexivity|].
      exists (view w calls). split; [|apply same_refl]. unfold nscoped in H0. destruct (filter (scoped w call) (live w)) as [|id l] eqn:Ef; [contradiction|].
      assert (Hin : In id (filter (scoped w call) (live w))) by (rewrite Ef; left; reflexivity). apply filter_In in Hin. destruct Hin as [Hlive Hsc].
      destruct (live_slot w id (v_keys _ _ _ HI) Hlive) as (k & Ek). eapply an_exit_trap with (k := k).
      * cbn [view at_key]. rewrite Ek. reflexivity.
      * cbn. unfold scoped in Hsc. destruct (h_scope (elem_at w id)) as [c|]; [|discriminate]. apply Nat.eqb_eq in Hsc. congruence.
  - (* new *)
    destruct (add_step inst rt (mkElem rep 0 true None) s calls n r s' HI Hp Hn eq_refl (fun c H => ltac:(discriminate H)) E) as (H1 & H2 & a & H3 & H4).
    split; [destruct r; exact H1|]. split; [exact H2|]. exists a. split; [apply an_new; exact H3|destruct r; exact H4].
  - (* rep *)
    unfold canon_resource_rep in E. unfold bind at 1 in E. destruct (handle_get inst (rt_id rt) i s) as [o1 s1] eqn:Eg.
    destruct (get_spec _ _ _ _ _ _ _ _ HI Hp Hn Eg) as [-> Ho]. fold w in Ho, E, Hp. destruct (touch_spec w calls n inst (rt_id rt) HI Hp) as (T1 & T2 & T3 & T4 & T5).
    assert (HS : same (view w calls) (view (touch w inst (rt_id rt)) calls)) by (apply quiet_same with (n := n); assumption).
    assert (HI' : Inv (touch w inst (rt_id rt)) calls (made [OpRep inst rt i] + n)) by (apply Inv_mono with (n := n); [exact T1|lia]).
    assert (Hlen : List.length (w_insts (touch w inst (rt_id rt))) = List.length (w_insts w)) by apply T2.
    destruct (slot w (inst, rt_id rt, i)) as [id|] eqn:Es; rewrite Ho in E.
    + unfold bind, get_world, ret in E. injection E as <- <-. cbn [s_world with_world]. split; [exact HI'|]. split; [exact Hlen|].
      exists (view w calls). split; [|exact HS]. replace (elem_at (touch w inst (rt_id rt)) id) with (elem_at w id) by (unfold elem_at; rewrite T3; reflexivity).
      change (h_rep (elem_at w id)) with (hd_rep (face (elem_at w id))). apply an_rep. cbn [view at_key]. rewrite Es. reflexivity.
    + injection E as <- <-. cbn [s_world with_world]. split; [exact HI'|]. split; [exact Hlen|]. exists (view w calls). split; [|exact HS].
      apply an_rep_trap. cbn [view at_key]. rewrite Es. reflexivity.
  - (* drop *)
    unfold bind at 1 in E. unfold canon_resource_drop in E. unfold bind at 1 in E. destruct (handle_remove inst (rt_id rt) i s) as [o1 s1] eqn:Er.
    destruct (take_step _ _ _ _ _ _ _ _ HI Hp Hn Er) as (H1 & H2 & H3 & q & a & H4 & H5 & H6). fold w in H2, H3, H4, H6.
    destruct o1 as [id|e| |]; try contradiction.
    2:{ injection E as <- <-. subst q. split; [apply Inv_mono with (n := n); [exact H1|lia]|]. split; [exact H2|]. exists a. split; [apply an_drop_trap; exact H4|exact H5]. }
    subst q. set (w1 := s_world s1) in *. unfold get_world in E. unfold bind at 1 in E. cbv beta iota in E. fold w1 in E. rewrite H3 in E.
    assert (Hen : forall j, enterable a j = enter_ok w1 j) by apply H5.
    assert (Hen' : forall j, enterable (view w calls) j = enterable a j) by (inversion H4; reflexivity).
    assert (Hde : destroyed (view w calls) = destroyed a) by (inversion H4; reflexivity).
    assert (Hdw : destroyed a = w_dtors w1) by apply H5.
    assert (Key : exists u ds, r = fst (drop_result (view w calls) inst rt (face (elem_at w id))) /\
       ds = snd (drop_result (view w calls) inst rt (face (elem_at w id))) /\
       s' = mkState (s_mem s1) (s_hist s1) (mkWorld (w_elems w1) (w_calls w1) (w_insts w1) ds) /\ u = tt).
    { exists tt. eexists. split; [|split; [reflexivity|split; [|reflexivity]]]; unfold drop_result; rewrite Hde;
        change (hd_own (face (elem_at w id))) with (h_own (elem_at w id)); change (hd_rep (face (elem_at w id))) with (h_rep (elem_at w id));
        destruct (h_own (elem_at w id)); cbn [negb] in *; try (destruct (rt_impl rt) as [impl|]);
        try (rewrite Hen', Hen; change (match nth_error (w_insts w1) impl with Some ins => i_may_enter ins | None => true end) with (enter_ok w1 impl) in E;
             rewrite <- negb_orb in E; destruct (Nat.eqb inst impl || enter_ok w1 impl); cbn [negb] in E; try destruct (rt_dtor rt));
        cbn [ret lift_o put_world fst snd] in E |- *; unfold ret, lift_o, put_world in E; injection E as E1 E2;
        first [rewrite <- E1; reflexivity | rewrite <- E2; clear -Hdw; cbn [fst snd]; rewrite Hdw; unfold w1; destruct s1 as [? ? []]; reflexivity]. }
    destruct Key as (_ & ds & -> & Hds & -> & _). cbn [s_world].
    set (w2 := mkWorld (w_elems w1) (w_calls w1) (w_insts w1) ds).
    split; [apply Inv_mono with (n := n); [|lia]|].
    { destruct H1. constructor; assumption. }
    split; [exact H2|]. eexists. split; [apply an_drop; exact H4|]. rewrite <- Hds.
    destruct H5 as (A1 & A2 & A3 & A4 & A5 & A6). refine (conj A1 (conj A2 (conj A3 (conj A4 (conj A5 _))))). reflexivity.
  - (* lift own *)
    unfold lift_own in E. unfold bind at 1 in E. destruct Hp as [Hp Hc]. destruct (handle_remove (cx_inst cx) (rt_id rt) i s) as [o1 s1] eqn:Er.
    destruct (take_step _ _ _ _ _ _ _ _ HI Hp Hn Er) as (H1 & H2 & H3 & q & a & H4 & H5 & H6). fold w in H2, H3, H4, H6.
    destruct o1 as [id|e| |]; try contradiction.
    + subst q. unfold bind, get_world, ret in E. injection E as <- <-. split; [apply Inv_mono with (n := n); [exact H1|lia]|]. split; [exact H2|].
      exists a. split; [|exact H5]. rewrite H3. change (h_rep (elem_at w id)) with (hd_rep (face (elem_at w id))). eapply an_lift_own. exact H4.
    + injection E as <- <-. subst q. split; [apply Inv_mono with (n := n); [exact H1|lia]|]. split; [exact H2|]. exists a. split; [apply an_lift_own_trap; exact H4|exact H5].
  - (* lift borrow *)
    unfold lift_borrow in E. unfold bind at 1 in E. destruct Hp as [Hp Hc]. destruct (handle_get (cx_inst cx) (rt_id rt) i s) as [o1 s1] eqn:Eg.
    destruct (get_spec _ _ _ _ _ _ _ _ HI Hp Hn Eg) as [-> Ho]. fold w in Ho, E, Hp.
    destruct (touch_spec w calls n (cx_inst cx) (rt_id rt) HI Hp) as (T1 & T2 & T3 & T4 & T5). set (w1 := touch w (cx_inst cx) (rt_id rt)) in *.
    assert (HS : same (view w calls) (view w1 calls)) by (apply quiet_same with (n := n); assumption).
    assert (Hlen : List.length (w_insts w1) = List.length (w_insts w)) by apply T2.
    destruct (slot w (cx_inst cx, rt_id rt, i)) as [id|] eqn:Es; rewrite Ho in E.
    2:{ injection E as <- <-. cbn [s_world with_world]. split; [apply Inv_mono with (n := n); [exact T1|lia]|]. split; [exact Hlen|].
        exists (view w calls). split; [|exact HS]. apply an_lift_borrow_trap. cbn [view at_key]. rewrite Es. reflexivity. }
    unfold bind at 1 in E. destruct (lift_borrow_from (cx_id cx) id (with_world s w1)) as [o2 s2] eqn:El.
    destruct (lift_borrow_from_spec (cx_id cx) id (with_world s w1) calls n o2 s2 T1 Hc) as (w' & -> & -> & HI' & Ei & Ed & Enc & Hss & Hlo); [|exact El|].
    { cbn [s_world with_world]. eapply slot_live. rewrite T5. exact Es. }
    cbn [s_world with_world] in Ei, Ed, Enc, Hss, Hlo, E. unfold bind, get_world, ret in E. injection E as <- <-. cbn [s_world with_world].
    split; [apply Inv_mono with (n := n); [exact HI'|lia]|]. split; [rewrite Ei; exact Hlen|].
    destruct (lend_same w1 w' calls n T1 Ei Hss) as (L1 & L2 & L3). destruct HS as (A1 & A2 & A3 & A4 & A5 & A6).
    eexists. split.
    + destruct (Hss id) as (R & _); [apply (v_live _ _ _ T1); eapply slot_live; rewrite T5; exact Es|]. rewrite R.
      replace (elem_at w1 id) with (elem_at w id) by (unfold elem_at; rewrite T3; reflexivity).
      change (h_rep (elem_at w id)) with (hd_rep (face (elem_at w id))). apply an_lift_borrow. cbn [view at_key]. rewrite Es. reflexivity.
    + assert (Hl1 : forall c, lenders_of w1 c = lenders_of w c) by apply T2.
      unfold with_loans. split; [|split; [|split; [|split; [|split]]]]; cbn [at_key loaned open_calls call_count enterable destroyed].
      * intros k. rewrite L2. apply A1.
      * intros c k. cbn [view loaned]. rewrite L1, T5, Hlo. split.
        -- intros [(Hcc & x & Ek & Hin)|(-> & ->)].
           ++ split; [exact Hcc|]. exists x. split; [exact Ek|]. rewrite Hl1. destruct (Nat.eqb c (cx_id cx)); [apply in_app_iff; auto|exact Hin].
           ++ split; [exact Hc|]. exists id. split; [exact Es|]. rewrite Nat.eqb_refl. apply in_app_iff. right. left. reflexivity.
        -- intros (Hcc & x & Ek & Hin). destruct (Nat.eqb_spec c (cx_id cx)) as [->|Hne].
           ++ apply in_app_iff in Hin. destruct Hin as [Hin|[<-|[]]].
              ** left. split; [exact Hcc|]. exists x. rewrite <- Hl1. auto.
              ** right. split; [reflexivity|]. eapply slot_unique; [apply (v_nodup _ _ _ HI)|exact Ek|exact Es].
           ++ left. split; [exact Hcc|]. exists x. rewrite <- Hl1. auto.
      * reflexivity.
      * cbn [view call_count]. rewrite Enc. exact A4.
      * intros j. rewrite A5. symmetry. apply L3.
      * cbn [view destroyed]. rewrite Ed. exact A6.
  - (* lower own *)
    destruct Hp as [Hp Hc]. destruct v;
      try (unfold lower_own, lift_o in E; injection E as <- <-; split; [apply Inv_mono with (n := n); [exact HI|lia]|]; split; [reflexivity|];
           exists (view w calls); split; [apply an_lower_own_cast; intros; discriminate|apply same_refl]).
    destruct (add_step (cx_inst cx) rt (mkElem n0 0 true None) s calls n r s' HI Hp Hn eq_refl (fun c H => ltac:(discriminate H)) E) as (H1 & H2 & a & H3 & H4).
    split; [destruct r; exact H1|]. split; [exact H2|]. exists a. split; [apply an_lower_own; exact H3|destruct r; exact H4].
  - (* lower borrow *)
    destruct Hp as [Hp Hc]. destruct v;
      try (unfold lower_borrow, lift_o in E; injection E as <- <-; split; [apply Inv_mono with (n := n); [exact HI|lia]|]; split; [reflexivity|];
           exists (view w calls); split; [apply an_lower_borrow_cast; intros; discriminate|apply same_refl]).
    unfold lower_borrow in E. destruct (match rt_impl rt with Some impl => Nat.eqb (cx_inst cx) impl | None => false end) eqn:Eb.
    + unfold ret in E. injection E as <- <-. split; [apply Inv_mono with (n := n); [exact HI|lia]|]. split; [reflexivity|].
      exists (view w calls). split; [apply an_lower_borrow_local|apply same_refl]. destruct (rt_impl rt) as [impl|]; [|discriminate]. apply Nat.eqb_eq in Eb. congruence.
    + assert (HH : forall c, h_scope (mkElem n0 0 false (Some (cx_id cx))) = Some c -> In c calls) by (intros c Ec; injection Ec as <-; exact Hc).
      destruct (add_step (cx_inst cx) rt (mkElem n0 0 false (Some (cx_id cx))) s calls n r s' HI Hp Hn eq_refl HH E) as (H1 & H2 & a & H3 & H4).
      split; [destruct r; exact H1|]. split; [exact H2|]. exists a. split; [apply an_lower_borrow; [|exact H3]|destruct r; exact H4].
      intros Ei. rewrite Ei, Nat.eqb_refl in Eb. discriminate.
  - (* guards *)
    unfold set_may_enter, set_may_leave, bind, get_world, put_world, ret in E. injection E as <- E2.
    assert (Eg : s_world s' = guard w inst enter leave).
    { rewrite <- E2. cbn [s_world w_elems w_calls w_insts w_dtors]. fold w.
      unfold guard, inst_at. cbn [w_insts]. rewrite !list_upd_nth_default. apply Nat.ltb_lt in Hp. fold w in Hp. rewrite Nat.eqb_refl, Hp. cbn [andb i_may_enter i_tables]. f_equal.
      clear. generalize (i_tables (nth inst (w_insts w) default_inst)) as ts. generalize (i_may_leave (nth inst (w_insts w) default_inst)). intros b ts.
      generalize (w_insts w) as l. intros l. revert inst. induction l as [|x l IH]; intros [|inst]; cbn; try reflexivity. rewrite IH. reflexivity. }
    rewrite Eg. split; [apply Inv_mono with (n := n); [apply guard_inv; [exact HI|exact Hp]|lia]|].
    destruct (guard_facts w inst enter leave Hp) as (G1 & G2 & G3 & G4 & G5). split; [exact G4|]. eexists. split; [apply an_guards|].
    assert (Hsl : forall k, slot (guard w inst enter leave) k = slot w k) by (intros [[i rt] x]; cbn [slot]; rewrite G1; reflexivity).
    unfold with_enterable. repeat split; cbn [at_key loaned open_calls call_count enterable destroyed view].
    + intros k. rewrite Hsl. reflexivity.
    + apply H.
    + destruct H as (_ & x & Ek & Hin). exists x. rewrite Hsl. auto.
    + apply H.
    + destruct H as (_ & x & Ek & Hin). exists x. rewrite Hsl in Ek. auto.
    + intros i. symmetry. apply G5.
Qed.

(** ** Histories *)
Lemma made_app : forall a b, made (a ++ b) = (made a + made b)%nat.
Proof. intros a b. unfold made. rewrite filter_app, app_length. reflexivity. Qed.
Lemma start_inv : forall insts s, w_elems (s_world s) = [] -> w_calls (s_world s) = [] ->
  List.length (w_insts (s_world s)) = insts -> Forall (fun i => i_tables i = []) (w_insts (s_world s)) -> Inv (s_world s) [] 0.
Proof.
  intros insts s He Hc _ Ht. set (w := s_world s) in *.
  assert (Hem : forall i rt, inst_table w i rt = empty_table).
  { intros i rt. unfold inst_table. destruct (nth_error (w_insts w) i) as [ins|] eqn:E; [|reflexivity].
    rewrite Forall_forall in Ht. rewrite (Ht ins); [reflexivity|eapply nth_error_In; exact E]. }
  assert (Hl : live w = []).
  { unfold live. induction (w_insts w) as [|x l IH]; [reflexivity|]. inversion Ht; subst. cbn. unfold live_inst at 1. rewrite H1. cbn. apply IH. assumption. }
  constructor; rewrite ?Hl.
  - intros i rt. rewrite Hem. exists 0%nat. cbn. auto.
  - unfold keys_ok. eapply Forall_impl; [|exact Ht]. intros x ->. constructor.
  - constructor.
  - intros id [].
  - intros id c [].
  - intros c k E. rewrite Hc in E. destruct c; discriminate.
  - constructor.
  - intros c [].
  - intros id Hid. rewrite He in Hid. cbn in Hid. lia.
  - intros id [].
Qed.

Lemma made_one : forall o, (made [o] <= 1)%nat.
Proof. intros []; cbn; auto. Qed.

Theorem history_inv : forall insts ops rs s calls, history insts ops rs s calls -> N.of_nat (made ops) < two32 ->
  Inv (s_world s) calls (made ops) /\ List.length (w_insts (s_world s)) = insts.
Proof.
  intros insts ops rs s calls H. induction H as [s He Hc Hd Hi Ht|ops rs s calls o r s' H IH Hp E]; intros Hn.
  - split; [eapply start_inv; eauto|exact Hi].
  - rewrite made_app in *. destruct IH as [IH1 IH2]; [lia|].
    destruct (step insts s calls _ o r s' IH1 IH2) as (H1 & H2 & _); [lia|exact Hp|exact E|].
    split; [|exact H2]. rewrite Nat.add_comm. exact H1.
Qed.

Lemma answers_same : forall a b o r c, same a b -> answers a o r c -> exists d, answers b o r d /\ same c d.
Proof.
  intros a b o r c S H.
  assert (Hlent : forall k, lent a k <-> lent b k) by (intros k; unfold lent; destruct S as (_ & S2 & _); split; intros (x & Hx); exists x; apply S2; exact Hx).
  assert (Hadd : forall inst rt h r c, adds a inst rt h r c -> exists d, adds b inst rt h r d /\ same c d).
  { intros inst rt h r' c' HA. destruct S as (S1 & S2 & S3 & S4 & S5 & S6). inversion HA; subst.
    - eexists. split; [apply add_ok; rewrite <- S1; assumption|]. unfold with_handles. repeat split; cbn; auto; try apply S2.
      intros k. unfold put. destruct (key_dec _ _); auto.
    - exists b. split; [apply add_fails|]. repeat split; auto; apply S2. }
  assert (Htake : forall k q c, takes a k q c -> exists d, takes b k q d /\ same c d).
  { intros k q c' HT. inversion HT; subst.
    - eexists. split; [apply take_ok with (h := h); [destruct S as (S1 & _); rewrite <- S1; assumption|rewrite <- Hlent; assumption]|].
      destruct S as (S1 & S2 & S3 & S4 & S5 & S6). unfold with_handles. repeat split; cbn; auto; try apply S2. intros x. unfold put. destruct (key_dec _ _); auto.
    - exists b. split; [apply take_absent; destruct S as (S1 & _); rewrite <- S1; assumption|exact S].
    - exists b. split; [apply take_lent; apply Hlent; assumption|exact S]. }
  pose proof S as (S1 & S2 & S3 & S4 & S5 & S6).
  assert (Hdrop : forall inst rt h, drop_result a inst rt h = drop_result b inst rt h).
  { intros. unfold drop_result. rewrite S6. destruct (rt_impl rt); [rewrite S5|]; reflexivity. }
  inversion H; subst.
  - rewrite S4. eexists. split; [apply an_enter|]. unfold with_calls. repeat split; cbn; auto; try apply S2; congruence.
  - eexists. split; [apply an_exit; intros; rewrite <- S1 in *; eauto|]. unfold with_calls, with_loans. repeat split; cbn in *; auto; try congruence; try (apply S2; tauto); tauto.
  - exists b. split; [eapply an_exit_trap; [rewrite <- S1; eassumption|reflexivity || assumption]|exact S].
  - destruct (Hadd _ _ _ _ _ H0) as (d & D1 & D2). exists d. split; [apply an_new; exact D1|exact D2].
  - exists b. split; [apply an_rep; rewrite <- S1; assumption|exact S].
  - exists b. split; [apply an_rep_trap; rewrite <- S1; assumption|exact S].
  - destruct (Htake _ _ _ H0) as (d & D1 & D2). rewrite Hdrop. eexists. split; [apply an_drop; exact D1|].
    destruct D2 as (T1 & T2 & T3 & T4 & T5 & T6). unfold with_destroyed. repeat split; cbn; auto; apply T2.
  - destruct (Htake _ _ _ H0) as (d & D1 & D2). exists d. split; [apply an_drop_trap; exact D1|exact D2].
  - destruct (Htake _ _ _ H0) as (d & D1 & D2). exists d. split; [eapply an_lift_own; exact D1|exact D2].
  - destruct (Htake _ _ _ H0) as (d & D1 & D2). exists d. split; [apply an_lift_own_trap; exact D1|exact D2].
  - eexists. split; [apply an_lift_borrow; rewrite <- S1; eassumption|]. unfold with_loans. split; [|split; [|split; [|split; [|split]]]]; cbn; auto.
    intros x k. rewrite (S2 x k). reflexivity.
  - exists b. split; [apply an_lift_borrow_trap; rewrite <- S1; assumption|exact S].
  - destruct (Hadd _ _ _ _ _ H0) as (d & D1 & D2). exists d. split; [apply an_lower_own; exact D1|exact D2].
  - exists b. split; [apply an_lower_own_cast; assumption|exact S].
  - destruct (Hadd _ _ _ _ _ H1) as (d & D1 & D2). exists d. split; [apply an_lower_borrow; assumption|exact D2].
  - exists b. split; [apply an_lower_borrow_local; assumption|exact S].
  - exists b. split; [apply an_lower_borrow_cast; assumption|exact S].
  - eexists. split; [apply an_guards|]. unfold with_enterable. repeat split; cbn; auto; try apply S2. intros i. destruct (Nat.eqb i inst); auto.
Qed.

(** The tables implement the abstract machine. *)
Theorem refines : forall insts ops rs s calls, history insts ops rs s calls -> N.of_nat (made ops) < two32 ->
  exists a, fresh a /\ allowed a ops rs (view (s_world s) calls).
Proof.
  intros insts ops rs s calls H. induction H as [s He Hc Hd Hi Ht|ops rs s calls o r s' H IH Hp E]; intros Hn.
  - exists (view (s_world s) []). split; [|apply al_nil; apply same_refl]. pose proof (start_inv insts s He Hc Hi Ht) as HI.
    unfold fresh, view. cbn. repeat split; auto; [|intros ? ? ([] & _)|rewrite Hc; reflexivity].
    intros k. destruct (slot (s_world s) k) as [id|] eqn:Ek; [|reflexivity].
    apply slot_live in Ek. apply (v_live _ _ _ HI) in Ek. rewrite He in Ek. cbn in Ek. lia.
  - rewrite made_app in Hn. destruct IH as (a & Ha & Hal); [lia|]. destruct (history_inv _ _ _ _ _ H) as [HI Hlen]; [lia|].
    destruct (step insts s calls _ o r s' HI Hlen) as (_ & _ & b & Hb & Hs); [lia|exact Hp|exact E|].
    exists a. split; [exact Ha|]. eapply al_step; eassumption.
Qed.

(** ** Consequences for observers *)
Lemma history_after : forall insts s calls evs s' calls', after insts s calls evs s' calls' -> forall ops rs, history insts ops rs s calls ->
  history insts (ops ++ map fst evs) (rs ++ map snd evs) s' calls'.
Proof.
  intros insts s calls evs s' calls' H. induction H; intros ops rs HH; cbn [map].
  - rewrite !app_nil_r. exact HH.
  - rewrite !map_app, !app_assoc. cbn [map fst snd]. eapply h_step; eauto.
Qed.
Lemma history_lengths : forall insts ops rs s calls, history insts ops rs s calls -> List.length ops = List.length rs.
Proof. intros insts ops rs s calls H. induction H; [reflexivity|]. rewrite !app_length. cbn. congruence. Qed.

Lemma answers_keeps : forall a o r c k h, answers a o r c -> at_key a k = Some h -> spares k o r -> at_key c k = Some h.
Proof.
  intros a o r c k h H Hk Hs.
  assert (Ha : forall inst rt h' r' c', adds a inst rt h' r' c' -> at_key c' k = Some h).
  { intros inst rt h' r' c' HA. inversion HA; subst; [|exact Hk]. cbn. unfold put. destruct (key_dec _ k) as [<-|]; [congruence|exact Hk]. }
  assert (Ht : forall k' q c', takes a k' q c' -> (forall x, q = Ok x -> k' <> k) -> at_key c' k = Some h).
  { intros k' q c' HT Hq. inversion HT; subst; try exact Hk. cbn. unfold put. destruct (key_dec _ k) as [<-|]; [exfalso; eapply Hq; reflexivity|exact Hk]. }
  inversion H; subst; cbn in *; eauto; eapply Ht; eauto; congruence.
Qed.

Lemma answers_absent : forall a o r c k, answers a o r c -> at_key a k = None -> ~ hands_out k o r -> at_key c k = None.
Proof.
  intros a o r c k H Hk Hs.
  assert (Ha : forall inst rt h' r' c', adds a inst rt h' r' c' -> (forall i, r' = Ok i -> (inst, rt_id rt, i) <> k) -> at_key c' k = None).
  { intros inst rt h' r' c' HA Hr. inversion HA; subst; [|exact Hk]. cbn. unfold put. destruct (key_dec _ k) as [<-|]; [exfalso; eapply Hr; reflexivity|exact Hk]. }
  assert (Ht : forall k' q c', takes a k' q c' -> at_key c' k = None).
  { intros k' q c' HT. inversion HT; subst; try exact Hk. cbn. unfold put. destruct (key_dec _ k) as [<-|]; [reflexivity|exact Hk]. }
  inversion H; subst; cbn in *; eauto; eapply Ha; eauto; intros; subst; intros Heq; apply Hs; auto.
Qed.

Lemma answers_hands_out : forall a o r c k, answers a o r c -> hands_out k o r -> at_key a k = None /\
  exists rep, at_key c k = Some (match o with OpLowerBorrow cx _ _ => mkHandle rep false (Some (cx_id cx)) | _ => mkHandle rep true None end) /\
    match o with OpNew _ _ v => v = rep | OpLowerOwn _ _ v | OpLowerBorrow _ _ v => v = VU32 rep | _ => True end.
Proof.
  intros a o r c k H Hs. inversion H; subst; cbn in Hs; try contradiction; try (destruct r; contradiction).
  - destruct r; try contradiction. inversion H0; subst. split; [assumption|]. exists rep. cbn. unfold put. destruct (key_dec _ _); [auto|congruence].
  - destruct r; try contradiction. inversion H0; subst. split; [assumption|]. exists rep. cbn. unfold put. destruct (key_dec _ _); [auto|congruence].
  - destruct r; try contradiction. destruct Hs as [<- _]. inversion H1; subst. split; [assumption|]. exists rep. cbn. unfold put. destruct (key_dec _ _); [auto|congruence].
  - destruct Hs as [_ Hs]. contradiction.
Qed.

Lemma answers_removes : forall a o r c k, answers a o r c -> removes k o r -> at_key c k = None.
Proof.
  intros a o r c k H Hs. inversion H; subst; cbn in Hs; try contradiction; try (destruct r; contradiction).
  - assert (Hk : (inst, rt_id rt, i) = k) by (destruct (fst (drop_result a inst rt h)); [exact Hs|contradiction..]). subst k. inversion H0; subst. cbn. unfold put. destruct (key_dec _ _); [reflexivity|congruence].
  - subst k. inversion H0; subst. cbn. unfold put. destruct (key_dec _ _); [reflexivity|congruence].
Qed.

Lemma found_view : forall insts s calls n inst rt i, Inv (s_world s) calls n -> List.length (w_insts (s_world s)) = insts -> (inst < insts)%nat -> N.of_nat n < two32 ->
  found s inst rt i = match at_key (view (s_world s) calls) (inst, rt_id rt, i) with Some h => Ok (hd_rep h) | None => Err ETrap end.
Proof.
  intros insts s calls n inst rt i HI Hlen Hi Hn. unfold found. destruct (canon_resource_rep inst rt i s) as [r s'] eqn:E.
  destruct (step insts s calls n (OpRep inst rt i) r s' HI Hlen Hn Hi E) as (_ & _ & a & Ha & _). cbn [fst].
  inversion Ha; subst; match goal with H : at_key _ _ = _ |- _ => rewrite H end; reflexivity.
Qed.

Lemma found_ok : forall insts s calls n inst rt i rep, Inv (s_world s) calls n -> List.length (w_insts (s_world s)) = insts -> (inst < insts)%nat -> N.of_nat n < two32 ->
  found s inst rt i = Ok rep -> exists h, at_key (view (s_world s) calls) (inst, rt_id rt, i) = Some h /\ hd_rep h = rep.
Proof.
  intros insts s calls n inst rt i rep HI Hlen Hi Hn E. rewrite (found_view insts s calls n) in E by assumption.
  destruct (at_key _ _) as [h|]; [|discriminate]. injection E as E. eauto.
Qed.
Lemma found_trap : forall insts s calls n inst rt i, Inv (s_world s) calls n -> List.length (w_insts (s_world s)) = insts -> (inst < insts)%nat -> N.of_nat n < two32 ->
  (found s inst rt i = Err ETrap <-> at_key (view (s_world s) calls) (inst, rt_id rt, i) = None).
Proof.
  intros insts s calls n inst rt i HI Hlen Hi Hn. rewrite (found_view insts s calls n) by assumption.
  destruct (at_key _ _) as [h|]; split; congruence.
Qed.

(** A property of the abstract machine's state, kept by every operation, is kept. *)
Lemma after_keeps : forall (P : handles -> Prop) (Q : op -> outcome N -> Prop),
  (forall a b, same a b -> P a -> P b) -> (forall a o r c, answers a o r c -> P a -> Q o r -> P c) ->
  forall insts s calls evs s' calls', after insts s calls evs s' calls' ->
  forall ops rs, history insts ops rs s calls -> N.of_nat (made ops + made (map fst evs)) < two32 ->
  P (view (s_world s) calls) -> Forall (fun e => Q (fst e) (snd e)) evs -> P (view (s_world s') calls').
Proof.
  intros P Q HP HQ insts s calls evs s' calls' H. induction H as [|s calls evs s1 calls1 o r s2 H IH Hp E]; intros ops rs H0 Hn H1 HF; [exact H1|].
  rewrite ?map_app, ?made_app in Hn. apply Forall_app in HF. destruct HF as [F1 F2]. inversion F2 as [|? ? F3 _]; subst. cbn [fst snd] in F3.
  pose proof (IH ops rs H0 ltac:(lia) H1 F1) as H2. pose proof (history_after _ _ _ _ _ _ H ops rs H0) as H3.
  destruct (history_inv _ _ _ _ _ H3) as [HI Hlen]; [rewrite made_app; lia|].
  destruct (step insts s1 calls1 _ o r s2 HI Hlen) as (_ & _ & b & Hb & Hs); [rewrite made_app; lia|exact Hp|exact E|].
  eapply HP; [exact Hs|]. eapply HQ; eauto.
Qed.

(** The same along a history from the start. *)
Lemma history_keeps : forall (P : handles -> Prop) (Q : op -> outcome N -> Prop),
  (forall a b, same a b -> P a -> P b) -> (forall a, fresh a -> P a) -> (forall a o r c, answers a o r c -> P a -> Q o r -> P c) ->
  forall insts ops rs s calls, history insts ops rs s calls -> N.of_nat (made ops) < two32 ->
  Forall (fun e => Q (fst e) (snd e)) (combine ops rs) -> P (view (s_world s) calls).
Proof.
  intros P Q HP H0 HQ insts ops rs s calls H. induction H as [s He Hc Hd Hi Ht|ops rs s calls o r s' H IH Hp E]; intros Hn HF.
  - destruct (refines insts [] [] s []) as (a & Ha & Hal); [constructor; assumption|exact Hn|].
    inversion Hal; subst; [eapply HP; [eassumption|auto]|destruct ops; discriminate].
  - rewrite ?map_app, ?made_app in Hn. pose proof (history_lengths _ _ _ _ _ H) as HL.
    assert (Ec : forall {A B} (l1 : list A) (l2 : list B) x y, List.length l1 = List.length l2 -> combine (l1 ++ [x]) (l2 ++ [y]) = (combine l1 l2 ++ [(x, y)])%list).
    { clear. intros A B l1. induction l1; intros [|b l2] x y H; try discriminate; cbn; [reflexivity|]. rewrite IHl1 by (cbn in H; lia). reflexivity. }
    rewrite Ec in HF by exact HL. apply Forall_app in HF. destruct HF as [F1 F2]. inversion F2 as [|? ? F3 _]; subst.
    destruct (history_inv _ _ _ _ _ H) as [HI Hlen]; [lia|].
    destruct (step insts s calls _ o r s' HI Hlen) as (_ & _ & b & Hb & Hs); [lia|exact Hp|exact E|].
    eapply HP; [exact Hs|]. eapply HQ; [exact Hb|apply IH; [lia|exact F1]|exact F3].
Qed.

Lemma entry_slot : forall s k, entry s k = match slot (s_world s) k with Some id => Some (elem_at (s_world s) id) | None => None end.
Proof. intros s [[inst rt] i]. cbn. destruct (nth_error _ _) as [[x|]|]; reflexivity. Qed.
Lemma entry_view : forall s calls k, at_key (view (s_world s) calls) k = option_map face (entry s k).
Proof. intros s calls k. rewrite entry_slot. cbn [view at_key]. destruct (slot (s_world s) k); reflexivity. Qed.

(** Which calls borrowed from a handle shows in the history. *)
Lemma loaned_history : forall insts ops rs s calls, history insts ops rs s calls -> N.of_nat (made ops) < two32 ->
  forall c k, loaned (view (s_world s) calls) c k -> In c calls /\ exists o r, In (o, r) (combine ops rs) /\ borrows c k o r.
Proof.
  intros insts ops rs s calls H Hn.
  assert (HP : (fun a => forall c k, loaned a c k -> exists o r, In (o, r) (combine ops rs) /\ borrows c k o r) (view (s_world s) calls)).
  { eapply history_keeps with (Q := fun o r => In (o, r) (combine ops rs)); [| | |exact H|exact Hn|].
    - intros a b (_ & S2 & _) HP c k Hl. apply HP. apply S2. exact Hl.
    - intros a (_ & F & _) c k Hl. exfalso. eapply F. exact Hl.
    - intros a o r c HA HP HQ x k Hl.
      assert (Hadd : forall inst rt h r c, adds a inst rt h r c -> loaned c x k -> loaned a x k) by (intros ? ? ? ? ? X; inversion X; subst; auto).
      assert (Htk : forall k' q c, takes a k' q c -> loaned c x k -> loaned a x k) by (intros ? ? ? X; inversion X; subst; auto).
      inversion HA; subst; cbn in Hl; eauto.
      + apply HP. tauto.
      + destruct Hl as [Hl|(-> & ->)]; [auto|]. exists (OpLiftBorrow cx rt i), (Ok (hd_rep h)). split; [exact HQ|]. cbn. auto.
    - apply Forall_forall. intros [o r] Hin. exact Hin. }
  intros c k Hl. split; [apply Hl|]. apply HP. exact Hl.
Qed.

(** A handle a call borrowed from stays while the call is in progress. *)
Definition held (c : nat) (k : key) (h : handle) (a : handles) : Prop :=
  (c < call_count a)%nat /\ (In c (open_calls a) -> loaned a c k /\ at_key a k = Some h).
Lemma held_same : forall c k h a b, same a b -> held c k h a -> held c k h b.
Proof.
  intros c k h a b (S1 & S2 & S3 & S4 & S5 & S6) (H1 & H2). unfold held. rewrite <- S4, <- S3, <- S1. split; [exact H1|].
  intros Hin. destruct (H2 Hin). split; [apply S2|]; assumption.
Qed.
Lemma held_step : forall c k h a o r b, answers a o r b -> held c k h a -> held c k h b.
Proof.
  intros c k h a o r b HA (H1 & H2).
  assert (Hadd : forall inst rt h' r b, adds a inst rt h' r b -> held c k h b).
  { intros inst rt h' r' b' X. inversion X; subst; [|split; assumption]. split; [exact H1|]. cbn. intros Hin. destruct (H2 Hin) as [L K].
    split; [exact L|]. unfold put. destruct (key_dec _ k) as [<-|]; [congruence|exact K]. }
  assert (Htk : forall k' q b, takes a k' q b -> held c k h b).
  { intros k' q b' X. inversion X; subst; try (split; assumption). split; [exact H1|]. cbn. intros Hin. destruct (H2 Hin) as [L K].
    split; [exact L|]. unfold put. destruct (key_dec _ k) as [<-|]; [|exact K]. exfalso. apply H0. exists c. exact L. }
  inversion HA; subst; try (split; assumption); eauto.
  - split; cbn; [lia|]. intros [E|Hin]; [lia|]. apply H2. exact Hin.
  - split; cbn; [exact H1|]. intros Hin. apply in_remove in Hin. destruct Hin as [Hin Hne]. destruct (H2 Hin). auto.
  - apply (Htk _ _ _ H).
  - split; cbn; [exact H1|]. intros Hin. destruct (H2 Hin). auto.
Qed.

(** Handles scoped to a call, in terms of the history. *)
Lemma combine_snoc : forall {A B} (l1 : list A) (l2 : list B) x y, List.length l1 = List.length l2 -> combine (l1 ++ [x]) (l2 ++ [y]) = (combine l1 l2 ++ [(x, y)])%list.
Proof. intros A B l1. induction l1; intros [|b l2] x y H; try discriminate; cbn; [reflexivity|]. rewrite IHl1 by (cbn in H; lia). reflexivity. Qed.

(** The converse of [loaned_history]. *)
Lemma history_loaned : forall insts ops rs s calls, history insts ops rs s calls -> N.of_nat (made ops) < two32 ->
  forall c k o r, In (o, r) (combine ops rs) -> borrows c k o r -> (c < List.length (w_calls (s_world s)))%nat /\ (In c calls -> loaned (view (s_world s) calls) c k).
Proof.
  intros insts ops rs s calls H Hn. enough (HH : forall c k o r, In (o, r) (combine ops rs) -> borrows c k o r -> exists h, held c k h (view (s_world s) calls)).
  { intros c k o r Hin Hb. destruct (HH c k o r Hin Hb) as (h & H1 & H2). split; [exact H1|]. intros Hc. apply H2. exact Hc. }
  revert Hn. induction H as [s He Hc Hd Hi Ht|ops rs s calls o r s' H IH Hp E]; intros Hn c k o0 r0 Hin Hb; [destruct Hin|].
  rewrite ?map_app, ?made_app in Hn. rewrite combine_snoc in Hin by (eapply history_lengths; exact H).
  destruct (history_inv _ _ _ _ _ H) as [HI Hlen]; [lia|].
  destruct (step insts s calls _ o r s' HI Hlen) as (_ & _ & b & Hb' & Hs); [lia|exact Hp|exact E|].
  apply in_app_or in Hin. destruct Hin as [Hin|[Heq|[]]].
  - destruct (IH ltac:(lia) c k o0 r0 Hin Hb) as (h & Hh). exists h. eapply held_same; [exact Hs|]. eapply held_step; eassumption.
  - injection Heq as -> ->. destruct o0; try contradiction. destruct r0; try contradiction. cbn in Hb. destruct Hb as [Hb1 Hb2]. subst c k.
    inversion Hb'; subst. exists h. eapply held_same; [exact Hs|]. split; cbn; [apply (v_calls _ _ _ HI); apply Hp|]. intros _. split; [right; auto|assumption].
Qed.

Definition given (evs : list (op * outcome N)) (c : nat) (k : key) : Prop :=
  exists pre o r post, evs = (pre ++ (o, r) :: post)%list /\ lends_to c k o r /\ Forall (fun e => ~ removes k (fst e) (snd e)) post.
Definition scoped_at (a : handles) (c : nat) (k : key) : Prop := exists h, at_key a k = Some h /\ hd_scope h = Some c.

Lemma given_snoc : forall evs o r c k, given (evs ++ [(o, r)]) c k <-> lends_to c k o r \/ (given evs c k /\ ~ removes k o r).
Proof.
  intros evs o r c k. split.
  - intros (pre & o0 & r0 & post & E & HL & HF). destruct post as [|e post] using rev_ind.
    + apply app_inj_tail in E. destruct E as [_ E]. injection E as -> ->. auto.
    + clear IHpost. right. change (pre ++ (o0, r0) :: post ++ [e])%list with (pre ++ ((o0, r0) :: post) ++ [e])%list in E. rewrite app_assoc in E. apply app_inj_tail in E. destruct E as [-> <-].
      apply Forall_app in HF. destruct HF as [F1 F2]. inversion F2; subst. split; [exists pre, o0, r0, post; auto|assumption].
  - intros [HL|((pre & o0 & r0 & post & -> & HL & HF) & Hr)].
    + exists evs, o, r, []. auto.
    + exists pre, o0, r0, (post ++ [(o, r)])%list. split; [rewrite <- app_assoc; reflexivity|]. split; [exact HL|]. apply Forall_app. auto.
Qed.

(** Borrowed handles do not own, so dropping them never fails half-way. *)
Lemma scoped_not_own : forall insts ops rs s calls, history insts ops rs s calls -> N.of_nat (made ops) < two32 ->
  forall k h, at_key (view (s_world s) calls) k = Some h -> (hd_scope h = None <-> hd_own h = true).
Proof.
  intros insts ops rs s calls H Hn.
  assert (HP : (fun a => forall k h, at_key a k = Some h -> (hd_scope h = None <-> hd_own h = true)) (view (s_world s) calls)); [|exact HP].
  eapply history_keeps with (Q := fun _ _ => True); [| | |exact H|exact Hn|apply Forall_forall; auto].
  - intros a b (S1 & _) HP k h. rewrite <- S1. apply HP.
  - intros a (F & _) k h. rewrite F. discriminate.
  - intros a o r c HA HP _ k h Hk.
    assert (Hadd : forall inst rt h' r c, adds a inst rt h' r c -> at_key c k = Some h -> (hd_scope h' = None <-> hd_own h' = true) -> (hd_scope h = None <-> hd_own h = true)).
    { intros inst rt h' r' c' X Hk' Hh. inversion X; subst; [|eauto]. cbn in Hk'. unfold put in Hk'. destruct (key_dec _ k); [injection Hk' as <-; exact Hh|eauto]. }
    assert (Htk : forall k' q c, takes a k' q c -> at_key c k = Some h -> (hd_scope h = None <-> hd_own h = true)).
    { intros k' q c' X Hk'. inversion X; subst; eauto. cbn in Hk'. unfold put in Hk'. destruct (key_dec _ k); [discriminate|eauto]. }
    inversion HA; subst; cbn in Hk; eauto; eapply Hadd; eauto; cbn; split; congruence.
Qed.

Lemma answers_scoped : forall a o r b c k, (forall k h, at_key a k = Some h -> (hd_scope h = None <-> hd_own h = true)) -> answers a o r b ->
  (scoped_at b c k <-> lends_to c k o r \/ (scoped_at a c k /\ ~ removes k o r)).
Proof.
  intros a o r b c k Hown HA. unfold scoped_at.
  assert (Hadd : forall inst rt h' r b, adds a inst rt h' r b ->
    ((exists h, at_key b k = Some h /\ hd_scope h = Some c) <-> (exists i, r = Ok i /\ (inst, rt_id rt, i) = k /\ hd_scope h' = Some c) \/ (exists h, at_key a k = Some h /\ hd_scope h = Some c))).
  { intros inst rt h' r' b' X. inversion X; subst; cbn.
    - unfold put. destruct (key_dec _ k) as [E|E]; split.
      + intros (h & Eh & Hh). injection Eh as <-. left. eauto.
      + intros [(j & Ej & _ & Hh)|(h & Eh & _)]; [eauto|]. congruence.
      + intros (h & Eh & Hh). right. eauto.
      + intros [(j & Ej & Ek & Hh)|X']; [congruence|exact X'].
    - split; [auto|]. intros [(j & Ej & _)|X']; [discriminate|exact X']. }
  assert (Htk : forall k' q b, takes a k' q b ->
    ((exists h, at_key b k = Some h /\ hd_scope h = Some c) <-> (exists h, at_key a k = Some h /\ hd_scope h = Some c) /\ ~ (k' = k /\ exists h, q = Ok h))).
  { intros k' q b' X. inversion X; subst; cbn.
    - unfold put. destruct (key_dec _ k) as [E|E]; split.
      + intros (h' & Eh & _). discriminate.
      + intros (_ & Hno). exfalso. apply Hno. eauto.
      + intros X'. split; [exact X'|]. intros (E' & _). contradiction.
      + tauto.
    - split; [intros X'; split; [exact X'|]; intros (_ & h & Eq); discriminate|tauto].
    - split; [intros X'; split; [exact X'|]; intros (_ & h & Eq); discriminate|tauto]. }
  inversion HA; subst; cbn [lends_to removes at_key with_calls with_loans with_enterable]; try tauto.
  - rewrite (Hadd _ _ _ _ _ H). cbn. split; [intros [(i & _ & _ & E)|X]; [discriminate|right; split; [exact X|tauto]]|tauto].
  - rewrite (Htk _ _ _ H). cbn [with_destroyed at_key].
    assert (Hq : exists h', Ok (A := handle) h = Ok h') by eauto. split.
    + intros (X & Hno). right. split; [exact X|]. intros Hr. apply Hno. split; [|exact Hq]. destruct (fst (drop_result a inst rt h)); tauto.
    + intros [[]|(X & Hno)]. split; [exact X|]. intros (E & _). apply Hno. destruct X as (h0 & Eh & Hs).
      inversion H; subst. rewrite Eh in H1. injection H1 as <-. unfold drop_result.
      destruct (hd_own h0) eqn:Eo; [|cbn; exact eq_refl]. apply (Hown _ _ Eh) in Eo. congruence.
  - rewrite (Htk _ _ _ H). split; [intros (X & _); right; split; [exact X|tauto]|]. intros [[]|(X & _)]. split; [exact X|]. intros (_ & h & Eq). discriminate.
  - rewrite (Htk _ _ _ H). split.
    + intros (X & Hno). right. split; [exact X|]. intros E. apply Hno. eauto.
    + intros [[]|(X & Hno)]. split; [exact X|]. tauto.
  - rewrite (Htk _ _ _ H). split; [intros (X & _); right; split; [exact X|tauto]|]. intros [[]|(X & _)]. split; [exact X|]. intros (_ & h & Eq). discriminate.
  - rewrite (Hadd _ _ _ _ _ H). cbn. split; [intros [(i & _ & _ & E)|X]; [discriminate|right; split; [exact X|tauto]]|tauto].
  - rewrite (Hadd _ _ _ _ _ H0). cbn. split.
    + intros [(i & -> & Ek & Es)|X]; [left; injection Es as <-; auto|right; split; [exact X|tauto]].
    + intros [HL|(X & _)]; [left|right; exact X]. destruct r; try contradiction. destruct HL as (<- & Ek & _). eauto.
Qed.

Lemma scoped_history : forall insts ops rs s calls, history insts ops rs s calls -> N.of_nat (made ops) < two32 ->
  forall c k, scoped_at (view (s_world s) calls) c k <-> given (combine ops rs) c k.
Proof.
  intros insts ops rs s calls H. induction H as [s He Hc Hd Hi Ht|ops rs s calls o r s' H IH Hp E]; intros Hn c k.
  - split.
    + intros (h & Hk & _). destruct (refines insts [] [] s []) as (a & (F & _) & Hal); [constructor; assumption|exact Hn|].
      inversion Hal; subst; [|destruct ops; discriminate]. match goal with X : same _ _ |- _ => destruct X as (S1 & _) end. rewrite <- S1, F in Hk. discriminate.
    + intros (pre & o & r & post & E & _). destruct pre; discriminate.
  - rewrite ?map_app, ?made_app in Hn. rewrite combine_snoc by (eapply history_lengths; exact H). rewrite given_snoc.
    destruct (history_inv _ _ _ _ _ H) as [HI Hlen]; [lia|].
    destruct (step insts s calls _ o r s' HI Hlen) as (_ & _ & b & Hb & Hs); [lia|exact Hp|exact E|].
    rewrite <- (IH ltac:(lia)). rewrite <- (answers_scoped _ _ _ b c k (scoped_not_own _ _ _ _ _ H ltac:(lia)) Hb).
    unfold scoped_at. destruct Hs as (S1 & _). split; intros (h & Hh & Hsc); exists h; [rewrite S1|rewrite <- S1]; auto.
Qed.

(** Destructor calls never outnumber the owned handles made. *)
Definition pair_dec : forall a b : N * N, {a = b} + {a <> b} := fun a b => ltac:(repeat decide equality).
Definition covered (t rep : N) (a : handles) (m : nat) : Prop :=
  exists l : list key, (forall inst i h, at_key a (inst, t, i) = Some h -> hd_own h = true -> hd_rep h = rep -> In (inst, t, i) l) /\
    NoDup l /\ (List.length l + count_occ pair_dec (destroyed a) (t, rep) <= m)%nat.
Lemma covered_le : forall t rep a n m, covered t rep a n -> (n <= m)%nat -> covered t rep a m.
Proof. intros t rep a n m (l & H1 & H2 & H3) H. exists l. repeat split; auto. lia. Qed.
Lemma covered_same : forall t rep a b m, same a b -> covered t rep a m -> covered t rep b m.
Proof. intros t rep a b m (S1 & _ & _ & _ & _ & S6) (l & H1 & H2 & H3). exists l. rewrite <- S6. repeat split; auto. intros inst i h. rewrite <- S1. apply H1. Qed.
Lemma remove_length_in : forall (k : key) l, NoDup l -> In k l -> List.length (remove key_dec k l) = (List.length l - 1)%nat.
Proof.
  intros k l. induction l as [|x l IH]; intros Hn Hin; [destruct Hin|]. apply NoDup_cons_iff in Hn. destruct Hn as [H1 H2]. cbn [remove List.length].
  destruct (key_dec k x) as [->|Hne]; [rewrite notin_remove by exact H1; lia|]. destruct Hin as [|Hin]; [congruence|]. cbn. rewrite (IH H2 Hin).
  destruct l; [destruct Hin|cbn; lia].
Qed.
Lemma NoDup_remove_key : forall (k : key) l, NoDup l -> NoDup (remove key_dec k l).
Proof.
  intros k l H. induction H as [|x l Hx H IH]; cbn; [constructor|]. destruct (key_dec k x); [assumption|].
  constructor; [|assumption]. intros Hin. apply in_remove in Hin. tauto.
Qed.
Lemma covered_step : forall t rep a o r b m, answers a o r b -> covered t rep a m -> covered t rep b (m + (if creates t rep (o, r) then 1 else 0)).
Proof.
  intros t rep a o r b m HA HC.
  assert (Hadd : forall inst rt h' r b, adds a inst rt h' r b ->
    covered t rep b (m + (match r with Ok _ => if hd_own h' && ((rt_id rt =? t) && (hd_rep h' =? rep)) then 1 else 0 | _ => 0 end))).
  { intros inst rt h' r' b' X. inversion X; subst; [|eapply covered_le; [exact HC|lia]]. destruct HC as (l & H1 & H2 & H3).
    destruct (hd_own h' && ((rt_id rt =? t) && (hd_rep h' =? rep))) eqn:Ec.
    - destruct (in_dec key_dec (inst, t, i) l) as [Hin|Hno].
      + exists l. cbn. repeat split; [|exact H2|lia]. intros inst' i' h0. unfold put. destruct (key_dec _ _) as [Ek|]; [|apply H1].
        injection Ek as <- _ <-. intros _ _ _. exact Hin.
      + exists ((inst, t, i) :: l). cbn. repeat split; [|constructor; assumption|lia]. intros inst' i' h0. unfold put. destruct (key_dec _ _) as [Ek|].
        * injection Ek as <- _ <-. intros _ _ _. auto.
        * intros A B C. right. eauto.
    - exists l. cbn. repeat split; [|exact H2|lia]. intros inst' i' h0. unfold put. destruct (key_dec _ _) as [Ek|]; [|apply H1].
      injection Ek as <- <- <-. intros Eh A B. injection Eh as <-. rewrite A, B, !N.eqb_refl in Ec. discriminate. }
  assert (Htk : forall k' q b, takes a k' q b -> covered t rep b m).
  { intros k' q b' X. inversion X; subst; try exact HC. destruct HC as (l & H1 & H2 & H3). exists l. cbn. repeat split; auto.
    intros inst i h0. unfold put. destruct (key_dec _ _); [discriminate|apply H1]. }
  assert (Hsame : covered t rep a (m + 0)) by (eapply covered_le; [exact HC|lia]).
  inversion HA; subst; cbn [creates]; try exact Hsame; try (eapply covered_le; [eapply Htk; eassumption|lia]).
  - destruct r; exact (Hadd _ _ _ _ _ H).
  - assert (HX : covered t rep a' m) by eauto. inversion H; subst. unfold drop_result.
    destruct (hd_own h) eqn:Eo; cbn [negb].
    2:{ cbn [fst snd]. destruct HX as (l & X). exists l. rewrite Nat.add_0_r. exact X. }
    destruct (rt_impl rt) as [impl|]; [|cbn [fst snd]; destruct HX as (l & X); exists l; rewrite Nat.add_0_r; exact X].
    destruct (Nat.eqb inst impl || enterable a impl); [|cbn [fst snd]; destruct HX as (l & X); exists l; rewrite Nat.add_0_r; exact X].
    destruct (rt_dtor rt); [|cbn [fst snd]; destruct HX as (l & X); exists l; rewrite Nat.add_0_r; exact X].
    cbn [fst snd]. destruct (pair_dec (rt_id rt, hd_rep h) (t, rep)) as [Eq|Hne].
    + injection Eq as Et Er. destruct HC as (l & H1' & H2' & H3'). rewrite Et in *. pose proof (H1' inst i h H1 Eo Er) as Hin.
      exists (remove key_dec (inst, t, i) l). cbn [with_destroyed with_handles at_key destroyed count_occ].
      split; [|split; [apply NoDup_remove_key; exact H2'|]].
      * intros inst' i' h0. unfold put. destruct (key_dec _ _) as [|Hk]; [discriminate|]. intros A B C. apply in_in_remove; [congruence|eauto].
      * rewrite remove_length_in by assumption. destruct (pair_dec _ _) as [_|Hx]; [|rewrite Er in Hx; congruence]. destruct l; [destruct Hin|cbn [List.length] in *; lia].
    + destruct HX as (l & X1 & X2 & X3). exists l. cbn [with_destroyed with_handles at_key destroyed count_occ] in *. repeat split; auto.
      destruct (pair_dec _ _); [contradiction|]. lia.
  - destruct r; exact (Hadd _ _ _ _ _ H).
  - match goal with X : forall n, ?v <> VU32 n |- _ => destruct v; try exact Hsame end.
  - match goal with X : adds _ _ _ _ _ _ |- _ => eapply covered_le; [exact (Hadd _ _ _ _ _ X)|] end. cbn. destruct r; lia.
Qed.
Lemma covered_history : forall insts ops rs s calls, history insts ops rs s calls -> N.of_nat (made ops) < two32 ->
  forall t rep, covered t rep (view (s_world s) calls) (List.length (filter (creates t rep) (combine ops rs))).
Proof.
  intros insts ops rs s calls H. induction H as [s He Hc Hd Hi Ht|ops rs s calls o r s' H IH Hp E]; intros Hn t rep.
  - destruct (refines insts [] [] s []) as (a & (F & _ & _ & _ & F5) & Hal); [constructor; assumption|exact Hn|].
    inversion Hal; subst; [|destruct ops; discriminate]. eapply covered_same; [eassumption|].
    exists []. rewrite F5. cbn. repeat split; [|constructor|lia]. intros inst i h. rewrite F. discriminate.
  - rewrite ?map_app, ?made_app in Hn. rewrite combine_snoc by (eapply history_lengths; exact H).
    rewrite filter_app, app_length. destruct (history_inv _ _ _ _ _ H) as [HI Hlen]; [lia|].
    destruct (step insts s calls _ o r s' HI Hlen) as (_ & _ & b & Hb & Hs); [lia|exact Hp|exact E|].
    eapply covered_same; [exact Hs|]. eapply covered_le; [eapply covered_step; [exact Hb|apply IH; lia]|].
    cbn [filter]. destruct (creates t rep (o, r)); cbn; lia.
Qed.
