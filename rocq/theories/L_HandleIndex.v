(** The slots and the free list of a handle table along a history. *)
From Coq Require Import NArith ZArith List Bool Arith Lia ZifyBool ZifyNat ZifyN.
From Verif Require Import GoBase M_Types M_State M_Canon S_Handles L_Handles S_HandleIndex.
Import ListNotations.
Open Scope N_scope.
Open Scope go_scope.

(** ** What an operation does to a table *)
Definition grown (t t' : htable) (o : outcome N) : Prop :=
  match List.length (t_free t) with
  | O => o = Ok (N.of_nat (List.length (t_array t))) /\ List.length (t_array t') = S (List.length (t_array t)) /\ List.length (t_free t') = 0%nat
  | S g => List.length (t_array t') = List.length (t_array t) /\ List.length (t_free t') = g /\
      match nth_error (t_array t) g with
      | Some (Some _) => o = Err EOther
      | Some None => o = Ok (N.of_nat g)
      | None => False
      end
  end.

Lemma add_table : forall inst rt h s calls n o s',
  Inv (s_world s) calls n -> (inst < List.length (w_insts (s_world s)))%nat -> N.of_nat n < two32 ->
  handle_add inst rt h s = (o, s') ->
  grown (inst_table (s_world s) inst rt) (inst_table (s_world s') inst rt) o /\
  forall j r, (j, r) <> (inst, rt) -> inst_table (s_world s') j r = inst_table (s_world s) j r.
Proof.
  intros inst rt h s calls n o s' HI Hi Hn E. set (w := s_world s) in *.
  destruct (v_tables _ _ _ HI inst rt) as (f & Ef & Hf & Hlen).
  unfold handle_add, get_world, put_world in E. unfold bind at 1 in E. cbv beta iota in E. fold w in E.
  fold (with_elem w h) in E. set (w0 := with_elem w h) in *. change (inst_table w0 inst rt) with (inst_table w inst rt) in E.
  set (t := inst_table w inst rt) in *. rewrite Ef, stack_pop_seq in E.
  assert (Hfl : List.length (t_free t) = f) by (rewrite Ef, map_length, seq_length; reflexivity).
  assert (HT : forall t' sc d, inst_table (add_borrow (set_inst_table w0 inst rt t') sc d) inst rt = t' /\
     forall j r, (j, r) <> (inst, rt) -> inst_table (add_borrow (set_inst_table w0 inst rt t') sc d) j r = inst_table w j r).
  { intros t' sc d. split.
    - rewrite rep_table by exact Hi. rewrite Nat.eqb_refl, N.eqb_refl. reflexivity.
    - intros j r Hjr. rewrite rep_table by exact Hi. destruct (Nat.eqb_spec j inst) as [->|]; [|reflexivity].
      destruct (N.eqb_spec rt r) as [->|]; [congruence|reflexivity]. }
  unfold grown. rewrite Hfl. destruct f as [|f].
  - unfold bind, ret in E. injection E as <- <-. cbn [s_world].
    match goal with |- context [add_borrow (set_inst_table w0 inst rt ?t') ?sc ?d] => destruct (HT t' sc d) as [H1 H2] end.
    rewrite H1. split; [|exact H2]. cbn [t_array t_free]. rewrite app_length. cbn. split; [|split; [lia|reflexivity]].
    f_equal. unfold u32. apply N.mod_small. lia.
  - pose proof (holes_le (t_array t)). rewrite Nat2N.id in E.
    destruct (nth_error (t_array t) f) as [[y|]|] eqn:En; [| |apply nth_error_None in En; lia].
    + unfold bind, lift_o in E. injection E as <- <-. cbn [s_world].
      destruct (HT (mkTable (t_array t) (map N.of_nat (seq 0 f))) None 0%Z) as [H1 H2].
      change (add_borrow (set_inst_table w0 inst rt (mkTable (t_array t) (map N.of_nat (seq 0 f)))) None 0%Z)
        with (set_inst_table w0 inst rt (mkTable (t_array t) (map N.of_nat (seq 0 f)))) in H1, H2.
      rewrite H1. split; [|exact H2]. cbn [t_array t_free]. rewrite map_length, seq_length. auto.
    + unfold bind, ret in E. injection E as <- <-. cbn [s_world].
      match goal with |- context [add_borrow (set_inst_table w0 inst rt ?t') ?sc ?d] => destruct (HT t' sc d) as [H1 H2] end.
      rewrite H1. split; [|exact H2]. cbn [t_array t_free]. rewrite list_upd_length, map_length, seq_length. auto.
Qed.

Lemma remove_table : forall inst rt i s calls n o s',
  Inv (s_world s) calls n -> (inst < List.length (w_insts (s_world s)))%nat -> N.of_nat n < two32 ->
  handle_remove inst rt i s = (o, s') ->
  (forall j r, (j, r) <> (inst, rt) -> inst_table (s_world s') j r = inst_table (s_world s) j r) /\
  (inst_table (s_world s') inst rt = inst_table (s_world s) inst rt \/
   (slot (s_world s) (inst, rt, i) <> None /\ slot (s_world s') (inst, rt, i) = None /\
    List.length (t_array (inst_table (s_world s') inst rt)) = List.length (t_array (inst_table (s_world s) inst rt)) /\
    List.length (t_free (inst_table (s_world s') inst rt)) = S (List.length (t_free (inst_table (s_world s) inst rt))))).
Proof.
  intros inst rt i s calls n o s' HI Hi Hn E. unfold handle_remove in E. unfold bind at 1 in E.
  destruct (handle_get inst rt i s) as [o1 s1] eqn:Eg. destruct (get_spec _ _ _ _ _ _ _ _ HI Hi Hn Eg) as [-> ->].
  set (w := s_world s) in *. destruct (touch_spec w calls n inst rt HI Hi) as (T1 & T2 & T3 & T4 & T5).
  destruct (slot w (inst, rt, i)) as [id|] eqn:Es.
  2:{ injection E as <- <-. cbn [s_world with_world]. split; [intros; apply T4|left; apply T4]. }
  unfold get_world, put_world in E. unfold bind at 1 in E. cbv beta iota in E.
  change (s_world (with_world s (touch w inst rt))) with (touch w inst rt) in E.
  destruct (h_lend (elem_at (touch w inst rt) id) =? 0)%Z.
  2:{ injection E as <- <-. cbn [s_world with_world]. split; [intros; apply T4|left; apply T4]. }
  unfold bind, ret in E. injection E as <- <-. rewrite T4. cbn [s_world].
  assert (Hi1 : (inst < List.length (w_insts (touch w inst rt)))%nat) by (destruct T2 as (_ & _ & _ & _ & _ & ->); exact Hi).
  set (t := inst_table w inst rt) in *.
  match goal with |- context [add_borrow (set_inst_table (touch w inst rt) inst rt ?t') ?sc ?d] => set (t1 := t'); set (sc1 := sc); set (d1 := d) end.
  assert (HT : inst_table (add_borrow (set_inst_table (touch w inst rt) inst rt t1) sc1 d1) inst rt = t1).
  { rewrite rep_table by exact Hi1. rewrite Nat.eqb_refl, N.eqb_refl. reflexivity. }
  split.
  - intros j r Hjr. rewrite rep_table by exact Hi1. rewrite T4. destruct (Nat.eqb_spec j inst) as [->|]; [|reflexivity].
    destruct (N.eqb_spec rt r) as [->|]; [congruence|reflexivity].
  - right. split; [discriminate|]. unfold slot. rewrite HT.
    assert (En : nth_error (t_array t) (N.to_nat i) = Some (Some id)).
    { cbn in Es. fold t in Es. destruct (nth_error _ _) as [[x|]|]; congruence. }
    unfold t1. cbn [t_array t_free]. rewrite list_upd_length, list_upd_nth, Nat.eqb_refl.
    assert (Hlt : Nat.ltb (N.to_nat i) (List.length (t_array t)) = true) by (apply Nat.ltb_lt; apply nth_error_Some; congruence).
    rewrite Hlt. cbn [andb]. split; [reflexivity|]. split; [reflexivity|]. unfold stack_push. rewrite app_length. cbn. lia.
Qed.

Lemma insts_table : forall w w', w_insts w' = w_insts w -> forall j r, inst_table w' j r = inst_table w j r.
Proof. intros w w' E j r. unfold inst_table. rewrite E. reflexivity. Qed.

Lemma get_table_kept : forall inst rt i s calls n o s',
  Inv (s_world s) calls n -> (inst < List.length (w_insts (s_world s)))%nat -> N.of_nat n < two32 ->
  handle_get inst rt i s = (o, s') -> forall j r, inst_table (s_world s') j r = inst_table (s_world s) j r.
Proof.
  intros inst rt i s calls n o s' HI Hi Hn E j r. destruct (get_spec _ _ _ _ _ _ _ _ HI Hi Hn E) as [-> _].
  cbn [s_world with_world]. destruct (touch_spec (s_world s) calls n inst rt HI Hi) as (_ & _ & _ & T4 & _). apply T4.
Qed.

(** The table of [inst] and [rt] across one operation *)
Definition table_step (inst : nat) (t : N) (o : op) (r : outcome N) (w w' : world) : Prop :=
  if asks inst t o then grown (inst_table w inst t) (inst_table w' inst t) r
  else inst_table w' inst t = inst_table w inst t \/
    exists i, slot w (inst, t, i) <> None /\ slot w' (inst, t, i) = None /\
      List.length (t_array (inst_table w' inst t)) = List.length (t_array (inst_table w inst t)) /\
      List.length (t_free (inst_table w' inst t)) = S (List.length (t_free (inst_table w inst t))).

Lemma add_case : forall inst t i rt h s calls n r s' (b : bool),
  Inv (s_world s) calls n -> (i < List.length (w_insts (s_world s)))%nat -> N.of_nat n < two32 ->
  handle_add i (rt_id rt) h s = (r, s') ->
  if Nat.eqb i inst && (rt_id rt =? t) then grown (inst_table (s_world s) inst t) (inst_table (s_world s') inst t) r
  else inst_table (s_world s') inst t = inst_table (s_world s) inst t.
Proof.
  intros inst t i rt h s calls n r s' b HI Hi Hn E. destruct (add_table _ _ _ _ _ _ _ _ HI Hi Hn E) as [H1 H2].
  destruct (Nat.eqb_spec i inst) as [<-|Hne]; [|cbn; apply H2; congruence].
  destruct (N.eqb_spec (rt_id rt) t) as [<-|Hne]; [exact H1|cbn; apply H2; congruence].
Qed.

Lemma remove_case : forall inst t i rt x s calls n r s',
  Inv (s_world s) calls n -> (i < List.length (w_insts (s_world s)))%nat -> N.of_nat n < two32 ->
  handle_remove i rt x s = (r, s') ->
  inst_table (s_world s') inst t = inst_table (s_world s) inst t \/
  exists y, slot (s_world s) (inst, t, y) <> None /\ slot (s_world s') (inst, t, y) = None /\
    List.length (t_array (inst_table (s_world s') inst t)) = List.length (t_array (inst_table (s_world s) inst t)) /\
    List.length (t_free (inst_table (s_world s') inst t)) = S (List.length (t_free (inst_table (s_world s) inst t))).
Proof.
  intros inst t i rt x s calls n r s' HI Hi Hn E. destruct (remove_table _ _ _ _ _ _ _ _ HI Hi Hn E) as [H1 H2].
  destruct (Nat.eq_dec inst i) as [->|Hne]; [|left; apply H1; congruence].
  destruct (N.eq_dec t rt) as [->|Hne]; [|left; apply H1; congruence].
  destruct H2 as [H2|H2]; [left; exact H2|right; exists x; exact H2].
Qed.

Lemma op_table : forall insts inst t s calls n o r s',
  Inv (s_world s) calls n -> List.length (w_insts (s_world s)) = insts -> N.of_nat n < two32 ->
  proper insts calls o -> run o s = (r, s') -> table_step inst t o r (s_world s) (s_world s').
Proof.
  intros insts inst t s calls n o r s' HI <- Hn Hp E. unfold table_step.
  destruct o; cbn [proper run asks] in *.
  - left. unfold bind in E. destruct (new_call opts inst0 s) as [o1 s1] eqn:En.
    destruct (enter_spec _ _ _ calls n _ _ HI En) as (w' & -> & -> & HI' & Ei & _). unfold ret in E. injection E as <- <-.
    cbn [s_world with_world]. apply insts_table. exact Ei.
  - left. unfold bind in E. destruct (exit_call call s) as [o1 s1] eqn:Ex.
    destruct (exit_spec _ _ calls n _ _ HI Hp Ex) as (w' & -> & [(-> & _ & _ & Ei & _)|(-> & _ & ->)]).
    + unfold ret in E. injection E as <- <-. cbn [s_world with_world]. apply insts_table. exact Ei.
    + injection E as <- <-. reflexivity.
  - unfold canon_resource_new in E. pose proof (add_case inst t inst0 rt _ s calls n r s' true HI Hp Hn E) as H.
    destruct (Nat.eqb inst0 inst && (rt_id rt =? t)); [exact H|left; exact H].
  - left. unfold canon_resource_rep in E. unfold bind at 1 in E. destruct (handle_get inst0 (rt_id rt) i s) as [o1 s1] eqn:Eg.
    pose proof (get_table_kept _ _ _ _ _ _ _ _ HI Hp Hn Eg inst t) as H. destruct o1; unfold bind, get_world, ret in E; injection E as <- <-; exact H.
  - unfold bind at 1 in E. unfold canon_resource_drop in E. unfold bind at 1 in E. destruct (handle_remove inst0 (rt_id rt) i s) as [o1 s1] eqn:Er.
    pose proof (remove_case inst t _ _ _ _ _ _ _ _ HI Hp Hn Er) as H.
    assert (Hs : w_insts (s_world s') = w_insts (s_world s1)).
    { destruct o1 as [id|e| |]; [|injection E as <- <-; reflexivity..]. unfold get_world in E. unfold bind at 1 in E. cbv beta iota in E.
      destruct (h_own _); [|unfold ret in E; injection E as <- <-; reflexivity].
      destruct (rt_impl rt) as [impl|]; [|unfold lift_o in E; injection E as <- <-; reflexivity].
      destruct (_ && _); [unfold lift_o in E; injection E as <- <-; reflexivity|].
      destruct (rt_dtor rt); unfold put_world, ret in E; injection E as <- <-; reflexivity. }
    assert (Hk : forall k, slot (s_world s') k = slot (s_world s1) k).
    { intros [[j q] y]. unfold slot. rewrite (insts_table _ _ Hs). reflexivity. }
    rewrite (insts_table _ _ Hs). destruct H as [H|(y & H)]; [left; exact H|right; exists y; rewrite Hk; exact H].
  - unfold lift_own in E. unfold bind at 1 in E. destruct Hp as [Hp Hc]. destruct (handle_remove (cx_inst cx) (rt_id rt) i s) as [o1 s1] eqn:Er.
    pose proof (remove_case inst t _ _ _ _ _ _ _ _ HI Hp Hn Er) as H.
    destruct o1; unfold bind, get_world, ret in E; injection E as <- <-; exact H.
  - left. unfold lift_borrow in E. unfold bind at 1 in E. destruct Hp as [Hp Hc]. destruct (handle_get (cx_inst cx) (rt_id rt) i s) as [o1 s1] eqn:Eg.
    pose proof (get_table_kept _ _ _ _ _ _ _ _ HI Hp Hn Eg inst t) as H. destruct o1 as [id|e| |]; [|injection E as <- <-; exact H..].
    unfold bind, get_world, put_world, lift_borrow_from, ret in E. cbn [bind get_world] in E. unfold get_world, bind, put_world in E.
    destruct (nth_error _ (cx_id cx)); injection E as <- <-; rewrite <- H; apply insts_table; reflexivity.
  - destruct Hp as [Hp Hc]. destruct v; try (unfold lower_own, lift_o in E; injection E as <- <-; left; reflexivity).
    unfold lower_own in E. pose proof (add_case inst t (cx_inst cx) rt _ s calls n r s' true HI Hp Hn E) as H.
    destruct (Nat.eqb (cx_inst cx) inst && (rt_id rt =? t)); [exact H|left; exact H].
  - destruct Hp as [Hp Hc]. destruct v; try (unfold lower_borrow, lift_o in E; injection E as <- <-; left; reflexivity).
    unfold lower_borrow in E. destruct (match rt_impl rt with Some impl => Nat.eqb (cx_inst cx) impl | None => false end).
    + unfold ret in E. injection E as <- <-. rewrite andb_false_r. left. reflexivity.
    + pose proof (add_case inst t (cx_inst cx) rt _ s calls n r s' true HI Hp Hn E) as H. cbn [negb]. rewrite andb_true_r.
      destruct (Nat.eqb (cx_inst cx) inst && (rt_id rt =? t)); [exact H|left; exact H].
  - left. unfold set_may_enter, set_may_leave, bind, get_world, put_world, ret in E. injection E as <- E2.
    assert (Eg : s_world s' = guard (s_world s) inst0 enter leave \/ True) by (right; exact I). clear Eg.
    rewrite <- E2. cbn [s_world w_elems w_calls w_insts w_dtors]. set (w := s_world s) in *.
    unfold inst_table, inst_at. cbn [w_insts]. rewrite !list_upd_nth, !list_upd_nth_default, list_upd_length, Nat.eqb_refl.
    apply Nat.ltb_lt in Hp. fold w in Hp. rewrite Hp. cbn [andb].
    destruct (Nat.eqb_spec inst inst0) as [->|]; [|reflexivity]. cbn [andb i_tables].
    destruct (nth_error (w_insts w) inst0) as [ins|] eqn:En.
    + rewrite (nth_error_nth _ _ _ En). reflexivity.
    + apply nth_error_None in En. apply Nat.ltb_lt in Hp. lia.
Qed.

(** ** Slots and what is found *)
Lemma found_slot : forall insts s calls n inst rt i, Inv (s_world s) calls n -> List.length (w_insts (s_world s)) = insts ->
  (inst < insts)%nat -> N.of_nat n < two32 ->
  found s inst rt i = match slot (s_world s) (inst, rt_id rt, i) with Some id => Ok (h_rep (elem_at (s_world s) id)) | None => Err ETrap end.
Proof.
  intros insts s calls n inst rt i HI Hl Hi Hn. rewrite (found_view insts s calls n) by assumption. cbn [view at_key].
  destruct (slot (s_world s) (inst, rt_id rt, i)); reflexivity.
Qed.

Lemma ledger_history : forall insts inst rt ops rs s calls n f g, ledger insts inst rt ops rs s calls n f g -> history insts ops rs s calls.
Proof. intros insts inst rt ops rs s calls n f g H. induction H; [assumption|eapply h_step; eassumption..]. Qed.

(** The counts are those of the table. *)
Definition counts (s : state) (inst : nat) (t : N) (n f : nat) : Prop :=
  List.length (t_array (inst_table (s_world s) inst t)) = n /\ List.length (t_free (inst_table (s_world s) inst t)) = f.

Lemma left_slot : forall insts s calls n s' calls' n' inst rt, Inv (s_world s) calls n -> Inv (s_world s') calls' n' ->
  List.length (w_insts (s_world s)) = insts -> List.length (w_insts (s_world s')) = insts -> (inst < insts)%nat ->
  N.of_nat n < two32 -> N.of_nat n' < two32 ->
  (left_table inst rt s s' <-> exists i, slot (s_world s) (inst, rt_id rt, i) <> None /\ slot (s_world s') (inst, rt_id rt, i) = None).
Proof.
  intros insts s calls n s' calls' n' inst rt HI HI' Hl Hl' Hi Hn Hn'. unfold left_table. split.
  - intros (i & rep & E1 & E2). exists i. rewrite (found_slot insts s calls n) in E1 by assumption. rewrite (found_slot insts s' calls' n') in E2 by assumption.
    destruct (slot (s_world s) _); [|discriminate]. destruct (slot (s_world s') _); [discriminate|]. split; [discriminate|reflexivity].
  - intros (i & E1 & E2). destruct (slot (s_world s) (inst, rt_id rt, i)) as [id|] eqn:Es; [|congruence].
    exists i, (h_rep (elem_at (s_world s) id)). rewrite (found_slot insts s calls n), (found_slot insts s' calls' n') by assumption. rewrite Es, E2. auto.
Qed.

Lemma table_same_slots : forall w w' inst t, inst_table w' inst t = inst_table w inst t -> forall i, slot w' (inst, t, i) = slot w (inst, t, i).
Proof. intros w w' inst t E i. unfold slot. rewrite E. reflexivity. Qed.

Lemma ledger_counts : forall insts inst rt ops rs s calls n f g, (inst < insts)%nat ->
  ledger insts inst rt ops rs s calls n f g -> N.of_nat (made ops) < two32 -> counts s inst (rt_id rt) n f.
Proof.
  intros insts inst rt ops rs s calls n f g Hi H. unfold counts. induction H as [s H|ops rs s calls n g o r s' H IH Hp E Ha|ops rs s calls n f g o r s' H IH Hp E Ha|ops rs s calls n f g o r s' H IH Hp E Ha Hl|ops rs s calls n f g o r s' H IH Hp E Ha Hl]; intros Hn.
  - inversion H as [s0 He Hc Hd Hins Ht|ops' rs' s0 calls' o' r' s0' H' Hp' E' X1 X2]; [|destruct ops'; discriminate]. subst.
    unfold inst_table. destruct (nth_error (w_insts (s_world s)) inst) as [ins|] eqn:En; [|auto].
    rewrite Forall_forall in Ht. rewrite (Ht ins); [auto|]. eapply nth_error_In. exact En.
  - rewrite made_app in Hn. destruct IH as [I1 I2]; [lia|]. destruct (history_inv _ _ _ _ _ (ledger_history _ _ _ _ _ _ _ _ _ _ H)) as [HI Hlen]; [lia|].
    pose proof (op_table insts inst (rt_id rt) s calls _ o r s' HI Hlen ltac:(lia) Hp E) as Ht. unfold table_step in Ht. rewrite Ha in Ht.
    unfold grown in Ht. rewrite I2 in Ht. destruct Ht as (_ & T1 & T2). rewrite T1, T2, I1. auto.
  - rewrite made_app in Hn. destruct IH as [I1 I2]; [lia|]. destruct (history_inv _ _ _ _ _ (ledger_history _ _ _ _ _ _ _ _ _ _ H)) as [HI Hlen]; [lia|].
    pose proof (op_table insts inst (rt_id rt) s calls _ o r s' HI Hlen ltac:(lia) Hp E) as Ht. unfold table_step in Ht. rewrite Ha in Ht.
    unfold grown in Ht. rewrite I2 in Ht. destruct Ht as (T1 & T2 & _). rewrite T1, T2, I1. auto.
  - pose proof (made_app ops [o]) as Hma. rewrite Hma in Hn. destruct IH as [I1 I2]; [lia|]. destruct (history_inv _ _ _ _ _ (ledger_history _ _ _ _ _ _ _ _ _ _ H)) as [HI Hlen]; [lia|].
    pose proof (ledger_history _ _ _ _ _ _ _ _ _ _ (lg_left _ _ _ _ _ _ _ _ _ _ _ _ _ H Hp E Ha Hl)) as H'. destruct (history_inv _ _ _ _ _ H') as [HI' Hlen']; [lia|].
    pose proof (op_table insts inst (rt_id rt) s calls _ o r s' HI Hlen ltac:(lia) Hp E) as Ht. unfold table_step in Ht. rewrite Ha in Ht.
    destruct Ht as [Ht|(i & _ & _ & T1 & T2)]; [|rewrite T1, T2; auto].
    exfalso. apply (left_slot insts s calls _ s' _ _ inst rt HI HI' Hlen Hlen' Hi) in Hl; [|lia..]. destruct Hl as (i & L1 & L2).
    rewrite (table_same_slots _ _ _ _ Ht) in L2. contradiction.
  - pose proof (made_app ops [o]) as Hma. rewrite Hma in Hn. destruct IH as [I1 I2]; [lia|]. destruct (history_inv _ _ _ _ _ (ledger_history _ _ _ _ _ _ _ _ _ _ H)) as [HI Hlen]; [lia|].
    pose proof (ledger_history _ _ _ _ _ _ _ _ _ _ (lg_other _ _ _ _ _ _ _ _ _ _ _ _ _ H Hp E Ha Hl)) as H'. destruct (history_inv _ _ _ _ _ H') as [HI' Hlen']; [lia|].
    pose proof (op_table insts inst (rt_id rt) s calls _ o r s' HI Hlen ltac:(lia) Hp E) as Ht. unfold table_step in Ht. rewrite Ha in Ht.
    destruct Ht as [Ht|(i & L1 & L2 & _)]; [rewrite Ht; auto|].
    exfalso. apply Hl. apply (left_slot insts s calls _ s' _ _ inst rt HI HI' Hlen Hlen' Hi); [lia..|]. eauto.
Qed.

(** Every history has its ledger. *)
Lemma ledger_total : forall insts inst rt ops rs s calls, (inst < insts)%nat -> history insts ops rs s calls -> N.of_nat (made ops) < two32 ->
  exists n f g, ledger insts inst rt ops rs s calls n f g.
Proof.
  intros insts inst rt ops rs s calls Hi H. induction H as [s He Hc Hd Hins Ht|ops rs s calls o r s' H IH Hp E]; intros Hn.
  - exists 0%nat, 0%nat, 0%nat. constructor. constructor; assumption.
  - pose proof (made_app ops [o]) as Hma. rewrite Hma in Hn. destruct IH as (n & f & g & L); [lia|].
    destruct (asks inst (rt_id rt) o) eqn:Ha.
    + destruct f as [|f]; do 3 eexists; [eapply lg_grow|eapply lg_spare]; eassumption.
    + destruct (history_inv _ _ _ _ _ H) as [HI Hlen]; [lia|]. pose proof (h_step _ _ _ _ _ _ _ _ H Hp E) as H'. destruct (history_inv _ _ _ _ _ H') as [HI' Hlen']; [lia|].
      pose proof (op_table insts inst (rt_id rt) s calls _ o r s' HI Hlen ltac:(lia) Hp E) as Ht. unfold table_step in Ht. rewrite Ha in Ht.
      destruct Ht as [Ht|(i & L1 & L2 & _)].
      * exists n, f, g. eapply lg_other; try eassumption. rewrite (left_slot insts s calls _ s' _ _ inst rt HI HI' Hlen Hlen' Hi) by lia.
        intros (i & L1 & L2). rewrite (table_same_slots _ _ _ _ Ht) in L2. contradiction.
      * exists n, (S f), (S g). eapply lg_left; try eassumption. rewrite (left_slot insts s calls _ s' _ _ inst rt HI HI' Hlen Hlen' Hi) by lia. eauto.
Qed.
