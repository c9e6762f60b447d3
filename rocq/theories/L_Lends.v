(** The lend count is the number of loans. *)
From Coq Require Import NArith ZArith List Bool Arith Lia ZifyBool ZifyNat ZifyN Permutation.
From Verif Require Import GoBase M_Types M_State M_Canon S_Handles L_Access L_Handles S_Lends.
Import ListNotations.
Open Scope N_scope.
Open Scope go_scope.

Definition lends (w : world) (k : key) (c : nat) : nat :=
  match slot w k with Some id => count_occ Nat.eq_dec (lenders_of w c) id | None => 0%nat end.

Lemma lends_same : forall w w' k c, (forall c, lenders_of w' c = lenders_of w c) -> (forall k, slot w' k = slot w k) -> lends w' k c = lends w k c.
Proof. intros w w' k c Hl Hs. unfold lends. rewrite Hl, Hs. reflexivity. Qed.

Lemma lends_add : forall inst rt h s calls n o s' k c, Inv (s_world s) calls n -> (inst < List.length (w_insts (s_world s)))%nat -> N.of_nat n < two32 ->
  h_lend h = 0%Z -> (forall c, h_scope h = Some c -> In c calls) -> handle_add inst rt h s = (o, s') -> In c calls ->
  lends (s_world s') k c = lends (s_world s) k c.
Proof.
  intros inst rt h s calls n o s' k c HI Hi Hn Hl Hsc E Hc.
  destruct (add_spec inst rt h s calls n o s' HI Hi Hn Hl) as (w' & -> & HI' & Q & H); [intros c' Hc'; apply (v_calls _ _ _ HI); auto|exact E|].
  cbn [s_world with_world]. destruct Q as (_ & _ & Q3 & _). destruct H as [(i & -> & Hnone & Hnew & Hs)|(-> & Hs)].
  - unfold lends. rewrite Hs. destruct (key_dec _ k) as [<-|]; [|rewrite Q3; reflexivity]. rewrite Hnone, Q3.
    apply count_occ_not_In. intros Hin.
    assert (Hlo : In (List.length (w_elems (s_world s))) (loans (s_world s) calls)) by (apply in_flat_map; eauto).
    apply (v_lenders _ _ _ HI) in Hlo. apply (v_live _ _ _ HI) in Hlo. lia.
  - apply lends_same; assumption.
Qed.

Lemma lends_take : forall inst rt i s calls n o s' k c, Inv (s_world s) calls n -> (inst < List.length (w_insts (s_world s)))%nat -> N.of_nat n < two32 ->
  handle_remove inst rt i s = (o, s') -> In c calls -> lends (s_world s') k c = lends (s_world s) k c.
Proof.
  intros inst rt i s calls n o s' k c HI Hi Hn E Hc.
  destruct (remove_spec inst rt i s calls n o s' HI Hi Hn E) as (w' & -> & HI' & Q & Ee & H).
  cbn [s_world with_world]. destruct Q as (_ & _ & Q3 & _). destruct (slot (s_world s) (inst, rt, i)) as [id|] eqn:Es.
  2:{ destruct H as [_ Hs]. apply lends_same; assumption. }
  destruct (h_lend (elem_at (s_world s) id) =? 0)%Z eqn:El; destruct H as [_ Hs]; [|apply lends_same; assumption].
  unfold lends. rewrite Hs. destruct (key_dec _ k) as [<-|]; [|rewrite Q3; reflexivity]. rewrite Es. symmetry.
  apply count_occ_not_In. intros Hin. assert (Hlo : In id (loans (s_world s) calls)) by (apply in_flat_map; eauto).
  rewrite (v_lend _ _ _ HI id (v_live _ _ _ HI id (slot_live _ _ _ Es))) in El. apply (count_occ_In Nat.eq_dec) in Hlo. lia.
Qed.

Lemma drop_after : forall inst rt i s o s' o1 s1, canon_resource_drop inst rt i s = (o, s') -> handle_remove inst (rt_id rt) i s = (o1, s1) ->
  w_calls (s_world s') = w_calls (s_world s1) /\ w_insts (s_world s') = w_insts (s_world s1).
Proof.
  intros inst rt i s o s' o1 s1 E Er. unfold canon_resource_drop in E. unfold bind at 1 in E. rewrite Er in E.
  destruct o1 as [id|e| |]; try (injection E as <- <-; auto). unfold get_world in E. unfold bind at 1 in E. cbv beta iota in E.
  destruct (h_own _); cbn [negb] in E; [|unfold ret in E; injection E as <- <-; auto].
  repeat match type of E with context [match ?x with _ => _ end] => destruct x end;
    unfold ret, lift_o, put_world, get_world, bind in E; cbn in E; injection E as <- <-; auto.
Qed.
Lemma same_calls_lends : forall w w' k c, w_calls w' = w_calls w -> w_insts w' = w_insts w -> lends w' k c = lends w k c.
Proof.
  intros w w' k c Hc Hi. apply lends_same.
  - intros c'. unfold lenders_of. rewrite Hc. reflexivity.
  - intros [[i rt] x]. cbn. unfold inst_table. rewrite Hi. reflexivity.
Qed.

Lemma lends_step : forall insts s calls n o r s' c k, Inv (s_world s) calls n -> List.length (w_insts (s_world s)) = insts ->
  N.of_nat n < two32 -> proper insts calls o -> run o s = (r, s') -> In c (opened o r calls) ->
  lends (s_world s') k c = ((if in_dec Nat.eq_dec c calls then lends (s_world s) k c else 0) + (if borrowed c k (o, r) then 1 else 0))%nat.
Proof.
  intros insts s calls n o r s' c k HI <- Hn Hp E Hc.
  assert (Hold : In c calls -> (if in_dec Nat.eq_dec c calls then lends (s_world s) k c else 0%nat) = lends (s_world s) k c).
  { intros H. destruct (in_dec Nat.eq_dec c calls); [reflexivity|contradiction]. }
  destruct o; cbn [run proper] in *.
  - (* enter *)
    unfold bind at 1 in E. destruct (new_call opts inst s) as [o1 s1] eqn:En.
    destruct (enter_spec _ _ _ calls n _ _ HI En) as (w' & -> & -> & HI' & Ei & Ed & Ee & Hcc & Hlo).
    cbn [cx_id] in E. unfold ret in E. injection E as <- <-. cbn [s_world with_world borrowed opened] in *. rewrite Nat2N.id in Hc. rewrite Nat.add_0_r.
    rewrite (lends_same (s_world s) w'); [|exact Hlo|intros [[j rt] x]; cbn; unfold inst_table; rewrite Ei; reflexivity].
    destruct (in_dec Nat.eq_dec c calls) as [|Hno]; [reflexivity|]. destruct Hc as [<-|]; [|contradiction].
    unfold lends, lenders_of. rewrite (proj2 (nth_error_None _ _)) by lia. destruct (slot _ k); reflexivity.
  - (* exit *)
    unfold bind in E. destruct (exit_call call s) as [o1 s1] eqn:Ex.
    destruct (exit_spec _ _ calls n _ _ HI Hp Ex) as (w' & -> & [(-> & H0 & HI' & Ei & Ed & Ec & Hss)|(-> & H0 & ->)]).
    + unfold ret in E. injection E as <- <-. cbn [s_world with_world borrowed opened] in *. apply in_remove in Hc.
      rewrite Hold by tauto. rewrite Nat.add_0_r. apply same_calls_lends; assumption.
    + injection E as <- <-. cbn [s_world with_world borrowed opened] in *. rewrite Hold by exact Hc. lia.
  - (* new *)
    assert (Hc' : In c calls) by (destruct r; exact Hc). rewrite Hold by exact Hc'. cbn [borrowed]. rewrite Nat.add_0_r.
    eapply (lends_add inst (rt_id rt) (mkElem rep 0 true None)); try eassumption; try reflexivity. discriminate.
  - (* rep *)
    assert (Hc' : In c calls) by (destruct r; exact Hc). rewrite Hold by exact Hc'. cbn [borrowed]. rewrite Nat.add_0_r.
    unfold canon_resource_rep in E. unfold bind at 1 in E. destruct (handle_get inst (rt_id rt) i s) as [o1 s1] eqn:Eg.
    destruct (get_spec _ _ _ _ _ _ _ _ HI Hp Hn Eg) as [-> Ho]. destruct (touch_spec _ calls n inst (rt_id rt) HI Hp) as (_ & (_ & _ & Q3 & _) & _ & _ & T5).
    assert (Hs' : s' = with_world s (touch (s_world s) inst (rt_id rt))).
    { destruct o1; unfold bind, get_world, ret in E; injection E as _ E; symmetry; exact E. }
    rewrite Hs'. cbn [s_world with_world]. apply lends_same; assumption.
  - (* drop *)
    assert (Hc' : In c calls) by (destruct r; exact Hc). rewrite Hold by exact Hc'. cbn [borrowed]. rewrite Nat.add_0_r.
    unfold bind in E. destruct (canon_resource_drop inst rt i s) as [o1 s1] eqn:Ed.
    assert (Hs' : s' = s1) by (destruct o1; unfold ret in E; injection E as _ E; symmetry; exact E). subst s'.
    destruct (handle_remove inst (rt_id rt) i s) as [o2 s2] eqn:Er. destruct (drop_after _ _ _ _ _ _ _ _ Ed Er) as [D1 D2].
    rewrite (same_calls_lends (s_world s2)) by assumption. eapply lends_take; eassumption.
  - (* lift own *)
    assert (Hc' : In c calls) by (destruct r; exact Hc). rewrite Hold by exact Hc'. cbn [borrowed]. rewrite Nat.add_0_r.
    unfold lift_own in E. unfold bind at 1 in E. destruct Hp as [Hp _]. destruct (handle_remove (cx_inst cx) (rt_id rt) i s) as [o1 s1] eqn:Er.
    assert (Hs' : s' = s1) by (destruct o1; unfold bind, get_world, ret in E; injection E as _ E; symmetry; exact E). subst s'. eapply lends_take; eassumption.
  - (* lift borrow *)
    assert (Hc' : In c calls) by (destruct r; exact Hc). rewrite Hold by exact Hc'.
    unfold lift_borrow in E. unfold bind at 1 in E. destruct Hp as [Hp Hcx]. destruct (handle_get (cx_inst cx) (rt_id rt) i s) as [o1 s1] eqn:Eg.
    destruct (get_spec _ _ _ _ _ _ _ _ HI Hp Hn Eg) as [-> Ho]. destruct (touch_spec _ calls n (cx_inst cx) (rt_id rt) HI Hp) as (T1 & (_ & _ & Q3 & _) & T3 & _ & T5).
    set (w1 := touch (s_world s) (cx_inst cx) (rt_id rt)) in *.
    destruct (slot (s_world s) (cx_inst cx, rt_id rt, i)) as [id|] eqn:Es; rewrite Ho in E.
    2:{ injection E as <- <-. cbn [s_world with_world borrowed]. rewrite Nat.add_0_r. apply lends_same; assumption. }
    unfold bind at 1 in E. destruct (lift_borrow_from (cx_id cx) id (with_world s w1)) as [o2 s2] eqn:El.
    destruct (lift_borrow_from_spec (cx_id cx) id (with_world s w1) calls n o2 s2 T1 Hcx) as (w' & -> & -> & HI' & Ei & _ & _ & Hss & Hlo); [|exact El|].
    { cbn [s_world with_world]. eapply slot_live. rewrite T5. exact Es. }
    cbn [s_world with_world] in Ei, Hlo, E. unfold bind, get_world, ret in E. injection E as <- <-. cbn [s_world with_world borrowed].
    assert (Hsl : forall k, slot w' k = slot (s_world s) k) by (intros k'; rewrite <- T5; destruct k' as [[j rt'] x]; cbn; unfold inst_table; rewrite Ei; reflexivity).
    unfold lends. rewrite Hsl, Hlo, Q3. rewrite (Nat.eqb_sym c). destruct (Nat.eqb_spec (cx_id cx) c) as [Heq|Hne]; cbn [andb].
    2:{ destruct (slot _ k); lia. }
    destruct (key_dec _ k) as [<-|Hk].
    + rewrite Es, count_occ_app. cbn. destruct (Nat.eq_dec id id); [reflexivity|congruence].
    + destruct (slot (s_world s) k) as [x|] eqn:Ek; [|reflexivity]. rewrite count_occ_app. cbn. destruct (Nat.eq_dec id x) as [->|]; [|lia].
      exfalso. apply Hk. symmetry. eapply slot_unique; [apply (v_nodup _ _ _ HI)|exact Ek|exact Es].
  - (* lower own *)
    assert (Hc' : In c calls) by (destruct r; exact Hc). rewrite Hold by exact Hc'. cbn [borrowed]. rewrite Nat.add_0_r. destruct Hp as [Hp _].
    destruct v; try (unfold lower_own, lift_o in E; injection E as <- <-; reflexivity).
    eapply (lends_add (cx_inst cx) (rt_id rt) (mkElem n0 0 true None)); try eassumption; try reflexivity. discriminate.
  - (* lower borrow *)
    assert (Hc' : In c calls) by (destruct r; exact Hc). rewrite Hold by exact Hc'. cbn [borrowed]. rewrite Nat.add_0_r. destruct Hp as [Hp Hcx].
    destruct v; try (unfold lower_borrow, lift_o in E; injection E as <- <-; reflexivity).
    unfold lower_borrow in E. destruct (match rt_impl rt with Some impl => Nat.eqb (cx_inst cx) impl | None => false end).
    + unfold ret in E. injection E as <- <-. reflexivity.
    + eapply (lends_add (cx_inst cx) (rt_id rt) (mkElem n0 0 false (Some (cx_id cx)))); try eassumption; try reflexivity.
      intros c0 E0. injection E0 as <-. exact Hcx.
  - (* guards *)
    assert (Hc' : In c calls) by (destruct r; exact Hc). rewrite Hold by exact Hc'. cbn [borrowed]. rewrite Nat.add_0_r.
    unfold set_may_enter, set_may_leave, bind, get_world, put_world, ret in E. injection E as <- E2.
    assert (Eg : s_world s' = guard (s_world s) inst enter leave).
    { rewrite <- E2. cbn [s_world w_elems w_calls w_insts w_dtors].
      unfold guard, inst_at. cbn [w_insts]. rewrite !list_upd_nth_default. apply Nat.ltb_lt in Hp. rewrite Nat.eqb_refl, Hp. cbn [andb i_may_enter i_tables]. f_equal.
      clear. generalize (i_tables (nth inst (w_insts (s_world s)) default_inst)) as ts. generalize (i_may_leave (nth inst (w_insts (s_world s)) default_inst)). intros b ts.
      generalize (w_insts (s_world s)) as l. intros l. revert inst. induction l as [|x l IH]; intros [|inst]; cbn; try reflexivity. rewrite IH. reflexivity. }
    rewrite Eg. destruct (guard_facts (s_world s) inst enter leave Hp) as (G1 & _). apply lends_same; [reflexivity|].
    intros [[i rt] x]; cbn [slot]; rewrite G1; reflexivity.
Qed.

Lemma lends_history : forall insts ops rs s calls, history insts ops rs s calls -> N.of_nat (made ops) < two32 ->
  forall c k, In c calls -> lends (s_world s) k c = List.length (filter (borrowed c k) (combine ops rs)).
Proof.
  intros insts ops rs s calls H. induction H as [s He Hc Hd Hi Ht|ops rs s calls o r s' H IH Hp E]; intros Hn c k Hin; [destruct Hin|].
  rewrite made_app in Hn. destruct (history_inv _ _ _ _ _ H) as [HI Hlen]; [lia|].
  rewrite combine_snoc by (eapply history_lengths; exact H). rewrite filter_app, app_length.
  rewrite (lends_step insts s calls _ o r s' c k HI Hlen ltac:(lia) Hp E Hin).
  destruct (in_dec Nat.eq_dec c calls) as [Hc|Hno].
  - rewrite (IH ltac:(lia) c k Hc). cbn [filter]. destruct (borrowed c k (o, r)); reflexivity.
  - replace (filter (borrowed c k) (combine ops rs)) with (@nil (op * outcome N)).
    { cbn [filter]. destruct (borrowed c k (o, r)); reflexivity. }
    symmetry. destruct (filter (borrowed c k) (combine ops rs)) as [|[o0 r0] l] eqn:Ef; [reflexivity|exfalso].
    assert (Hf : In (o0, r0) (filter (borrowed c k) (combine ops rs))) by (rewrite Ef; left; reflexivity). apply filter_In in Hf. destruct Hf as [Hf Hb].
    apply borrowed_borrows in Hb. destruct (history_loaned _ _ _ _ _ H ltac:(lia) c k o0 r0 Hf Hb) as [Hlt _].
    destruct o; cbn [opened] in Hin; try (destruct r; exact (Hno Hin)).
    + destruct r; try exact (Hno Hin). destruct Hin as [<-|Hin]; [|exact (Hno Hin)].
      cbn [run] in E. unfold bind at 1 in E. destruct (new_call opts inst s) as [o1 s1] eqn:En.
      destruct (enter_spec _ _ _ calls _ _ _ HI En) as (w' & -> & -> & _). cbn [cx_id] in E. unfold ret in E. injection E as <- <-. lia.
    + destruct r; try exact (Hno Hin). apply in_remove in Hin. exact (Hno (proj1 Hin)).
Qed.

(** Counting by call. *)
Lemma count_calls : forall k calls evs, NoDup calls ->
  loans_out k calls evs = list_sum (map (fun c => List.length (filter (borrowed c k) evs)) calls).
Proof.
  intros k calls evs Hn. unfold loans_out. induction Hn as [|c calls Hc Hn IH]; cbn [existsb map list_sum fold_right].
  - induction evs; cbn; auto.
  - change (fold_right Nat.add 0%nat (map (fun c => List.length (filter (borrowed c k) evs)) calls)) with (list_sum (map (fun c => List.length (filter (borrowed c k) evs)) calls)).
    rewrite <- IH. clear IH. induction evs as [|e evs IH]; [reflexivity|]. cbn [filter].
    destruct (borrowed c k e) eqn:Eb; cbn [orb].
    + assert (Hno : existsb (fun c0 => borrowed c0 k e) calls = false).
      { destruct (existsb _ calls) eqn:Ex; [|reflexivity]. exfalso. apply existsb_exists in Ex. destruct Ex as (c' & Hc' & Eb').
        destruct e as [o r]. apply borrowed_borrows in Eb, Eb'. destruct o; try contradiction. destruct r; try contradiction. cbn in Eb, Eb'.
        apply Hc. destruct Eb as [<- _], Eb' as [<- _]. exact Hc'. }
      rewrite Hno. cbn [List.length]. rewrite IH. reflexivity.
    + destruct (existsb _ calls); cbn [List.length]; rewrite IH; lia.
Qed.
Lemma loans_sum : forall w k id calls, slot w k = Some id -> count_occ Nat.eq_dec (loans w calls) id = list_sum (map (lends w k) calls).
Proof.
  intros w k id calls Es. unfold loans. induction calls as [|c calls IH]; [reflexivity|].
  cbn [flat_map map list_sum fold_right]. rewrite count_occ_app, IH. unfold lends at 2. rewrite Es. reflexivity.
Qed.

Theorem lend_is_loans : forall insts ops rs s calls k id, history insts ops rs s calls -> N.of_nat (made ops) < two32 -> slot (s_world s) k = Some id ->
  h_lend (elem_at (s_world s) id) = Z.of_nat (loans_out k calls (combine ops rs)).
Proof.
  intros insts ops rs s calls k id H Hn Es. destruct (history_inv _ _ _ _ _ H Hn) as [HI _].
  rewrite (v_lend _ _ _ HI id (v_live _ _ _ HI id (slot_live _ _ _ Es))). f_equal.
  rewrite (loans_sum _ k id) by exact Es. rewrite count_calls by apply (v_open _ _ _ HI). f_equal.
  apply map_ext_in. intros c Hc. eapply lends_history; eassumption.
Qed.
