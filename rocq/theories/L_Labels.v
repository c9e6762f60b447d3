(** Case labels: splitting keys, matching them back, refinement chains. *)
From Coq Require Import NArith ZArith List String Bool Ascii Lia ZifyBool ZifyNat ZifyN.
From Verif Require Import GoBase M_Types M_Layout S_Layout L_Layout M_State M_Utf M_Load M_Store M_Flat
  S_Values L_Variant.
Import ListNotations.
Open Scope N_scope.
Open Scope go_scope.

(** ** Splitting *)
Lemma split_bar_free : forall s, bar_free s -> split_bar s = (s, []).
Proof.
  induction s as [|c s IH]; intros H; cbn; [reflexivity|]. destruct H as [Hc H].
  rewrite IH by assumption. destruct (Ascii.eqb_spec c "|"); [contradiction|reflexivity].
Qed.

Lemma split_bar_app : forall l s, bar_free l ->
  split_bar (l ++ "|" ++ s) = (l, fst (split_bar s) :: snd (split_bar s)).
Proof.
  induction l as [|c l IH]; intros s H; cbn.
  - destruct (split_bar s); reflexivity.
  - destruct H as [Hc H]. cbn in IH. rewrite IH by assumption.
    destruct (Ascii.eqb_spec c "|"); [contradiction|reflexivity].
Qed.

Lemma split_bar_concat : forall ls l, Forall bar_free (l :: ls) ->
  split_bar (String.concat "|" (l :: ls)) = (l, ls).
Proof.
  induction ls as [|l' ls IH]; intros l H; inversion H; subst.
  - cbn. apply split_bar_free; assumption.
  - change (String.concat "|" (l :: l' :: ls)) with (l ++ "|" ++ String.concat "|" (l' :: ls))%string.
    rewrite split_bar_app by assumption. rewrite IH by assumption. reflexivity.
Qed.

(** ** Looking labels up *)
Lemma label_index_none : forall {A} (cs : list (caseOf A)) i l acc,
  ~ In l (map c_label cs) -> label_index cs i l acc = acc.
Proof.
  induction cs as [|c cs IH]; intros i l acc H; cbn; [reflexivity|].
  cbn in H. destruct (String.eqb_spec (c_label c) l); [tauto|]. apply IH. tauto.
Qed.

Lemma label_index_some : forall {A} (cs : list (caseOf A)) i l acc j,
  NoDup (map c_label cs) -> nth_error (map c_label cs) j = Some l ->
  label_index cs i l acc = Some (i + N.of_nat j).
Proof.
  induction cs as [|c cs IH]; intros i l acc j Hn Hj; [destruct j; discriminate|].
  cbn in *. inversion Hn; subst. destruct j as [|j]; cbn in Hj.
  - inversion Hj; subst. rewrite String.eqb_refl. rewrite label_index_none by assumption. f_equal. lia.
  - destruct (String.eqb_spec (c_label c) l).
    + subst. apply nth_error_In in Hj. contradiction.
    + rewrite (IH _ _ _ j) by assumption. f_equal. lia.
Qed.

Lemma match_labels_selects : forall {A} (cs : list (caseOf A)) before l after i,
  NoDup (map c_label cs) -> Forall (fun x => ~ In x (map c_label cs)) before ->
  nth_error (map c_label cs) i = Some l -> N.of_nat (List.length cs) < two32 ->
  match_labels cs (before ++ l :: after) = Ok (N.of_nat i).
Proof.
  intros A cs before l after i Hn Hb Hi Hlen. induction before as [|b before IH]; cbn.
  - rewrite (label_index_some cs 0 l None i) by assumption. rewrite N.add_0_l.
    assert (i < List.length cs)%nat.
    { rewrite <- (map_length c_label). apply nth_error_Some. congruence. }
    rewrite u32_small by lia. reflexivity.
  - inversion Hb; subst. rewrite label_index_none by assumption. auto.
Qed.

Lemma match_case_selects : forall {A} (cs : list (caseOf A)) key p i,
  NoDup (map c_label cs) -> N.of_nat (List.length cs) < two32 ->
  selects (map c_label cs) key i -> match_case (VMap [(key, p)]) cs = Ok (N.of_nat i, p).
Proof.
  intros A cs key p i Hn Hlen (before & l & after & -> & Hf & Hb & Hi). cbn [match_case].
  assert (E : exists h t, (before ++ l :: after)%list = h :: t) by (destruct before; cbn; eauto).
  destruct E as (h & t & E). rewrite E in Hf |- *. rewrite split_bar_concat by assumption.
  rewrite <- E. rewrite (match_labels_selects _ _ _ _ i) by assumption. reflexivity.
Qed.

(** ** Refinement chains *)
Lemma find_case_find : forall {A} (cs : list (caseOf A)) r,
  find_case cs r = find (fun c => String.eqb (c_label c) r) cs.
Proof. induction cs as [|c cs IH]; intros r; cbn; [reflexivity|]. rewrite IH. reflexivity. Qed.

Lemma label_loop_refined : forall {A} fuel (cs : list (caseOf A)) c label,
  label_loop (S fuel) cs c label
  = match refined cs c with
    | None => Ok label
    | Some c' => label_loop fuel cs c' (label ++ "|" ++ c_label c')
    end.
Proof.
  intros. cbn. unfold refined. destruct (c_refines c); [|reflexivity].
  rewrite find_case_find. destruct (find _ cs); reflexivity.
Qed.

(** [k] refinement steps from [c]. *)
Fixpoint chain {A} (cs : list (caseOf A)) (k : nat) (c : caseOf A) : option (caseOf A) :=
  match k with
  | O => Some c
  | S k' => match refined cs c with None => None | Some c' => chain cs k' c' end
  end.

Lemma chain_add : forall {A} (cs : list (caseOf A)) j k c,
  chain cs (j + k) c = match chain cs j c with None => None | Some c' => chain cs k c' end.
Proof.
  induction j as [|j IH]; intros k c; cbn; [reflexivity|]. destruct (refined cs c); auto.
Qed.

Lemma label_loop_ends : forall {A} fuel (cs : list (caseOf A)) c label,
  (chain cs fuel c = None -> exists l, label_loop fuel cs c label = Ok l) /\
  (chain cs fuel c <> None -> label_loop fuel cs c label = Diverge).
Proof.
  induction fuel as [|fuel IH]; intros cs c label.
  - cbn. split; [discriminate|reflexivity].
  - rewrite label_loop_refined. cbn [chain]. destruct (refined cs c) as [c'|].
    + apply IH.
    + split; [eauto|congruence].
Qed.

Lemma refines_end_chain : forall {A} (cs : list (caseOf A)) c,
  refines_end cs c <-> exists k, chain cs k c = None.
Proof.
  intros A cs c. split.
  - induction 1 as [c H|c c' H _ [k IH]].
    + exists 1%nat. cbn. rewrite H. reflexivity.
    + exists (S k). cbn. rewrite H. assumption.
  - intros [k H]. revert c H. induction k as [|k IH]; intros c H; [discriminate|].
    cbn in H. destruct (refined cs c) as [c'|] eqn:E.
    + eapply re_step; eauto.
    + apply re_stop; assumption.
Qed.

Lemma refined_in : forall {A} (cs : list (caseOf A)) c c', refined cs c = Some c' -> In c' cs.
Proof.
  intros A cs c c' H. unfold refined in H. destruct (c_refines c); [|discriminate].
  apply find_some in H. tauto.
Qed.

(** A chain that ends visits no case twice, so it ends after at most one more
    step than there are cases. *)
Definition least_end {A} (cs : list (caseOf A)) c k :=
  chain cs k c = None /\ forall j, (j < k)%nat -> chain cs j c <> None.

Lemma least_end_exists : forall {A} (cs : list (caseOf A)) c k,
  chain cs k c = None -> exists k', least_end cs c k'.
Proof.
  intros A cs c k. induction k as [k IH] using (well_founded_induction lt_wf). intros H.
  destruct (in_dec Nat.eq_dec 0%nat (filter (fun j => match chain cs j c with None => true | _ => false end) (seq 0 k))) as [I|I].
  - apply filter_In in I. cbn in I. destruct I as [_ I]. discriminate.
  - clear I. destruct (filter (fun j => match chain cs j c with None => true | _ => false end) (seq 0 k)) as [|j js] eqn:E.
    + exists k. split; [assumption|]. intros j Hj Hc.
      assert (In j []) as []. rewrite <- E. apply filter_In. split; [apply in_seq; lia|]. rewrite Hc. reflexivity.
    + assert (In j (j :: js)) as I by (left; reflexivity). rewrite <- E in I. apply filter_In in I.
      destruct I as [I1 I2]. apply in_seq in I1. apply (IH j); [lia|]. destruct (chain cs j c); [discriminate|reflexivity].
Qed.

Lemma chain_in : forall {A} (cs : list (caseOf A)) k c c',
  chain cs (S k) c = Some c' -> In c' cs.
Proof.
  intros A cs k. induction k as [|k IH]; intros c c' H; cbn in H.
  - destruct (refined cs c) eqn:E; [|discriminate]. inversion H; subst. eapply refined_in; eassumption.
  - destruct (refined cs c) eqn:E; [|discriminate]. apply (IH c0). exact H.
Qed.

Fixpoint visited {A} (cs : list (caseOf A)) (k : nat) (c : caseOf A) : list (caseOf A) :=
  match k with
  | O => []
  | S k' => match refined cs c with None => [] | Some c' => c' :: visited cs k' c' end
  end.

Lemma visited_length : forall {A} (cs : list (caseOf A)) k c,
  chain cs k c <> None -> List.length (visited cs k c) = k.
Proof.
  induction k as [|k IH]; intros c H; cbn in *; [reflexivity|].
  destruct (refined cs c); [|congruence]. cbn. rewrite IH by assumption. reflexivity.
Qed.

Lemma visited_in : forall {A} (cs : list (caseOf A)) k c x, In x (visited cs k c) ->
  In x cs /\ exists j, (0 < j <= k)%nat /\ chain cs j c = Some x.
Proof.
  induction k as [|k IH]; intros c x H; cbn in H; [contradiction|].
  destruct (refined cs c) as [c'|] eqn:E; [|contradiction].
  destruct H as [->|H].
  - split; [eapply refined_in; eassumption|]. exists 1%nat. split; [lia|]. cbn. rewrite E. reflexivity.
  - destruct (IH c' x H) as (Hin & j & Hj & Hc). split; [assumption|].
    exists (S j). split; [lia|]. cbn. rewrite E. assumption.
Qed.

Lemma visited_nodup : forall {A} (cs : list (caseOf A)) k c k',
  least_end cs c k' -> (k < k')%nat -> NoDup (visited cs k c).
Proof.
  induction k as [|k IH]; intros c k' He Hk; cbn; [constructor|].
  destruct (refined cs c) as [c'|] eqn:E; [|constructor].
  assert (He' : least_end cs c' (pred k')).
  { destruct He as [H1 H2]. destruct k' as [|k']; [lia|]. cbn in *. rewrite E in H1. split; [assumption|].
    intros j Hj. specialize (H2 (S j)). cbn in H2. rewrite E in H2. apply H2. lia. }
  constructor.
  - intros I. apply visited_in in I. destruct I as (_ & j & Hj & Hc).
    destruct He' as [H1 H2]. replace (pred k') with (j + (pred k' - j))%nat in H1 by lia.
    rewrite chain_add, Hc in H1. apply (H2 (pred k' - j)%nat); [lia|assumption].
  - apply (IH c' (pred k')); [assumption|lia].
Qed.

Lemma least_end_bound : forall {A} (cs : list (caseOf A)) c k,
  least_end cs c k -> (k <= S (List.length cs))%nat.
Proof.
  intros A cs c k He. destruct k as [|k]; [lia|].
  assert (Hc : chain cs k c <> None) by (apply He; lia).
  rewrite <- (visited_length cs k c Hc). apply le_n_S.
  apply NoDup_incl_length.
  - eapply visited_nodup; [exact He|lia].
  - intros x Hx. apply visited_in in Hx. tauto.
Qed.

Lemma chain_mono : forall {A} (cs : list (caseOf A)) c j k, (j <= k)%nat ->
  chain cs j c = None -> chain cs k c = None.
Proof.
  intros A cs c j k Hjk H. replace k with (j + (k - j))%nat by lia. rewrite chain_add, H. reflexivity.
Qed.

(** The fuel used by [case_label] is enough: it only fails to return when the
    chain never ends, and then no amount of fuel helps. *)
Lemma case_label_ends : forall {A} (cs : list (caseOf A)) c,
  refines_end cs c -> exists l, case_label c cs = Ok l.
Proof.
  intros A cs c H. apply refines_end_chain in H. destruct H as [k H].
  destruct (least_end_exists cs c k H) as [k' He]. pose proof (least_end_bound cs c k' He).
  apply label_loop_ends. apply (chain_mono cs c k'); [lia|apply He].
Qed.

Lemma label_loop_diverges : forall {A} (cs : list (caseOf A)) c,
  ~ refines_end cs c -> forall fuel label, label_loop fuel cs c label = Diverge.
Proof.
  intros A cs c H fuel label. apply label_loop_ends. intros E. apply H. apply refines_end_chain. eauto.
Qed.

Lemma label_loop_fuel : forall {A} (cs : list (caseOf A)) c,
  case_label c cs = Diverge -> forall fuel label, label_loop fuel cs c label = Diverge.
Proof.
  intros A cs c H. apply label_loop_diverges. intros E. apply case_label_ends in E.
  destruct E as [l E]. congruence.
Qed.

(** The label starts with the label of the case itself. *)
Lemma concat_app_bar : forall ls l0 l,
  (String.concat "|" (l0 :: ls) ++ "|" ++ l)%string = String.concat "|" (l0 :: ls ++ [l]).
Proof.
  induction ls as [|x ls IH]; intros l0 l; [reflexivity|].
  change (String.concat "|" (l0 :: x :: ls)) with (l0 ++ "|" ++ String.concat "|" (x :: ls))%string.
  change (String.concat "|" (l0 :: (x :: ls) ++ [l]))
    with (l0 ++ "|" ++ String.concat "|" (x :: ls ++ [l]))%string.
  rewrite <- IH.
  assert (App : forall a b c : string, ((a ++ b) ++ c = a ++ b ++ c)%string).
  { induction a as [|ch a IHa]; intros b c; cbn; [reflexivity|]. rewrite IHa. reflexivity. }
  rewrite App. reflexivity.
Qed.

Lemma label_loop_shape : forall {A} fuel (cs : list (caseOf A)) c l0 ls l,
  label_loop fuel cs c (String.concat "|" (l0 :: ls)) = Ok l ->
  exists more, l = String.concat "|" (l0 :: ls ++ more) /\ incl more (map c_label cs).
Proof.
  induction fuel as [|fuel IH]; intros cs c l0 ls l H; [discriminate|].
  rewrite label_loop_refined in H. destruct (refined cs c) as [c'|] eqn:E.
  - rewrite concat_app_bar in H. apply IH in H. destruct H as (more & -> & Hi).
    exists (c_label c' :: more). split; [rewrite <- app_assoc; reflexivity|].
    intros x [<-|Hx]; [|auto]. apply in_map. eapply refined_in; eassumption.
  - inversion H; subst. exists []. split; [rewrite app_nil_r; reflexivity|]. intros x [].
Qed.

Lemma case_label_selects : forall {A} (cs : list (caseOf A)) c l i,
  Forall (fun c => bar_free (c_label c)) cs -> nth_error cs i = Some c ->
  case_label c cs = Ok l -> selects (map c_label cs) l i.
Proof.
  intros A cs c l i Hb Hi H. unfold case_label in H.
  apply (label_loop_shape _ cs c (c_label c) []) in H. destruct H as (more & -> & Hm).
  rewrite Forall_forall in Hb.
  exists [], (c_label c), more. cbn. repeat split.
  - constructor; [apply Hb; eapply nth_error_In; eassumption|].
    apply Forall_forall. intros x Hx. apply Hm in Hx. apply in_map_iff in Hx.
    destruct Hx as (c' & <- & Hc'). auto.
  - constructor.
  - rewrite nth_error_map, Hi. reflexivity.
Qed.

(** A key selects at most one case. *)
Lemma selects_fun : forall labels key i j, NoDup labels ->
  selects labels key i -> selects labels key j -> i = j.
Proof.
  intros labels key i j Hn Hi Hj.
  pose (cs := map (fun l => mkCase (T := unit) l None None) labels).
  assert (E : map c_label cs = labels).
  { unfold cs. rewrite map_map. apply map_id. }
  destruct Hi as (b & l & a & Hk & Hf & Hb & Hl). destruct Hj as (b' & l' & a' & Hk' & Hf' & Hb' & Hl').
  assert (S1 : (b ++ l :: a)%list = (b' ++ l' :: a')%list).
  { assert (X : forall ls1 ls2, ls1 <> [] -> ls2 <> [] -> Forall bar_free ls1 -> Forall bar_free ls2 ->
      String.concat "|" ls1 = String.concat "|" ls2 -> ls1 = ls2).
    { intros [|x1 ls1] [|x2 ls2] N1 N2 F1 F2 E'; try congruence.
      pose proof (split_bar_concat ls1 x1 F1) as P1. pose proof (split_bar_concat ls2 x2 F2) as P2.
      rewrite E' in P1. rewrite P1 in P2. inversion P2; reflexivity. }
    apply X; try assumption; [destruct b; discriminate|destruct b'; discriminate|congruence]. }
  assert (S2 : l = l').
  { clear - S1 Hb Hb' Hl Hl'. apply nth_error_In in Hl. apply nth_error_In in Hl'.
    revert b' S1 Hb'. induction b as [|x b IH]; intros b' S1 Hb'; destruct b' as [|x' b']; cbn in S1;
      inversion S1; subst; auto.
    - inversion Hb'; subst. contradiction.
    - inversion Hb; subst. contradiction.
    - inversion Hb; inversion Hb'; subst. eauto. }
  subst l'. rewrite NoDup_nth_error in Hn. apply Hn; [|congruence].
  apply nth_error_Some. congruence.
Qed.

(** ** Decimal labels *)
Lemma digit_bar_free : forall d, d < 10 -> digit_ascii d <> "|"%char.
Proof.
  intros d H. unfold digit_ascii. intros E.
  apply (f_equal N_of_ascii) in E. rewrite N_ascii_embedding in E by lia. cbn in E. lia.
Qed.

Lemma itoa_aux_bar_free : forall fuel n acc, bar_free acc -> bar_free (itoa_aux fuel n acc).
Proof.
  induction fuel as [|fuel IH]; intros n acc H; cbn [itoa_aux]; [assumption|].
  assert (bar_free (String (digit_ascii (n mod 10)) acc)).
  { split; [apply digit_bar_free; apply N.mod_lt; lia|assumption]. }
  destruct (n / 10 =? 0); auto.
Qed.

Lemma itoa_bar_free : forall n, bar_free (itoa n).
Proof. intros. apply itoa_aux_bar_free. exact I. Qed.

(** The number a string of digits denotes, on top of [acc]. *)
Fixpoint digits_value (s : string) (acc : N) : N :=
  match s with
  | EmptyString => acc
  | String c s' => digits_value s' (10 * acc + (N_of_ascii c - 48))
  end.

Lemma digits_value_digit : forall d s acc, d < 10 ->
  digits_value (String (digit_ascii d) s) acc = digits_value s (10 * acc + d).
Proof.
  intros. cbn [digits_value]. unfold digit_ascii. rewrite N_ascii_embedding by lia. f_equal. lia.
Qed.

Lemma itoa_aux_value : forall fuel n acc, n < 2 ^ N.of_nat fuel ->
  digits_value (itoa_aux fuel n acc) 0 = digits_value acc n.
Proof.
  induction fuel as [|fuel IH]; intros n acc H; cbn [itoa_aux].
  - replace n with 0 by (cbn in H; lia). reflexivity.
  - assert (Hn : n = 10 * (n / 10) + n mod 10) by (apply N.div_mod; lia).
    assert (Hm : n mod 10 < 10) by (apply N.mod_lt; lia).
    destruct (N.eqb_spec (n / 10) 0) as [E|E].
    + rewrite digits_value_digit by assumption. f_equal. lia.
    + rewrite IH.
      * rewrite digits_value_digit by assumption. f_equal. lia.
      * replace (N.of_nat (S fuel)) with (N.succ (N.of_nat fuel)) in H by lia.
        rewrite N.pow_succ_r' in H. lia.
Qed.

Lemma itoa_value : forall n, digits_value (itoa n) 0 = n.
Proof.
  intros n. unfold itoa. rewrite itoa_aux_value; [reflexivity|].
  destruct (N.eq_dec n 0) as [->|Hn]; [cbn; lia|].
  replace (N.of_nat (S (N.to_nat (N.log2 n)))) with (N.succ (N.log2 n)) by lia.
  apply N.log2_spec. lia.
Qed.

Lemma itoa_inj : forall n m, itoa n = itoa m -> n = m.
Proof. intros n m H. rewrite <- (itoa_value n), <- (itoa_value m), H. reflexivity. Qed.
