(** Store and LowerFlat succeed only for values of the right dynamic types. *)
From Coq Require Import NArith ZArith List String Bool Ascii Lia ZifyBool ZifyNat ZifyN.
From Verif Require Import GoBase M_Types M_Layout S_Layout L_Layout M_State M_Utf M_Load M_Store M_Flat
  S_Values S_Flat S_Accept S_Memory L_Access L_Despecialize L_Flat L_Variant L_Labels L_Lifted L_Mem.
Import ListNotations.
Open Scope N_scope.
Open Scope go_scope.

(** The action succeeds only if [P]. *)
Definition needs {A} (m : M A) (P : Prop) : Prop := forall s a s', m s = (Ok a, s') -> P.

Lemma needs_bind : forall {A B} (m : M A) (f : A -> M B) (P : Prop),
  (needs m P) -> needs (bind m f) P.
Proof. intros A B m f P H s b s' E. apply bind_inv in E. destruct E as (a & s1 & E & _). eapply H; eassumption. Qed.

Lemma needs_then : forall {A B} (m : M A) (f : A -> M B) (P : Prop),
  (forall a, (exists s s', m s = (Ok a, s')) -> needs (f a) P) -> needs (bind m f) P.
Proof.
  intros A B m f P H s b s' E. apply bind_inv in E. destruct E as (a & s1 & E & E2).
  eapply (H a); [exists s, s1; exact E|exact E2].
Qed.

Lemma needs_lift : forall {A} (o : outcome A) (P : Prop), (forall a, o = Ok a -> P) -> needs (lift_o o) P.
Proof. intros A o P H s a s' E. unfold lift_o in E. injection E as E1 _. eapply H; exact E1. Qed.

Lemma lift_ok_inv : forall {A} (o : outcome A) a, (exists s s', lift_o o s = (Ok a, s')) -> o = Ok a.
Proof. intros A o a (s & s' & E). unfold lift_o in E. injection E as E _. exact E. Qed.

(** ** Keys *)
Lemma split_bar_spec : forall s h t, split_bar s = (h, t) ->
  s = String.concat "|" (h :: t) /\ Forall bar_free (h :: t).
Proof.
  induction s as [|c s IH]; intros h t E; cbn in E.
  - injection E as <- <-. split; [reflexivity|]. repeat constructor.
  - destruct (split_bar s) as [h' t'] eqn:Es. destruct (IH _ _ eq_refl) as [-> F]. clear IH.
    inversion F; subst. destruct (Ascii.eqb_spec c "|").
    + injection E as <- <-. subst. split; [reflexivity|]. constructor; [exact I|]. constructor; assumption.
    + injection E as <- <-. split; [destruct t'; reflexivity|]. constructor; [cbn; auto|assumption].
Qed.

Lemma label_index_inv : forall {A} (cs : list (caseOf A)) i l acc,
  (label_index cs i l acc = acc /\ ~ In l (map c_label cs)) \/
  exists j, label_index cs i l acc = Some (i + N.of_nat j) /\ nth_error (map c_label cs) j = Some l.
Proof.
  induction cs as [|c cs IH]; intros i l acc; cbn; [left; split; [reflexivity|intros []]|].
  destruct (String.eqb_spec (c_label c) l) as [e|n].
  - right. destruct (IH (i + 1) l (Some i)) as [[E _]|(j & E & Hj)].
    + exists 0%nat. rewrite E. cbn. rewrite e. split; [f_equal; lia|reflexivity].
    + exists (S j). rewrite E. split; [f_equal; lia|exact Hj].
  - destruct (IH (i + 1) l acc) as [[E Hn]|(j & E & Hj)].
    + left. rewrite E. split; [reflexivity|]. intros [X|X]; auto.
    + right. exists (S j). rewrite E. split; [f_equal; lia|exact Hj].
Qed.

Lemma match_labels_inv : forall {A} (cs : list (caseOf A)) ls n, N.of_nat (List.length cs) <= 2 ^ 32 ->
  match_labels cs ls = Ok n ->
  exists before l after i, ls = (before ++ l :: after)%list /\ n = N.of_nat i /\
    Forall (fun x => ~ In x (map c_label cs)) before /\ nth_error (map c_label cs) i = Some l.
Proof.
  intros A cs ls n Hlen. induction ls as [|l ls IH]; cbn; [discriminate|].
  destruct (label_index_inv cs 0 l None) as [[E Hn]|(j & E & Hj)]; rewrite E.
  - intros H. destruct (IH H) as (before & l' & after & i & -> & ? & ? & ?).
    exists (l :: before), l', after, i. repeat split; auto.
  - intros H. injection H as <-. exists [], l, ls, j. repeat split; auto.
    assert (j < List.length cs)%nat by (rewrite <- (map_length c_label); apply nth_error_Some; congruence).
    rewrite N.add_0_l. unfold u32, two32. rewrite N.mod_small by lia. reflexivity.
Qed.

Lemma match_case_inv : forall {A} (cs : list (caseOf A)) v n x, N.of_nat (List.length cs) <= 2 ^ 32 ->
  match_case v cs = Ok (n, x) ->
  exists key i, v = VMap [(key, x)] /\ n = N.of_nat i /\ selects (map c_label cs) key i.
Proof.
  intros A cs v n x Hlen E. destruct v; try discriminate.
  match goal with m : list (string * any) |- _ => rename m into m0 end. destruct m0 as [|[key y] [|? ?]]; try discriminate. cbn [match_case] in E.
  destruct (split_bar key) as [h t] eqn:Es. apply split_bar_spec in Es. destruct Es as [-> F].
  destruct (match_labels cs (h :: t)) as [k| | | ] eqn:Em; try discriminate. cbn in E. injection E as -> ->.
  apply match_labels_inv in Em; [|exact Hlen]. destruct Em as (b & l & a & i & E & -> & Hb & Hi).
  exists (String.concat "|" (h :: t)), i. split; [reflexivity|]. split; [reflexivity|].
  exists b, l, a. rewrite <- E. auto.
Qed.

(** ** Numbers *)
Lemma int_accepts : forall v nb sg, forall p, 
  needs (store_int v p nb sg) (if sg then go_signed v else ~ go_signed v /\ ~ go_int v).
Proof.
  intros v nb sg p. unfold store_int. apply needs_then. intros i Hi. apply lift_ok_inv in Hi.
  apply needs_bind. apply needs_lift. intros u Hc. unfold int_check in Hc.
  destruct (Bool.eqb (n_sign i) sg) eqn:Es; [|discriminate]. apply Bool.eqb_prop in Es. subst sg. clear Hc.
  unfold go_signed, go_int.
  destruct v; cbn in Hi; try discriminate; injection Hi as <-; cbn [n_sign];
    try (split; [intros (zz & [X|[X|[X|X]]]); discriminate|intros (zz & nn & [X|X]); discriminate]);
    eexists; eauto.
Qed.

(** ** Flags *)
Lemma flags_accept : forall m ls shift acc n, pack_flags m ls shift acc = Ok n ->
  Forall (fun l => exists b, match map_get m l with Some x => x | None => VNil end = VBool b) ls.
Proof.
  induction ls as [|l ls IH]; intros shift acc n E; constructor; cbn in E; unfold map_any in E;
    destruct (match map_get m l with Some v => v | None => VNil end) eqn:Ev; try discriminate; eauto.
Qed.

Lemma flags_shaped : forall m ls shift acc n, pack_flags m ls shift acc = Ok n ->
  rec_shaped (map (fun l => (l, fun x => exists b, x = VBool b)) ls) (VMap m).
Proof.
  intros m ls shift acc n E. exists m. split; [reflexivity|]. apply flags_accept in E. rewrite Forall_map. exact E.
Qed.

Lemma shaped_despecialize : forall nums t v, shaped nums (despecialize t) v <-> shaped nums t v.
Proof.
  intros nums t. destruct t; intros v; try reflexivity; cbn [despecialize shaped].
  - rewrite (map_itoa_fields (shaped nums)). reflexivity.
  - rewrite map_enum_cases. reflexivity.
  - rewrite map_itoa_cases. reflexivity.
Qed.

(** ** Compound values *)
Lemma elems_accept : forall (st : any -> N -> M unit) (P : any -> Prop) vs ptr sz i,
  (forall v p, needs (st v p) (P v)) -> needs (store_elems vs st ptr sz i) (Forall P vs).
Proof.
  intros st P vs ptr sz i H. revert i. induction vs as [|v vs IH]; intros i; [intros s a s' _; constructor|].
  cbn [store_elems]. intros s b s' E. apply bind_inv in E. destruct E as (u & s1 & E1 & E2).
  constructor; [eapply H; exact E1|eapply IH; exact E2].
Qed.

Lemma list_accepts : forall cx al sz (st : any -> N -> M unit) (P : any -> Prop) v,
  (forall v p, needs (st v p) (P v)) ->
  needs (store_list_into_range cx al sz st v) (exists l, v = VList l /\ Forall P l).
Proof.
  intros cx al sz st P v H. destruct v; try (apply needs_lift; discriminate). cbn [store_list_into_range].
  apply needs_then. intros n _. destruct (_ <=? _)%Z; [apply needs_lift; discriminate|].
  apply needs_then. intros a _. apply needs_then. intros p _. apply needs_then. intros u _.
  apply needs_then. intros u' _. apply needs_bind.
  intros s b s' E. eexists. split; [reflexivity|]. eapply elems_accept; eassumption.
Qed.

Lemma fields_accept : forall (mk : valtype -> comp (any -> N -> M unit)) (P : valtype -> any -> Prop) fs m ptr,
  Forall (fun f => forall v p, needs (q_op (mk (snd f)) v p) (P (snd f) v)) fs ->
  needs (store_fields (map (fun f => (fst f, mk (snd f))) fs) m ptr)
    (Forall (fun f : string * valtype => P (snd f) (match map_get m (fst f) with Some x => x | None => VNil end)) fs).
Proof.
  intros mk P fs m ptr H. revert ptr. induction H as [|[l t] fs Hf _ IH]; intros ptr; [intros s a s' _; constructor|].
  cbn [map store_fields fst snd]. apply needs_then. intros a _. apply needs_then. intros p _.
  intros s b s' E. apply bind_inv in E. destruct E as (u & s1 & E1 & E2). apply bind_inv in E2. destruct E2 as (n & s2 & _ & E2).
  constructor; [eapply Hf; exact E1|eapply IH; exact E2].
Qed.

Lemma lower_fields_accept : forall (mk : valtype -> any -> M (list cval)) (P : valtype -> any -> Prop) fs m,
  Forall (fun f => forall v, needs (mk (snd f) v) (P (snd f) v)) fs ->
  needs (lower_fields (map (fun f => (fst f, mk (snd f))) fs) m)
    (Forall (fun f : string * valtype => P (snd f) (match map_get m (fst f) with Some x => x | None => VNil end)) fs).
Proof.
  intros mk P fs m H. induction H as [|[l t] fs Hf _ IH]; [intros s a s' _; constructor|].
  cbn [map lower_fields fst snd].
  intros s b s' E. apply bind_inv in E. destruct E as (u & s1 & E1 & E2). apply bind_inv in E2. destruct E2 as (n & s2 & E2 & _).
  constructor; [eapply Hf; exact E1|eapply IH; exact E2].
Qed.

Lemma variant_shaped : forall {A} (f : A -> any -> Prop) (cs : list (caseOf A)) key i c x,
  selects (map c_label cs) key i -> nth_error cs i = Some c ->
  match c_type c with Some y => f y x | None => True end ->
  var_shaped (map (map_case f) cs) (VMap [(key, x)]).
Proof.
  intros A f cs key i c x Hs Hn Hx. exists key, x, i, (map_case f c). split; [reflexivity|].
  rewrite map_case_label. split; [exact Hs|]. split; [apply map_nth_error; exact Hn|].
  destruct c as [l [y|] r]; exact Hx.
Qed.

Lemma store_variant_accepts : forall (mk : valtype -> comp (any -> N -> M unit)) (P : valtype -> any -> Prop) cs v ptr,
  Forall (fun c => opt_all (fun t => forall v p, needs (q_op (mk t) v p) (P t v)) (c_type c)) cs ->
  needs (store_variant (map (map_case mk) cs) v ptr) (var_shaped (map (map_case P) cs) v).
Proof.
  intros mk P cs v ptr H. unfold store_variant. apply needs_then. intros [i x] Hm. apply lift_ok_inv in Hm.
  apply needs_then. intros dt Hd. apply lift_ok_inv in Hd. apply discriminant_range in Hd.
  apply match_case_inv in Hm; [|lia]. destruct Hm as (key & j & -> & -> & Hs). rewrite map_case_label in Hs.
  apply needs_then. intros u _. apply needs_then. intros a _. apply needs_then. intros p _.
  rewrite Nnat.Nat2N.id, nth_error_map. destruct (nth_error cs j) as [c|] eqn:Ec; cbn [option_map]; [|apply needs_lift; discriminate].
  intros s b s' E. eapply variant_shaped; [exact Hs|exact Ec|].
  rewrite Forall_forall in H. specialize (H c (nth_error_In _ _ Ec)).
  destruct c as [l [t|] r]; cbn [map_case c_type] in *; [|exact I]. eapply H. exact E.
Qed.

Lemma lower_variant_accepts : forall flat (mk : valtype -> any -> M (list cval)) (P : valtype -> any -> Prop) cs v,
  (forall ks, flat = Ok ks -> N.of_nat (List.length cs) <= 2 ^ 32) ->
  Forall (fun c => opt_all (fun t => forall v, needs (mk t v) (P t v)) (c_type c)) cs ->
  needs (lower_flat_variant flat (map (map_case mk) cs) v) (var_shaped (map (map_case P) cs) v).
Proof.
  intros flat mk P cs v Hf H. unfold lower_flat_variant. apply needs_then. intros [i x] Hm. apply lift_ok_inv in Hm.
  apply needs_then. intros ft Hd. apply lift_ok_inv in Hd. apply Hf in Hd.
  apply match_case_inv in Hm; [|rewrite map_length; exact Hd]. destruct Hm as (key & j & -> & -> & Hs). rewrite map_case_label in Hs.
  destruct ft as [|first rest]; [apply needs_lift; discriminate|].
  destruct (negb _); [apply needs_lift; discriminate|].
  rewrite Nnat.Nat2N.id, nth_error_map. destruct (nth_error cs j) as [c|] eqn:Ec; cbn [option_map]; [|apply needs_lift; discriminate].
  apply needs_bind.
  intros s b s' E. eapply variant_shaped; [exact Hs|exact Ec|].
  rewrite Forall_forall in H. specialize (H c (nth_error_In _ _ Ec)).
  destruct c as [l [t|] r]; cbn [map_case c_type] in *; [|exact I]. eapply H. exact E.
Qed.

Lemma needs_guarded : forall al sz st v p P, needs (st v p) P -> needs (guarded al sz st v p) P.
Proof. intros al sz st v p P H. unfold guarded. apply needs_then. intros u _. exact H. Qed.

Theorem store_needs : forall cx t v p, needs (store cx t v p) (storable t v).
Proof.
  intros cx. unfold storable.
  refine (valtype_ind' _ _ _ _ _ _ _ _ _ _ _ _ _ _ _ _ _ _ _ _ _ _);
    try (intros v p; apply needs_guarded; cbn [shaped loose_number];
         first [exact (int_accepts v _ false p)|exact (int_accepts v _ true p)]).
  - intros v p. apply needs_guarded. destruct v; try (apply needs_lift; discriminate). intros ? ? ? _. cbn. eauto.
  - intros v p. apply needs_guarded. destruct v; try (apply needs_lift; discriminate). intros ? ? ? _. cbn. eauto.
  - intros v p. apply needs_guarded. destruct v; try (apply needs_lift; discriminate). intros ? ? ? _. cbn. eauto.
  - intros v p. apply needs_guarded. destruct v; try (apply needs_lift; discriminate). intros ? ? ? _. cbn. eauto.
  - intros v p. apply needs_guarded. destruct v; try (apply needs_lift; discriminate). intros ? ? ? _. cbn. eauto.
  - intros t IH v p. cbn [store]. apply needs_guarded. cbn [shaped]. unfold store_list. apply needs_bind. apply list_accepts. exact IH.
  - intros fs IH v p. cbn [store]. apply needs_guarded. cbn [shaped]. destruct v; try (apply needs_lift; discriminate).
    intros s a s' E. eexists. split; [reflexivity|]. rewrite Forall_map. cbn [fst snd].
    eapply (fields_accept (fun t => mkComp (alignment t) (size t) (store cx t)) (shaped loose_number)); [|exact E].
    exact IH.
  - intros cs IH v p. cbn [store]. apply needs_guarded. cbn [shaped].
    apply (store_variant_accepts (fun t => mkComp (alignment t) (size t) (store cx t))). exact IH.
  - intros ls v p. apply needs_guarded. destruct v; try (apply needs_lift; discriminate).
    unfold store_flags. apply needs_bind. apply needs_lift. intros n E. eapply flags_shaped. exact E.
  - intros r v p. apply needs_guarded. apply needs_lift; discriminate.
  - intros r v p. apply needs_guarded. apply needs_lift; discriminate.
  - intros a b v p. apply needs_guarded. apply needs_lift; discriminate.
  - intros t _ IH v p. rewrite <- store_despecialize. intros s a s' E. rewrite <- shaped_despecialize. eapply IH. exact E.
Qed.

Theorem lower_needs : forall cx t v, needs (lower_flat cx t v) (lowerable t v).
Proof.
  intros cx. unfold lowerable.
  refine (valtype_ind' _ _ _ _ _ _ _ _ _ _ _ _ _ _ _ _ _ _ _ _ _ _);
    try (intros v; cbn [shaped exact_number lower_flat]; apply needs_lift; destruct v; try discriminate; eauto; fail).
  - intros v. cbn [lower_flat]. destruct v; try (apply needs_lift; discriminate). intros ? ? ? _. cbn. eauto.
  - intros t IH v. cbn [lower_flat shaped]. unfold lower_flat_list. apply needs_bind. apply list_accepts. apply store_needs.
  - intros fs IH v. cbn [lower_flat shaped]. destruct v; try (apply needs_lift; discriminate).
    intros s a s' E. eexists. split; [reflexivity|]. rewrite Forall_map. cbn [fst snd].
    eapply (lower_fields_accept (lower_flat cx) (shaped exact_number)); [|exact E]. exact IH.
  - intros cs IH v. cbn [lower_flat shaped]. apply (lower_variant_accepts _ (lower_flat cx)); [|exact IH].
    intros ks E. cbn [flatten_type] in E. unfold flatten_variant in E.
    destruct (fold_left _ _ _) as [fl| | | ]; try discriminate. cbn in E.
    destruct (discriminant_type _) as [dt| | | ] eqn:Ed; try discriminate. rewrite map_length in Ed. apply discriminant_range in Ed. lia.
  - intros ls v. cbn [lower_flat shaped]. apply needs_lift. intros a E. destruct v; try discriminate. cbn in E.
    destruct (pack_flags _ _ _ _) as [n| | | ] eqn:Ep; try discriminate. eapply flags_shaped. exact Ep.
  - intros r v. cbn [lower_flat shaped exact_number]. unfold ret_handle. apply needs_bind. destruct v; try (apply needs_lift; discriminate). intros s a s' _. eauto.
  - intros r v. cbn [lower_flat shaped exact_number]. unfold ret_handle. apply needs_bind. destruct v; try (apply needs_lift; discriminate). intros s a s' _. eauto.
  - intros a b v. apply needs_lift; discriminate.
  - intros t _ IH v. rewrite <- lower_flat_despecialize. intros s a s' E. rewrite <- shaped_despecialize. eapply IH. exact E.
Qed.

(** A refused scalar leaves everything as it was. *)
Lemma guarded_refuses : forall al sz st v p a n s e, al = Ok a -> sz = Ok n -> valid_align a -> p + n < two32 ->
  good s -> st v p s = (Err e, s) -> exists e', guarded al sz st v p s = (Err e', s).
Proof.
  intros al sz st v p a n s e Ha Hn Hv Hp Hg E.
  destruct (guarded_cases al sz a n st v p s Ha Hn Hv Hg Hp) as [(_ & _ & X)|[X _]]; rewrite X; [rewrite E|]; eauto.
Qed.

Lemma store_int_refuses : forall v p nb sg s,
  ~ (if sg : bool then go_signed v else ~ go_signed v /\ ~ go_int v) -> exists e, store_int v p nb sg s = (Err e, s).
Proof.
  intros v p nb sg s H. unfold store_int, bind, lift_o, go_signed, go_int in *.
  destruct v; cbn [int_info]; try (eexists; reflexivity); destruct sg; cbn;
    try (eexists; reflexivity); exfalso; apply H; eauto 6;
    (split; [intros (zz & [X|[X|[X|X]]]); discriminate|intros (zz & nn & [X|X]); discriminate]).
Qed.

Lemma store_refuses_scalar : forall cx t v p a n s,
  In t [TBool; TU8; TU16; TU32; TU64; TS8; TS16; TS32; TS64; TChar] ->
  sp_layout t = Some (a, n) -> p + n < 2 ^ 32 -> wf_mem (s_mem s) -> ~ storable t v ->
  exists e, store cx t v p s = (Err e, s).
Proof.
  intros cx t v p a n s Ht Hl Hp Hm Hn. unfold storable in Hn.
  repeat (destruct Ht as [<-|Ht]; [injection Hl as <- <-; cbn [store]|]); [..|destruct Ht];
    match goal with
    | |- context [store_bool] =>
        eapply guarded_refuses; try reflexivity; [left; reflexivity|assumption|assumption|];
        destruct v; try reflexivity; exfalso; apply Hn; cbn; eauto
    | |- context [store_char] =>
        eapply guarded_refuses; try reflexivity; [right; right; left; reflexivity|assumption|assumption|];
        destruct v; try reflexivity; exfalso; apply Hn; cbn; eauto
    | |- context [store_int _ _ ?nb ?sg] =>
        destruct (store_int_refuses v p nb sg s Hn) as [e E];
        eapply guarded_refuses; try reflexivity; [unfold valid_align; auto|assumption|assumption|exact E]
    end.
Qed.
