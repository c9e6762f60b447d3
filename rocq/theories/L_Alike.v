(** Proofs: values that are the same are stored, lowered and passed alike. *)
From Coq Require Import NArith ZArith List String Bool Lia ZifyBool ZifyNat ZifyN.
From Verif Require Import GoBase M_Types M_Layout S_Layout L_Layout M_State M_Utf M_Load M_Store M_Flat M_Canon
  S_Utf S_Values S_Memory S_Flat S_Alike L_Variant L_Labels L_Despecialize L_Mem L_RoundTrip L_Lifted L_Flat L_CtxFree L_Format.
Import ListNotations.
Open Scope N_scope.
Open Scope go_scope.

Lemma canonical32_alike b b' : same_f32 b b' -> canonicalize32 b = canonicalize32 b'.
Proof.
  intros [[N1 ->]|[N1 ->]]; [|reflexivity]. destruct (canonicalize32_same b) as [[_ ->]|[X _]]; [|contradiction]. reflexivity.
Qed.
Lemma canonical64_alike b b' : same_f64 b b' -> canonicalize64 b = canonicalize64 b'.
Proof.
  intros [[N1 ->]|[N1 ->]]; [|reflexivity]. destruct (canonicalize64_same b) as [[_ ->]|[X _]]; [|contradiction]. reflexivity.
Qed.

Lemma pack_alike (m m' : list (string * any)) ls : Forall (fun l => map_get m l = map_get m' l) ls -> forall sh acc, pack_flags m ls sh acc = pack_flags m' ls sh acc.
Proof.
  induction 1 as [|l ls E H IH]; intros sh acc; [reflexivity|]. cbn [pack_flags]. unfold map_any. rewrite E.
  destruct (map_get m' l) as [x|]; [|reflexivity]. destruct x; try reflexivity. apply IH.
Qed.

Lemma flags_alike ls v v' : rec_same (map (fun l => (l, fun x x' => x' = x)) ls) v v' ->
  exists m m', v = VMap m /\ v' = VMap m' /\ forall sh acc, pack_flags m ls sh acc = pack_flags m' ls sh acc.
Proof.
  intros (m & m' & -> & -> & HF & _). exists m, m'. split; [reflexivity|]. split; [reflexivity|]. apply pack_alike.
  rewrite Forall_map in HF. eapply Forall_impl; [|exact HF]. intros l (x & x' & E & E' & ->). cbn [fst] in *. congruence.
Qed.

Lemma agree_ok {A B} (x y : A) (f g : A -> M B) : agree (f x) (g y) -> agree (bind (lift_o (Ok x)) f) (bind (lift_o (Ok y)) g).
Proof. intros H s. exact (H s). Qed.

(** Either the type has too many cases for a discriminant, or both values select
    the same case, which has the given payloads. *)
Lemma cases_alike {A} (cs : list (caseOf A)) (R : A -> any -> any -> Prop) v v' : NoDup (map c_label cs) ->
  var_same (map (map_case R) cs) v v' ->
  (forall dt, discriminant_type (List.length cs) <> Ok dt) /\ (exists i x x', match_case v cs = Ok (i, x) /\ match_case v' cs = Ok (i, x'))
  \/ exists i c x x', match_case v cs = Ok (N.of_nat i, x) /\ match_case v' cs = Ok (N.of_nat i, x') /\ nth_error cs i = Some c /\
       match c_type c with Some q => R q x x' | None => True end.
Proof.
  intros Hn (key & x & key' & x' & i & c & -> & -> & S1 & S2 & Ec & Hx). rewrite map_case_label in S1, S2.
  rewrite nth_error_map in Ec. destruct (nth_error cs i) as [c0|] eqn:E0; [|discriminate]. injection Ec as <-.
  destruct (N.ltb_spec (N.of_nat (List.length cs)) two32) as [L|L].
  - right. exists i, c0, x, x'. rewrite !(match_case_selects _ _ _ i) by assumption. split; [reflexivity|]. split; [reflexivity|]. split; [exact E0|].
    cbn in Hx. destruct (c_type c0); [exact Hx|exact I].
  - left. split; [intros dt E; apply discriminant_bound in E; lia|].
    assert (G : forall key p, selects (map c_label cs) key i -> match_case (VMap [(key, p)]) cs = Ok (u32 (N.of_nat i), p)).
    { clear -Hn. intros key p (before & l & after & -> & Hf & Hb & Hi). cbn [match_case].
      assert (E : exists h t, (before ++ l :: after)%list = h :: t) by (destruct before; cbn; eauto).
      destruct E as (h & t & E). rewrite E in Hf |- *. rewrite split_bar_concat by assumption. rewrite <- E.
      clear -Hn Hb Hi. assert (X : match_labels cs (before ++ l :: after) = Ok (u32 (N.of_nat i))); [|rewrite X; reflexivity].
      induction before as [|b before IH]; cbn.
      - rewrite (label_index_some cs 0 l None i) by assumption. rewrite N.add_0_l. reflexivity.
      - inversion Hb; subst. rewrite label_index_none by assumption. auto. }
    exists (u32 (N.of_nat i)), x, x'. rewrite !G by assumption. split; reflexivity.
Qed.

Section Alike.
  Variable cx : callctx.

  Lemma elems_alike st l l' : Forall2 (fun v v' => forall p, agree (st v p) (st v' p)) l l' ->
    forall p sz i, agree (store_elems l st p sz i) (store_elems l' st p sz i).
  Proof.
    induction 1 as [|v v' l l' Hv H IH]; intros p sz i; cbn [store_elems]; [apply agree_refl|].
    apply agree_bind; [apply Hv|]. intros _. apply IH.
  Qed.

  Lemma list_alike al sz st l l' : Forall2 (fun v v' => forall p, agree (st v p) (st v' p)) l l' ->
    agree (store_list_into_range cx al sz st (VList l)) (store_list_into_range cx al sz st (VList l')).
  Proof.
    intros H. cbn [store_list_into_range]. assert (E : List.length l = List.length l') by (induction H; cbn; congruence). rewrite E.
    apply agree_bind; [apply agree_refl|]. intros s. destruct (_ <=? _)%Z; [apply agree_refl|].
    apply agree_bind; [apply agree_refl|]. intros a. apply agree_bind; [apply agree_refl|]. intros p.
    apply agree_bind; [apply agree_refl|]. intros _. apply agree_bind; [apply agree_refl|]. intros _.
    apply agree_bind; [apply elems_alike, H|]. intros _. apply agree_refl.
  Qed.

  Lemma store_fields_alike fs m m' : Forall (fun f : string * comp (any -> N -> M unit) => forall p, agree (q_op (snd f) (map_any m (fst f)) p) (q_op (snd f) (map_any m' (fst f)) p)) fs ->
    forall p, agree (store_fields fs m p) (store_fields fs m' p).
  Proof.
    induction 1 as [|[l q] fs Hf H IH]; intros p; cbn [store_fields]; [apply agree_refl|]. cbn [fst snd] in Hf.
    apply agree_bind; [apply agree_refl|]. intros a. apply agree_bind; [apply agree_refl|]. intros p'.
    apply agree_bind; [apply Hf|]. intros _. apply agree_bind; [apply agree_refl|]. intros s. apply IH.
  Qed.

  Lemma lower_fields_alike fs m m' : Forall (fun f : string * (any -> M (list cval)) => agree (snd f (map_any m (fst f))) (snd f (map_any m' (fst f)))) fs ->
    agree (lower_fields fs m) (lower_fields fs m').
  Proof.
    induction 1 as [|[l q] fs Hf H IH]; cbn [lower_fields]; [apply agree_refl|]. cbn [fst snd] in Hf.
    apply agree_bind; [apply Hf|]. intros a. apply agree_bind; [apply IH|]. intros b. apply agree_refl.
  Qed.

  Lemma guarded_alike al sz st v v' p : agree (st v p) (st v' p) -> agree (guarded al sz st v p) (guarded al sz st v' p).
  Proof. intros H. unfold guarded. apply agree_bind; [apply agree_refl|]. intros _. exact H. Qed.

  Lemma store_alike : forall t v v' p, wf_type t -> same_value t v v' -> agree (store cx t v p) (store cx t v' p).
  Proof.
    intros t. induction t using valtype_ind'; intros v v' ptr Hwf Hs;
      try (cbn [same_value] in Hs; subst v'; apply agree_refl).
    - destruct Hs as (b & b' & -> & -> & E). cbn [store]. apply guarded_alike. cbn. rewrite (canonical32_alike _ _ E). apply agree_refl.
    - destruct Hs as (b & b' & -> & -> & E). cbn [store]. apply guarded_alike. cbn. rewrite (canonical64_alike _ _ E). apply agree_refl.
    - destruct Hs as (l & l' & -> & -> & HF). cbn [store]. apply guarded_alike. unfold store_list.
      apply agree_bind; [|intros [b n]; apply agree_refl]. apply list_alike.
      cbn [wf_type] in Hwf. destruct Hwf as [Hwf _]. clear -IHt HF Hwf. induction HF; constructor; auto.
    - cbn [wf_type] in Hwf. destruct Hwf as [_ Hwf]. apply all_Forall in Hwf.
      destruct Hs as (m & m' & -> & -> & HF & _). cbn [store]. apply guarded_alike. cbn [store_record]. apply store_fields_alike.
      rewrite Forall_map in *. cbn [fst snd q_op] in *. rewrite Forall_forall in *. intros f Hin p.
      destruct (HF f Hin) as (x & x' & E & E' & Hx). unfold map_any. rewrite E, E'. apply H; auto.
    - cbn [wf_type] in Hwf. destruct Hwf as [(Hnd & _) Hwf]. apply all_Forall in Hwf.
      cbn [store]. apply guarded_alike. unfold store_variant. rewrite map_length.
      rewrite !match_case_map.
      destruct (cases_alike cs same_value v v' Hnd Hs) as [(Hd & i & x & x' & -> & ->)|(i & c & x & x' & -> & -> & Ec & Hx)];
        apply agree_ok.
      + intros s. unfold bind, lift_o. destruct (discriminant_type _) as [dt|e| |]; [contradiction (Hd dt eq_refl)|reflexivity..].
      + apply agree_bind; [apply agree_refl|]. intros dt. apply agree_bind; [apply agree_refl|]. intros _.
        apply agree_bind; [apply agree_refl|]. intros a. apply agree_bind; [apply agree_refl|]. intros p.
        rewrite Nat2N.id, nth_error_map, Ec. cbn [option_map map_case c_type].
        rewrite Forall_forall in H, Hwf. specialize (H c (nth_error_In _ _ Ec)). specialize (Hwf c (nth_error_In _ _ Ec)).
        destruct (c_type c) as [t|]; [|apply agree_refl]. cbn [option_map q_op]. exact (H x x' p Hwf Hx).
    - destruct (flags_alike _ _ _ Hs) as (m & m' & -> & -> & E). cbn [store]. apply guarded_alike. cbn [store_flags]. rewrite E. apply agree_refl.
    - rewrite <- (store_despecialize cx t). apply IHt; [apply wf_despecialize; exact Hwf|apply same_value_despecialize; exact Hs].
  Qed.

  Lemma lower_alike : forall t v v', wf_type t -> same_value t v v' -> agree (lower_flat cx t v) (lower_flat cx t v').
  Proof.
    intros t. induction t using valtype_ind'; intros v v' Hwf Hs;
      try (cbn [same_value] in Hs; subst v'; apply agree_refl).
    - destruct Hs as (b & b' & -> & -> & E). cbn. rewrite (canonical32_alike _ _ E). apply agree_refl.
    - destruct Hs as (b & b' & -> & -> & E). cbn. rewrite (canonical64_alike _ _ E). apply agree_refl.
    - destruct Hs as (l & l' & -> & -> & HF). cbn [lower_flat]. unfold lower_flat_list.
      apply agree_bind; [|intros [b n]; apply agree_refl]. apply list_alike.
      cbn [wf_type] in Hwf. destruct Hwf as [Hwf _]. clear -HF Hwf. induction HF; constructor; auto using store_alike.
    - cbn [wf_type] in Hwf. destruct Hwf as [_ Hwf]. apply all_Forall in Hwf.
      destruct Hs as (m & m' & -> & -> & HF & _). cbn [lower_flat lower_flat_record]. apply lower_fields_alike.
      rewrite Forall_map in *. cbn [fst snd] in *. rewrite Forall_forall in *. intros f Hin.
      destruct (HF f Hin) as (x & x' & E & E' & Hx). unfold map_any. rewrite E, E'. apply H; auto.
    - cbn [wf_type] in Hwf. destruct Hwf as [(Hnd & _) Hwf]. apply all_Forall in Hwf.
      cbn [lower_flat]. unfold lower_flat_variant. rewrite !match_case_map.
      destruct (cases_alike cs same_value v v' Hnd Hs) as [(Hd & i & x & x' & -> & ->)|(i & c & x & x' & -> & -> & Ec & Hx)];
        apply agree_ok.
      + intros s. unfold bind at 1 3. unfold lift_o at 1 3.
        assert (X : forall ks, flatten_type (TVariant cs) <> Ok ks).
        { intros ks. cbn [flatten_type]. unfold flatten_variant. rewrite map_length. destruct (fold_left _ _ _); try discriminate.
          cbn. destruct (discriminant_type _) as [dt|e| |]; try discriminate. contradiction (Hd dt eq_refl). }
        destruct (flatten_type (TVariant cs)) as [ks|e| |]; [contradiction (X ks eq_refl)|reflexivity..].
      + apply agree_bind; [apply agree_refl|]. intros [|first rest]; [apply agree_refl|]. destruct (negb _); [apply agree_refl|].
        rewrite Nat2N.id, nth_error_map, Ec. cbn [option_map map_case c_type].
        rewrite Forall_forall in H, Hwf. specialize (H c (nth_error_In _ _ Ec)). specialize (Hwf c (nth_error_In _ _ Ec)).
        apply agree_bind; [|intros y; apply agree_refl].
        destruct (c_type c) as [t|]; [|apply agree_refl]. cbn [option_map]. exact (H x x' Hwf Hx).
    - destruct (flags_alike _ _ _ Hs) as (m & m' & -> & -> & E). cbn [lower_flat lower_flat_flags]. rewrite E. apply agree_refl.
    - rewrite <- (lower_flat_despecialize cx t). apply IHt; [apply wf_despecialize; exact Hwf|apply same_value_despecialize; exact Hs].
  Qed.

  Lemma lower_each_alike : forall ts vs vs', Forall wf_type ts -> each_same ts vs vs' ->
    agree (lower_each (map (lower_flat cx) ts) vs) (lower_each (map (lower_flat cx) ts) vs').
  Proof.
    intros ts vs vs' Hwf H. revert Hwf. induction H as [|t ts v v' vs vs' Hv H IH]; intros Hwf; [apply agree_refl|].
    inversion Hwf; subst. cbn [map lower_each]. apply agree_bind; [apply lower_alike; assumption|]. intros a.
    apply agree_bind; [apply IH; assumption|]. intros b. apply agree_refl.
  Qed.

  Lemma lower_values_alike max ts vs vs' out : Forall wf_type ts -> each_same ts vs vs' ->
    agree (lower_values cx max vs ts out) (lower_values cx max vs' ts out).
  Proof.
    intros Hwf H. unfold lower_values. apply agree_bind; [apply agree_refl|]. intros flat. destruct (Nat.leb _ _); [|apply agree_refl].
    apply agree_bind; [apply lower_each_alike; assumption|]. intros r. apply agree_refl.
  Qed.
End Alike.


Lemma canon_lift_alike order opts inst callee ft args args' maxp maxr : Forall wf_type (param_types ft) ->
  each_same (param_types ft) args args' ->
  agree (canon_lift order opts inst callee ft args maxp maxr) (canon_lift order opts inst callee ft args' maxp maxr).
Proof.
  intros Hwf H. unfold canon_lift. apply agree_bind; [apply agree_refl|]. intros w.
  destruct (negb _); [apply agree_refl|]. destruct (negb _); [apply agree_refl|].
  apply agree_bind; [apply agree_refl|]. intros cx. apply agree_bind; [apply agree_refl|]. intros _.
  apply agree_bind; [apply lower_values_alike; assumption|]. intros flat. apply agree_refl.
Qed.

Lemma bind_at {A B} (m : M A) (f : A -> M B) s x s' : m s = (Ok x, s') -> bind m f s = f x s'.
Proof. intros E. unfold bind. rewrite E. reflexivity. Qed.

Lemma canon_lower_alike order opts inst host host' imp ft flat maxp maxr : Forall wf_type (result_types ft) ->
  alike_hosts (result_types ft) host host' ->
  agree (canon_lower order opts inst host imp ft flat maxp maxr) (canon_lower order opts inst host' imp ft flat maxp maxr).
Proof.
  intros Hwf H. unfold canon_lower. apply agree_bind; [apply agree_refl|]. intros cx.
  apply agree_bind; [apply agree_refl|]. intros w.
  destruct (negb _); [apply agree_refl|]. destruct (negb _); [apply agree_refl|].
  apply agree_bind; [apply agree_refl|]. intros args. apply agree_bind; [apply agree_refl|]. intros [lifted it].
  intros s. destruct (H lifted s) as [E|(rs & rs' & post & s' & E & E' & Hr)].
  - unfold bind at 1. rewrite E. reflexivity.
  - rewrite (bind_at _ _ _ _ _ E), (bind_at _ _ _ _ _ E').
    apply agree_bind; [apply agree_refl|]. intros _. apply agree_bind; [apply lower_values_alike; assumption|]. intros r. apply agree_refl.
Qed.
