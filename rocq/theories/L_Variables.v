(** Lowering writes only new blocks; values in memory stay. *)
From Coq Require Import NArith ZArith String Bool Lia ZifyBool ZifyNat ZifyN List.
From Verif Require Import GoBase M_Types M_Layout S_Layout L_Layout M_State M_Utf M_Load M_Store M_Flat S_Utf S_Flat
  S_Values S_Memory S_Access L_Access L_Variant L_Labels L_Despecialize L_Mem L_Frame L_RoundTrip L_StoreLoad L_Flat L_CtxFree L_Requests S_Variables.
Import ListNotations.
Open Scope N_scope.
Open Scope go_scope.

(** ** Lowering *)
Definition silent {A} (init : N -> Prop) (m : M A) : Prop :=
  forall s o s', good s -> m s = (o, s') -> step init s s' (fun _ => False).

Lemma silent_lift {A} init (o : outcome A) : silent init (lift_o o).
Proof. intros s o' s' Hg E. inversion E; subst. apply step_refl. assumption. Qed.
Lemma silent_ret {A} init (x : A) : silent init (ret x).
Proof. intros s o' s' Hg E. inversion E; subst. apply step_refl. assumption. Qed.
Lemma silent_bind {A B} init (m : M A) (f : A -> M B) : silent init m -> (forall a, silent init (f a)) -> silent init (bind m f).
Proof.
  intros Hm Hf s o s' Hg E. unfold bind in E. destruct (m s) as [o1 s1] eqn:E1. pose proof (Hm _ _ _ Hg E1) as S1.
  destruct o1 as [a|e| |]; [|inversion E; subst; assumption..].
  pose proof (Hf a _ _ _ (st_good _ _ _ _ S1) E) as S2. eapply step_trans; [exact S1|exact S2|auto|auto].
Qed.
Lemma silent_try {A B} init (o : outcome A) (f : A -> M B) : (forall a, o = Ok a -> silent init (f a)) -> silent init (let* a := lift_o o in f a).
Proof.
  intros Hf s o' s' Hg E. destruct o as [a|e| |]; [|inversion E; subst; apply step_refl; assumption..].
  rewrite bind_lift_ok in E. eapply Hf; eauto.
Qed.

Lemma silent_list : forall cx init t v, correct_allocator cx init -> lists_fit (TList t) v ->
  silent init (store_list_into_range cx (alignment t) (size t) (store cx t) v).
Proof.
  intros cx init t v Hc Hfit. destruct v; try (intros s0 o s' Hg E; inversion E; subst; apply step_refl; assumption).
  destruct (Hfit l eq_refl) as [Hfl Hsz]. destruct (layout_ok_all t) as (_ & L). destruct (sp_layout t) as [[a sz]|] eqn:Et.
  - destruct L as (Ha & Hv & _ & sz' & Hs & _ & Hlt & Heq).
    intros s o s' Hg E. eapply (produces_list cx init (alignment t) (size t) a sz' (store cx t) (VList l) Hc Ha Hs Hlt); [|exact Hg|exact E].
    intros l' El. injection El as <-. specialize (Hsz _ _ eq_refl).
    destruct l as [|x l'].
    + split; [cbn [List.length]; rewrite N.mul_0_l; unfold two32; lia|congruence].
    + assert (sz < two32) by (cbn [List.length] in Hsz; change (2 ^ 32) with two32 in Hsz; nia).
      rewrite Heq in * by assumption. split; [exact Hsz|]. intros _.
      eapply Forall_impl; [|exact Hfl]. intros v Hv0 q Hq. eapply frame_ok_all; [exact Hc|exact Et|exact Hv0|exact Hq].
  - destruct L as [e L]. intros s o s' Hg E. unfold store_list_into_range in E. rewrite L in E.
    inversion E; subst. apply step_refl; assumption.
Qed.

Theorem silent_lower : forall cx init t, correct_allocator cx init -> handle_free t ->
  forall v, lists_fit t v -> silent init (lower_flat cx t v).
Proof.
  intros cx init t Hc. induction t using valtype_ind'; intros Hh v Hfit; try apply silent_lift; try contradiction Hh.
  - destruct v; try apply silent_lift. cbn [lower_flat lower_string]. apply silent_bind; [|intros []; apply silent_ret].
    intros s0 o s' Hg E. eapply produces_string; eassumption.
  - cbn [lower_flat]. unfold lower_flat_list. apply silent_bind; [|intros []; apply silent_ret]. apply silent_list; assumption.
  - destruct v; try apply silent_lift. cbn [lower_flat lower_flat_record]. cbn in Hfit. specialize (Hfit m eq_refl). cbn [handle_free] in Hh.
    induction fs as [|[l t] fs IH]; [apply silent_ret|]. inversion H as [|? ? H1 H2]; subst. inversion Hfit as [|? ? F1 F2]; subst. cbn [map lower_fields fst snd fold_right] in *.
    destruct Hh as [Hh1 Hh2].
    apply silent_bind; [apply H1; [exact Hh1|unfold map_any; destruct (map_get m l) eqn:Ef; [now apply F1|apply lists_fit_nil]]|]. intros x.
    apply silent_bind; [now apply IH|]. intros y. apply silent_ret.
  - change (silent init (lower_flat_variant (flatten_type (TVariant cs)) (map (map_case (lower_flat cx)) cs) v)).
    unfold lower_flat_variant. rewrite match_case_map. apply silent_try. intros [i x] Em. apply silent_try. intros ft Hft.
    assert (Hdt : exists dt, discriminant_type (List.length cs) = Ok dt).
    { cbn [flatten_type] in Hft. unfold flatten_variant in Hft. rewrite map_length in Hft.
      destruct (discriminant_type (List.length cs)) as [dt|e| |]; [eauto|..]; exfalso; clear - Hft; cbn in Hft;
        destruct (fold_left _ _ _); discriminate. }
    destruct Hdt as [dt Hdt]. apply disc_count in Hdt. destruct ft as [|first rest]; [apply silent_lift|]. destruct (negb _); [apply silent_lift|].
    rewrite nth_error_map. destruct (nth_error cs (N.to_nat i)) as [c|] eqn:Ei; [|apply silent_lift]. cbn [option_map].
    apply silent_bind; [|intros pl; apply silent_try; intros; apply silent_ret].
    cbn [map_case c_type]. destruct (c_type c) as [t|] eqn:Et; cbn [option_map]; [|apply silent_ret].
    rewrite Forall_forall in H. specialize (H c (nth_error_In _ _ Ei)). rewrite Et in H. apply H.
    + cbn [handle_free] in Hh. clear - Hh Ei Et. revert i Ei Hh. intros i Ei Hh. apply nth_error_In in Ei.
      induction cs as [|c' cs IH]; [destruct Ei|]. cbn [map fold_right] in Hh. destruct Hh as [H1 H2]. destruct Ei as [->|Ei]; [rewrite Et in H1; exact H1|auto].
    + destruct (match_case_inv _ _ _ _ Hdt Em) as (key & Ev & Hsel).
      cbn in Hfit. specialize (Hfit key x (N.to_nat i) (map_case lists_fit c) Ev).
      rewrite map_map in Hfit. specialize (Hfit Hsel). rewrite nth_error_map, Ei in Hfit.
      specialize (Hfit eq_refl). cbn in Hfit. rewrite Et in Hfit. exact Hfit.
  - apply lists_fit_despecialize in Hfit. rewrite <- lower_flat_despecialize. apply IHt; [apply handle_free_despecialize; exact Hh|exact Hfit].
Qed.

(** ** What stays *)

(** [P] holds of the state as long as the bytes in the room and in the blocks
    of the value are kept, and so far they are. *)
Definition stays (init : N -> Prop) (p n : N) (P : state -> Prop) (s : state) : Prop :=
  exists s0 s1, (forall b, within p n b -> init b) /\ kept init p n s0 s1 s /\
    (exists l, s_hist s = (l ++ s_hist s1)%list) /\ forall s'', kept init p n s0 s1 s'' -> P s''.

Lemma stays_now : forall init p n P s, stays init p n P s -> P s.
Proof. intros init p n P s (s0 & s1 & _ & K & _ & H). apply H. exact K. Qed.

Lemma stays_on : forall init p n P s s' R, stays init p n P s ->
  wf_mem (s_mem s') -> m_len (s_mem s) <= m_len (s_mem s') -> (exists l, s_hist s' = (l ++ s_hist s)%list) ->
  (forall b, owned init (s_hist s) b -> ~ R b -> byte (s_mem s') b = byte (s_mem s) b) ->
  (forall b, R b -> init b /\ ~ within p n b) -> stays init p n P s'.
Proof.
  intros init p n P s s' R (s0 & s1 & Hi & (K1 & K2 & K3) & (l & Hl) & H) Hm Hlen (l' & Hl') Hb HR.
  exists s0, s1. split; [exact Hi|]. split.
  - split; [exact Hm|]. split; [unfold len in *; lia|]. intros b Hin. rewrite <- (K3 b Hin). apply Hb.
    + rewrite Hl. destruct Hin as [Hin|[Hin _]]; [left; auto|apply owned_mono; exact Hin].
    + intros Rb. destruct (HR b Rb) as [R1 R2]. destruct Hin as [|[_ Hin]]; [contradiction|]. apply Hin. left. exact R1.
  - split; [|exact H]. exists (l' ++ l)%list. rewrite Hl', Hl, app_assoc. reflexivity.
Qed.
Lemma stays_step : forall init p n P s s' R, stays init p n P s -> step init s s' R ->
  (forall b, R b -> init b /\ ~ within p n b) -> stays init p n P s'.
Proof. intros init p n P s s' R H S HR. eapply stays_on; [exact H|apply S..|exact HR]. Qed.
Lemma stays_begin : forall (init : N -> Prop) p n (P : state -> Prop) s s1, (forall b, within p n b -> init b) -> step init s s1 (within p n) ->
  (forall s'', kept init p n s s1 s'' -> P s'') -> stays init p n P s1.
Proof.
  intros init p n P s s1 Hi S H. exists s, s1. split; [exact Hi|]. split; [|split; [exists []; reflexivity|exact H]].
  split; [apply S|]. split; [lia|reflexivity].
Qed.

Definition held (cx : callctx) (t : valtype) (p : N) (v : any) (s : state) : Prop :=
  exists v', load cx t p s = (Ok v', s) /\ same_value t v v'.
Definition arrives (cx : callctx) (x : sent) (s : state) : Prop := forall pre post,
  exists v', lift_flat cx (x_type x) (IBase (pre ++ x_core x ++ post) (List.length pre)) s
    = (Ok (v', IBase (pre ++ x_core x ++ post) (List.length pre + List.length (x_core x))), s) /\ same_value (x_type x) (x_value x) v'.

Lemma reaches_stays : forall cx init xs s c out, correct_allocator cx init -> reaches cx init xs s c out ->
  good s /\ variables_ok init (m_len (s_mem s)) xs /\
  (forall i t p v a sz, nth_error xs i = Some (t, p) -> c i = Some v -> sp_layout t = Some (a, sz) -> stays init p sz (held cx t p v) s) /\
  (forall x, In x out -> stays init 0 0 (arrives cx x) s).
Proof.
  intros cx init xs s c out Hc R.
  assert (Hup : forall n n', n <= n' -> variables_ok init n xs -> variables_ok init n' xs).
  { intros n n' Hn (V1 & V2 & V3). split; [|auto]. intros x Hx. destruct (V1 x Hx) as (W & a & sz & L & D & B). split; [exact W|]. exists a, sz. repeat split; auto. lia. }
  assert (N0 : forall b, within 0 0 b -> init b) by (unfold within; intros; lia).
  induction R as [s Hm Hv|s c out i t p v s' R IH Hx Hty E|s c out i t p v o s' R IH Hx Hf E|s c out t ks v cs s' R IH Hwf Hk Hty E|s c out t v o s' R IH Hh Hf E|s c out s' R IH G].
  - split; [exact Hm|]. split; [exact Hv|]. split; [intros; discriminate|intros x []].
  - destruct IH as (Hg & Hv & H1 & H2). assert (Hv' := Hv). destruct Hv' as (V1 & V2 & V3).
    destruct (V1 (t, p) (nth_error_In _ _ Hx)) as (Hwf & a & sz & Hl & Hd & Hb). cbn [fst snd] in *.
    assert (Hini : forall b, within p sz b -> init b) by (intros b W; apply (V2 (t, p) b (nth_error_In _ _ Hx)); exists a, sz; auto).
    assert (Hp : p + sz < two32) by (destruct Hg as (_ & Hg & _); unfold two32; lia).
    destruct (rt_ok_all cx init t Hc a sz v p Hl Hwf Hty Hd Hp s _ s' Hg ltac:(intros; left; auto) Hb E) as [([] & _ & S & K)|(? & ? & ? & ? & [])].
    split; [apply S|]. split; [eapply Hup; [apply (st_len _ _ _ _ S)|exact Hv]|]. split.
    + intros j t' p' v' a' sz' Hj Hcj Hl'. unfold assigned in Hcj. destruct (Nat.eqb_spec j i) as [->|Hne].
      * injection Hcj as <-. rewrite Hx in Hj. injection Hj as <- <-. rewrite Hl in Hl'. injection Hl' as <- <-. eapply stays_begin; [exact Hini|exact S|exact K].
      * eapply stays_step; [eapply H1; eassumption|exact S|]. intros b W. split; [auto|]. intros W'.
        apply (V3 i j (t, p) (t', p') b Hx Hj ltac:(congruence)); [exists a, sz; auto|exists a', sz'; auto].
    + intros x Hin. eapply stays_step; [apply H2; exact Hin|exact S|]. intros b W. split; [auto|unfold within; lia].
  - destruct IH as (Hg & Hv & H1 & H2). assert (Hv' := Hv). destruct Hv' as (V1 & V2 & V3).
    destruct (V1 (t, p) (nth_error_In _ _ Hx)) as (Hwf & a & sz & Hl & Hd & Hb). cbn [fst snd] in *.
    assert (Hini : forall b, within p sz b -> init b) by (intros b W; apply (V2 (t, p) b (nth_error_In _ _ Hx)); exists a, sz; auto).
    assert (Hp : p + sz < two32) by (destruct Hg as (_ & Hg & _); unfold two32; lia).
    pose proof (frame_ok_all cx init t Hc a sz v p Hl Hf Hp s o s' Hg Hb E) as S.
    split; [apply S|]. split; [eapply Hup; [apply (st_len _ _ _ _ S)|exact Hv]|]. split.
    + intros j t' p' v' a' sz' Hj Hcj Hl'. unfold assigned in Hcj. destruct (Nat.eqb_spec j i) as [->|Hne]; [discriminate|].
      eapply stays_step; [eapply H1; eassumption|exact S|]. intros b W. split; [auto|]. intros W'.
      apply (V3 i j (t, p) (t', p') b Hx Hj ltac:(congruence)); [exists a, sz; auto|exists a', sz'; auto].
    + intros x Hin. eapply stays_step; [apply H2; exact Hin|exact S|]. intros b W. split; [auto|unfold within; lia].
  - destruct IH as (Hg & Hv & H1 & H2). apply flatten_complete in Hk.
    destruct (flat_rt_all cx init t Hc v ks Hk Hwf Hty s (Ok cs) s' Hg) as [(cs' & Ec & S & K)|(? & ? & ? & ? & [])]; [unfold within; intros; lia|lia|exact E|].
    injection Ec as <-.
    assert (S0 : step init s s' (fun _ => False)) by (eapply step_weaken; [exact S|]; unfold within; intros; lia).
    split; [apply S|]. split; [eapply Hup; [apply (st_len _ _ _ _ S)|exact Hv]|]. split.
    + intros. eapply stays_step; [eapply H1; eassumption|exact S0|]. intros b [].
    + intros x [<-|Hin].
      * eapply stays_begin; [exact N0|exact S|]. intros s'' Hk'' pre post. cbn [x_type x_value x_core].
        destruct (K s'' Hk'') as (_ & _ & HL). apply HL. apply yields_base.
      * eapply stays_step; [apply H2; exact Hin|exact S0|]. intros b [].
  - destruct IH as (Hg & Hv & H1 & H2). pose proof (silent_lower cx init t Hc Hh v Hf s o s' Hg E) as S.
    split; [apply S|]. split; [eapply Hup; [apply (st_len _ _ _ _ S)|exact Hv]|]. split.
    + intros. eapply stays_step; [eapply H1; eassumption|exact S|]. intros b [].
    + intros. eapply stays_step; [apply H2; assumption|exact S|]. intros b [].
  - destruct IH as (Hg & Hv & H1 & H2). destruct G as (G1 & G2 & G3 & G4).
    split; [exact G1|]. split; [eapply Hup; [exact G2|exact Hv]|]. split.
    + intros. eapply (stays_on _ _ _ _ _ _ (fun _ => False)); [eapply H1; eassumption|exact G1|exact G2|exact G3|auto|intros b []].
    + intros. eapply (stays_on _ _ _ _ _ _ (fun _ => False)); [apply H2; assumption|exact G1|exact G2|exact G3|auto|intros b []].
Qed.
