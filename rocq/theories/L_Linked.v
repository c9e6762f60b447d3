From Coq Require Import NArith ZArith List String Bool Lia.
From Verif Require Import GoBase M_Types M_Layout S_Layout M_State M_Utf S_Utf S_Values S_Memory S_Flat S_Format S_FlatFormat S_Calls
  L_Labels L_Layout L_Mem L_RoundTrip L_StoreLoad L_Lifted L_Format L_FlatFormat L_Calls S_Requests L_Requests S_Blame.
Import ListNotations.
Open Scope N_scope.

(** ** Values that are the same *)
Lemma same_f32_trans : forall a b c, same_f32 a b -> same_f32 b c -> same_f32 a c.
Proof.
  intros a b c [[N1 ->]|[N1 ->]] [[N2 ->]|[N2 ->]].
  - left. auto.
  - exfalso. apply N2. split; [reflexivity|discriminate].
  - contradiction.
  - right. auto.
Qed.
Lemma same_f64_trans : forall a b c, same_f64 a b -> same_f64 b c -> same_f64 a c.
Proof.
  intros a b c [[N1 ->]|[N1 ->]] [[N2 ->]|[N2 ->]].
  - left. auto.
  - exfalso. apply N2. split; [reflexivity|discriminate].
  - contradiction.
  - right. auto.
Qed.

Lemma same_value_trans : forall t a b c, wf_type t -> same_value t a b -> same_value t b c -> same_value t a c.
Proof.
  intros t. induction t using valtype_ind'; intros x y z Hwf Hxy Hyz; try (cbn [same_value] in *; congruence).
  - destruct Hxy as (b1 & b2 & -> & -> & E1), Hyz as (b2' & b3 & E & -> & E2). injection E as <-.
    exists b1, b3. repeat (split; [reflexivity|]). eapply same_f32_trans; eassumption.
  - destruct Hxy as (b1 & b2 & -> & -> & E1), Hyz as (b2' & b3 & E & -> & E2). injection E as <-.
    exists b1, b3. repeat (split; [reflexivity|]). eapply same_f64_trans; eassumption.
  - cbn [same_value wf_type] in *. destruct Hxy as (l1 & l2 & -> & -> & E1), Hyz as (l2' & l3 & E & -> & E2). injection E as <-.
    exists l1, l3. repeat (split; [reflexivity|]). destruct Hwf as [Hwf _]. clear - IHt Hwf E1 E2. revert l3 E2.
    induction E1; intros l3 E2; inversion E2; subst; constructor; eauto.
  - cbn [wf_type] in Hwf. destruct Hwf as [_ Hwf]. apply all_Forall in Hwf. rewrite Forall_forall in Hwf, H.
    destruct Hxy as (m1 & m2 & -> & -> & F1 & D1), Hyz as (m2' & m3 & E & -> & F2 & D2). injection E as <-.
    exists m1, m3. repeat (split; [reflexivity|]). split; [|exact D2].
    rewrite Forall_forall in *. intros q Hq. destruct (F1 q Hq) as (u & v & Eu & Ev & Huv). destruct (F2 q Hq) as (v' & w & Ev' & Ew & Hvw).
    assert (v' = v) as -> by congruence. exists u, w. repeat (split; [assumption|]).
    apply in_map_iff in Hq. destruct Hq as (f & <- & Hf). cbn [fst snd] in *. eapply (H f Hf); eauto.
  - cbn [wf_type] in Hwf. destruct Hwf as [(Hnd & Hbf & Hre) Hwf]. apply all_Forall in Hwf. rewrite Forall_forall in Hwf, H.
    destruct Hxy as (k1 & p1 & k2 & p2 & i & c & -> & -> & S1 & S2 & Ec & Hp), Hyz as (k2' & p2' & k3 & p3 & i' & c' & E & -> & S2' & S3 & Ec' & Hp').
    injection E as <- <-. rewrite map_case_label in *.
    assert (i' = i) as -> by exact (selects_fun _ _ _ _ Hnd S2' S2). assert (c' = c) as -> by congruence.
    exists k1, p1, k3, p3, i, c. rewrite map_case_label. repeat (split; [assumption||reflexivity|]).
    rewrite nth_error_map in Ec. destruct (nth_error cs i) as [c0|] eqn:E0; [|discriminate]. injection Ec as <-.
    pose proof (nth_error_In _ _ E0) as Hin. specialize (H _ Hin). specialize (Hwf _ Hin). cbn [map_case c_type] in *.
    destruct (c_type c0); [|exact Hp']. eapply H; eassumption.
  - destruct Hxy as (m1 & m2 & -> & -> & F1 & D1), Hyz as (m2' & m3 & E & -> & F2 & D2). injection E as <-.
    exists m1, m3. repeat (split; [reflexivity|]). split; [|exact D2].
    rewrite Forall_forall in *. intros q Hq. destruct (F1 q Hq) as (u & v & Eu & Ev & Huv). destruct (F2 q Hq) as (v' & w & Ev' & Ew & Hvw).
    assert (v' = v) as -> by congruence. exists u, w. repeat (split; [assumption|]).
    apply in_map_iff in Hq. destruct Hq as (f & <- & Hf). cbn [fst snd] in *. congruence.
  - apply same_value_despecialize. eapply IHt; [apply wf_despecialize; exact Hwf|apply same_value_despecialize; eassumption..].
Qed.

(** What is the same as a value of a type is one. *)
Lemma same_value_type : forall enc t v v', wf_type t -> has_type enc t v -> same_value t v v' -> has_type enc t v'.
Proof.
  intros enc t. induction t using valtype_ind'; intros x y Hwf Hx Hs;
    try (cbn [same_value] in Hs; subst y; exact Hx).
  - destruct Hx as (b & -> & Hb), Hs as (b1 & b2 & E & -> & Hs). injection E as <-. exists b2. split; [reflexivity|].
    destruct Hs as [[_ ->]|[_ ->]]; [reflexivity|exact Hb].
  - destruct Hx as (b & -> & Hb), Hs as (b1 & b2 & E & -> & Hs). injection E as <-. exists b2. split; [reflexivity|].
    destruct Hs as [[_ ->]|[_ ->]]; [reflexivity|exact Hb].
  - cbn [has_type same_value wf_type] in *. destruct Hx as (l & a & s & -> & F & El & H1 & H2), Hs as (l1 & l2 & E & -> & Hs). injection E as <-.
    exists l2, a, s. assert (List.length l2 = List.length l) as -> by (clear - Hs; induction Hs; cbn; congruence).
    split; [reflexivity|]. split; [|auto].
    destruct Hwf as [Hwf _]. clear - IHt Hwf F Hs. induction Hs; inversion F; subst; constructor; eauto.
  - cbn [wf_type] in Hwf. destruct Hwf as [_ Hwf]. apply all_Forall in Hwf. rewrite Forall_forall in Hwf, H.
    destruct Hx as (m & -> & F), Hs as (m1 & m2 & E & -> & F1 & D). injection E as <-.
    exists m2. split; [reflexivity|]. rewrite Forall_forall in *. intros q Hq. apply in_map_iff in Hq. destruct Hq as (f & <- & Hf).
    destruct (F _ (in_map _ _ _ Hf)) as (u & Eu & Hu). destruct (F1 _ (in_map (fun f => (fst f, same_value (snd f))) _ _ Hf)) as (u' & v & Eu' & Ev & Huv).
    cbn [fst snd] in *. exists v. split; [exact Ev|]. assert (u' = u) as -> by congruence. eapply H; eauto.
  - cbn [wf_type] in Hwf. destruct Hwf as [(Hnd & Hbf & Hre) Hwf]. apply all_Forall in Hwf. rewrite Forall_forall in Hwf, H.
    destruct Hx as (k & p & i & c & -> & S0 & Ec & Hp), Hs as (k1 & p1 & k2 & p2 & i' & c' & E & -> & S1 & S2 & Ec' & Hp').
    injection E as <- <-. rewrite map_case_label in S0. rewrite map_case_label in S1. rewrite map_case_label in S2.
    assert (i' = i) as -> by exact (selects_fun _ _ _ _ Hnd S1 S0).
    rewrite nth_error_map in Ec, Ec'. destruct (nth_error cs i) as [c0|] eqn:E0; [|discriminate].
    exists k2, p2, i, c. rewrite map_case_label, nth_error_map, E0. repeat (split; [assumption||reflexivity|]).
    injection Ec as <-. injection Ec' as <-.
    pose proof (nth_error_In _ _ E0) as Hin. specialize (H _ Hin). specialize (Hwf _ Hin). cbn [map_case c_type] in *.
    destruct (c_type c0); [|exact Hp']. eapply H; eassumption.
  - destruct Hx as (m & -> & F), Hs as (m1 & m2 & E & -> & F1 & D). injection E as <-.
    exists m2. split; [reflexivity|]. rewrite Forall_forall in *. intros q Hq. apply in_map_iff in Hq. destruct Hq as (f & <- & Hf).
    destruct (F _ (in_map _ _ _ Hf)) as (u & Eu & Hu). destruct (F1 _ (in_map (fun l => (l, fun x x' => x' = x)) _ _ Hf)) as (u' & v & Eu' & Ev & Huv).
    cbn [fst snd] in *. exists v. split; [exact Ev|]. destruct Hu as [b ->]. exists b. congruence.
  - apply has_type_despecialize. eapply IHt; [apply wf_despecialize; exact Hwf|apply has_type_despecialize; eassumption|apply same_value_despecialize; exact Hs].
Qed.

(** What is the same takes the same blocks. *)
Lemma same_asks : forall enc t v v' rs, wf_type t -> same_value t v v' -> asks enc t v rs -> asks enc t v' rs.
Proof.
  intros enc t. induction t using valtype_ind'; intros x y rs Hwf Hs Hx;
    try (cbn [same_value] in Hs; subst y; exact Hx); try exact Hx.
  - cbn [asks same_value wf_type] in *. destruct Hx as (l & a & s & parts & -> & El & H1 & F & ->), Hs as (l1 & l2 & E & -> & Hs). injection E as <-.
    exists l2, a, s, parts. assert (List.length l2 = List.length l) as -> by (clear - Hs; induction Hs; cbn; congruence).
    split; [reflexivity|]. split; [exact El|]. split; [exact H1|]. split; [|reflexivity].
    destruct Hwf as [Hwf _]. clear - IHt Hwf F Hs. revert parts F. induction Hs; intros parts F; inversion F; subst; constructor; eauto.
  - cbn [wf_type] in Hwf. destruct Hwf as [_ Hwf]. apply all_Forall in Hwf. rewrite Forall_forall in Hwf, H.
    destruct Hx as (m & parts & -> & F & ->), Hs as (m1 & m2 & E & -> & F1 & D). injection E as <-.
    exists m2, parts. split; [reflexivity|]. split; [|reflexivity]. rewrite Forall_forall in F1.
    assert (K : forall f, In f fs -> forall u part, map_get m (fst f) = Some u -> asks enc (snd f) u part ->
      exists v, map_get m2 (fst f) = Some v /\ asks enc (snd f) v part).
    { intros f Hf u part Eu Hu. destruct (F1 _ (in_map (fun f => (fst f, same_value (snd f))) _ _ Hf)) as (u' & v & Eu' & Ev & Huv).
      cbn [fst snd] in *. exists v. split; [exact Ev|]. assert (u' = u) as -> by congruence. eapply H; eauto. }
    clear - K F. revert parts F. induction fs as [|f fs IH]; intros parts F; inversion F; subst; cbn [map]; constructor.
    + match goal with H : exists x, _ |- _ => destruct H as (u & Eu & Hu) end. cbn [fst snd] in *. apply (K f (or_introl eq_refl) u); assumption.
    + apply IH; [intros g Hg; apply K; right; exact Hg|assumption].
  - cbn [wf_type] in Hwf. destruct Hwf as [(Hnd & Hbf & Hre) Hwf]. apply all_Forall in Hwf. rewrite Forall_forall in Hwf, H.
    destruct Hx as (k & p & i & c & -> & S0 & Ec & Hp), Hs as (k1 & p1 & k2 & p2 & i' & c' & E & -> & S1 & S2 & Ec' & Hp').
    injection E as <- <-. rewrite map_case_label in S0. rewrite map_case_label in S1. rewrite map_case_label in S2.
    assert (i' = i) as -> by exact (selects_fun _ _ _ _ Hnd S1 S0).
    rewrite nth_error_map in Ec, Ec'. destruct (nth_error cs i) as [c0|] eqn:E0; [|discriminate].
    exists k2, p2, i, c. rewrite map_case_label, nth_error_map, E0. repeat (split; [assumption||reflexivity|]).
    injection Ec as <-. injection Ec' as <-.
    pose proof (nth_error_In _ _ E0) as Hin. specialize (H _ Hin). specialize (Hwf _ Hin). cbn [map_case c_type] in *.
    destruct (c_type c0); [|exact Hp]. eapply H; eassumption.
  - apply asks_despecialize. eapply IHt; [apply wf_despecialize; exact Hwf|apply same_value_despecialize; eassumption|apply asks_despecialize; exact Hx].
Qed.

(** ** Lists of them *)
Lemma app_split : forall {A} (a b c d : list A), List.length a = List.length b -> (a ++ c)%list = (b ++ d)%list -> a = b /\ c = d.
Proof.
  intros A a. induction a as [|x a IH]; intros [|y b] c d Hl E; try discriminate; [auto|].
  cbn in *. injection E as -> E. destruct (IH b c d) as [-> ->]; auto.
Qed.

Inductive pairwise : list valtype -> list any -> list any -> Prop :=
| pw_nil : pairwise [] [] []
| pw_cons : forall t ts v vs w ws, same_value t v w -> pairwise ts vs ws -> pairwise (t :: ts) (v :: vs) (w :: ws).

Lemma in_turn_same : forall enc m ts cs vs ws, Forall wf_type ts ->
  in_turn (stands_exactly enc m) ts cs vs -> in_turn (lifts_as enc m) ts cs ws -> pairwise ts vs ws.
Proof.
  intros enc m ts cs vs ws Hwf Hs. revert ws. induction Hs as [|t ts c cs v vs Hf Hv Hs IH]; intros ws Hl; inversion Hl; subst.
  - constructor.
  - assert (c0 = c /\ cs0 = cs) as [-> ->].
    { apply flattens_iff in Hf. match goal with H : flattens t (kinds c0) |- _ => apply flattens_iff in H end.
      assert (Hk : kinds c0 = kinds c) by congruence.
      assert (List.length c0 = List.length c) by (unfold kinds in Hk; rewrite <- (map_length cval_kind c0), Hk; apply map_length).
      match goal with H : (_ ++ _)%list = (_ ++ _)%list |- _ => apply app_split in H end; auto. }
    inversion Hwf; subst. constructor; [|apply IH; assumption]. eapply stood_is_lifted; eassumption.
Qed.

Lemma pairwise_types : forall enc ts vs ws, Forall wf_type ts -> pairwise ts vs ws ->
  Forall2 (has_type enc) ts vs -> Forall2 (has_type enc) ts ws.
Proof.
  intros enc ts vs ws Hwf Hp. induction Hp; intros F; inversion F; inversion Hwf; subst; constructor; auto.
  eapply same_value_type; eassumption.
Qed.

Lemma pairwise_asks : forall cx ts vs ws rs, Forall wf_type ts -> pairwise ts vs ws -> Forall2 (has_type (cx_enc cx)) ts vs ->
  all_ask cx ts ws rs -> all_ask cx ts vs rs.
Proof.
  intros cx ts vs ws rs Hwf Hp Hty (parts & F & ->). exists parts. split; [|reflexivity]. revert parts F.
  induction Hp as [|t ts v vs w ws Hs Hp IH]; intros parts F; cbn [combine] in *; inversion F; subst; constructor.
  - inversion Hwf; inversion Hty; subst. cbn [fst snd] in *. destruct (asks_exists (cx_enc cx) t v) as [r Hr]; try assumption.
    match goal with H : asks _ t w ?y |- _ => rewrite (asks_unique (cx_enc cx) t w y r); [exact Hr|assumption|exact H|] end.
    eapply same_asks; eassumption.
  - inversion Hwf; inversion Hty; subst. apply IH; assumption.
Qed.

Lemma pairwise_passed : forall enc m ts cs vs ws, Forall wf_type ts -> pairwise ts vs ws ->
  passed_as enc m ts cs ws -> passed_as enc m ts cs vs.
Proof.
  intros enc m ts cs vs ws Hwf Hp. revert cs. induction Hp; intros cs HP; inversion HP; subst; [constructor|].
  inversion Hwf; subst. constructor; [assumption| |apply IHHp; assumption].
  match goal with H : exists v', _ |- _ => destruct H as (v' & S1 & S2) end.
  exists v'. split; [exact S1|]. eapply same_value_trans; eassumption.
Qed.

Lemma exact_receivable : forall enc m ts cs vs, in_turn (stands_exactly enc m) ts cs vs -> receivable enc m ts cs.
Proof. intros enc m ts cs vs H. exists vs. eapply in_turn_mono; [|exact H]. intros. eapply exact_liftable; eassumption. Qed.
