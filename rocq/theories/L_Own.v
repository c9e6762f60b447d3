(** Store writes only the bytes that the value occupies. *)
From Coq Require Import NArith ZArith List String Ascii Bool Lia ZifyBool ZifyNat ZifyN.
From Verif Require Import GoBase M_Types M_Layout S_Layout L_Layout M_State M_Utf M_Load M_Store M_Flat
  S_Values S_Memory S_Access S_Own L_Access L_Variant L_Labels L_Despecialize L_Mem L_Frame L_RoundTrip L_StoreLoad L_Lifted L_Format.
Import ListNotations.
Open Scope N_scope.
Open Scope go_scope.

Lemma own_despecialize : forall t v p b, own_bytes (despecialize t) v p b <-> own_bytes t v p b.
Proof.
  destruct t; intros v p b; try reflexivity; cbn [despecialize own_bytes].
  - rewrite (map_itoa_fields (fun t => (sp_layout t, own_bytes t))). reflexivity.
  - rewrite map_enum_cases. reflexivity.
  - rewrite map_itoa_cases. reflexivity.
Qed.

(** [m], run with the [n] bytes from [p] on in memory, writes at most the
    addresses [W] and fresh blocks. *)
Definition keeps (init W : N -> Prop) (p n : N) (m : M unit) : Prop :=
  forall s o s', good s -> p + n <= len s -> m s = (o, s') -> step init s s' W.

Lemma keeps_ret init W p n : keeps init W p n (ret tt).
Proof. intros s o s' Hg _ H. inversion H; subst. apply step_refl. assumption. Qed.

Lemma keeps_sub init (W W' : N -> Prop) p n q k m :
  keeps init W q k m -> q + k <= p + n -> (forall b, W b -> W' b) -> keeps init W' p n m.
Proof.
  intros H Hk HW s o s' Hg Hl E. eapply step_weaken; [eapply H; try eassumption; lia|auto].
Qed.

Lemma keeps_bind init W p n m f : keeps init W p n m -> keeps init W p n f -> keeps init W p n (m ;; f).
Proof.
  intros Hm Hf s o s' Hg Hl E. unfold bind in E.
  destruct (m s) as [o1 s1] eqn:E1. specialize (Hm _ _ _ Hg Hl E1).
  destruct o1; try (inversion E; subst; assumption).
  pose proof (st_len _ _ _ _ Hm).
  eapply step_trans; [exact Hm|eapply Hf; try eassumption; [apply Hm|lia]| |]; auto.
Qed.

Lemma keeps_lift {A} init W p n (o : outcome A) f :
  (forall a, o = Ok a -> keeps init W p n (f a)) -> keeps init W p n (let* a := lift_o o in f a).
Proof.
  intros H s o' s' Hg Hl E. destruct o.
  - rewrite bind_lift_ok in E. eapply H; try eassumption. reflexivity.
  - unfold bind, lift_o in E. inversion E; subst. apply step_refl; assumption.
  - unfold bind, lift_o in E. inversion E; subst. apply step_refl; assumption.
  - unfold bind, lift_o in E. inversion E; subst. apply step_refl; assumption.
Qed.

Definition own_ok (cx : callctx) (init : N -> Prop) (t : valtype) : Prop :=
  forall a sz v p, sp_layout t = Some (a, sz) -> lists_fit t v -> p + sz < two32 ->
  keeps init (own_bytes t v p) p sz (store cx t v p).

(** When the value occupies its whole place, there is nothing more to show. *)
Lemma own_whole cx init t : correct_allocator cx init ->
  (forall a sz v p b, sp_layout t = Some (a, sz) -> within p sz b -> own_bytes t v p b) -> own_ok cx init t.
Proof.
  intros Hc HW a sz v p Hl Hf Hp s o s' Hg Hlen E.
  eapply step_weaken; [eapply (frame_ok_all cx init t Hc); eassumption|]. intros b _. apply (HW a sz v p b Hl).
Qed.

Lemma store_at_keeps : forall cx init fs ls pos base n m (W : N -> Prop),
  Forall (fun f => own_ok cx init (snd f)) fs ->
  Forall (fun f => lists_fit (snd f) (match map_get m (fst f) with Some v => v | None => VNil end)) fs ->
  all_some (map (fun f => sp_layout (snd f)) fs) = Some ls ->
  base + n < two32 -> fields_end pos ls <= n ->
  (forall f o b, In (f, o) (combine fs (field_offsets pos ls)) ->
     own_bytes (snd f) (match map_get m (fst f) with Some v => v | None => VNil end) (base + o) b -> W b) ->
  keeps init W base n
    (store_at (map (fun f => (fst f, store cx (snd f))) fs) (map (N.add base) (field_offsets pos ls)) m).
Proof.
  intros cx init fs. induction fs as [|[l t] fs IH]; intros ls pos base n m W Hf Hm Hs Hb He HW.
  - cbn in Hs. injection Hs as <-. apply keeps_ret.
  - cbn in Hs. destruct (sp_layout t) as [[a sz]|] eqn:Et; [|discriminate].
    destruct (all_some _) as [ls'|] eqn:El; [|discriminate]. injection Hs as <-.
    inversion Hf as [|? ? Hf1 Hf2]; subst. inversion Hm as [|? ? Hm1 Hm2]; subst. cbn [fst snd] in *.
    pose proof (all_some_valid snd fs ls' El) as Hv.
    destruct (sp_layout_facts _ _ _ Et) as (_ & Hva & _).
    cbn [fields_end] in He. pose proof (fields_end_ge ls' (up_to a pos + sz) Hv).
    cbn [map field_offsets store_at fst snd]. cbn [field_offsets combine] in HW. apply keeps_bind.
    + eapply keeps_sub; [eapply Hf1; [exact Et|exact Hm1|lia]|lia|].
      intros b Hin. apply (HW (l, t) (up_to a pos) b); [left; reflexivity|exact Hin].
    + apply IH; try assumption || reflexivity. intros f o b Hin. apply HW. right. exact Hin.
Qed.

Lemma in_combine_map {A B C} (g : A -> B) : forall (l : list A) (k : list C) x y,
  In (x, y) (combine l k) -> In (g x, y) (combine (map g l) k).
Proof.
  induction l as [|a l IH]; intros [|c k] x y H; cbn in *; try contradiction.
  destruct H as [E|H]; [injection E as -> ->; left; reflexivity|right; apply IH, H].
Qed.

Lemma own_ok_all : forall cx init t, correct_allocator cx init -> own_ok cx init t.
Proof.
  intros cx init t Hc. induction t using valtype_ind';
    try (apply own_whole; [exact Hc|]; intros al sz v p q Hl Hb; cbn in Hl; try discriminate Hl;
         injection Hl as <- <-; exact Hb).
  - (* record *)
    intros a sz v p Hl Hfit Hp. cbn [sp_layout] in Hl.
    destruct (all_some (map (fun f => sp_layout (snd f)) fs)) as [ls|] eqn:El; [|discriminate].
    cbn [bindo] in Hl. assert (Hl' : sp_layout (TRecord fs) = Some (a, sz)) by (cbn [sp_layout]; rewrite El; exact Hl).
    assert (Hr : sp_record ls = (a, sz)) by congruence.
    destruct (sp_layout_facts _ _ _ Hl') as (Ha & Hva & _ & Hs).
    pose proof (all_some_valid snd fs ls El) as Hv. pose proof (sp_record_end ls Hv) as He. rewrite Hr in He. cbn [snd] in He.
    intros s o s' Hg Hlen E.
    destruct (guarded_cases (alignment (TRecord fs)) (size (TRecord fs)) a sz
       (store_record (map (fun f => (fst f, mkComp (alignment (snd f)) (size (snd f)) (store cx (snd f)))) fs))
       v p s Ha (Hs ltac:(lia)) Hva Hg Hp) as [(Hd & _ & G)|[G _]].
    2:{ unfold store in E; fold store in E. rewrite G in E. inversion E; subst. apply step_refl; assumption. }
    destruct v; try (unfold store in E; fold store in E; rewrite G in E; inversion E; subst; apply step_refl; assumption).
    rewrite (record_store_offsets cx fs ls) in E; try assumption.
    + eapply (store_at_keeps cx init fs ls 0 p sz m); try eassumption.
      * cbn in Hfit. specialize (Hfit m eq_refl). clear - Hfit.
        induction fs as [|f fs IH]; constructor; inversion Hfit; subst; auto.
        destruct (map_get m (fst f)) eqn:Ef; [apply H1; assumption|apply lists_fit_nil].
      * intros f q b Hin Hb. cbn [own_bytes].
        exists m, ls, (fst f, (sp_layout (snd f), own_bytes (snd f))), q. split; [reflexivity|]. split.
        { rewrite map_map. cbn [fst snd]. exact El. }
        split; [|exact Hb].
        apply (in_combine_map (fun f : string * valtype => (fst f, (sp_layout (snd f), own_bytes (snd f)))) fs _ f q Hin).
    + rewrite Hr. assumption.
    + rewrite Hr. assumption.
    + rewrite Hr, mem_len32_ok by assumption. exact Hlen.
  - (* variant *)
    intros a sz v p Hl Hfit Hp.
    assert (Hl' := Hl). cbn [sp_layout] in Hl.
    destruct (all_some (payload_types (map (map_case sp_layout) cs))) as [ls|] eqn:El; [|discriminate].
    cbn [bindo] in Hl. destruct (sp_variant_inv _ _ _ _ Hl) as (d & dt & Hd & _ & _ & Hvd & _ & _ & Hcase & Hpos).
    destruct (variant_payload_placed _ _ _ _ _ El Hl' Hd) as (Hpo & _ & _ & Hpl).
    destruct (sp_layout_facts _ _ _ Hl') as (Ha & Hva & _ & Hs).
    assert (Hn : N.of_nat (List.length cs) < two32).
    { change (2 ^ 8) with 256 in *; change (2 ^ 16) with 65536 in *; change (2 ^ 24) with 16777216 in *; unfold two32; lia. }
    intros s o s' Hg Hlen E.
    destruct (guarded_cases (alignment (TVariant cs)) (size (TVariant cs)) a sz
       (store_variant (map (map_case (fun t => mkComp (alignment t) (size t) (store cx t))) cs))
       v p s Ha (Hs ltac:(lia)) Hva Hg Hp) as [(Hdv & _ & G)|[G _]].
    2:{ unfold store in E; fold store in E. rewrite G in E. inversion E; subst. apply step_refl; assumption. }
    rewrite (variant_store_offsets cx cs ls a sz d) in E; try assumption;
      [|rewrite mem_len32_ok by assumption; exact Hlen].
    clear G. revert s o s' Hg Hlen E.
    change (keeps init (own_bytes (TVariant cs) v p) p sz (let* (i, p0) := lift_o (match_case v cs) in
      store_uint d i p ;; match nth_error cs (N.to_nat i) with
        | Some c => match c_type c with Some t => store cx t p0 (p + payload_offset d ls) | None => ret tt end
        | None => lift_o Panic end)).
    apply keeps_lift. intros [i x] Em.
    destruct (match_case_inv _ _ _ _ Hn Em) as (key & Ev & Hsel).
    assert (Hlen' : disc_size (List.length (map (map_case (fun t => (sp_layout t, own_bytes t))) cs)) = Some d)
      by (rewrite map_length; exact Hd).
    assert (Hsel' : selects (map c_label (map (map_case (fun t => (sp_layout t, own_bytes t))) cs)) key (N.to_nat i)).
    { rewrite map_map. exact Hsel. }
    assert (Hdsz : d <= sz).
    { assert (X : payload_offset d ls <= sz).
      { pose proof (sp_variant_inv _ _ _ _ Hl) as (d' & _ & Hd' & _ & _ & _ & _ & Hsz & _).
        assert (d' = d) by congruence. subst d'.
        pose proof (up_to_ge a (payload_offset d ls + max_size ls) (valid_align_nz _ Hva)). lia. }
      lia. }
    apply keeps_bind.
    + apply (keeps_sub init (within p d) _ p sz p d); [|lia|].
      * apply framed_store_bytes; [apply int_bytes_bytes|apply int_bytes_length].
      * intros b Hb. cbn [own_bytes]. exists d, key, x, (N.to_nat i). auto.
    + destruct (nth_error cs (N.to_nat i)) as [c|] eqn:Ei;
        [|intros s o s' Hg Hlen E; inversion E; subst; apply step_refl; assumption].
      destruct (c_type c) as [t|] eqn:Et; [|apply keeps_ret].
      destruct (payload_layout _ _ _ _ El (nth_error_In _ _ Ei) Et) as ([pa ps] & Hpt & _).
      destruct (Hpl c t pa ps (nth_error_In _ _ Ei) Et Hpt) as (_ & _ & Hin).
      assert (IHc : own_ok cx init t).
      { rewrite Forall_forall in H. specialize (H c (nth_error_In _ _ Ei)). rewrite Et in H. exact H. }
      apply (keeps_sub init (own_bytes t x (p + payload_offset d ls)) _ p sz (p + payload_offset d ls) ps); [|lia|].
      * eapply IHc; [exact Hpt| |lia].
        cbn in Hfit. specialize (Hfit key x (N.to_nat i) (map_case lists_fit c) Ev).
        rewrite map_map in Hfit. specialize (Hfit Hsel). rewrite nth_error_map, Ei in Hfit.
        specialize (Hfit eq_refl). cbn in Hfit. rewrite Et in Hfit. exact Hfit.
      * intros b Hb. cbn [own_bytes]. exists d, key, x, (N.to_nat i). split; [exact Hlen'|]. split; [exact Ev|].
        split; [exact Hsel'|]. right.
        exists ls, (map_case (fun t => (sp_layout t, own_bytes t)) c), (sp_layout t, own_bytes t).
        split.
        { rewrite (payload_types_map (fun t => (sp_layout t, own_bytes t)) fst). exact El. }
        rewrite nth_error_map, Ei. split; [reflexivity|]. split; [cbn; rewrite Et; reflexivity|exact Hb].
  - (* flags *)
    apply own_whole; [exact Hc|]. intros a sz v p b Hl Hb. cbn [sp_layout] in Hl. cbn [own_bytes].
    assert (sp_flags (List.length ls) = (a, sz)) as -> by congruence. exact Hb.
  - (* specialised *)
    intros a sz v p Hl Hfit Hp. rewrite <- sp_layout_despecialize in Hl. apply lists_fit_despecialize in Hfit.
    rewrite <- store_despecialize. eapply keeps_sub; [eapply IHt; eassumption|lia|].
    intros b. apply own_despecialize.
Qed.

(** The bytes a value occupies are in its place. *)
Lemma own_inside_all : forall t a sz v p b, sp_layout t = Some (a, sz) -> own_bytes t v p b -> within p sz b.
Proof.
  intros t. induction t using valtype_ind'; intros al sz v p q Hl Hb;
    try (cbn in Hl; try discriminate Hl; injection Hl as <- <-; exact Hb).
  - (* record *)
    cbn [sp_layout] in Hl.
    destruct (all_some (map (fun f => sp_layout (snd f)) fs)) as [ls|] eqn:El; [|discriminate].
    cbn [bindo] in Hl. assert (Hr : sp_record ls = (al, sz)) by congruence.
    pose proof (all_some_valid snd fs ls El) as Hv. pose proof (sp_record_end ls Hv) as He. rewrite Hr in He. cbn [snd] in He.
    destruct Hb as (m & ls' & f & o & -> & El' & Hin & Hb). rewrite map_map in El'. cbn [fst snd] in El'.
    assert (ls' = ls) by congruence. subst ls'.
    assert (X : forall pos, fields_end pos ls <= sz ->
      In (f, o) (combine (map (fun f => (fst f, (sp_layout (snd f), own_bytes (snd f)))) fs) (field_offsets pos ls)) ->
      within p sz q).
    2:{ apply (X 0 He Hin). }
    clear Hin El' Hl Hr He. revert ls El Hv. induction H as [|[l t] fs Ht H IH]; intros ls El Hv pos He Hin; [contradiction|].
    cbn in El. cbn [snd] in Ht. destruct (sp_layout t) as [[a s]|] eqn:Et; [|discriminate].
    destruct (all_some _) as [ls'|] eqn:El'; [|discriminate]. injection El as <-.
    pose proof (all_some_valid snd fs ls' El') as Hv'. destruct (sp_layout_facts _ _ _ Et) as (_ & Hva & _).
    cbn [fields_end] in He. pose proof (fields_end_ge ls' (up_to a pos + s) Hv').
    cbn [map combine field_offsets fst snd] in Hin. destruct Hin as [E|Hin].
    + inversion E; subst. cbn [fst snd] in Hb. specialize (Ht _ _ _ _ _ eq_refl Hb). unfold within in *. lia.
    + apply (IH _ eq_refl Hv' (up_to a pos + s)); assumption.
  - (* variant *)
    assert (Hl' := Hl). cbn [sp_layout] in Hl.
    destruct (all_some (payload_types (map (map_case sp_layout) cs))) as [ls|] eqn:El; [|discriminate].
    cbn [bindo] in Hl. destruct (sp_variant_inv _ _ _ _ Hl) as (d & dt & Hd & _ & _ & Hvd & _ & Hsz & Hcase & Hpos).
    destruct (variant_payload_placed _ _ _ _ _ El Hl' Hd) as (Hpo & _ & _ & Hpl).
    destruct (sp_layout_facts _ _ _ Hl') as (Ha & Hva & _ & Hs).
    destruct Hb as (d' & key & x & i & Hd' & _ & _ & Hb). rewrite map_length in Hd'.
    assert (d' = d) by congruence. subst d'. destruct Hb as [Hb|(ls' & c & r & El' & Ei & Ec & Hb)].
    + pose proof (up_to_ge al (payload_offset d ls + max_size ls) (valid_align_nz _ Hva)). unfold within in *. lia.
    + rewrite (payload_types_map (fun t => (sp_layout t, own_bytes t)) fst) in El'. cbn [fst] in El'.
      assert (Some ls' = Some ls) as X by (rewrite <- El; symmetry; exact El'). injection X as ->.
      rewrite nth_error_map in Ei. destruct (nth_error cs i) as [c0|] eqn:E0; [|discriminate].
      injection Ei as <-. cbn in Ec. destruct (c_type c0) as [t|] eqn:Et; [|discriminate]. injection Ec as <-.
      destruct (payload_layout _ _ _ _ El (nth_error_In _ _ E0) Et) as ([pa ps] & Hpt & _).
      destruct (Hpl c0 t pa ps (nth_error_In _ _ E0) Et Hpt) as (_ & _ & Hin).
      rewrite Forall_forall in H. specialize (H c0 (nth_error_In _ _ E0)). rewrite Et in H.
      specialize (H _ _ _ _ _ Hpt Hb). unfold within in *. lia.
  - (* flags *)
    cbn [sp_layout] in Hl. cbn [own_bytes] in Hb.
    assert (sp_flags (List.length ls) = (al, sz)) as E by congruence. rewrite E in Hb. exact Hb.
  - rewrite <- sp_layout_despecialize in Hl. apply own_despecialize in Hb. eapply IHt; eassumption.
Qed.
