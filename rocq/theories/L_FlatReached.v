(** What a successful lift has reached lies inside memory. *)
From Coq Require Import NArith ZArith List String Ascii Bool Lia ZifyBool ZifyNat ZifyN.
From Verif Require Import GoBase M_Types M_Layout S_Layout L_Layout M_State M_Utf M_Load M_Store M_Flat
  S_Utf S_Values S_Memory S_Access S_Flat S_Format S_FlatFormat S_Reached L_Access L_Variant L_Labels L_Despecialize
  L_Mem L_Utf L_Flags L_FlagWords L_Frame L_RoundTrip L_StoreLoad L_Lifted L_CtxFree L_Flat L_Format L_FlatFormat L_Looks L_FlatLooks L_Reached.
Import ListNotations.
Open Scope N_scope.
Open Scope go_scope.

Lemma flat_reached_despecialize : forall m T L t cs, flat_reached m T L (despecialize t) cs <-> flat_reached m T L t cs.
Proof.
  destruct t; intros cs; try reflexivity; cbn [despecialize flat_reached].
  - rewrite (map_itoa_fields (fun t => (flattens t, flat_reached m T L t))). reflexivity.
  - rewrite map_enum_cases. reflexivity.
  - rewrite map_itoa_cases. reflexivity.
Qed.

Notation inside cx m := (flat_reached m (text_inside (cx_enc cx) m) (list_inside m)).

Definition flat_reach (cx : callctx) (t : valtype) : Prop :=
  forall cs it it' s v it2 s', flatten_type t = Ok (kinds cs) -> wf_type t -> good s -> roomy (cap s) t ->
  Forall cval_ok cs -> yields it cs it' -> lift_flat cx t it s = (Ok (v, it2), s') ->
  it2 = it' /\ s_mem s' = s_mem s /\ inside cx (s_mem s) t cs.

Lemma reach_flat_fields : forall cx fs css it it' acc s r it2 s',
  Forall (fun f => flat_reach cx (snd f)) fs -> Forall (fun f => wf_type (snd f)) fs -> good s ->
  Forall (fun f => roomy (cap s) (snd f)) fs ->
  Forall cval_ok (List.concat css) ->
  Forall2 (fun f ps => flatten_type (snd f) = Ok (kinds ps)) fs css ->
  yields it (List.concat css) it' ->
  lift_fields (map (fun f => (fst f, lift_flat cx (snd f))) fs) acc it s = (Ok (r, it2), s') ->
  it2 = it' /\ s_mem s' = s_mem s /\ Forall2 (fun f ps => inside cx (s_mem s) (snd f) ps) fs css.
Proof.
  intros cx fs. induction fs as [|[l t] fs IH]; intros css it it' acc s r it2 s' H Hwf G Hr Hok Hk Y E.
  - inversion Hk; subst. cbn in Y. subst it'. cbn in E. unfold ret in E. injection E as _ <- <-. auto.
  - inversion Hk as [|? ps ? css' Hk1 Hk2]; subst. cbn [fst snd] in *.
    inversion H as [|? ? H1 H2]; subst. inversion Hwf as [|? ? Hwf1 Hwf2]; subst. inversion Hr as [|? ? Hr1 Hr2]; subst. cbn [fst snd] in *.
    cbn [List.concat] in *. apply Forall_app in Hok. destruct Hok as [Hok1 Hok2].
    apply yields_app in Y. destruct Y as (it1 & Y1 & Y2).
    cbn [map fst snd lift_fields] in E. apply bind_inv in E. destruct E as ([v it3] & s1 & Ev & E).
    destruct (H1 ps it it1 s v it3 s1 Hk1 Hwf1 G Hr1 Hok1 Y1 Ev) as (-> & Em & Hi).
    assert (G1 : good s1) by (unfold good; rewrite Em; exact G).
    assert (Hr3 : Forall (fun f => roomy (cap s1) (snd f)) fs) by (unfold cap in *; rewrite Em; exact Hr2).
    destruct (IH css' it1 it' _ s1 r it2 s' H2 Hwf2 G1 Hr3 Hok2 Hk2 Y2 E) as (-> & Em2 & Hi2).
    split; [reflexivity|]. split; [congruence|]. constructor; [exact Hi|]. rewrite <- Em. exact Hi2.
Qed.

Lemma flat_reach_record : forall cx fs, Forall (fun f => flat_reach cx (snd f)) fs -> flat_reach cx (TRecord fs).
Proof.
  intros cx fs H cs it it' s v it2 s' Hk [Hnd Hwt] G Hr Hok Y E. apply all_Forall in Hwt.
  cbn [flatten_type] in Hk. apply flatten_record_inv in Hk. destruct Hk as (kss & Hk & Ek).
  destruct (split_kinds kss cs Ek) as (css & -> & <-).
  assert (HK : Forall2 (fun f ps => flatten_type (snd f) = Ok (kinds ps)) fs css).
  { clear - Hk. revert css Hk. induction fs as [|f fs IH]; intros [|ps css] Hk; try discriminate; constructor; cbn in Hk.
    - injection Hk as E _. exact E.
    - apply IH. injection Hk as _ E. exact E. }
  cbn [roomy] in Hr. apply free_all in Hr.
  cbn [lift_flat] in E. unfold lift_flat_record in E. apply bind_inv in E. destruct E as ([mp it3] & s1 & E & Er).
  unfold ret in Er. injection Er as _ <- <-.
  destruct (reach_flat_fields cx fs css it it' [] s mp it3 s1 H Hwt G Hr Hok HK Y E) as (-> & Em & HF).
  split; [reflexivity|]. split; [exact Em|]. cbn [flat_reached]. intros css' Ec HF'.
  rewrite Forall2_map_l in HF' |- *. cbn [fst snd] in *.
  assert (css' = css) as ->; [|exact HF].
  apply concat_split; [|congruence]. clear - HF' HK. revert css HK.
  induction HF' as [|f ps fs css' Hf HF' IH]; intros css HK; inversion HK; subst; [reflexivity|].
  cbn. f_equal; [|auto]. apply flattens_iff in Hf. congruence.
Qed.

Lemma flat_reach_variant : forall cx xs, Forall (fun c => opt_all (flat_reach cx) (c_type c)) xs -> flat_reach cx (TVariant xs).
Proof.
  intros cx xs H cs it it' s v it9 s' Hk Hwf G Hr Hok Y E.
  cbn [wf_type] in Hwf. destruct Hwf as [(Hnd & Hbf & Hre) Hwt]. apply all_Forall in Hwt.
  assert (Hk' := Hk). cbn [flatten_type] in Hk. destruct (flatten_variant_inv _ _ Hk) as (kss & flat & Ep & HJ & Ek & dt & Hdt).
  rewrite payloads_map in Ep. rewrite map_length in Hdt. pose proof (discriminant_bound _ _ Hdt) as Hn.
  destruct cs as [|d rest]; [discriminate|]. cbn [kinds map] in Ek. injection Ek as Ed Er. destruct d as [i0| | | ]; try discriminate.
  fold (kinds rest) in Er. subst flat.
  inversion Hok as [|? ? Hi Hokr]; subst. cbn [cval_ok] in Hi.
  cbn [yields cval_kind cval_any] in Y. destruct Y as (it1 & E1 & Y).
  assert (LD : lift_flat cx (TVariant xs) it s =
     (match nth_error xs (N.to_nat i0) with
     | None => lift_o (Err ETrap)
     | Some c =>
        match c_type c with
        | None =>
            let* it := lift_o (skip_flat (kinds rest) it1) in
            let* label := lift_o (case_label c xs) in
            ret (VMap [(label, VNil)], it)
        | Some t =>
              let* (v, cit) := lift_flat cx t (ICoerce it1 (kinds rest)) in
              match cit with
              | ICoerce it rest =>
                  let* it := lift_o (skip_flat rest it) in
                  let* label := lift_o (case_label c xs) in
                  ret (VMap [(label, v)], it)
              | IBase _ _ => lift_o Panic
              end
        end
     end) s).
  { cbn [lift_flat]. unfold lift_flat_variant. rewrite Hk', bind_lift_ok. cbn [kinds map cval_kind kind_eqb negb].
    erewrite bind_ok; [|apply next_u32_val; exact E1]. cbv beta iota. rewrite map_length.
    destruct (N.leb_spec (N.of_nat (List.length xs)) i0).
    - rewrite (proj2 (nth_error_None xs (N.to_nat i0))) by lia. reflexivity.
    - rewrite nth_error_map. destruct (nth_error xs (N.to_nat i0)) as [c|] eqn:Ec.
      2:{ apply nth_error_None in Ec. lia. }
      cbn [option_map c_type map_case]. destruct (c_type c) as [t|] eqn:Et.
      + assert (EL : case_label (map_case (lift_flat cx) c) (map (map_case (lift_flat cx)) xs) = case_label c xs) by apply case_label_map.
        fold (map (@cval_kind) rest) in *. change (map cval_kind rest) with (kinds rest).
        change (mkCase (c_label c) (Some (lift_flat cx t)) (c_refines c)) with (mkCase (c_label c) (Some (lift_flat cx t)) (c_refines c)).
        unfold map_case at 1 in EL. rewrite Et in EL. unfold map_case at 1. rewrite Et. rewrite EL. reflexivity.
      + rewrite case_label_map. reflexivity. }
  rewrite LD in E. clear LD.
  assert (Hex : exists i, i0 = N.of_nat i) by (exists (N.to_nat i0); lia). destruct Hex as [i ->]. rewrite !Nat2N.id in E. clear Hi.
  destruct (nth_error xs i) as [c|] eqn:Ei; [|discriminate E].
  assert (Hic : In c xs) by (eapply nth_error_In; exact Ei).
  assert (Hlab : exists l, case_label c xs = Ok l).
  { apply case_label_ends. rewrite Forall_forall in Hre. auto. }
  destruct Hlab as [l Hlab].
  destruct (c_type c) as [t|] eqn:Et.
  - destruct (payload_flat xs kss c t Ep Hic Et) as (ks & Ekt & Hin).
    pose proof (joined_below _ _ _ HJ Hin) as Hb.
    assert (Hlen : (List.length ks <= List.length rest)%nat).
    { destruct Hb as [Hb _]. unfold kinds in Hb. rewrite map_length in Hb. exact Hb. }
    pose proof (narrows_kinds ks rest Hlen) as Enk.
    rewrite Forall_forall in H, Hwt. specialize (H c Hic). specialize (Hwt c Hic).
    cbn [roomy] in Hr. apply free_all in Hr. rewrite Forall_forall in Hr. specialize (Hr c Hic).
    rewrite Et in H, Hwt, Hr.
    destruct (yields_narrow ks rest it1 it' Hokr Hb Y) as (it2 & flat2 & Y2 & Hs).
    apply bind_inv in E. destruct E as ([x it3] & s1 & Ex & E).
    assert (Hkn : flatten_type t = Ok (kinds (narrows ks rest))) by congruence.
    destruct (H (narrows ks rest) _ _ s x it3 s1 Hkn Hwt G Hr (narrows_ok ks rest) Y2 Ex) as (-> & Em & HI).
    rewrite Hs, bind_lift_ok, Hlab, bind_lift_ok in E. unfold ret in E. injection E as _ <- <-.
    split; [reflexivity|]. split; [exact Em|]. cbn [flat_reached]. intros j rest' c' q ps Ec Hj Hq Hf HF.
    assert (N.of_nat j = N.of_nat i /\ rest' = rest) as [Ej ->] by (split; congruence). apply Nat2N.inj in Ej. subst j.
    rewrite nth_error_map, Ei in Hj. injection Hj as <-. cbn in Hq. rewrite Et in Hq. injection Hq as <-. cbn [fst snd] in *.
    apply narrows_unique in HF. apply flattens_iff in Hf. assert (Eps : kinds ps = ks) by congruence.
    rewrite HF, Eps. exact HI.
  - destruct (yields_narrow [] rest it1 it' Hokr) as (it2 & flat2 & Y2 & Hs); [split; [cbn; lia|intros [|j]; discriminate]|exact Y|].
    cbn [narrows yields] in Y2. injection Y2 as -> ->. rewrite Hs, bind_lift_ok, Hlab, bind_lift_ok in E.
    unfold ret in E. injection E as _ <- <-. split; [reflexivity|]. split; [reflexivity|].
    cbn [flat_reached]. intros j rest' c' q ps Ec Hj Hq Hf HF.
    assert (N.of_nat j = N.of_nat i) as Ej by congruence. apply Nat2N.inj in Ej. subst j.
    rewrite nth_error_map, Ei in Hj. injection Hj as <-. cbn in Hq. rewrite Et in Hq. discriminate.
Qed.

Lemma flat_reach_all : forall cx t, flat_reach cx t.
Proof.
  intros cx t. induction t using valtype_ind';
    [ | | | | | | | | | | | | | |apply flat_reach_record; assumption|apply flat_reach_variant; assumption| | | | | ];
    intros cs it it' s v it2 s' Hk Hwf G Hr Hok Y E.
  all: try (injection Hk as Hk; symmetry in Hk;
     first [apply kinds_u32 in Hk; destruct Hk as (n & ->)|apply kinds_u64 in Hk; destruct Hk as (n & ->)
           |apply kinds_f32 in Hk; destruct Hk as (n & ->)|apply kinds_f64 in Hk; destruct Hk as (n & ->)];
     apply yields_one in Y; cbn [cval_kind cval_any] in Y; inversion Hok as [|? ? Hn _]; subst; cbn [cval_ok] in Hn).
  all: try (cbn [lift_flat] in E; unfold lmap in E; erewrite bind_ok in E;
     [|first [apply next_u32_val; exact Y|apply next_u64_val; exact Y|apply next_f32_val; exact Y|apply next_f64_val; exact Y]]; cbv beta iota in E;
     unfold ret in E; injection E as _ <- <-; split; [reflexivity|split; [reflexivity|exact I]]).
  - cbn [lift_flat] in E. unfold lift_flat_char in E. erewrite bind_ok in E by (apply next_u32_val; exact Y). cbv beta iota in E.
    apply bind_inv in E. destruct E as (r & s1 & Er & E). unfold ret in E. injection E as _ <- <-.
    unfold lift_o in Er. injection Er as _ <-. split; [reflexivity|split; [reflexivity|exact I]].
  - injection Hk as Hk; symmetry in Hk. apply kinds_pair in Hk. destruct Hk as (p & n & ->).
    destruct Y as (it1 & E1 & Y). apply yields_one in Y. cbn [cval_kind cval_any] in *.
    inversion Hok as [|? ? Hp Hok1]; subst. inversion Hok1 as [|? ? Hn _]; subst. cbn [cval_ok] in Hp, Hn.
    cbn [lift_flat] in E. unfold lift_flat_string in E. erewrite bind_ok in E by (apply next_u32_val; exact E1). cbv beta iota in E.
    erewrite bind_ok in E by (apply next_u32_val; exact Y). cbv beta iota in E.
    apply bind_inv in E. destruct E as (x & s1 & Ex & E). unfold ret in E. injection E as _ <- <-.
    split; [reflexivity|]. split; [apply (gives_text cx p n s _ s1 G Ex)|].
    cbn [flat_reached]. intros st w Ew. injection Ew as <- <-. eapply reach_text; eassumption.
  - injection Hk as Hk; symmetry in Hk. apply kinds_pair in Hk. destruct Hk as (p & n & ->).
    destruct Y as (it1 & E1 & Y). apply yields_one in Y. cbn [cval_kind cval_any] in *.
    inversion Hok as [|? ? Hp Hok1]; subst. inversion Hok1 as [|? ? Hn _]; subst. cbn [cval_ok] in Hp, Hn.
    destruct Hwf as [Hwf (a & sz & Hlt & Hsz)]. destruct Hr as [Hr1 Hr2].
    destruct (sp_layout_facts _ _ _ Hlt) as (Ha & Hva & Hdv & Hs). specialize (Hs Hsz).
    cbn [lift_flat] in E. unfold lift_flat_list in E. rewrite Ha, Hs in E. erewrite bind_ok in E by (apply next_u32_val; exact E1). cbv beta iota in E.
    erewrite bind_ok in E by (apply next_u32_val; exact Y). cbv beta iota in E.
    apply bind_inv in E. destruct E as (x & s1 & Ex & E). unfold ret in E. injection E as _ <- <-.
    split; [reflexivity|]. split.
    + eapply (gives_list (Ok a) (Ok sz) (load cx t) p n (lifted t)); [intros q; apply load_gives; exact Hwf|exact G|exact Ex].
    + cbn [flat_reached]. intros st w Ew. injection Ew as <- <-.
      eapply (reach_items cx t a sz); try eassumption; [apply reach_all|apply (Hr1 a sz Hlt)].
  - assert (Ek : kinds cs = repeat KU32 (N.to_nat (num_i32_flags ls))) by (cbn [flatten_type] in Hk; congruence). clear Hk.
    destruct (kinds_words _ _ Ek) as (ws & -> & Hwn). clear Ek.
    destruct (flag_words_end ws 0 0 it it' Y) as [y Ey].
    cbn [lift_flat] in E. unfold lift_flat_flags in E. rewrite <- Hwn in E. erewrite bind_ok in E by apply Ey. cbv beta iota in E.
    unfold ret in E. injection E as _ <- <-. split; [reflexivity|split; [reflexivity|exact I]].
  - cbn [lift_flat] in E. unfold lift_flat_handle in E. erewrite bind_ok in E by (unfold lift_o; rewrite Y; reflexivity). cbv beta iota in E.
    apply bind_inv in E. destruct E as (x & s1 & Ex & E). unfold ret in E. injection E as _ <- <-.
    split; [reflexivity|]. split; [apply (gives_lift_own cx _ _ s _ s1 G Ex)|exact I].
  - cbn [lift_flat] in E. unfold lift_flat_handle in E. erewrite bind_ok in E by (unfold lift_o; rewrite Y; reflexivity). cbv beta iota in E.
    apply bind_inv in E. destruct E as (x & s1 & Ex & E). unfold ret in E. injection E as _ <- <-.
    split; [reflexivity|]. split; [apply (gives_lift_borrow cx _ _ s _ s1 G Ex)|exact I].
  - discriminate.
  - rewrite <- flatten_despecialize in Hk. apply wf_despecialize in Hwf. apply roomy_despecialize in Hr.
    rewrite <- lift_flat_despecialize in E.
    destruct (IHt cs it it' s v it2 s' Hk Hwf G Hr Hok Y E) as (-> & Em & HI). split; [reflexivity|]. split; [exact Em|].
    apply flat_reached_despecialize. exact HI.
Qed.

Section FlatCombine.
  Variable m : memory.
  Variables T1 T2 T3 : N -> N -> Prop.
  Variables L1 L2 L3 : N -> N -> N -> Prop.
  Hypothesis HT : forall st w, w < two32 -> T1 st w -> T2 st w -> T3 st w.
  Hypothesis HL : forall st n sz, L1 st n sz -> L2 st n sz -> L3 st n sz.
  Hypothesis Hm : wf_mem m.

  Lemma flat_combine_fields : forall (fs : list (string * valtype)),
    Forall (fun f => forall cs, Forall cval_ok cs -> flat_reached m T1 L1 (snd f) cs -> flat_reached m T2 L2 (snd f) cs -> flat_reached m T3 L3 (snd f) cs) fs ->
    forall css, Forall cval_ok (List.concat css) ->
    Forall2 (fun f ps => flat_reached m T1 L1 (snd f) ps) fs css -> Forall2 (fun f ps => flat_reached m T2 L2 (snd f) ps) fs css ->
    Forall2 (fun f ps => flat_reached m T3 L3 (snd f) ps) fs css.
  Proof.
    intros fs H. induction H as [|f fs H0 H IH]; intros css Hok H1 H2; inversion H1; subst; [constructor|].
    inversion H2; subst. cbn [List.concat] in Hok. apply Forall_app in Hok. destruct Hok.
    constructor; [apply H0; assumption|apply IH; assumption].
  Qed.

  Lemma conveyed_ok : forall ps rest, Forall2 (conveys False) (firstn (List.length ps) rest) ps -> Forall cval_ok ps.
  Proof. intros ps rest H. apply narrows_unique in H. rewrite H. apply narrows_ok. Qed.

  Lemma flat_reached_combine : forall t cs, Forall cval_ok cs -> flat_reached m T1 L1 t cs -> flat_reached m T2 L2 t cs -> flat_reached m T3 L3 t cs.
  Proof.
    intros t. induction t using valtype_ind'; intros ks Hok H1 H2; try exact I.
    - cbn [flat_reached] in *. intros st w ->. inversion Hok as [|? ? _ Hok1]; subst. inversion Hok1 as [|? ? Hw _]; subst.
      apply HT; [exact Hw|auto|auto].
    - cbn [flat_reached] in *. intros st n ->. specialize (H1 st n eq_refl). specialize (H2 st n eq_refl).
      eapply combine_list; try eassumption. intros p. apply reached_combine; assumption.
    - cbn [flat_reached] in *. unfold rec_flat_addressable in *. intros css -> HF. specialize (H1 css eq_refl). specialize (H2 css eq_refl).
      rewrite !Forall2_map_l in *. cbn [fst snd] in *. apply flat_combine_fields; auto.
    - cbn [flat_reached] in *. intros i rest c q ps -> Hn Hq Hf HF.
      rewrite nth_error_map in Hn. destruct (nth_error cs _) as [c0|] eqn:Ei in Hn; [|discriminate]. injection Hn as <-. cbn in Hq.
      destruct (c_type c0) as [t|] eqn:Et; [|discriminate]. injection Hq as <-. cbn [fst snd] in *.
      assert (Hic : In c0 cs) by (eapply nth_error_In; exact Ei). rewrite Forall_forall in H. specialize (H c0 Hic). rewrite Et in H.
      apply H; [eapply conveyed_ok; exact HF| |].
      + eapply (H1 i rest _ (flattens t, flat_reached m T1 L1 t) ps eq_refl); [rewrite nth_error_map, Ei; reflexivity|cbn; rewrite Et; reflexivity|exact Hf|exact HF].
      + eapply (H2 i rest _ (flattens t, flat_reached m T2 L2 t) ps eq_refl); [rewrite nth_error_map, Ei; reflexivity|cbn; rewrite Et; reflexivity|exact Hf|exact HF].
    - apply flat_reached_despecialize. apply IHt; try assumption; apply flat_reached_despecialize; assumption.
  Qed.
End FlatCombine.

Lemma flat_addressable_reached : forall enc m t cs,
  flat_reached m (string_addressable enc) (fun st n sz => st + n * sz < 2 ^ 32) t cs -> flat_addressable enc m t cs.
Proof. intros enc m t cs H. exact H. Qed.

Lemma flat_inside_addressable : forall enc m t cs, wf_mem m -> Forall cval_ok cs ->
  flat_reached m (text_inside enc m) (list_inside m) t cs -> flat_reached m (fun _ w => short_text enc w) (fun _ _ _ => True) t cs ->
  flat_addressable enc m t cs.
Proof.
  intros enc m t cs W Hok H1 H2. assert (Hlen : m_len m < two32) by apply W. apply flat_addressable_reached.
  refine (flat_reached_combine m _ _ _ _ _ _ _ _ W t cs Hok H1 H2).
  - intros st w Hw A B. eapply short_inside; eassumption.
  - intros st n sz A _. unfold list_inside in A. change (2 ^ 32) with two32. lia.
Qed.
