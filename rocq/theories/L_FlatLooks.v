(** Lifting looks only at the bytes that the value is made of. *)
From Coq Require Import NArith ZArith List String Ascii Bool Lia ZifyBool ZifyNat ZifyN.
From Verif Require Import GoBase M_Types M_Layout S_Layout L_Layout M_State M_Utf M_Load M_Store M_Flat
  S_Utf S_Values S_Memory S_Access S_Flat S_Format S_FlatFormat S_Inside S_Looks L_Access L_Variant L_Labels L_Despecialize
  L_Mem L_Utf L_Flags L_FlagWords L_Frame L_RoundTrip L_StoreLoad L_Lifted L_CtxFree L_Flat L_Format L_FlatFormat L_Looks.
Import ListNotations.
Open Scope N_scope.
Open Scope go_scope.

Lemma flat_parts_despecialize : forall enc m t cs b, flat_part_of enc m (despecialize t) cs b <-> flat_part_of enc m t cs b.
Proof.
  destruct t; intros cs b; try reflexivity; cbn [despecialize flat_part_of].
  - rewrite (map_itoa_fields (fun t => (flattens t, flat_part_of enc m t))). reflexivity.
  - rewrite map_enum_cases. reflexivity.
  - rewrite map_itoa_cases. reflexivity.
Qed.

(** Two runs return the same, with the iterator at [it'] if they succeed. *)
Definition twin_to {A} (it' : iter) (f : M (A * iter)) (s1 s2 : state) : Prop :=
  exists o w, returned o /\ (forall x, o = Ok x -> snd x = it') /\ f s1 = (o, with_world s1 w) /\ f s2 = (o, with_world s2 w).

Lemma twin_to_twin : forall {A} it' (f : M (A * iter)) s1 s2, twin_to it' f s1 s2 -> twin f s1 s2.
Proof. intros A it' f s1 s2 (o & w & H & _ & E1 & E2). exists o, w. auto. Qed.

Lemma twin_to_bind : forall {A B} it1 it' (f : M (A * iter)) (g : A * iter -> M (B * iter)) s1 s2, twin_to it1 f s1 s2 ->
  (forall a w, twin_to it' (g (a, it1)) (with_world s1 w) (with_world s2 w)) -> twin_to it' (bind f g) s1 s2.
Proof.
  intros A B it1 it' f g s1 s2 (o & w & H & Hi & E1 & E2) Hg. destruct o as [[a it]|e| |].
  - specialize (Hi _ eq_refl). cbn in Hi. subst it.
    destruct (Hg a w) as (o & w' & H' & Hi' & E1' & E2'). exists o, w'. split; [exact H'|]. split; [exact Hi'|].
    split; (erewrite bind_ok; [|eassumption]); assumption.
  - exists (Err e), w. split; [apply returned_err|]. split; [discriminate|]. unfold bind. rewrite E1, E2. auto.
  - destruct H. congruence.
  - destruct H. congruence.
Qed.

Lemma twin_then : forall {A B} it' (f : M A) (g : A -> B) s1 s2, rel s1 s2 -> twin f s1 s2 ->
  twin_to it' (let* v := f in ret (g v, it')) s1 s2.
Proof.
  intros A B it' f g s1 s2 R (o & w & H & E1 & E2). destruct o as [a|e| |]; [| |destruct H; congruence..].
  - exists (Ok (g a, it')), w. split; [apply returned_ok|]. split; [intros x E; injection E as <-; reflexivity|].
    split; (erewrite bind_ok; [|eassumption]); reflexivity.
  - exists (Err e), w. split; [apply returned_err|]. split; [discriminate|]. unfold bind. rewrite E1, E2. auto.
Qed.

Lemma twin_to_pure : forall {A} it' (f : M (A * iter)) o s1 s2, rel s1 s2 -> returned o -> (forall x, o = Ok x -> snd x = it') ->
  f s1 = (o, s1) -> f s2 = (o, s2) -> twin_to it' f s1 s2.
Proof.
  intros A it' f o s1 s2 R H Hi E1 E2. exists o, (s_world s1). rewrite with_same.
  rewrite (r_world _ _ R), with_same. auto.
Qed.

Lemma twin_to_ok : forall {A} it' (f : M (A * iter)) a s1 s2, rel s1 s2 ->
  (forall s, f s = (Ok (a, it'), s)) -> twin_to it' f s1 s2.
Proof.
  intros A it' f a s1 s2 R E. eapply twin_to_pure; [exact R|apply returned_ok| |apply E|apply E].
  intros x X. injection X as <-. reflexivity.
Qed.

Definition flat_looks (cx : callctx) (t : valtype) : Prop :=
  forall cs it it' s1 s2, flatten_type t = Ok (kinds cs) -> wf_type t -> rel s1 s2 ->
  Forall cval_ok cs -> flat_addressable (cx_enc cx) (s_mem s1) t cs -> yields it cs it' ->
  alike s1 s2 (flat_part_of (cx_enc cx) (s_mem s1) t cs) -> twin_to it' (lift_flat cx t it) s1 s2.

Lemma looks_fields : forall cx fs css it it' acc s1 s2,
  Forall (fun f => flat_looks cx (snd f)) fs -> Forall (fun f => wf_type (snd f)) fs -> rel s1 s2 ->
  Forall cval_ok (List.concat css) ->
  Forall2 (fun f ps => flatten_type (snd f) = Ok (kinds ps)) fs css ->
  Forall2 (fun f ps => flat_addressable (cx_enc cx) (s_mem s1) (snd f) ps) fs css ->
  yields it (List.concat css) it' ->
  alike s1 s2 (fun b => exists f ps, In (f, ps) (combine fs css) /\ flat_part_of (cx_enc cx) (s_mem s1) (snd f) ps b) ->
  twin_to it' (lift_fields (map (fun f => (fst f, lift_flat cx (snd f))) fs) acc it) s1 s2.
Proof.
  intros cx fs. induction fs as [|[l t] fs IH]; intros css it it' acc s1 s2 H Hwf R Hok Hk Had Y AL.
  - inversion Hk; subst. cbn in Y. subst it'. eapply twin_to_ok; [exact R|reflexivity].
  - inversion Hk as [|? ps ? css' Hk1 Hk2]; subst. inversion Had as [|? ? ? ? Had1 Had2]; subst. cbn [fst snd] in *.
    inversion H as [|? ? H1 H2]; subst. inversion Hwf as [|? ? Hwf1 Hwf2]; subst. cbn [fst snd] in *.
    cbn [List.concat] in *. apply Forall_app in Hok. destruct Hok as [Hok1 Hok2].
    apply yields_app in Y. destruct Y as (it1 & Y1 & Y2).
    cbn [map fst snd lift_fields]. apply (twin_to_bind it1).
    + apply (H1 ps it it1); try assumption. eapply alike_sub; [exact AL|]. intros b Hb.
      exists (l, t), ps. split; [left; reflexivity|exact Hb].
    + intros v w. apply (IH css'); try assumption; [apply rel_with, R|]. apply alike_with.
      eapply alike_sub; [exact AL|]. intros b (f & qs & Hi & Hb). exists f, qs. split; [right; exact Hi|exact Hb].
Qed.

Lemma flat_record_parts : forall enc m fs cs b,
  (exists css f ps, cs = List.concat css /\ Forall2 (fun f ps => flattens (snd f) (kinds ps)) fs css /\
     In (f, ps) (combine fs css) /\ flat_part_of enc m (snd f) ps b) ->
  flat_part_of enc m (TRecord fs) cs b.
Proof.
  intros enc m fs cs b (css & f & ps & Ec & HF & Hi & Hb). cbn [flat_part_of]. unfold rec_flat_parts.
  exists css, (fst f, (flattens (snd f), flat_part_of enc m (snd f))), ps. split; [exact Ec|].
  split; [rewrite Forall2_map_l; exact HF|]. split; [|exact Hb].
  clear -Hi. revert css Hi. induction fs as [|g fs IH]; intros os Hi; [contradiction|].
  destruct os as [|o' os]; [contradiction|]. destruct Hi as [Hi|Hi]; [left; congruence|right; apply IH, Hi].
Qed.

Lemma flat_looks_record : forall cx fs, Forall (fun f => flat_looks cx (snd f)) fs -> flat_looks cx (TRecord fs).
Proof.
  intros cx fs H cs it it' s1 s2 Hk [Hnd Hwt] R Hok Had Y AL. apply all_Forall in Hwt.
  cbn [flatten_type] in Hk. apply flatten_record_inv in Hk. destruct Hk as (kss & Hk & Ek).
  destruct (split_kinds kss cs Ek) as (css & -> & <-).
  assert (HK : Forall2 (fun f ps => flatten_type (snd f) = Ok (kinds ps)) fs css).
  { clear - Hk. revert css Hk. induction fs as [|f fs IH]; intros [|ps css] Hk; try discriminate; constructor; cbn in Hk.
    - injection Hk as E _. exact E.
    - apply IH. injection Hk as _ E. exact E. }
  assert (HF : Forall2 (fun f ps => flattens (snd f) (kinds ps)) fs css).
  { eapply Forall2_mono; [exact HK|]. cbn beta. intros f ps _ E. apply flattens_iff. exact E. }
  assert (HA : Forall2 (fun f ps => flat_addressable (cx_enc cx) (s_mem s1) (snd f) ps) fs css).
  { cbn [flat_addressable] in Had. specialize (Had css eq_refl). rewrite !Forall2_map_l in Had. cbn [fst snd] in Had.
    apply Had, HF. }
  cbn [lift_flat]. unfold lift_flat_record. apply (twin_to_bind it').
  - apply (looks_fields cx fs css); try assumption. eapply alike_sub; [exact AL|]. intros b (f & ps & Hi & Hb).
    apply flat_record_parts. exists css, f, ps. auto.
  - intros mp w. eapply twin_to_ok; [apply rel_with, R|reflexivity].
Qed.

Lemma flat_looks_variant : forall cx xs, Forall (fun c => opt_all (flat_looks cx) (c_type c)) xs -> flat_looks cx (TVariant xs).
Proof.
  intros cx xs H cs it it' s1 s2 Hk Hwf R Hok Had Y AL.
  cbn [wf_type] in Hwf. destruct Hwf as [(Hnd & Hbf & Hre) Hwt]. apply all_Forall in Hwt.
  assert (Hk' := Hk). cbn [flatten_type] in Hk. destruct (flatten_variant_inv _ _ Hk) as (kss & flat & Ep & HJ & Ek & dt & Hdt).
  rewrite payloads_map in Ep. rewrite map_length in Hdt. pose proof (discriminant_bound _ _ Hdt) as Hn.
  destruct cs as [|d rest]; [discriminate|]. cbn [kinds map] in Ek. injection Ek as Ed Er. destruct d as [i0| | | ]; try discriminate.
  fold (kinds rest) in Er. subst flat.
  inversion Hok as [|? ? Hi Hokr]; subst. cbn [cval_ok] in Hi.
  cbn [yields cval_kind cval_any] in Y. destruct Y as (it1 & E1 & Y).
  assert (LD : forall s, lift_flat cx (TVariant xs) it s =
     (match nth_error xs (N.to_nat i0) with
     | None => lift_o (Err ETrap)
     | Some c =>
        match c_type c with
        | None =>
            let* it := lift_o (skip_flat (kinds rest) it1) in
            let* label := lift_o (case_label c xs) in
            ret (VMap [(label, VNil)], it)
        | Some t =>
              let* (v, cit) := lift_flat cx t (ICoerce it1 (kinds rest)) in
              match cit with
              | ICoerce it rest =>
                  let* it := lift_o (skip_flat rest it) in
                  let* label := lift_o (case_label c xs) in
                  ret (VMap [(label, v)], it)
              | IBase _ _ => lift_o Panic
              end
        end
     end) s).
  { intros s. cbn [lift_flat]. unfold lift_flat_variant. rewrite Hk', bind_lift_ok. cbn [kinds map cval_kind kind_eqb negb]. 
    erewrite bind_ok; [|apply next_u32_val; exact E1]. cbv beta iota. rewrite map_length.
    destruct (N.leb_spec (N.of_nat (List.length xs)) i0).
    - rewrite (proj2 (nth_error_None xs (N.to_nat i0))) by lia. reflexivity.
    - rewrite nth_error_map. destruct (nth_error xs (N.to_nat i0)) as [c|] eqn:Ec.
      2:{ apply nth_error_None in Ec. lia. }
      cbn [option_map c_type map_case]. destruct (c_type c) as [t|] eqn:Et.
      + assert (EL : case_label (map_case (lift_flat cx) c) (map (map_case (lift_flat cx)) xs) = case_label c xs) by apply case_label_map.
        fold (map (@cval_kind) rest) in *. change (map cval_kind rest) with (kinds rest).
        change (mkCase (c_label c) (Some (lift_flat cx t)) (c_refines c)) with (mkCase (c_label c) (Some (lift_flat cx t)) (c_refines c)).
        unfold map_case at 1 in EL. rewrite Et in EL. unfold map_case at 1. rewrite Et. rewrite EL. reflexivity.
      + rewrite case_label_map. reflexivity. }
  enough (T : twin_to it' (match nth_error xs (N.to_nat i0) with
     | None => lift_o (Err ETrap)
     | Some c =>
        match c_type c with
        | None =>
            let* it := lift_o (skip_flat (kinds rest) it1) in
            let* label := lift_o (case_label c xs) in
            ret (VMap [(label, VNil)], it)
        | Some t =>
              let* (v, cit) := lift_flat cx t (ICoerce it1 (kinds rest)) in
              match cit with
              | ICoerce it rest =>
                  let* it := lift_o (skip_flat rest it) in
                  let* label := lift_o (case_label c xs) in
                  ret (VMap [(label, v)], it)
              | IBase _ _ => lift_o Panic
              end
        end
     end) s1 s2).
  { destruct T as (o & w & Ho & Hio & X1 & X2). exists o, w. rewrite !LD. auto. }
  clear LD.
  assert (Hex : exists i, i0 = N.of_nat i) by (exists (N.to_nat i0); lia). destruct Hex as [i ->]. rewrite !Nat2N.id. clear Hi.
  destruct (nth_error xs i) as [c|] eqn:Ei.
  2:{ eapply twin_to_pure; [exact R|apply (returned_err ETrap)|discriminate|reflexivity|reflexivity]. }
  assert (Hic : In c xs) by (eapply nth_error_In; exact Ei).
  assert (Hlab : exists l, case_label c xs = Ok l).
  { apply case_label_ends. rewrite Forall_forall in Hre. auto. }
  destruct Hlab as [l Hlab].
  pose proof (fun t ps E => flat_addressable_variant _ _ _ _ Had i rest c t ps eq_refl Ei E) as Had'.
  destruct (c_type c) as [t|] eqn:Et.
  - destruct (payload_flat xs kss c t Ep Hic Et) as (ks & Ekt & Hin).
    pose proof (joined_below _ _ _ HJ Hin) as Hb.
    assert (Hlen : (List.length ks <= List.length rest)%nat).
    { destruct Hb as [Hb _]. unfold kinds in Hb. rewrite map_length in Hb. exact Hb. }
    pose proof (narrows_kinds ks rest Hlen) as Enk. pose proof (narrows_conveyed ks rest Hlen) as Hcv.
    assert (Hft : flattens t (kinds (narrows ks rest))) by (apply flattens_iff; congruence).
    rewrite Forall_forall in H, Hwt. specialize (H c Hic). specialize (Hwt c Hic).
    rewrite Et in H, Hwt.
    destruct (yields_narrow ks rest it1 it' Hokr Hb Y) as (it2 & flat2 & Y2 & Hs).
    apply (twin_to_bind (ICoerce it2 flat2)).
    + apply (H (narrows ks rest)); try assumption; [congruence|apply narrows_ok|apply Had'; auto|].
      eapply alike_sub; [exact AL|]. intros b Hb'. cbn [flat_part_of]. unfold var_flat_parts.
      exists i, rest, (map_case (fun t => (flattens t, flat_part_of (cx_enc cx) (s_mem s1) t)) c), (flattens t, flat_part_of (cx_enc cx) (s_mem s1) t), (narrows ks rest).
      split; [reflexivity|]. split; [rewrite nth_error_map, Ei; reflexivity|]. split; [cbn; rewrite Et; reflexivity|]. auto.
    + intros x w. eapply twin_to_ok; [apply rel_with, R|]. intros s. rewrite Hs, bind_lift_ok, Hlab, bind_lift_ok. reflexivity.
  - destruct (yields_narrow [] rest it1 it' Hokr) as (it2 & flat2 & Y2 & Hs); [split; [cbn; lia|intros [|j]; discriminate]|exact Y|].
    cbn [narrows yields] in Y2. injection Y2 as <- <-.
    eapply twin_to_ok; [exact R|]. intros s. rewrite Hs, bind_lift_ok, Hlab, bind_lift_ok. reflexivity.
Qed.

Lemma flag_words_end : forall ws sh acc it it', yields it (map CU32 ws) it' ->
  exists y, forall s, lift_flag_words (List.length ws) sh acc it s = (Ok (y, it'), s).
Proof.
  induction ws as [|w ws IH]; intros sh acc it it' Y.
  - cbn in Y. subst. exists acc. reflexivity.
  - destruct Y as (it1 & E1 & Y). cbn [cval_kind cval_any] in E1.
    destruct (IH (sh + 32) (N.lor acc (u64 (N.shiftl w sh))) it1 it' Y) as [y Ey].
    exists y. intros s. cbn [List.length lift_flag_words]. erewrite bind_ok; [|apply next_u32_val; exact E1]. apply Ey.
Qed.

Lemma flat_looks_flags : forall cx ls, flat_looks cx (TFlags ls).
Proof.
  intros cx ls cs it it' s1 s2 Hk _ R Hok _ Y _.
  assert (Ek : kinds cs = repeat KU32 (N.to_nat (num_i32_flags ls))) by (cbn [flatten_type] in Hk; congruence). clear Hk.
  destruct (kinds_words _ _ Ek) as (ws & -> & Hwn). clear Ek.
  destruct (flag_words_end ws 0 0 it it' Y) as [y Ey].
  eapply twin_to_ok; [exact R|]. intros s. cbn [lift_flat]. unfold lift_flat_flags. rewrite <- Hwn.
  erewrite bind_ok; [|apply Ey]. reflexivity.
Qed.

Lemma worldly_to : forall (f : M N) it' s1 s2, rel s1 s2 -> worldly f -> twin_to it' (let* r := f in ret (VU32 r, it')) s1 s2.
Proof. intros f it' s1 s2 R H. apply twin_then; [exact R|]. apply worldly_twin; assumption. Qed.

Lemma flat_looks_all : forall cx t, flat_looks cx t.
Proof.
  intros cx t. induction t using valtype_ind';
    [ | | | | | | | | | | | | | |apply flat_looks_record; assumption|apply flat_looks_variant; assumption|apply flat_looks_flags| | | | ];
    intros cs it it' s1 s2 Hk Hwf R Hok Had Y AL.
  all: try (injection Hk as Hk; symmetry in Hk;
     first [apply kinds_u32 in Hk; destruct Hk as (n & ->)|apply kinds_u64 in Hk; destruct Hk as (n & ->)
           |apply kinds_f32 in Hk; destruct Hk as (n & ->)|apply kinds_f64 in Hk; destruct Hk as (n & ->)];
     apply yields_one in Y; cbn [cval_kind cval_any] in Y; inversion Hok as [|? ? Hn _]; subst; cbn [cval_ok] in Hn).
  all: try (eapply twin_to_ok; [exact R|]; intros s; cbn [lift_flat]; unfold lmap; erewrite bind_ok;
     [|first [apply next_u32_val; exact Y|apply next_u64_val; exact Y|apply next_f32_val; exact Y|apply next_f64_val; exact Y]]; cbv beta iota; reflexivity).
  - assert (LD : forall s, lift_flat cx TChar it s = (let* r := lift_o (u32_to_rune n) in ret (VS32 r, it')) s).
    { intros s. cbn [lift_flat]. unfold lift_flat_char. erewrite bind_ok; [|apply next_u32_val; exact Y]. reflexivity. }
    destruct (twin_then it' (lift_o (u32_to_rune n)) VS32 s1 s2 R) as (o & w & Ho & Hi & E1 & E2);
      [apply twin_lift; [exact R|apply rune_returns]|]. exists o, w. rewrite !LD. auto.
  - injection Hk as Hk; symmetry in Hk. apply kinds_pair in Hk. destruct Hk as (p & n & ->).
    destruct Y as (it1 & E1 & Y). apply yields_one in Y. cbn [cval_kind cval_any] in *.
    inversion Hok as [|? ? Hp Hok1]; subst. inversion Hok1 as [|? ? Hn _]; subst. cbn [cval_ok] in Hp, Hn.
    specialize (Had p n eq_refl).
    assert (LD : forall s, lift_flat cx TString it s = (let* v := load_string_from_range cx p n in ret (v, it')) s).
    { intros s. cbn [lift_flat]. unfold lift_flat_string. erewrite bind_ok; [|apply next_u32_val; exact E1]. cbv beta iota.
      erewrite bind_ok; [|apply next_u32_val; exact Y]. reflexivity. }
    destruct (twin_then it' (load_string_from_range cx p n) (fun v => v) s1 s2 R) as (o & w & Ho & Hi & X1 & X2).
    { apply twin_text; try assumption. eapply alike_sub; [exact AL|]. intros b Hb. exists p, n. auto. }
    exists o, w. rewrite !LD. auto.
  - injection Hk as Hk; symmetry in Hk. apply kinds_pair in Hk. destruct Hk as (p & n & ->).
    destruct Y as (it1 & E1 & Y). apply yields_one in Y. cbn [cval_kind cval_any] in *.
    inversion Hok as [|? ? Hp Hok1]; subst. inversion Hok1 as [|? ? Hn _]; subst. cbn [cval_ok] in Hp, Hn.
    specialize (Had p n eq_refl). destruct Hwf as [Hwf (a & sz & Hlt & Hsz)].
    destruct (sp_layout_facts _ _ _ Hlt) as (Ha & Hva & Hdv & Hs). specialize (Hs Hsz).
    assert (LD : forall s, lift_flat cx (TList t) it s = (let* v := load_list_from_range (Ok a) (Ok sz) (load cx t) p n in ret (v, it')) s).
    { intros s. cbn [lift_flat]. unfold lift_flat_list. rewrite Ha, Hs. erewrite bind_ok; [|apply next_u32_val; exact E1]. cbv beta iota.
      erewrite bind_ok; [|apply next_u32_val; exact Y]. reflexivity. }
    destruct (twin_then it' (load_list_from_range (Ok a) (Ok sz) (load cx t) p n) (fun v => v) s1 s2 R) as (o & w & Ho & Hi & X1 & X2).
    { apply twin_items; try assumption; [apply looks_all|]. eapply alike_sub; [exact AL|]. intros b Hb. exists p, n. auto. }
    exists o, w. rewrite !LD. auto.
  - assert (LD : forall s, lift_flat cx (TOwn r) it s = (let* r := lift_own cx n r in ret (VU32 r, it')) s).
    { intros s. cbn [lift_flat]. unfold lift_flat_handle. erewrite bind_ok; [|unfold lift_o; rewrite Y; reflexivity]. reflexivity. }
    destruct (worldly_to (lift_own cx n r) it' s1 s2 R (worldly_lift_own _ _ _)) as (o & w & Ho & Hi & X1 & X2).
    exists o, w. rewrite !LD. auto.
  - assert (LD : forall s, lift_flat cx (TBorrow r) it s = (let* r := lift_borrow cx n r in ret (VU32 r, it')) s).
    { intros s. cbn [lift_flat]. unfold lift_flat_handle. erewrite bind_ok; [|unfold lift_o; rewrite Y; reflexivity]. reflexivity. }
    destruct (worldly_to (lift_borrow cx n r) it' s1 s2 R (worldly_lift_borrow _ _ _)) as (o & w & Ho & Hi & X1 & X2).
    exists o, w. rewrite !LD. auto.
  - discriminate.
  - rewrite <- flatten_despecialize in Hk. apply wf_despecialize in Hwf.
    apply flat_addressable_despecialize in Had.
    assert (AL' := alike_sub _ _ _ _ AL (fun b => proj1 (flat_parts_despecialize _ _ t cs b))).
    destruct (IHt cs it it' s1 s2 Hk Hwf R Hok Had Y AL') as (o & w & Ho & Hi & E1 & E2); rewrite lift_flat_despecialize in E1, E2.
    exists o, w. auto.
Qed.
