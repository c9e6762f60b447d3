(** Values read at a type are proper values of its supertypes. *)
From Coq Require Import NArith ZArith List String Ascii Bool Lia ZifyBool ZifyNat ZifyN.
From Verif Require Import GoBase M_Types M_Layout S_Layout L_Layout M_State M_Utf M_Load M_Store M_Flat
  S_Utf S_Values S_Memory S_Access L_Access L_Variant L_Labels L_Despecialize L_Mem L_Utf L_Flags L_Frame
  L_RoundTrip L_Lifted S_Format L_CtxFree L_Format S_Flat L_Flat S_Subtype.
Import ListNotations.
Open Scope N_scope.
Open Scope go_scope.

(** ** Values named by full labels *)
Definition var_own (cs : list (caseOf (any -> Prop))) (v : any) : Prop :=
  exists key p i c, v = VMap [(key, p)] /\ full_label cs i key /\ nth_error cs i = Some c /\
    match c_type c with Some P => P p | None => p = VNil end.

Fixpoint own_form (t : valtype) (v : any) : Prop :=
  match t with
  | TList t' => exists l, v = VList l /\ Forall (own_form t') l
  | TRecord fs => rec_exactly (map (fun f => (fst f, own_form (snd f))) fs) v
  | TTuple ts => rec_exactly (itoa_fields (map own_form ts)) v
  | TVariant cs => var_own (map (map_case own_form) cs) v
  | TEnum ls => var_own (enum_cases ls) v
  | TOption t' => var_own (option_cases (own_form t')) v
  | TResult ok err =>
      var_own (result_cases
        (match ok with Some x => Some (own_form x) | None => None end)
        (match err with Some x => Some (own_form x) | None => None end)) v
  | TUnion ts => var_own (itoa_cases (map own_form ts)) v
  | _ => lifted t v
  end.

Lemma own_despecialize : forall t v, own_form (despecialize t) v <-> own_form t v.
Proof.
  destruct t; intros v; try reflexivity; cbn [despecialize own_form].
  - rewrite (map_itoa_fields own_form). reflexivity.
  - rewrite map_enum_cases. reflexivity.
  - rewrite map_itoa_cases. reflexivity.
Qed.

Lemma fits_despecialize : forall enc t v, fits enc (despecialize t) v <-> fits enc t v.
Proof.
  destruct t; intros v; try reflexivity; cbn [despecialize fits].
  - rewrite (map_itoa_fields (fits enc)). reflexivity.
  - rewrite map_enum_cases. reflexivity.
  - rewrite map_itoa_cases. reflexivity.
Qed.

Lemma refined_map : forall {A B} (f : A -> B) (cs : list (caseOf A)) c,
  refined (map (map_case f) cs) (map_case f c) = option_map (map_case f) (refined cs c).
Proof.
  intros A B f cs c. unfold refined. cbn [map_case c_refines]. destruct (c_refines c) as [r|]; [|reflexivity].
  induction cs as [|d cs IH]; [reflexivity|]. cbn [map find]. cbn [map_case c_label].
  destruct (String.eqb (c_label d) r); [reflexivity|exact IH].
Qed.

Lemma refinement_labels_map : forall {A B} (f : A -> B) (cs : list (caseOf A)) c ls,
  refinement_labels cs c ls <-> refinement_labels (map (map_case f) cs) (map_case f c) ls.
Proof.
  intros A B f cs c ls. split.
  - induction 1 as [c E|c c' ls E H IH].
    + change (c_label c) with (c_label (map_case f c)). apply rl_stop. rewrite refined_map, E. reflexivity.
    + change (c_label c) with (c_label (map_case f c)). eapply rl_step; [|exact IH]. rewrite refined_map, E. reflexivity.
  - remember (map (map_case f) cs) as cs' eqn:Ecs. remember (map_case f c) as d eqn:Ed. intros H. revert c Ed.
    induction H as [d E|d d' ls E H IH]; intros c ->; rewrite Ecs, refined_map in E.
    + apply (rl_stop cs c). destruct (refined cs c); [discriminate|reflexivity].
    + destruct (refined cs c) as [c'|] eqn:Ec; [|discriminate]. inversion E; subst.
      apply (rl_step cs c c' ls Ec). apply IH; reflexivity.
Qed.

Lemma full_label_map : forall {A B} (f : A -> B) (cs : list (caseOf A)) i key,
  full_label cs i key <-> full_label (map (map_case f) cs) i key.
Proof.
  intros A B f cs i key. split.
  - intros (c & ls & Hi & Hr & ->). exists (map_case f c), ls. rewrite nth_error_map, Hi.
    split; [reflexivity|]. split; [apply refinement_labels_map; exact Hr|reflexivity].
  - intros (d & ls & Hi & Hr & ->). rewrite nth_error_map in Hi. destruct (nth_error cs i) as [c|] eqn:Ec; [|discriminate].
    inversion Hi; subst. exists c, ls. split; [exact Ec|]. split; [apply (refinement_labels_map f); exact Hr|reflexivity].
Qed.

Lemma var_own_case : forall {A} (f : A -> any -> Prop) (cs : list (caseOf A)) i c label v,
  nth_error cs i = Some c -> full_label cs i label ->
  match c_type c with Some x => f x v | None => v = VNil end ->
  var_own (map (map_case f) cs) (VMap [(label, v)]).
Proof.
  intros A f cs i c label v Hi Hs Hv. exists label, v, i, (map_case f c).
  split; [reflexivity|]. split; [apply full_label_map; assumption|].
  split; [rewrite nth_error_map, Hi; reflexivity|]. cbn. destruct (c_type c); assumption.
Qed.

Lemma label_gives : forall {A B} (mk : A -> B) (cs : list (caseOf A)) c i, nth_error cs i = Some c ->
  gives (lift_o (case_label (map_case mk c) (map (map_case mk) cs))) (fun label => full_label cs i label).
Proof.
  intros A B mk cs c i Ei. apply gives_lift. intros l E. apply (full_label_map mk).
  eapply case_label_full; [|exact E]. rewrite nth_error_map, Ei. reflexivity.
Qed.

Lemma gives_own_variant : forall {A} (mk : A -> comp (N -> M any)) (f : A -> any -> Prop) (cs : list (caseOf A)) p,
  Forall (fun c => opt_all (fun x => forall q, gives (q_op (mk x) q) (f x)) (c_type c)) cs ->
  gives (load_variant (map (map_case mk) cs) p) (var_own (map (map_case f) cs)).
Proof.
  intros A mk f cs p H. unfold load_variant.
  eapply gives_bind; [apply gives_any|]. intros dt _.
  eapply gives_bind; [apply gives_int|]. intros iv _.
  eapply gives_bind; [apply gives_any|]. intros i _.
  match goal with |- gives (if ?b then _ else _) _ => destruct b end; [apply gives_lift; discriminate|].
  rewrite nth_error_map. destruct (nth_error cs (N.to_nat i)) as [c|] eqn:Ei; [|apply gives_lift; discriminate].
  cbn [option_map]. cbn zeta.
  eapply gives_bind; [apply gives_any|]. intros a _.
  eapply gives_bind; [apply gives_any|]. intros p' _.
  eapply gives_bind; [apply label_gives; exact Ei|]. intros label Hl.
  eapply (gives_bind _ _ (fun v => match c_type c with Some x => f x v | None => v = VNil end)).
  - cbn [map_case c_type]. rewrite Forall_forall in H. specialize (H c (nth_error_In _ _ Ei)).
    destruct (c_type c); [apply H|apply gives_ret; reflexivity].
  - intros v Hv. apply gives_ret. eapply var_own_case; eassumption.
Qed.

Lemma lifts_own_variant : forall {A} flat (mk : A -> LM any) (f : A -> any -> Prop) (cs : list (caseOf A)),
  Forall (fun c => opt_all (fun x => lifts (mk x) (f x)) (c_type c)) cs ->
  lifts (lift_flat_variant flat (map (map_case mk) cs)) (var_own (map (map_case f) cs)).
Proof.
  intros A flat mk f cs H it Hi. unfold lift_flat_variant.
  eapply gives_bind; [apply gives_any|]. intros [|first rest] _; [apply gives_lift; discriminate|].
  destruct (negb (kind_eqb first KU32)); [apply gives_lift; discriminate|].
  eapply gives_bind; [apply lifts_u32; exact Hi|]. intros [i it1] [_ Hi1]. cbn [snd] in Hi1.
  match goal with |- gives (if ?b then _ else _) _ => destruct b end; [apply gives_lift; discriminate|].
  rewrite nth_error_map. destruct (nth_error cs (N.to_nat i)) as [c|] eqn:Ei; [|apply gives_lift; discriminate].
  cbn [option_map]. rewrite Forall_forall in H. specialize (H c (nth_error_In _ _ Ei)).
  pose proof (label_gives mk cs c _ Ei) as L.
  cbn [c_type map_case] in *. destruct (c_type c) as [x|] eqn:Et; cbn [opt_all] in H.
  - eapply gives_bind; [apply H; exact Hi1|]. intros [v cit] [Hv Hc]. cbn [fst snd] in *.
    destruct cit as [|it2 rest2]; [apply gives_lift; discriminate|].
    eapply (gives_bind _ _ iter_ok); [apply gives_lift; intros it3; apply skip_flat_ok; exact Hc|]. intros it3 Hi3.
    eapply gives_bind; [exact L|]. intros label Hl. apply gives_ret. split; [|assumption]. cbn [fst].
    eapply var_own_case; [eassumption|eassumption|]. rewrite Et. assumption.
  - eapply (gives_bind _ _ iter_ok); [apply gives_lift; intros it3; apply skip_flat_ok; exact Hi1|]. intros it3 Hi3.
    eapply gives_bind; [exact L|]. intros label Hl. apply gives_ret. split; [|assumption]. cbn [fst].
    eapply var_own_case; [eassumption|eassumption|]. rewrite Et. reflexivity.
Qed.

Lemma load_gives_own : forall cx t, wf_type t -> forall p, gives (load cx t p) (own_form t).
Proof.
  intros cx t. induction t using valtype_ind'; intros Hwf p;
    try (match goal with |- gives (load _ ?t _) (own_form ?t) => change (own_form t) with (lifted t) end; apply load_gives; exact Hwf);
    cbn [load].
  - eapply gives_bind; [apply gives_u32|]. intros b _. eapply gives_bind; [apply gives_u32|]. intros n _.
    apply gives_list. apply IHt. apply Hwf.
  - destruct Hwf as [Hn Hw]. apply all_Forall in Hw. cbn [own_form].
    eapply gives_bind; [|intros m Hm; apply gives_ret; apply built_exactly; exact Hm].
    apply gives_fields; [|rewrite map_map; exact Hn].
    apply Forall2_maps. rewrite Forall_forall in *. intros f Hf. cbn [fst snd q_op]. split; [reflexivity|].
    apply H; [assumption|]. apply Hw. assumption.
  - destruct Hwf as [(Hn & Hb & Hr) Hw]. apply all_Forall in Hw. cbn [own_form]. apply gives_own_variant.
    rewrite Forall_forall in *. intros c Hc. specialize (H c Hc). specialize (Hw c Hc). cbn beta in Hw.
    destruct (c_type c); cbn in *; auto.
  - change (gives (load cx t p) (own_form t)).
    rewrite <- load_despecialize. eapply gives_mono; [apply IHt; apply wf_despecialize; assumption|].
    intros v. apply own_despecialize.
Qed.

Lemma lift_gives_own : forall cx t, wf_type t -> lifts (lift_flat cx t) (own_form t).
Proof.
  intros cx t. induction t using valtype_ind'; intros Hwf;
    try (match goal with |- lifts (lift_flat _ ?t) (own_form ?t) => change (own_form t) with (lifted t) end; apply lift_gives; exact Hwf);
    cbn [lift_flat].
  - intros it Hi. eapply gives_bind; [apply lifts_u32; exact Hi|]. intros [b it1] [_ Hi1]. cbn [snd] in Hi1.
    eapply gives_bind; [apply lifts_u32; exact Hi1|]. intros [n it2] [_ Hi2]. cbn [snd] in Hi2.
    eapply gives_bind; [apply gives_list; apply load_gives_own; apply Hwf|]. intros v Hv. apply gives_ret. auto.
  - destruct Hwf as [Hn Hw]. apply all_Forall in Hw. intros it Hi. cbn [own_form].
    eapply gives_bind; [apply (lifts_fields _ (map (fun f => (fst f, own_form (snd f))) fs)); [|rewrite map_map; exact Hn|exact Hi]
      |intros [m it1] [Hm Hi1]; apply gives_ret; split; [apply built_exactly; exact Hm|exact Hi1]].
    apply Forall2_maps. rewrite Forall_forall in *. intros f Hf. cbn [fst snd]. split; [reflexivity|].
    apply H; [assumption|]. apply Hw. assumption.
  - destruct Hwf as [(Hn & Hb & Hr) Hw]. apply all_Forall in Hw. cbn [own_form]. apply lifts_own_variant.
    rewrite Forall_forall in *. intros c Hc. specialize (H c Hc). specialize (Hw c Hc). cbn beta in Hw.
    destruct (c_type c); cbn in *; auto.
  - change (lifts (lift_flat cx t) (own_form t)).
    rewrite <- lift_flat_despecialize. intros it Hi.
    eapply gives_mono; [exact (IHt (wf_despecialize _ Hwf) it Hi)|].
    cbn beta. intros [v it'] [Hv Hi']. split; [apply own_despecialize; exact Hv|exact Hi'].
Qed.

(** ** Supertypes *)
Lemma despecialize_plain : forall t, special (despecialize t) = false.
Proof. destruct t; reflexivity. Qed.
Lemma despecialize_id : forall t, special t = false -> despecialize t = t.
Proof. destruct t; intros H; try discriminate H; reflexivity. Qed.

Lemma basic_plain : forall t, basic t -> special t = false.
Proof. intros t H. unfold basic in H. cbn [In] in H. repeat (destruct H as [<-|H]; [reflexivity|]). destruct H. Qed.

Lemma sub_despecialize : forall t u, subtype t u -> subtype (despecialize t) (despecialize u).
Proof.
  intros t u H. inversion H; subst; try exact H; try assumption.
  rewrite despecialize_id by (apply basic_plain; assumption). exact H.
Qed.

Lemma nearest_selects : forall labels ls l i, nearest labels ls l -> Forall bar_free ls -> nth_error labels i = Some l ->
  selects labels (String.concat "|" ls) i.
Proof. intros labels ls l i (before & after & -> & Hb & _) Hf Hi. exists before, l, after. auto. Qed.

Lemma refinement_bar_free : forall {A} (cs : list (caseOf A)) c ls, Forall (fun c => bar_free (c_label c)) cs ->
  refinement_labels cs c ls -> In c cs -> Forall bar_free ls.
Proof.
  intros A cs c ls Hb H. rewrite Forall_forall in Hb.
  induction H as [c E|c c' ls E H IH]; intros Hin; constructor; auto.
  apply IH. eapply refined_in; eassumption.
Qed.

Lemma own_basic : forall enc t v, basic t -> own_form t v -> fits enc t v -> has_type enc t v.
Proof.
  intros enc t v Hb Ho Hf. unfold basic in Hb. cbn [In] in Hb.
  repeat (destruct Hb as [<-|Hb]; [cbn [own_form lifted fits has_type] in *|]); try exact Ho; try (destruct Hb; fail).
  - destruct Ho as (b & -> & H & _). eauto.
  - destruct Ho as (b & -> & H & _). eauto.
  - destruct Ho as (cs & -> & H). eauto.
Qed.

Lemma plain_inv : forall t u, subtype t u -> special u = false ->
  basic u /\ despecialize t = u \/
  match u with
  | TList u' => exists t', despecialize t = TList t' /\ subtype t' u'
  | TRecord gs => exists fs, despecialize t = TRecord fs /\ Forall (fun g => exists t, In (fst g, t) fs /\ subtype t (snd g)) gs
  | TVariant ds => exists cs, despecialize t = TVariant cs /\
      (forall c ls, In c cs -> refinement_labels cs c ls ->
       exists d, In d ds /\ nearest (map c_label ds) ls (c_label d) /\ opt_rel subtype (c_type c) (c_type d))
  | TFlags ms => exists ls, despecialize t = TFlags ls /\ incl ms ls
  | _ => False
  end.
Proof.
  intros t u H Hu. apply sub_despecialize in H. rewrite (despecialize_id u Hu) in H.
  pose proof (despecialize_plain t) as Ht. remember (despecialize t) as t' eqn:E. clear E.
  inversion H; subst; eauto.
  match goal with X : special _ = true \/ _ |- _ => destruct X; congruence end.
Qed.

Lemma own_supertype : forall enc u t v, wf_type t -> wf_type u -> subtype t u -> own_form t v -> fits enc u v ->
  has_type enc u v.
Proof.
  intros enc u.
  induction u using valtype_ind'; intros t v Ht Hu Hs Ho Hf;
    try (match type of Hs with subtype _ ?u => first [
      destruct (plain_inv _ _ Hs eq_refl) as [[Hb E]|[]]; apply own_basic;
        [exact Hb|rewrite <- E; apply own_despecialize; exact Ho|exact Hf] ] end; fail);
    try (destruct (plain_inv _ _ Hs eq_refl) as [[Hb E]|X];
         [unfold basic in Hb; cbn [In] in Hb; repeat (destruct Hb as [Hb|Hb]; [discriminate Hb|]); destruct Hb|]);
    try (destruct X; fail).
  - destruct X as (t' & E & Hs'). apply own_despecialize in Ho. apply wf_despecialize in Ht. rewrite E in Ho, Ht.
    cbn [own_form] in Ho. destruct Ho as (l & -> & Ho). cbn [fits] in Hf. destruct (Hf l eq_refl) as (F1 & F2 & F3).
    destruct Hu as [Hu (a & s & Hl & _)]. cbn [has_type]. exists l, a, s. split; [reflexivity|].
    split; [|split; [exact Hl|]; split; [exact (F3 _ _ Hl)|exact F2]].
    rewrite Forall_forall in *. intros x Hx. apply (IHu t'); auto. apply Ht.
  - rename fs into gs. destruct X as (fs & E & Hs'). apply own_despecialize in Ho. apply wf_despecialize in Ht. rewrite E in Ho, Ht.
    cbn [own_form] in Ho. destruct Ho as (m & -> & Ho & _). destruct Ht as [Hn Ht], Hu as [_ Hu]. apply all_Forall in Ht, Hu.
    cbn [fits has_type] in *. specialize (Hf m eq_refl). rewrite Forall_map in Hf, Ho. exists m. split; [reflexivity|]. rewrite Forall_map.
    rewrite Forall_forall in *. intros g Hg. cbn [fst snd]. destruct (Hs' g Hg) as (t' & Hi & Hs1).
    destruct (Ho _ Hi) as (x & Hx & Hox). cbn [fst snd] in *. exists x. split; [exact Hx|].
    apply (H g Hg t'); auto. exact (Ht _ Hi).
  - rename cs into ds. destruct X as (cs & E & Hs'). apply own_despecialize in Ho. apply wf_despecialize in Ht. rewrite E in Ho, Ht.
    cbn [own_form] in Ho. destruct Ho as (key & p & i & c & -> & Hfull & Hi & Hp).
    destruct Ht as [(_ & Hb & _) Ht], Hu as [(Hn & _) Hu]. apply all_Forall in Ht, Hu.
    apply (full_label_map own_form) in Hfull. destruct Hfull as (c0 & ls & Hc0 & Hr & ->).
    rewrite nth_error_map, Hc0 in Hi. cbn [option_map] in Hi. injection Hi as <-.
    pose proof (nth_error_In _ _ Hc0) as Hin. destruct (Hs' c0 ls Hin Hr) as (d & Hd & Hnear & Hrel).
    destruct (In_nth_error _ _ Hd) as (j & Hj).
    assert (Hsel : selects (map c_label ds) (String.concat "|" ls) j).
    { eapply nearest_selects; [exact Hnear|eapply refinement_bar_free; eassumption|]. rewrite nth_error_map, Hj. reflexivity. }
    cbn [fits has_type] in *. exists (String.concat "|" ls), p, j, (map_case (has_type enc) d).
    split; [reflexivity|]. split; [rewrite map_map; exact Hsel|]. split; [rewrite nth_error_map, Hj; reflexivity|].
    specialize (Hf _ p j (map_case (fits enc) d) eq_refl). rewrite map_map, nth_error_map, Hj in Hf.
    specialize (Hf Hsel eq_refl). cbn [map_case c_type] in *.
    rewrite Forall_forall in *. specialize (H d Hd). specialize (Ht c0 Hin). specialize (Hu d Hd). cbn beta in *.
    destruct Hrel as [|t' u' Hrel]; cbn in *; [exact Hp|]. apply (H t'); assumption.
  - rename ls into ms. destruct X as (ls & E & Hi). apply own_despecialize in Ho. rewrite E in Ho. cbn [own_form lifted] in Ho.
    destruct Ho as (m & -> & Ho & _). cbn [has_type]. exists m. split; [reflexivity|].
    rewrite Forall_map in *. rewrite Forall_forall in *. intros l Hl. destruct (Ho l (Hi l Hl)) as (x & Hx & b & ->). eauto.
  - apply has_type_despecialize. apply (IHu (despecialize t)).
    + apply wf_despecialize; exact Ht. + apply wf_despecialize; exact Hu. + apply sub_despecialize; exact Hs.
    + apply own_despecialize; exact Ho. + apply fits_despecialize; exact Hf.
Qed.

(** ** Types without texts and lists *)
Lemma fits_free : forall enc t, memory_free t -> forall v, fits enc t v.
Proof.
  intros enc t. induction t using valtype_ind'; intros Hm v; try exact I; try (destruct Hm; fail).
  - cbn [memory_free fits] in *. intros m ->. rewrite Forall_map. apply all_Forall in Hm. rewrite Forall_forall in *.
    intros f Hf x _. cbn [fst snd]. apply H; [exact Hf|]. apply Hm. exact Hf.
  - cbn [memory_free fits] in *. intros key p i c -> _ Hi. apply all_Forall in Hm. rewrite Forall_forall in *.
    rewrite nth_error_map in Hi. destruct (nth_error cs i) as [d|] eqn:Ed; [|discriminate]. injection Hi as <-.
    apply nth_error_In in Ed. specialize (H d Ed). specialize (Hm d Ed). cbn [map_case c_type] in *.
    destruct (c_type d); [apply H; exact Hm|exact I].
  - apply fits_despecialize. apply IHt. apply memory_free_despecialize. exact Hm.
Qed.

(** ** The case that is lifted, and the one that is lowered *)
Lemma lift_variant_label : forall flat (cs : list (caseOf (LM any))) it s i it1 v it' s',
  next_u32 it s = (Ok (i, it1), s) -> lift_flat_variant flat cs it s = (Ok (v, it'), s') ->
  exists key p, v = VMap [(key, p)] /\ full_label cs (N.to_nat i) key.
Proof.
  intros flat cs it s i it1 v it' s' Hi E. unfold lift_flat_variant in E.
  apply bind_inv in E. destruct E as (ft & s0 & E0 & E). unfold lift_o in E0. injection E0 as _ <-.
  destruct ft as [|first rest]; [discriminate|]. destruct (negb _); [discriminate|].
  apply bind_inv in E. destruct E as ([i' it2] & s1 & E1 & E). rewrite Hi in E1. injection E1 as <- <- <-.
  destruct (_ <=? _); [discriminate|]. destruct (nth_error cs (N.to_nat i)) as [c|] eqn:Ec; [|discriminate].
  destruct (c_type c).
  - apply bind_inv in E. destruct E as ([x cit] & s2 & _ & E). destruct cit; [discriminate|].
    apply bind_inv in E. destruct E as (it3 & s3 & _ & E). apply bind_inv in E. destruct E as (label & s4 & E4 & E).
    unfold lift_o in E4. injection E4 as E4 _. injection E as <- _ _. exists label, x. split; [reflexivity|].
    eapply case_label_full; eassumption.
  - apply bind_inv in E. destruct E as (it3 & s3 & _ & E). apply bind_inv in E. destruct E as (label & s4 & E4 & E).
    unfold lift_o in E4. injection E4 as E4 _. injection E as <- _ _. exists label, VNil. split; [reflexivity|].
    eapply case_label_full; eassumption.
Qed.

Lemma refinement_fun : forall {A} (cs : list (caseOf A)) c ls ls', refinement_labels cs c ls -> refinement_labels cs c ls' -> ls = ls'.
Proof.
  intros A cs c ls ls' H. revert ls'. induction H as [c E|c c' ls E H IH]; intros ls' H'; inversion H'; subst; try congruence.
  f_equal. apply IH. congruence.
Qed.

Lemma match_labels_unknown : forall {A} (cs : list (caseOf A)) ls, Forall (fun x => ~ In x (map c_label cs)) ls ->
  match_labels cs ls = Err EOther.
Proof. induction 1; cbn; [reflexivity|]. rewrite label_index_none by assumption. assumption. Qed.

Lemma match_case_unknown : forall {A} (cs : list (caseOf A)) ls p, ls <> [] -> Forall bar_free ls ->
  Forall (fun x => ~ In x (map c_label cs)) ls -> match_case (VMap [(String.concat "|" ls, p)]) cs = Err EOther.
Proof.
  intros A cs ls p Hn Hb Hu. destruct ls as [|l ls]; [congruence|]. cbn [match_case].
  rewrite split_bar_concat by assumption. rewrite match_labels_unknown by assumption. reflexivity.
Qed.

Lemma refinement_nonempty : forall {A} (cs : list (caseOf A)) c ls, refinement_labels cs c ls -> ls <> [].
Proof. intros A cs c ls H. inversion H; discriminate. Qed.

(** ** Every type is a subtype of itself *)
Lemma wf_refinement : forall {A} (cs : list (caseOf A)) c ls, wf_cases cs -> In c cs -> refinement_labels cs c ls ->
  nearest (map c_label cs) ls (c_label c).
Proof.
  intros A cs c ls _ Hc H. assert (Y : exists rest, ls = c_label c :: rest) by (inversion H; eauto).
  destruct Y as [rest ->]. exists [], rest. split; [reflexivity|]. split; [constructor|]. apply in_map. exact Hc.
Qed.

Lemma sub_refl : forall t, wf_type t -> handle_free t -> subtype t t.
Proof.
  induction t using valtype_ind'; intros Hw Hh; try (apply sub_basic; unfold basic; cbn [In]; tauto); try (destruct Hh; fail).
  - apply sub_list. apply IHt; [apply Hw|exact Hh].
  - destruct Hw as [_ Hw]. cbn [handle_free] in Hh. apply all_Forall in Hw, Hh. apply sub_record. rewrite Forall_forall in *.
    intros [l t] Hf. exists t. split; [exact Hf|]. apply (H _ Hf); [apply (Hw _ Hf)|apply (Hh _ Hf)].
  - destruct Hw as [Hc Hw]. cbn [handle_free] in Hh. apply all_Forall in Hw, Hh. apply sub_variant. intros c ls Hin Hr.
    exists c. split; [exact Hin|]. split; [eapply wf_refinement; eassumption|].
    rewrite Forall_forall in *. specialize (H c Hin). specialize (Hw c Hin). specialize (Hh c Hin). cbn beta in *.
    destruct (c_type c); constructor. apply H; assumption.
  - apply sub_flags. apply incl_refl.
  - apply sub_special; [left; assumption|]. apply IHt; [apply wf_despecialize; exact Hw|apply handle_free_despecialize; exact Hh].
Qed.
