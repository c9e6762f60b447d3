(** Proofs about alignment, size and despecialisation. *)
From Coq Require Import NArith ZArith List String Bool Lia ZifyBool ZifyNat ZifyN.
From Verif Require Import GoBase M_Types M_Layout S_Layout.
Import ListNotations.
Open Scope N_scope.
Open Scope go_scope.
Ltac Zify.zify_post_hook ::= Z.div_mod_to_equations.
Arguments align_to : simpl never.
Arguments up_to : simpl never.
Arguments add32 : simpl never.
Arguments mul32 : simpl never.
Arguments u32 : simpl never.
Arguments max_align : simpl never.
Arguments max_size : simpl never.
Arguments N.max : simpl never.
Arguments N.add : simpl never.
Arguments N.mul : simpl never.
Arguments N.leb : simpl never.
Arguments N.ltb : simpl never.

(** ** Rounding up *)

Lemma up_to_ge : forall a x, a <> 0 -> x <= up_to a x.
Proof.
  intros a x Ha. unfold up_to.
  pose proof (N.div_mod (x + a - 1) a Ha). pose proof (N.mod_lt (x + a - 1) a Ha). lia.
Qed.

Lemma up_to_lt : forall a x, a <> 0 -> up_to a x < x + a.
Proof.
  intros a x Ha. unfold up_to.
  pose proof (N.div_mod (x + a - 1) a Ha). pose proof (N.mod_lt (x + a - 1) a Ha). lia.
Qed.

Lemma up_to_div : forall a x, (a | up_to a x).
Proof. intros a x. unfold up_to. exists ((x + a - 1) / a). lia. Qed.

Lemma up_to_least : forall a x, a <> 0 -> least_multiple a x (up_to a x).
Proof.
  intros a x Ha. repeat split.
  - apply up_to_div.
  - apply up_to_ge; assumption.
  - intros z [k ->] Hz. unfold up_to. rewrite (N.mul_comm k a).
    apply N.mul_le_mono_l.
    destruct (N.le_gt_cases ((x + a - 1) / a) k) as [|H]; [assumption|].
    exfalso. pose proof (N.div_mod (x + a - 1) a Ha).
    pose proof (N.mod_lt (x + a - 1) a Ha).
    assert (a * (k + 1) <= a * ((x + a - 1) / a)) by (apply N.mul_le_mono_l; lia).
    lia.
Qed.

Lemma up_to_id : forall a x, a <> 0 -> (a | x) -> up_to a x = x.
Proof.
  intros a x Ha Hd. destruct (up_to_least a x Ha) as (_ & H1 & H2).
  specialize (H2 x Hd (N.le_refl x)). lia.
Qed.

Lemma up_to_mono : forall a x y, a <> 0 -> x <= y -> up_to a x <= up_to a y.
Proof.
  intros a x y Ha H. destruct (up_to_least a x Ha) as (_ & _ & H2).
  apply H2; [apply up_to_div|]. pose proof (up_to_ge a y Ha). lia.
Qed.

(** Shifting by a multiple of the alignment. *)
Lemma up_to_shift : forall a p x, a <> 0 -> (a | p) -> up_to a (p + x) = p + up_to a x.
Proof.
  intros a p x Ha [k ->]. unfold up_to.
  replace (k * a + x + a - 1) with (x + a - 1 + k * a) by lia.
  rewrite N.div_add by assumption. lia.
Qed.

Lemma align_to_up : forall ptr a, a <> 0 -> align_to ptr a = Ok (u32 (up_to a ptr)).
Proof.
  intros ptr a Ha. unfold align_to, up_to.
  destruct (N.eqb_spec a 0); [contradiction|].
  rewrite N.mul_comm. reflexivity.
Qed.

Definition valid_align (a : N) : Prop := a = 1 \/ a = 2 \/ a = 4 \/ a = 8.

Lemma valid_align_nz : forall a, valid_align a -> a <> 0.
Proof. unfold valid_align. lia. Qed.

Lemma valid_align_max : forall a b, valid_align a -> valid_align b -> valid_align (N.max a b).
Proof. unfold valid_align. lia. Qed.

Lemma valid_align_div32 : forall a, valid_align a -> (a | two32).
Proof.
  intros a [->|[->|[->| ->]]]; unfold two32;
    [exists 4294967296|exists 2147483648|exists 1073741824|exists 536870912]; reflexivity.
Qed.

Lemma divide_u32 : forall a x, valid_align a -> (a | x) -> (a | u32 x).
Proof.
  intros a x Ha Hx. unfold u32.
  rewrite N.mod_eq by (unfold two32; lia).
  apply N.divide_sub_r; [assumption|].
  apply N.divide_mul_l. apply valid_align_div32; assumption.
Qed.

(** divisibility between valid alignments *)
Lemma valid_align_divides : forall a b, valid_align a -> valid_align b -> a <= b -> (a | b).
Proof.
  intros a b Ha Hb H.
  destruct Ha as [->|[->|[->| ->]]]; destruct Hb as [->|[->|[->| ->]]]; try lia;
    (exists 1; reflexivity) || (exists 2; reflexivity) || (exists 4; reflexivity) || (exists 8; reflexivity).
Qed.

Lemma u32_small : forall x, x < two32 -> u32 x = x.
Proof. intros. unfold u32. apply N.mod_small. assumption. Qed.

Lemma u32_lt : forall x, u32 x < two32.
Proof. intros. unfold u32. apply N.mod_lt. unfold two32. lia. Qed.

(** ** Despecialisation *)

Lemma map_itoa_fields : forall {A B} (g : A -> B) l,
  map (fun f => (fst f, g (snd f))) (itoa_fields l) = itoa_fields (map g l).
Proof.
  intros A B g l. unfold itoa_fields. generalize 0.
  induction l as [|x l IH]; intros n; cbn; [reflexivity|]. f_equal. apply IH.
Qed.

Lemma map_snd_itoa_fields : forall {A B} (g : A -> B) l,
  map (fun f => g (snd f)) (itoa_fields l) = map g l.
Proof.
  intros A B g l. unfold itoa_fields. generalize 0.
  induction l as [|x l IH]; intros n; cbn; [reflexivity|]. f_equal. apply IH.
Qed.

Lemma map_itoa_cases : forall {A B} (g : A -> B) l,
  map (map_case g) (itoa_cases l) = itoa_cases (map g l).
Proof.
  intros A B g l. unfold itoa_cases. generalize 0.
  induction l as [|x l IH]; intros n; cbn; [reflexivity|]. f_equal. apply IH.
Qed.

Lemma map_enum_cases : forall {A B} (g : A -> B) ls,
  map (map_case g) (enum_cases ls) = enum_cases ls.
Proof.
  intros A B g ls. unfold enum_cases. rewrite map_map. apply map_ext. reflexivity.
Qed.

Lemma alignment_despecialize : forall t, alignment (despecialize t) = alignment t.
Proof.
  destruct t; try reflexivity; cbn.
  - rewrite map_snd_itoa_fields. reflexivity.
  - rewrite map_enum_cases. reflexivity.
  - rewrite map_itoa_cases. reflexivity.
Qed.

Lemma size_despecialize : forall t, size (despecialize t) = size t.
Proof.
  destruct t; try reflexivity; cbn.
  - rewrite (map_snd_itoa_fields (fun t => (alignment t, size t))). reflexivity.
  - rewrite map_enum_cases. reflexivity.
  - rewrite map_itoa_cases. reflexivity.
Qed.

Lemma flatten_despecialize : forall t, flatten_type (despecialize t) = flatten_type t.
Proof.
  destruct t; try reflexivity; cbn.
  - rewrite map_snd_itoa_fields. reflexivity.
  - rewrite map_enum_cases. reflexivity.
  - rewrite map_itoa_cases. reflexivity.
Qed.

Lemma payload_types_itoa : forall {A} (l : list A), payload_types (itoa_cases l) = l.
Proof.
  intros A l. unfold payload_types, itoa_cases. generalize 0.
  induction l as [|x l IH]; intros n; cbn; [reflexivity|]. f_equal. apply IH.
Qed.

Lemma payload_types_enum : forall {A} ls, payload_types (A := A) (enum_cases ls) = [].
Proof. induction ls; cbn; auto. Qed.

Lemma itoa_cases_length : forall {A} (l : list A), List.length (itoa_cases l) = List.length l.
Proof.
  intros A l. unfold itoa_cases. generalize 0.
  induction l as [|x l IH]; intros n; cbn; [reflexivity|]. f_equal. apply IH.
Qed.

Lemma enum_cases_length : forall {A} ls, List.length (enum_cases (A := A) ls) = List.length ls.
Proof. intros. apply map_length. Qed.

Lemma sp_layout_despecialize : forall t, sp_layout (despecialize t) = sp_layout t.
Proof.
  destruct t; try reflexivity; cbn [despecialize sp_layout].
  - rewrite map_snd_itoa_fields. reflexivity.
  - rewrite map_enum_cases, payload_types_enum, enum_cases_length. reflexivity.
  - cbn. destruct (sp_layout t); reflexivity.
  - cbn. destruct ok, err; reflexivity.
  - rewrite map_itoa_cases, payload_types_itoa, itoa_cases_length. reflexivity.
Qed.

(** ** The code computes the specified layout *)

Definition total {A} (o : outcome A) : Prop :=
  match o with Ok _ | Err _ => True | _ => False end.

Definition layout_ok (t : valtype) : Prop :=
  total (alignment t) /\
  match sp_layout t with
  | None => exists e, size t = Err e
  | Some (a, s) =>
      alignment t = Ok a /\ valid_align a /\ (a | s) /\
      exists s', size t = Ok s' /\ (a | s') /\ s' < two32 /\ (s < two32 -> s' = s)
  end.

Lemma all_some_Forall2 : forall {A} (l : list (option A)) r,
  all_some l = Some r -> Forall2 (fun o x => o = Some x) l r.
Proof.
  induction l as [|o l IH]; cbn; intros r H.
  - inversion H. constructor.
  - destruct o; [|discriminate]. destruct (all_some l); [|discriminate].
    inversion H. constructor; auto.
Qed.

Lemma all_some_None : forall {A} (l : list (option A)),
  all_some l = None -> In None l.
Proof.
  induction l as [|o l IH]; cbn; intros H; [discriminate|].
  destruct o; [|auto]. destruct (all_some l); [discriminate|auto].
Qed.

(** One record field / case payload: outcomes against the specification. *)
Definition comp_ok (o : option layout) (p : outcome N * outcome N) : Prop :=
  total (fst p) /\
  match o with
  | None => exists e, snd p = Err e
  | Some (a, s) =>
      fst p = Ok a /\ valid_align a /\ (a | s) /\
      exists s', snd p = Ok s' /\ (a | s') /\ s' < two32 /\ (s < two32 -> s' = s)
  end.

Lemma max_align_valid : forall l, Forall (fun p => valid_align (fst p)) l -> valid_align (max_align l).
Proof.
  induction 1; cbn.
  - left; reflexivity.
  - apply valid_align_max; assumption.
Qed.

Lemma max_align_cons : forall p l, max_align (p :: l) = N.max (fst p) (max_align l).
Proof. reflexivity. Qed.
Lemma max_size_cons : forall p l, max_size (p :: l) = N.max (snd p) (max_size l).
Proof. reflexivity. Qed.

Lemma max_align_ge1 : forall l, 1 <= max_align l.
Proof. unfold max_align. induction l; cbn [fold_right]; lia. Qed.

Lemma alignment_record_max : forall l os,
  Forall2 (fun (p : layout) o => o = Ok (fst p)) l os ->
  alignment_record os = Ok (max_align l).
Proof.
  intros l os H. unfold alignment_record.
  assert (G : forall a0, 1 <= a0 ->
    fold_left (fun acc x => olet a := acc in olet y := x in Ok (N.max a y)) os (Ok a0)
    = Ok (N.max a0 (max_align l))).
  { induction H; intros a0 Ha0; cbn [fold_left].
    - f_equal. unfold max_align; cbn [fold_right]. lia.
    - rewrite H, max_align_cons. cbn [obind]. rewrite IHForall2 by lia. f_equal. lia. }
  rewrite G by lia. f_equal. pose proof (max_align_ge1 l). lia.
Qed.

Lemma fold_err : forall {A B} (f : outcome A -> B -> outcome A) l e,
  (forall b, f (Err e) b = Err e) -> fold_left f l (Err e) = Err e.
Proof. induction l; cbn; intros; [reflexivity|]. rewrite H. apply IHl; assumption. Qed.

Lemma alignment_record_total : forall os, Forall total os -> total (alignment_record os).
Proof.
  intros os H. unfold alignment_record. generalize 1.
  induction H; intros n; cbn; [exact I|].
  destruct x; cbn in *; try contradiction.
  - apply IHForall.
  - rewrite fold_err by reflexivity. exact I.
Qed.

Lemma total_cases : forall {A} (o : outcome A), total o -> (exists a, o = Ok a) \/ (exists e, o = Err e).
Proof. destruct o; cbn; intros; try contradiction; eauto. Qed.

(** The running position of SizeRecord. *)
Definition size_step := fun acc (f : outcome N * outcome N) =>
    olet s := acc in
    olet a := fst f in
    olet s := align_to s a in
    olet z := snd f in
    Ok (add32 s z).

Lemma fields_end_ge : forall l pos, Forall (fun p => valid_align (fst p)) l ->
  pos <= fields_end pos l.
Proof.
  intros l pos H. revert pos. induction H as [|[a s] l Hv Hl IH]; intros pos; cbn; [lia|].
  pose proof (up_to_ge a pos (valid_align_nz a Hv)). specialize (IH (up_to a pos + s)). lia.
Qed.

Lemma size_fold_spec : forall l ps pos,
  Forall2 (fun p o => comp_ok (Some p) o) l ps ->
  pos < two32 ->
  exists s', fold_left size_step ps (Ok pos) = Ok s' /\ s' < two32 /\
    (fields_end pos l < two32 -> s' = fields_end pos l).
Proof.
  intros l ps pos H. revert pos. induction H as [|[a s] o l ps Ho Hl IH]; intros pos Hpos; cbn.
  - eauto.
  - destruct Ho as (_ & Ha & Hv & _ & s' & Hs & _ & Hlt & Heq).
    rewrite Ha; cbn. rewrite align_to_up by (apply valid_align_nz; assumption).
    cbn. rewrite Hs. cbn.
    destruct (IH (add32 (u32 (up_to a pos)) s')) as (r & Hr & Hrlt & Hreq).
    { unfold add32. apply N.mod_lt. unfold two32; lia. }
    exists r. repeat split; [assumption|assumption|].
    intros Hend.
    assert (Forall (fun p => valid_align (fst p)) l) as Hvl.
    { clear - Hl. induction Hl as [|[a s] o l ps Ho Hl IH]; constructor; [|assumption].
      destruct Ho as (_ & _ & Hv & _). assumption. }
    pose proof (fields_end_ge l (up_to a pos + s) Hvl) as Hge.
    assert (s' = s) as -> by (apply Heq; lia).
    assert (add32 (u32 (up_to a pos)) s = up_to a pos + s) as E.
    { unfold add32. rewrite u32_small by lia. apply N.mod_small. lia. }
    rewrite E in Hreq. apply Hreq. assumption.
Qed.

Lemma size_fold_err : forall ps os pos,
  Forall2 comp_ok os ps -> In None os ->
  exists e, fold_left size_step ps (Ok pos) = Err e.
Proof.
  intros ps os pos H. revert pos. induction H as [|o p os ps Ho Hl IH]; intros pos Hin; [contradiction|].
  cbn. destruct Ho as (Ht & Ho).
  destruct (total_cases _ Ht) as [[a Ha]|[e He]].
  - rewrite Ha; cbn. unfold align_to at 1. cbn.
    destruct o as [[a' s]|].
    + destruct Ho as (_ & _ & _ & s' & Hs & _). rewrite Hs; cbn.
      destruct Hin as [Hin|Hin]; [discriminate|]. apply IH; assumption.
    + destruct Ho as [e He]. rewrite He; cbn. exists e. apply fold_err. reflexivity.
  - rewrite He; cbn. exists e. apply fold_err. reflexivity.
Qed.

Lemma comp_valid : forall l ps, Forall2 (fun p o => comp_ok (Some p) o) l ps ->
  Forall (fun p => valid_align (fst p)) l.
Proof.
  induction 1 as [|[a s] o l ps Ho Hl IH]; constructor; [|assumption].
  destruct Ho as (_ & _ & Hv & _). assumption.
Qed.

Lemma comp_aligns : forall l ps, Forall2 (fun p o => comp_ok (Some p) o) l ps ->
  Forall2 (fun (p : layout) o => o = Ok (fst p)) l (map fst ps).
Proof.
  induction 1 as [|[a s] o l ps Ho Hl IH]; constructor; [|assumption].
  destruct Ho as (_ & Ha & _). assumption.
Qed.

Lemma Forall2_some : forall {A B} (R : option A -> B -> Prop) os r ps,
  Forall2 R os ps -> Forall2 (fun o x => o = Some x) os r ->
  Forall2 (fun x p => R (Some x) p) r ps.
Proof.
  intros A B R os r ps H. revert r. induction H; intros r Hr; inversion Hr; subst; constructor; auto.
Qed.

Lemma layout_record_gen : forall os ps,
  Forall2 comp_ok os ps ->
  total (alignment_record (map fst ps)) /\
  match bindo (all_some os) (fun l => Some (sp_record l)) with
  | None => exists e, size_record ps = Err e
  | Some (a, s) =>
      alignment_record (map fst ps) = Ok a /\ valid_align a /\ (a | s) /\
      exists s', size_record ps = Ok s' /\ (a | s') /\ s' < two32 /\ (s < two32 -> s' = s)
  end.
Proof.
  intros os ps H. split.
  { apply alignment_record_total. clear -H. induction H; constructor; auto. apply H. }
  destruct (all_some os) as [l|] eqn:E; cbn [bindo].
  - apply all_some_Forall2 in E. pose proof (Forall2_some _ _ _ _ H E) as G.
    unfold sp_record.
    pose proof (comp_valid _ _ G) as Hv. pose proof (max_align_valid _ Hv) as Hm.
    pose proof (alignment_record_max _ _ (comp_aligns _ _ G)) as Ha.
    repeat split; try assumption.
    { apply up_to_div. }
    unfold size_record. fold size_step.
    destruct (size_fold_spec l ps 0 G) as (r & Hr & Hlt & Heq); [unfold two32; lia|].
    rewrite Hr; cbn. rewrite Ha; cbn.
    rewrite align_to_up by (apply valid_align_nz; assumption).
    eexists; split; [reflexivity|]. split.
    { apply divide_u32; [assumption|apply up_to_div]. }
    split; [apply u32_lt|].
    intros Hs. pose proof (up_to_ge (max_align l) (fields_end 0 l) (valid_align_nz _ Hm)).
    rewrite Heq by lia. apply u32_small. assumption.
  - apply all_some_None in E. unfold size_record. fold size_step.
    destruct (size_fold_err ps os 0 H E) as [e He]. rewrite He. exists e. reflexivity.
Qed.

(** Variants *)

Definition case_ok (o : caseOf (option layout)) (c : caseOf (outcome N * outcome N)) : Prop :=
  match c_type o, c_type c with
  | None, None => True
  | Some l, Some p => comp_ok l p
  | _, _ => False
  end.

Lemma mca_max : forall cs os l,
  Forall2 case_ok os cs -> Forall2 (fun o x => o = Some x) (payload_types os) l ->
  max_case_alignment (map (map_case fst) cs) = Ok (max_align l).
Proof.
  intros cs os l H Hl. unfold max_case_alignment.
  set (f := fun acc c => _).
  assert (G : forall a0, 1 <= a0 ->
    fold_left f (map (map_case fst) cs) (Ok a0) = Ok (N.max a0 (max_align l))).
  { revert l Hl. induction H as [|o c os cs Ho Hcs IH]; intros l Hl a0 Ha0.
    - inversion Hl. cbn [map fold_left]. f_equal. unfold max_align; cbn [fold_right]. lia.
    - unfold case_ok in Ho. cbn in Hl. cbn [map fold_left].
      destruct (c_type o) as [lo|] eqn:Eo, (c_type c) as [p|] eqn:Ec; try contradiction.
      + cbn in Hl. inversion Hl as [|? x ? l' Hx Hl']; subst.
        destruct x as [a s]. destruct Ho as (_ & Ha & _). rewrite max_align_cons.
        assert (f (Ok a0) (map_case fst c) = Ok (N.max a0 a)) as ->.
        { unfold f, map_case. cbn [obind c_type]. rewrite Ec, Ha. reflexivity. }
        rewrite (IH l') by (assumption || lia). f_equal. cbn [fst]. lia.
      + assert (f (Ok a0) (map_case fst c) = Ok a0) as ->.
        { unfold f, map_case. cbn [obind c_type]. rewrite Ec. reflexivity. }
        apply IH; assumption. }
  rewrite G by lia. f_equal. pose proof (max_align_ge1 l). lia.
Qed.

Lemma mca_total : forall cs os, Forall2 case_ok os cs -> total (max_case_alignment (map (map_case fst) cs)).
Proof.
  intros cs os H. unfold max_case_alignment. generalize 1.
  induction H as [|o c os cs Ho Hcs IH]; intros n; cbn; [exact I|].
  unfold case_ok in Ho.
  destruct (c_type o), (c_type c) as [p|] eqn:Ec; try contradiction; [|apply IH].
  destruct Ho as (Ht & _). destruct (total_cases _ Ht) as [[a Ha]|[e He]].
  - rewrite Ha; cbn. apply IH.
  - rewrite He; cbn. rewrite fold_err; [exact I|reflexivity].
Qed.

Lemma disc_match : forall n,
  match disc_size n with
  | None => exists e, discriminant_type n = Err e
  | Some d => exists dt, discriminant_type n = Ok dt /\ scalar_align dt = d /\ scalar_size dt = d /\
                         valid_align d /\ d < 8
  end.
Proof.
  intros n. unfold disc_size, discriminant_type.
  change (2 ^ 8) with 256. change (2 ^ 16) with 65536. change (2 ^ 24) with 16777216.
  destruct (N.of_nat n =? 0); [eauto|].
  destruct (N.of_nat n <=? 256); [eexists; repeat split; unfold valid_align; cbn; lia|].
  destruct (N.of_nat n <=? 65536); [eexists; repeat split; unfold valid_align; cbn; lia|].
  destruct (N.of_nat n <=? 16777216); [eexists; repeat split; unfold valid_align; cbn; lia|].
  eauto.
Qed.

Definition cmax_step := fun acc (c : caseOf (outcome N * outcome N)) =>
    olet m := acc in
    match c_type c with
    | None => Ok m
    | Some x => olet z := snd x in Ok (N.max m z)
    end.

Lemma cmax_spec : forall cs os l,
  Forall2 case_ok os cs -> Forall2 (fun o x => o = Some x) (payload_types os) l ->
  forall m0, m0 < two32 -> exists m, fold_left cmax_step cs (Ok m0) = Ok m /\ m < two32 /\
    (N.max m0 (max_size l) < two32 -> m = N.max m0 (max_size l)).
Proof.
  intros cs os l H. revert l. induction H as [|o c os cs Ho Hcs IH]; intros l Hl m0 Hm0.
  - inversion Hl. cbn. exists m0. repeat split; [assumption|]. unfold max_size; cbn [fold_right]. lia.
  - unfold case_ok in Ho. cbn in Hl. cbn.
    destruct (c_type o) as [lo|] eqn:Eo, (c_type c) as [p|] eqn:Ec; try contradiction.
    + cbn in Hl. inversion Hl as [|? x ? l' Hx Hl']; subst. destruct x as [a s].
      destruct Ho as (_ & _ & _ & _ & s' & Hs & _ & Hslt & Heq).
      rewrite Hs; cbn. destruct (IH l' Hl' (N.max m0 s')) as (m & Hm & Hmlt & Hmeq); [lia|].
      exists m. repeat split; [assumption|assumption|]. rewrite max_size_cons. cbn [snd]. intros Hb.
      assert (s' = s) as -> by (apply Heq; lia). rewrite Hmeq by lia. lia.
    + apply IH; assumption.
Qed.

Lemma cmax_err : forall cs os m0,
  Forall2 case_ok os cs -> In None (payload_types os) ->
  exists e, fold_left cmax_step cs (Ok m0) = Err e.
Proof.
  intros cs os m0 H. revert m0. induction H as [|o c os cs Ho Hcs IH]; intros m0 Hin; [contradiction|].
  unfold case_ok in Ho. cbn in Hin. cbn.
  destruct (c_type o) as [lo|] eqn:Eo, (c_type c) as [p|] eqn:Ec; try contradiction.
  - cbn in Hin. destruct lo as [[a s]|].
    + destruct Ho as (_ & _ & _ & _ & s' & Hs & _). rewrite Hs; cbn.
      destruct Hin as [Hin|Hin]; [discriminate|]. apply IH; assumption.
    + destruct Ho as (_ & e & He). rewrite He; cbn. exists e. apply fold_err. reflexivity.
  - apply IH; assumption.
Qed.

Lemma layout_variant_gen : forall os cs,
  Forall2 case_ok os cs ->
  total (alignment_variant (map (map_case fst) cs)) /\
  match bindo (all_some (payload_types os)) (sp_variant (List.length os)) with
  | None => exists e, size_variant cs = Err e
  | Some (a, s) =>
      alignment_variant (map (map_case fst) cs) = Ok a /\ valid_align a /\ (a | s) /\
      exists s', size_variant cs = Ok s' /\ (a | s') /\ s' < two32 /\ (s < two32 -> s' = s)
  end.
Proof.
  intros os cs H.
  assert (Hlen : List.length os = List.length cs).
  { clear -H. induction H; cbn; congruence. }
  pose proof (disc_match (List.length cs)) as Hd.
  assert (Hlen' : List.length (map (map_case fst) cs) = List.length cs) by apply map_length.
  split.
  { unfold alignment_variant. rewrite Hlen'.
    destruct (disc_size (List.length cs)); [|destruct Hd as [e ->]; exact I].
    destruct Hd as (dt & -> & _). cbn.
    pose proof (mca_total _ _ H) as Ht. destruct (max_case_alignment _); exact Ht. }
  destruct (all_some (payload_types os)) as [l|] eqn:E; cbn [bindo].
  - apply all_some_Forall2 in E. unfold sp_variant. rewrite Hlen.
    pose proof (mca_max _ _ _ H E) as Hm.
    assert (Hv : valid_align (max_align l)).
    { apply max_align_valid. clear -H E. revert l E. induction H as [|o c os cs Ho Hcs IH]; intros l Hl.
      - inversion Hl. constructor.
      - unfold case_ok in Ho. cbn in Hl. destruct (c_type o), (c_type c); try contradiction.
        + cbn in Hl. inversion Hl as [|? x ? l' Hx Hl']; subst. constructor; [|auto].
          destruct x. destruct Ho as (_ & _ & Hv & _). assumption.
        + auto. }
    unfold alignment_variant, size_variant. rewrite Hlen'.
    destruct (disc_size (List.length cs)) as [d|]; [|destruct Hd as [e ->]; exists e; reflexivity].
    destruct Hd as (dt & Hdt & Hsa & Hss & Hvd & Hd8). rewrite Hdt; cbn. rewrite Hm; cbn.
    rewrite Hsa, Hss.
    assert (Hva : valid_align (N.max d (max_align l))) by (apply valid_align_max; assumption).
    repeat split; try assumption. { apply up_to_div. }
    rewrite align_to_up by (apply valid_align_nz; assumption). cbn.
    fold cmax_step.
    destruct (cmax_spec _ _ _ H E 0) as (m & Hcm & Hmlt & Hmeq); [unfold two32; lia|].
    rewrite Hcm; cbn. unfold alignment_variant. rewrite Hlen', Hdt; cbn. rewrite Hm; cbn. rewrite Hsa.
    rewrite align_to_up by (apply valid_align_nz; assumption).
    eexists; split; [reflexivity|]. split.
    { apply divide_u32; [assumption|apply up_to_div]. }
    split; [apply u32_lt|]. unfold payload_offset. intros Hs.
    pose proof (up_to_ge (N.max d (max_align l)) (up_to (max_align l) d + max_size l) (valid_align_nz _ Hva)).
    rewrite Hmeq by lia. unfold add32. rewrite (u32_small (up_to _ d)) by lia.
    replace (N.max 0 (max_size l)) with (max_size l) by lia.
    rewrite N.mod_small by lia. apply u32_small. assumption.
  - apply all_some_None in E. unfold size_variant.
    destruct (disc_size (List.length cs)) as [d|]; [|destruct Hd as [e ->]; exists e; reflexivity].
    destruct Hd as (dt & Hdt & _). rewrite Hdt; cbn.
    destruct (total_cases _ (mca_total _ _ H)) as [[a Ha]|[e He]].
    + rewrite Ha; cbn. unfold align_to at 1. cbn. fold cmax_step.
      destruct (cmax_err _ _ 0 H E) as [e He]. rewrite He. exists e. reflexivity.
    + rewrite He. exists e. reflexivity.
Qed.

Lemma layout_ok_comp : forall t, layout_ok t -> comp_ok (sp_layout t) (alignment t, size t).
Proof. intros t H. exact H. Qed.

Lemma sp_flags_ok : forall ls, layout_ok (TFlags ls).
Proof.
  intros ls. unfold layout_ok. cbn [alignment sp_layout size]. unfold alignment_flags, size_flags, sp_flags.
  set (n := N.of_nat (List.length ls)).
  assert (D : forall a b, (a | a * b)) by (intros a b; exists b; lia).
  destruct (N.eqb_spec n 0).
  { replace (n <=? 8) with true by lia. split; [exact I|]. unfold valid_align.
    repeat split; auto. { exists 0; reflexivity. } exists 0. unfold two32. repeat split; try lia. exists 0; reflexivity. }
  destruct (N.leb_spec n 8).
  { split; [exact I|]. unfold valid_align. repeat split; auto. { exists 1; reflexivity. }
    exists 1. unfold two32. repeat split; try lia. exists 1; reflexivity. }
  destruct (N.leb_spec n 16).
  { split; [exact I|]. unfold valid_align. repeat split; auto. { exists 1; reflexivity. }
    exists 2. unfold two32. repeat split; try lia. exists 1; reflexivity. }
  split; [exact I|]. assert (Hv : valid_align 4) by (unfold valid_align; lia).
  repeat split; auto. unfold num_i32_flags. fold n.
  eexists; split; [reflexivity|]. unfold mul32. fold (u32 (4 * ((n + 31) / 32))). split.
  { apply divide_u32; [exact Hv|apply D]. }
  split; [apply u32_lt|]. apply u32_small.
Qed.

Lemma layout_ok_all : forall t, layout_ok t.
Proof.
  assert (S1 : forall a, valid_align a -> (a | a) /\ exists s', @Ok N a = Ok s' /\ (a | s') /\ s' < two32 /\ (a < two32 -> s' = a)).
  { intros a Ha. assert (a | a) by (exists 1; lia). split; [assumption|]. exists a. repeat split; try assumption.
    unfold two32; unfold valid_align in Ha; lia. }
  assert (V1 : valid_align 1) by (unfold valid_align; lia).
  assert (V2 : valid_align 2) by (unfold valid_align; lia).
  assert (V4 : valid_align 4) by (unfold valid_align; lia).
  assert (V8 : valid_align 8) by (unfold valid_align; lia).
  assert (P8 : layout_ok TString).
  { split; [exact I|]. cbn. repeat split; try assumption. { exists 2; reflexivity. }
    exists 8. repeat split. exists 2; reflexivity. }
  apply valtype_ind'; try (intros; split; [exact I|]; cbn; repeat split; try assumption; apply S1; assumption).
  - exact P8.
  - intros t _. exact P8.
  - intros fs Hfs.
    assert (F : Forall2 comp_ok (map (fun f => sp_layout (snd f)) fs)
                 (map (fun f => (alignment (snd f), size (snd f))) fs)).
    { induction Hfs; cbn; constructor; auto. }
    pose proof (layout_record_gen _ _ F) as G. rewrite map_map in G. exact G.
  - intros cs Hcs.
    assert (F : Forall2 case_ok (map (map_case sp_layout) cs)
                 (map (map_case (fun t => (alignment t, size t))) cs)).
    { induction Hcs as [|c cs Hc Hcs IH]; cbn; constructor; auto.
      unfold case_ok; cbn. destruct (c_type c); cbn in *; [exact Hc|exact I]. }
    pose proof (layout_variant_gen _ _ F) as G. rewrite map_map, map_length in G.
    assert (E : map (fun x => map_case fst (map_case (fun t => (alignment t, size t)) x)) cs
            = map (map_case alignment) cs).
    { apply map_ext. intros c. unfold map_case; cbn. destruct (c_type c); reflexivity. }
    rewrite E in G. exact G.
  - apply sp_flags_ok.
  - intros a b. split; [exact I|]. exists EOther. reflexivity.
  - intros t _ H. unfold layout_ok in *.
    rewrite alignment_despecialize, size_despecialize, sp_layout_despecialize in H. exact H.
Qed.
