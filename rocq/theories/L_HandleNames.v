(** Lifting a value with resources in it reads what lifting it with [u32] in
    place of the handle types reads. *)
From Coq Require Import NArith ZArith List String Bool Arith Permutation Lia ZifyBool ZifyNat ZifyN.
From Verif Require Import GoBase M_Types M_Layout S_Layout L_Layout M_State M_Utf M_Load M_Store M_Flat M_Canon
  S_Values S_Accept S_Flat S_Canon L_Access L_Flat L_Canon L_Despecialize L_Alloc L_Labels L_Variant L_RoundTrip L_Flags L_Lifted L_Accept
  S_Handles L_Handles S_Linked S_HandleCalls L_HandleCalls S_HandleValues L_HandleValues S_HandleNames.
Import ListNotations.
Open Scope N_scope.
Open Scope go_scope.

(** ** Types *)
Lemma plain_despecialize : forall t, plain (despecialize t) = despecialize (plain t).
Proof.
  destruct t; try reflexivity; cbn [despecialize plain].
  - rewrite map_itoa_fields. reflexivity.
  - rewrite map_enum_cases. reflexivity.
  - rewrite map_itoa_cases. reflexivity.
Qed.
Lemma map_case_comp : forall {A B C} (f : B -> C) (g : A -> B) cs, map (map_case f) (map (map_case g) cs) = map (map_case (fun x => f (g x))) cs.
Proof. intros. rewrite map_map. apply map_ext. intros [l [x|] r]; reflexivity. Qed.
Lemma map_case_ext : forall {A B} (f g : A -> B) cs, Forall (fun c => opt_all (fun x => f x = g x) (c_type c)) cs -> map (map_case f) cs = map (map_case g) cs.
Proof. intros A B f g cs H. induction H as [|[l [x|] r] cs Hc H IH]; cbn [map]; [reflexivity| |]; unfold map_case at 1 3; cbn in *; rewrite IH; [rewrite Hc|]; reflexivity. Qed.
Lemma map_field_ext : forall {A} (f g : valtype -> A) fs, Forall (fun p : string * valtype => f (snd p) = g (snd p)) fs -> map (fun p => f (snd p)) fs = map (fun p => g (snd p)) fs.
Proof. intros A f g fs H. induction H as [|p fs Hp H IH]; cbn; [reflexivity|]. rewrite Hp, IH. reflexivity. Qed.

Lemma alignment_plain : forall t, alignment (plain t) = alignment t.
Proof.
  intros t. induction t using valtype_ind'; try reflexivity.
  - cbn [plain alignment]. rewrite map_map. cbn [snd]. rewrite (map_field_ext (fun x => alignment (plain x)) alignment) by assumption. reflexivity.
  - cbn [plain alignment]. rewrite map_case_comp. rewrite (map_case_ext _ alignment) by assumption. reflexivity.
  - rewrite <- (alignment_despecialize t), <- IHt, plain_despecialize, alignment_despecialize. reflexivity.
Qed.

Lemma size_plain : forall t, size (plain t) = size t.
Proof.
  intros t. induction t using valtype_ind'; try reflexivity.
  - cbn [plain size]. rewrite map_map. cbn [snd]. f_equal. apply (map_field_ext (fun x => (alignment (plain x), size (plain x))) (fun x => (alignment x, size x))).
    eapply Forall_impl; [|exact H]. intros p E. cbv beta. rewrite alignment_plain, E. reflexivity.
  - cbn [plain size]. rewrite map_case_comp. rewrite (map_case_ext _ (fun x => (alignment x, size x))); [reflexivity|].
    eapply Forall_impl; [|exact H]. intros [l [x|] r] E; cbn in *; [rewrite alignment_plain, E; reflexivity|exact I].
  - rewrite <- (size_despecialize t), <- IHt, plain_despecialize, size_despecialize. reflexivity.
Qed.
Lemma flatten_plain : forall t, flatten_type (plain t) = flatten_type t.
Proof.
  intros t. induction t using valtype_ind'; try reflexivity.
  - cbn [plain flatten_type]. rewrite map_map. cbn [snd]. rewrite (map_field_ext (fun x => flatten_type (plain x)) flatten_type) by assumption. reflexivity.
  - cbn [plain flatten_type]. rewrite map_case_comp. rewrite (map_case_ext _ flatten_type) by assumption. reflexivity.
  - rewrite <- (flatten_despecialize t), <- IHt, plain_despecialize, flatten_despecialize. reflexivity.
Qed.
Lemma flatten_types_plain : forall ts, flatten_types (map plain ts) = flatten_types ts.
Proof. intros ts. unfold flatten_types. rewrite map_map. f_equal. apply map_ext. apply flatten_plain. Qed.
Lemma names_despecialize : forall t w v xs, names (despecialize t) w v xs <-> names t w v xs.
Proof.
  destruct t; intros w v hs; try reflexivity; cbn [despecialize names].
  - rewrite (map_itoa_fields names). reflexivity.
  - rewrite map_enum_cases. reflexivity.
  - rewrite map_itoa_cases. reflexivity.
Qed.

(** ** Functions that only read the memory *)
Definition reads {A} (m : M A) : Prop := exists g, forall s, m s = (g (s_mem s), s).
Lemma reads_lift : forall {A} (o : outcome A), reads (lift_o o).
Proof. intros A o. exists (fun _ => o). reflexivity. Qed.
Lemma reads_ret : forall {A} (x : A), reads (ret x).
Proof. intros A x. exists (fun _ => Ok x). reflexivity. Qed.
Lemma reads_get : reads get_mem.
Proof. exists (fun m => Ok m). reflexivity. Qed.
Lemma reads_bind : forall {A B} (m : M A) (f : A -> M B), reads m -> (forall x, reads (f x)) -> reads (bind m f).
Proof.
  intros A B m f (g & Hm) Hf.
  exists (fun mem => fst (bind m f (mkState mem [] (mkWorld [] [] [] [])))). intros s. unfold bind. rewrite !Hm. cbn [s_mem].
  destruct (g (s_mem s)) as [x|e| |]; try reflexivity. destruct (Hf x) as (k & Hk). rewrite !Hk. reflexivity.
Qed.
Ltac rd := repeat match goal with
  | |- reads (bind _ _) => apply reads_bind; [|intros ?]
  | |- reads (let (_, _) := ?x in _) => destruct x
  | |- reads (match ?x with _ => _ end) => destruct x
  | |- reads (if ?x then _ else _) => destruct x
  end; auto using reads_lift, reads_ret, reads_get.
Lemma reads_uint : forall n p, reads (load_uint n p).
Proof. intros. unfold load_uint. rd. Qed.
Lemma reads_int : forall t p, reads (load_int t p).
Proof. intros t p. unfold load_int. destruct t; rd; apply reads_uint. Qed.
Lemma reads_u32 : forall p, reads (load_u32 p).
Proof. intros. unfold load_u32. rd. apply reads_int. Qed.
Lemma reads_u64 : forall p, reads (load_u64 p).
Proof. intros. unfold load_u64. rd. apply reads_int. Qed.
Lemma reads_sized : forall p n, reads (load_int_with_size p n).
Proof. intros. unfold load_int_with_size. rd; apply reads_int. Qed.
Lemma reads_aligned : forall e p a, reads (check_aligned e p a).
Proof. intros. unfold check_aligned. rd. Qed.
Lemma reads_bounds : forall e p a, reads (check_bounds e p a).
Proof. intros. unfold check_bounds. rd. Qed.
Lemma reads_string : forall cx p n, reads (load_string_from_range cx p n).
Proof. intros. unfold load_string_from_range. rd; auto using reads_aligned, reads_bounds. Qed.
Lemma reads_next : forall it, reads (next_u32 it).
Proof. intros. unfold next_u32. rd. Qed.

(** ** Functions that only act on handles *)
Definition keeps {A} (m : M A) : Prop := forall s o s', m s = (o, s') -> s_mem s' = s_mem s /\ s_hist s' = s_hist s.
Lemma keeps_bind : forall {A B} (m : M A) (f : A -> M B), keeps m -> (forall x, keeps (f x)) -> keeps (bind m f).
Proof.
  intros A B m f Hm Hf s o s' E. unfold bind in E. destruct (m s) as [r s1] eqn:E1. destruct (Hm _ _ _ E1) as [M1 H1].
  destruct r as [x|e| |]; [|injection E as <- <-; auto..]. destruct (Hf x _ _ _ E). split; congruence.
Qed.
Lemma keeps_lift : forall {A} (o : outcome A), keeps (lift_o o).
Proof. intros A o s r s' E. injection E as _ <-. auto. Qed.
Lemma keeps_world : keeps get_world.
Proof. intros s r s' E. injection E as _ <-. auto. Qed.
Lemma keeps_put : forall w, keeps (put_world w).
Proof. intros w s r s' E. injection E as _ <-. auto. Qed.
Lemma keeps_ret : forall {A} (x : A), keeps (ret x).
Proof. intros A x. exact (keeps_lift (Ok x)). Qed.
Ltac kp := repeat match goal with
  | |- keeps (bind _ _) => apply keeps_bind; [|intros ?]
  | |- keeps (let (_, _) := ?x in _) => destruct x
  | |- keeps (match ?x with _ => _ end) => destruct x
  | |- keeps (if ?x then _ else _) => destruct x
  | |- keeps (let _ := _ in _) => cbv zeta
  end; auto using keeps_lift, keeps_ret, keeps_world, keeps_put.
Lemma keeps_add : forall inst rt h, keeps (handle_add inst rt h).
Proof. intros inst rt h. unfold handle_add. kp. Qed.

(** ** Two runs in step *)
Section Twins.
Variables (insts : nat) (cx : callctx).

(** When [m] succeeds it acts on the handles in [xs], leaves the memory alone,
    and [m'] succeeds in every state with the same memory. *)
Definition twin {A B} (m : M A) (m' : M B) (Q : A -> B -> list (carried * N) -> Prop) : Prop := forall s calls x s',
  (cx_inst cx < insts)%nat -> In (cx_id cx) calls -> m s = (Ok x, s') ->
  exists xs y, evolves insts s calls (map (lift_event cx) xs) s' calls /\ s_mem s' = s_mem s /\ s_hist s' = s_hist s /\
    (forall t, s_mem t = s_mem s -> m' t = (Ok y, t)) /\ Q x y xs.

Lemma twin_reads : forall {A} (m : M A), reads m -> twin m m (fun x y xs => y = x /\ xs = []).
Proof.
  intros A m (g & Hg) s calls x s' _ _ E. rewrite Hg in E. injection E as E <-. exists [], x.
  split; [apply evolves_nil; reflexivity|]. split; [reflexivity|]. split; [reflexivity|]. split; [|auto]. intros t Et. rewrite Hg, Et, E. reflexivity.
Qed.
Lemma twin_mono : forall {A B} (m : M A) (m' : M B) (P Q : A -> B -> list (carried * N) -> Prop), twin m m' P -> (forall x y xs, P x y xs -> Q x y xs) -> twin m m' Q.
Proof. intros A B m m' P Q H I s calls x s' Hi Hc E. destruct (H _ _ _ _ Hi Hc E) as (xs & y & V & E1 & E2 & R & HP). exists xs, y. auto 6. Qed.
Lemma twin_bind : forall {A B A' B'} (m : M A) (f : A -> M A') (m' : M B) (f' : B -> M B') P (Q : A' -> B' -> list (carried * N) -> Prop),
  twin m m' P -> (forall x y xs, P x y xs -> twin (f x) (f' y) (fun a b ys => Q a b (xs ++ ys)%list)) -> twin (bind m f) (bind m' f') Q.
Proof.
  intros A B A' B' m f m' f' P Q Hm Hf s calls a s' Hi Hc E. apply bind_inv in E. destruct E as (x & s1 & E1 & E2).
  destruct (Hm _ _ _ _ Hi Hc E1) as (xs & y & V1 & M1 & H1 & R1 & HP). destruct (Hf x y xs HP _ _ _ _ Hi Hc E2) as (ys & b & V2 & M2 & H2 & R2 & HQ).
  exists (xs ++ ys)%list, b. split; [rewrite map_app; eapply evolves_trans; eauto|]. split; [congruence|]. split; [congruence|]. split; [|exact HQ].
  intros t Et. unfold bind. rewrite (R1 t Et). apply R2. congruence.
Qed.
Lemma twin_same : forall {A A' B'} (m : M A) (f : A -> M A') (f' : A -> M B') (Q : A' -> B' -> list (carried * N) -> Prop),
  reads m -> (forall x s s', m s = (Ok x, s') -> twin (f x) (f' x) Q) -> twin (bind m f) (bind m f') Q.
Proof.
  intros A A' B' m f f' Q (g & Hg) Hf s calls a s' Hi Hc E. apply bind_inv in E. destruct E as (x & s1 & E1 & E2). pose proof E1 as E0.
  rewrite Hg in E1. injection E1 as E1 <-. destruct (Hf x _ _ E0 _ _ _ _ Hi Hc E2) as (ys & b & V2 & M2 & H2 & R2 & HQ).
  exists ys, b. split; [exact V2|]. split; [exact M2|]. split; [exact H2|]. split; [|exact HQ].
  intros t Et. unfold bind. rewrite Hg, Et, E1. apply R2. exact Et.
Qed.
Lemma twin_fail : forall {A B} (o : outcome A) (m' : M B) Q, (forall x, o <> Ok x) -> twin (lift_o o) m' Q.
Proof. intros A B o m' Q H s calls x s' _ _ E. injection E as E _. destruct (H x E). Qed.
Lemma twin_ret : forall {A B} (x : A) (y : B) (Q : A -> B -> list (carried * N) -> Prop), Q x y [] -> twin (ret x) (ret y) Q.
Proof. intros A B x y Q H s calls a s' _ _ E. injection E as <- <-. exists [], y. split; [apply evolves_nil; reflexivity|]. auto 6. Qed.
Lemma twin_eq : forall {A B} (m : M A) (m1 m2 : M B) Q, (forall s, m1 s = m2 s) -> twin m m1 Q -> twin m m2 Q.
Proof. intros A B m m1 m2 Q H T s calls x s' Hi Hc E. destruct (T _ _ _ _ Hi Hc E) as (xs & y & V & E1 & E2 & R & HQ). exists xs, y. repeat split; auto. intros t Et. rewrite <- H. auto. Qed.

Lemma lift_own_mem : forall i rt, keeps (lift_own cx i rt).
Proof. intros i rt. unfold lift_own, handle_remove, handle_get. kp. Qed.
Lemma lift_borrow_mem : forall i rt, keeps (lift_borrow cx i rt).
Proof. intros i rt. unfold lift_borrow, lift_borrow_from, handle_get. kp. Qed.
Lemma twin_own : forall i rt, twin (lift_own cx i rt) (ret i) (fun rep j xs => j = i /\ xs = [(mkCarried true rt rep, i)]).
Proof.
  intros i rt s calls rep s' Hi Hc E. destruct (del_own insts cx i rt s calls rep s' Hi Hc E) as (xs & V & ->). destruct (lift_own_mem _ _ _ _ _ E).
  eexists _, i. split; [exact V|]. repeat split; auto.
Qed.
Lemma twin_borrow : forall i rt, twin (lift_borrow cx i rt) (ret i) (fun rep j xs => j = i /\ xs = [(mkCarried false rt rep, i)]).
Proof.
  intros i rt s calls rep s' Hi Hc E. destruct (del_borrow insts cx i rt s calls rep s' Hi Hc E) as (xs & V & ->). destruct (lift_borrow_mem _ _ _ _ _ E).
  eexists _, i. split; [exact V|]. repeat split; auto.
Qed.

(** *** Lists *)
Lemma twin_elems : forall n ld ld' p sz i (P : relation), (forall q, twin (ld q) (ld' q) (fun v w xs => P w v xs)) ->
  twin (load_elems n ld p sz i) (load_elems n ld' p sz i) (fun vs ws xs => exists l : list (any * any * list (carried * N)),
    Forall (fun e => P (fst (fst e)) (snd (fst e)) (snd e)) l /\ ws = map (fun e => fst (fst e)) l /\ vs = map (fun e => snd (fst e)) l /\ xs = flat_map snd l).
Proof.
  induction n as [|n IH]; intros ld ld' p sz i P H; cbn [load_elems].
  - apply twin_ret. exists []. repeat split. constructor.
  - eapply twin_bind; [apply H|]. intros v w x Hv. eapply twin_bind; [apply IH; exact H|]. intros vs ws xs (l & F & -> & -> & ->).
    apply twin_ret. exists ((w, v, x) :: l). rewrite app_nil_r. repeat split. constructor; assumption.
Qed.
Lemma twin_list : forall t al sz ld ld' p n, (forall q, twin (ld q) (ld' q) (fun v w xs => names t w v xs)) ->
  twin (load_list_from_range al sz ld p n) (load_list_from_range al sz ld' p n) (fun v w xs => names (TList t) w v xs).
Proof.
  intros t al sz ld ld' p n H. unfold load_list_from_range. do 4 (apply twin_same; [auto using reads_lift, reads_aligned, reads_bounds|intros ? ? ? _]).
  eapply twin_bind; [apply twin_elems; exact H|]. intros vs ws xs (l & F & -> & -> & ->). apply twin_ret. rewrite app_nil_r. exists l. auto.
Qed.

(** *** Records *)
Definition filled2 (fs : list (string * relation)) (accv accw mv mw : list (string * any)) (xs : list (carried * N)) : Prop :=
  exists l : list (any * any * list (carried * N)), Forall2 (fun f e => snd f (fst (fst e)) (snd (fst e)) (snd e)) fs l /\
    mw = (accw ++ combine (map fst fs) (map (fun e => fst (fst e)) l))%list /\
    mv = (accv ++ combine (map fst fs) (map (fun e => snd (fst e)) l))%list /\ xs = flat_map snd l.
Lemma filled2_nil : forall accv accw, filled2 [] accv accw accv accw [].
Proof. intros. exists []. cbn. rewrite !app_nil_r. auto. Qed.
Lemma filled2_cons : forall l (P : relation) fs accv accw v w x mv mw xs, ~ In l (map fst accv) -> ~ In l (map fst accw) -> P w v x ->
  filled2 fs (map_set accv l v) (map_set accw l w) mv mw xs -> filled2 ((l, P) :: fs) accv accw mv mw (x ++ xs).
Proof.
  intros l P fs accv accw v w x mv mw xs Hv Hw HP (es & F & -> & -> & ->). exists ((w, v, x) :: es). split; [constructor; [exact HP|exact F]|].
  rewrite !map_set_new by assumption. rewrite <- !app_assoc. auto.
Qed.
Lemma filled2_record : forall fs mv mw xs, NoDup (map fst fs) -> filled2 (map (fun f => (fst f, names (snd f))) fs) [] [] mv mw xs -> names (TRecord fs) (VMap mw) (VMap mv) xs.
Proof.
  intros fs mv mw xs Hn (l & F & -> & -> & ->). cbn [names]. eexists _, _, (map snd l). cbn [app]. split; [reflexivity|]. split; [reflexivity|].
  rewrite map_map. cbn [fst]. assert (Hl : List.length (map (fun f => (fst f, names (snd f))) fs) = List.length l) by (clear -F; induction F; cbn; congruence). rewrite map_length in Hl.
  split; [|split; [|apply flat_map_concat_map]].
  - rewrite !map_fst_combine_full by (rewrite !map_length; lia). reflexivity.
  - assert (X : forall (g : any * any * list (carried * N) -> any) i f e, nth_error fs i = Some f -> nth_error l i = Some e -> map_get (combine (map fst fs) (map g l)) (fst f) = Some (g e)).
    { intros g i f e Hf He. eapply map_get_combine with (i := i); [exact Hn| |]; apply map_nth_error; assumption. }
    pose proof (X (fun e => fst (fst e))) as Xw. pose proof (X (fun e => snd (fst e))) as Xv. clear X Hn Hl.
    revert Xw Xv. set (mw := combine _ _). set (mv := combine _ _). clearbody mw mv.
    remember (map (fun f => (fst f, names (snd f))) fs) as gs eqn:Eg. revert fs Eg. induction F as [|g e gs l Hg F IH]; intros fs Eg Xw Xv; destruct fs as [|f fs]; try discriminate; [constructor|].
    cbn [map] in Eg. injection Eg as -> Eg. cbn [map]. constructor.
    + cbn [fst snd] in *. rewrite (Xw 0%nat f e eq_refl eq_refl), (Xv 0%nat f e eq_refl eq_refl). exact Hg.
    + apply (IH fs Eg); intros i f' e' Hf He; [exact (Xw (S i) f' e' Hf He)|exact (Xv (S i) f' e' Hf He)].
Qed.
Lemma twin_fields : forall (fs fs' : list (string * comp (N -> M any))) (Ps : list (string * relation)) p accv accw,
  Forall2 (fun f P => fst f = fst P) fs Ps -> Forall2 (fun f f' => fst f' = fst f /\ q_al (snd f') = q_al (snd f) /\ q_sz (snd f') = q_sz (snd f)) fs fs' ->
  Forall2 (fun ff P => forall q, twin (q_op (snd (fst ff)) q) (q_op (snd (snd ff)) q) (fun v w xs => snd P w v xs)) (combine fs fs') Ps ->
  NoDup (map fst accv ++ map fst Ps) -> map fst accw = map fst accv ->
  twin (load_fields fs p accv) (load_fields fs' p accw) (filled2 Ps accv accw).
Proof.
  intros fs fs' Ps p accv accw H. revert fs' p accv accw. induction H as [|[l q] [l' P] fs Ps E H IH]; intros fs' p accv accw G T Hn Ha; inversion G as [|? f' ? fs1 (E1 & E2 & E3) G']; subst; cbn [load_fields].
  - apply twin_ret. apply filled2_nil.
  - cbn in E; subst l'. destruct f' as [l1 q1]. cbn [map fst snd combine] in *. subst l1. inversion T as [|? ? ? ? T1 T2]; subst. cbn [fst snd] in T1.
    pose proof (NoDup_remove_2 _ _ _ Hn) as Hl. rewrite E2, E3.
    do 2 (apply twin_same; [apply reads_lift|intros ? ? ? _]). eapply twin_bind; [apply T1|]. intros v w vx Hv.
    apply twin_same; [apply reads_lift|intros ? ? ? _].
    assert (Hav : ~ In l (map fst accv)) by (intros X; apply Hl; apply in_or_app; left; exact X).
    assert (Haw : ~ In l (map fst accw)) by (rewrite Ha; exact Hav).
    eapply twin_mono; [apply IH; [exact G'|exact T2| |]|intros m m' xs Hm; eapply filled2_cons; [exact Hav|exact Haw|exact Hv|exact Hm]].
    + rewrite map_set_new by exact Hav. rewrite map_app, <- app_assoc. cbn [map fst app]. exact Hn.
    + rewrite !map_set_new by assumption. rewrite !map_app, Ha. reflexivity.
Qed.

(** *** Variants *)
Lemma variant_names : forall {A} (f : A -> relation) (cs : list (caseOf A)) key i c w v xs,
  selects (map c_label cs) key i -> nth_error cs i = Some c ->
  match c_type c with Some y => f y w v xs | None => w = v /\ xs = [] end ->
  var_names (map (map_case f) cs) (VMap [(key, w)]) (VMap [(key, v)]) xs.
Proof.
  intros A f cs key i c w v xs Hs Hn Hx. exists key, w, v, i, (map_case f c). split; [reflexivity|]. split; [reflexivity|].
  rewrite map_case_label. split; [exact Hs|]. split; [apply map_nth_error; exact Hn|].
  destruct c as [l [y|] r]; exact Hx.
Qed.
Lemma twin_variant : forall {A} (mk mk' : A -> comp (N -> M any)) (f : A -> relation) (cs : list (caseOf A)) p,
  Forall (fun c => bar_free (c_label c)) cs ->
  (forall x, q_al (mk' x) = q_al (mk x)) ->
  Forall (fun c => opt_all (fun x => forall q, twin (q_op (mk x) q) (q_op (mk' x) q) (fun v w xs => f x w v xs)) (c_type c)) cs ->
  twin (load_variant (map (map_case mk) cs) p) (load_variant (map (map_case mk') cs) p) (fun v w xs => var_names (map (map_case f) cs) w v xs).
Proof.
  intros A mk mk' f cs p Hb Ha H. unfold load_variant. rewrite !map_length. do 3 (apply twin_same; [auto using reads_lift, reads_int|intros ? ? ? _]).
  match goal with |- twin (if ?b then _ else _) _ _ => destruct b end; [apply twin_fail; discriminate|].
  rewrite !nth_error_map. destruct (nth_error cs (N.to_nat x1)) as [c|] eqn:Ei; [|apply twin_fail; discriminate].
  cbn [option_map]. cbn zeta. rewrite !map_case_comp.
  replace (map (map_case (fun x => q_al (mk' x))) cs) with (map (map_case (fun x => q_al (mk x))) cs) by (apply map_case_ext; rewrite Forall_forall; intros [l [y|] r] _; cbn; auto).
  do 2 (apply twin_same; [apply reads_lift|intros ? ? ? _]). rewrite !case_label_map.
  apply twin_same; [apply reads_lift|]. intros label sl sl' El. injection El as El _.
  assert (Hs : selects (map c_label cs) label (N.to_nat x1)) by (eapply case_label_selects; eassumption).
  rewrite Forall_forall in H. specialize (H c (nth_error_In _ _ Ei)).
  apply (twin_bind _ _ _ _ (fun v w xs => match c_type c with Some x => f x w v xs | None => w = v /\ xs = [] end)).
  - cbn [map_case c_type]. destruct (c_type c); [apply H|apply twin_ret; auto].
  - intros v w xs Hv. apply twin_ret. rewrite app_nil_r. eapply variant_names; [exact Hs|exact Ei|]. exact Hv.
Qed.

Lemma twin_bare : forall t p, reads (load cx t p) -> plain t = t -> (forall v, names t v v []) -> twin (load cx t p) (load cx (plain t) p) (fun v w xs => names t w v xs).
Proof. intros t p R -> H. eapply twin_mono; [apply twin_reads; exact R|]. intros v w xs [-> ->]. apply H. Qed.
Ltac bare := apply twin_bare; [cbn [load]; unfold load_bool, load_f32, load_f64, load_char, load_string, load_flags; rd; auto using reads_int, reads_u32, reads_u64, reads_sized, reads_string|reflexivity|intros v; split; reflexivity].
Lemma twin_load : forall t, wf_type t -> forall p, twin (load cx t p) (load cx (plain t) p) (fun v w xs => names t w v xs).
Proof.
  intros t. induction t using valtype_ind'; intros Hw p; try solve [bare].
  - cbn [load plain]. rewrite alignment_plain, size_plain. unfold load_list. do 2 (apply twin_same; [apply reads_u32|intros ? ? ? _]). apply twin_list. apply IHt. apply Hw.
  - cbn [load plain]. destruct Hw as [Hn Hw]. apply all_Forall in Hw. unfold load_record. rewrite map_map. cbn [fst snd].
    eapply twin_bind; [|intros m m' xs Hm; apply twin_ret; rewrite app_nil_r; apply filled2_record; [exact Hn|exact Hm]].
    apply twin_fields; [apply Forall2_maps; rewrite Forall_forall; reflexivity| | |cbn [map app]; rewrite map_map; exact Hn|reflexivity].
    + apply Forall2_maps. rewrite Forall_forall. intros f _. cbn [fst snd q_al q_sz]. rewrite alignment_plain, size_plain. auto.
    + clear Hn. induction H as [|f fs Hf H IH]; [constructor|]. inversion Hw; subst. cbn [map combine]. constructor; [cbn [fst snd q_op]; apply Hf; assumption|apply IH; assumption].
  - cbn [load plain]. destruct Hw as [(Hn & Hb & Hr) Hw]. apply all_Forall in Hw. rewrite map_case_comp. apply twin_variant; [assumption|intros x; cbn [q_al]; apply alignment_plain|].
    rewrite Forall_forall in *. intros c Hc. specialize (H c Hc). specialize (Hw c Hc). destruct (c_type c); cbn in *; auto.
  - cbn [load plain]. apply (twin_eq _ (let* i := load_u32 p in ret_u32 (ret i))).
    { intros s. unfold load_u32, ret_u32, load_int, ret, bind. destruct (load_uint 4 p s) as [[]]; reflexivity. }
    apply twin_same; [apply reads_u32|intros i ? ? _]. unfold ret_u32. eapply twin_bind; [apply twin_own|].
    intros rep j xs [-> ->]. apply twin_ret. exists rep, i. auto.
  - cbn [load plain]. apply (twin_eq _ (let* i := load_u32 p in ret_u32 (ret i))).
    { intros s. unfold load_u32, ret_u32, load_int, ret, bind. destruct (load_uint 4 p s) as [[]]; reflexivity. }
    apply twin_same; [apply reads_u32|intros i ? ? _]. unfold ret_u32. eapply twin_bind; [apply twin_borrow|].
    intros rep j xs [-> ->]. apply twin_ret. exists rep, i. auto.
  - rewrite <- load_despecialize. rewrite <- (load_despecialize cx (plain t)), <- plain_despecialize.
    eapply twin_mono; [apply IHt; apply wf_despecialize; exact Hw|]. intros v w xs. apply names_despecialize.
Qed.

(** *** Core values *)
Notation twinl m m' P := (forall it, twin (m it) (m' it) (fun r r' xs => snd r' = snd r /\ P (fst r') (fst r) xs)).
Lemma twinl_fields : forall (fs fs' : list (string * LM any)) (Ps : list (string * relation)) accv accw,
  Forall2 (fun f P => fst f = fst P) fs Ps -> Forall2 (fun f f' => fst f' = fst f) fs fs' ->
  Forall2 (fun ff P => twinl (snd (fst ff)) (snd (snd ff)) (snd P)) (combine fs fs') Ps ->
  NoDup (map fst accv ++ map fst Ps) -> map fst accw = map fst accv ->
  twinl (lift_fields fs accv) (lift_fields fs' accw) (fun mw mv xs => filled2 Ps accv accw mv mw xs).
Proof.
  intros fs fs' Ps accv accw H. revert fs' accv accw. induction H as [|[l q] [l' P] fs Ps E H IH]; intros fs' accv accw G T Hn Ha it; inversion G as [|? f' ? fs1 E1 G']; subst; cbn [lift_fields].
  - apply twin_ret. split; [reflexivity|]. apply filled2_nil.
  - cbn in E; subst l'. destruct f' as [l1 q1]. cbn [map fst snd combine] in *. subst l1. inversion T as [|? ? ? ? T1 T2]; subst. cbn [fst snd] in T1.
    pose proof (NoDup_remove_2 _ _ _ Hn) as Hl. eapply twin_bind; [apply T1|]. intros [v it1] [w it2] vx [E2 Hv]. cbn [fst snd] in E2, Hv. subst it2.
    assert (Hav : ~ In l (map fst accv)) by (intros X; apply Hl; apply in_or_app; left; exact X).
    assert (Haw : ~ In l (map fst accw)) by (rewrite Ha; exact Hav).
    eapply twin_mono; [apply IH; [exact G'|exact T2| |]|intros m m' xs [E2 Hm]; split; [exact E2|eapply filled2_cons; [exact Hav|exact Haw|exact Hv|exact Hm]]].
    + rewrite map_set_new by exact Hav. rewrite map_app, <- app_assoc. cbn [map fst app]. exact Hn.
    + rewrite !map_set_new by assumption. rewrite !map_app, Ha. reflexivity.
Qed.
Lemma twinl_variant : forall {A} flat (mk mk' : A -> LM any) (f : A -> relation) (cs : list (caseOf A)),
  Forall (fun c => bar_free (c_label c)) cs ->
  Forall (fun c => opt_all (fun x => twinl (mk x) (mk' x) (f x)) (c_type c)) cs ->
  twinl (lift_flat_variant flat (map (map_case mk) cs)) (lift_flat_variant flat (map (map_case mk') cs)) (var_names (map (map_case f) cs)).
Proof.
  intros A flat mk mk' f cs Hb H it. unfold lift_flat_variant. rewrite !map_length. apply twin_same; [apply reads_lift|intros [|first rest] ? ? _; [apply twin_fail; discriminate|]].
  destruct (negb (kind_eqb first KU32)); [apply twin_fail; discriminate|].
  apply twin_same; [apply reads_next|intros [i it1] ? ? _].
  match goal with |- twin (if ?b then _ else _) _ _ => destruct b end; [apply twin_fail; discriminate|].
  rewrite !nth_error_map. destruct (nth_error cs (N.to_nat i)) as [c|] eqn:Ei; [|apply twin_fail; discriminate].
  cbn [option_map]. rewrite Forall_forall in H. specialize (H c (nth_error_In _ _ Ei)). rewrite !case_label_map.
  assert (L : forall label, case_label c cs = Ok label -> selects (map c_label cs) label (N.to_nat i)).
  { intros label El. eapply case_label_selects; eassumption. }
  cbn [c_type map_case] in *. destruct (c_type c) as [x|] eqn:Et; cbn [opt_all] in H.
  - eapply twin_bind; [apply H|]. intros [v cit] [w cit'] xs [Eit Hv]. cbn [fst snd] in Eit, Hv. subst cit'.
    destruct cit as [|it2 rest2]; [apply twin_fail; discriminate|].
    apply twin_same; [apply reads_lift|intros it3 ? ? _]. apply twin_same; [apply reads_lift|]. intros label sl sl' El. injection El as El _.
    apply twin_ret. rewrite app_nil_r. cbn [fst snd]. split; [reflexivity|]. eapply variant_names; [apply L; exact El|exact Ei|]. rewrite Et. exact Hv.
  - apply twin_same; [apply reads_lift|intros it3 ? ? _]. apply twin_same; [apply reads_lift|]. intros label sl sl' El. injection El as El _.
    apply twin_ret. cbn [fst snd]. split; [reflexivity|]. eapply variant_names; [apply L; exact El|exact Ei|]. rewrite Et. auto.
Qed.
Lemma twinl_bare : forall t, (forall it, reads (lift_flat cx t it)) -> plain t = t -> (forall v, names t v v []) -> twinl (lift_flat cx t) (lift_flat cx (plain t)) (names t).
Proof. intros t R E H it. rewrite E. eapply twin_mono; [apply twin_reads; apply R|]. intros v w xs [-> ->]. split; [reflexivity|apply H]. Qed.
Lemma reads_flag_words : forall n sh acc it, reads (lift_flag_words n sh acc it).
Proof. induction n as [|n IH]; intros; cbn [lift_flag_words]; rd. apply reads_next. Qed.
Ltac barel := apply twinl_bare; [intros it; cbn [lift_flat]; unfold lmap, next_u32, next_u64, next_f32, next_f64, lift_flat_char, lift_flat_string, lift_flat_flags; rd; auto using reads_next, reads_string, reads_flag_words|reflexivity|intros v; split; reflexivity].
Lemma twin_lift : forall t, wf_type t -> twinl (lift_flat cx t) (lift_flat cx (plain t)) (names t).
Proof.
  intros t. induction t using valtype_ind'; intros Hw; try solve [barel]; intros it.
  - cbn [lift_flat plain]. rewrite alignment_plain, size_plain. unfold lift_flat_list. do 2 (apply twin_same; [apply reads_next|intros [? ?] ? ? _]).
    eapply twin_bind; [apply twin_list; apply twin_load; apply Hw|]. intros v w xs Hv. apply twin_ret. rewrite app_nil_r. auto.
  - cbn [lift_flat plain]. destruct Hw as [Hn Hw]. apply all_Forall in Hw. unfold lift_flat_record. rewrite map_map. cbn [fst snd].
    apply (twin_bind _ _ _ _ (fun r r' xs => snd r' = snd r /\ filled2 (map (fun f => (fst f, names (snd f))) fs) [] [] (fst r) (fst r') xs));
      [|intros [m it1] [m' it2] xs [E Hm]; cbn in E; subst it2; apply twin_ret; rewrite app_nil_r; split; [reflexivity|apply filled2_record; [exact Hn|exact Hm]]].
    apply twinl_fields; [apply Forall2_maps; rewrite Forall_forall; reflexivity|apply Forall2_maps; rewrite Forall_forall; reflexivity| |cbn [map app]; rewrite map_map; exact Hn|reflexivity].
    clear Hn. induction H as [|f fs Hf H IH]; [constructor|]. inversion Hw; subst. cbn [map combine]. constructor; [cbn [fst snd]; apply Hf; assumption|apply IH; assumption].
  - change (plain (TVariant cs)) with (TVariant (map (map_case plain) cs)). cbn [lift_flat].
    change (TVariant (map (map_case plain) cs)) with (plain (TVariant cs)). rewrite flatten_plain. destruct Hw as [(Hn & Hb & Hr) Hw]. apply all_Forall in Hw. rewrite map_case_comp.
    apply twinl_variant; [assumption|].
    rewrite Forall_forall in *. intros c Hc. specialize (H c Hc). specialize (Hw c Hc). destruct (c_type c); cbn in *; auto.
  - cbn [lift_flat plain]. unfold lift_flat_handle. apply (twin_eq _ (let* (x, it) := lift_o (iter_next it KU32) in match x with VU32 i => let* r := ret i in ret (VU32 r, it) | _ => lift_o (Err ECast) end)).
    { intros s. unfold lmap, next_u32, bind, ret, lift_o. destruct (iter_next it KU32) as [[[] ?]| | |]; reflexivity. }
    apply twin_same; [apply reads_lift|intros [x it1] ? ? _]. destruct x; try (apply twin_fail; discriminate).
    eapply twin_bind; [apply twin_own|]. intros rep j xs [-> ->]. apply twin_ret. split; [reflexivity|]. eexists rep, _. split; [reflexivity|]. split; reflexivity.
  - cbn [lift_flat plain]. unfold lift_flat_handle. apply (twin_eq _ (let* (x, it) := lift_o (iter_next it KU32) in match x with VU32 i => let* r := ret i in ret (VU32 r, it) | _ => lift_o (Err ECast) end)).
    { intros s. unfold lmap, next_u32, bind, ret, lift_o. destruct (iter_next it KU32) as [[[] ?]| | |]; reflexivity. }
    apply twin_same; [apply reads_lift|intros [x it1] ? ? _]. destruct x; try (apply twin_fail; discriminate).
    eapply twin_bind; [apply twin_borrow|]. intros rep j xs [-> ->]. apply twin_ret. split; [reflexivity|]. eexists rep, _. split; [reflexivity|]. split; reflexivity.
  - rewrite <- lift_flat_despecialize. rewrite <- (lift_flat_despecialize cx (plain t)), <- plain_despecialize.
    eapply twin_mono; [apply IHt; apply wf_despecialize; exact Hw|]. intros v w xs [E X]. split; [exact E|]. apply names_despecialize. exact X.
Qed.
Lemma twin_lift_each : forall ts, Forall wf_type ts -> twinl (lift_each (map (lift_flat cx) ts)) (lift_each (map (lift_flat cx) (map plain ts))) (fun ws vs xs => name_all ts ws vs xs).
Proof.
  induction 1 as [|t ts Ht _ IH]; intros it; cbn [map lift_each].
  - apply twin_ret. split; [reflexivity|]. constructor.
  - eapply twin_bind; [apply twin_lift; exact Ht|]. intros [v it1] [w it2] xs [E Hv]. cbn [fst snd] in E, Hv. subst it2.
    eapply twin_bind; [apply IH|]. intros [vs it2] [ws it3] ys [E C]. cbn [fst snd] in E, C. subst it3. apply twin_ret. rewrite app_nil_r.
    split; [reflexivity|]. constructor; assumption.
Qed.
End Twins.

(** ** Lowering *)
Section Lowers.
Variables (insts : nat) (cx : callctx).
Hypothesis Hlw : leaves_world (cx_realloc cx).
Hypothesis Hbl : blind_to_handles (cx_realloc cx).

Definition seen (t s : state) : Prop := s_mem t = s_mem s /\ s_hist t = s_hist s.

(** When [m] succeeds it leaves the handles alone, and [m'] does the same in
    every state with the same memory and history. *)
Definition both {A} (m m' : M A) : Prop := forall s x s', m s = (Ok x, s') -> s_world s' = s_world s /\
  forall t, seen t s -> exists t', m' t = (Ok x, t') /\ seen t' s' /\ s_world t' = s_world t.
Lemma both_lift : forall {A} (o : outcome A), both (lift_o o) (lift_o o).
Proof. intros A o s x s' E. injection E as -> <-. split; [reflexivity|]. intros t Ht. exists t. auto. Qed.
Lemma both_ret : forall {A} (x : A), both (ret x) (ret x).
Proof. intros A x. exact (both_lift (Ok x)). Qed.
Lemma both_fail : forall {A} (o : outcome A) m', (forall x, o <> Ok x) -> both (lift_o o) m'.
Proof. intros A o m' H s x s' E. injection E as E _. destruct (H x E). Qed.
Lemma both_bind : forall {A B} (m m' : M A) (f f' : A -> M B), both m m' -> (forall x, both (f x) (f' x)) -> both (bind m f) (bind m' f').
Proof.
  intros A B m m' f f' Hm Hf s y s' E. apply bind_inv in E. destruct E as (x & s1 & E1 & E2). destruct (Hm _ _ _ E1) as [W1 R1]. destruct (Hf x _ _ _ E2) as [W2 R2].
  split; [congruence|]. intros t Ht. destruct (R1 t Ht) as (t1 & F1 & S1 & V1). destruct (R2 t1 S1) as (t2 & F2 & S2 & V2).
  exists t2. split; [unfold bind; rewrite F1; exact F2|]. split; [exact S2|congruence].
Qed.
Lemma both_get : both get_mem get_mem.
Proof. intros s x s' E. injection E as <- <-. split; [reflexivity|]. intros t Ht. exists t. destruct Ht as [H1 H2]. split; [unfold get_mem; rewrite H1; reflexivity|]. split; [split; assumption|reflexivity]. Qed.
Lemma both_put : forall m, both (put_mem m) (put_mem m).
Proof. intros m s x s' E. injection E as <- <-. split; [reflexivity|]. intros t [H1 H2]. eexists. split; [reflexivity|]. split; [split; [reflexivity|exact H2]|reflexivity]. Qed.
Lemma both_realloc : forall a b c d, both (realloc cx a b c d) (realloc cx a b c d).
Proof.
  intros a b c d s x s' E. unfold realloc in *. destruct (cx_realloc cx (mkReq a b c d) s) as [o [m w]] eqn:Ea. destruct o as [p|e| |]; try discriminate.
  injection E as <- <-. cbn [s_world]. split; [exact (Hlw _ _ _ _ _ Ea)|]. intros t [H1 H2]. destruct (Hbl (mkReq a b c d) t s H1 H2) as [B1 B2]. rewrite Ea in B1, B2. cbn [fst snd] in B1, B2.
  destruct (cx_realloc cx (mkReq a b c d) t) as [o' [m' w']] eqn:Et. cbn [fst snd] in B1, B2. subst o' m'. eexists. split; [reflexivity|].
  split; [split; cbn; [reflexivity|rewrite H2; reflexivity]|]. cbn. exact (Hlw _ _ _ _ _ Et).
Qed.
Ltac bo := repeat match goal with
  | |- both (bind _ _) _ => apply both_bind; [|intros ?]
  | |- both (let (_, _) := ?x in _) _ => destruct x
  | |- both (match ?x with _ => _ end) _ => destruct x
  | |- both (if ?x then _ else _) _ => destruct x
  | |- both (let _ := _ in _) _ => cbv zeta
  end; auto using both_lift, both_ret, both_get, both_put, both_realloc.
Lemma both_bytes : forall p n bs, both (store_bytes p n bs) (store_bytes p n bs).
Proof. intros. unfold store_bytes. bo. Qed.
Lemma both_int : forall v p n sg, both (store_int v p n sg) (store_int v p n sg).
Proof. intros. unfold store_int. bo. apply both_bytes. Qed.
Lemma both_aligned : forall e p a, both (check_aligned e p a) (check_aligned e p a).
Proof. intros. unfold check_aligned. bo. Qed.
Lemma both_bounds : forall e p a, both (check_bounds e p a) (check_bounds e p a).
Proof. intros. unfold check_bounds. bo. Qed.
Lemma both_string : forall s, both (store_string_into_range cx s) (store_string_into_range cx s).
Proof.
  intros s. unfold store_string_into_range.
  assert (D : forall c, both (store_string_dynamic cx s c) (store_string_dynamic cx s c)) by (intros; unfold store_string_dynamic; bo; apply both_bytes).
  bo.
Qed.
Lemma both_elems : forall vs st st' p sz i, (forall v q, both (st v q) (st' v q)) -> both (store_elems vs st p sz i) (store_elems vs st' p sz i).
Proof. induction vs as [|v vs IH]; intros st st' p sz i H; cbn [store_elems]; bo. Qed.
Lemma both_list : forall al sz st st' v, (forall v q, both (st v q) (st' v q)) -> both (store_list_into_range cx al sz st v) (store_list_into_range cx al sz st' v).
Proof. intros al sz st st' v H. unfold store_list_into_range. bo; auto using both_aligned, both_bounds, both_elems. Qed.
Lemma both_fields : forall fs fs' m p, Forall2 (fun f f' => fst f' = fst f /\ q_al (snd f') = q_al (snd f) /\ q_sz (snd f') = q_sz (snd f) /\ forall v q, both (q_op (snd f) v q) (q_op (snd f') v q)) fs fs' ->
  both (store_fields fs m p) (store_fields fs' m p).
Proof.
  intros fs fs' m p H. revert p. induction H as [|[l q] [l' q'] fs fs' (E1 & E2 & E3 & B) H IH]; intros p; cbn [store_fields fst snd] in *; [apply both_ret|]. subst l'. rewrite E2, E3. bo.
Qed.
Lemma both_variant : forall {A} (mk mk' : A -> comp (any -> N -> M unit)) cs v p, (forall x, q_al (mk' x) = q_al (mk x)) ->
  Forall (fun c => opt_all (fun x => forall v q, both (q_op (mk x) v q) (q_op (mk' x) v q)) (c_type c)) cs ->
  both (store_variant (map (map_case mk) cs) v p) (store_variant (map (map_case mk') cs) v p).
Proof.
  intros A mk mk' cs v p Ha H. unfold store_variant. rewrite !map_length, !match_case_map, !map_case_comp.
  replace (map (map_case (fun x => q_al (mk' x))) cs) with (map (map_case (fun x => q_al (mk x))) cs) by (apply map_case_ext; rewrite Forall_forall; intros [l [y|] r] _; cbn; auto).
  apply both_bind; [apply both_lift|]. intros [i payload]. apply both_bind; [apply both_lift|intros dt]. cbv zeta. apply both_bind; [apply both_int|intros _].
  apply both_bind; [apply both_lift|intros a]. apply both_bind; [apply both_lift|intros q]. rewrite !nth_error_map.
  destruct (nth_error cs (N.to_nat i)) as [c|] eqn:Ei; [|apply both_fail; discriminate]. rewrite Forall_forall in H. specialize (H c (nth_error_In _ _ Ei)).
  destruct c as [l [y|] r]; cbn in *; [apply H|apply both_ret].
Qed.
Lemma both_store : forall t v p, both (store cx t v p) (store cx (plain t) v p).
Proof.
  intros t. induction t using valtype_ind'; intros v p;
    try (cbn [store plain]; unfold guarded, store_validate, store_bool, store_f32, store_f64, store_char, store_str, store_string, store_flags, store_u32; bo;
         auto using both_int, both_aligned, both_bounds, both_string, both_bytes; fail).
  - change (plain (TList t)) with (TList (plain t)). cbn [store]. rewrite alignment_plain, size_plain. unfold guarded, store_validate, store_list, store_u32. bo; auto using both_aligned, both_bounds, both_bytes, both_list.
  - change (store cx (plain (TRecord fs)) v p) with (store cx (TRecord (map (fun f => (fst f, plain (snd f))) fs)) v p). cbn [store].
    change (TRecord (map (fun f => (fst f, plain (snd f))) fs)) with (plain (TRecord fs)). rewrite alignment_plain, size_plain, map_map. cbn [fst snd].
    unfold guarded, store_validate. apply both_bind; [bo; auto using both_aligned, both_bounds|intros _]. unfold store_record. destruct v; try apply both_lift.
    apply both_fields. apply Forall2_maps. eapply Forall_impl; [|exact H]. intros f Hf. cbn [fst snd q_al q_sz q_op]. rewrite alignment_plain, size_plain. auto.
  - change (store cx (plain (TVariant cs)) v p) with (store cx (TVariant (map (map_case plain) cs)) v p). cbn [store].
    change (TVariant (map (map_case plain) cs)) with (plain (TVariant cs)). rewrite alignment_plain, size_plain, map_case_comp.
    unfold guarded, store_validate. apply both_bind; [bo; auto using both_aligned, both_bounds|intros _].
    apply both_variant; [intros x; cbn [q_al]; apply alignment_plain|]. eapply Forall_impl; [|exact H]. intros [l [y|] r] Hc; cbn in *; auto.
  - cbn [store]. unfold guarded. intros s x s' E. apply bind_inv in E. destruct E as (? & ? & _ & E). discriminate.
  - cbn [store]. unfold guarded. intros s x s' E. apply bind_inv in E. destruct E as (? & ? & _ & E). discriminate.
  - rewrite <- store_despecialize. rewrite <- (store_despecialize cx (plain t)), <- plain_despecialize. apply IHt.
Qed.

(** When [m] succeeds it acts on the handles in [xs], and [F w] gives the same in
    every state with the same memory and history, for some [w]. *)
Definition lows {A B} (m : M A) (F : B -> M A) (R : B -> list (carried * N) -> Prop) : Prop := forall s calls x s',
  (cx_inst cx < insts)%nat -> In (cx_id cx) calls -> m s = (Ok x, s') ->
  exists xs w, evolves insts s calls (map (lower_event cx) xs) s' calls /\
    (forall t, seen t s -> exists t', F w t = (Ok x, t') /\ seen t' s' /\ s_world t' = s_world t) /\ R w xs.
Lemma lows_both : forall {A B} (m : M A) (F : B -> M A) w (R : B -> list (carried * N) -> Prop), both m (F w) -> R w [] -> lows m F R.
Proof.
  intros A B m F w R H HR s calls x s' Hi Hc E. destruct (H _ _ _ E) as [W T]. exists [], w. split; [apply evolves_nil; exact W|]. auto.
Qed.
Lemma lows_fail : forall {A B} (o : outcome A) (F : B -> M A) R, (forall x, o <> Ok x) -> lows (lift_o o) F R.
Proof. intros A B o F R H s calls x s' _ _ E. injection E as E _. destruct (H x E). Qed.

Lemma storable_names : forall t v, storable t v -> names t v v [].
Proof.
  unfold storable. intros t. induction t using valtype_ind'; intros v Hs; cbn [shaped names] in *; try (split; reflexivity); try contradiction.
  - destruct Hs as (l & -> & F). exists (map (fun x => (x, x, [])) l). rewrite !map_map. cbn [fst snd]. rewrite map_id. repeat split.
    + rewrite Forall_map. cbn [fst snd]. eapply Forall_impl; [|exact F]. intros x. apply IHt.
    + clear F. induction l; [reflexivity|exact IHl].
  - destruct Hs as (m & -> & F). exists m, m, (map (fun _ => []) fs). repeat split.
    + rewrite Forall_map in F. induction H as [|f fs Hf _ IH]; cbn; [constructor|]. inversion F; subst. constructor; [apply Hf; assumption|apply IH; assumption].
    + clear. induction fs; [reflexivity|exact IHfs].
  - destruct Hs as (key & p & i & c & -> & Hsel & Hi & Hc). rewrite nth_error_map in Hi. destruct (nth_error cs i) as [c'|] eqn:Ec; [|discriminate].
    injection Hi as <-. rewrite map_case_label in Hsel. eapply variant_names; [exact Hsel|exact Ec|].
    rewrite Forall_forall in H. specialize (H c' (nth_error_In _ _ Ec)). destruct c' as [l [y|] r]; cbn in *; auto.
  - apply names_despecialize. apply IHt. apply shaped_despecialize. exact Hs.
Qed.

Lemma lower_nil : forall t s cs s', lower_flat cx t VNil s <> (Ok cs, s').
Proof.
  intros t s cs s' E. destruct t; try discriminate; cbn [lower_flat] in E; unfold lower_flat_list, lower_flat_variant, ret_handle in E;
    apply bind_inv in E; destruct E as (? & ? & E & _); discriminate.
Qed.

(** *** Records *)
Fixpoint set_all (m : list (string * any)) (lws : list (string * any)) : list (string * any) :=
  match lws with [] => m | (l, w) :: r => set_all (map_set m l w) r end.
Lemma map_set_keys : forall (m : list (string * any)) l w, map_get m l <> None -> map fst (map_set m l w) = map fst m.
Proof.
  induction m as [|[k x] m IH]; intros l w H; [destruct (H eq_refl)|]. cbn [map_set map_get] in *. destruct (String.eqb l k) eqn:E.
  - apply String.eqb_eq in E. subst. reflexivity.
  - cbn [map fst]. rewrite IH by exact H. reflexivity.
Qed.
Lemma map_get_set : forall (m : list (string * any)) l w k, map_get (map_set m l w) k = if String.eqb k l then Some w else map_get m k.
Proof.
  induction m as [|[j x] m IH]; intros l w k; cbn [map_set map_get].
  - destruct (String.eqb k l); reflexivity.
  - destruct (String.eqb_spec l j) as [<-|Hj]; cbn [map_get].
    + destruct (String.eqb_spec k l) as [<-|]; reflexivity.
    + rewrite IH. destruct (String.eqb_spec k j) as [->|]; [|reflexivity]. destruct (String.eqb_spec j l); congruence.
Qed.
Lemma set_all_other : forall lws m k, ~ In k (map fst lws) -> map_get (set_all m lws) k = map_get m k.
Proof.
  induction lws as [|[l w] lws IH]; intros m k H; [reflexivity|]. cbn [set_all]. rewrite IH by (intros X; apply H; right; exact X). rewrite map_get_set.
  destruct (String.eqb_spec k l) as [->|]; [|reflexivity]. exfalso. apply H. left. reflexivity.
Qed.
Lemma set_all_keys : forall lws m, Forall (fun lw => map_get m (fst lw) <> None) lws -> map fst (set_all m lws) = map fst m.
Proof.
  induction lws as [|[l w] lws IH]; intros m H; [reflexivity|]. inversion H; subst. cbn [set_all fst] in *. rewrite IH; [apply map_set_keys; assumption|].
  rewrite Forall_forall in *. intros [k u] Hk. cbn. rewrite map_get_set. destruct (String.eqb k l); [discriminate|]. apply (H3 _ Hk).
Qed.
Lemma set_all_get : forall lws m, NoDup (map fst lws) -> Forall (fun lw => map_get (set_all m lws) (fst lw) = Some (snd lw)) lws.
Proof.
  induction lws as [|[l w] lws IH]; intros m H; [constructor|]. inversion H; subst. cbn [set_all fst snd]. constructor; [|apply IH; assumption].
  cbn [fst snd]. rewrite set_all_other by assumption. rewrite map_get_set, String.eqb_refl. reflexivity.
Qed.

Lemma lows_fields : forall (fs : list (string * valtype)) m,
  Forall (fun f => forall v, lows (lower_flat cx (snd f) v) (lower_flat cx (plain (snd f))) (fun w xs => names (snd f) w v xs)) fs ->
  forall s calls cvs s', (cx_inst cx < insts)%nat -> In (cx_id cx) calls -> lower_fields (map (fun f => (fst f, lower_flat cx (snd f))) fs) m s = (Ok cvs, s') ->
  exists xss ws, evolves insts s calls (map (lower_event cx) (List.concat xss)) s' calls /\
    (forall mw, Forall2 (fun f w => map_get mw (fst f) = Some w) fs ws -> forall t, seen t s ->
       exists t', lower_fields (map (fun f => (fst f, lower_flat cx (plain (snd f)))) fs) mw t = (Ok cvs, t') /\ seen t' s' /\ s_world t' = s_world t) /\
    Forall (fun f => map_get m (fst f) <> None) fs /\
    Forall2 (fun fw xs => names (snd (fst fw)) (snd fw) (map_any m (fst (fst fw))) xs) (combine fs ws) xss /\ List.length ws = List.length fs.
Proof.
  intros fs m H. induction H as [|[l t] fs Hf _ IH]; intros s calls cvs s' Hi Hc E; cbn [map lower_fields fst snd] in *.
  - unfold ret in E. injection E as <- <-. exists [], []. split; [apply evolves_nil; reflexivity|]. split; [|split; [constructor|split; [constructor|reflexivity]]].
    intros mw _ u Hu. exists u. auto.
  - apply bind_inv in E. destruct E as (a & s1 & E1 & E). apply bind_inv in E. destruct E as (b & s2 & E2 & E). unfold ret in E. injection E as <- <-.
    destruct (Hf (map_any m l) _ _ _ _ Hi Hc E1) as (xs & w & V1 & R1 & N1). destruct (IH _ _ _ _ Hi Hc E2) as (xss & ws & V2 & R2 & P2 & N2 & L2).
    exists (xs :: xss), (w :: ws). split; [cbn [List.concat]; rewrite map_app; eapply evolves_trans; eauto|]. split; [|split; [|split; [|cbn; lia]]].
    + intros mw F u Hu. inversion F as [|? ? ? ? F1 F2]; subst. cbn [fst snd] in F1. destruct (R1 u Hu) as (u1 & A1 & B1 & C1). destruct (R2 mw F2 u1 B1) as (u2 & A2 & B2 & C2).
      exists u2. split; [|split; [exact B2|congruence]]. unfold bind at 1. unfold map_any. rewrite F1, A1. unfold bind. rewrite A2. reflexivity.
    + constructor; [|exact P2]. cbn [fst]. intros X. unfold map_any in E1. rewrite X in E1. exact (lower_nil _ _ _ _ E1).
    + cbn [combine]. constructor; [exact N1|exact N2].
Qed.
Lemma lows_record : forall fs v, NoDup (map fst fs) ->
  Forall (fun f => forall v, lows (lower_flat cx (snd f) v) (lower_flat cx (plain (snd f))) (fun w xs => names (snd f) w v xs)) fs ->
  lows (lower_flat cx (TRecord fs) v) (lower_flat cx (plain (TRecord fs))) (fun w xs => names (TRecord fs) w v xs).
Proof.
  intros fs v Hn H s calls cvs s' Hi Hc E. cbn [lower_flat] in E. unfold lower_flat_record in E. destruct v; try discriminate.
  match goal with E : lower_fields _ ?x _ = _ |- _ => rename x into m end.
  destruct (lows_fields fs m H _ _ _ _ Hi Hc E) as (xss & ws & V & R & P & N & L). set (lws := combine (map fst fs) ws).
  assert (Ef : map fst lws = map fst fs) by (apply map_fst_combine_full; rewrite map_length; lia).
  assert (G : Forall2 (fun f w => map_get (set_all m lws) (fst f) = Some w) fs ws).
  { pose proof (set_all_get lws m ltac:(rewrite Ef; exact Hn)) as X. revert X. generalize (set_all m lws). intros mw X. unfold lws in X. clear - X L.
    revert ws L X. induction fs as [|f fs IH]; intros [|w ws] L X; try discriminate; [constructor|]. cbn in X. inversion X; subst. constructor; [assumption|]. apply IH; [cbn in L; lia|assumption]. }
  exists (List.concat xss), (VMap (set_all m lws)). split; [exact V|]. split.
  - intros t Ht. destruct (R _ G t Ht) as (t' & A & B). exists t'. split; [|exact B]. cbn [plain lower_flat]. unfold lower_flat_record. rewrite map_map. exact A.
  - cbn [names]. exists (set_all m lws), m, xss. split; [reflexivity|]. split; [reflexivity|]. split; [|split; [|reflexivity]].
    + apply set_all_keys. rewrite Forall_forall in *. intros [l w] Hl. unfold lws in Hl. apply in_combine_l in Hl. apply in_map_iff in Hl. destruct Hl as (f & <- & Hf). exact (P f Hf).
    + revert G N. generalize (set_all m lws). clear. intros mw G N. revert xss N. induction G as [|f w fs ws Hw G IH]; intros xss N; cbn [combine] in N; inversion N; subst; cbn [map]; constructor.
      * cbn [fst snd] in *. rewrite Hw. assumption.
      * apply IH. assumption.
Qed.

(** *** Variants *)
Lemma lows_variant : forall flat (cs : list (caseOf valtype)) v,
  (forall ks, flat = Ok ks -> N.of_nat (List.length cs) <= 2 ^ 32) ->
  Forall (fun c => opt_all (fun t => forall v, lows (lower_flat cx t v) (lower_flat cx (plain t)) (fun w xs => names t w v xs)) (c_type c)) cs ->
  lows (lower_flat_variant flat (map (map_case (lower_flat cx)) cs) v) (lower_flat_variant flat (map (map_case (fun t => lower_flat cx (plain t))) cs))
    (fun w xs => names (TVariant cs) w v xs).
Proof.
  intros flat cs v Hf H s calls cvs s' Hi Hc E. unfold lower_flat_variant in E. rewrite match_case_map in E. apply bind_inv in E. destruct E as ([i x] & s1 & E1 & E). injection E1 as Hm <-.
  apply bind_inv in E. destruct E as (ft & s1 & E1 & E). injection E1 as Hd <-. pose proof (Hf _ Hd) as Hle.
  pose proof Hm as Hm0. apply match_case_inv in Hm; [|exact Hle]. destruct Hm as (key & j & -> & -> & Hs).
  destruct ft as [|first rest]; [discriminate|]. destruct (negb (kind_eqb first KU32)) eqn:Ek; [discriminate|].
  rewrite nth_error_map in E. destruct (nth_error cs (N.to_nat (N.of_nat j))) as [c|] eqn:Ec; [|discriminate]. cbn [option_map] in E.
  apply bind_inv in E. destruct E as (pl & s1 & E1 & E). apply bind_inv in E. destruct E as (p & s2 & E2 & E). injection E2 as E2 <-. unfold ret in E. injection E as <- <-.
  pose proof Ec as Ec'. rewrite Nnat.Nat2N.id in Ec'. rewrite Forall_forall in H. specialize (H c (nth_error_In _ _ Ec)).
  assert (X : exists xs w, evolves insts s calls (map (lower_event cx) xs) s1 calls /\
    (forall t, seen t s -> exists t', (match c_type c with Some y => lower_flat cx (plain y) w | None => ret [] end) t = (Ok pl, t') /\ seen t' s1 /\ s_world t' = s_world t) /\
    match c_type c with Some y => names y w x xs | None => w = x /\ xs = [] end).
  { destruct c as [l [y|] r]; cbn [map_case c_type opt_all] in *.
    - exact (H x _ _ _ _ Hi Hc E1).
    - unfold ret in E1. injection E1 as <- <-. exists [], x. split; [apply evolves_nil; reflexivity|]. split; [|auto]. intros t Ht. exists t. auto. }
  destruct X as (xs & w & V & R & Nm). exists xs, (VMap [(key, w)]). split; [exact V|]. split.
  - intros t Ht. destruct (R t Ht) as (t' & A & B). exists t'. split; [|exact B]. unfold lower_flat_variant. rewrite match_case_map.
    assert (Hm1 : match_case (VMap [(key, w)]) cs = Ok (N.of_nat j, w)).
    { cbn [match_case] in Hm0 |- *. destruct (split_bar key) as [h tl]. destruct (match_labels cs (h :: tl)) as [i'| | |]; try discriminate. cbn in Hm0 |- *. injection Hm0 as ->. reflexivity. }
    rewrite Hm1, Hd. unfold bind at 1, lift_o at 1. unfold bind at 1, lift_o at 1. rewrite Ek, nth_error_map, Ec. cbn [option_map].
    replace (match c_type (map_case (fun t => lower_flat cx (plain t)) c) with Some f => f w | None => ret [] end) with (match c_type c with Some y => lower_flat cx (plain y) w | None => ret [] end)
      by (destruct c as [l [y|] r]; reflexivity).
    unfold bind at 1. rewrite A. rewrite E2. reflexivity.
  - cbn [names]. eapply variant_names; [exact Hs|exact Ec'|exact Nm].
Qed.

Lemma lows_lower : forall t, wf_type t -> forall v, lows (lower_flat cx t v) (lower_flat cx (plain t)) (fun w xs => names t w v xs).
Proof.
  intros t. induction t using valtype_ind'; intros Hw v;
    try (apply (lows_both _ _ v); [cbn [lower_flat plain]; unfold lower_string; bo; auto using both_string|split; reflexivity]).
  - intros s calls cs s' Hi Hc E. pose proof (list_accepts cx (alignment t) (size t) (store cx t) (storable t) v (fun v p => store_needs cx t v p)) as Hn.
    assert (B : names (TList t) v v []). { apply (storable_names (TList t)). cbn [lower_flat] in E. unfold lower_flat_list in E. destruct (bind_inv _ _ _ _ _ E) as (x & s1 & E1 & _). cbn [shaped]. eapply Hn. exact E1. }
    revert s calls cs s' Hi Hc E. change (lows (lower_flat cx (TList t) v) (lower_flat cx (plain (TList t))) (fun w xs => names (TList t) w v xs)).
    apply (lows_both _ _ v); [|exact B]. cbn [plain lower_flat]. unfold lower_flat_list. rewrite alignment_plain, size_plain. bo; auto using both_list, both_store.
  - destruct Hw as [Hn Hw]. apply all_Forall in Hw. apply lows_record; [exact Hn|]. rewrite Forall_forall in *. intros f Hf. apply H; [exact Hf|]. apply Hw. exact Hf.
  - change (lower_flat cx (plain (TVariant cs))) with (lower_flat_variant (flatten_type (plain (TVariant cs))) (map (map_case (lower_flat cx)) (map (map_case plain) cs))).
    rewrite flatten_plain, map_case_comp. destruct Hw as [_ Hw]. apply all_Forall in Hw. apply lows_variant.
    + intros ks E. cbn [flatten_type] in E. unfold flatten_variant in E. destruct (fold_left _ _ _) as [fl| | | ]; try discriminate. cbn in E.
      destruct (discriminant_type _) as [dt| | | ] eqn:Ed; try discriminate. rewrite map_length in Ed. apply discriminant_range in Ed. lia.
    + rewrite Forall_forall in *. intros c Hc. specialize (H c Hc). specialize (Hw c Hc). destruct (c_type c); cbn in *; auto.
  - intros s calls cs s' Hi Hc E. cbn [lower_flat] in E. unfold ret_handle in E. apply bind_inv in E. destruct E as (j & s1 & E1 & E). unfold ret in E. injection E as <- <-.
    destruct (del_lower_own insts cx v r s calls j s1 Hi Hc E1) as (xs & V & rep & -> & ->).
    exists [(mkCarried true r rep, j)], (VU32 j). split; [exact V|]. split; [|exists rep, j; auto].
    intros t Ht. exists t. split; [reflexivity|]. split; [|reflexivity]. destruct Ht. destruct (keeps_add _ _ _ _ _ _ E1). split; congruence.
  - intros s calls cs s' Hi Hc E. cbn [lower_flat] in E. unfold ret_handle in E. apply bind_inv in E. destruct E as (j & s1 & E1 & E). unfold ret in E. injection E as <- <-.
    destruct (del_lower_borrow insts cx v r s calls j s1 Hi Hc E1) as (xs & V & rep & -> & ->).
    exists [(mkCarried false r rep, j)], (VU32 j). split; [exact V|]. split; [|exists rep, j; auto].
    intros t Ht. exists t. split; [reflexivity|]. split; [|reflexivity]. destruct Ht. cbn [lower_borrow] in E1.
    match type of E1 with (if ?b then _ else _) _ = _ => destruct b end; [unfold ret in E1; injection E1 as _ <-; split; assumption|]. destruct (keeps_add _ _ _ _ _ _ E1). split; congruence.
  - rewrite <- lower_flat_despecialize. rewrite <- (lower_flat_despecialize cx (plain t)), <- plain_despecialize.
    intros s calls cs s' Hi Hc E. destruct (IHt (wf_despecialize _ Hw) v _ _ _ _ Hi Hc E) as (xs & w & V & R & Nm). exists xs, w. split; [exact V|]. split; [exact R|]. apply names_despecialize. exact Nm.
Qed.

Lemma lows_each : forall ts, Forall wf_type ts -> forall vs, lows (lower_each (map (lower_flat cx) ts) vs) (lower_each (map (lower_flat cx) (map plain ts)))
  (fun ws xs => name_all (firstn (List.length vs) ts) ws vs xs).
Proof.
  intros ts Hw vs. revert ts Hw. induction vs as [|v vs IH]; intros ts Hw s calls cs s' Hi Hc E.
  - assert (X : forall fs, lower_each fs [] = ret []) by (destruct fs; reflexivity). rewrite X in E. unfold ret in E. injection E as <- <-. exists [], []. split; [apply evolves_nil; reflexivity|]. split; [|constructor]. intros t Ht. exists t. rewrite X. auto.
  - destruct ts as [|t ts]; [discriminate|]. cbn [map lower_each] in E. inversion Hw; subst. apply bind_inv in E. destruct E as (a & s1 & E1 & E). apply bind_inv in E. destruct E as (b & s2 & E2 & E). unfold ret in E. injection E as <- <-.
    destruct (lows_lower t ltac:(assumption) v _ _ _ _ Hi Hc E1) as (xs & w & V1 & R1 & N1). destruct (IH ts ltac:(assumption) _ _ _ _ Hi Hc E2) as (ys & ws & V2 & R2 & N2).
    exists (xs ++ ys)%list, (w :: ws). split; [rewrite map_app; eapply evolves_trans; eauto|]. split; [|cbn [List.length firstn]; constructor; assumption].
    intros u Hu. destruct (R1 u Hu) as (u1 & A1 & B1 & C1). destruct (R2 u1 B1) as (u2 & A2 & B2 & C2). exists u2. split; [|split; [exact B2|congruence]].
    cbn [map lower_each]. unfold bind at 1. rewrite A1. unfold bind. rewrite A2. reflexivity.
Qed.
Lemma lows_values : forall maxf ts kss vs out, Forall wf_type ts -> Forall2 flattens ts kss -> (List.length (List.concat kss) <= maxf)%nat ->
  lows (lower_values cx maxf vs ts out) (fun ws => lower_values cx maxf ws (map plain ts) out) (fun ws xs => name_all (firstn (List.length vs) ts) ws vs xs).
Proof.
  intros maxf ts kss vs out Hw Hk Hl s calls fl s' Hi Hc E. unfold lower_values in *. apply bind_inv in E. destruct E as (flat & s1 & E1 & E). injection E1 as E1 <-.
  rewrite (flat_types_ok _ _ Hk) in E1. injection E1 as <-. apply Nat.leb_le in Hl. rewrite Hl in E.
  apply bind_inv in E. destruct E as (cs & s2 & E2 & E). unfold ret in E. injection E as <- <-.
  destruct (lows_each ts Hw vs _ _ _ _ Hi Hc E2) as (xs & ws & V & R & Nm). exists xs, ws. split; [exact V|]. split; [|exact Nm].
  intros t Ht. destruct (R t Ht) as (t' & A & B). exists t'. split; [|exact B]. rewrite flatten_types_plain, (flat_types_ok _ _ Hk). unfold bind at 1, lift_o. rewrite Hl. unfold bind. rewrite A. reflexivity.
Qed.
End Lowers.

(** ** What the names say *)
Lemma names_carries : forall t w v xs, names t w v xs -> carries t v (map fst xs).
Proof.
  intros t. induction t using valtype_ind'; intros w v xs H'; cbn [names carries] in *; try (destruct H' as [_ ->]; reflexivity).
  - destruct H' as (l & F & _ & -> & ->). exists (map (fun e => snd (fst e)) l), (map (fun e => map fst (snd e)) l). split; [reflexivity|].
    split; [|rewrite flat_map_concat_map, concat_map, map_map; reflexivity].
    induction F as [|e l He F IH]; cbn [map]; constructor; [eapply IHt; exact He|exact IH].
  - destruct H' as (mw & mv & xss & _ & -> & _ & F & ->). exists mv, (map (map fst) xss). split; [reflexivity|]. split; [|apply concat_map].
    revert xss F. induction H as [|f fs Hf H IH]; intros xss F; cbn [map] in *; inversion F; subst; cbn [map]; constructor; [cbn [fst snd] in *; eapply Hf; eassumption|apply IH; assumption].
  - destruct H' as (key & p & q & i & c & _ & -> & Hs & Hi & Hc). rewrite nth_error_map in Hi. destruct (nth_error cs i) as [d|] eqn:Ed; [|discriminate]. injection Hi as <-.
    rewrite map_case_label in Hs. eapply variant_carries; [exact Hs|exact Ed|]. rewrite Forall_forall in H. specialize (H d (nth_error_In _ _ Ed)).
    destruct d as [l [y|] r]; cbn in *; [eapply H; exact Hc|destruct Hc as [_ ->]; reflexivity].
  - destruct H' as (rep & i & _ & -> & ->). exists rep. auto.
  - destruct H' as (rep & i & _ & -> & ->). exists rep. auto.
  - apply carries_despecialize. eapply IHt. apply names_despecialize. exact H'.
Qed.
Lemma name_all_carry : forall ts ws vs xs, name_all ts ws vs xs -> carry_all (combine ts vs) (map fst xs).
Proof. induction 1 as [|t ts w ws v vs x xs H _ IH]; cbn [combine]; [constructor|]. rewrite map_app. constructor; [eapply names_carries; exact H|exact IH]. Qed.
