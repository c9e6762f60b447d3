(** Labels are only names. *)
From Coq Require Import NArith ZArith List String Ascii Bool Lia ZifyBool ZifyNat ZifyN.
From Verif Require Import GoBase M_Types M_Layout S_Layout L_Layout M_State M_Utf M_Load M_Store M_Flat
  S_Values S_Memory S_Access S_Rename L_Access L_Variant L_Labels L_Despecialize L_Frame.
Import ListNotations.
Open Scope N_scope.
Open Scope go_scope.

Lemma pieces_split s : pieces s = fst (split_bar s) :: snd (split_bar s).
Proof.
  induction s as [|c s IH]; [reflexivity|]. cbn [pieces split_bar]. rewrite IH.
  destruct (split_bar s) as [h t]. cbn [fst snd]. destruct (Ascii.eqb c "|"); reflexivity.
Qed.

Lemma pieces_concat s : String.concat "|" (pieces s) = s.
Proof.
  rewrite pieces_split. pose proof (split_bar_spec s) as H. destruct (split_bar s). cbn [fst snd]. symmetry. apply H.
Qed.

Lemma pieces_free s : Forall bar_free (pieces s).
Proof.
  rewrite pieces_split. pose proof (split_bar_spec s) as H. destruct (split_bar s). cbn [fst snd]. apply H.
Qed.

Lemma pieces_one s : bar_free s -> pieces s = [s].
Proof.
  induction s as [|c s IH]; [reflexivity|]. intros [Hc Hs]. cbn [pieces]. rewrite (IH Hs).
  destruct (Ascii.eqb_spec c "|"); [contradiction|reflexivity].
Qed.

Lemma pieces_bar a b : bar_free a -> pieces (a ++ "|" ++ b)%string = a :: pieces b.
Proof.
  induction a as [|c a IH]; intros H; [reflexivity|]. destruct H as [Hc Ha].
  change (String c a ++ "|" ++ b)%string with (String c (a ++ "|" ++ b)). cbn [pieces]. rewrite (IH Ha).
  destruct (Ascii.eqb_spec c "|"); [contradiction|reflexivity].
Qed.

Lemma pieces_of l : l <> [] -> Forall bar_free l -> pieces (String.concat "|" l) = l.
Proof.
  induction l as [|a l IH]; intros Hn H; [contradiction|]. inversion H; subst. destruct l as [|b l].
  - apply pieces_one. assumption.
  - change (String.concat "|" (a :: b :: l)) with (a ++ "|" ++ String.concat "|" (b :: l))%string.
    rewrite pieces_bar by assumption. rewrite IH; [reflexivity|discriminate|assumption].
Qed.

Lemma pieces_app a b : pieces (a ++ "|" ++ b)%string = (pieces a ++ pieces b)%list.
Proof.
  induction a as [|c a IH]; [reflexivity|].
  change (String c a ++ "|" ++ b)%string with (String c (a ++ "|" ++ b)). cbn [pieces]. rewrite IH.
  destruct (Ascii.eqb c "|"); [reflexivity|].
  rewrite (pieces_split a). reflexivity.
Qed.

Lemma concat_app l k : l <> [] -> k <> [] ->
  String.concat "|" (l ++ k)%list = (String.concat "|" l ++ "|" ++ String.concat "|" k)%string.
Proof.
  intros Hl Hk. induction l as [|a l IH]; [contradiction|]. destruct l as [|b l].
  - destruct k as [|c k]; [contradiction|]. reflexivity.
  - change (String.concat "|" ((a :: b :: l) ++ k)) with (a ++ "|" ++ String.concat "|" ((b :: l) ++ k))%string.
    rewrite IH by discriminate.
    change (String.concat "|" (a :: b :: l)) with (a ++ "|" ++ String.concat "|" (b :: l))%string.
    assert (A : forall x y z, ((x ++ y) ++ z)%string = (x ++ (y ++ z))%string).
    { induction x as [|c x IHx]; intros y z; [reflexivity|]. cbn. rewrite IHx. reflexivity. }
    rewrite !A. reflexivity.
Qed.

Lemma Forall2_len {A B} (R : A -> B -> Prop) l l' : Forall2 R l l' -> List.length l = List.length l'.
Proof. induction 1; cbn; congruence. Qed.

Section Renamed.
  Variable r : string -> string.
  Hypothesis Hr : renaming r.
  Let rn := rename r.
  Let rt := rename_type r.
  Let rv := rename_value r.

  Lemma rename_bar a b : rn (a ++ "|" ++ b)%string = (rn a ++ "|" ++ rn b)%string.
  Proof.
    unfold rn, rename. rewrite pieces_app, map_app. apply concat_app.
    - rewrite (pieces_split a). discriminate.
    - rewrite (pieces_split b). discriminate.
  Qed.

  Lemma rename_one a : bar_free a -> rn a = r a.
  Proof. intros H. unfold rn, rename. rewrite (pieces_one _ H). reflexivity. Qed.

  Lemma pieces_rename a : pieces (rn a) = map r (pieces a).
  Proof.
    unfold rn, rename. apply pieces_of.
    - rewrite (pieces_split a). discriminate.
    - apply Forall_map. eapply Forall_impl; [|apply pieces_free]. apply (rn_bars _ Hr).
  Qed.

  Lemma rename_injective a b : rn a = rn b -> a = b.
  Proof.
    intros E. rewrite <- (pieces_concat a), <- (pieces_concat b). f_equal.
    assert (X : map r (pieces a) = map r (pieces b)) by (rewrite <- !pieces_rename, E; reflexivity).
    revert X. generalize (pieces a), (pieces b). induction l as [|x l IH]; intros [|y k] X; try discriminate; [reflexivity|].
    injection X as X1 X2. f_equal; [apply (rn_injective _ Hr), X1|apply IH, X2].
  Qed.

  Lemma rename_eqb a b : String.eqb (rn a) (rn b) = String.eqb a b.
  Proof.
    destruct (String.eqb_spec a b) as [->|N]; [apply String.eqb_refl|].
    apply String.eqb_neq. intros E. apply N, rename_injective, E.
  Qed.

  (** ** Maps *)
  Let re (e : string * any) : string * any := (rn (fst e), rv (snd e)).

  Lemma get_rename m l : map_get (map re m) (rn l) = option_map rv (map_get m l).
  Proof.
    induction m as [|[k v] m IH]; [reflexivity|]. cbn [map map_get re fst snd]. rewrite rename_eqb.
    destruct (String.eqb l k); [reflexivity|exact IH].
  Qed.

  Lemma any_rename m l : map_any (map re m) (rn l) = rv (map_any m l).
  Proof. unfold map_any. rewrite get_rename. destruct (map_get m l); reflexivity. Qed.

  Lemma set_rename m l v : map_set (map re m) (rn l) (rv v) = map re (map_set m l v).
  Proof.
    induction m as [|[k w] m IH]; [reflexivity|]. cbn [map map_set re fst snd]. rewrite rename_eqb.
    destruct (String.eqb l k); [reflexivity|]. cbn [map re fst snd]. f_equal. exact IH.
  Qed.

  (** ** Cases *)
  Definition opt_rel {A B} (R : A -> B -> Prop) (a : option A) (b : option B) : Prop :=
    match a, b with
    | Some x, Some y => R x y
    | None, None => True
    | _, _ => False
    end.

  (** The second case is the first one renamed, with [R] between the types. *)
  Definition case_rel {A B} (R : A -> B -> Prop) (c : caseOf A) (c' : caseOf B) : Prop :=
    c_label c' = rn (c_label c) /\ c_refines c' = option_map rn (c_refines c) /\ opt_rel R (c_type c) (c_type c').

  Lemma find_rename {A B} (R : A -> B -> Prop) cs cs' l : Forall2 (case_rel R) cs cs' ->
    opt_rel (case_rel R) (find_case cs l) (find_case cs' (rn l)).
  Proof.
    induction 1 as [|c c' cs cs' Hc H IH]; [exact I|]. cbn [find_case]. destruct Hc as (E & F & G).
    rewrite E, rename_eqb. destruct (String.eqb (c_label c) l); [|exact IH]. split; auto.
  Qed.

  Lemma loop_rename {A B} (R : A -> B -> Prop) n cs cs' : Forall2 (case_rel R) cs cs' -> forall c c' l, case_rel R c c' ->
    label_loop n cs' c' (rn l) = returning rn (label_loop n cs c l).
  Proof.
    intros H. induction n as [|n IH]; intros c c' l (E & F & G); [reflexivity|]. cbn [label_loop].
    rewrite F. destruct (c_refines c) as [q|]; [|reflexivity]. cbn [option_map].
    pose proof (find_rename R _ _ q H) as X.
    destruct (find_case cs q) as [d|], (find_case cs' (rn q)) as [d'|]; try contradiction; [|reflexivity].
    assert (Y := X). destruct Y as (E' & _). rewrite E', <- rename_bar. apply IH. exact X.
  Qed.

  Lemma case_label_rename {A B} (R : A -> B -> Prop) c c' cs cs' : Forall2 (case_rel R) cs cs' -> case_rel R c c' ->
    case_label c' cs' = returning rn (case_label c cs).
  Proof.
    intros H Hc. unfold case_label. rewrite <- (Forall2_len _ _ _ H). assert (X := Hc). destruct X as (E & _). rewrite E.
    apply (loop_rename R); assumption.
  Qed.

  Lemma index_rename {A B} (R : A -> B -> Prop) cs cs' : Forall2 (case_rel R) cs cs' -> forall i l acc,
    label_index cs' i (rn l) acc = label_index cs i l acc.
  Proof.
    induction 1 as [|c c' cs cs' Hc H IH]; intros i l acc; [reflexivity|]. cbn [label_index].
    destruct Hc as (E & _). rewrite E, rename_eqb. apply IH.
  Qed.

  Lemma match_rename {A B} (R : A -> B -> Prop) cs cs' ls : Forall2 (case_rel R) cs cs' -> Forall bar_free ls ->
    match_labels cs' (map r ls) = match_labels cs ls.
  Proof.
    intros Hcs. induction 1 as [|l ls Hl H IH]; [reflexivity|]. cbn [map match_labels].
    rewrite <- (rename_one l Hl), (index_rename R _ _ Hcs).
    destruct (label_index cs 0 l None); [reflexivity|exact IH].
  Qed.

  Lemma match_case_rename {A B} (R : A -> B -> Prop) v cs cs' : Forall2 (case_rel R) cs cs' ->
    match_case (rv v) cs' = returning (fun x => (fst x, rv (snd x))) (match_case v cs).
  Proof.
    intros H. destruct v; try reflexivity. destruct m as [|[k x] [|e m]]; try reflexivity.
    cbn [match_case rv rename_value map fst snd].
    pose proof (pieces_rename k) as P. pose proof (pieces_free k) as F. rewrite !pieces_split in P. rewrite pieces_split in F.
    change (rename r k) with (rn k). destruct (split_bar (rn k)) as [h t], (split_bar k) as [h0 t0]. cbn [fst snd] in P, F.
    rewrite P. rewrite (match_rename R cs cs' _ H F). destruct (match_labels cs (h0 :: t0)); reflexivity.
  Qed.

  Lemma nth_rename {A B} (R : A -> B -> Prop) l l' i : Forall2 R l l' -> opt_rel R (nth_error l i) (nth_error l' i).
  Proof. intros H. revert i. induction H; intros [|i]; cbn; auto. Qed.

  (** ** Layout and flattening *)
  Definition rename_case {A B} (f : A -> B) (c : caseOf A) : caseOf B :=
    mkCase (rn (c_label c)) (option_map f (c_type c)) (option_map rn (c_refines c)).

  Lemma rt_variant cs : rt (TVariant cs) = TVariant (map (rename_case rt) cs).
  Proof. reflexivity. Qed.

  Lemma rename_itoa n : rn (itoa n) = itoa n.
  Proof. rewrite rename_one; [apply (rn_numbers _ Hr)|]. apply itoa_bar_free. Qed.

  Lemma fixed_name s : bar_free s -> r s = s -> rn s = s.
  Proof. intros B E. rewrite rename_one; assumption. Qed.

  Lemma rt_despecialize t : rt (despecialize t) = despecialize (rt t).
  Proof.
    destruct t; try reflexivity.
    - (* tuple *)
      cbn [despecialize rt rename_type]. f_equal. unfold itoa_fields. rewrite map_map. cbn [fst snd].
      generalize 0. induction ts as [|t ts IH]; intros n; [reflexivity|]. cbn [enum_from map fst snd].
      change (rename r (itoa n)) with (rn (itoa n)). rewrite rename_itoa. f_equal. apply IH.
    - (* enum *)
      cbn [despecialize rt rename_type]. f_equal. unfold enum_cases. rewrite !map_map. reflexivity.
    - (* option *)
      cbn [despecialize rt rename_type option_cases map c_label c_type c_refines].
      change (rename r "none"%string) with (rn "none"%string). change (rename r "some"%string) with (rn "some"%string).
      rewrite (fixed_name "none"%string) by (apply (rn_none _ Hr) || (cbn; intuition discriminate)).
      rewrite (fixed_name "some"%string) by (apply (rn_some _ Hr) || (cbn; intuition discriminate)). reflexivity.
    - cbn [despecialize rt rename_type result_cases map c_label c_type c_refines].
      change (rename r "ok"%string) with (rn "ok"%string). change (rename r "error"%string) with (rn "error"%string).
      rewrite (fixed_name "ok"%string) by (apply (rn_ok _ Hr) || (cbn; intuition discriminate)).
      rewrite (fixed_name "error"%string) by (apply (rn_error _ Hr) || (cbn; intuition discriminate)). reflexivity.
    - (* union *)
      cbn [despecialize rt rename_type]. f_equal. unfold itoa_cases. rewrite map_map. cbn [c_label c_type c_refines].
      generalize 0. induction ts as [|t ts IH]; intros n; [reflexivity|]. cbn [enum_from map fst snd].
      change (rename r (itoa n)) with (rn (itoa n)). rewrite rename_itoa. f_equal. apply IH.
  Qed.

  (** Functions that look at the types of cases only. *)
  Lemma max_case_rename cs cs' : Forall2 (case_rel eq) cs cs' -> max_case_alignment cs' = max_case_alignment cs.
  Proof.
    unfold max_case_alignment. generalize (Ok 1 : outcome N). intros a H. revert a.
    induction H as [|c c' cs cs' Hc H IH]; intros a; [reflexivity|]. cbn [fold_left].
    destruct Hc as (_ & _ & T). destruct (c_type c), (c_type c'); try contradiction; [|apply IH].
    cbn in T. subst. apply IH.
  Qed.

  Lemma align_variant_rename cs cs' : Forall2 (case_rel eq) cs cs' -> alignment_variant cs' = alignment_variant cs.
  Proof. intros H. unfold alignment_variant. rewrite <- (Forall2_len _ _ _ H), (max_case_rename _ _ H). reflexivity. Qed.

  Lemma map_case_rel {A B C D} (R : A -> B -> Prop) (S : C -> D -> Prop) f g cs cs' :
    (forall a b, R a b -> S (f a) (g b)) ->
    Forall2 (case_rel R) cs cs' -> Forall2 (case_rel S) (map (map_case f) cs) (map (map_case g) cs').
  Proof.
    intros HRS. induction 1 as [|c c' cs cs' (E & F & G) H IH]; constructor; [|exact IH].
    split; [exact E|]. split; [exact F|]. cbn. destruct (c_type c), (c_type c'); try contradiction; cbn; auto.
  Qed.

  Lemma size_variant_rename cs cs' : Forall2 (case_rel eq) cs cs' -> size_variant cs' = size_variant cs.
  Proof.
    intros H. unfold size_variant.
    assert (X : Forall2 (case_rel eq) (map (map_case fst) cs) (map (map_case fst) cs')).
    { eapply map_case_rel; [|exact H]. intros a b ->. reflexivity. }
    rewrite <- (Forall2_len _ _ _ H), (max_case_rename _ _ X), (align_variant_rename _ _ X).
    assert (Y : forall a, fold_left (fun (acc : outcome N) (c : caseOf (outcome N * outcome N)) =>
       olet m := acc in match c_type c with None => Ok m | Some x => olet z := snd x in Ok (N.max m z) end) cs' a
      = fold_left (fun (acc : outcome N) (c : caseOf (outcome N * outcome N)) =>
       olet m := acc in match c_type c with None => Ok m | Some x => olet z := snd x in Ok (N.max m z) end) cs a).
    { clear X. induction H as [|c c' cs cs' Hc H IH]; intros a; [reflexivity|]. cbn [fold_left].
      destruct Hc as (_ & _ & T). destruct (c_type c), (c_type c'); try contradiction; [|apply IH].
      cbn in T. subst. apply IH. }
    rewrite Y. reflexivity.
  Qed.

  Lemma flatten_variant_rename cs cs' : Forall2 (case_rel eq) cs cs' -> flatten_variant cs' = flatten_variant cs.
  Proof.
    intros H. unfold flatten_variant. rewrite <- (Forall2_len _ _ _ H).
    assert (Y : forall a, fold_left (fun (acc : outcome (list kind)) (c : caseOf (outcome (list kind))) =>
       olet a := acc in match c_type c with None => Ok a | Some x => olet y := x in Ok (join_into a y) end) cs' a
      = fold_left (fun (acc : outcome (list kind)) (c : caseOf (outcome (list kind))) =>
       olet a := acc in match c_type c with None => Ok a | Some x => olet y := x in Ok (join_into a y) end) cs a).
    { induction H as [|c c' cs cs' Hc H IH]; intros a; [reflexivity|]. cbn [fold_left].
      destruct Hc as (_ & _ & T). destruct (c_type c), (c_type c'); try contradiction; [|apply IH].
      cbn in T. subst. apply IH. }
    rewrite Y. reflexivity.
  Qed.

  Lemma types_rel {A B} (R : A -> B -> Prop) (f : valtype -> A) (g : valtype -> B) cs :
    Forall (fun c => opt_all (fun t => R (f t) (g (rt t))) (c_type c)) cs ->
    Forall2 (case_rel R) (map (map_case f) cs) (map (map_case g) (map (rename_case rt) cs)).
  Proof.
    induction 1 as [|c cs Hc H IH]; constructor; [|exact IH].
    split; [reflexivity|]. split; [reflexivity|]. cbn. destruct (c_type c); exact Hc.
  Qed.

  Lemma fields_same {A} (f : valtype -> A) fs : Forall (fun e => f (rt (snd e)) = f (snd e)) fs ->
    map (fun e => f (snd e)) (map (fun e => (rn (fst e), rt (snd e))) fs) = map (fun e => f (snd e)) fs.
  Proof. induction 1 as [|e fs He H IH]; [reflexivity|]. cbn [map fst snd]. f_equal; assumption. Qed.

  Definition layout_same (t : valtype) : Prop :=
    alignment (rt t) = alignment t /\ size (rt t) = size t /\ flatten_type (rt t) = flatten_type t.

  Lemma layout_same_all t : layout_same t.
  Proof.
    induction t using valtype_ind'; try (repeat split; reflexivity).
    - (* record *)
      assert (A : Forall (fun e => alignment (rt (snd e)) = alignment (snd e)) fs) by (eapply Forall_impl; [|exact H]; intros e X; apply X).
      assert (B : Forall (fun e => (alignment (rt (snd e)), size (rt (snd e))) = (alignment (snd e), size (snd e))) fs).
      { eapply Forall_impl; [|exact H]. intros e (X & Y & _). rewrite X, Y. reflexivity. }
      assert (C : Forall (fun e => flatten_type (rt (snd e)) = flatten_type (snd e)) fs) by (eapply Forall_impl; [|exact H]; intros e X; apply X).
      unfold layout_same. change (rt (TRecord fs)) with (TRecord (map (fun e => (rn (fst e), rt (snd e))) fs)).
      split; [|split]; cbn [alignment size flatten_type].
      + rewrite (fields_same alignment fs A). reflexivity.
      + rewrite (fields_same (fun t => (alignment t, size t)) fs B). reflexivity.
      + rewrite (fields_same flatten_type fs C). reflexivity.
    - (* variant *)
      unfold layout_same. rewrite rt_variant. split; [|split]; cbn [alignment size flatten_type].
      + apply align_variant_rename, types_rel. eapply Forall_impl; [|exact H]. intros c X. cbn beta in X. destruct (c_type c); [|exact I].
        cbn [opt_all] in *. symmetry. apply X.
      + apply size_variant_rename, types_rel. eapply Forall_impl; [|exact H]. intros c X. cbn beta in X. destruct (c_type c); [|exact I].
        cbn [opt_all] in *. destruct X as (X & Y & _). rewrite X, Y. reflexivity.
      + apply flatten_variant_rename, types_rel. eapply Forall_impl; [|exact H]. intros c X. cbn beta in X. destruct (c_type c); [|exact I].
        cbn [opt_all] in *. symmetry. apply X.
    - (* flags *)
      unfold layout_same. cbn [rt rename_type alignment size flatten_type].
      unfold alignment_flags, size_flags, num_i32_flags. rewrite map_length. auto.
    - unfold layout_same in *. rewrite rt_despecialize in IHt.
      rewrite !alignment_despecialize, !size_despecialize, !flatten_despecialize in IHt. exact IHt.
  Qed.

  (** ** Runs *)
  Definition maps {A B} (f : A -> B) (m : M A) (m' : M B) : Prop :=
    forall s, m' s = (returning f (fst (m s)), snd (m s)).

  Lemma maps_bind {A B C D} (f : A -> B) (g : C -> D) m m' k k' :
    maps f m m' -> (forall a, maps g (k a) (k' (f a))) -> maps g (bind m k) (bind m' k').
  Proof.
    intros H K s. unfold bind. rewrite (H s). destruct (m s) as [[a| | |] s']; cbn [fst snd returning]; try reflexivity. apply K.
  Qed.

  Lemma returning_id {A} (o : outcome A) : returning (fun x => x) o = o.
  Proof. destruct o; reflexivity. Qed.

  Lemma maps_same {A} (m : M A) : maps (fun x => x) m m.
  Proof. intros s. rewrite returning_id. destruct (m s); reflexivity. Qed.

  Lemma maps_then {A C D} (g : C -> D) (m : M A) k k' : (forall a, maps g (k a) (k' a)) -> maps g (bind m k) (bind m k').
  Proof. intros H. apply (maps_bind (fun x => x)); [apply maps_same|exact H]. Qed.

  Lemma maps_ret {A B} (f : A -> B) a b : b = f a -> maps f (ret a) (ret b).
  Proof. intros -> s. reflexivity. Qed.

  Lemma maps_lift {A B} (f : A -> B) o o' : o' = returning f o -> maps f (lift_o o) (lift_o o').
  Proof. intros -> s. reflexivity. Qed.

  (** ** Store *)
  Definition same {A} (m m' : M A) : Prop := maps (fun x => x) m m'.

  Definition store_rel (q q' : comp (any -> N -> M unit)) : Prop :=
    q_al q' = q_al q /\ q_sz q' = q_sz q /\ forall v p, same (q_op q v p) (q_op q' (rv v) p).

  Definition field_rel {A B} (R : A -> B -> Prop) (e : string * A) (e' : string * B) : Prop :=
    fst e' = rn (fst e) /\ R (snd e) (snd e').

  Lemma fields_rel {A B} (R : A -> B -> Prop) (f : valtype -> A) (g : valtype -> B) fs :
    Forall (fun e => R (f (snd e)) (g (rt (snd e)))) fs ->
    Forall2 (field_rel R) (map (fun e => (fst e, f (snd e))) fs)
      (map (fun e => (fst e, g (snd e))) (map (fun e => (rn (fst e), rt (snd e))) fs)).
  Proof. induction 1; constructor; [split; [reflexivity|assumption]|assumption]. Qed.

  Lemma store_elems_rename st st' vs : (forall v p, same (st v p) (st' (rv v) p)) -> forall ptr sz i,
    same (store_elems vs st ptr sz i) (store_elems (map rv vs) st' ptr sz i).
  Proof.
    intros H. induction vs as [|v vs IH]; intros ptr sz i; cbn [map store_elems]; [apply maps_same|].
    eapply maps_bind; [apply H|]. intros _. apply IH.
  Qed.

  Lemma store_range_rename cx al sz st st' v : (forall v p, same (st v p) (st' (rv v) p)) ->
    same (store_list_into_range cx al sz st v) (store_list_into_range cx al sz st' (rv v)).
  Proof.
    intros H. destruct v; try (apply maps_lift; reflexivity). cbn [rv rename_value store_list_into_range].
    rewrite map_length. apply maps_then. intros s. destruct (_ <=? _)%Z; [apply maps_same|].
    apply maps_then. intros a. apply maps_then. intros p. apply maps_then. intros _. apply maps_then. intros _.
    eapply maps_bind; [apply store_elems_rename, H|]. intros _. apply maps_same.
  Qed.

  Lemma store_fields_rename fs fs' m : Forall2 (field_rel store_rel) fs fs' -> forall ptr,
    same (store_fields fs m ptr) (store_fields fs' (map re m) ptr).
  Proof.
    induction 1 as [|[l q] [l' q'] fs fs' (E & A & Z & O) H IH]; intros ptr; [apply maps_same|].
    cbn [fst snd] in *. subst l'. cbn [store_fields]. rewrite A, Z. apply maps_then. intros a. apply maps_then. intros p.
    rewrite any_rename. eapply maps_bind; [apply O|]. intros _. apply maps_then. intros s. apply IH.
  Qed.

  Lemma max_al_rename {F G} (R : comp F -> comp G -> Prop) cs cs' : (forall q q', R q q' -> q_al q' = q_al q) ->
    Forall2 (case_rel R) cs cs' -> max_case_alignment (map (map_case q_al) cs') = max_case_alignment (map (map_case q_al) cs).
  Proof. intros HR H. apply max_case_rename. eapply map_case_rel; [|exact H]. intros a b X. symmetry. auto. Qed.

  Lemma store_variant_rename cs cs' v ptr : Forall2 (case_rel store_rel) cs cs' ->
    same (store_variant cs v ptr) (store_variant cs' (rv v) ptr).
  Proof.
    intros H. unfold store_variant. eapply maps_bind; [apply maps_lift; apply (match_case_rename store_rel _ _ _ H)|].
    intros [i x]. cbn [fst snd]. rewrite <- (Forall2_len _ _ _ H). apply maps_then. intros dt. apply maps_then. intros _.
    rewrite (max_al_rename store_rel cs cs') by (auto; intros q q' X; apply X).
    apply maps_then. intros a. apply maps_then. intros p.
    pose proof (nth_rename _ _ _ (N.to_nat i) H) as X.
    destruct (nth_error cs (N.to_nat i)) as [c|], (nth_error cs' (N.to_nat i)) as [c'|]; try contradiction; [|apply maps_same].
    destruct X as (_ & _ & T). destruct (c_type c), (c_type c'); try contradiction; [|apply maps_same]. apply T.
  Qed.

  Lemma pack_rename m ls : forall shift acc, pack_flags (map re m) (map rn ls) shift acc = pack_flags m ls shift acc.
  Proof.
    induction ls as [|l ls IH]; intros shift acc; [reflexivity|]. cbn [map pack_flags]. rewrite any_rename.
    destruct (map_any m l); try reflexivity. apply IH.
  Qed.

  Definition store_same cx (t : valtype) : Prop := forall v p, same (store cx t v p) (store cx (rt t) (rv v) p).

  Lemma guarded_same al sz st st' v p : same (st v p) (st' (rv v) p) ->
    same (guarded al sz st v p) (guarded al sz st' (rv v) p).
  Proof. intros H. unfold guarded. apply maps_then. intros _. exact H. Qed.

  Lemma store_comp cx t : store_same cx t ->
    store_rel (mkComp (alignment t) (size t) (store cx t)) (mkComp (alignment (rt t)) (size (rt t)) (store cx (rt t))).
  Proof. intros H. destruct (layout_same_all t) as (A & Z & _). split; [exact A|]. split; [exact Z|]. exact H. Qed.

  Lemma store_same_all cx t : store_same cx t.
  Proof.
    induction t using valtype_ind'.
    all: try (intros v p; cbn [rt rename_type store]; apply guarded_same; destruct v; apply maps_same).
    - (* list *)
      intros v p. destruct (layout_same_all t) as (A & Z & _). cbn [rt rename_type store alignment size].
      change (rename_type r t) with (rt t). rewrite A, Z. apply guarded_same. unfold store_list.
      eapply maps_bind; [apply store_range_rename; exact IHt|]. intros [b l]. apply maps_same.
    - (* record *)
      intros v p. destruct (layout_same_all (TRecord fs)) as (A & Z & _).
      change (rt (TRecord fs)) with (TRecord (map (fun e => (rn (fst e), rt (snd e))) fs)) in *.
      cbn [store]. rewrite A, Z. apply guarded_same. destruct v; try (apply maps_same).
      unfold store_record. cbn [rv rename_value]. apply store_fields_rename.
      apply (fields_rel store_rel (fun t => mkComp (alignment t) (size t) (store cx t)) (fun t => mkComp (alignment t) (size t) (store cx t))).
      eapply Forall_impl; [|exact H]. intros e X. apply store_comp, X.
    - (* variant *)
      intros v p. destruct (layout_same_all (TVariant cs)) as (A & Z & _). rewrite rt_variant in *.
      cbn [store]. rewrite A, Z. apply guarded_same. apply store_variant_rename, types_rel.
      eapply Forall_impl; [|exact H]. intros c X. cbn beta in X. destruct (c_type c); [|exact I]. apply store_comp, X.
    - (* flags *)
      intros v p. destruct (layout_same_all (TFlags ls)) as (A & Z & _).
      change (rt (TFlags ls)) with (TFlags (map rn ls)) in *. cbn [store]. rewrite A, Z. apply guarded_same.
      destruct v; try (apply maps_same). unfold store_flags. cbn [rv rename_value].
      change (map (fun e => (rename r (fst e), rename_value r (snd e))) m) with (map re m). rewrite pack_rename.
      cbn [size] in Z. rewrite Z. apply maps_same.
    - unfold store_same in *. rewrite rt_despecialize, !store_despecialize in IHt. exact IHt.
  Qed.

  (** ** Load *)
  Definition load_rel (q q' : comp (N -> M any)) : Prop :=
    q_al q' = q_al q /\ q_sz q' = q_sz q /\ forall p, maps rv (q_op q p) (q_op q' p).

  Lemma load_elems_rename n ld ld' : (forall p, maps rv (ld p) (ld' p)) -> forall ptr sz i,
    maps (map rv) (load_elems n ld ptr sz i) (load_elems n ld' ptr sz i).
  Proof.
    intros H. induction n as [|n IH]; intros ptr sz i; cbn [load_elems]; [apply maps_ret; reflexivity|].
    eapply maps_bind; [apply H|]. intros v. eapply maps_bind; [apply IH|]. intros vs. apply maps_ret. reflexivity.
  Qed.

  Lemma load_range_rename al sz ld ld' ptr len : (forall p, maps rv (ld p) (ld' p)) ->
    maps rv (load_list_from_range al sz ld ptr len) (load_list_from_range al sz ld' ptr len).
  Proof.
    intros H. unfold load_list_from_range. apply maps_then. intros a. apply maps_then. intros _. apply maps_then. intros s.
    apply maps_then. intros _. eapply maps_bind; [apply load_elems_rename, H|]. intros vs. apply maps_ret. reflexivity.
  Qed.

  Lemma load_fields_rename fs fs' : Forall2 (field_rel load_rel) fs fs' -> forall ptr acc,
    maps (map re) (load_fields fs ptr acc) (load_fields fs' ptr (map re acc)).
  Proof.
    induction 1 as [|[l q] [l' q'] fs fs' (E & A & Z & O) H IH]; intros ptr acc; [apply maps_ret; reflexivity|].
    cbn [fst snd] in *. subst l'. cbn [load_fields]. rewrite A, Z. apply maps_then. intros a. apply maps_then. intros p.
    eapply maps_bind; [apply O|]. intros v. apply maps_then. intros s. rewrite set_rename. apply IH.
  Qed.

  Lemma load_variant_rename cs cs' ptr : Forall2 (case_rel load_rel) cs cs' ->
    maps rv (load_variant cs ptr) (load_variant cs' ptr).
  Proof.
    intros H. unfold load_variant. rewrite <- (Forall2_len _ _ _ H).
    apply maps_then. intros dt. apply maps_then. intros iv. apply maps_then. intros i.
    destruct (_ <=? i); [apply maps_lift; reflexivity|].
    pose proof (nth_rename _ _ _ (N.to_nat i) H) as X.
    destruct (nth_error cs (N.to_nat i)) as [c|], (nth_error cs' (N.to_nat i)) as [c'|]; try contradiction;
      [|apply maps_lift; reflexivity].
    rewrite (max_al_rename load_rel cs cs') by (auto; intros q q' Y; apply Y).
    apply maps_then. intros a. apply maps_then. intros p.
    eapply maps_bind; [apply maps_lift; apply (case_label_rename load_rel _ _ _ _ H X)|]. intros l.
    apply (maps_bind rv).
    - destruct X as (_ & _ & T). destruct (c_type c), (c_type c'); try contradiction; [|apply maps_ret; reflexivity]. apply T.
    - intros v. apply maps_ret. reflexivity.
  Qed.

  Lemma unpack_rename ls : forall i acc, unpack_flags i (map rn ls) (map re acc) = map re (unpack_flags i ls acc).
  Proof.
    induction ls as [|l ls IH]; intros i acc; [reflexivity|]. cbn [map unpack_flags].
    change (VBool (N.odd i)) with (rv (VBool (N.odd i))) at 1. rewrite set_rename. apply IH.
  Qed.

  Definition load_same cx (t : valtype) : Prop := forall p, maps rv (load cx t p) (load cx (rt t) p).

  Lemma load_comp cx t : load_same cx t ->
    load_rel (mkComp (alignment t) (size t) (load cx t)) (mkComp (alignment (rt t)) (size (rt t)) (load cx (rt t))).
  Proof. intros H. destruct (layout_same_all t) as (A & Z & _). split; [exact A|]. split; [exact Z|]. exact H. Qed.

  Ltac plain :=
    repeat first
      [ apply maps_ret; reflexivity
      | apply maps_lift; reflexivity
      | apply maps_then; intros ?
      | match goal with
        | |- maps _ (match ?x with _ => _ end) _ => destruct x
        | |- maps _ (let (_, _) := ?x in _) _ => destruct x
        end ].

  Lemma load_same_all cx t : load_same cx t.
  Proof.
    induction t using valtype_ind'.
    all: try (intros p; cbn [rt rename_type load]; unfold load_int, load_bool, load_f32, load_f64, load_char, ret_u32, load_string, load_string_from_range; solve [plain]).
    - intros p. destruct (layout_same_all t) as (A & Z & _). cbn [rt rename_type load].
      change (rename_type r t) with (rt t). rewrite A, Z. unfold load_list. apply maps_then. intros b. apply maps_then. intros l.
      apply load_range_rename. exact IHt.
    - intros p. change (rt (TRecord fs)) with (TRecord (map (fun e => (rn (fst e), rt (snd e))) fs)).
      cbn [load]. unfold load_record. apply (maps_bind (map re)).
      + apply (load_fields_rename _ _) with (acc := []).
        apply (fields_rel load_rel (fun t => mkComp (alignment t) (size t) (load cx t)) (fun t => mkComp (alignment t) (size t) (load cx t))).
        eapply Forall_impl; [|exact H]. intros e X. apply load_comp, X.
      + intros m. apply maps_ret. reflexivity.
    - intros p. rewrite rt_variant. cbn [load]. apply load_variant_rename, types_rel.
      eapply Forall_impl; [|exact H]. intros c X. cbn beta in X. destruct (c_type c); [|exact I]. apply load_comp, X.
    - intros p. destruct (layout_same_all (TFlags ls)) as (_ & Z & _).
      change (rt (TFlags ls)) with (TFlags (map rn ls)) in *. cbn [load size] in *. unfold load_flags. rewrite Z.
      apply maps_then. intros sz. apply maps_then. intros v. apply maps_ret.
      cbn [rv rename_value]. f_equal. apply (unpack_rename ls _ []).
    - unfold load_same in *. rewrite rt_despecialize, !load_despecialize in IHt. exact IHt.
  Qed.

  (** ** LiftFlat *)
  Definition rvi (x : any * iter) : any * iter := (rv (fst x), snd x).
  Definition lift_rel (f f' : LM any) : Prop := forall it, maps rvi (f it) (f' it).

  Lemma lift_fields_rename fs fs' : Forall2 (field_rel lift_rel) fs fs' -> forall acc it,
    maps (fun x => (map re (fst x), snd x)) (lift_fields fs acc it) (lift_fields fs' (map re acc) it).
  Proof.
    induction 1 as [|[l f] [l' f'] fs fs' (E & O) H IH]; intros acc it; [apply maps_ret; reflexivity|].
    cbn [fst snd] in *. subst l'. cbn [lift_fields]. eapply maps_bind; [apply O|]. intros [v it']. unfold rvi. cbn [fst snd].
    rewrite set_rename. apply IH.
  Qed.

  Lemma lift_variant_rename flat cs cs' : Forall2 (case_rel lift_rel) cs cs' ->
    lift_rel (lift_flat_variant flat cs) (lift_flat_variant flat cs').
  Proof.
    intros H it. unfold lift_flat_variant. apply maps_then. intros [|k ks]; [apply maps_lift; reflexivity|].
    destruct (negb _); [apply maps_lift; reflexivity|]. apply maps_then. intros [i it']. rewrite <- (Forall2_len _ _ _ H).
    destruct (_ <=? i); [apply maps_lift; reflexivity|].
    pose proof (nth_rename _ _ _ (N.to_nat i) H) as X.
    destruct (nth_error cs (N.to_nat i)) as [c|], (nth_error cs' (N.to_nat i)) as [c'|]; try contradiction;
      [|apply maps_lift; reflexivity].
    pose proof (case_label_rename lift_rel _ _ _ _ H X) as L. rewrite L.
    destruct X as (_ & _ & T). destruct (c_type c), (c_type c'); try contradiction.
    - eapply maps_bind; [apply T|]. intros [v cit]. unfold rvi at 2. cbn [fst snd].
      destruct cit as [? ?|it1 rest]; [apply maps_lift; reflexivity|]. apply maps_then. intros it2.
      eapply maps_bind; [apply maps_lift; reflexivity|]. intros lab. apply maps_ret. reflexivity.
    - apply maps_then. intros it2. eapply maps_bind; [apply maps_lift; reflexivity|]. intros lab. apply maps_ret. reflexivity.
  Qed.

  Lemma lift_same_all cx t : lift_rel (lift_flat cx t) (lift_flat cx (rt t)).
  Proof.
    induction t using valtype_ind'.
    all: try (intros it; cbn [rt rename_type lift_flat]; unfold lmap, lift_flat_char, lift_flat_handle; solve [plain]).
    - intros it. cbn [rt rename_type lift_flat]. unfold lift_flat_string, load_string_from_range.
      apply maps_then. intros [p it1]. apply maps_then. intros [n it2]. apply (maps_bind rv); [plain|].
      intros v. apply maps_ret. reflexivity.
    - intros it. destruct (layout_same_all t) as (A & Z & _). cbn [rt rename_type lift_flat].
      change (rename_type r t) with (rt t). rewrite A, Z. unfold lift_flat_list. apply maps_then. intros [p it1]. apply maps_then. intros [n it2].
      eapply maps_bind; [apply load_range_rename, load_same_all|]. intros v. apply maps_ret. reflexivity.
    - intros it. change (rt (TRecord fs)) with (TRecord (map (fun e => (rn (fst e), rt (snd e))) fs)).
      cbn [lift_flat]. unfold lift_flat_record. eapply maps_bind.
      + apply (lift_fields_rename _ _) with (acc := []). apply (fields_rel lift_rel (lift_flat cx) (lift_flat cx)). exact H.
      + intros [m it']. apply maps_ret. reflexivity.
    - destruct (layout_same_all (TVariant cs)) as (_ & _ & F). rewrite rt_variant in *. cbn [lift_flat]. rewrite F.
      apply lift_variant_rename, types_rel. exact H.
    - intros it. change (rt (TFlags ls)) with (TFlags (map rn ls)). cbn [lift_flat]. unfold lift_flat_flags, num_i32_flags.
      rewrite map_length. apply maps_then. intros [w it']. apply maps_ret. unfold rvi. cbn [fst snd rv rename_value].
      f_equal. f_equal. apply (unpack_rename ls _ []).
    - rewrite rt_despecialize, !lift_flat_despecialize in IHt. exact IHt.
  Qed.

  (** ** LowerFlat *)
  Definition lower_rel (f f' : any -> M (list cval)) : Prop := forall v, same (f v) (f' (rv v)).

  Lemma lower_fields_rename fs fs' m : Forall2 (field_rel lower_rel) fs fs' ->
    same (lower_fields fs m) (lower_fields fs' (map re m)).
  Proof.
    induction 1 as [|[l f] [l' f'] fs fs' (E & O) H IH]; [apply maps_same|]. cbn [fst snd] in *. subst l'.
    cbn [lower_fields]. rewrite any_rename. eapply maps_bind; [apply O|]. intros a. eapply maps_bind; [apply IH|].
    intros b. apply maps_same.
  Qed.

  Lemma lower_variant_rename flat cs cs' : Forall2 (case_rel lower_rel) cs cs' ->
    lower_rel (lower_flat_variant flat cs) (lower_flat_variant flat cs').
  Proof.
    intros H v. unfold lower_flat_variant. eapply maps_bind; [apply maps_lift; apply (match_case_rename lower_rel _ _ _ H)|].
    intros [i x]. cbn [fst snd]. apply maps_then. intros [|k ks]; [apply maps_same|].
    destruct (negb _); [apply maps_same|].
    pose proof (nth_rename _ _ _ (N.to_nat i) H) as X.
    destruct (nth_error cs (N.to_nat i)) as [c|], (nth_error cs' (N.to_nat i)) as [c'|]; try contradiction; [|apply maps_same].
    destruct X as (_ & _ & T). destruct (c_type c), (c_type c'); try contradiction; [|apply maps_same].
    eapply maps_bind; [apply T|]. intros a. apply maps_same.
  Qed.

  Lemma lower_same_all cx t : lower_rel (lower_flat cx t) (lower_flat cx (rt t)).
  Proof.
    induction t using valtype_ind'.
    all: try (intros v; cbn [rt rename_type lower_flat]; destruct v; apply maps_same).
    - intros v. destruct (layout_same_all t) as (A & Z & _). cbn [rt rename_type lower_flat].
      change (rename_type r t) with (rt t). rewrite A, Z. unfold lower_flat_list.
      eapply maps_bind; [apply store_range_rename, store_same_all|]. intros [p n]. apply maps_same.
    - intros v. change (rt (TRecord fs)) with (TRecord (map (fun e => (rn (fst e), rt (snd e))) fs)).
      cbn [lower_flat]. destruct v; try (apply maps_same). cbn [lower_flat_record rv rename_value].
      apply lower_fields_rename. apply (fields_rel lower_rel (lower_flat cx) (lower_flat cx)). exact H.
    - destruct (layout_same_all (TVariant cs)) as (_ & _ & F). rewrite rt_variant in *. cbn [lower_flat]. rewrite F.
      apply lower_variant_rename, types_rel. exact H.
    - intros v. change (rt (TFlags ls)) with (TFlags (map rn ls)). cbn [lower_flat]. apply maps_lift. rewrite returning_id.
      destruct v; try reflexivity. cbn [rv rename_value lower_flat_flags].
      change (map (fun e => (rename r (fst e), rename_value r (snd e))) m) with (map re m). rewrite pack_rename.
      unfold num_i32_flags. rewrite map_length. reflexivity.
    - rewrite rt_despecialize, !lower_flat_despecialize in IHt. exact IHt.
  Qed.
End Renamed.
