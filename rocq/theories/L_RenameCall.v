(** Whole calls do not depend on the names in a function's type. *)
From Coq Require Import NArith ZArith String Ascii Bool Lia List.
From Verif Require Import GoBase M_Types M_Layout M_State M_Utf M_Load M_Store M_Flat M_Canon
  S_Values S_Rename L_Rename.
Import ListNotations.
Open Scope N_scope.
Open Scope go_scope.

Section Calls.
  Variable r : string -> string.
  Hypothesis Hr : renaming r.
  Let rt := rename_type r.
  Let rv := rename_value r.
  Let re := fun e : string * any => (rename r (fst e), rename_value r (snd e)).

  Lemma flatten_rename ts : flatten_types (map rt ts) = flatten_types ts.
  Proof.
    unfold flatten_types. f_equal. rewrite map_map. apply map_ext. intros t.
    destruct (layout_same_all r Hr t) as (_ & _ & F). exact F.
  Qed.

  Lemma lower_each_rename cx ts : forall vs,
    maps (fun x => x) (lower_each (map (lower_flat cx) ts) vs) (lower_each (map (lower_flat cx) (map rt ts)) (map rv vs)).
  Proof.
    induction ts as [|t ts IH]; intros [|v vs]; cbn [map lower_each]; try apply maps_same.
    eapply maps_bind; [apply (lower_same_all r Hr cx t v)|]. intros a.
    eapply maps_bind; [apply IH|]. intros b. apply maps_same.
  Qed.

  Lemma lower_values_rename cx n vs ts out :
    maps (fun x => x) (lower_values cx n vs ts out) (lower_values cx n (map rv vs) (map rt ts) out).
  Proof.
    unfold lower_values. rewrite flatten_rename. apply maps_then. intros flat. destruct (Nat.leb _ _).
    - eapply maps_bind; [apply lower_each_rename|]. intros x. apply maps_same.
    - unfold lower_values_to_tuple. change (TTuple (map rt ts)) with (rt (TTuple ts)).
      destruct (layout_same_all r Hr (TTuple ts)) as (A & Z & _). unfold rt. rewrite A, Z. apply maps_same.
  Qed.

  Definition results (x : list any * iter) : list any * iter := (map rv (fst x), snd x).

  Lemma lift_each_rename cx ts : forall it,
    maps results (lift_each (map (lift_flat cx) ts) it) (lift_each (map (lift_flat cx) (map rt ts)) it).
  Proof.
    induction ts as [|t ts IH]; intros it; cbn [map lift_each]; [apply maps_ret; reflexivity|].
    eapply maps_bind; [apply (lift_same_all r Hr cx t)|]. intros [v it']. unfold rvi. cbn [fst snd].
    eapply maps_bind; [apply IH|]. intros [vs it2]. apply maps_ret. reflexivity.
  Qed.

  Lemma lift_values_rename order order' cx n ts it : (forall m, order' (map re m) = map re (order m)) ->
    maps results (lift_values order cx n ts it) (lift_values order' cx n (map rt ts) it).
  Proof.
    intros Ho. unfold lift_values. rewrite flatten_rename. apply maps_then. intros flat.
    destruct (Nat.leb _ _); [apply lift_each_rename|]. apply maps_then. intros [ptr it'].
    change (TTuple (map rt ts)) with (rt (TTuple ts)). destruct (layout_same_all r Hr (TTuple ts)) as (A & Z & _).
    unfold rt. rewrite A, Z. apply maps_then. intros a. apply maps_then. intros _. apply maps_then. intros sz.
    apply maps_then. intros _. eapply maps_bind; [apply (load_same_all r Hr cx (TTuple ts))|].
    intros v. destruct v; cbn [rename_value]; try (apply maps_lift; reflexivity).
    apply maps_ret. unfold results. cbn [fst snd]. f_equal. change (fun e => (rename r (fst e), rename_value r (snd e))) with re.
    rewrite Ho, !map_map. reflexivity.
  Qed.

  Variables (ft ft' : functype).
  Hypothesis Hp : param_types ft' = map rt (param_types ft).
  Hypothesis Hs : result_types ft' = map rt (result_types ft).

  Lemma canon_lift_rename order order' opts inst callee args maxp maxr : (forall m, order' (map re m) = map re (order m)) ->
    maps (fun x => (map rv (fst x), snd x)) (canon_lift order opts inst callee ft args maxp maxr)
      (canon_lift order' opts inst callee ft' (map rv args) maxp maxr).
  Proof.
    intros Ho. unfold canon_lift. rewrite Hp, Hs. apply maps_then. intros w.
    destruct (negb _); [apply maps_lift; reflexivity|]. destruct (negb _); [apply maps_lift; reflexivity|].
    apply maps_then. intros cx. apply maps_then. intros _.
    eapply maps_bind; [apply lower_values_rename|]. intros flat. apply maps_then. intros _. apply maps_then. intros res.
    destruct res; try (apply maps_lift; reflexivity). apply maps_then. intros cvs.
    eapply maps_bind; [apply lift_values_rename, Ho|]. intros [vs it]. apply maps_ret. reflexivity.
  Qed.

  Lemma canon_lower_rename order order' opts inst callee callee' imp args maxp maxr :
    (forall m, order' (map re m) = map re (order m)) ->
    (forall vs, maps (fun x => (map rv (fst x), snd x)) (callee vs) (callee' (map rv vs))) ->
    maps (fun x => x) (canon_lower order opts inst callee imp ft args maxp maxr)
      (canon_lower order' opts inst callee' imp ft' args maxp maxr).
  Proof.
    intros Ho Hc. unfold canon_lower. rewrite Hp, Hs. apply maps_then. intros cx. apply maps_then. intros w.
    destruct (negb _); [apply maps_lift; reflexivity|]. destruct (negb _); [apply maps_lift; reflexivity|].
    apply maps_then. intros cs. eapply maps_bind; [apply lift_values_rename, Ho|]. intros [vs it]. unfold results. cbn [fst snd].
    eapply maps_bind; [apply Hc|]. intros [rs post]. cbn [fst snd]. apply maps_then. intros _.
    eapply maps_bind; [apply lower_values_rename|]. intros flat. apply maps_same.
  Qed.
End Calls.
