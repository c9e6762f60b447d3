(** Flattened function types. *)
From Coq Require Import NArith Arith List String Bool Lia.
From Verif Require Import GoBase M_Types M_Layout.
Import ListNotations.
Open Scope go_scope.

Lemma flatten_lift_shape : forall ft maxp maxr ps rs,
  flatten_types (map snd (ft_params ft)) = Ok ps ->
  flatten_types (map snd (ft_results ft)) = Ok rs ->
  flatten_func_type_lift ft maxp maxr
  = Ok (if Nat.leb (List.length ps) maxp then ps else [KU32],
        if Nat.leb (List.length rs) maxr then rs else [KU32]).
Proof.
  intros ft maxp maxr ps rs Hp Hr. unfold flatten_func_type_lift, flatten_func_type, param_types, result_types.
  rewrite Hp, Hr. cbn [obind].
  destruct (Nat.ltb_spec maxp (List.length ps)), (Nat.leb_spec (List.length ps) maxp); try lia;
  destruct (Nat.ltb_spec maxr (List.length rs)), (Nat.leb_spec (List.length rs) maxr); try lia; reflexivity.
Qed.

Lemma flatten_lower_shape : forall ft maxp maxr ps rs,
  flatten_types (map snd (ft_params ft)) = Ok ps ->
  flatten_types (map snd (ft_results ft)) = Ok rs ->
  flatten_func_type_lower ft maxp maxr
  = Ok (let p := if Nat.leb (List.length ps) maxp then ps else [KU32] in
        if Nat.leb (List.length rs) maxr then (p, rs) else (p ++ [KU32], []))%list.
Proof.
  intros ft maxp maxr ps rs Hp Hr. unfold flatten_func_type_lower, flatten_func_type, param_types, result_types.
  rewrite Hp, Hr. cbn [obind].
  destruct (Nat.ltb_spec maxp (List.length ps)), (Nat.leb_spec (List.length ps) maxp); try lia;
  destruct (Nat.ltb_spec maxr (List.length rs)), (Nat.leb_spec (List.length rs) maxr); try lia; reflexivity.
Qed.

Lemma flatten_func_ok : forall ft maxp r, flatten_func_type ft maxp = Ok r ->
  exists ps rs, flatten_types (map snd (ft_params ft)) = Ok ps /\
                flatten_types (map snd (ft_results ft)) = Ok rs.
Proof.
  intros ft maxp r H. unfold flatten_func_type, param_types, result_types in H.
  destruct (flatten_types (map snd (ft_params ft))) as [ps| | |]; cbn [obind] in H; try discriminate.
  destruct (flatten_types (map snd (ft_results ft))) as [rs| | |]; cbn [obind] in H; try discriminate.
  eauto.
Qed.

Lemma flatten_lift_limits : forall ft maxp maxr ps rs, (1 <= maxp)%nat -> (1 <= maxr)%nat ->
  flatten_func_type_lift ft maxp maxr = Ok (ps, rs) ->
  (List.length ps <= maxp /\ List.length rs <= maxr)%nat.
Proof.
  intros ft maxp maxr ps rs Hp Hr H.
  assert (F : exists r, flatten_func_type ft maxp = Ok r).
  { unfold flatten_func_type_lift in H. destruct (flatten_func_type ft maxp) eqn:E; try discriminate. eauto. }
  destruct F as [r F]. apply flatten_func_ok in F. destruct F as (ps' & rs' & E1 & E2).
  rewrite (flatten_lift_shape _ _ _ _ _ E1 E2) in H. inversion H; subst.
  destruct (Nat.leb_spec (List.length ps') maxp), (Nat.leb_spec (List.length rs') maxr); cbn [List.length]; lia.
Qed.

Lemma flatten_lower_limits : forall ft maxp maxr ps rs, (1 <= maxp)%nat ->
  flatten_func_type_lower ft maxp maxr = Ok (ps, rs) ->
  (List.length ps <= maxp + 1 /\ List.length rs <= maxr)%nat.
Proof.
  intros ft maxp maxr ps rs Hp H.
  assert (F : exists r, flatten_func_type ft maxp = Ok r).
  { unfold flatten_func_type_lower in H. destruct (flatten_func_type ft maxp) eqn:E; try discriminate. eauto. }
  destruct F as [r F]. apply flatten_func_ok in F. destruct F as (ps' & rs' & E1 & E2).
  rewrite (flatten_lower_shape _ _ _ _ _ E1 E2) in H.
  destruct (Nat.leb_spec (List.length ps') maxp), (Nat.leb_spec (List.length rs') maxr);
    inversion H; subst; rewrite ?app_length; cbn [List.length]; lia.
Qed.
