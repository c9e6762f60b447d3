(** Property theorems about arguments passed in groups (C100). *)
From Coq Require Import NArith ZArith String Bool Lia List.
From Verif Require Import GoBase M_Types M_Layout S_Layout L_Layout M_State M_Utf M_Load M_Store M_Flat M_Canon
  S_Utf S_Values S_Memory S_Flat L_Mem L_Flat L_FlatFormat L_Canon L_Groups P_Memory P_Format P_Inside.
Import ListNotations.
Open Scope N_scope.
Open Scope go_scope.

(** ** C100 *)

(** As long as all of them fit the limit on core values, lifting the arguments
    or results of a call is lifting the first ones and then, from the core
    values that are left and with the handles that are left, the others. *)
Theorem lifted_in_groups : forall order cx max ts1 ts2 kss1 kss2 it s vs it' s',
  Forall2 flattens ts1 kss1 -> Forall2 flattens ts2 kss2 ->
  (List.length (List.concat kss1) + List.length (List.concat kss2) <= max)%nat ->
  lift_values order cx max (ts1 ++ ts2) it s = (Ok (vs, it'), s') <->
  exists vs1 vs2 it1 s1, vs = (vs1 ++ vs2)%list /\ List.length vs1 = List.length ts1 /\ List.length vs2 = List.length ts2 /\
    lift_values order cx max ts1 it s = (Ok (vs1, it1), s1) /\
    lift_values order cx max ts2 it1 s1 = (Ok (vs2, it'), s').
Proof.
  intros order cx max ts1 ts2 kss1 kss2 it s vs it' s' H1 H2 L.
  rewrite (lift_values_each order cx max (ts1 ++ ts2) (kss1 ++ kss2)) by
    (try (apply Forall2_app; assumption); rewrite concat_app, app_length; exact L).
  rewrite (lift_values_each order cx max ts1 kss1) by (assumption || lia). rewrite map_app, lift_each_app. split.
  - intros (vs1 & vs2 & it1 & s1 & -> & E1 & E2). exists vs1, vs2, it1, s1. split; [reflexivity|].
    rewrite (lift_values_each order cx max ts2 kss2) by (assumption || lia).
    split; [apply lift_each_length in E1; rewrite map_length in E1; exact E1|].
    split; [apply lift_each_length in E2; rewrite map_length in E2; exact E2|]. split; assumption.
  - intros (vs1 & vs2 & it1 & s1 & -> & _ & _ & E1 & E2). exists vs1, vs2, it1, s1.
    rewrite (lift_values_each order cx max ts2 kss2) in E2 by (assumption || lia). auto.
Qed.
Print Assumptions lifted_in_groups.

(** Lowering is the same: the core values are those of the first ones followed
    by those of the others, which are lowered after them. *)
Theorem lowered_in_groups : forall cx max vs1 vs2 ts1 ts2 kss1 kss2 out s r s',
  Forall2 flattens ts1 kss1 -> Forall2 flattens ts2 kss2 ->
  (List.length (List.concat kss1) + List.length (List.concat kss2) <= max)%nat -> List.length vs1 = List.length ts1 ->
  lower_values cx max (vs1 ++ vs2) (ts1 ++ ts2) out s = (Ok r, s') <->
  exists r1 r2 s1, r = (r1 ++ r2)%list /\
    lower_values cx max vs1 ts1 out s = (Ok r1, s1) /\ lower_values cx max vs2 ts2 out s1 = (Ok r2, s').
Proof.
  intros cx max vs1 vs2 ts1 ts2 kss1 kss2 out s r s' H1 H2 L Lv.
  rewrite (lower_values_each cx max _ (ts1 ++ ts2) (kss1 ++ kss2)) by
    (try (apply Forall2_app; assumption); rewrite concat_app, app_length; exact L).
  rewrite (lower_values_each cx max vs1 ts1 kss1) by (assumption || lia). rewrite map_app. unfold bind, ret. split.
  - intros E. destruct (lower_each _ (vs1 ++ vs2) s) as [[x|e| |] s2] eqn:Ex; try discriminate. injection E as <- <-.
    apply lower_each_app in Ex; [|rewrite map_length; exact Lv]. destruct Ex as (r1 & r2 & s1 & -> & E1 & E2).
    exists (map VCore r1), (map VCore r2), s1. rewrite (lower_values_each cx max vs2 ts2 kss2) by (assumption || lia).
    rewrite map_app, E1. unfold bind, ret. rewrite E2. auto.
  - intros (r1 & r2 & s1 & -> & E1 & E2). rewrite (lower_values_each cx max vs2 ts2 kss2) in E2 by (assumption || lia).
    destruct (lower_each _ vs1 s) as [[x|e| |] s2] eqn:Ex; try discriminate. injection E1 as <- <-.
    unfold bind, ret in E2. destruct (lower_each _ vs2 s2) as [[y|e| |] s3] eqn:Ey; try discriminate. injection E2 as <- <-.
    assert (X : lower_each (map (lower_flat cx) ts1 ++ map (lower_flat cx) ts2) (vs1 ++ vs2) s = (Ok (x ++ y)%list, s3)).
    { apply lower_each_app; [rewrite map_length; exact Lv|]. exists x, y, s2. auto. }
    rewrite X, map_app. reflexivity.
Qed.
Print Assumptions lowered_in_groups.

(** A single value within the limit is passed as LiftFlat and LowerFlat say. *)
Theorem single_value : forall order cx max t ks v out it it' s s' r,
  flattens t ks -> (List.length ks <= max)%nat ->
  (lift_values order cx max [t] it s = (Ok ([v], it'), s') <-> lift_flat cx t it s = (Ok (v, it'), s')) /\
  (lower_values cx max [v] [t] out s = (Ok (map VCore r), s') <-> lower_flat cx t v s = (Ok r, s')).
Proof.
  intros order cx max t ks v out it it' s s' r H L.
  assert (H' : Forall2 flattens [t] [ks]) by (constructor; [exact H|constructor]).
  assert (L' : (List.length (List.concat [ks]) <= max)%nat) by (cbn [List.concat]; rewrite app_nil_r; exact L).
  rewrite (lift_values_each order cx max [t] [ks]), (lower_values_each cx max [v] [t] [ks]) by assumption.
  cbn [map lift_each lower_each]. unfold bind, ret. split.
  - destruct (lift_flat cx t it s) as [[[x it1]|e| |] s1]; split; intros E; try discriminate; injection E as -> -> ->; reflexivity.
  - destruct (lower_flat cx t v s) as [[x|e| |] s1]; (split; intros E; try discriminate).
    + injection E as E ->. rewrite app_nil_r in E. f_equal. f_equal.
      clear - E. revert r E. induction x as [|c x IH]; intros [|d r] E; try discriminate; [reflexivity|].
      cbn [map] in E. injection E as -> E. f_equal. apply IH. exact E.
    + injection E as -> ->. rewrite app_nil_r. reflexivity.
Qed.
Print Assumptions single_value.

(** It fails as they fail. *)
Theorem single_value_fails : forall order cx max t ks v out it s s' e,
  flattens t ks -> (List.length ks <= max)%nat ->
  (lift_values order cx max [t] it s = (Err e, s') <-> lift_flat cx t it s = (Err e, s')) /\
  (lift_values order cx max [t] it s = (Panic, s') <-> lift_flat cx t it s = (Panic, s')) /\
  (lower_values cx max [v] [t] out s = (Err e, s') <-> lower_flat cx t v s = (Err e, s')) /\
  (lower_values cx max [v] [t] out s = (Panic, s') <-> lower_flat cx t v s = (Panic, s')).
Proof.
  intros order cx max t ks v out it s s' e H L.
  assert (H' : Forall2 flattens [t] [ks]) by (constructor; [exact H|constructor]).
  assert (L' : (List.length (List.concat [ks]) <= max)%nat) by (cbn [List.concat]; rewrite app_nil_r; exact L).
  rewrite (lift_values_each order cx max [t] [ks]), (lower_values_each cx max [v] [t] [ks]) by assumption.
  cbn [map lift_each lower_each]. unfold bind, ret.
  destruct (lift_flat cx t it s) as [[[x it1]|e1| |] s1], (lower_flat cx t v s) as [[y|e2| |] s2];
    (split; [|split; [|split]]); split; intros E; try discriminate; injection E; intros; subst; reflexivity.
Qed.
Print Assumptions single_value_fails.

(** The hypotheses can be met: a number and a text in memory. *)
Example groups_apply :
  Forall2 flattens [TU8] [[KU32]] /\ Forall2 flattens [TString; TS64] [[KU32; KU32]; [KU64]] /\
  fst (lift_values (fun m => m) (bump_ctx EncUtf8) 16 [TU8; TString; TS64] (IBase [CU32 7; CU32 20; CU32 2; CU64 5] 0) (ins_state []))
  = Ok ([VU8 7; VStr [0x68; 0x69]; VS64 5], IBase [CU32 7; CU32 20; CU32 2; CU64 5] 4) /\
  fst (lift_values (fun m => m) (bump_ctx EncUtf8) 16 [TString; TS64] (IBase [CU32 7; CU32 20; CU32 2; CU64 5] 1) (ins_state []))
  = Ok ([VStr [0x68; 0x69]; VS64 5], IBase [CU32 7; CU32 20; CU32 2; CU64 5] 4) /\
  fst (lower_values (bump_ctx EncUtf8) 16 [VU8 7; VS64 5] [TU8; TS64] None (ins_state []))
  = Ok [VCore (CU32 7); VCore (CU64 5)].
Proof.
  split; [repeat constructor; apply flattens_iff; reflexivity|]. split; [repeat constructor; apply flattens_iff; reflexivity|].
  repeat split; vm_compute; reflexivity.
Qed.

(** Beyond the limit it is different: groups that fit on their own need not fit
    together, and together they are passed as an address. *)
Theorem groups_beyond_limit_refuted :
  ~ (forall cx max vs1 vs2 ts1 ts2 kss1 kss2 out s r1 r2 s1 s',
       Forall2 flattens ts1 kss1 -> Forall2 flattens ts2 kss2 ->
       (List.length (List.concat kss1) <= max)%nat -> (List.length (List.concat kss2) <= max)%nat -> List.length vs1 = List.length ts1 ->
       lower_values cx max vs1 ts1 out s = (Ok r1, s1) -> lower_values cx max vs2 ts2 out s1 = (Ok r2, s') ->
       exists s'', lower_values cx max (vs1 ++ vs2) (ts1 ++ ts2) out s = (Ok (r1 ++ r2)%list, s'')).
Proof.
  intros H.
  destruct (H (bump_ctx EncUtf8) 1%nat [VU32 1] [VU32 2] [TU32] [TU32] [[KU32]] [[KU32]] None (ins_state [])
    [VCore (CU32 1)] [VCore (CU32 2)] (ins_state []) (ins_state [])) as (s'' & E);
    try (repeat constructor; apply flattens_iff; reflexivity); try (cbn; lia); try reflexivity; try (vm_compute; reflexivity).
  vm_compute in E. discriminate E.
Qed.
Print Assumptions groups_beyond_limit_refuted.

(** The number of values is not checked. When there are more of them than
    types, the surplus is an index panic once the others are lowered. *)
Theorem more_values_panic : forall cx max vs v rest ts kss out s r s',
  Forall2 flattens ts kss -> (List.length (List.concat kss) <= max)%nat -> List.length vs = List.length ts ->
  lower_values cx max vs ts out s = (Ok r, s') ->
  lower_values cx max (vs ++ v :: rest) ts out s = (Panic, s').
Proof.
  intros cx max vs v rest ts kss out s r s' H L Lv. rewrite !(lower_values_each cx max _ ts kss) by assumption.
  unfold bind, ret. destruct (lower_each _ vs s) as [[x|e| |] s1] eqn:E; try discriminate. intros X. injection X as _ <-.
  rewrite (lower_each_more _ vs v rest s x s1); [reflexivity|rewrite map_length; exact Lv|exact E].
Qed.
Print Assumptions more_values_panic.

(** When there are fewer, the types that are left are ignored. *)
Theorem fewer_values_unnoticed : forall cx max vs ts1 ts2 kss1 kss2 out s,
  Forall2 flattens ts1 kss1 -> Forall2 flattens ts2 kss2 ->
  (List.length (List.concat kss1) + List.length (List.concat kss2) <= max)%nat -> List.length vs = List.length ts1 ->
  lower_values cx max vs (ts1 ++ ts2) out s = lower_values cx max vs ts1 out s.
Proof.
  intros cx max vs ts1 ts2 kss1 kss2 out s H1 H2 L Lv.
  rewrite (lower_values_each cx max _ (ts1 ++ ts2) (kss1 ++ kss2)) by
    (try (apply Forall2_app; assumption); rewrite concat_app, app_length; exact L).
  rewrite (lower_values_each cx max vs ts1 kss1) by (assumption || lia).
  rewrite map_app. unfold bind. rewrite lower_each_fewer by (rewrite map_length; exact Lv). reflexivity.
Qed.
Print Assumptions fewer_values_unnoticed.

Example wrong_numbers :
  lower_values (bump_ctx EncUtf8) 16 [VU8 7; VS64 5] [TU8] None (ins_state []) = (Panic, ins_state []) /\
  lower_values (bump_ctx EncUtf8) 16 [VU8 7] [TU8; TS64] None (ins_state []) = (Ok [VCore (CU32 7)], ins_state []).
Proof. split; vm_compute; reflexivity. Qed.

(** So that a wrong number of values is an error is refuted. *)
Theorem wrong_number_is_error_refuted :
  ~ (forall cx max vs ts out s, List.length vs <> List.length ts -> exists e s', lower_values cx max vs ts out s = (Err e, s')).
Proof.
  intros H. destruct (H (bump_ctx EncUtf8) 16%nat [VU8 7] [TU8; TS64] None (ins_state [])) as (e & s' & E); [discriminate|].
  vm_compute in E. discriminate E.
Qed.
Print Assumptions wrong_number_is_error_refuted.

(** The first group that fails decides the error, and nothing is done after it. *)
Theorem lift_group_fails : forall order cx max ts1 ts2 kss1 kss2 it s,
  Forall2 flattens ts1 kss1 -> Forall2 flattens ts2 kss2 ->
  (List.length (List.concat kss1) + List.length (List.concat kss2) <= max)%nat ->
  (forall e s', lift_values order cx max ts1 it s = (Err e, s') -> lift_values order cx max (ts1 ++ ts2) it s = (Err e, s')) /\
  (forall s', lift_values order cx max ts1 it s = (Panic, s') -> lift_values order cx max (ts1 ++ ts2) it s = (Panic, s')) /\
  (forall vs it1 s1, lift_values order cx max ts1 it s = (Ok (vs, it1), s1) ->
    (forall e s', lift_values order cx max ts2 it1 s1 = (Err e, s') -> lift_values order cx max (ts1 ++ ts2) it s = (Err e, s')) /\
    (forall s', lift_values order cx max ts2 it1 s1 = (Panic, s') -> lift_values order cx max (ts1 ++ ts2) it s = (Panic, s'))).
Proof.
  intros order cx max ts1 ts2 kss1 kss2 it s H1 H2 L.
  rewrite (lift_values_each order cx max (ts1 ++ ts2) (kss1 ++ kss2)) by
    (try (apply Forall2_app; assumption); rewrite concat_app, app_length; exact L).
  rewrite (lift_values_each order cx max ts1 kss1) by (assumption || lia). rewrite map_app.
  destruct (lift_each_fail (map (lift_flat cx) ts1) (map (lift_flat cx) ts2) it s) as (A & B & C).
  split; [exact A|]. split; [exact B|]. intros vs it1 s1 E. destruct (C _ _ _ E) as [C1 C2].
  rewrite (lift_values_each order cx max ts2 kss2) by (assumption || lia). split; assumption.
Qed.
Print Assumptions lift_group_fails.

Theorem lower_group_fails : forall cx max vs1 vs2 ts1 ts2 kss1 kss2 out s,
  Forall2 flattens ts1 kss1 -> Forall2 flattens ts2 kss2 ->
  (List.length (List.concat kss1) + List.length (List.concat kss2) <= max)%nat -> List.length vs1 = List.length ts1 ->
  (forall e s', lower_values cx max vs1 ts1 out s = (Err e, s') -> lower_values cx max (vs1 ++ vs2) (ts1 ++ ts2) out s = (Err e, s')) /\
  (forall s', lower_values cx max vs1 ts1 out s = (Panic, s') -> lower_values cx max (vs1 ++ vs2) (ts1 ++ ts2) out s = (Panic, s')) /\
  (forall r s1, lower_values cx max vs1 ts1 out s = (Ok r, s1) ->
    (forall e s', lower_values cx max vs2 ts2 out s1 = (Err e, s') -> lower_values cx max (vs1 ++ vs2) (ts1 ++ ts2) out s = (Err e, s')) /\
    (forall s', lower_values cx max vs2 ts2 out s1 = (Panic, s') -> lower_values cx max (vs1 ++ vs2) (ts1 ++ ts2) out s = (Panic, s'))).
Proof.
  intros cx max vs1 vs2 ts1 ts2 kss1 kss2 out s H1 H2 L Lv.
  rewrite (lower_values_each cx max _ (ts1 ++ ts2) (kss1 ++ kss2)) by
    (try (apply Forall2_app; assumption); rewrite concat_app, app_length; exact L).
  rewrite (lower_values_each cx max vs1 ts1 kss1) by (assumption || lia). rewrite map_app.
  destruct (lower_each_fail (map (lower_flat cx) ts1) (map (lower_flat cx) ts2) vs1 vs2 s) as (A & B & C);
    [rewrite map_length; exact Lv|].
  unfold bind, ret. destruct (lower_each (map (lower_flat cx) ts1) vs1 s) as [[x|e0| |] s0].
  - split; [intros; discriminate|]. split; [intros; discriminate|]. intros r s1 E. injection E as _ <-.
    destruct (C _ _ eq_refl) as [C1 C2]. rewrite (lower_values_each cx max vs2 ts2 kss2) by (assumption || lia). unfold bind, ret.
    destruct (lower_each (map (lower_flat cx) ts2) vs2 s0) as [[y|e1| |] s2]; split; intros; try discriminate.
    + rewrite (C1 _ _ eq_refl). assumption.
    + rewrite (C2 _ eq_refl). assumption.
  - split; [intros e s' E; rewrite (A _ _ eq_refl); exact E|]. split; intros; discriminate.
  - split; [intros; discriminate|]. split; [intros s' E; rewrite (B _ eq_refl); exact E|intros; discriminate].
  - split; [intros; discriminate|]. split; intros; discriminate.
Qed.
Print Assumptions lower_group_fails.

(** Both kinds of failure happen: a text outside memory after a number, and a value of another type. *)
Example group_fails :
  fst (lift_values (fun m => m) (bump_ctx EncUtf8) 16 [TU8] (IBase [CU32 7; CU32 0xFFFFFFF0; CU32 2] 0) (ins_state [])) =
    Ok ([VU8 7], IBase [CU32 7; CU32 0xFFFFFFF0; CU32 2] 1) /\
  fst (lift_values (fun m => m) (bump_ctx EncUtf8) 16 [TString] (IBase [CU32 7; CU32 0xFFFFFFF0; CU32 2] 1) (ins_state [])) = Err ETrap /\
  fst (lift_values (fun m => m) (bump_ctx EncUtf8) 16 [TU8; TString] (IBase [CU32 7; CU32 0xFFFFFFF0; CU32 2] 0) (ins_state [])) = Err ETrap /\
  lower_values (bump_ctx EncUtf8) 16 [VS64 5] [TBool] None (ins_state []) = (Err ECast, ins_state []) /\
  lower_values (bump_ctx EncUtf8) 16 [VU8 7; VS64 5] [TU8; TBool] None (ins_state []) = (Err ECast, ins_state []).
Proof. repeat split; vm_compute; reflexivity. Qed.
