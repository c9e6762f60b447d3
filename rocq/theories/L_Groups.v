(** Proofs: arguments are passed one after the other. *)
From Coq Require Import NArith ZArith String Bool Lia List.
From Verif Require Import GoBase M_Types M_Layout S_Layout L_Layout M_State M_Utf M_Load M_Store M_Flat M_Canon
  S_Utf S_Values S_Memory S_Flat L_Mem L_Flat L_Canon.
Import ListNotations.
Open Scope N_scope.
Open Scope go_scope.

Lemma lift_each_length fs : forall it s vs it' s', lift_each fs it s = (Ok (vs, it'), s') -> List.length vs = List.length fs.
Proof.
  induction fs as [|f fs IH]; intros it s vs it' s' E; cbn [lift_each] in E; [injection E as <- _ _; reflexivity|].
  unfold bind at 1 in E. destruct (f it s) as [[[v it1]|e| |] s1]; try discriminate.
  unfold bind in E. destruct (lift_each fs it1 s1) as [[[ws it2]|e| |] s2] eqn:E2; try discriminate.
  injection E as <- _ _. cbn [List.length]. f_equal. eapply IH. exact E2.
Qed.

Lemma lift_each_app fs1 fs2 : forall it s vs it' s', lift_each (fs1 ++ fs2) it s = (Ok (vs, it'), s') <->
  exists vs1 vs2 it1 s1, vs = (vs1 ++ vs2)%list /\ lift_each fs1 it s = (Ok (vs1, it1), s1) /\ lift_each fs2 it1 s1 = (Ok (vs2, it'), s').
Proof.
  induction fs1 as [|f fs1 IH]; intros it s vs it' s'; cbn [app lift_each].
  - split; [intros E; exists [], vs, it, s; auto|]. intros (vs1 & vs2 & it1 & s1 & -> & E & E2). injection E as <- <- <-. exact E2.
  - unfold bind. destruct (f it s) as [[[v it0]|e| |] s0];
      [|split; [discriminate|intros (vs1 & vs2 & it1 & s1 & _ & E & _); discriminate]..]. split.
    + intros E. destruct (lift_each (fs1 ++ fs2) it0 s0) as [[[ws it2]|e| |] s2] eqn:Ew; try discriminate. injection E as <- <- <-.
      apply IH in Ew. destruct Ew as (vs1 & vs2 & it1 & s1 & -> & E1 & E2). exists (v :: vs1), vs2, it1, s1. rewrite E1. auto.
    + intros (vs1 & vs2 & it1 & s1 & -> & E1 & E2). destruct (lift_each fs1 it0 s0) as [[[ws it2]|e| |] s2] eqn:Ew; try discriminate.
      injection E1 as <- <- <-. assert (X : lift_each (fs1 ++ fs2) it0 s0 = (Ok ((ws ++ vs2)%list, it'), s')) by (apply IH; exists ws, vs2, it2, s2; auto).
      rewrite X. reflexivity.
Qed.

Lemma lower_each_app fs1 fs2 : forall vs1 vs2 s r s', List.length vs1 = List.length fs1 ->
  lower_each (fs1 ++ fs2) (vs1 ++ vs2) s = (Ok r, s') <->
  exists r1 r2 s1, r = (r1 ++ r2)%list /\ lower_each fs1 vs1 s = (Ok r1, s1) /\ lower_each fs2 vs2 s1 = (Ok r2, s').
Proof.
  induction fs1 as [|f fs1 IH]; intros [|v vs1] vs2 s r s' L; try discriminate; cbn [app lower_each].
  - split; [intros E; exists [], r, s; auto|]. intros (r1 & r2 & s1 & -> & E & E2). injection E as <- <-. exact E2.
  - unfold bind. destruct (f v s) as [[a|e| |] s0];
      [|split; [discriminate|intros (r1 & r2 & s1 & _ & E & _); discriminate]..]. injection L as L. split.
    + intros E. destruct (lower_each (fs1 ++ fs2) (vs1 ++ vs2) s0) as [[b|e| |] s2] eqn:Ew; try discriminate. injection E as <- <-.
      apply IH in Ew; [|exact L]. destruct Ew as (r1 & r2 & s1 & -> & E1 & E2). exists (a ++ r1)%list, r2, s1. rewrite E1, app_assoc. auto.
    + intros (r1 & r2 & s1 & -> & E1 & E2). destruct (lower_each fs1 vs1 s0) as [[b|e| |] s2] eqn:Ew; try discriminate.
      injection E1 as <- <-.
      assert (X : lower_each (fs1 ++ fs2) (vs1 ++ vs2) s0 = (Ok (b ++ r2)%list, s')) by (apply IH; [exact L|]; exists b, r2, s2; auto).
      rewrite X. unfold ret. rewrite app_assoc. reflexivity.
Qed.

Lemma lift_values_each order cx max ts kss it s : Forall2 flattens ts kss -> (List.length (List.concat kss) <= max)%nat ->
  lift_values order cx max ts it s = lift_each (map (lift_flat cx) ts) it s.
Proof.
  intros H L. unfold lift_values. destruct (flatten_types_ok _ _ H) as [_ ->]. apply Nat.leb_le in L.
  unfold bind at 1. cbn [lift_o]. rewrite L. reflexivity.
Qed.
Lemma lower_values_each cx max vs ts kss out s : Forall2 flattens ts kss -> (List.length (List.concat kss) <= max)%nat ->
  lower_values cx max vs ts out s = (let* r := lower_each (map (lower_flat cx) ts) vs in ret (map VCore r)) s.
Proof.
  intros H L. unfold lower_values. destruct (flatten_types_ok _ _ H) as [_ ->]. apply Nat.leb_le in L.
  unfold bind at 1. cbn [lift_o]. rewrite L. reflexivity.
Qed.

Lemma lower_each_more fs : forall vs1 v vs2 s r s', List.length vs1 = List.length fs ->
  lower_each fs vs1 s = (Ok r, s') -> lower_each fs (vs1 ++ v :: vs2) s = (Panic, s').
Proof.
  induction fs as [|f fs IH]; intros [|w vs1] v vs2 s r s' L E; try discriminate; cbn [app lower_each] in *.
  - injection E as _ <-. reflexivity.
  - unfold bind in *. destruct (f w s) as [[a|e| |] s0]; try discriminate. injection L as L.
    destruct (lower_each fs vs1 s0) as [[b|e| |] s2] eqn:Ew; try discriminate. injection E as _ <-.
    rewrite (IH _ v vs2 _ _ _ L Ew). reflexivity.
Qed.

Lemma lower_each_fewer fs1 fs2 : forall vs s, List.length vs = List.length fs1 -> lower_each (fs1 ++ fs2) vs s = lower_each fs1 vs s.
Proof.
  induction fs1 as [|f fs1 IH]; intros [|v vs] s L; try discriminate; cbn [app lower_each]; [destruct fs2; reflexivity|].
  unfold bind. destruct (f v s) as [[a|e| |] s0]; try reflexivity. injection L as L. rewrite (IH _ _ L). reflexivity.
Qed.

Lemma lift_each_fail fs1 fs2 : forall it s,
  (forall e s', lift_each fs1 it s = (Err e, s') -> lift_each (fs1 ++ fs2) it s = (Err e, s')) /\
  (forall s', lift_each fs1 it s = (Panic, s') -> lift_each (fs1 ++ fs2) it s = (Panic, s')) /\
  (forall vs it1 s1, lift_each fs1 it s = (Ok (vs, it1), s1) ->
    (forall e s', lift_each fs2 it1 s1 = (Err e, s') -> lift_each (fs1 ++ fs2) it s = (Err e, s')) /\
    (forall s', lift_each fs2 it1 s1 = (Panic, s') -> lift_each (fs1 ++ fs2) it s = (Panic, s'))).
Proof.
  induction fs1 as [|f fs1 IH]; intros it s; cbn [app lift_each].
  - split; [intros e s' E; discriminate|]. split; [intros s' E; discriminate|]. intros vs it1 s1 E. injection E as _ <- <-. auto.
  - unfold bind. destruct (f it s) as [[[v it0]|e0| |] s0];
      [|split; [auto|split; [auto|intros vs it1 s1 E; discriminate]]..].
    destruct (IH it0 s0) as (A & B & C). destruct (lift_each fs1 it0 s0) as [[[ws it2]|e0| |] s2].
    + split; [intros e s' E; discriminate|]. split; [intros s' E; discriminate|]. intros vs it1 s1 E. injection E as _ <- <-.
      destruct (C _ _ _ eq_refl) as [C1 C2]. split; [intros e s' E; rewrite (C1 _ _ E)|intros s' E; rewrite (C2 _ E)]; reflexivity.
    + split; [intros e s' E; injection E as <- <-; rewrite (A _ _ eq_refl); reflexivity|]. split; intros; discriminate.
    + split; [intros; discriminate|]. split; [intros s' E; injection E as <-; rewrite (B _ eq_refl); reflexivity|intros; discriminate].
    + split; [intros; discriminate|]. split; intros; discriminate.
Qed.

Lemma lower_each_fail fs1 fs2 : forall vs1 vs2 s, List.length vs1 = List.length fs1 ->
  (forall e s', lower_each fs1 vs1 s = (Err e, s') -> lower_each (fs1 ++ fs2) (vs1 ++ vs2) s = (Err e, s')) /\
  (forall s', lower_each fs1 vs1 s = (Panic, s') -> lower_each (fs1 ++ fs2) (vs1 ++ vs2) s = (Panic, s')) /\
  (forall r s1, lower_each fs1 vs1 s = (Ok r, s1) ->
    (forall e s', lower_each fs2 vs2 s1 = (Err e, s') -> lower_each (fs1 ++ fs2) (vs1 ++ vs2) s = (Err e, s')) /\
    (forall s', lower_each fs2 vs2 s1 = (Panic, s') -> lower_each (fs1 ++ fs2) (vs1 ++ vs2) s = (Panic, s'))).
Proof.
  induction fs1 as [|f fs1 IH]; intros [|v vs1] vs2 s L; try discriminate; cbn [app lower_each].
  - split; [intros e s' E; discriminate|]. split; [intros s' E; discriminate|]. intros r s1 E. injection E as _ <-. auto.
  - injection L as L. unfold bind. destruct (f v s) as [[a|e0| |] s0];
      [|split; [auto|split; [auto|intros r s1 E; discriminate]]..].
    destruct (IH vs1 vs2 s0 L) as (A & B & C). destruct (lower_each fs1 vs1 s0) as [[b|e0| |] s2].
    + split; [intros e s' E; discriminate|]. split; [intros s' E; discriminate|]. intros r s1 E. injection E as _ <-.
      destruct (C _ _ eq_refl) as [C1 C2]. split; [intros e s' E; rewrite (C1 _ _ E)|intros s' E; rewrite (C2 _ E)]; reflexivity.
    + split; [intros e s' E; injection E as <- <-; rewrite (A _ _ eq_refl); reflexivity|]. split; intros; discriminate.
    + split; [intros; discriminate|]. split; [intros s' E; injection E as <-; rewrite (B _ eq_refl); reflexivity|intros; discriminate].
    + split; [intros; discriminate|]. split; intros; discriminate.
Qed.
