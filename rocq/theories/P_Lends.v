(** Lend counts, exactly (C26). *)
From Coq Require Import NArith ZArith List Bool Arith Lia ZifyBool ZifyNat ZifyN.
From Verif Require Import GoBase M_Types M_State M_Canon S_Handles L_Handles S_Lends L_Lends P_Handles.
Import ListNotations.
Open Scope N_scope.
Open Scope go_scope.

(** The lend count of a handle is the number of times calls still in progress
    have borrowed from it. *)
Theorem lend_count_exact : forall insts ops rs s calls k e,
  history insts ops rs s calls -> N.of_nat (made ops) < 2 ^ 32 -> entry s k = Some e ->
  h_lend e = Z.of_nat (loans_out k calls (combine ops rs)).
Proof.
  intros insts ops rs s calls k e H Hn He. rewrite entry_slot in He. destruct (slot (s_world s) k) as [id|] eqn:Es; [|discriminate].
  injection He as <-. eapply lend_is_loans; eassumption.
Qed.
Print Assumptions lend_count_exact.

Lemma combine_pairs : forall {A B} (evs : list (A * B)), combine (map fst evs) (map snd evs) = evs.
Proof. intros A B evs. induction evs as [|[a b] evs IH]; cbn; [reflexivity|]. rewrite IH. reflexivity. Qed.
Lemma combine_app_eq : forall {A B} (l1 l2 : list A) (m1 m2 : list B), List.length l1 = List.length m1 -> combine (l1 ++ l2) (m1 ++ m2) = (combine l1 m1 ++ combine l2 m2)%list.
Proof. intros A B l1. induction l1; intros l2 [|b m1] m2 H; try discriminate; cbn; [reflexivity|]. rewrite IHl1 by (cbn in H; lia). reflexivity. Qed.

(** Whatever happens, once the calls that began since have exited, and if the
    older ones have not borrowed from it again, the lend count is what it was. *)
Theorem lend_count_returns : forall insts ops rs s calls evs s' k e e',
  history insts ops rs s calls -> after insts s calls evs s' calls -> N.of_nat (made ops + made (map fst evs)) < 2 ^ 32 ->
  entry s k = Some e -> entry s' k = Some e' ->
  (forall o r c, In (o, r) evs -> In c calls -> ~ borrows c k o r) ->
  h_lend e' = h_lend e.
Proof.
  intros insts ops rs s calls evs s' k e e' H HA Hn He He' Hb.
  pose proof (history_after _ _ _ _ _ _ HA _ _ H) as H'.
  rewrite (lend_count_exact _ _ _ _ _ _ _ H ltac:(lia) He).
  rewrite (lend_count_exact _ _ _ _ _ _ _ H' ltac:(rewrite made_app; lia) He').
  rewrite combine_app_eq by (eapply history_lengths; exact H). rewrite combine_pairs. unfold loans_out. rewrite filter_app, app_length.
  replace (filter (fun e0 => existsb (fun c => borrowed c k e0) calls) evs) with (@nil (op * outcome N)); [cbn [List.length]; lia|].
  symmetry. destruct (filter _ evs) as [|[o r] l] eqn:Ef; [reflexivity|exfalso].
  assert (Hf : In (o, r) (filter (fun e0 => existsb (fun c => borrowed c k e0) calls) evs)) by (rewrite Ef; left; reflexivity).
  apply filter_In in Hf. destruct Hf as [Hf Hx]. apply existsb_exists in Hx. destruct Hx as (c & Hc & Hx). apply borrowed_borrows in Hx. eapply Hb; eassumption.
Qed.
Print Assumptions lend_count_returns.

(** Two calls borrow three times from one handle, and one of them exits. *)
Definition borrowing : list op :=
  [OpNew 1 file 42; OpEnter no_options 1; OpLiftBorrow (ctx1 0) file 0; OpLiftBorrow (ctx1 0) file 0; OpEnter no_options 1; OpLiftBorrow (ctx1 1) file 0].
Example borrowing_history :
  history 2 borrowing (fst (play borrowing two_instances)) (snd (play borrowing two_instances)) [1%nat; 0%nat].
Proof.
  replace [1%nat; 0%nat] with (calls_of borrowing (fst (play borrowing two_instances)) []) by (vm_compute; reflexivity). apply play_two. proper_two.
Qed.
Example borrowing_counts :
  option_map h_lend (entry (snd (play borrowing two_instances)) (1%nat, 7, 0)) = Some 3%Z /\
  loans_out (1%nat, 7, 0) [1%nat; 0%nat] (combine borrowing (fst (play borrowing two_instances))) = 3%nat /\
  loans_out (1%nat, 7, 0) [0%nat] (combine borrowing (fst (play borrowing two_instances))) = 2%nat /\
  option_map h_lend (entry (snd (exit_call 1 (snd (play borrowing two_instances)))) (1%nat, 7, 0)) = Some 2%Z.
Proof. vm_compute. auto. Qed.
(** From before the second call to after it. *)
Example borrowing_returns : let s := snd (play (firstn 4 borrowing) two_instances) in
  let s1 := snd (run (OpEnter no_options 1) s) in let s2 := snd (run (OpLiftBorrow (ctx1 1) file 0) s1) in let s' := snd (run (OpExit 1) s2) in
  after 2 s [0%nat] [(OpEnter no_options 1, Ok 1); (OpLiftBorrow (ctx1 1) file 0, Ok 42); (OpExit 1, Ok 0)] s' [0%nat] /\
  option_map h_lend (entry s (1%nat, 7, 0)) = Some 2%Z /\ option_map h_lend (entry s' (1%nat, 7, 0)) = Some 2%Z.
Proof.
  intros s s1 s2 s'. split.
  - refine (af_step 2 s [0%nat] [(OpEnter no_options 1, Ok 1); (OpLiftBorrow (ctx1 1) file 0, Ok 42)] s2 [1%nat; 0%nat] (OpExit 1) (Ok 0) s' _ _ _); [|cbn; auto|vm_compute; reflexivity].
    refine (af_step 2 s [0%nat] [(OpEnter no_options 1, Ok 1)] s1 [1%nat; 0%nat] (OpLiftBorrow (ctx1 1) file 0) (Ok 42) s2 _ _ _); [|cbn; auto|vm_compute; reflexivity].
    refine (af_step 2 s [0%nat] [] s [0%nat] (OpEnter no_options 1) (Ok 1) s1 _ _ _); [constructor|cbn; auto|vm_compute; reflexivity].
  - vm_compute. auto.
Qed.
