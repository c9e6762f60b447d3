(** Property C08, continued: the labels of tuple fields and union cases. *)
From Coq Require Import NArith Ascii String List Bool Lia.
From Verif Require Import GoBase M_Types L_Labels S_Positions.
Import ListNotations.
Open Scope N_scope.

Lemma reads_value : forall s n, reads_after n s = digits_value s n.
Proof. induction s as [|c s IH]; intros n; cbn; [reflexivity|]. rewrite IH. f_equal. lia. Qed.

Lemma digit_ok d : d < 10 -> digit (digit_ascii d).
Proof. intros H. unfold digit, digit_ascii. rewrite N_ascii_embedding by lia. lia. Qed.

Lemma itoa_aux_digits : forall fuel n acc, digits acc -> digits (itoa_aux fuel n acc).
Proof.
  induction fuel as [|fuel IH]; intros n acc H; cbn [itoa_aux]; [exact H|].
  assert (digits (String (digit_ascii (n mod 10)) acc)) by (split; [apply digit_ok, N.mod_lt; lia|exact H]).
  destruct (n / 10 =? 0); auto.
Qed.

Lemma digit_zero d : d < 10 -> digit_ascii d = "0"%char -> d = 0.
Proof.
  intros H E. apply (f_equal N_of_ascii) in E. unfold digit_ascii in E. rewrite N_ascii_embedding in E by lia.
  cbn in E. lia.
Qed.

(** The first digit is zero only if there was nothing but zero to write. *)
Lemma itoa_aux_first : forall fuel n acc, n < 2 ^ N.of_nat fuel -> 0 < n ->
  exists c s, itoa_aux fuel n acc = String c s /\ c <> "0"%char.
Proof.
  induction fuel as [|fuel IH]; intros n acc H Hn; [cbn in H; lia|]. cbn [itoa_aux].
  pose proof (N.div_mod n 10 ltac:(lia)) as D. pose proof (N.mod_lt n 10 ltac:(lia)) as M.
  destruct (N.eqb_spec (n / 10) 0) as [E|E].
  - eexists _, _. split; [reflexivity|]. intros Z. apply digit_zero in Z; lia.
  - apply IH; [|lia]. replace (N.of_nat (S fuel)) with (N.succ (N.of_nat fuel)) in H by lia.
    rewrite N.pow_succ_r' in H. lia.
Qed.

Lemma itoa_decimal n : decimal n (itoa n).
Proof.
  split; [apply itoa_aux_digits; exact I|]. split; [rewrite reads_value; apply itoa_value|].
  destruct (N.eq_dec n 0) as [->|Hn]; [cbn; reflexivity|].
  destruct (itoa_aux_first (S (N.to_nat (N.log2 n))) n EmptyString) as (c & s & E & Hc).
  - replace (N.of_nat (S (N.to_nat (N.log2 n)))) with (N.succ (N.log2 n)) by lia. apply N.log2_spec. lia.
  - lia.
  - unfold itoa. rewrite E. congruence.
Qed.

Lemma enum_from_nth {A} : forall (l : list A) k i p, nth_error (enum_from k l) i = Some p ->
  fst p = k + N.of_nat i /\ nth_error l i = Some (snd p).
Proof.
  induction l as [|x l IH]; intros k [|i] p H; cbn in H; try discriminate.
  - injection H as <-. cbn. split; [lia|reflexivity].
  - apply IH in H. destruct H as [H1 H2]. split; [lia|exact H2].
Qed.

(** A tuple is the record, and a union the variant, of the same types in the
    same order, each labelled with its position in decimal, from zero. *)
Theorem positions_label : forall ts,
  (exists fs, despecialize (TTuple ts) = TRecord fs /\ map snd fs = ts /\
     forall i f, nth_error fs i = Some f -> decimal (N.of_nat i) (fst f)) /\
  (exists cs, despecialize (TUnion ts) = TVariant cs /\ map c_type cs = map Some ts /\
     forall i c, nth_error cs i = Some c -> decimal (N.of_nat i) (c_label c) /\ c_refines c = None).
Proof.
  intros ts. split.
  - exists (itoa_fields ts). split; [reflexivity|]. unfold itoa_fields. split.
    + rewrite map_map. cbn [snd]. generalize 0. induction ts as [|t ts IH]; intros n; cbn; [reflexivity|]. f_equal. apply IH.
    + intros i f H. rewrite nth_error_map in H. destruct (nth_error _ i) as [p|] eqn:E; [|discriminate].
      injection H as <-. apply enum_from_nth in E. destruct E as [E _]. cbn [fst]. rewrite E. apply itoa_decimal.
  - exists (itoa_cases ts). split; [reflexivity|]. unfold itoa_cases. split.
    + rewrite map_map. cbn [c_type]. generalize 0. induction ts as [|t ts IH]; intros n; cbn; [reflexivity|]. f_equal. apply IH.
    + intros i c H. rewrite nth_error_map in H. destruct (nth_error _ i) as [p|] eqn:E; [|discriminate].
      injection H as <-. apply enum_from_nth in E. destruct E as [E _]. cbn [c_label c_refines]. rewrite E.
      split; [apply itoa_decimal|reflexivity].
Qed.

Example positions_label_used :
  despecialize (TTuple (repeat TBool 12)) =
    TRecord (combine ["0"; "1"; "2"; "3"; "4"; "5"; "6"; "7"; "8"; "9"; "10"; "11"]%string (repeat TBool 12)).
Proof. reflexivity. Qed.

Print Assumptions positions_label.
