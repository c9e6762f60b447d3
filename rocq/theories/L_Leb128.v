From Coq Require Import NArith ZArith List Bool Lia ZifyBool ZifyNat ZifyN.
From Verif Require Import GoBase M_Leb128 S_Leb128.
Import ListNotations.
Open Scope N_scope.
Ltac Zify.zify_post_hook ::= Z.div_mod_to_equations.

Lemma land127 b : N.land b 127 = b mod 128.
Proof. change 127 with (N.ones 7). rewrite N.land_ones. reflexivity. Qed.

Lemma land128_lt b : b < 128 -> N.land b 128 = 0.
Proof.
  intros H. apply N.bits_inj. intro i. rewrite N.land_spec, N.bits_0.
  change 128 with (2 ^ 7). rewrite N.pow2_bits_eqb.
  destruct (7 =? i) eqn:E; [|apply andb_false_r].
  apply N.eqb_eq in E; subst i. rewrite andb_true_r.
  destruct (N.eq_dec b 0) as [->|Hb]; [apply N.bits_0|].
  apply N.bits_above_log2. apply N.log2_lt_pow2; lia.
Qed.

Lemma land128_ge b : 128 <= b < 256 -> N.land b 128 <> 0.
Proof.
  intros H E.
  assert (T : N.testbit (N.land b 128) 7 = true).
  { rewrite N.land_spec. change 128 with (2 ^ 7). rewrite N.pow2_bits_true, andb_true_r.
    rewrite N.testbit_true. change (2^7) with 128. lia. }
  rewrite E, N.bits_0 in T. discriminate.
Qed.

Lemma lor128 b : b < 128 -> N.lor b 128 = b + 128.
Proof.
  intros H. rewrite <- N.lxor_lor by (now apply land128_lt).
  symmetry. apply N.add_nocarry_lxor. now apply land128_lt.
Qed.

Lemma shiftl_disjoint v g s : v < 2 ^ s -> N.land v (N.shiftl g s) = 0.
Proof.
  intros H. apply N.bits_inj. intro i. rewrite N.land_spec, N.bits_0.
  destruct (N.lt_ge_cases i s).
  - rewrite N.shiftl_spec_low by assumption. apply andb_false_r.
  - destruct (N.eq_dec v 0) as [->|Hv]; [now rewrite N.bits_0|].
    rewrite N.bits_above_log2; [reflexivity|].
    apply N.lt_le_trans with s; [|assumption]. apply N.log2_lt_pow2; lia.
Qed.

Lemma lor_shiftl_add v g s : v < 2 ^ s -> N.lor v (N.shiftl g s) = v + g * 2 ^ s.
Proof.
  intros H. rewrite <- N.lxor_lor by (now apply shiftl_disjoint).
  rewrite <- N.add_nocarry_lxor by (now apply shiftl_disjoint).
  now rewrite N.shiftl_mul_pow2.
Qed.

Lemma u32_lor a b : N.lor (u32 a) (u32 b) = u32 (N.lor a b).
Proof.
  unfold u32. change two32 with (2 ^ 32). rewrite <- !N.land_ones.
  symmetry. apply N.land_lor_distr_l.
Qed.

Lemma leb_step v b s :
  v < 2 ^ s -> N.lor (u32 v) (leb_group b s) = u32 (v + b mod 128 * 2 ^ s).
Proof.
  intros H. unfold leb_group. rewrite u32_lor, land127, lor_shiftl_add by assumption. reflexivity.
Qed.

Lemma leb_bound v b s : v < 2 ^ s -> v + b mod 128 * 2 ^ s < 2 ^ (s + 7).
Proof.
  intros H. rewrite N.pow_add_r. change (2 ^ 7) with 128.
  assert (b mod 128 <= 127) by lia. nia.
Qed.

Lemma pow_step s : 2 ^ (s + 7) = 128 * 2 ^ s.
Proof. rewrite N.pow_add_r. change (2^7) with 128. lia. Qed.

Lemma decode_slice_form bs : leb_form bs -> forall v s n rest,
  v < 2 ^ s ->
  leb_decode_slice_aux (u32 v) s n (bs ++ rest) =
  (u32 (v + leb_value bs * 2 ^ s), n + N.of_nat (length bs)).
Proof.
  induction 1 as [b Hb|b bs Hb _ IH]; intros v s n rest Hv; cbn [app leb_decode_slice_aux leb_value length].
  - rewrite leb_step by assumption. rewrite (land128_lt _ Hb), N.eqb_refl.
    apply (f_equal2 pair); [apply f_equal; nia|lia].
  - rewrite leb_step by assumption.
    destruct (N.eqb_spec (N.land b 128) 0) as [E|_]; [exfalso; now apply (land128_ge b)|].
    rewrite IH by (now apply leb_bound). rewrite pow_step.
    apply (f_equal2 pair); [apply f_equal|lia].
    generalize (leb_value bs) as x; generalize (2 ^ s) as p; generalize (b mod 128) as y; intros; ring.
Qed.

Lemma decode_reader_form bs : leb_form bs -> forall v s n rest,
  v < 2 ^ s ->
  leb_decode_reader_aux (u32 v) s n (bs ++ rest) =
  Ok (u32 (v + leb_value bs * 2 ^ s), n + N.of_nat (length bs), rest).
Proof.
  induction 1 as [b Hb|b bs Hb _ IH]; intros v s n rest Hv; cbn [app leb_decode_reader_aux leb_value length].
  - rewrite leb_step by assumption. rewrite (land128_lt _ Hb), N.eqb_refl.
    apply f_equal. apply (f_equal2 pair); [|reflexivity]. apply (f_equal2 pair); [apply f_equal; nia|lia].
  - rewrite leb_step by assumption.
    destruct (N.eqb_spec (N.land b 128) 0) as [E|_]; [exfalso; now apply (land128_ge b)|].
    rewrite IH by (now apply leb_bound). rewrite pow_step.
    apply f_equal. apply (f_equal2 pair); [|reflexivity]. apply (f_equal2 pair); [apply f_equal|lia].
    generalize (leb_value bs) as x; generalize (2 ^ s) as p; generalize (b mod 128) as y; intros; ring.
Qed.

Lemma decode_form bs : leb_form bs -> forall v s n rest,
  v < 2 ^ s ->
  leb_decode_aux (u32 v) s n (bs ++ rest) =
  Ok (u32 (v + leb_value bs * 2 ^ s), n + N.of_nat (length bs), rest).
Proof.
  induction 1 as [b Hb|b bs Hb _ IH]; intros v s n rest Hv; cbn [app leb_decode_aux leb_value length].
  - rewrite leb_step by assumption. rewrite (land128_lt _ Hb), N.eqb_refl.
    apply f_equal. apply (f_equal2 pair); [|reflexivity]. apply (f_equal2 pair); [apply f_equal; nia|lia].
  - rewrite leb_step by assumption.
    destruct (N.eqb_spec (N.land b 128) 0) as [E|_]; [exfalso; now apply (land128_ge b)|].
    rewrite IH by (now apply leb_bound). rewrite pow_step.
    apply f_equal. apply (f_equal2 pair); [|reflexivity]. apply (f_equal2 pair); [apply f_equal|lia].
    generalize (leb_value bs) as x; generalize (2 ^ s) as p; generalize (b mod 128) as y; intros; ring.
Qed.

Lemma decode_value bs rest : leb_form bs ->
  leb_decode_slice (bs ++ rest) = Ok (leb_value bs mod 2 ^ 32, N.of_nat (length bs)) /\
  leb_decode_reader (bs ++ rest) = Ok (leb_value bs mod 2 ^ 32, N.of_nat (length bs), rest) /\
  leb_decode (bs ++ rest) = Ok (leb_value bs mod 2 ^ 32, N.of_nat (length bs), rest).
Proof.
  intros H. unfold leb_decode_slice, leb_decode_reader, leb_decode.
  pose proof (decode_slice_form _ H 0 0 0 rest ltac:(cbn; lia)) as A.
  pose proof (decode_reader_form _ H 0 0 0 rest ltac:(cbn; lia)) as B.
  pose proof (decode_form _ H 0 0 0 rest ltac:(cbn; lia)) as C.
  change (u32 0) with 0 in *. rewrite A, B, C.
  rewrite N.pow_0_r, N.mul_1_r, !N.add_0_l. auto.
Qed.

(** Encoder *)
Lemma encode_aux_form fuel : forall v, v < 128 ^ N.of_nat (S fuel) ->
  leb_form (leb_encode_aux (S fuel) v) /\ leb_value (leb_encode_aux (S fuel) v) = v.
Proof.
  induction fuel as [|f IH]; intros v Hv.
  - cbn [leb_encode_aux]. rewrite N.shiftr_div_pow2. change (2^7) with 128.
    change (128 ^ N.of_nat 1) with 128 in Hv.
    destruct (N.eqb_spec (v / 128) 0) as [E|E].
    + rewrite land127. split; [constructor; unfold last_byte; lia|cbn; lia].
    + exfalso. apply E. apply N.div_small. exact Hv.
  - change (leb_encode_aux (S (S f)) v) with
      (let b := N.land v 127 in let v' := N.shiftr v 7 in
       if v' =? 0 then [b] else N.lor b 128 :: leb_encode_aux (S f) v').
    cbv zeta. rewrite N.shiftr_div_pow2. change (2^7) with 128. rewrite land127.
    destruct (N.eqb_spec (v / 128) 0) as [E|E].
    + split; [constructor; unfold last_byte; lia|cbn; lia].
    + assert (B : v / 128 < 128 ^ N.of_nat (S f)).
      { apply N.div_lt_upper_bound; [lia|].
        replace (128 * 128 ^ N.of_nat (S f)) with (128 ^ N.of_nat (S (S f))); [exact Hv|].
        rewrite (Nnat.Nat2N.inj_succ (S f)), N.pow_succ_r'. reflexivity. }
      destruct (IH _ B) as [F V].
      rewrite lor128 by lia.
      split.
      * constructor; [unfold more_byte; lia|exact F].
      * cbn [leb_value]. rewrite V. lia.
Qed.

Lemma encode_form v : v < 2 ^ 32 -> leb_form (leb_encode v) /\ leb_value (leb_encode v) = v.
Proof. intros H. apply encode_aux_form. change (128 ^ N.of_nat 5) with (2 ^ 35).
  apply N.lt_trans with (2^32); [exact H|reflexivity]. Qed.

(** More fuel changes nothing: the model's loop is not cut short. *)
Lemma leb_encode_fuel f : forall v k, v < 128 ^ N.of_nat (S f) ->
  leb_encode_aux (S f + k) v = leb_encode_aux (S f) v.
Proof.
  induction f as [|f IH]; intros v k Hv.
  - cbn [leb_encode_aux Nat.add]. rewrite N.shiftr_div_pow2. change (2^7) with 128.
    change (128 ^ N.of_nat 1) with 128 in Hv. now rewrite N.div_small.
  - change (leb_encode_aux (S (S f) + k) v) with
      (let b := N.land v 127 in let v' := N.shiftr v 7 in
       if v' =? 0 then [b] else N.lor b 128 :: leb_encode_aux (S f + k) v').
    change (leb_encode_aux (S (S f)) v) with
      (let b := N.land v 127 in let v' := N.shiftr v 7 in
       if v' =? 0 then [b] else N.lor b 128 :: leb_encode_aux (S f) v').
    cbv zeta. rewrite N.shiftr_div_pow2. change (2^7) with 128.
    destruct (N.eqb_spec (v / 128) 0) as [E|E]; [reflexivity|]. f_equal. apply IH.
    apply N.div_lt_upper_bound; [lia|].
    replace (128 * 128 ^ N.of_nat (S f)) with (128 ^ N.of_nat (S (S f))); [exact Hv|].
    rewrite (Nnat.Nat2N.inj_succ (S f)), N.pow_succ_r'. reflexivity.
Qed.

Lemma leb_round_trip v rest : v < 2 ^ 32 ->
  leb_decode_slice (leb_encode v ++ rest) = Ok (v, N.of_nat (length (leb_encode v))) /\
  leb_decode_reader (leb_encode v ++ rest) = Ok (v, N.of_nat (length (leb_encode v)), rest) /\
  leb_decode (leb_encode v ++ rest) = Ok (v, N.of_nat (length (leb_encode v)), rest).
Proof.
  intros H. destruct (encode_form v H) as [F V].
  destruct (decode_value _ rest F) as (A & B & C).
  rewrite V, (N.mod_small v) in * by exact H. auto.
Qed.

(** Minimality *)
Lemma leb_value_bound bs : leb_value bs < 128 ^ N.of_nat (length bs).
Proof.
  induction bs as [|b bs IH]; [reflexivity|].
  cbn [leb_value length]. rewrite Nnat.Nat2N.inj_succ, N.pow_succ_r'. lia.
Qed.

Lemma encode_aux_len fuel : forall v n, leb_form (leb_encode_aux fuel v) -> v < 128 ^ N.of_nat (S n) ->
  (length (leb_encode_aux fuel v) <= S n)%nat.
Proof.
  induction fuel as [|f IH]; intros v n F Hv; [cbn; lia|].
  cbn [leb_encode_aux] in *. rewrite N.shiftr_div_pow2 in *. change (2^7) with 128 in *.
  destruct (N.eqb_spec (v / 128) 0) as [E|E]; [cbn; lia|].
  cbn [length].
  destruct n as [|n].
  { exfalso. apply E. apply N.div_small. exact Hv. }
  apply le_n_S. apply IH.
  - inversion F; subst.
    + destruct f; cbn in *; [|].
      * exfalso. match goal with [ H : last_byte _ |- _ ] => unfold last_byte in H;
          rewrite land127, lor128 in H by lia; lia end.
      * destruct (_ =? 0) in *; discriminate.
    + assumption.
  - apply N.div_lt_upper_bound; [lia|].
    replace (128 * 128 ^ N.of_nat (S n)) with (128 ^ N.of_nat (S (S n))); [exact Hv|].
    rewrite (Nnat.Nat2N.inj_succ (S n)), N.pow_succ_r'. reflexivity.
Qed.

Lemma leb_form_nonempty bs : leb_form bs -> exists n, length bs = S n.
Proof. destruct 1; cbn; eauto. Qed.

Lemma encode_minimal v bs : v < 2 ^ 32 -> leb_form bs -> leb_value bs = v ->
  (length (leb_encode v) <= length bs)%nat.
Proof.
  intros H F V. destruct (leb_form_nonempty _ F) as [n En]. rewrite En.
  apply encode_aux_len; [apply encode_form; exact H|].
  rewrite <- V, <- En. apply leb_value_bound.
Qed.

Lemma encode_length v : v < 2 ^ 32 -> (1 <= length (leb_encode v) <= 5)%nat.
Proof.
  intros H. destruct (encode_form v H) as [F V]. split.
  - destruct (leb_form_nonempty _ F) as [n ->]. lia.
  - apply encode_aux_len; [exact F|]. change (128 ^ N.of_nat 5) with (2 ^ 35).
    apply N.lt_trans with (2^32); [exact H|reflexivity].
Qed.

Lemma encode_prefix_free v w x y : v < 2 ^ 32 -> w < 2 ^ 32 ->
  leb_encode v ++ x = leb_encode w ++ y -> v = w /\ x = y.
Proof.
  intros Hv Hw E.
  destruct (leb_round_trip v x Hv) as (_ & A & _).
  destruct (leb_round_trip w y Hw) as (_ & B & _).
  rewrite E, B in A. now inversion A.
Qed.

(** Truncated input *)
Lemma decode_reader_truncated bs : Forall more_byte bs -> leb_decode_reader bs = Err EOther.
Proof.
  unfold leb_decode_reader. generalize 0 at 1. generalize 0 at 1. generalize 0.
  induction bs as [|b bs IH]; intros n s v H; [reflexivity|].
  inversion H; subst. cbn [leb_decode_reader_aux].
  destruct (N.eqb_spec (N.land b 128) 0) as [E|_]; [exfalso; now apply (land128_ge b)|].
  now apply IH.
Qed.

Lemma decode_truncated bs : Forall more_byte bs -> leb_decode bs = Err EEOF.
Proof.
  unfold leb_decode. generalize 0 at 1. generalize 0 at 1. generalize 0.
  induction bs as [|b bs IH]; intros n s v H; [reflexivity|].
  inversion H; subst. cbn [leb_decode_aux].
  destruct (N.eqb_spec (N.land b 128) 0) as [E|_]; [exfalso; now apply (land128_ge b)|].
  now apply IH.
Qed.

(** Every byte string is an encoding followed by a rest, or has no final byte. *)
Lemma leb_split bs : Forall (fun b => b < 256) bs ->
  (exists e rest, leb_form e /\ bs = e ++ rest) \/ Forall more_byte bs.
Proof.
  induction 1 as [|b bs Hb _ IH]; [right; constructor|].
  destruct (N.lt_ge_cases b 128) as [L|G].
  - left. exists [b], bs. split; [now constructor|reflexivity].
  - destruct IH as [(e & r & F & ->)|A].
    + left. exists (b :: e), r. split; [constructor; [split|]; assumption|reflexivity].
    + right. constructor; [split|]; assumption.
Qed.
