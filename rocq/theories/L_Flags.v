(** Packing and unpacking flags. *)
From Coq Require Import NArith ZArith List String Bool Lia ZifyBool ZifyNat ZifyN.
From Verif Require Import GoBase M_Types M_Layout M_State M_Load M_Store.
Import ListNotations.
Open Scope N_scope.
Open Scope go_scope.

Lemma map_get_set : forall {A} (m : list (string * A)) k v k',
  map_get (map_set m k v) k' = if String.eqb k' k then Some v else map_get m k'.
Proof.
  intros A m k v k'. induction m as [|[q x] m IH]; cbn [map_set map_get].
  - reflexivity.
  - destruct (String.eqb_spec k q) as [->|Hn]; cbn [map_get].
    + destruct (String.eqb_spec k' q); reflexivity.
    + destruct (String.eqb_spec k' q) as [->|]; [|apply IH].
      destruct (String.eqb_spec q k); [congruence|reflexivity].
Qed.

Definition flag_of (m : list (string * any)) (l : string) (b : bool) : Prop := map_any m l = VBool b.

Lemma shifted_bit : forall (b : bool) shift i, shift < 64 ->
  N.testbit (u64 (N.shiftl (if b then 1 else 0) shift)) i = b && (i =? shift).
Proof.
  intros b shift i H. unfold u64. change two64 with (2 ^ 64).
  assert (E : N.testbit (N.shiftl (if b then 1 else 0) shift) i = b && (i =? shift)).
  { destruct b; cbn [andb].
    - rewrite N.shiftl_1_l, N.pow2_bits_eqb. apply N.eqb_sym.
    - rewrite N.shiftl_0_l. apply N.bits_0. }
  destruct (N.ltb_spec i 64).
  - rewrite N.mod_pow2_bits_low by assumption. exact E.
  - rewrite N.mod_pow2_bits_high by assumption. destruct b; [|reflexivity]. cbn. lia.
Qed.

(** Bit [shift + k] of the packed number is flag number [k]. *)
Lemma pack_bits : forall m ls bs shift acc,
  Forall2 (flag_of m) ls bs -> shift + N.of_nat (List.length ls) <= 64 ->
  (forall i, shift <= i -> N.testbit acc i = false) ->
  exists x, pack_flags m ls shift acc = Ok x /\
    forall i, N.testbit x i = if i <? shift then N.testbit acc i else nth (N.to_nat (i - shift)) bs false.
Proof.
  intros m ls bs shift acc H. revert shift acc. induction H as [|l b ls bs Hl H IH]; intros shift acc Hs Ha.
  - exists acc. split; [reflexivity|]. intros i. destruct (N.ltb_spec i shift); [reflexivity|].
    rewrite Ha by assumption. destruct (N.to_nat (i - shift)); reflexivity.
  - cbn [pack_flags List.length] in *. unfold flag_of in Hl. rewrite Hl.
    destruct (IH (shift + 1) (N.lor acc (u64 (N.shiftl (if b then 1 else 0) shift)))) as (x & Hx & Hb).
    + lia.
    + intros i Hi. rewrite N.lor_spec, shifted_bit, Ha by lia. cbn. destruct b; [|reflexivity]. cbn. lia.
    + exists x. split; [exact Hx|]. intros i. rewrite Hb.
      destruct (N.ltb_spec i (shift + 1)), (N.ltb_spec i shift); try lia.
      * rewrite N.lor_spec, shifted_bit by lia. destruct (N.eqb_spec i shift); [lia|].
        rewrite andb_false_r, orb_false_r. reflexivity.
      * assert (i = shift) by lia. subst i. rewrite N.lor_spec, shifted_bit by lia. rewrite Ha by lia.
        rewrite N.eqb_refl, andb_true_r. rewrite N.sub_diag. reflexivity.
      * replace (N.to_nat (i - shift)) with (S (N.to_nat (i - (shift + 1)))) by lia. reflexivity.
Qed.

Lemma bits_lt : forall x n, (forall i, n <= i -> N.testbit x i = false) -> x < 2 ^ n.
Proof.
  intros x n H. destruct (N.eq_dec x 0) as [->|Hz]; [apply N.neq_0_lt_0; apply N.pow_nonzero; lia|].
  apply N.log2_lt_pow2; [lia|]. destruct (N.lt_ge_cases (N.log2 x) n); [assumption|].
  pose proof (N.bit_log2 x Hz) as B. rewrite H in B by assumption. discriminate.
Qed.

Lemma unpack_other : forall ls i acc l, ~ In l ls -> map_get (unpack_flags i ls acc) l = map_get acc l.
Proof.
  induction ls as [|l' ls IH]; intros i acc l H; cbn [unpack_flags]; [reflexivity|].
  rewrite IH by (intros X; apply H; right; exact X). rewrite map_get_set.
  destruct (String.eqb_spec l l') as [->|]; [exfalso; apply H; left; reflexivity|reflexivity].
Qed.

(** Flag number [k] of the unpacked record is bit [k]. *)
Lemma unpack_bits : forall ls i acc k l, NoDup ls -> nth_error ls k = Some l ->
  map_get (unpack_flags i ls acc) l = Some (VBool (N.testbit i (N.of_nat k))).
Proof.
  induction ls as [|l' ls IH]; intros i acc k l Hn Hk; [destruct k; discriminate|].
  inversion Hn; subst. destruct k as [|k]; cbn [nth_error] in Hk; cbn [unpack_flags].
  - inversion Hk; subst. rewrite unpack_other by assumption. rewrite map_get_set, String.eqb_refl.
    cbn [N.of_nat]. rewrite N.bit0_odd. reflexivity.
  - rewrite (IH _ _ k l) by assumption. do 2 f_equal.
    rewrite N.div2_spec, N.shiftr_spec'. f_equal. lia.
Qed.

Lemma unpack_domain : forall ls i acc l, map_get (unpack_flags i ls acc) l <> None -> In l ls \/ map_get acc l <> None.
Proof.
  intros ls i acc l H. destruct (in_dec string_dec l ls); [left; assumption|right].
  rewrite unpack_other in H by assumption. assumption.
Qed.
