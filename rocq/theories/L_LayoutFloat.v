From Coq Require Import NArith ZArith Reals Lia Lra Psatz List String.
From Flocq Require Import Core IEEE754.BinarySingleNaN.
From Verif Require Import GoBase M_Types M_Layout M_AlignFloat L_AlignFloat M_LayoutFloat S_LayoutFloat.
Open Scope Z_scope.

Lemma of_uint_R53 n : (n < 2 ^ 53)%N ->
  B2R (of_uint n) = IZR (Z.of_N n) /\ is_finite (of_uint n) = true.
Proof.
  intros Hn. assert (Hs : Z.abs (Z.of_N n) < 2 ^ 53) by lia.
  unfold of_uint.
  pose proof (binary_normalize_correct 53 1024 prec64 emax64 mode_NE (Z.of_N n) 0 false) as H.
  cbv zeta in H.
  replace (F2R (Float radix2 (Z.of_N n) 0)) with (IZR (Z.of_N n)) in H by (unfold F2R; cbn; lra).
  cbn [round_mode] in H. rewrite rne_int in H by assumption.
  rewrite Rlt_bool_true in H by (apply small_lt; assumption).
  destruct H as (H1 & H2 & _). split; assumption.
Qed.

(** A quotient rounded, then rounded up, as an integer. *)
Lemma ceil_quotient x d k : is_finite x = true -> B2R d <> 0%R ->
  Z.abs k < 2 ^ 52 -> (IZR (k - 1) < rne (B2R x / B2R d) <= IZR k)%R ->
  Btrunc (fceil (fdiv x d)) = k.
Proof.
  intros Fx Hd Hk [Q1 Q2].
  assert (D : B2R (fdiv x d) = rne (B2R x / B2R d) /\ is_finite (fdiv x d) = true).
  { unfold fdiv. pose proof (@Bdiv_correct 53 1024 prec64 emax64 mode_NE x d Hd) as H.
    cbn [round_mode] in H. rewrite Rlt_bool_true in H.
    - destruct H as (H1 & H2 & _). rewrite Fx in H2. split; assumption.
    - apply Rle_lt_trans with (IZR (2 ^ 53)).
      + apply Rabs_le. split.
        * apply Rle_trans with (IZR (k - 1)); [|lra]. rewrite <- opp_IZR. apply IZR_le. lia.
        * apply Rle_trans with (IZR k); [lra|]. apply IZR_le. lia.
      + change (IZR (2 ^ 53)) with (bpow radix2 53). apply bpow_lt. reflexivity. }
  destruct D as [D1 D2]. set (q := fdiv _ _) in *.
  assert (C : B2R (fceil q) = IZR k).
  { unfold fceil. destruct (@Bnearbyint_correct 53 1024 emax64 mode_UP q) as (H1 & H2 & _).
    rewrite D1 in H1. cbn [round_mode] in H1.
    rewrite H1. rewrite round_FIX_IZR. f_equal. apply Zceil_imp. split; lra. }
  apply eq_IZR. rewrite (@Btrunc_correct 53 1024 emax64), C. rewrite round_FIX_IZR. f_equal. apply Ztrunc_IZR.
Qed.

Lemma num_flags_exact labels : (N.of_nat (List.length labels) < 2 ^ 32)%N ->
  num_flags_float labels = num_i32_flags labels.
Proof.
  intros Hn. unfold num_flags_float, num_i32_flags. set (n := N.of_nat (List.length labels)) in *.
  destruct (of_uint_R n Hn) as [Rn Fn]. destruct (of_uint_R 32 eq_refl) as [R32 _].
  set (p := Z.of_N n) in *. set (k := (p + 31) / 32).
  assert (Hk : (k - 1) * 32 < p <= k * 32).
  { unfold k. pose proof (Z.div_mod (p + 31) 32 ltac:(lia)). pose proof (Z.mod_pos_bound (p + 31) 32 ltac:(lia)). lia. }
  assert (H0 : 0 <= p < 2 ^ 32) by (unfold p; lia).
  assert (T : Btrunc (fceil (fdiv (of_uint n) (of_uint 32))) = k).
  { apply ceil_quotient; [exact Fn|rewrite R32; apply not_0_IZR; discriminate|lia|].
    rewrite Rn, R32. apply quotient_rounds; lia. }
  unfold to_u32. rewrite T. destruct (andb _ _) eqn:E.
  - replace (Z.to_N (k mod 2 ^ 32)) with (Z.to_N k) by (rewrite Z.mod_small by lia; reflexivity).
    unfold k. rewrite Z2N.inj_div by lia. change (Z.to_N 32) with 32%N.
    replace (Z.to_N (p + 31)) with (n + 31)%N by (unfold p; lia). reflexivity.
  - apply Bool.andb_false_iff in E. destruct E as [E|E]; [apply Z.leb_gt in E|apply Z.ltb_ge in E]; lia.
Qed.

(** ** Logarithms *)
Definition lg (n : Z) : R := (ln (IZR n) / ln 2)%R.

Lemma ln_le_minus y : (0 < y)%R -> (ln y <= y - 1)%R.
Proof. intros H. pose proof (exp_ineq1_le (ln y)) as E. rewrite exp_ln in E by exact H. lra. Qed.

Lemma ln2_range : (0 < ln 2 <= 1)%R.
Proof.
  split.
  - rewrite <- ln_1. apply ln_increasing; lra.
  - pose proof (ln_le_minus 2 ltac:(lra)). lra.
Qed.

Lemma ln_ge_inv y : (0 < y)%R -> (1 - / y <= ln y)%R.
Proof.
  intros H. pose proof (ln_le_minus (/ y) (Rinv_0_lt_compat _ H)) as E.
  rewrite ln_Rinv in E by exact H. lra.
Qed.

Lemma ln_pow2 k : 0 <= k -> ln (IZR (2 ^ k)) = (IZR k * ln 2)%R.
Proof.
  intros Hk. pattern k. apply natlike_ind; [| |exact Hk].
  - cbn. rewrite ln_1. lra.
  - intros x Hx IH. rewrite Z.pow_succ_r by exact Hx. rewrite mult_IZR, ln_mult, IH, succ_IZR.
    + lra.
    + lra.
    + apply IZR_lt. lia.
Qed.

Lemma lg_mono a b : 0 < a -> a <= b -> (lg a <= lg b)%R.
Proof.
  intros Ha Hab. unfold lg. destruct ln2_range as [L _].
  apply Rmult_le_compat_r; [left; apply Rinv_0_lt_compat, L|].
  destruct (Z.eq_dec a b) as [->|Hne]; [lra|]. left. apply ln_increasing; apply IZR_lt; lia.
Qed.

Lemma lg_pow2 k : 0 <= k -> lg (2 ^ k) = IZR k.
Proof. intros Hk. unfold lg. rewrite ln_pow2 by exact Hk. field. pose proof ln2_range. lra. Qed.

(** Above a power of two. *)
Lemma lg_above k n : 0 <= k -> 2 ^ k < n -> (IZR k + / IZR (2 ^ (k + 1)) <= lg n)%R.
Proof.
  intros Hk Hn. apply Rle_trans with (lg (2 ^ k + 1)); [|apply lg_mono; lia].
  assert (P : (0 < IZR (2 ^ k))%R) by (apply IZR_lt; lia).
  assert (P1 : (1 <= IZR (2 ^ k))%R) by (apply IZR_le; lia).
  pose proof ln2_range as [L0 L1]. unfold lg.
  replace (IZR (2 ^ k + 1)) with (IZR (2 ^ k) * (1 + / IZR (2 ^ k)))%R
    by (rewrite plus_IZR; field; lra).
  assert (I : (0 < / IZR (2 ^ k))%R) by (apply Rinv_0_lt_compat; exact P).
  rewrite ln_mult by lra. rewrite ln_pow2 by exact Hk.
  replace (2 ^ (k + 1)) with (2 * 2 ^ k) by (rewrite Z.pow_add_r by lia; lia).
  rewrite mult_IZR.
  pose proof (ln_ge_inv (1 + / IZR (2 ^ k)) ltac:(lra)) as G.
  assert (G2 : (/ (2 * IZR (2 ^ k)) <= 1 - / (1 + / IZR (2 ^ k)))%R).
  { replace (1 - / (1 + / IZR (2 ^ k)))%R with (/ (1 + IZR (2 ^ k)))%R by (field; lra).
    apply Rinv_le_contravar; lra. }
  assert (G3 : (/ (2 * IZR (2 ^ k)) <= ln (1 + / IZR (2 ^ k)) / ln 2)%R).
  { apply Rle_trans with (ln (1 + / IZR (2 ^ k))); [lra|].
    set (y := ln (1 + _)) in *. assert (0 <= y)%R by (assert (0 < / (2 * IZR (2 ^ k)))%R by (apply Rinv_0_lt_compat; lra); lra).
    rewrite <- (Rmult_1_r y) at 1. unfold Rdiv. apply Rmult_le_compat_l; [assumption|].
    rewrite <- Rinv_1. apply Rinv_le_contravar; assumption. }
  unfold Rdiv in *. rewrite Rmult_plus_distr_r. rewrite Rmult_assoc, Rinv_r by lra. lra.
Qed.

(** Below one. *)
Lemma lg_below k n : 0 <= k -> 0 < n < 2 ^ k -> (lg n <= IZR k - / IZR (2 ^ k))%R.
Proof.
  intros Hk Hn. apply Rle_trans with (lg (2 ^ k - 1)); [apply lg_mono; lia|].
  assert (P1 : (2 <= IZR (2 ^ k))%R) by (apply IZR_le; lia).
  pose proof ln2_range as [L0 L1]. unfold lg.
  assert (I : (0 < / IZR (2 ^ k))%R) by (apply Rinv_0_lt_compat; lra).
  assert (I2 : (/ IZR (2 ^ k) <= / 2)%R) by (apply Rinv_le_contravar; lra).
  replace (IZR (2 ^ k - 1)) with (IZR (2 ^ k) * (1 - / IZR (2 ^ k)))%R
    by (rewrite minus_IZR; field; lra).
  rewrite ln_mult by lra. rewrite ln_pow2 by exact Hk.
  pose proof (ln_le_minus (1 - / IZR (2 ^ k)) ltac:(lra)) as G.
  assert (J : (1 <= / ln 2)%R) by (rewrite <- Rinv_1; apply Rinv_le_contravar; assumption).
  unfold Rdiv. rewrite Rmult_plus_distr_r. rewrite Rmult_assoc, Rinv_r by lra.
  set (y := ln (1 - _)) in *. set (t := (/ IZR (2 ^ k))%R) in *. nra.
Qed.

(** ** The discriminant *)
Lemma rne_le_repr x m e : (x <= IZR m * bpow radix2 e)%R -> Z.abs m < 2 ^ 53 -> -1074 <= e ->
  (rne x <= IZR m * bpow radix2 e)%R.
Proof.
  intros H Hm He. apply round_le_generic; [apply valid_fx|apply valid_rnd_N| |exact H].
  exact (repr m e Hm He).
Qed.

Lemma rne_ge_repr x m e : (IZR m * bpow radix2 e <= x)%R -> Z.abs m < 2 ^ 53 -> -1074 <= e ->
  (IZR m * bpow radix2 e <= rne x)%R.
Proof.
  intros H Hm He. apply round_ge_generic; [apply valid_fx|apply valid_rnd_N| |exact H].
  exact (repr m e Hm He).
Qed.

(** The result of Log2 lies between the logarithms of powers of two around it. *)
Lemma log_range log2 n lo hi : accurate_log2 log2 -> 0 <= lo <= 24 -> lo < hi <= 24 ->
  (n < 2 ^ 53)%N -> 2 ^ lo < Z.of_N n <= 2 ^ hi ->
  (IZR lo + / IZR (2 ^ 26) <= B2R (log2 (of_uint n)) <= IZR hi)%R.
Proof.
  intros A Hlo Hhi Hn [N1 N2]. assert (P : 0 < 2 ^ lo) by (apply Z.pow_pos_nonneg; lia).
  destruct (A n ltac:(lia)) as (F & E & X). cbv zeta in *. fold (lg (Z.of_N n)) in E.
  apply Rabs_le_inv in E.
  assert (L := lg_above lo (Z.of_N n) ltac:(lia) N1).
  assert (I : (/ IZR (2 ^ 25) <= / IZR (2 ^ (lo + 1)))%R).
  { apply Rinv_le_contravar; [apply IZR_lt, Z.pow_pos_nonneg; lia|].
    apply IZR_le, Z.pow_le_mono_r; lia. }
  change (2 ^ 30) with 1073741824 in E. change (2 ^ 25) with 33554432 in I. change (2 ^ 26) with 67108864.
  split; [lra|].
  destruct (Z.eq_dec (Z.of_N n) (2 ^ hi)) as [Eq|Ne].
  - rewrite (X hi Eq ltac:(lia)). lra.
  - assert (U := lg_below hi (Z.of_N n) ltac:(lia) ltac:(lia)).
    assert (J : (/ IZR (2 ^ 24) <= / IZR (2 ^ hi))%R).
    { apply Rinv_le_contravar; [apply IZR_lt, Z.pow_pos_nonneg; lia|].
      apply IZR_le, Z.pow_le_mono_r; lia. }
    change (2 ^ 24) with 16777216 in J. lra.
Qed.

Lemma quotient_range x k : 1 <= k <= 3 ->
  (IZR (8 * (k - 1)) + / IZR (2 ^ 26) <= x <= IZR (8 * k))%R ->
  (IZR (k - 1) < rne (x / 8) <= IZR k)%R.
Proof.
  intros Hk [H1 H2]. change (2 ^ 26) with 67108864 in H1. rewrite mult_IZR in H1, H2. split.
  - assert (G := rne_ge_repr (x / 8) ((k - 1) * 2 ^ 29 + 1) (-29)).
    rewrite plus_IZR, mult_IZR in G. change (bpow radix2 (-29)) with (/ 536870912)%R in G.
    change (2 ^ 29) with 536870912 in G.
    assert (G' := G ltac:(lra) ltac:(lia) ltac:(lia)). lra.
  - assert (G := rne_le_repr (x / 8) k 0). change (bpow radix2 0) with 1%R in G.
    assert (G' := G ltac:(lra) ltac:(lia) ltac:(lia)). lra.
Qed.

Theorem discriminant_exact log2 n : accurate_log2 log2 -> (N.of_nat n < 2 ^ 53)%N ->
  discriminant_float log2 n = discriminant_type n.
Proof.
  intros A Hn. unfold discriminant_float, discriminant_type.
  set (m := N.of_nat n) in *. clearbody m. clear n.
  destruct (N.eqb_spec m 0) as [|H0]; [reflexivity|].
  destruct (A m ltac:(lia)) as (F & Err & X). cbv zeta in F, X.
  destruct (of_uint_R 8 eq_refl) as [R8 _]. change (IZR (Z.of_N 8)) with 8%R in R8.
  set (x := log2 (of_uint m)) in *.
  assert (T : forall k, Z.abs k < 2 ^ 52 -> (IZR (k - 1) < rne (B2R x / 8) <= IZR k)%R ->
     Btrunc (fceil (fdiv x (of_uint 8))) = k).
  { intros k K H. apply ceil_quotient; [exact F|rewrite R8; lra|exact K|rewrite R8; exact H]. }
  assert (In : forall k, 1 <= k <= 3 -> 2 ^ (8 * (k - 1)) < Z.of_N m <= 2 ^ (8 * k) ->
     Btrunc (fceil (fdiv x (of_uint 8))) = k).
  { intros k K H. apply T; [lia|]. apply quotient_range; [exact K|].
    apply (log_range log2 m (8 * (k - 1)) (8 * k) A); [lia..|exact Hn|exact H]. }
  unfold to_u64.
  destruct (N.leb_spec m 256) as [L1|L1].
  { destruct (N.eq_dec m 1) as [E1|N1].
    - rewrite (T 0); [reflexivity|lia|]. rewrite (X 0); [|subst m; reflexivity|lia].
      replace (0 / 8)%R with 0%R by lra. rewrite round_0 by typeclasses eauto.
      split; [apply IZR_lt; lia|lra].
    - rewrite (In 1); [reflexivity|lia|]. cbn; lia. }
  destruct (N.leb_spec m 65536) as [L2|L2].
  { rewrite (In 2); [reflexivity|lia|]. change (2 ^ (8 * (2 - 1))) with 256. change (2 ^ (8 * 2)) with 65536. lia. }
  destruct (N.leb_spec m 16777216) as [L3|L3].
  { rewrite (In 3); [reflexivity|lia|]. change (2 ^ (8 * (3 - 1))) with 65536. change (2 ^ (8 * 3)) with 16777216. lia. }
  apply Rabs_le_inv in Err. fold x in Err. fold (lg (Z.of_N m)) in Err. change (2 ^ 30) with 1073741824 in Err.
  assert (Lo := lg_above 24 (Z.of_N m) ltac:(lia) ltac:(change (2 ^ 24) with 16777216; lia)).
  assert (Hi := lg_below 53 (Z.of_N m) ltac:(lia) ltac:(lia)).
  change (2 ^ (24 + 1)) with 33554432 in Lo. change (2 ^ 53) with 9007199254740992 in Hi.
  assert (Q1 : (3 < rne (B2R x / 8))%R).
  { assert (G := rne_ge_repr (B2R x / 8) (3 * 2 ^ 29 + 1) (-29)).
    rewrite plus_IZR, mult_IZR in G. change (bpow radix2 (-29)) with (/ 536870912)%R in G.
    change (2 ^ 29) with 536870912 in G.
    assert (G' := G ltac:(lra) ltac:(lia) ltac:(lia)). lra. }
  assert (Q2 : (rne (B2R x / 8) <= 7)%R).
  { assert (G := rne_le_repr (B2R x / 8) 7 0). change (bpow radix2 0) with 1%R in G.
    assert (G' := G ltac:(lra) ltac:(lia) ltac:(lia)). lra. }
  set (q := rne _) in *.
  assert (C : exists k, 4 <= k <= 7 /\ (IZR (k - 1) < q <= IZR k)%R).
  { destruct (Rle_dec q 4) as [?|?]; [exists 4; cbn; split; [lia|lra]|].
    destruct (Rle_dec q 5) as [?|?]; [exists 5; cbn; split; [lia|lra]|].
    destruct (Rle_dec q 6) as [?|?]; [exists 6; cbn; split; [lia|lra]|].
    exists 7; cbn; split; [lia|lra]. }
  destruct C as (k & K & Hq). rewrite (T k ltac:(lia) Hq).
  assert (K' : k = 4 \/ k = 5 \/ k = 6 \/ k = 7) by lia.
  destruct K' as [->|[->|[->| ->]]]; reflexivity.
Qed.

(** ** A function that meets the assumption: the logarithm, rounded *)
Definition log2_rounded (x : float64) : float64 :=
  let r := (ln (B2R x) / ln 2)%R in
  binary_normalize 53 1024 prec64 emax64 mode_NE
    (ZnearestE (scaled_mantissa radix2 fx r)) (cexp radix2 fx r) false.

Lemma log2_rounded_accurate : accurate_log2 log2_rounded.
Proof.
  intros n Hn. cbv zeta. destruct (of_uint_R53 n ltac:(lia)) as [Rn Fn].
  unfold log2_rounded. rewrite Rn. fold (lg (Z.of_N n)). set (r := lg (Z.of_N n)).
  assert (B : (0 <= r <= 53)%R).
  { unfold r. split.
    - change 0%R with (IZR 0). rewrite <- (lg_pow2 0) by lia. apply lg_mono; lia.
    - rewrite <- (lg_pow2 53) by lia. apply lg_mono; lia. }
  pose proof (binary_normalize_correct 53 1024 prec64 emax64 mode_NE
     (ZnearestE (scaled_mantissa radix2 fx r)) (cexp radix2 fx r) false) as H.
  cbv zeta in H. cbn [round_mode] in H.
  change (F2R (Float radix2 (ZnearestE (scaled_mantissa radix2 fx r)) (cexp radix2 fx r)))
    with (rne r) in H.
  assert (V := valid_fx).
  assert (Id : rne (rne r) = rne r).
  { apply round_generic; [apply valid_rnd_N|]. apply generic_format_round; [exact V|apply valid_rnd_N]. }
  rewrite Id in H.
  assert (B' : (0 <= rne r <= 53)%R).
  { split.
    - change 0%R with (IZR 0) at 1. rewrite <- (rne_int 0) by lia. apply round_le; [exact V|apply valid_rnd_N|lra].
    - rewrite <- (rne_int 53) by lia. apply round_le; [exact V|apply valid_rnd_N|lra]. }
  rewrite Rlt_bool_true in H.
  2:{ apply Rle_lt_trans with (IZR 53); [apply Rabs_le; lra|].
      apply Rlt_trans with (bpow radix2 6); [cbn; lra|apply bpow_lt; lia]. }
  destruct H as (H1 & H2 & _). rewrite H1. split; [exact H2|]. split.
  - pose proof (error_le_half_ulp radix2 fx (fun x => negb (Z.even x)) r) as E.
    assert (U : (ulp radix2 fx r <= bpow radix2 (-46))%R).
    { change (-46) with (fx (6 + 1)). rewrite <- ulp_bpow.
      apply ulp_le; [exact V|rewrite fx_FLT; apply FLT_exp_monotone|].
      rewrite (Rabs_pos_eq r) by lra. rewrite Rabs_pos_eq by (apply bpow_ge_0). cbn. lra. }
    change (bpow radix2 (-46)) with (/ 70368744177664)%R in U.
    change (2 ^ 30) with 1073741824. lra.
  - intros k Ek Hk. unfold r. rewrite Ek, lg_pow2 by exact Hk.
    apply rne_int. assert (k <= 53); [|lia].
    destruct (Z_le_gt_dec k 53); [assumption|].
    assert (2 ^ 53 < 2 ^ k) by (apply Z.pow_lt_mono_r; lia). lia.
Qed.
