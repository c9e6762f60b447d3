From Coq Require Import NArith ZArith Reals Lia Lra Psatz.
From Flocq Require Import Core IEEE754.BinarySingleNaN.
From Verif Require Import GoBase M_Types M_Layout M_AlignFloat.
Open Scope Z_scope.

Notation fx := (SpecFloat.fexp 53 1024).
Notation rne := (round radix2 fx ZnearestE).

Lemma fx_FLT : fx = FLT_exp (-1074) 53.
Proof. reflexivity. Qed.

Lemma valid_fx : Valid_exp fx.
Proof. rewrite fx_FLT. apply FLT_exp_valid. reflexivity. Qed.

Lemma repr m e : Z.abs m < 2 ^ 53 -> -1074 <= e -> generic_format radix2 fx (F2R (Float radix2 m e)).
Proof.
  intros Hm He. rewrite fx_FLT. apply generic_format_FLT.
  exists (Float radix2 m e); auto.
Qed.

Lemma repr_int m : Z.abs m < 2 ^ 53 -> generic_format radix2 fx (IZR m).
Proof.
  intros Hm. replace (IZR m) with (F2R (Float radix2 m 0)).
  - apply repr; lia.
  - unfold F2R; cbn. lra.
Qed.

Lemma rne_int m : Z.abs m < 2 ^ 53 -> rne (IZR m) = IZR m.
Proof. intros. apply round_generic; [apply valid_rnd_N | apply repr_int; assumption]. Qed.

Lemma small_lt m : Z.abs m < 2 ^ 53 -> (Rabs (IZR m) < bpow radix2 1024)%R.
Proof.
  intros H. apply Rlt_trans with (IZR (2 ^ 53)).
  - rewrite <- abs_IZR. apply IZR_lt. exact H.
  - change (IZR (2 ^ 53)) with (bpow radix2 53). apply bpow_lt. reflexivity.
Qed.

Lemma of_uint_R n : (n < 2 ^ 32)%N ->
  B2R (of_uint n) = IZR (Z.of_N n) /\ is_finite (of_uint n) = true.
Proof.
  intros Hn. assert (Hs : Z.abs (Z.of_N n) < 2 ^ 53) by lia.
  unfold of_uint.
  pose proof (binary_normalize_correct 53 1024 prec64 emax64 mode_NE (Z.of_N n) 0 false) as H.
  cbv zeta in H.
  replace (F2R (Float radix2 (Z.of_N n) 0)) with (IZR (Z.of_N n)) in H by (unfold F2R; cbn; lra).
  cbn [round_mode] in H. rewrite rne_int in H by assumption.
  rewrite Rlt_bool_true in H by (apply small_lt; assumption).
  destruct H as (H1 & H2 & _). split; assumption.
Qed.

(** The rounded quotient does not reach the integer below. *)
Lemma quotient_rounds p a k :
  0 <= p < 2 ^ 32 -> 0 < a < 2 ^ 32 -> 0 <= k -> (k - 1) * a < p <= k * a ->
  (IZR (k - 1) < rne (IZR p / IZR a) <= IZR k)%R.
Proof.
  intros Hp Ha Hk H.
  assert (Ra : (0 < IZR a)%R) by (apply IZR_lt; lia).
  assert (Hk2 : k < 2 ^ 32 + 1) by nia.
  split.
  - destruct (Z.eq_dec k 0) as [->|Hk0].
    + replace p with 0 by lia. replace (0 / IZR a)%R with (IZR 0) by (field; lra).
      rewrite rne_int by (cbn; lia). apply IZR_lt. lia.
    + set (j := k - 1). assert (Hj : 0 <= j) by (unfold j; lia).
      assert (exists b, 0 <= b <= 33 /\ j < 2 ^ b /\ a <= 2 ^ (33 - b)) as (b & Hb & Hjb & Hab).
      { destruct (Z.eq_dec j 0) as [E|E].
        - exists 0. rewrite E. split; [lia|]. split; [reflexivity|]. lia.
        - destruct (Z.log2_spec j ltac:(lia)) as [L1 L2].
          pose proof (Z.log2_nonneg j).
          assert (Z.log2 j < 32).
          { apply Z.log2_lt_pow2; [lia|]. unfold j in *. nia. }
          exists (Z.succ (Z.log2 j)). split; [lia|]. split; [exact L2|].
          replace (33 - Z.succ (Z.log2 j)) with (32 - Z.log2 j) by lia.
          assert (j * a < 2 ^ 32) by (unfold j; lia).
          assert (2 ^ 32 = 2 ^ Z.log2 j * 2 ^ (32 - Z.log2 j)) as E2.
          { rewrite <- Z.pow_add_r by lia. f_equal. lia. }
          assert (0 < 2 ^ Z.log2 j) by (apply Z.pow_pos_nonneg; lia).
          assert (0 < 2 ^ (32 - Z.log2 j)) by (apply Z.pow_pos_nonneg; lia).
          nia. }
      set (S := 2 ^ (33 - b)).
      assert (HS : 0 < S) by (apply Z.pow_pos_nonneg; lia).
      assert (HSb : 2 ^ 33 = 2 ^ b * S).
      { unfold S. rewrite <- Z.pow_add_r by lia. f_equal. lia. }
      assert (Rs : (0 < IZR S)%R) by (apply IZR_lt; lia).
      assert (Rj : F2R (Float radix2 (j * S + 1) (b - 33)) = (IZR j + / IZR S)%R).
      { unfold F2R. cbn [Fnum Fexp].
        replace (bpow radix2 (b - 33)) with (/ IZR S)%R.
        - rewrite plus_IZR, mult_IZR. field. lra.
        - unfold S. change 2 with (radix_val radix2) at 1. rewrite IZR_Zpower by lia.
          rewrite <- bpow_opp. f_equal. lia. }
      apply Rlt_le_trans with (IZR j + / IZR S)%R.
      * apply Rinv_0_lt_compat in Rs. lra.
      * rewrite <- Rj. apply round_ge_generic; [apply valid_fx | apply valid_rnd_N | |].
        -- apply repr; [|lia]. rewrite Z.abs_eq by nia.
           assert (j * S + 1 <= 2 ^ 33) by nia. lia.
        -- rewrite Rj.
           apply Rmult_le_reg_r with (IZR a); [assumption|].
           replace (IZR p / IZR a * IZR a)%R with (IZR p) by (field; lra).
           rewrite Rmult_plus_distr_r, <- mult_IZR.
           apply Rle_trans with (IZR (j * a) + 1)%R.
           ++ apply Rplus_le_compat_l.
              apply Rmult_le_reg_l with (IZR S); [assumption|].
              rewrite <- Rmult_assoc, Rinv_r, Rmult_1_l, Rmult_1_r by lra.
              apply IZR_le. exact Hab.
           ++ rewrite <- plus_IZR. apply IZR_le. unfold j. lia.
  - apply round_le_generic; [apply valid_fx | apply valid_rnd_N | |].
    + apply repr_int. lia.
    + apply Rmult_le_reg_r with (IZR a); [assumption|].
      replace (IZR p / IZR a * IZR a)%R with (IZR p) by (field; lra).
      rewrite <- mult_IZR. apply IZR_le. lia.
Qed.

Lemma align_float_exact ptr a : (ptr < 2 ^ 32)%N -> (a < 2 ^ 32)%N ->
  align_to_float ptr a = align_to ptr a.
Proof.
  intros Hp Ha. unfold align_to_float, align_to. f_equal.
  destruct (N.eqb_spec a 0) as [->|Hz].
  - change (of_uint 0) with (@B754_zero 53 1024 false).
    assert (E : fmul (fceil (fdiv (of_uint ptr) (B754_zero false))) (B754_zero false) = B754_nan).
    { destruct (of_uint ptr) as [s|s| |s m e B] eqn:E; reflexivity. }
    rewrite E. reflexivity.
  - destruct (of_uint_R ptr Hp) as [Rp Fp]. destruct (of_uint_R a Ha) as [Ra Fa].
    set (p := Z.of_N ptr) in *. set (d := Z.of_N a) in *.
    set (k := (p + d - 1) / d).
    assert (Hpz : 0 <= p < 2 ^ 32) by (unfold p; lia).
    assert (Hdz : 0 < d < 2 ^ 32) by (unfold d; lia).
    assert (Hk : (k - 1) * d < p <= k * d).
    { unfold k. pose proof (Z.div_mod (p + d - 1) d ltac:(lia)) as D.
      pose proof (Z.mod_pos_bound (p + d - 1) d ltac:(lia)). nia. }
    assert (Hk0 : 0 <= k) by (unfold k; apply Z.div_pos; lia).
    assert (Hk2 : k < 2 ^ 32 + 1) by nia.
    pose proof (quotient_rounds p d k Hpz Hdz Hk0 Hk) as [Q1 Q2].
    assert (Rd : (IZR d <> 0)%R) by (apply not_0_IZR; lia).
    (* division *)
    assert (D : B2R (fdiv (of_uint ptr) (of_uint a)) = rne (IZR p / IZR d)
             /\ is_finite (fdiv (of_uint ptr) (of_uint a)) = true).
    { unfold fdiv. pose proof (@Bdiv_correct 53 1024 prec64 emax64 mode_NE (of_uint ptr) (of_uint a)) as H.
      rewrite Rp, Ra in H. specialize (H Rd). cbn [round_mode] in H.
      rewrite Rlt_bool_true in H.
      - destruct H as (H1 & H2 & _). rewrite Fp in H2. split; assumption.
      - apply Rle_lt_trans with (IZR (2 ^ 52)).
        + apply Rabs_le. split.
          * apply Rle_trans with (IZR (k - 1)); [|lra].
            apply Rle_trans with (IZR (-1)); [|apply IZR_le; lia].
            rewrite <- opp_IZR. apply IZR_le. lia.
          * apply Rle_trans with (IZR k); [lra|]. apply IZR_le. lia.
        + change (IZR (2 ^ 52)) with (bpow radix2 52). apply bpow_lt. reflexivity. }
    destruct D as [D1 D2]. set (q := fdiv _ _) in *.
    (* ceil *)
    assert (C : B2R (fceil q) = IZR k /\ is_finite (fceil q) = true).
    { unfold fceil. destruct (@Bnearbyint_correct 53 1024 emax64 mode_UP q) as (H1 & H2 & _).
      rewrite D1 in H1. cbn [round_mode] in H1. split; [|congruence].
      rewrite H1. rewrite round_FIX_IZR. f_equal. apply Zceil_imp. split; lra. }
    destruct C as [C1 C2]. set (c := fceil q) in *.
    (* multiplication *)
    assert (Hkd : 0 <= k * d < 2 ^ 33) by nia.
    assert (M : B2R (fmul c (of_uint a)) = IZR (k * d)).
    { unfold fmul. pose proof (@Bmult_correct 53 1024 prec64 emax64 mode_NE c (of_uint a)) as H.
      rewrite C1, Ra, <- mult_IZR in H. cbn [round_mode] in H.
      rewrite rne_int in H by lia. rewrite Rlt_bool_true in H by (apply small_lt; lia).
      exact (proj1 H). }
    assert (T : Btrunc (fmul c (of_uint a)) = k * d).
    { apply eq_IZR. rewrite (@Btrunc_correct 53 1024 emax64), M.
      rewrite round_FIX_IZR. f_equal. apply Ztrunc_IZR. }
    unfold to_u32. rewrite T.
    destruct (andb _ _) eqn:E; [|apply Bool.andb_false_iff in E; destruct E as [E|E];
      [apply Z.leb_gt in E | apply Z.ltb_ge in E]; lia].
    unfold u32. rewrite Z2N.inj_mod by lia.
    f_equal. unfold k, p, d. rewrite Z2N.inj_mul by (try apply Z.div_pos; lia).
    rewrite N2Z.id. f_equal. rewrite Z2N.inj_div by lia. rewrite N2Z.id. f_equal. lia.
Qed.
