(** Flags as a sequence of 32-bit words. *)
From Coq Require Import NArith ZArith List String Bool Lia ZifyBool ZifyNat ZifyN.
From Verif Require Import GoBase M_Types M_Layout S_Layout L_Layout M_State M_Utf M_Load M_Store M_Flat
  S_Values S_Memory S_Access L_Access L_Flags.
Import ListNotations.
Open Scope N_scope.
Open Scope go_scope.

(** The [k]-th 32-bit word of a number. *)
Definition word32 (x : N) (k : nat) : N := x / 2 ^ (32 * N.of_nat k) mod 2 ^ 32.

Lemma word32_bit : forall x k i, N.testbit (word32 x k) i = (i <? 32) && N.testbit x (i + 32 * N.of_nat k).
Proof.
  intros x k i. unfold word32. destruct (N.ltb_spec i 32) as [H|H]; cbn [andb].
  - rewrite N.mod_pow2_bits_low by assumption. rewrite N.div_pow2_bits. reflexivity.
  - apply N.mod_pow2_bits_high. assumption.
Qed.

Lemma flag_words_spec : forall n x,
  flag_words n x = (map (fun k => CU32 (word32 x k)) (seq 0 n), x / 2 ^ (32 * N.of_nat n)).
Proof.
  induction n as [|n IH]; intros x; cbn [flag_words].
  - change (2 ^ (32 * N.of_nat 0)) with 1. rewrite N.div_1_r. reflexivity.
  - rewrite IH. cbn [seq map]. f_equal.
    + f_equal.
      * f_equal. change 4294967295 with (N.ones 32). rewrite N.land_ones. unfold word32.
        change (32 * N.of_nat 0) with 0. change (2 ^ 0) with 1. rewrite N.div_1_r. reflexivity.
      * rewrite <- seq_shift, map_map. apply map_ext. intros k. f_equal. unfold word32.
        rewrite N.shiftr_div_pow2, N.div_div by (apply N.pow_nonzero; lia). rewrite <- N.pow_add_r.
        do 3 f_equal. lia.
    + rewrite N.shiftr_div_pow2, N.div_div by (apply N.pow_nonzero; lia). rewrite <- N.pow_add_r. f_equal. f_equal. lia.
Qed.

Lemma num_words : forall ls, (List.length ls <= 64)%nat ->
  num_i32_flags ls <= 2 /\ N.of_nat (List.length ls) <= 32 * num_i32_flags ls.
Proof.
  intros ls H. unfold num_i32_flags. generalize dependent (List.length ls). intros n H.
  assert (N.of_nat n <= 64) by lia. clear H. generalize dependent (N.of_nat n). clear n. intros n H.
  pose proof (N.div_mod (n + 31) 32 ltac:(lia)). pose proof (N.mod_lt (n + 31) 32 ltac:(lia)). lia.
Qed.

(** Reassembling words. *)
Lemma lift_words_bits : forall ws pre post shift acc s,
  Forall (fun w => w < 2 ^ 32) ws -> shift + 32 * N.of_nat (List.length ws) <= 64 ->
  (forall i, shift <= i -> N.testbit acc i = false) ->
  exists x, lift_flag_words (List.length ws) shift acc (IBase (pre ++ map CU32 ws ++ post) (List.length pre)) s
    = (Ok (x, IBase (pre ++ map CU32 ws ++ post) (List.length pre + List.length ws)), s) /\
    forall i, N.testbit x i = if i <? shift then N.testbit acc i
      else N.testbit (nth (N.to_nat ((i - shift) / 32)) ws 0) ((i - shift) mod 32).
Proof.
  induction ws as [|w ws IH]; intros pre post shift acc s Hw Hs Ha.
  - cbn [List.length lift_flag_words]. exists acc. split.
    + rewrite Nat.add_0_r. reflexivity.
    + intros i. destruct (N.ltb_spec i shift); [reflexivity|]. rewrite Ha by assumption.
      destruct (N.to_nat ((i - shift) / 32)); cbn; reflexivity.
  - inversion Hw as [|? ? Hw1 Hw2]; subst. cbn [List.length lift_flag_words].
    assert (Hsl : shift + 32 <= 64) by (cbn [List.length] in Hs; lia).
    set (acc' := N.lor acc (u64 (N.shiftl w shift))).
    assert (Bw : forall i, 32 <= i -> N.testbit w i = false).
    { intros i Hi. destruct (N.eq_dec w 0) as [->|Hz]; [apply N.bits_0|]. apply N.bits_above_log2.
      assert (N.log2 w < 32) by (apply N.log2_lt_pow2; lia). lia. }
    assert (B : forall i, N.testbit acc' i = if i <? shift then N.testbit acc i
                          else if i <? shift + 32 then N.testbit w (i - shift) else false).
    { intros i. unfold acc'. rewrite N.lor_spec. unfold u64. change two64 with (2 ^ 64).
      destruct (N.lt_ge_cases i 64) as [H64|H64].
      - rewrite N.mod_pow2_bits_low by assumption. destruct (N.ltb_spec i shift).
        + rewrite N.shiftl_spec_low by assumption. apply orb_false_r.
        + rewrite Ha by assumption. rewrite N.shiftl_spec_high' by assumption. cbn [orb].
          destruct (N.ltb_spec i (shift + 32)); [reflexivity|]. apply Bw. lia.
      - rewrite N.mod_pow2_bits_high by assumption. destruct (N.ltb_spec i shift); [lia|].
        destruct (N.ltb_spec i (shift + 32)); [lia|]. rewrite Ha by assumption. reflexivity. }
    destruct (IH (pre ++ [CU32 w])%list post (shift + 32) acc' s) as (x & Ex & Bx); [assumption|cbn [List.length] in Hs; lia| |].
    { intros i Hi. rewrite B. destruct (N.ltb_spec i shift); [lia|]. destruct (N.ltb_spec i (shift + 32)); [lia|reflexivity]. }
    exists x. split.
    + assert (En : next_u32 (IBase (pre ++ map CU32 (w :: ws) ++ post) (List.length pre)) s
                  = (Ok (w, IBase (pre ++ map CU32 (w :: ws) ++ post) (S (List.length pre))), s)).
      { unfold next_u32. cbn [iter_next].
        assert (Ene : (pre ++ map CU32 (w :: ws) ++ post)%list <> []) by (destruct pre; discriminate).
        destruct (pre ++ map CU32 (w :: ws) ++ post)%list as [|c0 cs0] eqn:Ec; [congruence|]. rewrite <- Ec.
        rewrite nth_error_app2, Nat.sub_diag by lia. reflexivity. }
      unfold bind at 1. rewrite En. fold acc'.
      replace (pre ++ map CU32 (w :: ws) ++ post)%list with ((pre ++ [CU32 w]) ++ map CU32 ws ++ post)%list
        by (rewrite <- app_assoc; reflexivity).
      replace (S (List.length pre)) with (List.length (pre ++ [CU32 w])) by (rewrite app_length; cbn; lia).
      rewrite Ex. do 4 f_equal. rewrite app_length. cbn. lia.
    + intros i. rewrite Bx, B. destruct (N.ltb_spec i shift).
      { destruct (N.ltb_spec i (shift + 32)); [reflexivity|lia]. }
      destruct (N.ltb_spec i (shift + 32)).
      * assert (E1 : (i - shift) / 32 = 0) by (apply N.div_small; lia).
        assert (E2 : (i - shift) mod 32 = i - shift) by (apply N.mod_small; lia). rewrite E1, E2. reflexivity.
      * replace (i - shift) with (i - (shift + 32) + 1 * 32) by lia.
        rewrite N.div_add, N.mod_add by lia.
        replace (N.to_nat ((i - (shift + 32)) / 32 + 1)) with (S (N.to_nat ((i - (shift + 32)) / 32))) by lia. reflexivity.
Qed.
