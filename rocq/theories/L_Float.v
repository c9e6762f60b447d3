(** Proofs for [S_Float]: widening is exact, integers go to the nearest float. *)
From Coq Require Import NArith ZArith Bool Lia.
From Verif Require Import GoBase M_Text M_Strconv M_WatParse S_Float.
Open Scope N_scope.

Lemma pow_pos k : 0 < 2 ^ k.
Proof. apply N.neq_0_lt_0, N.pow_nonzero. discriminate. Qed.

(** ** The fields of a pattern *)
Section Fields.
Variable f : format.
Notation m := (fraction_bits f).
Notation w := (exponent_bits f).

Definition pattern (s e x : N) : N := s * 2 ^ (m + w) + e * 2 ^ m + x.

Lemma pattern_fields s e x : e < 2 ^ w -> x < 2 ^ m ->
  sign_field f (pattern s e x) = s /\ exponent_field f (pattern s e x) = e /\ fraction_field f (pattern s e x) = x.
Proof.
  intros He Hx. unfold sign_field, exponent_field, fraction_field, pattern.
  pose proof (pow_pos m) as Pm. pose proof (pow_pos w) as Pw. pose proof (pow_pos (m + w)) as Pmw.
  rewrite N.pow_add_r in *.
  assert (Q : (s * (2 ^ m * 2 ^ w) + e * 2 ^ m + x) / 2 ^ m = s * 2 ^ w + e).
  { symmetry. apply (N.div_unique _ _ _ x); [exact Hx|]. ring. }
  repeat split.
  - symmetry. apply (N.div_unique _ _ _ (e * 2 ^ m + x)); [nia|ring].
  - rewrite Q. symmetry. apply (N.mod_unique _ _ s); [exact He|ring].
  - symmetry. apply (N.mod_unique _ _ (s * 2 ^ w + e)); [exact Hx|ring].
Qed.

Lemma pattern_ok s e x : s < 2 -> e < 2 ^ w -> x < 2 ^ m -> is_pattern f (pattern s e x).
Proof.
  intros Hs He Hx. unfold is_pattern, pattern. rewrite !N.pow_add_r. change (2 ^ 1) with 2.
  pose proof (pow_pos m). pose proof (pow_pos w). nia.
Qed.

Lemma pattern_of b : is_pattern f b -> exists s e x, s < 2 /\ e < 2 ^ w /\ x < 2 ^ m /\ b = pattern s e x.
Proof.
  intros H. unfold is_pattern in H. pose proof (pow_pos m) as Pm. pose proof (pow_pos w) as Pw.
  exists (b / 2 ^ m / 2 ^ w), (b / 2 ^ m mod 2 ^ w), (b mod 2 ^ m).
  assert (N2 : 2 ^ m <> 0) by lia. assert (N3 : 2 ^ w <> 0) by lia.
  pose proof (N.div_mod b (2 ^ m) N2) as D1. pose proof (N.div_mod (b / 2 ^ m) (2 ^ w) N3) as D2.
  split; [|split; [now apply N.mod_lt|split; [now apply N.mod_lt|]]].
  - rewrite N.div_div by assumption. apply N.div_lt_upper_bound; [nia|].
    rewrite !N.pow_add_r in H. change (2 ^ 1) with 2 in H. nia.
  - unfold pattern. rewrite N.pow_add_r. nia.
Qed.

Lemma magnitude_pattern s e x : e < 2 ^ w -> x < 2 ^ m ->
  magnitude f (pattern s e x) = if e =? 0 then x else (2 ^ m + x) * 2 ^ (e - 1).
Proof. intros He Hx. unfold magnitude. destruct (pattern_fields s e x He Hx) as (_ & -> & ->). reflexivity. Qed.

Lemma units_pattern s e x : e < 2 ^ w -> x < 2 ^ m ->
  units f (pattern s e x) =
    let n := Z.of_N (if e =? 0 then x else (2 ^ m + x) * 2 ^ (e - 1)) in if s =? 0 then n else (- n)%Z.
Proof.
  intros He Hx. unfold units. rewrite magnitude_pattern by assumption.
  destruct (pattern_fields s e x He Hx) as (-> & _). reflexivity.
Qed.

(** ** The nearest pattern *)
Hypothesis Hm : 1 <= m.
Hypothesis Hw : 2 <= w.
Notation K := (places f).
Definition bias : N := 2 ^ (w - 1) - 1.

Lemma bias_pos : 1 <= bias.
Proof.
  unfold bias. assert (H : 2 ^ 1 <= 2 ^ (w - 1)) by (apply N.pow_le_mono_r; lia). change (2 ^ 1) with 2 in H. lia.
Qed.
Lemma places_bias : K = bias - 1 + m.
Proof. unfold places, bias. lia. Qed.

(** A significand up to and including 2^(m+1) with an exponent *)
Lemma significand s e sig : e + bias + 1 < 2 ^ w - 1 -> 2 ^ m <= sig <= 2 ^ (m + 1) ->
  exists e' x, e' < 2 ^ w - 1 /\ x < 2 ^ m /\
    s * 2 ^ (m + w) + (e + bias) * 2 ^ m + sig - 2 ^ m = pattern s e' x /\
    (if e' =? 0 then x else (2 ^ m + x) * 2 ^ (e' - 1)) = sig * 2 ^ (e + bias - 1).
Proof.
  intros He Hs. pose proof (pow_pos m) as Pm. pose proof bias_pos as Hb.
  rewrite N.pow_add_r in Hs. change (2 ^ 1) with 2 in Hs.
  destruct (N.eq_dec sig (2 ^ m * 2)) as [->|Hne].
  - exists (e + bias + 1), 0. split; [lia|]. split; [lia|]. split; [unfold pattern; nia|].
    destruct (N.eqb_spec (e + bias + 1) 0) as [E|_]; [lia|].
    replace (e + bias + 1 - 1) with (N.succ (e + bias - 1)) by lia. rewrite N.pow_succ_r'. ring.
  - exists (e + bias), (sig - 2 ^ m). split; [lia|]. split; [lia|]. split; [unfold pattern; nia|].
    destruct (N.eqb_spec (e + bias) 0) as [E|_]; [lia|]. replace (2 ^ m + (sig - 2 ^ m)) with sig by lia. reflexivity.
Qed.

(** Numbers of at least 2^e are multiples of 2^(e-m). *)
Lemma coarse b e : is_pattern f b -> finite f b -> 2 ^ (e + K) <= magnitude f b ->
  exists j, magnitude f b = j * 2 ^ (e + bias - 1).
Proof.
  intros Hp Hf H. destruct (pattern_of b Hp) as (s & e' & x & Hs & He & Hx & ->).
  rewrite magnitude_pattern in * by assumption. pose proof bias_pos as Hb.
  rewrite places_bias in H.
  assert (Pm : 2 ^ m * 2 ^ (e + bias - 1) = 2 ^ (e + (bias - 1 + m))) by (rewrite <- N.pow_add_r; f_equal; lia).
  destruct (N.eqb_spec e' 0) as [E|E].
  - exfalso. rewrite <- Pm in H. pose proof (pow_pos (e + bias - 1)). nia.
  - assert (L : e + bias - 1 <= e' - 1).
    { destruct (N.le_gt_cases (e + bias - 1) (e' - 1)) as [L|L]; [exact L|exfalso].
      assert (2 ^ (e' - 1) * 2 <= 2 ^ (e + bias - 1)).
      { replace (2 ^ (e' - 1) * 2) with (2 ^ N.succ (e' - 1)) by (rewrite N.pow_succ_r'; ring).
        apply N.pow_le_mono_r; lia. }
      rewrite <- Pm in H. nia. }
    exists ((2 ^ m + x) * 2 ^ (e' - 1 - (e + bias - 1))). rewrite <- N.mul_assoc, <- N.pow_add_r.
    do 2 f_equal. lia.
Qed.

(** Rounding [a = q * d + r] to a multiple of [d], ties to even *)
Definition rounded (a d : N) : N :=
  let q := a / d in let r := a mod d in
  if (d <? 2 * r) || ((d =? 2 * r) && N.odd q) then q + 1 else q.

Lemma rounded_nearest a d j : 0 < d ->
  (Z.abs (Z.of_N a - Z.of_N (rounded a d * d)) <= Z.abs (Z.of_N a - Z.of_N (j * d)))%Z /\
  (Z.abs (Z.of_N a - Z.of_N (rounded a d * d)) = Z.abs (Z.of_N a - Z.of_N (j * d)) -> rounded a d <> j ->
   N.even (rounded a d) = true)%Z.
Proof.
  intros Hd. unfold rounded. pose proof (N.div_mod a d ltac:(lia)) as D. pose proof (N.mod_lt a d ltac:(lia)) as L.
  set (q := a / d) in *. set (r := a mod d) in *. clearbody q r. subst a.
  assert (C : j <= q \/ q + 1 <= j) by lia.
  destruct (N.ltb_spec d (2 * r)) as [H1|H1]; cbn [orb].
  - split; [|intros E Hne; exfalso; revert E].
    + destruct C; nia.
    + destruct C as [C|C]; [nia|]. intros E. assert (q + 1 = j \/ q + 2 <= j) as [X|X] by lia; [congruence|nia].
  - destruct (N.eqb_spec d (2 * r)) as [H2|H2]; cbn [andb].
    + destruct (N.odd q) eqn:O.
      * split; [destruct C; nia|]. intros _ _. now rewrite N.add_1_r, N.even_succ.
      * split; [destruct C; nia|]. intros _ _. now rewrite <- N.negb_odd, O.
    + split; [destruct C; nia|]. intros E Hne. exfalso. revert E.
      destruct C as [C|C]; [|nia]. assert (q = j \/ j + 1 <= q) as [X|X] by lia; [congruence|nia].
Qed.

Lemma rounded_range a e : N.log2 a = e -> 0 < a -> m < e -> 2 ^ m <= rounded a (2 ^ (e - m)) <= 2 ^ (m + 1).
Proof.
  intros <- Ha He. destruct (N.log2_spec a Ha) as [L U]. set (e := N.log2 a) in *.
  pose proof (pow_pos (e - m)) as Pd.
  assert (E1 : 2 ^ e = 2 ^ (e - m) * 2 ^ m) by (rewrite <- N.pow_add_r; f_equal; lia).
  assert (E2 : 2 ^ N.succ e = 2 ^ (e - m) * 2 ^ (m + 1)) by (rewrite <- N.pow_add_r; f_equal; lia).
  assert (Q1 : 2 ^ m <= a / 2 ^ (e - m)) by (apply N.div_le_lower_bound; lia).
  assert (Q2 : a / 2 ^ (e - m) < 2 ^ (m + 1)) by (apply N.div_lt_upper_bound; lia).
  unfold rounded. destruct (_ || _); lia.
Qed.

Definition near (a : N) (b : N) : Prop :=
  forall b', is_pattern f b' -> finite f b' ->
    (Z.abs (Z.of_N a * 2 ^ Z.of_N K - Z.of_N (magnitude f b)) <=
     Z.abs (Z.of_N a * 2 ^ Z.of_N K - Z.of_N (magnitude f b')))%Z /\
    (Z.abs (Z.of_N a * 2 ^ Z.of_N K - Z.of_N (magnitude f b)) =
     Z.abs (Z.of_N a * 2 ^ Z.of_N K - Z.of_N (magnitude f b')) -> magnitude f b <> magnitude f b' -> N.even b = true)%Z.

Lemma near_exact a b : magnitude f b = a * 2 ^ K -> near a b.
Proof.
  intros E b' _ _. rewrite E, N2Z.inj_mul, N2Z.inj_pow. change (Z.of_N 2) with 2%Z. rewrite Z.sub_diag. split; [lia|].
  intros H Hne. exfalso. apply Hne. apply N2Z.inj. rewrite N2Z.inj_mul, N2Z.inj_pow. change (Z.of_N 2) with 2%Z. lia.
Qed.

Lemma float_bits_near z : N.log2 (Z.to_N (Z.abs z)) + bias + 1 < 2 ^ w - 1 ->
  is_pattern f (float_bits m w z) /\ finite f (float_bits m w z) /\ near (Z.to_N (Z.abs z)) (float_bits m w z) /\
  (sign_field f (float_bits m w z) =? 0) = negb (z <? 0)%Z.
Proof.
  intros Hlog. pose proof (pow_pos m) as Pm. pose proof bias_pos as Hb.
  assert (P2w : 2 ^ w - 1 < 2 ^ w) by (pose proof (pow_pos w); lia).
  unfold float_bits. destruct (Z.eqb_spec z 0) as [->|Hz].
  { assert (E0 : 0 = pattern 0 0 0) by reflexivity.
    assert (Pw : 0 < 2 ^ w - 1) by lia.
    destruct (pattern_fields 0 0 0 (pow_pos w) (pow_pos m)) as (F1 & F2 & F3).
    split; [rewrite E0; apply pattern_ok; lia|]. split; [unfold finite, all_ones; rewrite E0, F2; lia|].
    split; [|rewrite E0, F1; reflexivity].
    apply near_exact. rewrite E0, magnitude_pattern by lia. reflexivity. }
  set (a := Z.to_N (Z.abs z)) in *. assert (Ha : 0 < a) by lia.
  set (e := N.log2 a) in *. fold bias.
  set (s := if (z <? 0)%Z then 1 else 0).
  replace (if (z <? 0)%Z then 2 ^ (m + w) else 0) with (s * 2 ^ (m + w)) by (unfold s; destruct (z <? 0)%Z; lia).
  assert (Hs : s < 2) by (unfold s; destruct (z <? 0)%Z; lia).
  assert (Fin : forall e' x, e' < 2 ^ w - 1 -> x < 2 ^ m ->
    is_pattern f (pattern s e' x) /\ finite f (pattern s e' x) /\ (sign_field f (pattern s e' x) =? 0) = negb (z <? 0)%Z).
  { intros e' x H1 H2. destruct (pattern_fields s e' x ltac:(lia) H2) as (F1 & F2 & _).
    split; [apply pattern_ok; lia|]. split; [unfold finite, all_ones; rewrite F2; lia|].
    rewrite F1. unfold s. now destruct (z <? 0)%Z. }
  destruct (N.log2_spec a Ha) as [L U]. fold e in L, U.
  destruct (N.leb_spec e m) as [Hle|Hgt].
  - assert (R : 2 ^ m <= a * 2 ^ (m - e) <= 2 ^ (m + 1)).
    { replace (2 ^ (m + 1)) with (2 ^ N.succ e * 2 ^ (m - e)) by (rewrite <- N.pow_add_r; f_equal; lia).
      replace (2 ^ m) with (2 ^ e * 2 ^ (m - e)) by (rewrite <- N.pow_add_r; f_equal; lia).
      pose proof (pow_pos (m - e)). nia. }
    destruct (significand s e _ Hlog R) as (e' & x & H1 & H2 & -> & H4).
    destruct (Fin e' x H1 H2) as (F1 & F2 & F3). split; [exact F1|]. split; [exact F2|]. split; [|exact F3].
    apply near_exact. rewrite magnitude_pattern by lia. rewrite H4, <- N.mul_assoc, <- N.pow_add_r.
    rewrite places_bias. do 2 f_equal. lia.
  - pose proof (rounded_range a e eq_refl Ha Hgt) as R.
    change (if (2 ^ (e - m) <? 2 * (a mod 2 ^ (e - m))) || (2 ^ (e - m) =? 2 * (a mod 2 ^ (e - m))) && N.odd (a / 2 ^ (e - m))
            then a / 2 ^ (e - m) + 1 else a / 2 ^ (e - m)) with (rounded a (2 ^ (e - m))).
    destruct (significand s e _ Hlog R) as (e' & x & H1 & H2 & H3 & H4). rewrite H3.
    destruct (Fin e' x H1 H2) as (F1 & F2 & F3). split; [exact F1|]. split; [exact F2|]. split; [|exact F3].
    assert (Hev : N.even (pattern s e' x) = N.even (rounded a (2 ^ (e - m)))).
    { rewrite <- H3. set (g := rounded a (2 ^ (e - m))) in *.
      replace (s * 2 ^ (m + w) + (e + bias) * 2 ^ m + g - 2 ^ m) with (g + 2 * ((s * 2 ^ w + (e + bias - 1)) * 2 ^ (m - 1))).
      - rewrite N.even_add, N.even_mul. cbn [orb N.even]. now destruct (N.even g).
      - replace (2 ^ (m + w)) with (2 * 2 ^ (m - 1) * 2 ^ w) by (rewrite <- N.pow_succ_r', <- N.pow_add_r; f_equal; lia).
        replace (2 ^ m) with (2 * 2 ^ (m - 1)) by (rewrite <- N.pow_succ_r'; f_equal; lia).
        pose proof (pow_pos (m - 1)). nia. }
    intros b' Hb' Fb'. rewrite Hev, magnitude_pattern by lia. rewrite H4.
    assert (ED : 2 ^ (e + bias - 1) = 2 ^ (e - m) * 2 ^ K) by (rewrite <- N.pow_add_r, places_bias; f_equal; lia).
    pose proof (pow_pos K) as PK. pose proof (pow_pos (e - m)) as Pd.
    set (d := 2 ^ (e - m)) in *. set (g := rounded a d) in *.
    replace (2 ^ Z.of_N K)%Z with (Z.of_N (2 ^ K)) by now rewrite N2Z.inj_pow.
    assert (S : forall j : N, (Z.abs (Z.of_N a * Z.of_N (2 ^ K)%N - Z.of_N (j * 2 ^ (e + bias - 1))%N) =
                               Z.abs (Z.of_N a - Z.of_N (j * d)%N) * Z.of_N (2 ^ K)%N)%Z).
    { intros j. rewrite ED. set (k := 2 ^ K) in *. rewrite !N2Z.inj_mul. rewrite <- (Z.abs_eq (Z.of_N k)) at 3 by lia.
      rewrite <- Z.abs_mul. f_equal. ring. }
    rewrite S.
    destruct (N.le_gt_cases (2 ^ (e + K)) (magnitude f b')) as [G|G].
    + destruct (coarse b' e Hb' Fb' G) as (j & ->). rewrite S.
      destruct (rounded_nearest a d j Pd) as [N1 N2]. fold g in N1, N2.
      assert (Pk : (0 < Z.of_N (2 ^ K)%N)%Z) by lia.
      split; [apply Z.mul_le_mono_nonneg_r; [lia|exact N1]|].
      intros E Hne. apply N2; [apply (Z.mul_reg_r _ _ _ (Z.neq_sym _ _ (Z.lt_neq _ _ Pk)) E)|]. intros X. apply Hne. now rewrite X.
    + destruct (rounded_nearest a d (2 ^ m) Pd) as [N1 _]. fold g in N1.
      assert (E2 : 2 ^ m * d = 2 ^ e) by (unfold d; rewrite <- N.pow_add_r; f_equal; lia).
      rewrite E2 in N1. rewrite N.pow_add_r in G. set (k := 2 ^ K) in *. set (p := 2 ^ e) in *.
      set (mb := magnitude f b') in *. clearbody mb k p.
      set (t := Z.abs (Z.of_N a - Z.of_N (g * d))) in *. clearbody t.
      assert (X1 : (t * Z.of_N k <= (Z.of_N a - Z.of_N p) * Z.of_N k)%Z) by (apply Z.mul_le_mono_nonneg_r; lia).
      assert (X2 : ((Z.of_N a - Z.of_N p) * Z.of_N k < Z.of_N a * Z.of_N k - Z.of_N mb)%Z) by lia.
      split; [lia|]. intros E. lia.
Qed.

Lemma nearest_of z : N.log2 (Z.to_N (Z.abs z)) + bias + 1 < 2 ^ w - 1 -> nearest f z (float_bits m w z).
Proof.
  intros H. destruct (float_bits_near z H) as (P1 & P2 & P3 & P4). split; [exact P1|]. split; [exact P2|].
  set (b := float_bits m w z) in *. clearbody b.
  assert (E0 : is_pattern f 0 /\ finite f 0 /\ magnitude f 0 = 0).
  { assert (E : 0 = pattern 0 0 0) by reflexivity. pose proof bias_pos. pose proof (pow_pos m). pose proof (pow_pos w).
    assert (0 < 2 ^ w - 1) by lia.
    destruct (pattern_fields 0 0 0) as (F1 & F2 & F3); try lia.
    split; [rewrite E; apply pattern_ok; lia|]. split; [unfold finite, all_ones; rewrite E, F2; lia|].
    rewrite E, magnitude_pattern by lia. reflexivity. }
  destruct E0 as (Z1 & Z2 & Z3).
  intros b' Hb' Fb'. destruct (P3 b' Hb' Fb') as [N1 N2]. destruct (P3 0 Z1 Z2) as [N3 N4]. rewrite Z3 in N3, N4.
  unfold distance, units. rewrite P4.
  set (u := (2 ^ Z.of_N K)%Z) in *. assert (Pu : (0 < u)%Z) by (unfold u; apply Z.pow_pos_nonneg; lia). clearbody u.
  set (x := magnitude f b) in *. set (x' := magnitude f b') in *. clearbody x x'.
  set (a := Z.to_N (Z.abs z)) in *. assert (Ea : Z.of_N a = Z.abs z) by lia. clearbody a. rewrite Ea in *.
  destruct (sign_field f b' =? 0); destruct (Z.ltb_spec z 0) as [Hz|Hz]; cbn [negb];
    (first [rewrite (Z.abs_neq z) in * by lia | rewrite (Z.abs_eq z) in * by lia]).
  - split; [nia|]. intros E Hne. apply N4; [nia|]. intros ->. apply Hne. nia.
  - split; [exact N1|]. intros E Hne. apply N2; [exact E|]. congruence.
  - split; [nia|]. intros E Hne. apply N2; [nia|]. intros ->. now apply Hne.
  - split; [nia|]. intros E Hne. apply N4; [nia|]. intros ->. apply Hne. nia.
Qed.

(** Integers with no more bits than the significand are exact. *)
Lemma exact_of z : N.log2 (Z.to_N (Z.abs z)) + bias + 1 < 2 ^ w - 1 -> N.log2 (Z.to_N (Z.abs z)) <= m ->
  is_pattern f (float_bits m w z) /\ finite f (float_bits m w z) /\
  (units f (float_bits m w z) = z * 2 ^ Z.of_N K)%Z.
Proof.
  intros H Hle. destruct (nearest_of z H) as (P1 & P2 & _). destruct (float_bits_near z H) as (_ & _ & _ & P4).
  split; [exact P1|]. split; [exact P2|]. unfold units. rewrite P4.
  assert (X : magnitude f (float_bits m w z) = Z.to_N (Z.abs z) * 2 ^ K).
  { clear P1 P2 P4. pose proof (pow_pos m) as Pm. pose proof bias_pos as Hb.
    assert (P2w : 2 ^ w - 1 < 2 ^ w) by (pose proof (pow_pos w); lia).
    unfold float_bits. destruct (Z.eqb_spec z 0) as [->|Hz].
    { change 0 with (pattern 0 0 0) at 1. rewrite magnitude_pattern by lia. reflexivity. }
    set (a := Z.to_N (Z.abs z)) in *. assert (Ha : 0 < a) by lia. set (e := N.log2 a) in *. fold bias.
    replace (if (z <? 0)%Z then 2 ^ (m + w) else 0) with ((if (z <? 0)%Z then 1 else 0) * 2 ^ (m + w)) by (destruct (z <? 0)%Z; lia).
    destruct (N.log2_spec a Ha) as [L U]. fold e in L, U. destruct (N.leb_spec e m) as [_|Hgt]; [|lia].
    assert (R : 2 ^ m <= a * 2 ^ (m - e) <= 2 ^ (m + 1)).
    { replace (2 ^ (m + 1)) with (2 ^ N.succ e * 2 ^ (m - e)) by (rewrite <- N.pow_add_r; f_equal; lia).
      replace (2 ^ m) with (2 ^ e * 2 ^ (m - e)) by (rewrite <- N.pow_add_r; f_equal; lia).
      pose proof (pow_pos (m - e)). nia. }
    destruct (significand (if (z <? 0)%Z then 1 else 0) e _ H R) as (e' & x & H1 & H2 & -> & H4).
    rewrite magnitude_pattern by lia. rewrite H4, <- N.mul_assoc, <- N.pow_add_r.
    rewrite places_bias. do 2 f_equal. lia. }
  rewrite X, N2Z.inj_mul, N2Z.inj_pow. change (Z.of_N 2) with 2%Z. set (u := (2 ^ Z.of_N K)%Z).
  rewrite Z2N.id by lia. destruct (Z.ltb_spec z 0); cbn [negb]; [rewrite Z.abs_neq by lia|rewrite Z.abs_eq by lia]; ring.
Qed.
End Fields.

(** ** Widening *)
Lemma land_ones_mod b k : N.land b (2 ^ k - 1) = b mod 2 ^ k.
Proof. rewrite <- N.land_ones. f_equal. rewrite N.ones_equiv. lia. Qed.

Lemma widen_fields s e x : s < 2 -> e < 2 ^ 8 -> x < 2 ^ 23 ->
  widen (pattern binary32 s e x) =
  if e =? 255 then pattern binary64 s 2047 (if x =? 0 then 0 else N.lor (x * 2 ^ 29) (2 ^ 51))
  else if e =? 0 then
    if x =? 0 then pattern binary64 s 0 0
    else pattern binary64 s (N.log2 x + 874) ((x - 2 ^ N.log2 x) * 2 ^ (52 - N.log2 x))
  else pattern binary64 s (e + 896) (x * 2 ^ 29).
Proof.
  intros Hs He Hx. destruct (pattern_fields binary32 s e x He Hx) as (F1 & F2 & F3).
  unfold sign_field, exponent_field, fraction_field in *. cbn [fraction_bits exponent_bits binary32] in *.
  unfold widen. change 255 with (2 ^ 8 - 1). change 8388607 with (2 ^ 23 - 1). rewrite !land_ones_mod.
  rewrite !N.shiftr_div_pow2, !N.shiftl_mul_pow2. change (23 + 8) with 31 in F1. rewrite F1, F2, F3.
  unfold pattern. cbn [fraction_bits exponent_bits binary64]. change (52 + 11) with 63.
  change (2 ^ 8 - 1) with 255.
  destruct (e =? 255); [reflexivity|]. destruct (e =? 0); [|reflexivity]. destruct (x =? 0); [ring|reflexivity].
Qed.

Lemma nan_fraction x : x < 2 ^ 23 -> 0 < N.lor (x * 2 ^ 29) (2 ^ 51) < 2 ^ 52.
Proof.
  intros H. split.
  - apply N.neq_0_lt_0. intros E. apply N.lor_eq_0_iff in E. destruct E as [_ E]. discriminate.
  - assert (H1 : x * 2 ^ 29 < 2 ^ 52) by (change (2 ^ 52) with (2 ^ 23 * 2 ^ 29); nia).
    apply N.log2_lt_pow2; [apply N.neq_0_lt_0; intros E; apply N.lor_eq_0_iff in E; destruct E as [_ E]; discriminate|].
    rewrite N.log2_lor. apply N.max_lub_lt; [|reflexivity].
    destruct (N.eq_dec x 0) as [->|Hx]; [reflexivity|]. apply N.log2_lt_pow2; [|exact H1]. nia.
Qed.

Lemma widen_same b : is_pattern binary32 b ->
  is_pattern binary64 (widen b) /\ same_number binary32 binary64 b (widen b).
Proof.
  intros Hb. destruct (pattern_of binary32 b Hb) as (s & e & x & Hs & He & Hx & ->).
  cbn [fraction_bits exponent_bits binary32] in He, Hx.
  rewrite widen_fields by assumption.
  destruct (pattern_fields binary32 s e x He Hx) as (F1 & F2 & F3).
  assert (G : forall e' x', e' < 2 ^ 11 -> x' < 2 ^ 52 ->
    ((e = 255 /\ x <> 0) <-> (e' = 2047 /\ x' <> 0)) -> ((e = 255 /\ x = 0) <-> (e' = 2047 /\ x' = 0)) ->
    (e <> 255 -> (if e =? 0 then x else (2 ^ 23 + x) * 2 ^ (e - 1)) * 2 ^ 925 =
                 (if e' =? 0 then x' else (2 ^ 52 + x') * 2 ^ (e' - 1))) ->
    is_pattern binary64 (pattern binary64 s e' x') /\ same_number binary32 binary64 (pattern binary32 s e x) (pattern binary64 s e' x')).
  { intros e' x' He' Hx' H1 H2 H3. split; [apply pattern_ok; assumption|].
    destruct (pattern_fields binary64 s e' x' He' Hx') as (G1 & G2 & G3).
    unfold same_number, not_a_number, infinite, finite. rewrite F1, F2, F3, G1, G2, G3.
    change (all_ones binary32) with 255. change (all_ones binary64) with 2047.
    split; [exact H1|]. split; [exact H2|]. split; [reflexivity|]. intros Fi. specialize (H3 Fi).
    rewrite !units_pattern by assumption. cbn [fraction_bits binary32 binary64]. rewrite <- H3. cbv zeta.
    change (Z.of_N (places binary64)) with 1074%Z. change (Z.of_N (places binary32)) with 149%Z.
    rewrite N2Z.inj_mul, N2Z.inj_pow. change (Z.of_N 2) with 2%Z. change (Z.of_N 925) with 925%Z.
    replace (2 ^ 1074)%Z with (2 ^ 925 * 2 ^ 149)%Z by (rewrite <- Z.pow_add_r by lia; reflexivity).
    set (p := (2 ^ 925)%Z). set (q := (2 ^ 149)%Z). clearbody p q. destruct (s =? 0); ring. }
  destruct (N.eqb_spec e 255) as [E|E].
  { destruct (N.eqb_spec x 0) as [X|X].
    - apply G; try reflexivity; intuition lia.
    - pose proof (nan_fraction x Hx). apply G; try reflexivity; intuition lia. }
  destruct (N.eqb_spec e 0) as [E0|E0].
  { destruct (N.eqb_spec x 0) as [X|X].
    - apply G; try reflexivity; try (intuition lia). intros _. subst. reflexivity.
    - assert (Px : 0 < x) by lia. destruct (N.log2_spec x Px) as [L U].
      assert (K : N.log2 x < 23) by (apply N.log2_lt_pow2; assumption). set (k := N.log2 x) in *. clearbody k.
      assert (Sh : 2 ^ k * 2 ^ (52 - k) = 2 ^ 52) by (rewrite <- N.pow_add_r; f_equal; lia).
      rewrite N.pow_succ_r' in U.
      assert (B : (x - 2 ^ k) * 2 ^ (52 - k) < 2 ^ 52) by (rewrite <- Sh; pose proof (pow_pos (52 - k)); nia).
      apply G; [change (2 ^ 11) with 2048; lia|exact B|split; intros; lia|split; intros; lia|].
      intros _. destruct (N.eqb_spec (k + 874) 0) as [X0|_]; [lia|].
      replace (2 ^ 52 + (x - 2 ^ k) * 2 ^ (52 - k)) with (x * 2 ^ (52 - k)) by (rewrite <- Sh; nia).
      rewrite <- N.mul_assoc, <- N.pow_add_r. do 2 f_equal. lia. }
  change (2 ^ 8) with 256 in He.
  assert (B : x * 2 ^ 29 < 2 ^ 52) by (change (2 ^ 52) with (2 ^ 23 * 2 ^ 29); nia).
  apply G; [change (2 ^ 11) with 2048; lia|exact B|split; intros; lia|split; intros; lia|].
  intros _. destruct (N.eqb_spec (e + 896) 0) as [X0|_]; [lia|].
  replace (2 ^ 52 + x * 2 ^ 29) with ((2 ^ 23 + x) * 2 ^ 29) by (change (2 ^ 52) with (2 ^ 23 * 2 ^ 29); ring).
  rewrite <- !N.mul_assoc, <- !N.pow_add_r. do 2 f_equal. lia.
Qed.
