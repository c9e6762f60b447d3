(** Property C56, second part: which numbers float literals stand for. *)
From Coq Require Import Arith NArith ZArith String Ascii Bool List Lia.
From Verif Require Import GoBase M_Text M_WatLex S_WatLex L_WatLex L_WatNum.
From Verif Require Import M_ParseBase M_Strconv M_WatAst M_WatParse S_WatParse S_Float L_WatLit L_WatTokens L_Float P_WatParse.
Import ListNotations.
Open Scope nat_scope.

Ltac decimals := repeat first [apply wasm_one | apply wasm_more]; unfold dec_digit; cbn; lia.

Section Floats.
(** strconv.ParseFloat(s, 32), as bits; any function *)
Variable pf : text -> option N.
Notation F := (model_floats pf).

(** ParseFloat64 gives the number that Go's ParseFloat gives as a float32, as a
    float64: nothing is lost, and nothing that is not a float32 comes out. *)
Theorem float64_number : forall swap input b,
  (forall w x, pf w = Some x -> is_pattern binary32 x) ->
  fst (ParseFloat64 pf (new_lexer swap input)) = Ok b ->
  exists ts r w x, input = text_of ts ++ r /\ cut ts r /\ significant ts = [(TFloat, w)] /\ pf w = Some x /\
    is_pattern binary64 b /\ same_number binary32 binary64 x b.
Proof.
  intros swap input b Hpf H. apply float64_means in H. destruct H as (ts & r & w & x & E & C & S & P & ->).
  exists ts, r, w, x. destruct (widen_same x (Hpf _ _ P)) as [H1 H2]. auto 8.
Qed.

(** The same for f64.const in a module. *)
Theorem f64_const_number : forall w b,
  (forall w x, pf w = Some x -> is_pattern binary32 x) ->
  f64_const F (TFloat, w) b -> exists x, pf w = Some x /\ is_pattern binary64 b /\ same_number binary32 binary64 x b.
Proof.
  intros w b Hpf H. inversion H as [w' x P E1 E2|]; subst. exists x. split; [exact P|]. apply widen_same, (Hpf _ _ P).
Qed.

Lemma i32_range w z : i32_literal w z -> (Z.abs z <= 2 ^ 31)%Z.
Proof.
  intros H. destruct H as [w n z _ _ [B _]|w n _ B].
  - change (2 ^ (32 - 1))%Z with 2147483648%Z in B. change (2 ^ 31)%Z with 2147483648%Z. lia.
  - change (2 ^ 31)%Z with 2147483648%Z. change (2 ^ 31)%N with 2147483648%N in B. lia.
Qed.
Lemma i64_range w z : i64_literal w z -> (Z.abs z < 2 ^ 32)%Z.
Proof.
  intros H. destruct H as [w n _ B|w n _ B]; change (2 ^ 32)%Z with 4294967296%Z.
  - change (2 ^ 32)%N with 4294967296%N in B. lia.
  - change (2 ^ 31)%N with 2147483648%N in B. lia.
Qed.
Lemma log2_bound z k : (Z.abs z < 2 ^ Z.of_N k)%Z -> (0 < k)%N -> (N.log2 (Z.to_N (Z.abs z)) < k)%N.
Proof.
  intros H Hk. destruct (N.eq_dec (Z.to_N (Z.abs z)) 0) as [->|Hn]; [exact Hk|].
  apply N.log2_lt_pow2; [lia|]. apply N2Z.inj_lt. rewrite N2Z.inj_pow, Z2N.id by lia. exact H.
Qed.

(** An integer after f32.const is read as an int32, which gives the nearest
    float32, ties to even. *)
Theorem f32_const_nearest : forall w b, f32_const F (TInteger, w) b ->
  exists z, i32_literal w z /\ nearest binary32 z b.
Proof.
  intros w b H. inversion H as [|w' z I E1 E2]; subst. exists z. split; [exact I|].
  pose proof (i32_range w z I) as B.
  pose proof (log2_bound z 32 ltac:(change (2 ^ Z.of_N 32)%Z with 4294967296%Z; change (2 ^ 31)%Z with 2147483648%Z in B; lia) eq_refl) as L.
  apply (nearest_of binary32); cbn [fraction_bits exponent_bits binary32]; try lia.
  unfold bias. cbn [exponent_bits binary32]. change (2 ^ (8 - 1) - 1)%N with 127%N. change (2 ^ 8 - 1)%N with 255%N. lia.
Qed.

(** An integer after f64.const is read exactly. *)
Theorem f64_const_exact : forall w b, f64_const F (TInteger, w) b ->
  exists z, i64_literal w z /\ is_pattern binary64 b /\ finite binary64 b /\ units binary64 b = (z * 2 ^ 1074)%Z.
Proof.
  intros w b H. inversion H as [|w' z I E1 E2]; subst. exists z. split; [exact I|].
  pose proof (i64_range w z I) as B. pose proof (log2_bound z 32 B eq_refl) as L.
  assert (R : (N.log2 (Z.to_N (Z.abs z)) + bias binary64 + 1 < 2 ^ exponent_bits binary64 - 1)%N).
  { unfold bias. cbn [exponent_bits binary64]. change (2 ^ (11 - 1) - 1)%N with 1023%N. change (2 ^ 11 - 1)%N with 2047%N. lia. }
  apply (exact_of binary64); cbn [fraction_bits exponent_bits binary64]; try lia. exact R.
Qed.

(** Integers of 2^31 and more are read as negative numbers after f32.const. *)
Theorem f32_integers_nearest_refuted :
  ~ (forall swap w n b, wasm_unsigned w n -> token_text TInteger w -> (n < 2 ^ 32)%N ->
      accepts pf swap (txt "(module (func (f32.const " ++ w ++ txt ")))") (only_func [IF32Const b]) ->
      nearest binary32 (Z.of_N n) b).
Proof.
  intros H. specialize (H false (txt "4294967295") 4294967295%N 0xBF800000%N).
  destruct H as (_ & _ & H).
  - change 4294967295%N with (value 10 (txt "4294967295")). constructor.
    decimals.
  - apply (classify_text Reserved (txt "4294967295") PWord); vm_compute; reflexivity.
  - reflexivity.
  - vm_compute. reflexivity.
  - destruct (H 0%N) as [D _].
    + reflexivity.
    + vm_compute. discriminate.
    + vm_compute in D. now apply D.
Qed.
End Floats.

(** ** Cases that meet the hypotheses *)

(** A ParseFloat that reads the float32 next to 0.1 *)
Definition tenth (w : text) : option N := if text_eqb w (txt "0x1.99999ap-4") then Some 0x3DCCCCCD%N else None.

Example float64_number_used :
  (forall w x, tenth w = Some x -> is_pattern binary32 x) /\
  fst (ParseFloat64 tenth (new_lexer false (txt "0x1.99999ap-4"))) = Ok 0x3FB99999A0000000%N.
Proof.
  split; [|vm_compute; reflexivity]. intros w x. unfold tenth. destruct (text_eqb w _); [|discriminate].
  intros [= <-]. reflexivity.
Qed.

(** 2^24 + 1 is halfway between two floats. *)
Example f32_const_used :
  accepts tenth false (txt "(module (func (f32.const 16777217)))") (only_func [IF32Const 0x4B800000%N]) /\
  units binary32 0x4B800000%N = (16777216 * 2 ^ 149)%Z /\
  distance binary32 16777217 0x4B800000%N = distance binary32 16777217 0x4B800001%N.
Proof. split; [|split]; vm_compute; reflexivity. Qed.

Example f32_const_hypothesis : f32_const (model_floats tenth) (TInteger, txt "16777217") 0x4B800000%N.
Proof.
  change 0x4B800000%N with (int_to_32 (model_floats tenth) 16777217). apply f32_of_int.
  apply (i32_unsigned _ 16777217%N); [|reflexivity|].
  - change 16777217%N with (value 10 (txt "16777217")). constructor; [discriminate|]. decimals.
  - split; [|reflexivity]. change (2 ^ (32 - 1))%Z with 2147483648%Z. lia.
Qed.

Example f64_const_used : f64_const (model_floats tenth) (TInteger, txt "-3") 0xC008000000000000%N /\
  f64_const (model_floats tenth) (TFloat, txt "0x1.99999ap-4") 0x3FB99999A0000000%N.
Proof.
  split.
  - change 0xC008000000000000%N with (int_to_64 (model_floats tenth) (- Z.of_N 3)). apply f64_of_int.
    apply (i64_negative (txt "3") 3%N); [|discriminate].
    change 3%N with (value 10 (txt "3")). constructor; [discriminate|]. decimals.
  - change 0x3FB99999A0000000%N with (widen64 (model_floats tenth) 0x3DCCCCCD%N). apply f64_of_float. reflexivity.
Qed.

Print Assumptions float64_number.
Print Assumptions f64_const_number.
Print Assumptions f32_const_nearest.
Print Assumptions f64_const_exact.
Print Assumptions f32_integers_nearest_refuted.
