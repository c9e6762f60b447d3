(** C63: the floating-point arithmetic behind the width of a discriminant and
    the number of flag words gives the integers it stands for. *)
From Coq Require Import NArith ZArith Lia List String Reals.
From Flocq Require Import IEEE754.BinarySingleNaN.
From Verif Require Import GoBase M_Types M_Layout M_AlignFloat M_LayoutFloat S_LayoutFloat L_LayoutFloat.
Open Scope N_scope.

(** How many values fit in a discriminant of each type. *)
Definition holds_up_to (t : valtype) : N :=
  match t with
  | TU8 => 2 ^ 8
  | TU16 => 2 ^ 16
  | _ => 2 ^ 24
  end.

(** C63. For any accurate logarithm and any number of cases, DiscriminantType
    gives the narrowest type that holds the cases, counting a u32 as three
    bytes wide, and an error exactly when there is none. *)
Theorem discriminant_narrowest : forall log2 n,
  accurate_log2 log2 -> N.of_nat n < 2 ^ 53 ->
  (forall t, discriminant_float log2 n = Ok t <->
     0 < N.of_nat n /\ In t (TU8 :: TU16 :: TU32 :: nil) /\ N.of_nat n <= holds_up_to t /\
     forall t', In t' (TU8 :: TU16 :: TU32 :: nil) -> N.of_nat n <= holds_up_to t' ->
       holds_up_to t <= holds_up_to t') /\
  (discriminant_float log2 n = Err EOther <-> n = 0%nat \/ 2 ^ 24 < N.of_nat n).
Proof.
  intros log2 n A Hn. rewrite (discriminant_exact log2 n A Hn). unfold discriminant_type.
  set (m := N.of_nat n). assert (Z0 : n = 0%nat <-> m = 0) by (unfold m; lia). clearbody m.
  change (2 ^ 24) with 16777216.
  split.
  - intros t. split.
    + intros H.
      destruct (N.eqb_spec m 0); [discriminate|].
      destruct (N.leb_spec m 256); [|destruct (N.leb_spec m 65536); [|destruct (N.leb_spec m 16777216); [|discriminate]]];
        injection H as <-; (split; [lia|split; [cbn; tauto|split; [cbn; lia|]]]);
        intros t' [<-|[<-|[<-|[]]]]; cbn; lia.
    + intros (P & T & F & S).
      assert (S1 := S TU8 ltac:(cbn; tauto)). assert (S2 := S TU16 ltac:(cbn; tauto)).
      assert (S3 := S TU32 ltac:(cbn; tauto)).
      destruct (N.eqb_spec m 0); [lia|].
      destruct (N.leb_spec m 256); [|destruct (N.leb_spec m 65536); [|destruct (N.leb_spec m 16777216)]];
        destruct T as [<-|[<-|[<-|[]]]]; cbn in *; try reflexivity; lia.
  - rewrite Z0. destruct (N.eqb_spec m 0); [tauto|].
    destruct (N.leb_spec m 256); [|destruct (N.leb_spec m 65536); [|destruct (N.leb_spec m 16777216)]];
      split; intros H'; try discriminate; try reflexivity; try (right; lia); destruct H'; lia.
Qed.

(** A logarithm that meets the assumption exists: the real one, rounded. *)
Example discriminant_narrowest_applies :
  accurate_log2 log2_rounded /\
  discriminant_float log2_rounded 256 = Ok TU8 /\ discriminant_float log2_rounded 257 = Ok TU16.
Proof.
  split; [exact log2_rounded_accurate|].
  split; (rewrite (discriminant_exact _ _ log2_rounded_accurate); [reflexivity|reflexivity]).
Qed.

(** Exactness at powers of two is needed: one unit in the last place above 8
    turns 256 cases into a two-byte discriminant. *)
Theorem discriminant_without_exactness_refuted :
  exists y : float64, (Rabs (B2R y - 8) <= / IZR (2 ^ 30))%R /\
    discriminant_float (fun _ => y) 256 = Ok TU16.
Proof.
  exists (B754_finite false 4503599627370497 (-49) (eq_refl : SpecFloat.bounded 53 1024 4503599627370497 (-49) = true)).
  split; [|vm_compute; reflexivity].
  unfold B2R, Flocq.Core.Defs.F2R.
  cbn [Flocq.Core.Defs.Fnum Flocq.Core.Defs.Fexp Flocq.Core.Zaux.cond_Zopp].
  change (Flocq.Core.Raux.bpow Flocq.Core.Zaux.radix2 (-49)) with (/ 562949953421312)%R.
  change (2 ^ 30)%Z with 1073741824%Z. apply Rabs_le. split; Lra.lra.
Qed.

(** C63. The number of 32-bit words for flags is the least that holds one bit
    per label. *)
Theorem flag_words_least : forall labels,
  N.of_nat (List.length labels) < 2 ^ 32 ->
  forall k, num_flags_float labels <= k <-> N.of_nat (List.length labels) <= 32 * k.
Proof.
  intros labels H k. rewrite num_flags_exact by exact H. unfold num_i32_flags.
  set (n := N.of_nat _) in *.
  pose proof (N.div_mod (n + 31) 32 ltac:(lia)). pose proof (N.mod_lt (n + 31) 32 ltac:(lia)).
  set (q := (n + 31) / 32) in *. set (r := (n + 31) mod 32) in *. clearbody q r. lia.
Qed.

(** The model's integer functions are these. *)
Theorem layout_uses_exact_integers : forall log2 n labels,
  accurate_log2 log2 -> N.of_nat n < 2 ^ 53 -> N.of_nat (List.length labels) < 2 ^ 32 ->
  discriminant_float log2 n = discriminant_type n /\
  num_flags_float labels = num_i32_flags labels.
Proof.
  intros. split; [apply discriminant_exact|apply num_flags_exact]; assumption.
Qed.

Example flag_words_applies : num_flags_float (List.repeat "a"%string 33) = 2.
Proof. vm_compute. reflexivity. Qed.

Print Assumptions discriminant_narrowest.
Print Assumptions discriminant_without_exactness_refuted.
Print Assumptions flag_words_least.
Print Assumptions layout_uses_exact_integers.
