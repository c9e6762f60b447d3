(** Specification of well-formed component types, of the values of a type as
    the API represents them, and of when two values are the same. Independent
    of how values are laid out or transmitted. *)
From Coq Require Import NArith ZArith List String Bool Ascii.
From Verif Require Import GoBase M_Types M_State S_Layout S_Utf.
Import ListNotations.
Open Scope N_scope.

Definition all (l : list Prop) : Prop := fold_right and True l.

(** ** Case labels *)

(** No '|' in a label. *)
Fixpoint bar_free (s : string) : Prop :=
  match s with
  | EmptyString => True
  | String c s' => c <> "|"%char /\ bar_free s'
  end.

(** The case a case refines: the first one with the label named in [refines]. *)
Definition refined {A} (cs : list (caseOf A)) (c : caseOf A) : option (caseOf A) :=
  match c_refines c with
  | None => None
  | Some r => find (fun c' => String.eqb (c_label c') r) cs
  end.

(** Following refinements from [c] comes to an end. *)
Inductive refines_end {A} (cs : list (caseOf A)) (c : caseOf A) : Prop :=
| re_stop : refined cs c = None -> refines_end cs c
| re_step : forall c', refined cs c = Some c' -> refines_end cs c' -> refines_end cs c.

(** A key naming a case is a '|'-separated list of labels; it selects the case
    of the first label that is known. *)
Definition selects (labels : list string) (key : string) (i : nat) : Prop :=
  exists before l after,
    key = String.concat "|" (before ++ l :: after) /\
    Forall bar_free (before ++ l :: after) /\
    Forall (fun x => ~ In x labels) before /\
    nth_error labels i = Some l.

(** ** Well-formed types *)

Definition wf_cases {A} (cs : list (caseOf A)) : Prop :=
  NoDup (map c_label cs) /\ Forall (fun c => bar_free (c_label c)) cs /\
  Forall (refines_end cs) cs.

(** Labels are distinct, elements of lists have a layout, flags fit in 64
    bits. *)
Fixpoint wf_type (t : valtype) : Prop :=
  match t with
  | TList t' => wf_type t' /\ exists a s, sp_layout t' = Some (a, s) /\ s < 2 ^ 32
  | TRecord fs => NoDup (map fst fs) /\ all (map (fun f => wf_type (snd f)) fs)
  | TTuple ts => all (map wf_type ts)
  | TVariant cs =>
      wf_cases cs /\
      all (map (fun c => match c_type c with Some x => wf_type x | None => True end) cs)
  | TEnum ls => NoDup ls /\ Forall bar_free ls
  | TOption t' => wf_type t'
  | TResult ok err =>
      match ok with Some x => wf_type x | None => True end /\
      match err with Some x => wf_type x | None => True end
  | TUnion ts => all (map wf_type ts)
  | TFlags ls => NoDup ls /\ (List.length ls <= 64)%nat
  | _ => True
  end.

(** ** Values of a type *)

(** UTF-8 text, short enough for its code units to be counted in 31 bits and
    representable in the encoding. *)
Definition string_ok (enc : strenc) (s : list N) : Prop :=
  exists cs, Forall scalar_value cs /\ s = utf8_text cs /\ N.of_nat (List.length s) < 2 ^ 31 /\
    match enc with
    | EncUnknown => False
    | EncLatin1 => Forall (fun c => c < 256) cs
    | _ => True
    end.

Definition signed_range (w : N) (z : Z) : Prop := (- 2 ^ (Z.of_N w - 1) <= z < 2 ^ (Z.of_N w - 1))%Z.

(** A record is a map with a proper value under each label. *)
Definition rec_has (fs : list (string * (any -> Prop))) (v : any) : Prop :=
  exists m, v = VMap m /\
    Forall (fun f => exists x, map_get m (fst f) = Some x /\ snd f x) fs.

(** A variant is a map with a single entry, whose key selects a case and whose
    value is proper for it (nil when the case has no payload). *)
Definition var_has (cs : list (caseOf (any -> Prop))) (v : any) : Prop :=
  exists key p i c, v = VMap [(key, p)] /\
    selects (map c_label cs) key i /\ nth_error cs i = Some c /\
    match c_type c with Some P => P p | None => p = VNil end.

(** Handles and streams have no values here: what a handle denotes depends on
    the handle tables. A list must fit in a 32-bit address space. *)
Fixpoint has_type (enc : strenc) (t : valtype) (v : any) : Prop :=
  match t with
  | TBool => exists b, v = VBool b
  | TU8 => exists n, v = VU8 n /\ n < 2 ^ 8
  | TU16 => exists n, v = VU16 n /\ n < 2 ^ 16
  | TU32 => exists n, v = VU32 n /\ n < 2 ^ 32
  | TU64 => exists n, v = VU64 n /\ n < 2 ^ 64
  | TS8 => exists z, v = VS8 z /\ signed_range 8 z
  | TS16 => exists z, v = VS16 z /\ signed_range 16 z
  | TS32 => exists z, v = VS32 z /\ signed_range 32 z
  | TS64 => exists z, v = VS64 z /\ signed_range 64 z
  | TF32 => exists b, v = VF32 b /\ b < 2 ^ 32
  | TF64 => exists b, v = VF64 b /\ b < 2 ^ 64
  | TChar => exists c, v = VS32 (Z.of_N c) /\ scalar_value c
  | TString => exists s, v = VStr s /\ string_ok enc s
  | TList t' =>
      exists l a s, v = VList l /\ Forall (has_type enc t') l /\
        sp_layout t' = Some (a, s) /\ N.of_nat (List.length l) * s < 2 ^ 32 /\
        N.of_nat (List.length l) < 2 ^ 32
  | TRecord fs => rec_has (map (fun f => (fst f, has_type enc (snd f))) fs) v
  | TTuple ts => rec_has (itoa_fields (map (has_type enc) ts)) v
  | TVariant cs => var_has (map (map_case (has_type enc)) cs) v
  | TEnum ls => var_has (enum_cases ls) v
  | TOption t' => var_has (option_cases (has_type enc t')) v
  | TResult ok err =>
      var_has (result_cases
        (match ok with Some x => Some (has_type enc x) | None => None end)
        (match err with Some x => Some (has_type enc x) | None => None end)) v
  | TUnion ts => var_has (itoa_cases (map (has_type enc) ts)) v
  | TFlags ls => rec_has (map (fun l => (l, fun x => exists b, x = VBool b)) ls) v
  | TOwn _ | TBorrow _ | TStream _ _ => False
  end.

(** ** Equality of values *)

(** IEEE-754: a NaN has all exponent bits set and a non-zero fraction. *)
Definition nan32 (b : N) : Prop := b / 2 ^ 23 mod 2 ^ 8 = 2 ^ 8 - 1 /\ b mod 2 ^ 23 <> 0.
Definition nan64 (b : N) : Prop := b / 2 ^ 52 mod 2 ^ 11 = 2 ^ 11 - 1 /\ b mod 2 ^ 52 <> 0.

(** Same float, except that every NaN becomes the canonical one. *)
Definition same_f32 (b b' : N) : Prop := (nan32 b /\ b' = 0x7fc00000) \/ (~ nan32 b /\ b' = b).
Definition same_f64 (b b' : N) : Prop :=
  (nan64 b /\ b' = 0x7ff8000000000000) \/ (~ nan64 b /\ b' = b).

(** The second record has exactly the given labels, with the same values. *)
Definition rec_same (fs : list (string * (any -> any -> Prop))) (v v' : any) : Prop :=
  exists m m', v = VMap m /\ v' = VMap m' /\
    Forall (fun f => exists x x', map_get m (fst f) = Some x /\ map_get m' (fst f) = Some x' /\
                                  snd f x x') fs /\
    (forall l, map_get m' l <> None -> In l (map fst fs)).

(** Both select the same case, with the same payload. *)
Definition var_same (cs : list (caseOf (any -> any -> Prop))) (v v' : any) : Prop :=
  exists key p key' p' i c, v = VMap [(key, p)] /\ v' = VMap [(key', p')] /\
    selects (map c_label cs) key i /\ selects (map c_label cs) key' i /\
    nth_error cs i = Some c /\
    match c_type c with Some R => R p p' | None => p' = VNil end.

Fixpoint same_value (t : valtype) (v v' : any) : Prop :=
  match t with
  | TF32 => exists b b', v = VF32 b /\ v' = VF32 b' /\ same_f32 b b'
  | TF64 => exists b b', v = VF64 b /\ v' = VF64 b' /\ same_f64 b b'
  | TList t' => exists l l', v = VList l /\ v' = VList l' /\ Forall2 (same_value t') l l'
  | TRecord fs => rec_same (map (fun f => (fst f, same_value (snd f))) fs) v v'
  | TTuple ts => rec_same (itoa_fields (map same_value ts)) v v'
  | TVariant cs => var_same (map (map_case same_value) cs) v v'
  | TEnum ls => var_same (enum_cases ls) v v'
  | TOption t' => var_same (option_cases (same_value t')) v v'
  | TResult ok err =>
      var_same (result_cases
        (match ok with Some x => Some (same_value x) | None => None end)
        (match err with Some x => Some (same_value x) | None => None end)) v v'
  | TUnion ts => var_same (itoa_cases (map same_value ts)) v v'
  | TFlags ls => rec_same (map (fun l => (l, fun x x' => x' = x)) ls) v v'
  | _ => v' = v
  end.

(** ** Lists that fit *)

(** Every list in the value fits in a 32-bit address space when laid out at its
    type. Nothing else is required of the value; it need not be of type [t]. *)
Definition rec_fit (fs : list (string * (any -> Prop))) (v : any) : Prop :=
  forall m, v = VMap m -> Forall (fun f : string * (any -> Prop) => forall x, map_get m (fst f) = Some x -> snd f x) fs.
Definition var_fit (cs : list (caseOf (any -> Prop))) (v : any) : Prop :=
  forall key p i c, v = VMap [(key, p)] -> selects (map c_label cs) key i -> nth_error cs i = Some c ->
    match c_type c with Some P => P p | None => True end.

Fixpoint lists_fit (t : valtype) (v : any) : Prop :=
  match t with
  | TList t' => forall l, v = VList l ->
      Forall (lists_fit t') l /\
      forall a s, sp_layout t' = Some (a, s) -> N.of_nat (List.length l) * s < 2 ^ 32
  | TRecord fs => rec_fit (map (fun f => (fst f, lists_fit (snd f))) fs) v
  | TTuple ts => rec_fit (itoa_fields (map lists_fit ts)) v
  | TVariant cs => var_fit (map (map_case lists_fit) cs) v
  | TEnum ls => var_fit (enum_cases ls) v
  | TOption t' => var_fit (option_cases (lists_fit t')) v
  | TResult ok err =>
      var_fit (result_cases
        (match ok with Some x => Some (lists_fit x) | None => None end)
        (match err with Some x => Some (lists_fit x) | None => None end)) v
  | TUnion ts => var_fit (itoa_cases (map lists_fit ts)) v
  | _ => True
  end.

(** ** Values that may be handed to the host *)

(** A record with exactly the given labels. *)
Definition rec_exactly (fs : list (string * (any -> Prop))) (v : any) : Prop :=
  exists m, v = VMap m /\
    Forall (fun f => exists x, map_get m (fst f) = Some x /\ snd f x) fs /\
    (forall l, map_get m l <> None -> In l (map fst fs)).

(** A proper value of the type as lifting and loading must produce it:
    integers in range, NaNs canonical, chars scalar values, strings
    well-formed UTF-8, records with exactly their fields, variants with one of
    their cases. A handle is lifted to the representation, a 32-bit number. *)
Fixpoint lifted (t : valtype) (v : any) : Prop :=
  match t with
  | TBool => exists b, v = VBool b
  | TU8 => exists n, v = VU8 n /\ n < 2 ^ 8
  | TU16 => exists n, v = VU16 n /\ n < 2 ^ 16
  | TU32 => exists n, v = VU32 n /\ n < 2 ^ 32
  | TU64 => exists n, v = VU64 n /\ n < 2 ^ 64
  | TS8 => exists z, v = VS8 z /\ signed_range 8 z
  | TS16 => exists z, v = VS16 z /\ signed_range 16 z
  | TS32 => exists z, v = VS32 z /\ signed_range 32 z
  | TS64 => exists z, v = VS64 z /\ signed_range 64 z
  | TF32 => exists b, v = VF32 b /\ b < 2 ^ 32 /\ (nan32 b -> b = 0x7fc00000)
  | TF64 => exists b, v = VF64 b /\ b < 2 ^ 64 /\ (nan64 b -> b = 0x7ff8000000000000)
  | TChar => exists c, v = VS32 (Z.of_N c) /\ scalar_value c
  | TString => exists cs, v = VStr (utf8_text cs) /\ Forall scalar_value cs
  | TList t' => exists l, v = VList l /\ Forall (lifted t') l
  | TRecord fs => rec_exactly (map (fun f => (fst f, lifted (snd f))) fs) v
  | TTuple ts => rec_exactly (itoa_fields (map lifted ts)) v
  | TVariant cs => var_has (map (map_case lifted) cs) v
  | TEnum ls => var_has (enum_cases ls) v
  | TOption t' => var_has (option_cases (lifted t')) v
  | TResult ok err =>
      var_has (result_cases
        (match ok with Some x => Some (lifted x) | None => None end)
        (match err with Some x => Some (lifted x) | None => None end)) v
  | TUnion ts => var_has (itoa_cases (map lifted ts)) v
  | TFlags ls => rec_exactly (map (fun l => (l, fun x => exists b, x = VBool b)) ls) v
  | TOwn _ | TBorrow _ => exists n, v = VU32 n
  | TStream _ _ => False
  end.
