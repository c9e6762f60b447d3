(** Specification of the flat format: which core values stand for which
    component value. Written after the Canonical ABI, independent of the code
    that lifts and lowers. *)
From Coq Require Import NArith ZArith List String Bool.
From Verif Require Import GoBase M_Types M_State M_Utf S_Layout S_Utf S_Values S_Memory S_Flat S_Format.
Import ListNotations.
Open Scope N_scope.

(** The bit pattern of a core value and the number of its bits. *)
Definition core_bits (c : cval) : N := match c with CU32 n | CU64 n | CF32 n | CF64 n => n end.
Definition core_width (k : kind) : N := match k with KU32 | KF32 => 32 | KU64 | KF64 => 64 end.
Definition kinds (cs : list cval) : list kind := map cval_kind cs.

(** [d] is passed in the place of [c]: its low bits are those of [c]. In
    canonical form it has no others. *)
Definition conveys (strict : Prop) (d c : cval) : Prop :=
  core_bits c = core_bits d mod 2 ^ core_width (cval_kind c) /\ (strict -> core_bits d = core_bits c).

(** Which core types a component is passed as, and which core values stand for
    which value. *)
Notation fpart := ((list kind -> Prop) * (list cval -> any -> Prop))%type.

Section FlatFormat.
  (** As in [holds]: what counts as text, as the name of a case, and whether
      only the canonical form will do. *)
  Variable T : codec -> list N -> list N -> Prop.
  Variable K : forall A, list (caseOf A) -> nat -> string -> Prop.
  Variable strict : Prop.
  Variable enc : strenc.
  Variable m : memory.

  (** The fields of a record follow one another. *)
  Definition rec_stands (fs : list (string * fpart)) (cs : list cval) (v : any) : Prop :=
    exists fields css, v = VMap fields /\ cs = List.concat css /\
      Forall2 (fun f ps => fst (snd f) (kinds ps) /\
                 exists x, map_get fields (fst f) = Some x /\ snd (snd f) ps x) fs css /\
      (forall l, map_get fields l <> None -> In l (map fst fs)).

  (** The number of the case, the payload, and core values without meaning. *)
  Definition var_stands (fs : list (caseOf fpart)) (cs : list cval) (v : any) : Prop :=
    exists i rest c key x, cs = CU32 (N.of_nat i) :: rest /\ v = VMap [(key, x)] /\
      nth_error fs i = Some c /\ K _ fs i key /\
      exists ps,
        match c_type c with
        | Some q => fst q (kinds ps) /\ snd q ps x
        | None => ps = [] /\ x = VNil
        end /\
        Forall2 (conveys strict) (firstn (List.length ps) rest) ps /\
        (strict -> Forall (fun d => core_bits d = 0) (skipn (List.length ps) rest)).

  (** The core values [cs] stand for the value [v] of type [t]. *)
  Fixpoint stands (t : valtype) (cs : list cval) (v : any) : Prop :=
    match t with
    | TBool => exists n b, cs = [CU32 n] /\ v = VBool b /\ (b = true <-> n <> 0) /\ (strict -> n <= 1)
    | TU8 => exists n, cs = [CU32 n] /\ v = VU8 (n mod 2 ^ 8) /\ (strict -> n < 2 ^ 8)
    | TU16 => exists n, cs = [CU32 n] /\ v = VU16 (n mod 2 ^ 16) /\ (strict -> n < 2 ^ 16)
    | TU32 => exists n, cs = [CU32 n] /\ v = VU32 n
    | TU64 => exists n, cs = [CU64 n] /\ v = VU64 n
    | TS8 => exists n z, cs = [CU32 n] /\ v = VS8 z /\ twos 8 (n mod 2 ^ 8) z /\ (strict -> twos 32 n z)
    | TS16 => exists n z, cs = [CU32 n] /\ v = VS16 z /\ twos 16 (n mod 2 ^ 16) z /\ (strict -> twos 32 n z)
    | TS32 => exists n z, cs = [CU32 n] /\ v = VS32 z /\ twos 32 n z
    | TS64 => exists n z, cs = [CU64 n] /\ v = VS64 z /\ twos 64 n z
    | TF32 => exists n b, cs = [CF32 n] /\ v = VF32 b /\ same_f32 n b /\ (strict -> nan32 n -> n = 0x7fc00000)
    | TF64 => exists n b, cs = [CF64 n] /\ v = VF64 b /\ same_f64 n b /\ (strict -> nan64 n -> n = 0x7ff8000000000000)
    | TChar => exists n, cs = [CU32 n] /\ v = VS32 (Z.of_N n) /\ scalar_value n
    | TString => exists start w, cs = [CU32 start; CU32 w] /\ string_at T enc m start w v
    | TList t' =>
        exists start n, cs = [CU32 start; CU32 n] /\ list_at m (sp_layout t', holds T K strict enc m t') start n v
    | TRecord fs => rec_stands (map (fun f => (fst f, (flattens (snd f), stands (snd f)))) fs) cs v
    | TTuple ts => rec_stands (itoa_fields (map (fun t => (flattens t, stands t)) ts)) cs v
    | TVariant xs => var_stands (map (map_case (fun t => (flattens t, stands t))) xs) cs v
    | TEnum ls => var_stands (enum_cases ls) cs v
    | TOption t' => var_stands (option_cases (flattens t', stands t')) cs v
    | TResult ok err =>
        var_stands (result_cases
          (match ok with Some x => Some (flattens x, stands x) | None => None end)
          (match err with Some x => Some (flattens x, stands x) | None => None end)) cs v
    | TUnion ts => var_stands (itoa_cases (map (fun t => (flattens t, stands t)) ts)) cs v
    | TFlags ls =>
        exists ws fields, cs = map CU32 ws /\ v = VMap fields /\
          (forall i l, nth_error ls i = Some l ->
             map_get fields l = Some (VBool (N.testbit (nth (i / 32) ws 0) (N.of_nat (i mod 32))))) /\
          (forall l, map_get fields l <> None -> In l ls) /\
          (strict -> forall i w j, nth_error ws i = Some w -> N.testbit w (N.of_nat j) = true ->
             (32 * i + j < List.length ls)%nat)
    | TOwn _ | TBorrow _ | TStream _ _ => False
    end.
End FlatFormat.

(** The core values stand for the value, with well-formed texts; cases may be
    named in any way that selects them. *)
Definition stands_exactly (enc : strenc) := stands encodes (@some_label) False enc.
(** ... and in canonical form. *)
Definition stands_canonically (enc : strenc) := stands encodes (@some_label) True enc.
(** The value is the reading of the core values, in the form the API gives it. *)
Definition lifts_as (enc : strenc) := stands decodes (@full_label) False enc.
(** The core values can be read at the type. *)
Definition liftable (enc : strenc) (m : memory) (t : valtype) (cs : list cval) : Prop :=
  exists v, stands (fun _ _ _ => True) (fun _ _ _ _ => True) False enc m t cs v.

(** ** Data that stay inside a 32-bit address space *)
Section FlatAddressable.
  Variable enc : strenc.
  Variable m : memory.
  Notation apart := ((list kind -> Prop) * (list cval -> Prop))%type.
  Definition rec_flat_addressable (fs : list (string * apart)) (cs : list cval) : Prop :=
    forall css, cs = List.concat css -> Forall2 (fun f ps => fst (snd f) (kinds ps)) fs css ->
      Forall2 (fun f ps => snd (snd f) ps) fs css.
  Definition var_flat_addressable (fs : list (caseOf apart)) (cs : list cval) : Prop :=
    forall i rest c q ps, cs = CU32 (N.of_nat i) :: rest -> nth_error fs i = Some c -> c_type c = Some q ->
      fst q (kinds ps) -> Forall2 (conveys False) (firstn (List.length ps) rest) ps -> snd q ps.

  (** No string claims 2^31 or more code units, and no string or list a range
      reaching beyond 2^32. *)
  Fixpoint flat_addressable (t : valtype) (cs : list cval) : Prop :=
    match t with
    | TString => forall start w, cs = [CU32 start; CU32 w] -> string_addressable enc start w
    | TList t' => forall start n, cs = [CU32 start; CU32 n] ->
        list_addressable (sp_layout t', addressable enc m t') start n
    | TRecord fs => rec_flat_addressable (map (fun f => (fst f, (flattens (snd f), flat_addressable (snd f)))) fs) cs
    | TTuple ts => rec_flat_addressable (itoa_fields (map (fun t => (flattens t, flat_addressable t)) ts)) cs
    | TVariant xs => var_flat_addressable (map (map_case (fun t => (flattens t, flat_addressable t))) xs) cs
    | TEnum ls => var_flat_addressable (enum_cases ls) cs
    | TOption t' => var_flat_addressable (option_cases (flattens t', flat_addressable t')) cs
    | TResult ok err =>
        var_flat_addressable (result_cases
          (match ok with Some x => Some (flattens x, flat_addressable x) | None => None end)
          (match err with Some x => Some (flattens x, flat_addressable x) | None => None end)) cs
    | TUnion ts => var_flat_addressable (itoa_cases (map (fun t => (flattens t, flat_addressable t)) ts)) cs
    | _ => True
    end.
End FlatAddressable.
