(** Specification of the Go values that can be passed at a component type: the
    dynamic types, not the ranges. *)
From Coq Require Import NArith ZArith List String.
From Verif Require Import GoBase M_Types M_State S_Values.
Import ListNotations.
Open Scope N_scope.

Definition go_signed (v : any) : Prop :=
  exists z, v = VS8 z \/ v = VS16 z \/ v = VS32 z \/ v = VS64 z.
(** Go's int and uint, whose width depends on the machine *)
Definition go_int (v : any) : Prop := exists z n, v = VInt z \/ v = VUint n.

(** The Go type of the same width and sign. *)
Definition exact_number (t : valtype) (v : any) : Prop :=
  match t with
  | TU8 => exists n, v = VU8 n
  | TU16 => exists n, v = VU16 n
  | TU32 => exists n, v = VU32 n
  | TU64 => exists n, v = VU64 n
  | TS8 => exists z, v = VS8 z
  | TS16 => exists z, v = VS16 z
  | TS32 => exists z, v = VS32 z
  | TS64 => exists z, v = VS64 z
  | TOwn _ | TBorrow _ => exists n, v = VU32 n
  | _ => False
  end.

(** What is let through when only the sign is compared: signed integers of any
    width at a signed type; at an unsigned type everything but signed integers,
    int and uint, even values that are not numbers. *)
Definition loose_number (t : valtype) (v : any) : Prop :=
  match t with
  | TU8 | TU16 | TU32 | TU64 => ~ go_signed v /\ ~ go_int v
  | TS8 | TS16 | TS32 | TS64 => go_signed v
  | _ => False
  end.

(** A record is a map; a missing entry counts as nil. *)
Definition rec_shaped (fs : list (string * (any -> Prop))) (v : any) : Prop :=
  exists m, v = VMap m /\
    Forall (fun f => snd f (match map_get m (fst f) with Some x => x | None => VNil end)) fs.

(** A variant is a map with a single entry whose key selects a case. *)
Definition var_shaped (cs : list (caseOf (any -> Prop))) (v : any) : Prop :=
  exists key p i c, v = VMap [(key, p)] /\ selects (map c_label cs) key i /\ nth_error cs i = Some c /\
    match c_type c with Some P => P p | None => True end.

(** [nums] says what is accepted for integers and handles; inside lists it is
    always the loose rule. *)
Fixpoint shaped (nums : valtype -> any -> Prop) (t : valtype) (v : any) : Prop :=
  match t with
  | TBool => exists b, v = VBool b
  | TF32 => exists b, v = VF32 b
  | TF64 => exists b, v = VF64 b
  | TChar => exists r, v = VS32 r
  | TString => exists s, v = VStr s
  | TList t' => exists l, v = VList l /\ Forall (shaped loose_number t') l
  | TRecord fs => rec_shaped (map (fun f => (fst f, shaped nums (snd f))) fs) v
  | TTuple ts => rec_shaped (itoa_fields (map (shaped nums) ts)) v
  | TVariant cs => var_shaped (map (map_case (shaped nums)) cs) v
  | TEnum ls => var_shaped (enum_cases ls) v
  | TOption t' => var_shaped (option_cases (shaped nums t')) v
  | TResult ok err =>
      var_shaped (result_cases
        (match ok with Some x => Some (shaped nums x) | None => None end)
        (match err with Some x => Some (shaped nums x) | None => None end)) v
  | TUnion ts => var_shaped (itoa_cases (map (shaped nums) ts)) v
  | TFlags ls => rec_shaped (map (fun l => (l, fun x => exists b, x = VBool b)) ls) v
  | _ => nums t v
  end.

Definition storable := shaped loose_number.
Definition lowerable := shaped exact_number.
