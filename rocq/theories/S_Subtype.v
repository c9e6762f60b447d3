(** Specification of subtyping between component types: a value read at one
    type may be handed on at another that asks for less. Records and flags may
    lose fields, and a case of a variant may be taken for one it refines. *)
From Coq Require Import NArith ZArith List String Bool.
From Verif Require Import GoBase M_Types M_State S_Layout S_Values S_Format.
Import ListNotations.
Open Scope N_scope.

Inductive opt_rel {A B} (R : A -> B -> Prop) : option A -> option B -> Prop :=
| opt_none : opt_rel R None None
| opt_some : forall a b, R a b -> opt_rel R (Some a) (Some b).

(** Of the labels [ls], most special first, the first that [labels] has is
    [l]. *)
Definition nearest (labels ls : list string) (l : string) : Prop :=
  exists before after, ls = (before ++ l :: after)%list /\ Forall (fun x => ~ In x labels) before /\ In l labels.

Definition basic (t : valtype) : Prop :=
  In t [TBool; TU8; TU16; TU32; TU64; TS8; TS16; TS32; TS64; TF32; TF64; TChar; TString].

(** [subtype t u]: values of [t] may be used where [u] is asked for. *)
Inductive subtype : valtype -> valtype -> Prop :=
| sub_basic : forall t, basic t -> subtype t t
| sub_list : forall t u, subtype t u -> subtype (TList t) (TList u)
| sub_record : forall fs gs,
    Forall (fun g => exists t, In (fst g, t) fs /\ subtype t (snd g)) gs -> subtype (TRecord fs) (TRecord gs)
| sub_variant : forall cs ds,
    (forall c ls, In c cs -> refinement_labels cs c ls ->
       exists d, In d ds /\ nearest (map c_label ds) ls (c_label d) /\ opt_rel subtype (c_type c) (c_type d)) ->
    subtype (TVariant cs) (TVariant ds)
| sub_flags : forall ls ms, incl ms ls -> subtype (TFlags ls) (TFlags ms)
| sub_special : forall t u, special t = true \/ special u = true ->
    subtype (despecialize t) (despecialize u) -> subtype t u.

(** ** Texts and lists that can be written *)

(** Every text in the value can be written in the encoding, and every list
    fits in a 32-bit address space, at type [t]. *)
Fixpoint fits (enc : strenc) (t : valtype) (v : any) : Prop :=
  match t with
  | TString => forall s, v = VStr s -> string_ok enc s
  | TList t' => forall l, v = VList l ->
      Forall (fits enc t') l /\ N.of_nat (List.length l) < 2 ^ 32 /\
      forall a s, sp_layout t' = Some (a, s) -> N.of_nat (List.length l) * s < 2 ^ 32
  | TRecord fs => rec_fit (map (fun f => (fst f, fits enc (snd f))) fs) v
  | TTuple ts => rec_fit (itoa_fields (map (fits enc) ts)) v
  | TVariant cs => var_fit (map (map_case (fits enc)) cs) v
  | TEnum ls => var_fit (enum_cases ls) v
  | TOption t' => var_fit (option_cases (fits enc t')) v
  | TResult ok err =>
      var_fit (result_cases
        (match ok with Some x => Some (fits enc x) | None => None end)
        (match err with Some x => Some (fits enc x) | None => None end)) v
  | TUnion ts => var_fit (itoa_cases (map (fits enc) ts)) v
  | _ => True
  end.
