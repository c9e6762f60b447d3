(** Specification: which bytes of its place a value is written to. *)
From Coq Require Import NArith List String.
From Verif Require Import GoBase M_Types M_State S_Layout S_Values S_Memory.
Import ListNotations.
Open Scope N_scope.

(** The layout of a component and the bytes a value of it occupies, given where
    it is. *)
Notation room := (option layout * (any -> N -> N -> Prop))%type.

(** The bytes of the fields, without what lies between and after them. A field
    that is missing counts as nil. *)
Definition rec_own (fs : list (string * room)) (v : any) (p b : N) : Prop :=
  exists m ls f o, v = VMap m /\ all_some (map (fun f => fst (snd f)) fs) = Some ls /\
    In (f, o) (combine fs (field_offsets 0 ls)) /\
    snd (snd f) (match map_get m (fst f) with Some x => x | None => VNil end) (p + o) b.

(** The bytes of the discriminant and those of the payload of the case the
    value selects, without what the other cases would need. *)
Definition var_own (cs : list (caseOf room)) (v : any) (p b : N) : Prop :=
  exists d key x i, disc_size (List.length cs) = Some d /\
    v = VMap [(key, x)] /\ selects (map c_label cs) key i /\
    (within p d b \/
     exists ls c q, all_some (map fst (payload_types cs)) = Some ls /\
       nth_error cs i = Some c /\ c_type c = Some q /\ snd q x (p + payload_offset d ls) b).

(** The byte at [b] is one that the value [v] of type [t] occupies when it is
    at [p]. A text or a list occupies its pointer and its length; what it
    consists of is elsewhere. *)
Fixpoint own_bytes (t : valtype) (v : any) (p b : N) : Prop :=
  match t with
  | TBool | TU8 | TS8 => within p 1 b
  | TU16 | TS16 => within p 2 b
  | TU32 | TS32 | TF32 | TChar | TOwn _ | TBorrow _ => within p 4 b
  | TU64 | TS64 | TF64 | TString | TList _ => within p 8 b
  | TRecord fs => rec_own (map (fun f => (fst f, (sp_layout (snd f), own_bytes (snd f)))) fs) v p b
  | TTuple ts => rec_own (itoa_fields (map (fun t => (sp_layout t, own_bytes t)) ts)) v p b
  | TVariant cs => var_own (map (map_case (fun t => (sp_layout t, own_bytes t))) cs) v p b
  | TEnum ls => var_own (enum_cases ls) v p b
  | TOption t' => var_own (option_cases (sp_layout t', own_bytes t')) v p b
  | TResult ok err =>
      var_own (result_cases
        (match ok with Some x => Some (sp_layout x, own_bytes x) | None => None end)
        (match err with Some x => Some (sp_layout x, own_bytes x) | None => None end)) v p b
  | TUnion ts => var_own (itoa_cases (map (fun t => (sp_layout t, own_bytes t)) ts)) v p b
  | TFlags ls => within p (snd (sp_flags (List.length ls))) b
  | TStream _ _ => False
  end.
