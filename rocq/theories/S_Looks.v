(** Specification: which bytes of memory a value is made of. *)
From Coq Require Import NArith List String.
From Verif Require Import GoBase M_Types M_State M_Utf S_Layout S_Utf S_Values S_Memory S_Flat S_Format S_FlatFormat.
Import ListNotations.
Open Scope N_scope.

(** The byte at [b] is one of the [n] from [p] on. *)
Definition among (p n b : N) : Prop := p <= b < p + n.

(** The layout of a component and which bytes it is made of, given where it is. *)
Notation parts := (option layout * (N -> N -> Prop))%type.

Section Parts.
  Variable enc : strenc.
  Variable m : memory.

  (** The bytes of the fields, without what lies between and after them. *)
  Definition rec_parts (fs : list (string * parts)) (p b : N) : Prop :=
    exists ls f o, all_some (map (fun f => fst (snd f)) fs) = Some ls /\
      In (f, o) (combine fs (field_offsets 0 ls)) /\ snd (snd f) (p + o) b.

  (** The bytes of the discriminant and those of the payload of the case it
      says, without what the other cases would need. *)
  Definition var_parts (cs : list (caseOf parts)) (p b : N) : Prop :=
    exists d, disc_size (List.length cs) = Some d /\
      (among p d b \/
       exists ls c q, all_some (map fst (payload_types cs)) = Some ls /\
         nth_error cs (N.to_nat (number m p (N.to_nat d))) = Some c /\ c_type c = Some q /\
         snd q (p + payload_offset d ls) b).

  Definition text_parts (start w b : N) : Prop :=
    exists c n, text_form enc w = Some (c, n) /\ among start (n * N.of_nat (unit_width c)) b.
  Definition list_parts (elem : parts) (start n b : N) : Prop :=
    exists a sz i, fst elem = Some (a, sz) /\ i < n /\ snd elem (start + i * sz) b.

  (** The byte at [b] belongs to the value of type [t] at [p]: to its fields
      or to what they point to. *)
  Fixpoint part_of (t : valtype) (p b : N) : Prop :=
    match t with
    | TBool | TU8 | TS8 => among p 1 b
    | TU16 | TS16 => among p 2 b
    | TU32 | TS32 | TF32 | TChar | TOwn _ | TBorrow _ => among p 4 b
    | TU64 | TS64 | TF64 => among p 8 b
    | TString => among p 8 b \/ text_parts (number m p 4) (number m (p + 4) 4) b
    | TList t' => among p 8 b \/ list_parts (sp_layout t', part_of t') (number m p 4) (number m (p + 4) 4) b
    | TRecord fs => rec_parts (map (fun f => (fst f, (sp_layout (snd f), part_of (snd f)))) fs) p b
    | TTuple ts => rec_parts (itoa_fields (map (fun t => (sp_layout t, part_of t)) ts)) p b
    | TVariant cs => var_parts (map (map_case (fun t => (sp_layout t, part_of t))) cs) p b
    | TEnum ls => var_parts (enum_cases ls) p b
    | TOption t' => var_parts (option_cases (sp_layout t', part_of t')) p b
    | TResult ok err =>
        var_parts (result_cases
          (match ok with Some x => Some (sp_layout x, part_of x) | None => None end)
          (match err with Some x => Some (sp_layout x, part_of x) | None => None end)) p b
    | TUnion ts => var_parts (itoa_cases (map (fun t => (sp_layout t, part_of t)) ts)) p b
    | TFlags ls => among p (snd (sp_flags (List.length ls))) b
    | TStream _ _ => False
    end.
End Parts.

(** The same for a value passed as core values: what its texts and lists are
    made of. *)
Notation fparts := ((list kind -> Prop) * (list cval -> N -> Prop))%type.

Section FlatParts.
  Variable enc : strenc.
  Variable m : memory.

  Definition rec_flat_parts (fs : list (string * fparts)) (cs : list cval) (b : N) : Prop :=
    exists css f ps, cs = List.concat css /\ Forall2 (fun f ps => fst (snd f) (kinds ps)) fs css /\      In (f, ps) (combine fs css) /\ snd (snd f) ps b.
  Definition var_flat_parts (fs : list (caseOf fparts)) (cs : list cval) (b : N) : Prop :=
    exists i rest c q ps, cs = CU32 (N.of_nat i) :: rest /\ nth_error fs i = Some c /\ c_type c = Some q /\      fst q (kinds ps) /\ Forall2 (conveys False) (firstn (List.length ps) rest) ps /\ snd q ps b.

  Fixpoint flat_part_of (t : valtype) (cs : list cval) (b : N) : Prop :=
    match t with
    | TString => exists start w, cs = [CU32 start; CU32 w] /\ text_parts enc start w b
    | TList t' => exists start n, cs = [CU32 start; CU32 n] /\ list_parts (sp_layout t', part_of enc m t') start n b
    | TRecord fs => rec_flat_parts (map (fun f => (fst f, (flattens (snd f), flat_part_of (snd f)))) fs) cs b
    | TTuple ts => rec_flat_parts (itoa_fields (map (fun t => (flattens t, flat_part_of t)) ts)) cs b
    | TVariant xs => var_flat_parts (map (map_case (fun t => (flattens t, flat_part_of t))) xs) cs b
    | TEnum ls => var_flat_parts (enum_cases ls) cs b
    | TOption t' => var_flat_parts (option_cases (flattens t', flat_part_of t')) cs b
    | TResult ok err =>
        var_flat_parts (result_cases
          (match ok with Some x => Some (flattens x, flat_part_of x) | None => None end)
          (match err with Some x => Some (flattens x, flat_part_of x) | None => None end)) cs b
    | TUnion ts => var_flat_parts (itoa_cases (map (fun t => (flattens t, flat_part_of t)) ts)) cs b
    | _ => False
    end.
End FlatParts.

(** No text or list inside the type: nothing points elsewhere. *)
Fixpoint inline (t : valtype) : Prop :=
  match t with
  | TString | TList _ => False
  | TRecord fs => fold_right and True (map (fun f => inline (snd f)) fs)
  | TTuple ts | TUnion ts => fold_right and True (map inline ts)
  | TVariant cs => fold_right and True (map (fun c => match c_type c with Some x => inline x | None => True end) cs)
  | TOption t' => inline t'
  | TResult ok err =>
      match ok with Some x => inline x | None => True end /\
      match err with Some x => inline x | None => True end
  | _ => True
  end.

(** Two memories of one length have the same bytes wherever [P]. *)
Definition same_at (m1 m2 : memory) (P : N -> Prop) : Prop :=
  m_len m1 = m_len m2 /\ forall b, b < m_len m1 -> P b -> byte m1 b = byte m2 b.
