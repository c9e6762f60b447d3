(** Specification: values that are copied from one place to another. *)
From Coq Require Import NArith List String.
From Verif Require Import GoBase M_Types M_State M_Utf S_Layout S_Utf S_Values S_Memory S_Flat S_Format S_Looks.
Import ListNotations.
Open Scope N_scope.

(** The [n] bytes from [p1] on in one memory are those from [p2] on in the other. *)
Definition copied (m1 : memory) (p1 : N) (m2 : memory) (p2 n : N) : Prop :=
  forall i, i < n -> byte m1 (p1 + i) = byte m2 (p2 + i).

Section Behind.
  Variable enc : strenc.
  Variable m : memory.

  Definition rec_behind (fs : list (string * parts)) (p b : N) : Prop :=
    exists ls f o, all_some (map (fun f => fst (snd f)) fs) = Some ls /\
      In (f, o) (combine fs (field_offsets 0 ls)) /\ snd (snd f) (p + o) b.
  Definition var_behind (cs : list (caseOf parts)) (p b : N) : Prop :=
    exists d ls c q, disc_size (List.length cs) = Some d /\ all_some (map fst (payload_types cs)) = Some ls /\
      nth_error cs (N.to_nat (number m p (N.to_nat d))) = Some c /\ c_type c = Some q /\
      snd q (p + payload_offset d ls) b.

  (** The byte at [b] belongs to a text or a list that the value of type [t] at
      [p] points to: it is part of the value but not in its place. *)
  Fixpoint behind (t : valtype) (p b : N) : Prop :=
    match t with
    | TString => text_parts enc (number m p 4) (number m (p + 4) 4) b
    | TList t' => list_parts (sp_layout t', part_of enc m t') (number m p 4) (number m (p + 4) 4) b
    | TRecord fs => rec_behind (map (fun f => (fst f, (sp_layout (snd f), behind (snd f)))) fs) p b
    | TTuple ts => rec_behind (itoa_fields (map (fun t => (sp_layout t, behind t)) ts)) p b
    | TVariant cs => var_behind (map (map_case (fun t => (sp_layout t, behind t))) cs) p b
    | TEnum ls => var_behind (enum_cases ls) p b
    | TOption t' => var_behind (option_cases (sp_layout t', behind t')) p b
    | TResult ok err =>
        var_behind (result_cases
          (match ok with Some x => Some (sp_layout x, behind x) | None => None end)
          (match err with Some x => Some (sp_layout x, behind x) | None => None end)) p b
    | TUnion ts => var_behind (itoa_cases (map (fun t => (sp_layout t, behind t)) ts)) p b
    | _ => False
    end.
End Behind.
