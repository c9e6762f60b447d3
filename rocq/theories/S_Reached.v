(** Specification: the texts and lists reached from a place in memory, and
    where they lie. *)
From Coq Require Import NArith List String.
From Verif Require Import GoBase M_Types M_State M_Utf S_Layout S_Utf S_Values S_Memory S_Flat S_Format S_FlatFormat.
Import ListNotations.
Open Scope N_scope.

Section Reached.
  Variable m : memory.
  (** What is claimed of the start and the length word of a text, and of the
      start of a list, the number of its elements and their size. *)
  Variable T : N -> N -> Prop.
  Variable L : N -> N -> N -> Prop.

  Definition list_reached (elem : option layout * (N -> Prop)) (start n : N) : Prop :=
    forall a sz, fst elem = Some (a, sz) -> L start n sz /\ forall i, i < n -> snd elem (start + i * sz).

  (** It is so of every text and list reached from the value of type [t] at [p]. *)
  Fixpoint reached (t : valtype) (p : N) : Prop :=
    match t with
    | TString => T (number m p 4) (number m (p + 4) 4)
    | TList t' => list_reached (sp_layout t', reached t') (number m p 4) (number m (p + 4) 4)
    | TRecord fs => rec_addressable (map (fun f => (fst f, (sp_layout (snd f), reached (snd f)))) fs) p
    | TTuple ts => rec_addressable (itoa_fields (map (fun t => (sp_layout t, reached t)) ts)) p
    | TVariant cs => var_addressable m (map (map_case (fun t => (sp_layout t, reached t))) cs) p
    | TEnum ls => var_addressable m (enum_cases ls) p
    | TOption t' => var_addressable m (option_cases (sp_layout t', reached t')) p
    | TResult ok err =>
        var_addressable m (result_cases
          (match ok with Some x => Some (sp_layout x, reached x) | None => None end)
          (match err with Some x => Some (sp_layout x, reached x) | None => None end)) p
    | TUnion ts => var_addressable m (itoa_cases (map (fun t => (sp_layout t, reached t)) ts)) p
    | _ => True
    end.

  (** The same of every text and list reached from core values. *)
  Fixpoint flat_reached (t : valtype) (cs : list cval) : Prop :=
    match t with
    | TString => forall start w, cs = [CU32 start; CU32 w] -> T start w
    | TList t' => forall start n, cs = [CU32 start; CU32 n] -> list_reached (sp_layout t', reached t') start n
    | TRecord fs => rec_flat_addressable (map (fun f => (fst f, (flattens (snd f), flat_reached (snd f)))) fs) cs
    | TTuple ts => rec_flat_addressable (itoa_fields (map (fun t => (flattens t, flat_reached t)) ts)) cs
    | TVariant xs => var_flat_addressable (map (map_case (fun t => (flattens t, flat_reached t))) xs) cs
    | TEnum ls => var_flat_addressable (enum_cases ls) cs
    | TOption t' => var_flat_addressable (option_cases (flattens t', flat_reached t')) cs
    | TResult ok err =>
        var_flat_addressable (result_cases
          (match ok with Some x => Some (flattens x, flat_reached x) | None => None end)
          (match err with Some x => Some (flattens x, flat_reached x) | None => None end)) cs
    | TUnion ts => var_flat_addressable (itoa_cases (map (fun t => (flattens t, flat_reached t)) ts)) cs
    | _ => True
    end.
End Reached.

(** The list lies inside memory. *)
Definition list_inside (m : memory) (start n sz : N) : Prop := start + n * sz <= m_len m.

(** The text lies inside memory. Whatever the encoding, the top bit of the
    length word is not part of the length. *)
Definition text_inside (enc : strenc) (m : memory) (start w : N) : Prop :=
  forall c n, text_form enc w = Some (c, n) -> start + n mod 2 ^ 31 * N.of_nat (unit_width c) <= m_len m.

(** The length word of a text leaves the top bit to latin1+utf16. *)
Definition short_text (enc : strenc) (w : N) : Prop := enc = EncLatin1Utf16 \/ w < 2 ^ 31.

(** The elements of each list inside the type are so small that one more fits
    into 2^32 bytes after [k]. *)
Fixpoint roomy (k : N) (t : valtype) : Prop :=
  match t with
  | TList t' => (forall a sz, sp_layout t' = Some (a, sz) -> k + sz <= 2 ^ 32) /\ roomy k t'
  | TRecord fs => fold_right and True (map (fun f => roomy k (snd f)) fs)
  | TTuple ts | TUnion ts => fold_right and True (map (roomy k) ts)
  | TVariant cs => fold_right and True (map (fun c => match c_type c with Some x => roomy k x | None => True end) cs)
  | TOption t' => roomy k t'
  | TResult ok err =>
      match ok with Some x => roomy k x | None => True end /\
      match err with Some x => roomy k x | None => True end
  | _ => True
  end.
