(** Specification of the memory format of component values: which bytes stand
    for which value of a type. Written after the Canonical ABI, independent of
    the code that loads and stores. *)
From Coq Require Import NArith ZArith List String Bool.
From Verif Require Import GoBase M_Types M_State M_Utf S_Layout S_Utf S_Values S_Memory.
Import ListNotations.
Open Scope N_scope.

(** ** Texts *)

(** The bytes of a text in each encoding: code units in the given byte order. *)
Definition unit16_le (u : N) : list N := [u mod 256; u / 256].
Definition unit16_be (u : N) : list N := [u / 256; u mod 256].
Definition text_bytes (c : codec) (cs : list N) : list N :=
  match c with
  | CUtf8 => utf8_text cs
  | CUtf16 false => flat_map unit16_le (flat_map sp_utf16 cs)
  | CUtf16 true => flat_map unit16_be (flat_map sp_utf16 cs)
  | CLatin1 => cs
  end.
Definition expressible (c : codec) (cs : list N) : Prop :=
  match c with CLatin1 => Forall (fun x => x < 256) cs | _ => True end.
Definition unit_width (c : codec) : nat := match c with CUtf16 _ => 2 | _ => 1 end.

(** Text data start at a multiple of this. *)
Definition text_align (c : codec) : N := match c with CUtf8 => 1 | _ => 2 end.

(** How the length word of a string is read: the form of the text and the
    number of code units. In latin1+utf16 the top bit says that the text is in
    UTF-16. *)
Definition text_form (enc : strenc) (w : N) : option (codec * N) :=
  match enc with
  | EncUtf8 => Some (CUtf8, w)
  | EncUtf16 | EncUtf16LE => Some (CUtf16 false, w)
  | EncUtf16BE => Some (CUtf16 true, w)
  | EncLatin1 => Some (CLatin1, w)
  | EncLatin1Utf16 => if w <? 2 ^ 31 then Some (CLatin1, w) else Some (CUtf16 false, w - 2 ^ 31)
  | EncUnknown => None
  end.

(** [bs] is the encoding of the string (in the API strings are UTF-8). *)
Definition encodes (c : codec) (bs s : list N) : Prop :=
  exists cs, Forall scalar_value cs /\ expressible c cs /\ bs = text_bytes c cs /\ s = utf8_text cs.

(** The string is a text, and the one [bs] encodes if [bs] encodes any. What
    ill-formed bytes are replaced by is left open. *)
Definition decodes (c : codec) (bs s : list N) : Prop :=
  (exists cs, Forall scalar_value cs /\ s = utf8_text cs) /\
  forall s', encodes c bs s' -> s' = s.

(** ** Names of cases *)

(** A case is written as its label followed by those of the cases it refines. *)
Inductive refinement_labels {A} (cs : list (caseOf A)) : caseOf A -> list string -> Prop :=
| rl_stop : forall c, refined cs c = None -> refinement_labels cs c [c_label c]
| rl_step : forall c c' ls, refined cs c = Some c' -> refinement_labels cs c' ls ->
    refinement_labels cs c (c_label c :: ls).
Definition full_label {A} (cs : list (caseOf A)) (i : nat) (key : string) : Prop :=
  exists c ls, nth_error cs i = Some c /\ refinement_labels cs c ls /\ key = String.concat "|" ls.
Definition some_label {A} (cs : list (caseOf A)) (i : nat) (key : string) : Prop :=
  selects (map c_label cs) key i.

(** ** Values *)

(** [n] bytes of memory. *)
Definition bytes_at (m : memory) (p n : N) : list N :=
  map (fun k => byte m (p + N.of_nat k)) (seq 0 (N.to_nat n)).

(** [z] is the signed number with the [w]-bit two's complement pattern [n]. *)
Definition twos (w n : N) (z : Z) : Prop := signed_range w z /\ (z mod 2 ^ Z.of_N w = Z.of_N n)%Z.

(** The layout of a component and what it is to find a value at an address. *)
Notation part := (option layout * (N -> any -> Prop))%type.

Section Format.
  (** What counts as text and as the name of a case. *)
  Variable T : codec -> list N -> list N -> Prop.
  Variable K : forall A, list (caseOf A) -> nat -> string -> Prop.
  (** Whether only the canonical bytes will do: 0 or 1 for a bool, the canonical
      NaN, no bits beyond the flags. *)
  Variable strict : Prop.
  Variable enc : strenc.
  Variable m : memory.

  Definition rec_holds (fs : list (string * part)) (p : N) (v : any) : Prop :=
    exists fields ls, v = VMap fields /\ all_some (map (fun f => fst (snd f)) fs) = Some ls /\
      Forall2 (fun f o => exists x, map_get fields (fst f) = Some x /\ snd (snd f) (p + o) x)
        fs (field_offsets 0 ls) /\
      (forall l, map_get fields l <> None -> In l (map fst fs)).

  Definition var_holds (cs : list (caseOf part)) (p : N) (v : any) : Prop :=
    exists d ls i c key x, v = VMap [(key, x)] /\
      disc_size (List.length cs) = Some d /\ all_some (map fst (payload_types cs)) = Some ls /\
      number m p (N.to_nat d) = N.of_nat i /\ nth_error cs i = Some c /\ K _ cs i key /\
      match c_type c with
      | Some q => snd q (p + payload_offset d ls) x
      | None => x = VNil
      end.

  (** The text at [start] whose length word is [w]. *)
  Definition string_at (start w : N) (v : any) : Prop :=
    exists c n s, v = VStr s /\ text_form enc w = Some (c, n) /\
      let size := n * N.of_nat (unit_width c) in
      (text_align c | start) /\ start + size <= m_len m /\ T c (bytes_at m start size) s.

  (** [n] elements, one after the other from [start] on. *)
  Definition list_at (elem : part) (start n : N) (v : any) : Prop :=
    exists a sz l, v = VList l /\ fst elem = Some (a, sz) /\
      N.of_nat (List.length l) = n /\
      (a | start) /\ start + N.of_nat (List.length l) * sz <= m_len m /\
      forall i x, nth_error l i = Some x -> snd elem (start + N.of_nat i * sz) x.

  (** Memory holds the value [v] of type [t] at address [p]. *)
  Fixpoint holds (t : valtype) (p : N) (v : any) : Prop :=
    match t with
    | TBool => exists b, v = VBool b /\ (b = true <-> number m p 1 <> 0) /\ (strict -> number m p 1 <= 1)
    | TU8 => v = VU8 (number m p 1)
    | TU16 => v = VU16 (number m p 2)
    | TU32 => v = VU32 (number m p 4)
    | TU64 => v = VU64 (number m p 8)
    | TS8 => exists z, v = VS8 z /\ twos 8 (number m p 1) z
    | TS16 => exists z, v = VS16 z /\ twos 16 (number m p 2) z
    | TS32 => exists z, v = VS32 z /\ twos 32 (number m p 4) z
    | TS64 => exists z, v = VS64 z /\ twos 64 (number m p 8) z
    | TF32 =>
        exists b, v = VF32 b /\ same_f32 (number m p 4) b /\
          (strict -> nan32 (number m p 4) -> number m p 4 = 0x7fc00000)
    | TF64 =>
        exists b, v = VF64 b /\ same_f64 (number m p 8) b /\
          (strict -> nan64 (number m p 8) -> number m p 8 = 0x7ff8000000000000)
    | TChar => v = VS32 (Z.of_N (number m p 4)) /\ scalar_value (number m p 4)
    | TString => string_at (number m p 4) (number m (p + 4) 4) v
    | TList t' => list_at (sp_layout t', holds t') (number m p 4) (number m (p + 4) 4) v
    | TRecord fs => rec_holds (map (fun f => (fst f, (sp_layout (snd f), holds (snd f)))) fs) p v
    | TTuple ts => rec_holds (itoa_fields (map (fun t => (sp_layout t, holds t)) ts)) p v
    | TVariant cs => var_holds (map (map_case (fun t => (sp_layout t, holds t))) cs) p v
    | TEnum ls => var_holds (enum_cases ls) p v
    | TOption t' => var_holds (option_cases (sp_layout t', holds t')) p v
    | TResult ok err =>
        var_holds (result_cases
          (match ok with Some x => Some (sp_layout x, holds x) | None => None end)
          (match err with Some x => Some (sp_layout x, holds x) | None => None end)) p v
    | TUnion ts => var_holds (itoa_cases (map (fun t => (sp_layout t, holds t)) ts)) p v
    | TFlags ls =>
        exists fields, v = VMap fields /\
          (forall i l, nth_error ls i = Some l ->
             map_get fields l
             = Some (VBool (N.testbit (number m p (N.to_nat (snd (sp_flags (List.length ls))))) (N.of_nat i)))) /\
          (forall l, map_get fields l <> None -> In l ls) /\
          (strict -> number m p (N.to_nat (snd (sp_flags (List.length ls)))) < 2 ^ N.of_nat (List.length ls))
    | TOwn _ | TBorrow _ | TStream _ _ => False
    end.
End Format.

(** Memory holds the value with well-formed texts; cases may be named in any
    way that selects them. *)
Definition holds_exactly (enc : strenc) := holds encodes (@some_label) False enc.
(** ... and in canonical form. *)
Definition holds_canonically (enc : strenc) := holds encodes (@some_label) True enc.
(** The value is the reading of memory, in the form the API gives to it. *)
Definition reads_as (enc : strenc) := holds decodes (@full_label) False enc.
(** Memory can be read at the type: discriminants are in range, chars are
    scalar values, lists and texts are aligned and inside memory. *)
Definition readable (enc : strenc) (m : memory) (t : valtype) (p : N) : Prop :=
  exists v, holds (fun _ _ _ => True) (fun _ _ _ _ => True) False enc m t p v.

(** ** Data that stay inside a 32-bit address space *)
Section Addressable.
  Variable enc : strenc.
  Variable m : memory.
  Definition rec_addressable (fs : list (string * (option layout * (N -> Prop)))) (p : N) : Prop :=
    forall ls, all_some (map (fun f => fst (snd f)) fs) = Some ls ->
      Forall2 (fun f o => snd (snd f) (p + o)) fs (field_offsets 0 ls).
  Definition var_addressable (cs : list (caseOf (option layout * (N -> Prop)))) (p : N) : Prop :=
    forall d ls c, disc_size (List.length cs) = Some d ->
      all_some (map fst (payload_types cs)) = Some ls ->
      nth_error cs (N.to_nat (number m p (N.to_nat d))) = Some c ->
      match c_type c with Some q => snd q (p + payload_offset d ls) | None => True end.

  Definition string_addressable (start w : N) : Prop :=
    (enc = EncLatin1Utf16 \/ w < 2 ^ 31) /\
    forall c n, text_form enc w = Some (c, n) -> start + n * N.of_nat (unit_width c) < 2 ^ 32.
  Definition list_addressable (elem : option layout * (N -> Prop)) (start n : N) : Prop :=
    forall a sz, fst elem = Some (a, sz) ->
      start + n * sz < 2 ^ 32 /\ forall i, i < n -> snd elem (start + i * sz).

  (** No string found from [p] on claims 2^31 or more code units, and no string
      or list a range reaching beyond 2^32. *)
  Fixpoint addressable (t : valtype) (p : N) : Prop :=
    match t with
    | TString => string_addressable (number m p 4) (number m (p + 4) 4)
    | TList t' => list_addressable (sp_layout t', addressable t') (number m p 4) (number m (p + 4) 4)
    | TRecord fs => rec_addressable (map (fun f => (fst f, (sp_layout (snd f), addressable (snd f)))) fs) p
    | TTuple ts => rec_addressable (itoa_fields (map (fun t => (sp_layout t, addressable t)) ts)) p
    | TVariant cs => var_addressable (map (map_case (fun t => (sp_layout t, addressable t))) cs) p
    | TEnum ls => var_addressable (enum_cases ls) p
    | TOption t' => var_addressable (option_cases (sp_layout t', addressable t')) p
    | TResult ok err =>
        var_addressable (result_cases
          (match ok with Some x => Some (sp_layout x, addressable x) | None => None end)
          (match err with Some x => Some (sp_layout x, addressable x) | None => None end)) p
    | TUnion ts => var_addressable (itoa_cases (map (fun t => (sp_layout t, addressable t)) ts)) p
    | _ => True
    end.
End Addressable.
