(** Specification of what is asked of the guest's allocator for a value, and of
    where bytes may change whatever the allocator answers. *)
From Coq Require Import NArith ZArith String Bool List.
From Verif Require Import GoBase M_Types M_State M_Utf S_Layout S_Utf S_Values S_Memory S_Format.
Import ListNotations.
Open Scope N_scope.

(** A request for a new block: there is no old block. *)
Definition new_block (align size : N) : req := mkReq 0 0 align size.

(** The form in which a text is written in an encoding: latin1+utf16 uses
    Latin-1 if it can. *)
Definition text_written (enc : strenc) (cs : list N) (c : codec) : Prop :=
  match enc with
  | EncUtf8 => c = CUtf8
  | EncUtf16 | EncUtf16LE => c = CUtf16 false
  | EncUtf16BE => c = CUtf16 true
  | EncLatin1 => c = CLatin1
  | EncLatin1Utf16 => (Forall (fun x => x < 256) cs -> c = CLatin1) /\ (~ Forall (fun x => x < 256) cs -> c = CUtf16 false)
  | EncUnknown => False
  end.

Section Asks.
  Variable enc : strenc.

  (** One block for a text, of the size of the encoded text. *)
  Definition text_asks (v : any) (rs : list req) : Prop :=
    exists cs c, Forall scalar_value cs /\ v = VStr (utf8_text cs) /\ text_written enc cs c /\ expressible c cs /\
      N.of_nat (List.length (text_bytes c cs)) < 2 ^ 32 /\
      rs = [new_block (text_align c) (N.of_nat (List.length (text_bytes c cs)))].

  (** One block for the elements of a list, then what the elements need. *)
  Definition list_asks (lay : option layout) (elem : any -> list req -> Prop) (v : any) (rs : list req) : Prop :=
    exists l a sz parts, v = VList l /\ lay = Some (a, sz) /\ N.of_nat (List.length l) * sz < 2 ^ 32 /\
      Forall2 elem l parts /\ rs = new_block a (N.of_nat (List.length l) * sz) :: List.concat parts.

  (** What the fields need, in the order of the fields. *)
  Definition rec_asks (fs : list (string * (any -> list req -> Prop))) (v : any) (rs : list req) : Prop :=
    exists m parts, v = VMap m /\
      Forall2 (fun f part => exists x, map_get m (fst f) = Some x /\ snd f x part) fs parts /\ rs = List.concat parts.

  (** What the payload of the case needs. *)
  Definition var_asks (cs : list (caseOf (any -> list req -> Prop))) (v : any) (rs : list req) : Prop :=
    exists key x i c, v = VMap [(key, x)] /\ selects (map c_label cs) key i /\ nth_error cs i = Some c /\
      match c_type c with Some P => P x rs | None => rs = [] end.

  (** The requests, first to last, that passing [v] at type [t] takes. *)
  Fixpoint asks (t : valtype) (v : any) (rs : list req) : Prop :=
    match t with
    | TString => text_asks v rs
    | TList t' => list_asks (sp_layout t') (asks t') v rs
    | TRecord fs => rec_asks (map (fun f => (fst f, asks (snd f))) fs) v rs
    | TTuple ts => rec_asks (itoa_fields (map asks ts)) v rs
    | TVariant cs => var_asks (map (map_case asks) cs) v rs
    | TEnum ls => var_asks (enum_cases ls) v rs
    | TOption t' => var_asks (option_cases (asks t')) v rs
    | TResult ok err =>
        var_asks (result_cases
          (match ok with Some x => Some (asks x) | None => None end)
          (match err with Some x => Some (asks x) | None => None end)) v rs
    | TUnion ts => var_asks (itoa_cases (map asks ts)) v rs
    | _ => rs = []
    end.
End Asks.

(** The requests made between two states, first to last. *)
Definition made (s s' : state) (rs : list req) : Prop :=
  exists blocks, s_hist s' = (blocks ++ s_hist s)%list /\ rev (map fst blocks) = rs.

(** The [n] addresses from [p] on, in a 32-bit address space that goes round. *)
Definition around (p n b : N) : Prop := exists k, k < n /\ b = (p + k) mod 2 ^ 32.

(** The allocator itself writes only to the bytes [own]; it may answer with any
    pointer, fail, grow or shrink memory. *)
Definition writes_only (own : N -> Prop) (cx : callctx) : Prop :=
  forall r s o m w, cx_realloc cx r s = (o, (m, w)) ->
    forall b, byte m b <> byte (s_mem s) b -> own b.

(** Every byte that changed is one of [own], of [dest], or of a block that was
    asked for in between, as the allocator answered. *)
Definition changes_only (own dest : N -> Prop) (s s' : state) : Prop :=
  exists blocks, s_hist s' = (blocks ++ s_hist s)%list /\
    forall b, byte (s_mem s') b <> byte (s_mem s) b ->
      own b \/ dest b \/ exists r q, In (r, q) blocks /\ around q (r_size r) b.
