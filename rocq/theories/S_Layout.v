(** Specification of memory layout, independent of the code: the Canonical
    ABI's alignment and size rules over unbounded natural numbers. *)
From Coq Require Import NArith List String Bool.
From Verif Require Import M_Types.
Import ListNotations.
Open Scope N_scope.

(** [y] is the least multiple of [a] that is at least [x]. *)
Definition least_multiple (a x y : N) : Prop :=
  (a | y) /\ x <= y /\ forall z, (a | z) -> x <= z -> y <= z.

(** That number, computed. *)
Definition up_to (a x : N) : N := a * ((x + a - 1) / a).

(** Alignment and size of a type. *)
Definition layout := (N * N)%type.

(** Fields are laid out one after the other, each at the next multiple of its
    alignment. *)
Fixpoint field_offsets (pos : N) (l : list layout) : list N :=
  match l with
  | [] => []
  | (a, s) :: l' => up_to a pos :: field_offsets (up_to a pos + s) l'
  end.
Fixpoint fields_end (pos : N) (l : list layout) : N :=
  match l with
  | [] => pos
  | (a, s) :: l' => fields_end (up_to a pos + s) l'
  end.

Definition max_align (l : list layout) : N := fold_right (fun p m => N.max (fst p) m) 1 l.
Definition max_size (l : list layout) : N := fold_right (fun p m => N.max (snd p) m) 0 l.

Definition sp_record (l : list layout) : layout :=
  (max_align l, up_to (max_align l) (fields_end 0 l)).

(** Bytes of the discriminant of a variant with [n] cases. *)
Definition disc_size (n : nat) : option N :=
  let n := N.of_nat n in
  if n =? 0 then None
  else if n <=? 2 ^ 8 then Some 1
  else if n <=? 2 ^ 16 then Some 2
  else if n <=? 2 ^ 24 then Some 4
  else None.

(** Offset of the payload: after the discriminant, at the next multiple of the
    largest payload alignment. *)
Definition payload_offset (d : N) (l : list layout) : N := up_to (max_align l) d.

Definition sp_variant (n : nat) (payloads : list layout) : option layout :=
  match disc_size n with
  | None => None
  | Some d =>
      let a := N.max d (max_align payloads) in
      Some (a, up_to a (payload_offset d payloads + max_size payloads))
  end.

Definition sp_flags (n : nat) : layout :=
  let n := N.of_nat n in
  if n =? 0 then (1, 0)
  else if n <=? 8 then (1, 1)
  else if n <=? 16 then (2, 2)
  else (4, 4 * ((n + 31) / 32)).

Fixpoint all_some {A} (l : list (option A)) : option (list A) :=
  match l with
  | [] => Some []
  | None :: _ => None
  | Some x :: l' => match all_some l' with Some r => Some (x :: r) | None => None end
  end.

Definition bindo {A B} (o : option A) (f : A -> option B) : option B :=
  match o with Some x => f x | None => None end.

Definition opt_list {A} (o : option A) : list A :=
  match o with Some x => [x] | None => [] end.

(** The types with a payload, in case order. *)
Definition payload_types {A} (cs : list (caseOf A)) : list A :=
  flat_map (fun c => opt_list (c_type c)) cs.

(** None: the type has no layout (streams, variants without cases or with
    more than 2^24, and everything containing them). *)
Fixpoint sp_layout (t : valtype) : option layout :=
  match t with
  | TBool | TU8 | TS8 => Some (1, 1)
  | TU16 | TS16 => Some (2, 2)
  | TU32 | TS32 | TF32 | TChar | TOwn _ | TBorrow _ => Some (4, 4)
  | TU64 | TS64 | TF64 => Some (8, 8)
  | TString | TList _ => Some (4, 8)
  | TRecord fs =>
      bindo (all_some (map (fun f => sp_layout (snd f)) fs)) (fun l => Some (sp_record l))
  | TTuple ts => bindo (all_some (map sp_layout ts)) (fun l => Some (sp_record l))
  | TVariant cs =>
      bindo (all_some (payload_types (map (map_case sp_layout) cs))) (sp_variant (List.length cs))
  | TEnum ls => sp_variant (List.length ls) []
  | TOption t' => bindo (sp_layout t') (fun l => sp_variant 2 [l])
  | TResult ok err =>
      bindo (all_some (opt_list (match ok with Some x => Some (sp_layout x) | None => None end) ++
                       opt_list (match err with Some x => Some (sp_layout x) | None => None end)))
        (sp_variant 2)
  | TUnion ts => bindo (all_some (map sp_layout ts)) (sp_variant (List.length ts))
  | TFlags ls => Some (sp_flags (List.length ls))
  | TStream _ _ => None
  end.
