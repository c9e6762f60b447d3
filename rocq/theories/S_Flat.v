(** Specification of flattening: the core types a value is passed as. *)
From Coq Require Import NArith List.
From Verif Require Import GoBase M_Types M_Layout.
Import ListNotations.
Open Scope N_scope.

(** A value of core type [k] can be carried bit for bit by one of type [w]. *)
Definition carried (k w : kind) : Prop :=
  k = w \/ (k = KF32 /\ w = KU32) \/ w = KU64.

(** [ks] is the join of the lists [kss]: as long as the longest of them, and at
    each position the least core type that carries all theirs. *)
Definition joined (kss : list (list kind)) (ks : list kind) : Prop :=
  (forall fs, In fs kss -> (List.length fs <= List.length ks)%nat) /\
  (ks = [] \/ exists fs, In fs kss /\ List.length fs = List.length ks) /\
  forall j k, nth_error ks j = Some k ->
    (forall fs f, In fs kss -> nth_error fs j = Some f -> carried f k) /\
    forall k', (forall fs f, In fs kss -> nth_error fs j = Some f -> carried f k') -> carried k k'.

(** The payload types of a list of cases. *)
Definition payloads {A} (cs : list (caseOf A)) : list A :=
  flat_map (fun c => match c_type c with Some x => [x] | None => [] end) cs.

(** [flattens t ks]: a value of type [t] is passed as core values of types [ks].
    A variant has between 1 and 2^24 cases. *)
Inductive flattens : valtype -> list kind -> Prop :=
| fl_i32 : forall t, In t [TBool; TU8; TU16; TU32; TS8; TS16; TS32; TChar] -> flattens t [KU32]
| fl_i64 : forall t, In t [TU64; TS64] -> flattens t [KU64]
| fl_f32 : flattens TF32 [KF32]
| fl_f64 : flattens TF64 [KF64]
| fl_string : flattens TString [KU32; KU32]
| fl_list : forall t, flattens (TList t) [KU32; KU32]
| fl_own : forall r, flattens (TOwn r) [KU32]
| fl_borrow : forall r, flattens (TBorrow r) [KU32]
| fl_record : forall fs kss, Forall2 (fun f ks => flattens (snd f) ks) fs kss -> flattens (TRecord fs) (concat kss)
| fl_variant : forall cs kss ks, 1 <= N.of_nat (List.length cs) <= 2 ^ 24 ->
    Forall2 flattens (payloads cs) kss -> joined kss ks ->
    flattens (TVariant cs) (KU32 :: ks)
| fl_flags : forall ls, flattens (TFlags ls) (repeat KU32 (Nat.div (List.length ls + 31) 32))
| fl_special : forall t ks, special t = true -> flattens (despecialize t) ks -> flattens t ks.

(** A type whose values are passed without touching memory or handle tables. *)
Fixpoint memory_free (t : valtype) : Prop :=
  match t with
  | TString | TList _ | TOwn _ | TBorrow _ | TStream _ _ => False
  | TRecord fs => fold_right and True (map (fun f => memory_free (snd f)) fs)
  | TTuple ts | TUnion ts => fold_right and True (map memory_free ts)
  | TVariant cs =>
      fold_right and True (map (fun c => match c_type c with Some x => memory_free x | None => True end) cs)
  | TOption t' => memory_free t'
  | TResult ok err =>
      match ok with Some x => memory_free x | None => True end /\
      match err with Some x => memory_free x | None => True end
  | _ => True
  end.

(** No handle or stream inside the type. *)
Fixpoint handle_free (t : valtype) : Prop :=
  match t with
  | TOwn _ | TBorrow _ | TStream _ _ => False
  | TList t' | TOption t' => handle_free t'
  | TRecord fs => fold_right and True (map (fun f => handle_free (snd f)) fs)
  | TTuple ts | TUnion ts => fold_right and True (map handle_free ts)
  | TVariant cs =>
      fold_right and True (map (fun c => match c_type c with Some x => handle_free x | None => True end) cs)
  | TResult ok err =>
      match ok with Some x => handle_free x | None => True end /\
      match err with Some x => handle_free x | None => True end
  | _ => True
  end.
