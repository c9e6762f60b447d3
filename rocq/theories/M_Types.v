(** Model of abi/types: component value types, and of abi/kind. *)
From Coq Require Import NArith List String.
From Verif Require Import GoBase.
Import ListNotations.

(** abi/types/resource_type.go:12-16. Resource types are compared by pointer
    identity, modelled by [rt_id]. [rt_impl] is the index of the implementing
    component instance (None: nil pointer); [rt_dtor] says whether a
    destructor is set (its body is external). *)
Record rtype := mkRType { rt_id : N; rt_impl : option nat; rt_dtor : bool }.

(** abi/types/variant.go:22-26 (Case), with the type left abstract so that
    cases can carry anything computed from the type. A nil Type is [None]. *)
Record caseOf (T : Type) := mkCase {
  c_label : string;
  c_type : option T;
  c_refines : option string }.
Arguments mkCase {T}.
Arguments c_label {T}.
Arguments c_type {T}.
Arguments c_refines {T}.

(** The same case with another payload type (abi/types/variant.go:22-42) *)
Definition map_case {A B} (f : A -> B) (c : caseOf A) : caseOf B :=
  mkCase (c_label c)
         (match c_type c with Some t => Some (f t) | None => None end)
         (c_refines c).

(** abi/types/val_type.go and the files for the individual types. A nil
    ValType is only modelled where the code gives it a meaning (case and
    result payloads). Elsewhere it takes the default branch of every switch,
    as TStream does; NewOption(nil) and NewUnion(..., nil) are the variants
    they despecialise to. abi/types/val_type.go:3-6 and the types that
    implement it. *)
Inductive valtype : Type :=
| TBool | TU8 | TU16 | TU32 | TU64 | TS8 | TS16 | TS32 | TS64
| TF32 | TF64 | TChar | TString
| TList (t : valtype)
| TRecord (fields : list (string * valtype))
| TTuple (ts : list valtype)
| TVariant (cases : list (caseOf valtype))
| TEnum (labels : list string)
| TOption (t : valtype)
| TResult (ok err : option valtype)
| TUnion (ts : list valtype)
| TFlags (labels : list string)
| TOwn (rt : rtype)
| TBorrow (rt : rtype)
| TStream (element end_ : option valtype).

(** abi/kind/kind.go. Lines abi/kind/kind.go:3-11. *)
Inductive kind := KU32 | KU64 | KF32 | KF64.

(** == on kinds (abi/kind/kind.go:3-11), as at abi/io/flatten.go:139-145 *)
Definition kind_eqb (a b : kind) : bool :=
  match a, b with
  | KU32, KU32 | KU64, KU64 | KF32, KF32 | KF64, KF64 => true
  | _, _ => false
  end.

(** Label each element with its decimal position (despecialize.go:13-18,
    22-24: strconv.Itoa(i)). *)
Definition itoa_fields {A} (l : list A) : list (string * A) :=
  map (fun p => (itoa (fst p), snd p)) (enum_from 0 l).
Definition itoa_cases {A} (l : list A) : list (caseOf A) :=
  map (fun p => mkCase (itoa (fst p)) (Some (snd p)) None) (enum_from 0 l).
Definition enum_cases {A} (labels : list string) : list (caseOf A) :=
  map (fun l => mkCase l None None) labels.
Definition option_cases {A} (x : A) : list (caseOf A) :=
  [ mkCase "none" None None; mkCase "some" (Some x) None ].
Definition result_cases {A} (ok err : option A) : list (caseOf A) :=
  [ mkCase "ok" ok None; mkCase "error" err None ].

(** abi/io/despecialize.go:9-55 Despecialize *)
Definition despecialize (t : valtype) : valtype :=
  match t with
  | TTuple ts => TRecord (itoa_fields ts)
  | TUnion ts => TVariant (itoa_cases ts)
  | TEnum labels => TVariant (enum_cases labels)
  | TOption t' => TVariant (option_cases t')
  | TResult ok err => TVariant (result_cases ok err)
  | _ => t
  end.

(** Induction over nested types in which specialised types are reduced to the
    record or variant they abbreviate. The types that
    abi/io/despecialize.go:9-55 rewrites. *)
Definition special (t : valtype) : bool :=
  match t with
  | TTuple _ | TUnion _ | TEnum _ | TOption _ | TResult _ _ => true
  | _ => false
  end.

(** For the induction principle alone; models no code. Payloads are optional
    by abi/types/variant.go:22-42 *)
Definition opt_all {A} (P : A -> Prop) (o : option A) : Prop :=
  match o with Some x => P x | None => True end.

Section ValtypeInd.
  Variable P : valtype -> Prop.
  Hypothesis HBool : P TBool.
  Hypothesis HU8 : P TU8.
  Hypothesis HU16 : P TU16.
  Hypothesis HU32 : P TU32.
  Hypothesis HU64 : P TU64.
  Hypothesis HS8 : P TS8.
  Hypothesis HS16 : P TS16.
  Hypothesis HS32 : P TS32.
  Hypothesis HS64 : P TS64.
  Hypothesis HF32 : P TF32.
  Hypothesis HF64 : P TF64.
  Hypothesis HChar : P TChar.
  Hypothesis HString : P TString.
  Hypothesis HList : forall t, P t -> P (TList t).
  Hypothesis HRecord : forall fs, Forall (fun f => P (snd f)) fs -> P (TRecord fs).
  Hypothesis HVariant : forall cs, Forall (fun c => opt_all P (c_type c)) cs -> P (TVariant cs).
  Hypothesis HFlags : forall ls, P (TFlags ls).
  Hypothesis HOwn : forall r, P (TOwn r).
  Hypothesis HBorrow : forall r, P (TBorrow r).
  Hypothesis HStream : forall a b, P (TStream a b).
  Hypothesis HSpecial : forall t, special t = true -> P (despecialize t) -> P t.

  Lemma itoa_fields_Forall : forall (ts : list valtype),
    Forall P ts -> Forall (fun f => P (snd f)) (itoa_fields ts).
  Proof.
    intros ts H. unfold itoa_fields. generalize 0%N.
    induction H; intros n; cbn; constructor; cbn; auto.
  Qed.

  Lemma itoa_cases_Forall : forall (ts : list valtype),
    Forall P ts -> Forall (fun c => opt_all P (c_type c)) (itoa_cases ts).
  Proof.
    intros ts H. unfold itoa_cases. generalize 0%N.
    induction H; intros n; cbn; constructor; cbn; auto.
  Qed.

  Lemma enum_cases_Forall : forall ls,
    Forall (fun c => opt_all P (c_type c)) (enum_cases ls).
  Proof. induction ls; cbn; constructor; cbn; auto. Qed.

  Fixpoint valtype_rect' (t : valtype) : P t.
  Proof.
    destruct t.
    1-13: assumption.
    - apply HList. apply valtype_rect'.
    - apply HRecord. induction fields as [|f fs IH]; constructor.
      + apply valtype_rect'.
      + exact IH.
    - apply HSpecial; [reflexivity|]. apply HRecord. apply itoa_fields_Forall.
      induction ts as [|t ts IH]; constructor.
      + apply valtype_rect'.
      + exact IH.
    - apply HVariant. induction cases as [|c cs IH]; constructor.
      + destruct (c_type c) as [t|]; cbn; [apply valtype_rect'|exact I].
      + exact IH.
    - apply HSpecial; [reflexivity|]. apply HVariant. apply enum_cases_Forall.
    - apply HSpecial; [reflexivity|]. apply HVariant.
      repeat constructor. cbn. apply valtype_rect'.
    - apply HSpecial; [reflexivity|]. apply HVariant.
      repeat constructor.
      + destruct ok as [t|]; cbn; [apply valtype_rect'|exact I].
      + destruct err as [t|]; cbn; [apply valtype_rect'|exact I].
    - apply HSpecial; [reflexivity|]. apply HVariant. apply itoa_cases_Forall.
      induction ts as [|t ts IH]; constructor.
      + apply valtype_rect'.
      + exact IH.
    - apply HFlags.
    - apply HOwn.
    - apply HBorrow.
    - apply HStream.
  Defined.
End ValtypeInd.

Lemma valtype_ind' : forall P : valtype -> Prop,
  P TBool -> P TU8 -> P TU16 -> P TU32 -> P TU64 -> P TS8 -> P TS16 -> P TS32 -> P TS64 ->
  P TF32 -> P TF64 -> P TChar -> P TString ->
  (forall t, P t -> P (TList t)) ->
  (forall fs, Forall (fun f => P (snd f)) fs -> P (TRecord fs)) ->
  (forall cs, Forall (fun c => opt_all P (c_type c)) cs -> P (TVariant cs)) ->
  (forall ls, P (TFlags ls)) ->
  (forall r, P (TOwn r)) -> (forall r, P (TBorrow r)) ->
  (forall a b, P (TStream a b)) ->
  (forall t, special t = true -> P (despecialize t) -> P t) ->
  forall t, P t.
Proof. intros. apply valtype_rect'; assumption. Qed.
