(** Specification: giving the fields, cases and flags of a type other names. *)
From Coq Require Import NArith List String Ascii.
From Verif Require Import GoBase M_Types M_State S_Values.
Import ListNotations.
Open Scope N_scope.

(** The pieces of a name between its bars: a key such as "a|b" names several
    cases. *)
Fixpoint pieces (s : string) : list string :=
  match s with
  | EmptyString => [EmptyString]
  | String c s' =>
      if Ascii.eqb c "|" then EmptyString :: pieces s'
      else match pieces s' with
           | h :: t => String c h :: t
           | [] => [String c EmptyString]
           end
  end.

(** A way to rename: different names stay different, no bars appear, and the
    names that go with tuples, unions, options and results stay. *)
Record renaming (r : string -> string) : Prop := mkRenaming {
  rn_injective : forall a b, r a = r b -> a = b;
  rn_bars : forall a, bar_free a -> bar_free (r a);
  rn_numbers : forall n, r (itoa n) = itoa n;
  rn_none : r "none"%string = "none"%string;
  rn_some : r "some"%string = "some"%string;
  rn_ok : r "ok"%string = "ok"%string;
  rn_error : r "error"%string = "error"%string }.

Section Rename.
  Variable r : string -> string.

  (** A name is renamed piece by piece; one without bars is one piece. *)
  Definition rename (s : string) : string := String.concat "|" (map r (pieces s)).

  (** A type with its labels renamed, those that refinements mention too. *)
  Fixpoint rename_type (t : valtype) : valtype :=
    match t with
    | TList t' => TList (rename_type t')
    | TRecord fs => TRecord (map (fun f => (rename (fst f), rename_type (snd f))) fs)
    | TTuple ts => TTuple (map rename_type ts)
    | TVariant cs => TVariant (map (fun c => mkCase (rename (c_label c))
        (match c_type c with Some x => Some (rename_type x) | None => None end)
        (match c_refines c with Some l => Some (rename l) | None => None end)) cs)
    | TEnum ls => TEnum (map rename ls)
    | TOption t' => TOption (rename_type t')
    | TResult ok err =>
        TResult (match ok with Some x => Some (rename_type x) | None => None end)
                (match err with Some x => Some (rename_type x) | None => None end)
    | TUnion ts => TUnion (map rename_type ts)
    | TFlags ls => TFlags (map rename ls)
    | _ => t
    end.

  (** A value with the keys of all its maps renamed. *)
  Fixpoint rename_value (v : any) : any :=
    match v with
    | VList l => VList (map rename_value l)
    | VMap m => VMap (map (fun e => (rename (fst e), rename_value (snd e))) m)
    | _ => v
    end.
End Rename.

(** The same outcome with what it returns changed by [f]. *)
Definition returning {A B} (f : A -> B) (o : outcome A) : outcome B :=
  match o with
  | Ok a => Ok (f a)
  | Err e => Err e
  | Panic => Panic
  | Diverge => Diverge
  end.
