(** Specification of where the indices of the resources in a value are: the
    value with the index of each resource in the resource's place is a value of
    the type with [u32] in place of the handle types. *)
From Coq Require Import NArith ZArith List String Bool Arith.
From Verif Require Import GoBase M_Types M_State M_Canon S_Values S_HandleValues.
Import ListNotations.
Open Scope N_scope.

(** [plain t]: the type [t] with [u32] in place of every handle type. *)
Fixpoint plain (t : valtype) : valtype :=
  match t with
  | TOwn _ | TBorrow _ => TU32
  | TList t' => TList (plain t')
  | TRecord fs => TRecord (map (fun f => (fst f, plain (snd f))) fs)
  | TTuple ts => TTuple (map plain ts)
  | TVariant cs => TVariant (map (map_case plain) cs)
  | TOption t' => TOption (plain t')
  | TResult ok err => TResult (match ok with Some x => Some (plain x) | None => None end)
                              (match err with Some x => Some (plain x) | None => None end)
  | TUnion ts => TUnion (map plain ts)
  | _ => t
  end.

Definition relation := any -> any -> list (carried * N) -> Prop.

(** Two records with the same labels, field by field in the order of the type; a
    missing entry counts as nil. *)
Definition rec_names (fs : list (string * relation)) (w v : any) (xs : list (carried * N)) : Prop :=
  exists mw mv xss, w = VMap mw /\ v = VMap mv /\ map fst mw = map fst mv /\
    Forall2 (fun f x => snd f (match map_get mw (fst f) with Some a => a | None => VNil end)
                              (match map_get mv (fst f) with Some b => b | None => VNil end) x) fs xss /\
    xs = List.concat xss.

(** Two variants of the same case. *)
Definition var_names (cs : list (caseOf relation)) (w v : any) (xs : list (carried * N)) : Prop :=
  exists key p q i c, w = VMap [(key, p)] /\ v = VMap [(key, q)] /\ selects (map c_label cs) key i /\ nth_error cs i = Some c /\
    match c_type c with Some R => R p q xs | None => p = q /\ xs = [] end.

(** [names t w v xs]: [w] is the value [v] of type [t] with the indices [map snd
    xs] in the places of the resources [map fst xs], from first to last. *)
Fixpoint names (t : valtype) (w v : any) (xs : list (carried * N)) : Prop :=
  match t with
  | TOwn rt => exists rep i, w = VU32 i /\ v = VU32 rep /\ xs = [(mkCarried true rt rep, i)]
  | TBorrow rt => exists rep i, w = VU32 i /\ v = VU32 rep /\ xs = [(mkCarried false rt rep, i)]
  | TList t' => exists l : list (any * any * list (carried * N)),
      Forall (fun e => names t' (fst (fst e)) (snd (fst e)) (snd e)) l /\
      w = VList (map (fun e => fst (fst e)) l) /\ v = VList (map (fun e => snd (fst e)) l) /\ xs = flat_map snd l
  | TRecord fs => rec_names (map (fun f => (fst f, names (snd f))) fs) w v xs
  | TTuple ts => rec_names (itoa_fields (map names ts)) w v xs
  | TVariant cs => var_names (map (map_case names) cs) w v xs
  | TEnum ls => var_names (enum_cases ls) w v xs
  | TOption t' => var_names (option_cases (names t')) w v xs
  | TResult ok err =>
      var_names (result_cases
        (match ok with Some x => Some (names x) | None => None end)
        (match err with Some x => Some (names x) | None => None end)) w v xs
  | TUnion ts => var_names (itoa_cases (map names ts)) w v xs
  | _ => w = v /\ xs = []
  end.

(** The same for several values with their types. *)
Inductive name_all : list valtype -> list any -> list any -> list (carried * N) -> Prop :=
| na_nil : name_all [] [] [] []
| na_cons : forall t ts w ws v vs x xs, names t w v x -> name_all ts ws vs xs -> name_all (t :: ts) (w :: ws) (v :: vs) (x ++ xs).

(** An allocator whose answers do not depend on the handles. *)
Definition blind_to_handles (alloc : req -> state -> outcome N * (memory * world)) : Prop :=
  forall r s t, s_mem s = s_mem t -> s_hist s = s_hist t ->
    fst (alloc r s) = fst (alloc r t) /\ fst (snd (alloc r s)) = fst (snd (alloc r t)).
