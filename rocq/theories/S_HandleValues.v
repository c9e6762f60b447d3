(** Specification of the resource handles inside component values, and of what
    passing them does to the handles of an instance. *)
From Coq Require Import NArith ZArith List String Bool Arith.
From Verif Require Import GoBase M_Types M_State M_Canon S_Values S_Handles.
Import ListNotations.
Open Scope N_scope.

(** A resource inside a value: whether it is owned or borrowed, its type and
    its representation. *)
Record carried := mkCarried { cd_own : bool; cd_type : rtype; cd_rep : N }.

(** A record carries what its fields carry, in the order of the type; a missing
    entry counts as nil. *)
Definition rec_carries (fs : list (string * (any -> list carried -> Prop))) (v : any) (hs : list carried) : Prop :=
  exists m hss, v = VMap m /\
    Forall2 (fun f h => snd f (match map_get m (fst f) with Some x => x | None => VNil end) h) fs hss /\
    hs = List.concat hss.

(** A variant carries what the payload of its case carries. *)
Definition var_carries (cs : list (caseOf (any -> list carried -> Prop))) (v : any) (hs : list carried) : Prop :=
  exists key p i c, v = VMap [(key, p)] /\ selects (map c_label cs) key i /\ nth_error cs i = Some c /\
    match c_type c with Some P => P p hs | None => hs = [] end.

(** [carries t v hs]: the value [v] of type [t] carries the resources [hs]. A
    resource is given as its representation. *)
Fixpoint carries (t : valtype) (v : any) (hs : list carried) : Prop :=
  match t with
  | TOwn rt => exists rep, v = VU32 rep /\ hs = [mkCarried true rt rep]
  | TBorrow rt => exists rep, v = VU32 rep /\ hs = [mkCarried false rt rep]
  | TList t' => exists l hss, v = VList l /\ Forall2 (carries t') l hss /\ hs = List.concat hss
  | TRecord fs => rec_carries (map (fun f => (fst f, carries (snd f))) fs) v hs
  | TTuple ts => rec_carries (itoa_fields (map carries ts)) v hs
  | TVariant cs => var_carries (map (map_case carries) cs) v hs
  | TEnum ls => var_carries (enum_cases ls) v hs
  | TOption t' => var_carries (option_cases (carries t')) v hs
  | TResult ok err =>
      var_carries (result_cases
        (match ok with Some x => Some (carries x) | None => None end)
        (match err with Some x => Some (carries x) | None => None end)) v hs
  | TUnion ts => var_carries (itoa_cases (map carries ts)) v hs
  | _ => hs = []
  end.

(** The same for several values with their types. *)
Inductive carry_all : list (valtype * any) -> list carried -> Prop :=
| ca_nil : carry_all [] []
| ca_cons : forall t v tvs h hs, carries t v h -> carry_all tvs hs -> carry_all ((t, v) :: tvs) (h ++ hs).

(** ** Passing resources *)

(** [appear js cs]: the indices [js] are among the core values [cs], in this
    order. *)
Inductive appear : list N -> list cval -> Prop :=
| ap_nil : appear [] []
| ap_other : forall js c cs, appear js cs -> appear js (c :: cs)
| ap_index : forall j js c cs, c = CU32 j \/ c = CU64 j -> appear js cs -> appear (j :: js) (c :: cs).

(** The key under which [inst] holds a resource. *)
Definition key_of (inst : nat) (x : carried * N) : key := (inst, rt_id (cd_type (fst x)), snd x).

(** [took insts inst xs s s']: in [s] the instance [inst] had each of the
    resources in [xs] under the index beside it. In [s'] it no longer has the
    owned ones. It had them under different indices, none of which is that of
    a borrowed one. Every other handle of every instance is as before. *)
Definition took (insts inst : nat) (xs : list (carried * N)) (s s' : state) : Prop :=
  let owned := map (key_of inst) (filter (fun x => cd_own (fst x)) xs) in
  let borrowed := map (key_of inst) (filter (fun x => negb (cd_own (fst x))) xs) in
  Forall (fun x => found s inst (cd_type (fst x)) (snd x) = Ok (cd_rep (fst x))) xs /\
  NoDup owned /\ (forall k, In k borrowed -> ~ In k owned) /\
  (forall inst' rt i, (inst' < insts)%nat -> In (inst', rt_id rt, i) owned -> found s' inst' rt i = Err ETrap) /\
  (forall inst' rt i, (inst' < insts)%nat -> ~ In (inst', rt_id rt, i) owned -> found s' inst' rt i = found s inst' rt i).

(** Borrowing a resource that the instance itself implements makes no handle:
    the instance gets the representation. *)
Definition direct (inst : nat) (h : carried) : Prop := cd_own h = false /\ rt_impl (cd_type h) = Some inst.
Definition directb (inst : nat) (h : carried) : bool :=
  negb (cd_own h) && match rt_impl (cd_type h) with Some i => Nat.eqb i inst | None => false end.

(** [gave insts inst xs s s']: the instance [inst] has been given each of the
    resources in [xs] under the index beside it. It had nothing under these
    indices in [s], and they are different. Every other handle of every
    instance is as before. *)
Definition gave (insts inst : nat) (xs : list (carried * N)) (s s' : state) : Prop :=
  let new := filter (fun x => negb (directb inst (fst x))) xs in
  Forall (fun x => direct inst (fst x) -> snd x = cd_rep (fst x)) xs /\
  Forall (fun x => found s inst (cd_type (fst x)) (snd x) = Err ETrap /\
                   found s' inst (cd_type (fst x)) (snd x) = Ok (cd_rep (fst x)) /\
                   exists e, entry s' (key_of inst x) = Some e /\ h_own e = cd_own (fst x)) new /\
  NoDup (map (key_of inst) new) /\
  (forall inst' rt i, (inst' < insts)%nat -> ~ In (inst', rt_id rt, i) (map (key_of inst) new) ->
    found s' inst' rt i = found s inst' rt i).

(** [moved insts from to xs ys s s']: the resources in [xs] were taken from
    [from] and then given to [to], which has them as [ys]. *)
Definition moved (insts from to : nat) (xs ys : list (carried * N)) (s s' : state) : Prop :=
  map fst ys = map fst xs /\ exists between, took insts from xs s between /\ gave insts to ys between s'.

(** Code that uses the handle functions in any way, in calls of its own or not,
    and makes at most [k] handles. *)
Definition orderly_within (insts k : nat) {A} (f : M A) : Prop :=
  forall ops rs s calls o s', history insts ops rs s calls -> f s = (o, s') ->
  exists evs calls', history insts (ops ++ map fst evs) (rs ++ map snd evs) s' calls' /\ incl calls calls' /\
    (made (map fst evs) <= k)%nat.
