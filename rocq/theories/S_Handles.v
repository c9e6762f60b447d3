(** Specification of resource handles: the operations a program performs, and
    an abstract machine that says what each may answer. *)
From Coq Require Import NArith ZArith List Bool Arith.
From Verif Require Import GoBase M_Types M_State M_Canon.
Import ListNotations.
Open Scope N_scope.
Open Scope go_scope.

(** ** Operations *)

Inductive op :=
| OpEnter (opts : options) (inst : nat)            (** a call begins *)
| OpExit (call : nat)                              (** and ends *)
| OpNew (inst : nat) (rt : rtype) (rep : N)        (** CanonResourceNew *)
| OpRep (inst : nat) (rt : rtype) (i : N)          (** CanonResourceRep *)
| OpDrop (inst : nat) (rt : rtype) (i : N)         (** CanonResourceDrop *)
| OpLiftOwn (cx : callctx) (rt : rtype) (i : N)    (** LiftOwn *)
| OpLiftBorrow (cx : callctx) (rt : rtype) (i : N) (** LiftBorrow *)
| OpLowerOwn (cx : callctx) (rt : rtype) (v : any) (** LowerOwn *)
| OpLowerBorrow (cx : callctx) (rt : rtype) (v : any) (** LowerBorrow *)
| OpGuards (inst : nat) (enter leave : bool).      (** MayEnter and MayLeave are set *)

(** Running an operation of the program; operations without a result give 0. *)
Definition run (o : op) : M N :=
  match o with
  | OpEnter opts inst => let* cx := new_call opts inst in ret (N.of_nat (cx_id cx))
  | OpExit c => exit_call c ;; ret 0
  | OpNew inst rt rep => canon_resource_new inst rt rep
  | OpRep inst rt i => canon_resource_rep inst rt i
  | OpDrop inst rt i => canon_resource_drop inst rt i ;; ret 0
  | OpLiftOwn cx rt i => lift_own cx i rt
  | OpLiftBorrow cx rt i => lift_borrow cx i rt
  | OpLowerOwn cx rt v => lower_own cx v rt
  | OpLowerBorrow cx rt v => lower_borrow cx v rt
  | OpGuards inst e l => set_may_enter inst e ;; set_may_leave inst l ;; ret 0
  end.

(** Calls that have begun and not ended. *)
Definition opened (o : op) (r : outcome N) (calls : list nat) : list nat :=
  match o, r with
  | OpEnter _ _, Ok c => N.to_nat c :: calls
  | OpExit c, Ok _ => remove Nat.eq_dec c calls
  | _, _ => calls
  end.

(** Operations name one of the instances, and only calls in progress. *)
Definition proper (insts : nat) (calls : list nat) (o : op) : Prop :=
  match o with
  | OpEnter _ inst | OpNew inst _ _ | OpRep inst _ _ | OpDrop inst _ _ | OpGuards inst _ _ => (inst < insts)%nat
  | OpExit c => In c calls
  | OpLiftOwn cx _ _ | OpLiftBorrow cx _ _ | OpLowerOwn cx _ _ | OpLowerBorrow cx _ _ =>
      (cx_inst cx < insts)%nat /\ In (cx_id cx) calls
  end.

(** How many of the operations ask for a new handle. *)
Definition makes (o : op) : bool :=
  match o with OpNew _ _ _ | OpLowerOwn _ _ _ | OpLowerBorrow _ _ _ => true | _ => false end.
Definition made (ops : list op) : nat := List.length (filter makes ops).

(** [history insts ops rs s calls]: from a state with [insts] instances and no
    handles or calls, the operations [ops] gave the results [rs] and led to
    [s], with the calls [calls] in progress. *)
Inductive history (insts : nat) : list op -> list (outcome N) -> state -> list nat -> Prop :=
| h_start : forall s,
    w_elems (s_world s) = [] -> w_calls (s_world s) = [] -> w_dtors (s_world s) = [] ->
    List.length (w_insts (s_world s)) = insts -> Forall (fun i => i_tables i = []) (w_insts (s_world s)) ->
    history insts [] [] s []
| h_step : forall ops rs s calls o r s',
    history insts ops rs s calls -> proper insts calls o -> run o s = (r, s') ->
    history insts (ops ++ [o]) (rs ++ [r]) s' (opened o r calls).

(** ** The abstract machine *)

(** Instance, resource type, index. *)
Definition key := (nat * N * N)%type.
Definition key_dec : forall a b : key, {a = b} + {a <> b}.
Proof. repeat decide equality. Defined.

(** What a handle stands for; a borrowed handle belongs to a call. *)
Record handle := mkHandle { hd_rep : N; hd_own : bool; hd_scope : option nat }.

Record handles := mkHandles {
  at_key : key -> option handle;
  loaned : nat -> key -> Prop;   (* the call borrowed from the handle and is in progress *)
  open_calls : list nat;
  call_count : nat;
  enterable : nat -> bool;
  destroyed : list (N * N) }.    (* destructor calls: resource type and representation, latest first *)

Definition put (f : key -> option handle) (k : key) (h : option handle) : key -> option handle :=
  fun k' => if key_dec k k' then h else f k'.

(** The two machines agree. *)
Definition same (a b : handles) : Prop :=
  (forall k, at_key a k = at_key b k) /\ (forall c k, loaned a c k <-> loaned b c k) /\
  open_calls a = open_calls b /\ call_count a = call_count b /\
  (forall i, enterable a i = enterable b i) /\ destroyed a = destroyed b.

Definition with_handles (a : handles) f :=
  mkHandles f (loaned a) (open_calls a) (call_count a) (enterable a) (destroyed a).
Definition with_loans (a : handles) l :=
  mkHandles (at_key a) l (open_calls a) (call_count a) (enterable a) (destroyed a).
Definition with_calls (a : handles) cs n :=
  mkHandles (at_key a) (loaned a) cs n (enterable a) (destroyed a).
Definition with_enterable (a : handles) e :=
  mkHandles (at_key a) (loaned a) (open_calls a) (call_count a) e (destroyed a).
Definition with_destroyed (a : handles) d :=
  mkHandles (at_key a) (loaned a) (open_calls a) (call_count a) (enterable a) d.

(** A call in progress has borrowed from the handle. *)
Definition lent (a : handles) (k : key) : Prop := exists c, loaned a c k.

(** A new handle goes under an unused index; adding one may fail. *)
Inductive adds (a : handles) (inst : nat) (rt : rtype) (h : handle) : outcome N -> handles -> Prop :=
| add_ok : forall i, at_key a (inst, rt_id rt, i) = None ->
    adds a inst rt h (Ok i) (with_handles a (put (at_key a) (inst, rt_id rt, i) (Some h)))
| add_fails : adds a inst rt h (Err EOther) a.

(** Taking a handle out traps, without effect, when it is absent or lent. *)
Inductive takes (a : handles) (k : key) : outcome handle -> handles -> Prop :=
| take_ok : forall h, at_key a k = Some h -> ~ lent a k ->
    takes a k (Ok h) (with_handles a (put (at_key a) k None))
| take_absent : at_key a k = None -> takes a k (Err ETrap) a
| take_lent : lent a k -> takes a k (Err ETrap) a.

(** Dropping runs the destructor for owned handles of enterable instances. *)
Definition drop_result (a : handles) (inst : nat) (rt : rtype) (h : handle) : outcome N * list (N * N) :=
  if negb (hd_own h) then (Ok 0, destroyed a)
  else match rt_impl rt with
       | None => (Panic, destroyed a)
       | Some impl =>
           if Nat.eqb inst impl || enterable a impl then
             (Ok 0, if rt_dtor rt then (rt_id rt, hd_rep h) :: destroyed a else destroyed a)
           else (Err ETrap, destroyed a)
       end.

Inductive answers (a : handles) : op -> outcome N -> handles -> Prop :=
| an_enter : forall opts inst,
    answers a (OpEnter opts inst) (Ok (N.of_nat (call_count a)))
      (with_calls a (call_count a :: open_calls a) (S (call_count a)))
| an_exit : forall c, (forall k h, at_key a k = Some h -> hd_scope h <> Some c) ->
    answers a (OpExit c) (Ok 0)
      (with_loans (with_calls a (remove Nat.eq_dec c (open_calls a)) (call_count a))
        (fun c' k => loaned a c' k /\ c' <> c))
| an_exit_trap : forall c k h, at_key a k = Some h -> hd_scope h = Some c -> answers a (OpExit c) (Err ETrap) a
| an_new : forall inst rt rep r a', adds a inst rt (mkHandle rep true None) r a' -> answers a (OpNew inst rt rep) r a'
| an_rep : forall inst rt i h, at_key a (inst, rt_id rt, i) = Some h -> answers a (OpRep inst rt i) (Ok (hd_rep h)) a
| an_rep_trap : forall inst rt i, at_key a (inst, rt_id rt, i) = None -> answers a (OpRep inst rt i) (Err ETrap) a
| an_drop : forall inst rt i h a', takes a (inst, rt_id rt, i) (Ok h) a' ->
    answers a (OpDrop inst rt i) (fst (drop_result a inst rt h)) (with_destroyed a' (snd (drop_result a inst rt h)))
| an_drop_trap : forall inst rt i e a', takes a (inst, rt_id rt, i) (Err e) a' -> answers a (OpDrop inst rt i) (Err e) a'
| an_lift_own : forall cx rt i h a', takes a (cx_inst cx, rt_id rt, i) (Ok h) a' ->
    answers a (OpLiftOwn cx rt i) (Ok (hd_rep h)) a'
| an_lift_own_trap : forall cx rt i e a', takes a (cx_inst cx, rt_id rt, i) (Err e) a' ->
    answers a (OpLiftOwn cx rt i) (Err e) a'
| an_lift_borrow : forall cx rt i h, at_key a (cx_inst cx, rt_id rt, i) = Some h ->
    answers a (OpLiftBorrow cx rt i) (Ok (hd_rep h))
      (with_loans a (fun c k => loaned a c k \/ (c = cx_id cx /\ k = (cx_inst cx, rt_id rt, i))))
| an_lift_borrow_trap : forall cx rt i, at_key a (cx_inst cx, rt_id rt, i) = None ->
    answers a (OpLiftBorrow cx rt i) (Err ETrap) a
| an_lower_own : forall cx rt rep r a', adds a (cx_inst cx) rt (mkHandle rep true None) r a' ->
    answers a (OpLowerOwn cx rt (VU32 rep)) r a'
| an_lower_own_cast : forall cx rt v, (forall n, v <> VU32 n) -> answers a (OpLowerOwn cx rt v) (Err ECast) a
| an_lower_borrow : forall cx rt rep r a', rt_impl rt <> Some (cx_inst cx) ->
    adds a (cx_inst cx) rt (mkHandle rep false (Some (cx_id cx))) r a' ->
    answers a (OpLowerBorrow cx rt (VU32 rep)) r a'
| an_lower_borrow_local : forall cx rt rep, rt_impl rt = Some (cx_inst cx) ->
    answers a (OpLowerBorrow cx rt (VU32 rep)) (Ok rep) a
| an_lower_borrow_cast : forall cx rt v, (forall n, v <> VU32 n) -> answers a (OpLowerBorrow cx rt v) (Err ECast) a
| an_guards : forall inst e l,
    answers a (OpGuards inst e l) (Ok 0) (with_enterable a (fun i => if Nat.eqb i inst then e else enterable a i)).

(** The histories the abstract machine allows. *)
Inductive allowed : handles -> list op -> list (outcome N) -> handles -> Prop :=
| al_nil : forall a b, same a b -> allowed a [] [] b
| al_step : forall a ops rs b o r c d, allowed a ops rs b -> answers b o r c -> same c d ->
    allowed a (ops ++ [o]) (rs ++ [r]) d.

(** No handles and no calls. *)
Definition fresh (a : handles) : Prop :=
  (forall k, at_key a k = None) /\ (forall c k, ~ loaned a c k) /\ open_calls a = [] /\ call_count a = 0%nat /\ destroyed a = [].

(** ** Observations *)

(** [after insts s calls evs s' calls']: from [s] the operations in [evs], with
    the answers in [evs], lead to [s']. *)
Inductive after (insts : nat) : state -> list nat -> list (op * outcome N) -> state -> list nat -> Prop :=
| af_nil : forall s calls, after insts s calls [] s calls
| af_step : forall s calls evs s1 calls1 o r s2,
    after insts s calls evs s1 calls1 -> proper insts calls1 o -> run o s1 = (r, s2) ->
    after insts s calls (evs ++ [(o, r)]) s2 (opened o r calls1).

(** What CanonResourceRep answers. *)
Definition found (s : state) (inst : nat) (rt : rtype) (i : N) : outcome N := fst (canon_resource_rep inst rt i s).

(** The operation hands out a new handle under [k]. *)
Definition hands_out (k : key) (o : op) (r : outcome N) : Prop :=
  match o, r with
  | OpNew inst rt _, Ok i => (inst, rt_id rt, i) = k
  | OpLowerOwn cx rt _, Ok i => (cx_inst cx, rt_id rt, i) = k
  | OpLowerBorrow cx rt _, Ok i => (cx_inst cx, rt_id rt, i) = k /\ rt_impl rt <> Some (cx_inst cx)
  | _, _ => False
  end.

(** The operation is neither a drop of [k] nor a successful transfer of it. *)
Definition spares (k : key) (o : op) (r : outcome N) : Prop :=
  match o, r with
  | OpDrop inst rt i, _ => (inst, rt_id rt, i) <> k
  | OpLiftOwn cx rt i, Ok _ => (cx_inst cx, rt_id rt, i) <> k
  | _, _ => True
  end.

(** The operation succeeded in dropping [k] or transferring it. *)
Definition removes (k : key) (o : op) (r : outcome N) : Prop :=
  match o, r with
  | OpDrop inst rt i, Ok _ => (inst, rt_id rt, i) = k
  | OpLiftOwn cx rt i, Ok _ => (cx_inst cx, rt_id rt, i) = k
  | _, _ => False
  end.

(** The operation let the call [c] borrow from [k]. *)
Definition borrows (c : nat) (k : key) (o : op) (r : outcome N) : Prop :=
  match o, r with
  | OpLiftBorrow cx rt i, Ok _ => cx_id cx = c /\ (cx_inst cx, rt_id rt, i) = k
  | _, _ => False
  end.

(** The operation gave the call [c] a borrowed handle under [k]. *)
Definition lends_to (c : nat) (k : key) (o : op) (r : outcome N) : Prop :=
  match o, r with
  | OpLowerBorrow cx rt _, Ok i => cx_id cx = c /\ (cx_inst cx, rt_id rt, i) = k /\ rt_impl rt <> Some (cx_inst cx)
  | _, _ => False
  end.

(** What is stored in a table: the element at an index. *)
Definition entry (s : state) (k : key) : option helem :=
  let '(inst, rt, i) := k in
  match nth_error (t_array (inst_table (s_world s) inst rt)) (N.to_nat i) with
  | Some (Some id) => Some (elem_at (s_world s) id)
  | _ => None
  end.

(** The representation the operation was asked to make a handle for. *)
Definition handed_rep (o : op) : option N :=
  match o with
  | OpNew _ _ rep | OpLowerOwn _ _ (VU32 rep) | OpLowerBorrow _ _ (VU32 rep) => Some rep
  | _ => None
  end.

(** The operation made an owned handle of resource type [t] for [rep]. *)
Definition creates (t rep : N) (e : op * outcome N) : bool :=
  match e with
  | (OpNew _ rt v, Ok _) => (rt_id rt =? t) && (v =? rep)
  | (OpLowerOwn _ rt (VU32 v), Ok _) => (rt_id rt =? t) && (v =? rep)
  | _ => false
  end.

(** How often the destructor of [t] was called for [rep]. *)
Definition destructions (s : state) (t rep : N) : nat :=
  count_occ (fun a b : N * N => ltac:(repeat decide equality)) (w_dtors (s_world s)) (t, rep).
