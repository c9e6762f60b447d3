(** Model of abi/io/canon_lift.go and canon_lower.go. *)
From Coq Require Import NArith ZArith List String Bool.
From Verif Require Import GoBase M_Types M_Layout M_State M_Utf M_Load M_Store M_Flat.
Import ListNotations.
Open Scope N_scope.
Open Scope go_scope.

(** abi/types/canonical_options.go:13-18. The memory of the options is the
    memory of the state; PostReturn is an arbitrary state change. *)
Record options := mkOpts {
  o_enc : strenc;
  o_realloc : req -> state -> outcome N * (memory * world);
  o_post_return : option (M unit) }.

(** &types.CallContext{Options: opts, Instance: inst}.
    abi/io/canon_lift.go:27-30, abi/io/canon_lower.go:23-26. *)
Definition new_call (opts : options) (inst : nat) : M callctx :=
  let* w := get_world in
  put_world (mkWorld (w_elems w) (w_calls w ++ [mkCall [] 0])%list (w_insts w) (w_dtors w)) ;;
  ret (mkCtx (List.length (w_calls w)) inst (o_enc opts) (o_realloc opts)).

(** An instance outside the list, which no pointer of the code denotes; a
    total lookup needs one (abi/types/component_instance.go:3-7) *)
Definition default_inst : instance := mkInst true true [].
(** The instance a pointer denotes (abi/types/component_instance.go:3-7) *)
Definition inst_at (w : world) (i : nat) : instance := nth i (w_insts w) default_inst.

(** inst.MayLeave = b, inst.MayEnter = b. abi/io/canon_lift.go:32,39,
    abi/io/canon_lower.go:55,60. *)
Definition set_may_leave (inst : nat) (b : bool) : M unit :=
  let* w := get_world in
  let i := inst_at w inst in
  put_world (mkWorld (w_elems w) (w_calls w)
    (list_upd (w_insts w) inst (mkInst (i_may_enter i) b (i_tables i))) (w_dtors w)).
(** abi/io/canon_lower.go:66 *)
Definition set_may_enter (inst : nat) (b : bool) : M unit :=
  let* w := get_world in
  let i := inst_at w inst in
  put_world (mkWorld (w_elems w) (w_calls w)
    (list_upd (w_insts w) inst (mkInst b (i_may_leave i) (i_tables i))) (w_dtors w)).

(** internal/collections/select.go:3-13 with the closure at canon_lift.go:87-89 *)
Fixpoint lift_each (fs : list (LM any)) : LM (list any) := fun it =>
  match fs with
  | [] => ret ([], it)
  | f :: fs' =>
      let* (v, it) := f it in
      let* (vs, it) := lift_each fs' it in
      ret (v :: vs, it)
  end.

(** abi/io/canon_lift.go:79-143 LiftValues. [order] is the order in which Go's
    "for range" visits a map, arbitrary and different at each run. *)
Definition lift_values (order : list (string * any) -> list (string * any))
    (cx : callctx) (max_flat : nat) (ts : list valtype) : LM (list any) := fun it =>
  let* flat := lift_o (flatten_types ts) in
  if Nat.leb (List.length flat) max_flat then lift_each (map (lift_flat cx) ts) it
  else
    let* (ptr, it) := next_u32 it in
    let* a := lift_o (alignment (TTuple ts)) in
    check_aligned ETrap ptr a ;;
    let* s := lift_o (size (TTuple ts)) in
    check_bounds ETrap ptr s ;;
    let* v := load cx (TTuple ts) ptr in
    match v with
    | VMap m => ret (map snd (order m), it)
    | _ => lift_o (Err ECast)
    end.

(** abi/io/canon_lower.go:94-140 LowerValuesToTuple. The map built at lines
    96-99 is never used. The result is a plain uint32, not a values.U32. *)
Definition lower_values_to_tuple (cx : callctx) (ts : list valtype) (out : option iter) : M (list any) :=
  let* a := lift_o (alignment (TTuple ts)) in
  let* s := lift_o (size (TTuple ts)) in
  let* ptr := match out with
              | None => realloc cx 0 0 a s
              | Some it => let* (n, _) := next_u32 it in ret n
              end in
  check_aligned EOther ptr a ;;
  check_bounds EOther ptr s ;;
  ret [VU32 ptr].

(** abi/io/canon_lower.go:78-88: lowers vs[i] at ts[i]; more values than types
    is an index panic, fewer values than types is not noticed. *)
Fixpoint lower_each (fs : list (any -> M (list cval))) (vs : list any) : M (list cval) :=
  match vs with
  | [] => ret []
  | v :: vs' =>
      match fs with
      | [] => lift_o Panic
      | f :: fs' =>
          let* a := f v in
          let* b := lower_each fs' vs' in
          ret (a ++ b)%list
      end
  end.

(** abi/io/canon_lower.go:71-92 LowerValues *)
Definition lower_values (cx : callctx) (max_flat : nat) (vs : list any) (ts : list valtype)
    (out : option iter) : M (list any) :=
  let* flat := lift_o (flatten_types ts) in
  if Nat.leb (List.length flat) max_flat then
    let* r := lower_each (map (lower_flat cx) ts) vs in
    ret (map VCore r)
  else lower_values_to_tuple cx ts out.

(** abi/io/canon_lift.go:51-57, canon_lower.go:33-39 *)
Fixpoint as_core (vs : list any) : outcome (list cval) :=
  match vs with
  | [] => Ok []
  | VCore c :: vs' => olet r := as_core vs' in Ok (c :: r)
  | _ :: _ => Err ECast
  end.

(** ExitCall's error is dropped at canon_lift.go:73 and canon_lower.go:63 *)
Definition exit_call_ignored (cx : callctx) : M unit := fun s =>
  match exit_call (cx_id cx) s with
  | (Err _, s') => (Ok tt, s')
  | r => r
  end.

(** abi/io/canon_lift.go:12-77 CanonLift. The callee is an arbitrary function
    that may change the state; it returns an any. The second result is the
    post-return closure. *)
Definition canon_lift (order : list (string * any) -> list (string * any))
    (opts : options) (inst : nat) (callee : list any -> M any) (ft : functype)
    (args : list any) (maxp maxr : nat) : M (list any * M unit) :=
  let* w := get_world in
  if negb (i_may_enter (inst_at w inst)) then lift_o (Err ETrap) else
  if negb (i_may_leave (inst_at w inst)) then lift_o (Err EOther) else
  let* cx := new_call opts inst in
  set_may_leave inst false ;;
  let* flat := lower_values cx maxp args (param_types ft) None in
  set_may_leave inst true ;;
  let* res := callee flat in
  match res with
  | VList vs =>
      let* cvs := lift_o (as_core vs) in
      let* (lifted, _) := lift_values order cx maxr (result_types ft) (IBase cvs 0) in
      ret (lifted,
           (match o_post_return opts with Some f => f | None => ret tt end) ;;
           exit_call_ignored cx)
  | _ => lift_o (Err ECast)
  end.

(** abi/io/canon_lower.go:13-69 CanonLower. The callee returns results and a
    post-return closure (None: nil func, calling it panics). *)
Definition canon_lower (order : list (string * any) -> list (string * any))
    (opts : options) (inst : nat) (callee : list any -> M (list any * option (M unit)))
    (calling_import : bool) (ft : functype) (flat_args : list any) (maxp maxr : nat)
    : M (list any) :=
  let* cx := new_call opts inst in
  let* w := get_world in
  if negb (i_may_leave (inst_at w inst)) then lift_o (Err ETrap) else
  if negb (i_may_enter (inst_at w inst)) then lift_o (Err EOther) else
  let* args := lift_o (as_core flat_args) in
  let* (lifted, it) := lift_values order cx maxp (param_types ft) (IBase args 0) in
  let* (results, post) := callee lifted in
  set_may_leave inst false ;;
  let* flat := lower_values cx maxr results (result_types ft) (Some it) in
  set_may_leave inst true ;;
  (match post with Some f => f | None => lift_o Panic end) ;;
  exit_call_ignored cx ;;
  (if calling_import then set_may_enter inst true else ret tt) ;;
  ret flat.
