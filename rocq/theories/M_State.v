(** Program state shared by the ABI functions: linear memory, allocator
    history, and the heap of handles, call contexts and component instances.
    Models abi/types/handle.go, context.go, component_instance.go,
    canonical_options.go, internal/collections/stack/stack.go and bytes.Buffer
    as far as the code uses it. *)
From Coq Require Import NArith ZArith List String Bool.
From Verif Require Import GoBase M_Types.
Import ListNotations.
Open Scope N_scope.
Open Scope go_scope.

(** Core values: abi/values/int.go, float.go. U64 is an int64 in Go but only
    observable through Value(), a uint64. Floats are bit patterns.
    abi/values/int.go:5-22, abi/values/float.go:5-27. *)
Inductive cval := CU32 (n : N) | CU64 (n : N) | CF32 (bits : N) | CF64 (bits : N).

(** abi/values/*.go Kind(). abi/values/int.go:5-22, abi/values/float.go:5-27.
    *)
Definition cval_kind (c : cval) : kind :=
  match c with CU32 _ => KU32 | CU64 _ => KU64 | CF32 _ => KF32 | CF64 _ => KF64 end.

(** The dynamic types of an [any] that the code distinguishes. [rune] is
    int32, hence [VS32]. Strings are byte lists. [VCore] is an any holding a
    values.Value, [VOther] any other dynamic type. The switches and assertions
    that distinguish them: abi/io/store.go:100-161, abi/io/lower.go:66-182. *)
Inductive any : Type :=
| VNil
| VBool (b : bool)
| VU8 (n : N) | VU16 (n : N) | VU32 (n : N) | VU64 (n : N)
| VS8 (z : Z) | VS16 (z : Z) | VS32 (z : Z) | VS64 (z : Z)
| VInt (z : Z) | VUint (n : N)
| VF32 (bits : N) | VF64 (bits : N)
| VStr (s : list N)
| VList (l : list any)
| VMap (m : list (string * any))
| VCore (c : cval)
| VOther.

(** *bytes.Buffer as used through Bytes() and Len(): [m_data] is the backing
    array from the read offset up to its capacity, [m_len] the length of
    Bytes(). The Memory of abi/types/canonical_options.go:12-18. *)
Record memory := mkMem { m_data : list N; m_len : N }.

(** cap(Bytes()). Bounds the slices at abi/io/load.go:138,251 and
    abi/io/store.go:115,185,284,317,354. *)
Definition mem_cap (m : memory) : N := N.of_nat (List.length (m_data m)).

(** uint32(Memory.Len()). abi/io/load.go:247,286;
    abi/io/store.go:93,308,344,371,427. *)
Definition mem_len32 (m : memory) : N := u32 (m_len m).

(** Memory.Bytes()[lo:hi]: panics unless lo <= hi <= cap.
    abi/io/load.go:138,251; abi/io/store.go:115,185,284,317,354. *)
Definition mem_slice (m : memory) (lo hi : N) : outcome (list N) :=
  if (lo <=? hi) && (hi <=? mem_cap m) then
    Ok (firstn (N.to_nat (hi - lo)) (skipn (N.to_nat lo) (m_data m)))
  else Panic.

(** Overwrite bytes from offset [lo] (callers have sliced the range before).
    abi/io/store.go:116,190-194 (PutUint), 284, 317, 354 (copy). *)
Fixpoint write_at (lo : nat) (bs data : list N) : list N :=
  match lo, data with
  | _, [] => []
  | O, d :: data' =>
      match bs with
      | [] => data
      | b :: bs' => b :: write_at O bs' data'
      end
  | S lo', d :: data' => d :: write_at lo' bs data'
  end.
(** The same on a memory: abi/io/store.go:116,190-194,284,317,354 *)
Definition mem_write (m : memory) (lo : N) (bs : list N) : memory :=
  mkMem (write_at (N.to_nat lo) bs (m_data m)) (m_len m).

(** abi/types/handle.go:9-14 HandleElem; Scope is an index of a call context. *)
Record helem := mkElem { h_rep : N; h_lend : Z; h_own : bool; h_scope : option nat }.

(** abi/types/handle.go:16-19 HandleTable; elements are indices into the heap
    of handle elements. *)
Record htable := mkTable { t_array : list (option nat); t_free : list N }.
Definition empty_table := mkTable [] [].

(** abi/types/context.go:3-8 CallContext, mutable part. *)
Record callst := mkCall { k_lenders : list nat; k_borrow : Z }.

(** abi/types/component_instance.go:3-7; the map from resource types (by
    identity) to tables is an association list. A nil map is not modelled. *)
Record instance := mkInst {
  i_may_enter : bool; i_may_leave : bool; i_tables : list (N * htable) }.

(** The heap. [w_dtors] records destructor calls (resource type, rep), latest
    first. Everything that pointers of abi/types/handle.go:9-80,
    abi/types/context.go:3-8 and abi/types/component_instance.go:3-7 reach;
    destructors: abi/io/canon.go:21-36. *)
Record world := mkWorld {
  w_elems : list helem; w_calls : list callst; w_insts : list instance;
  w_dtors : list (N * N) }.

(** One Realloc request: abi/types/canonical_options.go:10. *)
Record req := mkReq { r_optr : N; r_osize : N; r_align : N; r_size : N }.

(** [s_hist]: the successful allocations so far with the pointers returned,
    latest first. The memory is abi/types/canonical_options.go:12-18. *)
Record state := mkState { s_mem : memory; s_hist : list (req * N); s_world : world }.

(** abi/types CallContext (immutable part) with its CanonicalOptions. The
    encoding names of encoding/*.go are a finite type plus "unknown". Realloc
    is arbitrary code: given the request and the state, which contains the
    previous requests and their results, it returns a pointer or fails, and in
    either case leaves some memory and some world behind.
    abi/types/context.go:3-8, abi/types/canonical_options.go:10-18. *)
Inductive strenc := EncUtf8 | EncUtf16 | EncUtf16LE | EncUtf16BE | EncLatin1 | EncLatin1Utf16 | EncUnknown.

(** abi/types/context.go:3-8, abi/types/canonical_options.go:10-18 *)
Record callctx := mkCtx {
  cx_id : nat;                   (* index in w_calls *)
  cx_inst : nat;                 (* index in w_insts *)
  cx_enc : strenc;
  cx_realloc : req -> state -> outcome N * (memory * world) }.

(** State monad: the state is kept on errors, as in Go. Models the sequencing
    of Go statements, as in abi/io/store.go:13-72. *)
Definition M (A : Type) := state -> outcome A * state.
(** return x, nil (abi/io/load.go:94 for one) *)
Definition ret {A} (x : A) : M A := fun s => (Ok x, s).
(** A call that neither reads nor changes the state, as Size at
    abi/io/store.go:87 *)
Definition lift_o {A} (x : outcome A) : M A := fun s => (x, s).
(** x, err := f(); if err != nil { return err } (abi/io/store.go:14-17 for
    one) *)
Definition bind {A B} (m : M A) (f : A -> M B) : M B := fun s =>
  match m s with
  | (Ok a, s') => f a s'
  | (Err e, s') => (Err e, s')
  | (Panic, s') => (Panic, s')
  | (Diverge, s') => (Diverge, s')
  end.
Notation "'let*' x ':=' e 'in' f" := (bind e (fun x => f))
  (at level 200, x pattern, e at level 100, f at level 200, right associativity) : go_scope.
Notation "e ';;' f" := (bind e (fun _ => f)) (at level 110, right associativity) : go_scope.

(** Reading cx.Options.Memory (abi/types/canonical_options.go:12-18) *)
Definition get_mem : M memory := fun s => (Ok (s_mem s), s).
(** Writing through Memory.Bytes() (abi/types/canonical_options.go:12-18) *)
Definition put_mem (m : memory) : M unit := fun s => (Ok tt, mkState m (s_hist s) (s_world s)).
(** Following the pointers of abi/types/context.go:3-8 *)
Definition get_world : M world := fun s => (Ok (s_world s), s).
(** Writing through the pointers of abi/types/context.go:3-8 *)
Definition put_world (w : world) : M unit := fun s => (Ok tt, mkState (s_mem s) (s_hist s) w).

(** cx.Options.Realloc(optr, osize, align, size). The result is a uint32.
    abi/types/canonical_options.go:10; called at abi/io/canon_lower.go:113,
    abi/io/store.go:279,297,331,359,414. *)
Definition realloc (cx : callctx) (optr osize align size : N) : M N := fun s =>
  let r := mkReq optr osize align size in
  let (o, mw) := cx_realloc cx r s in
  let (m, w) := mw in
  match o with
  | Ok p => (Ok (u32 p), mkState m ((r, u32 p) :: s_hist s) w)
  | Err e => (Err e, mkState m (s_hist s) w)
  | Panic => (Panic, mkState m (s_hist s) w)
  | Diverge => (Diverge, mkState m (s_hist s) w)
  end.

(** ** Handles *)

(** internal/collections/stack/stack.go:5-7 Push, 12-19 Pop *)
Definition stack_push {A} (l : list A) (x : A) : list A := (l ++ [x])%list.
Definition stack_pop {A} (l : list A) : list A * option A :=
  match rev l with
  | [] => (l, None)
  | x :: r => (rev r, Some x)
  end.

(** abi/types/handle.go:73-80 HandleTables.Table: look up, creating an empty
    table when missing. *)
Fixpoint find_table (ts : list (N * htable)) (rt : N) : option htable :=
  match ts with
  | [] => None
  | (r, t) :: ts' => if r =? rt then Some t else find_table ts' rt
  end.
Definition get_table (ts : list (N * htable)) (rt : N) : htable :=
  match find_table ts rt with Some t => t | None => empty_table end.
Fixpoint set_table (ts : list (N * htable)) (rt : N) (t : htable) : list (N * htable) :=
  match ts with
  | [] => [(rt, t)]
  | (r, t') :: ts' => if r =? rt then (r, t) :: ts' else (r, t') :: set_table ts' rt t
  end.

(** inst.HandleTables.Table(rt): abi/types/handle.go:73-80 *)
Definition inst_table (w : world) (i : nat) (rt : N) : htable :=
  match nth_error (w_insts w) i with
  | Some ins => get_table (i_tables ins) rt
  | None => empty_table
  end.
(** A change of that table: abi/types/handle.go:16-19,73-80 *)
Definition set_inst_table (w : world) (i : nat) (rt : N) (t : htable) : world :=
  match nth_error (w_insts w) i with
  | Some ins =>
      mkWorld (w_elems w) (w_calls w)
        (list_upd (w_insts w) i
           (mkInst (i_may_enter ins) (i_may_leave ins) (set_table (i_tables ins) rt t)))
        (w_dtors w)
  | None => w
  end.

(** abi/types/context.go:15-21 RemoveBorrowFromTable / AddBorrowCountToTable *)
Definition add_borrow (w : world) (scope : option nat) (d : Z) : world :=
  match scope with
  | None => w
  | Some c =>
      match nth_error (w_calls w) c with
      | Some k =>
          mkWorld (w_elems w)
            (list_upd (w_calls w) c (mkCall (k_lenders k) (k_borrow k + d)%Z))
            (w_insts w) (w_dtors w)
      | None => w
      end
  end.

(** abi/types/handle.go:21-37 HandleTable.Add (with 82-84 HandleTables.Add).
    The element is allocated on the heap by the callers (&HandleElem{...});
    the allocation is part of this function. *)
Definition handle_add (inst : nat) (rt : N) (h : helem) : M N :=
  let* w := get_world in
  let id := List.length (w_elems w) in
  let w := mkWorld (w_elems w ++ [h])%list (w_calls w) (w_insts w) (w_dtors w) in
  let t := inst_table w inst rt in
  let (free, popped) := stack_pop (t_free t) in
  match popped with
  | Some i =>
      match nth_error (t_array t) (N.to_nat i) with
      | None => (* ht.Array[i] out of range *)
          put_world (set_inst_table w inst rt (mkTable (t_array t) free)) ;;
          lift_o Panic
      | Some (Some _) =>
          put_world (set_inst_table w inst rt (mkTable (t_array t) free)) ;;
          lift_o (Err EOther)
      | Some None =>
          let t' := mkTable (list_upd (t_array t) (N.to_nat i) (Some id)) free in
          put_world (add_borrow (set_inst_table w inst rt t') (h_scope h) 1) ;;
          ret i
      end
  | None =>
      let i := u32 (N.of_nat (List.length (t_array t))) in
      let t' := mkTable (t_array t ++ [Some id])%list free in
      put_world (add_borrow (set_inst_table w inst rt t') (h_scope h) 1) ;;
      ret i
  end.

(** abi/types/handle.go:39-48 HandleTable.Get: the heap index of the element.
    Table() (lines 73-80) also creates a missing table. *)
Definition table_get (t : htable) (i : N) : outcome nat :=
  if u32 (N.of_nat (List.length (t_array t))) <=? i then Err ETrap
  else match nth_error (t_array t) (N.to_nat i) with
       | Some (Some id) => Ok id
       | Some None => Err ETrap
       | None => Panic
       end.
Definition elem_at (w : world) (id : nat) : helem :=
  nth id (w_elems w) (mkElem 0 0 true None).
Definition handle_get (inst : nat) (rt : N) (i : N) : M nat :=
  let* w := get_world in
  let t := inst_table w inst rt in
  put_world (set_inst_table w inst rt t) ;;
  lift_o (table_get t i).

(** abi/types/handle.go:50-67 HandleTable.Remove. Line 62 pushes the length of
    the free list. *)
Definition handle_remove (inst : nat) (rt : N) (i : N) : M nat :=
  let* id := handle_get inst rt i in
  let* w := get_world in
  let h := elem_at w id in
  if (h_lend h =? 0)%Z then
    let t := inst_table w inst rt in
    let t' := mkTable (list_upd (t_array t) (N.to_nat i) None)
                      (stack_push (t_free t) (u32 (N.of_nat (List.length (t_free t))))) in
    put_world (add_borrow (set_inst_table w inst rt t') (h_scope h) (-1)) ;;
    ret id
  else lift_o (Err ETrap).

(** abi/types/context.go:10-13 LiftBorrowFrom *)
Definition set_lend (w : world) (id : nat) (d : Z) : world :=
  let h := elem_at w id in
  mkWorld (list_upd (w_elems w) id (mkElem (h_rep h) (h_lend h + d)%Z (h_own h) (h_scope h)))
          (w_calls w) (w_insts w) (w_dtors w).
Definition lift_borrow_from (cx : nat) (id : nat) : M unit :=
  let* w := get_world in
  let w := set_lend w id 1 in
  match nth_error (w_calls w) cx with
  | Some k =>
      put_world (mkWorld (w_elems w)
        (list_upd (w_calls w) cx (mkCall (k_lenders k ++ [id])%list (k_borrow k)))
        (w_insts w) (w_dtors w))
  | None => put_world w
  end.

(** abi/types/context.go:23-31 ExitCall *)
Definition exit_call (cx : nat) : M unit :=
  let* w := get_world in
  match nth_error (w_calls w) cx with
  | Some k =>
      if (k_borrow k =? 0)%Z then
        put_world (fold_left (fun w id => set_lend w id (-1)) (k_lenders k) w)
      else lift_o (Err ETrap)
  | None => ret tt
  end.

(** abi/io/canon.go:5-11 CanonResourceNew *)
Definition canon_resource_new (inst : nat) (rt : rtype) (rep : N) : M N :=
  handle_add inst (rt_id rt) (mkElem rep 0 true None).

(** abi/io/canon.go:13-19 CanonResourceRep *)
Definition canon_resource_rep (inst : nat) (rt : rtype) (i : N) : M N :=
  let* id := handle_get inst (rt_id rt) i in
  let* w := get_world in
  ret (h_rep (elem_at w id)).

(** abi/io/canon.go:21-36 CanonResourceDrop with a destructor that does
    nothing to the state; that it was called is recorded. rt.Impl() == nil
    panics at the MayEnter access. *)
Definition canon_resource_drop (inst : nat) (rt : rtype) (i : N) : M unit :=
  let* id := handle_remove inst (rt_id rt) i in
  let* w := get_world in
  let h := elem_at w id in
  if h_own h then
    match rt_impl rt with
    | None => lift_o Panic
    | Some impl =>
        let enter_ok := match nth_error (w_insts w) impl with
                        | Some ins => i_may_enter ins | None => true end in
        if negb (Nat.eqb inst impl) && negb enter_ok then lift_o (Err ETrap)
        else if rt_dtor rt then
          put_world (mkWorld (w_elems w) (w_calls w) (w_insts w)
                             ((rt_id rt, h_rep h) :: w_dtors w))
        else ret tt
    end
  else ret tt.

(** The same with an arbitrary destructor. In Go it returns nothing; it may
    panic, use the handle functions and call into instances.
    abi/io/canon.go:21-36. *)
Definition canon_resource_drop_with (dtor : N -> M unit) (inst : nat) (rt : rtype) (i : N) : M unit :=
  let* id := handle_remove inst (rt_id rt) i in
  let* w := get_world in
  let h := elem_at w id in
  if h_own h then
    match rt_impl rt with
    | None => lift_o Panic
    | Some impl =>
        let enter_ok := match nth_error (w_insts w) impl with
                        | Some ins => i_may_enter ins | None => true end in
        if negb (Nat.eqb inst impl) && negb enter_ok then lift_o (Err ETrap)
        else if rt_dtor rt then
          put_world (mkWorld (w_elems w) (w_calls w) (w_insts w)
                             ((rt_id rt, h_rep h) :: w_dtors w)) ;;
          dtor (h_rep h)
        else ret tt
    end
  else ret tt.

(** abi/io/lift.go:11-17 LiftOwn *)
Definition lift_own (cx : callctx) (i : N) (rt : rtype) : M N :=
  let* id := handle_remove (cx_inst cx) (rt_id rt) i in
  let* w := get_world in
  ret (h_rep (elem_at w id)).

(** abi/io/lift.go:19-26 LiftBorrow *)
Definition lift_borrow (cx : callctx) (i : N) (rt : rtype) : M N :=
  let* id := handle_get (cx_inst cx) (rt_id rt) i in
  lift_borrow_from (cx_id cx) id ;;
  let* w := get_world in
  ret (h_rep (elem_at w id)).

(** abi/io/lower.go:244-254 LowerOwn *)
Definition lower_own (cx : callctx) (rep : any) (rt : rtype) : M N :=
  match rep with
  | VU32 r => handle_add (cx_inst cx) (rt_id rt) (mkElem r 0 true None)
  | _ => lift_o (Err ECast)
  end.

(** abi/io/lower.go:256-270 LowerBorrow *)
Definition lower_borrow (cx : callctx) (rep : any) (rt : rtype) : M N :=
  match rep with
  | VU32 r =>
      if match rt_impl rt with Some impl => Nat.eqb (cx_inst cx) impl | None => false end
      then ret r
      else handle_add (cx_inst cx) (rt_id rt) (mkElem r 0 false (Some (cx_id cx)))
  | _ => lift_o (Err ECast)
  end.
