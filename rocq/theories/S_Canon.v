(** Specification of the guards of component instances and of what a call may
    do to them. *)
From Coq Require Import NArith ZArith List Bool.
From Verif Require Import GoBase M_Types M_State S_Values.
Import ListNotations.

(** (MayEnter, MayLeave) of every instance *)
Definition guards (s : state) : list (bool * bool) :=
  map (fun i => (i_may_enter i, i_may_leave i)) (w_insts (s_world s)).

Definition may_enter (s : state) (inst : nat) : Prop := exists l, nth_error (guards s) inst = Some (true, l).
Definition may_leave (s : state) (inst : nat) : Prop := exists e, nth_error (guards s) inst = Some (e, true).
Definition may_not_enter (s : state) (inst : nat) : Prop := exists l, nth_error (guards s) inst = Some (false, l).
Definition may_not_leave (s : state) (inst : nat) : Prop := exists e, nth_error (guards s) inst = Some (e, false).

(** [s'] has the guards of [s], except that [inst] may not be left. *)
Definition locked (s : state) (inst : nat) (s' : state) : Prop :=
  List.length (guards s') = List.length (guards s) /\
  (forall i, i <> inst -> nth_error (guards s') i = nth_error (guards s) i) /\
  forall e l, nth_error (guards s) inst = Some (e, l) -> nth_error (guards s') inst = Some (e, false).

(** An allocator that leaves every guard as it finds it. *)
Definition keeps_guards (alloc : req -> state -> outcome N * (memory * world)) : Prop :=
  forall r s o m w, alloc r s = (o, (m, w)) -> guards (mkState m (s_hist s) w) = guards s.

(** An allocator that changes memory only: no handle, guard or call. *)
Definition leaves_world (alloc : req -> state -> outcome N * (memory * world)) : Prop :=
  forall r s o m w, alloc r s = (o, (m, w)) -> w = s_world s.

(** [s] with one more call in progress that nothing refers to. *)
Definition with_call (s : state) : state :=
  mkState (s_mem s) (s_hist s)
    (mkWorld (w_elems (s_world s)) (w_calls (s_world s) ++ [mkCall [] 0%Z])%list
             (w_insts (s_world s)) (w_dtors (s_world s))).

(** [m] never makes [inst] one that may not be left. *)
Definition keeps_leave {A} (inst : nat) (m : M A) : Prop :=
  forall s o s', m s = (o, s') -> may_leave s inst -> may_leave s' inst.

(** Position by position the same value of the given type. *)
Definition all_same (ts : list valtype) (vs vs' : list any) : Prop :=
  List.length vs = List.length ts /\ List.length vs' = List.length ts /\
  forall i t v v', nth_error ts i = Some t -> nth_error vs i = Some v -> nth_error vs' i = Some v' -> same_value t v v'.
