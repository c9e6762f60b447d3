(** Specification of how the components of a record are reached: one after the
    other, each at a given address. *)
From Coq Require Import NArith List String.
From Verif Require Import GoBase M_Types M_State.
Import ListNotations.
Open Scope N_scope.
Open Scope go_scope.

(** Load each component at its address and record the result under its label. *)
Fixpoint load_at (ops : list (string * (N -> M any))) (addrs : list N)
    (acc : list (string * any)) : M (list (string * any)) :=
  match ops, addrs with
  | (l, op) :: ops', a :: addrs' =>
      let* v := op a in
      load_at ops' addrs' (map_set acc l v)
  | _, _ => ret acc
  end.

(** Store the value found under each label at the label's address. *)
Fixpoint store_at (ops : list (string * (any -> N -> M unit))) (addrs : list N)
    (m : list (string * any)) : M unit :=
  match ops, addrs with
  | (l, op) :: ops', a :: addrs' =>
      op (match map_get m l with Some v => v | None => VNil end) a ;;
      store_at ops' addrs' m
  | _, _ => ret tt
  end.

(** Placement of blocks: block [i] starts at offset [i] of the list and has the
    given alignment and size. *)
Fixpoint placed_from (pos : N) (offs : list N) (ls : list (N * N)) (size : N) : Prop :=
  match offs, ls with
  | [], [] => pos <= size
  | o :: offs', (a, s) :: ls' => (a | o) /\ pos <= o /\ placed_from (o + s) offs' ls' size
  | _, _ => False
  end.
