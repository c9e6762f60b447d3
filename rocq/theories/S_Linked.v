(** Specification of linking: the component function a lowered import calls is
    the lifted export of another component, with a memory of its own. *)
From Coq Require Import NArith ZArith List String Bool.
From Verif Require Import GoBase M_Types M_Layout M_State M_Canon.
Import ListNotations.

(** The state of the other component: its memory and what its allocator has
    handed out, and the instances and handles both share. *)
Definition other (m : memory) (h : list (req * N)) (s : state) : state := mkState m h (s_world s).

(** [f], which works on the other memory, as seen from here: the memory here
    stays. *)
Definition over_there {A} (m : memory) (h : list (req * N)) (f : M A) : M A := fun s =>
  let (o, s') := f (other m h s) in (o, mkState (s_mem s) (s_hist s) (s_world s')).

(** CanonLift of the other component's core function, as the callee that
    CanonLower expects. Its post-return step continues on the other memory as
    the call has left it. *)
Definition linked (order : list (string * any) -> list (string * any)) (opts : options) (inst : nat)
    (core : list any -> M any) (ft : functype) (maxp maxr : nat) (m : memory) (h : list (req * N))
    : list any -> M (list any * option (M unit)) := fun args s =>
  let (o, s') := canon_lift order opts inst core ft args maxp maxr (other m h s) in
  (match o with
   | Ok (vs, post) => Ok (vs, Some (over_there (s_mem s') (s_hist s') post))
   | Err e => Err e
   | Panic => Panic
   | Diverge => Diverge
   end, mkState (s_mem s) (s_hist s) (s_world s')).
