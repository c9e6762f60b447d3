(** Specification vocabulary for storing text in a block that is shrunk. *)
From Coq Require Import NArith List.
From Verif Require Import GoBase M_State S_Memory.
Import ListNotations.
Open Scope N_scope.

(** Shrinking a block handed out before: when it succeeds, the new block has
    the alignment, lies in memory and begins with the bytes the old one began
    with; memory does not shrink, other bytes in use keep their values, and
    instances, handles and calls are left alone. It may also fail. *)
Definition correct_shrinking (cx : callctx) (init : N -> Prop) : Prop :=
  forall r0 r s p m' w',
    In (r0, r_optr r) (s_hist s) -> r_size r0 = r_osize r -> r_size r <= r_osize r -> wf_mem (s_mem s) ->
    cx_realloc cx r s = (Ok p, (m', w')) ->
    w' = s_world s /\ wf_mem m' /\ m_len (s_mem s) <= m_len m' /\
    (r_align r | p) /\ p + r_size r <= m_len m' /\
    (forall i, i < r_size r -> byte m' (p + i) = byte (s_mem s) (r_optr r + i)) /\
    (forall b, owned init (s_hist s) b -> ~ within (r_optr r) (r_osize r) b -> byte m' b = byte (s_mem s) b).

(** An outcome other than success that some call of the allocator returned. *)
Definition realloc_failed {A} (cx : callctx) (o : outcome A) : Prop :=
  exists r s,
    match o with
    | Ok _ => False
    | Err e => fst (cx_realloc cx r s) = Err e
    | Panic => fst (cx_realloc cx r s) = Panic
    | Diverge => fst (cx_realloc cx r s) = Diverge
    end.
