(** Specification: two memories that a program cannot tell apart by looking
    only at what lies inside them. *)
From Coq Require Import NArith List.
From Verif Require Import GoBase M_State S_Memory.
Open Scope N_scope.

(** Same length, same bytes below it. The rest of the buffers may differ, in
    contents and in extent. *)
Definition same_inside (m1 m2 : memory) : Prop :=
  m_len m1 = m_len m2 /\ forall i, i < m_len m1 -> byte m1 i = byte m2 i.

(** A call that returned, with a value or with an error. *)
Definition returned {A} (o : outcome A) : Prop := o <> Panic /\ o <> Diverge.

(** The same state but for the world of handles. *)
Definition with_world (s : state) (w : world) : state := mkState (s_mem s) (s_hist s) w.
