(** Specification: memory that has grown. *)
From Coq Require Import NArith List.
From Verif Require Import GoBase M_State S_Memory.
Open Scope N_scope.

(** Memory has grown and the bytes it had are still there. *)
Definition grown (m m' : memory) : Prop :=
  m_len m <= m_len m' /\ forall i, i < m_len m -> byte m' i = byte m i.

(** Bytes were appended to the buffer, and memory has grown to a length that
    still fits in 32 bits. *)
Definition appended (m m' : memory) : Prop :=
  m_len m <= m_len m' /\ m_len m' < 2 ^ 32 /\ exists more, m_data m' = (m_data m ++ more)%list.
