(** Specification vocabulary for linear memory and the allocator. *)
From Coq Require Import NArith List.
From Verif Require Import GoBase M_State.
Import ListNotations.
Open Scope N_scope.

(** The byte at an address. *)
Definition byte (m : memory) (i : N) : N := nth (N.to_nat i) (m_data m) 0.

(** The little-endian number in the [n] bytes at an address. *)
Fixpoint number (m : memory) (p : N) (n : nat) : N :=
  match n with
  | O => 0
  | S n' => byte m p + 256 * number m (p + 1) n'
  end.

(** A memory as the program keeps it: the length fits in 32 bits and within
    the capacity, and the contents are bytes. *)
Definition wf_mem (m : memory) : Prop :=
  m_len m <= mem_cap m /\ m_len m < 2 ^ 32 /\ Forall (fun b => b < 256) (m_data m).

(** The addresses [p], ..., [p+n-1]. *)
Definition within (p n b : N) : Prop := p <= b /\ b < p + n.

(** Addresses in use: those of the initial region and those of the blocks the
    allocator handed out. *)
Definition owned (init : N -> Prop) (hist : list (req * N)) (b : N) : Prop :=
  init b \/ exists r p, In (r, p) hist /\ within p (r_size r) b.

(** A correct allocator: when it succeeds in handing out a fresh block, the
    block has the requested alignment, lies in memory, and overlaps nothing
    in use. It may also fail. In either case memory does not shrink, bytes in
    use keep their values, and instances, handles and calls are left alone. *)
Definition correct_allocator (cx : callctx) (init : N -> Prop) : Prop :=
  forall r s o m' w',
    r_optr r = 0 -> r_osize r = 0 -> wf_mem (s_mem s) ->
    cx_realloc cx r s = (o, (m', w')) ->
    w' = s_world s /\ wf_mem m' /\ m_len (s_mem s) <= m_len m' /\
    (forall b, owned init (s_hist s) b -> byte m' b = byte (s_mem s) b) /\
    (forall p, o = Ok p ->
      (r_align r | p) /\ p + r_size r <= m_len m' /\
      forall b, within p (r_size r) b -> ~ owned init (s_hist s) b).

(** An outcome other than success that a call of the allocator returned. *)
Definition alloc_failed {A} (cx : callctx) (o : outcome A) : Prop :=
  exists r s, r_optr r = 0 /\ r_osize r = 0 /\
    match o with
    | Ok _ => False
    | Err e => fst (cx_realloc cx r s) = Err e
    | Panic => fst (cx_realloc cx r s) = Panic
    | Diverge => fst (cx_realloc cx r s) = Diverge
    end.
