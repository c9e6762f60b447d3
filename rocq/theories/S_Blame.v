(** C81: a refused allocation. *)
From Coq Require Import NArith List.
From Verif Require Import GoBase M_Types M_State S_Requests.
Import ListNotations.

(** The same failure, whatever it is a failure to compute. *)
Definition same_failure {A B} (o : outcome A) (o' : outcome B) : Prop :=
  match o, o' with
  | Err e, Err e' => e = e'
  | Panic, Panic | Diverge, Diverge => True
  | _, _ => False
  end.

(** States a run can be in, from [s] on, while no request has been refused:
    bytes of memory and handles may have changed, and the allocator may have
    granted requests, with what it did to the state it was called in. *)
Inductive reaches (cx : callctx) (s : state) : state -> Prop :=
| at_start : reaches cx s s
| wrote : forall s1 s2, reaches cx s s1 -> m_len (s_mem s2) = m_len (s_mem s1) -> s_hist s2 = s_hist s1 -> reaches cx s s2
| granted : forall s1 r p m w, reaches cx s s1 -> cx_realloc cx r s1 = (Ok p, (m, w)) ->
    reaches cx s (mkState m ((r, u32 p) :: s_hist s1) w).

(** A run from [s] that ends in [s'] with [o] was ended by the allocator: of
    the requests [rs] it was to make, it made some that were granted, then the
    one after them, [r]. The allocator failed on that one, and the run has
    the same failure. What the allocator left behind is what the run left
    behind; in particular there were no writes and no requests after [r]. *)
Definition refused {A} (cx : callctx) (rs : list req) (s : state) (o : outcome A) (s' : state) : Prop :=
  exists done r rest s1, rs = (done ++ r :: rest)%list /\ made s s1 done /\ reaches cx s s1 /\
    same_failure (fst (cx_realloc cx r s1)) o /\
    snd (cx_realloc cx r s1) = (s_mem s', s_world s') /\ s_hist s' = s_hist s1.

(** The requests of values passed one after the other. *)
Definition all_ask (cx : callctx) (ts : list valtype) (vs : list any) (rs : list req) : Prop :=
  exists parts, Forall2 (fun tv part => asks (cx_enc cx) (fst tv) (snd tv) part) (combine ts vs) parts /\ rs = List.concat parts.

(** The allocator grants the requests [rs], made one after the other from [s] on. *)
Definition grants (cx : callctx) (s : state) (rs : list req) : Prop :=
  forall done r rest s1, rs = (done ++ r :: rest)%list -> made s s1 done -> reaches cx s s1 ->
    exists p, fst (cx_realloc cx r s1) = Ok p.
