(** Specification of memory as variables: places that hold values, and values
    sent as core values, along any sequence of stores, lowerings and steps of
    the guest. *)
From Coq Require Import NArith List.
From Verif Require Import GoBase M_Types S_Layout M_State M_Store M_Flat S_Values S_Flat S_Memory.
Import ListNotations.
Open Scope N_scope.

(** A variable has a type and an address. *)
Definition variable := (valtype * N)%type.

(** The bytes of a variable. *)
Definition room (x : variable) (b : N) : Prop :=
  exists a sz, sp_layout (fst x) = Some (a, sz) /\ within (snd x) sz b.

(** Each variable is aligned and lies in the region the allocator never hands
    out; no two of them share a byte. *)
Definition variables_ok (init : N -> Prop) (top : N) (xs : list variable) : Prop :=
  (forall x, In x xs -> wf_type (fst x) /\ exists a sz, sp_layout (fst x) = Some (a, sz) /\ (a | snd x) /\ snd x + sz <= top) /\
  (forall x b, In x xs -> room x b -> init b) /\
  (forall i j x y b, nth_error xs i = Some x -> nth_error xs j = Some y -> i <> j -> room x b -> ~ room y b).

(** What each variable holds, if that is known, and what was sent. *)
Definition contents := nat -> option any.
Definition assigned (c : contents) (i : nat) (v : option any) : contents :=
  fun j => if Nat.eqb j i then v else c j.
Record sent := mkSent { x_type : valtype; x_value : any; x_core : list cval }.

(** Guest code that leaves memory in use alone: it may write anywhere else, grow
    memory and take blocks itself. *)
Definition guest_step (init : N -> Prop) (s s' : state) : Prop :=
  wf_mem (s_mem s') /\ m_len (s_mem s) <= m_len (s_mem s') /\
  (exists blocks, s_hist s' = (blocks ++ s_hist s)%list) /\
  forall b, owned init (s_hist s) b -> byte (s_mem s') b = byte (s_mem s) b.

(** [reaches cx init xs s c out]: some sequence of steps leads to the state [s],
    in which the variables hold [c] and [out] was sent, latest first. *)
Inductive reaches (cx : callctx) (init : N -> Prop) (xs : list variable) : state -> contents -> list sent -> Prop :=
| re_start : forall s, wf_mem (s_mem s) -> variables_ok init (m_len (s_mem s)) xs ->
    reaches cx init xs s (fun _ => None) []
| re_assign : forall s c out i t p v s', reaches cx init xs s c out ->
    nth_error xs i = Some (t, p) -> has_type (cx_enc cx) t v -> store cx t v p s = (Ok tt, s') ->
    reaches cx init xs s' (assigned c i (Some v)) out
| re_spoil : forall s c out i t p v o s', reaches cx init xs s c out ->
    nth_error xs i = Some (t, p) -> lists_fit t v -> store cx t v p s = (o, s') ->
    reaches cx init xs s' (assigned c i None) out
| re_send : forall s c out t ks v cs s', reaches cx init xs s c out ->
    wf_type t -> flattens t ks -> has_type (cx_enc cx) t v -> lower_flat cx t v s = (Ok cs, s') ->
    reaches cx init xs s' c (mkSent t v cs :: out)
| re_drop : forall s c out t v o s', reaches cx init xs s c out ->
    handle_free t -> lists_fit t v -> lower_flat cx t v s = (o, s') ->
    reaches cx init xs s' c out
| re_guest : forall s c out s', reaches cx init xs s c out -> guest_step init s s' ->
    reaches cx init xs s' c out.
