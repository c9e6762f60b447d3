(** C85: calls whose parameters or results are within or beyond the limits on
    the number of core values. *)
From Coq Require Import NArith List Permutation.
From Verif Require Import GoBase M_Types M_State S_Layout S_Values S_Memory S_Access S_Flat S_Canon S_Format S_FlatFormat S_Calls S_Requests S_Blame.
Import ListNotations.
Open Scope N_scope.

(** The core values of the types are at most, or more than, the limit. *)
Definition narrow (maxf : nat) (ts : list valtype) : Prop :=
  exists kss, Forall2 flattens ts kss /\ (List.length (List.concat kss) <= maxf)%nat.
Definition wide (maxf : nat) (ts : list valtype) : Prop :=
  exists kss, Forall2 flattens ts kss /\ (maxf < List.length (List.concat kss))%nat.

(** The tuple of the types has alignment [a] and size [sz]; an address is good
    for it. *)
Definition tuple_layout (ts : list valtype) (a sz : N) : Prop := sp_layout (TTuple ts) = Some (a, sz).
Definition good_address (m : memory) (a sz ptr : N) : Prop := (a | ptr) /\ ptr + sz <= m_len m.

(** Core values [cs] given for the types: the first ones are of the core types
    of a narrow list, or the first one is an address, the others are [rest].
    Nothing they lead to goes beyond the 32-bit address space. *)
Inductive presented (enc : strenc) (m : memory) (maxf : nat) (ts : list valtype) : list cval -> list cval -> Prop :=
| presented_flat : forall kss used rest,
    Forall2 flattens ts kss -> (List.length (List.concat kss) <= maxf)%nat ->
    well_kinded (List.concat kss) used -> all_addressable enc m ts used -> presented enc m maxf ts (used ++ rest) rest
| presented_tuple : forall a sz ptr rest,
    wide maxf ts -> tuple_layout ts a sz -> ptr + sz < 2 ^ 32 ->
    (good_address m a sz ptr -> addressable enc m (TTuple ts) ptr) -> presented enc m maxf ts (CU32 ptr :: rest) rest.

(** The values that core values stand for: one group of core values after the
    other, or the fields of the tuple at the address, in some order. *)
Inductive taken (enc : strenc) (m : memory) (maxf : nat) (ts : list valtype) : list cval -> list any -> Prop :=
| taken_flat : forall used rest vs,
    narrow maxf ts -> received_as enc m ts used vs -> taken enc m maxf ts (used ++ rest) vs
| taken_tuple : forall a sz ptr rest fields vs,
    wide maxf ts -> tuple_layout ts a sz -> good_address m a sz ptr ->
    reads_as enc m (TTuple ts) ptr (VMap fields) -> Permutation vs (map snd fields) ->
    taken enc m maxf ts (CU32 ptr :: rest) vs.

(** The requests made in order to send values: the ones of the values, if they
    are values of the types; or one for the tuple, whatever the values are. *)
Inductive sending (cx : callctx) (maxf : nat) (ts : list valtype) (vs : list any) : list req -> Prop :=
| sending_flat : forall asked, narrow maxf ts -> Forall2 (has_type (cx_enc cx)) ts vs -> all_ask cx ts vs asked ->
    sending cx maxf ts vs asked
| sending_tuple : forall a sz, wide maxf ts -> tuple_layout ts a sz -> sz < 2 ^ 32 ->
    sending cx maxf ts vs [new_block a sz].

(** What is sent, in the state [s1]: canonical core values that stand for the
    values; or the address of a block that was free in [s]. *)
Inductive sent (enc : strenc) (init : N -> Prop) (maxf : nat) (ts : list valtype) (vs : list any) (s s1 : state) : list any -> Prop :=
| sent_flat : forall kss cs, Forall2 flattens ts kss -> (List.length (List.concat kss) <= maxf)%nat ->
    well_kinded (List.concat kss) cs -> passed_as enc (s_mem s1) ts cs vs ->
    sent enc init maxf ts vs s s1 (map VCore cs)
| sent_tuple : forall a sz ptr, wide maxf ts -> tuple_layout ts a sz -> good_address (s_mem s1) a sz ptr ->
    (forall b, ptr <= b < ptr + sz -> ~ owned init (s_hist s) b /\ owned init (s_hist s1) b) ->
    sent enc init maxf ts vs s s1 [VU32 ptr].
