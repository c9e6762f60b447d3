(** C82: core values of a call, right or wrong. *)
From Coq Require Import List.
From Verif Require Import GoBase M_Types M_Layout M_State M_Flat.
Import ListNotations.
Open Scope nat_scope.

(** Go values that begin with core values of the types [ks], and have nothing
    but core values after them. *)
Definition begins (ks : list kind) (vs : list any) : Prop :=
  exists cs rest, vs = map VCore (cs ++ rest) /\ map cval_kind cs = ks.

(** What has to arrive for values that flatten to [kss], with room for [max]
    flat values: all of them, or else the pointer to where they are. *)
Definition to_arrive (max : nat) (kss : list (list kind)) (ks : list kind) : Prop :=
  (length (concat kss) <= max /\ ks = concat kss) \/ (max < length (concat kss) /\ ks = [KU32]).
