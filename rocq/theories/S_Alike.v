(** Specification: arguments and results that are the same, one by one. *)
From Coq Require Import List.
From Verif Require Import GoBase M_Types M_State S_Values.
Import ListNotations.

(** The two lists have one value for each type, the same in both. *)
Inductive each_same : list valtype -> list any -> list any -> Prop :=
| each_none : each_same [] [] []
| each_next : forall t ts v v' vs vs', same_value t v v' -> each_same ts vs vs' -> each_same (t :: ts) (v :: vs) (v' :: vs').

(** Two host functions that do the same, except that they may return different
    representations of the same results. *)
Definition alike_hosts (ts : list valtype) (host host' : list any -> M (list any * option (M unit))) : Prop :=
  forall vs s, host vs s = host' vs s \/
    exists rs rs' post s', host vs s = (Ok (rs, post), s') /\ host' vs s = (Ok (rs', post), s') /\ each_same ts rs rs'.
