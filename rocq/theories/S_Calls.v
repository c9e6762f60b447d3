(** Specification of what a lifted or lowered call passes: core values for a
    list of component values, one group after the other. *)
From Coq Require Import NArith ZArith List String Bool.
From Verif Require Import GoBase M_Types M_State M_Utf S_Layout S_Values S_Memory S_Flat S_Canon S_Format S_FlatFormat.
Import ListNotations.
Open Scope N_scope.

(** The core values split into one group per type, of the core types the type
    flattens to; [R] relates each group to its value. *)
Inductive in_turn (R : valtype -> list cval -> any -> Prop) : list valtype -> list cval -> list any -> Prop :=
| in_turn_nil : in_turn R [] [] []
| in_turn_cons : forall t ts c cs v vs,
    flattens t (kinds c) -> R t c v -> in_turn R ts cs vs -> in_turn R (t :: ts) (c ++ cs) (v :: vs).

(** The core values are the canonical form of values equal to the given ones. *)
Definition passed_as (enc : strenc) (m : memory) : list valtype -> list cval -> list any -> Prop :=
  in_turn (fun t c v => exists v', stands_canonically enc m t c v' /\ same_value t v v').
(** The values are the readings of the core values. *)
Definition received_as (enc : strenc) (m : memory) : list valtype -> list cval -> list any -> Prop :=
  in_turn (lifts_as enc m).
(** The core values can be read at the types. *)
Definition receivable (enc : strenc) (m : memory) (ts : list valtype) (cs : list cval) : Prop :=
  exists vs, in_turn (fun t c _ => liftable enc m t c) ts cs vs.
(** As [flat_addressable], for all of them. *)
Definition all_addressable (enc : strenc) (m : memory) (ts : list valtype) (cs : list cval) : Prop :=
  forall css, cs = List.concat css -> Forall2 (fun t c => flattens t (kinds c)) ts css ->
    Forall2 (flat_addressable enc m) ts css.

(** Core values of the kinds given, with payloads of that size. *)
Definition well_kinded (ks : list kind) (cs : list cval) : Prop :=
  kinds cs = ks /\ Forall (fun c => core_bits c < 2 ^ core_width (cval_kind c)) cs.

(** Running [post] runs the post-return function, if there is one, has its
    outcome and touches neither memory nor guards otherwise. *)
Definition runs_post_return (f : option (M unit)) (post : M unit) : Prop :=
  forall s, exists s2,
    let (o, s1) := match f with Some f => f s | None => (Ok tt, s) end in
    post s = (o, s2) /\ s_mem s2 = s_mem s1 /\ guards s2 = guards s1.

(** No byte that was in use is different. *)
Definition in_use_kept (init : N -> Prop) (s s' : state) : Prop :=
  forall b, owned init (s_hist s) b -> byte (s_mem s') b = byte (s_mem s) b.
