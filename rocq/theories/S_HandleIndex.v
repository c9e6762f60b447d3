(** Specification of the index a new handle gets: a count of the slots of a
    table and of the removals not yet made good, kept along a history. *)
From Coq Require Import NArith List Bool Arith.
From Verif Require Import GoBase M_Types M_State S_Handles.
Import ListNotations.
Open Scope N_scope.

(** The operation asks the table of resource type [t] in instance [inst] for a
    new handle. A borrow lowered into the instance that implements the
    resource needs none. *)
Definition asks (inst : nat) (t : N) (o : op) : bool :=
  match o with
  | OpNew i rt _ => Nat.eqb i inst && (rt_id rt =? t)
  | OpLowerOwn cx rt (VU32 _) => Nat.eqb (cx_inst cx) inst && (rt_id rt =? t)
  | OpLowerBorrow cx rt (VU32 _) =>
      Nat.eqb (cx_inst cx) inst && (rt_id rt =? t) &&
      negb match rt_impl rt with Some impl => Nat.eqb (cx_inst cx) impl | None => false end
  | _ => false
  end.

(** Between the two states a handle left the table. *)
Definition left_table (inst : nat) (rt : rtype) (s s' : state) : Prop :=
  exists i rep, found s inst rt i = Ok rep /\ found s' inst rt i = Err ETrap.

(** [ledger insts inst rt ops rs s calls slots spare gone]: along the history
    the table came to [slots] slots; [gone] handles left it, and [spare] of
    these were not followed by a request. A request takes up a spare one if
    there is one and a new slot otherwise, whether it is granted or not. *)
Inductive ledger (insts inst : nat) (rt : rtype) : list op -> list (outcome N) -> state -> list nat -> nat -> nat -> nat -> Prop :=
| lg_start : forall s, history insts [] [] s [] -> ledger insts inst rt [] [] s [] 0 0 0
| lg_grow : forall ops rs s calls n g o r s', ledger insts inst rt ops rs s calls n 0 g ->
    proper insts calls o -> run o s = (r, s') -> asks inst (rt_id rt) o = true ->
    ledger insts inst rt (ops ++ [o]) (rs ++ [r]) s' (opened o r calls) (S n) 0 g
| lg_spare : forall ops rs s calls n f g o r s', ledger insts inst rt ops rs s calls n (S f) g ->
    proper insts calls o -> run o s = (r, s') -> asks inst (rt_id rt) o = true ->
    ledger insts inst rt (ops ++ [o]) (rs ++ [r]) s' (opened o r calls) n f g
| lg_left : forall ops rs s calls n f g o r s', ledger insts inst rt ops rs s calls n f g ->
    proper insts calls o -> run o s = (r, s') -> asks inst (rt_id rt) o = false -> left_table inst rt s s' ->
    ledger insts inst rt (ops ++ [o]) (rs ++ [r]) s' (opened o r calls) n (S f) (S g)
| lg_other : forall ops rs s calls n f g o r s', ledger insts inst rt ops rs s calls n f g ->
    proper insts calls o -> run o s = (r, s') -> asks inst (rt_id rt) o = false -> ~ left_table inst rt s s' ->
    ledger insts inst rt (ops ++ [o]) (rs ++ [r]) s' (opened o r calls) n f g.

(** How many requests there were, and how many were refused. *)
Definition asked (inst : nat) (rt : rtype) (ops : list op) : nat := List.length (filter (asks inst (rt_id rt)) ops).
Definition refused (inst : nat) (rt : rtype) (evs : list (op * outcome N)) : nat :=
  List.length (filter (fun e => asks inst (rt_id rt) (fst e) && match snd e with Ok _ => false | _ => true end) evs).

(** The answer to a request, from the counts and from what is in the table. *)
Definition answer (inst : nat) (rt : rtype) (s : state) (slots spare : nat) : outcome N :=
  match spare with
  | O => Ok (N.of_nat slots)
  | S f => match found s inst rt (N.of_nat f) with
           | Ok _ => Err EOther
           | _ => Ok (N.of_nat f)
           end
  end.

(** Every request came when the table was empty. *)
Inductive one_at_a_time (insts inst : nat) (rt : rtype) : list op -> list (outcome N) -> state -> list nat -> Prop :=
| oa_start : forall s, history insts [] [] s [] -> one_at_a_time insts inst rt [] [] s []
| oa_step : forall ops rs s calls o r s', one_at_a_time insts inst rt ops rs s calls ->
    proper insts calls o -> run o s = (r, s') ->
    (asks inst (rt_id rt) o = true -> forall i, found s inst rt i = Err ETrap) ->
    one_at_a_time insts inst rt (ops ++ [o]) (rs ++ [r]) s' (opened o r calls).
