(** The number of loans of a handle, in terms of what was done. *)
From Coq Require Import NArith List Bool Arith.
From Verif Require Import GoBase M_Types M_State M_Canon S_Handles.
Import ListNotations.
Open Scope N_scope.

(** The operation let the call [c] borrow from [k]: [borrows] as a test. *)
Definition borrowed (c : nat) (k : key) (e : op * outcome N) : bool :=
  match e with
  | (OpLiftBorrow cx rt i, Ok _) => Nat.eqb (cx_id cx) c && (if key_dec (cx_inst cx, rt_id rt, i) k then true else false)
  | _ => false
  end.

(** How often a call in progress has borrowed from [k]. *)
Definition loans_out (k : key) (calls : list nat) (evs : list (op * outcome N)) : nat :=
  List.length (filter (fun e => existsb (fun c => borrowed c k e) calls) evs).

Lemma borrowed_borrows : forall c k o r, borrowed c k (o, r) = true <-> borrows c k o r.
Proof.
  intros c k o r. destruct o; unfold borrowed, borrows; try (split; [discriminate|intros []]). destruct r; try (split; [discriminate|intros []]).
  rewrite andb_true_iff, Nat.eqb_eq. destruct (key_dec (cx_inst cx, rt_id rt, i) k) as [E|E].
  - split; intros [H1 H2]; auto.
  - split; intros [H1 H2]; [discriminate|contradiction].
Qed.
