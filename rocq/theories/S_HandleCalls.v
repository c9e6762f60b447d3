(** Specification of how whole calls treat resource handles. *)
From Coq Require Import NArith ZArith List String Bool Arith.
From Verif Require Import GoBase M_Types M_State M_Canon S_Handles.
Import ListNotations.
Open Scope N_scope.

(** The handles in a type, in order: whether owned, and of which resource
    type. *)
Fixpoint handles_in (t : valtype) : list (bool * rtype) :=
  match t with
  | TOwn rt => [(true, rt)]
  | TBorrow rt => [(false, rt)]
  | TList t' | TOption t' => handles_in t'
  | TRecord fs => flat_map (fun f => handles_in (snd f)) fs
  | TTuple ts | TUnion ts => flat_map handles_in ts
  | TVariant cs => flat_map (fun c => match c_type c with Some x => handles_in x | None => [] end) cs
  | TResult ok err =>
      ((match ok with Some x => handles_in x | None => [] end) ++
       (match err with Some x => handles_in x | None => [] end))%list
  | _ => []
  end.

(** [continues insts ops rs s' base]: the history [ops], [rs] goes on to [s'],
    and the calls [base] are still in progress there. *)
Definition continues (insts : nat) (ops : list op) (rs : list (outcome N)) (s' : state) (base : list nat) : Prop :=
  exists evs calls', history insts (ops ++ map fst evs) (rs ++ map snd evs) s' calls' /\ incl base calls'.

(** [f], run in any state a history has reached, changes handles, guards and
    calls only by operations that continue the history, and ends only calls it
    began. *)
Definition orderly (insts : nat) {A} (f : M A) : Prop :=
  forall ops rs s calls o s', history insts ops rs s calls -> f s = (o, s') -> continues insts ops rs s' calls.

(** An allocator that does: it may itself use the handle functions and make
    calls, of which it ends those it began. *)
Definition orderly_allocator (insts : nat) (alloc : req -> state -> outcome N * (memory * world)) : Prop :=
  forall r, orderly insts (fun s => let (o, mw) := alloc r s in (o, mkState (fst mw) (s_hist s) (snd mw))).

(** A post-return step [f], run at any later time while [inner] are still in
    progress, ends only calls other than [outer]. *)
Definition closes (insts : nat) (outer inner : list nat) {A} (f : M A) : Prop :=
  forall ops rs s calls o s', history insts ops rs s calls -> incl inner calls -> f s = (o, s') ->
  continues insts ops rs s' outer.

(** The same for a component function, which may leave a call open that its
    post-return step ends. *)
Definition orderly_call (insts : nat) {A} (post : A -> option (M unit)) (f : M A) : Prop :=
  forall ops rs s calls o s', history insts ops rs s calls -> f s = (o, s') ->
  exists evs calls', history insts (ops ++ map fst evs) (rs ++ map snd evs) s' calls' /\ incl calls calls' /\
    match o with
    | Ok r => match post r with Some g => closes insts calls calls' g | None => True end
    | _ => True
    end.
