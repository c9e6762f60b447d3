(** Specification of what a WIT lexer does after it refused a part of the
    input. *)
From Coq Require Import Arith String Ascii List.
From Verif Require Import GoBase M_Text M_WitLex S_WitLex S_WitErrors.
Import ListNotations.

(** The number of calls that failed since the last one that gave a token. *)
Definition refused (h : list (op * outcome token)) : nat :=
  fold_left (fun k e => match snd e with Ok _ => 0 | _ => S k end) h 0.

(** [j] is what [k] failures in a row pass over from the beginning of [s]. *)
Inductive passed (U : tables) : text -> nat -> text -> Prop :=
| passed_none s : passed U s 0 []
| passed_more v t k j : unreadable U (v ++ t) v -> passed U t k j -> passed U (v ++ t) (S k) (v ++ j).

(** The type of a token that begins with refused text: keywords are names. *)
Definition spoilt (ty ty' : toktype) : Prop :=
  (In ty (map snd keywords) /\ ty' = Id) \/ (~ In ty (map snd keywords) /\ ty' = ty).

(** What there is to see of a result apart from places: the type and the text
    of the token, or nothing. *)
Definition seen (e : op * outcome token) : op * option (toktype * text) :=
  (fst e, match snd e with Ok t => Some (t_type t, t_capture t) | _ => None end).
