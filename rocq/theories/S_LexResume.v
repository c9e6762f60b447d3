(** Specification of what a WAT lexer does after it refused a part of the
    input. *)
From Coq Require Import Arith String Ascii List.
From Verif Require Import GoBase M_Text M_WatLex S_WatLex.
Import ListNotations.

(** The number of calls that failed since the last one that gave a token. *)
Definition refused (h : list (op * outcome token)) : nat :=
  fold_left (fun k e => match snd e with Ok _ => 0 | _ => S k end) h 0.

(** The type of a token that begins with refused text: numbers and the words
    module and component are plain words then. *)
Definition spoilt (ty : toktype) : toktype :=
  match ty with
  | TInteger | TFloat | TModule | TComponent => Reserved
  | _ => ty
  end.

(** What there is to see of a result apart from places: the type and the text
    of the token, or nothing. *)
Definition seen (e : op * outcome token) : op * option (toktype * text) :=
  (fst e, match snd e with Ok t => Some (t_type t, t_capture t) | _ => None end).
