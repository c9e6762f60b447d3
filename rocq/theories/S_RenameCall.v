(** Specification: function types that differ in names only. *)
From Coq Require Import NArith String List.
From Verif Require Import GoBase M_Types M_Layout M_State S_Values S_Rename.
Import ListNotations.

(** The types of the parameters and results are renamed by [r]; the parameters
    and results themselves may be called anything. *)
Definition renamed_func (r : string -> string) (ft ft' : functype) : Prop :=
  map snd (ft_params ft') = map (rename_type r) (map snd (ft_params ft)) /\
  map snd (ft_results ft') = map (rename_type r) (map snd (ft_results ft)).

(** Two orders in which entries of maps are visited, the same up to names. *)
Definition renamed_order (r : string -> string) (order order' : list (string * any) -> list (string * any)) : Prop :=
  forall m, order' (map (fun e => (rename r (fst e), rename_value r (snd e))) m) =
            map (fun e => (rename r (fst e), rename_value r (snd e))) (order m).

(** A host function that does the same but knows the other names: called with
    renamed values, it has the same outcome and effects and returns renamed
    values. *)
Definition renamed_host (r : string -> string) (host host' : list any -> M (list any * option (M unit))) : Prop :=
  forall vs s, host' (map (rename_value r) vs) s =
    (returning (fun x => (map (rename_value r) (fst x), snd x)) (fst (host vs s)), snd (host vs s)).
