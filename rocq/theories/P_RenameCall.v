(** Property theorems about the names in a function's type (C93). *)
From Coq Require Import NArith ZArith String Ascii Bool Lia List.
From Verif Require Import GoBase M_Types M_Layout S_Layout M_State M_Utf M_Load M_Store M_Flat M_Canon
  S_Values S_Memory S_Rename S_RenameCall L_Rename L_RenameCall P_Memory P_Own P_Rename.
Import ListNotations.
Open Scope N_scope.
Open Scope go_scope.

(** ** C93 *)

(** The core signature of a function does not depend on names. *)
Theorem names_no_signature : forall r ft ft' maxp maxr, renaming r -> renamed_func r ft ft' ->
  flatten_func_type_lift ft' maxp maxr = flatten_func_type_lift ft maxp maxr /\
  flatten_func_type_lower ft' maxp maxr = flatten_func_type_lower ft maxp maxr.
Proof.
  intros r ft ft' maxp maxr H [Hp Hs]. unfold flatten_func_type_lift, flatten_func_type_lower, flatten_func_type, param_types, result_types.
  rewrite Hp, Hs, !(flatten_rename r H). auto.
Qed.
Print Assumptions names_no_signature.

(** Calling core code through a type with other names, with arguments that have
    them too, is the same call: the core function gets the same core values in
    the same state, everything that happens is the same, and so is the
    post-return function; the results have the other names. *)
Theorem names_lift_calls : forall r order order' opts inst callee ft ft' args maxp maxr s,
  renaming r -> renamed_func r ft ft' -> renamed_order r order order' ->
  canon_lift order' opts inst callee ft' (map (rename_value r) args) maxp maxr s =
    (returning (fun x => (map (rename_value r) (fst x), snd x))
       (fst (canon_lift order opts inst callee ft args maxp maxr s)),
     snd (canon_lift order opts inst callee ft args maxp maxr s)).
Proof.
  intros r order order' opts inst callee ft ft' args maxp maxr s H [Hp Hs] Ho.
  exact (canon_lift_rename r H ft ft' Hp Hs order order' opts inst callee args maxp maxr Ho s).
Qed.
Print Assumptions names_lift_calls.

(** Core code cannot tell by which names the host knows its values: a host
    function behind a type with other names is, to its caller, the same. *)
Theorem names_lower_calls : forall r order order' opts inst host host' import ft ft' args maxp maxr s,
  renaming r -> renamed_func r ft ft' -> renamed_order r order order' -> renamed_host r host host' ->
  canon_lower order' opts inst host' import ft' args maxp maxr s = canon_lower order opts inst host import ft args maxp maxr s.
Proof.
  intros r order order' opts inst host host' import ft ft' args maxp maxr s H [Hp Hs] Ho Hh.
  rewrite (canon_lower_rename r H ft ft' Hp Hs order order' opts inst host host' import args maxp maxr Ho Hh s), returning_id.
  destruct (canon_lower order opts inst host import ft args maxp maxr s); reflexivity.
Qed.
Print Assumptions names_lower_calls.

(** The hypotheses can be met: a function that takes and returns records whose
    fields, cases and flags trade names, called with enough room for the core
    values and with none. *)
Definition named_func : functype := mkFuncType [("a", named); ("b", TU8)]%string [("c", named)]%string.
Definition named_func' : functype :=
  mkFuncType [("p", rename_type trade named); ("q", TU8)]%string [("", rename_type trade named)]%string.
Definition call_opts : options := mkOpts EncUtf8 bump None.
Definition call_state : state := mkState (mkMem (repeat 0 200) 200) [] (mkWorld [] [] [mkInst true true []] []).
(** returns the core values of its first parameter *)
Definition echo (vs : list any) : M any := ret (VList (firstn 4 vs)).
Definition host (vs : list any) : M (list any * option (M unit)) := ret (firstn 1 vs, Some (ret tt)).

Example names_calls_apply :
  renaming trade /\ renamed_func trade named_func named_func' /\ ft_params named_func' <> ft_params named_func /\
  renamed_order trade (fun m => m) (fun m => m) /\ renamed_order trade (@rev _) (@rev _) /\ renamed_host trade host host /\
  (exists post, fst (canon_lift (fun m => m) call_opts 0 echo named_func [named_val; VU8 1] 16 16 call_state) = Ok ([named_val], post)) /\
  (exists post, fst (canon_lift (fun m => m) call_opts 0 echo named_func' [rename_value trade named_val; VU8 1] 16 16 call_state) =
     Ok ([rename_value trade named_val], post)) /\
  rename_value trade named_val <> named_val /\
  fst (canon_lower (fun m => m) call_opts 0 host true named_func (map VCore [CU32 7; CU32 1; CU64 0x1234; CU32 2; CU32 1]) 16 16 call_state) =
    Ok (map VCore [CU32 7; CU32 1; CU64 0x1234; CU32 2]).
Proof.
  split; [apply trade_renaming|]. split; [split; reflexivity|]. split; [discriminate|].
  split; [intros m; reflexivity|]. split; [intros m; symmetry; apply map_rev|].
  split.
  { intros vs s. unfold host. cbn [ret fst snd returning]. rewrite firstn_map. reflexivity. }
  split; [eexists; vm_compute; reflexivity|]. split; [eexists; vm_compute; reflexivity|].
  split; [discriminate|]. vm_compute. reflexivity.
Qed.
