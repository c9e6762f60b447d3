(** Model of runtime/instance.go and runtime/store.go. *)
From Coq Require Import NArith List.
From Verif Require Import GoBase M_Api.
Import ListNotations.
Open Scope N_scope.

(** runtime/store.go:7-15 Store. Only Funcs is ever used; its elements have
    the empty interface type instance.Function (instance/function.go:7-8) and
    NewModuleInstance puts *api.Func values there, which are identified with
    the functions they point to. *)
Record store := { st_funcs : list func }.

(** runtime/instance.go:15-18 ExportInstance. The external value is a
    function address (address/function.go), the only kind there is. *)
Record export_instance := { ei_name : list N; ei_value : N }.

(** runtime/instance.go:8-13 ModuleInstance. The store pointer is not used by
    any method and is left out; Types is never filled. *)
Record module_instance := { mi_addrs : list N; mi_exports : list export_instance }.

(** runtime/instance.go:24-28: the loop over module.Funcs. The address is
    len(store.Funcs) converted to uint32. *)
Fixpoint add_funcs (st : store) (addrs : list N) (fs : list func) : store * list N :=
  match fs with
  | [] => (st, addrs)
  | fn :: fs' =>
      let addr := u32 (N.of_nat (length (st_funcs st))) in
      add_funcs {| st_funcs := st_funcs st ++ [fn] |} (addrs ++ [addr]) fs'
  end.

(** runtime/instance.go:20-30 NewModuleInstance. Never an error. *)
Definition new_module_instance (st : store) (m : module) : store * module_instance :=
  let (st', addrs) := add_funcs st [] (m_funcs m) in
  (st', {| mi_addrs := addrs; mi_exports := [] |}).

(** Go string comparison. As at runtime/instance.go:32-39. *)
Definition name_eqb (a b : list N) : bool :=
  if list_eq_dec N.eq_dec a b then true else false.

(** runtime/instance.go:32-39 GetExport *)
Fixpoint find_export (es : list export_instance) (name : list N) : option export_instance :=
  match es with
  | [] => None
  | e :: es' => if name_eqb (ei_name e) name then Some e else find_export es' name
  end.
Definition get_export (m : module_instance) (name : list N) : option export_instance :=
  find_export (mi_exports m) name.
