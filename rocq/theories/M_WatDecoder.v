(** Model of wat/decoder.go. *)
From Coq Require Import NArith List.
From Verif Require Import GoBase M_Text M_WatLex M_WatAst M_WatParse M_Api.
Import ListNotations.

(** An api.Directive: the pointer to a module, or the nil *Component that
    wat/decoder.go:50-52 returns (an interface holding a nil pointer). *)
Inductive decoded := GotModule (m : M_Api.module) | GotNilComponent.

(** wat/decoder.go:54-56: &api.Module{} *)
Definition decode_module (m : M_WatAst.module) : M_Api.module :=
  {| m_types := []; m_funcs := []; m_exports := [] |}.

(** wat/decoder.go:40-48. The syntax tree is never anything else. *)
Definition decode_directive (d : M_WatAst.directive) : decoded :=
  match d with
  | M_WatAst.DModule m => GotModule (decode_module m)
  | M_WatAst.DComponent => GotNilComponent
  end.

(** wat/decoder.go:27-38 Decode. [file] is what io.ReadAll gives: the contents
    or an error. *)
Definition decode (pf : text -> option N) (swap : bool) (file : outcome text) : outcome decoded :=
  match file with
  | Ok input =>
      match fst (parse pf (new_lexer swap input)) with
      | Ok d => Ok (decode_directive d)
      | Err e => Err e
      | Panic => Panic
      | Diverge => Diverge
      end
  | Err e => Err e
  | Panic => Panic
  | Diverge => Diverge
  end.
