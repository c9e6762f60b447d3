(** Model of the api package: the modules produced by the binary reader and
    consumed by the runtime. *)
From Coq Require Import NArith List.
Import ListNotations.
Open Scope N_scope.

(** api/value.go:3-21: the number types. The vector and
    reference types are never produced by the binary reader and are left
    out. *)
Inductive valtype := I32Type | I64Type | F32Type | F64Type.

(** api/directive.go:41-44 FuncType, with api/result.go ResultType{Types}. *)
Record functype := { ft_params : list valtype; ft_returns : list valtype }.

(** api/control.go:89-92 End, api/variable.go:3-7 LocalGet, api/i32.go:7-9
    I32Add: the instructions the binary reader can produce; the other
    instruction types of the package have no reader. *)
Inductive instr := IEnd | ILocalGet (index : N) | II32Add.

(** api/directive.go:46-50 Func. [None] is the nil Body of a function whose
    code has not been read; nil and empty Locals are identified. *)
Record func := { f_type : N; f_locals : list valtype; f_body : option (list instr) }.

(** api/directive.go:56-67 Export with a FuncExportDescription (the only
    description there is). The name is the string's bytes. *)
Record export := { ex_name : list N; ex_func : N }.

(** api/directive.go:22-33 Module: the three fields the reader fills; the
    remaining fields are always nil. nil and empty slices are identified. *)
Record module := { m_types : list functype; m_funcs : list func; m_exports : list export }.

(** api/directive.go:3-10,17-20,37 Document, Preamble, Directive. *)
Record preamble := { p_version : N; p_layer : N }.
Inductive directive := DModule (m : module) | DComponent.
Record document := { d_preamble : preamble; d_directive : directive }.
