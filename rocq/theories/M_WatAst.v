(** Model of wat/ast/ast.go: what the WAT parser produces. Embedded interface
    fields (Directive) carry no data and are left out. *)
From Coq Require Import Arith NArith ZArith String Ascii Bool List.
From Verif Require Import GoBase M_Text.
Import ListNotations.

(** wat/ast/ast.go:108-126 ValType and its structs *)
Inductive valtype := TI32 | TI64 | TF32 | TF64.

(** wat/ast/ast.go:96-106 RefType; a nil interface is [None] where it is used *)
Inductive reftype := FuncRef | ExternRef.

(** wat/ast/ast.go:279-293 Index, IDIndex, RawIndex *)
Inductive index := IDIndex (id : text) | RawIndex (n : N).

(** wat/ast/ast.go:156-224,263-277,360-366, the instructions without operands. I32Eqz has a field
    Value that the parser never sets; it is left out. *)
Inductive plain :=
| Return | Drop | Select | MemoryGrow | I32Load | I32Store
| F32Add | F32Sub | F32Mul | F32Div | F32Sqrt | F32Min | F32Max | F32Ceil | F32Floor | F32Trunc | F32Nearest
| I32Add | I32Sub | I32Mul | I32DivS | I32DivU | I32Eqz.

(** wat/ast/ast.go:233-261,342-352,368-372, the instructions with one index *)
Inductive indexed := Br | BrIf | Call | LocalGet | LocalSet | LocalTee | GlobalGet | GlobalSet.

(** wat/ast/ast.go:128-382, Instruction and its structs. [INil] is the nil interface.
    Floats are bit patterns. BlockType (a list of results, each a list of
    types), Then, Else, TypeUse and Result, which have one field each, are
    represented by that field. *)
Inductive instr :=
| INil
| IPlain (p : plain)
| IIndexed (o : indexed) (i : index)
| IBrTable (is : list index)
| II32Const (v : Z)
| II64Const (v : Z)
| IF32Const (bits : N)
| IF64Const (bits : N)
| IBlock (name : option text) (results : list (list valtype)) (body : list instr)
| ILoop (name : option text) (results : list (list valtype)) (body : list instr)
| IIf (name : option text) (results : list (list valtype)) (clause : list instr)
      (thn : list instr) (els : option (list instr))
| ICallIndirect (type : text)
| IFolded (i : instr) (params : list instr).

(** wat/ast/ast.go:83-86 Parameter *)
Record parameter := { p_id : option text; p_types : list valtype }.

(** wat/ast/ast.go:78-81 Limits; uint32 fields *)
Record limits := { lim_min : N; lim_max : option N }.

(** wat/ast/ast.go:26-35,88-90,295-297 Function; InlineExport and Local by their only field *)
Record func := {
  f_id : option text; f_locals : list valtype; f_exports : list text;
  f_params : list parameter; f_results : list (list valtype); f_instrs : list instr }.

(** wat/ast/ast.go:42-50 FuncType, Type *)
Record functype := { ft_params : list parameter; ft_results : list (list valtype) }.
Record typedef := { td_id : option text; td_func : functype }.

(** wat/ast/ast.go:52-61,74-76 TableType, Table; Element by its only field *)
Record table := {
  tb_id : option text; tb_limits : limits; tb_ref : option reftype; tb_elems : list text }.

(** wat/ast/ast.go:63-72 GlobalType, Global *)
Record global := { g_id : option text; g_mutable : bool; g_type : valtype; g_instrs : list instr }.

(** wat/ast/ast.go:37-40 Memory *)
Record memory := { m_id : option text; m_limits : limits }.

(** wat/ast/ast.go:5-20 Module, Component, Directive *)
Record module := {
  md_funcs : list func; md_memories : list memory; md_types : list typedef;
  md_tables : list table; md_globals : list global }.
Inductive directive := DModule (m : module) | DComponent.
