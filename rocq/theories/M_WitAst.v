(** Model of wit/ast/ast.go: the syntax trees of WIT files. *)
From Coq Require Import NArith String Ascii List.
From Verif Require Import GoBase M_Text.
Import ListNotations.

(** wit/ast/ast.go:144-207,284-287 Type and its implementations that the parser
    uses: *U32, *String, *Float32, *Float64, *Stream, *Future, *List, *Option,
    *Result, *Tuple, *Own, *Borrow, *Id. List and Option (167-175) have an
    embedded field Type and a field ItemType; the other types' embedded
    interfaces are never set. *)
Inductive wtype :=
| TyU32 | TyString | TyFloat32 | TyFloat64
| TyStream (element end_ : option wtype)
| TyFuture (item : option wtype)
| TyList (embedded item : option wtype)
| TyOption (embedded item : option wtype)
| TyResult (ok error : option wtype)
| TyTuple (types : list wtype)
| TyOwn (id : text)
| TyBorrow (id : text)
| TyId (value : text).

(** wit/ast/ast.go:57-60 Parameter *)
Record parameter := { pa_id : text; pa_type : wtype }.
(** wit/ast/ast.go:52-55 ResultList; a nil Anonymous is [None] *)
Record result_list := { rl_named : list parameter; rl_anonymous : option wtype }.
(** wit/ast/ast.go:47-50 FuncType *)
Record func_type := { ft_params : list parameter; ft_results : result_list }.
(** wit/ast/ast.go:41-45 FuncItem *)
Record func_item := { fi_id : text; fi_type : func_type }.

(** wit/ast/ast.go:18-24 Version *)
Record version := { v_major : N; v_minor : N; v_patch : N; v_pre : text; v_build : text }.
(** wit/ast/ast.go:12-16 PackageDeclaration *)
Record package := { pk_namespace : text; pk_name : text; pk_version : option version }.
(** wit/ast/ast.go:109-115 UsePath; a nil Package.Id is [None] *)
Record use_path := { up_id : text; up_package : option package; up_name : text }.
(** wit/ast/ast.go:117-120 UseName *)
Record use_name := { un_name : text; un_as : option text }.
(** wit/ast/ast.go:102-107 Use *)
Record use := { us_from : use_path; us_names : list use_name }.
(** wit/ast/ast.go:139-142 TopLevelUse *)
Record top_use := { tu_item : use_path; tu_as : option text }.

(** wit/ast/ast.go:215-234 ResourceMethod: Constructor, Static, Method *)
Inductive method :=
| MConstructor (params : list parameter)
| MStatic (id : text) (f : func_type)
| MMethod (id : text) (f : func_item).

(** wit/ast/ast.go:242-245 Field, 263-266 Case *)
Record field := { fd_name : text; fd_type : wtype }.
Record vcase := { cs_name : text; cs_type : option wtype }.

(** wit/ast/ast.go:37-39 InterfaceItem: what stands in an interface. Resource
    209-213, Record 236-240, Flags 247-255, Variant 257-261, Enum 268-276,
    TypeItem 278-282. *)
Inductive iitem :=
| IUse (u : use)
| IResource (id : text) (methods : list method)
| IRecord (id : text) (fields : list field)
| IFlags (id : text) (flags : list text)
| IVariant (id : text) (cases : list vcase)
| IEnum (id : text) (cases : list text)
| IType (id : text) (ty : wtype)
| IFunc (f : func_item).

(** wit/ast/ast.go:81-100 ExternType *)
Inductive extern :=
| EFunc (id : text) (f : func_type)
| EInterface (id : text) (items : list iitem)
| EUsePath (p : use_path).

(** wit/ast/ast.go:134-137 IncludeName *)
Record include_name := { ic_name : text; ic_as : text }.

(** wit/ast/ast.go:67-79,128-132 WorldItem: Export, Import, Include, and the
    uses and type definitions that also stand in interfaces *)
Inductive witem :=
| WExport (e : extern)
| WImport (e : extern)
| WInclude (from : use_path) (names : list include_name)
| WItem (i : iitem).

(** wit/ast/ast.go:32-35 Interface, 62-65 World *)
Record interface := { if_name : text; if_items : list iitem }.
Record world := { wo_id : text; wo_items : list witem }.

(** wit/ast/ast.go:26-30 AstItem, of which at most one field is set *)
Inductive ast_item :=
| AUse (u : top_use) | AWorld (w : world) | AInterface (i : interface) | ANothing.

(** wit/ast/ast.go:7-10 Ast *)
Record ast := { as_package : option package; as_items : list ast_item }.
