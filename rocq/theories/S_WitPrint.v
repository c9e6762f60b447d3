(** A printer for WIT syntax trees, used to say that trees parse back. It is
    not part of the code base. Independent of the parser and of the grammar in
    S_WitParse; only tokens, the names of keywords and marks, and syntax trees
    are shared. *)
From Coq Require Import Arith NArith ZArith Decimal String Ascii Bool List.
From Verif Require Import GoBase M_Text M_WitLex M_WitAst S_WitLex S_WitParse.
From Verif Require S_WatPrint.
Import ListNotations.

Definition print_name (i : text) : tk :=
  match i with "%"%char :: _ => (ExplicitId, i) | _ => (Id, i) end.
Definition print_number (n : N) : tk := (Integer, S_WatPrint.digits_of (N.to_uint n)).

(** A list with commas between the elements *)
Definition with_commas {A} (f : A -> list tk) : list A -> list tk :=
  fix go l := match l with
              | [] => []
              | x :: r => f x ++ match r with [] => [] | _ :: _ => tok "," :: go r end
              end.

(** ** Types *)

(** The keywords that are names of types without a tree of their own *)
Definition other_primitives : list string :=
  ["u8"; "u16"; "u64"; "s8"; "s16"; "s32"; "s64"; "char"; "bool"]%string.
Definition print_type_name (w : text) : tk :=
  match find (fun s => text_eqb (txt s) w) other_primitives with Some s => tok s | None => print_name w end.

Definition print_two (a b : option (list tk)) : list tk :=
  match a, b with
  | None, None => []
  | Some w, None => tok "<" :: w ++ [tok ">"]
  | None, Some w => tok "<" :: tok "_" :: tok "," :: w ++ [tok ">"]
  | Some w, Some w' => tok "<" :: w ++ tok "," :: w' ++ [tok ">"]
  end.
Definition angle (w : list tk) : list tk := tok "<" :: w ++ [tok ">"].

Fixpoint print_type (t : wtype) : list tk :=
  match t with
  | TyU32 => [tok "u32"] | TyString => [tok "string"]
  | TyFloat32 => [tok "float32"] | TyFloat64 => [tok "float64"]
  | TyStream a b => tok "stream" :: print_two (option_map print_type a) (option_map print_type b)
  | TyResult a b => tok "result" :: print_two (option_map print_type a) (option_map print_type b)
  | TyFuture None => [tok "future"]
  | TyFuture (Some t) => tok "future" :: angle (print_type t)
  | TyList a _ => tok "list" :: angle (match a with Some t => print_type t | None => [] end)
  | TyOption a _ => tok "option" :: angle (match a with Some t => print_type t | None => [] end)
  | TyTuple ts => tok "tuple" :: angle (with_commas print_type ts)
  | TyOwn id => tok "own" :: angle [print_name id]
  | TyBorrow id => tok "borrow" :: angle [print_name id]
  | TyId w => [print_type_name w]
  end.

(** ** Functions and uses *)
Definition print_parameter (p : parameter) : list tk := print_name (pa_id p) :: tok ":" :: print_type (pa_type p).
Definition print_parameters (ps : list parameter) : list tk := tok "(" :: with_commas print_parameter ps ++ [tok ")"].
Definition print_results (r : result_list) : list tk :=
  match rl_anonymous r, rl_named r with
  | Some t, _ => tok "->" :: print_type t
  | None, [] => []
  | None, ps => tok "->" :: print_parameters ps
  end.
Definition print_func (f : func_type) : list tk :=
  tok "func" :: print_parameters (ft_params f) ++ print_results (ft_results f).
Definition print_func_item (f : func_item) : list tk :=
  print_name (fi_id f) :: tok ":" :: print_func (fi_type f) ++ [tok ";"].

Definition print_as (a : option text) : list tk := match a with Some i => [tok "as"; print_name i] | None => [] end.
Definition print_use_name (u : use_name) : list tk := print_name (un_name u) :: print_as (un_as u).
Definition print_use (u : use) : list tk :=
  tok "use" :: print_name (up_id (us_from u)) :: tok "." :: tok "{" :: with_commas print_use_name (us_names u) ++ [tok "}"; tok ";"].

(** ** Definitions *)
Definition print_method (m : method) : list tk :=
  match m with
  | MConstructor ps => tok "constructor" :: print_parameters ps ++ [tok ";"]
  | MStatic i f => print_name i :: tok ":" :: tok "static" :: print_func f ++ [tok ";"]
  | MMethod _ f => print_func_item f
  end.
Definition print_field (f : field) : list tk := print_name (fd_name f) :: tok ":" :: print_type (fd_type f).
Definition print_case (c : vcase) : list tk :=
  print_name (cs_name c) :: match cs_type c with Some t => tok "(" :: print_type t ++ [tok ")"] | None => [] end.
Definition print_braced {A} (kw : string) (i : text) (f : A -> list tk) (xs : list A) : list tk :=
  tok kw :: print_name i :: tok "{" :: with_commas f xs ++ [tok "}"].

Definition print_item (i : iitem) : list tk :=
  match i with
  | IUse u => print_use u
  | IResource id [] => [tok "resource"; print_name id; tok ";"]
  | IResource id ms => tok "resource" :: print_name id :: tok "{" :: flat_map print_method ms ++ [tok "}"]
  | IRecord id fs => print_braced "record" id print_field fs
  | IFlags id fs => print_braced "flags" id (fun f => [print_name f]) fs
  | IVariant id cs => print_braced "variant" id print_case cs
  | IEnum id cs => print_braced "enum" id (fun c => [print_name c]) cs
  | IType id t => tok "type" :: print_name id :: tok "=" :: print_type t ++ [tok ";"]
  | IFunc f => print_func_item f
  end.

(** ** Interfaces, worlds and files *)
Definition print_body (is : list iitem) : list tk := tok "{" :: flat_map print_item is ++ [tok "}"].
Definition print_extern (e : extern) : list tk :=
  match e with
  | EFunc i f => print_name i :: tok ":" :: print_func f ++ [tok ";"]
  | EInterface i is => print_name i :: tok ":" :: tok "interface" :: print_body is
  | EUsePath p => [print_name (up_id p); tok ";"]
  end.
Definition print_include_name (n : include_name) : list tk := [print_name (ic_name n); tok "as"; print_name (ic_as n)].
Definition print_world_item (w : witem) : list tk :=
  match w with
  | WExport e => tok "export" :: print_extern e
  | WImport e => tok "import" :: print_extern e
  | WInclude p [] => [tok "include"; print_name (up_id p); tok ";"]
  | WInclude p ns =>
      tok "include" :: print_name (up_id p) :: tok "with" :: tok "{" :: flat_map print_include_name ns ++ [tok "}"]
  | WItem i => print_item i
  end.
(** An item without content is a semicolon. *)
Definition print_ast_item (i : ast_item) : list tk :=
  match i with
  | AUse u => tok "use" :: print_name (up_id (tu_item u)) :: print_as (tu_as u)
  | AWorld w => tok "world" :: print_name (wo_id w) :: tok "{" :: flat_map print_world_item (wo_items w) ++ [tok "}"]
  | AInterface i => tok "interface" :: print_name (if_name i) :: print_body (if_items i)
  | ANothing => [tok ";"]
  end.
Definition print_version (v : version) : list tk :=
  [print_number (v_major v); tok "."; print_number (v_minor v); tok "."; print_number (v_patch v)].
Definition print_package (p : package) : list tk :=
  tok "package" :: print_name (pk_namespace p) :: tok ":" :: print_name (pk_name p) ::
  match pk_version p with Some v => tok "@" :: print_version v | None => [] end ++ [tok ";"].
Definition print_ast (a : ast) : list tk :=
  match as_package a with Some p => print_package p | None => [] end ++ flat_map print_ast_item (as_items a).

(** Every token followed by a blank *)
Definition blanks (ts : list tk) : list tk := flat_map (fun t => [t; (Whitespace, txt " ")]) ts.
Definition spaced (ts : list tk) : text := concat (map (fun t => snd t ++ txt " ") ts).

(** ** The trees that can be written: names are identifiers of WIT that are
    not keywords (or keywords after a percent sign), and what the parser never
    sets is not set. *)
Section Good.
Variable U : tables.
Definition good_name (i : text) : Prop := token_text U Id i \/ token_text U ExplicitId i.
Definition good_option {A} (P : A -> Prop) (o : option A) : Prop := match o with Some x => P x | None => True end.
Definition all {A} (P : A -> Prop) : list A -> Prop :=
  fix go l := match l with [] => True | x :: r => P x /\ go r end.

Fixpoint good_type (t : wtype) : Prop :=
  match t with
  | TyU32 | TyString | TyFloat32 | TyFloat64 => True
  | TyStream a b | TyResult a b => good_option good_type a /\ good_option good_type b
  | TyFuture a => good_option good_type a
  | TyList a b | TyOption a b => match a with Some t => good_type t | None => False end /\ b = None
  | TyTuple ts => all good_type ts
  | TyOwn id | TyBorrow id => good_name id
  | TyId w => good_name w \/ In w (map txt other_primitives)
  end.
Definition good_parameter (p : parameter) : Prop := good_name (pa_id p) /\ good_type (pa_type p).
Definition good_results (r : result_list) : Prop :=
  all good_parameter (rl_named r) /\ good_option good_type (rl_anonymous r) /\ (rl_named r = [] \/ rl_anonymous r = None).
Definition good_func (f : func_type) : Prop := all good_parameter (ft_params f) /\ good_results (ft_results f).
Definition good_func_item (f : func_item) : Prop := good_name (fi_id f) /\ good_func (fi_type f).
Definition good_path (p : use_path) : Prop := good_name (up_id p) /\ up_package p = None /\ up_name p = [].
Definition good_use_name (u : use_name) : Prop := good_name (un_name u) /\ good_option good_name (un_as u).
Definition good_use (u : use) : Prop := good_path (us_from u) /\ all good_use_name (us_names u).
Definition good_method (m : method) : Prop :=
  match m with
  | MConstructor ps => all good_parameter ps
  | MStatic i f => good_name i /\ good_func f
  | MMethod i f => i = [] /\ good_func_item f
  end.
Definition good_field (f : field) : Prop := good_name (fd_name f) /\ good_type (fd_type f).
Definition good_case (c : vcase) : Prop := good_name (cs_name c) /\ good_option good_type (cs_type c).
Definition good_item (i : iitem) : Prop :=
  match i with
  | IUse u => good_use u
  | IResource id ms => good_name id /\ all good_method ms
  | IRecord id fs => good_name id /\ all good_field fs
  | IFlags id fs => good_name id /\ all good_name fs
  | IVariant id cs => good_name id /\ all good_case cs
  | IEnum id cs => good_name id /\ all good_name cs
  | IType id t => good_name id /\ good_type t
  | IFunc f => good_func_item f
  end.
Definition good_extern (e : extern) : Prop :=
  match e with
  | EFunc i f => good_name i /\ good_func f
  | EInterface i is => good_name i /\ all good_item is
  | EUsePath p => good_path p
  end.
Definition good_include_name (n : include_name) : Prop := good_name (ic_name n) /\ good_name (ic_as n).
(** Flags, enums and functions do not stand in a world. *)
Definition good_world_item (w : witem) : Prop :=
  match w with
  | WExport e | WImport e => good_extern e
  | WInclude p ns => good_path p /\ all good_include_name ns
  | WItem (IFlags _ _) | WItem (IEnum _ _) | WItem (IFunc _) => False
  | WItem i => good_item i
  end.
Definition good_ast_item (i : ast_item) : Prop :=
  match i with
  | AUse u => good_path (tu_item u) /\ good_option good_name (tu_as u)
  | AWorld w => good_name (wo_id w) /\ all good_world_item (wo_items w)
  | AInterface i => good_name (if_name i) /\ all good_item (if_items i)
  | ANothing => True
  end.
Definition good_version (v : version) : Prop :=
  (v_major v < 2 ^ 31)%N /\ (v_minor v < 2 ^ 31)%N /\ (v_patch v < 2 ^ 31)%N /\ v_pre v = [] /\ v_build v = [].
Definition good_package (p : package) : Prop :=
  good_name (pk_namespace p) /\ good_name (pk_name p) /\ good_option good_version (pk_version p).
Definition good_ast (a : ast) : Prop := good_option good_package (as_package a) /\ all good_ast_item (as_items a).
End Good.
