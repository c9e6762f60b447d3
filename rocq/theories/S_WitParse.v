(** Specification of WIT files as this parser understands them: which
    sequences of tokens (without whitespace and comments) spell which syntax
    trees. Independent of the parser: only tokens (toktype and text) and the
    syntax trees of M_WitAst are shared with the model. *)
From Coq Require Import Arith NArith ZArith String Ascii Bool List.
From Verif Require Import GoBase M_Text M_WitLex M_WitAst S_WitLex.
Import ListNotations.

Definition tk : Type := toktype * text.

(** The keyword or punctuation mark [s] *)
Definition tok (s : string) : tk :=
  match find (fun p => String.eqb (fst p) s) (keywords ++ marks) with
  | Some (_, k) => (k, txt s)
  | None => (EndOfStream, [])
  end.

(** A relation between token sequences and syntax trees *)
Definition spelling (A : Type) : Type := list tk -> A -> Prop.

(** The sequence does not begin with a token of type [k]. *)
Definition not_before (k : toktype) (w : list tk) : Prop :=
  match w with [] => True | t :: _ => fst t <> k end.

(** Several in a row *)
Inductive many {A} (G : spelling A) : spelling (list A) :=
| many_nil : many G [] []
| many_cons w ws x xs : G w x -> many G ws xs -> many G (w ++ ws) (x :: xs).

(** Several with commas between them, and perhaps one after the last; what
    follows them is of type [close], and none of them begins with it *)
Inductive commas {A} (G : spelling A) (close : toktype) : spelling (list A) :=
| commas_none : commas G close [] []
| commas_last w x : G w x -> not_before close w -> commas G close w [x]
| commas_more w ws x xs : G w x -> not_before close w -> commas G close ws xs ->
    commas G close (w ++ tok "," :: ws) (x :: xs).

(** Names. A name after a percent sign keeps it. *)
Inductive a_name : spelling text :=
| plain_name w : a_name [(Id, w)] w
| percent_name w : a_name [(ExplicitId, w)] w.

(** ** Packages *)

Definition number_value (base : N) (w : text) : N :=
  fold_left (fun n c => n * base + (code c - 48))%N w 0%N.

(** Numbers of a version: less than 2^31. After a leading zero the digits are
    read in base 8. *)
Inductive number_text : text -> N -> Prop :=
| number_zero : number_text (txt "0") 0
| number_decimal c w : (49 <= code c <= 57)%N -> Forall (fun c => 48 <= code c <= 57)%N w ->
    number_text (c :: w) (number_value 10 (c :: w))
| number_octal w : w <> [] -> Forall (fun c => 48 <= code c <= 55)%N w ->
    number_text ("0"%char :: w) (number_value 8 w).
Inductive a_number : spelling N :=
| number w n : number_text w n -> (n < 2 ^ 31)%N -> a_number [(Integer, w)] n.

Inductive a_version : spelling version :=
| three_numbers w1 a w2 b w3 c : a_number w1 a -> a_number w2 b -> a_number w3 c ->
    a_version (w1 ++ tok "." :: w2 ++ tok "." :: w3)
      {| v_major := a; v_minor := b; v_patch := c; v_pre := []; v_build := [] |}.

Inductive opt_version : spelling (option version) :=
| no_version : opt_version [] None
| at_version w v : a_version w v -> opt_version (tok "@" :: w) (Some v).

(** The namespace can be any token. *)
Inductive a_package : spelling package :=
| package_of ns wn n wv v : a_name wn n -> opt_version wv v ->
    a_package (tok "package" :: ns :: tok ":" :: wn ++ wv ++ [tok ";"])
      {| pk_namespace := snd ns; pk_name := n; pk_version := v |}.

(** ** Types *)

(** The tokens that begin a type in a special way. Every other one is the
    name of a type, whatever it is: among them the keywords u8, bool and char,
    but also punctuation. *)
Definition special : list toktype :=
  [KU32; KString; KFloat32; KFloat64; KStream; KFuture; KList; KOption; KResult; KTuple; KOwn; KBorrow].

(** < T >, < T , E >, < _ , E > or nothing *)
Inductive two_types (G : spelling wtype) : list tk -> option wtype -> option wtype -> Prop :=
| two_none : two_types G [] None None
| two_first w t : G w t -> not_before Underscore w -> two_types G (tok "<" :: w ++ [tok ">"]) (Some t) None
| two_second w t : G w t -> two_types G (tok "<" :: tok "_" :: tok "," :: w ++ [tok ">"]) None (Some t)
| two_both w t w' t' : G w t -> not_before Underscore w -> G w' t' ->
    two_types G (tok "<" :: w ++ tok "," :: w' ++ [tok ">"]) (Some t) (Some t').

Inductive a_type : spelling wtype :=
| ty_u32 : a_type [tok "u32"] TyU32
| ty_string : a_type [tok "string"] TyString
| ty_float32 : a_type [tok "float32"] TyFloat32
| ty_float64 : a_type [tok "float64"] TyFloat64
| ty_stream w a b : two_types a_type w a b -> a_type (tok "stream" :: w) (TyStream a b)
| ty_result w a b : two_types a_type w a b -> a_type (tok "result" :: w) (TyResult a b)
| ty_future : a_type [tok "future"] (TyFuture None)
| ty_future_of w t : a_type w t -> a_type (tok "future" :: tok "<" :: w ++ [tok ">"]) (TyFuture (Some t))
| ty_list w t : a_type w t -> a_type (tok "list" :: tok "<" :: w ++ [tok ">"]) (TyList (Some t) None)
| ty_option w t : a_type w t -> a_type (tok "option" :: tok "<" :: w ++ [tok ">"]) (TyOption (Some t) None)
| ty_tuple w ts : commas a_type Greater w ts -> a_type (tok "tuple" :: tok "<" :: w ++ [tok ">"]) (TyTuple ts)
| ty_own w id : a_name w id -> a_type (tok "own" :: tok "<" :: w ++ [tok ">"]) (TyOwn id)
| ty_borrow w id : a_name w id -> a_type (tok "borrow" :: tok "<" :: w ++ [tok ">"]) (TyBorrow id)
| ty_name k w : ~ In k special -> a_type [(k, w)] (TyId w).

(** The types that could go on: result, stream and future without anything *)
Definition bare (t : wtype) : Prop := t = TyResult None None \/ t = TyStream None None \/ t = TyFuture None.

(** ** Functions *)

Inductive a_parameter : spelling parameter :=
| param wi i wt t : a_name wi i -> a_type wt t ->
    a_parameter (wi ++ tok ":" :: wt) {| pa_id := i; pa_type := t |}.

Inductive a_parameters : spelling (list parameter) :=
| params w ps : commas a_parameter CloseParen w ps -> a_parameters (tok "(" :: w ++ [tok ")"]) ps.

Inductive a_result : spelling result_list :=
| result_none : a_result [] {| rl_named := []; rl_anonymous := None |}
| result_named w ps : a_parameters w ps -> a_result (tok "->" :: w) {| rl_named := ps; rl_anonymous := None |}
| result_type w t : a_type w t -> not_before OpenParen w ->
    a_result (tok "->" :: w) {| rl_named := []; rl_anonymous := Some t |}.

Inductive a_func : spelling func_type :=
| func wp ps wr rs : a_parameters wp ps -> a_result wr rs ->
    a_func (tok "func" :: wp ++ wr) {| ft_params := ps; ft_results := rs |}.

Inductive a_func_item : spelling func_item :=
| func_named wi i wf f : a_name wi i -> a_func wf f ->
    a_func_item (wi ++ tok ":" :: wf ++ [tok ";"]) {| fi_id := i; fi_type := f |}.

(** ** Uses *)

(** Only names: a path of the form namespace:package/name is not accepted. *)
Inductive a_use_path : spelling use_path :=
| path_name w i : a_name w i -> a_use_path w {| up_id := i; up_package := None; up_name := [] |}.

Inductive opt_as : spelling (option text) :=
| no_as : opt_as [] None
| some_as w i : a_name w i -> opt_as (tok "as" :: w) (Some i).

Inductive a_use_name : spelling use_name :=
| used w i wa a : a_name w i -> opt_as wa a -> a_use_name (w ++ wa) {| un_name := i; un_as := a |}.

Inductive a_use : spelling use :=
| use_of wp p wn ns : a_use_path wp p -> commas a_use_name CloseBrace wn ns ->
    a_use (tok "use" :: wp ++ tok "." :: tok "{" :: wn ++ [tok "}"; tok ";"]) {| us_from := p; us_names := ns |}.

(** ** Type definitions *)

(** A method's own name is in its function. *)
Inductive a_method : spelling method :=
| constructor_of w ps : a_parameters w ps -> a_method (tok "constructor" :: w ++ [tok ";"]) (MConstructor ps)
| static_of wi i wf f : a_name wi i -> a_func wf f ->
    a_method (wi ++ tok ":" :: tok "static" :: wf ++ [tok ";"]) (MStatic i f)
| method_of w f : a_func_item w f -> a_method w (MMethod [] f).

(** The semicolon can be left out. *)
Inductive a_resource : spelling iitem :=
| resource_bare wi i : a_name wi i -> a_resource (tok "resource" :: wi) (IResource i [])
| resource_semicolon wi i : a_name wi i -> a_resource (tok "resource" :: wi ++ [tok ";"]) (IResource i [])
| resource_methods wi i wm ms : a_name wi i -> many a_method wm ms ->
    a_resource (tok "resource" :: wi ++ tok "{" :: wm ++ [tok "}"]) (IResource i ms).

Inductive a_field : spelling field :=
| field_of wi i wt t : a_name wi i -> a_type wt t -> a_field (wi ++ tok ":" :: wt) {| fd_name := i; fd_type := t |}.

Inductive a_case : spelling vcase :=
| case_bare wi i : a_name wi i -> a_case wi {| cs_name := i; cs_type := None |}
| case_of wi i wt t : a_name wi i -> a_type wt t ->
    a_case (wi ++ tok "(" :: wt ++ [tok ")"]) {| cs_name := i; cs_type := Some t |}.

(** A keyword, a name and a list in braces *)
Inductive braced {A B} (kw : string) (G : spelling A) (f : text -> list A -> B) : spelling B :=
| in_braces wi i w xs : a_name wi i -> commas G CloseBrace w xs ->
    braced kw G f (tok kw :: wi ++ tok "{" :: w ++ [tok "}"]) (f i xs).

Definition a_record : spelling iitem := braced "record" a_field IRecord.
Definition a_flags : spelling iitem := braced "flags" a_name IFlags.
Definition a_variant : spelling iitem := braced "variant" a_case IVariant.
Definition an_enum : spelling iitem := braced "enum" a_name IEnum.

Inductive a_type_item : spelling iitem :=
| type_is wi i wt t : a_name wi i -> a_type wt t ->
    a_type_item (tok "type" :: wi ++ tok "=" :: wt ++ [tok ";"]) (IType i t).

(** ** Interfaces and worlds *)

Inductive an_interface_item : spelling iitem :=
| ii_use w u : a_use w u -> an_interface_item w (IUse u)
| ii_resource w i : a_resource w i -> an_interface_item w i
| ii_record w i : a_record w i -> an_interface_item w i
| ii_flags w i : a_flags w i -> an_interface_item w i
| ii_variant w i : a_variant w i -> an_interface_item w i
| ii_enum w i : an_enum w i -> an_interface_item w i
| ii_type w i : a_type_item w i -> an_interface_item w i
| ii_func w f : a_func_item w f -> an_interface_item w (IFunc f).

Inductive interface_body : spelling (list iitem) :=
| body_of w is : many an_interface_item w is -> interface_body (tok "{" :: w ++ [tok "}"]) is.

Inductive an_extern : spelling extern :=
| ext_func wi i wf f : a_name wi i -> a_func wf f -> an_extern (wi ++ tok ":" :: wf ++ [tok ";"]) (EFunc i f)
| ext_interface wi i wb is : a_name wi i -> interface_body wb is ->
    an_extern (wi ++ tok ":" :: tok "interface" :: wb) (EInterface i is)
| ext_path w p : a_use_path w p -> an_extern (w ++ [tok ";"]) (EUsePath p).

Inductive an_include_name : spelling include_name :=
| included wi i wa a : a_name wi i -> a_name wa a ->
    an_include_name (wi ++ tok "as" :: wa) {| ic_name := i; ic_as := a |}.

(** The names of an include stand without commas, and no semicolon follows
    them. Flags and enums are not accepted in a world. *)
Inductive a_world_item : spelling witem :=
| wi_export w e : an_extern w e -> a_world_item (tok "export" :: w) (WExport e)
| wi_import w e : an_extern w e -> a_world_item (tok "import" :: w) (WImport e)
| wi_include w p : a_use_path w p -> a_world_item (tok "include" :: w ++ [tok ";"]) (WInclude p [])
| wi_include_with w p wn ns : a_use_path w p -> many an_include_name wn ns ->
    a_world_item (tok "include" :: w ++ tok "with" :: tok "{" :: wn ++ [tok "}"]) (WInclude p ns)
| wi_use w u : a_use w u -> a_world_item w (WItem (IUse u))
| wi_type w i : a_type_item w i -> a_world_item w (WItem i)
| wi_record w i : a_record w i -> a_world_item w (WItem i)
| wi_variant w i : a_variant w i -> a_world_item w (WItem i)
| wi_resource w i : a_resource w i -> a_world_item w (WItem i).

(** ** Files *)

(** Between the items of a file any other token can stand; it counts as an
    item without content. One is the semicolon after a use. *)
Inductive file_items : spelling (list ast_item) :=
| items_none : file_items [] []
| items_use wp p wa a ws is : a_use_path wp p -> opt_as wa a -> file_items ws is ->
    not_before Colon (wa ++ ws) -> (a = None -> not_before KAs ws) ->
    file_items (tok "use" :: wp ++ wa ++ ws) (AUse {| tu_item := p; tu_as := a |} :: is)
| items_world wi i w its ws is : a_name wi i -> many a_world_item w its -> file_items ws is ->
    file_items (tok "world" :: wi ++ tok "{" :: w ++ tok "}" :: ws) (AWorld {| wo_id := i; wo_items := its |} :: is)
| items_interface wi i wb its ws is : a_name wi i -> interface_body wb its -> file_items ws is ->
    file_items (tok "interface" :: wi ++ wb ++ ws) (AInterface {| if_name := i; if_items := its |} :: is)
| items_other k v ws is : ~ In k [KUse; KWorld; KInterface] -> file_items ws is ->
    file_items ((k, v) :: ws) (ANothing :: is).

Inductive a_file : spelling ast :=
| file_plain w is : file_items w is -> not_before KPackage w ->
    a_file w {| as_package := None; as_items := is |}
| file_package wp p w is : a_package wp p -> file_items w is ->
    a_file (wp ++ w) {| as_package := Some p; as_items := is |}.

(** ** The tokens of a file *)
Definition space_or_comment (k : toktype) : bool :=
  match k with Whitespace | LineComment | BlockComment => true | _ => false end.
Definition significant (ts : list tk) : list tk := filter (fun t => negb (space_or_comment (fst t))) ts.
Definition text_of (ts : list tk) : text := concat (map snd ts).
