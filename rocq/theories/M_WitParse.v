(** Model of wit/parse/parser.go. The parser is written over any source of
    tokens (M_ParseBase.source); [wit_source] below is the lexer's. Error
    messages are not modelled. Loops and recursion have fuel; the theorems
    show that it never runs out. *)
From Coq Require Import Arith NArith ZArith String Ascii Bool List.
From Verif Require Import GoBase M_Text M_WitLex M_ParseBase M_Strconv M_WitAst.
Import ListNotations.
Open Scope parse_scope.

(** wit/parse/parser.go:964-966 is *)
Definition toktype_eq_dec (a b : toktype) : {a = b} + {a <> b}.
Proof. decide equality. Defined.
Definition kind_eqb (a b : toktype) : bool := if toktype_eq_dec a b then true else false.

Section Parser.
Context {L : Type}.
Variable src : source L toktype.

(** wit/parse/parser.go:944-962 next *)
Definition nxt := s_next src.
(** wit/parse/parser.go:927-942 peek *)
Definition pk := s_peek src.
(** wit/parse/parser.go:918-925 expect *)
Definition exp := expect kind_eqb src.
(** wit/parse/parser.go:906-916 eat *)
Definition ate := M_ParseBase.eat kind_eqb src.

(** wit/parse/parser.go:882-893 parseId *)
Definition parse_id : parser L text :=
  handled (plet t := nxt in
    match fst t with Id | ExplicitId => pret (snd t) | _ => perr end).

(** wit/parse/parser.go:895-905 parseInteger *)
Definition parse_integer : parser L Z :=
  handled (plet t := nxt in
    match fst t with
    | Integer => match parse_int (snd t) 32 with Some z => pret z | None => perr end
    | _ => perr
    end).

(** uint64(i) of an int64. wit/parse/parser.go:92-94. *)
Definition uint64_of (z : Z) : N := Z.to_N (z mod 2 ^ 64).

(** wit/parse/parser.go:80-96 parseVersion *)
Definition parse_version : parser L version :=
  handled (
    plet major := parse_integer in exp Period ;;>
    plet minor := parse_integer in exp Period ;;>
    plet patch := parse_integer in
    pret {| v_major := uint64_of major; v_minor := uint64_of minor; v_patch := uint64_of patch;
            v_pre := []; v_build := [] |}).

(** wit/parse/parser.go:55-78 parsePackageDeclaration *)
Definition parse_package : parser L package :=
  handled (
    plet ns := nxt in
    exp Colon ;;>
    plet name := parse_id in
    plet b := ate At in
    plet v := (if b then (plet v := parse_version in pret (Some v)) else pret None) in
    exp Semicolon ;;>
    pret {| pk_namespace := snd ns; pk_name := name; pk_version := v |}).

(** wit/parse/parser.go:369-371 parseOptionalVersion *)
Definition parse_optional_version : parser L (option version) := perr.

(** wit/parse/parser.go:345-367 parsePath *)
Definition parse_path (namespace : text) : parser L use_path :=
  handled (
    plet pkg := parse_id in exp Slash ;;>
    plet name := parse_id in
    plet v := parse_optional_version in
    pret {| up_id := txt "string"; up_name := name;
            up_package := Some {| pk_namespace := namespace; pk_name := pkg; pk_version := v |} |}).

(** wit/parse/parser.go:330-343 parseUsePath *)
Definition parse_use_path : parser L use_path :=
  handled (
    plet id := parse_id in
    plet b := ate Colon in
    if b then parse_path id else pret {| up_id := id; up_package := None; up_name := [] |}).

(** wit/parse/parser.go:98-110 parseTopLevelUse *)
Definition parse_top_use : parser L top_use :=
  handled (
    plet item := parse_use_path in
    plet b := ate KAs in
    plet a := (if b then (plet id := parse_id in pret (Some id)) else pret None) in
    pret {| tu_item := item; tu_as := a |}).

(** wit/parse/parser.go:316-325, the loop of parseItemList *)
Fixpoint items_loop {A} (n : nat) (end_ : toktype) (item : parser L A) : parser L (list A) :=
  match n with
  | O => pdiverge
  | S n =>
      plet b := ate end_ in
      if b then pret []
      else (plet x := item in
            plet c := ate Comma in
            if c then (plet xs := items_loop n end_ item in pret (x :: xs))
            else (exp end_ ;;> pret [x]))
  end.
(** wit/parse/parser.go:307-328 parseItemList *)
Definition parse_item_list {A} (n : nat) (begin end_ : toktype) (item : parser L A) : parser L (list A) :=
  handled (exp begin ;;> items_loop n end_ item).

(** wit/parse/parser.go:294-305 parseUseName. There is no handle.Error. *)
Definition parse_use_name : parser L use_name :=
  plet id := parse_id in
  plet b := ate KAs in
  if b then (plet a := parse_id in pret {| un_name := id; un_as := Some a |})
  else pret {| un_name := id; un_as := None |}.

(** wit/parse/parser.go:268-292 parseUse *)
Definition parse_use (n : nat) : parser L use :=
  handled (
    exp KUse ;;>
    plet from := parse_use_path in
    exp Period ;;>
    plet names := parse_item_list n OpenBrace CloseBrace parse_use_name in
    exp Semicolon ;;>
    pret {| us_from := from; us_names := names |}).

(** ** Types *)
Section Types.
(** parseType, for the recursion *)
Variable pt : parser L wtype.

(** wit/parse/parser.go:529-540, 598-609: what stands between the angle
    brackets of stream and result; the two functions have the same code *)
Definition parse_two : parser L (option wtype * option wtype) :=
  plet b := ate Less in
  if b then
    plet u := ate Underscore in
    plet r := (if u then (exp Comma ;;> plet e := pt in pret (None, Some e))
               else (plet t := pt in
                     plet c := ate Comma in
                     if c then (plet e := pt in pret (Some t, Some e)) else pret (Some t, None))) in
    exp Greater ;;> pret r
  else pret (None, None).

(** wit/parse/parser.go:523-542 parseStream *)
Definition parse_stream : parser L wtype :=
  handled (plet r := parse_two in pret (TyStream (fst r) (snd r))).

(** wit/parse/parser.go:592-611 parseResult *)
Definition parse_result : parser L wtype :=
  handled (plet r := parse_two in pret (TyResult (fst r) (snd r))).

(** wit/parse/parser.go:544-558 parseFuture *)
Definition parse_future : parser L wtype :=
  handled (
    plet b := ate Less in
    if b then (plet t := pt in exp Greater ;;> pret (TyFuture (Some t))) else pret (TyFuture None)).

(** wit/parse/parser.go:560-568 parseList. The type goes to the embedded
    field. *)
Definition parse_list : parser L wtype :=
  handled (exp Less ;;> plet t := pt in exp Greater ;;> pret (TyList (Some t) None)).

(** wit/parse/parser.go:570-578 parseOption *)
Definition parse_option : parser L wtype :=
  handled (exp Less ;;> plet t := pt in exp Greater ;;> pret (TyOption (Some t) None)).

(** wit/parse/parser.go:580-586 parseTuple *)
Definition parse_tuple (n : nat) : parser L wtype :=
  handled (plet ts := parse_item_list n Less Greater pt in pret (TyTuple ts)).

(** wit/parse/parser.go:473-517 parseType *)
Definition type_body (n : nat) : parser L wtype :=
  handled (
    plet t := nxt in
    match fst t with
    | KU32 => pret TyU32
    | KString => pret TyString
    | KFloat32 => pret TyFloat32
    | KFloat64 => pret TyFloat64
    | KStream => plet ty := parse_stream in pret ty
    | KFuture => plet ty := parse_future in pret ty
    | KList => plet ty := parse_list in pret ty
    | KOption => plet ty := parse_option in pret ty
    | KResult => plet ty := parse_result in pret ty
    | KTuple => plet ty := parse_tuple n in pret ty
    | KOwn => exp Less ;;> plet id := parse_id in exp Greater ;;> pret (TyOwn id)
    | KBorrow => exp Less ;;> plet id := parse_id in exp Greater ;;> pret (TyBorrow id)
    | _ => pret (TyId (snd t))
    end).
End Types.

(** wit/parse/parser.go:473-521 parseType *)
Fixpoint parse_type (n : nat) : parser L wtype :=
  match n with
  | O => pdiverge
  | S n => type_body (parse_type n) n
  end.

(** ** Functions *)

(** wit/parse/parser.go:443-454 parseParameter *)
Definition parse_parameter (n : nat) : parser L parameter :=
  handled (
    plet id := parse_id in exp Colon ;;>
    plet t := parse_type n in pret {| pa_id := id; pa_type := t |}).

(** wit/parse/parser.go:418-439, the loop of parseParameters *)
Fixpoint parameters_loop (n : nat) (p : parser L parameter) : parser L (list parameter) :=
  match n with
  | O => pdiverge
  | S n =>
      plet b := ate CloseParen in
      if b then pret []
      else (plet x := p in
            plet t := pk in
            match fst t with
            | Comma => exp Comma ;;> plet xs := parameters_loop n p in pret (x :: xs)
            | CloseParen => exp CloseParen ;;> pret [x]
            | _ => perr
            end)
  end.
(** wit/parse/parser.go:413-441 parseParameters. There is no handle.Error. *)
Definition parse_parameters (n : nat) : parser L (list parameter) :=
  exp OpenParen ;;> parameters_loop n (parse_parameter n).

(** wit/parse/parser.go:388-411 parseFunc *)
Definition parse_func (n : nat) : parser L func_type :=
  handled (
    exp KFunc ;;>
    plet ps := parse_parameters n in
    plet b := ate RightArrow in
    plet rs :=
      (if b then
         plet t := pk in
         if kind_eqb (fst t) OpenParen then
           (plet rs := parse_parameters n in pret {| rl_named := rs; rl_anonymous := None |})
         else (plet t := parse_type n in pret {| rl_named := []; rl_anonymous := Some t |})
       else pret {| rl_named := []; rl_anonymous := None |}) in
    pret {| ft_params := ps; ft_results := rs |}).

(** wit/parse/parser.go:373-386 parseFuncItem *)
Definition parse_func_item (n : nat) : parser L func_item :=
  handled (
    plet id := parse_id in exp Colon ;;>
    plet f := parse_func n in exp Semicolon ;;>
    pret {| fi_id := id; fi_type := f |}).

(** ** Type definitions *)

(** wit/parse/parser.go:237-243,255: on the clone, a name, a colon and the
    word static. Without that word the clone is thrown away. *)
Definition at_static : parser L (option text) :=
  trial (
    plet id := parse_id in exp Colon ;;>
    plet b := ate KStatic in pret (if b then Some id else None)).

(** wit/parse/parser.go:222-266 parseResourceMethod. There is no handle.Error. *)
Definition parse_method (n : nat) : parser L method :=
  plet c := ate KConstructor in
  if c then (plet ps := parse_parameters n in exp Semicolon ;;> pret (MConstructor ps))
  else (plet s := at_static in
        match s with
        | None => plet f := parse_func_item n in pret (MMethod [] f)
        | Some id => plet f := parse_func n in exp Semicolon ;;> pret (MStatic id f)
        end).

(** wit/parse/parser.go:205-211, the loop of parseResource *)
Fixpoint methods_loop (n : nat) (p : parser L method) : parser L (list method) :=
  match n with
  | O => pdiverge
  | S n =>
      plet t := pk in
      if kind_eqb (fst t) CloseBrace then (exp CloseBrace ;;> pret [])
      else (plet m := p in plet ms := methods_loop n p in pret (m :: ms))
  end.

(** wit/parse/parser.go:191-220 parseResource *)
Definition parse_resource (n : nat) : parser L iitem :=
  handled (
    exp KResource ;;>
    plet id := parse_id in
    plet t := pk in
    plet ms := (match fst t with
                | Semicolon => exp Semicolon ;;> pret []
                | OpenBrace => exp OpenBrace ;;> methods_loop n (parse_method n)
                | _ => pret []
                end) in
    pret (IResource id ms)).

(** wit/parse/parser.go:781-787 parseRecordField *)
Definition parse_field (n : nat) : parser L field :=
  handled (
    plet id := parse_id in exp Colon ;;>
    plet t := parse_type n in pret {| fd_name := id; fd_type := t |}).

(** wit/parse/parser.go:762-779 parseRecord *)
Definition parse_record (n : nat) : parser L iitem :=
  handled (
    exp KRecord ;;>
    plet id := parse_id in
    plet fs := parse_item_list n OpenBrace CloseBrace (parse_field n) in
    pret (IRecord id fs)).

(** wit/parse/parser.go:791-809 parseFlags *)
Definition parse_flags (n : nat) : parser L iitem :=
  handled (
    exp KFlags ;;>
    plet id := parse_id in
    plet fs := parse_item_list n OpenBrace CloseBrace (plet id := parse_id in pret id) in
    pret (IFlags id fs)).

(** wit/parse/parser.go:836-849 parseVariantCase *)
Definition parse_case (n : nat) : parser L vcase :=
  handled (
    plet id := parse_id in
    plet b := ate OpenParen in
    if b then (plet t := parse_type n in exp CloseParen ;;> pret {| cs_name := id; cs_type := Some t |})
    else pret {| cs_name := id; cs_type := None |}).

(** wit/parse/parser.go:814-834 parseVariant *)
Definition parse_variant (n : nat) : parser L iitem :=
  handled (
    exp KVariant ;;>
    plet id := parse_id in
    plet cs := parse_item_list n OpenBrace CloseBrace (parse_case n) in
    pret (IVariant id cs)).

(** wit/parse/parser.go:874-880 parseEnumCase *)
Definition parse_enum_case : parser L text := handled (plet id := parse_id in pret id).

(** wit/parse/parser.go:853-872 parseEnum *)
Definition parse_enum (n : nat) : parser L iitem :=
  handled (
    exp KEnum ;;>
    plet id := parse_id in
    plet cs := parse_item_list n OpenBrace CloseBrace parse_enum_case in
    pret (IEnum id cs)).

(** wit/parse/parser.go:456-471 parseTypeItem *)
Definition parse_type_item (n : nat) : parser L iitem :=
  handled (
    exp KType ;;>
    plet id := parse_id in exp Equal ;;>
    plet t := parse_type n in exp Semicolon ;;>
    pret (IType id t)).

(** wit/parse/parser.go:165-189 parseTypeDef *)
Definition parse_type_def (n : nat) : parser L iitem :=
  handled (
    plet t := pk in
    match fst t with
    | KResource => plet i := parse_resource n in pret i
    | KVariant => plet i := parse_variant n in pret i
    | KRecord => plet i := parse_record n in pret i
    | KFlags => plet i := parse_flags n in pret i
    | KEnum => plet i := parse_enum n in pret i
    | KType => plet i := parse_type_item n in pret i
    | _ => perr
    end).

(** ** Interfaces *)

(** wit/parse/parser.go:136-163 parseInterfaceItem *)
Definition parse_interface_item (n : nat) : parser L iitem :=
  handled (
    plet t := pk in
    match fst t with
    | KUse => plet u := parse_use n in pret (IUse u)
    | KResource => plet i := parse_resource n in pret i
    | KRecord => plet i := parse_record n in pret i
    | KFlags => plet i := parse_flags n in pret i
    | KVariant => plet i := parse_variant n in pret i
    | KEnum => plet i := parse_enum n in pret i
    | KType => plet i := parse_type_def n in pret i
    | _ => plet f := parse_func_item n in pret (IFunc f)
    end).

(** for !eat(lexer, end).Unwrap() { x := body.Unwrap(); ... append }.
    wit/parse/parser.go:130,631,700. *)
Fixpoint until_eat {A} (n : nat) (end_ : toktype) (body : parser L A) : parser L (list A) :=
  match n with
  | O => pdiverge
  | S n =>
      plet b := ate end_ in
      if b then pret [] else (plet x := body in plet xs := until_eat n end_ body in pret (x :: xs))
  end.

(** wit/parse/parser.go:126-134 parseInterfaceItems *)
Definition parse_interface_items (n : nat) : parser L (list iitem) :=
  handled (exp OpenBrace ;;> until_eat n CloseBrace (parse_interface_item n)).

(** wit/parse/parser.go:112-124 parseInterface *)
Definition parse_interface (n : nat) : parser L interface :=
  handled (
    plet id := parse_id in
    plet is := parse_interface_items n in pret {| if_name := id; if_items := is |}).

(** ** Worlds *)

(** wit/parse/parser.go:723-737,746,756: on the clone, a name; the clone is
    kept if a colon and func or interface follow, thrown away if no colon
    follows, and otherwise there is an error. *)
Definition at_extern : parser L (option (text * bool)) :=
  trial (
    plet id := parse_id in
    plet b := ate Colon in
    if b then
      plet t := pk in
      match fst t with
      | KFunc => pret (Some (id, true))
      | KInterface => pret (Some (id, false))
      | _ => perr
      end
    else pret None).

(** wit/parse/parser.go:716-757 parseExternType *)
Definition parse_extern (n : nat) : parser L extern :=
  handled (
    plet k := at_extern in
    match k with
    | None => plet p := parse_use_path in exp Semicolon ;;> pret (EUsePath p)
    | Some (id, true) => plet f := parse_func n in exp Semicolon ;;> pret (EFunc id f)
    | Some (id, false) => exp KInterface ;;> plet is := parse_interface_items n in pret (EInterface id is)
    end).

(** wit/parse/parser.go:669-676 parseExport *)
Definition parse_export (n : nat) : parser L witem :=
  handled (exp KExport ;;> plet e := parse_extern n in pret (WExport e)).

(** wit/parse/parser.go:678-685 parseImport *)
Definition parse_import (n : nat) : parser L witem :=
  handled (exp KImport ;;> plet e := parse_extern n in pret (WImport e)).

(** wit/parse/parser.go:701-708, the body of the loop of parseInclude *)
Definition parse_include_name : parser L include_name :=
  plet id := parse_id in exp KAs ;;> plet a := parse_id in pret {| ic_name := id; ic_as := a |}.

(** wit/parse/parser.go:687-714 parseInclude *)
Definition parse_include (n : nat) : parser L witem :=
  handled (
    exp KInclude ;;>
    plet from := parse_use_path in
    plet b := ate KWith in
    plet names := (if b then (exp OpenBrace ;;> until_eat n CloseBrace parse_include_name)
                   else (exp Semicolon ;;> pret [])) in
    pret (WInclude from names)).

(** wit/parse/parser.go:637-667 parseWorldItem *)
Definition parse_world_item (n : nat) : parser L witem :=
  handled (
    plet t := pk in
    match fst t with
    | KExport => plet i := parse_export n in pret i
    | KImport => plet i := parse_import n in pret i
    | KUse => plet u := parse_use n in pret (WItem (IUse u))
    | KType => plet i := parse_type_def n in pret (WItem i)
    | KRecord => plet i := parse_record n in pret (WItem i)
    | KVariant => plet i := parse_variant n in pret (WItem i)
    | KResource => plet i := parse_resource n in pret (WItem i)
    | KInclude => plet i := parse_include n in pret i
    | _ => perr
    end).

(** wit/parse/parser.go:628-635 parseWorldItems *)
Definition parse_world_items (n : nat) : parser L (list witem) :=
  handled (until_eat n CloseBrace (parse_world_item n)).

(** wit/parse/parser.go:613-626 parseWorld *)
Definition parse_world (n : nat) : parser L world :=
  handled (
    plet id := parse_id in exp OpenBrace ;;>
    plet is := parse_world_items n in pret {| wo_id := id; wo_items := is |}).

(** ** Files *)

(** wit/parse/parser.go:39-47, the switch in the loop of parseAst, after the
    item's first token *)
Definition ast_item_after (n : nat) (k : toktype) : parser L ast_item :=
  match k with
  | KUse => plet u := parse_top_use in pret (AUse u)
  | KWorld => plet w := parse_world n in pret (AWorld w)
  | KInterface => plet i := parse_interface n in pret (AInterface i)
  | _ => pret ANothing
  end.

(** wit/parse/parser.go:38-51, the loop of parseAst; [k] is the type of tok *)
Fixpoint ast_loop (fuel n : nat) (k : toktype) : parser L (list ast_item) :=
  match fuel with
  | O => pdiverge
  | S fuel =>
      if kind_eqb k EndOfStream then pret []
      else (plet i := ast_item_after n k in
            plet t := nxt in
            plet is := ast_loop fuel n (fst t) in pret (i :: is))
  end.

(** wit/parse/parser.go:23-53 parseAst *)
Definition parse_ast (n : nat) : parser L ast :=
  handled (
    plet t := nxt in
    if kind_eqb (fst t) KPackage then
      (plet p := parse_package in
       plet t := nxt in
       plet is := ast_loop n n (fst t) in pret {| as_package := Some p; as_items := is |})
    else (plet is := ast_loop n n (fst t) in pret {| as_package := None; as_items := is |})).
End Parser.

(** ** The parser over the lexer *)
Section Lexer.
Variable U : tables.

(** wit/parse/parser.go:933-935,949-959: the token types that are skipped *)
Definition skipped_type (ty : toktype) : bool :=
  match ty with Whitespace | BlockComment | LineComment => true | _ => false end.
Definition skipped (t : token) : bool := skipped_type (t_type t).

(** The parser looks at the type and the text of a token.
    wit/parse/parser.go:906-962. *)
Definition view (t : token) : toktype * text := (t_type t, t_capture t).
(** The same for a result: wit/parse/parser.go:927-962 *)
Definition viewed (p : parser lexer token) : parser lexer (toktype * text) :=
  fun l => match p l with
           | (Ok t, l') => (Ok (view t), l')
           | (Err e, l') => (Err e, l')
           | (Panic, l') => (Panic, l')
           | (Diverge, l') => (Diverge, l')
           end.

(** Enough rounds for the loops of next and peek: each skipped token has at
    least one byte. wit/parse/parser.go:927-962. *)
Definition rounds (l : lexer) : nat := S (S (length (l_input l))).

(** wit/parse/parser.go:927-962 peek and next *)
Definition wit_source : source lexer toktype :=
  {| s_next := viewed (handled (fun l => next_loop (next U) skipped (rounds l) l));
     s_peek := viewed (handled (fun l => peek_loop (next U) (peek U) skipped (rounds l) l)) |}.

(** wit/parse/parser.go:18-21 Parse. The fuel, for loops and recursion, is
    more than the number of bytes. *)
Definition Parse (input : text) : outcome ast :=
  let l := new_lexer input in fst (parse_ast wit_source (S (rounds l)) l).
End Lexer.
