(** Model of wat/parse/parser.go. The parser is written over any source of
    tokens (M_ParseBase.source); [wat_source] below is the lexer's. Error
    messages are not modelled. *)
From Coq Require Import Arith NArith ZArith String Ascii Bool List.
From Verif Require Import GoBase M_Text M_WatLex M_ParseBase M_Strconv M_WatAst.
Import ListNotations.
Open Scope parse_scope.

(** == on token types, as at wat/parse/parser.go:910 *)
Definition tok_eqb (a b : toktype) : bool :=
  match a, b with
  | LineComment, LineComment | BlockComment, BlockComment | Whitespace, Whitespace
  | OpenParen, OpenParen | CloseParen, CloseParen | TString, TString | TId, TId
  | Keyword, Keyword | Reserved, Reserved | TInteger, TInteger | TFloat, TFloat
  | EndOfStream, EndOfStream | TModule, TModule | TComponent, TComponent => true
  | _, _ => false
  end.

(** The cases of a switch on a text, as at wat/parse/parser.go:359-538 *)
Fixpoint lookup {A} (tbl : list (text * A)) (w : text) : option A :=
  match tbl with
  | [] => None
  | (k, a) :: tbl' => if text_eqb w k then Some a else lookup tbl' w
  end.

(** wat/parse/parser.go:567-576, the cases of parseValType *)
Definition valtypes : list (text * valtype) :=
  [(txt "i32", TI32); (txt "i64", TI64); (txt "f32", TF32); (txt "f64", TF64)].

(** wat/parse/parser.go:366-512, the cases of parseInstruction that read no
    further token. Cases with an empty body leave inst nil. *)
Definition plain_cases : list (text * instr) :=
  [ (txt "return", IPlain Return); (txt "drop", IPlain Drop); (txt "select", IPlain Select);
    (txt "memory.grow", IPlain MemoryGrow); (txt "i32.load", IPlain I32Load); (txt "i32.store", IPlain I32Store);
    (txt "f32.add", IPlain F32Add); (txt "f32.sub", IPlain F32Sub); (txt "f32.mul", IPlain F32Mul);
    (txt "f32.div", IPlain F32Div); (txt "f32.sqrt", IPlain F32Sqrt); (txt "f32.min", IPlain F32Min);
    (txt "f32.max", IPlain F32Max); (txt "f32.ceil", IPlain F32Ceil); (txt "f32.floor", IPlain F32Floor);
    (txt "f32.trunc", IPlain F32Trunc); (txt "f32.nearest", IPlain F32Nearest);
    (txt "i32.add", IPlain I32Add); (txt "i32.sub", IPlain I32Sub); (txt "i32.mul", IPlain I32Mul);
    (txt "i32.div_s", IPlain I32DivS); (txt "i32.div_u", IPlain I32DivU);
    (txt "i32.rem_s", INil); (txt "i32.rem_u", INil); (txt "i32.and", INil); (txt "i32.or", INil);
    (txt "i32.xor", INil); (txt "i32.shl", INil); (txt "i32.shr_s", INil); (txt "i32.shr_u", INil);
    (txt "i32.rotl", INil); (txt "i32.rotr", INil); (txt "i32.clz", INil); (txt "i32.ctz", INil);
    (txt "i32.popcnt", INil); (txt "i32.extend8_s", INil); (txt "i32.extend16_s", INil);
    (txt "i32.eqz", IPlain I32Eqz);
    (txt "i32.eq", INil); (txt "i32.ne", INil); (txt "i32.lt_s", INil); (txt "i32.lt_u", INil);
    (txt "i32.le_s", INil); (txt "i32.le_u", INil); (txt "i32.gt_s", INil); (txt "i32.gt_u", INil);
    (txt "i32.ge_s", INil); (txt "i32.ge_u", INil) ].

(** wat/parse/parser.go:367-374,383-386,392-411, the cases of parseInstruction
    that read one index *)
Definition index_cases : list (text * indexed) :=
  [ (txt "br", Br); (txt "br_if", BrIf); (txt "call", Call);
    (txt "local.get", LocalGet); (txt "local.set", LocalSet); (txt "local.tee", LocalTee);
    (txt "global.get", GlobalGet); (txt "global.set", GlobalSet) ].

(** strings.Trim(s, """"). wat/parse/parser.go:767. *)
Fixpoint trim_left (c : ascii) (s : text) : text :=
  match s with
  | x :: s' => if Ascii.eqb x c then trim_left c s' else s
  | [] => []
  end.
(** wat/parse/parser.go:767 *)
Definition trim (c : ascii) (s : text) : text := rev (trim_left c (rev (trim_left c s))).

(** strings.HasPrefix(s, p). wat/parse/parser.go:781,800,826-844. *)
Fixpoint has_prefix (s p : text) : bool :=
  match p, s with
  | [], _ => true
  | c :: p', x :: s' => Ascii.eqb x c && has_prefix s' p'
  | _ :: _, [] => false
  end.

(** int32(i) and int64(i) of the uint64 that ParseUint gives.
    wat/parse/parser.go:783,786. *)
Definition int32_of (n : N) : Z := to_signed two32 (u32 n).
(** wat/parse/parser.go:802,805 *)
Definition int64_of (n : N) : Z := to_signed two64 (u64 n).

(** wat/parse/parser.go:781-786, the rest of parseInt32 after the token *)
Definition int32_literal (s : text) : option Z :=
  if has_prefix s (txt "-") then parse_int s 32
  else match parse_uint s 32 with Some n => Some (int32_of n) | None => None end.

(** wat/parse/parser.go:800-805, the rest of parseInt64 after the token *)
Definition int64_literal (s : text) : option Z :=
  if has_prefix s (txt "-") then parse_int s 32
  else match parse_uint s 32 with Some n => Some (int64_of n) | None => None end.

(** float64 of a float32, as bit patterns: exact; NaNs are made quiet. The
    result of ParseFloat(s, 32) is a float64, wat/parse/parser.go:865-880. *)
Definition widen (b : N) : N :=
  let s := N.shiftl (N.shiftr b 31) 63 in
  let e := N.land (N.shiftr b 23) 255 in
  let f := N.land b 8388607 in
  (if e =? 255 then
     s + N.shiftl 2047 52 + (if f =? 0 then 0 else N.lor (N.shiftl f 29) (2 ^ 51))
   else if e =? 0 then
     if f =? 0 then s
     else let k := N.log2 f in s + N.shiftl (k + 874) 52 + N.shiftl (f - 2 ^ k) (52 - k)
   else s + N.shiftl (e + 896) 52 + N.shiftl f 29)%N.

Section Parser.
Context {L : Type}.
Variable src : source L toktype.
(** strconv.ParseFloat(s, 32): the bits of the float32, or an error. Not
    modelled further. *)
Variable parse_float : text -> option N.

(** wat/parse/parser.go:917-935 next *)
Definition nxt := s_next src.
(** wat/parse/parser.go:937-952 peek *)
Definition pk := s_peek src.
(** wat/parse/parser.go:908-915 expect *)
Definition exp := expect tok_eqb src.
(** wat/parse/parser.go:883-893 eat *)
Definition ate := eat tok_eqb src.
(** expectValue(lexer, token.Reserved, w): wat/parse/parser.go:895-906 *)
Definition word (w : text) := expect_value tok_eqb src Reserved w.

(** result.New(v, err). wat/parse/parser.go:547,783,786,802,805,866,880. *)
Definition of_option {A} (o : option A) : parser L A :=
  match o with Some a => pret a | None => perr end.

(** x := p.Unwrap(); expect(lexer, token.CloseParen).Unwrap(). As in
    wat/parse/parser.go:51-73. *)
Definition closed {A} (p : parser L A) : parser L A :=
  plet x := p in exp CloseParen ;;> pret x.

(** wat/parse/parser.go:750-756 parseId. There is no handle.Error. *)
Definition parse_id : parser L text :=
  plet t := nxt in if tok_eqb (fst t) TId then pret (snd t) else perr.

(** wat/parse/parser.go:741-748 parseOptionalId. There is no handle.Error. *)
Definition parse_optional_id : parser L (option text) :=
  plet t := pk in
  if tok_eqb (fst t) TId then (plet id := parse_id in pret (Some id)) else pret None.

(** wat/parse/parser.go:762-768 parseString. There is no handle.Error. *)
Definition parse_string : parser L text :=
  plet t := nxt in
  if tok_eqb (fst t) TString then pret (trim quote (snd t)) else perr.

(** wat/parse/parser.go:774-787 parseInt32 *)
Definition parse_int32 : parser L Z :=
  handled (plet t := nxt in
    if tok_eqb (fst t) TInteger then of_option (int32_literal (snd t)) else perr).

(** wat/parse/parser.go:793-806 parseInt64 *)
Definition parse_int64 : parser L Z :=
  handled (plet t := nxt in
    if tok_eqb (fst t) TInteger then of_option (int64_literal (snd t)) else perr).

(** wat/parse/parser.go:808-812 peekFloat *)
Definition peek_float : parser L bool :=
  handled (plet t := pk in pret (tok_eqb (fst t) TFloat)).

(** wat/parse/parser.go:824-866, the rest of parseFloat32 after the token:
    the bits of the float32 *)
Definition float32_literal (w : text) : option N :=
  let negative := has_prefix w (txt "-") in
  let capture := if negative then skipn 1 w else w in
  if has_prefix capture (txt "nan") then
    let capture := skipn 3 capture in
    let finish (u : N) : option N :=
      Some (N.lor u (if negative then 4286578688 else 2139095040) mod 2 ^ 32)%N in
    if has_prefix capture (txt ":") then
      let capture := skipn 1 capture in
      match capture with
      | [] => finish 0%N
      | _ =>
          if has_prefix capture (txt "canonical") then Some 4290772992%N
          else if has_prefix capture (txt "arithmetic") then Some 4290772992%N
          else match parse_uint capture 32 with None => None | Some u => finish u end
      end
    else finish 0%N
  else parse_float w.

(** wat/parse/parser.go:818-867 parseFloat32 *)
Definition parse_float32 : parser L N :=
  handled (plet t := nxt in
    if tok_eqb (fst t) TFloat then of_option (float32_literal (snd t)) else perr).

(** wat/parse/parser.go:873-881 parseFloat64: parsed with 32 bits *)
Definition parse_float64 : parser L N :=
  handled (plet t := nxt in
    if tok_eqb (fst t) TFloat then of_option (option_map widen (parse_float (snd t))) else perr).

(** wat/parse/parser.go:561-580 parseValType: by the text alone *)
Definition parse_val_type : parser L valtype :=
  handled (plet t := nxt in of_option (lookup valtypes (snd t))).

(** wat/parse/parser.go:540-559 parseIndex: uint32 of Atoi's int *)
Definition parse_index : parser L index :=
  handled (plet t := nxt in
    match fst t with
    | TInteger => plet i := of_option (atoi (snd t)) in pret (RawIndex (of_signed two32 i))
    | TId => pret (IDIndex (snd t))
    | _ => perr
    end).

(** wat/parse/parser.go:163-172 parseResult *)
Definition parse_result : parser L (list valtype) :=
  handled (word (txt "result") ;;> plet ty := parse_val_type in pret [ty]).

(** wat/parse/parser.go:149-154, the loop of parseParameter *)
Fixpoint param_types (n : nat) : parser L (list valtype) :=
  match n with
  | O => pdiverge
  | S n =>
      plet t := pk in
      if tok_eqb (fst t) Reserved
      then (plet ty := parse_val_type in plet tys := param_types n in pret (ty :: tys))
      else pret []
  end.

(** wat/parse/parser.go:139-161 parseParameter *)
Definition parse_parameter (n : nat) : parser L parameter :=
  handled (word (txt "param") ;;>
    plet id := parse_optional_id in
    match id with
    | Some _ => plet ty := parse_val_type in pret {| p_id := id; p_types := [ty] |}
    | None => plet tys := param_types n in pret {| p_id := id; p_types := tys |}
    end).

(** wat/parse/parser.go:130-137 parseLocal *)
Definition parse_local : parser L valtype :=
  handled (word (txt "local") ;;> plet ty := parse_val_type in pret ty).

(** wat/parse/parser.go:327-334 parseExport *)
Definition parse_export : parser L text :=
  handled (word (txt "export") ;;> plet name := parse_string in pret name).

(** wat/parse/parser.go:336-345 parseImport *)
Definition parse_import : parser L (text * text) :=
  handled (word (txt "import") ;;>
    plet name := parse_string in plet alias := parse_string in pret (name, alias)).

(** wat/parse/parser.go:690-699 parseTypeUse *)
Definition parse_type_use : parser L text :=
  handled (exp OpenParen ;;> word (txt "type") ;;>
    plet index := parse_id in exp CloseParen ;;> pret index).

(** wat/parse/parser.go:681-688 parseCallIndirect *)
Definition parse_call_indirect : parser L instr :=
  handled (plet ty := parse_type_use in pret (ICallIndirect ty)).

(** wat/parse/parser.go:723-726, the inner loop of parseBlockType *)
Fixpoint until_close (n : nat) : parser L (list valtype) :=
  match n with
  | O => pdiverge
  | S n =>
      plet t := pk in
      if tok_eqb (fst t) CloseParen then pret []
      else (plet ty := parse_val_type in plet tys := until_close n in pret (ty :: tys))
  end.

(** wat/parse/parser.go:705-718,734: on the clone, an open parenthesis and
    then the text "result" *)
Definition at_result : parser L (option unit) :=
  trial (plet b := ate OpenParen in
    if b then (plet t := pk in pret (if text_eqb (snd t) (txt "result") then Some tt else None))
    else pret None).

(** wat/parse/parser.go:709-735, the loop of parseBlockType *)
Fixpoint block_type_loop (n : nat) : parser L (list (list valtype)) :=
  match n with
  | O => pdiverge
  | S n =>
      plet r := at_result in
      match r with
      | None => pret []
      | Some _ =>
          word (txt "result") ;;>
          plet tys := until_close n in
          exp CloseParen ;;>
          plet rs := block_type_loop n in pret (tys :: rs)
      end
  end.

(** wat/parse/parser.go:701-739 parseBlockType *)
Definition parse_block_type (n : nat) : parser L (list (list valtype)) := handled (block_type_loop n).

(** wat/parse/parser.go:584-590,604-610,624-630: the name of a block *)
Definition block_name : parser L (option text) :=
  plet t := pk in
  if tok_eqb (fst t) TId then (plet t := nxt in pret (Some (snd t))) else pret None.

(** for eat(lexer, token.OpenParen).Unwrap() { acc = body(acc); expect(lexer,
    token.CloseParen).Unwrap() }. wat/parse/parser.go:51,96,198,223. *)
Fixpoint sections {A} (n : nat) (body : A -> parser L A) (acc : A) : parser L A :=
  match n with
  | O => pdiverge
  | S n =>
      plet b := ate OpenParen in
      if b then (plet acc := closed (body acc) in sections n body acc) else pret acc
  end.

(** Functions that call parseInstruction take it as [pi]. *)
Section Instructions.
Variable pi : parser L instr.
Variable n : nat.

(** wat/parse/parser.go:347-357 parseInstructions *)
Definition parse_instructions : parser L (list instr) :=
  handled (while_eat tok_eqb src n OpenParen (closed pi)).

(** wat/parse/parser.go:582-600 parseBlock *)
Definition parse_block : parser L instr :=
  handled (plet name := block_name in plet bt := parse_block_type n in
    plet is := parse_instructions in pret (IBlock name bt is)).

(** wat/parse/parser.go:602-620 parseLoop *)
Definition parse_loop : parser L instr :=
  handled (plet name := block_name in plet bt := parse_block_type n in
    plet is := parse_instructions in pret (ILoop name bt is)).

(** wat/parse/parser.go:673-679 parseThen *)
Definition parse_then : parser L (list instr) := handled (word (txt "then") ;;> parse_instructions).

(** wat/parse/parser.go:665-671 parseElse *)
Definition parse_else : parser L (list instr) := handled (word (txt "else") ;;> parse_instructions).

(** wat/parse/parser.go:632-635, the variables of parseIf *)
Record if_parts := {
  i_results : list (list valtype); i_else : option (list instr); i_then : list instr; i_clause : list instr }.
Definition no_parts : if_parts := {| i_results := []; i_else := None; i_then := []; i_clause := [] |}.

(** wat/parse/parser.go:637-650, the body of the loop of parseIf *)
Definition if_section (a : if_parts) : parser L if_parts :=
  plet t := pk in
  if text_eqb (snd t) (txt "result") then
    plet r := parse_result in
    pret {| i_results := i_results a ++ [r]; i_else := i_else a; i_then := i_then a; i_clause := i_clause a |}
  else if text_eqb (snd t) (txt "then") then
    plet b := parse_then in
    pret {| i_results := i_results a; i_else := i_else a; i_then := b; i_clause := i_clause a |}
  else if text_eqb (snd t) (txt "else") then
    plet b := parse_else in
    pret {| i_results := i_results a; i_else := Some b; i_then := i_then a; i_clause := i_clause a |}
  else
    plet i := pi in
    pret {| i_results := i_results a; i_else := i_else a; i_then := i_then a; i_clause := i_clause a ++ [i] |}.

(** wat/parse/parser.go:622-663 parseIf *)
Definition parse_if : parser L instr :=
  handled (plet name := block_name in
    plet a := sections n if_section no_parts in
    pret (IIf name (i_results a) (i_clause a) (i_then a) (i_else a))).

(** wat/parse/parser.go:365-524, the switch of parseInstruction *)
Definition parse_operator (w : text) : parser L instr :=
  match lookup plain_cases w with
  | Some i => pret i
  | None =>
  match lookup index_cases w with
  | Some o => plet i := parse_index in pret (IIndexed o i)
  | None =>
      if text_eqb w (txt "br_table") then (plet i := parse_index in pret (IBrTable [i]))
      else if text_eqb w (txt "i32.const") then (plet v := parse_int32 in pret (II32Const v))
      else if text_eqb w (txt "i64.const") then (plet v := parse_int64 in pret (II64Const v))
      else if text_eqb w (txt "f32.const") then
        (plet f := peek_float in
         if f then (plet v := parse_float32 in pret (IF32Const v))
         else (plet v := parse_int32 in pret (IF32Const (float32_of_int v))))
      else if text_eqb w (txt "f64.const") then
        (plet f := peek_float in
         if f then (plet v := parse_float64 in pret (IF64Const v))
         else (plet v := parse_int64 in pret (IF64Const (float64_of_int v))))
      else if text_eqb w (txt "block") then parse_block
      else if text_eqb w (txt "loop") then parse_loop
      else if text_eqb w (txt "if") then parse_if
      else if text_eqb w (txt "call_indirect") then parse_call_indirect
      else perr
  end end.

(** wat/parse/parser.go:359-538, the body of parseInstruction *)
Definition instruction_body : parser L instr :=
  handled (plet t := nxt in
    if tok_eqb (fst t) Reserved then
      plet inst := parse_operator (snd t) in
      plet p := pk in
      if tok_eqb (fst p) OpenParen
      then (plet ps := while_eat tok_eqb src n OpenParen (closed pi) in pret (IFolded inst ps))
      else pret inst
    else perr).
End Instructions.

(** wat/parse/parser.go:359-538 parseInstruction *)
Fixpoint parse_instruction (n : nat) : parser L instr :=
  match n with
  | O => pdiverge
  | S n => instruction_body (parse_instruction n) n
  end.

(** wat/parse/parser.go:119-126, the second loop of parseFunc *)
Fixpoint plain_loop (pi : parser L instr) (n : nat) : parser L (list instr) :=
  match n with
  | O => pdiverge
  | S n =>
      plet t := pk in
      if tok_eqb (fst t) CloseParen then pret []
      else (plet i := pi in plet is := plain_loop pi n in pret (i :: is))
  end.

(** wat/parse/parser.go:83-95 *)
Definition no_func (id : option text) : func :=
  {| f_id := id; f_locals := []; f_exports := []; f_params := []; f_results := []; f_instrs := [] |}.
(** wat/parse/parser.go:119-126 *)
Definition with_instrs (f : func) (is : list instr) : func :=
  {| f_id := f_id f; f_locals := f_locals f; f_exports := f_exports f; f_params := f_params f;
     f_results := f_results f; f_instrs := f_instrs f ++ is |}.

(** wat/parse/parser.go:97-116, the body of the first loop of parseFunc *)
Definition func_section (n : nat) (f : func) : parser L func :=
  plet t := pk in
  if text_eqb (snd t) (txt "local") then
    plet x := parse_local in
    pret {| f_id := f_id f; f_locals := f_locals f ++ [x]; f_exports := f_exports f; f_params := f_params f;
            f_results := f_results f; f_instrs := f_instrs f |}
  else if text_eqb (snd t) (txt "param") then
    plet x := parse_parameter n in
    pret {| f_id := f_id f; f_locals := f_locals f; f_exports := f_exports f; f_params := f_params f ++ [x];
            f_results := f_results f; f_instrs := f_instrs f |}
  else if text_eqb (snd t) (txt "result") then
    plet x := parse_result in
    pret {| f_id := f_id f; f_locals := f_locals f; f_exports := f_exports f; f_params := f_params f;
            f_results := f_results f ++ [x]; f_instrs := f_instrs f |}
  else if text_eqb (snd t) (txt "export") then
    plet x := parse_export in
    pret {| f_id := f_id f; f_locals := f_locals f; f_exports := f_exports f ++ [x]; f_params := f_params f;
            f_results := f_results f; f_instrs := f_instrs f |}
  else if text_eqb (snd t) (txt "import") then
    plet _ := parse_import in pret f
  else
    plet i := parse_instruction n in pret (with_instrs f [i]).

(** wat/parse/parser.go:88-95: the id of a function. The token that next
    gives is the one that peek gave. *)
Definition func_id : parser L (option text) :=
  plet t := pk in
  if tok_eqb (fst t) TId
  then (plet t' := nxt in pret (if tok_eqb (fst t') TId then Some (snd t) else None))
  else pret None.

(** wat/parse/parser.go:83-128 parseFunc *)
Definition parse_func (n : nat) : parser L func :=
  handled (word (txt "func") ;;>
    plet id := func_id in
    plet f := sections n (func_section n) (no_func id) in
    plet is := plain_loop (parse_instruction n) n in
    pret (with_instrs f is)).

(** wat/parse/parser.go:199-207, the body of the loop of parseFuncType: other
    texts are let through *)
Definition func_type_section (n : nat) (f : functype) : parser L functype :=
  plet t := pk in
  if text_eqb (snd t) (txt "param") then
    plet x := parse_parameter n in pret {| ft_params := ft_params f ++ [x]; ft_results := ft_results f |}
  else if text_eqb (snd t) (txt "result") then
    plet x := parse_result in pret {| ft_params := ft_params f; ft_results := ft_results f ++ [x] |}
  else pret f.

(** wat/parse/parser.go:192-197 *)
Definition no_functype : functype := {| ft_params := []; ft_results := [] |}.

(** wat/parse/parser.go:192-215 parseFuncType *)
Definition parse_func_type (n : nat) : parser L functype :=
  handled (word (txt "func") ;;> sections n (func_type_section n) no_functype).

(** wat/parse/parser.go:174-190 parseType *)
Definition parse_type (n : nat) : parser L typedef :=
  handled (word (txt "type") ;;>
    plet id := parse_optional_id in
    plet b := ate OpenParen in
    plet f := (if b then closed (parse_func_type n) else pret no_functype) in
    pret {| td_id := id; td_func := f |}).

(** uint32 of an int32. wat/parse/parser.go:319,322. *)
Definition u32_of (v : Z) : N := of_signed two32 v.

(** wat/parse/parser.go:312-325 parseLimits *)
Definition parse_limits : parser L limits :=
  handled (plet mn := parse_int32 in
    plet t := pk in
    if tok_eqb (fst t) TInteger
    then (plet mx := parse_int32 in pret {| lim_min := u32_of mn; lim_max := Some (u32_of mx) |})
    else pret {| lim_min := u32_of mn; lim_max := None |}).

(** wat/parse/parser.go:246-270 parseTableType. Without limits the zero
    Limits; None is the nil RefType. *)
Definition parse_table_type : parser L (limits * option reftype) :=
  handled (plet t := pk in
    plet lim := (if tok_eqb (fst t) TInteger then parse_limits
                 else pret {| lim_min := 0; lim_max := None |}) in
    plet t := nxt in
    if tok_eqb (fst t) Reserved then
      pret (lim, if text_eqb (snd t) (txt "externref") then Some ExternRef
                 else if text_eqb (snd t) (txt "funcref") then Some FuncRef else None)
    else perr).

(** wat/parse/parser.go:224-236, the body of the loop of parseTable *)
Definition table_element : parser L text :=
  plet t := nxt in
  if tok_eqb (fst t) Reserved then
    if text_eqb (snd t) (txt "elem") then parse_id else perr
  else perr.

(** wat/parse/parser.go:217-244 parseTable *)
Definition parse_table (n : nat) : parser L table :=
  handled (word (txt "table") ;;>
    plet id := parse_optional_id in
    plet ty := parse_table_type in
    plet es := while_eat tok_eqb src n OpenParen (closed table_element) in
    pret {| tb_id := id; tb_limits := fst ty; tb_ref := snd ty; tb_elems := es |}).

(** wat/parse/parser.go:285-301 parseGlobalType *)
Definition parse_global_type : parser L (bool * valtype) :=
  handled (plet b := ate OpenParen in
    if b then (word (txt "mut") ;;> plet ty := parse_val_type in exp CloseParen ;;> pret (true, ty))
    else (plet ty := parse_val_type in pret (false, ty))).

(** wat/parse/parser.go:272-283 parseGlobal *)
Definition parse_global (n : nat) : parser L global :=
  handled (word (txt "global") ;;>
    plet id := parse_optional_id in
    plet ty := parse_global_type in
    plet is := parse_instructions (parse_instruction n) n in
    pret {| g_id := id; g_mutable := fst ty; g_type := snd ty; g_instrs := is |}).

(** wat/parse/parser.go:303-310 parseMemory *)
Definition parse_memory : parser L memory :=
  handled (word (txt "memory") ;;>
    plet id := parse_optional_id in
    plet lim := parse_limits in
    pret {| m_id := id; m_limits := lim |}).

(** wat/parse/parser.go:46-50 *)
Definition no_module : module :=
  {| md_funcs := []; md_memories := []; md_types := []; md_tables := []; md_globals := [] |}.

(** wat/parse/parser.go:52-71, the body of the loop of parseModule *)
Definition module_section (n : nat) (m : module) : parser L module :=
  plet t := pk in
  if text_eqb (snd t) (txt "func") then
    plet x := parse_func n in
    pret {| md_funcs := md_funcs m ++ [x]; md_memories := md_memories m; md_types := md_types m;
            md_tables := md_tables m; md_globals := md_globals m |}
  else if text_eqb (snd t) (txt "type") then
    plet x := parse_type n in
    pret {| md_funcs := md_funcs m; md_memories := md_memories m; md_types := md_types m ++ [x];
            md_tables := md_tables m; md_globals := md_globals m |}
  else if text_eqb (snd t) (txt "table") then
    plet x := parse_table n in
    pret {| md_funcs := md_funcs m; md_memories := md_memories m; md_types := md_types m;
            md_tables := md_tables m ++ [x]; md_globals := md_globals m |}
  else if text_eqb (snd t) (txt "global") then
    plet x := parse_global n in
    pret {| md_funcs := md_funcs m; md_memories := md_memories m; md_types := md_types m;
            md_tables := md_tables m; md_globals := md_globals m ++ [x] |}
  else if text_eqb (snd t) (txt "memory") then
    plet x := parse_memory in
    pret {| md_funcs := md_funcs m; md_memories := md_memories m ++ [x]; md_types := md_types m;
            md_tables := md_tables m; md_globals := md_globals m |}
  else perr.

(** wat/parse/parser.go:46-75 parseModule *)
Definition parse_module (n : nat) : parser L module :=
  handled (exp TModule ;;> sections n (module_section n) no_module).

(** wat/parse/parser.go:77-81 parseComponent *)
Definition parse_component : parser L unit := handled (exp TComponent ;;> pret tt).

(** wat/parse/parser.go:27-44 parse *)
Definition parse_directive (n : nat) : parser L directive :=
  handled (exp OpenParen ;;>
    plet t := pk in
    plet root :=
      (match fst t with
       | TModule => plet m := parse_module n in pret (DModule m)
       | TComponent => parse_component ;;> pret DComponent
       | _ => perr
       end) in
    exp CloseParen ;;> pret root).
End Parser.

(** ** The parser over the lexer *)

(** wat/parse/parser.go:922-931,942-945: the token types that are skipped *)
Definition skipped_type (ty : toktype) : bool :=
  match ty with Whitespace | BlockComment | LineComment => true | _ => false end.
Definition skipped (t : token) : bool := skipped_type (t_type t).

(** The parser looks at the type and the text of a token.
    wat/parse/parser.go:883-952. *)
Definition view (t : token) : toktype * text := (t_type t, t_capture t).
(** The same for a result: wat/parse/parser.go:917-952 *)
Definition viewed (p : parser lexer token) : parser lexer (toktype * text) :=
  fun l => match p l with
           | (Ok t, l') => (Ok (view t), l')
           | (Err e, l') => (Err e, l')
           | (Panic, l') => (Panic, l')
           | (Diverge, l') => (Diverge, l')
           end.

(** Enough rounds for the loops of next and peek: each skipped token has at
    least one byte. wat/parse/parser.go:917-952. *)
Definition rounds (l : lexer) : nat := S (S (length (l_input l))).

(** wat/parse/parser.go:917-952 next and peek *)
Definition wat_source : source lexer toktype :=
  {| s_next := viewed (handled (fun l => next_loop next skipped (rounds l) l));
     s_peek := viewed (handled (fun l => peek_loop next peek skipped (rounds l) l)) |}.

(** wat/parse/parser.go:19-21 Parse. The fuel, for loops and recursion, is
    more than the number of bytes. *)
Definition parse (pf : text -> option N) (l : lexer) : outcome directive * lexer :=
  parse_directive wat_source pf (S (rounds l)) l.

(** wat/parse/parser.go:758-760 ParseString, 770-772 ParseInt32, 789-791
    ParseInt64, 814-816 ParseFloat32, 869-871 ParseFloat64 *)
Definition ParseString (l : lexer) : outcome text * lexer := parse_string wat_source l.
Definition ParseInt32 (l : lexer) : outcome Z * lexer := parse_int32 wat_source l.
Definition ParseInt64 (l : lexer) : outcome Z * lexer := parse_int64 wat_source l.
Definition ParseFloat32 (pf : text -> option N) (l : lexer) : outcome N * lexer := parse_float32 wat_source pf l.
Definition ParseFloat64 (pf : text -> option N) (l : lexer) : outcome N * lexer := parse_float64 wat_source pf l.
