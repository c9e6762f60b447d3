(** Specification of the WAT text format as this parser understands it: which
    sequences of tokens (without whitespace and comments) spell which syntax
    trees. Independent of the parser: only tokens (toktype and text) and the
    syntax trees of M_WatAst are shared with the model. *)
From Coq Require Import Arith NArith ZArith Decimal String Ascii Bool List.
From Verif Require Import GoBase M_Text M_WatLex M_WatAst S_WatLex.
Import ListNotations.

Definition tk : Type := toktype * text.
Definition lp : tk := (OpenParen, txt "(").
Definition rp : tk := (CloseParen, txt ")").
Definition kw (s : string) : tk := (Reserved, txt s).

(** A relation between token sequences and syntax trees *)
Definition spelling (A : Type) : Type := list tk -> A -> Prop.

(** Several of them in a row *)
Inductive many {A} (G : spelling A) : spelling (list A) :=
| many_nil : many G [] []
| many_cons w ws x xs : G w x -> many G ws xs -> many G (w ++ ws) (x :: xs).

(** In parentheses *)
Inductive paren {A} (G : spelling A) : spelling A :=
| in_paren w x : G w x -> paren G (lp :: w ++ [rp]) x.

(** One token *)
Inductive single {A} (G : tk -> A -> Prop) : spelling A :=
| one t x : G t x -> single G [t] x.

(** Perhaps an identifier *)
Inductive opt_id : spelling (option text) :=
| no_id : opt_id [] None
| an_id w : opt_id [(TId, w)] (Some w).

(** ** Numbers *)

Definition digit (c : ascii) : N :=
  let n := code c in
  (if n <=? 57 then n - 48 else if n <=? 70 then n - 55 else n - 87)%N.

(** The number that digits stand for, underscores left out *)
Definition value (base : N) (w : text) : N :=
  fold_left (fun n c => n * base + digit c)%N (filter (fun c => negb (Ascii.eqb c "_")) w) 0%N.

Definition oct_digit (c : ascii) : Prop := (48 <= code c <= 55)%N.

(** Unsigned literals. Decimal and hexadecimal as in the WebAssembly text
    format (6.3.1), with single underscores between digits; but decimal
    digits after a leading zero are read in base 8. *)
Inductive unsigned_literal : text -> N -> Prop :=
| lit_zero : unsigned_literal (txt "0") 0
| lit_decimal c w : c <> "0"%char -> wasm_num dec_digit (c :: w) -> unsigned_literal (c :: w) (value 10 (c :: w))
| lit_hexadecimal w : wasm_num hex_digit w -> unsigned_literal (txt "0x" ++ w) (value 16 w)
| lit_octal w : wasm_num oct_digit ("0"%char :: w) -> w <> [] ->
    unsigned_literal ("0"%char :: w) (value 8 w).

(** The int32 (or int64) with the same bits *)
Definition wrap (bits : Z) (n : N) (z : Z) : Prop :=
  (- 2 ^ (bits - 1) <= z < 2 ^ (bits - 1) /\ z mod 2 ^ bits = Z.of_N n mod 2 ^ bits)%Z.

(** Literals of i32: unsigned up to 2^32 - 1, or a minus sign and at most
    2^31. No plus sign. *)
Inductive i32_literal : text -> Z -> Prop :=
| i32_unsigned w n z : unsigned_literal w n -> (n < 2 ^ 32)%N -> wrap 32 n z -> i32_literal w z
| i32_negative w n : unsigned_literal w n -> (n <= 2 ^ 31)%N -> i32_literal ("-"%char :: w) (- Z.of_N n).

(** Literals of i64 are read in the same range. *)
Inductive i64_literal : text -> Z -> Prop :=
| i64_unsigned w n : unsigned_literal w n -> (n < 2 ^ 32)%N -> i64_literal w (Z.of_N n)
| i64_negative w n : unsigned_literal w n -> (n <= 2 ^ 31)%N -> i64_literal ("-"%char :: w) (- Z.of_N n).

(** Indices: decimal digits (no underscores) with an optional sign, in the
    range of an int64; uint32 takes the low 32 bits. *)
Inductive index_literal : text -> N -> Prop :=
| index_signed s w z : opt_sign s -> words dec_digit w ->
    z = (if text_eqb s (txt "-") then - Z.of_N (value 10 w) else Z.of_N (value 10 w))%Z ->
    (- 2 ^ 63 <= z < 2 ^ 63)%Z ->
    index_literal (s ++ w) (Z.to_N (z mod 2 ^ 32)).

(** The uint32 of an int32 *)
Definition unsigned32 (z : Z) : N := Z.to_N (z mod 2 ^ 32).

(** ** Floats, as bit patterns *)

(** How the machine turns numbers into floats. *)
Record floats := {
  read32 : text -> option N;   (* strconv.ParseFloat(s, 32), as a float32 *)
  widen64 : N -> N;            (* float64 of a float32 *)
  int_to_32 : Z -> N;          (* float32 of an int32 *)
  int_to_64 : Z -> N           (* float64 of an int64 *) }.

Section Grammar.
Variable F : floats.

(** f32 float tokens: texts that begin with "nan" or "-nan" are read here, all
    others by ParseFloat. *)
Definition nan_text (w : text) : Prop := exists r, w = txt "nan" ++ r \/ w = txt "-nan" ++ r.

Inductive f32_float : text -> N -> Prop :=
| f32_number w b : ~ nan_text w -> read32 F w = Some b -> f32_float w b
| f32_nan : f32_float (txt "nan") 0x7F800000
| f32_neg_nan : f32_float (txt "-nan") 0xFF800000
| f32_named s w : (s = [] \/ s = txt "-") -> In w [txt "nan:canonical"; txt "nan:arithmetic"] ->
    f32_float (s ++ w) 0xFFC00000
| f32_payload w n : unsigned_literal w n -> (n < 2 ^ 32)%N -> f32_float (txt "nan:" ++ w) (N.lor n 0x7F800000)
| f32_neg_payload w n : unsigned_literal w n -> (n < 2 ^ 32)%N -> f32_float (txt "-nan:" ++ w) (N.lor n 0xFF800000).

(** What stands after f32.const: a float, or an integer literal of i32, which
    is read as an int32 first. *)
Inductive f32_const : tk -> N -> Prop :=
| f32_of_float w b : f32_float w b -> f32_const (TFloat, w) b
| f32_of_int w z : i32_literal w z -> f32_const (TInteger, w) (int_to_32 F z).

(** After f64.const: a float, read as a float32, or an integer literal. *)
Inductive f64_const : tk -> N -> Prop :=
| f64_of_float w b : read32 F w = Some b -> f64_const (TFloat, w) (widen64 F b)
| f64_of_int w z : i64_literal w z -> f64_const (TInteger, w) (int_to_64 F z).

(** ** Types, indices, strings *)

Definition type_word (t : valtype) : string :=
  match t with TI32 => "i32" | TI64 => "i64" | TF32 => "f32" | TF64 => "f64" end.
Inductive val_type : spelling valtype :=
| a_type t : val_type [kw (type_word t)] t.

Inductive an_index : spelling index :=
| by_number w n : index_literal w n -> an_index [(TInteger, w)] (RawIndex n)
| by_name w : an_index [(TId, w)] (IDIndex w).

(** A quoted name *)
Inductive a_string : spelling text :=
| quoted w : ~ In quote w -> a_string [(TString, [quote] ++ w ++ [quote])] w.

(** result t *)
Inductive one_result : spelling (list valtype) :=
| result_type w t : val_type w t -> one_result (kw "result" :: w) [t].

(** result t*, in the type of a block or loop *)
Inductive results : spelling (list valtype) :=
| result_types ws ts : many val_type ws ts -> results (kw "result" :: ws) ts.

(** param $x t, or param t* *)
Inductive param : spelling parameter :=
| named_param id w t : val_type w t ->
    param (kw "param" :: (TId, id) :: w) {| p_id := Some id; p_types := [t] |}
| param_types ws ts : many val_type ws ts -> param (kw "param" :: ws) {| p_id := None; p_types := ts |}.

(** ** Instructions *)

Definition plain_word (p : plain) : string :=
  match p with
  | Return => "return" | Drop => "drop" | Select => "select"
  | MemoryGrow => "memory.grow" | I32Load => "i32.load" | I32Store => "i32.store"
  | F32Add => "f32.add" | F32Sub => "f32.sub" | F32Mul => "f32.mul" | F32Div => "f32.div"
  | F32Sqrt => "f32.sqrt" | F32Min => "f32.min" | F32Max => "f32.max" | F32Ceil => "f32.ceil"
  | F32Floor => "f32.floor" | F32Trunc => "f32.trunc" | F32Nearest => "f32.nearest"
  | I32Add => "i32.add" | I32Sub => "i32.sub" | I32Mul => "i32.mul"
  | I32DivS => "i32.div_s" | I32DivU => "i32.div_u" | I32Eqz => "i32.eqz"
  end.

Definition indexed_word (o : indexed) : string :=
  match o with
  | Br => "br" | BrIf => "br_if" | Call => "call"
  | LocalGet => "local.get" | LocalSet => "local.set" | LocalTee => "local.tee"
  | GlobalGet => "global.get" | GlobalSet => "global.set"
  end.

(** Instructions that are accepted and forgotten: the tree has a nil
    instruction in their place. *)
Definition forgotten : list string :=
  [ "i32.rem_s"; "i32.rem_u"; "i32.and"; "i32.or"; "i32.xor"; "i32.shl"; "i32.shr_s"; "i32.shr_u";
    "i32.rotl"; "i32.rotr"; "i32.clz"; "i32.ctz"; "i32.popcnt"; "i32.extend8_s"; "i32.extend16_s";
    "i32.eq"; "i32.ne"; "i32.lt_s"; "i32.lt_u"; "i32.le_s"; "i32.le_u"; "i32.gt_s"; "i32.gt_u";
    "i32.ge_s"; "i32.ge_u" ]%string.

(** Operators without nested instructions *)
Inductive operator : spelling instr :=
| op_plain p : operator [kw (plain_word p)] (IPlain p)
| op_forgotten s : In s forgotten -> operator [kw s] INil
| op_indexed o w i : an_index w i -> operator (kw (indexed_word o) :: w) (IIndexed o i)
| op_br_table w i : an_index w i -> operator (kw "br_table" :: w) (IBrTable [i])
| op_i32 w z : i32_literal w z -> operator [kw "i32.const"; (TInteger, w)] (II32Const z)
| op_i64 w z : i64_literal w z -> operator [kw "i64.const"; (TInteger, w)] (II64Const z)
| op_f32 t b : f32_const t b -> operator [kw "f32.const"; t] (IF32Const b)
| op_f64 t b : f64_const t b -> operator [kw "f64.const"; t] (IF64Const b)
| op_call_indirect id : operator [kw "call_indirect"; lp; kw "type"; (TId, id); rp] (ICallIndirect id).

(** The sections of an if, in any order; the last then and the last else
    count. *)
Inductive if_section := SResult (r : list valtype) | SThen (b : list instr) | SElse (b : list instr) | SClause (i : instr).

Definition if_results (ss : list if_section) : list (list valtype) :=
  flat_map (fun s => match s with SResult r => [r] | _ => [] end) ss.
Definition if_clause (ss : list if_section) : list instr :=
  flat_map (fun s => match s with SClause i => [i] | _ => [] end) ss.
Definition if_then (ss : list if_section) : list instr :=
  last (flat_map (fun s => match s with SThen b => [b] | _ => [] end) ss) [].
Definition if_else (ss : list if_section) : option (list instr) :=
  last (flat_map (fun s => match s with SElse b => [Some b] | _ => [] end) ss) None.

(** Instructions: an operator; an operator followed by its operands in
    parentheses; or a block, loop or if with all that belongs to it. *)
Inductive instruction : spelling instr :=
| i_operator w i : operator w i -> instruction w i
| i_folded w i ws ps : operator w i -> many (paren instruction) ws ps -> ps <> [] ->
    instruction (w ++ ws) (IFolded i ps)
| i_block wn n wr rs wb b : opt_id wn n -> many (paren results) wr rs -> many (paren instruction) wb b ->
    instruction (kw "block" :: wn ++ wr ++ wb) (IBlock n rs b)
| i_loop wn n wr rs wb b : opt_id wn n -> many (paren results) wr rs -> many (paren instruction) wb b ->
    instruction (kw "loop" :: wn ++ wr ++ wb) (ILoop n rs b)
| i_if wn n ws ss : opt_id wn n -> many (paren an_if_section) ws ss ->
    instruction (kw "if" :: wn ++ ws) (IIf n (if_results ss) (if_clause ss) (if_then ss) (if_else ss))
with an_if_section : spelling if_section :=
| s_result w r : one_result w r -> an_if_section w (SResult r)
| s_then ws b : many (paren instruction) ws b -> an_if_section (kw "then" :: ws) (SThen b)
| s_else ws b : many (paren instruction) ws b -> an_if_section (kw "else" :: ws) (SElse b)
| s_clause w i : instruction w i -> an_if_section w (SClause i).

(** ** Modules *)

(** A function: its sections in parentheses, in any order, and then plain
    instructions. Imports are accepted and forgotten. *)
Inductive func_section :=
| FLocal (t : valtype) | FParam (p : parameter) | FResult (r : list valtype)
| FExport (name : text) | FImport (m f : text) | FInstr (i : instr).

Inductive a_func_section : spelling func_section :=
| fs_local w t : val_type w t -> a_func_section (kw "local" :: w) (FLocal t)
| fs_param w p : param w p -> a_func_section w (FParam p)
| fs_result w r : one_result w r -> a_func_section w (FResult r)
| fs_export w n : a_string w n -> a_func_section (kw "export" :: w) (FExport n)
| fs_import w1 w2 m f : a_string w1 m -> a_string w2 f -> a_func_section (kw "import" :: w1 ++ w2) (FImport m f)
| fs_instr w i : instruction w i -> a_func_section w (FInstr i).

(** Instructions in a row without parentheses: where one is not folded, the
    next does not begin with a parenthesis, so the row reads one way. *)
Inductive function : spelling func :=
| a_function wn n ws ss wb b :
    opt_id wn n -> many (paren a_func_section) ws ss -> many instruction wb b ->
    function (kw "func" :: wn ++ ws ++ wb)
      {| f_id := n;
         f_locals := flat_map (fun s => match s with FLocal t => [t] | _ => [] end) ss;
         f_exports := flat_map (fun s => match s with FExport e => [e] | _ => [] end) ss;
         f_params := flat_map (fun s => match s with FParam p => [p] | _ => [] end) ss;
         f_results := flat_map (fun s => match s with FResult r => [r] | _ => [] end) ss;
         f_instrs := flat_map (fun s => match s with FInstr i => [i] | _ => [] end) ss ++ b |}.

(** Function types: parameters and results in any order. Empty parentheses
    are let through. *)
Inductive type_section := TParam (p : parameter) | TResult (r : list valtype) | TNothing.
Inductive a_type_section : spelling type_section :=
| ts_param w p : param w p -> a_type_section w (TParam p)
| ts_result w r : one_result w r -> a_type_section w (TResult r)
| ts_nothing : a_type_section [] TNothing.

Inductive func_type : spelling functype :=
| a_func_type ws ss : many (paren a_type_section) ws ss ->
    func_type (kw "func" :: ws)
      {| ft_params := flat_map (fun s => match s with TParam p => [p] | _ => [] end) ss;
         ft_results := flat_map (fun s => match s with TResult r => [r] | _ => [] end) ss |}.

(** A type definition; without a function type it is the empty one. *)
Inductive type_def : spelling typedef :=
| a_type_def wn n w f : opt_id wn n -> paren func_type w f ->
    type_def (kw "type" :: wn ++ w) {| td_id := n; td_func := f |}
| no_type_def wn n : opt_id wn n ->
    type_def (kw "type" :: wn) {| td_id := n; td_func := {| ft_params := []; ft_results := [] |} |}.

Inductive a_limits : spelling limits :=
| at_least w z : i32_literal w z -> a_limits [(TInteger, w)] {| lim_min := unsigned32 z; lim_max := None |}
| at_most w1 z1 w2 z2 : i32_literal w1 z1 -> i32_literal w2 z2 ->
    a_limits [(TInteger, w1); (TInteger, w2)] {| lim_min := unsigned32 z1; lim_max := Some (unsigned32 z2) |}.

Inductive opt_limits : spelling limits :=
| no_limits : opt_limits [] {| lim_min := 0; lim_max := None |}
| some_limits w l : a_limits w l -> opt_limits w l.

(** The element type of a table. Any other word is let through and gives no
    type. *)
Inductive ref_type : spelling (option reftype) :=
| rt_func : ref_type [kw "funcref"] (Some FuncRef)
| rt_extern : ref_type [kw "externref"] (Some ExternRef)
| rt_other w : w <> txt "funcref" -> w <> txt "externref" -> ref_type [(Reserved, w)] None.

(** elem $f: one function *)
Inductive element : spelling text :=
| an_element id : element [kw "elem"; (TId, id)] id.

Inductive table_def : spelling table :=
| a_table wn n wl l wr r we es :
    opt_id wn n -> opt_limits wl l -> ref_type wr r -> many (paren element) we es ->
    table_def (kw "table" :: wn ++ wl ++ wr ++ we)
      {| tb_id := n; tb_limits := l; tb_ref := r; tb_elems := es |}.

Inductive global_def : spelling global :=
| a_constant wn n w t wi is : opt_id wn n -> val_type w t -> many (paren instruction) wi is ->
    global_def (kw "global" :: wn ++ w ++ wi) {| g_id := n; g_mutable := false; g_type := t; g_instrs := is |}
| a_variable wn n w t wi is : opt_id wn n -> val_type w t -> many (paren instruction) wi is ->
    global_def (kw "global" :: wn ++ (lp :: kw "mut" :: w ++ [rp]) ++ wi)
      {| g_id := n; g_mutable := true; g_type := t; g_instrs := is |}.

Inductive memory_def : spelling memory :=
| a_memory wn n w l : opt_id wn n -> a_limits w l ->
    memory_def (kw "memory" :: wn ++ w) {| m_id := n; m_limits := l |}.

Inductive section := SecFunc (f : func) | SecType (t : typedef) | SecTable (t : table)
                   | SecGlobal (g : global) | SecMemory (m : memory).
Inductive a_section : spelling section :=
| sec_func w x : function w x -> a_section w (SecFunc x)
| sec_type w x : type_def w x -> a_section w (SecType x)
| sec_table w x : table_def w x -> a_section w (SecTable x)
| sec_global w x : global_def w x -> a_section w (SecGlobal x)
| sec_memory w x : memory_def w x -> a_section w (SecMemory x).

(** A module: sections in any order, each kind kept in its order. *)
Definition module_of (ss : list section) : module :=
  {| md_funcs := flat_map (fun s => match s with SecFunc x => [x] | _ => [] end) ss;
     md_memories := flat_map (fun s => match s with SecMemory x => [x] | _ => [] end) ss;
     md_types := flat_map (fun s => match s with SecType x => [x] | _ => [] end) ss;
     md_tables := flat_map (fun s => match s with SecTable x => [x] | _ => [] end) ss;
     md_globals := flat_map (fun s => match s with SecGlobal x => [x] | _ => [] end) ss |}.

Inductive a_directive : spelling directive :=
| d_module ws ss : many (paren a_section) ws ss ->
    a_directive (lp :: (TModule, txt "module") :: ws ++ [rp]) (DModule (module_of ss))
| d_component : a_directive [lp; (TComponent, txt "component"); rp] DComponent.
End Grammar.

(** ** Texts and tokens *)

Definition space_or_comment (ty : toktype) : bool :=
  match ty with Whitespace | LineComment | BlockComment => true | _ => false end.

(** The tokens that matter: whitespace and comments left out *)
Definition significant (ts : list tk) : list tk := filter (fun t => negb (space_or_comment (fst t))) ts.

(** The text of a file *)
Definition text_of (ts : list tk) : text := concat (map snd ts).

(** A text cut into tokens of the right form, each as long as it can be before
    what follows it; [r] follows the last. *)
Fixpoint cut (ts : list tk) (r : text) : Prop :=
  match ts with
  | [] => True
  | (ty, w) :: ts' => token_text ty w /\ separate ty (text_of ts' ++ r) /\ cut ts' r
  end.
