(** The repository's own unit tests of the WAT lexer and of the WAT and WAST
    parsers, evaluated on the model. Like those in T_Abi.v they are not part of
    any proof: they compare the model with what the authors expect of the code.
    The tests of wit/parse and TestIntegration of wast/parse read files of
    other repositories that are not at hand. *)
From Coq Require Import Arith NArith ZArith String Ascii Bool List.
From Verif Require Import GoBase M_Text.
From Verif Require Import M_WatLex M_ParseBase M_Strconv M_WatAst M_WatParse M_WastParse.
Import ListNotations.
Open Scope nat_scope.
Local Open Scope string_scope.

(** wat/lex/lexer_test.go:207-218 CanTokenize *)
Fixpoint can_tokenize (l : lexer) (sequence : list toktype) : bool :=
  match next l, sequence with
  | (Ok t, _), [] => tok_eqb (t_type t) EndOfStream
  | (Ok t, l'), ty :: sequence' => tok_eqb (t_type t) ty && can_tokenize l' sequence'
  | _, _ => false
  end.
Definition tokenizes (input : text) (sequence : list toktype) : bool :=
  can_tokenize (new_lexer false input) sequence && can_tokenize (new_lexer true input) sequence.

(** wat/lex/lexer_test.go:11-161 TestLexer *)
Example wat_lexer : forallb (fun c => tokenizes (fst c) (snd c)) [
  ((txt "(module)"),
    [OpenParen; TModule; CloseParen]);
  ((txt " (module ) "),
    [Whitespace; OpenParen; TModule; Whitespace; CloseParen; Whitespace]);
  ((txt "
		;; Line Comment
		( module 
			(memory (; in the middle ;) 1)
		)"),
    [Whitespace; LineComment; Whitespace; OpenParen; Whitespace; TModule; Whitespace; OpenParen; Reserved; Whitespace; BlockComment; Whitespace; TInteger; CloseParen; Whitespace; CloseParen]);
  ((txt "
		( module 
			(func $add (param $lhs i32) (param $rhs i32) (result i32)
				local.get $lhs
				local.get $rhs
				i32.add))"),
    [Whitespace; OpenParen; Whitespace; TModule; Whitespace; OpenParen; Reserved; Whitespace; TId; Whitespace; OpenParen; Reserved; Whitespace; TId; Whitespace; Reserved; CloseParen; Whitespace; OpenParen; Reserved; Whitespace; TId; Whitespace; Reserved; CloseParen; Whitespace; OpenParen; Reserved; Whitespace; Reserved; CloseParen; Whitespace; Reserved; Whitespace; TId; Whitespace; Reserved; Whitespace; TId; Whitespace; Reserved; CloseParen; CloseParen]);
  ((txt "
;; i32 operations

(module
	(func (export ""add"") (param $x i32) (param $y i32) (result i32) (i32.add (local.get $x) (local.get $y)))
)
(assert_return (invoke ""add"" (i32.const 1) (i32.const 1)) (i32.const 2))"),
    [Whitespace; LineComment; Whitespace; OpenParen; TModule; Whitespace; OpenParen; Reserved; Whitespace; OpenParen; Reserved; Whitespace; TString; CloseParen; Whitespace; OpenParen; Reserved; Whitespace; TId; Whitespace; Reserved; CloseParen; Whitespace; OpenParen; Reserved; Whitespace; TId; Whitespace; Reserved; CloseParen; Whitespace; OpenParen; Reserved; Whitespace; Reserved; CloseParen; Whitespace; OpenParen; Reserved; Whitespace; OpenParen; Reserved; Whitespace; TId; CloseParen; Whitespace; OpenParen; Reserved; Whitespace; TId; CloseParen; CloseParen; CloseParen; Whitespace; CloseParen; Whitespace; OpenParen; Reserved; Whitespace; OpenParen; Reserved; Whitespace; TString; Whitespace; OpenParen; Reserved; Whitespace; TInteger; CloseParen; Whitespace; OpenParen; Reserved; Whitespace; TInteger; CloseParen; CloseParen; Whitespace; OpenParen; Reserved; Whitespace; TInteger; CloseParen; CloseParen])] = true.
Proof. vm_compute. reflexivity. Qed.

(** wat/lex/lexer_test.go:163-184 TestFloat, 186-205 TestI32 *)
Example wat_floats : forallb (fun s => tokenizes (txt s) [TFloat]) ["-0x0p+0"; "0x0p+0"; "-0x1p-149"; "0x1p-149"; "-0x1.921fb6p+2"; "0x1.921fb6p+2"; "inf"; "-inf"; "nan"; "nan:canonical"; "nan:arithmetic"; "-nan:0x200000"; "nan:0x200000"] = true.
Proof. vm_compute. reflexivity. Qed.
Example wat_integers : forallb (fun s => tokenizes (txt s) [TInteger]) ["1"; "-1"; "0"; "0x7fffffff"; "0x80000000"; "0x40000000"; "0x10000000"; "-0x80"; "4096"; "0xff05"; "0xffdf3b65"; "0x012345_00"] = true.
Proof. vm_compute. reflexivity. Qed.

(** wat/parse/parse_test.go:13-54 TestParse *)
Definition funcs (fs : list func) : outcome directive :=
  Ok (DModule {| md_funcs := fs; md_memories := []; md_types := []; md_tables := []; md_globals := [] |}).
Definition bare : func := {| f_id := None; f_locals := []; f_exports := []; f_params := []; f_results := []; f_instrs := [] |}.
Definition parsed (pf : text -> option N) (swap : bool) (input : text) : outcome directive := fst (parse pf (new_lexer swap input)).
Definition add_wat : text := (txt "(module
    (func (param i32) (param i32) (result i32)
        local.get 0
        local.get 1
        i32.add))").
Example wat_parse : forall pf swap,
  parsed pf swap (txt "(module)") = funcs [] /\
  parsed pf swap (txt "(component)") = Ok DComponent /\
  parsed pf swap (txt "(module (func (export ""add"")))") =
    funcs [{| f_id := None; f_locals := []; f_exports := [txt "add"]; f_params := []; f_results := []; f_instrs := [] |}] /\
  parsed pf swap (txt "(module (func ))") = funcs [bare] /\
  parsed pf swap (txt "(module (func (i32.add (local.get $x)(local.get $y))))") =
    funcs [with_instrs bare [IFolded (IPlain I32Add)
             [IIndexed LocalGet (IDIndex (txt "$x")); IIndexed LocalGet (IDIndex (txt "$y"))]]] /\
  exists d, parsed pf swap add_wat = Ok d.
Proof. intros pf [|]; repeat split; try (vm_compute; reflexivity); eexists; vm_compute; reflexivity. Qed.

(** wast/parse/parse_test.go:52-142 TestParse *)
Example wast_parse : forall pf swap,
  ParseWast pf swap (txt "(assert_return (invoke ""add"" (i32.const 1) (i32.const 1)) (i32.const 2))") =
    Ok [DReturn (Some {| in_name := None; in_string := txt "add"; in_consts := [Some (CI32 1); Some (CI32 1)] |}) [CI32 2]] /\
  ParseWast pf swap (txt "(assert_trap (invoke ""div_s"" (i32.const 1) (i32.const 0)) ""integer divide by zero"")") =
    Ok [DTrap (Some {| in_name := None; in_string := txt "div_s"; in_consts := [Some (CI32 1); Some (CI32 0)] |}) (txt "integer divide by zero")] /\
  ParseWast pf swap (txt "(assert_invalid
			(module
			  (func $type-unary-operand-empty
				(i32.eqz) (drop)
			  )
			)
			""type mismatch""
		  )") =
    Ok [DInvalid (QWat (DModule {|
          md_funcs := [{| f_id := Some (txt "$type-unary-operand-empty"); f_locals := []; f_exports := []; f_params := []; f_results := [];
                          f_instrs := [IPlain I32Eqz; IPlain Drop] |}];
          md_memories := []; md_types := []; md_tables := []; md_globals := [] |})) (txt "type mismatch")] /\
  ParseWast pf swap (txt "(assert_malformed
				(module quote ""(func (result i32) (i32.const nan:arithmetic))"")
				""unexpected token""
			  )") =
    Ok [DMalformed (QModule (txt "(func (result i32) (i32.const nan:arithmetic))")) (txt "unexpected token")].
Proof. intros pf [|]; repeat split; vm_compute; reflexivity. Qed.
