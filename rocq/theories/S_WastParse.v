(** Specification of WAST scripts as this parser understands them: which
    sequences of tokens spell which directives. Independent of the parser. *)
From Coq Require Import Arith NArith ZArith String Ascii Bool List.
From Verif Require Import GoBase M_Text M_WatLex M_WatAst M_WastParse S_WatLex S_WatParse.
Import ListNotations.

Section Grammar.
Variable F : floats.

(** (module ...), (component), (module quote "..."), (component quote "...") *)
Inductive a_quote_wat : spelling quote_wat :=
| q_wat w d : a_directive F w d -> a_quote_wat w (QWat d)
| q_module w s : a_string w s -> a_quote_wat (lp :: (TModule, txt "module") :: kw "quote" :: w ++ [rp]) (QModule s)
| q_component w s : a_string w s -> a_quote_wat (lp :: (TComponent, txt "component") :: kw "quote" :: w ++ [rp]) (QComponent s).

(** Numbers. An f64.const without a number is 0. *)
Inductive a_number : spelling wconst :=
| n_i32 w z : i32_literal w z -> a_number [kw "i32.const"; (TInteger, w)] (CI32 z)
| n_i64 w z : i64_literal w z -> a_number [kw "i64.const"; (TInteger, w)] (CI64 z)
| n_f32 t b : f32_const F t b -> a_number [kw "f32.const"; t] (CF32 b)
| n_f64 t b : f64_const F t b -> a_number [kw "f64.const"; t] (CF64 b)
| n_f64_zero : a_number [kw "f64.const"] (CF64 0).

(** A reference, without operand, is accepted and forgotten. *)
Definition a_reference (w : list tk) : Prop := w = [kw "ref.null"] \/ w = [kw "ref.extern"].

Inductive a_const : spelling (option wconst) :=
| c_number w c : a_number w c -> a_const w (Some c)
| c_reference w : a_reference w -> a_const w None.

(** (invoke $name? "..." const* ). Any word but invoke and get, without
    operands, is accepted as no action. *)
Inductive an_action : spelling (option invoke) :=
| a_invoke wn n w s wc cs : opt_id wn n -> a_string w s -> many (paren a_const) wc cs ->
    an_action (lp :: kw "invoke" :: (wn ++ w ++ wc) ++ [rp])
      (Some {| in_name := n; in_string := s; in_consts := cs |})
| a_unknown w : w <> txt "invoke" -> w <> txt "get" -> an_action [lp; (Reserved, w); rp] None.

(** Results: numbers in parentheses. A reference is forgotten and must not be
    closed. *)
Inductive a_result : spelling (list wconst) :=
| r_number w c : paren a_number w c -> a_result w [c]
| r_reference w : a_reference w -> a_result (lp :: w) [].

Inductive a_wdirective : spelling wdirective :=
| wd_wat w q : a_quote_wat w q -> a_wdirective w (DWat q)
| wd_return wa a wr rs : an_action wa a -> many a_result wr rs ->
    a_wdirective (lp :: kw "assert_return" :: (wa ++ wr) ++ [rp]) (DReturn a (concat rs))
| wd_trap wa a ws s : an_action wa a -> a_string ws s ->
    a_wdirective (lp :: kw "assert_trap" :: (wa ++ ws) ++ [rp]) (DTrap a s)
| wd_invalid wq q ws s : a_quote_wat wq q -> a_string ws s ->
    a_wdirective (lp :: kw "assert_invalid" :: (wq ++ ws) ++ [rp]) (DInvalid q s)
| wd_malformed wq q ws s : a_quote_wat wq q -> a_string ws s ->
    a_wdirective (lp :: kw "assert_malformed" :: (wq ++ ws) ++ [rp]) (DMalformed q s).

Definition a_script : spelling (list wdirective) := many a_wdirective.
End Grammar.

(** What can be left after the last token: nothing, or the beginning of a
    comment or string. *)
Definition leftover (r : text) : Prop := r = [] \/ unfinished r.
