(** A printer for WAST scripts, used to say that scripts parse back. It is not
    part of the code base. Independent of the parser and of the grammar in
    S_WastParse; only tokens and syntax trees are shared with the model. *)
From Coq Require Import Arith NArith ZArith String Ascii Bool List.
From Verif Require Import GoBase M_Text M_WatLex M_WatAst M_WastParse S_WatLex S_WatParse S_WatPrint.
Import ListNotations.

Section Print.
(** How floats are written: any way that is read back *)
Variable float32_tk float64_tk : N -> tk.

Definition print_const (c : wconst) : list tk :=
  parens (match c with
          | CI32 z => [kw "i32.const"; integer z]
          | CI64 z => [kw "i64.const"; integer z]
          | CF32 b => [kw "f32.const"; float32_tk b]
          | CF64 b => [kw "f64.const"; float64_tk b]
          end).

(** Arguments that are references have no value in the syntax tree. *)
Definition print_argument (c : option wconst) : list tk :=
  match c with Some c => print_const c | None => parens [kw "ref.null"] end.

(** An action that was accepted as none is written as a word that is no
    action. *)
Definition print_action (a : option invoke) : list tk :=
  match a with
  | Some i => parens (kw "invoke" :: name (in_name i) ++ quoted_name (in_string i) :: flat_map print_argument (in_consts i))
  | None => parens [kw "none"]
  end.

Definition print_quote_wat (q : quote_wat) : list tk :=
  match q with
  | QWat (DModule m) => print_module float32_tk float64_tk m
  | QWat DComponent => parens [(TComponent, txt "component")]
  | QModule s => parens [(TModule, txt "module"); kw "quote"; quoted_name s]
  | QComponent s => parens [(TComponent, txt "component"); kw "quote"; quoted_name s]
  end.

Definition print_wdirective (d : wdirective) : list tk :=
  match d with
  | DWat q => print_quote_wat q
  | DInvalid q s => parens (kw "assert_invalid" :: print_quote_wat q ++ [quoted_name s])
  | DMalformed q s => parens (kw "assert_malformed" :: print_quote_wat q ++ [quoted_name s])
  | DTrap a s => parens (kw "assert_trap" :: print_action a ++ [quoted_name s])
  | DReturn a rs => parens (kw "assert_return" :: print_action a ++ flat_map print_const rs)
  end.

Definition print_script (ds : list wdirective) : list tk := flat_map print_wdirective ds.

(** ** The scripts that can be written *)
Variable F : floats.

Definition good_wconst (c : wconst) : Prop :=
  match c with
  | CI32 z => (- 2 ^ 31 <= z < 2 ^ 31)%Z
  | CI64 z => (- 2 ^ 31 <= z < 2 ^ 32)%Z
  | CF32 b => good_const (f32_const F) (float32_tk b) b
  | CF64 b => good_const (f64_const F) (float64_tk b) b
  end.

Definition good_action (a : option invoke) : Prop :=
  match a with
  | Some i => good_name (in_name i) /\ ~ In quote (in_string i) /\
              Forall (fun c => match c with Some c => good_wconst c | None => True end) (in_consts i)
  | None => True
  end.

Definition good_quote_wat (q : quote_wat) : Prop :=
  match q with
  | QWat (DModule m) => good_module float32_tk float64_tk F m
  | QWat DComponent => True
  | QModule s | QComponent s => ~ In quote s
  end.

Definition good_wdirective (d : wdirective) : Prop :=
  match d with
  | DWat q => good_quote_wat q
  | DInvalid q s | DMalformed q s => good_quote_wat q /\ ~ In quote s
  | DTrap a s => good_action a /\ ~ In quote s
  | DReturn a rs => good_action a /\ Forall good_wconst rs
  end.
End Print.
