(** A printer for WAT syntax trees, used to say that trees parse back. It is
    not part of the code base. Independent of the parser and of the grammar in
    S_WatParse; only tokens and syntax trees are shared with the model. *)
From Coq Require Import Arith NArith ZArith Decimal String Ascii Bool List.
From Verif Require Import GoBase M_Text M_WatLex M_WatAst S_WatLex S_WatParse.
Import ListNotations.

(** Decimal digits of a number, without leading zeros *)
Fixpoint digits_of (d : uint) : text :=
  match d with
  | Nil => []
  | D0 d => "0"%char :: digits_of d | D1 d => "1"%char :: digits_of d
  | D2 d => "2"%char :: digits_of d | D3 d => "3"%char :: digits_of d
  | D4 d => "4"%char :: digits_of d | D5 d => "5"%char :: digits_of d
  | D6 d => "6"%char :: digits_of d | D7 d => "7"%char :: digits_of d
  | D8 d => "8"%char :: digits_of d | D9 d => "9"%char :: digits_of d
  end.
Definition natural (n : N) : tk := (TInteger, digits_of (N.to_uint n)).
Definition integer (z : Z) : tk :=
  if (z <? 0)%Z then (TInteger, "-"%char :: digits_of (N.to_uint (Z.to_N (- z))))
  else natural (Z.to_N z).

Definition parens (ts : list tk) : list tk := lp :: ts ++ [rp].
Definition name (n : option text) : list tk := match n with Some id => [(TId, id)] | None => [] end.
Definition type_name (t : valtype) : tk := kw (type_word t).
Definition print_index (i : index) : tk :=
  match i with IDIndex id => (TId, id) | RawIndex n => natural n end.
Definition print_result (r : list valtype) : list tk := parens (kw "result" :: map type_name r).
Definition quoted_name (s : text) : tk := (TString, [quote] ++ s ++ [quote]).

(** An instruction that was accepted and forgotten is written as some such
    instruction, and a table without element type with some other word. *)
Section Print.
(** How floats are written: any way that is read back; see [good_const]. *)
Variable float32_tk float64_tk : N -> tk.

Fixpoint print_instr (i : instr) : list tk :=
  match i with
  | INil => [kw "i32.eq"]
  | IPlain p => [kw (plain_word p)]
  | IIndexed o i => [kw (indexed_word o); print_index i]
  | IBrTable is => kw "br_table" :: map print_index is
  | II32Const z => [kw "i32.const"; integer z]
  | II64Const z => [kw "i64.const"; integer z]
  | IF32Const b => [kw "f32.const"; float32_tk b]
  | IF64Const b => [kw "f64.const"; float64_tk b]
  | IBlock n rs body => kw "block" :: name n ++ flat_map print_result rs ++ flat_map (fun i => parens (print_instr i)) body
  | ILoop n rs body => kw "loop" :: name n ++ flat_map print_result rs ++ flat_map (fun i => parens (print_instr i)) body
  | IIf n rs clause thn els =>
      kw "if" :: name n ++ flat_map print_result rs ++ flat_map (fun i => parens (print_instr i)) clause ++
      parens (kw "then" :: flat_map (fun i => parens (print_instr i)) thn) ++
      match els with
      | Some b => parens (kw "else" :: flat_map (fun i => parens (print_instr i)) b)
      | None => []
      end
  | ICallIndirect id => kw "call_indirect" :: parens [kw "type"; (TId, id)]
  | IFolded i ps => print_instr i ++ flat_map (fun i => parens (print_instr i)) ps
  end.

Definition print_param (p : parameter) : list tk :=
  parens (kw "param" :: name (p_id p) ++ map type_name (p_types p)).

Definition print_func (f : func) : list tk :=
  kw "func" :: name (f_id f) ++
  flat_map (fun e => parens [kw "export"; quoted_name e]) (f_exports f) ++
  flat_map print_param (f_params f) ++
  flat_map print_result (f_results f) ++
  flat_map (fun t => parens [kw "local"; type_name t]) (f_locals f) ++
  flat_map (fun i => parens (print_instr i)) (f_instrs f).

Definition print_limits (l : limits) : list tk :=
  natural (lim_min l) :: match lim_max l with Some n => [natural n] | None => [] end.

Definition print_memory (m : memory) : list tk := kw "memory" :: name (m_id m) ++ print_limits (m_limits m).

Definition print_type (t : typedef) : list tk :=
  kw "type" :: name (td_id t) ++
  parens (kw "func" :: flat_map print_param (ft_params (td_func t)) ++ flat_map print_result (ft_results (td_func t))).

Definition print_table (t : table) : list tk :=
  kw "table" :: name (tb_id t) ++ print_limits (tb_limits t) ++
  [kw (match tb_ref t with Some ExternRef => "externref" | Some FuncRef => "funcref" | None => "anyref" end)] ++
  flat_map (fun id => parens [kw "elem"; (TId, id)]) (tb_elems t).

Definition print_global (g : global) : list tk :=
  kw "global" :: name (g_id g) ++
  (if g_mutable g then parens [kw "mut"; type_name (g_type g)] else [type_name (g_type g)]) ++
  flat_map (fun i => parens (print_instr i)) (g_instrs g).

Definition print_module (m : module) : list tk :=
  parens ((TModule, txt "module") ::
    flat_map (fun x => parens (print_type x)) (md_types m) ++
    flat_map (fun x => parens (print_func x)) (md_funcs m) ++
    flat_map (fun x => parens (print_table x)) (md_tables m) ++
    flat_map (fun x => parens (print_memory x)) (md_memories m) ++
    flat_map (fun x => parens (print_global x)) (md_globals m)).

(** ** The trees that can be written *)

Definition good_name (n : option text) : Prop := match n with Some id => id_text id | None => True end.
Definition good_index (i : index) : Prop :=
  match i with IDIndex id => id_text id | RawIndex n => (n < 2 ^ 32)%N end.

(** A float token that is read as the float *)
Definition good_const (G : tk -> N -> Prop) (t : tk) (b : N) : Prop := token_text (fst t) (snd t) /\ G t b.

Definition is_operator (i : instr) : Prop :=
  match i with IBlock _ _ _ | ILoop _ _ _ | IIf _ _ _ _ _ | IFolded _ _ => False | _ => True end.

Variable F : floats.

(** All of them, in a form that recursion on trees accepts *)
Definition every {A} (P : A -> Prop) (l : list A) : Prop := fold_right (fun x Q => P x /\ Q) True l.

Fixpoint good_instr (i : instr) : Prop :=
  match i with
  | INil => True
  | IPlain _ => True
  | IIndexed _ i => good_index i
  | IBrTable is => match is with [i] => good_index i | _ => False end
  | II32Const z => (- 2 ^ 31 <= z < 2 ^ 31)%Z
  | II64Const z => (- 2 ^ 31 <= z < 2 ^ 32)%Z
  | IF32Const b => good_const (f32_const F) (float32_tk b) b
  | IF64Const b => good_const (f64_const F) (float64_tk b) b
  | IBlock n rs body | ILoop n rs body => good_name n /\ every good_instr body
  | IIf n rs clause thn els =>
      good_name n /\ Forall (fun r => length r = 1%nat) rs /\ every good_instr clause /\ every good_instr thn /\
      match els with Some b => every good_instr b | None => True end
  | ICallIndirect id => id_text id
  | IFolded i ps => is_operator i /\ good_instr i /\ ps <> [] /\ every good_instr ps
  end.

Definition good_param (p : parameter) : Prop :=
  match p_id p with Some id => id_text id /\ length (p_types p) = 1%nat | None => True end.

Definition good_results (rs : list (list valtype)) : Prop := Forall (fun r => length r = 1%nat) rs.

Definition good_func (f : func) : Prop :=
  good_name (f_id f) /\ Forall (fun e => ~ In quote e) (f_exports f) /\ Forall good_param (f_params f) /\
  good_results (f_results f) /\ Forall good_instr (f_instrs f).

Definition good_limits (l : limits) : Prop :=
  (lim_min l < 2 ^ 32)%N /\ match lim_max l with Some n => (n < 2 ^ 32)%N | None => True end.

Definition good_module (m : module) : Prop :=
  Forall (fun t => good_name (td_id t) /\ Forall good_param (ft_params (td_func t)) /\
                   good_results (ft_results (td_func t))) (md_types m) /\
  Forall good_func (md_funcs m) /\
  Forall (fun t => good_name (tb_id t) /\ good_limits (tb_limits t) /\
                   Forall id_text (tb_elems t)) (md_tables m) /\
  Forall (fun m => good_name (m_id m) /\ good_limits (m_limits m)) (md_memories m) /\
  Forall (fun g => good_name (g_id g) /\ Forall good_instr (g_instrs g)) (md_globals m).
End Print.

(** The text of tokens: a blank between any two *)
Fixpoint spaced (ts : list tk) : text :=
  match ts with
  | [] => []
  | [t] => snd t
  | t :: ts' => snd t ++ txt " " ++ spaced ts'
  end.
