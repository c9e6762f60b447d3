(** The binary format the library reads, exactly: which bytes it takes for
    which module. It is looser than the WebAssembly format of [S_Binary] in
    that numbers may be of any length and are taken modulo 2^32, sizes of
    sections and functions are not looked at where the contents say how long
    they are, sections may come in any order and again and again, and there
    may be fewer codes than functions; it is narrower in that locals are one
    byte each. Independent of the reader: only the abstract syntax of [M_Api]
    and the LEB128 specification are used. *)
From Coq Require Import NArith List.
From Verif Require Import S_Leb128 M_Api S_Binary.
Import ListNotations.
Open Scope N_scope.

Definition loose_number (n : N) (bs : list N) : Prop := leb_form bs /\ n = leb_value bs mod 2 ^ 32.

Definition loose_vec {A} (elem : A -> list N -> Prop) (xs : list A) (bs : list N) : Prop :=
  exists n parts, loose_number (N.of_nat (length xs)) n /\ Forall2 elem xs parts /\ bs = n ++ concat parts.

Definition loose_functype (t : functype) (bs : list N) : Prop :=
  exists ps rs, loose_vec valtype_bytes (ft_params t) ps /\ loose_vec valtype_bytes (ft_returns t) rs /\
    bs = 0x60 :: ps ++ rs.

Definition loose_export (e : export) (bs : list N) : Prop :=
  exists n ix, loose_number (N.of_nat (length (ex_name e))) n /\ loose_number (ex_func e) ix /\
    bs = n ++ ex_name e ++ 0x00 :: ix.

(** A function before its code is known. *)
Definition loose_func (f : func) (bs : list N) : Prop :=
  loose_number (f_type f) bs /\ f_locals f = [] /\ f_body f = None.

Inductive loose_instr : instr -> list N -> Prop :=
| li_local_get i bs : loose_number i bs -> loose_instr (ILocalGet i) (0x20 :: bs)
| li_i32_add : loose_instr II32Add [0x6a].

(** The code of [f]: a size that is not looked at, the locals, and
    instructions up to the first end. [f'] is the function with its code. *)
Definition loose_code (f : func) (bs : list N) (f' : func) : Prop :=
  exists size n locals ls is parts,
    loose_number n size /\ loose_vec valtype_bytes locals ls /\ Forall2 loose_instr is parts /\
    bs = size ++ ls ++ concat parts ++ [0x0b] /\
    f' = {| f_type := f_type f; f_locals := locals; f_body := Some (is ++ [IEnd]) |}.

(** The codes of the functions, one after the other. *)
Inductive loose_codes : list func -> list N -> list func -> Prop :=
| lc_none : loose_codes [] [] []
| lc_code f bs f' fs bss fs' :
    loose_code f bs f' -> loose_codes fs bss fs' -> loose_codes (f :: fs) (bs ++ bss) (f' :: fs').

(** What a section makes of the module so far. *)
Inductive loose_section (m : module) : list N -> module -> Prop :=
| ls_types size n ts bs : loose_number n size -> loose_vec loose_functype ts bs ->
    loose_section m (1 :: size ++ bs) {| m_types := ts; m_funcs := m_funcs m; m_exports := m_exports m |}
| ls_funcs size n fs bs : loose_number n size -> loose_vec loose_func fs bs ->
    loose_section m (3 :: size ++ bs) {| m_types := m_types m; m_funcs := fs; m_exports := m_exports m |}
| ls_exports size n es bs : loose_number n size -> loose_vec loose_export es bs ->
    loose_section m (7 :: size ++ bs) {| m_types := m_types m; m_funcs := m_funcs m; m_exports := es |}
| ls_codes size n count coded others bs coded' : loose_number n size ->
    m_funcs m = coded ++ others -> loose_number (N.of_nat (length coded)) count -> loose_codes coded bs coded' ->
    loose_section m (10 :: size ++ count ++ bs)
      {| m_types := m_types m; m_funcs := coded' ++ others; m_exports := m_exports m |}
| ls_other id size bs : id <> 1 -> id <> 3 -> id <> 7 -> id <> 10 ->
    loose_number (N.of_nat (length bs)) size -> loose_section m (id :: size ++ bs) m.

Inductive loose_sections : module -> list N -> module -> Prop :=
| lss_end m : loose_sections m [] m
| lss_section m bs m' bss m'' :
    loose_section m bs m' -> loose_sections m' bss m'' -> loose_sections m (bs ++ bss) m''.

(** The same with the sections listed one by one. *)
Inductive section_list : module -> list (list N) -> module -> Prop :=
| sl_end m : section_list m [] m
| sl_section m bs m' secs m'' :
    loose_section m bs m' -> section_list m' secs m'' -> section_list m (bs :: secs) m''.

(** A file: magic, version, layer. What follows the header of a component is
    left unread. *)
Definition loose_file (bs : list N) (d : document) (rest : list N) : Prop :=
  exists v layer body,
    v < 2 ^ 16 /\ layer < 2 ^ 16 /\
    bs = [0x00; 0x61; 0x73; 0x6d] ++ [v mod 256; v / 256] ++ [layer mod 256; layer / 256] ++ body /\
    d_preamble d = {| p_version := v; p_layer := layer |} /\
    ((v = 10 /\ d_directive d = DComponent /\ rest = body) \/
     (v = 1 /\ rest = [] /\ exists m, d_directive d = DModule m /\
        loose_sections {| m_types := []; m_funcs := []; m_exports := [] |} body m)).
