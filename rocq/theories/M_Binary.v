(** Model of binary/read.go and binary/binary.go. The io.Reader is the list
    of bytes still to be read ([N] below 256), as for a bytes.Reader: reads
    never fail before the end of input. A reader function returns its result
    and the bytes it left. *)
From Coq Require Import NArith List Bool.
From Verif Require Import GoBase M_Leb128 M_Api.
Import ListNotations.
Open Scope N_scope.
Open Scope go_scope.

(** The functions of binary/read.go:16-427: from an io.Reader, here the bytes
    that are left, to a value or an error and what is left *)
Definition reader (A : Type) : Type := list N -> outcome (A * list N).

(** "return x, nil" (binary/read.go:42, for one) *)
Definition rret {A} (a : A) : reader A := fun s => Ok (a, s).
(** "return x, err" (binary/read.go:19, for one) *)
Definition rerr {A} (e : goerr) : reader A := fun _ => Err e.
(** "x, err := f(reader); if err != nil { return err }", the shape of
    binary/read.go:16-427 *)
Definition rbind {A B} (p : reader A) (f : A -> reader B) : reader B :=
  fun s => olet (a, s') := p s in f a s'.
Declare Scope reader_scope.
Notation "'rlet' x ':=' e 'in' f" := (rbind e (fun x => f))
  (at level 200, x pattern, e at level 100, f at level 200, right associativity) : reader_scope.
Open Scope reader_scope.

(** The Go runtime aborts when [make] asks for more memory than there is.
    [heap] is the largest number of elements a single [make] can allocate; the
    sum of all live allocations is not modelled. Used at
    binary/read.go:108,142,191,227,255,307,413. *)
Definition make (heap n : N) : reader unit :=
  fun s => if n <=? heap then Ok (tt, s) else Panic.

(** binary/read.go:408-410,418-422 ReadByte: encoding/binary.Read into a byte
    gives io.EOF at the end of input. *)
Definition read_byte : reader N :=
  fun s => match s with [] => Err EEOF | b :: s' => Ok (b, s') end.

(** io.ReadFull, as used by encoding/binary.Read and at binary/read.go:110:
    [n] bytes, or io.EOF (nothing read) / io.ErrUnexpectedEOF. Both are
    [EEOF]: no caller of this function distinguishes them. *)
Definition read_full (n : N) : reader (list N) :=
  fun s => if n <=? N.of_nat (length s)
           then Ok (firstn (N.to_nat n) s, skipn (N.to_nat n) s) else Err EEOF.

(** binary/read.go:412-416 ReadBytes. Its only call asks for 4 bytes, so the
    allocation is not limited. *)
Definition read_bytes (n : N) : reader (list N) := read_full n.

(** binary/read.go:404-406,418-422 ReadUInt16, little endian. *)
Definition read_uint16 : reader N :=
  rlet bs := read_full 2 in
  match bs with
  | [lo; hi] => rret (lo + 256 * hi)
  | _ => rerr EEOF
  end.

(** binary/read.go:424-427 ReadLebU128 *)
Definition read_leb : reader N :=
  fun s => olet (v, _, s') := leb_decode_reader s in Ok (v, s').

(** binary/binary.go:3-6,10-16 *)
Definition magic : list N := [0; 97; 115; 109].
Definition module_version : N := 1.
Definition component_version : N := 10.

(** slices.Equal on byte slices (used at binary/read.go:51) *)
Fixpoint bytes_equal (a b : list N) : bool :=
  match a, b with
  | [], [] => true
  | x :: a', y :: b' => (x =? y) && bytes_equal a' b'
  | _, _ => false
  end.

(** binary/read.go:45-69 ReadPreamble *)
Definition read_preamble : reader preamble :=
  rlet m := read_bytes (N.of_nat (length magic)) in
  if negb (bytes_equal magic m) then rerr EOther else
  rlet version := read_uint16 in
  rlet layer := read_uint16 in
  rret {| p_version := version; p_layer := layer |}.

(** The loops "for i := uint32(0); i < count; i++" at binary/read.go:143-149,
    192-198, 228-234 and 256-262: [count] elements read with [p]. *)
Fixpoint read_times {A} (count : nat) (p : reader A) : reader (list A) :=
  match count with
  | O => rret []
  | S n => rlet a := p in rlet l := read_times n p in rret (a :: l)
  end.

(** A counted vector: the common shape of ReadFuncTypes, ReadValueTypeVector,
    ReadFuncs and ReadExports. The section size argument of the Go functions
    is not used by them. binary/read.go:137-151, 185-200, 220-237, 249-265. *)
Definition read_vec {A} (heap : N) (p : reader A) : reader (list A) :=
  rlet count := read_leb in
  rlet _ := make heap count in
  read_times (N.to_nat count) p.

(** binary/read.go:202-218 ReadValueType; binary/binary.go:25-28 *)
Definition read_valtype : reader valtype :=
  rlet b := read_byte in
  if b =? 127 then rret I32Type
  else if b =? 126 then rret I64Type
  else if b =? 125 then rret F32Type
  else if b =? 124 then rret F64Type
  else rerr EOther.

(** binary/read.go:185-200 ReadValueTypeVector, 175-183 ReadResultType *)
Definition read_valtypes (heap : N) : reader (list valtype) := read_vec heap read_valtype.

(** binary/read.go:153-173 ReadType *)
Definition read_type (heap : N) : reader functype :=
  rlet b := read_byte in
  if negb (b =? 96) then rerr EOther else
  rlet ps := read_valtypes heap in
  rlet rs := read_valtypes heap in
  rret {| ft_params := ps; ft_returns := rs |}.

(** binary/read.go:137-151 ReadFuncTypes *)
Definition read_types (heap : N) : reader (list functype) := read_vec heap (read_type heap).

(** binary/read.go:239-247 ReadFunc *)
Definition read_func : reader func :=
  rlet i := read_leb in rret {| f_type := i; f_locals := []; f_body := None |}.

(** binary/read.go:220-237 ReadFuncs *)
Definition read_funcs (heap : N) : reader (list func) := read_vec heap read_func.

(** binary/read.go:297-314 ReadString. The string is its bytes. *)
Definition read_string (heap : N) : reader (list N) :=
  rlet size := read_leb in
  if size =? 0 then rret [] else
  rlet _ := make heap size in
  read_full size.

(** binary/read.go:267-295 ReadExport; binary/binary.go:32-35 *)
Definition read_export (heap : N) : reader export :=
  rlet name := read_string heap in
  rlet kind := read_byte in
  rlet index := read_leb in
  if kind =? 0 then rret {| ex_name := name; ex_func := index |} else rerr EOther.

(** binary/read.go:249-265 ReadExports *)
Definition read_exports (heap : N) : reader (list export) := read_vec heap (read_export heap).

(** binary/read.go:370-390 ReadInstruction, 392-398 ReadOpCode;
    opcode/opcode.go (End 0x0b, LocalGet 0x20, I32Add 0x6a) *)
Definition read_instr : reader instr :=
  rlet op := read_byte in
  if op =? 11 then rret IEnd
  else if op =? 32 then rlet i := read_leb in rret (ILocalGet i)
  else if op =? 106 then rret II32Add
  else rerr EOther.

(** binary/read.go:316-332 ReadExpression: instructions up to and including
    End. The loop has no bound in the code; [Diverge] when [fuel] runs out
    ([read_expr_total] in L_Binary.v shows it never does with the fuel
    given by [read_expr]). *)
Fixpoint read_expr_loop (fuel : nat) : reader (list instr) :=
  match fuel with
  | O => fun _ => Diverge
  | S f =>
      rlet i := read_instr in
      match i with
      | IEnd => rret [i]
      | _ => rlet l := read_expr_loop f in rret (i :: l)
      end
  end.
Definition read_expr : reader (list instr) := fun s => read_expr_loop (S (length s)) s.

(** binary/read.go:349-365: one entry of the code section. The function size
    is read and ignored. *)
Definition read_code (heap : N) (fn : func) : reader func :=
  rlet _ := read_leb in
  rlet locals := read_valtypes heap in
  rlet body := read_expr in
  rret {| f_type := f_type fn; f_locals := locals; f_body := Some body |}.

(** binary/read.go:341-366: the loop of UpdateFuncsWithCode over the functions
    from the current index on. The functions are updated in place in the
    code; after an error the module is discarded, so only the successful
    result matters. [index < 0] (lines 345-347) never holds. *)
Fixpoint update_funcs (heap : N) (count : nat) (fs : list func) : reader (list func) :=
  match count with
  | O => rret fs
  | S n =>
      match fs with
      | [] => rerr EOther
      | fn :: fs' =>
          rlet fn' := read_code heap fn in
          rlet l := update_funcs heap n fs' in
          rret (fn' :: l)
      end
  end.

(** binary/read.go:334-368 UpdateFuncsWithCode *)
Definition update_funcs_with_code (heap : N) (m : module) : reader module :=
  rlet count := read_leb in
  rlet fs := update_funcs heap (N.to_nat count) (m_funcs m) in
  rret {| m_types := m_types m; m_funcs := fs; m_exports := m_exports m |}.

(** binary/read.go:123-135 ReadSectionHeader *)
Definition read_header : reader (N * N) :=
  rlet id := read_byte in
  rlet size := read_leb in
  rret (id, size).

(** binary/read.go:81-114: the body of one section. *)
Definition read_section (heap : N) (id size : N) (m : module) : reader module :=
  if id =? 1 then
    rlet ts := read_types heap in
    rret {| m_types := ts; m_funcs := m_funcs m; m_exports := m_exports m |}
  else if id =? 3 then
    rlet fs := read_funcs heap in
    rret {| m_types := m_types m; m_funcs := fs; m_exports := m_exports m |}
  else if id =? 10 then update_funcs_with_code heap m
  else if id =? 7 then
    rlet es := read_exports heap in
    rret {| m_types := m_types m; m_funcs := m_funcs m; m_exports := es |}
  else
    rlet _ := make heap size in
    if size =? 0 then rret m else rlet _ := read_full size in rret m.

(** binary/read.go:71-117 ReadModule: sections until ReadSectionHeader fails
    with io.EOF, which only its first byte can (the size's end of input is a
    plain error, leb128/decode.go:18). [Diverge] when [fuel] runs out, which
    it never does with the fuel given by [read_module]. *)
Fixpoint read_sections (heap : N) (fuel : nat) (m : module) : reader module :=
  match fuel with
  | O => fun _ => Diverge
  | S f => fun s =>
      match read_header s with
      | Err EEOF => Ok (m, s)
      | Ok (id, size, s1) =>
          olet (m', s2) := read_section heap id size m s1 in
          read_sections heap f m' s2
      | Err e => Err e
      | Panic => Panic
      | Diverge => Diverge
      end
  end.
Definition read_module (heap : N) : reader module :=
  fun s => read_sections heap (S (length s)) {| m_types := []; m_funcs := []; m_exports := [] |} s.

(** binary/read.go:16-43 Read; 119-121 ReadComponent reads nothing. *)
Definition read (heap : N) : reader document :=
  rlet p := read_preamble in
  if p_version p =? component_version then
    rret {| d_preamble := p; d_directive := DComponent |}
  else if p_version p =? module_version then
    rlet m := read_module heap in
    rret {| d_preamble := p; d_directive := DModule m |}
  else rerr EOther.
