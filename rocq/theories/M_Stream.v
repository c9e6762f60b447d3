(** Model of leb128/decode.go DecodeReader, binary/read.go and wat/decoder.go
    on an io.Reader that delivers its bytes in pieces and ends with an error
    of its own, io.EOF or another. [M_Leb128], [M_Binary] and [M_WatDecoder]
    are the same functions on a reader that has all bytes at hand. *)
From Coq Require Import Arith Ascii NArith List Bool.
From Verif Require Import GoBase M_Leb128 M_Api M_Binary M_Text M_WatDecoder.
Import ListNotations.
Open Scope N_scope.
Open Scope go_scope.

(** An io.Reader. [st_pieces] are what the next calls of Read deliver, if the
    buffer is large enough; an empty piece is a call that returns (0, nil).
    After the last piece Read returns (0, [st_final]). When [st_together], the
    last piece is already returned together with [st_final], as the io.Reader
    contract allows. The argument of binary/read.go:16, leb128/decode.go:9 and
    wat/decoder.go:27. *)
Record stream := mkStream { st_pieces : list (list N); st_final : goerr; st_together : bool }.

(** Read(p) with len(p) = [k]: the bytes read, the error, the reader after.
    Called through io.ReadFull and binary.Read:
    binary/read.go:110,308,414,420. *)
Definition st_read (k : nat) (st : stream) : list N * option goerr * stream :=
  match st_pieces st with
  | [] => ([], Some (st_final st), st)
  | c :: cs =>
      if Nat.leb (length c) k
      then (c, match cs with [] => if st_together st then Some (st_final st) else None | _ => None end,
            mkStream cs (st_final st) (st_together st))
      else (firstn k c, None, mkStream (skipn k c :: cs) (st_final st) (st_together st))
  end.

(** The number of calls of Read after which the pieces are used up, reading
    one byte at a time. Fuel for io.ReadFull at binary/read.go:110. *)
Definition st_calls (st : stream) : nat := (length (concat (st_pieces st)) + length (st_pieces st))%nat.

(** The functions of binary/read.go:16-427 *)
Definition sreader (A : Type) : Type := stream -> outcome (A * stream).
(** "return x, nil" (binary/read.go:42, for one) *)
Definition sret {A} (a : A) : sreader A := fun st => Ok (a, st).
(** "return x, err" (binary/read.go:19, for one) *)
Definition serr {A} (e : goerr) : sreader A := fun _ => Err e.
(** The shape "if err != nil { return err }" of binary/read.go:16-427 *)
Definition sbind {A B} (p : sreader A) (f : A -> sreader B) : sreader B :=
  fun st => match p st with Ok (a, st') => f a st' | Err e => Err e | Panic => Panic | Diverge => Diverge end.
Declare Scope sreader_scope.
Notation "'slet' x ':=' e 'in' f" := (sbind e (fun x => f))
  (at level 200, x pattern, e at level 100, f at level 200, right associativity) : sreader_scope.
Open Scope sreader_scope.

(** make, as in [M_Binary.make]. binary/read.go:108,142,191,227,255,307,413.
    *)
Definition smake (heap n : N) : sreader unit :=
  fun st => if n <=? heap then Ok (tt, st) else Panic.

(** io.ReadAtLeast as called by io.ReadFull: reads until the buffer is full or
    Read returns an error. The error is dropped when the buffer is full.
    io.ErrUnexpectedEOF is [EEOF], as in [M_Binary.read_full]. Called at
    binary/read.go:110. *)
Fixpoint read_at_least (fuel n : nat) (got : list N) (st : stream) : outcome (list N * stream) :=
  if Nat.eqb n 0 then Ok (got, st) else
  match fuel with
  | O => Diverge
  | S f =>
      match st_read n st with
      | (bs, None, st') => read_at_least f (n - length bs) (got ++ bs)%list st'
      | (bs, Some e, st') => if Nat.eqb (n - length bs) 0 then Ok ((got ++ bs)%list, st') else Err e
      end
  end.
(** io.ReadFull at binary/read.go:110 and inside encoding/binary.Read,
    binary/read.go:418-422 *)
Definition sfull (n : N) : sreader (list N) := fun st => read_at_least (S (st_calls st)) (N.to_nat n) [] st.

(** binary/read.go:408-410,418-422 ReadByte *)
Definition sbyte : sreader N :=
  slet bs := sfull 1 in
  match bs with [b] => sret b | _ => serr EEOF end.

(** binary/read.go:404-406,418-422 ReadUInt16, little endian *)
Definition suint16 : sreader N :=
  slet bs := sfull 2 in
  match bs with [lo; hi] => sret (lo + 256 * hi) | _ => serr EEOF end.

(** leb128/decode.go:9-32 DecodeReader: a call that reads nothing is a plain
    error whatever else it returns, then an error of Read counts even when a
    byte came with it. *)
Fixpoint sleb_aux (fuel : nat) (val shift total : N) (st : stream) : outcome (N * N * stream) :=
  match fuel with
  | O => Diverge
  | S f =>
      match st_read 1 st with
      | ([], _, _) => Err EOther
      | (_, Some e, _) => Err e
      | (b :: _, None, st') =>
          let val := N.lor val (leb_group b shift) in
          if N.land b 128 =? 0 then Ok (val, total + 1, st') else sleb_aux f val (shift + 7) (total + 1) st'
      end
  end.
Definition sleb_decode (st : stream) : outcome (N * N * stream) := sleb_aux (S (st_calls st)) 0 0 0 st.

(** binary/read.go:424-427 ReadLebU128 *)
Definition sleb : sreader N :=
  fun st => match sleb_decode st with Ok (v, _, st') => Ok (v, st') | Err e => Err e | Panic => Panic | Diverge => Diverge end.

(** binary/read.go:45-69 ReadPreamble *)
Definition spreamble : sreader preamble :=
  slet m := sfull (N.of_nat (length magic)) in
  if negb (bytes_equal magic m) then serr EOther else
  slet version := suint16 in
  slet layer := suint16 in
  sret {| p_version := version; p_layer := layer |}.

(** The loops at binary/read.go:143-149, 192-198, 228-234 and 256-262 *)
Fixpoint stimes {A} (count : nat) (p : sreader A) : sreader (list A) :=
  match count with
  | O => sret []
  | S n => slet a := p in slet l := stimes n p in sret (a :: l)
  end.
Definition svec {A} (heap : N) (p : sreader A) : sreader (list A) :=
  slet count := sleb in
  slet _ := smake heap count in
  stimes (N.to_nat count) p.

(** binary/read.go:202-218 ReadValueType *)
Definition svaltype : sreader valtype :=
  slet b := sbyte in
  if b =? 127 then sret I32Type
  else if b =? 126 then sret I64Type
  else if b =? 125 then sret F32Type
  else if b =? 124 then sret F64Type
  else serr EOther.

(** binary/read.go:185-200 ReadValueTypeVector, 175-183 ReadResultType *)
Definition svaltypes (heap : N) : sreader (list valtype) := svec heap svaltype.

(** binary/read.go:153-173 ReadType *)
Definition stype (heap : N) : sreader functype :=
  slet b := sbyte in
  if negb (b =? 96) then serr EOther else
  slet ps := svaltypes heap in
  slet rs := svaltypes heap in
  sret {| ft_params := ps; ft_returns := rs |}.

(** binary/read.go:137-151 ReadFuncTypes *)
Definition stypes (heap : N) : sreader (list functype) := svec heap (stype heap).

(** binary/read.go:239-247 ReadFunc *)
Definition sfunc : sreader func :=
  slet i := sleb in sret {| f_type := i; f_locals := []; f_body := None |}.

(** binary/read.go:220-237 ReadFuncs *)
Definition sfuncs (heap : N) : sreader (list func) := svec heap sfunc.

(** binary/read.go:297-314 ReadString *)
Definition sstring (heap : N) : sreader (list N) :=
  slet size := sleb in
  if size =? 0 then sret [] else
  slet _ := smake heap size in
  sfull size.

(** binary/read.go:267-295 ReadExport *)
Definition sexport (heap : N) : sreader export :=
  slet name := sstring heap in
  slet kind := sbyte in
  slet index := sleb in
  if kind =? 0 then sret {| ex_name := name; ex_func := index |} else serr EOther.

(** binary/read.go:249-265 ReadExports *)
Definition sexports (heap : N) : sreader (list export) := svec heap (sexport heap).

(** binary/read.go:370-390 ReadInstruction, 392-398 ReadOpCode *)
Definition sinstr : sreader instr :=
  slet op := sbyte in
  if op =? 11 then sret IEnd
  else if op =? 32 then slet i := sleb in sret (ILocalGet i)
  else if op =? 106 then sret II32Add
  else serr EOther.

(** binary/read.go:316-332 ReadExpression; every instruction takes a byte. *)
Fixpoint sexpr_loop (fuel : nat) : sreader (list instr) :=
  match fuel with
  | O => fun _ => Diverge
  | S f =>
      slet i := sinstr in
      match i with
      | IEnd => sret [i]
      | _ => slet l := sexpr_loop f in sret (i :: l)
      end
  end.
Definition sexpr : sreader (list instr) := fun st => sexpr_loop (S (length (concat (st_pieces st)))) st.

(** binary/read.go:349-365: one entry of the code section *)
Definition scode (heap : N) (fn : func) : sreader func :=
  slet _ := sleb in
  slet locals := svaltypes heap in
  slet body := sexpr in
  sret {| f_type := f_type fn; f_locals := locals; f_body := Some body |}.

(** binary/read.go:341-366: the loop of UpdateFuncsWithCode *)
Fixpoint supdate_funcs (heap : N) (count : nat) (fs : list func) : sreader (list func) :=
  match count with
  | O => sret fs
  | S n =>
      match fs with
      | [] => serr EOther
      | fn :: fs' =>
          slet fn' := scode heap fn in
          slet l := supdate_funcs heap n fs' in
          sret (fn' :: l)
      end
  end.

(** binary/read.go:334-368 UpdateFuncsWithCode *)
Definition supdate_with_code (heap : N) (m : module) : sreader module :=
  slet count := sleb in
  slet fs := supdate_funcs heap (N.to_nat count) (m_funcs m) in
  sret {| m_types := m_types m; m_funcs := fs; m_exports := m_exports m |}.

(** binary/read.go:123-135 ReadSectionHeader *)
Definition sheader : sreader (N * N) :=
  slet id := sbyte in
  slet size := sleb in
  sret (id, size).

(** binary/read.go:81-114: the body of one section *)
Definition ssection (heap : N) (id size : N) (m : module) : sreader module :=
  if id =? 1 then
    slet ts := stypes heap in
    sret {| m_types := ts; m_funcs := m_funcs m; m_exports := m_exports m |}
  else if id =? 3 then
    slet fs := sfuncs heap in
    sret {| m_types := m_types m; m_funcs := fs; m_exports := m_exports m |}
  else if id =? 10 then supdate_with_code heap m
  else if id =? 7 then
    slet es := sexports heap in
    sret {| m_types := m_types m; m_funcs := m_funcs m; m_exports := es |}
  else
    slet _ := smake heap size in
    if size =? 0 then sret m else slet _ := sfull size in sret m.

(** binary/read.go:71-117 ReadModule: sections until ReadSectionHeader fails
    with io.EOF. On a stream the size too can fail with io.EOF. The reader
    after that failure is not looked at again. *)
Fixpoint ssections (heap : N) (fuel : nat) (m : module) (st : stream) : outcome module :=
  match fuel with
  | O => Diverge
  | S f =>
      match sheader st with
      | Err EEOF => Ok m
      | Ok (id, size, st1) =>
          match ssection heap id size m st1 with
          | Ok (m', st2) => ssections heap f m' st2
          | Err e => Err e
          | Panic => Panic
          | Diverge => Diverge
          end
      | Err e => Err e
      | Panic => Panic
      | Diverge => Diverge
      end
  end.
Definition smodule (heap : N) (st : stream) : outcome module :=
  ssections heap (S (length (concat (st_pieces st)))) {| m_types := []; m_funcs := []; m_exports := [] |} st.

(** binary/read.go:16-43 Read *)
Definition sread (heap : N) (st : stream) : outcome document :=
  match spreamble st with
  | Ok (p, st1) =>
      if p_version p =? component_version then Ok {| d_preamble := p; d_directive := DComponent |}
      else if p_version p =? module_version then
        match smodule heap st1 with
        | Ok m => Ok {| d_preamble := p; d_directive := DModule m |}
        | Err e => Err e
        | Panic => Panic
        | Diverge => Diverge
        end
      else Err EOther
  | Err e => Err e
  | Panic => Panic
  | Diverge => Diverge
  end.

(** io.ReadAll, called at wat/decoder.go:28: reads until Read returns an error
    and returns what came before it, also what came with it; io.EOF is not
    reported. [room] is the free space of its buffer at each call, at least
    one byte (the buffer grows when it is full). *)
Fixpoint read_all (fuel : nat) (room : nat -> nat) (got : list N) (st : stream) : outcome (list N) :=
  match fuel with
  | O => Diverge
  | S f =>
      match st_read (S (room f)) st with
      | (bs, None, st') => read_all f room (got ++ bs)%list st'
      | (bs, Some EEOF, _) => Ok (got ++ bs)%list
      | (_, Some e, _) => Err e
      end
  end.

(** wat/decoder.go:27-38 Decode *)
Definition sdecode (pf : text -> option N) (swap : bool) (room : nat -> nat) (st : stream) : outcome decoded :=
  decode pf swap (olet bs := read_all (S (st_calls st)) room [] st in Ok (map Ascii.ascii_of_N bs)).
