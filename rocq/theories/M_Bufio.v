(** Model of leb128/encode.go Encode and leb128/decode.go Decode on the
    bufio.Writer and the bufio.Reader of the Go standard library, over any
    io.Writer and any io.Reader. [leb_encode] and [leb_decode] of M_Leb128.v
    are the same functions on bytes at hand. *)
From Coq Require Import Arith NArith List Bool.
From Verif Require Import GoBase M_Leb128 M_Stream.
Import ListNotations.
Open Scope N_scope.

(** ** bufio.Writer (standard library, bufio/bufio.go) *)

(** What the io.Writer answers to the bytes of a Write, which may depend on
    the number of calls before: how many it took, and an error. The writer
    given to leb128/encode.go:5. *)
Definition sink : Type := nat -> list N -> nat * option goerr.

(** bufio.Writer: the size of its buffer, the bytes in it, the error it keeps;
    and, of the io.Writer, the number of calls so far and the bytes it took.
    Used at leb128/encode.go:5-23. *)
Record bufwriter := mkWriter { bw_size : nat; bw_buf : list N; bw_err : option goerr; bw_calls : nat; bw_taken : list N }.

(** bufio.NewWriterSize, for a size above 0. Made by the callers of
    leb128/encode.go:5. *)
Definition new_writer (size : nat) : bufwriter := mkWriter size [] None 0 [].

(** bufio.Writer.Flush. io.ErrShortWrite is [EOther]. Called when the buffer
    is full, at leb128/encode.go:5-23. *)
Definition flush (to : sink) (w : bufwriter) : outcome unit * bufwriter :=
  match bw_err w with
  | Some e => (Err e, w)
  | None =>
      match bw_buf w with
      | [] => (Ok tt, w)
      | buf =>
          let (n, err) := to (bw_calls w) buf in
          let err := if (n <? length buf)%nat then match err with None => Some EOther | e => e end else err in
          match err with
          | Some e => (Err e, mkWriter (bw_size w) (skipn n buf) (Some e) (S (bw_calls w)) (bw_taken w ++ firstn n buf))
          | None => (Ok tt, mkWriter (bw_size w) [] None (S (bw_calls w)) (bw_taken w ++ buf))
          end
      end
  end.

(** bufio.Writer.WriteByte. Writing into a full buffer after a successful
    Flush (a buffer of size 0) is an index out of range. Called at
    leb128/encode.go:5-23. *)
Definition write_byte (to : sink) (w : bufwriter) (b : N) : outcome unit * bufwriter :=
  match bw_err w with
  | Some e => (Err e, w)
  | None =>
      let (r, w) := if (bw_size w - length (bw_buf w) =? 0)%nat then flush to w else (Ok tt, w) in
      match r with
      | Ok _ =>
          if (length (bw_buf w) <? bw_size w)%nat
          then (Ok tt, mkWriter (bw_size w) (bw_buf w ++ [b]) (bw_err w) (bw_calls w) (bw_taken w))
          else (Panic, w)
      | Err e => (Err e, w)
      | Panic => (Panic, w)
      | Diverge => (Diverge, w)
      end
  end.

(** leb128/encode.go:5-23 Encode: the number of bytes. The loop runs at most
    five times for a uint32. *)
Fixpoint encode_loop (to : sink) (fuel : nat) (total value : N) (w : bufwriter) : outcome N * bufwriter :=
  match fuel with
  | O => (Diverge, w)
  | S f =>
      let b := N.land value 127 in
      let value := N.shiftr value 7 in
      let b := if value =? 0 then b else N.lor b 128 in
      match write_byte to w b with
      | (Ok _, w) => if value =? 0 then (Ok (total + 1), w) else encode_loop to f (total + 1) value w
      | (Err e, w) => (Err e, w)
      | (Panic, w) => (Panic, w)
      | (Diverge, w) => (Diverge, w)
      end
  end.
Definition Encode (to : sink) (value : N) (w : bufwriter) : outcome N * bufwriter := encode_loop to 5 0 value w.

(** ** bufio.Reader (standard library, bufio/bufio.go) *)

(** bufio.Reader: the size of its buffer, the bytes in it not yet read, the
    error it keeps, the io.Reader. Used at leb128/decode.go:34-51. *)
Record bufreader := mkReader { br_size : nat; br_buf : list N; br_err : option goerr; br_from : stream }.

(** bufio.NewReaderSize. Made by the callers of leb128/decode.go:34. *)
Definition new_reader (size : nat) (st : stream) : bufreader := mkReader size [] None st.

(** bufio.Reader.fill of an empty buffer: at most [tries] reads that give
    nothing. io.ErrNoProgress is [EOther]. Called by ReadByte,
    leb128/decode.go:34-51. *)
Fixpoint fill (tries : nat) (r : bufreader) : bufreader :=
  match tries with
  | O => mkReader (br_size r) [] (Some EOther) (br_from r)
  | S t =>
      match st_read (br_size r) (br_from r) with
      | (bs, Some e, st) => mkReader (br_size r) bs (Some e) st
      | ([], None, st) => fill t (mkReader (br_size r) [] None st)
      | (bs, None, st) => mkReader (br_size r) bs None st
      end
  end.

(** bufio.maxConsecutiveEmptyReads. Used by ReadByte, leb128/decode.go:34-51.
    *)
Definition empty_reads : nat := 100.

(** bufio.Reader.ReadByte: after a fill there is a byte or an error. An error
    is reported once (readErr). Called at leb128/decode.go:34-51. *)
Definition read_byte (r : bufreader) : outcome N * bufreader :=
  let take (r : bufreader) :=
    match br_buf r with
    | b :: buf => Some (Ok b, mkReader (br_size r) buf (br_err r) (br_from r))
    | [] => match br_err r with
            | Some e => Some (Err e, mkReader (br_size r) [] None (br_from r))
            | None => None
            end
    end in
  match take r with
  | Some x => x
  | None => match take (fill empty_reads r) with Some x => x | None => (Diverge, r) end
  end.

(** leb128/decode.go:34-51 Decode: (value, bytes read). Every round takes a
    byte, so there is fuel for one more round than there are bytes. *)
Fixpoint decode_loop (fuel : nat) (val shift total : N) (r : bufreader) : outcome (N * N) * bufreader :=
  match fuel with
  | O => (Diverge, r)
  | S f =>
      match read_byte r with
      | (Ok b, r) =>
          let val := N.lor val (leb_group b shift) in
          if N.land b 128 =? 0 then (Ok (val, total + 1), r) else decode_loop f val (shift + 7) (total + 1) r
      | (Err e, r) => (Err e, r)
      | (Panic, r) => (Panic, r)
      | (Diverge, r) => (Diverge, r)
      end
  end.
Definition Decode (r : bufreader) : outcome (N * N) * bufreader :=
  decode_loop (S (length (br_buf r ++ concat (st_pieces (br_from r))))) 0 0 0 r.
