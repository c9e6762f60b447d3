(** Model of leb128/encode.go and leb128/decode.go. Bytes are [N] below 256. *)
From Coq Require Import NArith List.
From Verif Require Import GoBase.
Import ListNotations.
Open Scope N_scope.

(** leb128/encode.go:5-23 Encode: the bytes written. The loop runs at most
    five times for a uint32, so five iterations of fuel suffice
    ([leb_encode_fuel] in L_Leb128.v shows more fuel changes nothing). The
    errors of the underlying writer are modelled in M_Bufio.v. *)
Fixpoint leb_encode_aux (fuel : nat) (value : N) : list N :=
  match fuel with
  | O => []
  | S f =>
      let b := N.land value 127 in
      let value := N.shiftr value 7 in
      if value =? 0 then [b]
      else N.lor b 128 :: leb_encode_aux f value
  end.
Definition leb_encode (value : N) : list N := leb_encode_aux 5 value.

(** uint32(b & 0x7f) << shift, on uint32. leb128/decode.go:9-67. *)
Definition leb_group (b shift : N) : N := u32 (N.shiftl (N.land b 127) shift).

(** leb128/decode.go:53-67 DecodeSlice: (value, bytes read). Never an error. *)
Fixpoint leb_decode_slice_aux (val shift total : N) (s : list N) : N * N :=
  match s with
  | [] => (val, total)
  | b :: s' =>
      let val := N.lor val (leb_group b shift) in
      if N.land b 128 =? 0 then (val, total + 1)
      else leb_decode_slice_aux val (shift + 7) (total + 1) s'
  end.
Definition leb_decode_slice (s : list N) : outcome (N * N) :=
  Ok (leb_decode_slice_aux 0 0 0 s).

(** leb128/decode.go:9-32 DecodeReader on a reader that yields the bytes of
    [s] one at a time and then (0, io.EOF): (value, total, rest). End of input
    is reported as a plain error, not io.EOF (line 18). *)
Fixpoint leb_decode_reader_aux (val shift total : N) (s : list N) : outcome (N * N * list N) :=
  match s with
  | [] => Err EOther
  | b :: s' =>
      let val := N.lor val (leb_group b shift) in
      if N.land b 128 =? 0 then Ok (val, total + 1, s')
      else leb_decode_reader_aux val (shift + 7) (total + 1) s'
  end.
Definition leb_decode_reader (s : list N) : outcome (N * N * list N) :=
  leb_decode_reader_aux 0 0 0 s.

(** leb128/decode.go:34-51 Decode (bufio.Reader): as above but end of input
    is the error of ReadByte, io.EOF. *)
Fixpoint leb_decode_aux (val shift total : N) (s : list N) : outcome (N * N * list N) :=
  match s with
  | [] => Err EEOF
  | b :: s' =>
      let val := N.lor val (leb_group b shift) in
      if N.land b 128 =? 0 then Ok (val, total + 1, s')
      else leb_decode_aux val (shift + 7) (total + 1) s'
  end.
Definition leb_decode (s : list N) : outcome (N * N * list N) := leb_decode_aux 0 0 0 s.
