(** Properties C01, C02, C03. *)
From Coq Require Import NArith List.
From Verif Require Import GoBase M_Leb128 S_Leb128 L_Leb128.
Import ListNotations.
Open Scope N_scope.

(** C01. Encode then decode, with any bytes following, gives the value back
    and consumes exactly the encoder's bytes; the three decoders agree. *)
Theorem leb128_round_trip : forall v rest, v < 2 ^ 32 ->
  leb_decode_slice (leb_encode v ++ rest) = Ok (v, N.of_nat (length (leb_encode v))) /\
  leb_decode_reader (leb_encode v ++ rest) = Ok (v, N.of_nat (length (leb_encode v)), rest) /\
  leb_decode (leb_encode v ++ rest) = Ok (v, N.of_nat (length (leb_encode v)), rest).
Proof. exact leb_round_trip. Qed.
Print Assumptions leb128_round_trip.

Example leb128_round_trip_ex :
  624485 < 2 ^ 32 /\ leb_encode 624485 = [229; 142; 38] /\
  leb_decode_reader [229; 142; 38; 7] = Ok (624485, 3, [7]).
Proof. vm_compute. auto. Qed.

(** C02. The encoding is in LEB128 form, denotes the value, has 1 to 5 bytes
    and no LEB128 form of the value is shorter. *)
Theorem leb128_encode_minimal : forall v, v < 2 ^ 32 ->
  leb_form (leb_encode v) /\ leb_value (leb_encode v) = v /\
  (1 <= length (leb_encode v) <= 5)%nat /\
  (forall bs, leb_form bs -> leb_value bs = v -> (length (leb_encode v) <= length bs)%nat).
Proof.
  exact (fun v H => conj (proj1 (encode_form v H)) (conj (proj2 (encode_form v H))
    (conj (encode_length v H) (fun bs => encode_minimal v bs H)))).
Qed.
Print Assumptions leb128_encode_minimal.

Example leb128_encode_minimal_ex :
  leb_encode (2 ^ 32 - 1) = [255; 255; 255; 255; 15] /\
  leb_form [229; 142; 166; 0] /\ leb_value [229; 142; 166; 0] = 624485.
Proof. vm_compute. repeat split; try discriminate; repeat constructor; discriminate. Qed.

(** C02. No encoding is a prefix of another value's encoding. *)
Theorem leb128_encode_prefix_free : forall v w x y, v < 2 ^ 32 -> w < 2 ^ 32 ->
  leb_encode v ++ x = leb_encode w ++ y -> v = w /\ x = y.
Proof. exact encode_prefix_free. Qed.
Print Assumptions leb128_encode_prefix_free.

(** C03. On any byte string starting with a LEB128 form, all decoders return
    the denoted value modulo 2^32, the number of bytes of the form, and (for
    the readers) leave precisely the rest. *)
Theorem leb128_decode_value : forall bs rest, leb_form bs ->
  leb_decode_slice (bs ++ rest) = Ok (leb_value bs mod 2 ^ 32, N.of_nat (length bs)) /\
  leb_decode_reader (bs ++ rest) = Ok (leb_value bs mod 2 ^ 32, N.of_nat (length bs), rest) /\
  leb_decode (bs ++ rest) = Ok (leb_value bs mod 2 ^ 32, N.of_nat (length bs), rest).
Proof. exact decode_value. Qed.
Print Assumptions leb128_decode_value.

Example leb128_decode_value_ex : leb_form [128; 129; 1] /\ leb_value [128; 129; 1] = 16512.
Proof. split; [|reflexivity]. repeat constructor; discriminate. Qed.

(** C03. A byte string that is not of that shape has no final byte, and then
    both reader decoders fail. *)
Theorem leb128_decode_truncated : forall bs, Forall (fun b => b < 256) bs ->
  (exists e rest, leb_form e /\ bs = e ++ rest) \/
  (leb_decode_reader bs = Err EOther /\ leb_decode bs = Err EEOF).
Proof.
  exact (fun bs H => match leb_split bs H with
    | or_introl x => or_introl x
    | or_intror a => or_intror (conj (decode_reader_truncated bs a) (decode_truncated bs a)) end).
Qed.
Print Assumptions leb128_decode_truncated.

(** C03, parts that fail. The slice decoder reports success on truncated (even
    empty) input; all decoders accept values that do not fit in 32 bits and
    encodings that are longer than five bytes. *)
Theorem leb128_decode_slice_truncated_refuted :
  exists bs, Forall more_byte bs /\ exists r, leb_decode_slice bs = Ok r.
Proof. exists [128; 128]. split; [repeat constructor; discriminate|]. eexists; reflexivity. Qed.
Print Assumptions leb128_decode_slice_truncated_refuted.

Theorem leb128_decode_overflow_refuted :
  exists bs v, leb_form bs /\ 2 ^ 32 <= leb_value bs /\
    leb_decode_reader bs = Ok (v, N.of_nat (length bs), []).
Proof.
  exists [255; 255; 255; 255; 127], (2 ^ 32 - 1).
  split; [repeat constructor; discriminate|]. split; [discriminate|reflexivity].
Qed.
Print Assumptions leb128_decode_overflow_refuted.

Theorem leb128_decode_overlong_refuted :
  exists bs, leb_form bs /\ (5 < length bs)%nat /\ exists r, leb_decode_reader bs = Ok r.
Proof.
  exists [128; 128; 128; 128; 128; 128; 0].
  split; [repeat constructor; discriminate|]. split; [cbn; repeat constructor|eexists; reflexivity].
Qed.
Print Assumptions leb128_decode_overlong_refuted.
