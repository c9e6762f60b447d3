(** Model of package encoding (encoding/codec.go, factory.go, helper.go,
    utf8.go, utf16.go, latin1.go).

    The transcoders themselves live in golang.org/x/text, which is not part of
    the repository. They are modelled by their published behaviour: UTF-8 as in
    Go's unicode/utf8 (ill-formed bytes decode to U+FFFD one byte at a time),
    UTF-16 without byte-order marks (IgnoreBOM; unpaired surrogates and an odd
    last byte decode to U+FFFD), ISO 8859-1 as the identity on 0..255. The
    encoding writer is never closed (codec.go:38-43), so what it holds back
    while it waits for the rest of a UTF-8 sequence is never written ([sent]).
    *)
From Coq Require Import NArith List Bool.
From Verif Require Import GoBase M_State.
Import ListNotations.
Open Scope N_scope.
Open Scope go_scope.

(** utf8.RuneError, what the codecs of encoding/utf8.go:11, utf16.go:14,24 and
    latin1.go:12,21 put for ill-formed input *)
Definition rune_error : N := 65533.

(** Ranges of bytes in unicode/utf8, run by encoding/utf8.go:11 *)
Definition in_range (lo hi b : N) : bool := (lo <=? b) && (b <=? hi).
(** A continuation byte in unicode/utf8, run by encoding/utf8.go:11 *)
Definition cont_byte (b : N) : bool := in_range 128 191 b.

(** unicode/utf8.DecodeRune's table of accepted second bytes, by first byte.
    Run by encoding/utf8.go:11. *)
Definition second_ok (b0 b1 : N) : bool :=
  if b0 =? 224 then in_range 160 191 b1
  else if b0 =? 237 then in_range 128 159 b1
  else if b0 =? 240 then in_range 144 191 b1
  else if b0 =? 244 then in_range 128 143 b1
  else cont_byte b1.

(** First byte of two in unicode/utf8, run by encoding/utf8.go:11 *)
Definition lead2 (b : N) := in_range 194 223 b.
(** First byte of three in unicode/utf8, run by encoding/utf8.go:11 *)
Definition lead3 (b : N) := in_range 224 239 b.
(** First byte of four in unicode/utf8, run by encoding/utf8.go:11 *)
Definition lead4 (b : N) := in_range 240 244 b.

(** The runes of a Go string ("for range" / utf8.DecodeRune). Run by the
    codecs of encoding/utf8.go:11, utf16.go:14,24, latin1.go:12,21 and by the
    loop of abi/io/store.go:252-264. *)
Fixpoint utf8_runes (s : list N) : list N :=
  match s with
  | [] => []
  | b0 :: s1 =>
      if b0 <? 128 then b0 :: utf8_runes s1 else
      match s1 with
      | [] => [rune_error]
      | b1 :: s2 =>
          if lead2 b0 && second_ok b0 b1 then
            (b0 mod 32 * 64 + b1 mod 64) :: utf8_runes s2
          else
            match s2 with
            | [] => rune_error :: utf8_runes s1
            | b2 :: s3 =>
                if lead3 b0 && second_ok b0 b1 && cont_byte b2 then
                  (b0 mod 16 * 4096 + b1 mod 64 * 64 + b2 mod 64) :: utf8_runes s3
                else
                  match s3 with
                  | [] => rune_error :: utf8_runes s1
                  | b3 :: s4 =>
                      if lead4 b0 && second_ok b0 b1 && cont_byte b2 && cont_byte b3 then
                        (b0 mod 8 * 262144 + b1 mod 64 * 4096 + b2 mod 64 * 64 + b3 mod 64)
                          :: utf8_runes s4
                      else rune_error :: utf8_runes s1
                  end
            end
      end
  end.

(** unicode/utf8.EncodeRune. Run by encoding/utf8.go:11 and by the decoders of
    utf16.go:14,24. *)
Definition is_surrogate (r : N) : bool := in_range 55296 57343 r.
(** Three bytes of a rune, run by encoding/utf8.go:11 *)
Definition utf8_rune3 (r : N) : list N :=
  [224 + r / 4096; 128 + r / 64 mod 64; 128 + r mod 64].
(** The bytes of a rune, run by encoding/utf8.go:11 *)
Definition utf8_encode_rune (r : N) : list N :=
  if r <? 128 then [r]
  else if r <? 2048 then [192 + r / 64; 128 + r mod 64]
  else if (1114111 <? r) || is_surrogate r then utf8_rune3 rune_error
  else if r <? 65536 then utf8_rune3 r
  else [240 + r / 262144; 128 + r / 4096 mod 64; 128 + r / 64 mod 64; 128 + r mod 64].
(** The bytes of runes, run by encoding/utf8.go:11 *)
Definition utf8_encode (rs : list N) : list N := flat_map utf8_encode_rune rs.

(** x/text/encoding/unicode utf16Encoder (units, then bytes). Run by
    encoding/utf16.go:14,24. *)
Definition utf16_units (r : N) : list N :=
  if r <? 65536 then [r]
  else [55296 + (r - 65536) / 1024; 56320 + (r - 65536) mod 1024].
(** Bytes of a code unit, run by encoding/utf16.go:14,24 *)
Definition unit_bytes (big : bool) (u : N) : list N :=
  if big then [u / 256; u mod 256] else [u mod 256; u / 256].
(** The whole encoder, run by encoding/utf16.go:14,24 *)
Definition utf16_encode (big : bool) (rs : list N) : list N :=
  flat_map (unit_bytes big) (flat_map utf16_units rs).

(** x/text/encoding/unicode utf16Decoder. Run by encoding/utf16.go:14,24. *)
Fixpoint bytes_units (big : bool) (bs : list N) : list N * bool :=
  match bs with
  | a :: b :: bs' =>
      let (us, odd) := bytes_units big bs' in
      ((if big then a * 256 + b else a + b * 256) :: us, odd)
  | [_] => ([], true)
  | [] => ([], false)
  end.
(** Runes of code units, run by encoding/utf16.go:14,24 *)
Fixpoint units_runes (us : list N) : list N :=
  match us with
  | [] => []
  | u :: us' =>
      if is_surrogate u then
        match us' with
        | v :: us'' =>
            if in_range 56320 57343 v then
              (if in_range 55296 56319 u
               then (u - 55296) * 1024 + (v - 56320) + 65536
               else rune_error) :: units_runes us''
            else rune_error :: units_runes us'
        | [] => [rune_error]
        end
      else u :: units_runes us'
  end.
(** The whole decoder, run by encoding/utf16.go:14,24 *)
Definition utf16_decode (big : bool) (bs : list N) : list N :=
  let (us, odd) := bytes_units big bs in
  (units_runes us ++ if odd then [rune_error] else [])%list.

(** charmap.ISO8859_1.EncodeRune. Run by encoding/latin1.go:12,21 and
    abi/io/store.go:252-264. *)
Definition latin1_ok (r : N) : bool := r <? 256.
(** The whole encoder, run by encoding/latin1.go:12,21 *)
Definition latin1_encode (rs : list N) : outcome (list N) :=
  if forallb latin1_ok rs then Ok rs else Err EOther.

(** What a codec of encoding/factory.go:18-27 transcodes to. *)
Inductive codec := CUtf8 | CUtf16 (big : bool) | CLatin1.

(** encoding/factory.go:41-52 Get/Lookup on the default factory *)
Definition get_codec (e : strenc) : outcome codec :=
  match e with
  | EncUtf8 => Ok CUtf8
  | EncUtf16 | EncUtf16LE => Ok (CUtf16 false)
  | EncUtf16BE => Ok (CUtf16 true)
  | EncLatin1 | EncLatin1Utf16 => Ok CLatin1
  | EncUnknown => Err ENotExist
  end.

(** encoding/codec.go:56-62 Alignment, RuneSize with the values set in
    utf8.go:9-15, utf16.go:13-34, latin1.go:10-25 *)
Definition codec_alignment (c : codec) : N :=
  match c with CUtf8 => 1 | CUtf16 _ => 2 | CLatin1 => 2 end.
Definition codec_rune_size (c : codec) : N :=
  match c with CUtf8 => 1 | CUtf16 _ => 2 | CLatin1 => 1 end.

(** unicode/utf8.FullRune: false when the bytes are the beginning of a longer
    sequence. Used by the transformers of encoding/utf8.go:11, utf16.go:14,24,
    latin1.go:12,21. *)
Definition full_rune (s : list N) : bool :=
  match s with
  | [] => false
  | [b0] => negb (lead2 b0 || lead3 b0 || lead4 b0)
  | [b0; b1] => negb ((lead3 b0 || lead4 b0) && second_ok b0 b1)
  | [b0; b1; b2] => negb (lead4 b0 && second_ok b0 b1 && cont_byte b2)
  | _ => true
  end.

(** encoding/codec.go:38-43 Encode: x/text/transform.Writer gives its
    transformer everything io.Copy writes, with atEOF false. The transformers
    stop with ErrShortSrc before bytes that are not a full rune, and the Writer
    keeps those for its Close, which Encode does not call. Sequences that are
    not full start with a lead byte, so looking at every byte is looking at
    every rune. *)
Fixpoint sent (s : list N) : list N :=
  match s with
  | [] => []
  | b :: s1 => if full_rune s then b :: sent s1 else []
  end.

(** encoding/helper.go:13-20 EncodeString, encoding/codec.go:38-43 Encode *)
Definition encode_string (c : codec) (s : list N) : outcome (list N) :=
  match c with
  | CUtf8 => Ok (utf8_encode (utf8_runes (sent s)))
  | CUtf16 big => Ok (utf16_encode big (utf8_runes (sent s)))
  | CLatin1 => latin1_encode (utf8_runes (sent s))
  end.

(** encoding/helper.go:26-33 DecodeString *)
Definition decode_string (c : codec) (bs : list N) : outcome (list N) :=
  match c with
  | CUtf8 => Ok (utf8_encode (utf8_runes bs))
  | CUtf16 big => Ok (utf8_encode (utf16_decode big bs))
  | CLatin1 => Ok (utf8_encode bs)
  end.
