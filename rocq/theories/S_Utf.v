(** Specification of the Unicode encoding forms (Unicode standard, 3.9). *)
From Coq Require Import NArith List.
Import ListNotations.
Open Scope N_scope.

(** Unicode scalar values: code points except surrogates. *)
Definition scalar_value (c : N) : Prop := c < 0xD800 \/ (0xDFFF < c /\ c < 0x110000).

(** Table 3-6: UTF-8 bit distribution. *)
Definition sp_utf8 (c : N) : list N :=
  if c <? 0x80 then [c]
  else if c <? 0x800 then [0xC0 + c / 2^6; 0x80 + c mod 2^6]
  else if c <? 0x10000 then [0xE0 + c / 2^12; 0x80 + c / 2^6 mod 2^6; 0x80 + c mod 2^6]
  else [0xF0 + c / 2^18; 0x80 + c / 2^12 mod 2^6; 0x80 + c / 2^6 mod 2^6; 0x80 + c mod 2^6].

(** Table 3-5: UTF-16 bit distribution. *)
Definition sp_utf16 (c : N) : list N :=
  if c <? 0x10000 then [c]
  else [0xD800 + (c - 0x10000) / 2^10; 0xDC00 + (c - 0x10000) mod 2^10].

(** The UTF-8 text of a sequence of scalar values. *)
Definition utf8_text (cs : list N) : list N := flat_map sp_utf8 cs.
