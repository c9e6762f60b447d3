(** Specification: the bytes of a text in UTF-16. *)
From Coq Require Import NArith List.
From Verif Require Import S_Utf.
Import ListNotations.
Open Scope N_scope.

(** Two bytes for each code unit, the high one first if [big]. *)
Definition utf16_text (big : bool) (cs : list N) : list N :=
  flat_map (fun u => if big then [u / 256; u mod 256] else [u mod 256; u / 256]) (flat_map sp_utf16 cs).
