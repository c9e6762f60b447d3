(** Model of the two exported functions of abi/io/store.go that nothing in the
    repository calls: StoreStringCopy and StoreUtf8ToUtf16. *)
From Coq Require Import NArith ZArith List Bool.
From Verif Require Import GoBase M_Types M_Layout M_State M_Utf M_Load M_Store.
Import ListNotations.
Open Scope N_scope.
Open Scope go_scope.

(** abi/types/string.go:4 *)
Definition max_string_byte_length : N := 2147483647.

(** abi/io/store.go:291-321 StoreStringCopy. [units] is srcCodeUnits, [size]
    dstCodeUnitSize; copy() stops at the end of the shorter of the two slices. *)
Definition store_string_copy (cx : callctx) (src : list N) (units size align : N) (c : codec) : M (N * N) :=
  let len := mul32 size units in
  if max_string_byte_length <? len then lift_o (Err ETrap) else
  let* ptr := realloc cx 0 0 align len in
  check_aligned ETrap ptr align ;;
  check_bounds ETrap ptr len ;;
  let* enc := lift_o (encode_string c src) in
  store_bytes ptr len (firstn (N.to_nat len) enc) ;;
  ret (ptr, units).

(** abi/io/store.go:323-378 StoreUtf8ToUtf16. The second bounds check (line
    370) is on the end of the first block. *)
Definition store_utf8_to_utf16 (cx : callctx) (src : list N) (units : N) : M (N * N) :=
  let worst := mul32 2 units in
  if max_string_byte_length <? worst then lift_o (Err ETrap) else
  let* ptr := realloc cx 0 0 2 worst in
  check_aligned ETrap ptr 2 ;;
  check_bounds ETrap ptr worst ;;
  let* enc := lift_o (encode_string (CUtf16 false) src) in
  let n := u32 (N.of_nat (List.length enc)) in
  let hi := add32 ptr n in
  store_bytes ptr n (firstn (N.to_nat n) enc) ;;
  let* ptr := if N.of_nat (List.length enc) <? worst then
                let* ptr := realloc cx ptr worst 2 n in
                check_aligned ETrap ptr 2 ;;
                let* m := get_mem in
                if mem_len32 m <? hi then lift_o (Err ETrap) else ret ptr
              else ret ptr in
  ret (ptr, u32 (N.of_nat (List.length enc) / 2)).
