(** Model of abi/io/load.go, canonicalize.go and code_units.go. *)
From Coq Require Import NArith ZArith List String Bool.
From Verif Require Import GoBase M_Types M_Layout M_State M_Utf.
Import ListNotations.
Open Scope N_scope.
Open Scope go_scope.

(** encoding/binary LittleEndian.UintN. Used at abi/io/load.go:143-155. *)
Fixpoint le_decode (bs : list N) : N :=
  match bs with
  | [] => 0
  | b :: bs' => b + 256 * le_decode bs'
  end.

(** encoding/binary LittleEndian.PutUintN (n bytes). Used at
    abi/io/store.go:116,190-194. *)
Fixpoint le_encode (n : nat) (x : N) : list N :=
  match n with
  | O => []
  | S n' => x mod 256 :: le_encode n' (x / 256)
  end.

(** abi/io/canonicalize.go:9-14, 16-21 on IEEE bit patterns; abi/values/float.go:7,21 *)
Definition is_nan32 (b : N) : bool := (b / 8388608 mod 256 =? 255) && negb (b mod 8388608 =? 0).
Definition is_nan64 (b : N) : bool :=
  (b / 4503599627370496 mod 2048 =? 2047) && negb (b mod 4503599627370496 =? 0).
Definition canonicalize32 (b : N) : N := if is_nan32 b then 2143289344 else b.
Definition canonicalize64 (b : N) : N := if is_nan64 b then 9221120237041090560 else b.

(** abi/io/code_units.go:3-8, 10-15, 17-23 *)
Definition utf16_tag : N := 2147483648.
Record tagged := mkTagged { tcu_units : N; tcu_utf16 : bool }.
Definition u32_to_tagged (i : N) : tagged :=
  mkTagged (N.ldiff i utf16_tag) (negb (N.land i utf16_tag =? 0)).
Definition tagged_to_u32 (t : tagged) : N :=
  if tcu_utf16 t then N.lor (tcu_units t) utf16_tag else tcu_units t.

(** abi/io/load.go:138 (bytes [ptr, ptr+size) of memory, little endian) *)
Definition load_uint (nbytes ptr : N) : M N :=
  let* m := get_mem in
  let* bs := lift_o (mem_slice m ptr (add32 ptr nbytes)) in
  ret (le_decode bs).

(** abi/io/load.go:133-159 LoadInt, for the integer types it is called with *)
Definition load_int (t : valtype) (ptr : N) : M any :=
  match t with
  | TU8 => let* n := load_uint 1 ptr in ret (VU8 n)
  | TU16 => let* n := load_uint 2 ptr in ret (VU16 n)
  | TU32 => let* n := load_uint 4 ptr in ret (VU32 n)
  | TU64 => let* n := load_uint 8 ptr in ret (VU64 n)
  | TS8 => let* n := load_uint 1 ptr in ret (VS8 (to_signed two8 n))
  | TS16 => let* n := load_uint 2 ptr in ret (VS16 (to_signed two16 n))
  | TS32 => let* n := load_uint 4 ptr in ret (VS32 (to_signed two32 n))
  | TS64 => let* n := load_uint 8 ptr in ret (VS64 (to_signed two64 n))
  | _ => lift_o (Err EOther)
  end.

(** abi/io/load.go:161-184 LoadIntWithSize with sign = false, the only way it
    is called. Other sizes leave t nil and Size(nil) fails. *)
Definition load_int_with_size (ptr nbytes : N) : M any :=
  if nbytes =? 0 then ret (VU32 0)
  else if nbytes =? 1 then load_int TU8 ptr
  else if nbytes =? 2 then load_int TU16 ptr
  else if nbytes =? 4 then load_int TU32 ptr
  else if nbytes =? 8 then load_int TU64 ptr
  else lift_o (Err EOther).

(** abi/io/load.go:97-107 LoadBool *)
Definition load_bool (ptr : N) : M any :=
  let* v := load_int TU8 ptr in
  match v with
  | VU8 n => ret (VBool (negb (n =? 0)))
  | _ => lift_o (Err ECast)
  end.

(** abi/io/load.go:109-119 LoadUInt32 *)
Definition load_u32 (ptr : N) : M N :=
  let* v := load_int TU32 ptr in
  match v with VU32 n => ret n | _ => lift_o (Err ECast) end.

(** abi/io/load.go:121-131 LoadUInt64 *)
Definition load_u64 (ptr : N) : M N :=
  let* v := load_int TU64 ptr in
  match v with VU64 n => ret n | _ => lift_o (Err ECast) end.

(** abi/io/load.go:87-95 ConvertU32ToRune *)
Definition u32_to_rune (n : N) : outcome Z :=
  if 1114112 <=? n then Err ETrap
  else if (55296 <=? n) && (n <=? 57343) then Err ETrap
  else Ok (to_signed two32 n).

(** abi/io/load.go:67-85 LoadChar *)
Definition load_char (ptr : N) : M any :=
  let* v := load_int_with_size ptr 4 in
  match v with
  | VU32 n => let* r := lift_o (u32_to_rune n) in ret (VS32 r)
  | _ => lift_o (Err ECast)
  end.

(** abi/io/load.go:186-204 LoadFloat *)
Definition load_f32 (ptr : N) : M any :=
  let* n := load_u32 ptr in ret (VF32 (canonicalize32 n)).
Definition load_f64 (ptr : N) : M any :=
  let* n := load_u64 ptr in ret (VF64 (canonicalize64 n)).

(** The test "ptr == AlignTo(ptr, alignment)" and the test "ptr+size <=
    uint32(Memory.Len())" that several functions perform; [e] is the error
    used on failure. abi/io/load.go:219-299, abi/io/store.go:74-98, 266-440.
    *)
Definition check_aligned (e : goerr) (ptr a : N) : M unit :=
  let* al := lift_o (align_to ptr a) in
  if ptr =? al then ret tt else lift_o (Err e).
(** abi/io/load.go:247,286, abi/io/store.go:93,308,344,371,427 *)
Definition check_bounds (e : goerr) (ptr sz : N) : M unit :=
  let* m := get_mem in
  if mem_len32 m <? add32 ptr sz then lift_o (Err e) else ret tt.

(** abi/io/load.go:219-253 LoadStringFromRange *)
Definition load_string_from_range (cx : callctx) (ptr tcu : N) : M any :=
  let t := u32_to_tagged tcu in
  let enc := match cx_enc cx with
             | EncLatin1Utf16 => if tcu_utf16 t then EncUtf16LE else EncLatin1
             | e => e
             end in
  let* c := lift_o (get_codec enc) in
  let len := mul32 (tcu_units t) (codec_rune_size c) in
  check_aligned ETrap ptr (codec_alignment c) ;;
  check_bounds ETrap ptr len ;;
  let* m := get_mem in
  let* bs := lift_o (mem_slice m ptr (add32 ptr len)) in
  let* s := lift_o (decode_string c bs) in
  ret (VStr s).

(** abi/io/load.go:206-217 LoadString *)
Definition load_string (cx : callctx) (ptr : N) : M any :=
  let* begin := load_u32 ptr in
  let* tcu := load_u32 (add32 ptr 4) in
  load_string_from_range cx begin tcu.

(** abi/io/load.go:289-298, the loop of LoadListFromRange from index i *)
Fixpoint load_elems (n : nat) (ld : N -> M any) (ptr sz i : N) : M (list any) :=
  match n with
  | O => ret []
  | S n' =>
      let* v := ld (add32 ptr (mul32 i sz)) in
      let* vs := load_elems n' ld ptr sz (i + 1) in
      ret (v :: vs)
  end.

(** abi/io/load.go:269-299 LoadListFromRange; [al], [sz], [ld] are Alignment,
    Size and Load on the element type. A nil result slice is the empty list. *)
Definition load_list_from_range (al sz : outcome N) (ld : N -> M any) (ptr len : N) : M any :=
  let* a := lift_o al in
  check_aligned ETrap ptr a ;;
  let* s := lift_o sz in
  check_bounds ETrap ptr (mul32 len s) ;;
  let* vs := load_elems (N.to_nat len) ld ptr s 0 in
  ret (VList vs).

(** abi/io/load.go:255-267 LoadList *)
Definition load_list (al sz : outcome N) (ld : N -> M any) (ptr : N) : M any :=
  let* begin := load_u32 ptr in
  let* len := load_u32 (add32 ptr 4) in
  load_list_from_range al sz ld begin len.

(** What LoadRecord, StoreRecord and the variant functions need to know about
    a component type: Alignment, Size and the operation itself.
    abi/io/load.go:301-383, abi/io/store.go:451-513. *)
Record comp (F : Type) := mkComp { q_al : outcome N; q_sz : outcome N; q_op : F }.
Arguments mkComp {F}. Arguments q_al {F}. Arguments q_sz {F}. Arguments q_op {F}.

(** abi/io/load.go:303-322, the loop of LoadRecord *)
Fixpoint load_fields (fs : list (string * comp (N -> M any))) (ptr : N)
    (acc : list (string * any)) : M (list (string * any)) :=
  match fs with
  | [] => ret acc
  | (l, q) :: fs' =>
      let* a := lift_o (q_al q) in
      let* p := lift_o (align_to ptr a) in
      let* v := q_op q p in
      let* s := lift_o (q_sz q) in
      load_fields fs' (add32 p s) (map_set acc l v)
  end.

(** abi/io/load.go:301-324 LoadRecord *)
Definition load_record (fs : list (string * comp (N -> M any))) (ptr : N) : M any :=
  let* m := load_fields fs ptr [] in
  ret (VMap m).

(** abi/io/load.go:401-408 FindCaseIndex *)
Fixpoint find_case {A} (cs : list (caseOf A)) (l : string) : option (caseOf A) :=
  match cs with
  | [] => None
  | c :: cs' => if String.eqb (c_label c) l then Some c else find_case cs' l
  end.

(** abi/io/load.go:385-399 CaseLabelWithRefinements. The loop visits one case
    per iteration; after more iterations than there are cases some case
    repeats and the loop never ends ([label_loop_fuel] in L_Labels.v). *)
Fixpoint label_loop {A} (fuel : nat) (cs : list (caseOf A)) (c : caseOf A) (label : string)
    : outcome string :=
  match fuel with
  | O => Diverge
  | S f =>
      match c_refines c with
      | None => Ok label
      | Some r =>
          match find_case cs r with
          | None => Ok label
          | Some c' => label_loop f cs c' (label ++ "|" ++ c_label c')
          end
      end
  end.
Definition case_label {A} (c : caseOf A) (cs : list (caseOf A)) : outcome string :=
  label_loop (S (S (List.length cs))) cs c (c_label c).

(** The number LoadInt returned, whatever the integer type (load.go:333-344) *)
Definition case_index_of (v : any) : outcome N :=
  match v with
  | VU8 n | VU16 n | VU32 n => Ok n
  | VU64 n => Ok (u32 n)
  | _ => Panic
  end.

(** abi/io/load.go:327-383 LoadVariant *)
Definition load_variant (cs : list (caseOf (comp (N -> M any)))) (ptr : N) : M any :=
  let* dt := lift_o (discriminant_type (List.length cs)) in
  let* iv := load_int dt ptr in
  let* i := lift_o (case_index_of iv) in
  let p := add32 ptr (scalar_size dt) in
  if u32 (N.of_nat (List.length cs)) <=? i then lift_o (Err ETrap) else
  match nth_error cs (N.to_nat i) with
  | None => lift_o Panic
  | Some c =>
      let* a := lift_o (max_case_alignment (map (map_case q_al) cs)) in
      let* p := lift_o (align_to p a) in
      let* label := lift_o (case_label c cs) in
      let* v := match c_type c with
                | None => ret VNil
                | Some q => q_op q p
                end in
      ret (VMap [(label, v)])
  end.

(** abi/io/load.go:445-452 UnpackFlagsFromInt (also lines 432-442) *)
Fixpoint unpack_flags (i : N) (labels : list string) (acc : list (string * any))
    : list (string * any) :=
  match labels with
  | [] => acc
  | l :: ls => unpack_flags (N.div2 i) ls (map_set acc l (VBool (N.odd i)))
  end.

(** abi/io/load.go:410-443 LoadFlags *)
Definition load_flags (labels : list string) (ptr : N) : M any :=
  let* sz := lift_o (size_flags labels) in
  let* v := load_int_with_size ptr sz in
  let ui := match v with
            | VU8 n | VU16 n | VU32 n | VU64 n => n
            | _ => 0
            end in
  ret (VMap (unpack_flags ui labels [])).

(** A uint32 returned as an any: abi/io/load.go:13-65 *)
Definition ret_u32 (m : M N) : M any := let* n := m in ret (VU32 n).

(** abi/io/load.go:13-65 Load. Despecialize (line 14) is inlined as in
    M_Layout.v; [load_despecialize] in L_Despecialize.v proves it is the same. *)
Fixpoint load (cx : callctx) (t : valtype) : N -> M any :=
  match t with
  | TBool => load_bool
  | TU8 | TU16 | TU32 | TU64 | TS8 | TS16 | TS32 | TS64 => load_int t
  | TF32 => load_f32
  | TF64 => load_f64
  | TChar => load_char
  | TString => load_string cx
  | TList t' => load_list (alignment t') (size t') (load cx t')
  | TRecord fs =>
      load_record (map (fun f => (fst f, mkComp (alignment (snd f)) (size (snd f)) (load cx (snd f)))) fs)
  | TTuple ts =>
      load_record (itoa_fields (map (fun t => mkComp (alignment t) (size t) (load cx t)) ts))
  | TVariant cs =>
      load_variant (map (map_case (fun t => mkComp (alignment t) (size t) (load cx t))) cs)
  | TEnum labels => load_variant (enum_cases labels)
  | TOption t' => load_variant (option_cases (mkComp (alignment t') (size t') (load cx t')))
  | TResult ok err =>
      load_variant (result_cases
        (match ok with Some x => Some (mkComp (alignment x) (size x) (load cx x)) | None => None end)
        (match err with Some x => Some (mkComp (alignment x) (size x) (load cx x)) | None => None end))
  | TUnion ts =>
      load_variant (itoa_cases (map (fun t => mkComp (alignment t) (size t) (load cx t)) ts))
  | TFlags labels => load_flags labels
  | TOwn rt => fun ptr => let* i := load_u32 ptr in ret_u32 (lift_own cx i rt)
  | TBorrow rt => fun ptr => let* i := load_u32 ptr in ret_u32 (lift_borrow cx i rt)
  | TStream _ _ => fun _ => lift_o (Err EOther)
  end.
