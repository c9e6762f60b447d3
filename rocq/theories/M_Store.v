(** Model of abi/io/store.go (without StoreStringCopy and StoreUtf8ToUtf16,
    lines 291-378, which nothing calls) and of MatchCase (abi/io/lower.go). *)
From Coq Require Import NArith ZArith List String Bool Ascii.
From Verif Require Import GoBase M_Types M_Layout M_State M_Utf M_Load.
Import ListNotations.
Open Scope N_scope.
Open Scope go_scope.

(** abi/io/store.go:74-98 StoreValidate; [al], [sz] are Alignment and Size *)
Definition store_validate (al sz : outcome N) (ptr : N) : M unit :=
  let* a := lift_o al in
  check_aligned EOther ptr a ;;
  let* s := lift_o sz in
  check_bounds EOther ptr s.

(** Memory.Bytes()[ptr:ptr+nbytes] followed by writing [bs] at its start.
    abi/io/store.go:115-116,185-194. *)
Definition store_bytes (ptr nbytes : N) (bs : list N) : M unit :=
  let* m := get_mem in
  let* _ := lift_o (mem_slice m ptr (add32 ptr nbytes)) in
  put_mem (mem_write m ptr bs).

(** abi/io/store.go:114-118 StoreUInt32 *)
Definition store_u32 (val ptr : N) : M unit := store_bytes ptr 4 (le_encode 4 val).

(** abi/io/store.go:120-162: u64, max, min and sign by dynamic type. A value of
    any other type leaves all of them zero. *)
Record intinfo := mkInt { n_u64 : N; n_max : N; n_min : Z; n_sign : bool }.
Definition int_info (v : any) : outcome intinfo :=
  match v with
  | VU8 n => Ok (mkInt n 255 0 false)
  | VU16 n => Ok (mkInt n 65535 0 false)
  | VU32 n => Ok (mkInt n 4294967295 0 false)
  | VU64 n => Ok (mkInt n 18446744073709551615 0 false)
  | VS8 z => Ok (mkInt (of_signed two64 z) 127 (-128) true)
  | VS16 z => Ok (mkInt (of_signed two64 z) 32767 (-32768) true)
  | VS32 z => Ok (mkInt (of_signed two64 z) 2147483647 (-2147483648) true)
  | VS64 z => Ok (mkInt (of_signed two64 z) 9223372036854775807 (-9223372036854775808) true)
  | VInt _ | VUint _ => Err EOther
  | _ => Ok (mkInt 0 0 0 false)
  end.

(** abi/io/store.go:164-183, the sign and range checks *)
Definition int_check (i : intinfo) (signed : bool) : outcome unit :=
  if negb (Bool.eqb (n_sign i) signed) then Err EOther
  else if negb signed && (n_max i <? n_u64 i) then Err EOther
  else if signed && ((to_signed two64 (n_max i) <? to_signed two64 (n_u64 i))%Z
                     || (to_signed two64 (n_u64 i) <? n_min i)%Z) then Err EOther
  else Ok tt.

(** abi/io/store.go:186-195: what is written, by size *)
Definition int_bytes (nbytes x : N) : list N :=
  if nbytes =? 1 then le_encode 1 x
  else if nbytes =? 2 then le_encode 2 x
  else if nbytes =? 4 then le_encode 4 x
  else if nbytes =? 8 then le_encode 8 x
  else [].

(** abi/io/store.go:120-197 StoreInt *)
Definition store_int (v : any) (ptr nbytes : N) (signed : bool) : M unit :=
  let* i := lift_o (int_info v) in
  let* _ := lift_o (int_check i signed) in
  store_bytes ptr nbytes (int_bytes nbytes (n_u64 i)).

(** abi/io/store.go:100-112 StoreFloat (unchecked type assertions) *)
Definition store_f32 (v : any) (ptr : N) : M unit :=
  match v with
  | VF32 b => store_int (VU32 (canonicalize32 b)) ptr 4 false
  | _ => lift_o Panic
  end.
Definition store_f64 (v : any) (ptr : N) : M unit :=
  match v with
  | VF64 b => store_int (VU64 (canonicalize64 b)) ptr 8 false
  | _ => lift_o Panic
  end.

(** abi/io/store.go:266-289 StoreStringDynamic. copy() of exactly len(buf)
    bytes when the encoded length fits in a uint32; longer strings are not
    excluded, only the first lenEncoded bytes are copied. *)
Definition store_string_dynamic (cx : callctx) (s : list N) (c : codec) : M (N * N) :=
  let* enc := lift_o (encode_string c s) in
  let len := u32 (N.of_nat (List.length enc)) in
  let* ptr := realloc cx 0 0 (codec_alignment c) len in
  store_bytes ptr len (firstn (N.to_nat len) enc) ;;
  ret (ptr, len / codec_rune_size c).

(** abi/io/store.go:252-263 isLatin1 *)
Definition is_latin1 (s : list N) : bool := forallb latin1_ok (utf8_runes s).

(** abi/io/store.go:217-250 StoreStringIntoRange *)
Definition store_string_into_range (cx : callctx) (s : list N) : M (N * N) :=
  let* c := lift_o (get_codec (cx_enc cx)) in
  match cx_enc cx with
  | EncLatin1Utf16 =>
      let wide := negb (is_latin1 s) in
      let* c := lift_o (get_codec (if wide then EncUtf16LE else EncLatin1)) in
      let* (ptr, n) := store_string_dynamic cx s c in
      ret (ptr, tagged_to_u32 (mkTagged n wide))
  | _ => store_string_dynamic cx s c
  end.

(** abi/io/store.go:201-215 StoreString *)
Definition store_string (cx : callctx) (s : list N) (ptr : N) : M unit :=
  let* (begin, tcu) := store_string_into_range cx s in
  store_u32 begin ptr ;;
  store_u32 tcu (add32 ptr 4).

(** abi/io/store.go:431-437, the loop of StoreListIntoRange from index i *)
Fixpoint store_elems (vs : list any) (st : any -> N -> M unit) (ptr sz i : N) : M unit :=
  match vs with
  | [] => ret tt
  | v :: vs' =>
      st v (add32 ptr (mul32 (u32 i) sz)) ;;
      store_elems vs' st ptr sz (i + 1)
  end.

(** abi/io/store.go:392-440 StoreListIntoRange (ToSlice at 442-449) *)
Definition store_list_into_range (cx : callctx) (al sz : outcome N)
    (st : any -> N -> M unit) (v : any) : M (N * N) :=
  match v with
  | VList vs =>
      let* s := lift_o sz in
      let n := N.of_nat (List.length vs) in
      if (9223372036854775807 <=? to_signed two64 (n * s))%Z then lift_o (Err ETrap) else
      let len := u32 (n * s) in
      let* a := lift_o al in
      let* ptr := realloc cx 0 0 a len in
      check_aligned ETrap ptr a ;;
      check_bounds ETrap ptr len ;;
      store_elems vs st ptr s 0 ;;
      ret (ptr, u32 n)
  | _ => lift_o (Err ECast)
  end.

(** abi/io/store.go:380-390 StoreList *)
Definition store_list (cx : callctx) (al sz : outcome N) (st : any -> N -> M unit)
    (v : any) (ptr : N) : M unit :=
  let* (begin, len) := store_list_into_range cx al sz st v in
  store_u32 begin ptr ;;
  store_u32 len (add32 ptr 4).

(** valMap[label]: the zero value of any is nil. abi/io/store.go:451-480. *)
Definition map_any (m : list (string * any)) (l : string) : any :=
  match map_get m l with Some v => v | None => VNil end.

(** abi/io/store.go:456-478, the loop of StoreRecord *)
Fixpoint store_fields (fs : list (string * comp (any -> N -> M unit)))
    (m : list (string * any)) (ptr : N) : M unit :=
  match fs with
  | [] => ret tt
  | (l, q) :: fs' =>
      let* a := lift_o (q_al q) in
      let* p := lift_o (align_to ptr a) in
      q_op q (map_any m l) p ;;
      let* s := lift_o (q_sz q) in
      store_fields fs' m (add32 p s)
  end.

(** abi/io/store.go:451-480 StoreRecord (ToMapStringAny at 528-534) *)
Definition store_record (fs : list (string * comp (any -> N -> M unit))) (v : any) (ptr : N) : M unit :=
  match v with
  | VMap m => store_fields fs m ptr
  | _ => lift_o (Err ECast)
  end.

(** strings.Split(key, "|"). abi/io/lower.go:363. *)
Fixpoint split_bar (s : string) : string * list string :=
  match s with
  | EmptyString => (EmptyString, [])
  | String c s' =>
      let (h, t) := split_bar s' in
      if Ascii.eqb c "|" then (EmptyString, h :: t) else (String c h, t)
  end.

(** abi/io/lower.go:359-362: labelMap[label], the last case with that label *)
Fixpoint label_index {A} (cs : list (caseOf A)) (i : N) (l : string) (acc : option N) : option N :=
  match cs with
  | [] => acc
  | c :: cs' => label_index cs' (i + 1) l (if String.eqb (c_label c) l then Some i else acc)
  end.

(** abi/io/lower.go:363-369 *)
Fixpoint match_labels {A} (cs : list (caseOf A)) (ls : list string) : outcome N :=
  match ls with
  | [] => Err EOther
  | l :: ls' =>
      match label_index cs 0 l None with
      | Some i => Ok (u32 i)
      | None => match_labels cs ls'
      end
  end.

(** abi/io/lower.go:346-370 MatchCase *)
Definition match_case {A} (v : any) (cs : list (caseOf A)) : outcome (N * any) :=
  match v with
  | VMap [(key, value)] =>
      let (h, t) := split_bar key in
      olet i := match_labels cs (h :: t) in
      Ok (i, value)
  | VMap _ => Err EOther
  | _ => Err ECast
  end.

(** abi/io/store.go:482-513 StoreVariant *)
Definition store_variant (cs : list (caseOf (comp (any -> N -> M unit)))) (v : any) (ptr : N) : M unit :=
  let* (i, payload) := lift_o (match_case v cs) in
  let* dt := lift_o (discriminant_type (List.length cs)) in
  let sz := scalar_size dt in
  store_int (VU32 i) ptr sz false ;;
  let p := add32 ptr sz in
  let* a := lift_o (max_case_alignment (map (map_case q_al) cs)) in
  let* p := lift_o (align_to p a) in
  match nth_error cs (N.to_nat i) with
  | None => lift_o Panic
  | Some c =>
      match c_type c with
      | None => ret tt
      | Some q => q_op q payload p
      end
  end.

(** abi/io/store.go:539-551, the loop of PackFlagsIntoInt. Shifting a uint64
    by 64 or more gives 0. *)
Fixpoint pack_flags (m : list (string * any)) (labels : list string) (shift : N) (acc : N) : outcome N :=
  match labels with
  | [] => Ok acc
  | l :: ls =>
      match map_any m l with
      | VBool b =>
          pack_flags m ls (shift + 1)
            (N.lor acc (u64 (N.shiftl (if b then 1 else 0) shift)))
      | _ => Err ECast
      end
  end.

(** abi/io/store.go:515-526 StoreFlags (PackFlagsIntoInt at 536-554) *)
Definition store_flags (labels : list string) (v : any) (ptr : N) : M unit :=
  match v with
  | VMap m =>
      let* i := lift_o (pack_flags m labels 0 0) in
      let* sz := lift_o (size_flags labels) in
      store_int (VU64 i) ptr sz false
  | _ => lift_o Panic
  end.

(** abi/io/store.go:18-71, Store after StoreValidate *)
Definition store_bool (v : any) (ptr : N) : M unit :=
  match v with
  | VBool b => store_int (VU8 (if b then 1 else 0)) ptr 1 false
  | _ => lift_o (Err ECast)
  end.
Definition store_char (v : any) (ptr : N) : M unit :=
  match v with
  | VS32 r => store_int (VU32 (of_signed two32 r)) ptr 4 false
  | _ => lift_o (Err ECast)
  end.
Definition store_str (cx : callctx) (v : any) (ptr : N) : M unit :=
  match v with
  | VStr s => store_string cx s ptr
  | _ => lift_o (Err ECast)
  end.

(** abi/io/store.go:13-72 Store. [guarded] puts StoreValidate in front. *)
Definition guarded (al sz : outcome N) (st : any -> N -> M unit) : any -> N -> M unit :=
  fun v ptr => store_validate al sz ptr ;; st v ptr.

(** abi/io/store.go:13-72 Store *)
Fixpoint store (cx : callctx) (t : valtype) : any -> N -> M unit :=
  guarded (alignment t) (size t)
  match t with
  | TBool => store_bool
  | TU8 => fun v p => store_int v p 1 false
  | TU16 => fun v p => store_int v p 2 false
  | TU32 => fun v p => store_int v p 4 false
  | TU64 => fun v p => store_int v p 8 false
  | TS8 => fun v p => store_int v p 1 true
  | TS16 => fun v p => store_int v p 2 true
  | TS32 => fun v p => store_int v p 4 true
  | TS64 => fun v p => store_int v p 8 true
  | TF32 => store_f32
  | TF64 => store_f64
  | TChar => store_char
  | TString => store_str cx
  | TList t' => store_list cx (alignment t') (size t') (store cx t')
  | TRecord fs =>
      store_record (map (fun f => (fst f, mkComp (alignment (snd f)) (size (snd f)) (store cx (snd f)))) fs)
  | TTuple ts =>
      store_record (itoa_fields (map (fun t => mkComp (alignment t) (size t) (store cx t)) ts))
  | TVariant cs =>
      store_variant (map (map_case (fun t => mkComp (alignment t) (size t) (store cx t))) cs)
  | TEnum labels => store_variant (enum_cases labels)
  | TOption t' => store_variant (option_cases (mkComp (alignment t') (size t') (store cx t')))
  | TResult ok err =>
      store_variant (result_cases
        (match ok with Some x => Some (mkComp (alignment x) (size x) (store cx x)) | None => None end)
        (match err with Some x => Some (mkComp (alignment x) (size x) (store cx x)) | None => None end))
  | TUnion ts =>
      store_variant (itoa_cases (map (fun t => mkComp (alignment t) (size t) (store cx t)) ts))
  | TFlags labels => store_flags labels
  | TOwn _ | TBorrow _ | TStream _ _ => fun _ _ => lift_o (Err ETrap)
  end.
