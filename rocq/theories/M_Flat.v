(** Model of abi/io/lift.go, abi/io/lower.go and of the value iterators in
    abi/values. *)
From Coq Require Import NArith ZArith List String Bool.
From Verif Require Import GoBase M_Types M_Layout M_State M_Utf M_Load M_Store.
Import ListNotations.
Open Scope N_scope.
Open Scope go_scope.

(** ** Iterators *)

(** abi/values/value.go:20-30 and coerce_value_iterator.go:17-20. Iterators are
    mutable in Go; here each step returns the new iterator. After an error or
    a panic no caller uses the iterator again. *)
Inductive iter :=
| IBase (vals : list cval) (index : nat)
| ICoerce (inner : iter) (flat : list kind).

(** Value(): abi/values/int.go:11-13, 21-23, float.go:13-15, 25-27 *)
Definition cval_any (c : cval) : any :=
  match c with
  | CU32 n => VU32 n
  | CU64 n => VU64 n
  | CF32 b => VF32 b
  | CF64 b => VF64 b
  end.

(** abi/values/coerce_value_iterator.go:54-81 *)
Definition coerce_out (have want : kind) (x : any) : outcome any :=
  match have, want with
  | KU32, KF32 => match x with VU32 n => Ok (VF32 n) | _ => Err ECast end
  | KU64, KU32 => match x with VU64 n => Ok (VU32 (u32 n)) | _ => Err ECast end
  | KU64, KF32 => match x with VU64 n => Ok (VF32 (u32 n)) | _ => Err ECast end
  | KU64, KF64 => match x with VU64 n => Ok (VF64 n) | _ => Err ECast end
  | _, _ => Ok x
  end.

(** abi/values/value.go:32-43 and coerce_value_iterator.go:41-82 Next *)
Fixpoint iter_next (it : iter) (want : kind) : outcome (any * iter) :=
  match it with
  | IBase vals i =>
      match vals with
      | [] => Err EOther
      | _ =>
          match nth_error vals i with
          | None => Panic
          | Some v =>
              if kind_eqb (cval_kind v) want then Ok (cval_any v, IBase vals (S i))
              else Err EOther
          end
      end
  | ICoerce inner flat =>
      match flat with
      | [] => Err EOther
      | have :: flat' =>
          olet (x, inner') := iter_next inner have in
          olet y := coerce_out have want x in
          Ok (y, ICoerce inner' flat')
      end
  end.

(** ** Lifting *)

(** The functions of abi/io/lift.go that take a ValueIterator
    (abi/values/value.go:14-43): they also change the place in it *)
Definition LM (A : Type) := iter -> M (A * iter).

(** abi/io/lift.go:128-138 LiftFlatU32 and the same pattern in the other
    scalar functions *)
Definition next_u32 : LM N := fun it =>
  let* (x, it) := lift_o (iter_next it KU32) in
  match x with VU32 n => ret (n, it) | _ => lift_o (Err ECast) end.
Definition next_u64 : LM N := fun it =>
  let* (x, it) := lift_o (iter_next it KU64) in
  match x with VU64 n => ret (n, it) | _ => lift_o (Err ECast) end.
Definition next_f32 : LM N := fun it =>
  let* (x, it) := lift_o (iter_next it KF32) in
  match x with VF32 n => ret (n, it) | _ => lift_o (Err ECast) end.
Definition next_f64 : LM N := fun it =>
  let* (x, it) := lift_o (iter_next it KF64) in
  match x with VF64 n => ret (n, it) | _ => lift_o (Err ECast) end.

(** Converting the number that was lifted: the returns of
    abi/io/lift.go:92-214 *)
Definition lmap {A} (f : N -> A) (m : LM N) : LM A := fun it =>
  let* (n, it) := m it in ret (f n, it).

(** abi/io/lift.go:225-232 LiftFlatChar *)
Definition lift_flat_char : LM any := fun it =>
  let* (n, it) := next_u32 it in
  let* r := lift_o (u32_to_rune n) in
  ret (VS32 r, it).

(** abi/io/lift.go:234-244 LiftFlatList *)
Definition lift_flat_list (al sz : outcome N) (ld : N -> M any) : LM any := fun it =>
  let* (ptr, it) := next_u32 it in
  let* (len, it) := next_u32 it in
  let* v := load_list_from_range al sz ld ptr len in
  ret (v, it).

(** abi/io/lift.go:246-256 LiftFlatString *)
Definition lift_flat_string (cx : callctx) : LM any := fun it =>
  let* (ptr, it) := next_u32 it in
  let* (len, it) := next_u32 it in
  let* v := load_string_from_range cx ptr len in
  ret (v, it).

(** abi/io/lift.go:258-268 LiftFlatRecord *)
Fixpoint lift_fields (fs : list (string * LM any)) (acc : list (string * any)) : LM (list (string * any)) :=
  fun it =>
  match fs with
  | [] => ret (acc, it)
  | (l, f) :: fs' =>
      let* (v, it) := f it in
      lift_fields fs' (map_set acc l v) it
  end.
Definition lift_flat_record (fs : list (string * LM any)) : LM any := fun it =>
  let* (m, it) := lift_fields fs [] it in
  ret (VMap m, it).

(** abi/io/lift.go:314-319, skipping the unused joined values *)
Fixpoint skip_flat (ks : list kind) (it : iter) : outcome iter :=
  match ks with
  | [] => Ok it
  | k :: ks' =>
      olet (x, it) := iter_next it k in
      skip_flat ks' it
  end.

(** abi/io/lift.go:270-323 LiftFlatVariant; [flat] is FlattenType(variant) *)
Definition lift_flat_variant (flat : outcome (list kind)) (cs : list (caseOf (LM any))) : LM any :=
  fun it =>
  let* ft := lift_o flat in
  match ft with
  | [] => lift_o (Err EOther)
  | first :: rest =>
      if negb (kind_eqb first KU32) then lift_o (Err EOther) else
      let* (i, it) := next_u32 it in
      if N.of_nat (List.length cs) <=? i then lift_o (Err ETrap) else
      match nth_error cs (N.to_nat i) with
      | None => lift_o Panic
      | Some c =>
          match c_type c with
          | None =>
              let* it := lift_o (skip_flat rest it) in
              let* label := lift_o (case_label c cs) in
              ret (VMap [(label, VNil)], it)
          | Some f =>
              let* (v, cit) := f (ICoerce it rest) in
              match cit with
              | ICoerce it rest =>
                  let* it := lift_o (skip_flat rest it) in
                  let* label := lift_o (case_label c cs) in
                  ret (VMap [(label, v)], it)
              | IBase _ _ => lift_o Panic (* not reachable: a step keeps the iterator's shape *)
              end
          end
      end
  end.

(** abi/io/lift.go:325-342 LiftFlatFlags *)
Fixpoint lift_flag_words (n : nat) (shift acc : N) : LM N := fun it =>
  match n with
  | O => ret (acc, it)
  | S n' =>
      let* (w, it) := next_u32 it in
      lift_flag_words n' (shift + 32) (N.lor acc (u64 (N.shiftl w shift))) it
  end.
Definition lift_flat_flags (labels : list string) : LM any := fun it =>
  let* (w, it) := lift_flag_words (N.to_nat (num_i32_flags labels)) 0 0 it in
  ret (VMap (unpack_flags w labels []), it).

(** abi/io/lift.go:65-86 *)
Definition lift_flat_handle (f : N -> M N) : LM any := fun it =>
  let* (x, it) := lift_o (iter_next it KU32) in
  match x with
  | VU32 i => let* r := f i in ret (VU32 r, it)
  | _ => lift_o (Err ETrap)
  end.

(** abi/io/lift.go:28-89 LiftFlat (scalars at 91-223) *)
Fixpoint lift_flat (cx : callctx) (t : valtype) : LM any :=
  match t with
  | TBool => lmap (fun n => VBool (negb (n =? 0))) next_u32
  | TU8 => lmap (fun n => VU8 (u8 n)) next_u32
  | TU16 => lmap (fun n => VU16 (u16 n)) next_u32
  | TU32 => lmap VU32 next_u32
  | TU64 => lmap VU64 next_u64
  | TS8 => lmap (fun n => VS8 (to_signed two8 n)) next_u32
  | TS16 => lmap (fun n => VS16 (to_signed two16 n)) next_u32
  | TS32 => lmap (fun n => VS32 (to_signed two32 n)) next_u32
  | TS64 => lmap (fun n => VS64 (to_signed two64 n)) next_u64
  | TF32 => lmap (fun n => VF32 (canonicalize32 n)) next_f32
  | TF64 => lmap (fun n => VF64 (canonicalize64 n)) next_f64
  | TChar => lift_flat_char
  | TString => lift_flat_string cx
  | TList t' => lift_flat_list (alignment t') (size t') (load cx t')
  | TRecord fs => lift_flat_record (map (fun f => (fst f, lift_flat cx (snd f))) fs)
  | TTuple ts => lift_flat_record (itoa_fields (map (lift_flat cx) ts))
  | TVariant cs => lift_flat_variant (flatten_type t) (map (map_case (lift_flat cx)) cs)
  | TEnum labels => lift_flat_variant (flatten_type t) (enum_cases labels)
  | TOption t' => lift_flat_variant (flatten_type t) (option_cases (lift_flat cx t'))
  | TResult ok err =>
      lift_flat_variant (flatten_type t) (result_cases
        (match ok with Some x => Some (lift_flat cx x) | None => None end)
        (match err with Some x => Some (lift_flat cx x) | None => None end))
  | TUnion ts => lift_flat_variant (flatten_type t) (itoa_cases (map (lift_flat cx) ts))
  | TFlags labels => lift_flat_flags labels
  | TOwn rt => lift_flat_handle (fun i => lift_own cx i rt)
  | TBorrow rt => lift_flat_handle (fun i => lift_borrow cx i rt)
  | TStream _ _ => fun _ => lift_o (Err EOther)
  end.

(** ** Lowering *)

(** abi/io/lower.go:66-176 LowerBool, LowerU8, ... LowerChar. values.U32(s) of
    a signed value keeps the low 32 bits of its two's complement. *)
Definition lower_scalar (t : valtype) (v : any) : outcome (list cval) :=
  match t, v with
  | TBool, VBool b => Ok [CU32 (if b then 1 else 0)]
  | TU8, VU8 n => Ok [CU32 n]
  | TU16, VU16 n => Ok [CU32 n]
  | TU32, VU32 n => Ok [CU32 n]
  | TU64, VU64 n => Ok [CU64 n]
  | TS8, VS8 z => Ok [CU32 (of_signed two32 z)]
  | TS16, VS16 z => Ok [CU32 (of_signed two32 z)]
  | TS32, VS32 z => Ok [CU32 (of_signed two32 z)]
  | TS64, VS64 z => Ok [CU64 (of_signed two64 z)]
  | TF32, VF32 b => Ok [CF32 (canonicalize32 b)]
  | TF64, VF64 b => Ok [CF64 (canonicalize64 b)]
  | TChar, VS32 r => Ok [CU32 (of_signed two32 r)]
  | TChar, _ => Panic
  | _, _ => Err ECast
  end.

(** abi/io/lower.go:178-193 LowerString *)
Definition lower_string (cx : callctx) (v : any) : M (list cval) :=
  match v with
  | VStr s =>
      let* (ptr, len) := store_string_into_range cx s in
      ret [CU32 ptr; CU32 len]
  | _ => lift_o Panic
  end.

(** abi/io/lower.go:195-204 LowerFlatList *)
Definition lower_flat_list (cx : callctx) (al sz : outcome N) (st : any -> N -> M unit) (v : any) : M (list cval) :=
  let* (ptr, len) := store_list_into_range cx al sz st v in
  ret [CU32 ptr; CU32 len].

(** abi/io/lower.go:206-220 LowerFlatRecord *)
Fixpoint lower_fields (fs : list (string * (any -> M (list cval)))) (m : list (string * any)) : M (list cval) :=
  match fs with
  | [] => ret []
  | (l, f) :: fs' =>
      let* a := f (map_any m l) in
      let* b := lower_fields fs' m in
      ret (a ++ b)%list
  end.
Definition lower_flat_record (fs : list (string * (any -> M (list cval)))) (v : any) : M (list cval) :=
  match v with
  | VMap m => lower_fields fs m
  | _ => lift_o (Err ECast)
  end.

(** abi/io/lower.go:233-237 *)
Fixpoint flag_words (n : nat) (packed : N) : list cval * N :=
  match n with
  | O => ([], packed)
  | S n' =>
      let (ws, rest) := flag_words n' (N.shiftr packed 32) in
      (CU32 (N.land packed 4294967295) :: ws, rest)
  end.

(** abi/io/lower.go:222-242 LowerFlatFlags *)
Definition lower_flat_flags (labels : list string) (v : any) : outcome (list cval) :=
  match v with
  | VMap m =>
      olet packed := pack_flags m labels 0 0 in
      let (ws, rest) := flag_words (N.to_nat (num_i32_flags labels)) packed in
      if rest =? 0 then Ok ws else Err EOther
  | _ => Err ECast
  end.

(** abi/io/lower.go:305-334, one step of the coercion loop *)
Definition coerce_in (have : cval) (want : kind) : cval :=
  match have, want with
  | CF32 b, KU32 => CU32 b
  | CU32 n, KU64 => CU64 n
  | CF32 b, KU64 => CU64 b
  | CF64 b, KU64 => CU64 b
  | _, _ => have
  end.

(** abi/values/factory.go:9-22 Zero *)
Definition zero_val (k : kind) : cval :=
  match k with KU32 => CU32 0 | KU64 => CU64 0 | KF32 => CF32 0 | KF64 => CF64 0 end.

(** abi/io/lower.go:299-342, the coercion loop and the padding loop *)
Fixpoint coerce_payload (payload : list cval) (flat : list kind) : outcome (list cval) :=
  match payload, flat with
  | [], _ => Ok (map zero_val flat)
  | _ :: _, [] => Err EOther
  | h :: payload', w :: flat' =>
      olet r := coerce_payload payload' flat' in
      Ok (coerce_in h w :: r)
  end.

(** abi/io/lower.go:272-344 LowerFlatVariant; [flat] is FlattenType(variant) *)
Definition lower_flat_variant (flat : outcome (list kind)) (cs : list (caseOf (any -> M (list cval)))) (v : any)
    : M (list cval) :=
  let* (i, value) := lift_o (match_case v cs) in
  let* ft := lift_o flat in
  match ft with
  | [] => lift_o (Err EOther)
  | first :: rest =>
      if negb (kind_eqb first KU32) then lift_o (Err EOther) else
      match nth_error cs (N.to_nat i) with
      | None => lift_o Panic
      | Some c =>
          let* payload := match c_type c with
                          | None => ret []
                          | Some f => f value
                          end in
          let* p := lift_o (coerce_payload payload rest) in
          ret (CU32 i :: p)
      end
  end.

(** "i, err := LowerOwn(...); slice(values.U32(i))", abi/io/lower.go:50-61 *)
Definition ret_handle (m : M N) : M (list cval) := let* n := m in ret [CU32 n].

(** abi/io/lower.go:13-64 LowerFlat *)
Fixpoint lower_flat (cx : callctx) (t : valtype) : any -> M (list cval) :=
  match t with
  | TBool | TU8 | TU16 | TU32 | TU64 | TS8 | TS16 | TS32 | TS64 | TF32 | TF64 | TChar =>
      fun v => lift_o (lower_scalar t v)
  | TString => lower_string cx
  | TList t' => lower_flat_list cx (alignment t') (size t') (store cx t')
  | TRecord fs => lower_flat_record (map (fun f => (fst f, lower_flat cx (snd f))) fs)
  | TTuple ts => lower_flat_record (itoa_fields (map (lower_flat cx) ts))
  | TFlags labels => fun v => lift_o (lower_flat_flags labels v)
  | TVariant cs => lower_flat_variant (flatten_type t) (map (map_case (lower_flat cx)) cs)
  | TEnum labels => lower_flat_variant (flatten_type t) (enum_cases labels)
  | TOption t' => lower_flat_variant (flatten_type t) (option_cases (lower_flat cx t'))
  | TResult ok err =>
      lower_flat_variant (flatten_type t) (result_cases
        (match ok with Some x => Some (lower_flat cx x) | None => None end)
        (match err with Some x => Some (lower_flat cx x) | None => None end))
  | TUnion ts => lower_flat_variant (flatten_type t) (itoa_cases (map (lower_flat cx) ts))
  | TOwn rt => fun v => ret_handle (lower_own cx v rt)
  | TBorrow rt => fun v => ret_handle (lower_borrow cx v rt)
  | TStream _ _ => fun _ => lift_o (Err EOther)
  end.
