(** Model of abi/io/alignment.go, size.go, math.go and flatten.go. *)
From Coq Require Import NArith List String Bool.
From Verif Require Import GoBase M_Types.
Import ListNotations.
Open Scope N_scope.
Open Scope go_scope.

(** abi/io/alignment.go:10-12 AlignTo. float64(ptr)/float64(alignment) for
    uint32 operands: the distance of a non-integral quotient p/a from the next
    lower integer is at least 1/a, relatively more than 2^-32, so rounding to
    53 bits cannot reach the integer and Ceil is exact; the product is below
    2^33 and exact as well. uint32(f) for f >= 2^32 and for NaN (alignment 0)
    is implementation-specific in Go; modelled as on amd64 (conversion through
    int64: truncation modulo 2^32, and 0 for NaN). *)
Definition align_to (ptr a : N) : outcome N :=
  Ok (if a =? 0 then 0 else u32 ((ptr + a - 1) / a * a)).

(** abi/io/alignment.go:113-130 DiscriminantType. math.Log2 is exact on powers
    of two and math.Ceil(math.Log2(n)/8) is 0,1,2,3 exactly for n = 1,
    n <= 2^8, n <= 2^16, n <= 2^24; the n < math.MaxInt test always holds. *)
Definition discriminant_type (n : nat) : outcome valtype :=
  let n := N.of_nat n in
  if n =? 0 then Err EOther
  else if n <=? 256 then Ok TU8
  else if n <=? 65536 then Ok TU16
  else if n <=? 16777216 then Ok TU32
  else Err EOther.

(** abi/io/alignment.go:59-69 AlignmentRecord; takes the outcomes of Alignment
    on the field types. *)
Definition alignment_record (l : list (outcome N)) : outcome N :=
  fold_left (fun acc x => olet a := acc in olet y := x in Ok (N.max a y)) l (Ok 1).

(** abi/io/alignment.go:98-111 MaxCaseAlignment *)
Definition max_case_alignment (cs : list (caseOf (outcome N))) : outcome N :=
  fold_left (fun acc c =>
    olet a := acc in
    match c_type c with
    | None => Ok a
    | Some x => olet y := x in Ok (N.max a y)
    end) cs (Ok 1).

(** abi/io/alignment.go:71-85 AlignmentVariant. Note the [return 0, nil] on
    an error of Alignment(dt) (impossible) or MaxCaseAlignment. [scalar_align]
    is Alignment on the discriminant types. *)
Definition scalar_align (t : valtype) : N :=
  match t with TU8 => 1 | TU16 => 2 | _ => 4 end.
Definition alignment_variant (cs : list (caseOf (outcome N))) : outcome N :=
  olet dt := discriminant_type (List.length cs) in
  match max_case_alignment cs with
  | Ok m => Ok (N.max (scalar_align dt) m)
  | Err _ => Ok 0
  | Panic => Panic
  | Diverge => Diverge
  end.

(** abi/io/alignment.go:87-96 AlignmentFlags *)
Definition alignment_flags (labels : list string) : outcome N :=
  let n := N.of_nat (List.length labels) in
  if n <=? 8 then Ok 1 else if n <=? 16 then Ok 2 else Ok 4.

(** abi/io/alignment.go:14-57 Alignment. Despecialize (line 15) only rewrites
    the head of the type; here each specialised head is sent directly to the
    helper its despecialised form reaches ([alignment_despecialize] in
    L_Layout.v proves this is the same). *)
Fixpoint alignment (t : valtype) : outcome N :=
  match t with
  | TBool | TU8 | TS8 => Ok 1
  | TU16 | TS16 => Ok 2
  | TU32 | TS32 | TF32 | TChar | TString | TList _ | TOwn _ | TBorrow _ => Ok 4
  | TU64 | TS64 | TF64 => Ok 8
  | TRecord fs => alignment_record (map (fun f => alignment (snd f)) fs)
  | TTuple ts => alignment_record (map alignment ts)
  | TVariant cs => alignment_variant (map (map_case alignment) cs)
  | TEnum labels => alignment_variant (enum_cases labels)
  | TOption t' => alignment_variant (option_cases (alignment t'))
  | TResult ok err =>
      alignment_variant (result_cases
        (match ok with Some x => Some (alignment x) | None => None end)
        (match err with Some x => Some (alignment x) | None => None end))
  | TUnion ts => alignment_variant (itoa_cases (map alignment ts))
  | TFlags labels => alignment_flags labels
  | TStream _ _ => Err ETrap
  end.

(** abi/io/size.go:130-132 NumI32Flags *)
Definition num_i32_flags (labels : list string) : N :=
  (N.of_nat (List.length labels) + 31) / 32.

(** abi/io/size.go:116-128 SizeFlags *)
Definition size_flags (labels : list string) : outcome N :=
  let n := N.of_nat (List.length labels) in
  if n =? 0 then Ok 0
  else if n <=? 8 then Ok 1
  else if n <=? 16 then Ok 2
  else Ok (mul32 4 (num_i32_flags labels)).

(** abi/io/size.go:52-74 SizeRecord; each field contributes the outcomes of
    Alignment and Size. *)
Definition size_record (l : list (outcome N * outcome N)) : outcome N :=
  olet s := fold_left (fun acc f =>
    olet s := acc in
    olet a := fst f in
    olet s := align_to s a in
    olet z := snd f in
    Ok (add32 s z)) l (Ok 0) in
  olet a := alignment_record (map fst l) in
  align_to s a.

(** abi/io/size.go:76-114 SizeVariant; each payload contributes the outcomes
    of Alignment and Size. [scalar_size] is Size on the discriminant types. *)
Definition scalar_size (t : valtype) : N :=
  match t with TU8 => 1 | TU16 => 2 | _ => 4 end.
Definition size_variant (cs : list (caseOf (outcome N * outcome N))) : outcome N :=
  let acs := map (map_case fst) cs in
  olet dt := discriminant_type (List.length cs) in
  let s := scalar_size dt in
  olet a := max_case_alignment acs in
  olet s := align_to s a in
  olet cmax := fold_left (fun acc c =>
    olet m := acc in
    match c_type c with
    | None => Ok m
    | Some x => olet z := snd x in Ok (N.max m z)
    end) cs (Ok 0) in
  let s := add32 s cmax in
  olet a := alignment_variant acs in
  align_to s a.

(** abi/io/size.go:25-50 Size *)
Fixpoint size (t : valtype) : outcome N :=
  match t with
  | TBool | TU8 | TS8 => Ok 1
  | TU16 | TS16 => Ok 2
  | TU32 | TS32 | TF32 | TChar | TOwn _ | TBorrow _ => Ok 4
  | TU64 | TS64 | TF64 | TString | TList _ => Ok 8
  | TRecord fs => size_record (map (fun f => (alignment (snd f), size (snd f))) fs)
  | TTuple ts => size_record (map (fun t => (alignment t, size t)) ts)
  | TVariant cs => size_variant (map (map_case (fun t => (alignment t, size t))) cs)
  | TEnum labels => size_variant (enum_cases labels)
  | TOption t' => size_variant (option_cases (alignment t', size t'))
  | TResult ok err =>
      size_variant (result_cases
        (match ok with Some x => Some (alignment x, size x) | None => None end)
        (match err with Some x => Some (alignment x, size x) | None => None end))
  | TUnion ts => size_variant (itoa_cases (map (fun t => (alignment t, size t)) ts))
  | TFlags labels => size_flags labels
  | TStream _ _ => Err EOther
  end.

(** abi/io/flatten.go:138-150 join *)
Definition join (a b : kind) : kind :=
  if kind_eqb a b then a
  else match a, b with
       | KU32, KF32 => KU32
       | KF32, KU32 => KU32
       | _, _ => KU64
       end.

(** abi/io/flatten.go:80-86, the loop merging one case into the accumulated
    kinds. *)
Fixpoint join_into (flat fs : list kind) : list kind :=
  match fs, flat with
  | [], _ => flat
  | f :: fs', [] => f :: join_into [] fs'
  | f :: fs', x :: flat' => join x f :: join_into flat' fs'
  end.

(** abi/io/flatten.go:58-68 FlattenRecord (and 10-20 FlattenTypes) *)
Definition flatten_record (l : list (outcome (list kind))) : outcome (list kind) :=
  fold_left (fun acc x => olet a := acc in olet y := x in Ok (a ++ y)%list) l (Ok []).

(** abi/io/flatten.go:70-98 FlattenVariant. The discriminant types all flatten
    to [U32]. *)
Definition flatten_variant (cs : list (caseOf (outcome (list kind)))) : outcome (list kind) :=
  olet flat := fold_left (fun acc c =>
    olet a := acc in
    match c_type c with
    | None => Ok a
    | Some x => olet y := x in Ok (join_into a y)
    end) cs (Ok []) in
  olet dt := discriminant_type (List.length cs) in
  Ok (KU32 :: flat).

(** abi/io/flatten.go:22-56 FlattenType *)
Fixpoint flatten_type (t : valtype) : outcome (list kind) :=
  match t with
  | TBool | TU8 | TU16 | TU32 | TS8 | TS16 | TS32 | TChar | TOwn _ | TBorrow _ => Ok [KU32]
  | TU64 | TS64 => Ok [KU64]
  | TF32 => Ok [KF32]
  | TF64 => Ok [KF64]
  | TString | TList _ => Ok [KU32; KU32]
  | TRecord fs => flatten_record (map (fun f => flatten_type (snd f)) fs)
  | TTuple ts => flatten_record (map flatten_type ts)
  | TVariant cs => flatten_variant (map (map_case flatten_type) cs)
  | TEnum labels => flatten_variant (enum_cases labels)
  | TOption t' => flatten_variant (option_cases (flatten_type t'))
  | TResult ok err =>
      flatten_variant (result_cases
        (match ok with Some x => Some (flatten_type x) | None => None end)
        (match err with Some x => Some (flatten_type x) | None => None end))
  | TUnion ts => flatten_variant (itoa_cases (map flatten_type ts))
  | TFlags labels => Ok (repeat KU32 (N.to_nat (num_i32_flags labels)))
  | TStream _ _ => Err EOther
  end.

(** abi/io/flatten.go:10-20 FlattenTypes *)
Definition flatten_types (ts : list valtype) : outcome (list kind) :=
  flatten_record (map flatten_type ts).

(** abi/types/func.go: parameter and result types of a function type. Lines
    abi/types/func.go:3-19. *)
Record functype := mkFuncType { ft_params : list (string * valtype); ft_results : list (string * valtype) }.
(** abi/types/func.go:29-31,37-43 ParamTypes *)
Definition param_types (ft : functype) := map snd (ft_params ft).
(** abi/types/func.go:33-43 ResultTypes *)
Definition result_types (ft : functype) := map snd (ft_results ft).

(** abi/io/flatten.go:123-136 flattenFuncType *)
Definition flatten_func_type (ft : functype) (maxp : nat) : outcome (list kind * list kind) :=
  olet ps := flatten_types (param_types ft) in
  let ps := if Nat.ltb maxp (List.length ps) then [KU32] else ps in
  olet rs := flatten_types (result_types ft) in
  Ok (ps, rs).

(** abi/io/flatten.go:100-110 FlattenFuncTypeLower *)
Definition flatten_func_type_lower (ft : functype) (maxp maxr : nat) : outcome (list kind * list kind) :=
  olet (ps, rs) := flatten_func_type ft maxp in
  if Nat.ltb maxr (List.length rs) then Ok ((ps ++ [KU32])%list, []) else Ok (ps, rs).

(** abi/io/flatten.go:112-121 FlattenFuncTypeLift *)
Definition flatten_func_type_lift (ft : functype) (maxp maxr : nat) : outcome (list kind * list kind) :=
  olet (ps, rs) := flatten_func_type ft maxp in
  if Nat.ltb maxr (List.length rs) then Ok (ps, [KU32]) else Ok (ps, rs).
