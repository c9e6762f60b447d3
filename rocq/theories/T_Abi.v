(** The repository's own unit tests of abi/io and encoding, evaluated on the
    model. They are not part of any proof: they compare the model with what the
    authors expect of the code. Each [Example] evaluates to [true] if all cases
    of one test function pass. *)
From Coq Require Import NArith ZArith List String Bool.
From Verif Require Import GoBase M_Types M_Layout M_State M_Utf M_Load M_Store M_Flat M_Canon S_Linked.
Import ListNotations.
Open Scope N_scope.
Open Scope go_scope.

(** reflect.DeepEqual; maps are compared as maps. *)
Fixpoint lookup (k : string) (m : list (string * any)) : option any :=
  match m with [] => None | (k', v) :: m' => if String.eqb k k' then Some v else lookup k m' end.
Fixpoint deep_equal (a b : any) {struct a} : bool :=
  match a, b with
  | VNil, VNil => true
  | VBool x, VBool y => Bool.eqb x y
  | VU8 x, VU8 y | VU16 x, VU16 y | VU32 x, VU32 y | VU64 x, VU64 y | VF32 x, VF32 y | VF64 x, VF64 y => x =? y
  | VS8 x, VS8 y | VS16 x, VS16 y | VS32 x, VS32 y | VS64 x, VS64 y => (x =? y)%Z
  | VStr x, VStr y => if list_eq_dec N.eq_dec x y then true else false
  | VList x, VList y =>
      (fix go (x y : list any) : bool :=
         match x, y with [], [] => true | a :: x', b :: y' => deep_equal a b && go x' y' | _, _ => false end) x y
  | VMap x, VMap y =>
      Nat.eqb (List.length x) (List.length y) &&
      (fix go (x : list (string * any)) : bool :=
         match x with
         | [] => true
         | (k, v) :: x' => match lookup k y with Some v' => deep_equal v v' | None => false end && go x'
         end) x
  | _, _ => false
  end.

(** abi/io/heap_test.go:14-48, the allocator of the tests. LastAlloc is where
    the latest block that did not shrink ends; Grow makes the capacity at least
    the length and the argument together, and at least double. *)
Fixpoint last_alloc (h : list (req * N)) : N :=
  match h with
  | [] => 0
  | (r, p) :: h' => if negb (r_optr r =? 0) && (r_size r <? r_osize r) then last_alloc h' else p + r_size r
  end.
Definition zeros (n : N) : list N := repeat 0 (N.to_nat n).
Definition grow (m : memory) (n : N) : memory :=
  let c := N.max (m_len m + n) (2 * mem_cap m) in
  if m_len m + n <=? mem_cap m then m else mkMem (m_data m ++ zeros (c - mem_cap m)) (m_len m).
Definition heap (r : req) (s : state) : outcome N * (memory * world) :=
  let m := s_mem s in
  if negb (r_optr r =? 0) && (r_size r <? r_osize r) then (align_to (r_optr r) (r_align r), (m, s_world s))
  else match align_to (last_alloc (s_hist s)) (r_align r) with
       | Ok p =>
           if mem_cap m <? p + r_size r then (Err EOther, (m, s_world s))
           else
             let m := grow m (p + r_size r) in
             match mem_slice m (r_optr r) (r_optr r + r_osize r) with
             | Ok old => (Ok p, (mem_write m p old, s_world s))
             | _ => (Panic, (m, s_world s))
             end
       | _ => (Err EOther, (m, s_world s))
       end.

(** abi/io/io_test.go:168-205: one open instance, one call context. *)
Definition fresh (m : memory) : state := mkState m [] (mkWorld [] [mkCall [] 0] [mkInst true true []] []).
Definition ctx (enc : strenc) : callctx := mkCtx 0 0 enc heap.
Definition mem_of (bs : list N) : memory := mkMem bs (N.of_nat (List.length bs)).

(** abi/io/io_test.go:419-448 zip *)
Fixpoint zip (ks : list kind) (vs : list any) : option (list cval) :=
  match ks, vs with
  | [], [] => Some []
  | k :: ks, v :: vs =>
      match k, v, zip ks vs with
      | KU32, VU32 n, Some r => Some (CU32 n :: r)
      | KU64, VU64 n, Some r => Some (CU64 n :: r)
      | KF32, VF32 n, Some r => Some (CF32 (canonicalize32 n) :: r)
      | KF64, VF64 n, Some r => Some (CF64 (canonicalize64 n) :: r)
      | _, _, _ => None
      end
  | _, _ => None
  end.

(** abi/io/io_test.go:350-417 test. [None]: a trap is expected. *)
Definition test_in (enc : strenc) (mem : list N) (dst : strenc) (t : valtype) (lift : list any) (v : option any)
    (lower_t : valtype) (lower_v : any) : bool :=
  match flatten_type t with
  | Ok ks =>
      match zip ks lift with
      | None => false
      | Some cs =>
          match lift_flat (ctx enc) t (IBase cs 0) (fresh (mem_of mem)), v with
          | (Err ETrap, _), None => true
          | (Ok (got, IBase _ i), _), Some v =>
              Nat.eqb i (List.length cs) && deep_equal got v &&
              match lower_flat (ctx dst) lower_t v (fresh (mem_of (zeros (5 * N.of_nat (List.length mem))))) with
              | (Ok lowered, s) =>
                  match lift_flat (ctx dst) lower_t (IBase lowered 0) s with
                  | (Ok (again, _), _) => deep_equal again lower_v
                  | _ => false
                  end
              | _ => false
              end
          | _, _ => false
          end
      end
  | _ => false
  end.
Definition test (t : valtype) (lift : list any) (v : option any) : bool :=
  test_in EncUtf8 [] EncUtf8 t lift v t (match v with Some v => v | None => VNil end).
Definition on_heap (t : valtype) (v : option any) (lift : list any) (mem : list N) : bool :=
  test_in EncUtf8 mem EncUtf8 t lift v t (match v with Some v => v | None => VNil end).
Definition case (l : string) (t : option valtype) : caseOf valtype := mkCase l t None.
Definition case_with (l : string) (t : valtype) (r : string) : caseOf valtype := mkCase l (Some t) (Some r).
Definition tuple (vs : list any) : any := VMap (itoa_fields vs).
Definition labels (n : nat) : list string := map (fun i => itoa (N.of_nat i)) (seq 0 n).
Definition all_set (n : nat) (b : bool) : any := VMap (map (fun l => (l, VBool b)) (labels n)).
Definition pi32 := 0x4048f5c3. (* float32(3.14) *)
Definition pi64 := 0x40091EB851EB851F. (* float64(3.14) *)
Local Open Scope string_scope.
(** abi/io/io_test.go:20-80 Test *)
Definition xyz := TVariant [case "x" (Some TU8); case "y" (Some TF32); case "z" None].
Definition vt := TVariant [case "w" (Some TU8); case_with "x" TU8 "w"; case "y" (Some TU8); case_with "z" TU8 "x"].
Example io_test : forallb (fun c => match c with (t, l, v) => test t l v end) [
  (TRecord [], [], Some (VMap []));
  (TRecord [("x", TU8); ("y", TU16); ("z", TU32)], [VU32 1; VU32 2; VU32 3], Some (VMap [("x", VU8 1); ("y", VU16 2); ("z", VU32 3)]));
  (TTuple [TTuple [TU8; TU8]; TU8], [VU32 1; VU32 2; VU32 3], Some (VMap [("0", VMap [("0", VU8 1); ("1", VU8 2)]); ("1", VU8 3)]));
  (TFlags [], [], Some (VMap []));
  (TFlags ["a"; "b"], [VU32 0], Some (VMap [("a", VBool false); ("b", VBool false)]));
  (TFlags ["a"; "b"], [VU32 2], Some (VMap [("a", VBool false); ("b", VBool true)]));
  (TFlags ["a"; "b"], [VU32 3], Some (VMap [("a", VBool true); ("b", VBool true)]));
  (TFlags ["a"; "b"], [VU32 4], Some (VMap [("a", VBool false); ("b", VBool false)]));
  (TFlags (labels 33), [VU32 0xffffffff; VU32 1], Some (all_set 33 true));
  (xyz, [VU32 0; VU32 42], Some (VMap [("x", VU8 42)]));
  (xyz, [VU32 0; VU32 256], Some (VMap [("x", VU8 0)]));
  (xyz, [VU32 1; VU32 0x4048f5c3], Some (VMap [("y", VF32 pi32)]));
  (xyz, [VU32 2; VU32 0xffffffff], Some (VMap [("z", VNil)]));
  (TUnion [TU32; TU64], [VU32 0; VU64 42], Some (VMap [("0", VU32 42)]));
  (TUnion [TU32; TU64], [VU32 0; VU64 (2 ^ 35)], Some (VMap [("0", VU32 0)]));
  (TUnion [TU32; TU64], [VU32 1; VU64 (2 ^ 35)], Some (VMap [("1", VU64 (2 ^ 35))]));
  (TUnion [TF32; TU64], [VU32 0; VU64 0x4048f5c3], Some (VMap [("0", VF32 pi32)]));
  (TUnion [TF32; TU64], [VU32 0; VU64 (2 ^ 35)], Some (VMap [("0", VF32 0)]));
  (TUnion [TF32; TU64], [VU32 1; VU64 (2 ^ 35)], Some (VMap [("1", VU64 (2 ^ 35))]));
  (TUnion [TF64; TU64], [VU32 0; VU64 0x40091EB851EB851F], Some (VMap [("0", VF64 pi64)]));
  (TUnion [TF64; TU64], [VU32 0; VU64 (2 ^ 35)], Some (VMap [("0", VF64 (2 ^ 35))])); (* 1.69759663277e-313 *)
  (TUnion [TF64; TU64], [VU32 1; VU64 (2 ^ 35)], Some (VMap [("1", VU64 (2 ^ 35))]));
  (TUnion [TU8], [VU32 0; VU32 42], Some (VMap [("0", VU8 42)]));
  (TUnion [TU8], [VU32 1; VU32 256], None);
  (TUnion [TU8], [VU32 0; VU32 256], Some (VMap [("0", VU8 0)]));
  (TOption TF32, [VU32 0; VF32 pi32], Some (VMap [("none", VNil)]));
  (TOption TF32, [VU32 1; VF32 pi32], Some (VMap [("some", VF32 pi32)]));
  (TResult (Some TU8) (Some TU32), [VU32 0; VU32 42], Some (VMap [("ok", VU8 42)]));
  (TResult (Some TU8) (Some TU32), [VU32 1; VU32 1000], Some (VMap [("error", VU32 1000)]));
  (vt, [VU32 0; VU32 42], Some (VMap [("w", VU8 42)]));
  (vt, [VU32 1; VU32 42], Some (VMap [("x|w", VU8 42)]));
  (vt, [VU32 2; VU32 42], Some (VMap [("y", VU8 42)]));
  (vt, [VU32 3; VU32 42], Some (VMap [("z|x|w", VU8 42)]))] = true.
Proof. vm_compute. reflexivity. Qed.

(** abi/io/io_test.go:82-110 TestWithLower *)
Definition vt2 := TVariant [case "w" (Some TU8)].
Example with_lower : forallb (fun c => match c with (l, v) => test_in EncUtf8 [] EncUtf8 vt l (Some v) vt2 (VMap [("w", VU8 42)]) end) [
  ([VU32 0; VU32 42], VMap [("w", VU8 42)]);
  ([VU32 1; VU32 42], VMap [("x|w", VU8 42)]);
  ([VU32 3; VU32 42], VMap [("z|x|w", VU8 42)])] = true.
Proof. vm_compute. reflexivity. Qed.

(** abi/io/heap_test.go:50-105 TestHeap *)
Definition ab a b := VMap [("a", VBool a); ("b", VBool b)].
Example heap_test : forallb (fun c => match c with (t, v, l, m) => on_heap (TList t) (option_map VList v) l m end) [
  (TRecord [], Some [VMap []; VMap []; VMap []], [VU32 0; VU32 3], []);
  (TBool, Some [VBool true; VBool false; VBool true], [VU32 0; VU32 3], [1; 0; 1]);
  (TBool, Some [VBool true; VBool false; VBool true], [VU32 0; VU32 3], [1; 0; 2]);
  (TBool, Some [VBool true; VBool false; VBool true], [VU32 3; VU32 3], [0xff; 0xff; 0xff; 1; 0; 1]);
  (TU8, Some [VU8 1; VU8 2; VU8 3], [VU32 0; VU32 3], [1; 2; 3]);
  (TU16, Some [VU16 1; VU16 2; VU16 3], [VU32 0; VU32 3], [1; 0; 2; 0; 3; 0]);
  (TU16, None, [VU32 1; VU32 3], [0; 1; 0; 2; 0; 3; 0]);
  (TU32, Some [VU32 1; VU32 2; VU32 3], [VU32 0; VU32 3], [1; 0; 0; 0; 2; 0; 0; 0; 3; 0; 0; 0]);
  (TU64, Some [VU64 1; VU64 2], [VU32 0; VU32 2], [1; 0; 0; 0; 0; 0; 0; 0; 2; 0; 0; 0; 0; 0; 0; 0]);
  (TS8, Some [VS8 (-1); VS8 (-2); VS8 (-3)], [VU32 0; VU32 3], [0xff; 0xfe; 0xfd]);
  (TS16, Some [VS16 (-1); VS16 (-2); VS16 (-3)], [VU32 0; VU32 3], [0xff; 0xff; 0xfe; 0xff; 0xfd; 0xff]);
  (TS32, Some [VS32 (-1); VS32 (-2); VS32 (-3)], [VU32 0; VU32 3], [0xff; 0xff; 0xff; 0xff; 0xfe; 0xff; 0xff; 0xff; 0xfd; 0xff; 0xff; 0xff]);
  (TS64, Some [VS64 (-1); VS64 (-2)], [VU32 0; VU32 2], [0xff; 0xff; 0xff; 0xff; 0xff; 0xff; 0xff; 0xff; 0xfe; 0xff; 0xff; 0xff; 0xff; 0xff; 0xff; 0xff]);
  (TChar, Some [VS32 65; VS32 66; VS32 99], [VU32 0; VU32 3], [65; 0; 0; 0; 66; 0; 0; 0; 99; 0; 0; 0]);
  (TString, Some [VStr [104; 105]; VStr [119; 97; 116]], [VU32 0; VU32 2],
    [16; 0; 0; 0; 2; 0; 0; 0; 21; 0; 0; 0; 3; 0; 0; 0; 104; 105; 0xf; 0xf; 0xf; 119; 97; 116]);
  (TList TU8, Some [VList [VU8 3; VU8 4; VU8 5]; VList []; VList [VU8 6; VU8 7]], [VU32 0; VU32 3],
    [24; 0; 0; 0; 3; 0; 0; 0; 0; 0; 0; 0; 0; 0; 0; 0; 27; 0; 0; 0; 2; 0; 0; 0; 3; 4; 5; 6; 7]);
  (TList TU16, Some [VList [VU16 5; VU16 6]], [VU32 0; VU32 1], [8; 0; 0; 0; 2; 0; 0; 0; 5; 0; 6; 0]);
  (TList TU16, None, [VU32 0; VU32 1], [9; 0; 0; 0; 2; 0; 0; 0; 0; 5; 0; 6; 0]);
  (TTuple [TU8; TU8; TU16; TU32], Some [tuple [VU8 6; VU8 7; VU16 8; VU32 9]; tuple [VU8 4; VU8 5; VU16 6; VU32 7]], [VU32 0; VU32 2],
    [6; 7; 8; 0; 9; 0; 0; 0; 4; 5; 6; 0; 7; 0; 0; 0]);
  (TTuple [TU8; TU16; TU8; TU32], Some [tuple [VU8 6; VU16 7; VU8 8; VU32 9]; tuple [VU8 4; VU16 5; VU8 6; VU32 7]], [VU32 0; VU32 2],
    [6; 0xff; 7; 0; 8; 0xff; 0xff; 0xff; 9; 0; 0; 0; 4; 0xff; 5; 0; 6; 0xff; 0xff; 0xff; 7; 0; 0; 0]);
  (TTuple [TU16; TU8], Some [tuple [VU16 6; VU8 7]; tuple [VU16 8; VU8 9]], [VU32 0; VU32 2], [6; 0; 7; 0xff; 8; 0; 9; 0xff]);
  (TTuple [TTuple [TU16; TU8]; TU8], Some [tuple [tuple [VU16 4; VU8 5]; VU8 6]; tuple [tuple [VU16 7; VU8 8]; VU8 9]], [VU32 0; VU32 2],
    [4; 0; 5; 0xff; 6; 0xff; 7; 0; 8; 0xff; 9; 0xff]);
  (TUnion [TRecord []; TU8; TTuple [TU8; TU16]], Some [VMap [("0", VMap [])]; VMap [("1", VU8 42)]; VMap [("2", tuple [VU8 6; VU16 7])]],
    [VU32 0; VU32 3], [0; 0xff; 0xff; 0xff; 0xff; 0xff; 1; 0xff; 42; 0xff; 0xff; 0xff; 2; 0xff; 6; 0xff; 7; 0]);
  (TUnion [TU32; TU8], Some [VMap [("0", VU32 256)]; VMap [("1", VU8 42)]], [VU32 0; VU32 2],
    [0; 0xff; 0xff; 0xff; 0; 1; 0; 0; 1; 0xff; 0xff; 0xff; 42; 0xff; 0xff; 0xff]);
  (TTuple [TUnion [TU8; TTuple [TU16; TU8]]; TU8],
    Some [tuple [VMap [("1", tuple [VU16 5; VU8 6])]; VU8 7]; tuple [VMap [("0", VU8 8)]; VU8 9]], [VU32 0; VU32 2],
    [1; 0xff; 5; 0; 6; 0xff; 7; 0xff; 0; 0xff; 8; 0xff; 0xff; 0xff; 9; 0xff]);
  (TUnion [TU8], Some [VMap [("0", VU8 6)]; VMap [("0", VU8 7)]; VMap [("0", VU8 8)]], [VU32 0; VU32 3], [0; 6; 0; 7; 0; 8]);
  (TFlags [], Some [VMap []; VMap []; VMap []], [VU32 0; VU32 3], []);
  (TTuple [TFlags []; TU8], Some [tuple [VMap []; VU8 42]; tuple [VMap []; VU8 43]; tuple [VMap []; VU8 44]], [VU32 0; VU32 3], [42; 43; 44]);
  (TFlags ["a"; "b"], Some [ab false false; ab false true; ab true true], [VU32 0; VU32 3], [0; 2; 3]);
  (TFlags ["a"; "b"], Some [ab false false; ab false true; ab false false], [VU32 0; VU32 3], [0; 2; 4]);
  (TFlags (labels 9), Some [all_set 9 true; all_set 9 false], [VU32 0; VU32 2], [0xff; 1; 0; 0]);
  (TFlags (labels 9), Some [all_set 9 true; all_set 9 false], [VU32 0; VU32 2], [0xff; 3; 0; 0]);
  (TFlags (labels 17), Some [all_set 17 true; all_set 17 false], [VU32 0; VU32 2], [0xff; 0xff; 1; 0; 0; 0; 0; 0]);
  (TFlags (labels 17), Some [all_set 17 true; all_set 17 false], [VU32 0; VU32 2], [0xff; 0xff; 3; 0; 0; 0; 0; 0]);
  (TFlags (labels 33), Some [all_set 33 true; all_set 33 false], [VU32 0; VU32 2], [0xff; 0xff; 0xff; 0xff; 1; 0; 0; 0; 0; 0; 0; 0; 0; 0; 0; 0]);
  (TFlags (labels 33), Some [all_set 33 true; all_set 33 false], [VU32 0; VU32 2], [0xff; 0xff; 0xff; 0xff; 3; 0; 0; 0; 0; 0; 0; 0; 0; 0; 0; 0])] = true.
Proof. vm_compute. reflexivity. Qed.

(** abi/io/pair_test.go:21-94 TestPairs *)
Definition pairs (t : valtype) (l : list (any * any)) : bool := forallb (fun p => test t [fst p] (Some (snd p))) l.
Definition traps (t : valtype) (l : list N) : bool := forallb (fun n => test t [VU32 n] None) l.
Example pair_test :
  pairs TBool [(VU32 0, VBool false); (VU32 1, VBool true); (VU32 2, VBool true); (VU32 4294967295, VBool true)] &&
  pairs TU8 [(VU32 127, VU8 127); (VU32 128, VU8 128); (VU32 255, VU8 255); (VU32 256, VU8 0); (VU32 4294967295, VU8 255);
             (VU32 4294967168, VU8 128); (VU32 4294967167, VU8 127)] &&
  pairs TS8 [(VU32 127, VS8 127); (VU32 128, VS8 (-128)); (VU32 255, VS8 (-1)); (VU32 256, VS8 0); (VU32 4294967295, VS8 (-1));
             (VU32 4294967168, VS8 (-128)); (VU32 4294967167, VS8 127)] &&
  pairs TU16 [(VU32 32767, VU16 32767); (VU32 32768, VU16 32768); (VU32 65535, VU16 65535); (VU32 65536, VU16 0);
              (VU32 (2 ^ 32 - 1), VU16 65535); (VU32 (2 ^ 32 - 32768), VU16 32768); (VU32 (2 ^ 32 - 32769), VU16 32767)] &&
  pairs TS16 [(VU32 32767, VS16 32767); (VU32 32768, VS16 (-32768)); (VU32 65535, VS16 (-1)); (VU32 65536, VS16 0);
              (VU32 (2 ^ 32 - 1), VS16 (-1)); (VU32 (2 ^ 32 - 32768), VS16 (-32768)); (VU32 (2 ^ 32 - 32769), VS16 32767)] &&
  pairs TU32 [(VU32 (2 ^ 31 - 1), VU32 (2 ^ 31 - 1)); (VU32 (2 ^ 31), VU32 (2 ^ 31)); (VU32 (2 ^ 32 - 1), VU32 (2 ^ 32 - 1))] &&
  pairs TS32 [(VU32 (2 ^ 31 - 1), VS32 (2 ^ 31 - 1)); (VU32 (2 ^ 31), VS32 (- 2 ^ 31)); (VU32 (2 ^ 32 - 1), VS32 (-1))] &&
  pairs TU64 [(VU64 (2 ^ 63 - 1), VU64 (2 ^ 63 - 1)); (VU64 (2 ^ 63), VU64 (2 ^ 63)); (VU64 (2 ^ 64 - 1), VU64 (2 ^ 64 - 1))] &&
  pairs TS64 [(VU64 (2 ^ 63 - 1), VS64 (2 ^ 63 - 1)); (VU64 (2 ^ 63), VS64 (- 2 ^ 63)); (VU64 (2 ^ 64 - 1), VS64 (-1))] &&
  pairs TF32 [(VF32 pi32, VF32 pi32)] && pairs TF64 [(VF64 pi64, VF64 pi64)] &&
  pairs TChar [(VU32 0, VS32 0); (VU32 65, VS32 65); (VU32 0xD7FF, VS32 0xD7FF); (VU32 0xE000, VS32 0xE000); (VU32 0x10FFFF, VS32 0x10FFFF)] &&
  traps TChar [0xD800; 0xDFFF; 0x110000; 0xFFFFFFFF] &&
  pairs (TEnum ["a"; "b"]) [(VU32 0, VMap [("a", VNil)]); (VU32 1, VMap [("b", VNil)])] &&
  traps (TEnum ["a"; "b"]) [2] = true.
Proof. vm_compute. reflexivity. Qed.

(** abi/io/nan_test.go:14-57 TestNan32, 59-106 TestNan64; the two NaNs are
    abi/values/float.go *)
Definition le (n : nat) (x : N) : list N := map (fun i => x / 256 ^ N.of_nat i mod 256) (seq 0 n).
Definition nan (n : nat) (t : valtype) (c : N -> cval) (v : N -> any) (p : N * N) : bool :=
  match fst (lift_flat (ctx EncUtf8) t (IBase [c (fst p)] 0) (fresh (mem_of []))), fst (load (ctx EncUtf8) t 0 (fresh (mem_of (le n (fst p))))) with
  | Ok (a, _), Ok b => deep_equal a (v (snd p)) && deep_equal b (v (snd p))
  | _, _ => false
  end.
Example nan_test32 : forallb (nan 4 TF32 CF32 VF32)
  [(0x7fc00000, 0x7fc00000); (0x7fc00001, 0x7fc00000); (0x7fe00000, 0x7fc00000); (0x7fffffff, 0x7fc00000); (0xffffffff, 0x7fc00000);
   (0x7f800000, 0x7f800000); (0x3fc00000, 0x3fc00000)] = true.
Proof. vm_compute. reflexivity. Qed.
Example nan_test64 : forallb (nan 8 TF64 CF64 VF64)
  [(0x7ff8000000000000, 0x7ff8000000000000); (0x7ff8000000000001, 0x7ff8000000000000); (0x7ffc000000000000, 0x7ff8000000000000);
   (0x7fffffffffffffff, 0x7ff8000000000000); (0xffffffffffffffff, 0x7ff8000000000000);
   (0x7ff0000000000000, 0x7ff0000000000000); (0x3ff0000000000000, 0x3ff0000000000000)] = true.
Proof. vm_compute. reflexivity. Qed.

(** abi/io/string_test.go:13-105 TestString, and encoding/encoding_test.go:12-67
    TestRoundTrip. The strings are given by their code points. *)
Definition strings : list (list N) := map utf8_encode
  [[]; [97]; [104; 105]; [0]; [97; 0; 98]; [0; 98]; [0x80]; [0x80; 98]; [97; 98; 0xef; 99]; [0x1ff; 121]; [120; 121; 0x1ff];
   [97; 0xd7ff; 98]; [97; 0x2ff; 0x3ff; 0x4ff; 98; 99]; [0xf123]; [0xf123; 0xf123; 97; 98; 99]; [97; 98; 99; 100; 101; 102; 0xf123]].
Definition string_internal (src dst : strenc) (s encoded : list N) (units : N) : bool :=
  test_in src encoded dst TString [VU32 0; VU32 units] (Some (VStr s)) TString (VStr s).
Definition string_test_one (src dst : strenc) (s : list N) : bool :=
  let '(src, fallback) := match src with EncLatin1Utf16 => (EncLatin1, true) | _ => (src, false) end in
  match get_codec src with
  | Ok c =>
      match encode_string c s with
      | Ok encoded => string_internal src dst s encoded (N.of_nat (List.length encoded) / codec_rune_size c)
      | _ =>
          fallback &&
          match get_codec EncUtf16 with
          | Ok c =>
              match encode_string c s with
              | Ok encoded =>
                  string_internal EncUtf16 dst s encoded
                    (tagged_to_u32 (mkTagged (N.of_nat (List.length encoded) / codec_rune_size c) true))
              | _ => false
              end
          | _ => false
          end
      end
  | _ => false
  end.
Definition src_dst := let l := [EncUtf8; EncUtf16; EncLatin1Utf16] in list_prod l l.
Example string_test : forallb (fun s => forallb (fun p => string_test_one (fst p) (snd p) s) src_dst) strings = true.
Proof. vm_compute. reflexivity. Qed.
Example encoding_test : forallb (fun s => forallb (fun e =>
    match get_codec e, get_codec EncUtf16LE with
    | Ok c, Ok fb =>
        let '(c, r) := match encode_string c s, e with Ok b, _ => (c, Ok b) | _, EncLatin1 => (fb, encode_string fb s) | r, _ => (c, r) end in
        match r with
        | Ok b => match decode_string c b with Ok s' => if list_eq_dec N.eq_dec s s' then true else false | _ => false end
        | _ => false
        end
    | _, _ => false
    end) [EncUtf8; EncUtf16; EncUtf16BE; EncUtf16LE; EncLatin1]) strings = true.
Proof. vm_compute. reflexivity. Qed.

(** abi/io/code_units_test.go:11-39 TestCodeUnits *)
Example code_units_test : u32_to_tagged (N.lxor (2 ^ 31) 10) = mkTagged 10 true /\ u32_to_tagged 10 = mkTagged 10 false.
Proof. split; vm_compute; reflexivity. Qed.

(** abi/io/roundtrip_test.go:14-66 TestCanRoundTrip: the caller is instance 0,
    the callee instance 1 with its own heap. *)
Definition func (ps rs : list valtype) : functype := mkFuncType (itoa_fields ps) (itoa_fields rs).
Definition heap_opts : options := mkOpts EncUtf8 heap None.
Definition round_trip (t : valtype) (v : any) : bool :=
  let s := mkState (mem_of (zeros 1000)) [] (mkWorld [] [mkCall [] 0] [mkInst true true []; mkInst true true []] []) in
  let m := mem_of (zeros 1000) in
  let callee := linked (fun m => m) heap_opts 1 (fun v => ret (VList v)) (func [t] [t]) 16 16 m [] in
  match lower_flat (ctx EncUtf8) t v s with
  | (Ok flat, s) =>
      match canon_lower (fun m => m) heap_opts 0 callee true (func [t] [t]) (map VCore flat) 16 16 s with
      | (Ok results, s) =>
          match as_core results with
          | Ok cs =>
              match lift_flat (ctx EncUtf8) t (IBase cs 0) s with
              | (Ok (got, _), s) => deep_equal got v && forallb (fun i => i_may_enter i && i_may_leave i) (w_insts (s_world s))
              | _ => false
              end
          | _ => false
          end
      | _ => false
      end
  | _ => false
  end.
Example roundtrip_test :
  round_trip TS8 (VS8 (-1)) && round_trip (TTuple [TU16; TU16]) (tuple [VU16 3; VU16 4]) &&
  round_trip (TList TString) (VList [VStr [104; 101; 108; 108; 111; 32; 116; 104; 101; 114; 101]]) &&
  round_trip (TList (TList TString)) (VList [VList []; VList []]) &&
  round_trip (TList (TOption (TTuple [TString; TU16]))) (VList [VMap [("some", tuple [VStr [97; 110; 115; 119; 101; 114]; VU16 42])]]) = true.
Proof. vm_compute. reflexivity. Qed.

(** abi/io/flatten_test.go:12-61 TestFlatten *)
Definition flat_test (c : functype * list kind * list kind) : bool :=
  let '(ft, ps, rs) := c in
  let same a b := if list_eq_dec (fun x y : kind => ltac:(decide equality)) a b then true else false in
  let params := if Nat.ltb 16 (List.length ps) then [KU32] else ps in
  let results := if Nat.ltb 1 (List.length rs) then [KU32] else rs in
  match flatten_func_type_lift ft 16 1, flatten_func_type_lower ft 16 1 with
  | Ok (a, b), Ok (a', b') =>
      same a params && same b results &&
      (if Nat.ltb 1 (List.length rs) then same a' (params ++ [KU32])%list && same b' [] else same a' params && same b' results)
  | _, _ => false
  end.
Definition ps := [TU8; TF32; TF64].
Definition pks := [KU32; KF32; KF64].
Example flatten_test : forallb flat_test [
  (func ps [], pks, []); (func ps [TF32], pks, [KF32]); (func ps [TU8], pks, [KU32]);
  (func ps [TTuple [TF32]], pks, [KF32]); (func ps [TTuple [TF32; TF32]], pks, [KF32; KF32]); (func ps [TF32; TF32], pks, [KF32; KF32]);
  (func (repeat TU8 17) [], repeat KU32 17, []); (func (repeat TU8 17) [TTuple [TU8; TU8]], repeat KU32 17, repeat KU32 2)] = true.
Proof. vm_compute. reflexivity. Qed.

(** abi/io/handle_test.go:14-148 TestHandles. Instance 0 is inst, instance 1
    implements rt. A failed require is an [Err EEOF] here. *)
Definition rt := mkRType 0 (Some 1%nat) true.
Definition rt2 := mkRType 1 (Some 0%nat) true.
Definition no_heap : options := mkOpts EncUtf8 (fun _ s => (Panic, (s_mem s, s_world s))) None.
Definition require (b : bool) : M unit := if b then ret tt else lift_o (Err EEOF).
Definition any_list (a b : list any) : bool := deep_equal (VList a) (VList b).
Definition core_is (v : any) (n : N) : bool := match v with VCore (CU32 m) => N.eqb m n | _ => false end.
Definition table_is (array : list bool) (free : nat) : M unit :=
  let* w := get_world in
  match nth_error (w_insts w) 0 with
  | Some i =>
      match i_tables i with
      | (0, t) :: _ | _ :: (0, t) :: _ =>
          require (Nat.eqb (List.length (t_array t)) (List.length array) &&
                   forallb (fun p => Bool.eqb (fst p) (match snd p with Some _ => true | None => false end)) (combine array (t_array t)) &&
                   Nat.eqb (List.length (t_free t)) free)
      | _ => require false
      end
  | None => require false
  end.
Definition dtors : M nat := let* w := get_world in ret (List.length (w_dtors w)).
Definition host_import (args : list any) : M (list any * option (M unit)) :=
  require (any_list args [VU32 42; VU32 44]) ;; ret ([VU32 45], Some (ret tt)).
Definition core_wasm (args : list any) : M any :=
  require (Nat.eqb (List.length args) 4 && forallb (fun p => core_is (fst p) (snd p)) (combine args [0; 1; 2; 13])) ;;
  let* r0 := canon_resource_rep 0 rt 0 in
  let* r1 := canon_resource_rep 0 rt 1 in
  let* r2 := canon_resource_rep 0 rt 2 in
  require (N.eqb r0 42 && N.eqb r1 43 && N.eqb r2 44) ;;
  let* results := canon_lower (fun m => m) no_heap 0 host_import true (func [TBorrow rt; TBorrow rt] [TOwn rt])
                    [VCore (CU32 0); VCore (CU32 2)] 16 16 in
  require (match results with [v] => core_is v 3 | _ => false end) ;;
  let* r3 := canon_resource_rep 0 rt 3 in
  require (N.eqb r3 45) ;;
  let* n := dtors in
  canon_resource_drop 0 rt 0 ;;
  let* w := get_world in
  require (match w_dtors w with (0, 42) :: l => Nat.eqb (List.length l) n | _ => false end) ;;
  table_is [false; true; true; true] 1 ;;
  let* h := canon_resource_new 0 rt 46 in
  require (N.eqb h 0) ;;
  table_is [true; true; true; true] 0 ;;
  let* n := dtors in
  canon_resource_drop 0 rt 2 ;;
  let* n' := dtors in
  require (Nat.eqb n n') ;;
  table_is [true; true; false; true] 1 ;;
  ret (VList [VCore (CU32 0); VCore (CU32 1); VCore (CU32 3)]).
Example handle_test : fst (
  (let* (got, _) := canon_lift (fun m => m) no_heap 0 core_wasm (func [TOwn rt; TOwn rt; TBorrow rt; TBorrow rt2] [TOwn rt; TOwn rt; TOwn rt])
                      [VU32 42; VU32 43; VU32 44; VU32 13] 16 16 in
   require (any_list got [VU32 46; VU32 43; VU32 45]) ;;
   table_is [false; false; false; false] 4)
  (mkState (mem_of []) [] (mkWorld [] [] [mkInst true true []; mkInst true true []] []))) = Ok tt.
Proof. vm_compute. reflexivity. Qed.
