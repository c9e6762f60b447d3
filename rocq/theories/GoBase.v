(** Base definitions shared by all models: outcomes of Go calls, fixed-width
    arithmetic, Go maps with string keys, decimal rendering. *)
From Coq Require Import NArith ZArith List String Ascii Bool Lia.
Import ListNotations.
Open Scope N_scope.

(** Errors. Message texts are not modelled.
    [ETrap]: made by types.TrapWith (abi/types/trap.go:14-18).
    [ECast]: made by types.NewCastError (abi/types/cast.go:9-12).
    [ENotExist]: wraps encoding.ErrNotExist (encoding/factory.go:39-47).
    [EEOF]: io.EOF / io.ErrUnexpectedEOF.
    [EOther]: every other error. *)
Inductive goerr := ETrap | ECast | ENotExist | EEOF | EOther.

(** Result of running a Go function returning (A, error): normal return,
    error return, run-time panic, or non-termination. The functions of
    abi/io/load.go:13-452 and abi/io/store.go:13-554, for example. *)
Inductive outcome (A : Type) : Type :=
| Ok (a : A)
| Err (e : goerr)
| Panic
| Diverge.
Arguments Ok {A} a.
Arguments Err {A} e.
Arguments Panic {A}.
Arguments Diverge {A}.

(** x, err := f(); if err != nil { return err }, as at abi/io/size.go:52-74 *)
Definition obind {A B} (x : outcome A) (f : A -> outcome B) : outcome B :=
  match x with
  | Ok a => f a
  | Err e => Err e
  | Panic => Panic
  | Diverge => Diverge
  end.

Declare Scope go_scope.
Delimit Scope go_scope with go.
Notation "'olet' x ':=' e 'in' f" := (obind e (fun x => f))
  (at level 200, x pattern, e at level 100, f at level 200, right associativity) : go_scope.
Open Scope go_scope.

(** Powers of two that bound Go's fixed-width integers, as used for instance
    at abi/io/store.go:120-199. *)
Definition two8 : N := 256.
Definition two16 : N := 65536.
Definition two31 : N := 2147483648.
Definition two32 : N := 4294967296.
Definition two63 : N := 9223372036854775808.
Definition two64 : N := 18446744073709551616.

(** Go conversions to unsigned types truncate, as at abi/io/store.go:120-199. *)
Definition u8 (n : N) : N := n mod two8.
Definition u16 (n : N) : N := n mod two16.
Definition u32 (n : N) : N := n mod two32.
Definition u64 (n : N) : N := n mod two64.

(** Go conversion of an unsigned w-bit pattern to the signed w-bit type
    (two's complement); [m] is 2^w. As at abi/io/load.go:161-184. *)
Definition to_signed (m : N) (n : N) : Z :=
  let r := n mod m in
  if 2 * r <? m then Z.of_N r else (Z.of_N r - Z.of_N m)%Z.

(** Go conversion of a signed value to an unsigned type of modulus [m], as at
    abi/io/store.go:120-199. *)
Definition of_signed (m : N) (z : Z) : N := Z.to_N (z mod Z.of_N m).

(** uint32 addition and multiplication, as at abi/io/load.go:247,286. *)
Definition add32 (a b : N) : N := (a + b) mod two32.
Definition mul32 (a b : N) : N := (a * b) mod two32.

(** A Go map[string]T as an association list (first entry wins), as read at
    abi/io/store.go:451-480. *)
Fixpoint map_get {A} (m : list (string * A)) (k : string) : option A :=
  match m with
  | [] => None
  | (k', v) :: m' => if String.eqb k k' then Some v else map_get m' k
  end.

(** m[k] = v, as at abi/io/load.go:301-325 *)
Fixpoint map_set {A} (m : list (string * A)) (k : string) (v : A) : list (string * A) :=
  match m with
  | [] => [(k, v)]
  | (k', v') :: m' =>
      if String.eqb k k' then (k, v) :: m' else (k', v') :: map_set m' k v
  end.

(** strconv.Itoa on non-negative arguments, called at
    abi/io/despecialize.go:15,23. *)
Definition digit_ascii (d : N) : ascii := ascii_of_N (48 + d).
Fixpoint itoa_aux (fuel : nat) (n : N) (acc : string) : string :=
  match fuel with
  | O => acc
  | S f =>
      let acc' := String (digit_ascii (n mod 10)) acc in
      if n / 10 =? 0 then acc' else itoa_aux f (n / 10) acc'
  end.
Definition itoa (n : N) : string := itoa_aux (S (N.to_nat (N.log2 n))) n EmptyString.

(** Replace position [i] of a list (no effect when out of range): assignments
    like ht.Array[i] = h at abi/types/handle.go:21-67. *)
Fixpoint list_upd {A} (l : list A) (i : nat) (x : A) : list A :=
  match l, i with
  | [], _ => []
  | _ :: l', O => x :: l'
  | a :: l', S i' => a :: list_upd l' i' x
  end.

(** Number the elements of a list from [i] on: loops like
    "for i, typ := range" at abi/io/despecialize.go:13,22. *)
Fixpoint enum_from {A} (i : N) (l : list A) : list (N * A) :=
  match l with
  | [] => []
  | x :: l' => (i, x) :: enum_from (N.succ i) l'
  end.
