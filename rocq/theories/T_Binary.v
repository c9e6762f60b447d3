(** The repository's own unit tests of leb128 and binary, run on the model; see
    T_Wat.v. *)
From Coq Require Import NArith List.
From Verif Require Import GoBase M_Leb128 M_Api M_Binary.
Import ListNotations.
Open Scope N_scope.

(** leb128/decode_test.go:12-53, leb128/encode_test.go:12-34 *)
Definition numbers : list (list N * N) :=
  [([0x08], 8); ([0x80; 0x7f], 16256); ([0xE5; 0x8E; 0x26], 624485); ([0x80; 0x80; 0x80; 0xfd; 0x07], 2141192192)].
Example leb128_test : Forall (fun p : list N * N => let (buf, value) := p in
  (exists n, leb_decode_slice buf = Ok (value, n)) /\ (exists n rest, leb_decode buf = Ok (value, n, rest)) /\ leb_encode value = buf) numbers.
Proof. repeat (constructor; [repeat split; repeat eexists; vm_compute; reflexivity|]). constructor. Qed.

(** binary/read_test.go:12-131 TestRead, on the bytes of the fixtures *)
Definition document_of (bytes : list N) : outcome document :=
  match read (2 ^ 40) bytes with Ok (d, _) => Ok d | Err e => Err e | Panic => Panic | Diverge => Diverge end.
Definition a_module (ts : list functype) (fs : list func) : outcome document :=
  Ok {| d_preamble := {| p_version := 1; p_layer := 0 |}; d_directive := DModule {| m_types := ts; m_funcs := fs; m_exports := [] |} |}.
Example empty : document_of [0; 97; 115; 109; 1; 0; 0; 0] = a_module [] [].
Proof. vm_compute. reflexivity. Qed.
Example func : document_of [0; 97; 115; 109; 1; 0; 0; 0; 1; 4; 1; 96; 0; 0; 3; 2; 1; 0; 10; 4; 1; 2; 0; 11] =
  a_module [{| ft_params := []; ft_returns := [] |}] [{| f_type := 0; f_locals := []; f_body := Some [IEnd] |}].
Proof. vm_compute. reflexivity. Qed.
Example add : document_of [0; 97; 115; 109; 1; 0; 0; 0; 1; 7; 1; 96; 2; 127; 127; 1; 127; 3; 2; 1; 0; 10; 9; 1; 7; 0; 32; 0; 32; 1; 106; 11] =
  a_module [{| ft_params := [I32Type; I32Type]; ft_returns := [I32Type] |}]
           [{| f_type := 0; f_locals := []; f_body := Some [ILocalGet 0; ILocalGet 1; II32Add; IEnd] |}].
Proof. vm_compute. reflexivity. Qed.
Example component : document_of [0; 97; 115; 109; 10; 0; 1; 0] = Ok {| d_preamble := {| p_version := 10; p_layer := 1 |}; d_directive := DComponent |}.
Proof. vm_compute. reflexivity. Qed.
