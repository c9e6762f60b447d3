(** The WebAssembly binary format (core specification, chapter 5), for the
    part the library supports, written as relations between abstract syntax
    and bytes. Independent of the reader: only the abstract syntax of
    [M_Api] and the LEB128 specification are used. *)
From Coq Require Import NArith List.
From Verif Require Import S_Leb128 M_Api.
Import ListNotations.
Open Scope N_scope.

(** 5.2.2: any LEB128 encoding of an unsigned 32-bit number, at most five
    bytes long; it need not be the shortest. *)
Definition u32_bytes (n : N) (bs : list N) : Prop :=
  leb_form bs /\ leb_value bs = n /\ n < 2 ^ 32 /\ (length bs <= 5)%nat.

(** 5.1.3: a vector is its length followed by its elements. *)
Definition vec_bytes {A} (elem : A -> list N -> Prop) (xs : list A) (bs : list N) : Prop :=
  exists n parts, u32_bytes (N.of_nat (length xs)) n /\ Forall2 elem xs parts /\
                  bs = n ++ concat parts.

(** 5.3.1 *)
Inductive valtype_bytes : valtype -> list N -> Prop :=
| vt_i32 : valtype_bytes I32Type [0x7f]
| vt_i64 : valtype_bytes I64Type [0x7e]
| vt_f32 : valtype_bytes F32Type [0x7d]
| vt_f64 : valtype_bytes F64Type [0x7c].

(** 5.3.6 *)
Definition functype_bytes (t : functype) (bs : list N) : Prop :=
  exists ps rs, vec_bytes valtype_bytes (ft_params t) ps /\
                vec_bytes valtype_bytes (ft_returns t) rs /\
                bs = 0x60 :: ps ++ rs.

(** 5.2.4: a name is a vector of bytes. *)
Definition byte_bytes (b : N) (bs : list N) : Prop := b < 256 /\ bs = [b].
Definition name_bytes : list N -> list N -> Prop := vec_bytes byte_bytes.

(** 5.5.10: an exported function. *)
Definition export_bytes (e : export) (bs : list N) : Prop :=
  exists nm ix, name_bytes (ex_name e) nm /\ u32_bytes (ex_func e) ix /\
                bs = nm ++ 0x00 :: ix.

(** 5.4: the instructions of the subset, other than end. *)
Inductive instr_bytes : instr -> list N -> Prop :=
| ib_local_get i bs : u32_bytes i bs -> instr_bytes (ILocalGet i) (0x20 :: bs)
| ib_i32_add : instr_bytes II32Add [0x6a].

(** 5.4.9: an expression is its instructions followed by end. *)
Definition expr_bytes (is : list instr) (bs : list N) : Prop :=
  exists parts, Forall2 instr_bytes is parts /\ bs = concat parts ++ [0x0b].

(** 5.5.13: a local declaration is a count and a type. *)
Definition locals_bytes (l : N * valtype) (bs : list N) : Prop :=
  exists n t, u32_bytes (fst l) n /\ valtype_bytes (snd l) t /\ bs = n ++ t.

(** A function of the subset: type index, local declarations, instructions. *)
Record wfunc := { wf_type : N; wf_locals : list (N * valtype); wf_instrs : list instr }.

(** 5.5.13: an entry of the code section is a size followed by that many
    bytes. *)
Definition code_bytes (f : wfunc) (bs : list N) : Prop :=
  exists ls ex sz, vec_bytes locals_bytes (wf_locals f) ls /\
                   expr_bytes (wf_instrs f) ex /\
                   u32_bytes (N.of_nat (length (ls ++ ex))) sz /\
                   bs = sz ++ ls ++ ex.

(** 5.5.2: a section is an id, a size and that many bytes. *)
Definition section_bytes (id : N) (payload bs : list N) : Prop :=
  exists sz, u32_bytes (N.of_nat (length payload)) sz /\ bs = id :: sz ++ payload.

(** A byte string that is one section of some kind. *)
Definition is_section (bs : list N) : Prop := exists id payload, section_bytes id payload bs.

(** Sections of other kinds (custom sections, tables, memories, ...), any
    number of them with any contents. *)
Definition other_id (id : N) : Prop := id < 256 /\ id <> 1 /\ id <> 3 /\ id <> 7 /\ id <> 10.
Inductive other_bytes : list N -> Prop :=
| other_none : other_bytes []
| other_one id payload s bs :
    other_id id -> section_bytes id payload s -> other_bytes bs -> other_bytes (s ++ bs).

(** A section holding a vector may be left out when the vector is empty. *)
Definition vec_section {A} (id : N) (elem : A -> list N -> Prop) (xs : list A) (bs : list N) : Prop :=
  (xs = [] /\ bs = []) \/
  exists payload, vec_bytes elem xs payload /\ section_bytes id payload bs.

Record wmodule := { wm_types : list functype; wm_funcs : list wfunc; wm_exports : list export }.

(** 5.5.16: magic, version, then the sections in their prescribed order with
    other sections anywhere between them. *)
Definition module_bytes (m : wmodule) (bs : list N) : Prop :=
  exists o0 ts o1 fs o2 es o3 cs o4,
    other_bytes o0 /\ other_bytes o1 /\ other_bytes o2 /\ other_bytes o3 /\ other_bytes o4 /\
    vec_section 1 functype_bytes (wm_types m) ts /\
    vec_section 3 u32_bytes (map wf_type (wm_funcs m)) fs /\
    vec_section 7 export_bytes (wm_exports m) es /\
    vec_section 10 code_bytes (wm_funcs m) cs /\
    bs = [0x00; 0x61; 0x73; 0x6d; 0x01; 0x00; 0x00; 0x00] ++
         o0 ++ ts ++ o1 ++ fs ++ o2 ++ es ++ o3 ++ cs ++ o4.

(** The api value that represents a module: a function's locals are its
    declarations expanded, its body its instructions followed by End. *)
Definition expand_locals (l : list (N * valtype)) : list valtype :=
  concat (map (fun d => repeat (snd d) (N.to_nat (fst d))) l).
Definition api_func (f : wfunc) : func :=
  {| f_type := wf_type f; f_locals := expand_locals (wf_locals f);
     f_body := Some (wf_instrs f ++ [IEnd]) |}.
Definition api_module (m : wmodule) : module :=
  {| m_types := wm_types m; m_funcs := map api_func (wm_funcs m); m_exports := wm_exports m |}.

(** No function declares locals. *)
Definition no_locals (m : wmodule) : Prop := Forall (fun f => wf_locals f = []) (wm_funcs m).
