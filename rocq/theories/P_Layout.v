(** Properties C04-C08, C32. *)
From Coq Require Import NArith ZArith List String Bool Lia.
From Verif Require Import GoBase M_Types M_Layout S_Layout L_Layout M_State M_Utf M_Load M_Store M_Flat
  S_Access L_Access L_Variant L_Despecialize L_FuncType.
Import ListNotations.
Open Scope N_scope.
Open Scope go_scope.

(** ** C04 *)

Theorem align_to_least : forall ptr a y, a <> 0 ->
  least_multiple a ptr y -> y < 2 ^ 32 -> align_to ptr a = Ok y.
Proof.
  intros ptr a y Ha (H1 & H2 & H3) Hy.
  destruct (up_to_least a ptr Ha) as (K1 & K2 & K3).
  assert (E : up_to a ptr = y) by (specialize (H3 _ K1 K2); specialize (K3 _ H1 H2); lia).
  rewrite align_to_up, E, u32_small by assumption. reflexivity.
Qed.
Print Assumptions align_to_least.

Example align_to_least_ex : least_multiple 8 13 16 /\ align_to 13 8 = Ok 16.
Proof.
  split; [|reflexivity]. split; [exists 2; reflexivity|]. split; [lia|].
  intros z [k ->] H. lia.
Qed.

(** Without the bound: the least multiple, modulo 2^32. *)
Theorem align_to_mod : forall ptr a, a <> 0 ->
  exists y, least_multiple a ptr y /\ align_to ptr a = Ok (y mod 2 ^ 32).
Proof.
  exact (fun ptr a Ha => ex_intro _ _ (conj (up_to_least a ptr Ha) (align_to_up ptr a Ha))).
Qed.
Print Assumptions align_to_mod.

(** The answer can be below the pointer. *)
Theorem align_to_not_below_refuted : exists ptr a p,
  ptr < 2 ^ 32 /\ a <> 0 /\ align_to ptr a = Ok p /\ p < ptr.
Proof. exists (2 ^ 32 - 1), 8, 0. vm_compute. repeat split; congruence. Qed.
Print Assumptions align_to_not_below_refuted.

(** ** C05 *)

(** Whatever Size returns, Alignment succeeds too, is 1, 2, 4 or 8 and divides
    it. *)
Theorem alignment_divides_size : forall t s, size t = Ok s ->
  exists a, alignment t = Ok a /\ (a = 1 \/ a = 2 \/ a = 4 \/ a = 8) /\ (a | s).
Proof.
  intros t s H. destruct (layout_ok_all t) as (_ & L).
  destruct (sp_layout t) as [[a s0]|].
  - destruct L as (Ha & Hv & _ & s' & Hs & Hd & _ & _). rewrite H in Hs. inversion Hs; subst. eauto.
  - destruct L as (e & L). congruence.
Qed.
Print Assumptions alignment_divides_size.

(** Alignment and Size are those of the Canonical ABI. *)
Theorem layout_as_specified : forall t a s, sp_layout t = Some (a, s) -> s < 2 ^ 32 ->
  alignment t = Ok a /\ size t = Ok s.
Proof.
  intros t a s H Hs. destruct (sp_layout_facts t a s H) as (Ha & _ & _ & K). auto.
Qed.
Print Assumptions layout_as_specified.

(** Types without a layout have no size. *)
Theorem no_layout_no_size : forall t, sp_layout t = None -> exists e, size t = Err e.
Proof.
  intros t H. destruct (layout_ok_all t) as (_ & L). rewrite H in L. exact L.
Qed.
Print Assumptions no_layout_no_size.

(** Alignment does not refuse all of them: a variant with such a payload is
    reported to have alignment 0. *)
Theorem no_layout_no_alignment_refuted : exists t, sp_layout t = None /\ alignment t = Ok 0.
Proof. exists (TVariant [mkCase "a"%string (Some (TStream None None)) None]). split; reflexivity. Qed.
Print Assumptions no_layout_no_alignment_refuted.

Definition ex_record : valtype :=
  TRecord [("a", TU8); ("b", TU64); ("c", TTuple [TU16; TOption TU32]); ("d", TString)]%string.
Example layout_ex : sp_layout ex_record = Some (8, 40) /\ size ex_record = Ok 40 /\ alignment ex_record = Ok 8.
Proof. repeat split. Qed.

(** ** C06 *)

(** The specified offsets of the fields: aligned, one behind the other, inside
    the record; and the record's alignment is a multiple of each field's. *)
Theorem record_fields_placed : forall fs ls a s,
  all_some (map (fun f => sp_layout (snd f)) fs) = Some ls ->
  sp_layout (TRecord fs) = Some (a, s) ->
  placed_from 0 (field_offsets 0 ls) ls s /\ Forall (fun p => (fst p | a)) ls.
Proof. exact record_offsets_placed. Qed.
Print Assumptions record_fields_placed.

(** Load reads the fields exactly there, in order. *)
Theorem record_load_reads_at_offsets : forall cx fs ls ptr st,
  all_some (map (fun f => sp_layout (snd f)) fs) = Some ls ->
  (fst (sp_record ls) | ptr) -> ptr + snd (sp_record ls) < 2 ^ 32 ->
  load cx (TRecord fs) ptr st
  = (let* m := load_at (map (fun f => (fst f, load cx (snd f))) fs)
                       (map (N.add ptr) (field_offsets 0 ls)) [] in ret (VMap m)) st.
Proof. exact record_load_offsets. Qed.
Print Assumptions record_load_reads_at_offsets.

(** Store writes the fields exactly there, in order. *)
Theorem record_store_writes_at_offsets : forall cx fs ls m ptr st,
  all_some (map (fun f => sp_layout (snd f)) fs) = Some ls ->
  (fst (sp_record ls) | ptr) -> ptr + snd (sp_record ls) < 2 ^ 32 ->
  ptr + snd (sp_record ls) <= mem_len32 (s_mem st) ->
  store cx (TRecord fs) (VMap m) ptr st
  = store_at (map (fun f => (fst f, store cx (snd f))) fs)
             (map (N.add ptr) (field_offsets 0 ls)) m st.
Proof. exact record_store_offsets. Qed.
Print Assumptions record_store_writes_at_offsets.

Example record_fields_ex :
  all_some (map (fun f => sp_layout (snd f)) [("a", TU8); ("b", TU64); ("c", TU16)]%string)
    = Some [(1, 1); (8, 8); (2, 2)] /\
  field_offsets 0 [(1, 1); (8, 8); (2, 2)] = [0; 8; 16] /\
  sp_record [(1, 1); (8, 8); (2, 2)] = (8, 24) /\ (8 | 64).
Proof. repeat split. exists 8. reflexivity. Qed.

(** ** C07 *)

(** The payload offset is the same for every case: behind the discriminant,
    aligned for each case, and every payload ends inside the variant. *)
Theorem variant_payloads_placed : forall cs ls a s d,
  all_some (payload_types (map (map_case sp_layout) cs)) = Some ls ->
  sp_layout (TVariant cs) = Some (a, s) -> disc_size (List.length cs) = Some d ->
  d <= payload_offset d ls /\ (max_align ls | a) /\ (d | a) /\
  forall c t pa ps, In c cs -> c_type c = Some t -> sp_layout t = Some (pa, ps) ->
    (pa | payload_offset d ls) /\ (pa | a) /\ payload_offset d ls + ps <= s.
Proof. exact variant_payload_placed. Qed.
Print Assumptions variant_payloads_placed.

(** The discriminant is the smallest of 1, 2 and 4 bytes that can number the
    cases. *)
Theorem discriminant_smallest : forall n d, disc_size n = Some d ->
  (d = 1 \/ d = 2 \/ d = 4) /\ N.of_nat n <= 2 ^ (8 * d) /\
  (forall d', d' = 1 \/ d' = 2 \/ d' = 4 -> N.of_nat n <= 2 ^ (8 * d') -> d <= d') /\
  exists dt, discriminant_type n = Ok dt /\ size dt = Ok d.
Proof. exact disc_smallest. Qed.
Print Assumptions discriminant_smallest.

(** Load reads the discriminant at the start (trapping when it is out of
    range, C20) and the payload of the case it selects at the payload offset. *)
Theorem variant_load_reads_at_offset : forall cx cs ls a s d ptr st,
  all_some (payload_types (map (map_case sp_layout) cs)) = Some ls ->
  sp_layout (TVariant cs) = Some (a, s) -> disc_size (List.length cs) = Some d ->
  (a | ptr) -> ptr + s < 2 ^ 32 ->
  load cx (TVariant cs) ptr st
  = (let* i := load_uint d ptr in
     match nth_error cs (N.to_nat i) with
     | None => lift_o (Err ETrap)
     | Some c =>
         let* l := lift_o (case_label c cs) in
         let* v := match c_type c with
                   | None => ret VNil
                   | Some t => load cx t (ptr + payload_offset d ls)
                   end in
         ret (VMap [(l, v)])
     end) st.
Proof. exact variant_load_offsets. Qed.
Print Assumptions variant_load_reads_at_offset.

(** Store writes the number of the matched case at the start and the payload
    at the payload offset. *)
Theorem variant_store_writes_at_offset : forall cx cs ls a s d v ptr st,
  all_some (payload_types (map (map_case sp_layout) cs)) = Some ls ->
  sp_layout (TVariant cs) = Some (a, s) -> disc_size (List.length cs) = Some d ->
  (a | ptr) -> ptr + s < 2 ^ 32 -> ptr + s <= mem_len32 (s_mem st) ->
  store cx (TVariant cs) v ptr st
  = (let* (i, p) := lift_o (match_case v cs) in
     store_uint d i ptr ;;
     match nth_error cs (N.to_nat i) with
     | None => lift_o Panic
     | Some c =>
         match c_type c with
         | None => ret tt
         | Some t => store cx t p (ptr + payload_offset d ls)
         end
     end) st.
Proof. exact variant_store_offsets. Qed.
Print Assumptions variant_store_writes_at_offset.

Example variant_ex :
  let cs := [mkCase "a" (Some TU8) None; mkCase "b" None None; mkCase "c" (Some TU64) None]%string in
  all_some (payload_types (map (map_case sp_layout) cs)) = Some [(1, 1); (8, 8)] /\
  sp_layout (TVariant cs) = Some (8, 16) /\ disc_size (List.length cs) = Some 1 /\
  payload_offset 1 [(1, 1); (8, 8)] = 8.
Proof. repeat split. Qed.

(** ** C08 *)

Theorem specialised_as_despecialised : forall t,
  despecialize (despecialize t) = despecialize t /\
  special (despecialize t) = false /\
  alignment (despecialize t) = alignment t /\ size (despecialize t) = size t /\
  flatten_type (despecialize t) = flatten_type t /\
  forall cx,
    (forall ptr st, load cx (despecialize t) ptr st = load cx t ptr st) /\
    (forall v ptr st, store cx (despecialize t) v ptr st = store cx t v ptr st) /\
    (forall it st, lift_flat cx (despecialize t) it st = lift_flat cx t it st) /\
    (forall v st, lower_flat cx (despecialize t) v st = lower_flat cx t v st).
Proof.
  intros t. split; [apply despecialize_idempotent|]. split; [destruct t; reflexivity|].
  split; [apply alignment_despecialize|]. split; [apply size_despecialize|].
  split; [apply flatten_despecialize|]. intros cx.
  rewrite load_despecialize, store_despecialize, lift_flat_despecialize, lower_flat_despecialize.
  repeat split.
Qed.
Print Assumptions specialised_as_despecialised.

(** What each specialised type abbreviates. *)
Theorem despecialize_table :
  (forall ts, despecialize (TTuple ts) = TRecord (itoa_fields ts)) /\
  (forall ts, despecialize (TUnion ts) = TVariant (itoa_cases ts)) /\
  (forall ls, despecialize (TEnum ls) = TVariant (map (fun l => mkCase l None None) ls)) /\
  (forall t, despecialize (TOption t) =
     TVariant [mkCase "none" None None; mkCase "some" (Some t) None]%string) /\
  (forall ok err, despecialize (TResult ok err) =
     TVariant [mkCase "ok" ok None; mkCase "error" err None]%string).
Proof. repeat split. Qed.
Print Assumptions despecialize_table.

Example despecialize_ex :
  despecialize (TTuple [TU8; TString]) = TRecord [("0", TU8); ("1", TString)]%string.
Proof. reflexivity. Qed.

(** ** C32 *)

Theorem lift_functype_limits : forall ft maxp maxr ps rs, (1 <= maxp)%nat -> (1 <= maxr)%nat ->
  flatten_func_type_lift ft maxp maxr = Ok (ps, rs) ->
  (List.length ps <= maxp /\ List.length rs <= maxr)%nat.
Proof. exact flatten_lift_limits. Qed.
Print Assumptions lift_functype_limits.

Theorem lower_functype_limits : forall ft maxp maxr ps rs, (1 <= maxp)%nat ->
  flatten_func_type_lower ft maxp maxr = Ok (ps, rs) ->
  (List.length ps <= maxp + 1 /\ List.length rs <= maxr)%nat.
Proof. exact flatten_lower_limits. Qed.
Print Assumptions lower_functype_limits.

(** Exactly which signature is produced. *)
Theorem lift_functype_shape : forall ft maxp maxr ps rs,
  flatten_types (map snd (ft_params ft)) = Ok ps ->
  flatten_types (map snd (ft_results ft)) = Ok rs ->
  flatten_func_type_lift ft maxp maxr
  = Ok (if Nat.leb (List.length ps) maxp then ps else [KU32],
        if Nat.leb (List.length rs) maxr then rs else [KU32]).
Proof. exact flatten_lift_shape. Qed.
Print Assumptions lift_functype_shape.

Theorem lower_functype_shape : forall ft maxp maxr ps rs,
  flatten_types (map snd (ft_params ft)) = Ok ps ->
  flatten_types (map snd (ft_results ft)) = Ok rs ->
  flatten_func_type_lower ft maxp maxr
  = Ok (let p := if Nat.leb (List.length ps) maxp then ps else [KU32] in
        if Nat.leb (List.length rs) maxr then (p, rs) else (p ++ [KU32], []))%list.
Proof. exact flatten_lower_shape. Qed.
Print Assumptions lower_functype_shape.

Example functype_ex :
  let ft := mkFuncType [("s", TString); ("n", TU64)]%string [("r", TList TU8)]%string in
  flatten_func_type_lower ft 16 1 = Ok ([KU32; KU32; KU64; KU32], []) /\
  flatten_func_type_lift ft 2 1 = Ok ([KU32], [KU32]).
Proof. repeat split. Qed.
