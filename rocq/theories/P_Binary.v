(** Properties C34 and C35: the binary reader. *)
From Coq Require Import Arith NArith List Bool Lia ZifyNat ZifyN.
From Verif Require Import GoBase M_Leb128 S_Leb128 L_Leb128 M_Api M_Binary S_Binary L_Binary.
Import ListNotations.
Open Scope N_scope.

(** Every allocation up to 2^32-1 elements succeeds. *)
Definition enough (heap : N) : Prop := 2 ^ 32 - 1 <= heap.

Definition header : list N := [0x00; 0x61; 0x73; 0x6d; 0x01; 0x00; 0x00; 0x00].

Definition module_doc (layer : N) (m : module) : document :=
  {| d_preamble := {| p_version := 1; p_layer := layer |}; d_directive := DModule m |}.

Lemma read_header8 heap s :
  read heap (header ++ s) =
  obind (read_module heap s) (fun x => Ok (module_doc 0 (fst x), snd x)).
Proof.
  unfold read, rbind at 1. unfold read_preamble, read_bytes.
  assert (E : forall A (f : list N -> reader A) n c r, n = N.of_nat (length c) ->
            rbind (read_full n) f (c ++ r) = f c r).
  { intros A f n c r Hn. apply rbind_ok. now apply reads_full. }
  change (header ++ s) with (magic ++ [1; 0] ++ [0; 0] ++ s).
  rewrite (E _ _ _ magic) by reflexivity. cbn [bytes_equal negb magic N.eqb andb Pos.eqb].
  change (negb (bytes_equal magic magic)) with false. cbv iota.
  unfold read_uint16.
  unfold rbind at 1, obind at 2. rewrite (E _ _ 2 [1; 0]) by reflexivity. unfold rret at 1.
  unfold rbind at 1, obind at 2. rewrite (E _ _ 2 [0; 0]) by reflexivity. unfold rret at 1 2.
  cbn [obind p_version]. change (1 + 256 * 0 =? component_version) with false.
  change (1 + 256 * 0 =? module_version) with true. cbv iota. unfold rbind, rret.
  destruct (read_module heap s) as [[m r]|e| |]; reflexivity.
Qed.

(** *** C34: reading the standard encoding of a module of the subset returns
    the module, for every module whose functions declare no locals, whatever
    other sections stand between the known ones. *)
Theorem module_read_back heap m bs :
  enough heap -> module_bytes m bs -> no_locals m ->
  read heap bs = Ok (module_doc 0 (api_module m), []).
Proof.
  intros Hh (o0 & ts & o1 & fs & o2 & es & o3 & cs & o4 & O0 & O1 & O2 & O3 & O4 & Ht & Hf & He & Hc & ->) Hl.
  change [0x00; 0x61; 0x73; 0x6d; 0x01; 0x00; 0x00; 0x00] with header.
  rewrite read_header8.
  destruct (takes_module heap Hh m _ _ _ _ _ _ _ _ _ Hl O0 O1 O2 O3 O4 Ht Hf He Hc) as (secs & Es & Hch).
  rewrite Es. unfold read_module.
  rewrite (chain_reads heap Hh _ _ _ Hch) by lia. reflexivity.
Qed.
Print Assumptions module_read_back.

(** A module with two functions, an export and a custom section. *)
Definition sample : wmodule :=
  {| wm_types := [{| ft_params := [I32Type; I32Type]; ft_returns := [I32Type] |}];
     wm_funcs := [{| wf_type := 0; wf_locals := []; wf_instrs := [ILocalGet 0; ILocalGet 1; II32Add] |};
                  {| wf_type := 0; wf_locals := []; wf_instrs := [ILocalGet 300] |}];
     wm_exports := [{| ex_name := [97; 100; 100]; ex_func := 1 |}] |}.
Definition sample_bytes : list N :=
  header ++ [0; 3; 1; 2; 3] ++ [1; 7; 1; 0x60; 2; 0x7f; 0x7f; 1; 0x7f] ++ [] ++ [3; 3; 2; 0; 0] ++ [] ++
  [7; 7; 1; 3; 97; 100; 100; 0; 1] ++ [] ++
  [10; 15; 2; 7; 0; 0x20; 0; 0x20; 1; 0x6a; 0x0b; 5; 0; 0x20; 0xac; 0x02; 0x0b] ++ [].

Ltac leb1 := split; [apply leb_last; unfold last_byte; reflexivity|
             split; [reflexivity|split; [reflexivity|cbn; lia]]].
Example sample_encoded : module_bytes sample sample_bytes /\ no_locals sample.
Proof.
  split; [|repeat constructor].
  unfold sample_bytes. eexists [0; 3; 1; 2; 3], _, [], _, [], _, [], _, [].
  split. { apply (other_one 0 [1; 2; 3] [0; 3; 1; 2; 3] []); [repeat split; discriminate| |constructor].
           exists [3]. split; [leb1|reflexivity]. }
  do 4 (split; [constructor|]).
  split. { right. exists [1; 0x60; 2; 0x7f; 0x7f; 1; 0x7f]. split; [|exists [7]; split; [leb1|reflexivity]].
           exists [1], [[0x60; 2; 0x7f; 0x7f; 1; 0x7f]]. split; [leb1|]. split; [|reflexivity].
           constructor; [|constructor]. exists [2; 0x7f; 0x7f], [1; 0x7f].
           split. { exists [2], [[0x7f]; [0x7f]]. split; [leb1|]. split; [|reflexivity]. repeat constructor. }
           split; [|reflexivity]. exists [1], [[0x7f]]. split; [leb1|]. split; [|reflexivity]. repeat constructor. }
  split. { right. exists [2; 0; 0]. split; [|exists [3]; split; [leb1|reflexivity]].
           exists [2], [[0]; [0]]. split; [leb1|]. split; [|reflexivity].
           constructor; [leb1|]. constructor; [leb1|constructor]. }
  split. { right. exists [1; 3; 97; 100; 100; 0; 1]. split; [|exists [7]; split; [leb1|reflexivity]].
           exists [1], [[3; 97; 100; 100; 0; 1]]. split; [leb1|]. split; [|reflexivity].
           constructor; [|constructor]. exists [3; 97; 100; 100], [1].
           split. { exists [3], [[97]; [100]; [100]]. split; [leb1|]. split; [|reflexivity].
                    repeat (constructor; [split; reflexivity|]). constructor. }
           split; [leb1|reflexivity]. }
  split; [|reflexivity].
  right. exists [2; 7; 0; 0x20; 0; 0x20; 1; 0x6a; 0x0b; 5; 0; 0x20; 0xac; 0x02; 0x0b].
  split; [|exists [15]; split; [leb1|reflexivity]].
  exists [2], [[7; 0; 0x20; 0; 0x20; 1; 0x6a; 0x0b]; [5; 0; 0x20; 0xac; 0x02; 0x0b]].
  split; [leb1|]. split; [|reflexivity].
  assert (L0 : vec_bytes locals_bytes [] [0]).
  { exists [0], []. split; [leb1|]. split; [constructor|reflexivity]. }
  constructor; [|constructor; [|constructor]].
  - exists [0], [0x20; 0; 0x20; 1; 0x6a; 0x0b], [7]. split; [exact L0|].
    split; [|split; [leb1|reflexivity]].
    exists [[0x20; 0]; [0x20; 1]; [0x6a]]. split; [|reflexivity].
    repeat (constructor; [constructor; leb1|]). constructor.
  - exists [0], [0x20; 0xac; 0x02; 0x0b], [5]. split; [exact L0|].
    split; [|split; [leb1|reflexivity]].
    exists [[0x20; 0xac; 0x02]]. split; [|reflexivity].
    constructor; [|constructor]. constructor.
    split; [apply leb_more; [split; lia|apply leb_last; reflexivity]|].
    split; [reflexivity|]. split; [reflexivity|cbn; lia].
Qed.
Example sample_read : read (2 ^ 32) sample_bytes = Ok (module_doc 0 (api_module sample), []).
Proof. apply module_read_back; [unfold enough; lia| |]; apply sample_encoded. Qed.

(** Functions with local declarations are not read back: the reader takes
    the declarations for a plain list of types. Unless a declaration's count
    happens to be one of the four type codes, every such module is
    rejected. *)
Theorem declared_locals_rejected heap m bs :
  enough heap -> module_bytes m bs ->
  Exists (fun f => wf_locals f <> []) (wm_funcs m) ->
  Forall (fun f => forall d l, wf_locals f = d :: l -> ~ 124 <= fst d <= 127) (wm_funcs m) ->
  exists e, read heap bs = Err e.
Proof.
  intros Hh (o0 & ts & o1 & fs & o2 & es & o3 & cs & o4 & O0 & O1 & O2 & O3 & O4 & Ht & Hf & He & Hc & ->) Hx Ho.
  change [0x00; 0x61; 0x73; 0x6d; 0x01; 0x00; 0x00; 0x00] with header.
  rewrite read_header8.
  pose proof (takes_front heap Hh m _ _ _ _ _ _ _ O0 O1 O2 O3 Ht Hf He) as Htk.
  pose proof (code_section_fails heap Hh m cs Hc Hx Ho) as Hfail.
  assert (Hn : cs <> []).
  { destruct Hc as [[E _]|(p & _ & (sz & _ & ->))]; [rewrite E in Hx; inversion Hx|discriminate]. }
  replace (o0 ++ ts ++ o1 ++ fs ++ o2 ++ es ++ o3 ++ cs ++ o4)
    with ((o0 ++ ts ++ o1 ++ fs ++ o2 ++ es ++ o3) ++ cs ++ o4) by (now rewrite <- !app_assoc).
  unfold read_module.
  destruct (takes_then_fails heap Hh _ _ _ _ Htk Hfail Hn (S (length ((o0 ++ ts ++ o1 ++ fs ++ o2 ++ es ++ o3) ++ cs ++ o4))) o4 ltac:(lia)) as [e E].
  exists e. now rewrite E.
Qed.
Print Assumptions declared_locals_rejected.

(** One function with one i32 local. *)
Definition with_local : wmodule :=
  {| wm_types := []; wm_funcs := [{| wf_type := 0; wf_locals := [(1, I32Type)]; wf_instrs := [] |}]; wm_exports := [] |}.
Definition with_local_bytes : list N :=
  header ++ [] ++ [] ++ [] ++ [3; 2; 1; 0] ++ [] ++ [] ++ [] ++ [10; 6; 1; 4; 1; 1; 0x7f; 0x0b] ++ [].
Example with_local_encoded : module_bytes with_local with_local_bytes.
Proof.
  exists [], [], [], [3; 2; 1; 0], [], [], [], [10; 6; 1; 4; 1; 1; 0x7f; 0x0b], [].
  do 5 (split; [constructor|]).
  split; [now left|].
  split. { right. exists [1; 0]. split; [|exists [2]; split; [leb1|reflexivity]].
           exists [1], [[0]]. split; [leb1|]. split; [|reflexivity]. constructor; [leb1|constructor]. }
  split; [now left|]. split; [|reflexivity].
  right. exists [1; 4; 1; 1; 0x7f; 0x0b]. split; [|exists [6]; split; [leb1|reflexivity]].
  exists [1], [[4; 1; 1; 0x7f; 0x0b]]. split; [leb1|]. split; [|reflexivity].
  constructor; [|constructor]. exists [1; 1; 0x7f], [0x0b], [4].
  split. { exists [1], [[1; 0x7f]]. split; [leb1|]. split; [|reflexivity].
           constructor; [|constructor]. exists [1], [0x7f]. split; [leb1|]. split; [constructor|reflexivity]. }
  split; [|split; [leb1|reflexivity]]. exists []. split; [constructor|reflexivity].
Qed.
Theorem every_module_read_back_refuted :
  exists m bs, module_bytes m bs /\
    forall heap, enough heap -> ~ exists l, read heap bs = Ok (module_doc 0 (api_module m), l).
Proof.
  exists with_local, with_local_bytes. split; [apply with_local_encoded|].
  intros heap Hh [l E]. destruct (declared_locals_rejected heap _ _ Hh with_local_encoded) as [e E'].
  - constructor. discriminate.
  - constructor; [|constructor]. intros d l0 Hd. inversion Hd; subst. cbn. lia.
  - congruence.
Qed.
Print Assumptions every_module_read_back_refuted.

(** *** C35: every byte string gives a document or an error: no panic, no
    endless loop. A module is read to the end of the input. *)
Theorem read_total heap bs : enough heap ->
  (exists d r, read heap bs = Ok (d, r)) \/ (exists e, read heap bs = Err e).
Proof.
  intros Hh. unfold read, rbind, obind.
  assert (P : shrinks 0 read_preamble).
  { unfold read_preamble. apply shrinks_bind0; [apply shrinks_full|]. intros m.
    assert (U : shrinks 0 read_uint16).
    { apply shrinks_bind0; [apply shrinks_full|]. intros [|lo [|hi [|]]]; try apply shrinks_err. apply shrinks_ret. }
    destruct (negb _); [apply shrinks_err|].
    apply shrinks_bind0; [exact U|]. intros v. apply shrinks_bind0; [exact U|]. intros l. apply shrinks_ret. }
  destruct (P bs) as [(p & r & E & _)|[e E]]; rewrite E; [|right; now exists e].
  destruct (p_version p =? component_version); [left; eexists _, _; reflexivity|].
  destruct (p_version p =? module_version); [|right; now exists EOther].
  destruct (module_total heap Hh r) as [[m Em]|[e Em]]; rewrite Em; [left; eexists _, _; reflexivity|right; now exists e].
Qed.
Print Assumptions read_total.
Example read_total_met : enough (2 ^ 32) /\ read (2 ^ 32) [0; 97; 115] = Err EEOF.
Proof. split; [unfold enough; lia|reflexivity]. Qed.

(** The reader allocates what the input announces before reading it: on a
    machine that cannot allocate 2^32-1 elements, a 14-byte input crashes
    it. *)
Theorem small_inputs_cannot_crash_refuted :
  exists bs, length bs = 14%nat /\ forall heap, heap < 2 ^ 32 - 1 -> read heap bs = Panic.
Proof.
  exists (header ++ [0; 255; 255; 255; 255; 15]). split; [reflexivity|].
  intros heap Hh. rewrite read_header8. unfold read_module. cbn [read_sections].
  assert (E : read_header [0; 255; 255; 255; 255; 15] = Ok (0, 2 ^ 32 - 1, [])) by reflexivity.
  rewrite E. unfold read_section. cbn [N.eqb]. unfold rbind, make.
  destruct (N.leb_spec (2 ^ 32 - 1) heap); [lia|reflexivity].
Qed.
Print Assumptions small_inputs_cannot_crash_refuted.

(** Inputs with another first four bytes, shorter than eight bytes, or with a
    version other than 1 (module) and 10 (component) are errors. *)
Lemma bytes_equal_eq a : forall b, bytes_equal a b = true <-> a = b.
Proof.
  induction a as [|x a IH]; intros [|y b]; cbn; try (split; (reflexivity || discriminate)).
  rewrite andb_true_iff, N.eqb_eq, IH. split; [intros [-> ->]; reflexivity|intros E; now inversion E].
Qed.

Theorem wrong_magic_rejected heap bs :
  firstn 4 bs <> [0x00; 0x61; 0x73; 0x6d] -> exists e, read heap bs = Err e.
Proof.
  intros H. unfold read, read_preamble, read_bytes, rbind at 1 2. change (N.of_nat (length magic)) with 4.
  unfold read_full at 1. destruct (_ <=? _); [|now exists EEOF].
  cbn [obind]. change (N.to_nat 4) with 4%nat.
  destruct (bytes_equal magic (firstn 4 bs)) eqn:E.
  - apply bytes_equal_eq in E. symmetry in E. contradiction.
  - now exists EOther.
Qed.
Print Assumptions wrong_magic_rejected.
Example wrong_magic_met : firstn 4 [0; 97; 115; 110; 1; 0; 0; 0] <> [0x00; 0x61; 0x73; 0x6d].
Proof. discriminate. Qed.

Theorem short_input_rejected heap bs : (length bs < 8)%nat -> exists e, read heap bs = Err e.
Proof.
  intros H.
  destruct bs as [|a [|b [|c [|d s]]]]; try (now exists EEOF).
  destruct (list_eq_dec N.eq_dec [a; b; c; d] [0x00; 0x61; 0x73; 0x6d]) as [E|E].
  - inversion E; subst. destruct s as [|v [|v' [|l [|l' s]]]]; try (now exists EEOF). cbn in H. lia.
  - apply wrong_magic_rejected. exact E.
Qed.
Print Assumptions short_input_rejected.

Theorem wrong_version_rejected heap v v' l l' s :
  v + 256 * v' <> 1 -> v + 256 * v' <> 10 ->
  exists e, read heap ([0x00; 0x61; 0x73; 0x6d; v; v'; l; l'] ++ s) = Err e.
Proof.
  intros H1 H2. exists EOther. unfold read, rbind at 1.
  assert (E : read_preamble ([0x00; 0x61; 0x73; 0x6d; v; v'; l; l'] ++ s) =
              Ok ({| p_version := v + 256 * v'; p_layer := l + 256 * l' |}, s)).
  { unfold read_preamble, read_bytes.
    assert (E : forall A (f : list N -> reader A) n c r, n = N.of_nat (length c) ->
              rbind (read_full n) f (c ++ r) = f c r).
    { intros A f n c r Hn. apply rbind_ok. now apply reads_full. }
    change ([0x00; 0x61; 0x73; 0x6d; v; v'; l; l'] ++ s) with (magic ++ [v; v'] ++ [l; l'] ++ s).
    rewrite (E _ _ _ magic) by reflexivity.
    change (negb (bytes_equal magic magic)) with false. cbv iota.
    unfold read_uint16.
    unfold rbind at 1. rewrite (E _ _ 2 [v; v']) by reflexivity. unfold rret at 1. cbn [obind].
    unfold rbind at 1. rewrite (E _ _ 2 [l; l']) by reflexivity. reflexivity. }
  rewrite E. cbn [obind p_version]. unfold component_version, module_version.
  destruct (N.eqb_spec (v + 256 * v') 10); [contradiction|].
  destruct (N.eqb_spec (v + 256 * v') 1); [contradiction|]. reflexivity.
Qed.
Print Assumptions wrong_version_rejected.
Example wrong_version_met : 2 + 256 * 0 <> 1 /\ 2 + 256 * 0 <> 10.
Proof. split; discriminate. Qed.

(** Cutting the encoding of a module anywhere but between two sections is an
    error; cutting it between two sections is not noticed. *)
Theorem truncation heap m bs :
  enough heap -> module_bytes m bs -> no_locals m ->
  exists secs, bs = header ++ concat secs /\ Forall is_section secs /\
    forall p t, bs = p ++ t ->
      (exists k, p = header ++ concat (firstn k secs)) /\ (exists d, read heap p = Ok (d, [])) \/
      ~ (exists k, p = header ++ concat (firstn k secs)) /\ (exists e, read heap p = Err e).
Proof.
  intros Hh (o0 & ts & o1 & fs & o2 & es & o3 & cs & o4 & O0 & O1 & O2 & O3 & O4 & Ht & Hf & He & Hc & ->) Hl.
  change [0x00; 0x61; 0x73; 0x6d; 0x01; 0x00; 0x00; 0x00] with header.
  destruct (takes_module heap Hh m _ _ _ _ _ _ _ _ _ Hl O0 O1 O2 O3 O4 Ht Hf He Hc) as (secs & Es & Hch).
  exists secs. rewrite Es. split; [reflexivity|]. split.
  { clear - Hch. induction Hch; constructor; auto. }
  intros p t E.
  destruct (app_split _ _ _ _ E) as [(u & Hu & E2 & _)|(u & E2 & E3)].
  - right. split.
    + intros [k Ek]. apply (f_equal (@length N)) in E2. rewrite Ek in E2.
      rewrite !app_length in E2. destruct u; [congruence|]. cbn in E2. lia.
    + apply short_input_rejected. apply (f_equal (@length N)) in E2. rewrite app_length in E2.
      destruct u; [congruence|]. cbn in E2. lia.
  - subst p. rewrite read_header8.
    destruct (chain_cut heap Hh _ _ _ Hch (S (length (concat secs))) u t ltac:(lia) E3) as [[k Ek]|[e Ee]].
    + left. split; [exists k; now rewrite Ek|].
      destruct (chain_prefix heap _ _ _ k Hch) as [mk Hk].
      unfold read_module. rewrite Ek, (chain_reads heap Hh _ _ _ Hk) by lia. eexists. reflexivity.
    + right.
      assert (Em : read_module heap u = Err e).
      { rewrite <- Ee. unfold read_module. apply (sections_fuel _ Hh); [lia|].
        rewrite E3, app_length. lia. }
      split; [|exists e; now rewrite Em].
      intros [k Ek]. apply app_inv_head in Ek.
      destruct (chain_prefix heap _ _ _ k Hch) as [mk Hk].
      unfold read_module in Em. rewrite Ek, (chain_reads heap Hh _ _ _ Hk) in Em by lia. discriminate.
Qed.
Print Assumptions truncation.

(** Every truncation is an error: false, a module cut before its code
    section is read as one whose functions have no code. *)
Theorem every_truncation_rejected_refuted :
  exists m bs p t d, module_bytes m bs /\ no_locals m /\ bs = p ++ t /\ t <> [] /\
    read (2 ^ 32) p = Ok (d, []).
Proof.
  exists sample, sample_bytes, (firstn 36 sample_bytes), (skipn 36 sample_bytes).
  eexists. split; [apply sample_encoded|]. split; [apply sample_encoded|].
  split; [now rewrite firstn_skipn|]. split; [discriminate|]. vm_compute. reflexivity.
Qed.
Print Assumptions every_truncation_rejected_refuted.

(** Section sizes are not compared with the sections: the empty type section
    announcing 100 bytes is accepted. *)
Theorem section_sizes_checked_refuted :
  exists bs m, read (2 ^ 32) bs = Ok (module_doc 0 m, []) /\
    bs = header ++ [1; 100; 0].
Proof. eexists _, _. split; [|reflexivity]. vm_compute. reflexivity. Qed.
Print Assumptions section_sizes_checked_refuted.

(** A function without code is accepted. *)
Theorem functions_have_code_refuted :
  exists bs m f, read (2 ^ 32) bs = Ok (module_doc 0 m, []) /\ In f (m_funcs m) /\ f_body f = None.
Proof.
  exists (header ++ [3; 2; 1; 0]). eexists _, _.
  split; [vm_compute; reflexivity|]. cbn. split; [left; reflexivity|reflexivity].
Qed.
Print Assumptions functions_have_code_refuted.

(** Whatever follows the preamble of a component is ignored. *)
Theorem component_contents_ignored heap l l' s :
  read heap ([0x00; 0x61; 0x73; 0x6d; 10; 0; l; l'] ++ s) =
  Ok ({| d_preamble := {| p_version := 10; p_layer := l + 256 * l' |}; d_directive := DComponent |}, s).
Proof.
  unfold read, rbind at 1.
  unfold read_preamble, read_bytes.
  assert (E : forall A (f : list N -> reader A) n c r, n = N.of_nat (length c) ->
            rbind (read_full n) f (c ++ r) = f c r).
  { intros A f n c r Hn. apply rbind_ok. now apply reads_full. }
  change ([0x00; 0x61; 0x73; 0x6d; 10; 0; l; l'] ++ s) with (magic ++ [10; 0] ++ [l; l'] ++ s).
  rewrite (E _ _ _ magic) by reflexivity.
  change (negb (bytes_equal magic magic)) with false. cbv iota.
  unfold read_uint16.
  unfold rbind at 1. rewrite (E _ _ 2 [10; 0]) by reflexivity. unfold rret at 1. cbn [obind].
  unfold rbind at 1. rewrite (E _ _ 2 [l; l']) by reflexivity. reflexivity.
Qed.
Print Assumptions component_contents_ignored.
