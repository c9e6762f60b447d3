(** C70: exactly which bytes the binary reader takes, and for which module. *)
From Coq Require Import NArith List Lia.
From Verif Require Import GoBase M_Api M_Binary S_Leb128 S_Binary S_BinaryLoose L_BinaryLoose P_Binary.
Import ListNotations.
Open Scope N_scope.

(** With memory for the largest vector, the reader gives the document [d] and
    leaves [rest] unread exactly when the bytes are a file of [S_BinaryLoose]
    for [d] followed by [rest]. *)
Theorem reader_accepts_exactly heap bs d rest :
  enough heap -> Forall (fun b => b < 256) bs ->
  (read heap bs = Ok (d, rest) <-> loose_file bs d rest).
Proof. intros Hh B. apply loose_exact; [exact Hh|exact B]. Qed.
Print Assumptions reader_accepts_exactly.

(** Everything else is an error: not a panic, not a loop. *)
Theorem reader_refuses_the_rest heap bs :
  enough heap -> Forall (fun b => b < 256) bs ->
  ((exists e, read heap bs = Err e) <-> ~ exists d rest, loose_file bs d rest).
Proof.
  intros Hh B. split.
  - intros (e & E) (d & rest & F). apply (reader_accepts_exactly heap) in F; [congruence|assumption..].
  - intros N. destruct (read_total heap bs Hh) as [(d & rest & E)|E]; [|exact E].
    exfalso. apply N. exists d, rest. now apply (reader_accepts_exactly heap).
Qed.
Print Assumptions reader_refuses_the_rest.

(** C35: every input accepted as a module is its header and a list of
    sections, and cutting it after the header is accepted between two sections
    and an error everywhere else. *)
Theorem accepted_input_truncation heap bs d rest :
  enough heap -> Forall (fun b => b < 256) bs -> read heap bs = Ok (d, rest) -> d_directive d <> DComponent ->
  rest = [] /\ exists head secs m,
    length head = 8%nat /\ bs = head ++ concat secs /\
    section_list {| m_types := []; m_funcs := []; m_exports := [] |} secs m /\
    forall p t, concat secs = p ++ t ->
      (exists k, p = concat (firstn k secs)) /\ (exists d', read heap (head ++ p) = Ok (d', [])) \/
      ~ (exists k, p = concat (firstn k secs)) /\ (exists e, read heap (head ++ p) = Err e).
Proof.
  intros Hh B H Hd. apply (reader_accepts_exactly heap) in H; [|assumption..].
  destruct H as (v & layer & body & Hv & Hl & -> & Hp & [(-> & X & _)|(-> & -> & m & Em & Hs)]); [contradiction|].
  split; [reflexivity|]. apply section_list_of in Hs. destruct Hs as (secs & -> & L).
  set (head := [0x00; 0x61; 0x73; 0x6d] ++ [1 mod 256; 1 / 256] ++ [layer mod 256; layer / 256]).
  exists head, secs, m. split; [reflexivity|]. split; [unfold head; now rewrite <- !app_assoc|]. split; [exact L|].
  rewrite !app_assoc in B. rewrite <- (app_assoc _ [1 mod 256; 1 / 256]) in B. fold head in B. apply Forall_app in B. destruct B as [Bh B].
  intros p t E.
  assert (Bp : Forall (fun b => b < 256) (head ++ p)) by (apply Forall_app; split; [exact Bh|]; rewrite E in B; apply Forall_app in B; apply B).
  assert (Hk : (exists k, p = concat (firstn k secs)) <-> exists d', read heap (head ++ p) = Ok (d', [])).
  { split.
    - intros (k & Ek). destruct (section_list_firstn _ _ _ L k) as (mk & Lk). exists (module_doc layer mk).
      apply reader_accepts_exactly; [assumption..|]. exists 1, layer, p. split; [lia|]. split; [exact Hl|].
      split; [unfold head; now rewrite <- !app_assoc|]. split; [reflexivity|]. right. split; [reflexivity|]. split; [reflexivity|].
      exists mk. split; [reflexivity|]. apply section_list_of. eauto.
    - intros (d' & E'). apply (reader_accepts_exactly heap) in E'; [|assumption..].
      destruct E' as (v' & layer' & body' & _ & _ & E1 & _ & [(-> & _ & _)|(-> & _ & m' & _ & Hs)]); [discriminate E1|].
      unfold head in E1. cbn in E1. injection E1 as _ _ <-. apply section_list_of in Hs. destruct Hs as (secs' & -> & L').
      exact (section_list_prefix heap Hh _ _ _ L secs' m' t B L' E). }
  destruct (read_total heap (head ++ p) Hh) as [(d' & r & E')|(e & E')].
  - left. assert (r = []) as ->.
    { pose proof E' as F. apply (reader_accepts_exactly heap) in F; [|assumption..].
      destruct F as (v' & layer' & body' & _ & _ & E1 & _ & [(-> & _ & _)|(_ & -> & _)]); [discriminate E1|reflexivity]. }
    split; [apply Hk|]; eauto.
  - right. split; [|eauto]. intros X. apply Hk in X. destruct X as (d' & X). congruence.
Qed.
Print Assumptions accepted_input_truncation.

(** No bytes stand for two documents. *)
Theorem file_stands_for_one_document bs d rest d' rest' :
  Forall (fun b => b < 256) bs -> loose_file bs d rest -> loose_file bs d' rest' -> d = d' /\ rest = rest'.
Proof.
  intros B H H'. assert (Hh : enough (2 ^ 32)) by (unfold enough; lia).
  apply (reader_accepts_exactly (2 ^ 32)) in H; [|assumption..]. apply (reader_accepts_exactly (2 ^ 32)) in H'; [|assumption..].
  split; congruence.
Qed.
Print Assumptions file_stands_for_one_document.

(** The modules of the standard whose functions have no locals are among
    these. *)
Theorem standard_file_is_accepted m bs :
  module_bytes m bs -> no_locals m -> Forall (fun b => b < 256) bs ->
  loose_file bs (module_doc 0 (api_module m)) [].
Proof.
  intros H L B. assert (Hh : enough (2 ^ 32)) by (unfold enough; lia).
  apply (reader_accepts_exactly (2 ^ 32)); [assumption..|]. now apply module_read_back.
Qed.
Print Assumptions standard_file_is_accepted.

(** A file no other tool would write: a function section of size "99" with
    the type index 5 written in three bytes, a custom section, and a second
    function section, which is the one that counts. *)
Definition odd_file : list N :=
  [0x00; 0x61; 0x73; 0x6d; 0x01; 0x00; 0x07; 0x01] ++
  [3; 99; 1; 0x85; 0x80; 0x00] ++ [0; 1; 7] ++ [3; 0; 1; 2].
Definition odd_module : module :=
  {| m_types := []; m_funcs := [{| f_type := 2; f_locals := []; f_body := None |}]; m_exports := [] |}.
Example odd_file_met :
  Forall (fun b => b < 256) odd_file /\ loose_file odd_file (module_doc 263 odd_module) [] /\
  read (2 ^ 32) odd_file = Ok (module_doc 263 odd_module, []).
Proof.
  split; [repeat constructor; lia|]. split; [|reflexivity].
  assert (L : forall n, n < 128 -> loose_number n [n]).
  { intros n Hn. split; [now apply leb_last|]. cbn [leb_value]. rewrite N.mod_small; cbn; lia. }
  exists 1, 263, ([3; 99; 1; 0x85; 0x80; 0x00] ++ [0; 1; 7] ++ [3; 0; 1; 2]).
  split; [lia|]. split; [lia|]. split; [reflexivity|]. split; [reflexivity|]. right. split; [reflexivity|]. split; [reflexivity|].
  exists odd_module. split; [reflexivity|].
  eapply lss_section; [|eapply lss_section; [|change [3; 0; 1; 2] with ([3; 0; 1; 2] ++ []); eapply lss_section; [|apply lss_end]]].
  - apply (ls_funcs _ [99] 99 [{| f_type := 5; f_locals := []; f_body := None |}] [1; 0x85; 0x80; 0x00]); [apply L; lia|].
    exists [1], [[0x85; 0x80; 0x00]]. split; [apply L; cbn; lia|]. split; [|reflexivity]. constructor; [|constructor].
    split; [|auto]. split; [|reflexivity]. apply leb_more; [split; lia|]. apply leb_more; [split; lia|]. apply leb_last. reflexivity.
  - apply (ls_other _ 0 [1] [7]); try discriminate. apply (L 1). lia.
  - match goal with |- loose_section ?m _ _ => apply (ls_funcs m [0] 0 [{| f_type := 2; f_locals := []; f_body := None |}] [1; 2]) end; [apply L; lia|].
    exists [1], [[2]]. split; [apply L; cbn; lia|]. split; [|reflexivity]. constructor; [|constructor]. split; [|auto]. apply L. cbn. lia.
Qed.
Example odd_file_cut :
  read (2 ^ 32) (firstn 14 odd_file) = Ok (module_doc 263 {| m_types := []; m_funcs := [{| f_type := 5; f_locals := []; f_body := None |}]; m_exports := [] |}, []) /\
  exists e, read (2 ^ 32) (firstn 15 odd_file) = Err e.
Proof. split; [reflexivity|]. eexists. reflexivity. Qed.
Example refused_met : ~ exists d rest, loose_file [0x00; 0x61; 0x73; 0x6d; 0x01; 0x00; 0x00; 0x00; 3; 1; 1] d rest.
Proof.
  apply (reader_refuses_the_rest (2 ^ 32)); [unfold enough; lia|repeat constructor; lia|]. eexists. reflexivity.
Qed.
Example standard_met : loose_file sample_bytes (module_doc 0 (api_module sample)) [].
Proof. apply standard_file_is_accepted; [apply sample_encoded..|]. repeat constructor; lia. Qed.
