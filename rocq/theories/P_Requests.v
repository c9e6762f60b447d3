(** C72: what is asked of the guest's allocator, and what its answers can do. *)
From Coq Require Import NArith ZArith String Ascii Bool Lia ZifyBool ZifyNat ZifyN List.
From Verif Require Import GoBase M_Types M_Layout S_Layout L_Layout M_State M_Utf M_Load M_Store M_Flat M_Canon S_Utf L_Utf
  S_Values S_Memory S_Access L_Access L_Mem L_Frame S_Format L_Format P_Memory S_Requests L_Requests.
Import ListNotations.
Open Scope N_scope.
Open Scope go_scope.

(** ** Requests *)

(** Storing a value asks for the blocks the value takes, in order. A run that
    stops early has made the first few of the requests and no others. *)
Theorem store_requests : forall cx t v p rs s o s',
  wf_type t -> asks (cx_enc cx) t v rs -> store cx t v p s = (o, s') ->
  exists done rest, rs = (done ++ rest)%list /\ made s s' done /\ (o = Ok tt -> rest = []).
Proof.
  intros cx t v p rs s o s' Hw Ha E. destruct (store_logs cx t v rs p Hw Ha s o s' E) as (d & r & Er & M & K).
  exists d, r. split; [exact Er|]. split; [exact M|]. intros ->. now apply (K tt).
Qed.
Print Assumptions store_requests.

(** So does lowering it to flat values. *)
Theorem lower_requests : forall cx t v rs s o s',
  wf_type t -> asks (cx_enc cx) t v rs -> lower_flat cx t v s = (o, s') ->
  exists done rest, rs = (done ++ rest)%list /\ made s s' done /\ (forall r, o = Ok r -> rest = []).
Proof. intros cx t v rs s o s' Hw Ha E. exact (lower_logs cx t v rs Hw Ha s o s' E). Qed.
Print Assumptions lower_requests.

(** Every value of a type takes one sequence of blocks, and no other. *)
Theorem requests_determined : forall enc t v, wf_type t -> has_type enc t v ->
  exists rs, asks enc t v rs /\ forall rs', asks enc t v rs' -> rs' = rs.
Proof.
  intros enc t v Hw Hv. destruct (asks_exists enc t v Hw Hv) as [rs Hr]. exists rs. split; [exact Hr|].
  intros rs' Hr'. exact (asks_unique enc t v rs' rs Hw Hr' Hr).
Qed.
Print Assumptions requests_determined.

(** The arguments of a call are lowered one by one, unless their flat form is
    too long; then one block is asked for that holds all of them. *)
Theorem call_requests : forall cx max ts vs parts flat s o s',
  Forall wf_type ts -> List.length vs = List.length ts ->
  Forall2 (fun tv part => asks (cx_enc cx) (fst tv) (snd tv) part) (combine ts vs) parts ->
  flatten_types ts = Ok flat -> (List.length flat <= max)%nat -> forall out,
  lower_values cx max vs ts out s = (o, s') ->
  exists done rest, List.concat parts = (done ++ rest)%list /\ made s s' done /\ (forall r, o = Ok r -> rest = []).
Proof.
  intros cx max ts vs parts flat s o s' Hw Hlen Hp Hf Hmax out E.
  assert (L : logs (List.concat parts) (lower_each (map (lower_flat cx) ts) vs)).
  { clear - Hw Hlen Hp. revert vs Hlen parts Hp. induction Hw as [|t ts Ht Hw IH]; intros [|v vs] Hlen parts Hp; try discriminate; cbn [combine] in Hp.
    - inversion Hp; subst. apply logs_ret.
    - inversion Hp as [|? part ? parts' Ha Hp']; subst. cbn [map lower_each List.concat fst snd] in *.
      apply logs_bind; [now apply lower_logs|]. intros a. apply logs_end; [apply IH; [now injection Hlen|exact Hp']|]. intros b. apply logs_ret. }
  assert (L' : logs (List.concat parts) (lower_values cx max vs ts out)).
  { unfold lower_values. apply logs_try. intros f Ef. rewrite Hf in Ef. injection Ef as <-.
    apply Nat.leb_le in Hmax. rewrite Hmax. apply logs_end; [exact L|]. intros r. apply logs_ret. }
  exact (L' _ _ _ E).
Qed.
Print Assumptions call_requests.

Theorem wide_call_requests : forall cx max ts vs a sz flat s o s',
  sp_layout (TTuple ts) = Some (a, sz) -> sz < 2 ^ 32 ->
  flatten_types ts = Ok flat -> (max < List.length flat)%nat ->
  lower_values cx max vs ts None s = (o, s') ->
  made s s' [new_block a sz] \/ (made s s' [] /\ forall r, o <> Ok r).
Proof.
  intros cx max ts vs a sz flat s o s' Hl Hs Hf Hmax E. destruct (sp_layout_facts _ _ _ Hl) as (Ha & _ & _ & Hz).
  assert (L : logs [new_block a sz] (lower_values cx max vs ts None)).
  { unfold lower_values. apply logs_try. intros f Ef. rewrite Hf in Ef. injection Ef as <-.
    apply Nat.leb_gt in Hmax. rewrite Hmax. unfold lower_values_to_tuple. rewrite Ha, (Hz Hs). apply logs_try. intros x Ex. injection Ex as <-.
    apply logs_try. intros x Ex. injection Ex as <-. apply logs_end; [apply logs_realloc|]. intros q.
    apply logs_then; [apply logs_check_aligned|]. intros _. apply logs_then; [apply logs_check_bounds|]. intros _. apply logs_ret. }
  destruct (L _ _ _ E) as (d & r & Er & M & K). destruct d as [|x d].
  - right. split; [exact M|]. intros r' ->. specialize (K r' eq_refl). subst r. discriminate.
  - left. injection Er as <- Er. symmetry in Er. apply app_eq_nil in Er. destruct Er as [-> ->]. exact M.
Qed.
Print Assumptions wide_call_requests.

(** ** Writes under any answers *)

(** Whatever the allocator answers, storing changes only the bytes of the
    destination and of the blocks the allocator has given; nothing is assumed
    of the memory, of the value beyond its lists' sizes, or of the outcome. *)
Theorem store_stays_inside : forall own cx t a sz v p s o s',
  writes_only own cx -> sp_layout t = Some (a, sz) -> sz < 2 ^ 32 -> p < 2 ^ 32 -> lists_fit t v ->
  store cx t v p s = (o, s') -> changes_only own (around p sz) s s'.
Proof. intros own cx t a sz v p s o s' Hw Hl Hs Hp Hf E. exact (store_touches own cx t Hw a sz v p Hl Hs Hp Hf s o s' E). Qed.
Print Assumptions store_stays_inside.

(** Lowering has no destination: only blocks the allocator has given change. *)
Theorem lower_stays_inside : forall own cx t v s o s',
  writes_only own cx -> lists_fit t v ->
  lower_flat cx t v s = (o, s') -> changes_only own (fun _ => False) s s'.
Proof. intros own cx t v s o s' Hw Hf E. exact (lower_touches own cx t Hw v Hf s o s' E). Qed.
Print Assumptions lower_stays_inside.

Theorem call_stays_inside : forall own cx max ts vs out s o s',
  writes_only own cx -> List.length vs = List.length ts -> Forall (fun tv => lists_fit (fst tv) (snd tv)) (combine ts vs) ->
  lower_values cx max vs ts out s = (o, s') -> changes_only own (fun _ => False) s s'.
Proof.
  intros own cx max ts vs out s o s' Hw Hlen Hf E. revert E.
  enough (T : touches own (fun _ => False) (lower_values cx max vs ts out)) by exact (T s o s').
  unfold lower_values. apply touches_try. intros flat _. destruct (Nat.leb _ _).
  - apply touches_bind; [|intros; apply touches_ret]. revert vs Hlen Hf.
    induction ts as [|t ts IH]; intros [|v vs] Hlen Hf; try discriminate; [apply touches_ret|]. cbn [combine] in Hf. inversion Hf; subst. cbn [map lower_each fst snd] in *.
    apply touches_bind; [now apply lower_touches|]. intros a. apply touches_bind; [apply IH; [now injection Hlen|assumption]|]. intros b. apply touches_ret.
  - unfold lower_values_to_tuple. apply touches_try. intros a _. apply touches_try. intros sz _.
    assert (C : forall W e p m, touches own W (m : M (list any)) -> touches own W (check_aligned e p a ;; check_bounds e p sz ;; m)).
    { intros W e p m H. apply touches_bind; [|intros _; apply touches_bind; [apply touches_check_bounds|intros _; exact H]].
      apply touches_quiet. intros s0 o0 s0' E0. unfold check_aligned, align_to in E0. rewrite bind_lift_ok in E0. destruct (_ =? _); inversion E0; auto. }
    destruct out as [it|].
    + apply touches_bind; [|intros q; apply C, touches_ret]. apply touches_bind; [|intros []; apply touches_ret].
      unfold next_u32. apply touches_try. intros [c it'] _. destruct c; (apply touches_ret || apply touches_lift).
    + apply touches_realloc; [exact Hw|]. intros q _. apply C, touches_ret.
Qed.
Print Assumptions call_stays_inside.

(** ** Bad answers *)

(** A list block that is misaligned, or that runs past the end of memory,
    traps; memory is as the allocator left it. *)
Theorem bad_list_block_traps : forall cx t l a sz q m w s,
  sp_layout t = Some (a, sz) -> sz < 2 ^ 32 -> N.of_nat (List.length l) * sz < 2 ^ 32 ->
  cx_realloc cx (new_block a (N.of_nat (List.length l) * sz)) s = (Ok q, (m, w)) -> q < 2 ^ 32 -> m_len m < 2 ^ 32 ->
  ~ (a | q) \/ (m_len m < q + N.of_nat (List.length l) * sz /\ q + N.of_nat (List.length l) * sz < 2 ^ 32) ->
  exists s', lower_flat cx (TList t) (VList l) s = (Err ETrap, s') /\ s_mem s' = m /\ s_world s' = w.
Proof.
  intros cx t l a sz q m w s Hl Hs Hn Hr Hq Hm Hbad. destruct (sp_layout_facts _ _ _ Hl) as (Ha & Hva & _ & Hz).
  cbn [lower_flat]. unfold lower_flat_list, store_list_into_range. rewrite Ha, (Hz Hs). unfold bind at 1. rewrite bind_lift_ok. cbv zeta.
  assert (Hsm : (9223372036854775807 <=? to_signed two64 (N.of_nat (List.length l) * sz))%Z = false).
  { apply Z.leb_gt. change (2 ^ 32) with 4294967296 in Hn. unfold to_signed, two64.
    rewrite N.mod_small by lia. destruct (_ <? _) eqn:D; lia. }
  rewrite Hsm, bind_lift_ok, u32_small by exact Hn. unfold bind at 1. unfold realloc. fold (new_block a (N.of_nat (List.length l) * sz)). rewrite Hr, u32_small by exact Hq.
  eexists. destruct Hbad as [Hbad|[Hb1 Hb2]].
  - unfold bind at 1. rewrite check_aligned_bad by assumption. split; [reflexivity|]. split; reflexivity.
  - destruct (N.eq_dec (q mod a) 0) as [D|D].
    + apply N.mod_divide in D; [|now apply valid_align_nz]. unfold bind at 1. rewrite check_aligned_ok by assumption.
      unfold bind at 1. unfold check_bounds, bind at 1, get_mem. cbn [s_mem]. unfold mem_len32, add32. change two32 with (2 ^ 32). rewrite (N.mod_small _ _ Hb2), u32_small by exact Hm.
      destruct (N.ltb_spec (m_len m) (q + N.of_nat (List.length l) * sz)); [|lia]. split; [reflexivity|]. split; reflexivity.
    + unfold bind at 1. rewrite check_aligned_bad; [|exact Hva|intros D'; apply D; now apply N.mod_divide; [apply valid_align_nz|]].
      split; [reflexivity|]. split; reflexivity.
Qed.
Print Assumptions bad_list_block_traps.

(** An allocator that gives the same block whatever it is asked. *)
Definition giving (enc : strenc) (q : N) : callctx := mkCtx 0 0 enc (fun _ s => (Ok q, (s_mem s, s_world s))).

(** A text block outside memory is not refused: the program panics. *)
Theorem bad_text_block_refused_refuted : forall cs q s,
  Forall scalar_value cs -> N.of_nat (List.length (utf8_text cs)) < 2 ^ 32 -> q < 2 ^ 32 ->
  mem_cap (s_mem s) < q + N.of_nat (List.length (utf8_text cs)) -> q + N.of_nat (List.length (utf8_text cs)) < 2 ^ 32 ->
  fst (lower_flat (giving EncUtf8 q) TString (VStr (utf8_text cs)) s) = Panic.
Proof.
  intros cs q s Hs Hl Hq Hm Hn. cbn [lower_flat lower_string]. unfold store_string_into_range, bind at 1, giving. cbn [cx_enc get_codec].
  rewrite bind_lift_ok. unfold store_string_dynamic. rewrite (text_encoded CUtf8) by (exact I || exact Hs). rewrite bind_lift_ok. cbv zeta.
  cbn [text_bytes]. rewrite u32_small by exact Hl. unfold bind at 1, realloc. cbn [cx_realloc]. rewrite u32_small by exact Hq.
  unfold store_bytes, bind, get_mem, lift_o. cbn [s_mem]. unfold mem_slice, add32. change two32 with (2 ^ 32). rewrite N.mod_small by exact Hn.
  destruct (N.leb_spec (q + N.of_nat (List.length (utf8_text cs))) (mem_cap (s_mem s))); [lia|]. rewrite andb_false_r. reflexivity.
Qed.
Print Assumptions bad_text_block_refused_refuted.

(** A misaligned block for UTF-16 text is used, although such a text cannot be
    read back. *)
Theorem misaligned_text_block_refused_refuted : exists s s',
  lower_flat (giving EncUtf16 9) TString (VStr [104; 105]) s = (Ok [CU32 9; CU32 2], s') /\
  fst (lift_flat (giving EncUtf16 9) TString (IBase [CU32 9; CU32 2] 0) s') = Err ETrap.
Proof. exists (demo_state 32). eexists. split; vm_compute; reflexivity. Qed.
Print Assumptions misaligned_text_block_refused_refuted.

(** A list block that runs past the end of the address space passes the check,
    and the program panics. *)
Theorem wrapping_list_block_refused_refuted : exists s,
  fst (lower_flat (giving EncUtf8 4294967292) (TList TU32) (VList [VU32 1]) s) = Panic.
Proof. exists (demo_state 32). vm_compute. reflexivity. Qed.
Print Assumptions wrapping_list_block_refused_refuted.

(** ** Examples *)

(** A record with a text, a list of lists, and an option with a text. *)
Definition deep_type : valtype :=
  TRecord [("name", TString); ("rows", TList (TList TU16)); ("id", TU64); ("note", TOption TString)]%string.
Definition deep_val : any :=
  VMap [("name", VStr [72; 195; 169]);
        ("rows", VList [VList [VU16 1; VU16 2; VU16 3]; VList []; VList [VU16 9]]);
        ("id", VU64 7);
        ("note", VMap [("some", VStr [111; 107])])]%string.
Definition deep_requests : list req :=
  [new_block 1 3; new_block 4 24; new_block 2 6; new_block 2 0; new_block 2 2; new_block 1 2].

Lemma deep_asks : asks EncUtf8 deep_type deep_val deep_requests.
Proof.
  assert (T : forall cs, Forall scalar_value cs -> N.of_nat (List.length (utf8_text cs)) < 2 ^ 32 ->
    text_asks EncUtf8 (VStr (utf8_text cs)) [new_block 1 (N.of_nat (List.length (utf8_text cs)))]).
  { intros cs Hs Hl. exists cs, CUtf8. repeat split; assumption. }
  eexists. exists [[new_block 1 3]; [new_block 4 24; new_block 2 6; new_block 2 0; new_block 2 2]; []; [new_block 1 2]].
  split; [reflexivity|]. split; [|reflexivity]. constructor; [|constructor; [|constructor; [|constructor; [|constructor]]]]; cbn [map fst snd].
  - eexists. split; [reflexivity|]. apply (T [72; 233]); [repeat constructor; unfold scalar_value; lia|reflexivity].
  - eexists. split; [reflexivity|]. eexists. exists 4, 8, [[new_block 2 6]; [new_block 2 0]; [new_block 2 2]].
    split; [reflexivity|]. split; [reflexivity|]. split; [reflexivity|]. split; [|reflexivity].
    assert (R : forall l (parts : list (list req)), Forall (fun x => x = []) parts -> List.length l = List.length parts -> N.of_nat (List.length l) * 2 < 2 ^ 32 ->
      list_asks (sp_layout TU16) (asks EncUtf8 TU16) (VList l) [new_block 2 (N.of_nat (List.length l) * 2)]).
    { intros l parts Hp He Hl. exists l, 2, 2, parts. split; [reflexivity|]. split; [reflexivity|]. split; [exact Hl|]. split.
      - clear Hl. revert parts Hp He. induction l as [|x l IH]; intros [|y parts] Hp He; try discriminate; constructor; inversion Hp; subst; [reflexivity|].
        apply IH; [assumption|now injection He].
      - f_equal. clear He. induction Hp as [|x parts Hx Hp IH]; [reflexivity|]. subst x. exact IH. }
    constructor; [apply (R [_; _; _] [[]; []; []]); repeat constructor|].
    constructor; [apply (R [] []); repeat constructor|]. constructor; [apply (R [_] [[]]); repeat constructor|constructor].
  - eexists. split; reflexivity.
  - eexists. split; [reflexivity|]. eexists _, _, 1%nat, _. split; [reflexivity|]. split; [|split; [reflexivity|]].
    + exists [], "some"%string, []. repeat split; repeat constructor; discriminate.
    + cbn. apply (T [111; 107]); [repeat constructor; unfold scalar_value; lia|reflexivity].
Qed.

Example store_requests_applies : wf_type deep_type /\ asks EncUtf8 deep_type deep_val deep_requests /\
  exists s', store (bump_ctx EncUtf8) deep_type deep_val 8 (demo_state 200) = (Ok tt, s') /\ made (demo_state 200) s' deep_requests.
Proof.
  split; [|split; [exact deep_asks|]].
  - split; [repeat constructor; cbn; intuition discriminate|]. cbn. repeat split; ((exists 4, 8; split; reflexivity) || (exists 2, 2; split; reflexivity)).
  - eexists. split; [vm_compute; reflexivity|]. eexists. split; [cbn [s_hist]; symmetry; apply app_nil_r|]. reflexivity.
Qed.

(** An allocator that keeps giving the same block: the last text wins, and
    bytes outside the destination and that block are as before. *)
Example store_stays_inside_applies : writes_only (fun _ => False) (giving EncUtf8 100) /\
  sp_layout deep_type = Some (8, 40) /\ lists_fit deep_type deep_val /\
  exists o s', store (giving EncUtf8 100) deep_type deep_val 8 (demo_state 200) = (o, s') /\ o = Ok tt /\ byte (s_mem s') 100 = 111.
Proof.
  split; [intros r s o m w E b Hb; inversion E; subst; now elim Hb|]. split; [reflexivity|]. split.
  - intros m E. injection E as <-.
    apply Forall_cons; [intros x _; exact I|]. apply Forall_cons; [|apply Forall_cons; [intros x _; exact I|apply Forall_cons; [|apply Forall_nil]]].
    + intros x E. assert (x = VList [VList [VU16 1; VU16 2; VU16 3]; VList []; VList [VU16 9]]) by (vm_compute in E; congruence). subst x.
      intros l El. injection El as <-. split; [|intros a s Ea; vm_compute in Ea; injection Ea as <- <-; reflexivity].
      assert (K : forall l, N.of_nat (List.length l) * 2 < 2 ^ 32 -> lists_fit (TList TU16) (VList l)).
      { intros l Hl l' El. injection El as <-. split; [apply Forall_forall; intros; exact I|]. intros a s Ea. vm_compute in Ea. injection Ea as <- <-. exact Hl. }
      apply Forall_cons; [now apply K|]. apply Forall_cons; [now apply K|]. apply Forall_cons; [now apply K|apply Forall_nil].
    + intros x _ key p i c _ _ Hc. destruct i as [|[|i]]; cbn in Hc; [injection Hc as <-; exact I|injection Hc as <-; exact I|destruct i; discriminate].
  - eexists _, _. split; [vm_compute; reflexivity|]. split; vm_compute; reflexivity.
Qed.

Example bad_list_block_applies : exists s',
  lower_flat (giving EncUtf8 6) (TList TU32) (VList [VU32 1; VU32 2]) (demo_state 32) = (Err ETrap, s') /\
  lower_flat (giving EncUtf8 28) (TList TU32) (VList [VU32 1; VU32 2]) (demo_state 32) = (Err ETrap, mkState (s_mem s') [(new_block 4 8, 28)] (s_world s')).
Proof. eexists. split; vm_compute; reflexivity. Qed.

Example call_requests_applies : exists s',
  lower_values (bump_ctx EncUtf8) 16 [VStr [111; 107]; VList [VU16 1]] [TString; TList TU16] None (demo_state 200)
  = (Ok [VCore (CU32 64); VCore (CU32 2); VCore (CU32 66); VCore (CU32 1)], s') /\ made (demo_state 200) s' [new_block 1 2; new_block 2 2].
Proof. eexists. split; [vm_compute; reflexivity|]. eexists. split; [cbn [s_hist]; symmetry; apply app_nil_r|]. reflexivity. Qed.

Example wide_call_requests_applies : exists s',
  lower_values (bump_ctx EncUtf8) 1 [VStr [111; 107]; VList [VU16 1]] [TString; TList TU16] None (demo_state 200)
  = (Ok [VU32 64], s') /\ made (demo_state 200) s' [new_block 4 16].
Proof. eexists. split; [vm_compute; reflexivity|]. eexists. split; [cbn [s_hist]; symmetry; apply app_nil_r|]. reflexivity. Qed.
