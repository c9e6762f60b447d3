(** Theorems: StoreStringCopy and StoreUtf8ToUtf16 (C60). *)
From Coq Require Import NArith ZArith List String Bool Lia.
From Verif Require Import GoBase M_Types M_Layout M_State M_Utf M_Load M_Store M_StoreCopy.
From Verif Require Import S_Layout S_Utf S_Values S_Memory S_Format S_Calls S_StoreCopy.
From Verif Require Import L_Layout L_Access L_Mem L_Utf L_Frame L_RoundTrip L_Format P_Memory.
Import ListNotations.
Open Scope N_scope.
Open Scope go_scope.

Lemma check_bounds_ok : forall e p n s, good s -> p + n <= len s -> check_bounds e p n s = (Ok tt, s).
Proof.
  intros e p n s Hg H. unfold check_bounds. erewrite bind_ok; [|reflexivity]. rewrite mem_len32_ok by exact Hg.
  unfold add32. assert (len s < two32) by apply Hg. rewrite N.mod_small by lia.
  destruct (N.ltb_spec (len s) (p + n)); [lia|reflexivity].
Qed.

Lemma alloc_failed_realloc : forall {A} cx (o : outcome A), alloc_failed cx o -> realloc_failed cx o.
Proof. intros A cx o (r & s & _ & _ & H). exists r, s. exact H. Qed.

Lemma fail_retype : forall {A B} cx (o : outcome A) (o' : outcome B), alloc_failed cx o ->
  match o with Ok _ => False | Err e => o' = Err e | Panic => o' = Panic | Diverge => o' = Diverge end -> alloc_failed cx o'.
Proof. intros A B cx o o' (r & s & E1 & E2 & H) E. exists r, s. destruct o; subst; auto. contradiction. Qed.

(** ** C60 *)

(** With the size of the encoded text as destination size, StoreStringCopy
    leaves the encoded text, and nothing else, in a fresh block. *)
Theorem copied_text : forall cx init cs units size align c s,
  correct_allocator cx init -> Forall scalar_value cs -> expressible c cs -> valid_align align -> wf_mem (s_mem s) ->
  size * units = N.of_nat (List.length (text_bytes c cs)) -> size * units < 2 ^ 31 ->
  let (o, s') := store_string_copy cx (utf8_text cs) units size align c s in
  alloc_failed cx o \/
  exists ptr, o = Ok (ptr, units) /\ (align | ptr) /\ ptr + size * units <= m_len (s_mem s') /\
    bytes_at (s_mem s') ptr (size * units) = text_bytes c cs /\ wf_mem (s_mem s') /\ in_use_kept init s s'.
Proof.
  intros cx init cs units size align c s Hc Hs He Ha Hm Hl Hlt.
  destruct (store_string_copy cx (utf8_text cs) units size align c s) as [o s'] eqn:E.
  pose proof (text_encoded c cs Hs He) as Ec. pose proof (encode_string_bytes _ _ _ Ec) as Hb.
  unfold store_string_copy in E. cbv zeta in E.
  assert (Em : mul32 size units = size * units) by (unfold mul32; apply N.mod_small; unfold two32; change (2 ^ 31) with 2147483648 in Hlt; lia).
  rewrite Em in E. destruct (N.ltb_spec max_string_byte_length (size * units)) as [X|_].
  { exfalso. unfold max_string_byte_length in X. change (2 ^ 31) with 2147483648 in Hlt. lia. }
  unfold bind at 1 in E. destruct (realloc cx 0 0 align (size * units) s) as [o1 s1] eqn:Er.
  pose proof (realloc_fresh _ _ _ _ _ _ _ Hc Hm Er) as R.
  destruct o1 as [p|e| | ]; [|left; destruct R as [_ R]; injection E as <- _; exact (fail_retype _ _ _ R eq_refl)..].
  right. destruct R as (S1 & D & B & F & O). pose proof (st_good _ _ _ _ S1) as Hg1. assert (Hlen : len s1 < two32) by apply Hg1.
  unfold bind at 1 in E. rewrite check_aligned_ok in E by (assumption || lia).
  unfold bind at 1 in E. rewrite check_bounds_ok in E by assumption.
  rewrite Ec, bind_lift_ok in E. rewrite Hl, Nat2N.id, firstn_all, <- Hl in E.
  unfold bind at 1 in E. rewrite store_bytes_ok in E by assumption. injection E as <- <-.
  exists p. split; [reflexivity|]. split; [exact D|].
  assert (Hw : wf_mem (mem_write (s_mem s1) p (text_bytes c cs))) by (apply wf_write; assumption).
  split; [exact B|]. split.
  - cbn [wr s_mem]. rewrite <- slice_bytes_at by assumption. rewrite Hl. apply slice_write; [exact Hg1| |exact Hb]. rewrite <- Hl. exact B.
  - split; [exact Hw|]. intros b Hob. rewrite <- (st_frame _ _ _ _ S1 b Hob) by auto.
    cbn [wr s_mem]. rewrite byte_write.
    + destruct (N.leb_spec p b), (N.ltb_spec b (p + N.of_nat (List.length (text_bytes c cs)))); try reflexivity.
      exfalso. apply (F b); [|exact Hob]. unfold within. rewrite <- Hl in *. lia.
    + destruct Hg1 as (Hc1 & _). rewrite <- Hl. unfold len in B. lia.
Qed.
Print Assumptions copied_text.

Lemma utf16_short : forall cs, (List.length (flat_map sp_utf16 cs) <= List.length (utf8_text cs))%nat.
Proof.
  induction cs as [|c cs IH]; [apply le_n|]. unfold utf8_text in *. cbn [flat_map]. rewrite !app_length.
  assert (List.length (sp_utf16 c) <= List.length (sp_utf8 c))%nat; [|lia].
  unfold sp_utf16, sp_utf8. destruct (N.ltb_spec c 65536), (N.ltb_spec c 128), (N.ltb_spec c 2048); cbn; lia.
Qed.

Lemma unit16_length : forall us, List.length (flat_map unit16_le us) = (2 * List.length us)%nat.
Proof. induction us as [|u us IH]; [reflexivity|]. cbn [flat_map unit16_le app List.length]. rewrite IH. lia. Qed.

(** Given the length in bytes of its UTF-8 source text, StoreUtf8ToUtf16 leaves
    the text in UTF-16LE in a block of exactly its size. *)
Theorem utf16_stored : forall cx init cs s,
  correct_allocator cx init -> correct_shrinking cx init -> Forall scalar_value cs -> wf_mem (s_mem s) ->
  N.of_nat (List.length (utf8_text cs)) < 2 ^ 30 ->
  let (o, s') := store_utf8_to_utf16 cx (utf8_text cs) (N.of_nat (List.length (utf8_text cs))) s in
  let n := N.of_nat (List.length (flat_map sp_utf16 cs)) in
  realloc_failed cx o \/
  exists ptr, o = Ok (ptr, n) /\ (2 | ptr) /\ ptr + 2 * n <= m_len (s_mem s') /\
    bytes_at (s_mem s') ptr (2 * n) = flat_map unit16_le (flat_map sp_utf16 cs) /\
    (exists r, In (r, ptr) (s_hist s') /\ r_size r = 2 * n) /\
    wf_mem (s_mem s') /\ in_use_kept init s s'.
Proof.
  intros cx init cs s Hc Hk Hs Hm Hlt.
  destruct (store_utf8_to_utf16 cx (utf8_text cs) (N.of_nat (List.length (utf8_text cs))) s) as [o s'] eqn:E. intros n.
  pose proof (text_encoded (CUtf16 false) cs Hs I) as Ec. pose proof (encode_string_bytes _ _ _ Ec) as Hb.
  cbn [text_bytes] in Ec, Hb. set (bs := flat_map unit16_le (flat_map sp_utf16 cs)) in *.
  assert (Hn : N.of_nat (List.length bs) = 2 * n) by (unfold bs, n; rewrite unit16_length; lia).
  pose proof (utf16_short cs) as Hsh. change (2 ^ 30) with 1073741824 in Hlt.
  set (u := N.of_nat (List.length (utf8_text cs))) in *. assert (Hnu : n <= u) by (unfold n, u; lia). clearbody u n.
  unfold store_utf8_to_utf16 in E. cbv zeta in E.
  assert (Em : mul32 2 u = 2 * u) by (unfold mul32; apply N.mod_small; unfold two32; lia).
  rewrite Em in E. destruct (N.ltb_spec max_string_byte_length (2 * u)) as [X|_]; [unfold max_string_byte_length in X; lia|].
  unfold bind at 1 in E. destruct (realloc cx 0 0 2 (2 * u) s) as [o1 s1] eqn:Er.
  pose proof (realloc_fresh _ _ _ _ _ _ _ Hc Hm Er) as R.
  destruct o1 as [p|e| | ]; [|left; destruct R as [_ R]; injection E as <- _; apply alloc_failed_realloc; exact (fail_retype _ _ _ R eq_refl)..].
  destruct R as (S1 & D & B & F & O). pose proof (st_good _ _ _ _ S1) as Hg1. assert (Hlen : len s1 < two32) by apply Hg1.
  assert (V2 : valid_align 2) by (unfold valid_align; lia).
  assert (Eh : In (mkReq 0 0 2 (2 * u), p) (s_hist s1)).
  { unfold realloc in Er. destruct (cx_realloc cx _ s) as [[p'| | | ] [m' w']]; try discriminate. injection Er as <- <-. left. reflexivity. }
  unfold bind at 1 in E. rewrite check_aligned_ok in E by (assumption || lia).
  unfold bind at 1 in E. rewrite check_bounds_ok in E by assumption.
  rewrite Ec, bind_lift_ok in E.
  assert (Eu : u32 (N.of_nat (List.length bs)) = 2 * n) by (rewrite Hn; apply u32_small; unfold two32; lia).
  rewrite Eu in E. rewrite <- Hn, Nat2N.id, firstn_all, Hn in E.
  unfold bind at 1 in E. rewrite store_bytes_ok in E by (assumption || lia).
  assert (Ed : u32 (2 * n / 2) = n) by (rewrite N.mul_comm, N.div_mul by lia; apply u32_small; unfold two32; lia).
  rewrite Ed in E.
  set (s2 := wr s1 p bs) in *.
  assert (Hw : wf_mem (s_mem s2)) by (apply wf_write; assumption).
  assert (Hb2 : forall b, byte (s_mem s2) b = if (p <=? b) && (b <? p + 2 * n) then nth (N.to_nat (b - p)) bs 0 else byte (s_mem s1) b).
  { intros b. unfold s2. cbn [wr s_mem]. rewrite byte_write; [rewrite Hn; reflexivity|]. destruct Hg1 as (Hc1 & _). unfold len in B. lia. }
  assert (Fr : in_use_kept init s s2).
  { intros b Hob. rewrite Hb2. rewrite <- (st_frame _ _ _ _ S1 b Hob) by auto.
    destruct (N.leb_spec p b), (N.ltb_spec b (p + 2 * n)); try reflexivity.
    exfalso. apply (F b); [|exact Hob]. unfold within. lia. }
  assert (Sl : bytes_at (s_mem s2) p (2 * n) = bs).
  { rewrite <- slice_bytes_at; [|exact Hw|unfold s2; cbn; unfold len in B; lia]. rewrite <- Hn. apply slice_write; [exact Hg1| |exact Hb]. rewrite Hn. unfold len in B. lia. }
  assert (L2 : m_len (s_mem s2) = len s1) by reflexivity.
  destruct (N.ltb_spec (2 * n) (2 * u)) as [Hsm|Hge].
  - unfold bind at 1 2 in E. unfold realloc in E.
    destruct (cx_realloc cx (mkReq p (2 * u) 2 (2 * n)) s2) as [[q|e| | ] [m' w']] eqn:Eq;
      [|left; injection E as <- _; exists (mkReq p (2 * u) 2 (2 * n)), s2; rewrite Eq; reflexivity..].
    right. destruct (Hk (mkReq 0 0 2 (2 * u)) (mkReq p (2 * u) 2 (2 * n)) s2 q m' w') as (-> & W & L & D' & B' & Kp & Fr');
      cbn [r_optr r_osize r_size r_align] in *; try assumption; [reflexivity|lia|].
    assert (Hq : u32 q = q) by (apply u32_small; destruct W as (_ & W & _); change (2 ^ 32) with two32 in W; lia).
    rewrite Hq in E.
    set (s3 := mkState m' ((mkReq p (2 * u) 2 (2 * n), q) :: s_hist s2) (s_world s2)) in *.
    assert (Hl3 : m_len m' < two32) by apply W.
    unfold bind at 1 in E. rewrite check_aligned_ok in E by (assumption || lia).
    unfold bind at 1, get_mem at 1 in E. rewrite mem_len32_ok in E by exact W.
    assert (Ea : add32 p (2 * n) = p + 2 * n) by (unfold add32; apply N.mod_small; lia).
    rewrite Ea in E. destruct (N.ltb_spec (len s3) (p + 2 * n)) as [X|_]; [unfold len, s3 in X; cbn [s_mem] in X; lia|].
    injection E as <- <-. exists q. split; [reflexivity|]. split; [exact D'|]. split; [exact B'|]. split.
    + rewrite <- Sl. unfold bytes_at. apply map_ext_in. intros k Hin. apply in_seq in Hin. cbn [s3 s_mem]. apply Kp. lia.
    + split; [exists (mkReq p (2 * u) 2 (2 * n)); split; [left; reflexivity|reflexivity]|].
      split; [exact W|]. intros b Hob. rewrite <- (Fr b Hob). cbn [s3 s_mem]. apply Fr'.
      * destruct (st_hist _ _ _ _ S1) as [l El]. unfold s2. cbn [wr s_hist]. rewrite El. apply owned_mono. exact Hob.
      * intros X. exact (F b X Hob).
  - right. rewrite bind_ret in E. injection E as <- <-. exists p. split; [reflexivity|]. split; [exact D|].
    split; [rewrite L2; lia|]. split; [exact Sl|].
    split; [exists (mkReq 0 0 2 (2 * u)); split; [exact Eh|cbn; lia]|]. split; [exact Hw|exact Fr].
Qed.
Print Assumptions utf16_stored.

(** An allocator that shrinks in place. *)
Definition shrink_alloc (hist : list (req * N)) (r : req) (m : memory) : outcome (N * memory) :=
  if r_osize r =? 0 then bump_alloc hist r m
  else if (r_optr r mod r_align r =? 0) && (r_optr r + r_size r <=? m_len m) then Ok (r_optr r, m) else Err EOther.
Definition shrinker_ctx : callctx := mkCtx 0 0 EncUtf8 (memory_only shrink_alloc).

Lemma shrinker_correct : correct_allocator shrinker_ctx (fun b => b < 64).
Proof.
  intros r s o m' w' H1 H2 Hm H. apply (bump_correct EncUtf8 r s o m' w' H1 H2 Hm). rewrite <- H.
  cbn [shrinker_ctx bump_ctx cx_realloc]. unfold bump, memory_only, shrink_alloc. rewrite H2. reflexivity.
Qed.

Lemma shrinker_shrinks : correct_shrinking shrinker_ctx (fun b => b < 64).
Proof.
  intros r0 r s p m' w' Hin Es Hle Hm H. cbn [shrinker_ctx cx_realloc] in H. unfold memory_only in H.
  destruct (shrink_alloc (s_hist s) r (s_mem s)) as [[p0 m0]| | |] eqn:H0; try discriminate. injection H as <- <- <-.
  split; [reflexivity|]. revert Hin Es Hm H0. generalize (s_hist s) (s_mem s). intros hist m Hin Es Hm H. unfold shrink_alloc in H.
  destruct (N.eqb_spec (r_osize r) 0) as [E0|_].
  - unfold bump_alloc in H. destruct (N.eqb_spec (r_align r) 0) as [|Ha]; [discriminate|].
    set (t := bump_top hist) in *. set (q := (t + r_align r - 1) / r_align r * r_align r) in *.
    destruct (N.leb_spec (q + r_size r) (m_len m)); [|discriminate]. injection H as <- <-.
    split; [assumption|]. split; [lia|]. split; [exists ((t + r_align r - 1) / r_align r); reflexivity|].
    split; [assumption|]. split; [intros; lia|reflexivity].
  - destruct (N.eqb_spec (r_optr r mod r_align r) 0) as [D|]; [|discriminate].
    destruct (N.leb_spec (r_optr r + r_size r) (m_len m)); [|discriminate]. injection H as <- <-.
    split; [assumption|]. split; [lia|]. split; [|split; [assumption|split; reflexivity]].
    destruct (N.eq_dec (r_align r) 0) as [Z|Z]; [|apply N.mod_divide; assumption].
    rewrite Z in *. destruct (r_optr r); [exists 0; reflexivity|discriminate].
Qed.

(** "éh" needs less than the worst case, so the block it is stored in is
    shrunk; "Hé" is copied as Latin-1. *)
Example utf16_stored_applies :
  correct_allocator shrinker_ctx (fun b => b < 64) /\ correct_shrinking shrinker_ctx (fun b => b < 64) /\
  Forall scalar_value [233; 104] /\ wf_mem (s_mem (demo_state 200)) /\
  exists s', store_utf8_to_utf16 shrinker_ctx (utf8_text [233; 104]) 3 (demo_state 200) = (Ok (64, 2), s') /\
    bytes_at (s_mem s') 64 4 = [233; 0; 104; 0] /\ List.length (s_hist s') = 2%nat.
Proof.
  split; [exact shrinker_correct|]. split; [exact shrinker_shrinks|]. split; [repeat constructor; left; lia|].
  split; [split; [reflexivity|split; [vm_compute; reflexivity|repeat constructor]]|].
  eexists. split; [vm_compute; reflexivity|]. split; reflexivity.
Qed.
Example copied_text_applies :
  Forall scalar_value [72; 233] /\ expressible CLatin1 [72; 233] /\ valid_align 2 /\
  1 * 2 = N.of_nat (List.length (text_bytes CLatin1 [72; 233])) /\
  exists s', store_string_copy shrinker_ctx (utf8_text [72; 233]) 2 1 2 CLatin1 (demo_state 200) = (Ok (64, 2), s') /\
    bytes_at (s_mem s') 64 2 = [72; 233].
Proof.
  split; [repeat constructor; left; lia|]. split; [repeat constructor|]. split; [unfold valid_align; lia|]. split; [reflexivity|].
  eexists. split; [vm_compute; reflexivity|reflexivity].
Qed.

(** Neither function compares the number of code units it is given with the
    text. Too few: StoreStringCopy cuts the text short, StoreUtf8ToUtf16 writes
    beyond its block, over bytes in use. *)
Theorem copy_is_whole_refuted : exists cx init cs units s s' ptr,
  correct_allocator cx init /\ Forall scalar_value cs /\ wf_mem (s_mem s) /\
  store_string_copy cx (utf8_text cs) units 1 1 CUtf8 s = (Ok (ptr, units), s') /\
  bytes_at (s_mem s') ptr units <> utf8_text cs.
Proof.
  exists shrinker_ctx, (fun b => b < 64), [72; 105], 1, (demo_state 200). eexists. exists 64.
  split; [exact shrinker_correct|]. split; [repeat constructor; left; lia|].
  split; [split; [reflexivity|split; [vm_compute; reflexivity|repeat constructor]]|].
  split; [vm_compute; reflexivity|]. vm_compute. discriminate.
Qed.
Print Assumptions copy_is_whole_refuted.

(** A size of 2^31 bytes or more, which the length check is to refuse, passes
    it when it wraps around to a small number. *)
Theorem copy_size_limit_refuted : exists cx init units size s s' ptr,
  correct_allocator cx init /\ wf_mem (s_mem s) /\ units < 2 ^ 32 /\ 2 ^ 31 <= size * units /\
  store_string_copy cx [] units size 1 (CUtf16 false) s = (Ok (ptr, units), s').
Proof.
  exists shrinker_ctx, (fun b => b < 64), 2147483648, 2, (demo_state 200). eexists. exists 64.
  split; [exact shrinker_correct|].
  split; [split; [reflexivity|split; [vm_compute; reflexivity|repeat constructor]]|].
  split; [vm_compute; reflexivity|]. split; [vm_compute; discriminate|]. vm_compute. reflexivity.
Qed.
Print Assumptions copy_size_limit_refuted.

(** A memory whose first two bytes are free, and no more. *)
Definition two_bytes (hist : list (req * N)) (r : req) (m : memory) : outcome (N * memory) :=
  match hist with
  | [] => if (r_size r <=? 2) && (2 <=? m_len m) then Ok (0, m) else Err EOther
  | _ => Err EOther
  end.
Theorem utf16_stays_in_block_refuted : exists cx init cs units s s' r,
  correct_allocator cx init /\ Forall scalar_value cs /\ wf_mem (s_mem s) /\
  store_utf8_to_utf16 cx (utf8_text cs) units s = (Ok r, s') /\ ~ in_use_kept init s s'.
Proof.
  exists (mkCtx 0 0 EncUtf8 (memory_only two_bytes)), (fun b => 2 <= b), [72; 105; 33], 1, (demo_state 200). eexists. eexists.
  split.
  { apply memory_only_correct. intros hist r m p m' _ _ Hm H. unfold two_bytes in H. destruct hist; [|discriminate].
    destruct (N.leb_spec (r_size r) 2); [|discriminate]. destruct (N.leb_spec 2 (m_len m)); [|discriminate]. injection H as <- <-.
    split; [assumption|]. split; [lia|]. split; [exists 0; reflexivity|]. split; [lia|]. split; [|reflexivity].
    intros b [_ Hb] [Hi|(r' & p' & [] & _)]. lia. }
  split; [repeat constructor; left; lia|].
  split; [split; [reflexivity|split; [vm_compute; reflexivity|repeat constructor]]|].
  split; [vm_compute; reflexivity|]. intros K. specialize (K 2). vm_compute in K.
  assert (X : 105 = 0); [apply K; left; discriminate|discriminate X].
Qed.
Print Assumptions utf16_stays_in_block_refuted.

(** StoreUtf8ToUtf16 traps on a first block that lies outside memory; on the
    shrunk one it does not look. *)
Theorem shrunk_block_checked_refuted : exists cx cs s s' ptr n,
  wf_mem (s_mem s) /\
  store_utf8_to_utf16 cx (utf8_text cs) (N.of_nat (List.length (utf8_text cs))) s = (Ok (ptr, n), s') /\
  m_len (s_mem s') < ptr + 2 * n.
Proof.
  exists (mkCtx 0 0 EncUtf8 (memory_only (fun hist r m => Ok (if r_osize r =? 0 then 64 else 4096, m)))), [233], (demo_state 200). eexists. eexists. eexists.
  split; [split; [reflexivity|split; [vm_compute; reflexivity|repeat constructor]]|].
  split; [vm_compute; reflexivity|vm_compute; reflexivity].
Qed.
Print Assumptions shrunk_block_checked_refuted.
