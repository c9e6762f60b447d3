(** C81: proper values are refused by the guest's allocator or not at all. *)
From Coq Require Import NArith ZArith String Ascii Bool Lia List.
From Verif Require Import GoBase M_Types M_Layout S_Layout L_Layout M_State M_Utf M_Load M_Store M_Flat M_Canon S_Utf
  S_Values S_Memory S_Format S_Flat S_Canon S_FlatFormat S_Calls L_Canon L_Calls L_Flat P_Memory P_Flat P_Canon S_Requests L_Requests P_Requests S_Blame L_Blame.
Import ListNotations.
Open Scope N_scope.
Open Scope go_scope.

(** Storing a value of its type, at an aligned place in memory that is in use,
    asks for all its blocks and succeeds; or the allocator fails on one of
    the requests, and the run ends there, with that failure. *)
Theorem store_blame : forall cx init t a sz v p rs s o s',
  correct_allocator cx init ->
  wf_type t -> has_type (cx_enc cx) t v -> asks (cx_enc cx) t v rs ->
  sp_layout t = Some (a, sz) -> (a | p) ->
  wf_mem (s_mem s) -> p + sz <= m_len (s_mem s) ->
  (forall b, within p sz b -> owned init (s_hist s) b) ->
  store cx t v p s = (o, s') ->
  (o = Ok tt /\ made s s' rs) \/ refused cx rs s o s'.
Proof.
  intros [id inst enc al] init t a sz v p rs s o s' Hc Hw Hv Ha Hl Hd Hm Hb Ho E. cbn [cx_enc] in *.
  destruct (blame (fun al => store (mkCtx id inst enc al) t v p)
    (fun al1 al2 D H => parts_store al1 al2 D H id inst enc t v p) rs
    (fun al => store_logs (mkCtx id inst enc al) t v rs p Hw Ha) id inst enc al s o s') as [([] & -> & M)|R]; auto.
  intros X HX. assert (Hx : forall p, X <> Ok p) by (destruct HX; subst X; discriminate).
  destruct (store (mkCtx id inst enc (relabel (fun _ _ => true) X al)) t v p s) as [o1 s1] eqn:E1.
  destruct (load_after_store (mkCtx id inst enc (relabel (fun _ _ => true) X al)) init t a sz v p s o1 s1) as [[-> _]|Hf]; try assumption.
  - now apply relabel_correct.
  - left. now exists tt.
  - right. cbn [fst]. exact (relabel_fails _ _ _ _ _ _ Hx Hf).
Qed.
Print Assumptions store_blame.

(** So does lowering it to flat values. *)
Theorem lower_blame : forall cx init t ks v rs s o s',
  correct_allocator cx init ->
  wf_type t -> flattens t ks -> has_type (cx_enc cx) t v -> asks (cx_enc cx) t v rs -> wf_mem (s_mem s) ->
  lower_flat cx t v s = (o, s') ->
  (exists cs, o = Ok cs /\ map cval_kind cs = ks /\ made s s' rs) \/ refused cx rs s o s'.
Proof.
  intros [id inst enc al] init t ks v rs s o s' Hc Hw Hk Hv Ha Hm E. cbn [cx_enc] in *.
  assert (Q : (exists x, o = Ok x /\ made s s' rs) \/ refused (mkCtx id inst enc al) rs s o s').
  { apply (blame (fun al => lower_flat (mkCtx id inst enc al) t v)
      (fun al1 al2 D H => parts_lower_flat al1 al2 D H id inst enc t v) rs
      (fun al => lower_logs (mkCtx id inst enc al) t v rs Hw Ha)); [|exact E].
    intros X HX. assert (Hx : forall p, X <> Ok p) by (destruct HX; subst X; discriminate).
    destruct (lower_flat (mkCtx id inst enc (relabel (fun _ _ => true) X al)) t v s) as [o1 s1] eqn:E1.
    destruct (flat_round_trip_memory (mkCtx id inst enc (relabel (fun _ _ => true) X al)) init t ks v [] [] s o1 s1) as [(cs & -> & _)|Hf]; try assumption.
    - now apply relabel_correct.
    - left. now exists cs.
    - right. cbn [fst]. exact (relabel_fails _ _ _ _ _ _ Hx Hf). }
  destruct Q as [(cs & -> & M)|R]; [left|right; exact R]. exists cs. split; [reflexivity|]. split; [|exact M].
  destruct (flat_round_trip_memory (mkCtx id inst enc al) init t ks v [] [] s (Ok cs) s') as [(cs' & E' & K & _)|(? & ? & _ & _ & [])]; try assumption.
  injection E' as <-. exact K.
Qed.
Print Assumptions lower_blame.

(** And lowering the arguments of a call, within the flat limit. *)
Theorem arguments_blame : forall cx init ts kss vs rs out maxf s o s',
  correct_allocator cx init -> Forall wf_type ts ->
  Forall2 flattens ts kss -> (List.length (List.concat kss) <= maxf)%nat ->
  Forall2 (has_type (cx_enc cx)) ts vs -> all_ask cx ts vs rs -> wf_mem (s_mem s) ->
  lower_values cx maxf vs ts out s = (o, s') ->
  (exists cs, o = Ok (map VCore cs) /\ well_kinded (List.concat kss) cs /\ passed_as (cx_enc cx) (s_mem s') ts cs vs /\ made s s' rs)
  \/ refused cx rs s o s'.
Proof.
  intros [id inst enc al] init ts kss vs rs out maxf s o s' Hc Hw Hk Hn Hv (parts & Ha & ->) Hm E. cbn [cx_enc] in *.
  assert (L : forall al, logs (List.concat parts) (lower_values (mkCtx id inst enc al) maxf vs ts out)).
  { intros al0 s0 o0 s0' E0. destruct (flatten_types_ok ts kss Hk) as [_ Ef].
    refine (call_requests (mkCtx id inst enc al0) maxf ts vs parts _ s0 o0 s0' Hw _ Ha Ef Hn out E0).
    clear - Hv. induction Hv; cbn; congruence. }
  assert (Q : (exists x, o = Ok x /\ made s s' (List.concat parts)) \/ refused (mkCtx id inst enc al) (List.concat parts) s o s').
  { apply (blame (fun al => lower_values (mkCtx id inst enc al) maxf vs ts out)
      (fun al1 al2 D H => parts_lower_values al1 al2 D H id inst enc maxf vs ts out) _ L); [|exact E].
    intros X HX. assert (Hx : forall p, X <> Ok p) by (destruct HX; subst X; discriminate).
    destruct (lower_values (mkCtx id inst enc (relabel (fun _ _ => true) X al)) maxf vs ts out s) as [o1 s1] eqn:E1.
    destruct (lower_values_passes (mkCtx id inst enc (relabel (fun _ _ => true) X al)) init maxf ts vs kss out s o1 s1) as [(cs & -> & _)|Hf]; try assumption.
    - now apply relabel_correct.
    - left. eexists. reflexivity.
    - right. cbn [fst]. exact (relabel_fails _ _ _ _ _ _ Hx Hf). }
  destruct Q as [(x & -> & M)|R]; [left|right; exact R].
  destruct (lower_values_passes (mkCtx id inst enc al) init maxf ts vs kss out s (Ok x) s') as [(cs & E' & _ & K & P)|(? & ? & _ & _ & [])]; try assumption.
  exists cs. auto.
Qed.
Print Assumptions arguments_blame.

(** Proper arguments have their requests, and no others. *)
Lemma all_ask_exists : forall cx ts vs, Forall wf_type ts -> Forall2 (has_type (cx_enc cx)) ts vs -> exists rs, all_ask cx ts vs rs.
Proof.
  intros cx ts vs Hw Hv.
  assert (P : exists parts, Forall2 (fun tv part => asks (cx_enc cx) (fst tv) (snd tv) part) (combine ts vs) parts).
  { induction Hv as [|t v ts vs Ht Hv IH]; [exists []; constructor|]. inversion Hw; subst. destruct IH as [parts IH]; [assumption|].
    destruct (asks_exists (cx_enc cx) t v) as [rs Hr]; try assumption. exists (rs :: parts). constructor; assumption. }
  destruct P as [parts P]. exists (List.concat parts), parts. auto.
Qed.

(** ** Granted requests *)

Lemma granted_not_refused : forall {A} cx rs s (o : outcome A) s', grants cx s rs -> ~ refused cx rs s o s'.
Proof.
  intros A cx rs s o s' G (d & r & rest & s1 & E & M & R & F & _). destruct (G _ _ _ _ E M R) as [p Hp]. rewrite Hp in F. contradiction.
Qed.

(** If the allocator grants the requests the value takes, storing it cannot
    fail, and it can be read back. *)
Theorem store_succeeds : forall cx init t a sz v p rs s,
  correct_allocator cx init ->
  wf_type t -> has_type (cx_enc cx) t v -> asks (cx_enc cx) t v rs -> grants cx s rs ->
  sp_layout t = Some (a, sz) -> (a | p) ->
  wf_mem (s_mem s) -> p + sz <= m_len (s_mem s) ->
  (forall b, within p sz b -> owned init (s_hist s) b) ->
  exists s' v', store cx t v p s = (Ok tt, s') /\ made s s' rs /\ load cx t p s' = (Ok v', s') /\ same_value t v v'.
Proof.
  intros cx init t a sz v p rs s Hc Hw Hv Ha G Hl Hd Hm Hb Ho. destruct (store cx t v p s) as [o s'] eqn:E.
  destruct (store_blame cx init t a sz v p rs s o s') as [[-> M]|R]; try assumption; [|now apply granted_not_refused in R].
  destruct (load_after_store cx init t a sz v p s (Ok tt) s') as [(_ & v' & K)|(? & ? & _ & _ & [])]; try assumption.
  exists s', v'. split; [reflexivity|]. split; [exact M|exact K].
Qed.
Print Assumptions store_succeeds.

Theorem lower_succeeds : forall cx init t ks v rs s,
  correct_allocator cx init ->
  wf_type t -> flattens t ks -> has_type (cx_enc cx) t v -> asks (cx_enc cx) t v rs -> grants cx s rs ->
  wf_mem (s_mem s) ->
  exists cs s', lower_flat cx t v s = (Ok cs, s') /\ map cval_kind cs = ks /\ made s s' rs.
Proof.
  intros cx init t ks v rs s Hc Hw Hk Hv Ha G Hm. destruct (lower_flat cx t v s) as [o s'] eqn:E.
  destruct (lower_blame cx init t ks v rs s o s') as [(cs & -> & K & M)|R]; try assumption; [|now apply granted_not_refused in R].
  exists cs, s'. auto.
Qed.
Print Assumptions lower_succeeds.

(** A value that takes no block is stored and lowered whatever the allocator would do. *)
Theorem no_blocks_no_failure : forall cx init t a sz ks v p s,
  correct_allocator cx init -> wf_type t -> has_type (cx_enc cx) t v -> asks (cx_enc cx) t v [] ->
  sp_layout t = Some (a, sz) -> (a | p) -> flattens t ks ->
  wf_mem (s_mem s) -> p + sz <= m_len (s_mem s) -> (forall b, within p sz b -> owned init (s_hist s) b) ->
  (exists s', store cx t v p s = (Ok tt, s') /\ s_hist s' = s_hist s) /\
  (exists cs s', lower_flat cx t v s = (Ok cs, s') /\ s_hist s' = s_hist s).
Proof.
  assert (Z : forall s s', made s s' [] -> s_hist s' = s_hist s).
  { intros s s' (b & Hb & Hr). destruct b as [|x b]; [exact Hb|]. cbn [map rev] in Hr. now apply app_eq_nil in Hr. }
  intros cx init t a sz ks v p s Hc Hw Hv Ha Hl Hd Hk Hm Hb Ho. split.
  - destruct (store_succeeds cx init t a sz v p [] s) as (s' & v' & E & M & _); try assumption; [intros d r re s1 X; now apply app_cons_not_nil in X|]. exists s'. auto.
  - destruct (lower_succeeds cx init t ks v [] s) as (cs & s' & E & _ & M); try assumption; [intros d r re s1 X; now apply app_cons_not_nil in X|]. exists cs, s'. auto.
Qed.
Print Assumptions no_blocks_no_failure.

(** ** Examples *)

(** What the bump allocator has handed out follows from the requests. *)
Fixpoint bumped (hist : list (req * N)) : Prop :=
  match hist with
  | [] => True
  | (r, q) :: h => q = u32 ((bump_top h + r_align r - 1) / r_align r * r_align r) /\ bumped h
  end.
Lemma reaches_bumped : forall enc n s1, reaches (bump_ctx enc) (demo_state n) s1 -> m_len (s_mem s1) = N.of_nat n /\ bumped (s_hist s1).
Proof.
  intros enc n s1 H. induction H as [|s1 s2 H IH E1 E2|s1 r p m w H IH E].
  - split; [reflexivity|exact I].
  - rewrite E1, E2. exact IH.
  - destruct IH as [IH1 IH2]. cbn [cx_realloc bump_ctx] in E. unfold bump, memory_only, bump_alloc in E.
    destruct (r_align r =? 0); [discriminate|]. destruct (_ <=? _); [|discriminate]. injection E as <- <- <-.
    split; [exact IH1|]. split; [reflexivity|exact IH2].
Qed.

Lemma deep_wf : wf_type deep_type.
Proof. split; [repeat constructor; cbn; intuition discriminate|]. cbn. repeat split; ((exists 4, 8; split; reflexivity) || (exists 2, 2; split; reflexivity)). Qed.

Lemma deep_has_type : has_type EncUtf8 deep_type deep_val.
Proof.
  assert (T : forall cs, Forall scalar_value cs -> N.of_nat (List.length (utf8_text cs)) < 2 ^ 31 ->
    has_type EncUtf8 TString (VStr (utf8_text cs))).
  { intros cs Hs Hl. eexists. split; [reflexivity|]. exists cs. repeat split; assumption. }
  assert (R : forall l, Forall (fun n => n < 2 ^ 16) l -> N.of_nat (List.length l) < 2 ^ 20 -> has_type EncUtf8 (TList TU16) (VList (map VU16 l))).
  { intros l Hl Hn. exists (map VU16 l), 2, 2. rewrite map_length. split; [reflexivity|]. split.
    - apply Forall_forall. intros x Hx. apply in_map_iff in Hx. destruct Hx as (n & <- & Hx). rewrite Forall_forall in Hl. exists n. auto.
    - split; [reflexivity|]. lia. }
  eexists. split; [reflexivity|]. apply Forall_cons; [|apply Forall_cons; [|apply Forall_cons; [|apply Forall_cons; [|apply Forall_nil]]]]; cbn [fst snd].
  - eexists. split; [reflexivity|]. apply (T [72; 233]); [repeat constructor; unfold scalar_value; lia|reflexivity].
  - eexists. split; [reflexivity|]. eexists. exists 4, 8. split; [reflexivity|]. split; [|repeat split; reflexivity].
    apply Forall_cons; [|apply Forall_cons; [|apply Forall_cons; [|apply Forall_nil]]].
    + apply (R [1; 2; 3]); [repeat constructor|reflexivity].
    + apply (R []); [constructor|reflexivity].
    + apply (R [9]); [repeat constructor|reflexivity].
  - eexists. split; [reflexivity|]. exists 7. split; reflexivity.
  - eexists. split; [reflexivity|]. exists "some"%string. eexists. exists 1%nat. eexists. split; [reflexivity|]. split.
    + exists [], "some"%string, []. repeat split; repeat constructor; cbn; discriminate.
    + split; [reflexivity|]. cbn [c_type]. apply (T [111; 107]); [repeat constructor; unfold scalar_value; lia|reflexivity].
Qed.

(** The whole value fits in 200 bytes of memory; in 95 bytes, the third request is refused. *)
Example store_blame_applies :
  correct_allocator (bump_ctx EncUtf8) (fun b => b < 64) /\ wf_type deep_type /\ has_type EncUtf8 deep_type deep_val /\
  asks EncUtf8 deep_type deep_val deep_requests /\ sp_layout deep_type = Some (8, 40) /\
  wf_mem (s_mem (demo_state 95)) /\ 8 + 40 <= m_len (s_mem (demo_state 95)) /\
  (forall b, within 8 40 b -> owned (fun b => b < 64) (s_hist (demo_state 95)) b) /\
  exists s', store (bump_ctx EncUtf8) deep_type deep_val 8 (demo_state 95) = (Err EOther, s') /\
    made (demo_state 95) s' [new_block 1 3; new_block 4 24].
Proof.
  split; [apply bump_correct|]. split; [exact deep_wf|]. split; [exact deep_has_type|]. split; [exact deep_asks|]. split; [reflexivity|].
  split; [split; [vm_compute; discriminate|split; [reflexivity|apply Forall_forall; intros x Hx; apply repeat_spec in Hx; subst x; reflexivity]]|].
  split; [vm_compute; discriminate|]. split; [intros b [H1 H2]; left; lia|].
  eexists. split; [vm_compute; reflexivity|]. eexists. split; [cbn [s_hist]; symmetry; apply app_nil_r|]. reflexivity.
Qed.

Example store_succeeds_applies : grants (bump_ctx EncUtf8) (demo_state 200) deep_requests /\ ~ grants (bump_ctx EncUtf8) (demo_state 95) deep_requests.
Proof.
  split.
  - intros done r rest s1 Er (bl & Hb & Hd) Hr. apply reaches_bumped in Hr. destruct Hr as [Hl Hu].
    cbn [s_hist demo_state] in Hb. rewrite app_nil_r in Hb. subst bl. cbn [cx_realloc bump_ctx]. unfold bump, memory_only, bump_alloc. rewrite Hl.
    assert (Hm : map fst (s_hist s1) = rev done) by (rewrite <- Hd, rev_involutive; reflexivity). clear Hd Hl.
    revert Hu Hm. generalize (s_hist s1). intros h Hu Hm.
    unfold deep_requests in Er.
    repeat (destruct done as [|d done]; cbn [app] in Er; [injection Er as <- <-|injection Er as <- Er]; [|]).
    all: try (symmetry in Er; now apply app_eq_nil in Er).
    all: cbn [rev app map] in Hm; repeat (destruct h as [|[? ?] h]; [discriminate || clear Hm|try discriminate; injection Hm as ? Hm; subst]).
    all: cbn [bumped] in Hu.
    all: repeat match goal with H : _ /\ _ |- _ => destruct H end; subst; eexists; vm_compute; reflexivity.
  - intros G. destruct store_blame_applies as (H1 & H2 & H3 & H4 & H5 & H6 & H7 & H8 & s' & E & _).
    destruct (store_succeeds (bump_ctx EncUtf8) (fun b => b < 64) deep_type 8 40 deep_val 8 deep_requests (demo_state 95)) as (s2 & v2 & E2 & _); try assumption.
    + exists 1. reflexivity.
    + rewrite E in E2. discriminate.
Qed.

(** Arguments of a call: a text and an optional number. *)
Example arguments_blame_applies :
  all_ask (bump_ctx EncUtf8) [TString; TOption TU8] demo_args [new_block 1 2] /\
  (exists s', lower_values (bump_ctx EncUtf8) 16 demo_args [TString; TOption TU8] None (demo_state 200)
    = (Ok (map VCore [CU32 64; CU32 2; CU32 1; CU32 7]), s')) /\
  exists s', lower_values (bump_ctx EncUtf8) 16 demo_args [TString; TOption TU8] None (demo_state 65) = (Err EOther, s').
Proof.
  split; [|split; eexists; vm_compute; reflexivity]. exists [[new_block 1 2]; []]. split; [|reflexivity]. constructor; [|constructor; [|constructor]]; cbn [fst snd].
  - exists [72; 105], CUtf8. repeat split; repeat constructor; lia.
  - eexists _, _, 1%nat, _. split; [reflexivity|]. split; [|split; [reflexivity|reflexivity]].
    exists [], "some"%string, []. repeat split; repeat constructor; discriminate.
Qed.

(** A text lowered in 200 bytes of memory. *)
Example lower_succeeds_applies :
  wf_type TString /\ flattens TString [KU32; KU32] /\ has_type EncUtf8 TString (VStr [72; 105]) /\
  asks EncUtf8 TString (VStr [72; 105]) [new_block 1 2] /\ grants (bump_ctx EncUtf8) (demo_state 200) [new_block 1 2].
Proof.
  split; [exact I|]. split; [constructor|]. split.
  { exists [72; 105]. split; [reflexivity|]. exists [72; 105]. repeat split; repeat constructor; lia. }
  split; [exists [72; 105], CUtf8; repeat split; repeat constructor; lia|].
  intros done r rest s1 Er (bl & Hb & Hd) Hr. apply reaches_bumped in Hr. destruct Hr as [Hl _].
  destruct done as [|d done]; [|injection Er as _ Er; now apply app_cons_not_nil in Er]. injection Er as <- _.
  destruct bl as [|x bl]; [|now apply app_eq_nil in Hd]. cbn [app s_hist demo_state] in Hb.
  cbn [cx_realloc bump_ctx]. unfold bump, memory_only, bump_alloc. rewrite Hl, Hb. eexists. vm_compute. reflexivity.
Qed.

(** A number and an optional number need no allocator. *)
Example no_blocks_no_failure_applies : forall s,
  let cx := mkCtx 0 0 EncUtf8 (fun _ s => (Panic, (s_mem s, s_world s))) in
  let t := TRecord [("id", TU64); ("age", TOption TU8)]%string in
  let v := VMap [("id", VU64 7); ("age", VMap [("some", VU8 9)])]%string in
  correct_allocator cx (fun _ => True) /\ asks EncUtf8 t v [] /\ sp_layout t = Some (8, 16) /\ flattens t [KU64; KU32; KU32] /\
  exists cs, lower_flat cx t v s = (Ok cs, s).
Proof.
  intros s cx t v. split; [|split; [|split; [reflexivity|split; [apply flatten_as_specified; reflexivity|eexists; vm_compute; reflexivity]]]].
  - intros r s1 o m w _ _ Hm E. injection E as <- <- <-. repeat (split; [reflexivity || exact Hm || lia|]). discriminate.
  - eexists. exists [[]; []]. split; [reflexivity|]. split; [|reflexivity]. constructor; [|constructor; [|constructor]]; cbn [map fst snd].
    + eexists. split; reflexivity.
    + eexists. split; [reflexivity|]. eexists _, _, 1%nat, _. split; [reflexivity|]. split; [|split; [reflexivity|reflexivity]].
      exists [], "some"%string, []. repeat split; repeat constructor; discriminate.
Qed.
