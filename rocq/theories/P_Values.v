(** Property theorems about the values that cross the boundary (C16-C21, C23,
    C33, C49-C51). *)
From Coq Require Import NArith ZArith List String Bool FinFun Lia ZifyBool ZifyNat ZifyN.
From Verif Require Import GoBase M_Types M_Layout S_Layout L_Layout M_State M_Utf M_Load M_Store M_Flat
  S_Utf S_Values S_Format S_Memory S_Access L_Access L_Variant L_Labels L_Mem L_Utf L_Flags L_Frame L_RoundTrip L_StoreLoad
  L_Lifted L_FlagWords P_Memory.
Import ListNotations.
Open Scope N_scope.
Open Scope go_scope.

(** A core value at the position an iterator has reached. *)
Definition at_core (pre : list cval) (c : cval) (post : list cval) : iter :=
  IBase (pre ++ c :: post) (List.length pre).
Definition past_core (pre : list cval) (c : cval) (post : list cval) : iter :=
  IBase (pre ++ c :: post) (S (List.length pre)).

Lemma next_at : forall pre c post, iter_next (at_core pre c post) (cval_kind c) = Ok (cval_any c, past_core pre c post).
Proof.
  intros pre c post. unfold at_core, past_core. cbn [iter_next].
  assert (E : nth_error (pre ++ c :: post) (List.length pre) = Some c)
    by (rewrite nth_error_app2, Nat.sub_diag by lia; reflexivity).
  destruct (pre ++ c :: post)%list as [|c0 cs0] eqn:Ec; [destruct pre; discriminate|]. rewrite E.
  destruct c; reflexivity.
Qed.

Lemma next_u32_at : forall pre n post s, next_u32 (at_core pre (CU32 n) post) s = (Ok (n, past_core pre (CU32 n) post), s).
Proof. intros. unfold next_u32. change KU32 with (cval_kind (CU32 n)). rewrite next_at. reflexivity. Qed.
Lemma next_f32_at : forall pre n post s, next_f32 (at_core pre (CF32 n) post) s = (Ok (n, past_core pre (CF32 n) post), s).
Proof. intros. unfold next_f32. change KF32 with (cval_kind (CF32 n)). rewrite next_at. reflexivity. Qed.
Lemma next_f64_at : forall pre n post s, next_f64 (at_core pre (CF64 n) post) s = (Ok (n, past_core pre (CF64 n) post), s).
Proof. intros. unfold next_f64. change KF64 with (cval_kind (CF64 n)). rewrite next_at. reflexivity. Qed.

(** ** C49, C50: only proper values come out, and memory is left alone *)

Theorem load_only_proper_values : forall cx t p s v s',
  wf_type t -> wf_mem (s_mem s) -> load cx t p s = (Ok v, s') -> lifted t v.
Proof.
  intros cx t p s v s' Ht Hm E. destruct (load_gives cx t Ht p s _ s' Hm E) as (_ & _ & H). auto.
Qed.
Print Assumptions load_only_proper_values.

Theorem lift_only_proper_values : forall cx t it s v it' s',
  wf_type t -> wf_mem (s_mem s) -> iter_ok it -> lift_flat cx t it s = (Ok (v, it'), s') -> lifted t v.
Proof.
  intros cx t it s v it' s' Ht Hm Hi E. destruct (lift_gives cx t Ht it Hi s _ s' Hm E) as (_ & _ & H).
  apply (H (v, it')). reflexivity.
Qed.
Print Assumptions lift_only_proper_values.

Theorem load_leaves_memory : forall cx t p s o s',
  wf_type t -> wf_mem (s_mem s) -> load cx t p s = (o, s') -> s_mem s' = s_mem s /\ s_hist s' = s_hist s.
Proof.
  intros cx t p s o s' Ht Hm E. destruct (load_gives cx t Ht p s _ s' Hm E) as (H1 & H2 & _). auto.
Qed.
Print Assumptions load_leaves_memory.

Theorem lift_leaves_memory : forall cx t it s o s',
  wf_type t -> wf_mem (s_mem s) -> iter_ok it -> lift_flat cx t it s = (o, s') ->
  s_mem s' = s_mem s /\ s_hist s' = s_hist s.
Proof.
  intros cx t it s o s' Ht Hm Hi E. destruct (lift_gives cx t Ht it Hi s _ s' Hm E) as (H1 & H2 & _). auto.
Qed.
Print Assumptions lift_leaves_memory.

(** Garbage in memory and in the core values. *)
Definition noise : state := mkState (mkMem (map (fun k => N.of_nat k * 37 mod 256) (seq 3 40)) 40) [] demo_world.
Example proper_values_apply :
  wf_mem (s_mem noise) /\ iter_ok (IBase [CU32 4294967295; CF32 4290772993] 0) /\
  fst (load (bump_ctx EncUtf8) (TRecord [("a", TS16); ("b", TBool)]%string) 4 noise)
    = Ok (VMap [("a", VS16 10243); ("b", VBool true)]%string) /\
  fst (lift_flat (bump_ctx EncUtf8) (TTuple [TU8; TF32]) (IBase [CU32 4294967295; CF32 4290772993] 0) noise)
    = Ok (VMap [("0", VU8 255); ("1", VF32 2143289344)]%string, IBase [CU32 4294967295; CF32 4290772993] 2).
Proof.
  split.
  { split; [vm_compute; discriminate|]. split; [vm_compute; reflexivity|].
    apply Forall_forall. intros x Hx. unfold noise in Hx. cbn [s_mem m_data] in Hx. apply in_map_iff in Hx.
    destruct Hx as (k & <- & _). apply N.mod_lt. discriminate. }
  split; [repeat constructor|].
  split; vm_compute; reflexivity.
Qed.

(** ** C16 *)

Theorem lift_f32_canonical : forall cx pre b post s, b < 2 ^ 32 ->
  exists b', lift_flat cx TF32 (at_core pre (CF32 b) post) s = (Ok (VF32 b', past_core pre (CF32 b) post), s)
    /\ same_f32 b b'.
Proof.
  intros cx pre b post s H. exists (canonicalize32 b). split.
  - cbn [lift_flat]. unfold lmap, bind. rewrite next_f32_at. reflexivity.
  - pose proof (canonical32_same b H) as [Hs _]. unfold canonicalize32 in *.
    destruct (is_nan32 b) eqn:E; [exact Hs|]. rewrite E in Hs. exact Hs.
Qed.
Print Assumptions lift_f32_canonical.

Theorem lift_f64_canonical : forall cx pre b post s, b < 2 ^ 64 ->
  exists b', lift_flat cx TF64 (at_core pre (CF64 b) post) s = (Ok (VF64 b', past_core pre (CF64 b) post), s)
    /\ same_f64 b b'.
Proof.
  intros cx pre b post s H. exists (canonicalize64 b). split.
  - cbn [lift_flat]. unfold lmap, bind. rewrite next_f64_at. reflexivity.
  - pose proof (canonical64_same b H) as [Hs _]. unfold canonicalize64 in *.
    destruct (is_nan64 b) eqn:E; [exact Hs|]. rewrite E in Hs. exact Hs.
Qed.
Print Assumptions lift_f64_canonical.

Theorem lower_f32_canonical : forall cx b s, b < 2 ^ 32 ->
  exists b', lower_flat cx TF32 (VF32 b) s = (Ok [CF32 b'], s) /\ same_f32 b b'.
Proof.
  intros cx b s H. exists (canonicalize32 b). split; [reflexivity|].
  pose proof (canonical32_same b H) as [Hs _]. unfold canonicalize32 in *.
  destruct (is_nan32 b) eqn:E; [exact Hs|]. rewrite E in Hs. exact Hs.
Qed.
Print Assumptions lower_f32_canonical.

Theorem lower_f64_canonical : forall cx b s, b < 2 ^ 64 ->
  exists b', lower_flat cx TF64 (VF64 b) s = (Ok [CF64 b'], s) /\ same_f64 b b'.
Proof.
  intros cx b s H. exists (canonicalize64 b). split; [reflexivity|].
  pose proof (canonical64_same b H) as [Hs _]. unfold canonicalize64 in *.
  destruct (is_nan64 b) eqn:E; [exact Hs|]. rewrite E in Hs. exact Hs.
Qed.
Print Assumptions lower_f64_canonical.

Theorem load_f32_canonical : forall cx p s, wf_mem (s_mem s) -> p + 4 <= m_len (s_mem s) ->
  exists b', load cx TF32 p s = (Ok (VF32 b'), s) /\ same_f32 (number (s_mem s) p 4) b'.
Proof.
  intros cx p s Hm H. exists (canonicalize32 (number (s_mem s) p 4)). split.
  - cbn [load]. unfold load_f32. erewrite bind_ok; [|apply load_word; assumption]. reflexivity.
  - destruct (lower_f32_canonical cx (number (s_mem s) p 4) s (number_lt 4 _ p Hm)) as (b' & E & S).
    inversion E; subst. exact S.
Qed.
Print Assumptions load_f32_canonical.

Theorem load_f64_canonical : forall cx p s, wf_mem (s_mem s) -> p + 8 <= m_len (s_mem s) ->
  exists b', load cx TF64 p s = (Ok (VF64 b'), s) /\ same_f64 (number (s_mem s) p 8) b'.
Proof.
  intros cx p s Hm H. exists (canonicalize64 (number (s_mem s) p 8)). split.
  - cbn [load]. unfold load_f64. erewrite bind_ok; [|apply load_u64_uint; apply (load_number 8); assumption]. reflexivity.
  - destruct (lower_f64_canonical cx (number (s_mem s) p 8) s (number_lt 8 _ p Hm)) as (b' & E & S).
    inversion E; subst. exact S.
Qed.
Print Assumptions load_f64_canonical.

(** What Store leaves in memory. *)
Lemma stored_number : forall cx t a (n : nat) v x p s s' mx,
  sp_layout t = Some (a, N.of_nat n) -> wf_mem (s_mem s) -> p + N.of_nat n <= m_len (s_mem s) ->
  N.of_nat n = 1 \/ N.of_nat n = 2 \/ N.of_nat n = 4 \/ N.of_nat n = 8 ->
  (exists st, store cx t = guarded (alignment t) (size t) st /\ st v p = store_int mx p (N.of_nat n) false) ->
  int_info mx = Ok (mkInt x (256 ^ N.of_nat n - 1) 0 false) -> x < 256 ^ N.of_nat n ->
  store cx t v p s = (Ok tt, s') -> number (s_mem s') p n = x.
Proof.
  intros cx t a n v x p s s' mx Hl Hm Hb Hn (st & -> & Est) Hi Hx E.
  destruct (sp_layout_facts _ _ _ Hl) as (Ha & Hva & _ & Hs).
  assert (Hp : p + N.of_nat n < two32) by (destruct Hm as (_ & Hm & _); unfold two32; lia).
  specialize (Hs ltac:(lia)).
  destruct (guarded_cases (alignment t) (size t) a (N.of_nat n) st v p s Ha Hs Hva Hm Hp) as [(_ & _ & E')|(E' & _)];
    [|congruence].
  rewrite E', Est in E.
  assert (W : writes cx (fun _ => True) p (N.of_nat n) (store_int mx p (N.of_nat n) false)
     (fun _ s => load_uint (N.of_nat n) p s = (Ok x, s))).
  { eapply (unsigned_rt cx (fun _ => True) p (N.of_nat n) _ x _ VU32); [tauto|exact Hx|exact Hi|lia|auto]. }
  destruct (W s _ _ Hm ltac:(intros; left; exact I) Hb E) as [(u & _ & St & K)|(? & ? & ? & ? & [])].
  assert (Hb' : p + N.of_nat n <= len s') by (pose proof (st_len _ _ _ _ St); unfold len in *; lia).
  specialize (K s'). rewrite load_number in K; [|apply (st_good _ _ _ _ St)|exact Hb'].
  assert (Ok (number (s_mem s') p n) = Ok x); [|congruence].
  assert (X : (Ok (number (s_mem s') p n), s') = (Ok x, s')); [|congruence].
  apply K. split; [apply (st_good _ _ _ _ St)|]. split; [lia|reflexivity].
Qed.

Theorem store_f32_canonical : forall cx b p s s', b < 2 ^ 32 -> wf_mem (s_mem s) -> p + 4 <= m_len (s_mem s) ->
  store cx TF32 (VF32 b) p s = (Ok tt, s') -> same_f32 b (number (s_mem s') p 4).
Proof.
  intros cx b p s s' Hb Hm Hp E. destruct (lower_f32_canonical cx b s Hb) as (b' & E' & S).
  inversion E'; subst b'. destruct (canonical32_same b Hb) as [_ Hlt].
  rewrite (stored_number cx TF32 4 4 (VF32 b) (canonicalize32 b) p s s' (VU32 (canonicalize32 b)));
    [exact S|reflexivity|exact Hm|exact Hp|auto| |reflexivity|exact Hlt|exact E].
  eexists. split; [unfold store; reflexivity|reflexivity].
Qed.
Print Assumptions store_f32_canonical.

Theorem store_f64_canonical : forall cx b p s s', b < 2 ^ 64 -> wf_mem (s_mem s) -> p + 8 <= m_len (s_mem s) ->
  store cx TF64 (VF64 b) p s = (Ok tt, s') -> same_f64 b (number (s_mem s') p 8).
Proof.
  intros cx b p s s' Hb Hm Hp E. destruct (lower_f64_canonical cx b s Hb) as (b' & E' & S).
  inversion E'; subst b'. destruct (canonical64_same b Hb) as [_ Hlt].
  rewrite (stored_number cx TF64 8 8 (VF64 b) (canonicalize64 b) p s s' (VU64 (canonicalize64 b)));
    [exact S|reflexivity|exact Hm|exact Hp|auto| |reflexivity|exact Hlt|exact E].
  eexists. split; [unfold store; reflexivity|reflexivity].
Qed.
Print Assumptions store_f64_canonical.

Example floats_apply :
  (* a signalling NaN and a negative quiet NaN become the canonical NaN; the
     infinities and ordinary numbers stay *)
  map (fun b => fst (lower_flat (bump_ctx EncUtf8) TF32 (VF32 b) noise)) [0x7f800001; 0xffc00000; 0x7f800000; 0xff800000; 0x40490fdb]
  = map (fun b => Ok [CF32 b]) [0x7fc00000; 0x7fc00000; 0x7f800000; 0xff800000; 0x40490fdb] /\
  nan32 0x7f800001 /\ nan32 0xffc00000 /\ ~ nan32 0x7f800000.
Proof.
  split; [reflexivity|]. split; [split; [reflexivity|discriminate]|]. split; [split; [reflexivity|discriminate]|].
  intros [_ H]. apply H. reflexivity.
Qed.

(** ** C17 *)

Theorem lift_char_scalar : forall cx pre n post s, n < 2 ^ 32 ->
  (scalar_value n ->
     lift_flat cx TChar (at_core pre (CU32 n) post) s = (Ok (VS32 (Z.of_N n), past_core pre (CU32 n) post), s)) /\
  (~ scalar_value n -> lift_flat cx TChar (at_core pre (CU32 n) post) s = (Err ETrap, s)).
Proof.
  intros cx pre n post s Hn. cbn [lift_flat]. unfold lift_flat_char, bind. rewrite next_u32_at.
  unfold lift_o, ret, u32_to_rune, scalar_value.
  destruct (N.leb_spec 1114112 n); [split; intros; [lia|reflexivity]|].
  destruct (N.leb_spec 55296 n), (N.leb_spec n 57343); cbn [andb]; split; intros; try lia; try reflexivity;
    unfold to_signed, two32; rewrite N.mod_small by lia;
    (destruct (N.ltb_spec (2 * n) 4294967296); [reflexivity|lia]).
Qed.
Print Assumptions lift_char_scalar.

Theorem load_char_scalar : forall cx p s, wf_mem (s_mem s) -> p + 4 <= m_len (s_mem s) ->
  let n := number (s_mem s) p 4 in
  (scalar_value n -> load cx TChar p s = (Ok (VS32 (Z.of_N n)), s)) /\
  (~ scalar_value n -> load cx TChar p s = (Err ETrap, s)).
Proof.
  intros cx p s Hm H n. cbn [load]. unfold load_char, load_int_with_size. cbn [N.eqb Pos.eqb load_int].
  unfold bind. pose proof (load_number 4 p s Hm H) as E. change (N.of_nat 4) with 4 in E. rewrite E. fold n.
  unfold lift_o, ret, u32_to_rune, scalar_value.
  destruct (N.leb_spec 1114112 n); [split; intros; [lia|reflexivity]|].
  destruct (N.leb_spec 55296 n), (N.leb_spec n 57343); cbn [andb]; split; intros; try lia; try reflexivity;
    unfold to_signed, two32; rewrite N.mod_small by lia;
    (destruct (N.ltb_spec (2 * n) 4294967296); [reflexivity|lia]).
Qed.
Print Assumptions load_char_scalar.

Example chars_apply :
  scalar_value 0x1F600 /\ ~ scalar_value 0xD800 /\
  fst (lift_flat (bump_ctx EncUtf8) TChar (at_core [] (CU32 0x1F600) []) noise) = Ok (VS32 0x1F600, past_core [] (CU32 0x1F600) []) /\
  fst (lift_flat (bump_ctx EncUtf8) TChar (at_core [] (CU32 0xD800) []) noise) = Err ETrap.
Proof. repeat split; unfold scalar_value; try lia; reflexivity. Qed.

(** The other direction checks nothing: a rune that is no scalar value is
    lowered and stored, and lifting it back traps. *)
Theorem lower_char_checked_refuted : exists cx r s,
  ~ scalar_value (Z.to_N r) /\ (0 <= r)%Z /\
  lower_flat cx TChar (VS32 r) s = (Ok [CU32 (Z.to_N r)], s) /\
  fst (store cx TChar (VS32 r) 0 s) = Ok tt /\
  fst (lift_flat cx TChar (IBase [CU32 (Z.to_N r)] 0) s) = Err ETrap.
Proof.
  exists (bump_ctx EncUtf8), 0xD800%Z, (demo_state 8).
  split; [unfold scalar_value; lia|]. split; [lia|]. repeat split.
Qed.
Print Assumptions lower_char_checked_refuted.

(** ** C18 *)

Theorem lift_bool_nonzero : forall cx pre n post s,
  lift_flat cx TBool (at_core pre (CU32 n) post) s = (Ok (VBool (negb (n =? 0)), past_core pre (CU32 n) post), s).
Proof.
  intros. cbn [lift_flat]. unfold lmap, bind. rewrite next_u32_at. reflexivity.
Qed.
Print Assumptions lift_bool_nonzero.

Theorem lift_unsigned_mod : forall cx pre n post s, n < 2 ^ 32 ->
  lift_flat cx TU8 (at_core pre (CU32 n) post) s = (Ok (VU8 (n mod 2 ^ 8), past_core pre (CU32 n) post), s) /\
  lift_flat cx TU16 (at_core pre (CU32 n) post) s = (Ok (VU16 (n mod 2 ^ 16), past_core pre (CU32 n) post), s) /\
  lift_flat cx TU32 (at_core pre (CU32 n) post) s = (Ok (VU32 n, past_core pre (CU32 n) post), s).
Proof.
  intros. cbn [lift_flat]. unfold lmap, bind. rewrite next_u32_at. repeat split.
Qed.
Print Assumptions lift_unsigned_mod.

Lemma signed_congruent : forall m n, 0 < m -> (to_signed m n mod Z.of_N m = Z.of_N n mod Z.of_N m)%Z.
Proof.
  intros m n H. unfold to_signed. rewrite <- (N2Z.inj_mod n m).
  destruct (2 * (n mod m) <? m).
  - rewrite N2Z.inj_mod, Z.mod_mod by lia. reflexivity.
  - rewrite N2Z.inj_mod. replace (Z.of_N n mod Z.of_N m - Z.of_N m)%Z with (Z.of_N n mod Z.of_N m + (-1) * Z.of_N m)%Z by lia.
    rewrite Z.mod_add by lia. apply Z.mod_mod. lia.
Qed.

Theorem lift_signed_mod : forall cx pre n post s, n < 2 ^ 32 ->
  (exists z, lift_flat cx TS8 (at_core pre (CU32 n) post) s = (Ok (VS8 z, past_core pre (CU32 n) post), s) /\
     signed_range 8 z /\ (z mod 2 ^ 8 = Z.of_N n mod 2 ^ 8)%Z) /\
  (exists z, lift_flat cx TS16 (at_core pre (CU32 n) post) s = (Ok (VS16 z, past_core pre (CU32 n) post), s) /\
     signed_range 16 z /\ (z mod 2 ^ 16 = Z.of_N n mod 2 ^ 16)%Z) /\
  (exists z, lift_flat cx TS32 (at_core pre (CU32 n) post) s = (Ok (VS32 z, past_core pre (CU32 n) post), s) /\
     signed_range 32 z /\ (z mod 2 ^ 32 = Z.of_N n mod 2 ^ 32)%Z).
Proof.
  intros cx pre n post s Hn. cbn [lift_flat]. unfold lmap, bind. rewrite next_u32_at.
  split; [|split]; eexists; (split; [reflexivity|]); split.
  - apply (to_signed_range two8); reflexivity.
  - apply (signed_congruent two8). reflexivity.
  - apply (to_signed_range two16); reflexivity.
  - apply (signed_congruent two16). reflexivity.
  - apply (to_signed_range two32); reflexivity.
  - apply (signed_congruent two32). reflexivity.
Qed.
Print Assumptions lift_signed_mod.

(** Lowering a narrow integer extends it: lifting gives it back. *)
Theorem narrow_round_trip : forall cx enc t v s, has_type enc t v ->
  In t [TBool; TU8; TU16; TU32; TS8; TS16; TS32] ->
  exists n, n < 2 ^ 32 /\ lower_flat cx t v s = (Ok [CU32 n], s) /\
    forall pre post, lift_flat cx t (at_core pre (CU32 n) post) s = (Ok (v, past_core pre (CU32 n) post), s).
Proof.
  intros cx enc t v s Hty Hin.
  assert (S : forall w z, (w | two32) -> 0 < w -> N.even w = true -> (- Z.of_N (w / 2) <= z < Z.of_N (w / 2))%Z ->
    to_signed w (of_signed two32 z) = z).
  { intros w z [k Hk] Hw He Hz. assert (0 < k) by (destruct k; [discriminate|lia]).
    rewrite <- (to_of_signed w z Hw He Hz) at 2. rewrite <- (of_signed_mod w k z Hw) by assumption.
    rewrite (N.mul_comm w k), <- Hk. unfold to_signed. rewrite N.mod_mod by lia. reflexivity. }
  assert (B : forall z, of_signed two32 z < 2 ^ 32).
  { intros z. unfold of_signed. pose proof (Z.mod_pos_bound z (Z.of_N two32) ltac:(reflexivity)).
    change (2 ^ 32) with two32. lia. }
  assert (X : forall n w, at_core [] (CU32 n) [] = w -> True) by auto. clear X.
  cbn [In] in Hin. destruct Hin as [<-|[<-|[<-|[<-|[<-|[<-|[<-|[]]]]]]]]; cbn [has_type] in Hty.
  - destruct Hty as (b & ->). exists (if b then 1 else 0). split; [destruct b; reflexivity|]. split; [reflexivity|].
    intros. rewrite lift_bool_nonzero. destruct b; reflexivity.
  - destruct Hty as (n & -> & Hn). assert (Hn' : n < 2 ^ 32) by (change (2 ^ 32) with 4294967296; change (2 ^ 8) with 256 in Hn; lia).
    exists n. split; [exact Hn'|]. split; [reflexivity|]. intros pre post.
    destruct (lift_unsigned_mod cx pre n post s Hn') as (-> & _ & _). rewrite N.mod_small by exact Hn. reflexivity.
  - destruct Hty as (n & -> & Hn). assert (Hn' : n < 2 ^ 32) by (change (2 ^ 32) with 4294967296; change (2 ^ 16) with 65536 in Hn; lia).
    exists n. split; [exact Hn'|]. split; [reflexivity|]. intros pre post.
    destruct (lift_unsigned_mod cx pre n post s Hn') as (_ & -> & _). rewrite N.mod_small by exact Hn. reflexivity.
  - destruct Hty as (n & -> & Hn). exists n. split; [exact Hn|]. split; [reflexivity|]. intros pre post.
    destruct (lift_unsigned_mod cx pre n post s Hn) as (_ & _ & ->). reflexivity.
  - destruct Hty as (z & -> & Hz). exists (of_signed two32 z). split; [apply B|]. split; [reflexivity|]. intros pre post.
    cbn [lift_flat]. unfold lmap, bind. rewrite next_u32_at. cbn. rewrite S; [reflexivity|exists 16777216; reflexivity|reflexivity|reflexivity|exact Hz].
  - destruct Hty as (z & -> & Hz). exists (of_signed two32 z). split; [apply B|]. split; [reflexivity|]. intros pre post.
    cbn [lift_flat]. unfold lmap, bind. rewrite next_u32_at. cbn. rewrite S; [reflexivity|exists 65536; reflexivity|reflexivity|reflexivity|exact Hz].
  - destruct Hty as (z & -> & Hz). exists (of_signed two32 z). split; [apply B|]. split; [reflexivity|]. intros pre post.
    cbn [lift_flat]. unfold lmap, bind. rewrite next_u32_at. cbn. rewrite S; [reflexivity|exists 1; reflexivity|reflexivity|reflexivity|exact Hz].
Qed.
Print Assumptions narrow_round_trip.

Example narrow_applies :
  fst (lift_flat (bump_ctx EncUtf8) TS8 (at_core [] (CU32 0x1ff) []) noise) = Ok (VS8 (-1), past_core [] (CU32 0x1ff) []) /\
  has_type EncUtf8 TS8 (VS8 (-5)) /\
  fst (lower_flat (bump_ctx EncUtf8) TS8 (VS8 (-5)) noise) = Ok [CU32 4294967291].
Proof. split; [reflexivity|]. split; [exists (-5)%Z; split; [reflexivity|unfold signed_range; lia]|reflexivity]. Qed.

(** ** C19 *)

(** The flag at each position, read from the map. *)
Definition flag_is (m : list (string * any)) (l : string) (b : bool) : Prop := map_get m l = Some (VBool b).

Lemma flags_of : forall ls m, (forall l, In l ls -> exists b, flag_is m l b) ->
  exists bs, Forall2 (flag_of m) ls bs /\ forall i l b, nth_error ls i = Some l -> flag_is m l b -> nth i bs false = b.
Proof.
  induction ls as [|l ls IH]; intros m H.
  - exists []. split; [constructor|]. intros [|i]; discriminate.
  - destruct (H l (or_introl eq_refl)) as [b Hb]. destruct (IH m) as (bs & H1 & H2); [intros; apply H; right; assumption|].
    exists (b :: bs). split.
    + constructor; [|assumption]. unfold flag_of, map_any. rewrite Hb. reflexivity.
    + intros [|i] l' b' Hl Hb'; cbn in *; [|eapply H2; eassumption].
      inversion Hl; subst. unfold flag_is in *. congruence.
Qed.

(** What packing computes: bit [i] for label [i], nothing else. *)
Definition bits_of (m : list (string * any)) (ls : list string) (x : N) : Prop :=
  (forall i l b, nth_error ls i = Some l -> flag_is m l b -> N.testbit x (N.of_nat i) = b) /\
  forall i, N.of_nat (List.length ls) <= i -> N.testbit x i = false.

Lemma packed_bits : forall ls m, (List.length ls <= 64)%nat ->
  (forall l, In l ls -> exists b, flag_is m l b) ->
  exists x, pack_flags m ls 0 0 = Ok x /\ bits_of m ls x.
Proof.
  intros ls m H64 H. destruct (flags_of ls m H) as (bs & Hbs & Hn).
  destruct (pack_bits m ls bs 0 0 Hbs) as (x & Ex & Hx); [lia|intros; apply N.bits_0|].
  assert (Hx' : forall i, N.testbit x i = nth (N.to_nat i) bs false).
  { intros i. rewrite Hx. destruct (N.ltb_spec i 0); [lia|]. rewrite N.sub_0_r. reflexivity. }
  exists x. split; [exact Ex|]. split.
  - intros i l b Hi Hb. rewrite Hx', Nat2N.id. eapply Hn; eassumption.
  - intros i Hi. rewrite Hx'. apply nth_overflow. rewrite <- (Forall2_len _ _ _ Hbs). lia.
Qed.

Theorem lower_flags_bits : forall cx ls m s, (List.length ls <= 64)%nat ->
  (forall l, In l ls -> exists b, flag_is m l b) ->
  exists ws, lower_flat cx (TFlags ls) (VMap m) s = (Ok (map CU32 ws), s) /\
    N.of_nat (List.length ws) = (N.of_nat (List.length ls) + 31) / 32 /\
    Forall (fun w => w < 2 ^ 32) ws /\
    (forall i l b, nth_error ls i = Some l -> flag_is m l b -> N.testbit (nth (i / 32) ws 0) (N.of_nat (i mod 32)) = b) /\
    (forall i, (List.length ls <= i)%nat -> N.testbit (nth (i / 32) ws 0) (N.of_nat (i mod 32)) = false).
Proof.
  intros cx ls m s H64 H. destruct (packed_bits ls m H64 H) as (x & Ex & Hb & Ho).
  destruct (num_words ls H64) as [Hw2 Hwl].
  exists (map (word32 x) (seq 0 (N.to_nat (num_i32_flags ls)))).
  assert (Bit : forall i, N.testbit (nth (i / 32) (map (word32 x) (seq 0 (N.to_nat (num_i32_flags ls)))) 0) (N.of_nat (i mod 32))
                          = N.testbit x (N.of_nat i)).
  { intros i. pose proof (Nat.div_mod i 32 ltac:(discriminate)) as Di. pose proof (Nat.mod_upper_bound i 32 ltac:(discriminate)) as Mi.
    destruct (Nat.lt_ge_cases (i / 32) (N.to_nat (num_i32_flags ls))) as [L|L].
    - rewrite (nth_indep _ 0 (word32 x 0)) by (rewrite map_length, seq_length; exact L).
      rewrite map_nth, seq_nth by exact L. rewrite word32_bit. cbn [Nat.add].
      destruct (N.ltb_spec (N.of_nat (i mod 32)) 32); [|lia]. cbn [andb]. f_equal. lia.
    - rewrite nth_overflow by (rewrite map_length, seq_length; exact L). rewrite N.bits_0. symmetry. apply Ho. lia. }
  split; [|split; [|split; [|split]]].
  - cbn [lower_flat]. unfold lower_flat_flags. rewrite Ex. cbn [obind]. rewrite flag_words_spec, map_map.
    assert (E0 : x / 2 ^ (32 * N.of_nat (N.to_nat (num_i32_flags ls))) = 0).
    { apply N.div_small. apply bits_lt. intros i Hi. apply Ho. lia. }
    rewrite E0. reflexivity.
  - rewrite map_length, seq_length, N2Nat.id. reflexivity.
  - apply Forall_map. apply Forall_forall. intros k _. unfold word32. apply N.mod_lt. discriminate.
  - intros i l b Hi Hf. rewrite Bit. eapply Hb; eassumption.
  - intros i Hi. rewrite Bit. apply Ho. lia.
Qed.
Print Assumptions lower_flags_bits.

Theorem lift_flags_bits : forall cx ls ws pre post s, (List.length ls <= 64)%nat -> NoDup ls ->
  N.of_nat (List.length ws) = (N.of_nat (List.length ls) + 31) / 32 -> Forall (fun w => w < 2 ^ 32) ws ->
  exists m, lift_flat cx (TFlags ls) (IBase (pre ++ map CU32 ws ++ post) (List.length pre)) s
      = (Ok (VMap m, IBase (pre ++ map CU32 ws ++ post) (List.length pre + List.length ws)), s) /\
    (forall i l, nth_error ls i = Some l -> flag_is m l (N.testbit (nth (i / 32) ws 0) (N.of_nat (i mod 32)))) /\
    (forall l, map_get m l <> None -> In l ls).
Proof.
  intros cx ls ws pre post s H64 Hnd Hlen Hw. destruct (num_words ls H64) as [Hw2 Hwl].
  change ((N.of_nat (List.length ls) + 31) / 32) with (num_i32_flags ls) in Hlen.
  destruct (lift_words_bits ws pre post 0 0 s Hw) as (x & Ex & Hx); [lia|intros; apply N.bits_0|].
  exists (unpack_flags x ls []). split; [|split].
  - cbn [lift_flat]. unfold lift_flat_flags. rewrite <- Hlen, Nat2N.id. unfold bind. rewrite Ex. reflexivity.
  - intros i l Hi. unfold flag_is. rewrite (unpack_bits ls x [] i l Hnd Hi). do 2 f_equal. rewrite Hx.
    destruct (N.ltb_spec (N.of_nat i) 0); [lia|]. rewrite N.sub_0_r.
    change 32 with (N.of_nat 32). rewrite <- Nat2N.inj_div, <- Nat2N.inj_mod, Nat2N.id. reflexivity.
  - intros l Hl. apply unpack_domain in Hl. destruct Hl as [|C]; [assumption|cbn in C; congruence].
Qed.
Print Assumptions lift_flags_bits.

Theorem load_flags_bits : forall cx ls a sz p s, (List.length ls <= 64)%nat -> NoDup ls ->
  sp_layout (TFlags ls) = Some (a, sz) -> wf_mem (s_mem s) -> p + sz <= m_len (s_mem s) ->
  exists m, load cx (TFlags ls) p s = (Ok (VMap m), s) /\
    (forall i l, nth_error ls i = Some l -> flag_is m l (N.testbit (number (s_mem s) p (N.to_nat sz)) (N.of_nat i))) /\
    (forall l, map_get m l <> None -> In l ls).
Proof.
  intros cx ls a sz p s H64 Hnd Hl Hm Hb. destruct (flags_sizes _ _ _ Hl H64) as [Hsz Hbits].
  destruct (sp_layout_facts _ _ _ Hl) as (_ & _ & _ & Hs). specialize (Hs ltac:(unfold two32; lia)).
  exists (unpack_flags (number (s_mem s) p (N.to_nat sz)) ls []). split; [|split].
  - cbn [load]. unfold load_flags. change (size_flags ls) with (size (TFlags ls)). rewrite Hs, bind_lift_ok.
    destruct Hsz as [->|[->|[->|[->| ->]]]]; unfold load_int_with_size; cbn [N.eqb Pos.eqb]; [reflexivity| | | | ];
      cbn [load_int]; unfold bind.
    + change 1 with (N.of_nat 1). rewrite load_number by assumption. reflexivity.
    + change 2 with (N.of_nat 2). rewrite load_number by assumption. reflexivity.
    + change 4 with (N.of_nat 4). rewrite load_number by assumption. reflexivity.
    + change 8 with (N.of_nat 8). rewrite load_number by assumption. reflexivity.
  - intros i l Hi. apply (unpack_bits ls _ [] i l Hnd Hi).
  - intros l Hl'. apply unpack_domain in Hl'. destruct Hl' as [|C]; [assumption|cbn in C; congruence].
Qed.
Print Assumptions load_flags_bits.

Theorem store_flags_bits : forall cx ls m a sz p s s', (List.length ls <= 64)%nat ->
  (forall l, In l ls -> exists b, flag_is m l b) ->
  sp_layout (TFlags ls) = Some (a, sz) -> wf_mem (s_mem s) -> p + sz <= m_len (s_mem s) ->
  store cx (TFlags ls) (VMap m) p s = (Ok tt, s') ->
  (forall i l b, nth_error ls i = Some l -> flag_is m l b ->
     N.testbit (number (s_mem s') p (N.to_nat sz)) (N.of_nat i) = b) /\
  (forall i, (List.length ls <= i)%nat -> N.testbit (number (s_mem s') p (N.to_nat sz)) (N.of_nat i) = false).
Proof.
  intros cx ls m a sz p s s' H64 H Hl Hm Hb E. destruct (packed_bits ls m H64 H) as (x & Ex & Hx & Ho).
  destruct (flags_sizes _ _ _ Hl H64) as [Hsz Hbits].
  assert (N : number (s_mem s') p (N.to_nat sz) = x).
  { destruct (N.eq_dec sz 0) as [->|Hz].
    - symmetry. change (number (s_mem s') p (N.to_nat 0)) with 0. apply N.bits_inj. intros i. rewrite N.bits_0. apply Ho. lia.
    - destruct (sp_layout_facts _ _ _ Hl) as (Ha & Hva & _ & Hs).
      assert (Hp : p + sz < two32) by (destruct Hm as (_ & Hm & _); unfold two32; lia).
      specialize (Hs ltac:(lia)).
      assert (Hx8 : x < 256 ^ sz).
      { change 256 with (2 ^ 8). rewrite <- N.pow_mul_r. apply bits_lt. intros i Hi. apply Ho. lia. }
      assert (Hx64 : x <= 18446744073709551615).
      { assert (x < 2 ^ 64); [|change (2 ^ 64) with 18446744073709551616 in *; lia].
        apply bits_lt. intros i Hi. apply Ho. lia. }
      change (store cx (TFlags ls) (VMap m) p s) with (guarded (alignment (TFlags ls)) (size (TFlags ls)) (store_flags ls) (VMap m) p s) in E.
      destruct (guarded_cases (alignment (TFlags ls)) (size (TFlags ls)) a sz (store_flags ls) (VMap m) p s Ha Hs Hva Hm Hp) as [(_ & _ & E')|(E' & _)];
        [|congruence].
      rewrite E' in E. cbn [store_flags] in E. rewrite Ex, bind_lift_ok in E.
      change (size_flags ls) with (size (TFlags ls)) in E. rewrite Hs, bind_lift_ok in E.
      assert (W : writes cx (fun _ => True) p sz (store_int (VU64 x) p sz false) (fun _ s => load_uint sz p s = (Ok x, s))).
      { eapply (unsigned_rt cx (fun _ => True) p sz _ x _ VU64); [tauto|exact Hx8|reflexivity|exact Hx64|auto]. }
      destruct (W s _ _ Hm ltac:(intros; left; exact I) Hb E) as [(u & _ & St & K)|(? & ? & ? & ? & [])].
      assert (Hb' : p + sz <= len s') by (pose proof (st_len _ _ _ _ St); unfold len in *; lia).
      specialize (K s').
      assert (L : load_uint sz p s' = (Ok (number (s_mem s') p (N.to_nat sz)), s')).
      { rewrite <- (N2Nat.id sz) at 1. apply load_number; [apply (st_good _ _ _ _ St)|rewrite N2Nat.id; exact Hb']. }
      rewrite L in K.
      assert (X : (Ok (number (s_mem s') p (N.to_nat sz)), s') = (Ok x, s')); [|congruence].
      apply K. split; [apply (st_good _ _ _ _ St)|]. split; [lia|reflexivity]. }
  rewrite N. split; [exact Hx|]. intros i Hi. apply Ho. lia.
Qed.
Print Assumptions store_flags_bits.

Definition many_labels (n : nat) : list string := map (fun i => itoa (N.of_nat i)) (seq 0 n).
Example flags_apply :
  let ls := many_labels 40 in
  let m := map (fun l => (l, VBool (String.eqb l "0" || String.eqb l "33"))) ls in
  (List.length ls <= 64)%nat /\ NoDup ls /\ (forall l, In l ls -> exists b, flag_is m l b) /\
  fst (lower_flat (bump_ctx EncUtf8) (TFlags ls) (VMap m) noise) = Ok [CU32 1; CU32 2] /\
  fst (store (bump_ctx EncUtf8) (TFlags ls) (VMap m) 8 noise) = Ok tt.
Proof.
  intros ls m. split; [cbn; lia|]. split.
  { unfold ls, many_labels. apply Injective_map_NoDup; [|apply seq_NoDup].
    intros a b E. apply itoa_inj in E. lia. }
  split; [|split; vm_compute; reflexivity].
  intros l Hl. unfold ls in Hl. cbn in Hl. repeat (destruct Hl as [<-|Hl]; [vm_compute; eauto|]). destruct Hl.
Qed.

(** With more than 64 labels flags are lost: two different values are stored
    and lowered the same way. *)
Theorem flags_over_64_kept_refuted : exists cx ls v v' p s,
  NoDup ls /\ List.length ls = 65%nat /\ v <> v' /\
  has_type (cx_enc cx) (TFlags ls) v /\ has_type (cx_enc cx) (TFlags ls) v' /\
  fst (store cx (TFlags ls) v p s) = Ok tt /\
  store cx (TFlags ls) v p s = store cx (TFlags ls) v' p s /\
  fst (lower_flat cx (TFlags ls) v s) = Ok [CU32 0; CU32 0; CU32 0] /\
  lower_flat cx (TFlags ls) v s = lower_flat cx (TFlags ls) v' s.
Proof.
  set (ls := many_labels 65).
  exists (bump_ctx EncUtf8), ls, (VMap (map (fun l => (l, VBool false)) ls)), (VMap (map (fun l => (l, VBool (String.eqb l "64"))) ls)), 8, noise.
  split.
  { unfold ls, many_labels. apply Injective_map_NoDup; [|apply seq_NoDup]. intros a b E. apply itoa_inj in E. lia. }
  split; [reflexivity|]. split; [vm_compute; congruence|].
  assert (T : forall f, has_type EncUtf8 (TFlags ls) (VMap (map (fun l => (l, VBool (f l))) ls))).
  { intros f. eexists. split; [reflexivity|]. apply Forall_map. cbn [fst snd]. apply Forall_forall. intros l Hl.
    exists (VBool (f l)). split; [|eauto]. clear -Hl. induction ls as [|a ls IH]; [destruct Hl|]. cbn [map map_get].
    destruct (String.eqb_spec l a); [subst; reflexivity|]. destruct Hl; [congruence|auto]. }
  split; [apply (T (fun _ => false))|]. split; [apply (T (fun l => String.eqb l "64"))|].
  repeat split; vm_compute; reflexivity.
Qed.
Print Assumptions flags_over_64_kept_refuted.

(** ** C20 *)

Lemma max_align_pos : forall l, 1 <= max_align l.
Proof.
  induction l as [|[x y] l IH]; [reflexivity|].
  change (max_align ((x, y) :: l)) with (N.max x (max_align l)). lia.
Qed.

Theorem load_bad_discriminant_traps : forall cx cs a sz d p s,
  sp_layout (TVariant cs) = Some (a, sz) -> disc_size (List.length cs) = Some d ->
  (a | p) -> wf_mem (s_mem s) -> p + sz <= m_len (s_mem s) ->
  N.of_nat (List.length cs) <= number (s_mem s) p (N.to_nat d) ->
  load cx (TVariant cs) p s = (Err ETrap, s).
Proof.
  intros cx cs a sz d p s Hl Hd Ha Hm Hb Hn.
  assert (Hl' := Hl). cbn [sp_layout] in Hl'.
  destruct (all_some (payload_types (map (map_case sp_layout) cs))) as [ls|] eqn:El; [|discriminate].
  assert (Hp : p + sz < two32) by (destruct Hm as (_ & Hm & _); unfold two32; lia).
  rewrite (variant_load_offsets cx cs ls a sz d p s El Hl Hd Ha Hp).
  cbn [bindo] in Hl'. destruct (sp_variant_inv _ _ _ _ Hl') as (d' & dt & Hdz & _ & _ & Hvd & Ea & Esz & Hcase & Hpos).
  rewrite Hd in Hdz. injection Hdz as <-.
  destruct (sp_layout_facts _ _ _ Hl) as (_ & Hva & _ & _).
  pose proof (up_to_ge a (payload_offset d ls + max_size ls) (valid_align_nz _ Hva)) as Hup.
  assert (Hpd : d <= payload_offset d ls).
  { unfold payload_offset. apply up_to_ge. pose proof (max_align_pos ls). lia. }
  assert (E : load_uint d p s = (Ok (number (s_mem s) p (N.to_nat d)), s)).
  { rewrite <- (N2Nat.id d) at 1. apply load_number; [exact Hm|]. rewrite N2Nat.id. unfold len. lia. }
  erewrite bind_ok; [|exact E].
  replace (nth_error cs (N.to_nat (number (s_mem s) p (N.to_nat d)))) with (@None (caseOf valtype)); [reflexivity|].
  symmetry. apply nth_error_None. lia.
Qed.
Print Assumptions load_bad_discriminant_traps.

(** In range, the case loaded is the one at that position. *)
Theorem load_discriminant_selects : forall cx cs a sz d p s v s',
  wf_type (TVariant cs) ->
  sp_layout (TVariant cs) = Some (a, sz) -> disc_size (List.length cs) = Some d ->
  (a | p) -> wf_mem (s_mem s) -> p + sz <= m_len (s_mem s) ->
  load cx (TVariant cs) p s = (Ok v, s') ->
  exists key x, v = VMap [(key, x)] /\
    selects (map c_label cs) key (N.to_nat (number (s_mem s) p (N.to_nat d))).
Proof.
  intros cx cs a sz d p s v s' Hwf Hl Hd Ha Hm Hb E.
  assert (Hl' := Hl). cbn [sp_layout] in Hl'.
  destruct (all_some (payload_types (map (map_case sp_layout) cs))) as [ls|] eqn:El; [|discriminate].
  assert (Hp : p + sz < two32) by (destruct Hm as (_ & Hm & _); unfold two32; lia).
  rewrite (variant_load_offsets cx cs ls a sz d p s El Hl Hd Ha Hp) in E.
  cbn [bindo] in Hl'. destruct (sp_variant_inv _ _ _ _ Hl') as (d' & dt & Hdz & _ & _ & Hvd & Ea & Esz & Hcase & Hpos).
  rewrite Hd in Hdz. injection Hdz as <-.
  destruct (sp_layout_facts _ _ _ Hl) as (_ & Hva & _ & _).
  pose proof (up_to_ge a (payload_offset d ls + max_size ls) (valid_align_nz _ Hva)) as Hup.
  assert (Hpd : d <= payload_offset d ls).
  { unfold payload_offset. apply up_to_ge. pose proof (max_align_pos ls). lia. }
  assert (E1 : load_uint d p s = (Ok (number (s_mem s) p (N.to_nat d)), s)).
  { rewrite <- (N2Nat.id d) at 1. apply load_number; [exact Hm|]. rewrite N2Nat.id. unfold len. lia. }
  erewrite bind_ok in E; [|exact E1].
  destruct (nth_error cs _) as [c|] eqn:Ec; [|discriminate].
  apply bind_inv in E. destruct E as (l & s1 & E2 & E). injection E2 as E2 <-.
  apply bind_inv in E. destruct E as (x & s2 & _ & E). injection E as <- _.
  exists l, x. split; [reflexivity|]. destruct Hwf as [(_ & Hbf & _) _].
  eapply case_label_selects; eassumption.
Qed.
Print Assumptions load_discriminant_selects.

Theorem lift_bad_discriminant_traps : forall cx cs ks pre n post s,
  flatten_type (TVariant cs) = Ok ks -> n < 2 ^ 32 -> N.of_nat (List.length cs) <= n ->
  lift_flat cx (TVariant cs) (at_core pre (CU32 n) post) s = (Err ETrap, s).
Proof.
  intros cx cs ks pre n post s Hf Hn Hlen. cbn [lift_flat]. unfold lift_flat_variant. rewrite Hf, bind_lift_ok.
  assert (exists rest, ks = KU32 :: rest) as [rest ->].
  { cbn [flatten_type] in Hf. unfold flatten_variant in Hf.
    destruct (fold_left _ _ _); cbn [obind] in Hf; try discriminate.
    destruct (discriminant_type _); cbn [obind] in Hf; try discriminate.
    injection Hf as <-. eauto. }
  cbn [kind_eqb negb]. unfold bind. rewrite next_u32_at.
  unfold lift_o, ret. rewrite map_length. destruct (N.leb_spec (N.of_nat (List.length cs)) n); [reflexivity|lia].
Qed.
Print Assumptions lift_bad_discriminant_traps.

Theorem lift_discriminant_selects : forall cx cs pre n post s v it' s',
  wf_type (TVariant cs) -> n < 2 ^ 32 ->
  lift_flat cx (TVariant cs) (at_core pre (CU32 n) post) s = (Ok (v, it'), s') ->
  exists key x, v = VMap [(key, x)] /\ selects (map c_label cs) key (N.to_nat n).
Proof.
  intros cx cs pre n post s v it' s' [(_ & Hbf & _) _] Hn E. cbn [lift_flat] in E. unfold lift_flat_variant in E.
  apply bind_inv in E. destruct E as (ft & s1 & E1 & E). inversion E1; subst s1; clear E1.
  destruct ft as [|k0 rest]; [discriminate|]. destruct (negb (kind_eqb k0 KU32)); [discriminate|].
  erewrite bind_ok in E; [|apply next_u32_at]. cbv beta iota in E.
  destruct (N.of_nat _ <=? n); [discriminate|].
  destruct (nth_error _ (N.to_nat n)) as [c|] eqn:Ec; [|discriminate].
  assert (S : forall l, case_label c (map (map_case (lift_flat cx)) cs) = Ok l -> selects (map c_label cs) l (N.to_nat n)).
  { intros l El.
    replace (map c_label cs) with (map c_label (map (map_case (lift_flat cx)) cs))
      by (rewrite map_map; apply map_ext; intros []; reflexivity).
    eapply case_label_selects; [|eassumption|exact El].
    rewrite Forall_map. rewrite Forall_forall in *. intros [] Hc. apply (Hbf _ Hc). }
  destruct (c_type c) as [f|].
  - apply bind_inv in E. destruct E as ([x cit] & s2 & _ & E). destruct cit as [|it2 rest2]; [discriminate|].
    apply bind_inv in E. destruct E as (it3 & s3 & _ & E).
    apply bind_inv in E. destruct E as (l & s4 & E4 & E). injection E as <- _ _.
    exists l, x. split; [reflexivity|]. apply S. inversion E4; reflexivity.
  - apply bind_inv in E. destruct E as (it3 & s3 & _ & E).
    apply bind_inv in E. destruct E as (l & s4 & E4 & E). injection E as <- _ _.
    exists l, VNil. split; [reflexivity|]. apply S. inversion E4; reflexivity.
Qed.
Print Assumptions lift_discriminant_selects.

Definition shapes : list (caseOf valtype) :=
  [mkCase "dot"%string None None; mkCase "disc"%string (Some TU16) (Some "dot"%string);
   mkCase "ring"%string (Some TF32) (Some "disc"%string)].
Lemma shapes_wf : wf_type (TVariant shapes).
Proof.
  split; [|cbn; tauto]. split; [|split].
  - repeat constructor; cbn; intuition discriminate.
  - repeat constructor; cbn; intuition discriminate.
  - assert (refines_end shapes (mkCase "dot"%string None None)) by (apply re_stop; reflexivity).
    assert (refines_end shapes (mkCase "disc"%string (Some TU16) (Some "dot"%string))) by (eapply re_step; [reflexivity|assumption]).
    apply Forall_cons; [assumption|]. apply Forall_cons; [assumption|]. apply Forall_cons; [|apply Forall_nil].
    eapply re_step; [reflexivity|assumption].
Qed.
Example discriminants_apply :
  sp_layout (TVariant shapes) = Some (4, 8) /\ disc_size (List.length shapes) = Some 1 /\
  fst (load (bump_ctx EncUtf8) (TVariant shapes) 16 (mkState (mkMem (repeat 2 40) 40) [] demo_world))
    = Ok (VMap [("ring|disc|dot"%string, VF32 0x02020202)]) /\
  fst (load (bump_ctx EncUtf8) (TVariant shapes) 16 (mkState (mkMem (repeat 3 40) 40) [] demo_world)) = Err ETrap /\
  fst (lift_flat (bump_ctx EncUtf8) (TVariant shapes) (at_core [] (CU32 1) [CU32 70000]) noise)
    = Ok (VMap [("disc|dot"%string, VU16 4464)], IBase [CU32 1; CU32 70000] 2) /\
  fst (lift_flat (bump_ctx EncUtf8) (TVariant shapes) (at_core [] (CU32 3) [CU32 70000]) noise) = Err ETrap.
Proof. repeat split; vm_compute; reflexivity. Qed.

(** ** C21 *)

Theorem case_label_matches_back : forall (cs : list (caseOf valtype)) i c p,
  wf_cases cs -> N.of_nat (List.length cs) < 2 ^ 32 -> nth_error cs i = Some c ->
  exists l, case_label c cs = Ok l /\ match_case (VMap [(l, p)]) cs = Ok (N.of_nat i, p).
Proof.
  intros cs i c p (Hnd & Hbf & Hre) Hlen Hi.
  rewrite Forall_forall in Hre. destruct (case_label_ends cs c (Hre c (nth_error_In _ _ Hi))) as [l El].
  exists l. split; [exact El|]. apply match_case_selects; [exact Hnd|exact Hlen|].
  eapply case_label_selects; eassumption.
Qed.
Print Assumptions case_label_matches_back.

Example case_label_applies : wf_cases shapes /\
  case_label (mkCase "ring"%string (Some TF32) (Some "disc"%string)) shapes = Ok "ring|disc|dot"%string.
Proof. split; [apply shapes_wf|reflexivity]. Qed.

(** A refinement cycle: the loop never comes to an end, however long it runs. *)
Theorem case_label_terminates_refuted : exists (cs : list (caseOf valtype)) c,
  NoDup (map c_label cs) /\ Forall (fun c => bar_free (c_label c)) cs /\ In c cs /\
  case_label c cs = Diverge /\ forall fuel label, label_loop fuel cs c label = Diverge.
Proof.
  exists [mkCase "a"%string None (Some "b"%string); mkCase "b"%string None (Some "a"%string)].
  exists (mkCase "a"%string None (Some "b"%string)).
  split; [repeat constructor; cbn; intuition discriminate|].
  split; [repeat constructor; cbn; intuition discriminate|].
  split; [left; reflexivity|]. split; [reflexivity|]. apply label_loop_fuel. reflexivity.
Qed.
Print Assumptions case_label_terminates_refuted.

(** ** C23 *)

Theorem tagged_units_round_trip : forall n b, n < 2 ^ 31 ->
  u32_to_tagged (tagged_to_u32 (mkTagged n b)) = mkTagged n b /\ tagged_to_u32 (mkTagged n b) < 2 ^ 32.
Proof. intros n b H. split; [exact (tag_bits n b H)|exact (tagged_lt n b H)]. Qed.
Print Assumptions tagged_units_round_trip.

(** The flag is bit 31, the count the other bits. *)
Theorem tagged_units_value : forall i, i < 2 ^ 32 ->
  tcu_units (u32_to_tagged i) = i mod 2 ^ 31 /\ tcu_utf16 (u32_to_tagged i) = (2 ^ 31 <=? i).
Proof.
  intros i Hi. unfold u32_to_tagged. cbn [tcu_units tcu_utf16]. change utf16_tag with (2 ^ 31).
  assert (Hd : i = 2 ^ 31 * (i / 2 ^ 31) + i mod 2 ^ 31) by (apply N.div_mod; discriminate).
  assert (Hm : i mod 2 ^ 31 < 2 ^ 31) by (apply N.mod_lt; discriminate).
  assert (Hq : i / 2 ^ 31 < 2) by (apply N.div_lt_upper_bound; [discriminate|exact Hi]).
  assert (HT : N.testbit i 31 = (2 ^ 31 <=? i)).
  { pose proof (N.testbit_spec' i 31) as T. destruct (N.leb_spec (2 ^ 31) i) as [L|L].
    - assert (E : i / 2 ^ 31 = 1) by nia. rewrite E in T. destruct (N.testbit i 31); [reflexivity|discriminate].
    - rewrite N.div_small in T by exact L. destruct (N.testbit i 31); [discriminate|reflexivity]. }
  split.
  - apply N.bits_inj. intros k. rewrite N.ldiff_spec, N.pow2_bits_eqb.
    destruct (N.lt_ge_cases k 31) as [L|L].
    + rewrite N.mod_pow2_bits_low by exact L. destruct (N.eqb_spec 31 k); [lia|]. apply andb_true_r.
    + rewrite N.mod_pow2_bits_high by exact L. destruct (N.eqb_spec 31 k); [apply andb_false_r|].
      rewrite (N.bits_above_log2 i k); [reflexivity|].
      destruct (N.eq_dec i 0) as [->|]; [cbn; lia|]. apply N.log2_lt_pow2; [lia|].
      apply N.lt_le_trans with (2 ^ 32); [exact Hi|]. apply N.pow_le_mono_r; lia.
  - rewrite <- HT. destruct (N.eqb_spec (N.land i (2 ^ 31)) 0) as [E|E]; cbn [negb].
    + assert (B : N.testbit (N.land i (2 ^ 31)) 31 = false) by (rewrite E; reflexivity).
      rewrite N.land_spec, N.pow2_bits_true, andb_true_r in B. congruence.
    + destruct (N.testbit i 31) eqn:B; [reflexivity|]. exfalso. apply E. apply N.bits_inj. intros k.
      rewrite N.land_spec, N.pow2_bits_eqb, N.bits_0. destruct (N.eqb_spec 31 k); [subst; rewrite B; reflexivity|apply andb_false_r].
Qed.
Print Assumptions tagged_units_value.

Theorem tagged_units_inverse : forall i, i < 2 ^ 32 -> tagged_to_u32 (u32_to_tagged i) = i.
Proof.
  intros i Hi. destruct (tagged_units_value i Hi) as [E1 E2]. destruct (u32_to_tagged i) as [n b]. cbn [tcu_units tcu_utf16] in E1, E2. subst n b.
  assert (Hm : i mod 2 ^ 31 < 2 ^ 31) by (apply N.mod_lt; discriminate).
  unfold tagged_to_u32. cbn [tcu_units tcu_utf16]. destruct (N.leb_spec (2 ^ 31) i) as [L|L]; [|apply N.mod_small; exact L].
  assert (D : i = 2 ^ 31 * (i / 2 ^ 31) + i mod 2 ^ 31) by (apply N.div_mod; discriminate).
  assert (Hq : i / 2 ^ 31 < 2) by (apply N.div_lt_upper_bound; [discriminate|exact Hi]).
  assert (Q : i / 2 ^ 31 = 1) by nia.
  change utf16_tag with (2 ^ 31).
  apply N.bits_inj. intros k. rewrite N.lor_spec, N.pow2_bits_eqb.
  destruct (N.eqb_spec 31 k) as [<-|Hk].
  - rewrite orb_true_r. pose proof (N.testbit_spec' i 31) as T. rewrite Q in T. destruct (N.testbit i 31); [reflexivity|discriminate].
  - rewrite orb_false_r. destruct (N.lt_ge_cases k 31) as [L'|L']; [apply N.mod_pow2_bits_low; exact L'|].
    rewrite N.mod_pow2_bits_high by exact L'. symmetry. apply N.bits_above_log2.
    apply N.log2_lt_pow2; [lia|]. apply N.lt_le_trans with (2 ^ 32); [exact Hi|]. apply N.pow_le_mono_r; lia.
Qed.
Print Assumptions tagged_units_inverse.

Example tagged_applies : tagged_to_u32 (mkTagged 5 true) = 0x80000005 /\ u32_to_tagged 0x80000005 = mkTagged 5 true.
Proof. split; reflexivity. Qed.

Theorem tagged_units_large_refuted : exists n n' b b', n < 2 ^ 32 /\ n' < 2 ^ 32 /\
  (n, b) <> (n', b') /\ tagged_to_u32 (mkTagged n b) = tagged_to_u32 (mkTagged n' b').
Proof. exists (2 ^ 31), 0, false, true. repeat split; discriminate. Qed.
Print Assumptions tagged_units_large_refuted.

(** ** C33 *)

Lemma utf16_text : forall big cs, utf16_encode big cs = text_bytes (CUtf16 big) cs.
Proof. intros [|] cs; reflexivity. Qed.

Theorem encode_text : forall c cs, Forall scalar_value cs -> expressible c cs ->
  encode_string c (utf8_text cs) = Ok (text_bytes c cs).
Proof.
  intros c cs Hs He. unfold encode_string. rewrite sent_text, utf8_runes_text by assumption. destruct c as [|big|].
  - rewrite utf8_encode_spec by assumption. reflexivity.
  - rewrite utf16_text. reflexivity.
  - unfold latin1_encode. replace (forallb latin1_ok cs) with true; [reflexivity|]. symmetry.
    apply forallb_forall. cbn [expressible] in He. rewrite Forall_forall in He. intros x Hx. apply N.ltb_lt. auto.
Qed.
Print Assumptions encode_text.

Theorem decode_encoded_text : forall c cs, Forall scalar_value cs -> expressible c cs ->
  decode_string c (text_bytes c cs) = Ok (utf8_text cs).
Proof.
  intros c cs Hs He. unfold decode_string. destruct c as [|big|].
  - cbn [text_bytes]. rewrite utf8_runes_text, utf8_encode_spec by assumption. reflexivity.
  - rewrite <- utf16_text, utf16_decode_encode, utf8_encode_spec by assumption. reflexivity.
  - cbn [text_bytes]. rewrite utf8_encode_spec by assumption. reflexivity.
Qed.
Print Assumptions decode_encoded_text.

Theorem encoded_length_units : forall c cs, exists k, List.length (text_bytes c cs) = (k * unit_width c)%nat.
Proof.
  intros c cs. destruct c as [|big|]; cbn [unit_width].
  - exists (List.length (utf8_text cs)). cbn [text_bytes]. lia.
  - exists (List.length (flat_map sp_utf16 cs)). rewrite <- utf16_text, utf16_length.
    rewrite (flat_map_ext _ _ utf16_units_spec). lia.
  - exists (List.length cs). cbn [text_bytes]. lia.
Qed.
Print Assumptions encoded_length_units.

(** Latin-1 refuses what it cannot express. *)
Theorem encode_latin1_rejects : forall cs, Forall scalar_value cs -> ~ Forall (fun x => x < 256) cs ->
  exists e, encode_string CLatin1 (utf8_text cs) = Err e.
Proof.
  intros cs Hs Hn. unfold encode_string, latin1_encode. rewrite sent_text, utf8_runes_text by assumption.
  destruct (forallb latin1_ok cs) eqn:E; [|eauto]. exfalso. apply Hn. apply Forall_forall. intros x Hx.
  rewrite forallb_forall in E. apply N.ltb_lt. apply E. exact Hx.
Qed.
Print Assumptions encode_latin1_rejects.

(** Whatever a codec writes, for any Go string, is text in its encoding. *)
Theorem encoded_is_text : forall c s bs, encode_string c s = Ok bs ->
  exists cs, Forall scalar_value cs /\ expressible c cs /\ bs = text_bytes c cs.
Proof.
  intros c s bs H. set (rs := utf8_runes (sent s)) in *. exists rs.
  assert (Hs : Forall scalar_value rs)
    by (eapply Forall_impl; [apply scalarb_value|apply utf8_runes_scalar]).
  split; [exact Hs|]. unfold encode_string in H. fold rs in H. destruct c as [|big|].
  - injection H as H. split; [exact I|]. rewrite <- H. apply utf8_encode_spec, Hs.
  - injection H as H. split; [exact I|]. rewrite <- H. apply utf16_text.
  - unfold latin1_encode in H. destruct (forallb latin1_ok rs) eqn:E; [|discriminate H]. injection H as H.
    split; [|symmetry; exact H]. cbn [expressible]. apply Forall_forall. intros x Hx.
    rewrite forallb_forall in E. apply N.ltb_lt, E, Hx.
Qed.
Print Assumptions encoded_is_text.

(** A string that breaks off inside a character is encoded as if it ended
    before that character: no error and no replacement character. *)
Theorem cut_character_lost : forall c cs x t r, Forall scalar_value cs -> scalar_value x ->
  sp_utf8 x = (t ++ r)%list -> r <> [] ->
  encode_string c (utf8_text cs ++ t) = encode_string c (utf8_text cs).
Proof.
  intros c cs x t r Hs Hx E Hr. unfold encode_string.
  rewrite sent_text_app, (sent_cut _ _ _ Hx E Hr), app_nil_r, sent_text by exact Hs. reflexivity.
Qed.
Print Assumptions cut_character_lost.

(** So strings that differ can be encoded alike although neither is refused,
    and a string that is not empty can be encoded as the empty one. *)
Theorem encoding_keeps_every_byte_refuted : exists s, s <> [] /\
  forall c, encode_string c s = Ok [] /\ encode_string c [] = Ok [].
Proof. exists [0xE2; 0x82]. split; [discriminate|]. intros [|big|]; split; reflexivity. Qed.
Print Assumptions encoding_keeps_every_byte_refuted.

(** Elsewhere a byte that is not UTF-8 becomes U+FFFD, or is refused by Latin-1. *)
Example cut_inside : encode_string CUtf8 [0xE2; 0x82; 0x41] = Ok [0xEF; 0xBF; 0xBD; 0xEF; 0xBF; 0xBD; 0x41] /\
  encode_string CLatin1 [0xE2; 0x82; 0x41] = Err EOther /\
  encode_string CUtf8 [0x41; 0xE2; 0x82] = Ok [0x41] /\
  (exists r, sp_utf8 0x20AC = [0xE2; 0x82] ++ r /\ r <> [])%list.
Proof. repeat split. exists [0xAC]. split; [reflexivity|discriminate]. Qed.

Example codecs_apply :
  Forall scalar_value [0x41; 0xE9; 0x20AC; 0x1F600] /\
  encode_string (CUtf16 true) (utf8_text [0x41; 0xE9; 0x20AC; 0x1F600])
    = Ok [0; 0x41; 0; 0xE9; 0x20; 0xAC; 0xD8; 0x3D; 0xDE; 0] /\
  expressible CLatin1 [0x41; 0xE9] /\ encode_string CLatin1 (utf8_text [0x41; 0xE9]) = Ok [0x41; 0xE9].
Proof.
  split; [repeat apply Forall_cons; try apply Forall_nil; unfold scalar_value; lia|].
  split; [reflexivity|]. split; [repeat constructor|reflexivity].
Qed.

(** ** C51 *)

Lemma aligned_or_trap : forall p a s, valid_align a -> p < 2 ^ 32 ->
  check_aligned ETrap p a s = (Ok tt, s) \/ check_aligned ETrap p a s = (Err ETrap, s).
Proof.
  intros p a s Ha Hp. unfold check_aligned, bind, lift_o.
  unfold align_to. destruct (N.eqb_spec a 0); [unfold valid_align in Ha; lia|].
  destruct (_ =? _); auto.
Qed.

Theorem load_list_out_of_bounds_traps : forall cx t a sz p s,
  sp_layout t = Some (a, sz) -> wf_mem (s_mem s) -> p + 8 <= m_len (s_mem s) ->
  let start := number (s_mem s) p 4 in
  let count := number (s_mem s) (p + 4) 4 in
  start + count * sz < 2 ^ 32 -> sz < 2 ^ 32 -> m_len (s_mem s) < start + count * sz ->
  load cx (TList t) p s = (Err ETrap, s).
Proof.
  intros cx t a sz p s Hl Hm Hb start count Hw Hsz Ho. destruct (sp_layout_facts _ _ _ Hl) as (Ha & Hva & _ & Hs).
  change (2 ^ 32) with two32 in *. specialize (Hs Hsz).
  cbn [load]. unfold load_list. erewrite bind_ok; [|apply load_word; [assumption|lia]].
  assert (E : add32 p 4 = p + 4).
  { unfold add32. apply N.mod_small. destruct Hm as (_ & Hm & _). change (2 ^ 32) with two32 in Hm. lia. }
  rewrite E. erewrite bind_ok; [|apply load_word; [assumption|lia]]. fold start count.
  unfold load_list_from_range. rewrite Ha, bind_lift_ok. unfold bind at 1.
  destruct (aligned_or_trap start a s Hva) as [-> | ->]; [apply (number_lt 4); assumption| |reflexivity].
  rewrite Hs, bind_lift_ok. unfold bind at 1. unfold check_bounds, get_mem, bind at 1.
  unfold mul32, add32. rewrite (N.mod_small (count * sz)) by lia. rewrite N.mod_small by lia.
  unfold mem_len32, u32. rewrite (N.mod_small (m_len (s_mem s))) by lia.
  destruct (N.ltb_spec (m_len (s_mem s)) (start + count * sz)); [reflexivity|lia].
Qed.
Print Assumptions load_list_out_of_bounds_traps.

(** Size in bytes of the text a pointer and a length word designate. *)
Definition text_size (e : strenc) (tcu : N) : N :=
  tcu mod 2 ^ 31 *
  match e with
  | EncUtf16 | EncUtf16LE | EncUtf16BE => 2
  | EncLatin1Utf16 => if 2 ^ 31 <=? tcu then 2 else 1
  | _ => 1
  end.

Theorem load_string_out_of_bounds_traps : forall cx p s,
  cx_enc cx <> EncUnknown -> wf_mem (s_mem s) -> p + 8 <= m_len (s_mem s) ->
  let start := number (s_mem s) p 4 in
  let len := text_size (cx_enc cx) (number (s_mem s) (p + 4) 4) in
  start + len < 2 ^ 32 -> m_len (s_mem s) < start + len ->
  load cx TString p s = (Err ETrap, s).
Proof.
  intros cx p s He Hm Hb start len Hw Ho. change (2 ^ 32) with two32 in *.
  cbn [load]. unfold load_string. erewrite bind_ok; [|apply load_word; [assumption|lia]].
  assert (E : add32 p 4 = p + 4).
  { unfold add32. apply N.mod_small. destruct Hm as (_ & Hm & _). change (2 ^ 32) with two32 in Hm. lia. }
  rewrite E. erewrite bind_ok; [|apply load_word; [assumption|lia]]. fold start.
  pose proof (number_lt 4 _ p Hm) as Hp4. fold start in Hp4.
  set (tcu := number (s_mem s) (p + 4) 4) in *.
  assert (Htcu : tcu < 2 ^ 32) by (apply (number_lt 4); assumption).
  destruct (tagged_units_value tcu Htcu) as [Eu Et].
  assert (X : forall c, tcu mod 2 ^ 31 * codec_rune_size c = len ->
    (let* c := lift_o (Ok c) in
      let len := mul32 (tcu_units (u32_to_tagged tcu)) (codec_rune_size c) in
      check_aligned ETrap start (codec_alignment c) ;;
      check_bounds ETrap start len ;;
      let* m := get_mem in
      let* bs := lift_o (mem_slice m start (add32 start len)) in
      let* s := lift_o (decode_string c bs) in
      ret (VStr s)) s = (Err ETrap, s)).
  { intros c Hc. rewrite bind_lift_ok. cbn zeta. unfold bind at 1.
    destruct (aligned_or_trap start (codec_alignment c) s) as [-> | ->];
      [destruct c; unfold valid_align; cbn; auto|exact Hp4| |reflexivity].
    rewrite Eu. unfold mul32. rewrite Hc. unfold bind at 1. unfold check_bounds, get_mem, bind at 1, add32.
    rewrite (N.mod_small len) by lia. rewrite N.mod_small by lia.
    unfold mem_len32, u32. rewrite (N.mod_small (m_len (s_mem s))) by lia.
    destruct (N.ltb_spec (m_len (s_mem s)) (start + len)); [reflexivity|lia]. }
  unfold load_string_from_range, text_size in *.
  destruct (cx_enc cx); try congruence; cbn [get_codec]; try (apply X; reflexivity).
  rewrite Et. destruct (2 ^ 31 <=? tcu); cbn [get_codec]; apply X; reflexivity.
Qed.
Print Assumptions load_string_out_of_bounds_traps.

(** A memory of 64 bytes whose first words claim 2^29 elements at address 64. *)
Definition claim_state (start count : N) : state :=
  mkState (mkMem (le_encode 4 start ++ le_encode 4 count ++ repeat 0 56)%list 64) [] demo_world.
Example load_out_of_bounds_applies :
  wf_mem (s_mem (claim_state 60 2)) /\ number (s_mem (claim_state 60 2)) 0 4 = 60 /\
  number (s_mem (claim_state 60 2)) 4 4 = 2 /\
  fst (load (bump_ctx EncUtf8) (TList TU32) 0 (claim_state 60 2)) = Err ETrap /\
  fst (load (bump_ctx EncUtf16BE) TString 0 (claim_state 60 3)) = Err ETrap.
Proof.
  split; [|repeat split; vm_compute; reflexivity].
  split; [vm_compute; discriminate|]. split; [reflexivity|]. cbn [s_mem claim_state m_data].
  repeat (apply Forall_app; split); try (vm_compute; repeat constructor).
Qed.

Lemma bind_panics : forall {A B} (m : M A) (f : A -> M B) s, fst (m s) = Panic -> fst (bind m f s) = Panic.
Proof. intros A B m f s H. unfold bind. destruct (m s) as [o s1]. cbn in H. subst o. reflexivity. Qed.
Lemma first_elem_panics : forall n ld ptr sz i s, n <> 0 ->
  fst (ld (add32 ptr (mul32 i sz)) s) = Panic -> fst (load_elems (N.to_nat n) ld ptr sz i s) = Panic.
Proof.
  intros n ld ptr sz i s Hn H. destruct (N.to_nat n) as [|k] eqn:E; [lia|]. cbn [load_elems].
  apply bind_panics. exact H.
Qed.

(** When the product of count and element size leaves the 32-bit range the
    check compares a wrapped number, lets the list pass, and the program
    panics instead of trapping. *)
Theorem load_list_wrapped_size_traps_refuted : exists cx t a sz p s,
  sp_layout t = Some (a, sz) /\ wf_mem (s_mem s) /\ p + 8 <= m_len (s_mem s) /\
  (a | number (s_mem s) p 4) /\
  m_len (s_mem s) < number (s_mem s) p 4 + number (s_mem s) (p + 4) 4 * sz /\
  fst (load cx (TList t) p s) = Panic.
Proof.
  exists (bump_ctx EncUtf8), TU64, 8, 8, 0, (claim_state 64 536870912).
  split; [reflexivity|]. split.
  { split; [vm_compute; discriminate|]. split; [reflexivity|]. cbn [s_mem claim_state m_data].
    repeat (apply Forall_app; split); try (vm_compute; repeat constructor). }
  split; [vm_compute; discriminate|]. split; [exists 8; reflexivity|]. split; [reflexivity|].
  set (s := claim_state 64 536870912). cbn [load]. unfold load_list.
  erewrite (bind_ok (load_u32 0)); [|reflexivity].
  erewrite (bind_ok (load_u32 _) _ s 536870912); [|reflexivity].
  unfold load_list_from_range. cbn [alignment size]. rewrite !bind_lift_ok.
  erewrite (bind_ok (check_aligned _ _ _)); [|reflexivity].
  rewrite !bind_lift_ok. erewrite (bind_ok (check_bounds _ _ _)); [|reflexivity].
  apply bind_panics. apply first_elem_panics; [discriminate|reflexivity].
Qed.
Print Assumptions load_list_wrapped_size_traps_refuted.
