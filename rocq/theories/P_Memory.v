(** Property theorems about Store and Load (C12-C15, C22). *)
From Coq Require Import NArith ZArith List String Bool Lia ZifyBool ZifyNat ZifyN.
From Verif Require Import GoBase M_Types M_Layout S_Layout L_Layout M_State M_Utf M_Load M_Store
  S_Utf S_Values S_Memory S_Access L_Access L_Variant L_Mem L_Frame L_RoundTrip L_StoreLoad.
Import ListNotations.
Open Scope N_scope.
Open Scope go_scope.

(** ** A concrete correct allocator, to show the hypotheses can be met *)

(** An allocator that looks at nothing but the requests and the memory, and
    changes nothing but the memory. *)
Definition memory_only (f : list (req * N) -> req -> memory -> outcome (N * memory)) (r : req) (s : state)
  : outcome N * (memory * world) :=
  match f (s_hist s) r (s_mem s) with
  | Ok (p, m) => (Ok p, (m, s_world s))
  | Err e => (Err e, (s_mem s, s_world s))
  | Panic => (Panic, (s_mem s, s_world s))
  | Diverge => (Diverge, (s_mem s, s_world s))
  end.

Lemma memory_only_correct : forall f i inst enc init,
  (forall hist r m p m', r_optr r = 0 -> r_osize r = 0 -> wf_mem m -> f hist r m = Ok (p, m') ->
    wf_mem m' /\ m_len m <= m_len m' /\ (r_align r | p) /\ p + r_size r <= m_len m' /\
    (forall b, within p (r_size r) b -> ~ owned init hist b) /\
    (forall b, owned init hist b -> byte m' b = byte m b)) ->
  correct_allocator (mkCtx i inst enc (memory_only f)) init.
Proof.
  intros f i inst enc init H r s o m' w' H1 H2 Hm E. cbn [cx_realloc] in E. unfold memory_only in E.
  destruct (f (s_hist s) r (s_mem s)) as [[p m]|e| |] eqn:Ef; inversion E; subst; clear E.
  2,3,4: (split; [reflexivity|]; split; [exact Hm|]; split; [lia|]; split; [reflexivity|discriminate]).
  destruct (H _ _ _ _ _ H1 H2 Hm Ef) as (A & B & C & D & F & G).
  split; [reflexivity|]. split; [exact A|]. split; [exact B|]. split; [exact G|]. intros q X. injection X as <-. auto.
Qed.

(** A bump allocator over the memory above address 64. *)
Definition bump_top (hist : list (req * N)) : N :=
  fold_right (fun h acc => N.max (snd h + r_size (fst h)) acc) 64 hist.
Definition bump_alloc (hist : list (req * N)) (r : req) (m : memory) : outcome (N * memory) :=
  if r_align r =? 0 then Err EOther
  else
    let p := (bump_top hist + r_align r - 1) / r_align r * r_align r in
    if p + r_size r <=? m_len m then Ok (p, m) else Err EOther.
Definition bump := memory_only bump_alloc.
Definition bump_ctx (enc : strenc) : callctx := mkCtx 0 0 enc bump.

Lemma bump_top_ge : forall hist r p, In (r, p) hist -> p + r_size r <= bump_top hist.
Proof.
  induction hist as [|[r' p'] hist IH]; intros r p []; cbn [bump_top fold_right fst snd].
  - inversion H; subst. lia.
  - specialize (IH r p H). unfold bump_top in IH. lia.
Qed.

Lemma bump_top_64 : forall hist, 64 <= bump_top hist.
Proof. induction hist; cbn [bump_top fold_right]; [lia|]. unfold bump_top in *. lia. Qed.

Lemma bump_correct : forall enc, correct_allocator (bump_ctx enc) (fun b => b < 64).
Proof.
  intros enc. apply memory_only_correct. intros hist r m p m' _ _ Hm H. unfold bump_alloc in H.
  destruct (N.eqb_spec (r_align r) 0) as [|Ha]; [discriminate|].
  set (t := bump_top hist) in *. set (q := (t + r_align r - 1) / r_align r * r_align r) in *.
  assert (Hq : t <= q).
  { unfold q. pose proof (N.div_mod (t + r_align r - 1) (r_align r) Ha).
    pose proof (N.mod_lt (t + r_align r - 1) (r_align r) Ha). lia. }
  destruct (N.leb_spec (q + r_size r) (m_len m)); [|discriminate]. injection H as <- <-.
  split; [assumption|]. split; [lia|]. split; [exists ((t + r_align r - 1) / r_align r); reflexivity|].
  split; [assumption|]. split; [|reflexivity].
  intros b [Hb1 Hb2] [Hi|(r' & p' & Hin & [H1 H2])].
  - pose proof (bump_top_64 hist). unfold t in *. lia.
  - pose proof (bump_top_ge hist r' p' Hin). unfold t in *. lia.
Qed.

Definition demo_world := mkWorld [] [] [] [].
Definition demo_state (n : nat) : state := mkState (mkMem (repeat 0 n) (N.of_nat n)) [] demo_world.

(** ** C12 *)

Theorem load_after_store : forall cx init t a sz v p s o s',
  correct_allocator cx init ->
  wf_type t -> has_type (cx_enc cx) t v ->
  sp_layout t = Some (a, sz) -> (a | p) ->
  wf_mem (s_mem s) -> p + sz <= m_len (s_mem s) ->
  (forall b, within p sz b -> owned init (s_hist s) b) ->
  store cx t v p s = (o, s') ->
  (o = Ok tt /\ exists v', load cx t p s' = (Ok v', s') /\ same_value t v v')
  \/ alloc_failed cx o.
Proof.
  intros cx init t a sz v p s o s' Hc Hwf Hty Hl Hd Hm Hb Ho E.
  assert (Hp : p + sz < two32) by (destruct Hm as (_ & Hm & _); unfold two32; lia).
  destruct (rt_ok_all cx init t Hc a sz v p Hl Hwf Hty Hd Hp s o s' Hm Ho Hb E) as [([] & -> & St & K)|Hf];
    [left|right; assumption].
  split; [reflexivity|]. apply K. split; [apply (st_good _ _ _ _ St)|]. split; [lia|reflexivity].
Qed.
Print Assumptions load_after_store.

(** Writing somewhere else afterwards does not disturb what was stored. *)
Theorem later_stores_keep_value : forall cx init t a sz v p t2 a2 sz2 v2 p2 s s1 s2 o2,
  correct_allocator cx init ->
  wf_type t -> has_type (cx_enc cx) t v ->
  sp_layout t = Some (a, sz) -> (a | p) ->
  wf_mem (s_mem s) -> p + sz <= m_len (s_mem s) ->
  (forall b, within p sz b -> owned init (s_hist s) b) ->
  store cx t v p s = (Ok tt, s1) ->
  sp_layout t2 = Some (a2, sz2) -> lists_fit t2 v2 ->
  p2 + sz2 <= m_len (s_mem s1) ->
  (forall b, within p2 sz2 b -> ~ within p sz b /\ owned init (s_hist s) b) ->
  store cx t2 v2 p2 s1 = (o2, s2) ->
  exists v', load cx t p s2 = (Ok v', s2) /\ same_value t v v'.
Proof.
  intros cx init t a sz v p t2 a2 sz2 v2 p2 s s1 s2 o2 Hc Hwf Hty Hl Hd Hm Hb Ho E Hl2 Hf2 Hb2 Hdis E2.
  assert (Hp : p + sz < two32) by (destruct Hm as (_ & Hm & _); unfold two32; lia).
  destruct (rt_ok_all cx init t Hc a sz v p Hl Hwf Hty Hd Hp s _ s1 Hm Ho Hb E) as [([] & _ & St & K)|(? & ? & ? & ? & [])].
  pose proof (st_good _ _ _ _ St) as Hm1. assert (Hm1' := Hm1). destruct Hm1' as (_ & Hm1' & _).
  assert (Hp2 : p2 + sz2 < two32) by (unfold two32; lia).
  pose proof (frame_ok_all cx init t2 Hc a2 sz2 v2 p2 Hl2 Hf2 Hp2 s1 o2 s2 Hm1 Hb2 E2) as St2.
  apply K. split; [apply (st_good _ _ _ _ St2)|]. split; [apply (st_len _ _ _ _ St2)|].
  intros b Hin. apply (st_frame _ _ _ _ St2).
  - destruct Hin as [Hin|[Hin _]]; [|assumption]. eapply step_owned; [exact St|auto].
  - intros W. destruct (Hdis b W) as [H1 H2]. destruct Hin as [|[_ Hin]]; tauto.
Qed.
Print Assumptions later_stores_keep_value.

(** A record holding a string, a list of variants and flags, in the bump
    allocator's memory. *)
Definition demo_type : valtype :=
  TRecord [("name", TString);
           ("items", TList (TVariant [mkCase "a" (Some TU16) None; mkCase "b" (Some TF32) (Some "a"); mkCase "c" None None]));
           ("opts", TFlags ["x"; "y"; "z"])]%string.
Definition demo_val : any :=
  VMap [("name", VStr [72; 195; 169]);
        ("items", VList [VMap [("b|a", VF32 2143289345)]; VMap [("c", VNil)]; VMap [("a", VU16 7)]]);
        ("opts", VMap [("x", VBool true); ("y", VBool false); ("z", VBool true)])]%string.

Example load_after_store_applies : forall enc, enc = EncUtf8 \/ enc = EncLatin1Utf16 ->
  correct_allocator (bump_ctx enc) (fun b => b < 64) /\
  wf_type demo_type /\ has_type enc demo_type demo_val /\
  sp_layout demo_type = Some (4, 20) /\ (4 | 8) /\ wf_mem (s_mem (demo_state 200)) /\
  8 + 20 <= m_len (s_mem (demo_state 200)) /\
  (forall b, within 8 20 b -> owned (fun b => b < 64) (s_hist (demo_state 200)) b) /\
  fst (store (bump_ctx enc) demo_type demo_val 8 (demo_state 200)) = Ok tt /\
  exists v', fst (load (bump_ctx enc) demo_type 8 (snd (store (bump_ctx enc) demo_type demo_val 8 (demo_state 200)))) = Ok v' /\
    v' = VMap [("name", VStr [72; 195; 169]);
        ("items", VList [VMap [("b|a", VF32 2143289344)]; VMap [("c", VNil)]; VMap [("a", VU16 7)]]);
        ("opts", VMap [("x", VBool true); ("y", VBool false); ("z", VBool true)])]%string.
Proof.
  intros enc He. split; [apply bump_correct|]. split.
  { cbn [wf_type demo_type]. cbn [map fst snd]. split; [repeat constructor; cbn; intuition discriminate|].
    cbn [all fold_right map snd wf_type c_type]. split; [exact I|]. split; [|split; [|exact I]].
    - split; [|exists 4, 8; split; reflexivity]. split; [|repeat split].
      split; [repeat constructor; cbn; intuition discriminate|].
      split; [repeat constructor; cbn; try discriminate; exact I|].
      apply Forall_cons; [apply re_stop; reflexivity|]. apply Forall_cons; [|apply Forall_cons; [apply re_stop; reflexivity|apply Forall_nil]].
      eapply re_step; [reflexivity|apply re_stop; reflexivity].
    - split; [repeat constructor; cbn; intuition discriminate|cbn; lia]. }
  split.
  { assert (Hn : forall x y : string, x <> y -> ~ In x [y]) by (intros x y ? [|[]]; congruence).
    eexists. split; [reflexivity|]. repeat constructor.
    - cbn [fst snd]. eexists. split; [reflexivity|]. cbn [snd has_type]. eexists. split; [reflexivity|].
      exists [72; 233]. repeat split; [repeat constructor; unfold scalar_value; lia|].
      destruct He as [->| ->]; exact I.
    - cbn [fst snd]. eexists. split; [reflexivity|]. cbn [snd has_type].
      eexists _, 4, 8. split; [reflexivity|]. split; [|split; [reflexivity|split; reflexivity]].
      repeat constructor.
      + exists "b|a"%string, (VF32 2143289345), 1%nat. eexists. split; [reflexivity|]. split.
        * exists [], "b"%string, ["a"%string]. repeat split; repeat constructor; cbn; discriminate.
        * split; [reflexivity|]. cbn. eexists. split; [reflexivity|reflexivity].
      + exists "c"%string, VNil, 2%nat. eexists. split; [reflexivity|]. split.
        * exists [], "c"%string, []. repeat split; repeat constructor; cbn; discriminate.
        * split; [reflexivity|]. reflexivity.
      + exists "a"%string, (VU16 7), 0%nat. eexists. split; [reflexivity|]. split.
        * exists [], "a"%string, []. repeat split; repeat constructor; cbn; discriminate.
        * split; [reflexivity|]. cbn. eexists. split; [reflexivity|reflexivity].
    - cbn [fst snd]. eexists. split; [reflexivity|]. cbn [snd has_type].
      eexists. split; [reflexivity|]. repeat constructor; cbn [fst snd]; eexists; (split; [reflexivity|]); eexists; reflexivity. }
  split; [reflexivity|]. split; [exists 2; reflexivity|].
  split; [split; [cbn; lia|]; split; [reflexivity|]; cbn [s_mem demo_state m_data]; apply Forall_forall; intros x Hx; apply repeat_spec in Hx; lia|].
  split; [cbn; lia|]. split; [intros b [H1 H2]; left; lia|].
  destruct He as [->| ->]; (split; [vm_compute; reflexivity|]); eexists; (split; [vm_compute; reflexivity|reflexivity]).
Qed.

(** ** C22 *)

Theorem string_round_trip : forall cx init cs p s o s',
  correct_allocator cx init ->
  Forall scalar_value cs -> N.of_nat (List.length (utf8_text cs)) < 2 ^ 31 ->
  match cx_enc cx with EncUnknown => False | EncLatin1 => Forall (fun c => c < 256) cs | _ => True end ->
  (4 | p) -> wf_mem (s_mem s) -> p + 8 <= m_len (s_mem s) ->
  (forall b, within p 8 b -> owned init (s_hist s) b) ->
  store cx TString (VStr (utf8_text cs)) p s = (o, s') ->
  (o = Ok tt /\ load cx TString p s' = (Ok (VStr (utf8_text cs)), s')) \/ alloc_failed cx o.
Proof.
  intros cx init cs p s o s' Hc Hcs Hlen He Hd Hm Hb Ho E.
  destruct (load_after_store cx init TString 4 8 (VStr (utf8_text cs)) p s o s') as [(-> & v' & L & S)|F]; try assumption.
  - exact I.
  - exists (utf8_text cs). split; [reflexivity|]. exists cs. auto.
  - reflexivity.
  - left. split; [reflexivity|]. cbn [same_value] in S. subst v'. assumption.
  - right. assumption.
Qed.
Print Assumptions string_round_trip.

Example string_round_trip_applies : forall enc, enc <> EncUnknown -> enc <> EncLatin1 ->
  load (bump_ctx enc) TString 8 (snd (store (bump_ctx enc) TString (VStr (utf8_text [72; 0x20AC; 0x1F600])) 8 (demo_state 200)))
  = (Ok (VStr (utf8_text [72; 0x20AC; 0x1F600])),
     snd (store (bump_ctx enc) TString (VStr (utf8_text [72; 0x20AC; 0x1F600])) 8 (demo_state 200)))
  /\ Forall scalar_value [72; 0x20AC; 0x1F600].
Proof.
  intros enc H1 H2. split; [destruct enc; try congruence; reflexivity|].
  repeat constructor; unfold scalar_value; lia.
Qed.

(** ** C13 *)

Theorem store_frame : forall cx init t a sz v p s o s',
  correct_allocator cx init ->
  sp_layout t = Some (a, sz) -> lists_fit t v ->
  wf_mem (s_mem s) -> p + sz <= m_len (s_mem s) ->
  store cx t v p s = (o, s') ->
  wf_mem (s_mem s') /\ m_len (s_mem s) <= m_len (s_mem s') /\ s_world s' = s_world s /\
  (exists blocks, s_hist s' = (blocks ++ s_hist s)%list) /\
  forall b, owned init (s_hist s) b -> ~ within p sz b -> byte (s_mem s') b = byte (s_mem s) b.
Proof.
  intros cx init t a sz v p s o s' Hc Hl Hf Hm Hb E.
  assert (Hp : p + sz < two32) by (destruct Hm as (_ & Hm & _); unfold two32; lia).
  destruct (frame_ok_all cx init t Hc a sz v p Hl Hf Hp s o s' Hm Hb E) as [G1 G2 G3 G4 G5].
  split; [exact G1|]. split; [exact G2|]. split; [exact G4|]. split; [exact G3|exact G5].
Qed.
Print Assumptions store_frame.

Example store_frame_applies :
  let s := mkState (mkMem (repeat 7 200) 200) [] demo_world in
  let s' := snd (store (bump_ctx EncUtf8) demo_type demo_val 8 s) in
  map (byte (s_mem s')) [7; 28; 29; 63] = [7; 7; 7; 7] /\ byte (s_mem s') 8 = 64 /\
  map (byte (s_mem s')) [64; 65; 66] = [72; 195; 169].
Proof. vm_compute. auto. Qed.

(** ** C14 *)

Lemma store_guarded : forall cx t v p, exists st, store cx t v p = guarded (alignment t) (size t) st v p.
Proof.
  intros cx t v p. assert (H : exists st, store cx t = guarded (alignment t) (size t) st).
  { destruct t; eexists; unfold store; fold store; reflexivity. }
  destruct H as [st ->]. exists st. reflexivity.
Qed.

Theorem store_out_of_bounds_rejected : forall cx t a sz v p s,
  sp_layout t = Some (a, sz) ->
  wf_mem (s_mem s) -> p + sz < 2 ^ 32 -> m_len (s_mem s) < p + sz ->
  exists e, store cx t v p s = (Err e, s).
Proof.
  intros cx t a sz v p s Hl Hm Hp Hb. change (2 ^ 32) with two32 in Hp.
  destruct (sp_layout_facts _ _ _ Hl) as (Ha & Hva & _ & Hs). specialize (Hs ltac:(lia)).
  destruct (store_guarded cx t v p) as [st ->].
  destruct (guarded_cases (alignment t) (size t) a sz st v p s Ha Hs Hva Hm Hp) as [(_ & B & _)|(E & _)].
  - unfold len in B. lia.
  - eauto.
Qed.
Print Assumptions store_out_of_bounds_rejected.

Example store_out_of_bounds_applies : forall v,
  exists e, store (bump_ctx EncUtf8) demo_type v 192 (demo_state 200) = (Err e, demo_state 200).
Proof.
  intros v. apply (store_out_of_bounds_rejected _ _ 4 20); [reflexivity| |reflexivity|reflexivity].
  split; [cbn; lia|]; split; [reflexivity|]; cbn [s_mem demo_state m_data]; apply Forall_forall; intros x Hx; apply repeat_spec in Hx; lia.
Qed.

(** The bound on [p + sz] is needed: when the end of the destination passes
    2^32 the check wraps around and the program panics. *)
Theorem store_wraparound_rejected_refuted : exists cx t a sz v p s,
  sp_layout t = Some (a, sz) /\ (a | p) /\ p < 2 ^ 32 /\ wf_type t /\ has_type (cx_enc cx) t v /\
  wf_mem (s_mem s) /\ m_len (s_mem s) < p + sz /\ store cx t v p s = (Panic, s).
Proof.
  exists (bump_ctx EncUtf8), TU32, 4, 4, (VU32 1), 4294967292, (demo_state 8).
  split; [reflexivity|]. split; [exists 1073741823; reflexivity|]. split; [reflexivity|].
  split; [exact I|]. split; [exists 1; split; reflexivity|].
  split; [|split; [reflexivity|vm_compute; reflexivity]].
  split; [cbn; lia|]. split; [reflexivity|]. repeat constructor.
Qed.
Print Assumptions store_wraparound_rejected_refuted.

(** ** C15 *)

Lemma misaligned_up : forall a p, valid_align a -> p < two32 -> ~ (a | p) -> u32 (up_to a p) <> p.
Proof.
  intros a p Hv Hp Hn E. pose proof (valid_align_nz _ Hv) as Hz.
  pose proof (up_to_div a p) as Hd. pose proof (up_to_ge a p Hz) as Hge. pose proof (up_to_lt a p Hz) as Hlt.
  unfold u32, two32 in *. destruct (N.lt_ge_cases (up_to a p) 4294967296) as [H|H].
  - rewrite N.mod_small in E by assumption. rewrite E in Hd. contradiction.
  - assert (a <= 8) by (unfold valid_align in Hv; lia).
    lia.
Qed.

Lemma check_misaligned : forall e a p s, valid_align a -> p < two32 -> ~ (a | p) ->
  check_aligned e p a s = (Err e, s).
Proof.
  intros e a p s Hv Hp Hn. unfold check_aligned. rewrite align_to_up by (apply valid_align_nz; assumption).
  pose proof (misaligned_up a p Hv Hp Hn) as Hne.
  unfold bind, lift_o. destruct (N.eqb_spec p (u32 (up_to a p))); [congruence|reflexivity].
Qed.

Theorem store_misaligned_rejected : forall cx t a sz v p s,
  sp_layout t = Some (a, sz) -> p < 2 ^ 32 -> ~ (a | p) ->
  exists e, store cx t v p s = (Err e, s).
Proof.
  intros cx t a sz v p s Hl Hp Hn. change (2 ^ 32) with two32 in Hp.
  destruct (sp_layout_facts _ _ _ Hl) as (Ha & Hva & _ & _).
  destruct (store_guarded cx t v p) as [st ->]. exists EOther.
  unfold guarded, store_validate. rewrite Ha. unfold bind, lift_o at 1.
  rewrite check_misaligned by assumption. reflexivity.
Qed.
Print Assumptions store_misaligned_rejected.

Example store_misaligned_applies : forall v,
  exists e, store (bump_ctx EncUtf8) demo_type v 10 (demo_state 200) = (Err e, demo_state 200).
Proof.
  intros v. apply (store_misaligned_rejected _ _ 4 20); [reflexivity|reflexivity|].
  intros [k Hk]. lia.
Qed.

Lemma load_word : forall p s, wf_mem (s_mem s) -> p + 4 <= m_len (s_mem s) ->
  load_u32 p s = (Ok (number (s_mem s) p 4), s).
Proof. intros p s Hm H. apply load_u32_uint. apply (load_number 4); assumption. Qed.

Theorem load_misaligned_list_traps : forall cx t a sz p s,
  sp_layout t = Some (a, sz) ->
  wf_mem (s_mem s) -> p + 8 <= m_len (s_mem s) ->
  ~ (a | number (s_mem s) p 4) ->
  load cx (TList t) p s = (Err ETrap, s).
Proof.
  intros cx t a sz p s Hl Hm Hb Hn. destruct (sp_layout_facts _ _ _ Hl) as (Ha & Hva & _ & _).
  cbn [load]. unfold load_list. erewrite bind_ok; [|apply load_word; [assumption|lia]].
  assert (E : add32 p 4 = p + 4).
  { unfold add32. apply N.mod_small. destruct Hm as (_ & Hm & _). unfold two32. lia. }
  rewrite E. erewrite bind_ok; [|apply load_word; [assumption|lia]].
  unfold load_list_from_range. rewrite Ha, bind_lift_ok. unfold bind at 1.
  rewrite check_misaligned; [reflexivity|assumption|apply (number_lt 4); assumption|assumption].
Qed.
Print Assumptions load_misaligned_list_traps.

(** Alignment of the code units of an encoding, as the code has it: the plain
    Latin-1 encoding demands 2, as in latin1+utf16 of the canonical ABI. *)
Definition text_alignment (e : strenc) : N :=
  match e with EncUtf8 => 1 | _ => 2 end.

Theorem load_misaligned_string_traps : forall cx p s,
  cx_enc cx <> EncUnknown ->
  wf_mem (s_mem s) -> p + 8 <= m_len (s_mem s) ->
  ~ (text_alignment (cx_enc cx) | number (s_mem s) p 4) ->
  load cx TString p s = (Err ETrap, s).
Proof.
  intros cx p s He Hm Hb Hn.
  cbn [load]. unfold load_string. erewrite bind_ok; [|apply load_word; [assumption|lia]].
  assert (E : add32 p 4 = p + 4).
  { unfold add32. apply N.mod_small. destruct Hm as (_ & Hm & _). unfold two32. lia. }
  rewrite E. erewrite bind_ok; [|apply load_word; [assumption|lia]].
  pose proof (number_lt 4 _ p Hm) as Hw.
  assert (V : forall c, valid_align (codec_alignment c)) by (intros []; unfold valid_align; cbn; auto).
  unfold load_string_from_range.
  destruct (cx_enc cx); try congruence; cbn [text_alignment] in Hn;
    try destruct (tcu_utf16 _); cbn [get_codec]; rewrite bind_lift_ok; unfold bind at 1;
    (rewrite check_misaligned; [reflexivity|apply V|assumption|assumption]).
Qed.
Print Assumptions load_misaligned_string_traps.

Example load_misaligned_applies : forall cx t, cx_enc cx = EncUtf16 -> t = TU16 ->
  let s := mkState (mkMem [17; 0; 0; 0; 1; 0; 0; 0; 0; 0; 0; 0; 0; 0; 0; 0; 0; 0; 0; 0] 20) [] demo_world in
  load cx (TList t) 0 s = (Err ETrap, s) /\ load cx TString 0 s = (Err ETrap, s).
Proof.
  intros cx t He -> s.
  assert (Hm : wf_mem (s_mem s)) by (split; [cbn; lia|split; [reflexivity|cbn; repeat constructor]]).
  split.
  - apply (load_misaligned_list_traps cx TU16 2 2); [reflexivity|assumption|cbn; lia|].
    intros [k Hk]. change (number (s_mem s) 0 4) with 17 in Hk. lia.
  - apply load_misaligned_string_traps; [congruence|assumption|cbn; lia|]. rewrite He.
    intros [k Hk]. change (number (s_mem s) 0 4) with 17 in Hk. cbn in Hk. lia.
Qed.
