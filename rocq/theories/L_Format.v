(** Loading reads the memory format, and storing writes it. *)
From Coq Require Import NArith ZArith List String Ascii Bool Lia ZifyBool ZifyNat ZifyN.
From Verif Require Import GoBase M_Types M_Layout S_Layout L_Layout M_State M_Utf M_Load M_Store M_Flat
  S_Utf S_Values S_Memory S_Access S_Flat S_Format L_Access L_Variant L_Labels L_Despecialize L_Mem L_Utf L_Flags
  L_Frame L_RoundTrip L_StoreLoad L_Lifted L_CtxFree.
Import ListNotations.
Open Scope N_scope.
Open Scope go_scope.

(** ** Specialised types *)
Lemma holds_despecialize : forall T K strict enc m t p v, holds T K strict enc m (despecialize t) p v <-> holds T K strict enc m t p v.
Proof.
  destruct t; intros p v; try reflexivity; cbn [despecialize holds].
  - rewrite (map_itoa_fields (fun t => (sp_layout t, holds T K strict enc m t))). reflexivity.
  - rewrite map_enum_cases. reflexivity.
  - rewrite map_itoa_cases. reflexivity.
Qed.

Lemma addressable_despecialize : forall enc m t p, addressable enc m (despecialize t) p <-> addressable enc m t p.
Proof.
  destruct t; intros p; try reflexivity; cbn [despecialize addressable].
  - rewrite (map_itoa_fields (fun t => (sp_layout t, addressable enc m t))). reflexivity.
  - rewrite map_enum_cases. reflexivity.
  - rewrite map_itoa_cases. reflexivity.
Qed.

Lemma readable_despecialize : forall enc m t p, readable enc m (despecialize t) p <-> readable enc m t p.
Proof. intros. split; intros [v H]; exists v; [apply -> holds_despecialize in H|apply <- holds_despecialize in H]; exact H. Qed.

(** ** Helpers *)
Lemma Forall2_map_l : forall {A B C} (f : A -> B) (R : B -> C -> Prop) l l',
  Forall2 R (map f l) l' <-> Forall2 (fun x y => R (f x) y) l l'.
Proof.
  intros A B C f R. induction l as [|x l IH]; intros l'; cbn [map].
  - split; intros H; inversion H; constructor.
  - split; intros H; inversion H; subst; constructor; auto; apply IH; assumption.
Qed.

Lemma Forall2_mono : forall {A B} (R R' : A -> B -> Prop) l l', Forall2 R l l' ->
  (forall x y, In x l -> R x y -> R' x y) -> Forall2 R' l l'.
Proof. intros A B R R' l l' H. induction H; intros I; constructor; [apply I; [left; reflexivity|assumption]|]. apply IHForall2. intros. apply I; [right|]; assumption. Qed.

Lemma payload_types_map : forall {A B C} (f : A -> B) (g : B -> C) (cs : list (caseOf A)),
  map g (payload_types (map (map_case f) cs)) = payload_types (map (map_case (fun x => g (f x))) cs).
Proof.
  intros A B C f g cs. unfold payload_types. induction cs as [|c cs IH]; [reflexivity|].
  cbn [map flat_map]. rewrite map_app, IH. cbn [map_case c_type]. destruct (c_type c); reflexivity.
Qed.

Lemma slice_bytes_at : forall m p n, wf_mem m -> p + n <= m_len m -> slice m p n = bytes_at m p n.
Proof.
  intros m p n Hm H. unfold bytes_at. apply (nth_ext _ _ 0 0).
  - rewrite slice_length, map_length, seq_length by assumption. reflexivity.
  - rewrite slice_length by assumption. intros i Hi.
    rewrite (nth_indep (map _ _) 0 (byte m (p + N.of_nat 0)))
      by (rewrite map_length, seq_length; exact Hi).
    rewrite (map_nth (fun k => byte m (p + N.of_nat k))), seq_nth by exact Hi.
    unfold slice. rewrite nth_slice by exact Hi. unfold byte. f_equal. lia.
Qed.

Lemma number_load : forall k p s, good s -> p + k <= len s -> load_uint k p s = (Ok (number (s_mem s) p (N.to_nat k)), s).
Proof. intros k p s Hg H. rewrite <- (N2Nat.id k) at 1. apply load_number; [exact Hg|]. rewrite N2Nat.id. exact H. Qed.

Lemma number_u32 : forall p s, good s -> p + 4 <= len s -> load_u32 p s = (Ok (number (s_mem s) p 4), s).
Proof. intros p s Hg H. apply load_u32_uint. apply (number_load 4); assumption. Qed.

Lemma number_u64 : forall p s, good s -> p + 8 <= len s -> load_u64 p s = (Ok (number (s_mem s) p 8), s).
Proof. intros p s Hg H. apply load_u64_uint. apply (number_load 8); assumption. Qed.

Lemma twos_signed : forall w n, 0 < w -> n < 2 ^ w -> twos w n (to_signed (2 ^ w) n).
Proof.
  intros w n Hw Hn.
  assert (E : 2 ^ w = 2 * 2 ^ (w - 1)) by (rewrite <- N.pow_succ_r'; f_equal; lia).
  assert (P : 0 < 2 ^ (w - 1)) by (apply N.neq_0_lt_0, N.pow_nonzero; lia).
  assert (Z1 : (2 ^ (Z.of_N w - 1))%Z = Z.of_N (2 ^ (w - 1))) by (rewrite N2Z.inj_pow; f_equal; lia).
  assert (Z2 : (2 ^ Z.of_N w)%Z = Z.of_N (2 ^ w)) by (rewrite N2Z.inj_pow; reflexivity).
  unfold twos, signed_range. rewrite Z1, Z2. unfold to_signed. rewrite (N.mod_small n) by exact Hn.
  rewrite E in *. destruct (N.ltb_spec (2 * n) (2 * 2 ^ (w - 1))).
  - split; [lia|]. rewrite Z.mod_small; lia.
  - split; [lia|]. rewrite <- (Z_mod_plus_full _ 1), Z.mod_small; lia.
Qed.

Lemma twos_fun : forall w n z z', 0 < w -> twos w n z -> twos w n z' -> z = z'.
Proof.
  intros w n z z' Hw [R E] [R' E']. unfold signed_range in *.
  assert (Z3 : (2 ^ Z.of_N w = 2 * 2 ^ (Z.of_N w - 1))%Z) by (rewrite <- Z.pow_succ_r by lia; f_equal; lia).
  rewrite <- E' in E. rewrite Z3 in E. set (h := (2 ^ (Z.of_N w - 1))%Z) in *.
  assert (H : ((z - z') mod (2 * h) = 0)%Z).
  { rewrite Zminus_mod, E, Z.sub_diag. apply Z.mod_0_l. lia. }
  apply Z.mod_divide in H; [|lia]. destruct H as [k Hk]. assert (k = 0)%Z by nia. subst k. lia.
Qed.

(** What the format of a record and of a variant says of their components. *)
Lemma holds_record : forall T K strict enc m fs p v, holds T K strict enc m (TRecord fs) p v <->
  exists fields ls, v = VMap fields /\ all_some (map (fun f => sp_layout (snd f)) fs) = Some ls /\
    Forall2 (fun f o => exists x, map_get fields (fst f) = Some x /\ holds T K strict enc m (snd f) (p + o) x) fs (field_offsets 0 ls) /\
    (forall l, map_get fields l <> None -> In l (map fst fs)).
Proof.
  intros. cbn [holds]. unfold rec_holds.
  assert (E1 : map (fun f : string * part => fst (snd f))
    (map (fun f : string * valtype => (fst f, (sp_layout (snd f), holds T K strict enc m (snd f)))) fs) = map (fun f => sp_layout (snd f)) fs)
    by (rewrite map_map; reflexivity).
  assert (E2 : map fst (map (fun f : string * valtype => (fst f, (sp_layout (snd f), holds T K strict enc m (snd f)))) fs) = map fst fs)
    by (rewrite map_map; reflexivity).
  split; intros (fields & ls & Ev & El & HF & HD); exists fields, ls; (split; [exact Ev|]).
  - rewrite E1 in El. split; [exact El|]. split; [apply Forall2_map_l in HF; exact HF|]. rewrite E2 in HD. exact HD.
  - rewrite E1. split; [exact El|]. split; [apply Forall2_map_l; exact HF|]. rewrite E2. exact HD.
Qed.

Definition parts T K strict enc m (cs : list (caseOf valtype)) : list (caseOf part) :=
  map (map_case (fun t => (sp_layout t, holds T K strict enc m t))) cs.

Lemma holds_variant : forall (T : codec -> list N -> list N -> Prop) (K : forall A, list (caseOf A) -> nat -> string -> Prop)
    strict enc m cs p v, holds T K strict enc m (TVariant cs) p v <->
  exists d ls i c key x, v = VMap [(key, x)] /\ disc_size (List.length cs) = Some d /\
    all_some (payload_types (map (map_case sp_layout) cs)) = Some ls /\
    number m p (N.to_nat d) = N.of_nat i /\ nth_error cs i = Some c /\ K _ (parts T K strict enc m cs) i key /\
    match c_type c with
    | Some t => holds T K strict enc m t (p + payload_offset d ls) x
    | None => x = VNil
    end.
Proof.
  intros. cbn [holds]. fold (parts T K strict enc m cs). unfold var_holds.
  assert (E1 : List.length (parts T K strict enc m cs) = List.length cs) by apply map_length.
  assert (E2 : map fst (payload_types (parts T K strict enc m cs)) = payload_types (map (map_case sp_layout) cs))
    by apply (payload_types_map (fun t => (sp_layout t, holds T K strict enc m t)) fst).
  rewrite E1, E2. split.
  - intros (d & ls & i & c & key & x & Ev & Ed & El & En & Ec & Hk & Hx).
    unfold parts in Ec. rewrite nth_error_map in Ec. destruct (nth_error cs i) as [c0|] eqn:E0; [|discriminate].
    cbn in Ec. injection Ec as <-. cbn in Hx. exists d, ls, i, c0, key, x. repeat (split; [assumption|]).
    destruct (c_type c0); exact Hx.
  - intros (d & ls & i & c & key & x & Ev & Ed & El & En & Ec & Hk & Hx).
    exists d, ls, i, (map_case (fun t => (sp_layout t, holds T K strict enc m t)) c), key, x. repeat (split; [assumption|]).
    split; [unfold parts; rewrite nth_error_map, Ec; reflexivity|]. split; [exact Hk|].
    cbn. destruct (c_type c); exact Hx.
Qed.

Lemma addressable_variant : forall enc m cs p, addressable enc m (TVariant cs) p ->
  forall d ls i c t, disc_size (List.length cs) = Some d ->
    all_some (payload_types (map (map_case sp_layout) cs)) = Some ls ->
    number m p (N.to_nat d) = N.of_nat i -> nth_error cs i = Some c -> c_type c = Some t ->
    addressable enc m t (p + payload_offset d ls).
Proof.
  intros enc m cs p H d ls i c t Ed El En Ec Et. cbn [addressable] in H. unfold var_addressable in H.
  rewrite map_length, (payload_types_map (fun t => (sp_layout t, addressable enc m t)) fst) in H.
  specialize (H d ls (map_case (fun t => (sp_layout t, addressable enc m t)) c) Ed El).
  rewrite En, Nat2N.id, nth_error_map, Ec in H. specialize (H eq_refl). cbn in H. rewrite Et in H. exact H.
Qed.

(** ** The label of a loaded case *)
Lemma label_loop_full : forall {A} fuel (cs : list (caseOf A)) c l0 ls l,
  label_loop fuel cs c (String.concat "|" (l0 :: ls)) = Ok l ->
  exists rest, refinement_labels cs c (c_label c :: rest) /\ l = String.concat "|" (l0 :: ls ++ rest).
Proof.
  induction fuel as [|fuel IH]; intros cs c l0 ls l H; [discriminate|].
  rewrite label_loop_refined in H. destruct (refined cs c) as [c'|] eqn:E.
  - rewrite concat_app_bar in H. apply IH in H. destruct H as (rest & Hr & ->).
    exists (c_label c' :: rest). split; [eapply rl_step; eassumption|]. rewrite <- app_assoc. reflexivity.
  - inversion H; subst. exists []. split; [apply rl_stop; assumption|]. rewrite app_nil_r. reflexivity.
Qed.

Lemma case_label_full : forall {A} (cs : list (caseOf A)) c i l, nth_error cs i = Some c ->
  case_label c cs = Ok l -> full_label cs i l.
Proof.
  intros A cs c i l Hi H. apply (label_loop_full _ cs c (c_label c) []) in H.
  destruct H as (rest & Hr & ->). exists c, (c_label c :: rest). auto.
Qed.

Lemma full_selects : forall {A} (cs : list (caseOf A)) i l,
  Forall (fun c => bar_free (c_label c)) cs -> full_label cs i l -> selects (map c_label cs) l i.
Proof.
  intros A cs i l Hb (c & ls & Hi & Hr & ->).
  assert (X : forall c ls, refinement_labels cs c ls -> In c cs -> Forall bar_free ls).
  { clear -Hb. intros c ls H. rewrite Forall_forall in Hb.
    induction H as [c E|c c' ls E H IH]; intros Hin; constructor; auto.
    apply IH. eapply refined_in; eassumption. }
  pose proof (nth_error_In _ _ Hi) as Hin. specialize (X _ _ Hr Hin).
  assert (Y : exists rest, ls = c_label c :: rest) by (inversion Hr; eauto).
  destruct Y as [rest ->]. exists [], (c_label c), rest. split; [reflexivity|]. split; [assumption|].
  split; [constructor|]. rewrite nth_error_map, Hi. reflexivity.
Qed.

(** ** Loading *)

(** [m] reads a value of [H], or traps because [R] fails; the state stays. *)
Definition decided {A} (m : M A) (s : state) (H : A -> Prop) (R : Prop) : Prop :=
  (exists v, m s = (Ok v, s) /\ H v) \/ (m s = (Err ETrap, s) /\ ~ R).

Definition reads_ok (cx : callctx) (t : valtype) : Prop :=
  forall a sz p s, sp_layout t = Some (a, sz) -> wf_type t -> handle_free t -> cx_enc cx <> EncUnknown ->
  good s -> (a | p) -> p + sz <= len s -> addressable (cx_enc cx) (s_mem s) t p ->
  decided (load cx t p) s (reads_as (cx_enc cx) (s_mem s) t p) (readable (cx_enc cx) (s_mem s) t p).

Lemma decided_ok : forall {A} (m : M A) s v (H : A -> Prop) R, m s = (Ok v, s) -> H v -> decided m s H R.
Proof. intros. left. eauto. Qed.

Lemma decided_trap : forall {A} (m : M A) s (H : A -> Prop) (R : Prop), m s = (Err ETrap, s) -> ~ R -> decided m s H R.
Proof. intros. right. auto. Qed.

Lemma decide_text : forall cx st w s, cx_enc cx <> EncUnknown -> good s -> st < two32 -> w < two32 ->
  string_addressable (cx_enc cx) st w ->
  decided (load_string_from_range cx st w) s (string_at decodes (cx_enc cx) (s_mem s) st w)
    (exists v, string_at (fun _ _ _ => True) (cx_enc cx) (s_mem s) st w v).
Proof.
  intros cx st w s He Hg B1 B2 [Had Hwrap].
  assert (Hlt : len s < two32) by apply Hg.
  unfold decided, string_at.
  (* the form of the text *)
  assert (F : exists c n, text_form (cx_enc cx) w = Some (c, n) /\ n < 2 ^ 31 /\
    load_string_from_range cx st w s
    = (let* _ := check_aligned ETrap st (codec_alignment c) in
       check_bounds ETrap st (mul32 n (codec_rune_size c)) ;;
       let* m := get_mem in
       let* bs := lift_o (mem_slice m st (add32 st (mul32 n (codec_rune_size c)))) in
       let* s := lift_o (decode_string c bs) in
       ret (VStr s)) s).
  { assert (T : forall b u, w = tagged_to_u32 (mkTagged u b) -> u < 2 ^ 31 -> u32_to_tagged w = mkTagged u b)
      by (intros b u -> Hu; apply tag_bits; exact Hu).
    destruct (N.ltb_spec w (2 ^ 31)) as [Hw|Hw].
    - pose proof (T false w eq_refl Hw) as Et. unfold load_string_from_range. rewrite Et. cbn [tcu_units tcu_utf16].
      destruct (cx_enc cx); try congruence; cbn [get_codec text_form];
        try (destruct (N.ltb_spec w (2 ^ 31)); [|lia]); do 2 eexists; (split; [reflexivity|]); (split; [exact Hw|reflexivity]).
    - destruct Had as [Ee|Hw']; [|lia]. rewrite Ee. cbn [text_form].
      destruct (N.ltb_spec w (2 ^ 31)); [lia|]. exists (CUtf16 false), (w - 2 ^ 31).
      assert (Hu : w - 2 ^ 31 < 2 ^ 31) by (unfold two32 in B2; change (2 ^ 31) with 2147483648 in *; lia).
      split; [reflexivity|]. split; [exact Hu|].
      assert (Ew : w = tagged_to_u32 (mkTagged (w - 2 ^ 31) true)).
      { unfold tagged_to_u32. cbn [tcu_utf16 tcu_units]. change utf16_tag with (2 ^ 31).
        assert (D : N.land (w - 2 ^ 31) (2 ^ 31) = 0).
        { apply N.bits_inj. intros i. rewrite N.land_spec, N.pow2_bits_eqb, N.bits_0.
          destruct (N.eqb_spec 31 i) as [<-|]; [rewrite (bit31 _ Hu) by lia; reflexivity|apply andb_false_r]. }
        rewrite <- N.lxor_lor by exact D. rewrite <- N.add_nocarry_lxor by exact D. lia. }
      pose proof (T true _ Ew Hu) as Et. unfold load_string_from_range. rewrite Et, Ee. reflexivity. }
  destruct F as (c & n & Ef & Hn & ->). specialize (Hwrap c n Ef). change (2 ^ 32) with two32 in Hwrap. rewrite Ef.
  assert (Ec : codec_rune_size c = N.of_nat (unit_width c)) by (destruct c; reflexivity).
  assert (Ea : codec_alignment c = text_align c) by (destruct c; reflexivity).
  assert (Hsz : n * codec_rune_size c < two32).
  { change (2 ^ 31) with 2147483648 in Hn. unfold two32. destruct c; cbn [codec_rune_size]; lia. }
  assert (Em : mul32 n (codec_rune_size c) = n * codec_rune_size c) by (unfold mul32; apply N.mod_small; exact Hsz).
  rewrite Em, Ea.
  destruct (N.eq_dec (st mod text_align c) 0) as [Hal|Hal].
  2:{ apply decided_trap.
      - unfold bind. rewrite check_aligned_bad; [reflexivity|rewrite <- Ea; apply codec_alignment_valid|].
        intros D. apply Hal. apply N.mod_divide; [destruct c; discriminate|exact D].
      - intros (v & c' & n' & s0 & _ & E & D & _). injection E as <- <-.
        apply Hal. apply N.mod_divide; [destruct c; discriminate|exact D]. }
  apply N.mod_divide in Hal; [|destruct c; discriminate].
  assert (CA : check_aligned ETrap st (text_align c) s = (Ok tt, s)).
  { apply check_aligned_ok; [rewrite <- Ea; apply codec_alignment_valid|exact B1|exact Hal]. }
  destruct (N.leb_spec (st + n * codec_rune_size c) (len s)) as [Hin|Hout].
  - apply decided_ok with (v := VStr (match decode_string c (slice (s_mem s) st (n * codec_rune_size c)) with Ok x => x | _ => [] end)).
    + erewrite bind_ok; [|exact CA]. unfold check_bounds. erewrite bind_ok.
      2:{ erewrite bind_ok; [|reflexivity]. rewrite mem_len32_ok by assumption. unfold add32. rewrite N.mod_small by lia.
          destruct (N.ltb_spec (len s) (st + n * codec_rune_size c)); [lia|reflexivity]. }
      erewrite bind_ok; [|reflexivity]. rewrite mem_slice_ok by (assumption || exact Hin).
      rewrite bind_lift_ok. destruct c; reflexivity.
    + exists c, n. eexists. split; [reflexivity|]. split; [reflexivity|]. cbn zeta. split; [exact Hal|].
      rewrite <- Ec. split; [exact Hin|]. rewrite <- slice_bytes_at by (exact Hg || exact Hin).
      set (bs := slice (s_mem s) st (n * codec_rune_size c)).
      assert (Hd : exists x, decode_string c bs = Ok x) by (destruct c; cbn; eauto). destruct Hd as [x Hd]. rewrite Hd.
      split.
      * destruct (decode_text c bs x) as (cs & -> & Hcs); [apply slice_bytes; exact Hg|exact Hd|]. exists cs. auto.
      * intros s' (cs & Hcs & Hex & Eb & ->). rewrite Eb in Hd.
        assert (D : decode_string c (text_bytes c cs) = Ok (utf8_text cs)).
        { unfold decode_string. destruct c as [|big|]; cbn [text_bytes].
          - rewrite utf8_runes_text, utf8_encode_spec by assumption. reflexivity.
          - assert (Et : utf16_encode big cs = text_bytes (CUtf16 big) cs) by (destruct big; reflexivity).
            cbn [text_bytes] in Et. rewrite <- Et, utf16_decode_encode, utf8_encode_spec by assumption. reflexivity.
          - rewrite utf8_encode_spec by assumption. reflexivity. }
        congruence.
  - apply decided_trap.
    + erewrite bind_ok; [|exact CA]. unfold check_bounds, bind, get_mem. rewrite mem_len32_ok by assumption.
      unfold add32. rewrite N.mod_small by (rewrite Ec; exact Hwrap).
      destruct (N.ltb_spec (len s) (st + n * codec_rune_size c)); [reflexivity|lia].
    + intros (v & c' & n' & s0 & _ & E & _ & B & _). injection E as <- <-. rewrite <- Ec in B. unfold len in Hout. lia.
Qed.

Lemma decide_string : forall cx, reads_ok cx TString.
Proof.
  intros cx a sz p s Hl _ _ He Hg _ Hp Had. injection Hl as <- <-. cbn [addressable] in Had.
  assert (Hlt : len s < two32) by apply Hg.
  pose proof (number_lt 4 (s_mem s) p Hg) as B1. pose proof (number_lt 4 (s_mem s) (p + 4) Hg) as B2.
  change (256 ^ N.of_nat 4) with two32 in B1, B2.
  assert (LD : load cx TString p s = load_string_from_range cx (number (s_mem s) p 4) (number (s_mem s) (p + 4) 4) s).
  { cbn [load]. unfold load_string. erewrite bind_ok; [|apply number_u32; [exact Hg|lia]].
    replace (add32 p 4) with (p + 4) by (unfold add32; rewrite N.mod_small; lia).
    erewrite bind_ok; [|apply number_u32; [exact Hg|lia]]. reflexivity. }
  pose proof (decide_text cx _ _ s He Hg B1 B2 Had) as D. unfold decided in *. rewrite LD. exact D.
Qed.

(** Elements of a list. *)
Lemma decide_elems : forall ld base sz bound s (H : N -> any -> Prop) (R : N -> Prop) n i,
  base + bound < two32 -> (i + N.of_nat n) * sz <= bound ->
  (forall k, i <= k < i + N.of_nat n -> decided (ld (base + k * sz)) s (H k) (R k)) ->
  (exists l, load_elems n ld base sz i s = (Ok l, s) /\ List.length l = n /\
     forall k x, nth_error l k = Some x -> H (i + N.of_nat k) x)
  \/ (load_elems n ld base sz i s = (Err ETrap, s) /\ exists k, i <= k < i + N.of_nat n /\ ~ R k).
Proof.
  intros ld base sz bound s H R n. induction n as [|n IH]; intros i Hb Hn Hd.
  - left. exists []. split; [reflexivity|]. split; [reflexivity|]. intros [|k] x E; discriminate.
  - assert (Hi : i * sz + sz <= bound) by nia.
    destruct (elem_addr base i sz bound Hi Hb) as [_ E]. cbn [load_elems]. rewrite E.
    destruct (Hd i ltac:(lia)) as [(v & Ev & Hv)|(Ev & Hv)].
    + destruct (IH (i + 1)) as [(l & El & Hlen & Hl)|(El & k & Hk & Hr)]; [lia|nia|intros; apply Hd; lia| |].
      * left. exists (v :: l). split; [|split; [cbn; lia|]].
        -- erewrite bind_ok; [|exact Ev]. erewrite bind_ok; [|exact El]. reflexivity.
        -- intros [|k] x Ek; cbn in Ek; [injection Ek as <-; replace (i + N.of_nat 0) with i by lia; exact Hv|].
           replace (i + N.of_nat (S k)) with (i + 1 + N.of_nat k) by lia. apply Hl. exact Ek.
      * right. split; [|exists k; split; [lia|exact Hr]].
        erewrite bind_ok; [|exact Ev]. unfold bind. rewrite El. reflexivity.
    + right. split; [unfold bind; rewrite Ev; reflexivity|]. exists i. split; [lia|exact Hv].
Qed.

Lemma decide_items : forall cx t a sz st n s, reads_ok cx t -> sp_layout t = Some (a, sz) -> wf_type t -> handle_free t ->
  cx_enc cx <> EncUnknown -> good s -> st < two32 ->
  list_addressable (sp_layout t, addressable (cx_enc cx) (s_mem s) t) st n ->
  decided (load_list_from_range (Ok a) (Ok sz) (load cx t) st n) s
    (list_at (s_mem s) (sp_layout t, reads_as (cx_enc cx) (s_mem s) t) st n)
    (exists v, list_at (s_mem s) (sp_layout t, holds (fun _ _ _ => True) (fun _ _ _ _ => True) False (cx_enc cx) (s_mem s) t) st n v).
Proof.
  intros cx t a sz st n s IH Hlt Hwf Hh He Hg B1 Had. specialize (Had a sz Hlt). cbn [snd] in Had. destruct Had as [Hwrap Had].
  assert (Hlen : len s < two32) by apply Hg.
  destruct (sp_layout_facts _ _ _ Hlt) as (Ha & Hva & Hdv & _).
  change (2 ^ 32) with two32 in Hwrap. unfold decided, list_at. cbn [fst snd].
  unfold load_list_from_range. rewrite bind_lift_ok.
  destruct (N.eq_dec (st mod a) 0) as [Hal|Hal].
  2:{ apply decided_trap.
      - unfold bind. rewrite check_aligned_bad; [reflexivity|exact Hva|].
        intros D. apply Hal. apply N.mod_divide; [apply valid_align_nz in Hva; lia|exact D].
      - intros (v & a' & sz' & l & _ & E & _ & D & _). assert (a' = a) as -> by congruence.
        apply Hal. apply N.mod_divide; [apply valid_align_nz in Hva; lia|exact D]. }
  apply N.mod_divide in Hal; [|apply valid_align_nz in Hva; lia].
  assert (CA : check_aligned ETrap st a s = (Ok tt, s)) by (apply check_aligned_ok; assumption).
  assert (Em : mul32 n sz = n * sz) by (unfold mul32; apply N.mod_small; lia).
  destruct (N.leb_spec (st + n * sz) (len s)) as [Hin|Hout].
  - assert (CB : check_bounds ETrap st (mul32 n sz) s = (Ok tt, s)).
    { rewrite Em. unfold check_bounds. erewrite bind_ok; [|reflexivity]. rewrite mem_len32_ok by assumption.
      unfold add32. rewrite N.mod_small by lia. destruct (N.ltb_spec (len s) (st + n * sz)); [lia|reflexivity]. }
    destruct (decide_elems (load cx t) st sz (n * sz) s
       (fun k => reads_as (cx_enc cx) (s_mem s) t (st + k * sz)) (fun k => readable (cx_enc cx) (s_mem s) t (st + k * sz))
       (N.to_nat n) 0) as [(l & El & Hll & Hx)|(El & k & Hk & Hr)]; [lia|lia| | |].
    { intros k Hk. apply (IH a sz); try assumption; [| |apply Had; lia].
      - apply N.divide_add_r; [exact Hal|]. apply N.divide_mul_r. exact Hdv.
      - nia. }
    + apply decided_ok with (v := VList l).
      * erewrite bind_ok; [|exact CA]. rewrite bind_lift_ok. erewrite bind_ok; [|exact CB].
        erewrite bind_ok; [|exact El]. reflexivity.
      * exists a, sz, l. split; [reflexivity|]. split; [exact Hlt|]. cbn zeta.
        replace (N.of_nat (List.length l)) with n by lia. split; [reflexivity|]. split; [exact Hal|]. split; [exact Hin|].
        intros i x E. apply Hx in E. exact E.
    + apply decided_trap.
      * erewrite bind_ok; [|exact CA]. rewrite bind_lift_ok. erewrite bind_ok; [|exact CB].
        unfold bind. rewrite El. reflexivity.
      * intros (v & a' & sz' & l & _ & E & El' & _ & _ & Hall). assert (sz' = sz) as -> by congruence.
        apply Hr. cbn zeta in *. destruct (nth_error l (N.to_nat k)) as [x|] eqn:Ex.
        -- exists x. specialize (Hall _ _ Ex). rewrite N2Nat.id in Hall. exact Hall.
        -- apply nth_error_None in Ex. lia.
  - apply decided_trap.
    + erewrite bind_ok; [|exact CA]. rewrite bind_lift_ok, Em. unfold check_bounds, bind, get_mem.
      rewrite mem_len32_ok by assumption. unfold add32. rewrite N.mod_small by lia.
      destruct (N.ltb_spec (len s) (st + n * sz)); [reflexivity|lia].
    + intros (v & a' & sz' & l & _ & E & El' & _ & B & _). assert (sz' = sz) as -> by congruence.
      cbn zeta in *. rewrite El' in B. unfold len in Hout. lia.
Qed.

Lemma decide_list : forall cx t, reads_ok cx t -> reads_ok cx (TList t).
Proof.
  intros cx t IH a sz p s Hl Hwf Hh He Hg _ Hp Had. injection Hl as <- <-.
  destruct Hwf as [Hwf (a & sz & Hlt & Hsz)]. cbn [addressable] in Had.
  assert (Hlen : len s < two32) by apply Hg.
  pose proof (number_lt 4 (s_mem s) p Hg) as B1. change (256 ^ N.of_nat 4) with two32 in B1.
  destruct (sp_layout_facts _ _ _ Hlt) as (Ha & Hva & Hdv & Hs). specialize (Hs Hsz).
  assert (LD : load cx (TList t) p s = load_list_from_range (Ok a) (Ok sz) (load cx t) (number (s_mem s) p 4) (number (s_mem s) (p + 4) 4) s).
  { cbn [load]. unfold load_list. rewrite Ha, Hs. erewrite bind_ok; [|apply number_u32; [exact Hg|lia]].
    replace (add32 p 4) with (p + 4) by (unfold add32; rewrite N.mod_small; lia).
    erewrite bind_ok; [|apply number_u32; [exact Hg|lia]]. reflexivity. }
  pose proof (decide_items cx t a sz _ _ s IH Hlt Hwf Hh He Hg B1 Had) as D. unfold decided in *. rewrite LD. exact D.
Qed.

(** Fields of a record. *)
Lemma decide_fields : forall cx s fs ls pos base acc,
  Forall (fun f => reads_ok cx (snd f)) fs -> NoDup (map fst fs) -> Forall (fun f => wf_type (snd f)) fs ->
  Forall (fun f => handle_free (snd f)) fs -> cx_enc cx <> EncUnknown -> good s ->
  all_some (map (fun f => sp_layout (snd f)) fs) = Some ls ->
  Forall (fun l : layout => (fst l | base)) ls -> base + fields_end pos ls <= len s ->
  Forall2 (fun f o => addressable (cx_enc cx) (s_mem s) (snd f) (base + o)) fs (field_offsets pos ls) ->
  (exists mp, load_at (map (fun f => (fst f, load cx (snd f))) fs) (map (N.add base) (field_offsets pos ls)) acc s = (Ok mp, s) /\
     Forall2 (fun f o => exists x, map_get mp (fst f) = Some x /\ reads_as (cx_enc cx) (s_mem s) (snd f) (base + o) x)
       fs (field_offsets pos ls) /\
     forall l, ~ In l (map fst fs) -> map_get mp l = map_get acc l)
  \/ (load_at (map (fun f => (fst f, load cx (snd f))) fs) (map (N.add base) (field_offsets pos ls)) acc s = (Err ETrap, s) /\
      ~ Forall2 (fun f o => readable (cx_enc cx) (s_mem s) (snd f) (base + o)) fs (field_offsets pos ls)).
Proof.
  intros cx s fs. induction fs as [|[l t] fs IH]; intros ls pos base acc Hrd Hnd Hwf Hh He Hg Hs Hdv Hend Had.
  - cbn in Hs. injection Hs as <-. left. exists acc. split; [reflexivity|]. split; [constructor|reflexivity].
  - change (all_some (sp_layout t :: map (fun f => sp_layout (snd f)) fs) = Some ls) in Hs.
    cbn [all_some] in Hs. destruct (sp_layout t) as [[a sz]|] eqn:Et; [|discriminate].
    destruct (all_some (map (fun f => sp_layout (snd f)) fs)) as [ls'|] eqn:El; [|discriminate]. injection Hs as <-.
    inversion Hrd as [|? ? Hrd1 Hrd2]; subst. inversion Hwf as [|? ? Hwf1 Hwf2]; subst.
    inversion Hh as [|? ? Hh1 Hh2]; subst. inversion Hnd as [|? ? Hnd1 Hnd2]; subst.
    inversion Hdv as [|? ? Hdv1 Hdv2]; subst. cbn [fst snd] in *.
    cbn [field_offsets] in *. inversion Had as [|? ? ? ? Had1 Had2]; subst.
    pose proof (all_some_valid snd fs ls' El) as Hv.
    destruct (sp_layout_facts _ _ _ Et) as (_ & Hva & _).
    cbn [fields_end] in Hend. pose proof (fields_end_ge ls' (up_to a pos + sz) Hv).
    cbn [map load_at fst snd].
    destruct (Hrd1 a sz (base + up_to a pos) s) as [(x & Ex & Hx)|(Ex & Hx)]; try assumption.
    { apply N.divide_add_r; [assumption|apply up_to_div]. }
    { lia. }
    + destruct (IH ls' (up_to a pos + sz) base (map_set acc l x)) as [(mp & Em & Hf & Ho)|(Em & Hf)]; try assumption; try reflexivity.
      * left. exists mp. split; [erewrite bind_ok; [|exact Ex]; exact Em|]. split.
        -- constructor; [|exact Hf]. exists x. split; [|exact Hx]. cbn [fst]. rewrite Ho by assumption.
           rewrite map_get_set, String.eqb_refl. reflexivity.
        -- intros q Hq. rewrite Ho by (intros X; apply Hq; right; exact X). rewrite map_get_set.
           destruct (String.eqb_spec q l) as [->|]; [exfalso; apply Hq; left; reflexivity|reflexivity].
      * right. split; [erewrite bind_ok; [|exact Ex]; exact Em|]. intros X. inversion X; subst. contradiction.
    + right. split; [unfold bind; rewrite Ex; reflexivity|]. intros X. inversion X; subst. contradiction.
Qed.

Lemma decide_record : forall cx fs, Forall (fun f => reads_ok cx (snd f)) fs -> reads_ok cx (TRecord fs).
Proof.
  intros cx fs H a sz p s Hl Hwf Hh He Hg Hd Hp Had.
  cbn [wf_type] in Hwf. destruct Hwf as [Hnd Hwt]. apply all_Forall in Hwt.
  assert (Hl' := Hl). cbn [sp_layout] in Hl'.
  destruct (all_some (map (fun f => sp_layout (snd f)) fs)) as [ls|] eqn:El; [|discriminate].
  assert (Hr : sp_record ls = (a, sz)) by (cbn [bindo] in Hl'; congruence).
  pose proof (all_some_valid snd fs ls El) as Hv. pose proof (sp_record_end ls Hv) as Hend. rewrite Hr in Hend. cbn [snd] in Hend.
  assert (Hdv : Forall (fun l : layout => (fst l | p)) ls).
  { apply fields_base_div; [assumption|]. replace (max_align ls) with a by (injection Hr; auto). assumption. }
  assert (Hlen : len s < two32) by apply Hg.
  cbn [addressable] in Had. unfold rec_addressable in Had. rewrite map_map in Had. specialize (Had ls El).
  rewrite Forall2_map_l in Had. cbn [fst snd] in Had.
  assert (Hh' : Forall (fun f => handle_free (snd f)) fs) by (apply all_Forall; exact Hh).
  destruct (decide_fields cx s fs ls 0 p []) as [(mp & Emp & Hf & Ho)|(Emp & Hf)]; try assumption; [lia| |].
  - apply decided_ok with (v := VMap mp).
    + rewrite (record_load_offsets cx fs ls) by (try assumption; rewrite Hr; cbn [fst snd]; try assumption; lia).
      erewrite bind_ok; [|exact Emp]. reflexivity.
    + apply holds_record. exists mp, ls. split; [reflexivity|]. split; [exact El|]. split.
      * exact Hf.
      * intros l Hl1. destruct (in_dec string_dec l (map fst fs)); [assumption|].
        rewrite Ho in Hl1 by assumption. cbn in Hl1. congruence.
  - apply decided_trap.
    + rewrite (record_load_offsets cx fs ls) by (try assumption; rewrite Hr; cbn [fst snd]; try assumption; lia).
      unfold bind. rewrite Emp. reflexivity.
    + intros (v & R). apply holds_record in R. destruct R as (fields & ls' & -> & El' & HF & _).
      assert (ls' = ls) as -> by congruence. apply Hf. eapply Forall2_mono; [exact HF|].
      cbn beta. intros f o _ (x & _ & Hx). exists x. exact Hx.
Qed.

Lemma decide_variant : forall cx cs, Forall (fun c => opt_all (reads_ok cx) (c_type c)) cs -> reads_ok cx (TVariant cs).
Proof.
  intros cx cs H a sz p s Hl Hwf Hh He Hg Hd Hp Had.
  cbn [wf_type] in Hwf. destruct Hwf as [(Hnd & Hbf & Hre) Hwt]. apply all_Forall in Hwt.
  assert (Hl' := Hl). cbn [sp_layout] in Hl'.
  destruct (all_some (payload_types (map (map_case sp_layout) cs))) as [ls|] eqn:El; [|discriminate].
  cbn [bindo] in Hl'. destruct (sp_variant_inv _ _ _ _ Hl') as (d & dt & Hdz & _ & _ & Hvd & Ea & Esz & Hcase & Hpos).
  destruct (variant_payload_placed _ _ _ _ _ El Hl Hdz) as (Hpo & _ & Hda & Hpl).
  destruct (sp_layout_facts _ _ _ Hl) as (Ha & Hva & _ & Hs).
  pose proof (up_to_ge a (payload_offset d ls + max_size ls) (valid_align_nz _ Hva)) as Hup.
  assert (Hlen : len s < two32) by apply Hg.
  assert (LD : load cx (TVariant cs) p s =
     (match nth_error cs (N.to_nat (number (s_mem s) p (N.to_nat d))) with
     | None => lift_o (Err ETrap)
     | Some c =>
         let* l := lift_o (case_label c cs) in
         let* v := match c_type c with
                   | None => ret VNil
                   | Some t => load cx t (p + payload_offset d ls)
                   end in
         ret (VMap [(l, v)])
     end) s).
  { rewrite (variant_load_offsets cx cs ls a sz d) by (assumption || lia).
    erewrite bind_ok; [|apply number_load; [exact Hg|lia]]. reflexivity. }
  unfold decided. rewrite LD. clear LD. set (i := N.to_nat (number (s_mem s) p (N.to_nat d))) in *.
  destruct (nth_error cs i) as [c|] eqn:Ei.
  2:{ apply decided_trap; [reflexivity|]. intros (v & R). apply holds_variant in R.
      destruct R as (d' & ls' & i' & c & key & x & -> & Ed & _ & Ein & Ec & _).
      assert (d' = d) as -> by congruence.
      assert (Eii : i' = i) by (unfold i; rewrite Ein; lia). rewrite Eii in Ec.
      rewrite Ei in Ec. discriminate. }
  assert (Hic : In c cs) by (eapply nth_error_In; exact Ei).
  assert (Hlab : exists l, case_label c cs = Ok l).
  { apply case_label_ends. rewrite Forall_forall in Hre. auto. }
  destruct Hlab as [l Hlab]. rewrite Hlab, bind_lift_ok.
  assert (Einum : number (s_mem s) p (N.to_nat d) = N.of_nat i) by (unfold i; lia).
  assert (RD : forall x, match c_type c with Some t => reads_as (cx_enc cx) (s_mem s) t (p + payload_offset d ls) x | None => x = VNil end ->
     reads_as (cx_enc cx) (s_mem s) (TVariant cs) p (VMap [(l, x)])).
  { intros x Hx. apply holds_variant. exists d, ls, i, c, l, x. repeat (split; [reflexivity || assumption|]). split.
    - eapply case_label_full; [unfold parts; rewrite nth_error_map, Ei; reflexivity|].
      unfold parts. rewrite case_label_map. exact Hlab.
    - destruct (c_type c); exact Hx. }
  pose proof (fun t E => addressable_variant _ _ _ _ Had d ls i c t Hdz El Einum Ei E) as Had'.
  destruct (c_type c) as [t|] eqn:Et.
  - destruct (payload_layout _ _ _ _ El Hic Et) as ([pa ps] & Hpt & _).
    destruct (Hpl c t pa ps Hic Et Hpt) as (Hpd & Hpa & Hin).
    rewrite Forall_forall in H. specialize (H c Hic). rewrite Et in H.
    rewrite Forall_forall in Hwt. specialize (Hwt c Hic). rewrite Et in Hwt.
    assert (Hh' : Forall (fun c => match c_type c with Some x => handle_free x | None => True end) cs) by (apply all_Forall; exact Hh).
    rewrite Forall_forall in Hh'. specialize (Hh' c Hic). rewrite Et in Hh'.
    destruct (H pa ps (p + payload_offset d ls) s) as [(x & Ex & Hx)|(Ex & Hx)]; try assumption; [| |apply Had'; reflexivity| |].
    { apply N.divide_add_r; [|assumption]. eapply N.divide_trans; eassumption. }
    { lia. }
    + apply decided_ok with (v := VMap [(l, x)]); [erewrite bind_ok; [|exact Ex]; reflexivity|]. apply RD. exact Hx.
    + apply decided_trap; [unfold bind; rewrite Ex; reflexivity|].
      intros (v & R). apply holds_variant in R. destruct R as (d' & ls' & i' & c0 & key & x & -> & Ed & Els & Ein & Ec & _ & Hp0).
      assert (d' = d) as -> by congruence. assert (ls' = ls) as -> by congruence.
      assert (Eii : i' = i) by (unfold i; rewrite Ein; lia). rewrite Eii in Ec.
      rewrite Ei in Ec. injection Ec as <-. rewrite Et in Hp0.
      apply Hx. exists x. exact Hp0.
  - apply decided_ok with (v := VMap [(l, VNil)]); [reflexivity|]. apply RD. reflexivity.
Qed.

Lemma canonicalize32_same : forall b, same_f32 b (canonicalize32 b).
Proof.
  intros b. unfold canonicalize32, same_f32, nan32. change (2 ^ 23) with 8388608. change (2 ^ 8) with 256.
  change (is_nan32 b) with ((b / 8388608 mod 256 =? 255) && negb (b mod 8388608 =? 0)).
  destruct (N.eqb_spec (b / 8388608 mod 256) 255), (N.eqb_spec (b mod 8388608) 0); cbn [andb negb]; [right|left|right|right]; split; try reflexivity; try tauto.
Qed.
Lemma canonicalize64_same : forall b, same_f64 b (canonicalize64 b).
Proof.
  intros b. unfold canonicalize64, same_f64, nan64. change (2 ^ 52) with 4503599627370496. change (2 ^ 11) with 2048.
  change (is_nan64 b) with ((b / 4503599627370496 mod 2048 =? 2047) && negb (b mod 4503599627370496 =? 0)).
  destruct (N.eqb_spec (b / 4503599627370496 mod 2048) 2047), (N.eqb_spec (b mod 4503599627370496) 0); cbn [andb negb]; [right|left|right|right]; split; try reflexivity; try tauto.
Qed.

Lemma scalar_rune : forall n, u32_to_rune n = Err ETrap /\ ~ scalar_value n \/ u32_to_rune n = Ok (Z.of_N n) /\ scalar_value n.
Proof.
  intros n. unfold u32_to_rune, scalar_value.
  destruct (N.leb_spec 1114112 n); [left; split; [reflexivity|lia]|].
  destruct (N.leb_spec 55296 n), (N.leb_spec n 57343); cbn [andb]; [left; split; [reflexivity|lia]|right..];
    (split; [|lia]); f_equal; unfold to_signed, two32; rewrite N.mod_small by lia;
    (destruct (N.ltb_spec (2 * n) 4294967296); [reflexivity|lia]).
Qed.

Lemma decide_char : forall cx, reads_ok cx TChar.
Proof.
  intros cx a sz p s Hl _ _ _ Hg _ Hp _. injection Hl as <- <-.
  assert (LD : load cx TChar p s = (let* r := lift_o (u32_to_rune (number (s_mem s) p 4)) in ret (VS32 r)) s).
  { cbn [load]. unfold load_char, load_int_with_size. cbn [N.eqb Pos.eqb load_int].
    unfold bind at 1. unfold bind at 1. rewrite number_load by assumption. reflexivity. }
  destruct (scalar_rune (number (s_mem s) p 4)) as [[E S]|[E S]].
  - apply decided_trap; [rewrite LD, E; reflexivity|]. intros (v & R). cbn [holds] in R. tauto.
  - eapply decided_ok; [rewrite LD, E; reflexivity|]. split; [reflexivity|exact S].
Qed.

Lemma decide_flags : forall cx ls, reads_ok cx (TFlags ls).
Proof.
  intros cx ls a sz p s Hl [Hnd H64] _ _ Hg Hd Hp _.
  destruct (flags_sizes _ _ _ Hl H64) as [Hsz Hbits].
  assert (Hlen : len s < two32) by apply Hg.
  destruct (sp_layout_facts _ _ _ Hl) as (_ & _ & _ & Hs). specialize (Hs ltac:(lia)).
  assert (Esz : snd (sp_flags (List.length ls)) = sz) by (cbn [sp_layout] in Hl; injection Hl as E; rewrite E; reflexivity).
  eapply decided_ok.
  - cbn [load]. unfold load_flags. change (size_flags ls) with (size (TFlags ls)). rewrite Hs, bind_lift_ok.
    assert (L : exists v, load_int_with_size p sz s = (Ok v, s) /\
       match v with VU8 n | VU16 n | VU32 n | VU64 n => n | _ => 0 end = number (s_mem s) p (N.to_nat sz)).
    { destruct Hsz as [->|[->|[->|[->| ->]]]]; unfold load_int_with_size; cbn [N.eqb Pos.eqb];
        [eexists; split; reflexivity|cbn [load_int]; eexists; (split; [erewrite bind_ok; [|apply number_load; assumption]; reflexivity|reflexivity])..]. }
    destruct L as (v & Ev & En). erewrite bind_ok; [|exact Ev]. cbn zeta. rewrite En. reflexivity.
  - unfold reads_as. cbn [holds]. eexists. split; [reflexivity|]. rewrite Esz. split.
    + intros i l Hi. apply unpack_bits; assumption.
    + split; [|intros []]. intros l Hl'. apply unpack_domain in Hl'. destruct Hl' as [|C]; [assumption|cbn in C; congruence].
Qed.

Lemma reads_ok_all : forall cx t, reads_ok cx t.
Proof.
  intros cx t. induction t using valtype_ind';
    [ | | | | | | | | | | |apply decide_char|apply decide_string|apply decide_list; assumption|apply decide_record; assumption
     |apply decide_variant; assumption|apply decide_flags| | | | ].
  all: try (intros ? ? p s Hl Hwf Hh He Hg Hd Hp Had; solve [destruct Hh]).
  all: try (intros a sz p s Hl _ _ _ Hg _ Hp _; injection Hl as <- <-;
    pose proof (number_lt 1 (s_mem s) p Hg) as B1; pose proof (number_lt 2 (s_mem s) p Hg) as B2;
    pose proof (number_lt 4 (s_mem s) p Hg) as B4; pose proof (number_lt 8 (s_mem s) p Hg) as B8;
    eapply decided_ok; [cbn [load load_int]; unfold bind; rewrite number_load by assumption; reflexivity|];
    first [reflexivity
      |eexists; split; [reflexivity|]; apply (twos_signed 8); [lia|assumption]
      |eexists; split; [reflexivity|]; apply (twos_signed 16); [lia|assumption]
      |eexists; split; [reflexivity|]; apply (twos_signed 32); [lia|assumption]
      |eexists; split; [reflexivity|]; apply (twos_signed 64); [lia|assumption]]).
  - intros a sz p s Hl _ _ _ Hg _ Hp _; injection Hl as <- <-.
    eapply decided_ok; [cbn [load]; unfold load_bool; cbn [load_int]; unfold bind; rewrite number_load by assumption; reflexivity|].
    eexists. split; [reflexivity|]. change (N.to_nat 1) with 1%nat. destruct (N.eqb_spec (number (s_mem s) p 1) 0) as [E|E]; cbn [negb]; (split; [|intros []]); split; [discriminate|intros C; contradiction|auto|auto].
  - intros a sz p s Hl _ _ _ Hg _ Hp _; injection Hl as <- <-.
    eapply decided_ok; [cbn [load]; unfold load_f32; unfold bind; rewrite number_u32 by assumption; reflexivity|].
    eexists. split; [reflexivity|]. split; [apply canonicalize32_same|intros []].
  - intros a sz p s Hl _ _ _ Hg _ Hp _; injection Hl as <- <-.
    eapply decided_ok; [cbn [load]; unfold load_f64; unfold bind; rewrite number_u64 by assumption; reflexivity|].
    eexists. split; [reflexivity|]. split; [apply canonicalize64_same|intros []].
  - intros al sz p s Hl Hwf Hh He Hg Hd Hp Had. rewrite <- sp_layout_despecialize in Hl.
    apply addressable_despecialize in Had. apply wf_despecialize in Hwf. apply handle_free_despecialize in Hh.
    destruct (IHt _ _ p s Hl Hwf Hh He Hg Hd Hp Had) as [(v & E & H1)|(E & H1)]; rewrite load_despecialize in E.
    + left. exists v. split; [exact E|]. apply holds_despecialize. exact H1.
    + right. split; [exact E|]. intros R. apply H1. apply readable_despecialize. exact R.
Qed.


(** ** What is read is what is held *)
Lemma same_f32_again : forall n b b', same_f32 n b -> same_f32 n b' -> same_f32 b b'.
Proof.
  intros n b b' [[N1 ->]|[N1 ->]] [[N2 ->]|[N2 ->]]; try contradiction.
  - left. split; [|reflexivity]. split; [reflexivity|discriminate].
  - right. auto.
Qed.
Lemma same_f64_again : forall n b b', same_f64 n b -> same_f64 n b' -> same_f64 b b'.
Proof.
  intros n b b' [[N1 ->]|[N1 ->]] [[N2 ->]|[N2 ->]]; try contradiction.
  - left. split; [|reflexivity]. split; [reflexivity|discriminate].
  - right. auto.
Qed.

Lemma holds_mono : forall (T T' : codec -> list N -> list N -> Prop)
    (K K' : forall A, list (caseOf A) -> nat -> string -> Prop) (strict strict' : Prop) enc m,
  (strict' -> strict) ->
  (forall c bs s, T c bs s -> T' c bs s) ->
  (forall A B (cs : list (caseOf A)) (cs' : list (caseOf B)) i k, K A cs i k -> K' B cs' i k) ->
  forall t p v, holds T K strict enc m t p v -> holds T' K' strict' enc m t p v.
Proof.
  intros T T' K K' strict strict' enc m HS HT HK t. induction t using valtype_ind'; intros p v Hv; try exact Hv.
  - destruct Hv as (b & -> & H1 & H2). exists b. auto.
  - destruct Hv as (b & -> & H1 & H2). exists b. auto.
  - destruct Hv as (b & -> & H1 & H2). exists b. auto.
  - cbn [holds] in *. destruct Hv as (c & n & s & -> & E & H1 & H2 & H3). exists c, n, s. repeat (split; [assumption||reflexivity|]). apply HT. exact H3.
  - cbn [holds] in *. destruct Hv as (a & sz & l & -> & E & Hn & Ha & Hb & Hall). exists a, sz, l.
    repeat (split; [assumption||reflexivity|]). intros i x E'. apply IHt. apply Hall. exact E'.
  - apply holds_record in Hv. apply holds_record. destruct Hv as (fields & ls & -> & El & HF & HD). exists fields, ls.
    repeat (split; [assumption||reflexivity|]). split; [|exact HD]. eapply Forall2_mono; [exact HF|]. cbn beta.
    intros f o Hin (x & Ex & Hx). exists x. split; [exact Ex|]. rewrite Forall_forall in H. apply (H f Hin). exact Hx.
  - apply holds_variant in Hv. apply holds_variant. destruct Hv as (d & ls & i & c & key & x & -> & Ed & El & En & Ec & Hk & Hx).
    exists d, ls, i, c, key, x. repeat (split; [assumption||reflexivity|]). split; [eapply HK; exact Hk|].
    rewrite Forall_forall in H. specialize (H c (nth_error_In _ _ Ec)). destruct (c_type c); [|exact Hx]. apply H. exact Hx.
  - destruct Hv as (fields & -> & H1 & H2 & H3). exists fields. auto 6.
  - apply holds_despecialize. apply IHt. apply holds_despecialize. exact Hv.
Qed.

Lemma canonically_exactly : forall enc m t p v, holds_canonically enc m t p v -> holds_exactly enc m t p v.
Proof.
  intros enc m t. unfold holds_canonically, holds_exactly. induction t using valtype_ind'; intros p v Hv; try exact Hv.
  - destruct Hv as (b & -> & H1 & H2). exists b. auto.
  - destruct Hv as (b & -> & H1 & H2). exists b. auto.
  - destruct Hv as (b & -> & H1 & H2). exists b. auto.
  - cbn [holds] in *. destruct Hv as (a & sz & l & -> & E & Hn & Ha & Hb & Hall). exists a, sz, l.
    repeat (split; [assumption||reflexivity|]). intros i x E'. apply IHt. apply Hall. exact E'.
  - apply holds_record in Hv. apply holds_record. destruct Hv as (fields & ls & -> & El & HF & HD). exists fields, ls.
    repeat (split; [assumption||reflexivity|]). split; [|exact HD]. eapply Forall2_mono; [exact HF|]. cbn beta.
    intros f o Hin (x & Ex & Hx). exists x. split; [exact Ex|]. rewrite Forall_forall in H. apply (H f Hin). exact Hx.
  - apply holds_variant in Hv. apply holds_variant. destruct Hv as (d & ls & i & c & key & x & -> & Ed & El & En & Ec & Hk & Hx).
    exists d, ls, i, c, key, x. repeat (split; [assumption||reflexivity|]).
    split; [unfold some_label, parts in *; rewrite map_case_label in *; exact Hk|].
    rewrite Forall_forall in H. specialize (H c (nth_error_In _ _ Ec)). destruct (c_type c); [|exact Hx]. apply H. exact Hx.
  - destruct Hv as (fields & -> & H1 & H2 & H3). exists fields. auto 6.
  - apply holds_despecialize. apply IHt. apply holds_despecialize. exact Hv.
Qed.

Lemma exactly_readable : forall enc m t p v, holds_exactly enc m t p v -> readable enc m t p.
Proof. intros enc m t p v H. exists v. unfold holds_exactly in H. eapply holds_mono; [| | |exact H]; auto. Qed.

Lemma reads_readable : forall enc m t p v, reads_as enc m t p v -> readable enc m t p.
Proof. intros enc m t p v H. exists v. unfold reads_as in H. eapply holds_mono; [| | |exact H]; auto. Qed.

Lemma Forall2_nth : forall {A B} (R : A -> B -> Prop) l l', List.length l = List.length l' ->
  (forall i x y, nth_error l i = Some x -> nth_error l' i = Some y -> R x y) -> Forall2 R l l'.
Proof.
  intros A B R l. induction l as [|x l IH]; intros [|y l'] E H; try discriminate; constructor.
  - apply (H 0%nat); reflexivity.
  - apply IH; [cbn in E; lia|]. intros i. apply (H (S i)).
Qed.

Lemma held_is_read : forall enc m t p v v', wf_type t -> holds_exactly enc m t p v -> reads_as enc m t p v' -> same_value t v v'.
Proof.
  intros enc m t. induction t using valtype_ind'; intros p v v' Hwf Hv Hv'; unfold holds_exactly, reads_as in *.
  all: try (cbn [holds] in *; contradiction).
  all: try (cbn [holds same_value] in *; congruence).
  - destruct Hv as (b & -> & Hb & _), Hv' as (b' & -> & Hb' & _). cbn. f_equal. destruct b, b'; try reflexivity.
    + exfalso. assert (X : false = true) by (apply Hb', Hb; reflexivity). discriminate.
    + exfalso. assert (X : false = true) by (apply Hb, Hb'; reflexivity). discriminate.
  - destruct Hv as (z & -> & Hz), Hv' as (z' & -> & Hz'). cbn. f_equal. exact (twos_fun 8 _ _ _ ltac:(lia) Hz' Hz).
  - destruct Hv as (z & -> & Hz), Hv' as (z' & -> & Hz'). cbn. f_equal. exact (twos_fun 16 _ _ _ ltac:(lia) Hz' Hz).
  - destruct Hv as (z & -> & Hz), Hv' as (z' & -> & Hz'). cbn. f_equal. exact (twos_fun 32 _ _ _ ltac:(lia) Hz' Hz).
  - destruct Hv as (z & -> & Hz), Hv' as (z' & -> & Hz'). cbn. f_equal. exact (twos_fun 64 _ _ _ ltac:(lia) Hz' Hz).
  - destruct Hv as (z & -> & Hz & _), Hv' as (z' & -> & Hz' & _). cbn. exists z, z'. repeat (split; [reflexivity|]). exact (same_f32_again _ _ _ Hz Hz').
  - destruct Hv as (z & -> & Hz & _), Hv' as (z' & -> & Hz' & _). cbn. exists z, z'. repeat (split; [reflexivity|]). exact (same_f64_again _ _ _ Hz Hz').
  - cbn [holds] in *. destruct Hv as [-> _], Hv' as [-> _]. reflexivity.
  - cbn [holds] in *. destruct Hv as (c & n & s & -> & E & H1 & H2 & H3), Hv' as (c' & n' & s' & -> & E' & H1' & H2' & H3').
    rewrite E in E'. injection E' as <- <-. cbn. f_equal. symmetry. apply H3'. exact H3.
  - cbn [holds wf_type] in *. destruct Hv as (a & sz & l & -> & E & Hn & Ha & Hb & Hall), Hv' as (a' & sz' & l' & -> & E' & Hn' & Ha' & Hb' & Hall').
    cbn [fst snd] in *.
    assert (sz' = sz) as -> by congruence. cbn [same_value]. exists l, l'. repeat (split; [reflexivity|]).
    apply Forall2_nth; [lia|]. intros i x y Ex Ey. eapply IHt; [apply Hwf|apply Hall; exact Ex|apply Hall'; exact Ey].
  - cbn [wf_type] in Hwf. destruct Hwf as [_ Hwf]. apply all_Forall in Hwf.
    apply holds_record in Hv. apply holds_record in Hv'. destruct Hv as (m1 & ls & -> & El & HF & HD), Hv' as (m2 & ls' & -> & El' & HF' & HD').
    assert (ls' = ls) as -> by congruence. cbn [same_value]. exists m1, m2. repeat (split; [reflexivity|]). split.
    + apply Forall_map. cbn [fst snd]. clear El El' HD HD'. revert HF HF' H Hwf. generalize (field_offsets 0 ls).
      induction fs as [|f fs IH]; intros os HF HF' H Hwf; [constructor|].
      inversion HF as [|? ? ? ? (x & Ex & Hx) HF1]; subst. inversion HF' as [|? ? ? ? (x' & Ex' & Hx') HF1']; subst.
      inversion H; subst. inversion Hwf; subst. constructor; [|eapply IH; eassumption].
      exists x, x'. repeat (split; [assumption|]). eauto.
    + rewrite map_map. exact HD'.
  - cbn [wf_type] in Hwf. destruct Hwf as [(Hnd & Hbf & Hre) Hwf]. apply all_Forall in Hwf.
    apply holds_variant in Hv. apply holds_variant in Hv'.
    destruct Hv as (d & ls & i & c & key & x & -> & Ed & El & En & Ec & Hk & Hx), Hv' as (d' & ls' & i' & c' & key' & x' & -> & Ed' & El' & En' & Ec' & Hk' & Hx').
    assert (d' = d) as -> by congruence. assert (ls' = ls) as -> by congruence. assert (i' = i) as -> by lia.
    assert (c' = c) as -> by congruence. cbn [same_value].
    exists key, x, key', x', i. eexists. repeat (split; [reflexivity|]). unfold some_label, parts in Hk.
    rewrite map_case_label in Hk. rewrite map_case_label.
    split; [exact Hk|]. split.
    + apply full_selects in Hk'; [unfold parts in Hk'; rewrite map_case_label in Hk'; exact Hk'|]. unfold parts. apply Forall_map. exact Hbf.
    + split; [rewrite nth_error_map, Ec; reflexivity|]. cbn [map_case c_type].
      pose proof (nth_error_In _ _ Ec) as Hin. rewrite Forall_forall in H, Hwf. specialize (H c Hin). specialize (Hwf c Hin).
      destruct (c_type c); [|exact Hx']. eapply H; eassumption.
  - cbn [holds] in *. destruct Hv as (m1 & -> & H1 & D1 & _), Hv' as (m2 & -> & H2 & D2 & _). cbn [same_value].
    exists m1, m2. repeat (split; [reflexivity|]). split.
    + apply Forall_map. apply Forall_forall. intros l Hin. apply In_nth_error in Hin. destruct Hin as [k Hk].
      eexists; eexists; split; [apply H1; exact Hk|split; [apply H2; exact Hk|reflexivity]].
    + rewrite map_map. cbn. rewrite map_id. exact D2.
  - apply same_value_despecialize. eapply IHt; [apply wf_despecialize; exact Hwf|apply holds_despecialize; exact Hv|apply holds_despecialize; exact Hv'].
Qed.

(** ** Storing *)
Lemma text_encoded : forall c cs, Forall scalar_value cs -> expressible c cs ->
  encode_string c (utf8_text cs) = Ok (text_bytes c cs).
Proof.
  intros c cs Hs He. unfold encode_string. rewrite sent_text, utf8_runes_text by assumption. destruct c as [|big|].
  - rewrite utf8_encode_spec by assumption. reflexivity.
  - destruct big; reflexivity.
  - unfold latin1_encode. replace (forallb latin1_ok cs) with true; [reflexivity|]. symmetry.
    apply forallb_forall. cbn [expressible] in He. rewrite Forall_forall in He. intros x Hx. apply N.ltb_lt. auto.
Qed.

(** The bytes of the text are in memory at the pointer. *)
Definition text_in (c : codec) (cs : list N) (a : N * N) (st : state) : Prop :=
  snd a < 2 ^ 31 /\ fst a + snd a * codec_rune_size c <= len st /\ (codec_alignment c | fst a) /\
  slice (s_mem st) (fst a) (snd a * codec_rune_size c) = text_bytes c cs.

Lemma puts_text : forall cx init cs c, correct_allocator cx init -> Forall scalar_value cs ->
  N.of_nat (List.length (utf8_text cs)) < 2 ^ 31 -> expressible c cs ->
  writes cx init 0 0 (store_string_dynamic cx (utf8_text cs) c) (text_in c cs).
Proof.
  intros cx init cs c Hc Hs Hl Hr.
  assert (Hr' : c = CLatin1 -> Forall (fun r => r < 256) cs) by (intros ->; exact Hr).
  destruct (codec_round_trip c cs Hs Hl Hr') as (enc & n & He & _ & Hn & Hlt).
  rewrite (text_encoded c cs Hs Hr) in He. injection He as <-. pose proof (text_encoded c cs Hs Hr) as He.
  pose proof (encode_string_bytes _ _ _ He) as Hb. set (bs := text_bytes c cs) in *.
  assert (Hrs : codec_rune_size c = 1 \/ codec_rune_size c = 2) by (destruct c; cbn; auto).
  assert (Hlen : N.of_nat (List.length bs) < two32) by (change (2 ^ 31) with 2147483648 in *; unfold two32; destruct Hrs as [Er|Er]; rewrite Er in Hn; lia).
  unfold store_string_dynamic. eapply writes_lift; [exact He|]. cbn zeta.
  rewrite (u32_small (N.of_nat (List.length bs))) by assumption.
  apply writes_alloc; [assumption|]. intros p Hp Hp2.
  assert (Ef : firstn (N.to_nat (N.of_nat (List.length bs))) bs = bs) by (rewrite Nat2N.id; apply firstn_all).
  rewrite Ef.
  assert (Eu : N.of_nat (List.length bs) / codec_rune_size c = n) by (rewrite Hn; apply N.div_mul; destruct Hrs as [-> | ->]; lia).
  rewrite Eu.
  eapply writes_mono.
  - eapply (writes_seq cx init p _ p _ 0 0); [apply writes_bytes; [reflexivity|assumption]| |intros; unfold within in *; lia..].
    apply (writes_ret cx init 0 0 (p, n) (fun b _ => b = (p, n))). reflexivity.
  - cbn beta. intros b s Hg Hls (E & ->). unfold text_in. cbn [fst snd]. rewrite <- Hn, E. auto.
Qed.

Lemma width_size : forall c, codec_rune_size c = N.of_nat (unit_width c).
Proof. intros [|[]|]; reflexivity. Qed.
Lemma align_text : forall c, codec_alignment c = text_align c.
Proof. intros [|[]|]; reflexivity. Qed.

(** What the pointer and length word of a string must say. *)
Definition string_in (enc : strenc) (s : list N) (a : N * N) (st : state) : Prop :=
  fst a < two32 /\ snd a < two32 /\
  exists c n, text_form enc (snd a) = Some (c, n) /\ (text_align c | fst a) /\
    fst a + n * N.of_nat (unit_width c) <= len st /\
    encodes c (bytes_at (s_mem st) (fst a) (n * N.of_nat (unit_width c))) s.

Lemma text_string : forall enc cs c ptr n w st, good st -> Forall scalar_value cs -> expressible c cs ->
  text_in c cs (ptr, n) st -> text_form enc w = Some (c, n) -> w < two32 -> string_in enc (utf8_text cs) (ptr, w) st.
Proof.
  intros enc cs c ptr n w st Hg Hs He (Hn & Hl & Ha & E) Hf Hw. cbn [fst snd] in *. rewrite width_size in *. rewrite align_text in Ha.
  assert (Hlt : len st < two32) by apply Hg.
  split; [cbn; lia|]. split; [exact Hw|]. exists c, n. cbn [fst snd]. repeat (split; [assumption|]).
  exists cs. repeat (split; [assumption|]). split; [|reflexivity]. rewrite <- slice_bytes_at; [exact E|apply Hg|exact Hl].
Qed.

Lemma puts_string : forall cx init s, correct_allocator cx init -> string_ok (cx_enc cx) s ->
  writes cx init 0 0 (store_string_into_range cx s) (string_in (cx_enc cx) s).
Proof.
  intros cx init s Hc (cs & Hs & -> & Hl & He).
  assert (X : forall c, get_codec (cx_enc cx) = Ok c -> cx_enc cx <> EncLatin1Utf16 ->
    (forall n, n < two31 -> text_form (cx_enc cx) n = Some (c, n)) ->
    writes cx init 0 0 (store_string_dynamic cx (utf8_text cs) c) (string_in (cx_enc cx) (utf8_text cs))).
  { intros c Ec Hne Hf.
    assert (Hr : expressible c cs) by (destruct (cx_enc cx); cbn in Ec; try discriminate; injection Ec as <-; cbn; auto; congruence).
    eapply writes_mono; [apply puts_text; try assumption|].
    cbn beta. intros [ptr n] st Hg _ T. assert (Hn : n < 2 ^ 31) by apply T.
    eapply text_string; try eassumption; [apply Hf; exact Hn|]. change (2 ^ 31) with 2147483648 in Hn. unfold two32. lia. }
  unfold store_string_into_range.
  destruct (cx_enc cx) eqn:Ee; try contradiction;
    try (eapply writes_lift; [reflexivity|]; apply X; [reflexivity|discriminate|intros; reflexivity]).
  clear X. eapply writes_lift; [reflexivity|]. cbn zeta.
  assert (Ew : is_latin1 (utf8_text cs) = forallb latin1_ok cs) by (unfold is_latin1; rewrite utf8_runes_text by assumption; reflexivity).
  rewrite Ew. set (w := negb (forallb latin1_ok cs)).
  set (c := if w then CUtf16 false else CLatin1).
  assert (Ec : get_codec (if w then EncUtf16LE else EncLatin1) = Ok c) by (unfold c; destruct w; reflexivity).
  eapply writes_lift; [exact Ec|].
  assert (Hr : expressible c cs).
  { unfold c, w. destruct (forallb latin1_ok cs) eqn:E; [|exact I]. apply Forall_forall.
    intros x Hx. rewrite forallb_forall in E. specialize (E x Hx). unfold latin1_ok in E. lia. }
  eapply writes_mono.
  - eapply (writes_bind cx init 0 0 0 0 0 0); [apply puts_text; eassumption| |intros; unfold within in *; lia..].
    intros a. instantiate (1 := fun a b _ => b = (fst a, tagged_to_u32 (mkTagged (snd a) w))). cbn beta.
    destruct a as [ptr n]. apply writes_ret. reflexivity.
  - cbn beta. intros b st Hg _ ([ptr n] & T & Eb). cbn [fst snd] in Eb. subst b.
    assert (Hn : n < 2 ^ 31) by apply T.
    eapply text_string; try eassumption; [|apply tagged_lt; exact Hn].
    cbn [text_form]. unfold c, w. unfold tagged_to_u32. cbn [tcu_utf16 tcu_units].
    destruct (forallb latin1_ok cs); cbn [negb].
    + destruct (N.ltb_spec n (2 ^ 31)); [reflexivity|lia].
    + assert (El : N.lor n utf16_tag = n + 2 ^ 31).
      { change utf16_tag with (2 ^ 31). 
        assert (EL : N.land n (2 ^ 31) = 0).
        { apply N.bits_inj. intros i. rewrite N.land_spec, N.pow2_bits_eqb, N.bits_0.
          destruct (N.eqb_spec 31 i) as [<-|]; [rewrite (bit31 n Hn) by lia; reflexivity|apply andb_false_r]. }
        rewrite N.add_nocarry_lxor, N.lxor_lor by exact EL. reflexivity. }
      rewrite El. destruct (N.ltb_spec (n + 2 ^ 31) (2 ^ 31)); [lia|]. f_equal. f_equal. lia.
Qed.

(** Storing at a type writes the format of that type. *)
Definition puts_ok (cx : callctx) (init : N -> Prop) (t : valtype) : Prop :=
  forall a sz v p, sp_layout t = Some (a, sz) -> wf_type t -> has_type (cx_enc cx) t v ->
  (a | p) -> p + sz < two32 ->
  writes cx init p sz (store cx t v p)
    (fun _ s => exists v', holds_canonically (cx_enc cx) (s_mem s) t p v' /\ same_value t v v').

Lemma puts_elems : forall cx init a sz st (H : any -> N -> state -> Prop) vs base i n,
  (a | base) -> (a | sz) -> base + n < two32 -> (i + N.of_nat (List.length vs)) * sz <= n ->
  Forall (fun v => forall p, (a | p) -> p + sz < two32 -> writes cx init p sz (st v p) (fun _ => H v p)) vs ->
  writes cx init (base + i * sz) (N.of_nat (List.length vs) * sz) (store_elems vs st base sz i)
    (fun _ s => forall k v, nth_error vs k = Some v -> H v (base + (i + N.of_nat k) * sz) s).
Proof.
  intros cx init a sz st H vs base i n Ha Hs Hb Hn Hv. revert i Hn.
  induction Hv as [|v vs Hv _ IH]; intros i Hn.
  - cbn [store_elems]. apply writes_ret. intros s _ _ [|k] v E; discriminate.
  - cbn [List.length] in *.
    assert (Hi : i * sz + sz <= n) by nia.
    destruct (elem_addr base i sz n Hi Hb) as [E1 E2].
    cbn [store_elems]. rewrite E1.
    assert (Hda : (a | base + i * sz)).
    { apply N.divide_add_r; [assumption|]. apply N.divide_mul_r. assumption. }
    eapply writes_mono.
    + eapply (writes_seq cx init _ _ (base + i * sz) sz (base + (i + 1) * sz) (N.of_nat (List.length vs) * sz)).
      * apply Hv; [assumption|lia].
      * apply IH. lia.
      * unfold within. intros. nia.
      * nia.
      * unfold within. intros. nia.
      * nia.
      * unfold within. intros. nia.
    + cbn beta. intros _ s _ _ (Hv0 & Hl) [|k] v0 E; cbn in E.
      * injection E as <-. replace (i + N.of_nat 0) with i by lia. exact Hv0.
      * specialize (Hl k v0 E). replace (i + N.of_nat (S k)) with (i + 1 + N.of_nat k) by lia. exact Hl.
Qed.

Lemma puts_list : forall cx init al sz a n st (H : any -> N -> state -> Prop) l,
  correct_allocator cx init -> al = Ok a -> sz = Ok n -> valid_align a -> (a | n) ->
  N.of_nat (List.length l) * n < two32 -> N.of_nat (List.length l) < two32 ->
  Forall (fun v => forall p, (a | p) -> p + n < two32 -> writes cx init p n (st v p) (fun _ => H v p)) l ->
  writes cx init 0 0 (store_list_into_range cx al sz st (VList l))
    (fun w s => fst w < two32 /\ snd w < two32 /\ snd w = N.of_nat (List.length l) /\ (a | fst w) /\
       fst w + N.of_nat (List.length l) * n <= len s /\
       forall k v, nth_error l k = Some v -> H v (fst w + N.of_nat k * n) s).
Proof.
  intros cx init al sz a n st H l Hc -> -> Hv Hd Hl Hlen Hel.
  cbn [store_list_into_range]. eapply writes_lift; [reflexivity|].
  rewrite list_len_check by assumption. cbn zeta. eapply writes_lift; [reflexivity|].
  rewrite (u32_small (N.of_nat (List.length l) * n)) by assumption.
  rewrite (u32_small (N.of_nat (List.length l))) by assumption.
  apply writes_alloc; [assumption|]. intros p Hp Hp2.
  set (k := N.of_nat (List.length l) * n) in *.
  assert (CB : forall s, good s -> p + k <= len s -> check_bounds ETrap p k s = (Ok tt, s)).
  { intros s Hg Hls. unfold check_bounds. erewrite bind_ok; [|reflexivity]. rewrite mem_len32_ok by assumption.
    unfold add32. rewrite N.mod_small by lia. destruct (N.ltb_spec (len s) (p + k)); [lia|reflexivity]. }
  eapply (writes_ext _ _ _ _ _ (store_elems l st p n 0 ;; ret (p, N.of_nat (List.length l)))).
  { intros s Hg Hls. erewrite bind_ok; [|apply check_aligned_ok; [exact Hv|lia|exact Hp]].
    erewrite bind_ok; [reflexivity|]. apply CB; assumption. }
  eapply writes_mono.
  - eapply (writes_seq cx init p k (p + 0 * n) (N.of_nat (List.length l) * n) 0 0).
    + apply (puts_elems cx init a n st H l p 0 k); try assumption. unfold k. lia.
    + apply (writes_ret cx init 0 0 _ (fun b _ => b = (p, N.of_nat (List.length l)))). reflexivity.
    + unfold within, k. intros. lia.
    + unfold k. lia.
    + unfold within. intros. lia.
    + lia.
    + unfold within. intros. lia.
  - cbn beta. intros b s Hg Hls (Hl' & ->). cbn [fst snd]. split; [lia|]. split; [assumption|].
    split; [reflexivity|]. split; [exact Hp|]. split; [exact Hls|].
    intros q v E. specialize (Hl' q v E). exact Hl'.
Qed.

Lemma puts_fields : forall cx init m fs ls pos base n,
  Forall (fun f => puts_ok cx init (snd f)) fs -> NoDup (map fst fs) ->
  Forall (fun f => wf_type (snd f)) fs ->
  Forall (fun f => exists x, map_get m (fst f) = Some x /\ has_type (cx_enc cx) (snd f) x) fs ->
  all_some (map (fun f => sp_layout (snd f)) fs) = Some ls ->
  Forall (fun l : layout => (fst l | base)) ls ->
  base + n < two32 -> fields_end pos ls <= n ->
  writes cx init (base + pos) (n - pos)
    (store_at (map (fun f => (fst f, store cx (snd f))) fs) (map (N.add base) (field_offsets pos ls)) m)
    (fun _ s => exists mp,
       Forall2 (fun f o => exists x, map_get mp (fst f) = Some x /\ holds_canonically (cx_enc cx) (s_mem s) (snd f) (base + o) x)
         fs (field_offsets pos ls) /\
       Forall (fun f => exists x x', map_get m (fst f) = Some x /\ map_get mp (fst f) = Some x' /\ same_value (snd f) x x') fs /\
       forall l, map_get mp l <> None -> In l (map fst fs)).
Proof.
  intros cx init m fs. induction fs as [|[l t] fs IH]; intros ls pos base n Hrt Hnd Hwf Hty Hs Hdv Hb He.
  - cbn in Hs. injection Hs as <-. apply writes_ret. intros s _ _. exists []. split; [constructor|]. split; [constructor|].
    intros l Hl. cbn in Hl. congruence.
  - change (all_some (sp_layout t :: map (fun f => sp_layout (snd f)) fs) = Some ls) in Hs.
    cbn [all_some] in Hs. destruct (sp_layout t) as [[a sz]|] eqn:Et; [|discriminate].
    destruct (all_some (map (fun f => sp_layout (snd f)) fs)) as [ls'|] eqn:El; [|discriminate]. injection Hs as <-.
    inversion Hrt as [|? ? Hrt1 Hrt2]; subst. inversion Hwf as [|? ? Hwf1 Hwf2]; subst.
    inversion Hty as [|? ? (x & Hx & Hxt) Hty2]; subst. inversion Hnd as [|? ? Hnd1 Hnd2]; subst.
    inversion Hdv as [|? ? Hdv1 Hdv2]; subst. cbn [fst snd] in *.
    pose proof (all_some_valid snd fs ls' El) as Hv.
    destruct (sp_layout_facts _ _ _ Et) as (_ & Hva & _).
    cbn [fields_end] in He. pose proof (fields_end_ge ls' (up_to a pos + sz) Hv).
    pose proof (up_to_ge a pos (valid_align_nz _ Hva)).
    cbn [map field_offsets store_at fst snd]. rewrite Hx.
    eapply writes_mono.
    + eapply (writes_seq cx init (base + pos) (n - pos) (base + up_to a pos) sz
                (base + (up_to a pos + sz)) (n - (up_to a pos + sz))).
      * eapply Hrt1; [exact Et|exact Hwf1|exact Hxt| |lia].
        apply N.divide_add_r; [assumption|apply up_to_div].
      * apply (IH ls' (up_to a pos + sz) base n); assumption || reflexivity.
      * unfold within. intros. lia.
      * lia.
      * unfold within. intros. lia.
      * lia.
      * unfold within. intros. lia.
    + cbn beta. intros _ s _ _ ((x' & Ex & Sx) & (mp & Hh & Hsv & Hdom)).
      assert (Ne : forall f, In f fs -> String.eqb (fst f) l = false).
      { intros f Hf. destruct (String.eqb_spec (fst f) l) as [E|]; [|reflexivity].
        exfalso. apply Hnd1. rewrite <- E. apply in_map. exact Hf. }
      exists (map_set mp l x'). split; [|split].
      * constructor; [exists x'; cbn [fst snd]; rewrite map_get_set, String.eqb_refl; auto|].
        eapply Forall2_mono; [exact Hh|]. cbn beta. intros f o Hf. rewrite map_get_set, (Ne f Hf). auto.
      * constructor; [exists x, x'; cbn [fst snd]; rewrite map_get_set, String.eqb_refl; auto|].
        rewrite Forall_forall in *. intros f Hf. rewrite map_get_set, (Ne f Hf). auto.
      * intros q Hq. rewrite map_get_set in Hq. destruct (String.eqb_spec q l) as [E|E]; [left; cbn [fst]; congruence|right; auto].
Qed.

Lemma puts_record : forall cx init fs,
  Forall (fun f => puts_ok cx init (snd f)) fs -> puts_ok cx init (TRecord fs).
Proof.
  intros cx init fs H a sz v p Hl Hwf Hty Hd Hp.
  cbn [wf_type] in Hwf. destruct Hwf as [Hnd Hwt]. apply all_Forall in Hwt.
  assert (Hl' := Hl). cbn [sp_layout] in Hl'.
  destruct (all_some (map (fun f => sp_layout (snd f)) fs)) as [ls|] eqn:El; [|discriminate].
  assert (Hr : sp_record ls = (a, sz)) by (cbn [bindo] in Hl'; congruence).
  pose proof (all_some_valid snd fs ls El) as Hv. pose proof (sp_record_end ls Hv) as He. rewrite Hr in He. cbn [snd] in He.
  destruct Hty as (m & -> & Hf). rewrite Forall_map in Hf. cbn [fst snd] in Hf.
  assert (Hdv : Forall (fun l : layout => (fst l | p)) ls).
  { apply fields_base_div; [assumption|]. replace (max_align ls) with a by (injection Hr; auto). assumption. }
  eapply writes_ext.
  { intros s Hg Hlen. apply (record_store_offsets cx fs ls); try assumption; rewrite Hr; cbn [fst snd]; try assumption.
    rewrite mem_len32_ok by assumption. exact Hlen. }
  eapply writes_mono.
  - eapply writes_sub; [apply (puts_fields cx init m fs ls 0 p sz); assumption| |].
    + unfold within. intros. lia.
    + lia.
  - cbn beta. intros _ s _ _ (mp & Hh & Hsv & Hdom). exists (VMap mp). split.
    + apply holds_record. exists mp, ls. auto.
    + cbn [same_value]. exists m, mp. split; [reflexivity|]. split; [reflexivity|]. split.
      * apply Forall_map. exact Hsv.
      * rewrite map_map. exact Hdom.
Qed.

Lemma number_uint : forall n p s x, good s -> p + n <= len s -> load_uint n p s = (Ok x, s) -> number (s_mem s) p (N.to_nat n) = x.
Proof. intros n p s x Hg H E. rewrite number_load in E by assumption. congruence. Qed.

Lemma puts_variant : forall cx init cs,
  Forall (fun c => opt_all (puts_ok cx init) (c_type c)) cs -> puts_ok cx init (TVariant cs).
Proof.
  intros cx init cs H a sz v p Hl Hwf Hty Hd Hp.
  cbn [wf_type] in Hwf. destruct Hwf as [(Hnd & Hbf & Hre) Hwt]. apply all_Forall in Hwt.
  assert (Hl' := Hl). cbn [sp_layout] in Hl'.
  destruct (all_some (payload_types (map (map_case sp_layout) cs))) as [ls|] eqn:El; [|discriminate].
  cbn [bindo] in Hl'. destruct (sp_variant_inv _ _ _ _ Hl') as (d & dt & Hdz & _ & _ & Hvd & Ea & Esz & Hcase & Hpos).
  destruct (variant_payload_placed _ _ _ _ _ El Hl Hdz) as (Hpo & _ & Hda & Hpl).
  destruct (sp_layout_facts _ _ _ Hl) as (Ha & Hva & _ & Hs).
  pose proof (up_to_ge a (payload_offset d ls + max_size ls) (valid_align_nz _ Hva)) as Hup.
  assert (Hn : N.of_nat (List.length cs) < two32).
  { change (2 ^ 8) with 256 in *; change (2 ^ 16) with 65536 in *; change (2 ^ 24) with 16777216 in *; unfold two32; lia. }
  cbn [has_type] in Hty. destruct Hty as (key & x & i & c0 & -> & Hsel & Hi & Hx).
  rewrite map_map in Hsel. cbn [c_label map_case] in Hsel.
  rewrite nth_error_map in Hi. destruct (nth_error cs i) as [c|] eqn:Ei; [|discriminate]. injection Hi as <-.
  assert (Hic : In c cs) by (eapply nth_error_In; exact Ei).
  assert (Hil : (i < List.length cs)%nat) by (apply nth_error_Some; congruence).
  assert (Hdisc : N.of_nat i < 256 ^ d).
  { destruct Hcase as [(_ & -> & ?)|[(_ & -> & ?)|(_ & -> & ?)]].
    - change (256 ^ 1) with 256. change (2 ^ 8) with 256 in *. lia.
    - change (256 ^ 2) with 65536. change (2 ^ 16) with 65536 in *. lia.
    - change (256 ^ 4) with 4294967296. change (2 ^ 24) with 16777216 in *. lia. }
  pose proof (match_case_selects cs key x i Hnd Hn Hsel) as Hm.
  eapply writes_ext.
  { intros s Hg Hlen. apply (variant_store_offsets cx cs ls a sz d); try assumption.
    rewrite mem_len32_ok by assumption. exact Hlen. }
  rewrite Hm.
  eapply (writes_ext _ _ _ _ _ (store_uint d (N.of_nat i) p ;;
     match c_type c with Some t => store cx t x (p + payload_offset d ls) | None => ret tt end)).
  { intros s _ _. rewrite bind_lift_ok. rewrite Nat2N.id, Ei. reflexivity. }
  assert (HH : forall s v', number (s_mem s) p (N.to_nat d) = N.of_nat i ->
    match c_type c with Some t => holds_canonically (cx_enc cx) (s_mem s) t (p + payload_offset d ls) v' | None => v' = VNil end ->
    holds_canonically (cx_enc cx) (s_mem s) (TVariant cs) p (VMap [(key, v')])).
  { intros s v' E1 E2. apply holds_variant. exists d, ls, i, c, key, v'. repeat (split; [assumption||reflexivity|]).
    split; [|destruct (c_type c); exact E2]. unfold some_label, parts. rewrite map_case_label. exact Hsel. }
  assert (WD : writes cx init p d (store_uint d (N.of_nat i) p) (fun _ s => number (s_mem s) p (N.to_nat d) = N.of_nat i)).
  { eapply writes_mono; [apply (writes_uint cx init p d (N.of_nat i))|].
    - destruct Hcase as [(_ & -> & _)|[(_ & -> & _)|(_ & -> & _)]]; auto 6.
    - cbn beta. intros _ s Hg Hls E. rewrite N.mod_small in E by exact Hdisc. eapply number_uint; eassumption. }
  assert (SV : forall v', match c_type c with Some t => same_value t x v' | None => v' = VNil end ->
     same_value (TVariant cs) (VMap [(key, x)]) (VMap [(key, v')])).
  { intros v' Hsv. cbn [same_value]. exists key, x, key, v', i, (map_case same_value c).
    rewrite !map_map. cbn [c_label map_case c_type]. repeat split; try assumption.
    - rewrite nth_error_map, Ei. reflexivity.
    - destruct (c_type c); assumption. }
  cbn [c_type map_case] in Hx. destruct (c_type c) as [t|] eqn:Et.
  - destruct (payload_layout _ _ _ _ El Hic Et) as ([pa ps] & Hpt & _).
    destruct (Hpl c t pa ps Hic Et Hpt) as (Hpd & Hpa & Hin).
    assert (IHc : puts_ok cx init t).
    { rewrite Forall_forall in H. specialize (H c Hic). rewrite Et in H. exact H. }
    eapply writes_mono.
    + eapply (writes_seq cx init p sz p d (p + payload_offset d ls) ps).
      * exact WD.
      * eapply IHc; [exact Hpt| |exact Hx| |lia].
        -- rewrite Forall_forall in Hwt. specialize (Hwt c Hic). rewrite Et in Hwt. exact Hwt.
        -- apply N.divide_add_r; [|assumption]. eapply N.divide_trans; eassumption.
      * unfold within. intros. lia.
      * lia.
      * unfold within. intros. lia.
      * lia.
      * unfold within. intros. lia.
    + cbn beta. intros _ s _ _ (E1 & v' & E2 & Sv). eexists. split; [apply HH; [exact E1|exact E2]|].
      apply SV. exact Sv.
  - eapply writes_mono.
    + eapply (writes_seq cx init p sz p d 0 0 _ _ _ (fun _ _ => True)).
      * exact WD.
      * apply writes_ret. auto.
      * unfold within. intros. lia.
      * lia.
      * unfold within. intros. lia.
      * lia.
      * unfold within. intros. lia.
    + cbn beta. intros _ s _ _ (E1 & _). eexists. split; [apply HH; [exact E1|reflexivity]|].
      apply SV. reflexivity.
Qed.

Lemma puts_flags : forall cx init ls, puts_ok cx init (TFlags ls).
Proof.
  intros cx init ls a sz v p Hl [Hnd H64] Hty Hd Hp.
  destruct (flags_sizes _ _ _ Hl H64) as [Hsz Hbits].
  assert (Esz : snd (sp_flags (List.length ls)) = sz) by (cbn [sp_layout] in Hl; injection Hl as E; rewrite E; reflexivity).
  destruct (sp_layout_facts _ _ _ Hl) as (Ha & Hva & _ & Hs). specialize (Hs ltac:(lia)).
  change (store cx (TFlags ls) v p) with (guarded (alignment (TFlags ls)) (size (TFlags ls)) (store_flags ls) v p).
  eapply writes_guarded; [exact Ha|exact Hs|exact Hva|exact Hd|exact Hp|].
  destruct (rec_flags _ _ Hty) as (m & bs & -> & Hbs). cbn [store_flags].
  destruct (pack_bits m ls bs 0 0 Hbs) as (x & Hx & Hb); [lia|intros; apply N.bits_0|].
  eapply writes_lift; [exact Hx|]. eapply writes_lift; [exact Hs|].
  pose proof (Forall2_len _ _ _ Hbs) as Hlen.
  assert (Hx8 : x < 256 ^ sz).
  { change 256 with (2 ^ 8). rewrite <- N.pow_mul_r. apply bits_lt. intros i Hi. rewrite Hb.
    destruct (N.ltb_spec i 0); [lia|]. apply nth_overflow. lia. }
  assert (Hx64 : x <= 18446744073709551615).
  { assert (x < 2 ^ 64); [|change (2 ^ 64) with 18446744073709551616 in *; lia].
    apply bits_lt. intros i Hi. rewrite Hb. destruct (N.ltb_spec i 0); [lia|]. apply nth_overflow. lia. }
  eapply writes_mono; [eapply writes_int; [exact Hsz|reflexivity|apply int_check_unsigned; exact Hx64]|].
  cbn beta. cbn [n_u64]. intros _ s Hg Hls E. rewrite N.mod_small in E by exact Hx8.
  apply number_uint in E; [|assumption..].
  exists (VMap (unpack_flags x ls [])). split.
  - unfold holds_canonically. cbn [holds]. rewrite Esz, E. eexists. split; [reflexivity|]. split.
    + intros k l Hk. apply unpack_bits; assumption.
    + split; [intros l Hl'; apply unpack_domain in Hl'; destruct Hl' as [|C]; [assumption|cbn in C; congruence]|].
      intros _. apply bits_lt. intros k Hk. rewrite Hb. destruct (N.ltb_spec k 0); [lia|]. apply nth_overflow. lia.
  - cbn [same_value]. exists m, (unpack_flags x ls []).
    split; [reflexivity|]. split; [reflexivity|]. split.
    + apply Forall_map. cbn [fst snd]. apply Forall_forall. intros l Hin.
      apply In_nth_error in Hin. destruct Hin as [k Hk].
      exists (VBool (N.testbit x (N.of_nat k))), (VBool (N.testbit x (N.of_nat k))).
      split; [|split; [apply unpack_bits; assumption|reflexivity]].
      rewrite Hb. destruct (N.ltb_spec (N.of_nat k) 0); [lia|].
      replace (N.to_nat (N.of_nat k - 0)) with k by lia.
      clear - Hbs Hk. revert k Hk. induction Hbs as [|l' b ls' bs' Hl Hbs IH]; intros k Hk; [destruct k; discriminate|].
      destruct k as [|k]; cbn in Hk |- *.
      * inversion Hk; subst. unfold flag_of, map_any in Hl. destruct (map_get m l); [congruence|discriminate].
      * apply IH. assumption.
    + intros l Hl'. rewrite map_map. cbn [fst]. rewrite map_id.
      apply unpack_domain in Hl'. destruct Hl' as [|C]; [assumption|cbn in C; congruence].
Qed.

Lemma puts_scalar : forall cx init p n v x mx (Q : state -> Prop),
  n = 1 \/ n = 2 \/ n = 4 \/ n = 8 -> x < 256 ^ n -> int_info v = Ok (mkInt x mx 0 false) -> x <= mx ->
  (forall s, good s -> number (s_mem s) p (N.to_nat n) = x -> Q s) ->
  writes cx init p n (store_int v p n false) (fun _ => Q).
Proof.
  intros cx init p n v x mx Q Hn Hx Hi Hm HQ.
  eapply writes_mono; [eapply (unsigned_rt cx init p n v x mx VU8 (fun s => load_uint n p s = (Ok x, s))); try eassumption; auto|].
  cbn beta. intros _ s Hg Hls E. apply HQ; [exact Hg|]. eapply number_uint; eassumption.
Qed.

Lemma puts_signed : forall cx init p n m k v z mx mn (Q : state -> Prop),
  n = 1 \/ n = 2 \/ n = 4 \/ n = 8 -> 256 ^ n = m -> two64 = m * k -> 0 < k -> N.even m = true ->
  int_info v = Ok (mkInt (of_signed two64 z) mx mn true) ->
  (- 9223372036854775808 <= mn)%Z -> (mn <= z <= Z.of_N mx)%Z -> mx < two63 ->
  (- Z.of_N (m / 2) <= z < Z.of_N (m / 2))%Z ->
  (forall s, good s -> number (s_mem s) p (N.to_nat n) < m -> to_signed m (number (s_mem s) p (N.to_nat n)) = z -> Q s) ->
  writes cx init p n (store_int v p n true) (fun _ => Q).
Proof.
  intros cx init p n m k v z mx mn Q Hn Hm Hk Hk0 He Hi Hmn Hz Hmx Hr HQ.
  eapply writes_mono; [eapply (signed_rt cx init p n m k v z mx mn (fun s => exists x, load_uint n p s = (Ok x, s) /\ to_signed m x = z)); try eassumption; eauto|].
  cbn beta. intros _ s Hg Hls (x & E & Ez). apply HQ; [exact Hg| |].
  - pose proof (number_lt (N.to_nat n) (s_mem s) p Hg) as B. rewrite N2Nat.id, Hm in B. exact B.
  - rewrite (number_uint _ _ _ _ Hg Hls E). exact Ez.
Qed.

Lemma canonicalize32_nan : forall b, nan32 (canonicalize32 b) -> canonicalize32 b = 0x7fc00000.
Proof. intros b H. destruct (canonicalize32_same b) as [[_ E]|[N E]]; [exact E|]. rewrite E in H. contradiction. Qed.
Lemma canonicalize64_nan : forall b, nan64 (canonicalize64 b) -> canonicalize64 b = 0x7ff8000000000000.
Proof. intros b H. destruct (canonicalize64_same b) as [[_ E]|[N E]]; [exact E|]. rewrite E in H. contradiction. Qed.

Lemma puts_ok_all : forall cx init t, correct_allocator cx init -> puts_ok cx init t.
Proof.
  intros cx init t Hc. induction t using valtype_ind';
    [ | | | | | | | | | | | | | |apply puts_record; assumption|apply puts_variant; assumption|apply puts_flags| | | |
      intros al sz v p Hl Hwf Hty Hd Hp; rewrite <- sp_layout_despecialize in Hl; rewrite <- store_despecialize;
      apply has_type_despecialize in Hty; apply wf_despecialize in Hwf;
      eapply writes_mono; [eapply IHt; eassumption|];
      cbn beta; intros _ s _ _ (v' & E & S); exists v';
      split; [apply holds_despecialize; exact E|apply same_value_despecialize; exact S] ];
    intros al sz v p Hl Hwf Hty Hd Hp; try contradiction; injection Hl as <- <-;
    unfold store; fold store;
    (eapply writes_guarded; [reflexivity|reflexivity|unfold valid_align; lia|exact Hd|exact Hp|]).
  - destruct Hty as (b & ->). cbn [store_bool].
    eapply (puts_scalar cx init p 1 _ (if b then 1 else 0) 255); [lia|destruct b; reflexivity|reflexivity|destruct b; lia|].
    intros s _ E. exists (VBool b). split; [|reflexivity]. exists b. split; [reflexivity|].
    change (N.to_nat 1) with 1%nat in E. rewrite E. split; [destruct b; split; intros; discriminate || reflexivity || (exfalso; auto)|destruct b; intros; discriminate].
  - destruct Hty as (n & -> & Hn). change (2 ^ 8) with 256 in Hn.
    eapply (puts_scalar cx init p 1 _ n 255); [lia|exact Hn|reflexivity|lia|].
    intros s _ E. exists (VU8 n). split; [|reflexivity]. rewrite <- E. reflexivity.
  - destruct Hty as (n & -> & Hn). change (2 ^ 16) with 65536 in Hn.
    eapply (puts_scalar cx init p 2 _ n 65535); [lia|exact Hn|reflexivity|lia|].
    intros s _ E. exists (VU16 n). split; [|reflexivity]. rewrite <- E. reflexivity.
  - destruct Hty as (n & -> & Hn). change (2 ^ 32) with 4294967296 in Hn.
    eapply (puts_scalar cx init p 4 _ n 4294967295); [lia|exact Hn|reflexivity|lia|].
    intros s _ E. exists (VU32 n). split; [|reflexivity]. rewrite <- E. reflexivity.
  - destruct Hty as (n & -> & Hn). change (2 ^ 64) with 18446744073709551616 in Hn.
    eapply (puts_scalar cx init p 8 _ n 18446744073709551615); [lia|exact Hn|reflexivity|lia|].
    intros s _ E. exists (VU64 n). split; [|reflexivity]. rewrite <- E. reflexivity.
  - destruct Hty as (z & -> & Hz). unfold signed_range in Hz. change (2 ^ (Z.of_N 8 - 1))%Z with 128%Z in Hz.
    eapply (puts_signed cx init p 1 two8 (2 ^ 56) _ z 127 (-128)); [lia|reflexivity|reflexivity|reflexivity|reflexivity|reflexivity|lia|lia|reflexivity|change (two8 / 2) with 128; lia|].
    intros s _ Hlt Ez. exists (VS8 z). split; [|reflexivity]. exists z. split; [reflexivity|]. rewrite <- Ez. apply (twos_signed 8); [lia|exact Hlt].
  - destruct Hty as (z & -> & Hz). unfold signed_range in Hz. change (2 ^ (Z.of_N 16 - 1))%Z with 32768%Z in Hz.
    eapply (puts_signed cx init p 2 two16 (2 ^ 48) _ z 32767 (-32768)); [lia|reflexivity|reflexivity|reflexivity|reflexivity|reflexivity|lia|lia|reflexivity|change (two16 / 2) with 32768; lia|].
    intros s _ Hlt Ez. exists (VS16 z). split; [|reflexivity]. exists z. split; [reflexivity|]. rewrite <- Ez. apply (twos_signed 16); [lia|exact Hlt].
  - destruct Hty as (z & -> & Hz). unfold signed_range in Hz. change (2 ^ (Z.of_N 32 - 1))%Z with 2147483648%Z in Hz.
    eapply (puts_signed cx init p 4 two32 (2 ^ 32) _ z 2147483647 (-2147483648)); [lia|reflexivity|reflexivity|reflexivity|reflexivity|reflexivity|lia|lia|reflexivity|change (two32 / 2) with 2147483648; lia|].
    intros s _ Hlt Ez. exists (VS32 z). split; [|reflexivity]. exists z. split; [reflexivity|]. rewrite <- Ez. apply (twos_signed 32); [lia|exact Hlt].
  - destruct Hty as (z & -> & Hz). unfold signed_range in Hz. change (2 ^ (Z.of_N 64 - 1))%Z with 9223372036854775808%Z in Hz.
    eapply (puts_signed cx init p 8 two64 1 _ z 9223372036854775807 (-9223372036854775808)); [lia|reflexivity|reflexivity|reflexivity|reflexivity|reflexivity|lia|lia|reflexivity|change (two64 / 2) with 9223372036854775808; lia|].
    intros s _ Hlt Ez. exists (VS64 z). split; [|reflexivity]. exists z. split; [reflexivity|]. rewrite <- Ez. apply (twos_signed 64); [lia|exact Hlt].
  - destruct Hty as (b & -> & Hb). destruct (canonical32_same b Hb) as [Hsame Hc32]. change (2 ^ 32) with 4294967296 in Hc32. cbn [store_f32].
    eapply (puts_scalar cx init p 4 _ (canonicalize32 b) 4294967295); [lia|exact Hc32|reflexivity|lia|].
    intros s _ E. exists (VF32 (canonicalize32 (canonicalize32 b))). split; [|exists b; eauto].
    eexists. split; [reflexivity|]. change (N.to_nat 4) with 4%nat in E. rewrite E. split; [apply canonicalize32_same|intros _; apply canonicalize32_nan].
  - destruct Hty as (b & -> & Hb). destruct (canonical64_same b Hb) as [Hsame Hc64]. change (2 ^ 64) with 18446744073709551616 in Hc64. cbn [store_f64].
    eapply (puts_scalar cx init p 8 _ (canonicalize64 b) 18446744073709551615); [lia|exact Hc64|reflexivity|lia|].
    intros s _ E. exists (VF64 (canonicalize64 (canonicalize64 b))). split; [|exists b; eauto].
    eexists. split; [reflexivity|]. change (N.to_nat 8) with 8%nat in E. rewrite E. split; [apply canonicalize64_same|intros _; apply canonicalize64_nan].
  - destruct Hty as (c & -> & Hsc). pose proof Hsc as Hsc'. unfold scalar_value in Hsc. cbn [store_char].
    assert (Eo : of_signed two32 (Z.of_N c) = c).
    { unfold of_signed, two32. rewrite Z.mod_small by lia. lia. }
    rewrite Eo.
    eapply (puts_scalar cx init p 4 _ c 4294967295); [lia|change (256 ^ 4) with 4294967296; lia|reflexivity|lia|].
    intros s _ E. exists (VS32 (Z.of_N c)). split; [|reflexivity]. change (N.to_nat 4) with 4%nat in E.
    unfold holds_canonically. cbn [holds]. rewrite E. auto.
  - destruct Hty as (s0 & -> & Hso). cbn [store_str]. unfold store_string.
    eapply writes_mono; [eapply (writes_pair cx init); [apply puts_string; [exact Hc|exact Hso]|exact Hp|]|].
    + cbn beta. intros [b n] s _ (B1 & B2 & _). auto.
    + cbn beta. intros _ s Hg Hls (b & n & (_ & _ & c & k & Hf & Ha & Hb & Ht) & E1 & E2). exists (VStr s0). split; [|reflexivity].
      assert (Hlt : len s < two32) by apply Hg.
      replace (add32 p 4) with (p + 4) in E2 by (unfold add32; rewrite N.mod_small; lia).
      rewrite number_u32 in E1, E2 by (assumption || lia).
      assert (F1 : number (s_mem s) p 4 = b) by congruence. assert (F2 : number (s_mem s) (p + 4) 4 = n) by congruence. clear E1 E2. cbn [fst snd] in *.
      unfold holds_canonically. cbn [holds]. rewrite F1, F2. exists c, k, s0. auto 6.
  - destruct Hty as (l & a & sz & -> & Hel & Hla & Hlen1 & Hlen2). destruct Hwf as [Hwf (a' & sz' & Hla' & Hsz)].
    rewrite Hla in Hla'. injection Hla' as <- <-.
    destruct (sp_layout_facts _ _ _ Hla) as (Ha & Hva & Hdv & Hs).
    unfold store_list.
    eapply writes_mono; [eapply (writes_pair cx init); [|exact Hp|]|].
    + eapply (puts_list cx init _ _ a sz _ (fun v q s => exists v', holds_canonically (cx_enc cx) (s_mem s) t q v' /\ same_value t v v')); try eassumption; [apply Hs; exact Hsz|].
      eapply Forall_impl; [|exact Hel]. intros v Hv q Hq1 Hq2. eapply IHt; eassumption.
    + cbn beta. intros [b n] s _ (B1 & B2 & _). auto.
    + cbn beta. cbn [fst snd]. intros _ s Hg Hls (b & n & (_ & _ & En & Hab & Hbb & Hall) & E1 & E2).
      assert (Hlt : len s < two32) by apply Hg.
      replace (add32 p 4) with (p + 4) in E2 by (unfold add32; rewrite N.mod_small; lia).
      rewrite number_u32 in E1, E2 by (assumption || lia).
      assert (F1 : number (s_mem s) p 4 = b) by congruence. assert (F2 : number (s_mem s) (p + 4) 4 = n) by congruence. clear E1 E2.
      assert (X : exists l', List.length l' = List.length l /\ Forall2 (same_value t) l l' /\
         forall i x, nth_error l' i = Some x -> holds_canonically (cx_enc cx) (s_mem s) t (b + N.of_nat i * sz) x).
      { clear - Hall. revert b Hall. induction l as [|v l IH]; intros b Hall.
        - exists []. repeat split; [constructor|]. intros [|i] x E; discriminate.
        - destruct (Hall 0%nat v eq_refl) as (v' & Hv & Sv).
          destruct (IH (b + sz)) as (l' & Hlen & HF & HH).
          { intros k v0 E. destruct (Hall (S k) v0 E) as (w & Hw). exists w.
            replace (b + sz + N.of_nat k * sz) with (b + N.of_nat (S k) * sz) by lia. exact Hw. }
          exists (v' :: l'). split; [cbn; congruence|]. split; [constructor; assumption|].
          intros [|i] x E; cbn in E; [injection E as <-; exact Hv|].
          replace (b + N.of_nat (S i) * sz) with (b + sz + N.of_nat i * sz) by lia. apply HH. exact E. }
      destruct X as (l' & Hlen & HF & HH). exists (VList l'). split; [|cbn [same_value]; eauto].
      unfold holds_canonically. cbn [holds]. rewrite F1, F2. exists a, sz, l'. split; [reflexivity|]. split; [exact Hla|].
      rewrite Hlen. cbn zeta. split; [symmetry; exact En|]. split; [exact Hab|]. split; [exact Hbb|exact HH].
Qed.
