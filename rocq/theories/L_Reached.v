(** What a successful load or lift has reached lies inside memory. *)
From Coq Require Import NArith ZArith List String Ascii Bool Lia ZifyBool ZifyNat ZifyN.
From Verif Require Import GoBase M_Types M_Layout S_Layout L_Layout M_State M_Utf M_Load M_Flat
  S_Utf S_Values S_Memory S_Access S_Flat S_Format S_FlatFormat S_Reached L_Access L_Variant L_Labels L_Despecialize L_Mem L_Utf L_Flags
  L_FlagWords L_Frame L_RoundTrip L_StoreLoad L_Lifted L_CtxFree L_Flat L_Format L_FlatFormat.
Import ListNotations.
Open Scope N_scope.
Open Scope go_scope.

(** ** A load looks at the first byte *)
Definition cap (s : state) : N := mem_cap (s_mem s).

Lemma uint_touches : forall k p s n s', 0 < k -> k <= 8 -> p < two32 -> load_uint k p s = (Ok n, s') -> p < cap s.
Proof.
  intros k p s n s' Hk Hk8 Hp E. unfold load_uint in E. apply bind_inv in E. destruct E as (m & s1 & Em & E).
  injection Em as <- <-. apply bind_inv in E. destruct E as (bs & s2 & Eb & _).
  assert (Eo : mem_slice (s_mem s) p (add32 p k) = Ok bs) by (unfold lift_o in Eb; congruence).
  unfold mem_slice in Eo. destruct (N.leb_spec p (add32 p k)) as [H1|]; [|discriminate].
  destruct (N.leb_spec (add32 p k) (mem_cap (s_mem s))) as [H2|]; [|discriminate].
  unfold cap. unfold add32, two32 in *. destruct (N.ltb_spec (p + k) 4294967296) as [H|H].
  - rewrite N.mod_small in * by lia. lia.
  - exfalso. replace (p + k) with (p + k - 4294967296 + 1 * 4294967296) in H1 by lia.
    rewrite N.mod_add in H1 by discriminate. rewrite N.mod_small in H1; lia.
Qed.

Lemma int_touches : forall t k p s v s', p < two32 -> sp_layout t = Some (k, k) -> k <= 8 -> 0 < k ->
  match t with TBool | TF32 | TF64 | TChar | TOwn _ | TBorrow _ | TFlags _ => False | _ => True end ->
  load_int t p s = (Ok v, s') -> p < cap s.
Proof.
  intros t k p s v s' Hp Hl Hk8 Hk Ht E.
  destruct t; try contradiction; try discriminate E; cbn [load_int] in E; apply bind_inv in E; destruct E as (n & s1 & E & _);
    (eapply uint_touches; [| |exact Hp|exact E]; lia).
Qed.

Lemma u32_touches : forall p s v s', p < two32 -> load_u32 p s = (Ok v, s') -> p < cap s.
Proof.
  intros p s v s' Hp E. unfold load_u32 in E. apply bind_inv in E. destruct E as (x & s1 & E & _).
  eapply int_touches; [exact Hp|..|exact E]; try reflexivity; try lia; exact I.
Qed.

Definition touches (cx : callctx) (t : valtype) : Prop := forall a sz p s v s', sp_layout t = Some (a, sz) -> wf_type t -> good s ->
  0 < sz -> sz < two32 -> (a | p) -> p < two32 -> load cx t p s = (Ok v, s') -> p < cap s.

Lemma fields_touch : forall cx fs ls p acc s r s',
  Forall (fun f => touches cx (snd f)) fs -> Forall (fun f => wf_type (snd f)) fs -> good s ->
  all_some (map (fun f => sp_layout (snd f)) fs) = Some ls ->
  Forall (fun l : layout => (fst l | p)) ls -> p < two32 -> 0 < fields_end 0 ls -> fields_end 0 ls < two32 ->
  load_fields (map (fun f => (fst f, mkComp (alignment (snd f)) (size (snd f)) (load cx (snd f)))) fs) p acc s = (Ok r, s') ->
  p < cap s.
Proof.
  intros cx fs. induction fs as [|[l t] fs IH]; intros ls p acc s r s' H Hwf G Hs Hd Hp Hend Hlt E.
  - cbn in Hs. injection Hs as <-. cbn in Hend. lia.
  - change (all_some (sp_layout t :: map (fun f => sp_layout (snd f)) fs) = Some ls) in Hs.
    cbn [all_some] in Hs. destruct (sp_layout t) as [[a sz]|] eqn:Et; [|discriminate].
    destruct (all_some (map (fun f => sp_layout (snd f)) fs)) as [ls'|] eqn:El; [|discriminate]. injection Hs as <-.
    inversion H as [|? ? H1 H2]; subst. inversion Hwf as [|? ? Hwf1 Hwf2]; subst. inversion Hd as [|? ? Hd1 Hd2]; subst.
    cbn [fst snd] in *. pose proof (all_some_valid snd fs ls' El) as Hv.
    destruct (sp_layout_facts _ _ _ Et) as (Ha & Hva & _ & Hsz). pose proof (valid_align_nz _ Hva) as Hnz.
    cbn [fields_end] in Hend, Hlt. rewrite up_to_id in Hend, Hlt by (try exact Hnz; apply N.divide_0_r). rewrite N.add_0_l in Hend, Hlt.
    assert (Hs2 : sz < two32) by (pose proof (fields_end_ge ls' sz Hv); lia).
    cbn [map load_fields fst snd q_al q_sz q_op] in E. rewrite Ha, bind_lift_ok, align_to_up, up_to_id in E by assumption.
    unfold u32 in E. rewrite N.mod_small, bind_lift_ok in E by exact Hp.
    apply bind_inv in E. destruct E as (v & s1 & Ev & E).
    destruct (N.eq_dec sz 0) as [->|Hn]; [|eapply (H1 a sz); try eassumption; lia].
    rewrite (Hsz Hs2), bind_lift_ok in E. unfold add32 in E. rewrite N.add_0_r, N.mod_small in E by exact Hp.
    destruct (load_gives cx t Hwf1 p s _ s1 G Ev) as (Em & _ & _).
    unfold cap. rewrite <- Em. assert (G1 : good s1) by (unfold good; rewrite Em; exact G).
    exact (IH ls' p _ s1 r s' H2 Hwf2 G1 eq_refl Hd2 Hp Hend Hlt E).
Qed.

Lemma size_flags_sp : forall ls, size_flags ls = Ok (snd (sp_flags (List.length ls))) ->
  forall p s v s', p < two32 -> 0 < snd (sp_flags (List.length ls)) -> load_flags ls p s = (Ok v, s') -> p < cap s.
Proof.
  intros ls Hs p s v s' Hp Hpos E. unfold load_flags in E. rewrite Hs, bind_lift_ok in E.
  apply bind_inv in E. destruct E as (x & s1 & E & _). unfold load_int_with_size in E.
  repeat match type of E with (if ?x =? ?y then _ else _) _ = _ => destruct (N.eqb_spec x y) as [Ex|] end;
    [lia| | | | |discriminate E]; (eapply int_touches; [exact Hp|..|exact E]; try reflexivity; try lia; exact I).
Qed.

Lemma touches_all : forall cx t, touches cx t.
Proof.
  intros cx t. induction t using valtype_ind'; intros al sz p s v s' Hl Hwf G Hsz Hlt Hd Hp E; try discriminate Hl.
  all: try (injection Hl as <- <-; cbn [load] in E).
  all: try (eapply int_touches; [exact Hp|..|exact E]; try reflexivity; try lia; exact I).
  - unfold load_bool in E. apply bind_inv in E. destruct E as (x & s1 & E & _).
    eapply int_touches; [exact Hp|..|exact E]; try reflexivity; try lia; exact I.
  - unfold load_f32 in E. apply bind_inv in E. destruct E as (x & s1 & E & _). eapply u32_touches; eassumption.
  - unfold load_f64, load_u64 in E. apply bind_inv in E. destruct E as (x & s1 & E & _).
    apply bind_inv in E. destruct E as (y & s2 & E & _).
    eapply int_touches; [exact Hp|..|exact E]; try reflexivity; try lia; exact I.
  - unfold load_char in E. apply bind_inv in E. destruct E as (x & s1 & E & _).
    eapply int_touches; [exact Hp|..|exact E]; try reflexivity; try lia; exact I.
  - unfold load_string in E. apply bind_inv in E. destruct E as (x & s1 & E & _). eapply u32_touches; eassumption.
  - unfold load_list in E. apply bind_inv in E. destruct E as (x & s1 & E & _). eapply u32_touches; eassumption.
  - cbn [wf_type] in Hwf. destruct Hwf as [_ Hwt]. apply all_Forall in Hwt.
    assert (Hl' := Hl). cbn [sp_layout] in Hl'.
    destruct (all_some (map (fun f => sp_layout (snd f)) fs)) as [ls|] eqn:El; [|discriminate].
    assert (Hr : sp_record ls = (al, sz)) by (cbn [bindo] in Hl'; congruence).
    pose proof (all_some_valid snd fs ls El) as Hv. pose proof (sp_record_end ls Hv) as Hend. rewrite Hr in Hend. cbn [snd] in Hend.
    assert (Hdv : Forall (fun l : layout => (fst l | p)) ls).
    { apply fields_base_div; [assumption|]. replace (max_align ls) with al by (injection Hr; auto). assumption. }
    cbn [load] in E. unfold load_record in E. apply bind_inv in E. destruct E as (r & s1 & E & _).
    eapply (fields_touch cx fs ls); try eassumption; [|lia].
    destruct (N.eq_dec (fields_end 0 ls) 0) as [Z|]; [|lia]. exfalso.
    injection Hr as Ha Hs. rewrite Z in Hs. destruct (sp_layout_facts _ _ _ Hl) as (_ & Hva & _).
    rewrite up_to_id in Hs; [lia|rewrite Ha; apply valid_align_nz; exact Hva|apply N.divide_0_r].
  - assert (Hl' := Hl). cbn [sp_layout] in Hl'.
    destruct (all_some (payload_types (map (map_case sp_layout) cs))) as [ls|] eqn:El; [|discriminate].
    cbn [bindo] in Hl'. destruct (sp_variant_inv _ _ _ _ Hl') as (d & dt & Hdz & Hdt & Hss & Hvd & Ea & Esz & Hcase & Hpos).
    cbn [load] in E. unfold load_variant in E. rewrite map_length, Hdt, bind_lift_ok in E.
    apply bind_inv in E. destruct E as (x & s1 & E & _).
    destruct Hcase as [(-> & -> & _)|[(-> & -> & _)|(-> & -> & _)]];
      (eapply int_touches; [exact Hp|..|exact E]; try reflexivity; try lia; exact I).
  - destruct (sp_layout_facts _ _ _ Hl) as (_ & _ & _ & Hs). specialize (Hs Hlt). cbn [size] in Hs.
    assert (Ef : sz = snd (sp_flags (List.length ls))) by (cbn [sp_layout] in Hl; injection Hl as Hl; rewrite Hl; reflexivity).
    rewrite Ef in *. cbn [load] in E. eapply size_flags_sp; eassumption.
  - apply bind_inv in E. destruct E as (x & s1 & E & _). eapply u32_touches; eassumption.
  - apply bind_inv in E. destruct E as (x & s1 & E & _). eapply u32_touches; eassumption.
  - rewrite <- sp_layout_despecialize in Hl. apply wf_despecialize in Hwf. rewrite <- load_despecialize in E.
    eapply IHt; eassumption.
Qed.

(** ** Texts *)
Lemma tagged_word : forall w, w < two32 -> u32_to_tagged w = mkTagged (w mod 2 ^ 31) (2 ^ 31 <=? w).
Proof.
  intros w B2. destruct (N.leb_spec (2 ^ 31) w) as [Hw|Hw].
  - assert (Hu : w - 2 ^ 31 < 2 ^ 31) by (unfold two32 in B2; change (2 ^ 31) with 2147483648 in *; lia).
    assert (Em : w mod 2 ^ 31 = w - 2 ^ 31).
    { replace w with (w - 2 ^ 31 + 1 * 2 ^ 31) at 1 by lia. rewrite N.mod_add by discriminate. apply N.mod_small. exact Hu. }
    rewrite Em.
    assert (Ew : w = tagged_to_u32 (mkTagged (w - 2 ^ 31) true)).
    { unfold tagged_to_u32. cbn [tcu_utf16 tcu_units]. change utf16_tag with (2 ^ 31).
      assert (D : N.land (w - 2 ^ 31) (2 ^ 31) = 0).
      { apply N.bits_inj. intros i. rewrite N.land_spec, N.pow2_bits_eqb, N.bits_0.
        destruct (N.eqb_spec 31 i) as [<-|]; [rewrite (bit31 _ Hu) by lia; reflexivity|apply andb_false_r]. }
      rewrite <- N.lxor_lor by exact D. rewrite <- N.add_nocarry_lxor by exact D. lia. }
    rewrite Ew at 1. apply tag_bits. exact Hu.
  - rewrite N.mod_small by exact Hw. exact (tag_bits w false Hw).
Qed.

Lemma bounds_inv : forall e p n s s', good s -> check_bounds e p n s = (Ok tt, s') -> s' = s /\ add32 p n <= len s.
Proof.
  intros e p n s s' G E. unfold check_bounds, bind, get_mem in E. rewrite mem_len32_ok in E by exact G.
  fold (len s) in E. destruct (N.ltb_spec (len s) (add32 p n)); [discriminate|]. injection E as <-. auto.
Qed.

Lemma aligned_inv : forall e p a s s', valid_align a -> p < two32 -> check_aligned e p a s = (Ok tt, s') -> s' = s /\ (a | p).
Proof.
  intros e p a s s' Ha Hp E. destruct (N.eq_dec (p mod a) 0) as [Z|Z].
  - apply N.mod_divide in Z; [|apply valid_align_nz; exact Ha]. rewrite check_aligned_ok in E by assumption. injection E as <-. auto.
  - rewrite check_aligned_bad in E; [discriminate|exact Ha|]. intros D. apply Z, N.mod_divide; [apply valid_align_nz; exact Ha|exact D].
Qed.

Lemma reach_text : forall cx st w s v s', good s -> st < two32 -> w < two32 ->
  load_string_from_range cx st w s = (Ok v, s') -> text_inside (cx_enc cx) (s_mem s) st w.
Proof.
  intros cx st w s v s' G Hst Hw E c n Hf. unfold load_string_from_range in E. rewrite (tagged_word w Hw) in E. cbn [tcu_utf16 tcu_units] in E.
  apply bind_inv in E. destruct E as (c' & s0 & Ec & E).
  assert (Ec' : c' = c /\ s0 = s /\ n mod 2 ^ 31 = w mod 2 ^ 31).
  { unfold lift_o in Ec. pose proof (f_equal fst Ec) as Ef. pose proof (f_equal snd Ec) as Es. cbn [fst snd] in Ef, Es. clear Ec.
    split; [|split; [congruence|]]; destruct (cx_enc cx); cbn [text_form] in Hf; try discriminate Hf;
      try (cbn [get_codec] in Ef; congruence).
    - destruct (N.leb_spec (2 ^ 31) w) as [H|H]; destruct (N.ltb_spec w (2 ^ 31)); try lia; cbn [get_codec] in Ef; congruence.
    - destruct (N.ltb_spec w (2 ^ 31)); [congruence|]. replace n with (w - 2 ^ 31) by congruence.
      replace w with (w - 2 ^ 31 + 1 * 2 ^ 31) at 2 by lia. rewrite N.mod_add by discriminate. reflexivity. }
  destruct Ec' as (-> & -> & En). rewrite En. clear Ec En Hf.
  assert (Hm : w mod 2 ^ 31 < 2 ^ 31) by (apply N.mod_lt; discriminate). set (u := w mod 2 ^ 31) in *. clearbody u.
  assert (Es : codec_rune_size c = N.of_nat (unit_width c)) by (destruct c; reflexivity).
  assert (Em : mul32 u (codec_rune_size c) = u * codec_rune_size c).
  { unfold mul32. apply N.mod_small. change (2 ^ 31) with 2147483648 in Hm. unfold two32. destruct c; cbn [codec_rune_size]; lia. }
  assert (Hn32 : u * codec_rune_size c < two32) by (change (2 ^ 31) with 2147483648 in Hm; unfold two32; destruct c; cbn [codec_rune_size]; lia).
  rewrite Em in E. rewrite <- Es. apply bind_inv in E. destruct E as ([] & s1 & Ea & E).
  apply aligned_inv in Ea; [|apply codec_alignment_valid|exact Hst]. destruct Ea as [-> _].
  apply bind_inv in E. destruct E as ([] & s2 & Eb & E). apply bounds_inv in Eb; [|exact G]. destruct Eb as [-> Hb].
  apply bind_inv in E. destruct E as (m & s3 & Eg & E). injection Eg as <- <-.
  apply bind_inv in E. destruct E as (bs & s4 & Eo & _).
  assert (Eo' : mem_slice (s_mem s) st (add32 st (u * codec_rune_size c)) = Ok bs) by (unfold lift_o in Eo; congruence).
  unfold mem_slice in Eo'. destruct (N.leb_spec st (add32 st (u * codec_rune_size c))) as [H1|]; [|discriminate]. clear Eo Eo'.
  set (k := u * codec_rune_size c) in *. clearbody k. unfold len, add32, two32 in *.
  destruct (N.ltb_spec (st + k) 4294967296) as [H|H].
  - rewrite N.mod_small in Hb by exact H. exact Hb.
  - exfalso. replace (st + k) with (st + k - 4294967296 + 1 * 4294967296) in H1 by lia.
    rewrite N.mod_add in H1 by discriminate. rewrite N.mod_small in H1; lia.
Qed.

(** ** Lists *)
Definition reach (cx : callctx) (t : valtype) : Prop := forall a sz p s v s', sp_layout t = Some (a, sz) -> wf_type t -> good s ->
  roomy (cap s) t -> (a | p) -> p + sz <= len s -> load cx t p s = (Ok v, s') ->
  reached (s_mem s) (text_inside (cx_enc cx) (s_mem s)) (list_inside (s_mem s)) t p.

Lemma elem_add : forall st i sz, st + i * sz < two32 -> add32 st (mul32 i sz) = st + i * sz.
Proof. intros st i sz H. unfold add32, mul32. rewrite (N.mod_small (i * sz)) by lia. apply N.mod_small. exact H. Qed.

(** Every element is looked at. *)
Lemma elems_touch : forall cx t a sz st n i s l s', sp_layout t = Some (a, sz) -> wf_type t -> good s -> 0 < sz -> sz < two32 ->
  (a | st) -> cap s + sz <= two32 -> st + i * sz < two32 ->
  load_elems n (load cx t) st sz i s = (Ok l, s') ->
  forall k, (k < n)%nat -> st + (i + N.of_nat k) * sz < cap s /\
    exists sk v sk', s_mem sk = s_mem s /\ load cx t (st + (i + N.of_nat k) * sz) sk = (Ok v, sk').
Proof.
  intros cx t a sz st n. induction n as [|n IH]; intros i s l s' Hl Hwf G Hsz Hlt Hd Hc Hi E k Hk; [lia|].
  destruct (sp_layout_facts _ _ _ Hl) as (_ & Hva & Hdv & _).
  cbn [load_elems] in E. rewrite elem_add in E by exact Hi. apply bind_inv in E. destruct E as (v & s1 & Ev & E).
  assert (Ht : st + i * sz < cap s).
  { eapply (touches_all cx t a sz); try eassumption. apply N.divide_add_r; [exact Hd|]. apply N.divide_mul_r. exact Hdv. }
  destruct k as [|k].
  - rewrite N.add_0_r. split; [exact Ht|]. eauto.
  - apply bind_inv in E. destruct E as (vs & s2 & E & _).
    destruct (load_gives cx t Hwf _ s _ s1 G Ev) as (Em & _ & _).
    assert (Ecap : cap s1 = cap s) by (unfold cap; rewrite Em; reflexivity).
    replace (i + N.of_nat (S k)) with (i + 1 + N.of_nat k) by lia.
    destruct (IH (i + 1) s1 vs s2 Hl Hwf) with (k := k) as (H1 & sk & vk & sk' & Ek & Hk'); try assumption; try lia.
    + unfold good. rewrite Em. exact G.
    + split; [rewrite <- Ecap; exact H1|]. exists sk, vk, sk'. split; [congruence|exact Hk'].
Qed.

Lemma elems_each : forall cx t st sz n i s l s', wf_type t -> good s -> (i + N.of_nat n) * sz + st < two32 \/ sz = 0 /\ st < two32 ->
  load_elems n (load cx t) st sz i s = (Ok l, s') -> List.length l = n /\
  forall k, (k < n)%nat -> exists sk v sk', s_mem sk = s_mem s /\ load cx t (st + (i + N.of_nat k) * sz) sk = (Ok v, sk').
Proof.
  intros cx t st sz n. induction n as [|n IH]; intros i s l s' Hwf G Hi E; [split; [|lia]; cbn in E; unfold ret in E; injection E as <- _; reflexivity|].
  cbn [load_elems] in E. rewrite elem_add in E by nia. apply bind_inv in E. destruct E as (v & s1 & Ev & E).
  apply bind_inv in E. destruct E as (vs & s2 & E & El). unfold ret in El. injection El as <- _.
  destruct (load_gives cx t Hwf _ s _ s1 G Ev) as (Em & _ & _).
  destruct (IH (i + 1) s1 vs s2 Hwf) as [Hn Hk]; [unfold good; rewrite Em; exact G| |exact E|].
  { destruct Hi as [Hi|Hi]; [left|right; exact Hi]. nia. }
  split; [cbn; rewrite Hn; reflexivity|]. intros [|k] H.
  - rewrite N.add_0_r. eauto.
  - destruct (Hk k ltac:(lia)) as (sk & vk & sk' & E1 & E2). exists sk, vk, sk'. split; [congruence|].
    replace (i + N.of_nat (S k)) with (i + 1 + N.of_nat k) by lia. exact E2.
Qed.

Lemma reach_items : forall cx t a sz st n s v s', reach cx t -> sp_layout t = Some (a, sz) -> wf_type t -> good s -> st < two32 -> sz < two32 ->
  roomy (cap s) t -> cap s + sz <= two32 ->
  load_list_from_range (Ok a) (Ok sz) (load cx t) st n s = (Ok v, s') ->
  list_reached (list_inside (s_mem s)) (sp_layout t, reached (s_mem s) (text_inside (cx_enc cx) (s_mem s)) (list_inside (s_mem s)) t) st n
  /\ exists l, v = VList l /\ N.of_nat (List.length l) = n.
Proof.
  intros cx t a sz st n s v s' IH Hl Hwf G Hst Hsz Hr Hc E.
  destruct (sp_layout_facts _ _ _ Hl) as (_ & Hva & Hdv & _).
  unfold load_list_from_range in E. rewrite bind_lift_ok in E.
  apply bind_inv in E. destruct E as ([] & s1 & Ea & E). apply aligned_inv in Ea; [|exact Hva|exact Hst]. destruct Ea as [-> Hal].
  rewrite bind_lift_ok in E. apply bind_inv in E. destruct E as ([] & s2 & Eb & E). apply bounds_inv in Eb; [|exact G]. destruct Eb as [-> Hb].
  apply bind_inv in E. destruct E as (l & s3 & E & Ev). unfold ret in Ev. injection Ev as <- _.
  assert (Hin : st + n * sz <= len s).
  { assert (Hw : st + n * sz < two32 -> st + n * sz <= len s) by (intros W; rewrite elem_add in Hb by exact W; exact Hb).
    destruct (N.eq_dec n 0) as [->|Hn]; [apply Hw; lia|].
    destruct (N.eq_dec sz 0) as [->|Hz]; [apply Hw; lia|].
    destruct (elems_touch cx t a sz st (N.to_nat n) 0 s l s3 Hl Hwf G ltac:(lia) Hsz Hal Hc ltac:(lia) E (N.to_nat n - 1)) as [Hk _]; [lia|].
    assert (En : (0 + N.of_nat (N.to_nat n - 1)) * sz + sz = n * sz).
    { replace n with (N.of_nat (N.to_nat n - 1) + 1) at 2 by lia. lia. }
    apply Hw. lia. }
  assert (Hlen : len s < two32) by apply G.
  destruct (elems_each cx t st sz (N.to_nat n) 0 s l s3 Hwf G ltac:(left; rewrite N.add_0_l, N2Nat.id; lia) E) as [Hn Hk].
  split; [|exists l; split; [reflexivity|lia]].
  intros a' sz' E'. cbn [fst] in E'. rewrite Hl in E'. injection E' as <- <-. split; [exact Hin|]. intros i Hi. cbn [snd].
  destruct (Hk (N.to_nat i) ltac:(lia)) as (sk & vk & sk' & Em & Ek). rewrite N.add_0_l, N2Nat.id in Ek. rewrite <- Em.
  eapply (IH a sz); [exact Hl|exact Hwf|unfold good; rewrite Em; exact G|unfold cap; rewrite Em; exact Hr| | |exact Ek].
  - apply N.divide_add_r; [exact Hal|]. apply N.divide_mul_r. exact Hdv.
  - unfold len in *. rewrite Em. nia.
Qed.

Lemma reach_string : forall cx, reach cx TString.
Proof.
  intros cx a sz p s v s' Hl _ G _ _ Hp E. injection Hl as <- <-. cbn [reached].
  assert (Hlen : len s < two32) by apply G.
  pose proof (number_lt 4 (s_mem s) p G) as B1. pose proof (number_lt 4 (s_mem s) (p + 4) G) as B2.
  change (256 ^ N.of_nat 4) with two32 in B1, B2.
  assert (Ep : add32 p 4 = p + 4) by (unfold add32; rewrite N.mod_small; lia).
  cbn [load] in E. unfold load_string in E. rewrite Ep in E.
  erewrite bind_ok in E by (apply number_u32; [exact G|lia]). erewrite bind_ok in E by (apply number_u32; [exact G|lia]).
  eapply reach_text; eassumption.
Qed.

Lemma load_list_ranges : forall cx t a sz p s, sp_layout t = Some (a, sz) -> sz < two32 -> good s -> p + 8 <= len s ->
  load cx (TList t) p s = load_list_from_range (Ok a) (Ok sz) (load cx t) (number (s_mem s) p 4) (number (s_mem s) (p + 4) 4) s.
Proof.
  intros cx t a sz p s Hlt Hsz G Hp. assert (Hlen : len s < two32) by apply G.
  assert (Ep : add32 p 4 = p + 4) by (unfold add32; rewrite N.mod_small; lia).
  destruct (sp_layout_facts _ _ _ Hlt) as (Ha & _ & _ & Hs). specialize (Hs Hsz).
  cbn [load]. unfold load_list. rewrite Ep, Ha, Hs.
  erewrite bind_ok by (apply number_u32; [exact G|lia]). erewrite bind_ok by (apply number_u32; [exact G|lia]). reflexivity.
Qed.

Lemma reach_list : forall cx t, reach cx t -> reach cx (TList t).
Proof.
  intros cx t IH a sz p s v s' Hl Hwf G Hr _ Hp E. injection Hl as <- <-.
  destruct Hwf as [Hwf (a & sz & Hlt & Hsz)]. cbn [reached]. destruct Hr as [Hr1 Hr2].
  pose proof (number_lt 4 (s_mem s) p G) as B1. change (256 ^ N.of_nat 4) with two32 in B1.
  rewrite (load_list_ranges cx t a sz) in E by assumption.
  eapply (reach_items cx t a sz); try eassumption. apply (Hr1 a sz Hlt).
Qed.

Lemma reach_fields : forall cx fs ls pos base acc s r s',
  Forall (fun f => reach cx (snd f)) fs -> Forall (fun f => wf_type (snd f)) fs -> good s ->
  Forall (fun f => roomy (cap s) (snd f)) fs ->
  all_some (map (fun f => sp_layout (snd f)) fs) = Some ls ->
  Forall (fun l : layout => (fst l | base)) ls -> base + fields_end pos ls <= len s ->
  load_at (map (fun f => (fst f, load cx (snd f))) fs) (map (N.add base) (field_offsets pos ls)) acc s = (Ok r, s') ->
  Forall2 (fun f o => reached (s_mem s) (text_inside (cx_enc cx) (s_mem s)) (list_inside (s_mem s)) (snd f) (base + o)) fs (field_offsets pos ls).
Proof.
  intros cx fs. induction fs as [|[l t] fs IH]; intros ls pos base acc s r s' Hrd Hwf G Hr Hs Hdv Hend E.
  - cbn in Hs. injection Hs as <-. constructor.
  - change (all_some (sp_layout t :: map (fun f => sp_layout (snd f)) fs) = Some ls) in Hs.
    cbn [all_some] in Hs. destruct (sp_layout t) as [[a sz]|] eqn:Et; [|discriminate].
    destruct (all_some (map (fun f => sp_layout (snd f)) fs)) as [ls'|] eqn:El; [|discriminate]. injection Hs as <-.
    inversion Hrd as [|? ? Hrd1 Hrd2]; subst. inversion Hwf as [|? ? Hwf1 Hwf2]; subst. inversion Hr as [|? ? Hr1 Hr2]; subst.
    inversion Hdv as [|? ? Hdv1 Hdv2]; subst. cbn [fst snd] in *.
    cbn [field_offsets] in *. pose proof (all_some_valid snd fs ls' El) as Hv.
    cbn [fields_end] in Hend. pose proof (fields_end_ge ls' (up_to a pos + sz) Hv).
    cbn [map load_at fst snd] in E. apply bind_inv in E. destruct E as (v & s1 & Ev & E).
    destruct (load_gives cx t Hwf1 _ s _ s1 G Ev) as (Em & _ & _).
    constructor.
    + eapply (Hrd1 a sz); try eassumption; [|cbn [snd]; lia]. cbn [snd]. apply N.divide_add_r; [assumption|apply up_to_div].
    + rewrite <- Em. unfold cap in Hr2. rewrite <- Em in Hr2.
      apply (IH ls' _ base (map_set acc l v) s1 r s'); try assumption; [unfold good; rewrite Em; exact G|reflexivity|unfold len in *; rewrite Em; lia].
Qed.

Lemma reach_record : forall cx fs, Forall (fun f => reach cx (snd f)) fs -> reach cx (TRecord fs).
Proof.
  intros cx fs H a sz p s v s' Hl Hwf G Hr Hd Hp E.
  cbn [wf_type] in Hwf. destruct Hwf as [Hnd Hwt]. apply all_Forall in Hwt.
  assert (Hl' := Hl). cbn [sp_layout] in Hl'.
  destruct (all_some (map (fun f => sp_layout (snd f)) fs)) as [ls|] eqn:El; [|discriminate].
  assert (Hr' : sp_record ls = (a, sz)) by (cbn [bindo] in Hl'; congruence).
  pose proof (all_some_valid snd fs ls El) as Hv. pose proof (sp_record_end ls Hv) as Hend. rewrite Hr' in Hend. cbn [snd] in Hend.
  assert (Hdv : Forall (fun l : layout => (fst l | p)) ls).
  { apply fields_base_div; [assumption|]. replace (max_align ls) with a by (injection Hr'; auto). assumption. }
  assert (Hlen : len s < two32) by apply G.
  rewrite (record_load_offsets cx fs ls) in E by (try assumption; rewrite Hr'; cbn [fst snd]; try assumption; lia).
  apply bind_inv in E. destruct E as (m & s1 & E & _).
  cbn [reached]. intros ls' El'. rewrite map_map in El'. cbn [fst snd] in El'. assert (ls' = ls) as -> by congruence.
  rewrite Forall2_map_l. cbn [fst snd]. cbn [roomy] in Hr. apply free_all in Hr.
  eapply reach_fields; try eassumption. lia.
Qed.

Lemma reach_variant : forall cx cs, Forall (fun c => opt_all (reach cx) (c_type c)) cs -> reach cx (TVariant cs).
Proof.
  intros cx cs H a sz p s v s' Hl Hwf G Hr Hd Hp E.
  cbn [wf_type] in Hwf. destruct Hwf as [(Hnd & Hbf & Hre) Hwt]. apply all_Forall in Hwt.
  assert (Hl' := Hl). cbn [sp_layout] in Hl'.
  destruct (all_some (payload_types (map (map_case sp_layout) cs))) as [ls|] eqn:El; [|discriminate].
  cbn [bindo] in Hl'. destruct (sp_variant_inv _ _ _ _ Hl') as (d & dt & Hdz & _ & _ & Hvd & Ea & Esz & Hcase & Hpos).
  destruct (variant_payload_placed _ _ _ _ _ El Hl Hdz) as (Hpo & _ & Hda & Hpl).
  destruct (sp_layout_facts _ _ _ Hl) as (Ha & Hva & _ & Hs).
  pose proof (up_to_ge a (payload_offset d ls + max_size ls) (valid_align_nz _ Hva)) as Hup.
  assert (Hlen : len s < two32) by apply G.
  rewrite (variant_load_offsets cx cs ls a sz d) in E by (assumption || lia).
  erewrite bind_ok in E by (apply number_load; [exact G|lia]).
  cbn [reached]. intros d' ls' c' Hd' El' Hn. rewrite map_length in Hd'. assert (d' = d) as -> by congruence.
  rewrite nth_error_map in Hn. destruct (nth_error cs _) as [c|] eqn:Ei in Hn; [|discriminate]. injection Hn as <-.
  rewrite Ei in E. cbn. destruct (c_type c) as [t|] eqn:Et; [|exact I]. cbn [snd].
  rewrite (payload_types_map (fun t => (sp_layout t, reached (s_mem s) (text_inside (cx_enc cx) (s_mem s)) (list_inside (s_mem s)) t)) fst) in El'.
  cbn [fst] in El'.
  assert (Ell : ls' = ls) by (apply (f_equal (fun x => match x with Some y => y | None => [] end)) in El; rewrite <- El; symmetry; exact (f_equal (fun x => match x with Some y => y | None => [] end) El')). subst ls'.
  assert (Hic : In c cs) by (eapply nth_error_In; exact Ei).
  assert (Hlab : exists l, case_label c cs = Ok l).
  { apply case_label_ends. rewrite Forall_forall in Hre. auto. }
  destruct Hlab as [l Hlab]. rewrite Hlab, bind_lift_ok in E. apply bind_inv in E. destruct E as (x & s1 & E & _).
  destruct (payload_layout _ _ _ _ El Hic Et) as ([pa ps] & Hpt & _).
  destruct (Hpl c t pa ps Hic Et Hpt) as (Hpd & Hpa & Hin).
  rewrite Forall_forall in H. specialize (H c Hic). rewrite Et in H.
  rewrite Forall_forall in Hwt. specialize (Hwt c Hic). rewrite Et in Hwt.
  cbn [roomy] in Hr. apply free_all in Hr. rewrite Forall_forall in Hr. specialize (Hr c Hic). rewrite Et in Hr.
  eapply (H pa ps); try eassumption; [|lia]. apply N.divide_add_r; [|assumption]. eapply N.divide_trans; eassumption.
Qed.

Lemma reached_despecialize : forall m T L t p, reached m T L (despecialize t) p <-> reached m T L t p.
Proof.
  destruct t; intros p; try reflexivity; cbn [despecialize reached].
  - rewrite (map_itoa_fields (fun t => (sp_layout t, reached m T L t))). reflexivity.
  - rewrite map_enum_cases. reflexivity.
  - rewrite map_itoa_cases. reflexivity.
Qed.

Lemma roomy_despecialize : forall k t, roomy k t -> roomy k (despecialize t).
Proof.
  intros k t H. destruct t; cbn [despecialize roomy] in *; auto.
  - apply free_all in H. apply all_free. unfold itoa_fields. generalize 0. revert H.
    induction 1; intros j; cbn; [constructor|constructor; cbn; auto].
  - apply all_free. unfold enum_cases. apply Forall_map. apply Forall_forall. cbn. auto.
  - cbn. auto.
  - cbn. destruct H. destruct ok, err; cbn; auto.
  - apply free_all in H. apply all_free. unfold itoa_cases. generalize 0. revert H.
    induction 1; intros j; cbn; [constructor|constructor; cbn; auto].
Qed.

Lemma reach_all : forall cx t, reach cx t.
Proof.
  intros cx t. induction t using valtype_ind';
    [ | | | | | | | | | | | |apply reach_string|apply reach_list; assumption|apply reach_record; assumption
     |apply reach_variant; assumption| | | | | ]; intros al sz p s v s' Hl Hwf G Hr Hd Hp E; try exact I.
  rewrite <- sp_layout_despecialize in Hl. apply wf_despecialize in Hwf. apply roomy_despecialize in Hr.
  rewrite <- load_despecialize in E. apply reached_despecialize. eapply IHt; eassumption.
Qed.

(** ** Combining what is reached *)
Section Combine.
  Variable m : memory.
  Variables T1 T2 T3 : N -> N -> Prop.
  Variables L1 L2 L3 : N -> N -> N -> Prop.
  Hypothesis HT : forall st w, w < two32 -> T1 st w -> T2 st w -> T3 st w.
  Hypothesis HL : forall st n sz, L1 st n sz -> L2 st n sz -> L3 st n sz.
  Hypothesis Hm : wf_mem m.

  Lemma combine_list : forall (e : option layout) (P1 P2 P3 : N -> Prop) st n, (forall p, P1 p -> P2 p -> P3 p) ->
    list_reached L1 (e, P1) st n -> list_reached L2 (e, P2) st n -> list_reached L3 (e, P3) st n.
  Proof.
    intros e P1 P2 P3 st n H H1 H2 a sz E. destruct (H1 a sz E) as [A1 B1]. destruct (H2 a sz E) as [A2 B2].
    split; [auto|]. intros i Hi. apply H; [apply B1|apply B2]; exact Hi.
  Qed.

  Lemma combine_fields : forall (fs : list (string * valtype)) p, Forall (fun f => forall p, reached m T1 L1 (snd f) p -> reached m T2 L2 (snd f) p -> reached m T3 L3 (snd f) p) fs ->
    forall os, Forall2 (fun f o => reached m T1 L1 (snd f) (p + o)) fs os -> Forall2 (fun f o => reached m T2 L2 (snd f) (p + o)) fs os ->
    Forall2 (fun f o => reached m T3 L3 (snd f) (p + o)) fs os.
  Proof.
    intros fs p H. induction H as [|f fs H0 H IH]; intros os H1 H2; inversion H1; subst; [constructor|].
    inversion H2; subst. constructor; [apply H0; assumption|apply IH; assumption].
  Qed.

  Lemma reached_combine : forall t p, reached m T1 L1 t p -> reached m T2 L2 t p -> reached m T3 L3 t p.
  Proof.
    intros t. induction t using valtype_ind'; intros p H1 H2; try exact I.
    - cbn [reached] in *. apply HT; try assumption. pose proof (number_lt 4 m (p + 4) Hm). assumption.
    - cbn [reached] in *. eapply combine_list; eassumption.
    - cbn [reached] in *. unfold rec_addressable in *. intros ls E. specialize (H1 ls). specialize (H2 ls).
      rewrite !map_map in *. cbn [fst snd] in *. specialize (H1 E). specialize (H2 E). rewrite Forall2_map_l in *. cbn [fst snd] in *.
      apply combine_fields; assumption.
    - cbn [reached] in *. intros d ls c Hd El Hn. specialize (H1 d ls). specialize (H2 d ls). rewrite map_length in *.
      rewrite nth_error_map in Hn. destruct (nth_error cs _) as [c0|] eqn:Ei in Hn; [|discriminate]. injection Hn as <-.
      rewrite (payload_types_map _ fst) in El. rewrite (payload_types_map _ fst) in H1. rewrite (payload_types_map _ fst) in H2. cbn [fst] in El, H1, H2. rewrite nth_error_map in H1, H2. rewrite Ei in H1, H2.
      specialize (H1 _ Hd El eq_refl). specialize (H2 _ Hd El eq_refl). cbn in H1, H2 |- *.
      assert (Hic : In c0 cs) by (eapply nth_error_In; exact Ei). rewrite Forall_forall in H. specialize (H c0 Hic).
      destruct (c_type c0); [|exact I]. cbn [snd] in *. apply H; assumption.
    - apply reached_despecialize. apply IHt; apply reached_despecialize; assumption.
  Qed.
End Combine.

Lemma addressable_reached : forall enc m t p,
  reached m (string_addressable enc) (fun st n sz => st + n * sz < 2 ^ 32) t p -> addressable enc m t p.
Proof. intros enc m t p H. exact H. Qed.

Lemma short_inside : forall enc m st w, m_len m < two32 -> w < two32 -> text_inside enc m st w -> short_text enc w -> string_addressable enc st w.
Proof.
  intros enc m st w Hlen Hw A B. split; [exact B|]. intros c n E. specialize (A c n E).
  assert (Hn : n < 2 ^ 31).
  { destruct B as [->|B]; [|destruct enc; cbn [text_form] in E; try discriminate E; try (replace n with w by congruence; exact B);
      destruct (N.ltb_spec w (2 ^ 31)); [|lia]; replace n with w by congruence; exact B].
    cbn [text_form] in E. destruct (N.ltb_spec w (2 ^ 31)); [replace n with w by congruence; assumption|].
    replace n with (w - 2 ^ 31) by congruence. change (2 ^ 31) with 2147483648 in *. unfold two32 in Hw. lia. }
  rewrite N.mod_small in A by exact Hn. change (2 ^ 32) with two32. lia.
Qed.

(** What lies inside memory and whose texts are short is addressable. *)
Lemma inside_addressable : forall enc m t p, wf_mem m ->
  reached m (text_inside enc m) (list_inside m) t p -> reached m (fun _ w => short_text enc w) (fun _ _ _ => True) t p ->
  addressable enc m t p.
Proof.
  intros enc m t p W H1 H2. assert (Hlen : m_len m < two32) by apply W. apply addressable_reached.
  refine (reached_combine m _ _ _ _ _ _ _ _ W t p H1 H2).
  - intros st w Hw A B. eapply short_inside; eassumption.
  - intros st n sz A _. unfold list_inside in A. change (2 ^ 32) with two32. lia.
Qed.
