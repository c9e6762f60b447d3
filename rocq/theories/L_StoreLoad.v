(** The round trip through memory for every type. *)
From Coq Require Import NArith ZArith List String Ascii Bool Lia ZifyBool ZifyNat ZifyN.
From Verif Require Import GoBase M_Types M_Layout S_Layout L_Layout M_State M_Utf M_Load M_Store M_Flat
  S_Utf S_Values S_Memory S_Access L_Access L_Variant L_Labels L_Despecialize L_Mem L_Utf L_Flags L_Frame
  L_RoundTrip.
Import ListNotations.
Open Scope N_scope.
Open Scope go_scope.

(** Unsigned, signed, and the rest of the scalars. *)
Lemma unsigned_rt : forall cx init p n v x mx (mk : N -> any) (Q : state -> Prop),
  n = 1 \/ n = 2 \/ n = 4 \/ n = 8 -> x < 256 ^ n ->
  int_info v = Ok (mkInt x mx 0 false) -> x <= mx ->
  (forall s, load_uint n p s = (Ok x, s) -> Q s) ->
  writes cx init p n (store_int v p n false) (fun _ => Q).
Proof.
  intros cx init p n v x mx mk Q Hn Hx Hi Hm HQ.
  eapply writes_mono; [eapply writes_int; [tauto|exact Hi|apply int_check_unsigned; exact Hm]|].
  cbn beta. cbn [n_u64]. intros _ s _ _ E. rewrite N.mod_small in E by exact Hx. auto.
Qed.

Lemma signed_rt : forall cx init p n m k v z mx mn (Q : state -> Prop),
  n = 1 \/ n = 2 \/ n = 4 \/ n = 8 -> 256 ^ n = m -> two64 = m * k -> 0 < k -> N.even m = true ->
  int_info v = Ok (mkInt (of_signed two64 z) mx mn true) ->
  (- 9223372036854775808 <= mn)%Z -> (mn <= z <= Z.of_N mx)%Z -> mx < two63 ->
  (- Z.of_N (m / 2) <= z < Z.of_N (m / 2))%Z ->
  (forall s x, load_uint n p s = (Ok x, s) -> to_signed m x = z -> Q s) ->
  writes cx init p n (store_int v p n true) (fun _ => Q).
Proof.
  intros cx init p n m k v z mx mn Q Hn Hm Hk Hk0 He Hi Hmn Hz Hmx Hr HQ.
  assert (0 < m) by (destruct (N.eq_dec m 0) as [->|]; [rewrite N.mul_0_l in Hk; discriminate|lia]).
  eapply writes_mono; [eapply writes_int; [tauto|exact Hi|apply int_check_signed; assumption]|].
  cbn beta. cbn [n_u64]. intros _ s _ _ E. eapply HQ; [exact E|].
  rewrite Hm, Hk, of_signed_mod by lia. apply to_of_signed; assumption.
Qed.

Lemma flags_sizes : forall ls a sz, sp_layout (TFlags ls) = Some (a, sz) -> (List.length ls <= 64)%nat ->
  (sz = 0 \/ sz = 1 \/ sz = 2 \/ sz = 4 \/ sz = 8) /\ N.of_nat (List.length ls) <= 8 * sz.
Proof.
  intros ls a sz H Hl. assert (Hn : N.of_nat (List.length ls) <= 64) by lia. clear Hl. cbn [sp_layout] in H.
  unfold sp_flags in H. generalize dependent (N.of_nat (List.length ls)). intros n H Hn.
  destruct (N.eqb_spec n 0); [inversion H; subst; lia|].
  destruct (N.leb_spec n 8); [inversion H; subst; lia|].
  destruct (N.leb_spec n 16); [inversion H; subst; lia|].
  inversion H; subst. assert ((n + 31) / 32 = 1 \/ (n + 31) / 32 = 2) as [E|E] by lia; rewrite E; lia.
Qed.

Lemma Forall2_len : forall {A B} (R : A -> B -> Prop) l l', Forall2 R l l' -> List.length l = List.length l'.
Proof. intros A B R l l' H. induction H; cbn; congruence. Qed.

Lemma rec_flags : forall ls v, rec_has (map (fun l => (l, fun x => exists b, x = VBool b)) ls) v ->
  exists m bs, v = VMap m /\ Forall2 (flag_of m) ls bs.
Proof.
  intros ls v (m & -> & H). exists m. rewrite Forall_map in H. cbn [fst snd] in H.
  induction H as [|l ls' (x & Hx & b & ->) H (bs & _ & IH)].
  - exists []. split; [reflexivity|constructor].
  - exists (b :: bs). split; [reflexivity|]. constructor; [|apply IH]. unfold flag_of, map_any. rewrite Hx. reflexivity.
Qed.

Lemma rec_flags' : forall m ls bs, Forall2 (flag_of m) ls bs ->
  Forall (fun l => exists x, map_get m l = Some x) ls.
Proof.
  intros m ls bs H. induction H as [|l b ls' bs' Hl H IH]; constructor; [|assumption].
  unfold flag_of, map_any in Hl. destruct (map_get m l); [eauto|discriminate].
Qed.

Lemma flags_rt : forall cx init ls, rt_ok cx init (TFlags ls).
Proof.
  intros cx init ls a sz v p Hl [Hnd H64] Hty Hd Hp.
  destruct (flags_sizes _ _ _ Hl H64) as [Hsz Hbits].
  destruct (sp_layout_facts _ _ _ Hl) as (Ha & Hva & _ & Hs). specialize (Hs ltac:(lia)).
  change (store cx (TFlags ls) v p) with (guarded (alignment (TFlags ls)) (size (TFlags ls)) (store_flags ls) v p).
  eapply writes_guarded; [exact Ha|exact Hs|exact Hva|exact Hd|exact Hp|].
  destruct (rec_flags _ _ Hty) as (m & bs & -> & Hbs). cbn [store_flags].
  destruct (pack_bits m ls bs 0 0 Hbs) as (x & Hx & Hb); [lia|intros; apply N.bits_0|].
  eapply writes_lift; [exact Hx|]. eapply writes_lift; [exact Hs|].
  pose proof (Forall2_len _ _ _ Hbs) as Hlen.
  assert (Hx8 : x < 256 ^ sz).
  { change 256 with (2 ^ 8). rewrite <- N.pow_mul_r. apply bits_lt. intros i Hi. rewrite Hb.
    destruct (N.ltb_spec i 0); [lia|]. apply nth_overflow. lia. }
  assert (Hx64 : x <= 18446744073709551615).
  { assert (x < 2 ^ 64); [|change (2 ^ 64) with 18446744073709551616 in *; lia].
    apply bits_lt. intros i Hi. rewrite Hb. destruct (N.ltb_spec i 0); [lia|]. apply nth_overflow. lia. }
  eapply writes_mono; [eapply writes_int; [exact Hsz|reflexivity|apply int_check_unsigned; exact Hx64]|].
  cbn beta. cbn [n_u64]. intros _ s Hg Hls E. rewrite N.mod_small in E by exact Hx8.
  assert (LD : load cx (TFlags ls) p s = (Ok (VMap (unpack_flags x ls [])), s)).
  { cbn [load]. unfold load_flags. change (size_flags ls) with (size (TFlags ls)). rewrite Hs, bind_lift_ok.
    destruct Hsz as [->|[->|[->|[->| ->]]]]; unfold load_int_with_size; cbn [N.eqb Pos.eqb];
      [assert (x = 0) as -> by (cbn in Hx8; lia); reflexivity|cbn [load_int]; unfold bind; rewrite E; reflexivity..]. }
  eexists. split; [exact LD|]. cbn [same_value]. exists m, (unpack_flags x ls []).
  split; [reflexivity|]. split; [reflexivity|]. split.
  - apply Forall_map. cbn [fst snd]. apply Forall_forall. intros l Hin.
    apply In_nth_error in Hin. destruct Hin as [k Hk].
    exists (VBool (N.testbit x (N.of_nat k))), (VBool (N.testbit x (N.of_nat k))).
    split; [|split; [apply unpack_bits; assumption|reflexivity]].
    rewrite Hb. destruct (N.ltb_spec (N.of_nat k) 0); [lia|].
    replace (N.to_nat (N.of_nat k - 0)) with k by lia.
    clear - Hbs Hk. revert k Hk. induction Hbs as [|l' b ls' bs' Hl Hbs IH]; intros k Hk; [destruct k; discriminate|].
    destruct k as [|k]; cbn in Hk |- *.
    + inversion Hk; subst. unfold flag_of, map_any in Hl. destruct (map_get m l); [congruence|discriminate].
    + apply IH. assumption.
  - intros l Hl'. rewrite map_map. cbn [fst]. rewrite map_id.
    apply unpack_domain in Hl'. destruct Hl' as [|C]; [assumption|cbn in C; congruence].
Qed.

Lemma variant_rt : forall cx init cs,
  Forall (fun c => opt_all (rt_ok cx init) (c_type c)) cs -> rt_ok cx init (TVariant cs).
Proof.
  intros cx init cs H a sz v p Hl Hwf Hty Hd Hp.
  cbn [wf_type] in Hwf. destruct Hwf as [(Hnd & Hbf & Hre) Hwt]. apply all_Forall in Hwt.
  assert (Hl' := Hl). cbn [sp_layout] in Hl'.
  destruct (all_some (payload_types (map (map_case sp_layout) cs))) as [ls|] eqn:El; [|discriminate].
  cbn [bindo] in Hl'. destruct (sp_variant_inv _ _ _ _ Hl') as (d & dt & Hdz & _ & _ & Hvd & Ea & Esz & Hcase & Hpos).
  destruct (variant_payload_placed _ _ _ _ _ El Hl Hdz) as (Hpo & _ & Hda & Hpl).
  destruct (sp_layout_facts _ _ _ Hl) as (Ha & Hva & _ & Hs).
  pose proof (up_to_ge a (payload_offset d ls + max_size ls) (valid_align_nz _ Hva)) as Hup.
  assert (Hn : N.of_nat (List.length cs) < two32).
  { change (2 ^ 8) with 256 in *; change (2 ^ 16) with 65536 in *; change (2 ^ 24) with 16777216 in *; unfold two32; lia. }
  cbn [has_type] in Hty. destruct Hty as (key & x & i & c0 & -> & Hsel & Hi & Hx).
  rewrite map_map in Hsel. cbn [c_label map_case] in Hsel.
  rewrite nth_error_map in Hi. destruct (nth_error cs i) as [c|] eqn:Ei; [|discriminate]. injection Hi as <-.
  assert (Hic : In c cs) by (eapply nth_error_In; exact Ei).
  assert (Hil : (i < List.length cs)%nat) by (apply nth_error_Some; congruence).
  assert (Hdisc : N.of_nat i < 256 ^ d).
  { destruct Hcase as [(_ & -> & ?)|[(_ & -> & ?)|(_ & -> & ?)]].
    - change (256 ^ 1) with 256. change (2 ^ 8) with 256 in *. lia.
    - change (256 ^ 2) with 65536. change (2 ^ 16) with 65536 in *. lia.
    - change (256 ^ 4) with 4294967296. change (2 ^ 24) with 16777216 in *. lia. }
  assert (Hlab : exists l, case_label c cs = Ok l).
  { apply case_label_ends. rewrite Forall_forall in Hre. auto. }
  destruct Hlab as [l Hlab]. pose proof (case_label_selects cs c l i Hbf Ei Hlab) as Hls.
  pose proof (match_case_selects cs key x i Hnd Hn Hsel) as Hm.
  eapply writes_ext.
  { intros s Hg Hlen. apply (variant_store_offsets cx cs ls a sz d); try assumption.
    rewrite mem_len32_ok by assumption. exact Hlen. }
  rewrite Hm.
  eapply (writes_ext _ _ _ _ _ (store_uint d (N.of_nat i) p ;;
     match c_type c with Some t => store cx t x (p + payload_offset d ls) | None => ret tt end)).
  { intros s _ _. rewrite bind_lift_ok. rewrite Nat2N.id, Ei. reflexivity. }
  assert (LD : forall s v', load_uint d p s = (Ok (N.of_nat i), s) ->
    match c_type c with Some t => load cx t (p + payload_offset d ls) s = (Ok v', s) | None => v' = VNil end ->
    load cx (TVariant cs) p s = (Ok (VMap [(l, v')]), s)).
  { intros s v' E1 E2. rewrite (variant_load_offsets cx cs ls a sz d) by assumption.
    erewrite bind_ok; [|exact E1]. rewrite Nat2N.id, Ei, Hlab, bind_lift_ok.
    destruct (c_type c); [erewrite bind_ok; [|exact E2]; reflexivity|subst v'; reflexivity]. }
  assert (WD : writes cx init p d (store_uint d (N.of_nat i) p) (fun _ s => load_uint d p s = (Ok (N.of_nat i), s))).
  { eapply writes_mono; [apply (writes_uint cx init p d (N.of_nat i))|].
    - destruct Hcase as [(_ & -> & _)|[(_ & -> & _)|(_ & -> & _)]]; auto 6.
    - cbn beta. intros _ s _ _ E. rewrite N.mod_small in E by exact Hdisc. exact E. }
  assert (SV : forall v', match c_type c with Some t => same_value t x v' | None => v' = VNil end ->
     same_value (TVariant cs) (VMap [(key, x)]) (VMap [(l, v')])).
  { intros v' Hsv. cbn [same_value]. exists key, x, l, v', i, (map_case same_value c).
    rewrite !map_map. cbn [c_label map_case c_type]. repeat split; try assumption.
    - rewrite nth_error_map, Ei. reflexivity.
    - destruct (c_type c); assumption. }
  cbn [c_type map_case] in Hx. destruct (c_type c) as [t|] eqn:Et.
  - destruct (payload_layout _ _ _ _ El Hic Et) as ([pa ps] & Hpt & _).
    destruct (Hpl c t pa ps Hic Et Hpt) as (Hpd & Hpa & Hin).
    assert (IHc : rt_ok cx init t).
    { rewrite Forall_forall in H. specialize (H c Hic). rewrite Et in H. exact H. }
    eapply writes_mono.
    + eapply (writes_seq cx init p sz p d (p + payload_offset d ls) ps).
      * exact WD.
      * eapply IHc; [exact Hpt| |exact Hx| |lia].
        -- rewrite Forall_forall in Hwt. specialize (Hwt c Hic). rewrite Et in Hwt. exact Hwt.
        -- apply N.divide_add_r; [|assumption]. eapply N.divide_trans; eassumption.
      * unfold within. intros. lia.
      * lia.
      * unfold within. intros. lia.
      * lia.
      * unfold within. intros. lia.
    + cbn beta. intros _ s _ _ (E1 & v' & E2 & Sv). eexists. split; [apply LD; [exact E1|exact E2]|].
      apply SV. exact Sv.
  - eapply writes_mono.
    + eapply (writes_seq cx init p sz p d 0 0 _ _ _ (fun _ _ => True)).
      * exact WD.
      * apply writes_ret. auto.
      * unfold within. intros. lia.
      * lia.
      * unfold within. intros. lia.
      * lia.
      * unfold within. intros. lia.
    + cbn beta. intros _ s _ _ (E1 & _). eexists. split; [apply LD; [exact E1|reflexivity]|].
      apply SV. reflexivity.
Qed.

Lemma record_rt : forall cx init fs,
  Forall (fun f => rt_ok cx init (snd f)) fs -> rt_ok cx init (TRecord fs).
Proof.
  intros cx init fs H a sz v p Hl Hwf Hty Hd Hp.
  cbn [wf_type] in Hwf. destruct Hwf as [Hnd Hwt]. apply all_Forall in Hwt.
  assert (Hl' := Hl). cbn [sp_layout] in Hl'.
  destruct (all_some (map (fun f => sp_layout (snd f)) fs)) as [ls|] eqn:El; [|discriminate].
  assert (Hr : sp_record ls = (a, sz)) by (cbn [bindo] in Hl'; congruence).
  pose proof (all_some_valid snd fs ls El) as Hv. pose proof (sp_record_end ls Hv) as He. rewrite Hr in He. cbn [snd] in He.
  destruct Hty as (m & -> & Hf). rewrite Forall_map in Hf. cbn [fst snd] in Hf.
  assert (Hdv : Forall (fun l : layout => (fst l | p)) ls).
  { apply fields_base_div; [assumption|]. replace (max_align ls) with a by (injection Hr; auto). assumption. }
  eapply writes_ext.
  { intros s Hg Hlen. apply (record_store_offsets cx fs ls); try assumption; rewrite Hr; cbn [fst snd]; try assumption.
    rewrite mem_len32_ok by assumption. exact Hlen. }
  eapply writes_mono.
  - eapply writes_sub; [apply (writes_fields cx init m fs ls 0 p sz); assumption| |].
    + unfold within. intros. lia.
    + lia.
  - cbn beta. intros _ s _ _ HA. destruct (HA []) as (m' & Em & Hfl & Ho). exists (VMap m'). split.
    + rewrite (record_load_offsets cx fs ls) by (try assumption; rewrite Hr; assumption).
      erewrite bind_ok; [|exact Em]. reflexivity.
    + cbn [same_value]. exists m, m'. split; [reflexivity|]. split; [reflexivity|]. split.
      * apply Forall_map. exact Hfl.
      * intros l Hl1. rewrite map_map. cbn [fst]. destruct (in_dec string_dec l (map fst fs)); [assumption|].
        rewrite Ho in Hl1 by assumption. cbn in Hl1. congruence.
Qed.

Lemma rt_ok_all : forall cx init t, correct_allocator cx init -> rt_ok cx init t.
Proof.
  intros cx init t Hc. induction t using valtype_ind';
    [ | | | | | | | | | | | | | |apply record_rt; assumption|apply variant_rt; assumption|apply flags_rt| | | |
      intros al sz v p Hl Hwf Hty Hd Hp; rewrite <- sp_layout_despecialize in Hl; rewrite <- store_despecialize;
      apply has_type_despecialize in Hty; apply wf_despecialize in Hwf;
      eapply writes_mono; [eapply IHt; eassumption|];
      cbn beta; intros _ s _ _ (v' & E & S); exists v'; rewrite <- load_despecialize;
      split; [exact E|]; apply same_value_despecialize; exact S ];
    intros al sz v p Hl Hwf Hty Hd Hp; try contradiction; injection Hl as <- <-;
    unfold store; fold store;
    (eapply writes_guarded; [reflexivity|reflexivity|unfold valid_align; lia|exact Hd|exact Hp|]).
  - destruct Hty as (b & ->). cbn [store_bool].
    eapply (unsigned_rt cx init p 1 _ (if b then 1 else 0) 255 VU8); [lia|destruct b; reflexivity|reflexivity|destruct b; lia|].
    intros s E. exists (VBool b). split; [|reflexivity]. cbn [load]. unfold load_bool. cbn [load_int]. unfold bind.
    rewrite E. destruct b; reflexivity.
  - destruct Hty as (n & -> & Hn). change (2 ^ 8) with 256 in Hn.
    eapply (unsigned_rt cx init p 1 _ n 255 VU8); [lia|exact Hn|reflexivity|lia|].
    intros s E. exists (VU8 n). split; [|reflexivity]. cbn [load load_int]. unfold bind. rewrite E. reflexivity.
  - destruct Hty as (n & -> & Hn). change (2 ^ 16) with 65536 in Hn.
    eapply (unsigned_rt cx init p 2 _ n 65535 VU16); [lia|exact Hn|reflexivity|lia|].
    intros s E. exists (VU16 n). split; [|reflexivity]. cbn [load load_int]. unfold bind. rewrite E. reflexivity.
  - destruct Hty as (n & -> & Hn). change (2 ^ 32) with 4294967296 in Hn.
    eapply (unsigned_rt cx init p 4 _ n 4294967295 VU32); [lia|exact Hn|reflexivity|lia|].
    intros s E. exists (VU32 n). split; [|reflexivity]. cbn [load load_int]. unfold bind. rewrite E. reflexivity.
  - destruct Hty as (n & -> & Hn). change (2 ^ 64) with 18446744073709551616 in Hn.
    eapply (unsigned_rt cx init p 8 _ n 18446744073709551615 VU64); [lia|exact Hn|reflexivity|lia|].
    intros s E. exists (VU64 n). split; [|reflexivity]. cbn [load load_int]. unfold bind. rewrite E. reflexivity.
  - destruct Hty as (z & -> & Hz). unfold signed_range in Hz. change (2 ^ (Z.of_N 8 - 1))%Z with 128%Z in Hz.
    eapply (signed_rt cx init p 1 two8 (2 ^ 56) _ z 127 (-128)); [lia|reflexivity|reflexivity|reflexivity|reflexivity|reflexivity|lia|lia|reflexivity|change (two8 / 2) with 128; lia|].
    intros s x E Ez. exists (VS8 z). split; [|reflexivity]. cbn [load load_int]. unfold bind. rewrite E, Ez. reflexivity.
  - destruct Hty as (z & -> & Hz). unfold signed_range in Hz. change (2 ^ (Z.of_N 16 - 1))%Z with 32768%Z in Hz.
    eapply (signed_rt cx init p 2 two16 (2 ^ 48) _ z 32767 (-32768)); [lia|reflexivity|reflexivity|reflexivity|reflexivity|reflexivity|lia|lia|reflexivity|change (two16 / 2) with 32768; lia|].
    intros s x E Ez. exists (VS16 z). split; [|reflexivity]. cbn [load load_int]. unfold bind. rewrite E, Ez. reflexivity.
  - destruct Hty as (z & -> & Hz). unfold signed_range in Hz. change (2 ^ (Z.of_N 32 - 1))%Z with 2147483648%Z in Hz.
    eapply (signed_rt cx init p 4 two32 (2 ^ 32) _ z 2147483647 (-2147483648)); [lia|reflexivity|reflexivity|reflexivity|reflexivity|reflexivity|lia|lia|reflexivity|change (two32 / 2) with 2147483648; lia|].
    intros s x E Ez. exists (VS32 z). split; [|reflexivity]. cbn [load load_int]. unfold bind. rewrite E, Ez. reflexivity.
  - destruct Hty as (z & -> & Hz). unfold signed_range in Hz. change (2 ^ (Z.of_N 64 - 1))%Z with 9223372036854775808%Z in Hz.
    eapply (signed_rt cx init p 8 two64 1 _ z 9223372036854775807 (-9223372036854775808)); [lia|reflexivity|reflexivity|reflexivity|reflexivity|reflexivity|lia|lia|reflexivity|change (two64 / 2) with 9223372036854775808; lia|].
    intros s x E Ez. exists (VS64 z). split; [|reflexivity]. cbn [load load_int]. unfold bind. rewrite E, Ez. reflexivity.
  - destruct Hty as (b & -> & Hb). destruct (canonical32_same b Hb) as [Hsame Hc32]. change (2 ^ 32) with 4294967296 in Hc32. cbn [store_f32].
    eapply (unsigned_rt cx init p 4 _ (canonicalize32 b) 4294967295 VU32); [lia|exact Hc32|reflexivity|lia|].
    intros s E. exists (VF32 (canonicalize32 (canonicalize32 b))). split; [|exists b; eauto].
    cbn [load]. unfold load_f32. erewrite bind_ok; [|apply load_u32_uint; exact E]. reflexivity.
  - destruct Hty as (b & -> & Hb). destruct (canonical64_same b Hb) as [Hsame Hc64]. change (2 ^ 64) with 18446744073709551616 in Hc64. cbn [store_f64].
    eapply (unsigned_rt cx init p 8 _ (canonicalize64 b) 18446744073709551615 VU64); [lia|exact Hc64|reflexivity|lia|].
    intros s E. exists (VF64 (canonicalize64 (canonicalize64 b))). split; [|exists b; eauto].
    cbn [load]. unfold load_f64. erewrite bind_ok; [|apply load_u64_uint; exact E]. reflexivity.
  - destruct Hty as (c & -> & Hsc). unfold scalar_value in Hsc. cbn [store_char].
    assert (Eo : of_signed two32 (Z.of_N c) = c).
    { unfold of_signed, two32. rewrite Z.mod_small by lia. lia. }
    rewrite Eo.
    eapply (unsigned_rt cx init p 4 _ c 4294967295 VU32); [lia|change (256 ^ 4) with 4294967296; lia|reflexivity|lia|].
    intros s E. exists (VS32 (Z.of_N c)). split; [|reflexivity]. cbn [load]. unfold load_char, load_int_with_size.
    cbn [N.eqb Pos.eqb load_int]. unfold bind. rewrite E.
    cbn [ret]. unfold lift_o, u32_to_rune.
    destruct (N.leb_spec 1114112 c); [lia|]. destruct (N.leb_spec 55296 c), (N.leb_spec c 57343); cbn [andb]; try lia;
      unfold to_signed, two32; rewrite N.mod_small by lia; (destruct (N.ltb_spec (2 * c) 4294967296); [reflexivity|lia]).
  - destruct Hty as (s0 & -> & Hso). cbn [store_str]. unfold store_string.
    eapply writes_mono; [eapply (writes_pair cx init); [apply writes_string; [exact Hc|exact Hso]|exact Hp|]|].
    + cbn beta. intros [b n] s _ (B1 & B2 & _). auto.
    + cbn beta. cbn [fst snd]. intros _ s Hg Hls (b & n & (_ & _ & E) & E1 & E2). exists (VStr s0). split; [|reflexivity].
      cbn [load]. unfold load_string. erewrite bind_ok; [|exact E1]. erewrite bind_ok; [|exact E2]. exact E.
  - destruct Hty as (l & a & sz & -> & Hel & Hla & Hlen1 & Hlen2). destruct Hwf as [Hwf (a' & sz' & Hla' & Hsz)].
    rewrite Hla in Hla'. injection Hla' as <- <-.
    destruct (sp_layout_facts _ _ _ Hla) as (Ha & Hva & Hdv & Hs).
    unfold store_list.
    eapply writes_mono; [eapply (writes_pair cx init); [|exact Hp|]|].
    + eapply (writes_list cx init _ _ a sz _ (load cx t) (same_value t)); try eassumption; [apply Hs; exact Hsz|].
      eapply Forall_impl; [|exact Hel]. intros v Hv q Hq1 Hq2. eapply IHt; eassumption.
    + cbn beta. intros [b n] s _ (B1 & B2 & _). auto.
    + cbn beta. cbn [fst snd]. intros _ s Hg Hls (b & n & (_ & _ & l' & Rl & E) & E1 & E2). exists (VList l').
      split; [|cbn [same_value]; eauto].
      cbn [load]. unfold load_list. erewrite bind_ok; [|exact E1]. erewrite bind_ok; [|exact E2]. exact E.
Qed.
