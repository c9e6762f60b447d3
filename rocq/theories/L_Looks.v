(** Loading looks only at the bytes that the value is made of. *)
From Coq Require Import NArith ZArith List String Ascii Bool Lia ZifyBool ZifyNat ZifyN.
From Verif Require Import GoBase M_Types M_Layout S_Layout L_Layout M_State M_Utf M_Load
  S_Utf S_Values S_Memory S_Access S_Flat S_Format S_Inside S_Looks L_Access L_Variant L_Labels L_Despecialize L_Mem L_Utf L_Flags
  L_Frame L_RoundTrip L_StoreLoad L_Lifted L_CtxFree L_Format.
Import ListNotations.
Open Scope N_scope.
Open Scope go_scope.

(** Two runs of [f] return the same, change the world alike and nothing else. *)
Definition twin {A} (f : M A) (s1 s2 : state) : Prop :=
  exists o w, returned o /\ f s1 = (o, with_world s1 w) /\ f s2 = (o, with_world s2 w).

Record rel (s1 s2 : state) : Prop := mkRel {
  r_good1 : good s1; r_good2 : good s2; r_len : m_len (s_mem s1) = m_len (s_mem s2); r_world : s_world s1 = s_world s2 }.

Lemma with_same : forall s, with_world s (s_world s) = s.
Proof. intros []. reflexivity. Qed.

Lemma twin_pure : forall {A} (f : M A) o s1 s2, rel s1 s2 -> returned o -> f s1 = (o, s1) -> f s2 = (o, s2) -> twin f s1 s2.
Proof.
  intros A f o s1 s2 R H E1 E2. exists o, (s_world s1). rewrite with_same.
  rewrite (r_world _ _ R), with_same. auto.
Qed.

Lemma returned_ok : forall {A} (a : A), returned (Ok a).
Proof. split; discriminate. Qed.
Lemma returned_err : forall {A} e, returned (@Err A e).
Proof. split; discriminate. Qed.

Lemma rel_with : forall s1 s2 w, rel s1 s2 -> rel (with_world s1 w) (with_world s2 w).
Proof. intros s1 s2 w [H1 H2 H3 H4]. split; assumption || reflexivity. Qed.

Lemma twin_bind : forall {A B} (f : M A) (g : A -> M B) s1 s2, twin f s1 s2 ->
  (forall a w, twin (g a) (with_world s1 w) (with_world s2 w)) -> twin (bind f g) s1 s2.
Proof.
  intros A B f g s1 s2 (o & w & H & E1 & E2) Hg. destruct o as [a|e| |].
  - destruct (Hg a w) as (o & w' & H' & E1' & E2'). exists o, w'. split; [exact H'|].
    split; (erewrite bind_ok; [|eassumption]); assumption.
  - exists (Err e), w. split; [apply returned_err|]. unfold bind. rewrite E1, E2. auto.
  - destruct H. congruence.
  - destruct H. congruence.
Qed.

Lemma twin_ret : forall {A} (a : A) s1 s2, rel s1 s2 -> twin (ret a) s1 s2.
Proof. intros. eapply twin_pure; [assumption|apply returned_ok|reflexivity|reflexivity]. Qed.

Lemma twin_lift : forall {A} (o : outcome A) s1 s2, rel s1 s2 -> returned o -> twin (lift_o o) s1 s2.
Proof. intros. eapply twin_pure; [assumption|eassumption|reflexivity|reflexivity]. Qed.

(** Bytes read alike. *)
Definition alike (s1 s2 : state) (P : N -> Prop) : Prop :=
  forall b, b < len s1 -> P b -> byte (s_mem s1) b = byte (s_mem s2) b.

Lemma alike_sub : forall s1 s2 (P Q : N -> Prop), alike s1 s2 P -> (forall b, Q b -> P b) -> alike s1 s2 Q.
Proof. intros s1 s2 P Q H S b Hb Q1. apply H; auto. Qed.

Lemma alike_with : forall s1 s2 w (P : N -> Prop), alike s1 s2 P -> alike (with_world s1 w) (with_world s2 w) P.
Proof. intros s1 s2 w P H. exact H. Qed.

Lemma len_rel : forall s1 s2, rel s1 s2 -> len s1 = len s2.
Proof. intros s1 s2 R. apply R. Qed.

Lemma number_same : forall n m1 m2 p, (forall b, among p (N.of_nat n) b -> byte m1 b = byte m2 b) -> number m1 p n = number m2 p n.
Proof.
  induction n as [|n IH]; intros m1 m2 p H; [reflexivity|]. cbn [number].
  rewrite H by (split; lia). rewrite (IH m1 m2); [reflexivity|]. intros b [H1 H2]. apply H. split; lia.
Qed.

Lemma number_alike : forall n s1 s2 p, p + N.of_nat n <= len s1 -> alike s1 s2 (among p (N.of_nat n)) ->
  number (s_mem s1) p n = number (s_mem s2) p n.
Proof. intros n s1 s2 p H A. apply number_same. intros b Hb. apply A; [destruct Hb; lia|exact Hb]. Qed.

Lemma twin_uint : forall k p s1 s2, rel s1 s2 -> p + k <= len s1 -> alike s1 s2 (among p k) -> twin (load_uint k p) s1 s2.
Proof.
  intros k p s1 s2 R H A. pose proof (len_rel _ _ R) as L.
  eapply (twin_pure _ (Ok (number (s_mem s1) p (N.to_nat k)))); [assumption|apply returned_ok|apply number_load; [apply R|assumption]|].
  rewrite (number_alike _ s1 s2); [|lia|rewrite N2Nat.id; exact A].
  apply number_load; [apply R|]. lia.
Qed.

Lemma twin_int : forall t p s1 s2 k, rel s1 s2 -> p + k <= len s1 -> alike s1 s2 (among p k) -> sp_layout t = Some (k, k) ->
  match t with TBool | TF32 | TF64 | TChar | TOwn _ | TBorrow _ | TFlags _ => False | _ => True end ->
  twin (load_int t p) s1 s2.
Proof.
  intros t p s1 s2 k R H A E Ht.
  destruct t; try contradiction; try (cbn [load_int]; apply twin_lift; [assumption|apply returned_err]);
    injection E as <-; cbn [load_int]; (apply twin_bind; [apply twin_uint; assumption|]);
    intros; apply twin_ret, rel_with, R.
Qed.

Lemma twin_u32 : forall p s1 s2, rel s1 s2 -> p + 4 <= len s1 -> alike s1 s2 (among p 4) -> twin (load_u32 p) s1 s2.
Proof.
  intros p s1 s2 R H A. pose proof (len_rel _ _ R) as L.
  eapply (twin_pure _ (Ok (number (s_mem s1) p 4))); [assumption|apply returned_ok|apply number_u32; [apply R|assumption]|].
  rewrite (number_alike _ s1 s2); [|exact H|exact A].
  apply number_u32; [apply R|]. lia.
Qed.

(** ** Handles *)
Lemma table_get_returns : forall t i, returned (table_get t i).
Proof.
  intros t i. unfold table_get. destruct (N.leb_spec (u32 (N.of_nat (List.length (t_array t)))) i) as [|H]; [apply returned_err|].
  destruct (nth_error (t_array t) (N.to_nat i)) as [[id|]|] eqn:E; [apply returned_ok|apply returned_err|].
  apply nth_error_None in E. exfalso. unfold u32 in H.
  pose proof (N.mod_le (N.of_nat (List.length (t_array t))) two32). unfold two32 in *. lia.
Qed.

(** What only looks at the world runs alike. *)
Definition worldly {A} (f : M A) : Prop := forall s, exists o w, returned o /\
  forall s', s_world s' = s_world s -> f s' = (o, with_world s' w).

Lemma worldly_twin : forall {A} (f : M A) s1 s2, rel s1 s2 -> worldly f -> twin f s1 s2.
Proof.
  intros A f s1 s2 R H. destruct (H s1) as (o & w & Ho & E). exists o, w. split; [exact Ho|].
  split; apply E; [reflexivity|symmetry; apply R].
Qed.

Lemma worldly_bind : forall {A B} (f : M A) (g : A -> M B), worldly f -> (forall a, worldly (g a)) -> worldly (bind f g).
Proof.
  intros A B f g Hf Hg s. destruct (Hf s) as (o & w & Ho & E). destruct o as [a|e| |].
  - destruct (Hg a (with_world s w)) as (o' & w' & Ho' & E'). exists o', w'. split; [exact Ho'|].
    intros s' Es. erewrite bind_ok; [|apply E, Es]. rewrite E' by reflexivity. reflexivity.
  - exists (Err e), w. split; [apply returned_err|]. intros s' Es. unfold bind. rewrite E by exact Es. reflexivity.
  - destruct Ho; congruence.
  - destruct Ho; congruence.
Qed.

Lemma worldly_lift : forall {A} (o : outcome A), returned o -> worldly (lift_o o).
Proof.
  intros A o H s. exists o, (s_world s). split; [exact H|]. intros s' E. rewrite <- E, with_same. reflexivity.
Qed.
Lemma worldly_ret : forall {A} (a : A), worldly (ret a).
Proof. intros A a. apply (worldly_lift (Ok a)), returned_ok. Qed.
Lemma worldly_get : worldly get_world.
Proof.
  intros s. exists (Ok (s_world s)), (s_world s). split; [apply returned_ok|]. intros s' E. rewrite <- E, with_same. reflexivity.
Qed.
Lemma worldly_put : forall w, worldly (put_world w).
Proof. intros w s. exists (Ok tt), w. split; [apply returned_ok|]. reflexivity. Qed.

Lemma worldly_handle_get : forall inst rt i, worldly (handle_get inst rt i).
Proof.
  intros. unfold handle_get. apply worldly_bind; [apply worldly_get|]. intros w.
  apply worldly_bind; [apply worldly_put|]. intros _. apply worldly_lift, table_get_returns.
Qed.

Lemma worldly_lift_own : forall cx i rt, worldly (lift_own cx i rt).
Proof.
  intros. unfold lift_own, handle_remove. apply worldly_bind.
  - apply worldly_bind; [apply worldly_handle_get|]. intros id. apply worldly_bind; [apply worldly_get|]. intros w.
    cbv zeta. destruct (h_lend (elem_at w id) =? 0)%Z; [|apply worldly_lift, returned_err].
    apply worldly_bind; [apply worldly_put|]. intros _. apply worldly_ret.
  - intros id. apply worldly_bind; [apply worldly_get|]. intros w. apply worldly_ret.
Qed.

Lemma worldly_lift_borrow : forall cx i rt, worldly (lift_borrow cx i rt).
Proof.
  intros. unfold lift_borrow, lift_borrow_from. apply worldly_bind; [apply worldly_handle_get|]. intros id.
  apply worldly_bind.
  - apply worldly_bind; [apply worldly_get|]. intros w. cbv zeta. destruct (nth_error _ _); apply worldly_put.
  - intros _. apply worldly_bind; [apply worldly_get|]. intros w. apply worldly_ret.
Qed.

(** ** Types *)
Definition looks (cx : callctx) (t : valtype) : Prop :=
  forall a sz p s1 s2, sp_layout t = Some (a, sz) -> wf_type t -> rel s1 s2 -> (a | p) -> p + sz <= len s1 ->
  addressable (cx_enc cx) (s_mem s1) t p -> alike s1 s2 (part_of (cx_enc cx) (s_mem s1) t p) -> twin (load cx t p) s1 s2.

Lemma twin_bounds : forall st n s1 s2, rel s1 s2 -> st + n < two32 ->
  (st + n <= len s1 /\ check_bounds ETrap st n s1 = (Ok tt, s1) /\ check_bounds ETrap st n s2 = (Ok tt, s2))
  \/ (check_bounds ETrap st n s1 = (Err ETrap, s1) /\ check_bounds ETrap st n s2 = (Err ETrap, s2)).
Proof.
  intros st n s1 s2 R H. pose proof (len_rel _ _ R) as L. pose proof (r_good1 _ _ R) as G1. pose proof (r_good2 _ _ R) as G2.
  unfold check_bounds, bind, get_mem. rewrite !mem_len32_ok by assumption. rewrite <- L.
  unfold add32. rewrite N.mod_small by exact H.
  destruct (N.ltb_spec (len s1) (st + n)); [right|left]; auto.
Qed.

Lemma twin_aligned : forall e p a s1 s2, rel s1 s2 -> valid_align a -> p < two32 -> twin (check_aligned e p a) s1 s2.
Proof.
  intros e p a s1 s2 R Ha Hp. destruct (N.eq_dec (p mod a) 0) as [E|E].
  - apply N.mod_divide in E; [|apply valid_align_nz; exact Ha].
    eapply twin_pure; [exact R|apply (returned_ok tt)|apply check_aligned_ok; assumption|apply check_aligned_ok; assumption].
  - assert (D : ~ (a | p)) by (intros D; apply E, N.mod_divide; [apply valid_align_nz; exact Ha|exact D]).
    eapply twin_pure; [exact R|apply (returned_err e)|apply check_aligned_bad; assumption|apply check_aligned_bad; assumption].
Qed.

Lemma slice_same : forall m1 m2 p n, wf_mem m1 -> wf_mem m2 -> m_len m1 = m_len m2 -> p + n <= m_len m1 ->
  (forall b, b < m_len m1 -> among p n b -> byte m1 b = byte m2 b) -> slice m1 p n = slice m2 p n.
Proof.
  intros m1 m2 p n W1 W2 L H B. rewrite !slice_bytes_at by (assumption || lia). unfold bytes_at.
  apply map_ext_in. intros k Hk. apply in_seq in Hk. apply B; [lia|split; lia].
Qed.

Lemma twin_slice : forall {A} p n (g : list N -> M A) s1 s2, rel s1 s2 -> p + n <= len s1 -> alike s1 s2 (among p n) ->
  (forall bs, twin (g bs) s1 s2) ->
  twin (let* m := get_mem in let* bs := lift_o (mem_slice m p (add32 p n)) in g bs) s1 s2.
Proof.
  intros A p n g s1 s2 R H AL Hg. pose proof (len_rel _ _ R) as L.
  destruct (Hg (slice (s_mem s1) p n)) as (o & w & Ho & E1 & E2). exists o, w. split; [exact Ho|].
  assert (Hlt : len s1 < two32) by apply (r_good1 _ _ R).
  assert (Ea : add32 p n = p + n) by (unfold add32; apply N.mod_small; lia).
  split; (erewrite bind_ok; [|reflexivity]); rewrite mem_slice_ok.
  - rewrite bind_lift_ok. exact E1.
  - apply R.
  - exact H.
  - rewrite bind_lift_ok. rewrite <- (slice_same (s_mem s1)); [exact E2|apply R..|exact H|exact AL].
  - apply R.
  - unfold len in *. lia.
Qed.

Lemma get_codec_returns : forall e, returned (get_codec e).
Proof. destruct e; (apply returned_ok || apply returned_err). Qed.
Lemma decode_returns : forall c bs, returned (decode_string c bs).
Proof. destruct c; intros; apply returned_ok. Qed.

Lemma twin_text : forall cx st w s1 s2, rel s1 s2 -> st < two32 -> w < two32 -> string_addressable (cx_enc cx) st w ->
  alike s1 s2 (text_parts (cx_enc cx) st w) -> twin (load_string_from_range cx st w) s1 s2.
Proof.
  intros cx st w s1 s2 R B1 B2 [Had Hwrap] AL. unfold load_string_from_range. cbv zeta.
  set (tc := u32_to_tagged w).
  assert (Hf : forall c, get_codec (match cx_enc cx with EncLatin1Utf16 => if tcu_utf16 tc then EncUtf16LE else EncLatin1 | e => e end) = Ok c ->
     text_form (cx_enc cx) w = Some (c, tcu_units tc) /\ tcu_units tc < 2 ^ 31).
  { intros c. unfold tc. destruct (N.ltb_spec w (2 ^ 31)) as [Hw|Hw].
    - rewrite (tag_bits w false Hw : u32_to_tagged w = _). cbn [tcu_utf16 tcu_units].
      intros E. split; [|exact Hw]. destruct (cx_enc cx); cbn in E; try discriminate; injection E as <-; cbn [text_form]; try reflexivity.
      destruct (N.ltb_spec w (2 ^ 31)); [reflexivity|lia].
    - destruct Had as [Ee|]; [|lia]. rewrite Ee.
      assert (Hu : w - 2 ^ 31 < 2 ^ 31) by (unfold two32 in B2; change (2 ^ 31) with 2147483648 in *; lia).
      assert (Et : u32_to_tagged w = mkTagged (w - 2 ^ 31) true).
      { assert (Ew : w = tagged_to_u32 (mkTagged (w - 2 ^ 31) true)).
        { unfold tagged_to_u32. cbn [tcu_utf16 tcu_units]. change utf16_tag with (2 ^ 31).
          assert (D : N.land (w - 2 ^ 31) (2 ^ 31) = 0).
          { apply N.bits_inj. intros i. rewrite N.land_spec, N.pow2_bits_eqb, N.bits_0.
            destruct (N.eqb_spec 31 i) as [<-|]; [rewrite (bit31 _ Hu) by lia; reflexivity|apply andb_false_r]. }
          rewrite <- N.lxor_lor by exact D. rewrite <- N.add_nocarry_lxor by exact D. lia. }
        rewrite Ew at 1. apply tag_bits. exact Hu. }
      rewrite Et. cbn [tcu_utf16 tcu_units get_codec text_form]. intros E. injection E as <-.
      destruct (N.ltb_spec w (2 ^ 31)); [lia|]. split; [reflexivity|exact Hu]. }
  destruct (get_codec _) as [c|e| |] eqn:Ec in Hf |- *.
  2:{ eapply twin_pure; [exact R|apply (returned_err e)|reflexivity|reflexivity]. }
  2,3: destruct (get_codec_returns (match cx_enc cx with EncLatin1Utf16 => if tcu_utf16 tc then EncUtf16LE else EncLatin1 | e => e end)); congruence.
  destruct (Hf c eq_refl) as [Ef Hn]. specialize (Hwrap _ _ Ef). clear Hf.
  assert (AL' : alike s1 s2 (among st (tcu_units tc * N.of_nat (unit_width c)))).
  { eapply alike_sub; [exact AL|]. intros b Hb. exists c, (tcu_units tc). split; [exact Ef|exact Hb]. }
  clear AL. rename AL' into AL.
  match goal with |- twin (bind (lift_o (Ok ?c)) ?g) _ _ => change (twin (g c) s1 s2) end. cbv beta.
  assert (Es : codec_rune_size c = N.of_nat (unit_width c)) by (destruct c; reflexivity).
  assert (Em : mul32 (tcu_units tc) (codec_rune_size c) = tcu_units tc * codec_rune_size c).
  { unfold mul32. apply N.mod_small. change (2 ^ 31) with 2147483648 in Hn. unfold two32. destruct c; cbn [codec_rune_size]; lia. }
  rewrite Em. rewrite <- Es in Hwrap, AL. change (2 ^ 32) with two32 in Hwrap.
  apply twin_bind; [apply twin_aligned; [exact R|apply codec_alignment_valid|exact B1]|]. intros _ w'.
  apply (rel_with _ _ w') in R. apply (alike_with _ _ w') in AL. change (s_mem s1) with (s_mem (with_world s1 w')) in *.
  set (s1' := with_world s1 w') in *. set (s2' := with_world s2 w') in *. clearbody s1' s2'.
  destruct (twin_bounds st (tcu_units tc * codec_rune_size c) s1' s2' R Hwrap) as [(Hin & C1 & C2)|(C1 & C2)].
  - apply twin_bind; [eapply twin_pure; [exact R|apply (returned_ok tt)|exact C1|exact C2]|]. intros _ w2.
    apply (rel_with _ _ w2) in R. apply twin_slice; [exact R|exact Hin|exact AL|].
    intros bs. apply twin_bind; [apply twin_lift; [exact R|apply decode_returns]|]. intros x w3. apply twin_ret, rel_with, R.
  - eapply twin_pure; [exact R|apply (returned_err ETrap)|unfold bind; rewrite C1; reflexivity|unfold bind; rewrite C2; reflexivity].
Qed.

Lemma pair_alike : forall s1 s2 p (P : N -> Prop), alike s1 s2 P -> (forall b, among p 8 b -> P b) -> p + 8 <= len s1 ->
  number (s_mem s1) p 4 = number (s_mem s2) p 4 /\ number (s_mem s1) (p + 4) 4 = number (s_mem s2) (p + 4) 4.
Proof.
  intros s1 s2 p P A S H. split; apply number_alike; try (cbn; lia); (eapply alike_sub; [exact A|]);
    intros b [H1 H2]; apply S; split; lia.
Qed.

Lemma looks_string : forall cx, looks cx TString.
Proof.
  intros cx a sz p s1 s2 Hl _ R _ Hp Had AL. injection Hl as <- <-. cbn [addressable] in Had.
  assert (Hlt : len s1 < two32) by apply (r_good1 _ _ R).
  pose proof (len_rel _ _ R) as L.
  destruct (pair_alike s1 s2 p _ AL ltac:(intros b Hb; left; exact Hb) Hp) as [P1 P2].
  pose proof (number_lt 4 (s_mem s1) p (r_good1 _ _ R)) as B1. pose proof (number_lt 4 (s_mem s1) (p + 4) (r_good1 _ _ R)) as B2.
  change (256 ^ N.of_nat 4) with two32 in B1, B2.
  destruct (twin_text cx _ _ s1 s2 R B1 B2 Had ltac:(eapply alike_sub; [exact AL|]; intros b Hb; right; exact Hb)) as (o & w & Ho & E1 & E2). exists o, w. split; [exact Ho|].
  assert (Ep : add32 p 4 = p + 4) by (unfold add32; rewrite N.mod_small; lia).
  cbn [load]. unfold load_string. rewrite Ep. split.
  - erewrite bind_ok; [|apply number_u32; [apply R|lia]]. erewrite bind_ok; [|apply number_u32; [apply R|lia]]. exact E1.
  - erewrite bind_ok; [|apply number_u32; [apply R|lia]]. erewrite bind_ok; [|apply number_u32; [apply R|lia]].
    rewrite <- P1, <- P2. exact E2.
Qed.

Lemma twin_elems : forall ld base sz bound n i s1 s2, rel s1 s2 -> base + bound < two32 -> (i + N.of_nat n) * sz <= bound ->
  (forall k w, i <= k < i + N.of_nat n -> twin (ld (base + k * sz)) (with_world s1 w) (with_world s2 w)) ->
  twin (load_elems n ld base sz i) s1 s2.
Proof.
  intros ld base sz bound n. induction n as [|n IH]; intros i s1 s2 R Hb Hn Hd; [apply twin_ret, R|].
  assert (Hi : i * sz + sz <= bound) by nia.
  destruct (elem_addr base i sz bound Hi Hb) as [_ E]. cbn [load_elems]. rewrite E.
  apply twin_bind.
  - specialize (Hd i (s_world s1) ltac:(lia)). rewrite with_same in Hd. rewrite (r_world _ _ R), with_same in Hd. exact Hd.
  - intros v w. apply twin_bind.
    + apply IH; [apply rel_with, R|exact Hb|nia|]. intros k w' Hk. apply (Hd k w'). lia.
    + intros l w'. apply twin_ret. do 2 apply rel_with. exact R.
Qed.

Lemma twin_items : forall cx t a sz st n s1 s2, looks cx t -> sp_layout t = Some (a, sz) -> wf_type t -> rel s1 s2 -> st < two32 ->
  list_addressable (sp_layout t, addressable (cx_enc cx) (s_mem s1) t) st n ->
  alike s1 s2 (list_parts (sp_layout t, part_of (cx_enc cx) (s_mem s1) t) st n) ->
  twin (load_list_from_range (Ok a) (Ok sz) (load cx t) st n) s1 s2.
Proof.
  intros cx t a sz st n s1 s2 IH Hlt Hwf R B1 Had AL.
  destruct (sp_layout_facts _ _ _ Hlt) as (_ & Hva & Hdv & _).
  assert (Hlen : len s1 < two32) by apply (r_good1 _ _ R).
  destruct (Had a sz Hlt) as [Hwrap Hel]. cbn [snd] in Hel. change (2 ^ 32) with two32 in Hwrap.
  unfold load_list_from_range.
  match goal with |- twin (bind (lift_o (Ok ?c)) ?g) _ _ => change (twin (g c) s1 s2) end. cbv beta.
  assert (Em : mul32 n sz = n * sz) by (unfold mul32; apply N.mod_small; lia).
  destruct (twin_aligned ETrap st a s1 s2 R Hva B1) as (o1 & w1 & Ho1 & X1 & X2).
  destruct o1 as [[]|e| |]; [| |destruct Ho1; congruence..].
  2:{ exists (Err e), w1. split; [apply returned_err|]. unfold bind. rewrite X1, X2. auto. }
  assert (Hal : (a | st)).
  { destruct (N.eq_dec (st mod a) 0) as [E|E]; [apply N.mod_divide in E; [exact E|apply valid_align_nz; exact Hva]|].
    exfalso. rewrite check_aligned_bad in X1; [discriminate|exact Hva|].
    intros D; apply E, N.mod_divide; [apply valid_align_nz; exact Hva|exact D]. }
  clear X1 X2 w1 Ho1.
  apply twin_bind; [apply twin_aligned; assumption|]. intros _ w.
  assert (R' := rel_with _ _ w R). set (s1' := with_world s1 w) in *. set (s2' := with_world s2 w) in *.
  match goal with |- twin (bind (lift_o (Ok ?c)) ?g) _ _ => change (twin (g c) s1' s2') end. cbv beta. rewrite Em.
  destruct (twin_bounds st (n * sz) s1' s2' R' Hwrap) as [(Hin & C1 & C2)|(C1 & C2)].
  - apply twin_bind; [eapply twin_pure; [exact R'|apply (returned_ok tt)|exact C1|exact C2]|]. intros _ w2.
    apply twin_bind; [|intros l w3; apply twin_ret; do 3 apply rel_with; exact R].
    apply (twin_elems _ _ _ (n * sz)); [do 2 apply rel_with; exact R|exact Hwrap|lia|].
    intros k w3 Hk. apply (IH a sz); [exact Hlt|exact Hwf|do 3 apply rel_with; exact R| | | |].
    + apply N.divide_add_r; [exact Hal|]. apply N.divide_mul_r. exact Hdv.
    + change (len (with_world (with_world s1' w2) w3)) with (len s1'). nia.
    + apply Hel. lia.
    + do 3 apply alike_with. eapply alike_sub; [exact AL|]. intros b Hb. exists a, sz, k. split; [exact Hlt|]. split; [lia|exact Hb].
  - eapply twin_pure; [exact R'|apply (returned_err ETrap)|unfold bind; rewrite C1; reflexivity|unfold bind; rewrite C2; reflexivity].
Qed.

Lemma looks_list : forall cx t, looks cx t -> looks cx (TList t).
Proof.
  intros cx t IH a sz p s1 s2 Hl Hwf R _ Hp Had AL. injection Hl as <- <-.
  destruct Hwf as [Hwf (a & sz & Hlt & Hsz)]. cbn [addressable] in Had.
  assert (Hlen : len s1 < two32) by apply (r_good1 _ _ R).
  pose proof (len_rel _ _ R) as L.
  destruct (pair_alike s1 s2 p _ AL ltac:(intros b Hb; left; exact Hb) Hp) as [P1 P2].
  pose proof (number_lt 4 (s_mem s1) p (r_good1 _ _ R)) as B1. change (256 ^ N.of_nat 4) with two32 in B1.
  destruct (sp_layout_facts _ _ _ Hlt) as (Ha & _ & _ & Hs). specialize (Hs Hsz).
  destruct (twin_items cx t a sz _ _ s1 s2 IH Hlt Hwf R B1 Had ltac:(eapply alike_sub; [exact AL|]; intros b Hb; right; exact Hb))
    as (o & w & Ho & E1 & E2). exists o, w. split; [exact Ho|].
  assert (Ep : add32 p 4 = p + 4) by (unfold add32; rewrite N.mod_small; lia).
  cbn [load]. unfold load_list. rewrite Ep, Ha, Hs. split.
  - erewrite bind_ok; [|apply number_u32; [apply R|lia]]. erewrite bind_ok; [|apply number_u32; [apply R|lia]]. exact E1.
  - erewrite bind_ok; [|apply number_u32; [apply R|lia]]. erewrite bind_ok; [|apply number_u32; [apply R|lia]].
    rewrite <- P1, <- P2. exact E2.
Qed.

Lemma twin_fields : forall cx fs ls pos base acc s1 s2,
  Forall (fun f => looks cx (snd f)) fs -> Forall (fun f => wf_type (snd f)) fs -> rel s1 s2 ->
  all_some (map (fun f => sp_layout (snd f)) fs) = Some ls ->
  Forall (fun l : layout => (fst l | base)) ls -> base + fields_end pos ls <= len s1 ->
  Forall2 (fun f o => addressable (cx_enc cx) (s_mem s1) (snd f) (base + o)) fs (field_offsets pos ls) ->
  alike s1 s2 (fun b => exists f o, In (f, o) (combine fs (field_offsets pos ls)) /\ part_of (cx_enc cx) (s_mem s1) (snd f) (base + o) b) ->
  twin (load_at (map (fun f => (fst f, load cx (snd f))) fs) (map (N.add base) (field_offsets pos ls)) acc) s1 s2.
Proof.
  intros cx fs. induction fs as [|[l t] fs IH]; intros ls pos base acc s1 s2 Hrd Hwf R Hs Hdv Hend Had AL.
  - cbn in Hs. injection Hs as <-. apply twin_ret, R.
  - change (all_some (sp_layout t :: map (fun f => sp_layout (snd f)) fs) = Some ls) in Hs.
    cbn [all_some] in Hs. destruct (sp_layout t) as [[a sz]|] eqn:Et; [|discriminate].
    destruct (all_some (map (fun f => sp_layout (snd f)) fs)) as [ls'|] eqn:El; [|discriminate]. injection Hs as <-.
    inversion Hrd as [|? ? Hrd1 Hrd2]; subst. inversion Hwf as [|? ? Hwf1 Hwf2]; subst.
    inversion Hdv as [|? ? Hdv1 Hdv2]; subst. cbn [fst snd] in *.
    cbn [field_offsets] in *. inversion Had as [|? ? ? ? Had1 Had2]; subst.
    pose proof (all_some_valid snd fs ls' El) as Hv.
    destruct (sp_layout_facts _ _ _ Et) as (_ & Hva & _).
    cbn [fields_end] in Hend. pose proof (fields_end_ge ls' (up_to a pos + sz) Hv).
    cbn [map load_at fst snd]. apply twin_bind.
    + apply (Hrd1 a sz); try assumption; [|lia|].
      * apply N.divide_add_r; [assumption|apply up_to_div].
      * eapply alike_sub; [exact AL|]. intros b Hb. exists (l, t), (up_to a pos). split; [left; reflexivity|exact Hb].
    + intros v w. apply IH; try assumption; [apply rel_with, R|reflexivity|].
      apply alike_with. eapply alike_sub; [exact AL|]. intros b (f & o & Hi & Hb). exists f, o. split; [right; exact Hi|exact Hb].
Qed.

Lemma record_parts : forall enc m fs p b, 
  (exists ls f o, all_some (map (fun f : string * valtype => sp_layout (snd f)) fs) = Some ls /\
     In (f, o) (combine fs (field_offsets 0 ls)) /\ part_of enc m (snd f) (p + o) b) ->
  part_of enc m (TRecord fs) p b.
Proof.
  intros enc m fs p b (ls & f & o & E & Hi & Hb). cbn [part_of]. unfold rec_parts.
  exists ls, (fst f, (sp_layout (snd f), part_of enc m (snd f))), o. rewrite map_map. split; [exact E|]. split; [|exact Hb].
  clear -Hi. revert Hi. generalize (field_offsets 0 ls). induction fs as [|g fs IH]; intros os Hi; [contradiction|].
  destruct os as [|o' os]; [contradiction|]. destruct Hi as [Hi|Hi]; [left; congruence|right; apply IH, Hi].
Qed.

Lemma looks_record : forall cx fs, Forall (fun f => looks cx (snd f)) fs -> looks cx (TRecord fs).
Proof.
  intros cx fs H a sz p s1 s2 Hl Hwf R Hd Hp Had AL.
  cbn [wf_type] in Hwf. destruct Hwf as [Hnd Hwt]. apply all_Forall in Hwt.
  assert (Hl' := Hl). cbn [sp_layout] in Hl'.
  destruct (all_some (map (fun f => sp_layout (snd f)) fs)) as [ls|] eqn:El; [|discriminate].
  assert (Hr : sp_record ls = (a, sz)) by (cbn [bindo] in Hl'; congruence).
  pose proof (all_some_valid snd fs ls El) as Hv. pose proof (sp_record_end ls Hv) as Hend. rewrite Hr in Hend. cbn [snd] in Hend.
  assert (Hdv : Forall (fun l : layout => (fst l | p)) ls).
  { apply fields_base_div; [assumption|]. replace (max_align ls) with a by (injection Hr; auto). assumption. }
  assert (Hlen : len s1 < two32) by apply (r_good1 _ _ R).
  cbn [addressable] in Had. unfold rec_addressable in Had. rewrite map_map in Had. specialize (Had ls El).
  rewrite Forall2_map_l in Had. cbn [fst snd] in Had.
  assert (T : twin (let* m := load_at (map (fun f => (fst f, load cx (snd f))) fs) (map (N.add p) (field_offsets 0 ls)) [] in ret (VMap m)) s1 s2).
  { apply twin_bind; [apply twin_fields; try assumption; [lia|]|].
    { eapply alike_sub; [exact AL|]. intros b (f & o & Hi & Hb). cbn [part_of]. apply record_parts. exists ls, f, o. auto. }
    intros mp w. apply twin_ret, rel_with, R. }
  destruct T as (o & w & Ho & E1 & E2). exists o, w. split; [exact Ho|].
  rewrite !(record_load_offsets cx fs ls) by (try assumption; rewrite Hr; cbn [fst snd]; try assumption; lia). auto.
Qed.

Lemma looks_variant : forall cx cs, Forall (fun c => opt_all (looks cx) (c_type c)) cs -> looks cx (TVariant cs).
Proof.
  intros cx cs H a sz p s1 s2 Hl Hwf R Hd Hp Had AL.
  cbn [wf_type] in Hwf. destruct Hwf as [(Hnd & Hbf & Hre) Hwt]. apply all_Forall in Hwt.
  assert (Hl' := Hl). cbn [sp_layout] in Hl'.
  destruct (all_some (payload_types (map (map_case sp_layout) cs))) as [ls|] eqn:El; [|discriminate].
  cbn [bindo] in Hl'. destruct (sp_variant_inv _ _ _ _ Hl') as (d & dt & Hdz & _ & _ & Hvd & Ea & Esz & Hcase & Hpos).
  destruct (variant_payload_placed _ _ _ _ _ El Hl Hdz) as (Hpo & _ & Hda & Hpl).
  destruct (sp_layout_facts _ _ _ Hl) as (Ha & Hva & _ & Hs).
  pose proof (up_to_ge a (payload_offset d ls + max_size ls) (valid_align_nz _ Hva)) as Hup.
  assert (Hlen : len s1 < two32) by apply (r_good1 _ _ R). pose proof (len_rel _ _ R) as L.
  set (i := number (s_mem s1) p (N.to_nat d)).
  assert (E1 : load_uint d p s1 = (Ok i, s1)) by (apply number_load; [apply R|lia]).
  assert (E2 : load_uint d p s2 = (Ok i, s2)).
  { unfold i. rewrite (number_alike _ s1 s2); [apply number_load; [apply R|lia]|lia|].
    rewrite N2Nat.id. eapply alike_sub; [exact AL|]. intros b Hb. exists d. rewrite map_length. split; [exact Hdz|left; exact Hb]. }
  assert (T : twin (match nth_error cs (N.to_nat i) with
     | None => lift_o (Err ETrap)
     | Some c =>
         let* l := lift_o (case_label c cs) in
         let* v := match c_type c with
                   | None => ret VNil
                   | Some t => load cx t (p + payload_offset d ls)
                   end in
         ret (VMap [(l, v)])
     end) s1 s2).
  { destruct (nth_error cs (N.to_nat i)) as [c|] eqn:Ei; [|apply twin_lift; [exact R|apply returned_err]].
    assert (Hic : In c cs) by (eapply nth_error_In; exact Ei).
    assert (Hlab : exists l, case_label c cs = Ok l).
    { apply case_label_ends. rewrite Forall_forall in Hre. auto. }
    destruct Hlab as [l Hlab]. rewrite Hlab.
    apply twin_bind; [apply twin_lift; [exact R|apply returned_ok]|]. intros l0 w.
    assert (R' := rel_with _ _ w R).
    apply twin_bind; [|intros v w'; apply twin_ret; do 2 apply rel_with; exact R].
    pose proof (fun t E => addressable_variant _ _ _ _ Had d ls (N.to_nat i) c t Hdz El (eq_sym (N2Nat.id i)) Ei E) as Had'.
    destruct (c_type c) as [t|] eqn:Et; [|apply twin_ret; exact R'].
    destruct (payload_layout _ _ _ _ El Hic Et) as ([pa ps] & Hpt & _).
    destruct (Hpl c t pa ps Hic Et Hpt) as (Hpd & Hpa & Hin).
    rewrite Forall_forall in H. specialize (H c Hic). rewrite Et in H.
    rewrite Forall_forall in Hwt. specialize (Hwt c Hic). rewrite Et in Hwt.
    apply (H pa ps); try assumption; [| |apply Had'; reflexivity|].
    - apply N.divide_add_r; [|assumption]. eapply N.divide_trans; eassumption.
    - change (len (with_world s1 w)) with (len s1). lia.
    - apply alike_with. eapply alike_sub; [exact AL|]. intros b Hb. exists d. rewrite map_length. split; [exact Hdz|right].
      exists ls, (map_case (fun t => (sp_layout t, part_of (cx_enc cx) (s_mem s1) t)) c), (sp_layout t, part_of (cx_enc cx) (s_mem s1) t).
      rewrite (payload_types_map (fun t => (sp_layout t, part_of (cx_enc cx) (s_mem s1) t)) fst). split; [exact El|].
      split; [rewrite nth_error_map; fold i; rewrite Ei; reflexivity|]. split; [cbn; rewrite Et; reflexivity|exact Hb]. }
  destruct T as (o & w & Ho & X1 & X2). exists o, w. split; [exact Ho|].
  rewrite !(variant_load_offsets cx cs ls a sz d) by (assumption || lia).
  split; (erewrite bind_ok; [|eassumption]); assumption.
Qed.

Lemma looks_flags : forall cx ls, looks cx (TFlags ls).
Proof.
  intros cx ls a sz p s1 s2 Hl _ R _ Hp _ AL. cbn [part_of] in AL.
  replace (snd (sp_flags (Datatypes.length ls))) with sz in AL by (cbn [sp_layout] in Hl; injection Hl as Hl; rewrite Hl; reflexivity).
  destruct (sp_layout_facts _ _ _ Hl) as (_ & _ & _ & Hs).
  assert (Hlen : len s1 < two32) by apply (r_good1 _ _ R). specialize (Hs ltac:(lia)).
  cbn [size] in Hs. cbn [load]. unfold load_flags. rewrite Hs.
  match goal with |- twin (bind (lift_o (Ok ?c)) ?g) _ _ => change (twin (g c) s1 s2) end. cbv beta.
  apply twin_bind; [|intros v w; apply twin_ret, rel_with, R].
  unfold load_int_with_size.
  repeat match goal with |- twin (if ?x =? ?y then _ else _) _ _ => destruct (N.eqb_spec x y) as [->|] end;
    [apply twin_ret, R|eapply twin_int; [exact R|exact Hp|exact AL|reflexivity|exact I]..|apply twin_lift; [exact R|apply returned_err]].
Qed.

Lemma rune_returns : forall n, returned (u32_to_rune n).
Proof.
  intros n. unfold u32_to_rune. destruct (1114112 <=? n); [apply returned_err|].
  destruct ((55296 <=? n) && (n <=? 57343)); [apply returned_err|apply returned_ok].
Qed.

Lemma parts_despecialize : forall enc m t p b, part_of enc m (despecialize t) p b <-> part_of enc m t p b.
Proof.
  destruct t; intros p b; try reflexivity; cbn [despecialize part_of].
  - rewrite (map_itoa_fields (fun t => (sp_layout t, part_of enc m t))). reflexivity.
  - rewrite map_enum_cases. reflexivity.
  - rewrite map_itoa_cases. reflexivity.
Qed.

Lemma looks_all : forall cx t, looks cx t.
Proof.
  intros cx t. induction t using valtype_ind';
    [ | | | | | | | | | | | |apply looks_string|apply looks_list; assumption|apply looks_record; assumption
     |apply looks_variant; assumption|apply looks_flags| | | | ].
  all: try (intros a sz p s1 s2 Hl _ R _ Hp _ AL; cbn [part_of] in AL; discriminate Hl).
  all: try (intros a sz p s1 s2 Hl _ R _ Hp _ AL; cbn [part_of] in AL; injection Hl as <- <-; cbn [load]; eapply twin_int; [exact R|exact Hp|exact AL|reflexivity|exact I]).
  all: try (intros a sz p s1 s2 Hl _ R _ Hp _ AL; cbn [part_of] in AL; injection Hl as <- <-; cbn [load]).
  - unfold load_bool. apply twin_bind; [eapply twin_int; [exact R|exact Hp|exact AL|reflexivity|exact I]|].
    intros v w. apply (rel_with _ _ w) in R. destruct v; (apply twin_ret; exact R) || (apply twin_lift; [exact R|apply returned_err]).
  - unfold load_f32. apply twin_bind; [apply twin_u32; assumption|]. intros v w. apply twin_ret, rel_with, R.
  - unfold load_f64, load_u64. apply twin_bind; [|intros v w; apply twin_ret, rel_with, R].
    apply twin_bind; [eapply twin_int; [exact R|exact Hp|exact AL|reflexivity|exact I]|].
    intros v w. apply (rel_with _ _ w) in R. destruct v; (apply twin_ret; exact R) || (apply twin_lift; [exact R|apply returned_err]).
  - unfold load_char. apply twin_bind; [eapply (twin_int TU32); [exact R|exact Hp|exact AL|reflexivity|exact I]|].
    intros v w. apply (rel_with _ _ w) in R. destruct v; try (apply twin_lift; [exact R|apply returned_err]).
    apply twin_bind; [apply twin_lift; [exact R|apply rune_returns]|]. intros r w'. apply twin_ret, rel_with, R.
  - apply twin_bind; [apply twin_u32; assumption|]. intros i w. apply worldly_twin; [apply rel_with, R|].
    apply worldly_bind; [apply worldly_lift_own|]. intros n. apply worldly_ret.
  - apply twin_bind; [apply twin_u32; assumption|]. intros i w. apply worldly_twin; [apply rel_with, R|].
    apply worldly_bind; [apply worldly_lift_borrow|]. intros n. apply worldly_ret.
  - intros al sz p s1 s2 _ _ R _ _ _ _. apply twin_lift; [exact R|apply returned_err].
  - intros al sz p s1 s2 Hl Hwf R Hd Hp Had AL. rewrite <- sp_layout_despecialize in Hl.
    apply addressable_despecialize in Had. assert (AL' := alike_sub _ _ _ _ AL (fun b => proj1 (parts_despecialize _ _ t p b))). apply wf_despecialize in Hwf.
    destruct (IHt _ _ p s1 s2 Hl Hwf R Hd Hp Had AL') as (o & w & Ho & E1 & E2); rewrite load_despecialize in E1, E2.
    exists o, w. auto.
Qed.

(** ** Types without pointers *)
Lemma inline_despecialize : forall t, inline t -> inline (despecialize t).
Proof.
  intros t H. destruct t; cbn [despecialize inline] in *; auto.
  - apply free_all in H. apply all_free. unfold itoa_fields. generalize 0. revert H.
    induction 1; intros k; cbn; [constructor|constructor; cbn; auto].
  - apply all_free. unfold enum_cases. apply Forall_map. apply Forall_forall. cbn. auto.
  - cbn. auto.
  - cbn. destruct H. destruct ok, err; cbn; auto.
  - apply free_all in H. apply all_free. unfold itoa_cases. generalize 0. revert H.
    induction 1; intros k; cbn; [constructor|constructor; cbn; auto].
Qed.

Lemma inline_fields : forall enc m (fs : list (string * valtype)) ls pos p b f o,
  Forall (fun f => forall a sz p b, sp_layout (snd f) = Some (a, sz) -> inline (snd f) -> part_of enc m (snd f) p b -> among p sz b) fs ->
  Forall (fun f => inline (snd f)) fs ->
  all_some (map (fun f => sp_layout (snd f)) fs) = Some ls ->
  In (f, o) (combine (map (fun f => (fst f, (sp_layout (snd f), part_of enc m (snd f)))) fs) (field_offsets pos ls)) ->
  snd (snd f) (p + o) b -> exists l, In (o, l) (combine (field_offsets pos ls) ls) /\ among (p + o) (snd l) b.
Proof.
  intros enc m fs. induction fs as [|[l t] fs IH]; intros ls pos p b f o H Hi Hs Hin Hb; [contradiction|].
  change (all_some (sp_layout t :: map (fun f => sp_layout (snd f)) fs) = Some ls) in Hs.
  cbn [all_some] in Hs. destruct (sp_layout t) as [[a sz]|] eqn:Et; [|discriminate].
  destruct (all_some (map (fun f => sp_layout (snd f)) fs)) as [ls'|] eqn:El; [|discriminate]. injection Hs as <-.
  inversion H as [|? ? H1 H2]; subst. inversion Hi as [|? ? Hi1 Hi2]; subst. cbn [fst snd] in *.
  cbn [field_offsets map combine] in *. destruct Hin as [Hin|Hin].
  - injection Hin as <- <-. exists (a, sz). split; [left; reflexivity|]. cbn [fst snd] in *. eapply H1; eassumption.
  - destruct (IH ls' (up_to a pos + sz) p b f o H2 Hi2 eq_refl Hin Hb) as (l0 & Hl & Ha). exists l0. split; [right; exact Hl|exact Ha].
Qed.

Lemma field_within : forall ls pos o l, Forall (fun l : layout => valid_align (fst l)) ls ->
  In (o, l) (combine (field_offsets pos ls) ls) -> o + snd l <= fields_end pos ls.
Proof.
  induction ls as [|[a s] ls IH]; intros pos o l Hv Hin; [contradiction|]. inversion Hv as [|? ? Hv1 Hv2]; subst.
  cbn [field_offsets combine fields_end] in *. destruct Hin as [E|Hin].
  - injection E as <- <-. cbn [snd]. apply fields_end_ge. exact Hv2.
  - apply (IH _ _ _ Hv2 Hin).
Qed.

Lemma inline_record_parts : forall enc m fs ls p b,
  Forall (fun f => forall a sz p b, sp_layout (snd f) = Some (a, sz) -> inline (snd f) -> part_of enc m (snd f) p b -> among p sz b) fs ->
  inline (TRecord fs) -> all_some (map (fun f => sp_layout (snd f)) fs) = Some ls ->
  part_of enc m (TRecord fs) p b ->
  exists o l, In (o, l) (combine (field_offsets 0 ls) ls) /\ among (p + o) (snd l) b.
Proof.
  intros enc m fs ls p b H Hi El (ls' & f & o & E & Hin & Hb). rewrite map_map in E. cbn [fst snd] in E.
  assert (ls' = ls) as -> by congruence. cbn [inline] in Hi. apply free_all in Hi.
  destruct (inline_fields enc m fs ls 0 p b f o H Hi El Hin Hb) as (l & Hl & Ha). exists o, l. auto.
Qed.

Lemma inline_parts : forall enc m t a sz p b, sp_layout t = Some (a, sz) -> inline t -> part_of enc m t p b -> among p sz b.
Proof.
  intros enc m t. induction t using valtype_ind'; intros al sz p x Hl Hi Hb;
    try contradiction; try (cbn [sp_layout] in Hl; injection Hl as <- <-; exact Hb).
  - assert (Hl' := Hl). cbn [sp_layout] in Hl'.
    destruct (all_some (map (fun f => sp_layout (snd f)) fs)) as [ls|] eqn:El; [|discriminate].
    assert (Hr : sp_record ls = (al, sz)) by (cbn [bindo] in Hl'; congruence).
    pose proof (all_some_valid snd fs ls El) as Hv. pose proof (sp_record_end ls Hv) as Hend. rewrite Hr in Hend. cbn [snd] in Hend.
    destruct (inline_record_parts enc m fs ls p x H Hi El Hb) as (o & l & Hin & [B1 B2]).
    pose proof (field_within ls 0 o l Hv Hin). split; lia.
  - assert (Hl' := Hl). cbn [sp_layout] in Hl'.
    destruct (all_some (payload_types (map (map_case sp_layout) cs))) as [ls|] eqn:El; [|discriminate].
    cbn [bindo] in Hl'. destruct (sp_variant_inv _ _ _ _ Hl') as (d & dt & Hdz & _ & _ & Hvd & Ea & Esz & Hcase & Hpos).
    destruct (variant_payload_placed _ _ _ _ _ El Hl Hdz) as (Hpo & _ & Hda & Hpl).
    destruct (sp_layout_facts _ _ _ Hl) as (_ & Hva & _).
    pose proof (up_to_ge al (payload_offset d ls + max_size ls) (valid_align_nz _ Hva)) as Hup.
    destruct Hb as (d' & Hdz' & Hb). rewrite map_length in Hdz'. assert (d' = d) as -> by congruence.
    destruct Hb as [[B1 B2]|(ls' & c' & q & El' & Hn & Hq & Hb)]; [split; lia|].
    rewrite (payload_types_map (fun t => (sp_layout t, part_of enc m t)) fst) in El'. cbn [fst] in El'.
    assert (Ell : ls' = ls) by (apply (f_equal (fun x => match x with Some y => y | None => [] end)) in El; rewrite <- El; symmetry; exact (f_equal (fun x => match x with Some y => y | None => [] end) El')). subst ls'. rewrite nth_error_map in Hn.
    destruct (nth_error cs _) as [c|] eqn:Ec; [|discriminate]. injection Hn as <-. cbn in Hq.
    destruct (c_type c) as [t|] eqn:Et; [|discriminate]. injection Hq as <-. cbn [snd] in Hb.
    assert (Hic : In c cs) by (eapply nth_error_In; exact Ec).
    destruct (payload_layout _ _ _ _ El Hic Et) as ([pa ps] & Hpt & _).
    destruct (Hpl c t pa ps Hic Et Hpt) as (_ & _ & Hin).
    rewrite Forall_forall in H. specialize (H c Hic). rewrite Et in H.
    cbn [inline] in Hi. apply free_all in Hi. rewrite Forall_forall in Hi. specialize (Hi c Hic). rewrite Et in Hi.
    destruct (H pa ps _ _ Hpt Hi Hb) as [B1 B2]. split; lia.
  - cbn [sp_layout] in Hl. injection Hl as Hl. cbn [part_of] in Hb. rewrite Hl in Hb. exact Hb.
  - rewrite <- sp_layout_despecialize in Hl. apply inline_despecialize in Hi. apply (IHt _ _ p x Hl Hi).
    apply parts_despecialize. exact Hb.
Qed.

Lemma inline_addressable : forall enc m t p, inline t -> addressable enc m t p.
Proof.
  intros enc m t. induction t using valtype_ind'; intros p Hi; try exact I; try contradiction.
  - cbn [inline] in Hi. apply free_all in Hi. cbn [addressable]. intros ls E.
    rewrite map_map in E. cbn [fst snd] in E. rewrite Forall2_map_l. cbn [fst snd]. revert E. generalize 0. revert ls.
    induction fs as [|[l t] fs IH]; intros ls pos E.
    + cbn in E. injection E as <-. constructor.
    + change (all_some (sp_layout t :: map (fun f => sp_layout (snd f)) fs) = Some ls) in E.
      cbn [all_some] in E. destruct (sp_layout t) as [[a sz]|] eqn:Et; [|discriminate].
      destruct (all_some (map (fun f => sp_layout (snd f)) fs)) as [ls'|] eqn:El; [|discriminate]. injection E as <-.
      inversion H as [|? ? H1 H2]; subst. inversion Hi as [|? ? Hi1 Hi2]; subst. cbn [fst snd] in *.
      cbn [field_offsets]. constructor; [apply H1, Hi1|]. apply IH; auto.
  - cbn [inline] in Hi. apply free_all in Hi. cbn [addressable]. intros d ls c Hd El Hn. rewrite nth_error_map in Hn.
    destruct (nth_error cs _) as [c0|] eqn:Ec; [|discriminate]. injection Hn as <-. cbn.
    destruct (c_type c0) as [t|] eqn:Et; [|exact I]. cbn [snd].
    assert (Hic : In c0 cs) by (eapply nth_error_In; exact Ec). rewrite Forall_forall in H, Hi.
    specialize (H c0 Hic). specialize (Hi c0 Hic). rewrite Et in H, Hi. apply H, Hi.
  - apply inline_despecialize in Hi. apply addressable_despecialize. apply IHt, Hi.
Qed.
