(** Store writes only its destination and fresh blocks. *)
From Coq Require Import NArith ZArith List String Ascii Bool Lia ZifyBool ZifyNat ZifyN.
From Verif Require Import GoBase M_Types M_Layout S_Layout L_Layout M_State M_Utf M_Load M_Store M_Flat
  S_Values S_Memory S_Access L_Access L_Variant L_Labels L_Despecialize L_Mem.
Import ListNotations.
Open Scope N_scope.
Open Scope go_scope.

Lemma lists_fit_despecialize : forall t v, lists_fit (despecialize t) v <-> lists_fit t v.
Proof.
  destruct t; intros v; try reflexivity; cbn [despecialize lists_fit].
  - rewrite (map_itoa_fields lists_fit). reflexivity.
  - rewrite map_enum_cases. reflexivity.
  - rewrite map_itoa_cases. reflexivity.
Qed.

Lemma lists_fit_nil : forall t, lists_fit t VNil.
Proof.
  intros t. destruct t; cbn; auto; try (intros ? ? ? ? H; discriminate); try (intros ? H; discriminate).
Qed.

(** ** What a matched key says *)
Lemma split_bar_spec : forall s, let (h, t) := split_bar s in
  s = String.concat "|" (h :: t) /\ Forall bar_free (h :: t).
Proof.
  induction s as [|c s IH]; cbn [split_bar].
  - split; [reflexivity|]. constructor; [exact I|constructor].
  - destruct (split_bar s) as [h t]. destruct IH as [E F].
    destruct (Ascii.eqb_spec c "|"%char).
    + subst c. split.
      * change (String.concat "|" (EmptyString :: h :: t)) with ("|" ++ String.concat "|" (h :: t))%string.
        rewrite <- E. reflexivity.
      * constructor; [exact I|assumption].
    + split.
      * rewrite E. destruct t; reflexivity.
      * inversion F; subst. constructor; [split; assumption|assumption].
Qed.

Lemma label_index_none_inv : forall {A} (cs : list (caseOf A)) i l,
  label_index cs i l None = None -> ~ In l (map c_label cs).
Proof.
  assert (X : forall {A} (cs : list (caseOf A)) i l x, label_index cs i l (Some x) <> None).
  { induction cs; intros; cbn; [discriminate|]. destruct (String.eqb (c_label a) l); apply IHcs. }
  induction cs as [|c cs IH]; intros i l H; cbn in *; [tauto|].
  destruct (String.eqb_spec (c_label c) l); [exfalso; eapply X; exact H|].
  intros [E|E]; [contradiction|]. eapply IH; eassumption.
Qed.

Lemma match_labels_inv : forall {A} (cs : list (caseOf A)) ls i,
  N.of_nat (List.length cs) < two32 -> match_labels cs ls = Ok i ->
  exists before l after, ls = (before ++ l :: after)%list /\
    Forall (fun x => ~ In x (map c_label cs)) before /\
    nth_error (map c_label cs) (N.to_nat i) = Some l.
Proof.
  intros A cs ls i Hn. induction ls as [|l ls IH]; intros H; cbn in H; [discriminate|].
  destruct (label_index cs 0 l None) as [j|] eqn:E.
  - inversion H; subst. exists [], l, ls. split; [reflexivity|]. split; [constructor|].
    destruct (label_index_bound _ _ _ _ _ E) as [|(? & ? & c & Hc & Hl)]; [discriminate|].
    rewrite u32_small by lia. rewrite nth_error_map. rewrite N.sub_0_r in Hc. rewrite Hc. cbn. congruence.
  - destruct (IH H) as (before & l' & after & -> & Hb & Hi).
    exists (l :: before), l', after. split; [reflexivity|]. split; [|assumption].
    constructor; [|assumption]. eapply label_index_none_inv; eassumption.
Qed.

Lemma match_case_inv : forall {A} (cs : list (caseOf A)) v i p,
  N.of_nat (List.length cs) < two32 -> match_case v cs = Ok (i, p) ->
  exists key, v = VMap [(key, p)] /\ selects (map c_label cs) key (N.to_nat i).
Proof.
  intros A cs v i p Hn H. unfold match_case in H. destruct v; try discriminate.
  destruct m as [|[k x] [|? ?]]; try discriminate.
  pose proof (split_bar_spec k) as S. destruct (split_bar k) as [h t]. destruct S as [E F].
  destruct (match_labels cs (h :: t)) eqn:Em; cbn [obind] in H; try discriminate. inversion H; subst i p.
  destruct (match_labels_inv _ _ _ Hn Em) as (before & l & after & El & Hb & Hi).
  exists k. split; [reflexivity|]. exists before, l, after. rewrite <- El. auto.
Qed.

(** ** Framing *)
Definition framed (init : N -> Prop) (p n : N) (m : M unit) : Prop :=
  forall s o s', good s -> p + n <= len s -> m s = (o, s') -> step init s s' (within p n).

Lemma framed_ret : forall init p n, framed init p n (ret tt).
Proof. intros init p n s o s' Hg _ H. inversion H; subst. apply step_refl. assumption. Qed.

Lemma framed_err : forall init p n o, framed init p n (lift_o o).
Proof. intros init p n o s o' s' Hg _ H. inversion H; subst. apply step_refl. assumption. Qed.

Lemma step_sub : forall init s s' p n q k, step init s s' (within q k) -> p <= q -> q + k <= p + n ->
  step init s s' (within p n).
Proof. intros. eapply step_weaken; [eassumption|]. unfold within. intros. lia. Qed.

Lemma framed_sub : forall init p n q k m, framed init q k m -> p <= q -> q + k <= p + n -> framed init p n m.
Proof.
  intros init p n q k m H Hq Hk s o s' Hg Hl E. eapply step_sub; [eapply H; try eassumption; lia|lia|lia].
Qed.

Lemma framed_bind : forall init p n m f, framed init p n m -> framed init p n f ->
  framed init p n (m ;; f).
Proof.
  intros init p n m f Hm Hf s o s' Hg Hl E. unfold bind in E.
  destruct (m s) as [o1 s1] eqn:E1. specialize (Hm _ _ _ Hg Hl E1).
  destruct o1; try (inversion E; subst; assumption).
  pose proof (st_len _ _ _ _ Hm).
  eapply step_trans; [exact Hm|eapply Hf; try eassumption; [apply Hm|lia]| |]; auto.
Qed.

Lemma framed_lift : forall {A} init p n (o : outcome A) f,
  (forall a, o = Ok a -> framed init p n (f a)) -> framed init p n (let* a := lift_o o in f a).
Proof.
  intros A init p n o f H s o' s' Hg Hl E. destruct o.
  - rewrite bind_lift_ok in E. eapply H; try eassumption. reflexivity.
  - unfold bind, lift_o in E. inversion E; subst. apply step_refl; assumption.
  - unfold bind, lift_o in E. inversion E; subst. apply step_refl; assumption.
  - unfold bind, lift_o in E. inversion E; subst. apply step_refl; assumption.
Qed.

Lemma framed_store_bytes : forall init p n bs, Forall (fun b => b < 256) bs ->
  N.of_nat (List.length bs) <= n -> framed init p n (store_bytes p n bs).
Proof.
  intros init p n bs Hb Hn s o s' Hg Hl E. rewrite store_bytes_ok in E by assumption. inversion E; subst.
  eapply step_sub; [apply step_wr; [assumption|assumption|lia]|lia|lia].
Qed.

Lemma int_bytes_length : forall n x, N.of_nat (List.length (int_bytes n x)) <= n.
Proof.
  intros n x. unfold int_bytes.
  destruct (N.eqb_spec n 1); [subst; rewrite le_encode_length; lia|].
  destruct (N.eqb_spec n 2); [subst; rewrite le_encode_length; lia|].
  destruct (N.eqb_spec n 4); [subst; rewrite le_encode_length; lia|].
  destruct (N.eqb_spec n 8); [subst; rewrite le_encode_length; lia|cbn; lia].
Qed.

Lemma int_bytes_bytes : forall n x, Forall (fun b => b < 256) (int_bytes n x).
Proof.
  intros n x. unfold int_bytes.
  destruct (n =? 1); [apply le_encode_bytes|]. destruct (n =? 2); [apply le_encode_bytes|].
  destruct (n =? 4); [apply le_encode_bytes|]. destruct (n =? 8); [apply le_encode_bytes|constructor].
Qed.

Lemma framed_store_int : forall init v p n sg, framed init p n (store_int v p n sg).
Proof.
  intros. unfold store_int. apply framed_lift. intros i _. apply framed_lift. intros _ _.
  apply framed_store_bytes; [apply int_bytes_bytes|apply int_bytes_length].
Qed.

Lemma framed_store_u32 : forall init x p, framed init p 4 (store_u32 x p).
Proof.
  intros. apply framed_store_bytes; [apply le_encode_bytes|]. rewrite le_encode_length. lia.
Qed.

(** Storing a pair of words after producing them with fresh memory only. *)
Definition produces (cx : callctx) (init : N -> Prop) (m : M (N * N)) : Prop :=
  forall s o s', good s -> m s = (o, s') -> step init s s' (fun _ => False).

Lemma framed_pair : forall cx init m p, produces cx init m -> p + 8 < two32 ->
  framed init p 8 (let* (b, n) := m in store_u32 b p ;; store_u32 n (add32 p 4)).
Proof.
  intros cx init m p Hm Hp s o s' Hg Hl E. unfold bind at 1 in E.
  destruct (m s) as [o1 s1] eqn:E1. specialize (Hm _ _ _ Hg E1). pose proof (st_len _ _ _ _ Hm) as L.
  assert (Hm' : step init s s1 (within p 8)) by (eapply step_weaken; [exact Hm|intros ? ? []]).
  destruct o1 as [[b n]|e| | ]; try (inversion E; subst; assumption).
  unfold add32 in E. rewrite N.mod_small in E by lia.
  eapply step_trans; [exact Hm'|eapply (framed_bind init p 8); try eassumption| |]; auto.
  - apply (framed_sub init p 8 p 4); [apply framed_store_u32|lia|lia].
  - apply (framed_sub init p 8 (p + 4) 4); [apply framed_store_u32|lia|lia].
  - apply Hm.
  - lia.
Qed.

(** ** Strings *)
Lemma unit_bytes_bytes : forall big u, u < two16 -> Forall (fun b => b < 256) (unit_bytes big u).
Proof.
  intros big u H. unfold unit_bytes, two16 in *.
  destruct big; repeat constructor; try (apply N.mod_lt; lia); apply N.div_lt_upper_bound; lia.
Qed.

(** The runes of a string are Unicode scalar values. *)
Definition scalarb (r : N) : bool := (r <? 55296) || ((57343 <? r) && (r <? 1114112)).

Lemma utf8_runes_scalar : forall s, Forall (fun r => scalarb r = true) (utf8_runes s).
Proof.
  assert (X : forall n s, (List.length s <= n)%nat -> Forall (fun r => scalarb r = true) (utf8_runes s)).
  { induction n as [|n IH]; intros s Hl.
    - destruct s; [constructor|cbn in Hl; lia].
    - destruct s as [|b0 s1]; [constructor|]. cbn in Hl.
      assert (R : scalarb rune_error = true) by reflexivity.
      cbn [utf8_runes]. destruct (N.ltb_spec b0 128).
      { constructor; [unfold scalarb; lia|apply IH; lia]. }
      destruct s1 as [|b1 s2]; [repeat constructor|]. cbn in Hl.
      assert (E1 : Forall (fun r => scalarb r = true) (utf8_runes (b1 :: s2))) by (apply IH; cbn; lia).
      destruct (lead2 b0 && second_ok b0 b1).
      { constructor; [|apply IH; lia]. unfold scalarb.
        pose proof (N.mod_lt b0 32). pose proof (N.mod_lt b1 64). lia. }
      destruct s2 as [|b2 s3]; [constructor; assumption|]. cbn in Hl.
      destruct (lead3 b0 && second_ok b0 b1 && cont_byte b2) eqn:E.
      { constructor; [|apply IH; lia].
        pose proof (N.mod_lt b1 64). pose proof (N.mod_lt b2 64).
        apply andb_prop in E as [E _]. apply andb_prop in E as [L S].
        unfold lead3, second_ok, cont_byte, in_range in *.
        assert (Hm : b0 mod 16 = b0 - 224).
        { replace b0 with (b0 - 224 + 14 * 16) at 1 by lia. rewrite N.mod_add by lia. apply N.mod_small. lia. }
        rewrite Hm. destruct (N.eqb_spec b0 237) as [->|N237].
        - cbn in S. assert (b1 mod 64 <= 31).
          { replace b1 with (b1 - 128 + 2 * 64) by lia. rewrite N.mod_add by lia. rewrite N.mod_small by lia. lia. }
          unfold scalarb. lia.
        - unfold scalarb. lia. }
      destruct s3 as [|b3 s4]; [constructor; assumption|]. cbn in Hl.
      destruct (lead4 b0 && second_ok b0 b1 && cont_byte b2 && cont_byte b3) eqn:E4; [|constructor; assumption].
      constructor; [|apply IH; lia]. clear E.
      apply andb_prop in E4 as [E _]. apply andb_prop in E as [E _]. apply andb_prop in E as [L S].
      unfold lead4, second_ok, in_range, cont_byte in *.
      assert (b0 = 240 \/ b0 = 241 \/ b0 = 242 \/ b0 = 243 \/ b0 = 244) as B by lia.
      pose proof (N.mod_lt b1 64). pose proof (N.mod_lt b2 64). pose proof (N.mod_lt b3 64).
      unfold scalarb.
      destruct B as [->|[->|[->|[->| ->]]]]; cbn in S; change (240 mod 8) with 0;
        change (241 mod 8) with 1; change (242 mod 8) with 2; change (243 mod 8) with 3;
        change (244 mod 8) with 4; try lia. }
  intros s. apply (X (List.length s)). lia.
Qed.

Lemma flat_map_Forall : forall {A B} (P : A -> Prop) (Q : B -> Prop) (f : A -> list B) l,
  (forall a, P a -> Forall Q (f a)) -> Forall P l -> Forall Q (flat_map f l).
Proof.
  intros A B P Q f l Hf H. induction H; cbn; [constructor|]. apply Forall_app. auto.
Qed.

Lemma scalarb_lt : forall r, scalarb r = true -> r < 1114112.
Proof. unfold scalarb. intros. lia. Qed.

Lemma utf8_encode_rune_bytes : forall r, r < 1114112 -> Forall (fun b => b < 256) (utf8_encode_rune r).
Proof.
  intros r H. unfold utf8_encode_rune, utf8_rune3, rune_error.
  destruct (N.ltb_spec r 128); [repeat constructor; lia|].
  destruct (N.ltb_spec r 2048); [repeat constructor; lia|].
  destruct ((1114111 <? r) || is_surrogate r); [repeat constructor|].
  destruct (N.ltb_spec r 65536); repeat constructor; lia.
Qed.

Lemma utf16_units_lt : forall r, r < 1114112 -> Forall (fun u => u < two16) (utf16_units r).
Proof.
  intros r H. unfold utf16_units, two16. destruct (N.ltb_spec r 65536); repeat constructor; lia.
Qed.

Lemma encode_string_bytes : forall c s enc, encode_string c s = Ok enc -> Forall (fun b => b < 256) enc.
Proof.
  intros c s enc H. pose proof (utf8_runes_scalar (sent s)) as R. destruct c; cbn [encode_string] in H.
  - inversion H; subst. unfold utf8_encode. eapply flat_map_Forall; [|exact R].
    intros r Hr. apply utf8_encode_rune_bytes, scalarb_lt, Hr.
  - inversion H; subst. unfold utf16_encode. eapply flat_map_Forall; [apply unit_bytes_bytes|].
    eapply flat_map_Forall; [|exact R]. intros r Hr. apply utf16_units_lt, scalarb_lt, Hr.
  - unfold latin1_encode in H. destruct (forallb latin1_ok (utf8_runes (sent s))) eqn:E; [|discriminate].
    inversion H; subst. apply Forall_forall. intros x Hx. rewrite forallb_forall in E.
    specialize (E x Hx). unfold latin1_ok in E. lia.
Qed.

Lemma Forall_firstn' : forall {A} (P : A -> Prop) n l, Forall P l -> Forall P (firstn n l).
Proof.
  intros A P n l H. revert n. induction H; intros [|n]; cbn; constructor; auto.
Qed.

Lemma step_none : forall init s s', step init s s' (fun _ => False) -> good s'.
Proof. intros init s s' H. apply H. Qed.

Lemma produces_dynamic : forall cx init s c, correct_allocator cx init ->
  produces cx init (store_string_dynamic cx s c).
Proof.
  intros cx init str c Hc s o s' Hg E. unfold store_string_dynamic in E.
  destruct (encode_string c str) as [enc|e| | ] eqn:Ee;
    try (inversion E; subst; apply step_refl; assumption).
  rewrite bind_lift_ok in E. set (n := u32 (N.of_nat (List.length enc))) in *.
  unfold bind at 1 in E. destruct (realloc cx 0 0 (codec_alignment c) n s) as [o1 s1] eqn:Er.
  pose proof (realloc_fresh _ _ _ _ _ _ _ Hc Hg Er) as R.
  destruct o1 as [p|e| | ]; [|destruct R as [R _]; inversion E; subst; exact R..].
  destruct R as (S & _ & B & F & _). pose proof (st_good _ _ _ _ S) as Hg1.
  unfold bind in E. rewrite store_bytes_ok in E by assumption. inversion E; subst.
  assert (Hlen : N.of_nat (List.length (firstn (N.to_nat n) enc)) <= n) by (rewrite firstn_length; lia).
  eapply step_trans; [exact S|apply step_wr| |].
  - assumption.
  - apply Forall_firstn'. eapply encode_string_bytes; eassumption.
  - lia.
  - auto.
  - intros b Ho Hw. apply (F b); [|assumption]. unfold within in *. lia.
Qed.

Lemma produces_bind_ret : forall cx init m (f : N * N -> N * N), produces cx init m ->
  produces cx init (let* x := m in ret (f x)).
Proof.
  intros cx init m f H s o s' Hg E. unfold bind in E. destruct (m s) as [o1 s1] eqn:E1.
  specialize (H _ _ _ Hg E1). destruct o1; inversion E; subst; assumption.
Qed.

Lemma produces_string : forall cx init s, correct_allocator cx init ->
  produces cx init (store_string_into_range cx s).
Proof.
  intros cx init str Hc s o s' Hg E. unfold store_string_into_range in E.
  destruct (get_codec (cx_enc cx)) as [c|e| | ] eqn:Ec;
    try (inversion E; subst; apply step_refl; assumption).
  rewrite bind_lift_ok in E. destruct (cx_enc cx); try (eapply produces_dynamic; eassumption).
  assert (X : exists c', get_codec (if negb (is_latin1 str) then EncUtf16LE else EncLatin1) = Ok c').
  { destruct (is_latin1 str); cbn; eauto. }
  destruct X as [c' X]. rewrite X, bind_lift_ok in E.
  eapply (produces_bind_ret cx init (store_string_dynamic cx str c')
            (fun x => (fst x, tagged_to_u32 (mkTagged (snd x) (negb (is_latin1 str)))))); try eassumption.
  - apply produces_dynamic; assumption.
  - rewrite <- E. apply bind_ext. intros [a b] s0. reflexivity.
Qed.

(** ** Lists *)
Lemma elems_framed : forall init st sz vs base i n,
  Forall (fun v => forall p, p + sz <= base + n -> base <= p -> framed init p sz (st v p)) vs ->
  base + n < two32 -> (i + N.of_nat (List.length vs)) * sz <= n ->
  framed init base n (store_elems vs st base sz i).
Proof.
  intros init st sz vs base i n H. revert i. induction H as [|v vs Hv H IH]; intros i Hb Hn.
  - apply framed_ret.
  - cbn [store_elems]. cbn [List.length] in *.
    assert (Ei : add32 base (mul32 (u32 i) sz) = base + i * sz).
    { assert (i * sz + sz <= n) by nia. unfold add32, mul32.
      destruct (N.eq_dec sz 0) as [->|Hz].
      { rewrite !N.mul_0_r, N.add_0_r. change (0 mod two32) with 0. rewrite N.add_0_r. apply N.mod_small. lia. }
      assert (i <= i * sz) by nia. rewrite (u32_small i) by lia.
      rewrite (N.mod_small (i * sz)) by lia. apply N.mod_small. lia. }
    rewrite Ei. apply framed_bind.
    + assert (i * sz + sz <= n) by nia. apply (framed_sub init base n (base + i * sz) sz); [apply Hv|idtac..]; lia.
    + apply IH; lia.
Qed.

Lemma list_len_check : forall x, x < two32 -> (9223372036854775807 <=? to_signed two64 x)%Z = false.
Proof.
  intros x H. apply Z.leb_gt. unfold to_signed, two64, two32 in *. rewrite N.mod_small by lia.
  destruct (N.ltb_spec (2 * x) 18446744073709551616); lia.
Qed.

Lemma produces_list : forall cx init al sz a n st v,
  correct_allocator cx init -> al = Ok a -> sz = Ok n -> n < two32 ->
  (forall l, v = VList l -> N.of_nat (List.length l) * n < two32 /\
     (l <> [] -> Forall (fun v => forall p, p + n < two32 -> framed init p n (st v p)) l)) ->
  produces cx init (store_list_into_range cx al sz st v).
Proof.
  intros cx init al sz a n st v Hc -> -> Hn Hl s o s' Hg E.
  destruct v; try (inversion E; subst; apply step_refl; assumption).
  destruct (Hl l eq_refl) as [Hf He]. cbn [store_list_into_range] in E. rewrite bind_lift_ok in E.
  assert (Hs : (9223372036854775807 <=? to_signed two64 (N.of_nat (List.length l) * n))%Z = false).
  { apply list_len_check. assumption. }
  rewrite Hs, bind_lift_ok in E. rewrite u32_small in E by assumption.
  unfold bind at 1 in E. destruct (realloc cx 0 0 a (N.of_nat (List.length l) * n) s) as [o1 s1] eqn:Er.
  pose proof (realloc_fresh _ _ _ _ _ _ _ Hc Hg Er) as R.
  destruct o1 as [p|e| | ]; [|destruct R as [R _]; inversion E; subst; exact R..].
  destruct R as (S & _ & B & F & _). pose proof (st_good _ _ _ _ S) as Hg1.
  assert (Hl1 : len s1 < two32) by apply Hg1.
  assert (K : forall m : M unit, framed init p (N.of_nat (List.length l) * n) m ->
    forall o2 s2, m s1 = (o2, s2) -> step init s s2 (fun _ => False)).
  { intros m Hm o2 s2 Em. eapply step_trans; [exact S|eapply Hm; try eassumption| |]; auto.
    intros b Ho Hw. apply (F b); assumption. }
  assert (FE : framed init p (N.of_nat (List.length l) * n) (store_elems l st p n 0)).
  { destruct l as [|x l']; [apply framed_ret|]. apply elems_framed; try lia.
    - eapply Forall_impl; [|apply He; discriminate]. intros v0 Hv0 q Hq1 Hq2. apply Hv0. lia. }
  unfold bind at 1 in E. destruct (check_aligned ETrap p a s1) as [o2 s2] eqn:E2.
  assert (s2 = s1) as ->.
  { revert E2. unfold check_aligned, bind, lift_o, align_to. destruct (p =? _); intros E2; inversion E2; reflexivity. }
  destruct o2; try (inversion E; subst; eapply (K (lift_o Panic)); [apply framed_err|reflexivity]).
  unfold bind at 1 in E. destruct (check_bounds ETrap p (N.of_nat (List.length l) * n) s1) as [o3 s3] eqn:E3.
  assert (s3 = s1) as ->.
  { revert E3. unfold check_bounds, bind, get_mem, lift_o. destruct (_ <? _); intros E3; inversion E3; reflexivity. }
  destruct o3; try (inversion E; subst; eapply (K (lift_o Panic)); [apply framed_err|reflexivity]).
  unfold bind in E. destruct (store_elems l st p n 0 s1) as [o4 s4] eqn:E4.
  specialize (K _ FE _ _ E4). destruct o4; inversion E; subst; assumption.
Qed.

(** ** All types *)
Definition frame_ok (cx : callctx) (init : N -> Prop) (t : valtype) : Prop :=
  forall a sz v p, sp_layout t = Some (a, sz) -> lists_fit t v -> p + sz < two32 ->
  framed init p sz (store cx t v p).

Lemma framed_guarded : forall init al sz a n st v p, al = Ok a -> sz = Ok n -> valid_align a ->
  p + n < two32 -> framed init p n (st v p) -> framed init p n (guarded al sz st v p).
Proof.
  intros init al sz a n st v p Ha Hn Hv Hp H s o s' Hg Hl E.
  destruct (guarded_cases al sz a n st v p s Ha Hn Hv Hg Hp) as [(_ & _ & G)|[G _]]; rewrite G in E.
  - eapply H; eassumption.
  - inversion E; subst. apply step_refl; assumption.
Qed.

Lemma store_at_framed : forall cx init fs ls pos base n m,
  Forall (fun f => frame_ok cx init (snd f)) fs ->
  Forall (fun f => lists_fit (snd f) (match map_get m (fst f) with Some v => v | None => VNil end)) fs ->
  all_some (map (fun f => sp_layout (snd f)) fs) = Some ls ->
  base + n < two32 -> fields_end pos ls <= n ->
  framed init base n
    (store_at (map (fun f => (fst f, store cx (snd f))) fs) (map (N.add base) (field_offsets pos ls)) m).
Proof.
  intros cx init fs. induction fs as [|[l t] fs IH]; intros ls pos base n m Hf Hm Hs Hb He.
  - cbn in Hs. injection Hs as <-. apply framed_ret.
  - cbn in Hs. destruct (sp_layout t) as [[a sz]|] eqn:Et; [|discriminate].
    destruct (all_some _) as [ls'|] eqn:El; [|discriminate]. injection Hs as <-.
    inversion Hf as [|? ? Hf1 Hf2]; subst. inversion Hm as [|? ? Hm1 Hm2]; subst. cbn [fst snd] in *.
    pose proof (all_some_valid snd fs ls' El) as Hv.
    destruct (sp_layout_facts _ _ _ Et) as (_ & Hva & _).
    cbn [fields_end] in He. pose proof (fields_end_ge ls' (up_to a pos + sz) Hv).
    cbn [map field_offsets store_at fst snd]. apply framed_bind.
    + apply (framed_sub init base n (base + up_to a pos) sz); [eapply Hf1; [exact Et|exact Hm1|lia]|lia|lia].
    + apply IH; assumption || reflexivity.
Qed.

Lemma framed_ext : forall init p n m m',
  (forall s, good s -> p + n <= len s -> m s = m' s) -> framed init p n m' -> framed init p n m.
Proof. intros init p n m m' E H s o s' Hg Hl Em. rewrite E in Em by assumption. eapply H; eassumption. Qed.

Lemma framed_any_size : forall init p n m, (forall k, k <= n -> framed init p k m) -> framed init p n m.
Proof. intros. apply H. lia. Qed.

Lemma frame_ok_all : forall cx init t, correct_allocator cx init -> frame_ok cx init t.
Proof.
  intros cx init t Hc. induction t using valtype_ind'; intros al sz v p Hl Hfit Hp; try rename al into a;
    try discriminate;
    try (cbn in Hl; injection Hl as <- <-;
         eapply framed_guarded; [reflexivity|reflexivity|unfold valid_align; lia|exact Hp|];
         (apply framed_store_int || (destruct v; (apply framed_store_int || apply framed_err)))).
  - (* string *)
    cbn in Hl; injection Hl as <- <-.
    eapply framed_guarded; [reflexivity|reflexivity|unfold valid_align; lia|exact Hp|].
    destruct v; try apply framed_err. cbn [store_str]. eapply framed_pair; [|exact Hp].
    apply produces_string. assumption.
  - (* list *)
    cbn in Hl; injection Hl as <- <-.
    change (store cx (TList t) v p) with
      (guarded (Ok 4) (Ok 8) (store_list cx (alignment t) (size t) (store cx t)) v p).
    eapply framed_guarded; [reflexivity|reflexivity|unfold valid_align; lia|exact Hp|].
    unfold store_list. apply (framed_pair cx); [|exact Hp].
    destruct v; try (intros s0 o s' Hg E; inversion E; subst; apply step_refl; assumption).
    destruct (Hfit l eq_refl) as [Hfl Hsz].
    destruct (layout_ok_all t) as (_ & L). destruct (sp_layout t) as [[a sz]|] eqn:Et.
    + destruct L as (Ha & Hv & _ & sz' & Hs & _ & Hlt & Heq).
      eapply produces_list; [exact Hc|exact Ha|exact Hs|exact Hlt|].
      intros l' El. injection El as <-. specialize (Hsz _ _ eq_refl).
      destruct l as [|x l'].
      * split; [cbn [List.length]; rewrite N.mul_0_l; unfold two32; lia|congruence].
      * assert (sz < two32) by (cbn [List.length] in Hsz; change (2 ^ 32) with two32 in Hsz; nia).
        rewrite Heq in * by assumption. split; [exact Hsz|]. intros _.
        eapply Forall_impl; [|exact Hfl]. intros v Hv0 q Hq. eapply IHt; [exact Et|exact Hv0|exact Hq].
    + destruct L as [e L]. intros s o s' Hg E. unfold store_list_into_range in E. rewrite L in E.
      inversion E; subst. apply step_refl; assumption.
  - (* record *)
    cbn [sp_layout] in Hl.
    destruct (all_some (map (fun f => sp_layout (snd f)) fs)) as [ls|] eqn:El; [|discriminate].
    cbn [bindo] in Hl. assert (Hl' : sp_layout (TRecord fs) = Some (a, sz)) by (cbn [sp_layout]; rewrite El; exact Hl).
    assert (Hr : sp_record ls = (a, sz)) by congruence.
    destruct (sp_layout_facts _ _ _ Hl') as (Ha & Hva & _ & Hs).
    pose proof (all_some_valid snd fs ls El) as Hv. pose proof (sp_record_end ls Hv) as He. rewrite Hr in He. cbn [snd] in He.
    intros s o s' Hg Hlen E.
    destruct (guarded_cases (alignment (TRecord fs)) (size (TRecord fs)) a sz
       (store_record (map (fun f => (fst f, mkComp (alignment (snd f)) (size (snd f)) (store cx (snd f)))) fs))
       v p s Ha (Hs ltac:(lia)) Hva Hg Hp) as [(Hd & _ & G)|[G _]].
    2:{ unfold store in E; fold store in E. rewrite G in E. inversion E; subst. apply step_refl; assumption. }
    destruct v; try (unfold store in E; fold store in E; rewrite G in E; inversion E; subst; apply step_refl; assumption).
    rewrite (record_store_offsets cx fs ls) in E; try assumption.
    + eapply (store_at_framed cx init fs ls 0 p sz m); try eassumption.
      cbn in Hfit. specialize (Hfit m eq_refl). clear - Hfit.
      induction fs as [|f fs IH]; constructor; inversion Hfit; subst; auto.
      destruct (map_get m (fst f)) eqn:Ef; [apply H1; assumption|apply lists_fit_nil].
    + rewrite Hr. assumption.
    + rewrite Hr. assumption.
    + rewrite Hr, mem_len32_ok by assumption. exact Hlen.
  - (* variant *)
    assert (Hl' := Hl). cbn [sp_layout] in Hl.
    destruct (all_some (payload_types (map (map_case sp_layout) cs))) as [ls|] eqn:El; [|discriminate].
    cbn [bindo] in Hl. destruct (sp_variant_inv _ _ _ _ Hl) as (d & dt & Hd & _ & _ & Hvd & _ & _ & Hcase & Hpos).
    destruct (variant_payload_placed _ _ _ _ _ El Hl' Hd) as (Hpo & _ & _ & Hpl).
    destruct (sp_layout_facts _ _ _ Hl') as (Ha & Hva & _ & Hs).
    assert (Hn : N.of_nat (List.length cs) < two32).
    { change (2 ^ 8) with 256 in *; change (2 ^ 16) with 65536 in *; change (2 ^ 24) with 16777216 in *; unfold two32; lia. }
    intros s o s' Hg Hlen E.
    destruct (guarded_cases (alignment (TVariant cs)) (size (TVariant cs)) a sz
       (store_variant (map (map_case (fun t => mkComp (alignment t) (size t) (store cx t))) cs))
       v p s Ha (Hs ltac:(lia)) Hva Hg Hp) as [(Hdv & _ & G)|[G _]].
    2:{ unfold store in E; fold store in E. rewrite G in E. inversion E; subst. apply step_refl; assumption. }
    rewrite (variant_store_offsets cx cs ls a sz d) in E; try assumption;
      [|rewrite mem_len32_ok by assumption; exact Hlen].
    clear G. revert s o s' Hg Hlen E.
    change (framed init p sz (let* (i, p0) := lift_o (match_case v cs) in
      store_uint d i p ;; match nth_error cs (N.to_nat i) with
        | Some c => match c_type c with Some t => store cx t p0 (p + payload_offset d ls) | None => ret tt end
        | None => lift_o Panic end)).
    apply framed_lift. intros [i x] Em.
    assert (Hdsz : d <= sz).
    { assert (X : payload_offset d ls <= sz).
      { pose proof (sp_variant_inv _ _ _ _ Hl) as (d' & _ & Hd' & _ & _ & _ & _ & Hsz & _).
        assert (d' = d) by congruence. subst d'.
        pose proof (up_to_ge a (payload_offset d ls + max_size ls) (valid_align_nz _ Hva)). lia. }
      lia. }
    apply framed_bind.
    + apply (framed_sub init p sz p d); [|lia|lia]. unfold store_uint.
      apply framed_store_bytes; [apply int_bytes_bytes|apply int_bytes_length].
    + destruct (nth_error cs (N.to_nat i)) as [c|] eqn:Ei; [|apply framed_err].
      destruct (c_type c) as [t|] eqn:Et; [|apply framed_ret].
      destruct (payload_layout _ _ _ _ El (nth_error_In _ _ Ei) Et) as ([pa ps] & Hpt & _).
      destruct (Hpl c t pa ps (nth_error_In _ _ Ei) Et Hpt) as (_ & _ & Hin).
      apply (framed_sub init p sz (p + payload_offset d ls) ps); [|lia|lia].
      assert (IHc : frame_ok cx init t).
      { rewrite Forall_forall in H. specialize (H c (nth_error_In _ _ Ei)). rewrite Et in H. exact H. }
      eapply IHc; [exact Hpt| |lia].
      destruct (match_case_inv _ _ _ _ Hn Em) as (key & Ev & Hsel).
      cbn in Hfit. specialize (Hfit key x (N.to_nat i) (map_case lists_fit c) Ev).
      rewrite map_map in Hfit. specialize (Hfit Hsel). rewrite nth_error_map, Ei in Hfit.
      specialize (Hfit eq_refl). cbn in Hfit. rewrite Et in Hfit. exact Hfit.
  - (* flags *)
    cbn [sp_layout] in Hl.
    destruct (sp_layout_facts (TFlags ls) a sz Hl) as (Ha & Hva & _ & Hs).
    unfold store. eapply framed_guarded; [exact Ha|apply Hs; lia|exact Hva|exact Hp|].
    destruct v; try apply framed_err. unfold store_flags. apply framed_lift. intros i _.
    apply framed_lift. intros sz' Hsz'.
    assert (sz' = sz) by (specialize (Hs ltac:(lia)); cbn [size] in Hs; congruence). subst sz'.
    apply framed_store_int.
  - (* specialised *)
    rewrite <- sp_layout_despecialize in Hl. apply lists_fit_despecialize in Hfit.
    rewrite <- store_despecialize. eapply IHt; eassumption.
Qed.
