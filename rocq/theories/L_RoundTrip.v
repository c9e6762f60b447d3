(** What Store writes, Load reads back. *)
From Coq Require Import NArith ZArith List String Ascii Bool Lia ZifyBool ZifyNat ZifyN.
From Verif Require Import GoBase M_Types M_Layout S_Layout L_Layout M_State M_Utf M_Load M_Store M_Flat
  S_Utf S_Values S_Memory S_Access L_Access L_Variant L_Labels L_Despecialize L_Mem L_Utf L_Flags L_Frame.
Import ListNotations.
Open Scope N_scope.
Open Scope go_scope.

(** ** Specialised types *)
Lemma itoa_enum_fst : forall {A} (l : list A) i,
  NoDup (map (fun p => itoa (fst p)) (enum_from i l)) /\
  forall x, In x (map (fun p => itoa (fst p)) (enum_from i l)) -> exists j, i <= j /\ x = itoa j.
Proof.
  intros A l. induction l as [|a l IH]; intros i; cbn [enum_from map fst].
  - split; [constructor|intros x []].
  - destruct (IH (N.succ i)) as [Hn Hi]. split.
    + constructor; [|assumption]. intros E. destruct (Hi _ E) as (j & Hj & Ej). apply itoa_inj in Ej. lia.
    + intros x [<-|Hx]; [exists i; split; [lia|reflexivity]|].
      destruct (Hi _ Hx) as (j & Hj & ->). exists j. split; [lia|reflexivity].
Qed.

Lemma itoa_fields_nodup : forall {A} (l : list A), NoDup (map fst (itoa_fields l)).
Proof. intros. unfold itoa_fields. rewrite map_map. cbn [fst]. apply itoa_enum_fst. Qed.

Lemma itoa_cases_nodup : forall {A} (l : list A), NoDup (map c_label (itoa_cases l)).
Proof. intros. unfold itoa_cases. rewrite map_map. cbn [c_label]. apply itoa_enum_fst. Qed.

Lemma all_Forall : forall {A} (P : A -> Prop) l, all (map P l) <-> Forall P l.
Proof.
  intros A P l. unfold all. induction l as [|x l IH]; cbn; [split; constructor|].
  split; [intros [H1 H2]; constructor; tauto|intros H; inversion H; tauto].
Qed.

Lemma norefines_end : forall {A} (cs : list (caseOf A)), Forall (fun c => c_refines c = None) cs ->
  Forall (refines_end cs) cs.
Proof.
  intros A cs H. eapply Forall_impl; [|exact H]. intros c Hc. apply re_stop. unfold refined. rewrite Hc. reflexivity.
Qed.

Lemma all_enum : forall {A} (P : A -> Prop) (l : list A) i, Forall P l ->
  Forall (fun p => P (snd p)) (enum_from i l).
Proof. intros A P l i H. revert i. induction H; intros i; cbn; constructor; auto. Qed.

Lemma wf_despecialize : forall t, wf_type t -> wf_type (despecialize t).
Proof.
  destruct t; intros H; try exact H; cbn [despecialize wf_type] in *.
  - split; [apply itoa_fields_nodup|]. apply all_Forall in H. apply all_Forall.
    unfold itoa_fields. apply Forall_map. cbn [snd]. apply (all_enum wf_type). assumption.
  - destruct H as [Hn Hb]. repeat split.
    + unfold enum_cases. rewrite map_map. cbn. rewrite map_id. assumption.
    + unfold enum_cases. apply Forall_map. exact Hb.
    + apply norefines_end. unfold enum_cases. apply Forall_map. apply Forall_forall. reflexivity.
    + apply all_Forall. unfold enum_cases. apply Forall_map. apply Forall_forall. cbn. auto.
  - repeat split; cbn; auto.
    + constructor; [|repeat constructor; intros []]. intros [E|[]]. discriminate.
    + repeat constructor; try discriminate.
    + apply norefines_end. repeat constructor.
  - repeat split; cbn; auto; try tauto.
    + constructor; [|repeat constructor; intros []]. intros [E|[]]. discriminate.
    + repeat constructor; try discriminate.
    + apply norefines_end. repeat constructor.
  - repeat split.
    + apply itoa_cases_nodup.
    + unfold itoa_cases. apply Forall_map. apply Forall_forall. intros. apply itoa_bar_free.
    + apply norefines_end. unfold itoa_cases. apply Forall_map. apply Forall_forall. reflexivity.
    + apply all_Forall in H. apply all_Forall. unfold itoa_cases. apply Forall_map. cbn. apply (all_enum wf_type). assumption.
Qed.

Lemma has_type_despecialize : forall enc t v, has_type enc (despecialize t) v <-> has_type enc t v.
Proof.
  destruct t; intros v; try reflexivity; cbn [despecialize has_type].
  - rewrite (map_itoa_fields (has_type enc)). reflexivity.
  - rewrite map_enum_cases. reflexivity.
  - rewrite map_itoa_cases. reflexivity.
Qed.

Lemma same_value_despecialize : forall t v v', same_value (despecialize t) v v' <-> same_value t v v'.
Proof.
  destruct t; intros v v'; try reflexivity; cbn [despecialize same_value].
  - rewrite (map_itoa_fields same_value). reflexivity.
  - rewrite map_enum_cases. reflexivity.
  - rewrite map_itoa_cases. reflexivity.
Qed.

(** ** Writing *)

(** [s''] has the bytes of [s1] in the region and in blocks handed out since [s]. *)
Definition kept (init : N -> Prop) (p n : N) (s s1 s'' : state) : Prop :=
  good s'' /\ len s1 <= len s'' /\
  forall b, within p n b \/ (owned init (s_hist s1) b /\ ~ owned init (s_hist s) b) ->
    byte (s_mem s'') b = byte (s_mem s1) b.

(** Running [m] succeeds unless the allocator fails; it writes the region and
    fresh blocks, and while these are kept, [Q] holds. *)
Definition writes {A} (cx : callctx) (init : N -> Prop) (p n : N) (m : M A) (Q : A -> state -> Prop) : Prop :=
  forall s o s1, good s -> (forall b, within p n b -> owned init (s_hist s) b) -> p + n <= len s ->
    m s = (o, s1) ->
    (exists x, o = Ok x /\ step init s s1 (within p n) /\ forall s'', kept init p n s s1 s'' -> Q x s'')
    \/ alloc_failed cx o.

Lemma writes_mono : forall {A} cx init p n (m : M A) (Q Q' : A -> state -> Prop),
  writes cx init p n m Q -> (forall a s, good s -> p + n <= len s -> Q a s -> Q' a s) -> writes cx init p n m Q'.
Proof.
  intros A cx init p n m Q Q' H HQ s o s1 Hg Ho Hl E.
  destruct (H s o s1 Hg Ho Hl E) as [(x & -> & S & K)|F]; [left|right; assumption].
  exists x. split; [reflexivity|]. split; [assumption|]. intros s'' Hk. apply HQ; [apply Hk| |auto].
  destruct Hk as (_ & Hk & _). pose proof (st_len _ _ _ _ S). lia.
Qed.

Lemma writes_ret : forall {A} cx init p n (x : A) (Q : A -> state -> Prop),
  (forall s, good s -> p + n <= len s -> Q x s) -> writes cx init p n (ret x) Q.
Proof.
  intros A cx init p n x Q H s o s1 Hg Ho Hl E. inversion E; subst. left. exists x.
  split; [reflexivity|]. split; [apply step_refl; assumption|]. intros s'' (Hg'' & Hl'' & _). apply H; [assumption|lia].
Qed.

Lemma writes_ext : forall {A} cx init p n (m m' : M A) Q,
  (forall s, good s -> p + n <= len s -> m s = m' s) -> writes cx init p n m' Q -> writes cx init p n m Q.
Proof. intros A cx init p n m m' Q E H s o s1 Hg Ho Hl Em. rewrite E in Em by assumption. eapply H; eassumption. Qed.

Lemma writes_sub : forall {A} cx init p n q k (m : M A) Q, writes cx init q k m Q ->
  (forall b, within q k b -> within p n b) -> q + k <= p + n -> writes cx init p n m Q.
Proof.
  intros A cx init p n q k m Q H Hs Hk s o s1 Hg Ho Hl E.
  destruct (H s o s1 Hg) as [(x & -> & S & K)|F]; auto; [lia|]. left.
  exists x. split; [reflexivity|]. split; [eapply step_weaken; [exact S|auto]|].
  intros s'' (Hg'' & Hl'' & Hb). apply K. split; [assumption|]. split; [assumption|].
  intros b [Hw|Hf]; apply Hb; auto.
Qed.

Lemma writes_bind : forall {A B} cx init p n q k q' k' (m : M A) (f : A -> M B) Q Q',
  writes cx init q k m Q -> (forall a, writes cx init q' k' (f a) (Q' a)) ->
  (forall b, within q k b -> within p n b) -> q + k <= p + n ->
  (forall b, within q' k' b -> within p n b) -> q' + k' <= p + n ->
  (forall b, within q k b -> within q' k' b -> False) ->
  writes cx init p n (bind m f) (fun b s => exists a, Q a s /\ Q' a b s).
Proof.
  intros A B cx init p n q k q' k' m f Q Q' Hm Hf Hs Hk Hs' Hk' Hd s o s2 Hg Ho Hl E.
  unfold bind in E. destruct (m s) as [o1 s1] eqn:E1.
  destruct (Hm s o1 s1 Hg) as [(x & -> & S & K)|F]; auto; [lia| |].
  2:{ right. destruct o1; inversion E; subst; try assumption. destruct F as (? & ? & _ & _ & []). }
  pose proof (st_len _ _ _ _ S) as L1.
  destruct (Hf x s1 o s2) as [(y & -> & S' & K')|F]; auto; [apply S| |lia|].
  { intros b Hb. eapply step_owned; [exact S|]. auto. }
  left. exists y. split; [reflexivity|]. split.
  { eapply step_trans; [exact S|exact S'| |]; auto. }
  pose proof (st_len _ _ _ _ S') as L2.
  intros s'' (Hg'' & Hl'' & Hb). exists x. split.
  - apply K. split; [assumption|]. split; [lia|]. intros b Hb1.
    assert (O1 : owned init (s_hist s1) b) by (destruct Hb1 as [Hw|[Hw _]]; [eapply step_owned; [exact S|]; auto|assumption]).
    assert (Hn : ~ within q' k' b) by (destruct Hb1 as [Hw|[_ Hw]]; [eauto|intros Hw2; apply Hw; auto]).
    rewrite <- (st_frame _ _ _ _ S' b O1 Hn). apply Hb. destruct Hb1 as [Hw|[_ Hw]]; [auto|].
    right. split; [|assumption]. eapply step_owned; [exact S'|assumption].
  - apply K'. split; [assumption|]. split; [assumption|]. intros b Hb1. apply Hb.
    destruct Hb1 as [Hw|[Hw1 Hw2]]; [auto|]. right. split; [assumption|]. intros O.
    apply Hw2. eapply step_owned; [exact S|assumption].
Qed.

Lemma writes_seq : forall {B} cx init p n q k q' k' (m : M unit) (f : M B) (Q : state -> Prop) Q',
  writes cx init q k m (fun _ => Q) -> writes cx init q' k' f Q' ->
  (forall b, within q k b -> within p n b) -> q + k <= p + n ->
  (forall b, within q' k' b -> within p n b) -> q' + k' <= p + n ->
  (forall b, within q k b -> within q' k' b -> False) ->
  writes cx init p n (m ;; f) (fun b s => Q s /\ Q' b s).
Proof.
  intros B cx init p n q k q' k' m f Q Q' Hm Hf H1 H2 H3 H4 H5.
  eapply writes_mono; [exact (writes_bind cx init p n q k q' k' m (fun _ => f) _ (fun _ => Q') Hm (fun _ => Hf) H1 H2 H3 H4 H5)|].
  cbn beta. intros b s _ _ (_ & HQ). exact HQ.
Qed.

(** A block obtained from the allocator. *)
Lemma writes_alloc : forall {A} cx init a n (f : N -> M A) Q, correct_allocator cx init ->
  (forall p, (a | p) -> p + n < two32 -> writes cx init p n (f p) Q) ->
  writes cx init 0 0 (let* p := realloc cx 0 0 a n in f p) Q.
Proof.
  intros A cx init a n f Q Hc Hf s o s2 Hg _ _ E. unfold bind in E.
  destruct (realloc cx 0 0 a n s) as [o1 s1] eqn:Er.
  pose proof (realloc_fresh _ _ _ _ _ _ _ Hc Hg Er) as R.
  destruct o1 as [p|e| | ]; [|destruct R as [_ R]; inversion E; subst; right; exact R..].
  destruct R as (S & D & B & F & O). pose proof (st_good _ _ _ _ S) as Hg1.
  assert (Hl1 : len s1 < two32) by apply Hg1.
  destruct (Hf p D ltac:(lia) s1 o s2 Hg1 O B E) as [(x & -> & S' & K)|X]; [left|right; assumption].
  exists x. split; [reflexivity|]. split.
  { eapply step_trans; [exact S|exact S'|intros b _ []|]. intros b Ob Wb. exfalso. eapply F; eassumption. }
  intros s'' (Hg'' & Hl'' & Hb). apply K. split; [assumption|]. split; [assumption|].
  intros b Hb1. apply Hb. right. destruct Hb1 as [Hw|[Hw1 Hw2]].
  - split; [eapply step_owned; [exact S'|]; auto|]. apply F. assumption.
  - split; [assumption|]. intros Os. apply Hw2. eapply step_owned; [exact S|assumption].
Qed.

Lemma writes_bytes : forall cx init p n bs, N.of_nat (List.length bs) = n -> Forall (fun b => b < 256) bs ->
  writes cx init p n (store_bytes p n bs) (fun _ s => slice (s_mem s) p n = bs).
Proof.
  intros cx init p n bs <- Hb s o s1 Hg Ho Hl E. rewrite store_bytes_ok in E by assumption. inversion E; subst.
  left. exists tt. split; [reflexivity|]. split; [apply step_wr; assumption|].
  intros s'' (Hg'' & Hl'' & K). rewrite <- (slice_write (s_mem s) p bs Hg Hl Hb) at 2.
  pose proof (wf_write (s_mem s) p bs Hg Hb).
  apply slice_ext; try assumption. unfold len in *. cbn in Hl''. lia.
  intros b Hw. apply K. left. assumption.
Qed.

Lemma writes_le : forall cx init p k x,
  writes cx init p (N.of_nat k) (store_bytes p (N.of_nat k) (le_encode k x))
    (fun _ s => load_uint (N.of_nat k) p s = (Ok (x mod 256 ^ N.of_nat k), s)).
Proof.
  intros. eapply writes_mono; [apply writes_bytes; [rewrite le_encode_length; reflexivity|apply le_encode_bytes]|].
  cbn beta. intros _ s Hg Hl E. rewrite load_uint_ok, E, le_decode_encode by assumption. reflexivity.
Qed.

Lemma writes_uint : forall cx init p n x, n = 0 \/ n = 1 \/ n = 2 \/ n = 4 \/ n = 8 ->
  writes cx init p n (store_bytes p n (int_bytes n x))
    (fun _ s => load_uint n p s = (Ok (x mod 256 ^ n), s)).
Proof.
  intros cx init p n x H. destruct H as [->|[->|[->|[->| ->]]]]; [apply (writes_le cx init p 0 x)|
    apply (writes_le cx init p 1 x)|apply (writes_le cx init p 2 x)|apply (writes_le cx init p 4 x)|apply (writes_le cx init p 8 x)].
Qed.

Lemma writes_lift : forall {A B} cx init p n (o : outcome A) x (f : A -> M B) Q, o = Ok x ->
  writes cx init p n (f x) Q -> writes cx init p n (let* a := lift_o o in f a) Q.
Proof.
  intros A B cx init p n o x f Q -> H. eapply writes_ext; [|exact H]. intros s _ _. apply bind_lift_ok.
Qed.

Lemma writes_guarded : forall cx init al sz a n st v p Q, al = Ok a -> sz = Ok n -> valid_align a ->
  (a | p) -> p + n < two32 -> writes cx init p n (st v p) Q -> writes cx init p n (guarded al sz st v p) Q.
Proof.
  intros cx init al sz a n st v p Q Ha Hn Hv Hd Hp H. eapply writes_ext; [|exact H]. intros s Hg Hl.
  eapply guarded_ok; try eassumption. rewrite mem_len32_ok by assumption. exact Hl.
Qed.

(** Integers: what is stored is the two's complement pattern. *)
Lemma writes_int : forall cx init v p n sg i, n = 0 \/ n = 1 \/ n = 2 \/ n = 4 \/ n = 8 ->
  int_info v = Ok i -> int_check i sg = Ok tt ->
  writes cx init p n (store_int v p n sg) (fun _ s => load_uint n p s = (Ok (n_u64 i mod 256 ^ n), s)).
Proof.
  intros cx init v p n sg i Hn Hi Hc. unfold store_int. eapply writes_lift; [exact Hi|].
  eapply writes_lift; [exact Hc|]. apply writes_uint. assumption.
Qed.

Lemma to_of_signed : forall m z, 0 < m -> N.even m = true ->
  (- Z.of_N (m / 2) <= z < Z.of_N (m / 2))%Z -> to_signed m (of_signed m z) = z.
Proof.
  intros m z Hm He Hz. apply N.even_spec in He. destruct He as [h ->].
  replace (2 * h / 2) with h in Hz by (rewrite N.mul_comm, N.div_mul; lia).
  unfold to_signed, of_signed.
  assert (B : (0 <= z mod Z.of_N (2 * h) < Z.of_N (2 * h))%Z) by (apply Z.mod_pos_bound; lia).
  rewrite N.mod_small by lia.
  destruct (Z.ltb_spec z 0).
  - assert (E : (z mod Z.of_N (2 * h) = z + Z.of_N (2 * h))%Z).
    { rewrite <- (Z_mod_plus_full z 1). rewrite Z.mod_small; lia. }
    rewrite E. destruct (N.ltb_spec (2 * Z.to_N (z + Z.of_N (2 * h))) (2 * h)); lia.
  - rewrite Z.mod_small by lia. destruct (N.ltb_spec (2 * Z.to_N z) (2 * h)); lia.
Qed.

(** Truncating the 64-bit pattern gives the narrower pattern. *)
Lemma of_signed_mod : forall m k z, 0 < m -> 0 < k -> of_signed (m * k) z mod m = of_signed m z.
Proof.
  intros m k z Hm Hk. unfold of_signed. rewrite N2Z.inj_mul.
  rewrite <- (N2Z.id (Z.to_N _ mod m)), N2Z.inj_mod, Z2N.id by (apply Z.mod_pos_bound; nia).
  rewrite <- (Znumtheory.Zmod_div_mod (Z.of_N m) (Z.of_N m * Z.of_N k)); [reflexivity|lia|nia|].
  exists (Z.of_N k). lia.
Qed.

Lemma int_check_unsigned : forall x mx, x <= mx -> int_check (mkInt x mx 0 false) false = Ok tt.
Proof.
  intros x mx H. unfold int_check. cbn [n_sign n_u64 n_max Bool.eqb negb andb].
  destruct (N.ltb_spec mx x); [lia|reflexivity].
Qed.

Lemma int_check_signed : forall z mx mn,
  (- 9223372036854775808 <= mn)%Z -> (mn <= z <= Z.of_N mx)%Z -> mx < two63 ->
  int_check (mkInt (of_signed two64 z) mx mn true) true = Ok tt.
Proof.
  intros z mx mn Hmn Hz Hmx. unfold int_check. cbn [n_sign n_u64 n_max n_min Bool.eqb negb andb].
  unfold two63 in Hmx.
  rewrite (to_of_signed two64 z); [|reflexivity|reflexivity|unfold two64; change (18446744073709551616 / 2) with 9223372036854775808; lia].
  assert (E : to_signed two64 mx = Z.of_N mx).
  { unfold to_signed, two64. rewrite N.mod_small by lia. destruct (N.ltb_spec (2 * mx) 18446744073709551616); lia. }
  rewrite E. destruct (Z.ltb_spec (Z.of_N mx) z); [lia|]. destruct (Z.ltb_spec z mn); [lia|]. reflexivity.
Qed.

(** ** Pairs of words *)
Lemma load_u32_uint : forall p s n, load_uint 4 p s = (Ok n, s) -> load_u32 p s = (Ok n, s).
Proof. intros p s n H. unfold load_u32. cbn [load_int]. unfold bind. rewrite H. reflexivity. Qed.

Lemma load_u64_uint : forall p s n, load_uint 8 p s = (Ok n, s) -> load_u64 p s = (Ok n, s).
Proof. intros p s n H. unfold load_u64. cbn [load_int]. unfold bind. rewrite H. reflexivity. Qed.

Lemma writes_u32 : forall cx init p x, x < two32 ->
  writes cx init p 4 (store_u32 x p) (fun _ s => load_u32 p s = (Ok x, s)).
Proof.
  intros cx init p x H. eapply writes_mono; [apply (writes_le cx init p 4 x)|]. cbn beta.
  intros _ s _ _ E. apply load_u32_uint. rewrite N.mod_small in E by exact H. exact E.
Qed.

Lemma writes_pair : forall cx init m Q p, writes cx init 0 0 m Q -> p + 8 < two32 ->
  (forall a s, good s -> Q a s -> fst a < two32 /\ snd a < two32) ->
  writes cx init p 8 (let* (b, n) := m in store_u32 b p ;; store_u32 n (add32 p 4))
    (fun _ s => exists b n, Q (b, n) s /\ load_u32 p s = (Ok b, s) /\ load_u32 (add32 p 4) s = (Ok n, s)).
Proof.
  intros cx init m Q p Hm Hp Hb.
  assert (Ea : add32 p 4 = p + 4) by (unfold add32; apply N.mod_small; lia). rewrite Ea.
  eapply writes_mono.
  - eapply (writes_bind cx init p 8 0 0 p 8) with
      (Q' := fun a _ s => fst a < two32 -> snd a < two32 ->
         load_u32 p s = (Ok (fst a), s) /\ load_u32 (p + 4) s = (Ok (snd a), s));
      [exact Hm| |intros; unfold within in *; lia..].
    intros [b n]. cbn beta. cbn [fst snd].
    eapply writes_mono.
    + eapply (writes_seq cx init p 8 p 4 (p + 4) 4); [apply (writes_le cx init p 4 b)|apply (writes_le cx init (p + 4) 4 n)|intros; unfold within in *; lia..].
    + cbn beta. intros _ s _ _ (E1 & E2) L1 L2. split; apply load_u32_uint.
      * rewrite N.mod_small in E1 by exact L1. exact E1.
      * rewrite N.mod_small in E2 by exact L2. exact E2.
  - cbn beta. intros _ s Hg _ ([b n] & HQ & H). cbn [fst snd] in *.
    destruct (Hb _ _ Hg HQ). exists b, n. split; [assumption|]. apply H; assumption.
Qed.

(** ** Strings *)
Lemma bit31 : forall n, n < 2 ^ 31 -> forall i, 31 <= i -> N.testbit n i = false.
Proof.
  intros n H i Hi. destruct (N.eq_dec n 0) as [->|Hz]; [apply N.bits_0|].
  apply N.bits_above_log2. assert (N.log2 n < 31) by (apply N.log2_lt_pow2; lia). lia.
Qed.

Lemma tag_bits : forall n b, n < 2 ^ 31 -> u32_to_tagged (tagged_to_u32 (mkTagged n b)) = mkTagged n b.
Proof.
  intros n b H. unfold u32_to_tagged, tagged_to_u32. cbn [tcu_utf16 tcu_units].
  change utf16_tag with (2 ^ 31) in *. pose proof (bit31 n H) as B. destruct b.
  - f_equal.
    + apply N.bits_inj. intros i. rewrite N.ldiff_spec, N.lor_spec, N.pow2_bits_eqb.
      destruct (N.eqb_spec 31 i) as [<-|]; cbn; [rewrite B by lia; reflexivity|].
      rewrite orb_false_r, andb_true_r. reflexivity.
    + destruct (N.eqb_spec (N.land (N.lor n (2 ^ 31)) (2 ^ 31)) 0) as [E|E]; [|reflexivity].
      apply (f_equal (fun x => N.testbit x 31)) in E. rewrite N.land_spec, N.lor_spec, N.pow2_bits_true, N.bits_0 in E.
      rewrite orb_true_r in E. discriminate.
  - f_equal.
    + apply N.bits_inj. intros i. rewrite N.ldiff_spec, N.pow2_bits_eqb.
      destruct (N.eqb_spec 31 i) as [<-|]; cbn; [rewrite B by lia; reflexivity|]. rewrite andb_true_r. reflexivity.
    + assert (E : N.land n (2 ^ 31) = 0).
      { apply N.bits_inj. intros i. rewrite N.land_spec, N.pow2_bits_eqb, N.bits_0.
        destruct (N.eqb_spec 31 i) as [<-|]; [rewrite B by lia; reflexivity|apply andb_false_r]. }
      rewrite E. reflexivity.
Qed.

Lemma tagged_lt : forall n b, n < 2 ^ 31 -> tagged_to_u32 (mkTagged n b) < two32.
Proof.
  intros n b H. unfold tagged_to_u32. cbn [tcu_utf16 tcu_units]. destruct b.
  - change utf16_tag with (2 ^ 31). change two32 with (2 ^ 32).
    destruct (N.eq_dec (N.lor n (2 ^ 31)) 0) as [E|E]; [rewrite E; reflexivity|].
    apply N.log2_lt_pow2; [lia|]. rewrite N.log2_lor. rewrite N.log2_pow2 by lia.
    assert (N.log2 n <= 31).
    { destruct (N.eq_dec n 0) as [->|Hz]; [cbn; lia|]. assert (N.log2 n < 31) by (apply N.log2_lt_pow2; lia). lia. }
    lia.
  - change (2 ^ 31) with 2147483648 in H. unfold two32. lia.
Qed.

(** The text, its encoding and back. *)
Lemma codec_round_trip : forall c cs, Forall scalar_value cs ->
  N.of_nat (List.length (utf8_text cs)) < 2 ^ 31 ->
  (c = CLatin1 -> Forall (fun r => r < 256) cs) ->
  exists enc n, encode_string c (utf8_text cs) = Ok enc /\ decode_string c enc = Ok (utf8_text cs) /\
    N.of_nat (List.length enc) = n * codec_rune_size c /\ n < 2 ^ 31.
Proof.
  intros c cs Hs Hl Hc. destruct c as [|big| ]; cbn [encode_string decode_string codec_rune_size].
  - rewrite sent_text, utf8_runes_text, utf8_encode_spec by assumption. eexists; eexists. split; [reflexivity|].
    rewrite utf8_runes_text, utf8_encode_spec by assumption. split; [reflexivity|].
    rewrite N.mul_1_r. split; [reflexivity|assumption].
  - rewrite sent_text, utf8_runes_text by assumption. eexists; exists (N.of_nat (List.length (flat_map utf16_units cs))).
    split; [reflexivity|]. rewrite utf16_decode_encode, utf8_encode_spec by assumption. split; [reflexivity|].
    rewrite utf16_length. pose proof (utf16_units_le cs). split; lia.
  - rewrite sent_text, utf8_runes_text by assumption. exists cs, (N.of_nat (List.length cs)).
    unfold latin1_encode.
    assert (E : forallb latin1_ok cs = true).
    { apply forallb_forall. intros x Hx. specialize (Hc eq_refl). rewrite Forall_forall in Hc.
      specialize (Hc x Hx). unfold latin1_ok. lia. }
    rewrite E. split; [reflexivity|]. rewrite utf8_encode_spec by assumption. split; [reflexivity|].
    pose proof (runes_le cs). split; lia.
Qed.

Lemma codec_alignment_valid : forall c, valid_align (codec_alignment c).
Proof. intros [| | ]; unfold valid_align; cbn; lia. Qed.

(** The encoded text is in memory at the pointer. *)
Definition text_at (c : codec) (s : list N) (a : N * N) (st : state) : Prop :=
  snd a < 2 ^ 31 /\ fst a + snd a * codec_rune_size c <= len st /\ (codec_alignment c | fst a) /\
  decode_string c (slice (s_mem st) (fst a) (snd a * codec_rune_size c)) = Ok s.

Lemma writes_dynamic : forall cx init cs c, correct_allocator cx init -> Forall scalar_value cs ->
  N.of_nat (List.length (utf8_text cs)) < 2 ^ 31 -> (c = CLatin1 -> Forall (fun r => r < 256) cs) ->
  writes cx init 0 0 (store_string_dynamic cx (utf8_text cs) c) (text_at c (utf8_text cs)).
Proof.
  intros cx init cs c Hc Hs Hl Hr. destruct (codec_round_trip c cs Hs Hl Hr) as (enc & n & He & Hd & Hn & Hlt).
  pose proof (encode_string_bytes _ _ _ He) as Hb.
  assert (Hrs : codec_rune_size c = 1 \/ codec_rune_size c = 2) by (destruct c; cbn; auto).
  assert (Hlen : N.of_nat (List.length enc) < two32) by (change (2 ^ 31) with 2147483648 in *; unfold two32; destruct Hrs as [-> | ->] in Hn; lia).
  unfold store_string_dynamic. eapply writes_lift; [exact He|]. cbn zeta.
  rewrite (u32_small (N.of_nat (List.length enc))) by assumption.
  apply writes_alloc; [assumption|]. intros p Hp Hp2.
  assert (Ef : firstn (N.to_nat (N.of_nat (List.length enc))) enc = enc) by (rewrite Nat2N.id; apply firstn_all).
  rewrite Ef.
  assert (Eu : N.of_nat (List.length enc) / codec_rune_size c = n) by (rewrite Hn; apply N.div_mul; destruct Hrs as [-> | ->]; lia).
  rewrite Eu.
  eapply writes_mono.
  - eapply (writes_seq cx init p _ p _ 0 0); [apply writes_bytes; [reflexivity|assumption]| |intros; unfold within in *; lia..].
    apply (writes_ret cx init 0 0 (p, n) (fun b _ => b = (p, n))). reflexivity.
  - cbn beta. intros b s Hg Hls (E & ->). unfold text_at. cbn [fst snd]. rewrite <- Hn, E. auto.
Qed.

Lemma load_text : forall s ptr n st c, good st -> text_at c s (ptr, n) st ->
  (let* _ := check_aligned ETrap ptr (codec_alignment c) in
   check_bounds ETrap ptr (mul32 n (codec_rune_size c)) ;;
   let* m := get_mem in
   let* bs := lift_o (mem_slice m ptr (add32 ptr (mul32 n (codec_rune_size c)))) in
   let* s := lift_o (decode_string c bs) in
   ret (VStr s)) st = (Ok (VStr s), st).
Proof.
  intros s ptr n st c Hg (Hn & Hl & Ha & Hd). cbn [fst snd] in *.
  assert (Hlt : len st < two32) by apply Hg.
  assert (E : mul32 n (codec_rune_size c) = n * codec_rune_size c).
  { unfold mul32. apply N.mod_small. lia. }
  rewrite E. erewrite bind_ok; [|apply check_aligned_ok; [apply codec_alignment_valid|lia|assumption]].
  erewrite bind_ok.
  2:{ unfold check_bounds. erewrite bind_ok; [|reflexivity]. rewrite mem_len32_ok by assumption.
      unfold add32. rewrite N.mod_small by lia.
      destruct (N.ltb_spec (len st) (ptr + n * codec_rune_size c)); [lia|reflexivity]. }
  erewrite bind_ok; [|reflexivity]. rewrite mem_slice_ok by (assumption || exact Hl).
  rewrite bind_lift_ok, Hd. reflexivity.
Qed.

Lemma text_words : forall c s ptr n st, good st -> text_at c s (ptr, n) st -> ptr < two32 /\ n < two32.
Proof.
  intros c s ptr n st Hg (Hn & Hl & _). cbn [fst snd] in *. assert (Hlt : len st < two32) by apply Hg.
  change (2 ^ 31) with 2147483648 in Hn. unfold two32 in *. lia.
Qed.

Lemma writes_string : forall cx init s, correct_allocator cx init -> string_ok (cx_enc cx) s ->
  writes cx init 0 0 (store_string_into_range cx s)
    (fun a st => fst a < two32 /\ snd a < two32 /\
       load_string_from_range cx (fst a) (snd a) st = (Ok (VStr s), st)).
Proof.
  intros cx init s Hc (cs & Hs & -> & Hl & He).
  assert (X : forall c, get_codec (cx_enc cx) = Ok c -> cx_enc cx <> EncLatin1Utf16 ->
    writes cx init 0 0 (store_string_dynamic cx (utf8_text cs) c)
      (fun a st => fst a < two32 /\ snd a < two32 /\
         load_string_from_range cx (fst a) (snd a) st = (Ok (VStr (utf8_text cs)), st))).
  { intros c Ec Hne. eapply writes_mono; [apply writes_dynamic; try assumption|].
    - intros ->. destruct (cx_enc cx); cbn in Ec; try discriminate; [assumption|congruence].
    - cbn beta. intros [ptr n] st Hg _ T. cbn [fst snd].
      assert (Hn : n < 2 ^ 31) by apply T. assert (Hlt : len st < two32) by apply Hg.
      destruct (text_words _ _ _ _ _ Hg T) as [B1 B2]. split; [exact B1|]. split; [exact B2|].
      unfold load_string_from_range.
      pose proof (tag_bits n false Hn) as Et. cbn [tagged_to_u32 tcu_utf16 tcu_units] in Et.
      change (tagged_to_u32 (mkTagged n false)) with n in Et. rewrite Et. cbn [tcu_units tcu_utf16].
      assert (Em : match cx_enc cx with EncLatin1Utf16 => EncLatin1 | e => e end = cx_enc cx)
        by (destruct (cx_enc cx); congruence).
      rewrite Em, Ec, bind_lift_ok. apply load_text; assumption. }
  unfold store_string_into_range.
  destruct (cx_enc cx) eqn:Ee; try contradiction;
    try (eapply writes_lift; [reflexivity|]; apply X; [reflexivity|discriminate]).
  clear X. eapply writes_lift; [reflexivity|]. cbn zeta.
  assert (Ew : is_latin1 (utf8_text cs) = forallb latin1_ok cs) by (unfold is_latin1; rewrite utf8_runes_text by assumption; reflexivity).
  rewrite Ew. set (w := negb (forallb latin1_ok cs)).
  set (c := if w then CUtf16 false else CLatin1).
  assert (Ec : get_codec (if w then EncUtf16LE else EncLatin1) = Ok c) by (unfold c; destruct w; reflexivity).
  eapply writes_lift; [exact Ec|].
  assert (Hr : c = CLatin1 -> Forall (fun r => r < 256) cs).
  { unfold c, w. destruct (forallb latin1_ok cs) eqn:E; [|discriminate]. intros _. apply Forall_forall.
    intros x Hx. rewrite forallb_forall in E. specialize (E x Hx). unfold latin1_ok in E. lia. }
  eapply writes_mono.
  - eapply (writes_bind cx init 0 0 0 0 0 0); [apply writes_dynamic; eassumption| |intros; unfold within in *; lia..].
    intros a. instantiate (1 := fun a b _ => b = (fst a, tagged_to_u32 (mkTagged (snd a) w))). cbn beta.
    destruct a as [ptr n]. apply writes_ret. reflexivity.
  - cbn beta. intros b st Hg _ ([ptr n] & T & Eb). cbn [fst snd] in Eb. subst b. cbn [fst snd].
    assert (Hn : n < 2 ^ 31) by apply T.
    destruct (text_words _ _ _ _ _ Hg T) as [B1 _]. split; [exact B1|]. split; [apply tagged_lt; exact Hn|].
    unfold load_string_from_range. rewrite Ee. rewrite (tag_bits n w Hn). cbn [tcu_units tcu_utf16].
    rewrite Ec, bind_lift_ok. apply load_text; assumption.
Qed.


(** ** Lists *)
Lemma elem_addr : forall base i sz n, i * sz + sz <= n -> base + n < two32 ->
  add32 base (mul32 (u32 i) sz) = base + i * sz /\ add32 base (mul32 i sz) = base + i * sz.
Proof.
  intros base i sz n H Hb. unfold add32, mul32.
  destruct (N.eq_dec sz 0) as [->|Hz].
  { rewrite !N.mul_0_r. change (0 mod two32) with 0. rewrite !N.add_0_r, N.mod_small by lia. auto. }
  assert (i <= i * sz) by nia. rewrite (u32_small i) by lia.
  rewrite (N.mod_small (i * sz)) by lia. rewrite N.mod_small by lia. auto.
Qed.

Lemma writes_elems : forall cx init a sz st ld (R : any -> any -> Prop) vs base i n,
  (a | base) -> (a | sz) -> base + n < two32 -> (i + N.of_nat (List.length vs)) * sz <= n ->
  Forall (fun v => forall p, (a | p) -> p + sz < two32 ->
    writes cx init p sz (st v p) (fun _ s => exists v', ld p s = (Ok v', s) /\ R v v')) vs ->
  writes cx init (base + i * sz) (N.of_nat (List.length vs) * sz) (store_elems vs st base sz i)
    (fun _ s => exists l', load_elems (List.length vs) ld base sz i s = (Ok l', s) /\ Forall2 R vs l').
Proof.
  intros cx init a sz st ld R vs base i n Ha Hs Hb Hn H. revert i Hn.
  induction H as [|v vs Hv H IH]; intros i Hn.
  - cbn [store_elems]. apply writes_ret. intros s _ _. exists []. split; [reflexivity|constructor].
  - cbn [List.length] in *.
    assert (Hi : i * sz + sz <= n) by nia.
    destruct (elem_addr base i sz n Hi Hb) as [E1 E2].
    cbn [store_elems]. rewrite E1.
    assert (Hda : (a | base + i * sz)).
    { apply N.divide_add_r; [assumption|]. apply N.divide_mul_r. assumption. }
    eapply writes_mono.
    + eapply (writes_seq cx init _ _ (base + i * sz) sz (base + (i + 1) * sz) (N.of_nat (List.length vs) * sz)).
      * apply Hv; [assumption|lia].
      * apply IH. lia.
      * unfold within. intros. nia.
      * nia.
      * unfold within. intros. nia.
      * nia.
      * unfold within. intros. nia.
    + cbn beta. intros _ s _ _ ((v' & Ev & Rv) & (l' & El & Rl)). exists (v' :: l'). split; [|constructor; assumption].
      cbn [load_elems]. rewrite E2. erewrite bind_ok; [|exact Ev]. erewrite bind_ok; [|exact El]. reflexivity.
Qed.

Lemma writes_list : forall cx init al sz a n st ld (R : any -> any -> Prop) l,
  correct_allocator cx init -> al = Ok a -> sz = Ok n -> valid_align a -> (a | n) ->
  N.of_nat (List.length l) * n < two32 -> N.of_nat (List.length l) < two32 ->
  Forall (fun v => forall p, (a | p) -> p + n < two32 ->
    writes cx init p n (st v p) (fun _ s => exists v', ld p s = (Ok v', s) /\ R v v')) l ->
  writes cx init 0 0 (store_list_into_range cx al sz st (VList l))
    (fun w s => fst w < two32 /\ snd w < two32 /\ exists l', Forall2 R l l' /\
       load_list_from_range al sz ld (fst w) (snd w) s = (Ok (VList l'), s)).
Proof.
  intros cx init al sz a n st ld R l Hc -> -> Hv Hd Hl Hlen H.
  cbn [store_list_into_range]. eapply writes_lift; [reflexivity|].
  rewrite list_len_check by assumption. cbn zeta. eapply writes_lift; [reflexivity|].
  rewrite (u32_small (N.of_nat (List.length l) * n)) by assumption.
  rewrite (u32_small (N.of_nat (List.length l))) by assumption.
  apply writes_alloc; [assumption|]. intros p Hp Hp2.
  set (k := N.of_nat (List.length l) * n) in *.
  assert (CB : forall s, good s -> p + k <= len s -> check_bounds ETrap p k s = (Ok tt, s)).
  { intros s Hg Hls. unfold check_bounds. erewrite bind_ok; [|reflexivity]. rewrite mem_len32_ok by assumption.
    unfold add32. rewrite N.mod_small by lia. destruct (N.ltb_spec (len s) (p + k)); [lia|reflexivity]. }
  eapply (writes_ext _ _ _ _ _ (store_elems l st p n 0 ;; ret (p, N.of_nat (List.length l)))).
  { intros s Hg Hls. erewrite bind_ok; [|apply check_aligned_ok; [exact Hv|lia|exact Hp]].
    erewrite bind_ok; [reflexivity|]. apply CB; assumption. }
  eapply writes_mono.
  - eapply (writes_seq cx init p k (p + 0 * n) (N.of_nat (List.length l) * n) 0 0).
    + apply (writes_elems cx init a n st ld R l p 0 k); try assumption. unfold k. lia.
    + apply (writes_ret cx init 0 0 _ (fun b _ => b = (p, N.of_nat (List.length l)))). reflexivity.
    + unfold within, k. intros. lia.
    + unfold k. lia.
    + unfold within. intros. lia.
    + lia.
    + unfold within. intros. lia.
  - cbn beta. intros b s Hg Hls ((l' & El & Rl) & ->). cbn [fst snd]. split; [lia|]. split; [assumption|].
    exists l'. split; [assumption|]. unfold load_list_from_range. rewrite bind_lift_ok.
    erewrite bind_ok; [|apply check_aligned_ok; [exact Hv|lia|exact Hp]]. rewrite bind_lift_ok.
    unfold mul32. fold k. rewrite N.mod_small by assumption.
    erewrite bind_ok; [|apply CB; assumption]. rewrite Nat2N.id.
    erewrite bind_ok; [|exact El]. reflexivity.
Qed.

(** ** Records *)
Definition rt_ok (cx : callctx) (init : N -> Prop) (t : valtype) : Prop :=
  forall a sz v p, sp_layout t = Some (a, sz) -> wf_type t -> has_type (cx_enc cx) t v ->
  (a | p) -> p + sz < two32 ->
  writes cx init p sz (store cx t v p)
    (fun _ s => exists v', load cx t p s = (Ok v', s) /\ same_value t v v').

Definition fields_loaded (m m' acc : list (string * any)) (fs : list (string * valtype)) : Prop :=
  Forall (fun f => exists x x', map_get m (fst f) = Some x /\ map_get m' (fst f) = Some x' /\
                                same_value (snd f) x x') fs /\
  forall l, ~ In l (map fst fs) -> map_get m' l = map_get acc l.

Lemma writes_fields : forall cx init m fs ls pos base n,
  Forall (fun f => rt_ok cx init (snd f)) fs -> NoDup (map fst fs) ->
  Forall (fun f => wf_type (snd f)) fs ->
  Forall (fun f => exists x, map_get m (fst f) = Some x /\ has_type (cx_enc cx) (snd f) x) fs ->
  all_some (map (fun f => sp_layout (snd f)) fs) = Some ls ->
  Forall (fun l : layout => (fst l | base)) ls ->
  base + n < two32 -> fields_end pos ls <= n ->
  writes cx init (base + pos) (n - pos)
    (store_at (map (fun f => (fst f, store cx (snd f))) fs) (map (N.add base) (field_offsets pos ls)) m)
    (fun _ s => forall acc, exists m',
       load_at (map (fun f => (fst f, load cx (snd f))) fs) (map (N.add base) (field_offsets pos ls)) acc s = (Ok m', s)
       /\ fields_loaded m m' acc fs).
Proof.
  intros cx init m fs. induction fs as [|[l t] fs IH]; intros ls pos base n Hrt Hnd Hwf Hty Hs Hdv Hb He.
  - cbn in Hs. injection Hs as <-. apply writes_ret. intros s _ _ acc. exists acc. split; [reflexivity|].
    split; [constructor|reflexivity].
  - change (all_some (sp_layout t :: map (fun f => sp_layout (snd f)) fs) = Some ls) in Hs.
    cbn [all_some] in Hs. destruct (sp_layout t) as [[a sz]|] eqn:Et; [|discriminate].
    destruct (all_some (map (fun f => sp_layout (snd f)) fs)) as [ls'|] eqn:El; [|discriminate]. injection Hs as <-.
    inversion Hrt as [|? ? Hrt1 Hrt2]; subst. inversion Hwf as [|? ? Hwf1 Hwf2]; subst.
    inversion Hty as [|? ? (x & Hx & Hxt) Hty2]; subst. inversion Hnd as [|? ? Hnd1 Hnd2]; subst.
    inversion Hdv as [|? ? Hdv1 Hdv2]; subst. cbn [fst snd] in *.
    pose proof (all_some_valid snd fs ls' El) as Hv.
    destruct (sp_layout_facts _ _ _ Et) as (_ & Hva & _).
    cbn [fields_end] in He. pose proof (fields_end_ge ls' (up_to a pos + sz) Hv).
    pose proof (up_to_ge a pos (valid_align_nz _ Hva)).
    cbn [map field_offsets store_at load_at fst snd]. rewrite Hx.
    eapply writes_mono.
    + eapply (writes_seq cx init (base + pos) (n - pos) (base + up_to a pos) sz
                (base + (up_to a pos + sz)) (n - (up_to a pos + sz))).
      * eapply Hrt1; [exact Et|exact Hwf1|exact Hxt| |lia].
        apply N.divide_add_r; [assumption|apply up_to_div].
      * apply (IH ls' (up_to a pos + sz) base n); assumption || reflexivity.
      * unfold within. intros. lia.
      * lia.
      * unfold within. intros. lia.
      * lia.
      * unfold within. intros. lia.
    + cbn beta. intros _ s _ _ ((x' & Ex & Sx) & HA) acc.
      destruct (HA (map_set acc l x')) as (m' & Em & Hf & Ho). exists m'. split.
      * erewrite bind_ok; [|exact Ex]. exact Em.
      * split.
        -- constructor; [|assumption]. cbn [fst snd]. exists x, x'. split; [assumption|]. split; [|assumption].
           rewrite Ho by assumption. rewrite map_get_set, String.eqb_refl. reflexivity.
        -- intros q Hq. cbn in Hq. rewrite Ho by tauto. rewrite map_get_set.
           destruct (String.eqb_spec q l) as [->|]; [tauto|reflexivity].
Qed.

(** ** All types *)
Lemma canonical32_same : forall b, b < 2 ^ 32 -> same_f32 b (canonicalize32 (canonicalize32 b)) /\ canonicalize32 b < 2 ^ 32.
Proof.
  intros b H. unfold canonicalize32, same_f32, nan32. change (2 ^ 23) with 8388608. change (2 ^ 8) with 256.
  change (is_nan32 b) with ((b / 8388608 mod 256 =? 255) && negb (b mod 8388608 =? 0)).
  destruct (N.eqb_spec (b / 8388608 mod 256) 255), (N.eqb_spec (b mod 8388608) 0); cbn [andb negb];
    change (is_nan32 2143289344) with true; cbn iota;
    try (unfold is_nan32;
      destruct (N.eqb_spec (b / 8388608 mod 256) 255), (N.eqb_spec (b mod 8388608) 0); try lia; cbn [andb negb]);
    (split; [|first [assumption | reflexivity]]); first [left; split; [split; [lia|assumption]|reflexivity] | right; split; [lia|reflexivity]].
Qed.

Lemma canonical64_same : forall b, b < 2 ^ 64 -> same_f64 b (canonicalize64 (canonicalize64 b)) /\ canonicalize64 b < 2 ^ 64.
Proof.
  intros b H. unfold canonicalize64, same_f64, nan64. change (2 ^ 52) with 4503599627370496. change (2 ^ 11) with 2048.
  change (is_nan64 b) with ((b / 4503599627370496 mod 2048 =? 2047) && negb (b mod 4503599627370496 =? 0)).
  destruct (N.eqb_spec (b / 4503599627370496 mod 2048) 2047), (N.eqb_spec (b mod 4503599627370496) 0); cbn [andb negb];
    change (is_nan64 9221120237041090560) with true; cbn iota;
    try (unfold is_nan64;
      destruct (N.eqb_spec (b / 4503599627370496 mod 2048) 2047), (N.eqb_spec (b mod 4503599627370496) 0); try lia; cbn [andb negb]);
    (split; [|first [assumption | reflexivity]]); first [left; split; [split; [lia|assumption]|reflexivity] | right; split; [lia|reflexivity]].
Qed.
