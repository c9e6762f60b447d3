(** Lifting looks only at the core values a type flattens to, whatever they are. *)
From Coq Require Import NArith ZArith Arith List String Ascii Bool Lia ZifyBool ZifyNat ZifyN.
From Verif Require Import GoBase M_Types M_Layout S_Layout L_Layout M_State M_Utf M_Load M_Store M_Flat
  S_Utf S_Values S_Memory S_Access S_Flat S_Format S_FlatFormat S_Inside S_Looks L_Access L_Variant L_Labels L_Despecialize
  L_Mem L_Utf L_Flags L_FlagWords L_Frame L_RoundTrip L_StoreLoad L_Lifted L_CtxFree L_Flat L_Format L_FlatFormat L_Looks.
Import ListNotations.
Open Scope N_scope.
Open Scope go_scope.

(** The next [m] core values of two iterators exist and are the same. *)
Fixpoint ahead (m : nat) (it1 it2 : iter) : Prop :=
  match it1, it2 with
  | IBase v1 i1, IBase v2 i2 =>
      forall j, (j < m)%nat -> exists c, nth_error v1 (i1 + j) = Some c /\ nth_error v2 (i2 + j) = Some c
  | ICoerce a f, ICoerce b g => f = g /\ ahead m a b
  | _, _ => False
  end.

Lemma ahead_less : forall m m' it1 it2, (m' <= m)%nat -> ahead m it1 it2 -> ahead m' it1 it2.
Proof.
  intros m m' it1. induction it1 as [v1 i1|a IH f]; intros [v2 i2|b g] L H; try contradiction; cbn [ahead] in *.
  - intros j Hj. apply H. lia.
  - destruct H as [H1 H2]. split; [exact H1|]. apply IH; assumption.
Qed.

(** Two runs from one state end alike. *)
Definition alike_runs {A} (safe : Prop) (Q : A -> A -> Prop) (f1 f2 : M A) (s : state) : Prop :=
  exists s',
    (exists a b, f1 s = (Ok a, s') /\ f2 s = (Ok b, s') /\ Q a b) \/
    (exists e, f1 s = (Err e, s') /\ f2 s = (Err e, s')) \/
    (~ safe /\ f1 s = (Panic, s') /\ f2 s = (Panic, s')) \/
    (~ safe /\ f1 s = (Diverge, s') /\ f2 s = (Diverge, s')).

Lemma alike_bind : forall {A B} (safe : Prop) Q R (f1 f2 : M A) (g1 g2 : A -> M B) s, alike_runs safe Q f1 f2 s ->
  (forall a b s', f1 s = (Ok a, s') -> Q a b -> alike_runs safe R (g1 a) (g2 b) s') -> alike_runs safe R (bind f1 g1) (bind f2 g2) s.
Proof.
  intros A B safe Q R f1 f2 g1 g2 s (s' & H) Hg. destruct H as [(a & b & E1 & E2 & H)|[(e & E1 & E2)|[(N & E1 & E2)|(N & E1 & E2)]]].
  - destruct (Hg a b s' E1 H) as (s'' & X). exists s''. unfold bind. rewrite E1, E2. exact X.
  - exists s'. right. left. exists e. unfold bind. rewrite E1, E2. split; reflexivity.
  - exists s'. right. right. left. unfold bind. rewrite E1, E2. split; [exact N|split; reflexivity].
  - exists s'. right. right. right. unfold bind. rewrite E1, E2. split; [exact N|split; reflexivity].
Qed.

Lemma alike_same : forall {A} (safe : Prop) (Q : A -> A -> Prop) (f : M A) s, (forall a, Q a a) -> (safe -> returned (fst (f s))) -> alike_runs safe Q f f s.
Proof.
  intros A safe Q f s HQ H. destruct (f s) as [o s'] eqn:E. cbn [fst] in H. exists s'. destruct o as [a|e| |].
  - left. exists a, a. auto.
  - right. left. exists e. auto.
  - right. right. left. split; [|auto]. intros S. destruct (H S). congruence.
  - right. right. right. split; [|auto]. intros S. destruct (H S). congruence.
Qed.

Lemma alike_ret : forall {A} (safe : Prop) (Q : A -> A -> Prop) a b s, Q a b -> alike_runs safe Q (ret a) (ret b) s.
Proof. intros A safe Q a b s H. exists s. left. exists a, b. auto. Qed.

Definition ends {A} (m : nat) (x y : A * iter) : Prop := fst x = fst y /\ ahead m (snd x) (snd y).

Lemma next_ahead : forall m k it1 it2, ahead (S m) it1 it2 ->
  (exists x it1' it2', iter_next it1 k = Ok (x, it1') /\ iter_next it2 k = Ok (x, it2') /\ ahead m it1' it2') \/
  (exists e, iter_next it1 k = Err e /\ iter_next it2 k = Err e).
Proof.
  intros m k it1. revert k. induction it1 as [v1 i1|a IH f]; intros k [v2 i2|b g] H; try contradiction; cbn [ahead] in H.
  - destruct (H 0%nat ltac:(lia)) as (c & E1 & E2). rewrite Nat.add_0_r in E1, E2. cbn [iter_next]. rewrite E1, E2.
    destruct v1 as [|x1 v1]; [destruct i1; discriminate|]. destruct v2 as [|x2 v2]; [destruct i2; discriminate|].
    destruct (kind_eqb (cval_kind c) k).
    + left. exists (cval_any c). eexists. eexists. split; [reflexivity|]. split; [reflexivity|]. cbn [ahead]. intros j Hj.
      destruct (H (S j) ltac:(lia)) as (d & D1 & D2). exists d.
      replace (S i1 + j)%nat with (i1 + S j)%nat by lia. replace (S i2 + j)%nat with (i2 + S j)%nat by lia. split; assumption.
    + right. eauto.
  - destruct H as [<- H]. cbn [iter_next]. destruct f as [|h f]; [right; eauto|].
    destruct (IH h b H) as [(x & a' & b' & E1 & E2 & H')|(e & E1 & E2)]; rewrite E1, E2; cbn [obind]; [|right; eauto].
    assert (O : (exists y, coerce_out h k x = Ok y) \/ exists e, coerce_out h k x = Err e) by (destruct h, k, x; cbn; eauto).
    destruct O as [(y & ->)|(e & ->)]; cbn [obind]; [left|right; eauto].
    exists y, (ICoerce a' f), (ICoerce b' f). split; [reflexivity|]. split; [reflexivity|]. split; [reflexivity|exact H'].
Qed.

Lemma lift_next_ahead : forall safe m k it1 it2 s, ahead (S m) it1 it2 ->
  alike_runs safe (ends m) (lift_o (iter_next it1 k)) (lift_o (iter_next it2 k)) s.
Proof.
  intros safe m k it1 it2 s H. exists s. unfold lift_o. destruct (next_ahead m k it1 it2 H) as [(x & a & b & E1 & E2 & H')|(e & E1 & E2)]; rewrite E1, E2.
  - left. exists (x, a), (x, b). split; [reflexivity|]. split; [reflexivity|]. split; [reflexivity|exact H'].
  - right. left. eauto.
Qed.

Ltac step_next := eapply alike_bind; [apply lift_next_ahead; eassumption|]; intros [?x ?i1] [?y ?i2] ?s' _ [?E ?H]; cbn [fst snd] in *; subst.


Lemma alike_err : forall {A} (safe : Prop) (Q : A -> A -> Prop) e s, alike_runs safe Q (lift_o (Err e)) (lift_o (Err e)) s.
Proof. intros. exists s. right. left. exists e. split; reflexivity. Qed.

Lemma next_u32_ahead : forall (safe : Prop) m it1 it2 s, ahead (S m) it1 it2 -> alike_runs safe (ends m) (next_u32 it1) (next_u32 it2) s.
Proof. intros. unfold next_u32. step_next. destruct y; try apply alike_err. apply alike_ret. split; [reflexivity|assumption]. Qed.
Lemma next_u64_ahead : forall (safe : Prop) m it1 it2 s, ahead (S m) it1 it2 -> alike_runs safe (ends m) (next_u64 it1) (next_u64 it2) s.
Proof. intros. unfold next_u64. step_next. destruct y; try apply alike_err. apply alike_ret. split; [reflexivity|assumption]. Qed.
Lemma next_f32_ahead : forall (safe : Prop) m it1 it2 s, ahead (S m) it1 it2 -> alike_runs safe (ends m) (next_f32 it1) (next_f32 it2) s.
Proof. intros. unfold next_f32. step_next. destruct y; try apply alike_err. apply alike_ret. split; [reflexivity|assumption]. Qed.
Lemma next_f64_ahead : forall (safe : Prop) m it1 it2 s, ahead (S m) it1 it2 -> alike_runs safe (ends m) (next_f64 it1) (next_f64 it2) s.
Proof. intros. unfold next_f64. step_next. destruct y; try apply alike_err. apply alike_ret. split; [reflexivity|assumption]. Qed.

Lemma lmap_ahead : forall {A} (safe : Prop) m (f : N -> A) (g : LM N) it1 it2 s,
  alike_runs safe (ends m) (g it1) (g it2) s -> alike_runs safe (ends m) (lmap f g it1) (lmap f g it2) s.
Proof.
  intros A safe m f g it1 it2 s H. unfold lmap. eapply alike_bind; [exact H|]. intros [n i1] [n' i2] s' _ [E H']. cbn [fst snd] in *. subst.
  apply alike_ret. split; [reflexivity|exact H'].
Qed.

Lemma skip_ahead : forall ks m it1 it2, ahead (List.length ks + m) it1 it2 ->
  (exists it1' it2', skip_flat ks it1 = Ok it1' /\ skip_flat ks it2 = Ok it2' /\ ahead m it1' it2') \/
  (exists e, skip_flat ks it1 = Err e /\ skip_flat ks it2 = Err e).
Proof.
  induction ks as [|k ks IH]; intros m it1 it2 H; cbn [skip_flat List.length] in *; [left; eauto|].
  change (S (List.length ks) + m)%nat with (S (List.length ks + m)) in H.
  destruct (next_ahead _ k _ _ H) as [(x & a & b & E1 & E2 & H')|(e & E1 & E2)]; rewrite E1, E2; cbn [obind]; [|right; eauto].
  apply IH. exact H'.
Qed.

Lemma lift_skip_ahead : forall (safe : Prop) ks m it1 it2 s, ahead (List.length ks + m) it1 it2 ->
  alike_runs safe (ahead m) (lift_o (skip_flat ks it1)) (lift_o (skip_flat ks it2)) s.
Proof.
  intros safe ks m it1 it2 s H. exists s. unfold lift_o. destruct (skip_ahead ks m it1 it2 H) as [(a & b & E1 & E2 & H')|(e & E1 & E2)]; rewrite E1, E2.
  - left. eauto.
  - right. left. eauto.
Qed.

Lemma flag_words_ahead : forall (safe : Prop) n m sh acc it1 it2 s, ahead (n + m) it1 it2 ->
  alike_runs safe (ends m) (lift_flag_words n sh acc it1) (lift_flag_words n sh acc it2) s.
Proof.
  intros safe n. induction n as [|n IH]; intros m sh acc it1 it2 s H; cbn [lift_flag_words].
  - apply alike_ret. split; [reflexivity|exact H].
  - eapply alike_bind; [apply next_u32_ahead; exact H|]. intros [x i1] [y i2] s' _ [E H']. cbn [fst snd] in *. subst. apply IH. exact H'.
Qed.

Definition looks_ahead (cx : callctx) (t : valtype) : Prop := forall (safe : Prop) ks m it1 it2 s,
  flatten_type t = Ok ks -> (safe -> inline t /\ wf_type t) -> ahead (List.length ks + m) it1 it2 ->
  alike_runs safe (ends m) (lift_flat cx t it1) (lift_flat cx t it2) s.

Lemma worldly_returns : forall {A} (f : M A) s, worldly f -> returned (fst (f s)).
Proof. intros A f s H. destruct (H s) as (o & w & Ho & E). rewrite (E s eq_refl). exact Ho. Qed.

Lemma ahead_fields : forall cx (safe : Prop) fs kss m acc it1 it2 s,
  Forall (fun f : string * valtype => looks_ahead cx (snd f)) fs ->
  map (fun f : string * valtype => flatten_type (snd f)) fs = map Ok kss ->
  (safe -> Forall (fun f : string * valtype => inline (snd f) /\ wf_type (snd f)) fs) ->
  ahead (List.length (List.concat kss) + m) it1 it2 ->
  alike_runs safe (ends m) (lift_fields (map (fun f => (fst f, lift_flat cx (snd f))) fs) acc it1)
    (lift_fields (map (fun f => (fst f, lift_flat cx (snd f))) fs) acc it2) s.
Proof.
  intros cx safe fs. induction fs as [|[l t] fs IH]; intros kss m acc it1 it2 s HF Ek Hs H; destruct kss as [|ks kss]; try discriminate.
  - apply alike_ret. split; [reflexivity|exact H].
  - cbn [map snd fst lift_fields] in *. injection Ek as E1 E2. apply Forall_cons_iff in HF. destruct HF as [H1 HF].
    cbn [List.concat] in H. rewrite app_length in H.
    eapply alike_bind.
    + apply (H1 safe ks (List.length (List.concat kss) + m)%nat it1 it2 s E1).
      * intros S. specialize (Hs S). apply Forall_inv in Hs. exact Hs.
      * rewrite Nat.add_assoc. exact H.
    + intros [x i1] [y i2] s' _ [E H']. cbn [fst snd] in *. subst. apply (IH kss); try assumption.
      intros S. specialize (Hs S). apply Forall_inv_tail in Hs. exact Hs.
Qed.

Lemma case_run : forall cx c (xs : list (caseOf valtype)) rest it s,
  (match c_type (map_case (lift_flat cx) c) with
   | None =>
       let* it := lift_o (skip_flat rest it) in
       let* label := lift_o (case_label (map_case (lift_flat cx) c) (map (map_case (lift_flat cx)) xs)) in
       ret (VMap [(label, VNil)], it)
   | Some f =>
       let* (v, cit) := f (ICoerce it rest) in
       match cit with
       | ICoerce it rest =>
           let* it := lift_o (skip_flat rest it) in
           let* label := lift_o (case_label (map_case (lift_flat cx) c) (map (map_case (lift_flat cx)) xs)) in
           ret (VMap [(label, v)], it)
       | IBase _ _ => lift_o Panic
       end
   end) s =
  (match c_type c with
   | None =>
       let* it := lift_o (skip_flat rest it) in
       let* label := lift_o (case_label c xs) in
       ret (VMap [(label, VNil)], it)
   | Some t =>
       let* (v, cit) := lift_flat cx t (ICoerce it rest) in
       match cit with
       | ICoerce it rest =>
           let* it := lift_o (skip_flat rest it) in
           let* label := lift_o (case_label c xs) in
           ret (VMap [(label, v)], it)
       | IBase _ _ => lift_o Panic
       end
   end) s.
Proof. intros cx c xs rest it s. rewrite case_label_map. destruct c as [l [t|] r]; reflexivity. Qed.

Lemma alike_ext : forall {A} (safe : Prop) (Q : A -> A -> Prop) f1 f2 g1 g2 s, f1 s = g1 s -> f2 s = g2 s ->
  alike_runs safe Q g1 g2 s -> alike_runs safe Q f1 f2 s.
Proof. intros A safe Q f1 f2 g1 g2 s E1 E2 (s' & H). exists s'. rewrite E1, E2. exact H. Qed.

Lemma ahead_variant : forall cx xs, Forall (fun c => opt_all (looks_ahead cx) (c_type c)) xs -> looks_ahead cx (TVariant xs).
Proof.
  intros cx xs HF safe ks m it1 it2 s Hk Hs H. assert (Hk' := Hk). cbn [flatten_type] in Hk.
  destruct (flatten_variant_inv _ _ Hk) as (kss & rest & Ep & HJ & -> & _ & _). rewrite payloads_map in Ep.
  cbn [lift_flat]. unfold lift_flat_variant. rewrite Hk'. clear Hk Hk'. cbn [List.length] in H.
  change (S (List.length rest) + m)%nat with (S (List.length rest + m)) in H.
  eapply alike_bind with (Q := fun a b => a = b /\ a = KU32 :: rest).
  { exists s. left. eexists. eexists. split; [reflexivity|]. split; [reflexivity|]. split; reflexivity. }
  intros a b s0 _ [<- ->]. cbn [kind_eqb negb].
  eapply alike_bind; [apply next_u32_ahead; exact H|]. intros [i j1] [i' j2] s1 _ [E H1]. cbn [fst snd] in *. subst i'.
  destruct (N.leb_spec (N.of_nat (List.length (map (map_case (lift_flat cx)) xs))) i) as [|Hi]; [apply alike_err|]. rewrite !nth_error_map. destruct (nth_error xs (N.to_nat i)) as [c|] eqn:Ei; cbn [option_map].
  2:{ apply nth_error_None in Ei. exfalso. rewrite map_length in Hi. lia. }
  assert (Hic : In c xs) by (eapply nth_error_In; exact Ei).
  eapply alike_ext; [apply case_run|apply case_run|].
  assert (HL : safe -> returned (case_label c xs)).
  { intros S. destruct (Hs S) as [_ W]. cbn [wf_type] in W. destruct W as [(_ & _ & Hre) _]. 
    assert (Hlab : exists l, case_label c xs = Ok l) by (apply case_label_ends; rewrite Forall_forall in Hre; auto). destruct Hlab as [l ->]. apply returned_ok. }
  rewrite Forall_forall in HF. specialize (HF c Hic).
  destruct (c_type c) as [t|] eqn:Et.
  - destruct (payload_flat xs kss c t Ep Hic Et) as (ks & Ekt & Hin). pose proof (joined_below _ _ _ HJ Hin) as [Hb _].
    cbn [opt_all] in HF. eapply alike_bind.
    + apply (HF safe ks (List.length rest - List.length ks + m)%nat); [exact Ekt| |].
      * intros S. destruct (Hs S) as [I W]. cbn [inline wf_type] in I, W. destruct W as [_ W]. apply all_Forall in W.
        rewrite Forall_forall in W. specialize (W c Hic). rewrite Et in W. split; [|exact W].
        clear - I Hic Et. induction xs as [|x xs IH]; [destruct Hic|]. cbn [map fold_right] in I. destruct I as [I1 I2].
        destruct Hic as [-> | Hic]; [rewrite Et in I1; exact I1|auto].
      * cbn [ahead]. split; [reflexivity|]. eapply ahead_less; [|exact H1]. lia.
    + intros [v c1] [v' c2] s2 R [Ev H2]. cbn [fst snd] in *. subst v'.
      destruct (consumes_all cx t _ _ _ _ _ R) as (ks' & Ek' & A). rewrite Ekt in Ek'. injection Ek' as <-.
      destruct c1 as [|k1 f1]; [contradiction|]. destruct c2 as [|k2 f2]; [contradiction|]. cbn [ahead] in H2. destruct H2 as [<- H2].
      cbn [advance] in A. destruct A as (pre & Er & Hpre & _).
      rewrite Er, app_length in H2.
      eapply alike_bind; [apply (lift_skip_ahead safe f1 m); eapply ahead_less; [|exact H2]; lia|].
      intros a b s3 _ H3. eapply alike_bind with (Q := eq); [apply alike_same; [reflexivity|exact HL]|].
      intros l l' s4 _ <-. apply alike_ret. split; [reflexivity|exact H3].
  - eapply alike_bind; [apply lift_skip_ahead; exact H1|].
    intros a b s3 _ H3. eapply alike_bind with (Q := eq); [apply alike_same; [reflexivity|exact HL]|].
    intros l l' s4 _ <-. apply alike_ret. split; [reflexivity|exact H3].
Qed.

Lemma ahead_all : forall cx t, looks_ahead cx t.
Proof.
  intros cx t. induction t using valtype_ind'; intros safe ks m it1 it2 s Hk Hs HA;
    try (cbn [flatten_type] in Hk; injection Hk as <-; cbn [lift_flat];
         apply lmap_ahead; first [apply next_u32_ahead; exact HA|apply next_u64_ahead; exact HA|apply next_f32_ahead; exact HA|apply next_f64_ahead; exact HA]).
  - cbn [flatten_type] in Hk. injection Hk as <-. cbn [lift_flat]. unfold lift_flat_char.
    eapply alike_bind; [apply next_u32_ahead; exact HA|]. intros [n i1] [n' i2] s1 _ [E H]. cbn [fst snd] in *. subst n'.
    eapply alike_bind with (Q := eq); [apply alike_same; [reflexivity|intros _; apply rune_returns]|]. intros r r' s2 _ <-.
    apply alike_ret. split; [reflexivity|exact H].
  - cbn [flatten_type] in Hk. injection Hk as <-. cbn [lift_flat]. unfold lift_flat_string.
    eapply alike_bind; [apply next_u32_ahead; exact HA|]. intros [n i1] [n' i2] s1 _ [E H]. cbn [fst snd] in *. subst n'.
    eapply alike_bind; [apply next_u32_ahead; exact H|]. intros [n' i3] [n'' i4] s2 _ [E H']. cbn [fst snd] in *. subst n''.
    eapply alike_bind with (Q := eq); [apply alike_same; [reflexivity|intros S; destruct (Hs S) as [[] _]]|]. intros r r' s3 _ <-.
    apply alike_ret. split; [reflexivity|exact H'].
  - cbn [flatten_type] in Hk. injection Hk as <-. cbn [lift_flat]. unfold lift_flat_list.
    eapply alike_bind; [apply next_u32_ahead; exact HA|]. intros [n i1] [n' i2] s1 _ [E H]. cbn [fst snd] in *. subst n'.
    eapply alike_bind; [apply next_u32_ahead; exact H|]. intros [n' i3] [n'' i4] s2 _ [E H']. cbn [fst snd] in *. subst n''.
    eapply alike_bind with (Q := eq); [apply alike_same; [reflexivity|intros S; destruct (Hs S) as [[] _]]|]. intros r r' s3 _ <-.
    apply alike_ret. split; [reflexivity|exact H'].
  - cbn [flatten_type] in Hk. apply flatten_record_inv in Hk. destruct Hk as (kss & Ek & ->). cbn [lift_flat]. unfold lift_flat_record.
    eapply alike_bind; [apply (ahead_fields cx safe fs kss m)|]; try assumption.
    + intros S. destruct (Hs S) as [I W]. cbn [inline wf_type] in I, W. destruct W as [_ W]. clear - I W. induction fs as [|f fs IH]; [constructor|].
      cbn [map fold_right all] in I, W. destruct I, W. constructor; [split; assumption|apply IH; assumption].
    + intros [a i1] [b i2] s' _ [E H']. cbn [fst snd] in *. subst b. apply alike_ret. split; [reflexivity|exact H'].
  - apply (ahead_variant cx cs H safe ks); assumption.
  - cbn [flatten_type] in Hk. injection Hk as <-. rewrite repeat_length in HA. cbn [lift_flat]. unfold lift_flat_flags.
    eapply alike_bind; [apply flag_words_ahead; exact HA|]. intros [a i1] [b i2] s' _ [E H']. cbn [fst snd] in *. subst b.
    apply alike_ret. split; [reflexivity|exact H'].
  - cbn [flatten_type] in Hk. injection Hk as <-. cbn [lift_flat]. unfold lift_flat_handle. step_next. destruct y; try apply alike_err.
    eapply alike_bind with (Q := eq); [apply alike_same; [reflexivity|intros _; apply worldly_returns, worldly_lift_own]|]. intros r0 r' s3 _ <-.
    apply alike_ret. split; [reflexivity|assumption].
  - cbn [flatten_type] in Hk. injection Hk as <-. cbn [lift_flat]. unfold lift_flat_handle. step_next. destruct y; try apply alike_err.
    eapply alike_bind with (Q := eq); [apply alike_same; [reflexivity|intros _; apply worldly_returns, worldly_lift_borrow]|]. intros r0 r' s3 _ <-.
    apply alike_ret. split; [reflexivity|assumption].
  - discriminate.
  - rewrite <- lift_flat_despecialize. apply (IHt safe ks); [rewrite flatten_despecialize; exact Hk| |exact HA].
    intros S. destruct (Hs S). split; [apply inline_despecialize; assumption|apply wf_despecialize; assumption].
Qed.
