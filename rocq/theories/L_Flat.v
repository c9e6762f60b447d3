(** Flattened values: kinds, consumption, round trip. *)
From Coq Require Import NArith ZArith List String Bool Arith Lia ZifyBool ZifyNat ZifyN.
From Verif Require Import GoBase M_Types M_Layout S_Layout L_Layout M_State M_Utf M_Load M_Store M_Flat
  S_Utf S_Values S_Memory S_Flat L_Access L_Labels L_Mem L_Utf L_Flags L_Frame L_RoundTrip L_StoreLoad
  L_Despecialize L_Lifted L_FlagWords.
Import ListNotations.
Open Scope N_scope.
Open Scope go_scope.

(** ** Joining *)
Lemma carried_refl : forall k, carried k k.
Proof. left. reflexivity. Qed.
Lemma carried_trans : forall a b c, carried a b -> carried b c -> carried a c.
Proof. unfold carried. intros a b c [->|[[-> ->]| ->]] H; [assumption| |]; intuition congruence. Qed.
Lemma join_left : forall a b, carried a (join a b).
Proof. destruct a, b; unfold carried, join; cbn; auto. Qed.
Lemma join_right : forall a b, carried b (join a b).
Proof. destruct a, b; unfold carried, join; cbn; auto. Qed.
Lemma join_least : forall a b k, carried a k -> carried b k -> carried (join a b) k.
Proof. destruct a, b, k; unfold carried, join; cbn; intuition congruence. Qed.

Lemma join_into_length : forall fs flat, List.length (join_into flat fs) = Nat.max (List.length flat) (List.length fs).
Proof. induction fs as [|f fs IH]; intros [|x flat]; cbn [join_into List.length]; try rewrite IH; cbn [List.length]; lia. Qed.

Lemma join_into_nth : forall fs flat j, nth_error (join_into flat fs) j =
  match nth_error flat j, nth_error fs j with
  | Some a, Some b => Some (join a b)
  | Some a, None => Some a
  | None, b => b
  end.
Proof.
  induction fs as [|f fs IH]; intros [|x flat] [|j]; cbn [join_into nth_error]; try reflexivity.
  - destruct (nth_error flat j); reflexivity.
  - rewrite IH. destruct j; reflexivity.
  - apply IH.
Qed.

Lemma joined_nil : joined [] [].
Proof. split; [intros fs []|]. split; [auto|]. intros [|j]; discriminate. Qed.

Lemma joined_snoc : forall kss ks fs, joined kss ks -> joined (kss ++ [fs]) (join_into ks fs).
Proof.
  intros kss ks fs (H1 & H2 & H3). split; [|split].
  - intros gs Hg. rewrite join_into_length. apply in_app_iff in Hg. destruct Hg as [Hg|[<-|[]]]; [|lia].
    specialize (H1 _ Hg). lia.
  - rewrite join_into_length. destruct (Nat.le_gt_cases (List.length ks) (List.length fs)).
    + right. exists fs. split; [apply in_app_iff; cbn; auto|lia].
    + destruct H2 as [->|(gs & Hg & E)]; [cbn in *; lia|]. right. exists gs. split; [apply in_app_iff; auto|lia].
  - intros j k. rewrite join_into_nth. intros E. split.
    + intros gs f Hg Hf. apply in_app_iff in Hg. destruct Hg as [Hg|[<-|[]]].
      * destruct (nth_error ks j) as [a|] eqn:Ea.
        -- destruct (H3 _ _ Ea) as [H4 _]. specialize (H4 _ _ Hg Hf). destruct (nth_error fs j); injection E as <-; [|assumption].
           eapply carried_trans; [exact H4|apply join_left].
        -- exfalso. apply nth_error_None in Ea. specialize (H1 _ Hg).
           assert (j < List.length gs)%nat by (apply nth_error_Some; congruence). lia.
      * rewrite Hf in E. destruct (nth_error ks j); injection E as <-; [apply join_right|apply carried_refl].
    + intros k' Hk.
      assert (Hfs : forall f, nth_error fs j = Some f -> carried f k').
      { intros f Hf. apply (Hk fs f); [apply in_app_iff; cbn; auto|assumption]. }
      destruct (nth_error ks j) as [a|] eqn:Ea.
      * destruct (H3 _ _ Ea) as [_ H4].
        assert (Ha : carried a k') by (apply H4; intros gs f Hg Hf; apply (Hk gs f); [apply in_app_iff; auto|assumption]).
        destruct (nth_error fs j) as [b|]; injection E as <-; [|assumption]. apply join_least; auto.
      * apply Hfs. exact E.
Qed.

(** ** What flatten_type computes *)
Lemma flatten_record_app : forall (l : list (outcome (list kind))) acc ks, fold_left (fun acc x => olet a := acc in olet y := x in Ok (a ++ y)%list) l acc = Ok ks ->
  exists a kss, acc = Ok a /\ l = map Ok kss /\ ks = (a ++ List.concat kss)%list.
Proof.
  induction l as [|x l IH]; intros acc ks E; cbn [fold_left] in E.
  - exists ks, []. rewrite app_nil_r. auto.
  - apply IH in E. destruct E as (b & kss & E1 & -> & ->). destruct acc as [a| | | ]; try discriminate.
    cbn [obind] in E1. destruct x as [y| | | ]; try discriminate. cbn [obind] in E1. injection E1 as <-.
    exists a, (y :: kss). cbn. rewrite app_assoc. auto.
Qed.
Lemma flatten_record_inv : forall l ks, flatten_record l = Ok ks -> exists kss, l = map Ok kss /\ ks = List.concat kss.
Proof. intros l ks E. apply flatten_record_app in E. destruct E as (a & kss & Ea & -> & ->). injection Ea as <-. eauto. Qed.

Lemma flatten_record_ok : forall kss, flatten_record (map Ok kss) = Ok (List.concat kss).
Proof.
  intros kss. unfold flatten_record.
  assert (H : forall (kss : list (list kind)) a, fold_left (fun acc x => olet a := acc in olet y := x in Ok (a ++ y)%list) (map Ok kss) (Ok a)
              = Ok (a ++ List.concat kss)%list).
  { clear. induction kss as [|x kss IH]; intros a; cbn [map fold_left List.concat]; [rewrite app_nil_r; reflexivity|].
    cbn [obind]. rewrite IH, app_assoc. reflexivity. }
  apply (H kss []).
Qed.

Lemma flatten_variant_fold : forall cs acc ks0 kss0,
  joined kss0 ks0 -> forall ks, acc = Ok ks0 ->
  fold_left (fun acc (c : caseOf (outcome (list kind))) => olet a := acc in
    match c_type c with None => Ok a | Some x => olet y := x in Ok (join_into a y) end) cs acc = Ok ks ->
  exists kss, payloads cs = map Ok kss /\ joined (kss0 ++ kss) ks.
Proof.
  induction cs as [|c cs IH]; intros acc ks0 kss0 HJ ks -> E; cbn [fold_left] in E.
  - injection E as <-. exists []. rewrite app_nil_r. auto.
  - cbn [obind] in E. unfold payloads. cbn [flat_map]. fold (payloads cs). destruct (c_type c) as [[y| | | ]|]; cbn [obind] in E.
    + destruct (IH _ (join_into ks0 y) (kss0 ++ [y])%list (joined_snoc _ _ _ HJ) ks eq_refl E) as (kss & E1 & E2).
      exists (y :: kss). cbn [map app]. rewrite E1. split; [reflexivity|]. rewrite <- app_assoc in E2. exact E2.
    + exfalso. clear - E. induction cs; cbn [fold_left obind] in E; [discriminate|auto].
    + exfalso. clear - E. induction cs; cbn [fold_left obind] in E; [discriminate|auto].
    + exfalso. clear - E. induction cs; cbn [fold_left obind] in E; [discriminate|auto].
    + cbn [app]. eapply IH; [exact HJ|reflexivity|exact E].
Qed.

Lemma flatten_variant_inv : forall cs ks, flatten_variant cs = Ok ks ->
  exists kss rest, payloads cs = map Ok kss /\ joined kss rest /\ ks = KU32 :: rest /\
    exists dt, discriminant_type (List.length cs) = Ok dt.
Proof.
  intros cs ks E. unfold flatten_variant in E.
  destruct (fold_left _ cs (Ok [])) as [rest| | | ] eqn:Ef; cbn [obind] in E; try discriminate.
  destruct (discriminant_type (List.length cs)) as [dt| | | ] eqn:Ed; cbn [obind] in E; try discriminate.
  injection E as <-.
  destruct (flatten_variant_fold cs (Ok []) [] [] joined_nil rest eq_refl Ef) as (kss & E1 & E2).
  exists kss, rest. eauto.
Qed.

Lemma payloads_map : forall {A B} (f : A -> B) cs, payloads (map (map_case f) cs) = map f (payloads cs).
Proof.
  induction cs as [|c cs IH]; [reflexivity|]. cbn [map]. unfold payloads in *. cbn [flat_map]. rewrite map_app, <- IH.
  destruct c as [l [x|] r]; reflexivity.
Qed.
Lemma payloads_in : forall {A} (cs : list (caseOf A)) c x, In c cs -> c_type c = Some x -> In x (payloads cs).
Proof. intros A cs c x Hc E. unfold payloads. apply in_flat_map. exists c. rewrite E. cbn. auto. Qed.

Lemma map_Ok_Forall2 : forall {A B} (f : A -> outcome B) l ks, map f l = map Ok ks -> Forall2 (fun x k => f x = Ok k) l ks.
Proof.
  induction l as [|x l IH]; intros [|k ks] E; try discriminate; [constructor|]. cbn in E. injection E as E1 E2.
  constructor; auto.
Qed.

Lemma discriminant_range : forall n dt, discriminant_type n = Ok dt -> 1 <= N.of_nat n <= 2 ^ 24.
Proof.
  intros n dt E. unfold discriminant_type in E. change (2 ^ 24) with 16777216. destruct (N.eqb_spec (N.of_nat n) 0); [discriminate|].
  destruct (N.leb_spec (N.of_nat n) 256); [lia|].
  destruct (N.leb_spec (N.of_nat n) 65536); [lia|].
  destruct (N.leb_spec (N.of_nat n) 16777216); [lia|discriminate].
Qed.
Lemma discriminant_total : forall n, 1 <= N.of_nat n <= 2 ^ 24 -> exists dt, discriminant_type n = Ok dt.
Proof.
  intros n H. change (2 ^ 24) with 16777216 in H. unfold discriminant_type. destruct (N.eqb_spec (N.of_nat n) 0); [lia|].
  destruct (N.leb_spec (N.of_nat n) 256); [eauto|].
  destruct (N.leb_spec (N.of_nat n) 65536); [eauto|].
  destruct (N.leb_spec (N.of_nat n) 16777216); [eauto|lia].
Qed.

(** Every type FlattenType accepts is flattened as specified. *)
Lemma flatten_as_specified : forall t ks, flatten_type t = Ok ks -> flattens t ks.
Proof.
  intros t. induction t using valtype_ind'; intros ks E; try discriminate;
    try (injection E as <-; first [apply fl_i32; cbn; tauto|apply fl_i64; cbn; tauto|apply fl_f32|apply fl_f64|apply fl_string|apply fl_list|apply fl_own|apply fl_borrow]).
  - cbn [flatten_type] in E. apply flatten_record_inv in E. destruct E as (kss & E & ->).
    apply map_Ok_Forall2 in E. apply fl_record. clear -H E. revert kss E.
    induction H as [|f fs Hf H IH]; intros kss E; inversion E; subst; constructor; auto.
  - cbn [flatten_type] in E. apply flatten_variant_inv in E. destruct E as (kss & rest & E & HJ & -> & dt & Hdt).
    rewrite payloads_map in E. apply map_Ok_Forall2 in E. rewrite map_length in Hdt. eapply fl_variant; [eapply discriminant_range; exact Hdt| |exact HJ].
    assert (HP : Forall (fun t => forall ks, flatten_type t = Ok ks -> flattens t ks) (payloads cs)).
    { apply Forall_forall. intros x Hx. unfold payloads in Hx. apply in_flat_map in Hx. destruct Hx as (c & Hc & Hx).
      rewrite Forall_forall in H. specialize (H c Hc). destruct (c_type c); [|destruct Hx]. destruct Hx as [<-|[]]. exact H. }
    clear - HP E. revert kss E. induction HP as [|f fs Hf H IH]; intros kss E; inversion E; subst; constructor; auto.
  - injection E as <-. replace (N.to_nat (num_i32_flags ls)) with (Nat.div (List.length ls + 31) 32); [apply fl_flags|].
    unfold num_i32_flags. rewrite N2Nat.inj_div. f_equal. lia.
  - apply fl_special; [assumption|]. apply IHt. rewrite flatten_despecialize. exact E.
Qed.

(** Joins are unique. *)
Lemma carried_antisym : forall a b, carried a b -> carried b a -> a = b.
Proof. unfold carried. intros a b. intuition congruence. Qed.

Lemma joined_unique : forall kss ks ks', joined kss ks -> joined kss ks' -> ks = ks'.
Proof.
  intros kss ks ks' (A1 & A2 & A3) (B1 & B2 & B3).
  assert (HL : List.length ks = List.length ks').
  { assert (List.length ks <= List.length ks')%nat.
    { destruct A2 as [->|(fs & Hf & E)]; [cbn; lia|]. rewrite <- E. auto. }
    assert (List.length ks' <= List.length ks)%nat.
    { destruct B2 as [->|(fs & Hf & E)]; [cbn; lia|]. rewrite <- E. auto. }
    lia. }
  apply nth_ext with (d := KU32) (d' := KU32); [exact HL|]. intros j Hj.
  destruct (nth_error ks j) as [a|] eqn:Ea; [|apply nth_error_None in Ea; lia].
  destruct (nth_error ks' j) as [b|] eqn:Eb; [|apply nth_error_None in Eb; lia].
  rewrite (nth_error_nth _ _ _ Ea), (nth_error_nth _ _ _ Eb).
  destruct (A3 _ _ Ea) as [A4 A5]. destruct (B3 _ _ Eb) as [B4 B5].
  apply carried_antisym; [apply A5; exact B4|apply B5; exact A4].
Qed.

Lemma Forall2_map_Ok : forall {A B} (f : A -> outcome B) l ks, Forall2 (fun x k => f x = Ok k) l ks -> map f l = map Ok ks.
Proof. induction 1; cbn; congruence. Qed.

Lemma flatten_variant_fold_ok : forall cs kss0 ks0 kss, joined kss0 ks0 -> payloads cs = map Ok kss ->
  exists ks, fold_left (fun acc (c : caseOf (outcome (list kind))) => olet a := acc in
    match c_type c with None => Ok a | Some x => olet y := x in Ok (join_into a y) end) cs (Ok ks0) = Ok ks.
Proof.
  induction cs as [|c cs IH]; intros kss0 ks0 kss HJ E; cbn [fold_left]; [eauto|].
  unfold payloads in E. cbn [flat_map] in E. fold (payloads cs) in E. cbn [obind]. destruct (c_type c) as [x|].
  - destruct kss as [|k kss]; [discriminate|]. cbn in E. injection E as -> E. cbn [obind]. eapply IH; [apply joined_snoc; exact HJ|exact E].
  - eapply IH; eassumption.
Qed.

(** FlattenType accepts every type that flattens. *)
Lemma flatten_complete : forall t ks, flattens t ks -> flatten_type t = Ok ks.
Proof.
  intros t. induction t using valtype_ind'; intros ks F;
    try solve [inversion F; subst; repeat match goal with H : In _ _ |- _ => destruct H as [H|H] end; try discriminate; try contradiction; reflexivity].
  - inversion F; subst; repeat match goal with H : In _ _ |- _ => destruct H as [H|H] end; try discriminate; try contradiction.
    cbn [flatten_type]. rewrite <- flatten_record_ok. f_equal.
    apply (Forall2_map_Ok (fun f => flatten_type (snd f))). clear -H H1. revert kss H1.
    induction H as [|f fs Hf H IH]; intros kss E; inversion E; subst; constructor; auto.
  - inversion F; subst; repeat match goal with H : In _ _ |- _ => destruct H as [H|H] end; try discriminate; try contradiction.
    assert (HP : Forall (fun t => forall ks, flattens t ks -> flatten_type t = Ok ks) (payloads cs)).
    { apply Forall_forall. intros x Hx. unfold payloads in Hx. apply in_flat_map in Hx. destruct Hx as (c & Hc & Hx).
      rewrite Forall_forall in H. specialize (H c Hc). destruct (c_type c); [|destruct Hx]. destruct Hx as [<-|[]]. exact H. }
    assert (E : payloads (map (map_case flatten_type) cs) = map Ok kss).
    { rewrite payloads_map. apply Forall2_map_Ok. match goal with HH : Forall2 flattens _ _ |- _ => rename HH into HF2 end. clear - HP HF2. revert kss HF2.
      induction HP as [|f fs Hf H IH]; intros kss E; inversion E; subst; constructor; auto. }
    destruct (discriminant_total _ H1) as [dt Hdt].
    destruct (flatten_variant_fold_ok _ [] [] kss joined_nil E) as [ks' Hf].
    assert (Hv : flatten_type (TVariant cs) = Ok (KU32 :: ks')).
    { cbn [flatten_type]. unfold flatten_variant. rewrite Hf. cbn [obind]. rewrite map_length, Hdt. reflexivity. }
    rewrite Hv. cbn [flatten_type] in Hv. apply flatten_variant_inv in Hv.
    destruct Hv as (kss' & rest & E' & HJ & Ek & _). injection Ek as <-. rewrite E in E'.
    assert (kss = kss') as <-.
    { clear -E'. revert kss' E'. induction kss as [|k kss IH]; intros [|k' kss'] E'; try discriminate; [reflexivity|].
      cbn in E'. injection E' as -> E'. f_equal. auto. }
    do 2 f_equal. eapply joined_unique; eassumption.
  - inversion F; subst; repeat match goal with H : In _ _ |- _ => destruct H as [H|H] end; try discriminate; try contradiction.
    cbn [flatten_type]. do 2 f_equal. unfold num_i32_flags. rewrite N2Nat.inj_div. f_equal. lia.
  - rewrite <- flatten_despecialize. apply IHt. destruct t; try discriminate H;
      (inversion F; subst; repeat match goal with H : In _ _ |- _ => destruct H as [H|H] end; try discriminate; try contradiction; assumption).
Qed.

(** ** C09: kinds *)
Lemma coerce_in_kind : forall c w, carried (cval_kind c) w -> cval_kind (coerce_in c w) = w.
Proof. intros c w H. destruct c, w; cbn in *; unfold carried in H; try reflexivity; intuition congruence. Qed.

Lemma zero_val_kind : forall k, cval_kind (zero_val k) = k.
Proof. destruct k; reflexivity. Qed.

(** Pointwise below a prefix. *)
Definition below (ks ws : list kind) : Prop :=
  (List.length ks <= List.length ws)%nat /\
  forall j k w, nth_error ks j = Some k -> nth_error ws j = Some w -> carried k w.

Lemma below_cons : forall k ks w ws, below (k :: ks) (w :: ws) <-> carried k w /\ below ks ws.
Proof.
  intros k ks w ws. unfold below. cbn [List.length]. split.
  - intros [H1 H2]. split; [apply (H2 0%nat); reflexivity|]. split; [lia|]. intros j a b Ha Hb. apply (H2 (S j)); assumption.
  - intros [H0 [H1 H2]]. split; [lia|]. intros [|j] a b Ha Hb; cbn in Ha, Hb; [congruence|eauto].
Qed.

Lemma coerce_payload_kinds : forall p flat r, below (map cval_kind p) flat -> coerce_payload p flat = Ok r -> map cval_kind r = flat.
Proof.
  induction p as [|h p IH]; intros flat r Hb E; cbn [coerce_payload] in E.
  - injection E as <-. rewrite map_map. erewrite map_ext; [apply map_id|]. apply zero_val_kind.
  - destruct flat as [|w flat]; [discriminate|]. cbn [map] in Hb. apply below_cons in Hb. destruct Hb as [H1 H2].
    destruct (coerce_payload p flat) as [r'| | | ] eqn:Er; try discriminate. cbn [obind] in E. injection E as <-.
    cbn [map]. rewrite coerce_in_kind by assumption. f_equal. apply IH; assumption.
Qed.

Lemma joined_below : forall kss ks fs, joined kss ks -> In fs kss -> below fs ks.
Proof.
  intros kss ks fs (H1 & _ & H3) Hf. split; [auto|]. intros j k w Hk Hw. destruct (H3 _ _ Hw) as [H _]. eauto.
Qed.

Lemma flag_words_kinds : forall n x, map cval_kind (fst (flag_words n x)) = repeat KU32 n.
Proof.
  intros n x. rewrite flag_words_spec. cbn [fst]. rewrite map_map. cbn [cval_kind].
  generalize 0%nat. induction n as [|n IH]; intros k; [reflexivity|]. cbn [seq map repeat]. f_equal. apply IH.
Qed.

Definition kinds_ok (cx : callctx) (t : valtype) : Prop :=
  forall v s cs s', lower_flat cx t v s = (Ok cs, s') -> flatten_type t = Ok (map cval_kind cs).

Lemma payload_flat : forall cs kss c t, map flatten_type (payloads cs) = map Ok kss -> In c cs -> c_type c = Some t ->
  exists ks, flatten_type t = Ok ks /\ In ks kss.
Proof.
  intros cs kss c t E Hc Et. pose proof (payloads_in cs c t Hc Et) as Hp.
  assert (Hin : In (flatten_type t) (map Ok kss)) by (rewrite <- E; apply in_map; exact Hp).
  apply in_map_iff in Hin. destruct Hin as (ks & Ek & Hk). eauto.
Qed.

Lemma kinds_all : forall cx t, kinds_ok cx t.
Proof.
  intros cx t. induction t using valtype_ind'; intros v s cs' s' E;
    try (cbn [lower_flat] in E; inversion E as [[E1 E2]]; clear E; destruct v; try discriminate; injection E1 as <-; reflexivity).
  - cbn [lower_flat] in E. destruct v; try discriminate. cbn [lower_string] in E.
    apply bind_inv in E. destruct E as ([p n] & s1 & _ & E). injection E as <- _. reflexivity.
  - cbn [lower_flat] in E. unfold lower_flat_list in E.
    apply bind_inv in E. destruct E as ([p n] & s1 & _ & E). injection E as <- _. reflexivity.
  - cbn [lower_flat] in E. destruct v as [| | | | | | | | | | | | | | | |m| |]; try discriminate. cbn [lower_flat_record] in E.
    cbn [flatten_type].
    assert (X : exists kss, map (fun f : string * valtype => flatten_type (snd f)) fs = map Ok kss /\ List.concat kss = map cval_kind cs').
    { revert s cs' s' E. induction H as [|[l t] fs Hf H IH]; intros s cs' s' E.
      - injection E as <- _. exists []. auto.
      - cbn [map lower_fields fst snd] in E. apply bind_inv in E. destruct E as (a & s1 & E1 & E).
        apply bind_inv in E. destruct E as (b & s2 & E2 & E). injection E as <- _.
        destruct (IH _ _ _ E2) as (kss & Ek & Ec). specialize (Hf _ _ _ _ E1). cbn [snd] in Hf.
        exists (map cval_kind a :: kss). cbn [map List.concat snd]. rewrite Ek, Hf, Ec, map_app. auto. }
    destruct X as (kss & -> & <-). apply flatten_record_ok.
  - cbn [lower_flat] in E. unfold lower_flat_variant in E.
    apply bind_inv in E. destruct E as ([i value] & s1 & E1 & E). apply bind_inv in E. destruct E as (ft & s2 & E2 & E).
    injection E2 as E2 <-. change (flatten_type (TVariant cs) = Ok (map cval_kind cs')). 
    change (flatten_variant (map (map_case flatten_type) cs) = Ok ft) in E2.
    destruct (flatten_variant_inv _ _ E2) as (kss & rest & Ep & HJ & -> & _).
    rewrite payloads_map in Ep. cbn [kind_eqb negb] in E.
    rewrite nth_error_map in E. destruct (nth_error cs (N.to_nat i)) as [c|] eqn:Ei; [|discriminate]. cbn [option_map] in E.
    apply bind_inv in E. destruct E as (payload & s3 & E3 & E). apply bind_inv in E. destruct E as (p & s4 & E4 & E).
    injection E4 as E4 <-. injection E as <- _. cbn [flatten_type]. rewrite E2. cbn [map cval_kind]. do 2 f_equal.
    symmetry. eapply coerce_payload_kinds; [|exact E4].
    cbn [c_type map_case] in E3. destruct (c_type c) as [t|] eqn:Et.
    + rewrite Forall_forall in H. specialize (H c (nth_error_In _ _ Ei)). rewrite Et in H. specialize (H _ _ _ _ E3).
      destruct (payload_flat cs kss c t Ep (nth_error_In _ _ Ei) Et) as (ks & Ek & Hin). rewrite H in Ek. injection Ek as ->.
      eapply joined_below; eassumption.
    + injection E3 as <- _. split; [cbn; lia|]. intros [|j]; discriminate.
  - cbn [lower_flat] in E. injection E as E _. destruct v as [| | | | | | | | | | | | | | | |m| |]; try discriminate. cbn [lower_flat_flags] in E.
    destruct (pack_flags m ls 0 0) as [x| | | ]; try discriminate. cbn [obind] in E.
    destruct (flag_words _ x) as [ws r] eqn:Ew. destruct (r =? 0); [|discriminate]. injection E as <-.
    cbn [flatten_type]. pose proof (flag_words_kinds (N.to_nat (num_i32_flags ls)) x) as Hk. rewrite Ew in Hk. cbn [fst] in Hk.
    rewrite Hk. reflexivity.
  - cbn [lower_flat] in E. unfold ret_handle in E. apply bind_inv in E. destruct E as (n & s1 & _ & E). injection E as <- _. reflexivity.
  - cbn [lower_flat] in E. unfold ret_handle in E. apply bind_inv in E. destruct E as (n & s1 & _ & E). injection E as <- _. reflexivity.
  - rewrite <- lower_flat_despecialize in E. rewrite <- flatten_despecialize. eapply IHt. exact E.
Qed.

(** ** C11: consumption *)

(** From [it] to [it'], core values of the types [ks] were taken; a coercing
    iterator takes what its own list says from the one inside. *)
Fixpoint advance (it : iter) (ks : list kind) (it' : iter) : Prop :=
  match it, it' with
  | IBase vals i, IBase vals' i' => vals' = vals /\ i' = (i + List.length ks)%nat /\
      forall j k, nth_error ks j = Some k -> exists c, nth_error vals (i + j) = Some c /\ cval_kind c = k
  | ICoerce inner flat, ICoerce inner' flat' =>
      exists pre, flat = (pre ++ flat')%list /\ List.length pre = List.length ks /\ advance inner pre inner'
  | _, _ => False
  end.

Lemma advance_0 : forall it, advance it [] it.
Proof.
  induction it; cbn [advance List.length].
  - split; [reflexivity|]. split; [lia|]. intros [|j]; discriminate.
  - exists []. auto.
Qed.
Lemma advance_trans : forall it n it1 k it2, advance it n it1 -> advance it1 k it2 -> advance it (n ++ k) it2.
Proof.
  induction it as [vals i|inner IH flat]; intros n [vals1 i1|inner1 flat1] k [vals2 i2|inner2 flat2]; cbn [advance]; try tauto.
  - intros (-> & -> & A) (-> & -> & B). split; [reflexivity|]. rewrite app_length. split; [lia|].
    intros j x Hx. destruct (Nat.lt_ge_cases j (List.length n)) as [L|L].
    + rewrite nth_error_app1 in Hx by exact L. auto.
    + rewrite nth_error_app2 in Hx by exact L. destruct (B _ _ Hx) as (c & Hc & Ek). exists c. split; [|exact Ek].
      rewrite <- Hc. f_equal. lia.
  - intros (p1 & -> & E1 & H1) (p2 & -> & E2 & H2). exists (p1 ++ p2)%list.
    rewrite app_assoc, !app_length. split; [reflexivity|]. split; [lia|eauto].
Qed.
Lemma advance_one : forall it k it1 ks it2, advance it [k] it1 -> advance it1 ks it2 -> advance it (k :: ks) it2.
Proof. intros it k it1 ks it2. apply (advance_trans it [k]). Qed.

Lemma kind_eqb_true : forall a b, kind_eqb a b = true -> a = b.
Proof. destruct a, b; try discriminate; reflexivity. Qed.

Lemma next_advance : forall it k x it', iter_next it k = Ok (x, it') -> advance it [k] it'.
Proof.
  induction it as [vals i|inner IH flat]; intros k x it' E; cbn [iter_next] in E.
  - destruct vals as [|v0 vals]; [discriminate|]. destruct (nth_error _ i) as [v|] eqn:Ev; [|discriminate].
    destruct (kind_eqb _ _) eqn:Ek; [|discriminate]. injection E as _ <-. cbn [advance List.length]. split; [reflexivity|].
    split; [lia|]. intros [|[|j]] y Hy; try discriminate. injection Hy as <-. exists v. rewrite Nat.add_0_r.
    split; [exact Ev|]. apply kind_eqb_true. exact Ek.
  - destruct flat as [|have flat]; [discriminate|]. destruct (iter_next inner have) as [[y inner']| | | ] eqn:En; try discriminate.
    cbn [obind] in E. destruct (coerce_out have k y); try discriminate. cbn [obind] in E. injection E as _ <-.
    cbn [advance]. exists [have]. cbn. split; [reflexivity|]. split; [reflexivity|]. eauto.
Qed.

Lemma skip_advance : forall ks it it', skip_flat ks it = Ok it' -> advance it ks it'.
Proof.
  induction ks as [|k ks IH]; intros it it' E; cbn [skip_flat] in E.
  - injection E as <-. apply advance_0.
  - destruct (iter_next it k) as [[x it1]| | | ] eqn:En; try discriminate. cbn [obind] in E.
    eapply advance_one; [eapply next_advance; exact En|eauto].
Qed.

Lemma next_u32_inv : forall it s n it' s', next_u32 it s = (Ok (n, it'), s') -> advance it [KU32] it'.
Proof.
  intros it s n it' s' E. unfold next_u32 in E. apply bind_inv in E. destruct E as ([x it1] & s1 & E1 & E).
  injection E1 as E1 _. destruct x; try discriminate. injection E as _ <- _. eapply next_advance; exact E1.
Qed.
Lemma next_u64_inv : forall it s n it' s', next_u64 it s = (Ok (n, it'), s') -> advance it [KU64] it'.
Proof.
  intros it s n it' s' E. unfold next_u64 in E. apply bind_inv in E. destruct E as ([x it1] & s1 & E1 & E).
  injection E1 as E1 _. destruct x; try discriminate. injection E as _ <- _. eapply next_advance; exact E1.
Qed.
Lemma next_f32_inv : forall it s n it' s', next_f32 it s = (Ok (n, it'), s') -> advance it [KF32] it'.
Proof.
  intros it s n it' s' E. unfold next_f32 in E. apply bind_inv in E. destruct E as ([x it1] & s1 & E1 & E).
  injection E1 as E1 _. destruct x; try discriminate. injection E as _ <- _. eapply next_advance; exact E1.
Qed.
Lemma next_f64_inv : forall it s n it' s', next_f64 it s = (Ok (n, it'), s') -> advance it [KF64] it'.
Proof.
  intros it s n it' s' E. unfold next_f64 in E. apply bind_inv in E. destruct E as ([x it1] & s1 & E1 & E).
  injection E1 as E1 _. destruct x; try discriminate. injection E as _ <- _. eapply next_advance; exact E1.
Qed.

Lemma flag_words_advance : forall n sh acc it s x it' s', lift_flag_words n sh acc it s = (Ok (x, it'), s') -> advance it (repeat KU32 n) it'.
Proof.
  induction n as [|n IH]; intros sh acc it s x it' s' E; cbn [lift_flag_words] in E.
  - injection E as _ <- _. apply advance_0.
  - apply bind_inv in E. destruct E as ([w it1] & s1 & E1 & E). cbn [repeat]. eapply advance_one; [eapply next_u32_inv; exact E1|].
    eapply IH; exact E.
Qed.

Definition consumes (cx : callctx) (t : valtype) : Prop :=
  forall it s v it' s', lift_flat cx t it s = (Ok (v, it'), s') ->
    exists ks, flatten_type t = Ok ks /\ advance it ks it'.

Lemma consumes_all : forall cx t, consumes cx t.
Proof.
  intros cx t. induction t using valtype_ind'; intros it s v it' s' E; cbn [lift_flat] in E;
    try (unfold lmap in E; apply bind_inv in E; destruct E as ([n it1] & s1 & E1 & E); injection E as _ <- _;
         eexists; split; [reflexivity|];
         first [eapply next_u32_inv; exact E1|eapply next_u64_inv; exact E1|eapply next_f32_inv; exact E1|eapply next_f64_inv; exact E1]).
  - unfold lift_flat_char in E. apply bind_inv in E. destruct E as ([n it1] & s1 & E1 & E).
    apply bind_inv in E. destruct E as (r & s2 & _ & E). injection E as _ <- _. eexists. split; [reflexivity|]. eapply next_u32_inv; exact E1.
  - unfold lift_flat_string in E. apply bind_inv in E. destruct E as ([n it1] & s1 & E1 & E).
    apply bind_inv in E. destruct E as ([n2 it2] & s2 & E2 & E). apply bind_inv in E. destruct E as (r & s3 & _ & E).
    injection E as _ <- _. eexists. split; [reflexivity|].
    eapply advance_one; eapply next_u32_inv; eassumption.
  - unfold lift_flat_list in E. apply bind_inv in E. destruct E as ([n it1] & s1 & E1 & E).
    apply bind_inv in E. destruct E as ([n2 it2] & s2 & E2 & E). apply bind_inv in E. destruct E as (r & s3 & _ & E).
    injection E as _ <- _. eexists. split; [reflexivity|].
    eapply advance_one; eapply next_u32_inv; eassumption.
  - unfold lift_flat_record in E. apply bind_inv in E. destruct E as ([m it1] & s1 & E1 & E). injection E as _ <- _.
    assert (X : forall acc it s m it' s', lift_fields (map (fun f => (fst f, lift_flat cx (snd f))) fs) acc it s = (Ok (m, it'), s') ->
      exists kss, map (fun f : string * valtype => flatten_type (snd f)) fs = map Ok kss /\ advance it (List.concat kss) it').
    { clear - H. induction H as [|[l t] fs Hf H IH]; intros acc it s m it' s' E.
      - injection E as _ <- _. exists []. split; [reflexivity|]. apply advance_0.
      - cbn [map lift_fields fst snd] in E. apply bind_inv in E. destruct E as ([x it1] & s1 & E1 & E).
        destruct (Hf _ _ _ _ _ E1) as (ks & Ek & A1). destruct (IH _ _ _ _ _ _ E) as (kss & Ekk & A2).
        exists (ks :: kss). cbn [map List.concat snd fst] in *. rewrite Ek, Ekk. split; [reflexivity|].
        eapply advance_trans; eassumption. }
    destruct (X _ _ _ _ _ _ E1) as (kss & Ek & A). exists (List.concat kss). split; [|exact A].
    cbn [flatten_type]. rewrite Ek. apply flatten_record_ok.
  - unfold lift_flat_variant in E. apply bind_inv in E. destruct E as (ft & s1 & E1 & E). injection E1 as E1 _.
    exists ft. split; [exact E1|]. destruct ft as [|k0 rest]; [discriminate|]. destruct (kind_eqb k0 KU32) eqn:Ek0; [|discriminate]. cbn [negb] in E. apply kind_eqb_true in Ek0. subst k0.
    apply bind_inv in E. destruct E as ([i it1] & s2 & E2 & E). apply next_u32_inv in E2.
    eapply advance_one; [exact E2|].
    destruct (_ <=? i); [discriminate|]. rewrite nth_error_map in E.
    destruct (nth_error cs (N.to_nat i)) as [c|] eqn:Ei; [|discriminate]. cbn [option_map c_type map_case] in E.
    destruct (c_type c) as [t|] eqn:Et.
    + apply bind_inv in E. destruct E as ([x cit] & s3 & E3 & E).
      rewrite Forall_forall in H. specialize (H c (nth_error_In _ _ Ei)). rewrite Et in H.
      destruct (H _ _ _ _ _ E3) as (ks & _ & A). destruct cit as [|it2 rest2]; [discriminate|].
      apply bind_inv in E. destruct E as (it3 & s4 & E4 & E). injection E4 as E4 _.
      apply bind_inv in E. destruct E as (lab & s5 & _ & E). injection E as _ <- _.
      destruct A as (pre & -> & Hpre & A). eapply advance_trans; [exact A|].
      apply skip_advance. exact E4.
    + apply bind_inv in E. destruct E as (it3 & s4 & E4 & E). injection E4 as E4 _.
      apply bind_inv in E. destruct E as (lab & s5 & _ & E). injection E as _ <- _. apply skip_advance. exact E4.
  - unfold lift_flat_flags in E. apply bind_inv in E. destruct E as ([x it1] & s1 & E1 & E). injection E as _ <- _.
    eexists. split; [reflexivity|]. eapply flag_words_advance; exact E1.
  - unfold lift_flat_handle in E. apply bind_inv in E. destruct E as ([x it1] & s1 & E1 & E). injection E1 as E1 _.
    destruct x; try discriminate. apply bind_inv in E. destruct E as (r0 & s2 & _ & E). injection E as _ <- _.
    eexists. split; [reflexivity|]. eapply next_advance; exact E1.
  - unfold lift_flat_handle in E. apply bind_inv in E. destruct E as ([x it1] & s1 & E1 & E). injection E1 as E1 _.
    destruct x; try discriminate. apply bind_inv in E. destruct E as (r0 & s2 & _ & E). injection E as _ <- _.
    eexists. split; [reflexivity|]. eapply next_advance; exact E1.
  - discriminate.
  - change (lift_flat cx t it s = (Ok (v, it'), s')) in E. rewrite <- lift_flat_despecialize in E. rewrite <- flatten_despecialize.
    eapply IHt. exact E.
Qed.

(** ** C10: round trip *)
Fixpoint yields (it : iter) (cs : list cval) (it' : iter) : Prop :=
  match cs with
  | [] => it' = it
  | c :: cs' => exists it1, iter_next it (cval_kind c) = Ok (cval_any c, it1) /\ yields it1 cs' it'
  end.

Lemma yields_app : forall cs cs' it it', yields it (cs ++ cs') it' <-> exists it1, yields it cs it1 /\ yields it1 cs' it'.
Proof.
  induction cs as [|c cs IH]; intros cs' it it'; cbn [app yields].
  - split; [eauto|]. intros (it1 & -> & H). exact H.
  - split.
    + intros (it1 & E & H). apply IH in H. destruct H as (it2 & H1 & H2). exists it2. eauto.
    + intros (it2 & (it1 & E & H1) & H2). exists it1. split; [exact E|]. apply IH. eauto.
Qed.

Lemma yields_base : forall cs pre post,
  yields (IBase (pre ++ cs ++ post) (List.length pre)) cs (IBase (pre ++ cs ++ post) (List.length pre + List.length cs)).
Proof.
  induction cs as [|c cs IH]; intros pre post; cbn [yields List.length].
  - rewrite Nat.add_0_r. reflexivity.
  - exists (IBase (pre ++ (c :: cs) ++ post) (S (List.length pre))). split.
    + cbn [iter_next]. destruct (pre ++ (c :: cs) ++ post)%list as [|c0 cs0] eqn:Ec; [destruct pre; discriminate|]. rewrite <- Ec.
      rewrite nth_error_app2, Nat.sub_diag by lia. cbn. destruct c; reflexivity.
    + specialize (IH (pre ++ [c])%list post). rewrite <- !app_assoc in IH. cbn [app] in IH.
      rewrite app_length in IH. cbn [List.length] in IH.
      replace (List.length pre + 1)%nat with (S (List.length pre)) in IH by lia.
      replace (List.length pre + S (List.length cs))%nat with (S (List.length pre) + List.length cs)%nat by lia. exact IH.
Qed.

Lemma coerce_out_in : forall c w, cval_ok c -> carried (cval_kind c) w ->
  coerce_out w (cval_kind c) (cval_any (coerce_in c w)) = Ok (cval_any c).
Proof.
  intros c w Hok H. change (2 ^ 32) with two32 in Hok.
  destruct c, w; cbn in *; unfold carried in H; try reflexivity; try (intuition congruence);
    unfold u32; rewrite N.mod_small by exact Hok; reflexivity.
Qed.

Lemma yields_coerce : forall payload flat cs it it', Forall cval_ok payload -> below (map cval_kind payload) flat ->
  coerce_payload payload flat = Ok cs -> yields it cs it' ->
  exists it2 flat2, yields (ICoerce it flat) payload (ICoerce it2 flat2) /\ skip_flat flat2 it2 = Ok it'.
Proof.
  induction payload as [|c payload IH]; intros flat cs it it' Hok Hb E HY; cbn [coerce_payload] in E.
  - injection E as <-. exists it, flat. split; [reflexivity|]. clear Hb Hok. revert it HY. induction flat as [|k flat IH]; intros it HY.
    + cbn in *. congruence.
    + cbn [map yields] in HY. destruct HY as (it1 & E & HY). rewrite zero_val_kind in E. cbn [skip_flat]. rewrite E. cbn [obind]. apply IH. exact HY.
  - destruct flat as [|w flat]; [discriminate|]. cbn [map] in Hb. apply below_cons in Hb. destruct Hb as [Hc Hb].
    destruct (coerce_payload payload flat) as [r| | | ] eqn:Er; try discriminate. cbn [obind] in E. injection E as <-.
    inversion Hok as [|? ? Hok1 Hok2]; subst.
    cbn [yields] in HY. destruct HY as (it1 & E1 & HY). rewrite coerce_in_kind in E1 by exact Hc.
    destruct (IH flat r it1 it' Hok2 Hb Er HY) as (it2 & flat2 & HY2 & Hs).
    exists it2, flat2. split; [|exact Hs]. cbn [yields]. exists (ICoerce it1 flat). split; [|exact HY2].
    cbn [iter_next]. rewrite E1. cbn [obind]. rewrite coerce_out_in by assumption. reflexivity.
Qed.

Lemma coerce_payload_ok : forall payload flat, below (map cval_kind payload) flat -> exists cs, coerce_payload payload flat = Ok cs.
Proof.
  induction payload as [|c payload IH]; intros flat Hb; [cbn; eauto|]. destruct flat as [|w flat]; [destruct Hb as [Hb _]; cbn in Hb; lia|].
  cbn [map] in Hb. apply below_cons in Hb. destruct Hb as [_ Hb]. destruct (IH flat Hb) as [cs E]. cbn [coerce_payload]. rewrite E. cbn; eauto.
Qed.

Lemma coerce_in_ok : forall c w, cval_ok c -> cval_ok (coerce_in c w).
Proof. intros c w H. change (2 ^ 32) with 4294967296 in *. change (2 ^ 64) with 18446744073709551616 in *. destruct c, w; cbn in *; change (2 ^ 32) with 4294967296 in *; change (2 ^ 64) with 18446744073709551616 in *; lia. Qed.

Lemma coerce_payload_vals : forall payload flat cs, Forall cval_ok payload -> coerce_payload payload flat = Ok cs -> Forall cval_ok cs.
Proof.
  induction payload as [|c payload IH]; intros flat cs Hok E; cbn [coerce_payload] in E.
  - injection E as <-. apply Forall_map. apply Forall_forall. intros [] _; reflexivity.
  - destruct flat as [|w flat]; [discriminate|]. destruct (coerce_payload payload flat) as [r| | | ] eqn:Er; try discriminate.
    cbn [obind] in E. injection E as <-. inversion Hok; subst. constructor; [apply coerce_in_ok; assumption|eauto].
Qed.

(** The core values [cs] carry [v]: lifting any iterator that yields them gives it back. *)
Definition carries (cx : callctx) (t : valtype) (v : any) (cs : list cval) (s : state) : Prop :=
  Forall cval_ok cs /\ forall it it', yields it cs it' ->
    exists v', lift_flat cx t it s = (Ok (v', it'), s) /\ same_value t v v'.

Definition flat_rt (cx : callctx) (init : N -> Prop) (t : valtype) : Prop :=
  forall v ks, flatten_type t = Ok ks -> wf_type t -> has_type (cx_enc cx) t v ->
  writes cx init 0 0 (lower_flat cx t v) (fun cs s => map cval_kind cs = ks /\ carries cx t v cs s).

Lemma scalar_rt : forall cx init t v c v',
  lower_flat cx t v = ret [c] -> cval_ok c ->
  (forall it it1 s, iter_next it (cval_kind c) = Ok (cval_any c, it1) -> lift_flat cx t it s = (Ok (v', it1), s)) ->
  same_value t v v' ->
  writes cx init 0 0 (lower_flat cx t v) (fun cs s => map cval_kind cs = [cval_kind c] /\ carries cx t v cs s).
Proof.
  intros cx init t v c v' El Hc Hl Hs. rewrite El. apply writes_ret. intros s _ _. split; [reflexivity|].
  split; [constructor; [exact Hc|constructor]|]. intros it it' (it1 & E & <-). exists v'. split; [apply Hl; exact E|exact Hs].
Qed.

Lemma next_u32_val : forall it it1 n s, iter_next it KU32 = Ok (VU32 n, it1) -> next_u32 it s = (Ok (n, it1), s).
Proof. intros it it1 n s E. unfold next_u32. rewrite E. reflexivity. Qed.
Lemma next_u64_val : forall it it1 n s, iter_next it KU64 = Ok (VU64 n, it1) -> next_u64 it s = (Ok (n, it1), s).
Proof. intros it it1 n s E. unfold next_u64. rewrite E. reflexivity. Qed.
Lemma next_f32_val : forall it it1 n s, iter_next it KF32 = Ok (VF32 n, it1) -> next_f32 it s = (Ok (n, it1), s).
Proof. intros it it1 n s E. unfold next_f32. rewrite E. reflexivity. Qed.
Lemma next_f64_val : forall it it1 n s, iter_next it KF64 = Ok (VF64 n, it1) -> next_f64 it s = (Ok (n, it1), s).
Proof. intros it it1 n s E. unfold next_f64. rewrite E. reflexivity. Qed.

Lemma signed_back : forall w z, (exists k, two32 = k * w) -> 0 < w -> N.even w = true ->
  (- Z.of_N (w / 2) <= z < Z.of_N (w / 2))%Z -> to_signed w (of_signed two32 z) = z.
Proof.
  intros w z [k Hk] Hw He Hz. assert (0 < k) by (destruct k; [discriminate|lia]).
  rewrite <- (to_of_signed w z Hw He Hz) at 2. rewrite <- (of_signed_mod w k z Hw) by assumption.
  rewrite (N.mul_comm w k), <- Hk. unfold to_signed. rewrite N.mod_mod by lia. reflexivity.
Qed.
Lemma of_signed32_lt : forall z, of_signed two32 z < 2 ^ 32.
Proof.
  intros z. unfold of_signed. pose proof (Z.mod_pos_bound z (Z.of_N two32) ltac:(reflexivity)). change (2 ^ 32) with two32. lia.
Qed.
Lemma of_signed64_lt : forall z, of_signed two64 z < 2 ^ 64.
Proof.
  intros z. unfold of_signed. pose proof (Z.mod_pos_bound z (Z.of_N two64) ltac:(reflexivity)). change (2 ^ 64) with two64. lia.
Qed.

(** Flags *)
Lemma lift_words_same : forall ws sh acc it it' s it2 it2' s2 x,
  yields it (map CU32 ws) it' -> yields it2 (map CU32 ws) it2' ->
  lift_flag_words (List.length ws) sh acc it2 s2 = (Ok (x, it2'), s2) ->
  lift_flag_words (List.length ws) sh acc it s = (Ok (x, it'), s).
Proof.
  induction ws as [|w ws IH]; intros sh acc it it' s it2 it2' s2 x Y Y2 E; cbn [List.length lift_flag_words] in *.
  - cbn in Y. subst. injection E as <-. reflexivity.
  - cbn [map yields cval_kind cval_any] in Y, Y2. destruct Y as (it1 & E1 & Y). destruct Y2 as (it3 & E3 & Y2).
    erewrite bind_ok; [|apply next_u32_val; exact E1]. erewrite bind_ok in E; [|apply next_u32_val; exact E3].
    cbv beta iota in *. eapply IH; eassumption.
Qed.

Lemma word32_lt : forall x k, word32 x k < 2 ^ 32.
Proof. intros. unfold word32. apply N.mod_lt. discriminate. Qed.

Lemma flags_flat_rt : forall cx init ls, flat_rt cx init (TFlags ls).
Proof.
  intros cx init ls v ks Hk [Hnd H64] Hty. injection Hk as <-.
  cbn [has_type] in Hty. destruct Hty as (m & -> & Hm). rewrite Forall_map in Hm. cbn [fst snd] in Hm.
  assert (HF : exists bs, Forall2 (flag_of m) ls bs /\ forall l, In l ls -> exists b, map_get m l = Some (VBool b)).
  { clear -Hm. induction Hm as [|l ls (x & Hx & b & ->) Hm IH].
    - exists []. split; [constructor|intros l []].
    - destruct IH as (bs & H1 & H2). exists (b :: bs). split.
      + constructor; [|assumption]. unfold flag_of, map_any. rewrite Hx. reflexivity.
      + intros l' [<-|Hl]; eauto. }
  destruct HF as (bs & Hbs & Hget).
  destruct (pack_bits m ls bs 0 0 Hbs) as (x & Ex & Hx); [lia|intros; apply N.bits_0|].
  assert (Hx' : forall i, N.testbit x i = nth (N.to_nat i) bs false).
  { intros i. rewrite Hx. destruct (N.ltb_spec i 0); [lia|]. rewrite N.sub_0_r. reflexivity. }
  destruct (num_words ls H64) as [Hw2 Hwl].
  assert (Hlen : List.length bs = List.length ls) by (symmetry; apply (Forall2_len _ _ _ Hbs)).
  set (n := N.to_nat (num_i32_flags ls)). set (ws := map (word32 x) (seq 0 n)).
  assert (El : lower_flat cx (TFlags ls) (VMap m) = lift_o (Ok (map CU32 ws))).
  { cbn [lower_flat]. unfold lower_flat_flags. rewrite Ex. cbn [obind]. fold n. rewrite flag_words_spec.
    assert (E0 : x / 2 ^ (32 * N.of_nat n) = 0).
    { apply N.div_small. apply bits_lt. intros i Hi. rewrite Hx'. apply nth_overflow. unfold n in Hi. lia. }
    rewrite E0. unfold ws. rewrite map_map. reflexivity. }
  rewrite El. apply (writes_ret cx init 0 0 (map CU32 ws)). intros s _ _. split.
  { rewrite map_map. cbn [cval_kind]. unfold ws. rewrite map_map. fold n. generalize 0%nat. clear.
    induction n as [|n IH]; intros k; [reflexivity|]. cbn [seq map repeat]. f_equal. apply IH. }
  assert (Hws : Forall (fun w => w < 2 ^ 32) ws).
  { unfold ws. apply Forall_map. apply Forall_forall. intros k _. apply word32_lt. }
  assert (Hwn : List.length ws = n) by (unfold ws; rewrite map_length, seq_length; reflexivity).
  split; [apply Forall_map; exact Hws|]. intros it it' Y.
  destruct (lift_words_bits ws [] [] 0 0 s Hws) as (y & Ey & Hy); [unfold n in Hwn; lia|intros; apply N.bits_0|].
  rewrite app_nil_r in Ey. cbn [app] in Ey.
  pose proof (yields_base (map CU32 ws) [] []) as Yb. rewrite app_nil_r in Yb. cbn [app List.length Nat.add] in Yb, Ey.
  rewrite map_length in Yb.
  pose proof (lift_words_same ws 0 0 it it' s _ _ s y Y Yb Ey) as Ew.
  assert (Hxy : y = x).
  { apply N.bits_inj. intros i. rewrite Hy. destruct (N.ltb_spec i 0); [lia|]. rewrite N.sub_0_r.
    destruct (N.lt_ge_cases (i / 32) (N.of_nat n)) as [L|L].
    - unfold ws. rewrite (nth_indep _ 0 (word32 x 0)) by (rewrite map_length, seq_length; lia).
      rewrite map_nth, seq_nth by lia. rewrite word32_bit. cbn [Nat.add].
      pose proof (N.mod_lt i 32 ltac:(discriminate)). pose proof (N.div_mod i 32 ltac:(discriminate)).
      destruct (N.ltb_spec (i mod 32) 32); [|lia]. cbn [andb]. f_equal. lia.
    - rewrite nth_overflow by lia. rewrite N.bits_0. rewrite Hx'. symmetry. apply nth_overflow.
      pose proof (N.div_mod i 32 ltac:(discriminate)). unfold n in *. lia. }
  subst y. exists (VMap (unpack_flags x ls [])). split.
  - cbn [lift_flat]. unfold lift_flat_flags. fold n. rewrite <- Hwn. erewrite bind_ok; [|exact Ew]. reflexivity.
  - cbn [same_value]. exists m, (unpack_flags x ls []). split; [reflexivity|]. split; [reflexivity|]. split.
    + apply Forall_map. cbn [fst snd]. apply Forall_forall. intros l Hl. destruct (Hget l Hl) as [b Hb].
      destruct (In_nth_error _ _ Hl) as [i Hi].
      exists (VBool b), (VBool (N.testbit x (N.of_nat i))). split; [exact Hb|]. split; [apply unpack_bits; assumption|].
      f_equal. rewrite Hx', Nat2N.id.
      clear - Hbs Hi Hb. revert i Hi. induction Hbs as [|l' b' ls bs Hl' Hbs IH]; intros [|i] Hi; try discriminate; cbn in *.
      * injection Hi as ->. unfold flag_of, map_any in Hl'. rewrite Hb in Hl'. congruence.
      * apply IH. exact Hi.
    + intros l Hl. rewrite map_map. cbn [fst]. rewrite map_id. apply unpack_domain in Hl. destruct Hl as [|C]; [assumption|cbn in C; congruence].
Qed.

(** Records *)
Lemma lower_fields_rt : forall cx init m fs kss,
  Forall (fun f => flat_rt cx init (snd f)) fs -> NoDup (map fst fs) ->
  Forall (fun f => wf_type (snd f)) fs ->
  Forall (fun f => exists x, map_get m (fst f) = Some x /\ has_type (cx_enc cx) (snd f) x) fs ->
  map (fun f => flatten_type (snd f)) fs = map Ok kss ->
  writes cx init 0 0 (lower_fields (map (fun f => (fst f, lower_flat cx (snd f))) fs) m)
    (fun cs s => map cval_kind cs = List.concat kss /\ Forall cval_ok cs /\ forall acc it it', yields it cs it' ->
       exists m', lift_fields (map (fun f => (fst f, lift_flat cx (snd f))) fs) acc it s = (Ok (m', it'), s) /\
         fields_loaded m m' acc fs).
Proof.
  intros cx init m fs. induction fs as [|[l t] fs IH]; intros kss Hrt Hnd Hwf Hty Hk.
  - destruct kss; [|discriminate]. apply writes_ret. intros s _ _. split; [reflexivity|]. split; [constructor|].
    intros acc it it' Y. cbn in Y. subst it'. exists acc. split; [reflexivity|]. split; [constructor|reflexivity].
  - destruct kss as [|ks kss]; [discriminate|]. cbn [map snd] in Hk. injection Hk as Hk1 Hk2.
    inversion Hrt as [|? ? Hrt1 Hrt2]; subst. inversion Hwf as [|? ? Hwf1 Hwf2]; subst.
    inversion Hty as [|? ? (x & Hx & Hxt) Hty2]; subst. inversion Hnd as [|? ? Hnd1 Hnd2]; subst. cbn [fst snd] in *.
    cbn [map fst snd lower_fields]. unfold map_any at 1. rewrite Hx.
    eapply writes_mono.
    + eapply (writes_bind cx init 0 0 0 0 0 0); [eapply Hrt1; eassumption| |intros; unfold within in *; lia..].
      intros a.
      eapply (writes_bind cx init 0 0 0 0 0 0 _ _ _ (fun b c _ => c = (a ++ b)%list)); [apply (IH kss); assumption| |intros; unfold within in *; lia..].
      intros b. apply writes_ret. reflexivity.
    + cbn beta. intros cs s _ _ (a & (Ka & Oka & Ra) & b & (Kb & Okb & Rb) & ->). split; [|split].
      * rewrite map_app, Ka, Kb. reflexivity.
      * apply Forall_app. auto.
      * intros acc it it' Y. apply yields_app in Y. destruct Y as (it1 & Y1 & Y2).
        destruct (Ra it it1 Y1) as (x' & Ex & Sx). destruct (Rb (map_set acc l x') it1 it' Y2) as (m' & Em & Hf & Ho).
        exists m'. split.
        -- cbn [lift_fields map fst snd]. erewrite bind_ok; [|exact Ex]. exact Em.
        -- split.
           ++ constructor; [|assumption]. cbn [fst snd]. exists x, x'. split; [assumption|]. split; [|assumption].
              rewrite Ho by assumption. rewrite map_get_set, String.eqb_refl. reflexivity.
           ++ intros q Hq. cbn in Hq. rewrite Ho by tauto. rewrite map_get_set.
              destruct (String.eqb_spec q l) as [->|]; [tauto|reflexivity].
Qed.

Lemma record_flat_rt : forall cx init fs, Forall (fun f => flat_rt cx init (snd f)) fs -> flat_rt cx init (TRecord fs).
Proof.
  intros cx init fs H v ks Hk Hwf Hty. destruct Hwf as [Hnd Hwt]. apply all_Forall in Hwt.
  destruct Hty as (m & -> & Hf). rewrite Forall_map in Hf. cbn [fst snd] in Hf.
  cbn [flatten_type] in Hk. apply flatten_record_inv in Hk. destruct Hk as (kss & Hk & ->).
  change (lower_flat cx (TRecord fs) (VMap m)) with (lower_fields (map (fun f => (fst f, lower_flat cx (snd f))) fs) m).
  eapply writes_mono; [apply (lower_fields_rt cx init m fs kss); assumption|]. cbn beta.
  intros cs s _ _ (Kc & Okc & R). split; [exact Kc|]. split; [exact Okc|]. intros it it' Y.
  destruct (R [] it it' Y) as (m' & Em & Hfl & Ho). exists (VMap m'). split.
  - cbn [lift_flat]. unfold lift_flat_record. erewrite bind_ok; [|exact Em]. reflexivity.
  - cbn [same_value]. exists m, m'. split; [reflexivity|]. split; [reflexivity|]. split.
    + apply Forall_map. exact Hfl.
    + intros l Hl1. rewrite map_map. cbn [fst]. destruct (in_dec string_dec l (map fst fs)); [assumption|].
      rewrite Ho in Hl1 by assumption. cbn in Hl1. congruence.
Qed.

(** Variants *)
Lemma writes_then : forall {A B C} cx init (m : M A) (g : A -> outcome B) (h : A -> B -> C) (Q : A -> state -> Prop),
  writes cx init 0 0 m Q -> (forall a s, Q a s -> exists b, g a = Ok b) ->
  writes cx init 0 0 (let* a := m in let* b := lift_o (g a) in ret (h a b))
    (fun c s => exists a b, Q a s /\ g a = Ok b /\ c = h a b).
Proof.
  intros A B C cx init m g h Q Hm Hg s o s1 Hgood Ho Hl E. unfold bind at 1 in E. destruct (m s) as [o1 s2] eqn:E1.
  destruct (Hm s o1 s2 Hgood Ho Hl E1) as [(a & -> & S & K)|F].
  - assert (Qa : Q a s2).
    { apply K. split; [apply (st_good _ _ _ _ S)|]. split; [lia|reflexivity]. }
    destruct (Hg a s2 Qa) as [b Eb]. rewrite Eb in E. injection E as <- <-. left. exists (h a b). split; [reflexivity|].
    split; [exact S|]. intros s'' Hk. exists a, b. auto.
  - right. destruct o1; inversion E; subst; try assumption. destruct F as (? & ? & _ & _ & []).
Qed.

Lemma discriminant_bound : forall n dt, discriminant_type n = Ok dt -> N.of_nat n < two32.
Proof.
  intros n dt E. unfold discriminant_type in E. destruct (N.of_nat n =? 0); [discriminate|].
  destruct (N.leb_spec (N.of_nat n) 256); [unfold two32; lia|].
  destruct (N.leb_spec (N.of_nat n) 65536); [unfold two32; lia|].
  destruct (N.leb_spec (N.of_nat n) 16777216); [unfold two32; lia|discriminate].
Qed.

Lemma case_label_map : forall {A B} (f : A -> B) cs c, case_label (map_case f c) (map (map_case f) cs) = case_label c cs.
Proof.
  intros A B f cs c. unfold case_label. rewrite map_length. cbn [c_label map_case].
  generalize (c_label c). generalize (S (S (List.length cs))). intros n. revert c.
  assert (FC : forall r, find_case (map (map_case f) cs) r = option_map (map_case f) (find_case cs r)).
  { clear. induction cs as [|c cs IH]; intros r; [reflexivity|]. cbn [map find_case c_label map_case]. destruct (String.eqb _ _); [reflexivity|apply IH]. }
  induction n as [|n IH]; intros c lab; [reflexivity|]. cbn [label_loop c_refines map_case].
  destruct (c_refines c) as [r|]; [|reflexivity]. rewrite FC. destruct (find_case cs r) as [c'|]; [|reflexivity].
  cbn [option_map c_label map_case]. apply IH.
Qed.

Lemma match_case_map : forall {A B} (f : A -> B) cs v, match_case v (map (map_case f) cs) = match_case v cs.
Proof.
  intros A B f cs v.
  assert (LI : forall l i acc, label_index (map (map_case f) cs) i l acc = label_index cs i l acc).
  { clear. induction cs as [|c cs IH]; intros l i acc; [reflexivity|]. cbn [map label_index c_label map_case]. apply IH. }
  assert (ML : forall ls, match_labels (map (map_case f) cs) ls = match_labels cs ls).
  { induction ls as [|l ls IH]; [reflexivity|]. cbn [match_labels]. rewrite LI, IH. reflexivity. }
  destruct v as [| | | | | | | | | | | | | | | |m| |]; try reflexivity. destruct m as [|[k x] [|]]; try reflexivity.
  cbn [match_case]. destruct (split_bar k). rewrite ML. reflexivity.
Qed.

Lemma variant_flat_rt : forall cx init cs, Forall (fun c => opt_all (flat_rt cx init) (c_type c)) cs -> flat_rt cx init (TVariant cs).
Proof.
  intros cx init cs H v ks Hk Hwf Hty. destruct Hwf as [(Hnd & Hbf & Hre) Hwt]. apply all_Forall in Hwt.
  destruct Hty as (key & x & i & c0 & -> & Hsel & Hi & Hx).
  rewrite map_map in Hsel. cbn [c_label map_case] in Hsel.
  rewrite nth_error_map in Hi. destruct (nth_error cs i) as [c|] eqn:Ei; [|discriminate]. injection Hi as <-.
  assert (Hic : In c cs) by (eapply nth_error_In; exact Ei).
  assert (Hil : (i < List.length cs)%nat) by (apply nth_error_Some; congruence).
  cbn [flatten_type] in Hk. destruct (flatten_variant_inv _ _ Hk) as (kss & rest & Ep & HJ & -> & dt & Hdt).
  rewrite payloads_map in Ep. rewrite map_length in Hdt. pose proof (discriminant_bound _ _ Hdt) as Hn.
  assert (Hlab : exists l, case_label c cs = Ok l).
  { apply case_label_ends. rewrite Forall_forall in Hre. auto. }
  destruct Hlab as [l Hlab]. pose proof (case_label_selects cs c l i Hbf Ei Hlab) as Hls.
  pose proof (match_case_selects cs key x i Hnd Hn Hsel) as Hm.
  assert (SV : forall v', match c_type c with Some t => same_value t x v' | None => v' = VNil end ->
     same_value (TVariant cs) (VMap [(key, x)]) (VMap [(l, v')])).
  { intros v' Hsv. cbn [same_value]. exists key, x, l, v', i, (map_case same_value c).
    rewrite !map_map. cbn [c_label map_case c_type]. repeat split; try assumption.
    - rewrite nth_error_map, Ei. reflexivity.
    - destruct (c_type c); assumption. }
  set (pl := match c_type c with None => ret [] | Some t => lower_flat cx t x end).
  eapply (writes_ext _ _ _ _ _ (let* payload := pl in let* p := lift_o (coerce_payload payload rest) in ret (CU32 (N.of_nat i) :: p))).
  { intros s _ _. cbn [lower_flat]. unfold lower_flat_variant. rewrite match_case_map, Hm, bind_lift_ok.
    change (flatten_type (TVariant cs)) with (flatten_variant (map (map_case flatten_type) cs)). rewrite Hk, bind_lift_ok.
    cbn [kind_eqb negb]. rewrite nth_error_map, Nat2N.id, Ei. cbn [option_map c_type map_case]. unfold pl.
    destruct (c_type c); reflexivity. }
  set (QP := fun payload s => Forall cval_ok payload /\ below (map cval_kind payload) rest /\
     forall it it', yields it payload it' ->
       match c_type c with
       | Some t => exists v', lift_flat cx t it s = (Ok (v', it'), s) /\ same_value t x v'
       | None => payload = []
       end).
  assert (WP : writes cx init 0 0 pl QP).
  { unfold pl, QP. cbn [c_type map_case] in Hx. destruct (c_type c) as [t|] eqn:Et.
    - destruct (payload_flat cs kss c t Ep Hic Et) as (ks & Ek & Hin).
      rewrite Forall_forall in H, Hwt. specialize (H c Hic). specialize (Hwt c Hic). rewrite Et in H, Hwt.
      eapply writes_mono; [apply (H x ks); assumption|]. cbn beta. intros p s _ _ (Kp & Okp & Rp).
      split; [exact Okp|]. split; [rewrite Kp; eapply joined_below; eassumption|]. exact Rp.
    - apply writes_ret. intros s _ _. split; [constructor|]. split; [split; [cbn; lia|intros [|j]; discriminate]|]. reflexivity. }
  eapply writes_mono.
  - apply (writes_then cx init pl (fun payload => coerce_payload payload rest) (fun _ p => CU32 (N.of_nat i) :: p) QP WP).
    intros a s (_ & Hb & _). apply coerce_payload_ok. exact Hb.
  - cbn beta. intros core s _ _ (payload & p & (Okp & Hb & Rp) & Ec & ->). split; [|split].
    + cbn [map cval_kind]. f_equal. eapply coerce_payload_kinds; eassumption.
    + constructor; [change (N.of_nat i < two32); lia|]. eapply coerce_payload_vals; eassumption.
    + intros it it' (it1 & E1 & Y). cbn [cval_kind cval_any] in E1.
      destruct (yields_coerce payload rest p it1 it' Okp Hb Ec Y) as (it2 & flat2 & Y2 & Hs).
      specialize (Rp _ _ Y2).
      assert (LV : forall v' s2, (match c_type c with
                              | Some t => lift_flat cx t (ICoerce it1 rest) s = (Ok (v', ICoerce it2 flat2), s2)
                              | None => v' = VNil /\ it2 = it1 /\ flat2 = rest /\ s2 = s end) ->
                   lift_flat cx (TVariant cs) it s = (Ok (VMap [(l, v')], it'), s2)).
      { intros v' s2 HE. cbn [lift_flat]. unfold lift_flat_variant.
        change (flatten_type (TVariant cs)) with (flatten_variant (map (map_case flatten_type) cs)). rewrite Hk, bind_lift_ok.
        cbn [kind_eqb negb]. erewrite bind_ok; [|apply next_u32_val; exact E1]. cbv beta iota.
        rewrite map_length. destruct (N.leb_spec (N.of_nat (List.length cs)) (N.of_nat i)); [lia|].
        rewrite nth_error_map, Nat2N.id, Ei. cbn [option_map c_type map_case].
        destruct (c_type c) as [t|] eqn:Et.
        - erewrite bind_ok; [|exact HE]. cbv beta iota. rewrite Hs, bind_lift_ok.
          change (mkCase (c_label c) (Some (lift_flat cx t)) (c_refines c)) with (mkCase (c_label c) (Some (lift_flat cx t)) (c_refines c)).
          assert (EL : case_label (map_case (lift_flat cx) c) (map (map_case (lift_flat cx)) cs) = Ok l) by (rewrite case_label_map; exact Hlab).
          unfold map_case at 1 in EL. rewrite Et in EL. unfold map_case at 1. rewrite Et. rewrite EL, bind_lift_ok. reflexivity.
        - destruct HE as (-> & -> & -> & ->). rewrite Hs, bind_lift_ok.
          assert (EL : case_label (map_case (lift_flat cx) c) (map (map_case (lift_flat cx)) cs) = Ok l) by (rewrite case_label_map; exact Hlab).
          rewrite EL, bind_lift_ok. reflexivity. }
      destruct (c_type c) as [t|] eqn:Et.
      * destruct Rp as (v' & El & Sv). exists (VMap [(l, v')]). split; [apply LV; exact El|]. apply SV. exact Sv.
      * subst payload. cbn [yields] in Y2. injection Y2 as <- <-.
        exists (VMap [(l, VNil)]). split; [apply LV; auto|]. apply SV. reflexivity.
Qed.

(** ** All types *)
Lemma rune_back : forall c, scalar_value c -> u32_to_rune c = Ok (Z.of_N c).
Proof.
  intros c Hs. unfold scalar_value in Hs. unfold u32_to_rune.
  destruct (N.leb_spec 1114112 c); [lia|]. destruct (N.leb_spec 55296 c), (N.leb_spec c 57343); cbn [andb]; try lia;
    unfold to_signed, two32; rewrite N.mod_small by lia; (destruct (N.ltb_spec (2 * c) 4294967296); [reflexivity|lia]).
Qed.

Lemma pair_rt : forall cx init t v (m : M (N * N)) (Q : N * N -> state -> Prop),
  lower_flat cx t v = (let* (ptr, len) := m in ret [CU32 ptr; CU32 len]) ->
  writes cx init 0 0 m Q ->
  (forall p n s, Q (p, n) s -> p < two32 /\ n < two32 /\ forall it it1 it2,
     iter_next it KU32 = Ok (VU32 p, it1) -> iter_next it1 KU32 = Ok (VU32 n, it2) ->
     exists v', lift_flat cx t it s = (Ok (v', it2), s) /\ same_value t v v') ->
  writes cx init 0 0 (lower_flat cx t v) (fun cs s => map cval_kind cs = [KU32; KU32] /\ carries cx t v cs s).
Proof.
  intros cx init t v m Q El Hm HQ. rewrite El.
  eapply writes_mono.
  - eapply (writes_bind cx init 0 0 0 0 0 0 m _ Q (fun a c _ => c = [CU32 (fst a); CU32 (snd a)])); [exact Hm| |intros; unfold within in *; lia..].
    intros [p n]. apply writes_ret. reflexivity.
  - cbn beta. intros cs s _ _ ([p n] & Hq & ->). cbn [fst snd]. destruct (HQ p n s Hq) as (B1 & B2 & HL).
    split; [reflexivity|]. split; [repeat constructor; assumption|].
    intros it it' (it1 & E1 & it2 & E2 & Y). cbn in Y. subst it'. eapply HL; eassumption.
Qed.

Lemma flat_rt_all : forall cx init t, correct_allocator cx init -> flat_rt cx init t.
Proof.
  intros cx init t Hc. induction t using valtype_ind';
    [ | | | | | | | | | | | | | |apply record_flat_rt; assumption|apply variant_flat_rt; assumption|apply flags_flat_rt| | | |
      intros v ks Hk Hwf Hty; rewrite <- flatten_despecialize in Hk; rewrite <- lower_flat_despecialize;
      apply has_type_despecialize in Hty; apply wf_despecialize in Hwf;
      eapply writes_mono; [eapply IHt; eassumption|];
      cbn beta; intros cs s _ _ (K & O & R); split; [exact K|]; split; [exact O|]; intros it it' Y;
      destruct (R it it' Y) as (v' & E & S); exists v'; rewrite <- lift_flat_despecialize;
      split; [exact E|]; apply same_value_despecialize; exact S ];
    intros v ks Hk Hwf Hty; try contradiction; injection Hk as <-.
  - destruct Hty as (b & ->). apply (scalar_rt cx init TBool _ (CU32 (if b then 1 else 0)) (VBool b)); [reflexivity|destruct b; reflexivity| |reflexivity].
    intros it it1 s E. cbn [lift_flat]. unfold lmap. erewrite bind_ok; [|apply next_u32_val; exact E]. destruct b; reflexivity.
  - destruct Hty as (n & -> & Hn). change (2 ^ 8) with 256 in Hn. apply (scalar_rt cx init TU8 _ (CU32 n) (VU8 n)); [reflexivity|cbn; change (2 ^ 32) with 4294967296; lia| |reflexivity].
    intros it it1 s E. cbn [lift_flat]. unfold lmap. erewrite bind_ok; [|apply next_u32_val; exact E]. unfold u8. change two8 with 256. rewrite N.mod_small by lia. reflexivity.
  - destruct Hty as (n & -> & Hn). change (2 ^ 16) with 65536 in Hn. apply (scalar_rt cx init TU16 _ (CU32 n) (VU16 n)); [reflexivity|cbn; change (2 ^ 32) with 4294967296; lia| |reflexivity].
    intros it it1 s E. cbn [lift_flat]. unfold lmap. erewrite bind_ok; [|apply next_u32_val; exact E]. unfold u16. change two16 with 65536. rewrite N.mod_small by lia. reflexivity.
  - destruct Hty as (n & -> & Hn). apply (scalar_rt cx init TU32 _ (CU32 n) (VU32 n)); [reflexivity|exact Hn| |reflexivity].
    intros it it1 s E. cbn [lift_flat]. unfold lmap. erewrite bind_ok; [|apply next_u32_val; exact E]. reflexivity.
  - destruct Hty as (n & -> & Hn). apply (scalar_rt cx init TU64 _ (CU64 n) (VU64 n)); [reflexivity|exact Hn| |reflexivity].
    intros it it1 s E. cbn [lift_flat]. unfold lmap. erewrite bind_ok; [|apply next_u64_val; exact E]. reflexivity.
  - destruct Hty as (z & -> & Hz). apply (scalar_rt cx init TS8 _ (CU32 (of_signed two32 z)) (VS8 z)); [reflexivity|apply of_signed32_lt| |reflexivity].
    intros it it1 s E. cbn [lift_flat]. unfold lmap. erewrite bind_ok; [|apply next_u32_val; exact E].
    cbv beta iota. rewrite signed_back; [reflexivity|exists 16777216; reflexivity|reflexivity|reflexivity|exact Hz].
  - destruct Hty as (z & -> & Hz). apply (scalar_rt cx init TS16 _ (CU32 (of_signed two32 z)) (VS16 z)); [reflexivity|apply of_signed32_lt| |reflexivity].
    intros it it1 s E. cbn [lift_flat]. unfold lmap. erewrite bind_ok; [|apply next_u32_val; exact E].
    cbv beta iota. rewrite signed_back; [reflexivity|exists 65536; reflexivity|reflexivity|reflexivity|exact Hz].
  - destruct Hty as (z & -> & Hz). apply (scalar_rt cx init TS32 _ (CU32 (of_signed two32 z)) (VS32 z)); [reflexivity|apply of_signed32_lt| |reflexivity].
    intros it it1 s E. cbn [lift_flat]. unfold lmap. erewrite bind_ok; [|apply next_u32_val; exact E].
    cbv beta iota. rewrite signed_back; [reflexivity|exists 1; reflexivity|reflexivity|reflexivity|exact Hz].
  - destruct Hty as (z & -> & Hz). apply (scalar_rt cx init TS64 _ (CU64 (of_signed two64 z)) (VS64 z)); [reflexivity|apply of_signed64_lt| |reflexivity].
    intros it it1 s E. cbn [lift_flat]. unfold lmap. erewrite bind_ok; [|apply next_u64_val; exact E].
    cbv beta iota. rewrite to_of_signed; [reflexivity|reflexivity|reflexivity|exact Hz].
  - destruct Hty as (b & -> & Hb). destruct (canonical32_same b Hb) as [Hsame Hlt].
    apply (scalar_rt cx init TF32 _ (CF32 (canonicalize32 b)) (VF32 (canonicalize32 (canonicalize32 b)))); [reflexivity|exact Hlt| |exists b; eauto].
    intros it it1 s E. cbn [lift_flat]. unfold lmap. erewrite bind_ok; [|apply next_f32_val; exact E]. reflexivity.
  - destruct Hty as (b & -> & Hb). destruct (canonical64_same b Hb) as [Hsame Hlt].
    apply (scalar_rt cx init TF64 _ (CF64 (canonicalize64 b)) (VF64 (canonicalize64 (canonicalize64 b)))); [reflexivity|exact Hlt| |exists b; eauto].
    intros it it1 s E. cbn [lift_flat]. unfold lmap. erewrite bind_ok; [|apply next_f64_val; exact E]. reflexivity.
  - destruct Hty as (c & -> & Hsc).
    assert (Eo : of_signed two32 (Z.of_N c) = c).
    { unfold scalar_value in Hsc. unfold of_signed, two32. rewrite Z.mod_small by lia. lia. }
    apply (scalar_rt cx init TChar _ (CU32 c) (VS32 (Z.of_N c))).
    + cbn [lower_flat lower_scalar]. rewrite Eo. reflexivity.
    + unfold scalar_value in Hsc. cbn. change (2 ^ 32) with 4294967296. lia.
    + intros it it1 s E. cbn [lift_flat]. unfold lift_flat_char. erewrite bind_ok; [|apply next_u32_val; exact E]. cbv beta iota.
      rewrite rune_back by exact Hsc. rewrite bind_lift_ok. reflexivity.
    + reflexivity.
  - destruct Hty as (s0 & -> & Hso).
    eapply pair_rt; [reflexivity|apply writes_string; [exact Hc|exact Hso]|].
    cbn beta. cbn [fst snd]. intros p n s (B1 & B2 & E). split; [exact B1|]. split; [exact B2|]. intros it it1 it2 E1 E2.
    exists (VStr s0). split; [|reflexivity]. cbn [lift_flat]. unfold lift_flat_string.
    erewrite bind_ok; [|apply next_u32_val; exact E1]. cbv beta iota.
    erewrite bind_ok; [|apply next_u32_val; exact E2]. cbv beta iota. erewrite bind_ok; [|exact E]. reflexivity.
  - destruct Hty as (l & a & sz & -> & Hel & Hla & Hlen1 & Hlen2). destruct Hwf as [Hwf (a' & sz' & Hla' & Hsz)].
    rewrite Hla in Hla'. injection Hla' as <- <-.
    destruct (sp_layout_facts _ _ _ Hla) as (Ha & Hva & Hdv & Hs).
    eapply pair_rt; [reflexivity| |].
    + eapply (writes_list cx init _ _ a sz _ (load cx t) (same_value t)); try eassumption; [apply Hs; exact Hsz|].
      eapply Forall_impl; [|exact Hel]. intros v Hv q Hq1 Hq2. eapply rt_ok_all; eassumption.
    + cbn beta. cbn [fst snd]. intros p n s (B1 & B2 & l' & Rl & E). split; [exact B1|]. split; [exact B2|]. intros it it1 it2 E1 E2.
      exists (VList l'). split; [|cbn [same_value]; eauto]. cbn [lift_flat]. unfold lift_flat_list.
      erewrite bind_ok; [|apply next_u32_val; exact E1]. cbv beta iota.
      erewrite bind_ok; [|apply next_u32_val; exact E2]. cbv beta iota. erewrite bind_ok; [|exact E]. reflexivity.
Qed.

(** ** Memory-free types *)

(** A computation of the context whose outcome depends neither on the context
    nor on the state, and that keeps the state. *)
Definition steady {A} (m : callctx -> M A) : Prop := exists o, forall cx s, m cx s = (o, s).

Lemma steady_lift : forall {A} (o : outcome A), steady (fun _ => lift_o o).
Proof. intros A o. exists o. reflexivity. Qed.
Lemma steady_ret : forall {A} (x : A), steady (fun _ => ret x).
Proof. intros A x. exists (Ok x). reflexivity. Qed.
Lemma steady_bind : forall {A B} (m : callctx -> M A) (f : callctx -> A -> M B),
  steady m -> (forall a, steady (fun cx => f cx a)) -> steady (fun cx => bind (m cx) (f cx)).
Proof.
  intros A B m f [[a|e| | ] Ho] Hf.
  - destruct (Hf a) as [o Ho']. exists o. intros cx s. unfold bind. rewrite Ho. apply Ho'.
  - exists (Err e). intros cx s. unfold bind. rewrite Ho. reflexivity.
  - exists Panic. intros cx s. unfold bind. rewrite Ho. reflexivity.
  - exists Diverge. intros cx s. unfold bind. rewrite Ho. reflexivity.
Qed.

Ltac steady := repeat first
  [ apply steady_lift | apply steady_ret
  | apply steady_bind; [|intros]
  | match goal with |- steady (fun _ => let '(_, _) := ?x in _) => destruct x end
  | match goal with |- steady (fun _ => match ?x with _ => _ end) => destruct x end
  | match goal with |- steady (fun _ => if ?x then _ else _) => destruct x end ].

Definition steady_at (t : valtype) : Prop :=
  (forall v, steady (fun cx => lower_flat cx t v)) /\ (forall it, steady (fun cx => lift_flat cx t it)).

Lemma steady_next : forall it, steady (fun _ => next_u32 it) /\ steady (fun _ => next_u64 it) /\
  steady (fun _ => next_f32 it) /\ steady (fun _ => next_f64 it).
Proof. intros it. unfold next_u32, next_u64, next_f32, next_f64. repeat split; steady. Qed.

Lemma steady_lower_fields : forall fs, Forall (fun f => steady_at (snd f)) fs -> forall m,
  steady (fun cx => lower_fields (map (fun f => (fst f, lower_flat cx (snd f))) fs) m).
Proof.
  induction 1 as [|[l t] fs [Hf _] H IH]; intros m; cbn [map lower_fields fst snd]; steady; auto.
Qed.
Lemma steady_lift_fields : forall fs, Forall (fun f => steady_at (snd f)) fs -> forall acc it,
  steady (fun cx => lift_fields (map (fun f => (fst f, lift_flat cx (snd f))) fs) acc it).
Proof.
  induction 1 as [|[l t] fs [_ Hf] H IH]; intros acc it; cbn [map lift_fields fst snd]; steady; auto.
Qed.

Lemma steady_flag_words : forall n sh acc it, steady (fun _ => lift_flag_words n sh acc it).
Proof.
  induction n as [|n IH]; intros; cbn [lift_flag_words].
  - apply steady_ret.
  - apply steady_bind; [apply steady_next|]. intros [w it']. apply IH.
Qed.

Lemma steady_ext : forall {A} (m m' : callctx -> M A), (forall cx s, m cx s = m' cx s) -> steady m' -> steady m.
Proof. intros A m m' H [o Ho]. exists o. intros cx s. rewrite H. apply Ho. Qed.

Lemma steady_lower_variant : forall flat cs, Forall (fun c => opt_all steady_at (c_type c)) cs -> forall v,
  steady (fun cx => lower_flat_variant flat (map (map_case (lower_flat cx)) cs) v).
Proof.
  intros flat cs H v. unfold lower_flat_variant.
  eapply (steady_ext _ (fun cx => let* (i, value) := lift_o (match_case v cs) in
    let* ft := lift_o flat in
    match ft with
    | [] => lift_o (Err EOther)
    | first :: rest =>
      if negb (kind_eqb first KU32) then lift_o (Err EOther) else
      match nth_error cs (N.to_nat i) with
      | None => lift_o Panic
      | Some c =>
          let* payload := match c_type c with
                          | None => ret []
                          | Some f => lower_flat cx f value
                          end in
          let* p := lift_o (coerce_payload payload rest) in
          ret (CU32 i :: p)
      end
    end)).
  { intros cx s. rewrite match_case_map. unfold bind, lift_o. destruct (match_case v cs) as [[i value]| | | ]; try reflexivity.
    destruct flat as [[|first rest]| | | ]; try reflexivity. destruct (negb (kind_eqb first KU32)); [reflexivity|].
    rewrite nth_error_map. destruct (nth_error cs (N.to_nat i)) as [c|]; [|reflexivity]. cbn [option_map map_case c_type].
    destruct (c_type c); reflexivity. }
  apply steady_bind; [apply steady_lift|]. intros [i value]. apply steady_bind; [apply steady_lift|]. intros [|first rest]; [apply steady_lift|].
  destruct (negb (kind_eqb first KU32)); [apply steady_lift|].
  destruct (nth_error cs (N.to_nat i)) as [c|] eqn:En; [|apply steady_lift].
  rewrite Forall_forall in H. specialize (H c (nth_error_In _ _ En)).
  apply steady_bind; [destruct (c_type c) as [t|]; [apply H|apply steady_ret]|]. intros p. steady.
Qed.

Lemma steady_lift_variant : forall flat cs, Forall (fun c => opt_all steady_at (c_type c)) cs -> forall it,
  steady (fun cx => lift_flat_variant flat (map (map_case (lift_flat cx)) cs) it).
Proof.
  intros flat cs H it. unfold lift_flat_variant.
  eapply (steady_ext _ (fun cx =>
  let* ft := lift_o flat in
  match ft with
  | [] => lift_o (Err EOther)
  | first :: rest =>
      if negb (kind_eqb first KU32) then lift_o (Err EOther) else
      let* (i, it) := next_u32 it in
      if N.of_nat (List.length cs) <=? i then lift_o (Err ETrap) else
      match nth_error cs (N.to_nat i) with
      | None => lift_o Panic
      | Some c =>
          match c_type c with
          | None =>
              let* it := lift_o (skip_flat rest it) in
              let* label := lift_o (case_label c cs) in
              ret (VMap [(label, VNil)], it)
          | Some f =>
              let* (v, cit) := lift_flat cx f (ICoerce it rest) in
              match cit with
              | ICoerce it rest =>
                  let* it := lift_o (skip_flat rest it) in
                  let* label := lift_o (case_label c cs) in
                  ret (VMap [(label, v)], it)
              | IBase _ _ => lift_o Panic
              end
          end
      end
  end)).
  { intros cx s. unfold bind, lift_o. destruct flat as [[|first rest]| | | ]; try reflexivity.
    destruct (negb (kind_eqb first KU32)); [reflexivity|].
    destruct (next_u32 it s) as [[[i it1]| | | ] s1]; try reflexivity.
    rewrite map_length. destruct (N.of_nat (List.length cs) <=? i); [reflexivity|].
    rewrite nth_error_map. destruct (nth_error cs (N.to_nat i)) as [c|]; [|reflexivity]. cbn [option_map]. rewrite case_label_map. cbn [map_case c_type].
    destruct (c_type c); [|reflexivity]. cbn [map_case]. destruct (lift_flat cx v (ICoerce it1 rest) s1) as [[[x [|]]| | | ] s2]; reflexivity. }
  apply steady_bind; [apply steady_lift|]. intros [|first rest]; [apply steady_lift|].
  destruct (negb (kind_eqb first KU32)); [apply steady_lift|].
  apply steady_bind; [apply steady_next|]. intros [i it1].
  destruct (N.of_nat (List.length cs) <=? i); [apply steady_lift|].
  destruct (nth_error cs (N.to_nat i)) as [c|] eqn:En; [|apply steady_lift].
  rewrite Forall_forall in H. specialize (H c (nth_error_In _ _ En)).
  destruct (c_type c) as [t|]; [|steady].
  apply steady_bind; [apply H|]. intros [x [|]]; steady.
Qed.

Lemma memory_free_all : forall (ts : list valtype), fold_right and True (map memory_free ts) <-> Forall memory_free ts.
Proof. apply (all_Forall memory_free). Qed.

Lemma memory_free_despecialize : forall t, memory_free t -> memory_free (despecialize t).
Proof.
  destruct t; intros H; try exact H; cbn [despecialize memory_free] in *.
  - apply memory_free_all in H. apply (all_Forall (fun f => memory_free (snd f))).
    unfold itoa_fields. apply Forall_map. cbn [snd]. apply (all_enum memory_free). assumption.
  - apply (all_Forall (fun c : caseOf valtype => match c_type c with Some x => memory_free x | None => True end)).
    unfold enum_cases. apply Forall_map. apply Forall_forall. cbn. auto.
  - cbn. auto.
  - cbn. tauto.
  - apply memory_free_all in H. apply (all_Forall (fun c : caseOf valtype => match c_type c with Some x => memory_free x | None => True end)).
    unfold itoa_cases. apply Forall_map. cbn. apply (all_enum memory_free). assumption.
Qed.

Lemma steady_all : forall t, memory_free t -> steady_at t.
Proof.
  intros t. induction t using valtype_ind'; intros Hm; try contradiction;
    try (split; [intros v; cbn [lower_flat]; steady|intros it; cbn [lift_flat]; unfold lmap, lift_flat_char; steady; apply steady_next]).
  - assert (HF : Forall (fun f => steady_at (snd f)) fs).
    { cbn [memory_free] in Hm. apply (all_Forall (fun f => memory_free (snd f))) in Hm.
      clear -H Hm. induction H; inversion Hm; subst; constructor; auto. }
    split.
    + intros v. cbn [lower_flat]. unfold lower_flat_record. destruct v; try apply steady_lift. apply steady_lower_fields. exact HF.
    + intros it. cbn [lift_flat]. unfold lift_flat_record. apply steady_bind; [apply steady_lift_fields; exact HF|]. intros [m it']. apply steady_ret.
  - assert (HF : Forall (fun c => opt_all steady_at (c_type c)) cs).
    { cbn [memory_free] in Hm. apply (all_Forall (fun c : caseOf valtype => match c_type c with Some x => memory_free x | None => True end)) in Hm.
      clear -H Hm. induction H as [|c cs Hc H IH]; inversion Hm; subst; constructor; auto. destruct (c_type c); cbn in *; auto. }
    split; [intros v; apply steady_lower_variant; exact HF|intros it; apply steady_lift_variant; exact HF].
  - split; [intros v; cbn [lower_flat]; steady|]. intros it. cbn [lift_flat]. unfold lift_flat_flags.
    apply steady_bind; [apply steady_flag_words|]. intros [w it']. apply steady_ret.
  - destruct (IHt (memory_free_despecialize _ Hm)) as [H1 H2]. split.
    + intros v. destruct (H1 v) as [o Ho]. exists o. intros cx s. rewrite <- lower_flat_despecialize. apply Ho.
    + intros it. destruct (H2 it) as [o Ho]. exists o. intros cx s. rewrite <- lift_flat_despecialize. apply Ho.
Qed.

(** An allocator that always fails is correct. *)
Definition no_alloc (cx : callctx) {A} (o : outcome A) : callctx :=
  mkCtx (cx_id cx) (cx_inst cx) (cx_enc cx) (fun _ s => (match o with Err e => Err e | Diverge => Diverge | _ => Panic end, (s_mem s, s_world s))).
Lemma no_alloc_correct : forall cx A (o : outcome A) init, correct_allocator (no_alloc cx o) init.
Proof.
  intros cx A o init r s r' m' w' _ _ Hm E. cbn in E. inversion E; subst. split; [reflexivity|]. split; [exact Hm|]. split; [lia|].
  split; [reflexivity|]. intros p X. destruct o; discriminate.
Qed.

Lemma flat_rt_free : forall cx t ks v, memory_free t -> wf_type t -> flatten_type t = Ok ks -> has_type (cx_enc cx) t v ->
  exists cs, map cval_kind cs = ks /\ (forall s, lower_flat cx t v s = (Ok cs, s)) /\
    forall it it', yields it cs it' -> exists v', same_value t v v' /\ forall s, lift_flat cx t it s = (Ok (v', it'), s).
Proof.
  intros cx t ks v Hm Hwf Hk Hty. destruct (steady_all t Hm) as [Hlo Hli].
  destruct (Hlo v) as [o Ho].
  set (s0 := mkState (mkMem [] 0) [] (mkWorld [] [] [] [])).
  assert (Hg : good s0) by (split; [cbn; lia|]; split; [reflexivity|constructor]).
  assert (HN : forall x : outcome unit, (exists cs s', o = Ok cs /\ map cval_kind cs = ks /\ carries (no_alloc cx x) t v cs s') \/ alloc_failed (no_alloc cx x) o).
  { intros x. destruct (flat_rt_all (no_alloc cx x) (fun _ => False) t (no_alloc_correct _ _ _ _) v ks Hk Hwf Hty s0 o s0 Hg) as [(cs & -> & S & K)|F].
    - intros b [H1 H2]. lia.
    - cbn. lia.
    - apply Ho.
    - left. exists cs, s0. split; [reflexivity|]. apply K. split; [exact Hg|]. split; [lia|reflexivity].
    - right. exact F. }
  destruct (HN (Err EOther)) as [(cs & s' & -> & Ek & Hc1 & Hc2)|F].
  - exists cs. split; [exact Ek|]. split; [intros s; apply Ho|]. intros it it' Y.
    destruct (Hc2 it it' Y) as (v' & E & S). exists v'. split; [exact S|]. intros s.
    destruct (Hli it) as [o' Ho']. rewrite Ho' in E. injection E as ->. apply Ho'.
  - exfalso. destruct F as (? & ? & _ & _ & F). destruct o as [cs|e| | ]; try contradiction; cbn in F; try discriminate.
    destruct (HN Panic) as [(cs & s' & E & _)|F2]; [discriminate|].
    destruct F2 as (? & ? & _ & _ & F2). cbn in F2. discriminate.
Qed.
