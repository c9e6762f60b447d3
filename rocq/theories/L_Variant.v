(** Variants: labels, case selection and access to the payload. *)
From Coq Require Import NArith ZArith List String Bool Lia ZifyBool ZifyNat ZifyN.
From Verif Require Import GoBase M_Types M_Layout S_Layout L_Layout M_State M_Utf M_Load M_Store M_Flat
  S_Access L_Access.
Import ListNotations.
Open Scope N_scope.
Open Scope go_scope.

(** Case labels and selection do not depend on what the cases carry. *)
Lemma find_case_map : forall {A B} (g : A -> B) cs l,
  find_case (map (map_case g) cs) l
  = match find_case cs l with Some c => Some (map_case g c) | None => None end.
Proof.
  induction cs as [|c cs IH]; intros l; cbn; [reflexivity|].
  destruct (String.eqb (c_label c) l); auto.
Qed.

Lemma label_loop_map : forall {A B} (g : A -> B) fuel cs c label,
  label_loop fuel (map (map_case g) cs) (map_case g c) label = label_loop fuel cs c label.
Proof.
  induction fuel as [|fuel IH]; intros cs c label; cbn; [reflexivity|].
  destruct (c_refines c) as [r|]; [|reflexivity].
  rewrite find_case_map. destruct (find_case cs r) as [c'|]; [|reflexivity]. apply IH.
Qed.

Lemma case_label_map : forall {A B} (g : A -> B) c cs,
  case_label (map_case g c) (map (map_case g) cs) = case_label c cs.
Proof. intros. unfold case_label. rewrite map_length. apply label_loop_map. Qed.

Lemma label_index_map : forall {A B} (g : A -> B) cs i l acc,
  label_index (map (map_case g) cs) i l acc = label_index cs i l acc.
Proof. induction cs; intros; cbn; auto. Qed.

Lemma match_labels_map : forall {A B} (g : A -> B) cs ls,
  match_labels (map (map_case g) cs) ls = match_labels cs ls.
Proof.
  induction ls as [|l ls IH]; cbn; [reflexivity|]. rewrite label_index_map, IH. reflexivity.
Qed.

Lemma match_case_map : forall {A B} (g : A -> B) v cs,
  match_case v (map (map_case g) cs) = match_case v cs.
Proof.
  intros A B g v cs. unfold match_case. destruct v; try reflexivity.
  destruct m as [|[k x] [|? ?]]; try reflexivity.
  destruct (split_bar k). rewrite match_labels_map. reflexivity.
Qed.

Lemma label_index_bound : forall {A} (cs : list (caseOf A)) i l acc j,
  label_index cs i l acc = Some j ->
  acc = Some j \/ (i <= j /\ j < i + N.of_nat (List.length cs) /\
                   exists c, nth_error cs (N.to_nat (j - i)) = Some c /\ c_label c = l).
Proof.
  induction cs as [|c cs IH]; intros i l acc j H; cbn in H; [auto|].
  destruct (IH _ _ _ _ H) as [E|(Hle & Hlt & c' & Hc & Hl)].
  - destruct (String.eqb_spec (c_label c) l); [|auto]. inversion E; subst. right.
    repeat split; [lia|cbn; lia|]. exists c. replace (j - j) with 0 by lia. auto.
  - right. repeat split; [lia|cbn [List.length]; lia|]. exists c'. split; [|assumption].
    replace (N.to_nat (j - i)) with (S (N.to_nat (j - (i + 1)))) by lia. exact Hc.
Qed.

Lemma match_labels_bound : forall {A} (cs : list (caseOf A)) ls i,
  N.of_nat (List.length cs) < two32 ->
  match_labels cs ls = Ok i -> i < N.of_nat (List.length cs).
Proof.
  induction ls as [|l ls IH]; intros i Hn H; cbn in H; [discriminate|].
  destruct (label_index cs 0 l None) as [j|] eqn:E; [|auto].
  inversion H; subst. destruct (label_index_bound _ _ _ _ _ E) as [|(? & ? & _)]; [discriminate|].
  rewrite u32_small by lia. lia.
Qed.

Lemma match_case_bound : forall {A} (cs : list (caseOf A)) v i p,
  N.of_nat (List.length cs) < two32 ->
  match_case v cs = Ok (i, p) -> i < N.of_nat (List.length cs).
Proof.
  intros A cs v i p Hn H. unfold match_case in H. destruct v; try discriminate.
  destruct m as [|[k x] [|? ?]]; try discriminate.
  destruct (split_bar k) as [h t].
  destruct (match_labels cs (h :: t)) eqn:E; cbn [obind] in H; try discriminate.
  inversion H; subst. eapply match_labels_bound; eassumption.
Qed.

(** Layout facts of a variant *)
Lemma sp_variant_inv : forall n ls a s, sp_variant n ls = Some (a, s) ->
  exists d dt, disc_size n = Some d /\ discriminant_type n = Ok dt /\
    scalar_size dt = d /\ valid_align d /\ a = N.max d (max_align ls) /\
    s = up_to a (payload_offset d ls + max_size ls) /\
    (dt = TU8 /\ d = 1 /\ N.of_nat n <= 2 ^ 8 \/ dt = TU16 /\ d = 2 /\ N.of_nat n <= 2 ^ 16
     \/ dt = TU32 /\ d = 4 /\ N.of_nat n <= 2 ^ 24) /\
    0 < N.of_nat n.
Proof.
  intros n ls a s H. unfold sp_variant in H.
  unfold disc_size, discriminant_type in *.
  change (2 ^ 8) with 256 in *. change (2 ^ 16) with 65536 in *. change (2 ^ 24) with 16777216 in *.
  destruct (N.eqb_spec (N.of_nat n) 0); [discriminate|].
  destruct (N.leb_spec (N.of_nat n) 256); [|destruct (N.leb_spec (N.of_nat n) 65536);
    [|destruct (N.leb_spec (N.of_nat n) 16777216); [|discriminate]]];
  inversion H; subst; do 2 eexists; repeat split; try (unfold valid_align; lia); auto;
  try (left; repeat split; assumption); try (right; left; repeat split; assumption);
  try (right; right; repeat split; assumption); try lia.
Qed.

Lemma all_some_payloads_valid : forall cs ls,
  all_some (payload_types (map (map_case sp_layout) cs)) = Some ls ->
  Forall (fun p => valid_align (fst p)) ls.
Proof.
  induction cs as [|c cs IH]; intros ls H; cbn in H.
  - inversion H. constructor.
  - unfold payload_types in *. cbn in H. destruct (c_type c) as [t|]; cbn in H; [|auto].
    destruct (sp_layout t) as [[a s]|] eqn:E; [|discriminate].
    destruct (all_some _) eqn:E2; [|discriminate]. inversion H; subst.
    constructor; [|auto]. apply sp_layout_facts in E. apply E.
Qed.

Lemma payload_layout : forall cs ls c t,
  all_some (payload_types (map (map_case sp_layout) cs)) = Some ls ->
  In c cs -> c_type c = Some t -> exists p, sp_layout t = Some p /\ In p ls.
Proof.
  induction cs as [|c' cs IH]; intros ls c t H Hin Ht; [contradiction|].
  unfold payload_types in *. cbn in H. destruct Hin as [->|Hin].
  - rewrite Ht in H. cbn in H. destruct (sp_layout t) as [p|]; [|discriminate].
    destruct (all_some _); [|discriminate]. inversion H; subst. exists p. split; [reflexivity|left; reflexivity].
  - destruct (c_type c') as [t'|]; cbn in H; [|eauto].
    destruct (sp_layout t'); [|discriminate].
    destruct (all_some _) eqn:E2; [|discriminate]. inversion H; subst.
    destruct (IH _ _ _ eq_refl Hin Ht) as (p & ? & ?). exists p. split; [assumption|right; assumption].
Qed.

Lemma max_size_ge : forall ls p, In p ls -> snd p <= max_size ls.
Proof.
  induction ls as [|q ls IH]; intros p Hin; [contradiction|]. rewrite max_size_cons.
  destruct Hin as [->|Hin]; [lia|]. specialize (IH p Hin). lia.
Qed.

(** The payload of every case: aligned, after the discriminant, inside. *)
Lemma variant_payload_placed : forall cs ls a s d,
  all_some (payload_types (map (map_case sp_layout) cs)) = Some ls ->
  sp_layout (TVariant cs) = Some (a, s) -> disc_size (List.length cs) = Some d ->
  d <= payload_offset d ls /\ (max_align ls | a) /\ (d | a) /\
  forall c t pa ps, In c cs -> c_type c = Some t -> sp_layout t = Some (pa, ps) ->
    (pa | payload_offset d ls) /\ (pa | a) /\ payload_offset d ls + ps <= s.
Proof.
  intros cs ls a s d H Hl Hd. pose proof (all_some_payloads_valid _ _ H) as Hv.
  pose proof (max_align_valid _ Hv) as Hm.
  cbn [sp_layout] in Hl. rewrite H in Hl. cbn [bindo] in Hl.
  destruct (sp_variant_inv _ _ _ _ Hl) as (d' & dt & Hd' & _ & _ & Hvd & Ha & Hs & _).
  assert (Ed : d' = d) by congruence. rewrite Ed in *. clear d' Ed Hd'.
  assert (Hva : valid_align a) by (subst a; apply valid_align_max; assumption).
  repeat split.
  - apply up_to_ge, valid_align_nz. assumption.
  - apply valid_align_divides; [assumption|assumption|lia].
  - apply valid_align_divides; [assumption|assumption|lia].
  - destruct (payload_layout _ _ _ _ H H0 H1) as (p & Hp & Hin). rewrite Hp in H2. inversion H2; subst p.
    eapply N.divide_trans; [|apply up_to_div]. apply (divide_le_max ls (pa, ps)); assumption.
  - destruct (payload_layout _ _ _ _ H H0 H1) as (p & Hp & Hin). rewrite Hp in H2. inversion H2; subst p.
    apply valid_align_divides; [rewrite Forall_forall in Hv; apply (Hv (pa, ps)); assumption|assumption|].
    assert (pa <= max_align ls).
    { pose proof (divide_le_max ls (pa, ps) Hv Hin) as D. apply N.divide_pos_le in D; [exact D|].
      pose proof (valid_align_nz _ Hm). lia. }
    lia.
  - destruct (payload_layout _ _ _ _ H H0 H1) as (p & Hp & Hin). rewrite Hp in H2. inversion H2; subst p.
    pose proof (max_size_ge _ _ Hin). cbn in H3.
    pose proof (up_to_ge a (payload_offset d ls + max_size ls) (valid_align_nz _ Hva)). lia.
Qed.

Lemma mca_types : forall cs ls {F} (op : valtype -> F),
  all_some (payload_types (map (map_case sp_layout) cs)) = Some ls ->
  max_case_alignment (map (map_case q_al) (map (map_case (fun t => mkComp (alignment t) (size t) (op t))) cs))
  = Ok (max_align ls).
Proof.
  intros cs ls F op H.
  assert (E : map (map_case q_al) (map (map_case (fun t => mkComp (alignment t) (size t) (op t))) cs)
              = map (map_case fst) (map (map_case (fun t => (alignment t, size t))) cs)).
  { rewrite !map_map. apply map_ext. intros c. unfold map_case; cbn. destruct (c_type c); reflexivity. }
  rewrite E. apply (mca_max _ (map (map_case sp_layout) cs)).
  - clear. induction cs as [|c cs IH]; cbn; constructor; auto.
    unfold case_ok; cbn. destruct (c_type c); [|exact I]. apply layout_ok_comp, layout_ok_all.
  - apply all_some_Forall2. assumption.
Qed.

Lemma load_disc : forall dt d ptr st,
  (dt = TU8 /\ d = 1 \/ dt = TU16 /\ d = 2 \/ dt = TU32 /\ d = 4) ->
  forall {B} (k : N -> M B),
  (let* iv := load_int dt ptr in let* i := lift_o (case_index_of iv) in k i) st
  = (let* i := load_uint d ptr in k i) st.
Proof.
  intros dt d ptr st H B k. destruct H as [[-> ->]|[[-> ->]|[-> ->]]]; cbn [load_int];
    rewrite bind_assoc; apply bind_ext; reflexivity.
Qed.

(** Loading a variant: read the discriminant, trap when out of range, otherwise
    load the payload of that case at the payload offset. *)
Lemma variant_load_offsets : forall cx cs ls a s d ptr st,
  all_some (payload_types (map (map_case sp_layout) cs)) = Some ls ->
  sp_layout (TVariant cs) = Some (a, s) -> disc_size (List.length cs) = Some d ->
  (a | ptr) -> ptr + s < two32 ->
  load cx (TVariant cs) ptr st
  = (let* i := load_uint d ptr in
     match nth_error cs (N.to_nat i) with
     | None => lift_o (Err ETrap)
     | Some c =>
         let* l := lift_o (case_label c cs) in
         let* v := match c_type c with
                   | None => ret VNil
                   | Some t => load cx t (ptr + payload_offset d ls)
                   end in
         ret (VMap [(l, v)])
     end) st.
Proof.
  intros cx cs ls a s d ptr st H Hl Hd Hdiv Hb.
  destruct (variant_payload_placed _ _ _ _ _ H Hl Hd) as (Hpo & Hma & Hda & _).
  pose proof (all_some_payloads_valid _ _ H) as Hv. pose proof (max_align_valid _ Hv) as Hm.
  cbn [sp_layout] in Hl. rewrite H in Hl. cbn [bindo] in Hl.
  destruct (sp_variant_inv _ _ _ _ Hl) as (d' & dt & Hd' & Hdt & Hss & Hvd & Ha & Hs & Hcase & Hpos).
  assert (Ed : d' = d) by congruence. rewrite Ed in *. clear d' Ed Hd'.
  assert (Hva : valid_align a) by (subst a; apply valid_align_max; assumption).
  cbn [load]. unfold load_variant. rewrite map_length, Hdt, bind_lift_ok.
  rewrite (load_disc dt d) by (destruct Hcase as [(?&?&?)|[(?&?&?)|(?&?&?)]]; auto).
  apply bind_ext. intros i st'.
  rewrite u32_small by (change (2 ^ 8) with 256 in *; change (2 ^ 16) with 65536 in *; change (2 ^ 24) with 16777216 in *; unfold two32; lia).
  rewrite nth_error_map.
  destruct (N.leb_spec (N.of_nat (List.length cs)) i) as [Hi|Hi].
  { destruct (nth_error cs (N.to_nat i)) eqn:E; [|reflexivity].
    assert (N.to_nat i < List.length cs)%nat by (apply nth_error_Some; congruence). lia. }
  destruct (nth_error cs (N.to_nat i)) as [c|] eqn:E; [|apply nth_error_None in E; lia].
  cbn [option_map]. rewrite (mca_types cs ls) by assumption. rewrite bind_lift_ok.
  rewrite align_to_up by (apply valid_align_nz; assumption). rewrite bind_lift_ok.
  pose proof (up_to_ge a (payload_offset d ls + max_size ls) (valid_align_nz _ Hva)).
  rewrite Hss. unfold add32. rewrite N.mod_small by lia.
  rewrite up_to_shift.
  2:{ apply valid_align_nz; assumption. }
  2:{ eapply N.divide_trans; eassumption. }
  fold (payload_offset d ls). rewrite u32_small by lia.
  rewrite case_label_map. apply bind_ext. intros l st''.
  cbn [map_case c_type]. destruct (c_type c); reflexivity.
Qed.

(** Storing a variant *)
Definition store_uint (d x ptr : N) : M unit := store_bytes ptr d (int_bytes d x).

Lemma guarded_ok : forall al sz a s st v ptr s0,
  al = Ok a -> sz = Ok s -> valid_align a -> (a | ptr) -> ptr + s < two32 ->
  ptr + s <= mem_len32 (s_mem s0) ->
  guarded al sz st v ptr s0 = st v ptr s0.
Proof.
  intros al sz a s st v ptr s0 -> -> Hv Hd Hb Hm. unfold guarded, store_validate.
  rewrite bind_assoc, bind_lift_ok, bind_assoc.
  erewrite bind_ok; [|apply check_aligned_ok; [exact Hv|lia|exact Hd]].
  rewrite bind_assoc, bind_lift_ok.
  erewrite bind_ok; [reflexivity|].
  unfold check_bounds. erewrite bind_ok; [|reflexivity].
  unfold add32. rewrite N.mod_small by lia.
  destruct (N.ltb_spec (mem_len32 (s_mem s0)) (ptr + s)); [lia|reflexivity].
Qed.

Lemma variant_store_offsets : forall cx cs ls a s d v ptr st,
  all_some (payload_types (map (map_case sp_layout) cs)) = Some ls ->
  sp_layout (TVariant cs) = Some (a, s) -> disc_size (List.length cs) = Some d ->
  (a | ptr) -> ptr + s < two32 -> ptr + s <= mem_len32 (s_mem st) ->
  store cx (TVariant cs) v ptr st
  = (let* (i, p) := lift_o (match_case v cs) in
     store_uint d i ptr ;;
     match nth_error cs (N.to_nat i) with
     | None => lift_o Panic
     | Some c =>
         match c_type c with
         | None => ret tt
         | Some t => store cx t p (ptr + payload_offset d ls)
         end
     end) st.
Proof.
  intros cx cs ls a s d v ptr st H Hl Hd Hdiv Hb Hm'.
  destruct (variant_payload_placed _ _ _ _ _ H Hl Hd) as (Hpo & Hma & Hda & _).
  pose proof (all_some_payloads_valid _ _ H) as Hv. pose proof (max_align_valid _ Hv) as Hm.
  destruct (sp_layout_facts _ _ _ Hl) as (HA & HV & _ & HS).
  unfold store; fold store.
  erewrite guarded_ok; [|exact HA|apply HS; lia|exact HV|exact Hdiv|exact Hb|exact Hm'].
  cbn [sp_layout] in Hl. rewrite H in Hl. cbn [bindo] in Hl.
  destruct (sp_variant_inv _ _ _ _ Hl) as (d' & dt & Hd' & Hdt & Hss & Hvd & Ha & Hs & Hcase & Hpos).
  assert (Ed : d' = d) by congruence. rewrite Ed in *. clear d' Ed Hd'.
  unfold store_variant. rewrite match_case_map, map_length, Hdt.
  assert (Hn : N.of_nat (List.length cs) < two32).
  { change (2 ^ 8) with 256 in *; change (2 ^ 16) with 65536 in *; change (2 ^ 24) with 16777216 in *; unfold two32; lia. }
  destruct (match_case v cs) as [[i p]|e| | ] eqn:E; try reflexivity.
  rewrite !bind_lift_ok. pose proof (match_case_bound _ _ _ _ Hn E) as Hi.
  rewrite Hss.
  assert (SI : forall s0, store_int (VU32 i) ptr d false s0 = store_uint d i ptr s0).
  { intros s0. unfold store_int, store_uint. cbn [int_info]. rewrite bind_lift_ok.
    unfold int_check. cbn [n_sign n_max n_u64 n_min Bool.eqb negb andb].
    destruct (N.ltb_spec 4294967295 i); [unfold two32 in *; lia|]. rewrite bind_lift_ok. reflexivity. }
  match goal with |- bind _ ?k st = bind _ ?k' st =>
    transitivity (bind (store_uint d i ptr) k st); [unfold bind; rewrite SI; reflexivity|] end.
  apply bind_ext. intros _ st'.
  rewrite (mca_types cs ls) by assumption. rewrite bind_lift_ok.
  rewrite align_to_up by (apply valid_align_nz; assumption). rewrite bind_lift_ok.
  pose proof (up_to_ge a (payload_offset d ls + max_size ls) (valid_align_nz _ HV)).
  unfold add32. rewrite N.mod_small by lia.
  rewrite up_to_shift.
  2:{ apply valid_align_nz; assumption. }
  2:{ eapply N.divide_trans; eassumption. }
  fold (payload_offset d ls). rewrite u32_small by lia.
  rewrite nth_error_map. destruct (nth_error cs (N.to_nat i)) as [c|]; [|reflexivity].
  cbn [option_map map_case c_type]. destruct (c_type c); reflexivity.
Qed.

Lemma disc_smallest : forall n d, disc_size n = Some d ->
  (d = 1 \/ d = 2 \/ d = 4) /\ N.of_nat n <= 2 ^ (8 * d) /\
  (forall d', d' = 1 \/ d' = 2 \/ d' = 4 -> N.of_nat n <= 2 ^ (8 * d') -> d <= d') /\
  exists dt, discriminant_type n = Ok dt /\ size dt = Ok d.
Proof.
  intros n d H. unfold disc_size, discriminant_type in *. generalize dependent (N.of_nat n).
  change (2 ^ 8) with 256. change (2 ^ 16) with 65536. change (2 ^ 24) with 16777216.
  intros m H.
  destruct (m =? 0); [discriminate|].
  destruct (N.leb_spec m 256); [|destruct (N.leb_spec m 65536);
    [|destruct (N.leb_spec m 16777216); [|discriminate]]]; injection H as <-.
  - split; [lia|]. split; [change (2 ^ (8 * 1)) with 256; lia|]. split; [intros d' [->|[->| ->]] _; lia|].
    eexists; split; reflexivity.
  - split; [lia|]. split; [change (2 ^ (8 * 2)) with 65536; lia|].
    split; [|eexists; split; reflexivity].
    intros d' [->|[->| ->]]; [change (2 ^ (8 * 1)) with 256; lia| |]; intros _; lia.
  - split; [lia|]. split; [change (2 ^ (8 * 4)) with 4294967296; lia|].
    split; [|eexists; split; reflexivity].
    intros d' [->|[->| ->]]; [change (2 ^ (8 * 1)) with 256; lia|change (2 ^ (8 * 2)) with 65536; lia|]; intros _; lia.
Qed.
