(** Lifting reads the flat format, and lowering writes it. *)
From Coq Require Import NArith ZArith List String Ascii Bool Lia ZifyBool ZifyNat ZifyN.
From Verif Require Import GoBase M_Types M_Layout S_Layout L_Layout M_State M_Utf M_Load M_Store M_Flat
  S_Utf S_Values S_Memory S_Access S_Flat S_Format S_FlatFormat L_Access L_Variant L_Labels L_Despecialize L_Mem L_Utf L_Flags
  L_FlagWords L_Frame L_RoundTrip L_StoreLoad L_Lifted L_CtxFree L_Flat L_Format.
Import ListNotations.
Open Scope N_scope.
Open Scope go_scope.

(** ** Specialised types *)
Lemma stands_despecialize : forall T K strict enc m t cs v,
  stands T K strict enc m (despecialize t) cs v <-> stands T K strict enc m t cs v.
Proof.
  destruct t; intros cs v; try reflexivity; cbn [despecialize stands].
  - rewrite (map_itoa_fields (fun t => (flattens t, stands T K strict enc m t))). reflexivity.
  - rewrite map_enum_cases. reflexivity.
  - rewrite map_itoa_cases. reflexivity.
Qed.

Lemma flat_addressable_despecialize : forall enc m t cs,
  flat_addressable enc m (despecialize t) cs <-> flat_addressable enc m t cs.
Proof.
  destruct t; intros cs; try reflexivity; cbn [despecialize flat_addressable].
  - rewrite (map_itoa_fields (fun t => (flattens t, flat_addressable enc m t))). reflexivity.
  - rewrite map_enum_cases. reflexivity.
  - rewrite map_itoa_cases. reflexivity.
Qed.

Lemma liftable_despecialize : forall enc m t cs, liftable enc m (despecialize t) cs <-> liftable enc m t cs.
Proof. intros. split; intros [v H]; exists v; [apply -> stands_despecialize in H|apply <- stands_despecialize in H]; exact H. Qed.

Lemma flattens_iff : forall t ks, flattens t ks <-> flatten_type t = Ok ks.
Proof. intros t ks. split; [apply flatten_complete|apply flatten_as_specified]. Qed.

(** ** Records and variants *)
Lemma stands_record : forall T K strict enc m fs cs v, stands T K strict enc m (TRecord fs) cs v <->
  exists fields css, v = VMap fields /\ cs = List.concat css /\
    Forall2 (fun f ps => flattens (snd f) (kinds ps) /\
               exists x, map_get fields (fst f) = Some x /\ stands T K strict enc m (snd f) ps x) fs css /\
    (forall l, map_get fields l <> None -> In l (map fst fs)).
Proof.
  intros. cbn [stands]. unfold rec_stands.
  assert (E2 : map fst (map (fun f : string * valtype => (fst f, (flattens (snd f), stands T K strict enc m (snd f)))) fs) = map fst fs)
    by (rewrite map_map; reflexivity).
  rewrite E2. split; intros (fields & css & Ev & Ec & HF & HD); exists fields, css; (split; [exact Ev|]); (split; [exact Ec|]);
    (split; [apply Forall2_map_l in HF || apply Forall2_map_l; exact HF|exact HD]).
Qed.

Definition fparts T K strict enc m (xs : list (caseOf valtype)) : list (caseOf fpart) :=
  map (map_case (fun t => (flattens t, stands T K strict enc m t))) xs.

Lemma stands_variant : forall (T : codec -> list N -> list N -> Prop) (K : forall A, list (caseOf A) -> nat -> string -> Prop)
    strict enc m xs cs v, stands T K strict enc m (TVariant xs) cs v <->
  exists i rest c key x, cs = CU32 (N.of_nat i) :: rest /\ v = VMap [(key, x)] /\
    nth_error xs i = Some c /\ K _ (fparts T K strict enc m xs) i key /\
    exists ps,
      match c_type c with
      | Some t => flattens t (kinds ps) /\ stands T K strict enc m t ps x
      | None => ps = [] /\ x = VNil
      end /\
      Forall2 (conveys strict) (firstn (List.length ps) rest) ps /\
      (strict -> Forall (fun d => core_bits d = 0) (skipn (List.length ps) rest)).
Proof.
  intros. cbn [stands]. fold (fparts T K strict enc m xs). unfold var_stands. split.
  - intros (i & rest & c & key & x & Ec & Ev & Ei & Hk & ps & Hp & H1 & H2).
    unfold fparts in Ei. rewrite nth_error_map in Ei. destruct (nth_error xs i) as [c0|] eqn:E0; [|discriminate].
    cbn in Ei. injection Ei as <-. cbn in Hp. exists i, rest, c0, key, x. repeat (split; [assumption||reflexivity|]).
    exists ps. split; [|split; assumption]. destruct (c_type c0); exact Hp.
  - intros (i & rest & c & key & x & Ec & Ev & Ei & Hk & ps & Hp & H1 & H2).
    exists i, rest, (map_case (fun t => (flattens t, stands T K strict enc m t)) c), key, x.
    repeat (split; [assumption||reflexivity|]).
    split; [unfold fparts; rewrite nth_error_map, Ei; reflexivity|]. split; [exact Hk|].
    exists ps. split; [|split; assumption]. cbn. destruct (c_type c); exact Hp.
Qed.

Lemma flat_addressable_variant : forall enc m xs cs, flat_addressable enc m (TVariant xs) cs ->
  forall i rest c t ps, cs = CU32 (N.of_nat i) :: rest -> nth_error xs i = Some c -> c_type c = Some t ->
    flattens t (kinds ps) -> Forall2 (conveys False) (firstn (List.length ps) rest) ps -> flat_addressable enc m t ps.
Proof.
  intros enc m xs cs H i rest c t ps Ec Ei Et Hf HF. cbn [flat_addressable] in H.
  eapply (H i rest (map_case (fun t => (flattens t, flat_addressable enc m t)) c) (flattens t, flat_addressable enc m t) ps Ec).
  - rewrite nth_error_map, Ei. reflexivity.
  - cbn. rewrite Et. reflexivity.
  - exact Hf.
  - exact HF.
Qed.

(** ** Splitting a list of core values *)
Lemma split_kinds : forall kss cs, kinds cs = List.concat kss ->
  exists css, cs = List.concat css /\ map kinds css = kss.
Proof.
  unfold kinds. induction kss as [|ks kss IH]; intros cs E; cbn [List.concat] in E.
  - apply map_eq_nil in E. subst. exists []. auto.
  - apply map_eq_app in E. destruct E as (a & b & -> & <- & Eb). destruct (IH b Eb) as (css & -> & <-).
    exists (a :: css). auto.
Qed.

Lemma concat_split : forall (css css' : list (list cval)), map kinds css = map kinds css' ->
  List.concat css = List.concat css' -> css = css'.
Proof.
  induction css as [|a css IH]; intros [|b css'] Ek Ec; try discriminate; [reflexivity|].
  cbn [map List.concat] in *. injection Ek as Ea Ek.
  assert (El : List.length a = List.length b) by (unfold kinds in Ea; rewrite <- (map_length cval_kind a), Ea; apply map_length).
  assert (a = b).
  { apply (f_equal (firstn (List.length a))) in Ec. rewrite firstn_app, El, Nat.sub_diag, firstn_app, Nat.sub_diag in Ec.
    rewrite <- El in Ec at 1. rewrite !firstn_all in Ec. cbn [firstn] in Ec. rewrite !app_nil_r in Ec. exact Ec. }
  subst b. apply app_inv_head in Ec. f_equal. apply IH; assumption.
Qed.

(** ** Narrowing *)
Definition narrow (k : kind) (c : cval) : cval :=
  let n := core_bits c mod 2 ^ core_width k in
  match k with KU32 => CU32 n | KU64 => CU64 n | KF32 => CF32 n | KF64 => CF64 n end.
Fixpoint narrows (ks : list kind) (cs : list cval) : list cval :=
  match ks, cs with
  | k :: ks', c :: cs' => narrow k c :: narrows ks' cs'
  | _, _ => []
  end.

Lemma narrow_kind : forall k c, cval_kind (narrow k c) = k.
Proof. intros [] c; reflexivity. Qed.
Lemma narrow_conveys : forall k c, conveys False c (narrow k c).
Proof. intros k c. split; [|intros []]. rewrite narrow_kind. destruct k; reflexivity. Qed.
Lemma narrow_ok : forall k c, cval_ok (narrow k c).
Proof. intros [] c; cbn; apply N.mod_lt; discriminate. Qed.
Lemma narrow_unique : forall c d strict, conveys strict c d -> d = narrow (cval_kind d) c.
Proof. intros c d strict [H _]. destruct d; cbn in *; f_equal; exact H. Qed.

Lemma narrows_kinds : forall ks cs, (List.length ks <= List.length cs)%nat -> kinds (narrows ks cs) = ks.
Proof.
  induction ks as [|k ks IH]; intros [|c cs] H; cbn in *; try lia; [reflexivity|reflexivity|].
  rewrite narrow_kind. f_equal. apply IH. lia.
Qed.
Lemma narrows_ok : forall ks cs, Forall cval_ok (narrows ks cs).
Proof. induction ks as [|k ks IH]; intros [|c cs]; constructor; auto using narrow_ok. Qed.
Lemma narrows_conveyed : forall ks cs, (List.length ks <= List.length cs)%nat ->
  Forall2 (conveys False) (firstn (List.length (narrows ks cs)) cs) (narrows ks cs).
Proof.
  induction ks as [|k ks IH]; intros [|c cs] H; cbn in *; try lia; try apply Forall2_nil.
  apply Forall2_cons; [apply narrow_conveys|]. apply IH. lia.
Qed.
Lemma narrows_unique : forall ps strict rest, Forall2 (conveys strict) (firstn (List.length ps) rest) ps ->
  ps = narrows (kinds ps) rest.
Proof.
  induction ps as [|p ps IH]; intros strict rest H; [reflexivity|]. destruct rest as [|c rest]; inversion H; subst.
  cbn. f_equal; [eapply narrow_unique; eassumption|eapply IH; eassumption].
Qed.

Lemma coerce_out_narrow : forall c k, cval_ok c -> carried k (cval_kind c) ->
  coerce_out (cval_kind c) k (cval_any c) = Ok (cval_any (narrow k c)).
Proof.
  intros c k Hok H. unfold carried in H.
  destruct c, k; cbn [cval_kind coerce_out cval_any narrow core_bits core_width] in *; try (intuition congruence);
    cbn in Hok; unfold u32; change (2 ^ 32) with two32 in *; rewrite ?N.mod_small by exact Hok; reflexivity.
Qed.

Lemma yields_narrow : forall ks rest it it', Forall cval_ok rest -> below ks (kinds rest) -> yields it rest it' ->
  exists it2 flat2, yields (ICoerce it (kinds rest)) (narrows ks rest) (ICoerce it2 flat2) /\ skip_flat flat2 it2 = Ok it'.
Proof.
  induction ks as [|k ks IH]; intros rest it it' Hok Hb HY.
  - exists it, (kinds rest). split; [reflexivity|]. clear Hb Hok. revert it HY. induction rest as [|c rest IH]; intros it HY.
    + cbn in *. congruence.
    + cbn [yields] in HY. destruct HY as (it1 & E & HY). cbn [kinds map skip_flat]. rewrite E. cbn [obind]. apply IH. exact HY.
  - destruct rest as [|c rest]; [destruct Hb as [Hb _]; cbn in Hb; lia|]. cbn [kinds map] in Hb. apply below_cons in Hb. destruct Hb as [Hc Hb].
    inversion Hok as [|? ? Hok1 Hok2]; subst. cbn [yields] in HY. destruct HY as (it1 & E1 & HY).
    destruct (IH rest it1 it' Hok2 Hb HY) as (it2 & flat2 & HY2 & Hs).
    exists it2, flat2. split; [|exact Hs]. cbn [narrows yields]. exists (ICoerce it1 (kinds rest)). split; [|exact HY2].
    rewrite narrow_kind. cbn [kinds map iter_next]. rewrite E1. cbn [obind]. rewrite coerce_out_narrow by assumption. reflexivity.
Qed.

(** ** Lifting *)
Definition lifts_ok (cx : callctx) (t : valtype) : Prop :=
  forall cs it it' s, flatten_type t = Ok (kinds cs) -> wf_type t -> handle_free t -> cx_enc cx <> EncUnknown ->
  good s -> Forall cval_ok cs -> flat_addressable (cx_enc cx) (s_mem s) t cs -> yields it cs it' ->
  decided (lift_flat cx t it) s
    (fun a => snd a = it' /\ lifts_as (cx_enc cx) (s_mem s) t cs (fst a)) (liftable (cx_enc cx) (s_mem s) t cs).

Lemma lift_fields_decided : forall cx s fs css it it' acc,
  Forall (fun f => lifts_ok cx (snd f)) fs -> NoDup (map fst fs) ->
  Forall (fun f => wf_type (snd f)) fs -> Forall (fun f => handle_free (snd f)) fs -> cx_enc cx <> EncUnknown -> good s ->
  Forall cval_ok (List.concat css) ->
  Forall2 (fun f ps => flatten_type (snd f) = Ok (kinds ps)) fs css ->
  Forall2 (fun f ps => flat_addressable (cx_enc cx) (s_mem s) (snd f) ps) fs css ->
  yields it (List.concat css) it' ->
  (exists mp, lift_fields (map (fun f => (fst f, lift_flat cx (snd f))) fs) acc it s = (Ok (mp, it'), s) /\
     Forall2 (fun f ps => exists x, map_get mp (fst f) = Some x /\ lifts_as (cx_enc cx) (s_mem s) (snd f) ps x) fs css /\
     forall l, ~ In l (map fst fs) -> map_get mp l = map_get acc l)
  \/ (lift_fields (map (fun f => (fst f, lift_flat cx (snd f))) fs) acc it s = (Err ETrap, s) /\
      ~ Forall2 (fun f ps => liftable (cx_enc cx) (s_mem s) (snd f) ps) fs css).
Proof.
  intros cx s fs. induction fs as [|[l t] fs IH]; intros css it it' acc H Hnd Hwf Hh He Hg Hok Hk Had Y.
  - inversion Hk; subst. cbn in Y. subst it'. left. exists acc. split; [reflexivity|]. split; [constructor|reflexivity].
  - inversion Hk as [|? ps ? css' Hk1 Hk2]; subst. inversion Had as [|? ? ? ? Had1 Had2]; subst. cbn [fst snd] in *.
    inversion H as [|? ? H1 H2]; subst. inversion Hwf as [|? ? Hwf1 Hwf2]; subst. inversion Hh as [|? ? Hh1 Hh2]; subst.
    inversion Hnd as [|? ? Hnd1 Hnd2]; subst. cbn [fst snd] in *.
    cbn [List.concat] in *. apply Forall_app in Hok. destruct Hok as [Hok1 Hok2].
    apply yields_app in Y. destruct Y as (it1 & Y1 & Y2).
    cbn [map fst snd lift_fields].
    destruct (H1 ps it it1 s Hk1 Hwf1 Hh1 He Hg Hok1 Had1 Y1) as [([x it2] & Ex & Ei & Hx)|(Ex & Hx)].
    + cbn [fst snd] in *. subst it2.
      destruct (IH css' it1 it' (map_set acc l x) H2 Hnd2 Hwf2 Hh2 He Hg Hok2 Hk2 Had2 Y2) as [(mp & Em & HF & Ho)|(Em & HF)].
      * left. exists mp. split; [erewrite bind_ok; [|exact Ex]; exact Em|]. split.
        -- constructor; [|exact HF]. cbn [fst snd]. exists x. split; [|exact Hx]. rewrite Ho by exact Hnd1.
           rewrite map_get_set, String.eqb_refl. reflexivity.
        -- intros q Hq. cbn in Hq. rewrite Ho by tauto. rewrite map_get_set.
           destruct (String.eqb_spec q l) as [->|]; [tauto|reflexivity].
      * right. split; [erewrite bind_ok; [|exact Ex]; exact Em|]. intros C. inversion C; subst. contradiction.
    + right. split; [unfold bind; rewrite Ex; reflexivity|]. intros C. inversion C; subst. contradiction.
Qed.

Lemma lifts_record : forall cx fs, Forall (fun f => lifts_ok cx (snd f)) fs -> lifts_ok cx (TRecord fs).
Proof.
  intros cx fs H cs it it' s Hk [Hnd Hwt] Hh He Hg Hok Had Y. apply all_Forall in Hwt.
  assert (Hh' : Forall (fun f => handle_free (snd f)) fs) by (apply all_Forall; exact Hh).
  cbn [flatten_type] in Hk. apply flatten_record_inv in Hk. destruct Hk as (kss & Hk & Ek).
  destruct (split_kinds kss cs Ek) as (css & -> & <-).
  assert (HK : Forall2 (fun f ps => flatten_type (snd f) = Ok (kinds ps)) fs css).
  { clear - Hk. revert css Hk. induction fs as [|f fs IH]; intros [|ps css] Hk; try discriminate; constructor; cbn in Hk.
    - injection Hk as E _. exact E.
    - apply IH. injection Hk as _ E. exact E. }
  assert (HA : Forall2 (fun f ps => flat_addressable (cx_enc cx) (s_mem s) (snd f) ps) fs css).
  { cbn [flat_addressable] in Had. specialize (Had css eq_refl). rewrite !Forall2_map_l in Had. cbn [fst snd] in Had.
    apply Had. eapply Forall2_mono; [exact HK|]. cbn beta. intros f ps _ E. apply flattens_iff. exact E. }
  destruct (lift_fields_decided cx s fs css it it' [] H Hnd Hwt Hh' He Hg Hok HK HA Y) as [(mp & Em & HF & Ho)|(Em & HF)].
  - apply decided_ok with (v := (VMap mp, it')).
    + cbn [lift_flat]. unfold lift_flat_record. erewrite bind_ok; [|exact Em]. reflexivity.
    + split; [reflexivity|]. cbn [fst]. apply stands_record. exists mp, css. split; [reflexivity|]. split; [reflexivity|]. split.
      * clear - HK HF. induction HF as [|f ps fs css Hx HF IH]; [constructor|]. inversion HK; subst. constructor; [|auto].
        split; [apply flattens_iff; assumption|exact Hx].
      * intros l Hl1. destruct (in_dec string_dec l (map fst fs)); [assumption|].
        rewrite Ho in Hl1 by assumption. cbn in Hl1. congruence.
  - apply decided_trap.
    + cbn [lift_flat]. unfold lift_flat_record. unfold bind. rewrite Em. reflexivity.
    + intros (v & R). apply stands_record in R. destruct R as (fields & css' & -> & Ec & HF' & _).
      assert (css' = css) as ->.
      { apply concat_split; [|congruence]. clear - HF' HK. revert css HK. induction HF' as [|f ps fs css' [Hf _] HF' IH]; intros css HK; inversion HK; subst; [reflexivity|].
        cbn. f_equal; [|auto]. apply flattens_iff in Hf. congruence. }
      apply HF. eapply Forall2_mono; [exact HF'|].
      cbn beta. intros f ps _ (_ & x & _ & Hx). exists x. exact Hx.
Qed.

Lemma lifts_variant : forall cx xs, Forall (fun c => opt_all (lifts_ok cx) (c_type c)) xs -> lifts_ok cx (TVariant xs).
Proof.
  intros cx xs H cs it it' s Hk Hwf Hh He Hg Hok Had Y.
  cbn [wf_type] in Hwf. destruct Hwf as [(Hnd & Hbf & Hre) Hwt]. apply all_Forall in Hwt.
  assert (Hh' : Forall (fun c => match c_type c with Some x => handle_free x | None => True end) xs) by (apply all_Forall; exact Hh).
  assert (Hk' := Hk). cbn [flatten_type] in Hk. destruct (flatten_variant_inv _ _ Hk) as (kss & flat & Ep & HJ & Ek & dt & Hdt).
  rewrite payloads_map in Ep. rewrite map_length in Hdt. pose proof (discriminant_bound _ _ Hdt) as Hn.
  destruct cs as [|d rest]; [discriminate|]. cbn [kinds map] in Ek. injection Ek as Ed Er. destruct d as [i0| | | ]; try discriminate.
  fold (kinds rest) in Er. subst flat.
  inversion Hok as [|? ? Hi Hokr]; subst. cbn [cval_ok] in Hi.
  cbn [yields cval_kind cval_any] in Y. destruct Y as (it1 & E1 & Y).
  assert (LD : lift_flat cx (TVariant xs) it s =
     (match nth_error xs (N.to_nat i0) with
     | None => lift_o (Err ETrap)
     | Some c =>
        match c_type c with
        | None =>
            let* it := lift_o (skip_flat (kinds rest) it1) in
            let* label := lift_o (case_label c xs) in
            ret (VMap [(label, VNil)], it)
        | Some t =>
              let* (v, cit) := lift_flat cx t (ICoerce it1 (kinds rest)) in
              match cit with
              | ICoerce it rest =>
                  let* it := lift_o (skip_flat rest it) in
                  let* label := lift_o (case_label c xs) in
                  ret (VMap [(label, v)], it)
              | IBase _ _ => lift_o Panic
              end
        end
     end) s).
  { cbn [lift_flat]. unfold lift_flat_variant. rewrite Hk', bind_lift_ok. cbn [kinds map cval_kind kind_eqb negb]. 
    erewrite bind_ok; [|apply next_u32_val; exact E1]. cbv beta iota. rewrite map_length.
    destruct (N.leb_spec (N.of_nat (List.length xs)) i0).
    - rewrite (proj2 (nth_error_None xs (N.to_nat i0))) by lia. reflexivity.
    - rewrite nth_error_map. destruct (nth_error xs (N.to_nat i0)) as [c|] eqn:Ec.
      2:{ apply nth_error_None in Ec. lia. }
      cbn [option_map c_type map_case]. destruct (c_type c) as [t|] eqn:Et.
      + assert (EL : case_label (map_case (lift_flat cx) c) (map (map_case (lift_flat cx)) xs) = case_label c xs) by apply case_label_map.
        fold (map (@cval_kind) rest) in *. change (map cval_kind rest) with (kinds rest).
        change (mkCase (c_label c) (Some (lift_flat cx t)) (c_refines c)) with (mkCase (c_label c) (Some (lift_flat cx t)) (c_refines c)).
        unfold map_case at 1 in EL. rewrite Et in EL. unfold map_case at 1. rewrite Et. rewrite EL. reflexivity.
      + rewrite case_label_map. reflexivity. }
  unfold decided. rewrite LD. clear LD.
  assert (Hex : exists i, i0 = N.of_nat i) by (exists (N.to_nat i0); lia). destruct Hex as [i ->]. rewrite !Nat2N.id. clear Hi.
  assert (NL : forall v, stands (fun _ _ _ => True) (fun _ _ _ _ => True) False (cx_enc cx) (s_mem s) (TVariant xs) (CU32 (N.of_nat i) :: rest) v ->
     exists c x ps, nth_error xs i = Some c /\ match c_type c with
       | Some t => flattens t (kinds ps) /\ stands (fun _ _ _ => True) (fun _ _ _ _ => True) False (cx_enc cx) (s_mem s) t ps x
       | None => True end /\ ps = narrows (kinds ps) rest).
  { intros v R. apply stands_variant in R. destruct R as (i' & rest' & c & key & x & Ec & -> & Ei & _ & ps & Hp & HF & _).
    injection Ec as Ec ->. assert (i' = i) as -> by lia. exists c, x, ps. split; [exact Ei|]. split.
    - destruct (c_type c); [exact Hp|exact I].
    - eapply narrows_unique. exact HF. }
  destruct (nth_error xs i) as [c|] eqn:Ei.
  2:{ apply decided_trap; [reflexivity|]. intros (v & R). destruct (NL v R) as (c & _ & _ & Ec & _). congruence. }
  assert (Hic : In c xs) by (eapply nth_error_In; exact Ei).
  assert (Hlab : exists l, case_label c xs = Ok l).
  { apply case_label_ends. rewrite Forall_forall in Hre. auto. }
  destruct Hlab as [l Hlab].
  assert (RD : forall x ps, match c_type c with Some t => flattens t (kinds ps) /\ lifts_as (cx_enc cx) (s_mem s) t ps x | None => ps = [] /\ x = VNil end ->
     Forall2 (conveys False) (firstn (List.length ps) rest) ps ->
     lifts_as (cx_enc cx) (s_mem s) (TVariant xs) (CU32 (N.of_nat i) :: rest) (VMap [(l, x)])).
  { intros x ps Hx HF. apply stands_variant. exists i, rest, c, l, x. repeat (split; [reflexivity || assumption|]). split.
    - eapply case_label_full; [unfold fparts; rewrite nth_error_map, Ei; reflexivity|].
      unfold fparts. rewrite case_label_map. exact Hlab.
    - exists ps. split; [destruct (c_type c); exact Hx|]. split; [exact HF|intros []]. }
  pose proof (fun t ps E => flat_addressable_variant _ _ _ _ Had i rest c t ps eq_refl Ei E) as Had'.
  destruct (c_type c) as [t|] eqn:Et.
  - destruct (payload_flat xs kss c t Ep Hic Et) as (ks & Ekt & Hin).
    pose proof (joined_below _ _ _ HJ Hin) as Hb.
    assert (Hlen : (List.length ks <= List.length rest)%nat).
    { destruct Hb as [Hb _]. unfold kinds in Hb. rewrite map_length in Hb. exact Hb. }
    pose proof (narrows_kinds ks rest Hlen) as Enk. pose proof (narrows_conveyed ks rest Hlen) as Hcv.
    assert (Hft : flattens t (kinds (narrows ks rest))) by (apply flattens_iff; congruence).
    rewrite Forall_forall in H, Hwt, Hh'. specialize (H c Hic). specialize (Hwt c Hic). specialize (Hh' c Hic).
    rewrite Et in H, Hwt, Hh'.
    destruct (yields_narrow ks rest it1 it' Hokr Hb Y) as (it2 & flat2 & Y2 & Hs).
    destruct (H (narrows ks rest) (ICoerce it1 (kinds rest)) (ICoerce it2 flat2) s) as [([x it3] & Ex & Ei3 & Hx)|(Ex & Hx)];
      try assumption; [congruence|apply narrows_ok|apply Had'; auto| |].
    + cbn [fst snd] in *. subst it3. apply decided_ok with (v := (VMap [(l, x)], it')).
      * erewrite bind_ok; [|exact Ex]. cbv beta iota. rewrite Hs, bind_lift_ok, Hlab, bind_lift_ok. reflexivity.
      * split; [reflexivity|]. cbn [fst]. apply (RD x (narrows ks rest)); auto.
    + apply decided_trap; [unfold bind; rewrite Ex; reflexivity|].
      intros (v & R). destruct (NL v R) as (c' & x & ps & Ec' & Hp & Eps). assert (c' = c) as -> by congruence. rewrite Et in Hp.
      destruct Hp as [Hpk Hps]. apply flattens_iff in Hpk. assert (kinds ps = ks) by congruence.
      apply Hx. exists x. rewrite <- H0. rewrite <- Eps. exact Hps.
  - destruct (yields_narrow [] rest it1 it' Hokr) as (it2 & flat2 & Y2 & Hs); [split; [cbn; lia|intros [|j]; discriminate]|exact Y|].
    cbn [narrows yields] in Y2. injection Y2 as <- <-.
    apply decided_ok with (v := (VMap [(l, VNil)], it')).
    + rewrite Hs, bind_lift_ok, Hlab, bind_lift_ok. reflexivity.
    + split; [reflexivity|]. apply (RD VNil []); [auto|]. apply Forall2_nil.
Qed.

Lemma yields_one : forall it c it', yields it [c] it' -> iter_next it (cval_kind c) = Ok (cval_any c, it').
Proof. intros it c it' (it1 & E & Y). cbn in Y. subst. exact E. Qed.

Lemma kinds_one : forall cs k, kinds cs = [k] -> exists c, cs = [c] /\ cval_kind c = k.
Proof. intros [|c [|]] k E; try discriminate. injection E as E. eauto. Qed.
Lemma kinds_u32 : forall cs, kinds cs = [KU32] -> exists n, cs = [CU32 n].
Proof. intros cs E. apply kinds_one in E. destruct E as ([n| | |] & -> & E); try discriminate. eauto. Qed.
Lemma kinds_u64 : forall cs, kinds cs = [KU64] -> exists n, cs = [CU64 n].
Proof. intros cs E. apply kinds_one in E. destruct E as ([|n| |] & -> & E); try discriminate. eauto. Qed.
Lemma kinds_f32 : forall cs, kinds cs = [KF32] -> exists n, cs = [CF32 n].
Proof. intros cs E. apply kinds_one in E. destruct E as ([| |n|] & -> & E); try discriminate. eauto. Qed.
Lemma kinds_f64 : forall cs, kinds cs = [KF64] -> exists n, cs = [CF64 n].
Proof. intros cs E. apply kinds_one in E. destruct E as ([| | |n] & -> & E); try discriminate. eauto. Qed.
Lemma kinds_pair : forall cs, kinds cs = [KU32; KU32] -> exists p n, cs = [CU32 p; CU32 n].
Proof. intros [|[] [|[] [|]]] E; try discriminate. eauto. Qed.
Lemma kinds_words : forall cs n, kinds cs = repeat KU32 n -> exists ws, cs = map CU32 ws /\ List.length ws = n.
Proof.
  intros cs n. revert cs. induction n as [|n IH]; intros [|c cs] E; try discriminate; [exists []; auto|].
  cbn in E. injection E as E1 E2. destruct c as [w| | |]; try discriminate. destruct (IH cs E2) as (ws & -> & <-).
  exists (w :: ws). auto.
Qed.

Lemma lifts_flags : forall cx ls, lifts_ok cx (TFlags ls).
Proof.
  intros cx ls cs it it' s Hk [Hnd H64] _ _ _ Hok _ Y.
  assert (Ek : kinds cs = repeat KU32 (N.to_nat (num_i32_flags ls))) by (cbn [flatten_type] in Hk; congruence). clear Hk.
  destruct (kinds_words _ _ Ek) as (ws & -> & Hwn). clear Ek.
  destruct (num_words ls H64) as [Hw2 Hwl].
  assert (Hws : Forall (fun w => w < 2 ^ 32) ws) by (rewrite Forall_map in Hok; exact Hok).
  destruct (lift_words_bits ws [] [] 0 0 s Hws) as (y & Ey & Hy); [lia|intros; apply N.bits_0|].
  rewrite app_nil_r in Ey. cbn [app] in Ey.
  pose proof (yields_base (map CU32 ws) [] []) as Yb. rewrite app_nil_r in Yb. cbn [app List.length Nat.add] in Yb, Ey.
  rewrite map_length in Yb.
  pose proof (lift_words_same ws 0 0 it it' s _ _ s y Y Yb Ey) as Ew.
  apply decided_ok with (v := (VMap (unpack_flags y ls []), it')).
  - cbn [lift_flat]. unfold lift_flat_flags. rewrite <- Hwn. erewrite bind_ok; [|exact Ew]. reflexivity.
  - split; [reflexivity|]. unfold lifts_as. cbn [fst stands]. exists ws, (unpack_flags y ls []).
    split; [reflexivity|]. split; [reflexivity|]. split; [|split; [|intros []]].
    + intros i l Hi. rewrite (unpack_bits ls y [] i l Hnd Hi). do 2 f_equal. rewrite Hy.
      destruct (N.ltb_spec (N.of_nat i) 0); [lia|]. rewrite N.sub_0_r.
      replace (N.to_nat (N.of_nat i / 32)) with (i / 32)%nat by (rewrite N2Nat.inj_div, Nat2N.id; reflexivity).
      f_equal. rewrite Nat2N.inj_mod. reflexivity.
    + intros l Hl. apply unpack_domain in Hl. destruct Hl as [|C]; [assumption|cbn in C; congruence].
Qed.

Lemma lifts_ok_all : forall cx t, lifts_ok cx t.
Proof.
  intros cx t. induction t using valtype_ind';
    [ | | | | | | | | | | | | | |apply lifts_record; assumption|apply lifts_variant; assumption|apply lifts_flags| | | | ];
    intros cs it it' s Hk Hwf Hh He Hg Hok Had Y; try (solve [destruct Hh]).
  all: try (injection Hk as Hk; symmetry in Hk;
     first [apply kinds_u32 in Hk; destruct Hk as (n & ->)|apply kinds_u64 in Hk; destruct Hk as (n & ->)
           |apply kinds_f32 in Hk; destruct Hk as (n & ->)|apply kinds_f64 in Hk; destruct Hk as (n & ->)];
     apply yields_one in Y; cbn [cval_kind cval_any] in Y; inversion Hok as [|? ? Hn _]; subst; cbn [cval_ok] in Hn).
  all: try (eapply decided_ok;
     [cbn [lift_flat]; unfold lmap; erewrite bind_ok; [|first [apply next_u32_val; exact Y|apply next_u64_val; exact Y|apply next_f32_val; exact Y|apply next_f64_val; exact Y]]; cbv beta iota; reflexivity|]).
  all: try (split; [reflexivity|]; cbn [fst]; unfold lifts_as; cbn [stands]).
  - exists n. eexists. split; [reflexivity|]. split; [reflexivity|].
    destruct (N.eqb_spec n 0) as [E|E]; cbn [negb]; (split; [|intros []]); split; [discriminate|intros C; contradiction|auto|auto].
  - exists n. split; [reflexivity|]. split; [reflexivity|intros []].
  - exists n. split; [reflexivity|]. split; [reflexivity|intros []].
  - exists n. split; reflexivity.
  - exists n. split; reflexivity.
  - exists n. eexists. split; [reflexivity|]. split; [reflexivity|]. split; [|intros []].
    replace (to_signed two8 n) with (to_signed (2 ^ 8) (n mod 2 ^ 8)); [apply (twos_signed 8); [lia|apply N.mod_lt; discriminate]|].
    unfold to_signed. change two8 with (2 ^ 8). rewrite N.mod_mod by discriminate. reflexivity.
  - exists n. eexists. split; [reflexivity|]. split; [reflexivity|]. split; [|intros []].
    replace (to_signed two16 n) with (to_signed (2 ^ 16) (n mod 2 ^ 16)); [apply (twos_signed 16); [lia|apply N.mod_lt; discriminate]|].
    unfold to_signed. change two16 with (2 ^ 16). rewrite N.mod_mod by discriminate. reflexivity.
  - exists n. eexists. split; [reflexivity|]. split; [reflexivity|]. apply (twos_signed 32); [lia|exact Hn].
  - exists n. eexists. split; [reflexivity|]. split; [reflexivity|]. apply (twos_signed 64); [lia|exact Hn].
  - exists n. eexists. split; [reflexivity|]. split; [reflexivity|]. split; [apply canonicalize32_same|intros []].
  - exists n. eexists. split; [reflexivity|]. split; [reflexivity|]. split; [apply canonicalize64_same|intros []].
  - destruct (scalar_rune n) as [[E N]|[E N]].
    + apply decided_trap.
      * cbn [lift_flat]. unfold lift_flat_char. erewrite bind_ok; [|apply next_u32_val; exact Y]. cbv beta iota.
        unfold bind. rewrite E. reflexivity.
      * intros (v & R). cbn [stands] in R. destruct R as (n' & En & _ & R). injection En as <-. contradiction.
    + eapply decided_ok.
      * cbn [lift_flat]. unfold lift_flat_char. erewrite bind_ok; [|apply next_u32_val; exact Y]. cbv beta iota.
        rewrite E, bind_lift_ok. reflexivity.
      * split; [reflexivity|]. unfold lifts_as. cbn [fst stands]. exists n. auto.
  - injection Hk as Hk; symmetry in Hk. apply kinds_pair in Hk. destruct Hk as (p & n & ->).
    destruct Y as (it1 & E1 & Y). apply yields_one in Y. cbn [cval_kind cval_any] in *.
    inversion Hok as [|? ? Hp Hok1]; subst. inversion Hok1 as [|? ? Hn _]; subst. cbn [cval_ok] in Hp, Hn.
    specialize (Had p n eq_refl).
    assert (LD : lift_flat cx TString it s = (let* v := load_string_from_range cx p n in ret (v, it')) s).
    { cbn [lift_flat]. unfold lift_flat_string. erewrite bind_ok; [|apply next_u32_val; exact E1]. cbv beta iota.
      erewrite bind_ok; [|apply next_u32_val; exact Y]. reflexivity. }
    destruct (decide_text cx p n s He Hg Hp Hn Had) as [(v & E & H)|(E & H)].
    + apply decided_ok with (v := (v, it')); [rewrite LD; erewrite bind_ok; [|exact E]; reflexivity|].
      split; [reflexivity|]. exists p, n. auto.
    + apply decided_trap; [rewrite LD; unfold bind; rewrite E; reflexivity|].
      intros (v & p' & n' & En & R). injection En as <- <-. apply H. exists v. exact R.
  - injection Hk as Hk; symmetry in Hk. apply kinds_pair in Hk. destruct Hk as (p & n & ->).
    destruct Y as (it1 & E1 & Y). apply yields_one in Y. cbn [cval_kind cval_any] in *.
    inversion Hok as [|? ? Hp Hok1]; subst. inversion Hok1 as [|? ? Hn _]; subst. cbn [cval_ok] in Hp, Hn.
    specialize (Had p n eq_refl). destruct Hwf as [Hwf (a & sz & Hlt & Hsz)]. cbn [handle_free] in Hh.
    destruct (sp_layout_facts _ _ _ Hlt) as (Ha & Hva & Hdv & Hs). specialize (Hs Hsz).
    assert (LD : lift_flat cx (TList t) it s = (let* v := load_list_from_range (Ok a) (Ok sz) (load cx t) p n in ret (v, it')) s).
    { cbn [lift_flat]. unfold lift_flat_list. rewrite Ha, Hs. erewrite bind_ok; [|apply next_u32_val; exact E1]. cbv beta iota.
      erewrite bind_ok; [|apply next_u32_val; exact Y]. reflexivity. }
    destruct (decide_items cx t a sz p n s (reads_ok_all cx t) Hlt Hwf Hh He Hg Hp Had) as [(v & E & H)|(E & H)].
    + apply decided_ok with (v := (v, it')); [rewrite LD; erewrite bind_ok; [|exact E]; reflexivity|].
      split; [reflexivity|]. exists p, n. auto.
    + apply decided_trap; [rewrite LD; unfold bind; rewrite E; reflexivity|].
      intros (v & p' & n' & En & R). injection En as <- <-. apply H. exists v. exact R.
  - rewrite <- flatten_despecialize in Hk. apply wf_despecialize in Hwf. apply handle_free_despecialize in Hh.
    apply flat_addressable_despecialize in Had.
    destruct (IHt cs it it' s Hk Hwf Hh He Hg Hok Had Y) as [(v & E & E2 & H1)|(E & H1)]; rewrite lift_flat_despecialize in E.
    + left. exists v. split; [exact E|]. split; [exact E2|]. apply stands_despecialize. exact H1.
    + right. split; [exact E|]. intros R. apply H1. apply liftable_despecialize. exact R.
Qed.

(** ** What is lifted is what the core values stand for *)
Lemma conveys_mono : forall (strict strict' : Prop) l ps, (strict' -> strict) ->
  Forall2 (conveys strict) l ps -> Forall2 (conveys strict') l ps.
Proof. intros strict strict' l ps H HF. eapply Forall2_mono; [exact HF|]. intros d c _ [A B]. split; auto. Qed.

Lemma stands_mono : forall (T T' : codec -> list N -> list N -> Prop)
    (K K' : forall A, list (caseOf A) -> nat -> string -> Prop) (strict strict' : Prop) enc m,
  (strict' -> strict) ->
  (forall c bs s, T c bs s -> T' c bs s) ->
  (forall A B (cs : list (caseOf A)) (cs' : list (caseOf B)) i k, map c_label cs = map c_label cs' -> K A cs i k -> K' B cs' i k) ->
  (forall t p v, holds T K strict enc m t p v -> holds T' K' strict' enc m t p v) ->
  forall t cs v, stands T K strict enc m t cs v -> stands T' K' strict' enc m t cs v.
Proof.
  intros T T' K K' strict strict' enc m HS HT HK HM t. induction t using valtype_ind'; intros cs0 v Hv; try exact Hv.
  - destruct Hv as (n & b & -> & -> & H1 & H2). exists n, b. auto 12.
  - destruct Hv as (n & -> & -> & H1). exists n. auto 12.
  - destruct Hv as (n & -> & -> & H1). exists n. auto 12.
  - destruct Hv as (n & z & -> & -> & H1 & H2). exists n, z. auto 12.
  - destruct Hv as (n & z & -> & -> & H1 & H2). exists n, z. auto 12.
  - destruct Hv as (n & b & -> & -> & H1 & H2). exists n, b. auto 12.
  - destruct Hv as (n & b & -> & -> & H1 & H2). exists n, b. auto 12.
  - destruct Hv as (st & w & -> & c & n & s & -> & E & H1 & H2 & H3). exists st, w. split; [reflexivity|].
    exists c, n, s. repeat (split; [assumption||reflexivity|]). apply HT. exact H3.
  - destruct Hv as (st & n & -> & a & sz & l & -> & E & Hn & Ha & Hb & Hall). exists st, n. split; [reflexivity|].
    exists a, sz, l. cbn [fst snd] in *. repeat (split; [assumption||reflexivity|]). intros i x E'. apply HM. apply Hall. exact E'.
  - apply stands_record in Hv. apply stands_record. destruct Hv as (fields & css & -> & -> & HF & HD). exists fields, css.
    repeat (split; [assumption||reflexivity|]). split; [|exact HD]. eapply Forall2_mono; [exact HF|]. cbn beta.
    intros f o Hin (Hk & x & Ex & Hx). split; [exact Hk|]. exists x. split; [exact Ex|]. rewrite Forall_forall in H. apply (H f Hin). exact Hx.
  - apply stands_variant in Hv. apply stands_variant. destruct Hv as (i & rest & c & key & x & -> & -> & Ec & Hk & ps & Hx & HF & HZ).
    exists i, rest, c, key, x. repeat (split; [assumption||reflexivity|]).
    split; [eapply HK; [|exact Hk]; unfold fparts; rewrite !map_case_label; reflexivity|].
    exists ps. split; [|split; [eapply conveys_mono; eassumption|auto]].
    rewrite Forall_forall in H. specialize (H c (nth_error_In _ _ Ec)). destruct (c_type c); [|exact Hx].
    destruct Hx as [Hx1 Hx2]. split; [exact Hx1|]. apply H. exact Hx2.
  - destruct Hv as (ws & fields & -> & -> & H1 & H2 & H3). exists ws, fields. repeat (split; [assumption||reflexivity|]). intros S. exact (H3 (HS S)).
  - apply stands_despecialize. apply IHt. apply stands_despecialize. exact Hv.
Qed.

Lemma stands_canonical_exact : forall enc m t cs v, stands_canonically enc m t cs v -> stands_exactly enc m t cs v.
Proof.
  intros enc m. unfold stands_canonically, stands_exactly. apply stands_mono; auto.
  - intros A B xs xs' i k E. unfold some_label. rewrite E. auto.
  - intros t p v. apply canonically_exactly.
Qed.

Lemma exact_liftable : forall enc m t cs v, stands_exactly enc m t cs v -> liftable enc m t cs.
Proof.
  intros enc m t cs v H. exists v. unfold stands_exactly in H. eapply stands_mono; [| | | |exact H]; auto.
  intros t' p v'. apply holds_mono; auto.
Qed.

Lemma lifted_liftable : forall enc m t cs v, lifts_as enc m t cs v -> liftable enc m t cs.
Proof.
  intros enc m t cs v H. exists v. unfold lifts_as in H. eapply stands_mono; [| | | |exact H]; auto.
  intros t' p v'. apply holds_mono; auto.
Qed.

Lemma stood_is_lifted : forall enc m t cs v v', wf_type t ->
  stands_exactly enc m t cs v -> lifts_as enc m t cs v' -> same_value t v v'.
Proof.
  intros enc m t. induction t using valtype_ind'; intros cs0 v v' Hwf Hv Hv'; unfold stands_exactly, lifts_as in *.
  all: try (cbn [stands] in *; contradiction).
  - destruct Hv as (n & b & -> & -> & Hb & _), Hv' as (n' & b' & E & -> & Hb' & _). injection E as <-. cbn. f_equal. destruct b, b'; try reflexivity.
    + exfalso. assert (X : false = true) by (apply Hb', Hb; reflexivity). discriminate.
    + exfalso. assert (X : false = true) by (apply Hb, Hb'; reflexivity). discriminate.
  - destruct Hv as (n & -> & -> & _), Hv' as (n' & E & -> & _). injection E as <-. reflexivity.
  - destruct Hv as (n & -> & -> & _), Hv' as (n' & E & -> & _). injection E as <-. reflexivity.
  - destruct Hv as (n & -> & ->), Hv' as (n' & E & ->). injection E as <-. reflexivity.
  - destruct Hv as (n & -> & ->), Hv' as (n' & E & ->). injection E as <-. reflexivity.
  - destruct Hv as (n & z & -> & -> & Hz & _), Hv' as (n' & z' & E & -> & Hz' & _). injection E as <-. cbn. f_equal. exact (twos_fun 8 _ _ _ ltac:(lia) Hz' Hz).
  - destruct Hv as (n & z & -> & -> & Hz & _), Hv' as (n' & z' & E & -> & Hz' & _). injection E as <-. cbn. f_equal. exact (twos_fun 16 _ _ _ ltac:(lia) Hz' Hz).
  - destruct Hv as (n & z & -> & -> & Hz), Hv' as (n' & z' & E & -> & Hz'). injection E as <-. cbn. f_equal. exact (twos_fun 32 _ _ _ ltac:(lia) Hz' Hz).
  - destruct Hv as (n & z & -> & -> & Hz), Hv' as (n' & z' & E & -> & Hz'). injection E as <-. cbn. f_equal. exact (twos_fun 64 _ _ _ ltac:(lia) Hz' Hz).
  - destruct Hv as (n & z & -> & -> & Hz & _), Hv' as (n' & z' & E & -> & Hz' & _). injection E as <-. cbn. exists z, z'. repeat (split; [reflexivity|]). exact (same_f32_again _ _ _ Hz Hz').
  - destruct Hv as (n & z & -> & -> & Hz & _), Hv' as (n' & z' & E & -> & Hz' & _). injection E as <-. cbn. exists z, z'. repeat (split; [reflexivity|]). exact (same_f64_again _ _ _ Hz Hz').
  - destruct Hv as (n & -> & -> & _), Hv' as (n' & E & -> & _). injection E as <-. reflexivity.
  - destruct Hv as (st & w & -> & c & n & s & -> & E & H1 & H2 & H3), Hv' as (st' & w' & Ec & c' & n' & s' & -> & E' & H1' & H2' & H3').
    injection Ec as <- <-. rewrite E in E'. injection E' as <- <-. cbn. f_equal. symmetry. apply H3'. exact H3.
  - destruct Hv as (st & w & -> & a & sz & l & -> & E & Hn & Ha & Hb & Hall), Hv' as (st' & w' & Ec & a' & sz' & l' & -> & E' & Hn' & Ha' & Hb' & Hall').
    injection Ec as <- <-. cbn [fst snd wf_type] in *.
    assert (sz' = sz) as -> by congruence. cbn [same_value]. exists l, l'. repeat (split; [reflexivity|]).
    apply Forall2_nth; [lia|]. intros i x y Ex Ey. eapply held_is_read; [apply Hwf|apply Hall; exact Ex|apply Hall'; exact Ey].
  - cbn [wf_type] in Hwf. destruct Hwf as [_ Hwf]. apply all_Forall in Hwf.
    apply stands_record in Hv. apply stands_record in Hv'. destruct Hv as (m1 & css & -> & -> & HF & HD), Hv' as (m2 & css' & -> & Ec & HF' & HD').
    assert (css' = css) as ->.
    { apply concat_split; [|congruence]. clear - HF HF'. revert css HF. induction HF' as [|f ps fs css' [Hf _] HF' IH]; intros css HF; inversion HF as [|? ? ? ? [Hf2 _]]; subst; [reflexivity|].
      cbn. f_equal; [|auto]. apply flattens_iff in Hf. apply flattens_iff in Hf2. congruence. }
    cbn [same_value]. exists m1, m2. repeat (split; [reflexivity|]). split.
    + apply Forall_map. cbn [fst snd]. clear Ec HD HD'. revert HF HF' H Hwf. revert css.
      induction fs as [|f fs IH]; intros os HF HF' H Hwf; [constructor|].
      inversion HF as [|? ? ? ? (_ & x & Ex & Hx) HF1]; subst. inversion HF' as [|? ? ? ? (_ & x' & Ex' & Hx') HF1']; subst.
      inversion H; subst. inversion Hwf; subst. constructor; [|eapply IH; eassumption].
      exists x, x'. repeat (split; [assumption|]). eauto.
    + rewrite map_map. exact HD'.
  - cbn [wf_type] in Hwf. destruct Hwf as [(Hnd & Hbf & Hre) Hwf]. apply all_Forall in Hwf.
    apply stands_variant in Hv. apply stands_variant in Hv'.
    destruct Hv as (i & rest & c & key & x & -> & -> & Ec & Hk & ps & Hx & HF & _), Hv' as (i' & rest' & c' & key' & x' & E & -> & Ec' & Hk' & ps' & Hx' & HF' & _).
    injection E as E <-. assert (i' = i) as -> by lia.
    assert (c' = c) as -> by congruence. cbn [same_value].
    exists key, x, key', x', i. eexists. repeat (split; [reflexivity|]). unfold some_label, fparts in Hk.
    rewrite map_case_label in Hk. rewrite map_case_label.
    split; [exact Hk|]. split.
    + apply full_selects in Hk'; [unfold fparts in Hk'; rewrite map_case_label in Hk'; exact Hk'|]. unfold fparts. apply Forall_map. exact Hbf.
    + split; [rewrite nth_error_map, Ec; reflexivity|]. cbn [map_case c_type].
      pose proof (nth_error_In _ _ Ec) as Hin. rewrite Forall_forall in H, Hwf. specialize (H c Hin). specialize (Hwf c Hin).
      destruct (c_type c) as [t|]; [|apply Hx'].
      destruct Hx as [Fx Hx], Hx' as [Fx' Hx']. apply flattens_iff in Fx. apply flattens_iff in Fx'.
      assert (Ek : kinds ps' = kinds ps) by congruence.
      pose proof (narrows_unique _ _ _ HF) as N1. pose proof (narrows_unique _ _ _ HF') as N2.
      assert (ps' = ps) as -> by congruence. eapply H; eassumption.
  - destruct Hv as (ws & m1 & -> & -> & H1 & D1 & _), Hv' as (ws' & m2 & E & -> & H2 & D2 & _).
    assert (ws' = ws) as ->.
    { clear - E. revert ws' E. induction ws as [|w ws IH]; intros [|w' ws'] E; try discriminate; [reflexivity|].
      cbn in E. injection E as -> E. f_equal. auto. }
    cbn [same_value]. exists m1, m2. repeat (split; [reflexivity|]). split.
    + apply Forall_map. apply Forall_forall. intros l Hin. apply In_nth_error in Hin. destruct Hin as [k Hk].
      eexists; eexists; split; [apply H1; exact Hk|split; [apply H2; exact Hk|reflexivity]].
    + rewrite map_map. cbn. rewrite map_id. exact D2.
  - apply same_value_despecialize. eapply IHt; [apply wf_despecialize; exact Hwf|apply stands_despecialize; exact Hv|apply stands_despecialize; exact Hv'].
Qed.

(** ** Lowering *)
Definition lowers_ok (cx : callctx) (init : N -> Prop) (t : valtype) : Prop :=
  forall v ks, flatten_type t = Ok ks -> wf_type t -> has_type (cx_enc cx) t v ->
  writes cx init 0 0 (lower_flat cx t v)
    (fun cs s => kinds cs = ks /\ Forall cval_ok cs /\
       exists v', stands_canonically (cx_enc cx) (s_mem s) t cs v' /\ same_value t v v').

Lemma lowers_fields : forall cx init m fs kss,
  Forall (fun f => lowers_ok cx init (snd f)) fs -> NoDup (map fst fs) ->
  Forall (fun f => wf_type (snd f)) fs ->
  Forall (fun f => exists x, map_get m (fst f) = Some x /\ has_type (cx_enc cx) (snd f) x) fs ->
  map (fun f => flatten_type (snd f)) fs = map Ok kss ->
  writes cx init 0 0 (lower_fields (map (fun f => (fst f, lower_flat cx (snd f))) fs) m)
    (fun cs s => kinds cs = List.concat kss /\ Forall cval_ok cs /\ exists css mp, cs = List.concat css /\
       Forall2 (fun f ps => flattens (snd f) (kinds ps) /\
          exists x, map_get mp (fst f) = Some x /\ stands_canonically (cx_enc cx) (s_mem s) (snd f) ps x) fs css /\
       Forall (fun f => exists x x', map_get m (fst f) = Some x /\ map_get mp (fst f) = Some x' /\ same_value (snd f) x x') fs /\
       forall l, map_get mp l <> None -> In l (map fst fs)).
Proof.
  intros cx init m fs. induction fs as [|[l t] fs IH]; intros kss Hrt Hnd Hwf Hty Hk.
  - destruct kss; [|discriminate]. apply writes_ret. intros s _ _. split; [reflexivity|]. split; [constructor|].
    exists [], []. split; [reflexivity|]. split; [constructor|]. split; [constructor|]. intros l Hl. cbn in Hl. congruence.
  - destruct kss as [|ks kss]; [discriminate|]. cbn [map snd] in Hk. injection Hk as Hk1 Hk2.
    inversion Hrt as [|? ? Hrt1 Hrt2]; subst. inversion Hwf as [|? ? Hwf1 Hwf2]; subst.
    inversion Hty as [|? ? (x & Hx & Hxt) Hty2]; subst. inversion Hnd as [|? ? Hnd1 Hnd2]; subst. cbn [fst snd] in *.
    cbn [map fst snd lower_fields]. unfold map_any at 1. rewrite Hx.
    eapply writes_mono.
    + eapply (writes_bind cx init 0 0 0 0 0 0); [eapply Hrt1; eassumption| |intros; unfold within in *; lia..].
      intros a.
      eapply (writes_bind cx init 0 0 0 0 0 0 _ _ _ (fun b c _ => c = (a ++ b)%list)); [apply (IH kss); assumption| |intros; unfold within in *; lia..].
      intros b. apply writes_ret. reflexivity.
    + cbn beta. intros cs s _ _ (a & (Ka & Oka & x' & Ex & Sx) & b & (Kb & Okb & css & mp & -> & HF & Hsv & Hdom) & ->).
      split; [|split].
      * unfold kinds in *. rewrite map_app, Ka, Kb. reflexivity.
      * apply Forall_app. auto.
      * assert (Ne : forall f, In f fs -> String.eqb (fst f) l = false).
        { intros f Hf. destruct (String.eqb_spec (fst f) l) as [E|]; [|reflexivity].
          exfalso. apply Hnd1. rewrite <- E. apply in_map. exact Hf. }
        exists (a :: css), (map_set mp l x'). split; [reflexivity|]. split; [|split].
        -- constructor.
           ++ cbn [fst snd]. split; [apply flattens_iff; congruence|]. exists x'. rewrite map_get_set, String.eqb_refl. auto.
           ++ eapply Forall2_mono; [exact HF|]. cbn beta. intros f o Hf. rewrite map_get_set, (Ne f Hf). auto.
        -- constructor; [exists x, x'; cbn [fst snd]; rewrite map_get_set, String.eqb_refl; auto|].
           rewrite Forall_forall in *. intros f Hf. rewrite map_get_set, (Ne f Hf). auto.
        -- intros q Hq. rewrite map_get_set in Hq. destruct (String.eqb_spec q l) as [E|E]; [left; cbn [fst]; congruence|right; auto].
Qed.

Lemma lowers_record : forall cx init fs, Forall (fun f => lowers_ok cx init (snd f)) fs -> lowers_ok cx init (TRecord fs).
Proof.
  intros cx init fs H v ks Hk Hwf Hty. destruct Hwf as [Hnd Hwt]. apply all_Forall in Hwt.
  destruct Hty as (m & -> & Hf). rewrite Forall_map in Hf. cbn [fst snd] in Hf.
  cbn [flatten_type] in Hk. apply flatten_record_inv in Hk. destruct Hk as (kss & Hk & ->).
  change (lower_flat cx (TRecord fs) (VMap m)) with (lower_fields (map (fun f => (fst f, lower_flat cx (snd f))) fs) m).
  eapply writes_mono; [apply (lowers_fields cx init m fs kss); assumption|]. cbn beta.
  intros cs s _ _ (Kc & Okc & css & mp & -> & HF & Hsv & Hdom). split; [exact Kc|]. split; [exact Okc|].
  exists (VMap mp). split.
  - apply stands_record. exists mp, css. auto.
  - cbn [same_value]. exists m, mp. split; [reflexivity|]. split; [reflexivity|]. split.
    + apply Forall_map. exact Hsv.
    + rewrite map_map. exact Hdom.
Qed.

Lemma coerce_conveys : forall payload flat cs, Forall cval_ok payload -> below (kinds payload) flat ->
  coerce_payload payload flat = Ok cs ->
  Forall2 (conveys True) (firstn (List.length payload) cs) payload /\
  Forall (fun d => core_bits d = 0) (skipn (List.length payload) cs).
Proof.
  induction payload as [|c payload IH]; intros flat cs Hok Hb E; cbn [coerce_payload] in E.
  - injection E as <-. cbn [List.length firstn skipn]. split; [constructor|]. apply Forall_map. apply Forall_forall. intros [] _; reflexivity.
  - destruct flat as [|w flat]; [discriminate|]. cbn [kinds map] in Hb. apply below_cons in Hb. destruct Hb as [Hc Hb].
    destruct (coerce_payload payload flat) as [r| | | ] eqn:Er; try discriminate. cbn [obind] in E. injection E as <-.
    inversion Hok as [|? ? Hok1 Hok2]; subst. destruct (IH flat r Hok2 Hb Er) as [H1 H2].
    cbn [List.length firstn skipn]. split; [|exact H2]. constructor; [|exact H1].
    assert (Eb : core_bits (coerce_in c w) = core_bits c) by (destruct c, w; reflexivity).
    split; [|intros _; exact Eb]. rewrite Eb. destruct c; cbn [core_bits cval_kind core_width cval_ok] in *; rewrite N.mod_small by exact Hok1; reflexivity.
Qed.

Lemma lowers_variant : forall cx init cs, Forall (fun c => opt_all (lowers_ok cx init) (c_type c)) cs -> lowers_ok cx init (TVariant cs).
Proof.
  intros cx init cs H v ks Hk Hwf Hty. destruct Hwf as [(Hnd & Hbf & Hre) Hwt]. apply all_Forall in Hwt.
  destruct Hty as (key & x & i & c0 & -> & Hsel & Hi & Hx).
  rewrite map_map in Hsel. cbn [c_label map_case] in Hsel.
  rewrite nth_error_map in Hi. destruct (nth_error cs i) as [c|] eqn:Ei; [|discriminate]. injection Hi as <-.
  assert (Hic : In c cs) by (eapply nth_error_In; exact Ei).
  assert (Hil : (i < List.length cs)%nat) by (apply nth_error_Some; congruence).
  cbn [flatten_type] in Hk. destruct (flatten_variant_inv _ _ Hk) as (kss & rest & Ep & HJ & -> & dt & Hdt).
  rewrite payloads_map in Ep. rewrite map_length in Hdt. pose proof (discriminant_bound _ _ Hdt) as Hn.
  pose proof (match_case_selects cs key x i Hnd Hn Hsel) as Hm.
  assert (SV : forall v', match c_type c with Some t => same_value t x v' | None => v' = VNil end ->
     same_value (TVariant cs) (VMap [(key, x)]) (VMap [(key, v')])).
  { intros v' Hsv. cbn [same_value]. exists key, x, key, v', i, (map_case same_value c).
    rewrite !map_map. cbn [c_label map_case c_type]. repeat split; try assumption.
    - rewrite nth_error_map, Ei. reflexivity.
    - destruct (c_type c); assumption. }
  set (pl := match c_type c with None => ret [] | Some t => lower_flat cx t x end).
  eapply (writes_ext _ _ _ _ _ (let* payload := pl in let* p := lift_o (coerce_payload payload rest) in ret (CU32 (N.of_nat i) :: p))).
  { intros s _ _. cbn [lower_flat]. unfold lower_flat_variant. rewrite match_case_map, Hm, bind_lift_ok.
    change (flatten_type (TVariant cs)) with (flatten_variant (map (map_case flatten_type) cs)). rewrite Hk, bind_lift_ok.
    cbn [kind_eqb negb]. rewrite nth_error_map, Nat2N.id, Ei. cbn [option_map c_type map_case]. unfold pl.
    destruct (c_type c); reflexivity. }
  set (QP := fun payload s => Forall cval_ok payload /\ below (kinds payload) rest /\
       match c_type c with
       | Some t => flattens t (kinds payload) /\ exists v', stands_canonically (cx_enc cx) (s_mem s) t payload v' /\ same_value t x v'
       | None => payload = []
       end).
  assert (WP : writes cx init 0 0 pl QP).
  { unfold pl, QP. cbn [c_type map_case] in Hx. destruct (c_type c) as [t|] eqn:Et.
    - destruct (payload_flat cs kss c t Ep Hic Et) as (ks & Ek & Hin).
      rewrite Forall_forall in H, Hwt. specialize (H c Hic). specialize (Hwt c Hic). rewrite Et in H, Hwt.
      eapply writes_mono; [apply (H x ks); assumption|]. cbn beta. intros p s _ _ (Kp & Okp & Rp).
      split; [exact Okp|]. split; [rewrite Kp; eapply joined_below; eassumption|].
      split; [apply flattens_iff; congruence|exact Rp].
    - apply writes_ret. intros s _ _. split; [constructor|]. split; [split; [cbn; lia|intros [|j]; discriminate]|]. reflexivity. }
  eapply writes_mono.
  - apply (writes_then cx init pl (fun payload => coerce_payload payload rest) (fun _ p => CU32 (N.of_nat i) :: p) QP WP).
    intros a s (_ & Hb & _). apply coerce_payload_ok. exact Hb.
  - cbn beta. intros core s _ _ (payload & p & (Okp & Hb & Rp) & Ec & ->). split; [|split].
    + cbn [kinds map cval_kind]. f_equal. eapply coerce_payload_kinds; eassumption.
    + constructor; [change (N.of_nat i < two32); lia|]. eapply coerce_payload_vals; eassumption.
    + destruct (coerce_conveys _ _ _ Okp Hb Ec) as [C1 C2].
      assert (ST : forall v', match c_type c with
              | Some t => flattens t (kinds payload) /\ stands_canonically (cx_enc cx) (s_mem s) t payload v'
              | None => payload = [] /\ v' = VNil end ->
            stands_canonically (cx_enc cx) (s_mem s) (TVariant cs) (CU32 (N.of_nat i) :: p) (VMap [(key, v')])).
      { intros v' Hv. apply stands_variant. exists i, p, c, key, v'. repeat (split; [reflexivity||assumption|]).
        split; [unfold some_label, fparts; rewrite map_case_label; exact Hsel|]. exists payload.
        split; [destruct (c_type c); exact Hv|]. split; [exact C1|intros _; exact C2]. }
      destruct (c_type c) as [t|] eqn:Et.
      * destruct Rp as (Fk & v' & El & Sv). exists (VMap [(key, v')]). split; [apply ST; auto|]. apply SV. exact Sv.
      * exists (VMap [(key, VNil)]). split; [apply ST; auto|]. apply SV. reflexivity.
Qed.

Lemma lowers_flags : forall cx init ls, lowers_ok cx init (TFlags ls).
Proof.
  intros cx init ls v ks Hk [Hnd H64] Hty. injection Hk as <-.
  destruct (rec_flags _ _ Hty) as (m & bs & -> & Hbs).
  destruct (pack_bits m ls bs 0 0 Hbs) as (x & Ex & Hx); [lia|intros; apply N.bits_0|].
  assert (Hx' : forall i, N.testbit x i = nth (N.to_nat i) bs false).
  { intros i. rewrite Hx. destruct (N.ltb_spec i 0); [lia|]. rewrite N.sub_0_r. reflexivity. }
  destruct (num_words ls H64) as [Hw2 Hwl].
  assert (Hlen : List.length bs = List.length ls) by (symmetry; apply (Forall2_len _ _ _ Hbs)).
  set (n := N.to_nat (num_i32_flags ls)). set (ws := map (word32 x) (seq 0 n)).
  assert (El : lower_flat cx (TFlags ls) (VMap m) = lift_o (Ok (map CU32 ws))).
  { cbn [lower_flat]. unfold lower_flat_flags. rewrite Ex. cbn [obind]. fold n. rewrite flag_words_spec.
    assert (E0 : x / 2 ^ (32 * N.of_nat n) = 0).
    { apply N.div_small. apply bits_lt. intros i Hi. rewrite Hx'. apply nth_overflow. unfold n in Hi. lia. }
    rewrite E0. unfold ws. rewrite map_map. reflexivity. }
  rewrite El. apply (writes_ret cx init 0 0 (map CU32 ws)). intros s _ _. split.
  { unfold kinds. rewrite map_map. cbn [cval_kind]. unfold ws. rewrite map_map. fold n. generalize 0%nat. clear.
    induction n as [|n IH]; intros k; [reflexivity|]. cbn [seq map repeat]. f_equal. apply IH. }
  assert (Hws : Forall (fun w => w < 2 ^ 32) ws).
  { unfold ws. apply Forall_map. apply Forall_forall. intros k _. apply word32_lt. }
  split; [apply Forall_map; exact Hws|].
  assert (Hbit : forall i j, (j < 32)%nat -> (i < n)%nat -> N.testbit (nth i ws 0) (N.of_nat j) = nth (32 * i + j) bs false).
  { intros i j Hj Hi. unfold ws. rewrite (nth_indep _ 0 (word32 x 0)) by (rewrite map_length, seq_length; exact Hi).
    rewrite map_nth, seq_nth by exact Hi. rewrite word32_bit. cbn [Nat.add].
    destruct (N.ltb_spec (N.of_nat j) 32); [|lia]. cbn [andb]. rewrite Hx'. f_equal. lia. }
  exists (VMap (unpack_flags x ls [])). split.
  - unfold stands_canonically. cbn [stands]. exists ws, (unpack_flags x ls []). split; [reflexivity|]. split; [reflexivity|].
    split; [|split].
    + intros i l Hi. rewrite (unpack_bits ls x [] i l Hnd Hi). do 2 f_equal. rewrite Hx', Nat2N.id.
      assert (Hil : (i < List.length ls)%nat) by (apply nth_error_Some; congruence).
      pose proof (Nat.div_mod i 32 ltac:(discriminate)). pose proof (Nat.mod_upper_bound i 32 ltac:(discriminate)).
      rewrite Hbit by (unfold n; lia). f_equal. lia.
    + intros l Hl. apply unpack_domain in Hl. destruct Hl as [|C]; [assumption|cbn in C; congruence].
    + intros _ i w j Ew Hj.
      assert (Hi : (i < n)%nat) by (replace n with (List.length ws) by (unfold ws; rewrite map_length, seq_length; reflexivity); apply nth_error_Some; congruence).
      rewrite <- (nth_error_nth ws i 0 Ew) in Hj.
      destruct (Nat.lt_ge_cases j 32) as [L|L].
      * rewrite Hbit in Hj by assumption. destruct (Nat.lt_ge_cases (32 * i + j) (List.length ls)) as [|G]; [assumption|].
        rewrite nth_overflow in Hj by lia. discriminate.
      * exfalso. unfold ws in Hj. rewrite (nth_indep _ 0 (word32 x 0)) in Hj by (rewrite map_length, seq_length; exact Hi).
        rewrite map_nth, seq_nth in Hj by exact Hi. rewrite word32_bit in Hj.
        destruct (N.ltb_spec (N.of_nat j) 32); [lia|]. discriminate.
  - cbn [same_value]. exists m, (unpack_flags x ls []).
    split; [reflexivity|]. split; [reflexivity|]. split.
    + apply Forall_map. cbn [fst snd]. apply Forall_forall. intros l Hin.
      apply In_nth_error in Hin. destruct Hin as [k Hk].
      exists (VBool (N.testbit x (N.of_nat k))), (VBool (N.testbit x (N.of_nat k))).
      split; [|split; [apply unpack_bits; assumption|reflexivity]].
      rewrite Hx', Nat2N.id.
      clear - Hbs Hk. revert k Hk. induction Hbs as [|l' b ls' bs' Hl Hbs IH]; intros k Hk; [destruct k; discriminate|].
      destruct k as [|k]; cbn in Hk |- *.
      * inversion Hk; subst. unfold flag_of, map_any in Hl. destruct (map_get m l); [congruence|discriminate].
      * apply IH. assumption.
    + intros l Hl'. rewrite map_map. cbn [fst]. rewrite map_id.
      apply unpack_domain in Hl'. destruct Hl' as [|C]; [assumption|cbn in C; congruence].
Qed.

Lemma lowers_scalar : forall cx init t v c v',
  lower_flat cx t v = ret [c] -> cval_ok c ->
  (forall m, stands_canonically (cx_enc cx) m t [c] v') -> same_value t v v' ->
  writes cx init 0 0 (lower_flat cx t v)
    (fun cs s => kinds cs = [cval_kind c] /\ Forall cval_ok cs /\
       exists v', stands_canonically (cx_enc cx) (s_mem s) t cs v' /\ same_value t v v').
Proof.
  intros cx init t v c v' El Hc Hs Hv. rewrite El. apply writes_ret. intros s _ _. split; [reflexivity|].
  split; [constructor; [exact Hc|constructor]|]. exists v'. split; [apply Hs|exact Hv].
Qed.

Lemma lowers_pair : forall cx init t v (m : M (N * N)) (Q : N * N -> state -> Prop),
  lower_flat cx t v = (let* (ptr, len) := m in ret [CU32 ptr; CU32 len]) ->
  writes cx init 0 0 m Q ->
  (forall p n s, good s -> Q (p, n) s -> p < two32 /\ n < two32 /\
     exists v', stands_canonically (cx_enc cx) (s_mem s) t [CU32 p; CU32 n] v' /\ same_value t v v') ->
  writes cx init 0 0 (lower_flat cx t v)
    (fun cs s => kinds cs = [KU32; KU32] /\ Forall cval_ok cs /\
       exists v', stands_canonically (cx_enc cx) (s_mem s) t cs v' /\ same_value t v v').
Proof.
  intros cx init t v m Q El Hm HQ. rewrite El.
  eapply writes_mono.
  - eapply (writes_bind cx init 0 0 0 0 0 0 m _ Q (fun a c _ => c = [CU32 (fst a); CU32 (snd a)])); [exact Hm| |intros; unfold within in *; lia..].
    intros [p n]. apply writes_ret. reflexivity.
  - cbn beta. intros cs s Hg _ ([p n] & Hq & ->). cbn [fst snd]. destruct (HQ p n s Hg Hq) as (B1 & B2 & HL).
    split; [reflexivity|]. split; [repeat constructor; assumption|]. exact HL.
Qed.

Lemma twos_of_signed : forall w z, signed_range w z -> 0 < w -> twos w (of_signed (2 ^ w) z) z.
Proof.
  intros w z Hz Hw. split; [exact Hz|]. unfold of_signed. rewrite N2Z.inj_pow. 
  pose proof (Z.mod_pos_bound z (2 ^ Z.of_N w) ltac:(apply Z.pow_pos_nonneg; lia)).
  change (Z.of_N 2) with 2%Z. rewrite Z2N.id by lia. reflexivity.
Qed.
Lemma twos_low : forall w n z, signed_range w z -> 0 < w <= 32 -> twos 32 n z -> twos w (n mod 2 ^ w) z.
Proof.
  intros w n z Hz Hw [_ E]. split; [exact Hz|]. rewrite N2Z.inj_mod, <- E, N2Z.inj_pow. change (Z.of_N 2) with 2%Z.
  change (Z.of_N 32) with 32%Z. rewrite <- Znumtheory.Zmod_div_mod; [reflexivity|apply Z.pow_pos_nonneg; lia|reflexivity|].
  exists (2 ^ (32 - Z.of_N w))%Z. rewrite <- Z.pow_add_r by lia. f_equal. lia.
Qed.
Lemma twos_wide : forall w n z, signed_range w z -> 0 < w <= 32 -> of_signed two32 z = n -> twos 32 n z.
Proof.
  intros w n z Hz Hw <-. apply (twos_of_signed 32); [|lia]. unfold signed_range in *.
  pose proof (Z.pow_le_mono_r 2 (Z.of_N w - 1) (Z.of_N 32 - 1) ltac:(lia) ltac:(lia)). lia.
Qed.

Lemma lowers_ok_all : forall cx init t, correct_allocator cx init -> lowers_ok cx init t.
Proof.
  intros cx init t Hc. induction t using valtype_ind';
    [ | | | | | | | | | | | | | |apply lowers_record; assumption|apply lowers_variant; assumption|apply lowers_flags| | | |
      intros v ks Hk Hwf Hty; rewrite <- flatten_despecialize in Hk; rewrite <- lower_flat_despecialize;
      apply has_type_despecialize in Hty; apply wf_despecialize in Hwf;
      eapply writes_mono; [eapply IHt; eassumption|];
      cbn beta; intros cs s _ _ (K & O & v' & E & S); split; [exact K|]; split; [exact O|]; exists v';
      split; [apply stands_despecialize; exact E|apply same_value_despecialize; exact S] ];
    intros v ks Hk Hwf Hty; try contradiction; injection Hk as <-.
  - destruct Hty as (b & ->). apply (lowers_scalar cx init TBool _ (CU32 (if b then 1 else 0)) (VBool b)); [reflexivity|destruct b; reflexivity| |reflexivity].
    intros m. eexists; exists b. split; [reflexivity|]. split; [reflexivity|]. destruct b; split; try lia; split; intros; discriminate || auto.
  - destruct Hty as (n & -> & Hn). apply (lowers_scalar cx init TU8 _ (CU32 n) (VU8 n)); [reflexivity|cbn; change (2 ^ 32) with 4294967296; change (2 ^ 8) with 256 in Hn; lia| |reflexivity].
    intros m. exists n. rewrite N.mod_small by exact Hn. auto.
  - destruct Hty as (n & -> & Hn). apply (lowers_scalar cx init TU16 _ (CU32 n) (VU16 n)); [reflexivity|cbn; change (2 ^ 32) with 4294967296; change (2 ^ 16) with 65536 in Hn; lia| |reflexivity].
    intros m. exists n. rewrite N.mod_small by exact Hn. auto.
  - destruct Hty as (n & -> & Hn). apply (lowers_scalar cx init TU32 _ (CU32 n) (VU32 n)); [reflexivity|exact Hn| |reflexivity].
    intros m. exists n. auto.
  - destruct Hty as (n & -> & Hn). apply (lowers_scalar cx init TU64 _ (CU64 n) (VU64 n)); [reflexivity|exact Hn| |reflexivity].
    intros m. exists n. auto.
  - destruct Hty as (z & -> & Hz). apply (lowers_scalar cx init TS8 _ (CU32 (of_signed two32 z)) (VS8 z)); [reflexivity|apply of_signed32_lt| |reflexivity].
    intros m. eexists; exists z. split; [reflexivity|]. split; [reflexivity|].
    pose proof (twos_wide 8 _ z Hz ltac:(lia) eq_refl) as Hw. split; [apply twos_low; [exact Hz|lia|exact Hw]|auto].
  - destruct Hty as (z & -> & Hz). apply (lowers_scalar cx init TS16 _ (CU32 (of_signed two32 z)) (VS16 z)); [reflexivity|apply of_signed32_lt| |reflexivity].
    intros m. eexists; exists z. split; [reflexivity|]. split; [reflexivity|].
    pose proof (twos_wide 16 _ z Hz ltac:(lia) eq_refl) as Hw. split; [apply twos_low; [exact Hz|lia|exact Hw]|auto].
  - destruct Hty as (z & -> & Hz). apply (lowers_scalar cx init TS32 _ (CU32 (of_signed two32 z)) (VS32 z)); [reflexivity|apply of_signed32_lt| |reflexivity].
    intros m. eexists; exists z. split; [reflexivity|]. split; [reflexivity|]. apply (twos_of_signed 32); [exact Hz|lia].
  - destruct Hty as (z & -> & Hz). apply (lowers_scalar cx init TS64 _ (CU64 (of_signed two64 z)) (VS64 z)); [reflexivity|apply of_signed64_lt| |reflexivity].
    intros m. eexists; exists z. split; [reflexivity|]. split; [reflexivity|]. apply (twos_of_signed 64); [exact Hz|lia].
  - destruct Hty as (b & -> & Hb). destruct (canonical32_same b Hb) as [Hsame Hlt].
    apply (lowers_scalar cx init TF32 _ (CF32 (canonicalize32 b)) (VF32 (canonicalize32 (canonicalize32 b)))); [reflexivity|exact Hlt| |exists b; eauto].
    intros m. do 2 eexists. split; [reflexivity|]. split; [reflexivity|]. split; [apply canonicalize32_same|intros _; apply canonicalize32_nan].
  - destruct Hty as (b & -> & Hb). destruct (canonical64_same b Hb) as [Hsame Hlt].
    apply (lowers_scalar cx init TF64 _ (CF64 (canonicalize64 b)) (VF64 (canonicalize64 (canonicalize64 b)))); [reflexivity|exact Hlt| |exists b; eauto].
    intros m. do 2 eexists. split; [reflexivity|]. split; [reflexivity|]. split; [apply canonicalize64_same|intros _; apply canonicalize64_nan].
  - destruct Hty as (c & -> & Hsc).
    assert (Eo : of_signed two32 (Z.of_N c) = c).
    { unfold scalar_value in Hsc. unfold of_signed, two32. rewrite Z.mod_small by lia. lia. }
    apply (lowers_scalar cx init TChar _ (CU32 c) (VS32 (Z.of_N c))).
    + cbn [lower_flat lower_scalar]. rewrite Eo. reflexivity.
    + unfold scalar_value in Hsc. cbn. change (2 ^ 32) with 4294967296. lia.
    + intros m. exists c. auto.
    + reflexivity.
  - destruct Hty as (s0 & -> & Hso).
    eapply lowers_pair; [reflexivity|apply puts_string; [exact Hc|exact Hso]|].
    cbn beta. cbn [fst snd]. intros p n s Hg (B1 & B2 & c & k & Hf & Ha & Hb & Ht). cbn [fst snd] in *. split; [exact B1|]. split; [exact B2|].
    exists (VStr s0). split; [|reflexivity]. exists p, n. split; [reflexivity|]. exists c, k, s0. auto 6.
  - destruct Hty as (l & a & sz & -> & Hel & Hla & Hlen1 & Hlen2). destruct Hwf as [Hwf (a' & sz' & Hla' & Hsz)].
    rewrite Hla in Hla'. injection Hla' as <- <-.
    destruct (sp_layout_facts _ _ _ Hla) as (Ha & Hva & Hdv & Hs).
    eapply lowers_pair; [reflexivity| |].
    + eapply (puts_list cx init _ _ a sz _ (fun v q s => exists v', holds_canonically (cx_enc cx) (s_mem s) t q v' /\ same_value t v v')); try eassumption; [apply Hs; exact Hsz|].
      eapply Forall_impl; [|exact Hel]. intros v Hv q Hq1 Hq2. eapply puts_ok_all; eassumption.
    + cbn beta. cbn [fst snd]. intros b n s Hg (B1 & B2 & En & Hab & Hbb & Hall). split; [exact B1|]. split; [exact B2|].
      assert (X : exists l', List.length l' = List.length l /\ Forall2 (same_value t) l l' /\
         forall i x, nth_error l' i = Some x -> holds_canonically (cx_enc cx) (s_mem s) t (b + N.of_nat i * sz) x).
      { clear - Hall. revert b Hall. induction l as [|v l IH]; intros b Hall.
        - exists []. repeat split; [constructor|]. intros [|i] x E; discriminate.
        - destruct (Hall 0%nat v eq_refl) as (v' & Hv & Sv).
          destruct (IH (b + sz)) as (l' & Hlen & HF & HH).
          { intros k v0 E. destruct (Hall (S k) v0 E) as (w & Hw). exists w.
            replace (b + sz + N.of_nat k * sz) with (b + N.of_nat (S k) * sz) by lia. exact Hw. }
          exists (v' :: l'). split; [cbn; congruence|]. split; [constructor; assumption|].
          intros [|i] x E; cbn in E; [injection E as <-; exact Hv|].
          replace (b + N.of_nat (S i) * sz) with (b + sz + N.of_nat i * sz) by lia. apply HH. exact E. }
      destruct X as (l' & Hlen & HF & HH). exists (VList l'). split; [|cbn [same_value]; eauto].
      exists b, n. split; [reflexivity|]. exists a, sz, l'. cbn [fst snd]. split; [reflexivity|]. split; [exact Hla|].
      rewrite Hlen. split; [symmetry; exact En|]. split; [exact Hab|]. split; [exact Hbb|exact HH].
Qed.
