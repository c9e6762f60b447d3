(** Proofs: the bytes a value is read from are those it was written to. *)
From Coq Require Import NArith ZArith List String Bool Lia ZifyBool ZifyNat ZifyN.
From Verif Require Import GoBase M_Types M_Layout S_Layout L_Layout M_State M_Utf M_Load M_Store
  S_Utf S_Values S_Memory S_Flat S_Format S_Access S_Looks S_Own S_Move L_Access L_Variant L_Labels L_Despecialize L_Mem L_Frame L_RoundTrip L_StoreLoad L_Lifted L_Format
  L_CtxFree L_Own L_OwnSame L_OwnPlace L_Looks L_Move.
Import ListNotations.
Open Scope N_scope.
Open Scope go_scope.

(** ** The same value occupies the same bytes *)
Lemma own_same : forall t v v' p b, wf_type t -> same_value t v v' -> (own_bytes t v p b <-> own_bytes t v' p b).
Proof.
  intros t. induction t using valtype_ind'; intros v v' p ad Hwf Hs; try reflexivity.
  - cbn [wf_type] in Hwf. destruct Hwf as [_ Hwf]. apply all_Forall in Hwf.
    cbn [same_value] in Hs. destruct Hs as (m & m' & -> & -> & HF & _). rewrite Forall_map in HF. cbn [fst snd] in HF.
    rewrite Forall_forall in HF, H, Hwf.
    cbn [own_bytes]. unfold rec_own. split.
    + intros (m0 & ls & f & o & E & El & Hin & Hb). injection E as <-. exists m', ls, f, o. repeat (split; [assumption||reflexivity|]).
      destruct (in_combine_unmap _ _ _ _ _ Hin) as (f0 & -> & Hin'). cbn [fst snd] in *.
      pose proof (in_combine_l _ _ _ _ Hin') as Hi. destruct (HF f0 Hi) as (x & x' & Ex & Ex' & Hx). rewrite Ex in Hb. rewrite Ex'.
      apply (H f0 Hi x x' _ _ (Hwf f0 Hi) Hx). exact Hb.
    + intros (m0 & ls & f & o & E & El & Hin & Hb). injection E as <-. exists m, ls, f, o. repeat (split; [assumption||reflexivity|]).
      destruct (in_combine_unmap _ _ _ _ _ Hin) as (f0 & -> & Hin'). cbn [fst snd] in *.
      pose proof (in_combine_l _ _ _ _ Hin') as Hi. destruct (HF f0 Hi) as (x & x' & Ex & Ex' & Hx). rewrite Ex' in Hb. rewrite Ex.
      apply (H f0 Hi x x' _ _ (Hwf f0 Hi) Hx). exact Hb.
  - cbn [wf_type] in Hwf. destruct Hwf as [(Hnd & Hbf & Hre) Hwf]. apply all_Forall in Hwf.
    cbn [same_value] in Hs. destruct Hs as (key & x & key' & x' & i & c & -> & -> & S1 & S2 & Ec & Hx).
    rewrite map_case_label in S1, S2. rewrite nth_error_map in Ec. destruct (nth_error cs i) as [c0|] eqn:E0; [|discriminate]. injection Ec as <-.
    rewrite Forall_forall in H, Hwf. specialize (H c0 (nth_error_In _ _ E0)). specialize (Hwf c0 (nth_error_In _ _ E0)).
    cbn [own_bytes]. unfold var_own. rewrite !map_case_label. split.
    + intros (d & k0 & x0 & j & Ed & E & Sj & Hb). injection E as <- <-. assert (j = i) as -> by exact (selects_fun _ _ _ _ Hnd Sj S1).
      exists d, key', x', i. repeat (split; [assumption||reflexivity|]). destruct Hb as [Hb|(ls & c & q & El & Ec & Et & Hb)]; [left; exact Hb|right].
      exists ls, c, q. repeat (split; [assumption|]). rewrite nth_error_map, E0 in Ec. injection Ec as <-.
      cbn in Et, Hx. destruct (c_type c0) as [t|]; [|discriminate]. injection Et as <-. cbn [snd] in *. apply (H x x' _ _ Hwf Hx). exact Hb.
    + intros (d & k0 & x0 & j & Ed & E & Sj & Hb). injection E as <- <-. assert (j = i) as -> by exact (selects_fun _ _ _ _ Hnd Sj S2).
      exists d, key, x, i. repeat (split; [assumption||reflexivity|]). destruct Hb as [Hb|(ls & c & q & El & Ec & Et & Hb)]; [left; exact Hb|right].
      exists ls, c, q. repeat (split; [assumption|]). rewrite nth_error_map, E0 in Ec. injection Ec as <-.
      cbn in Et, Hx. destruct (c_type c0) as [t|]; [|discriminate]. injection Et as <-. cbn [snd] in *. apply (H x x' _ _ Hwf Hx). exact Hb.
  - rewrite <- !(own_despecialize t). apply IHt; [apply wf_despecialize; exact Hwf|apply same_value_despecialize; exact Hs].
Qed.

Lemma some_eq {A} (o : option A) x y : o = Some x -> o = Some y -> x = y.
Proof. congruence. Qed.

Lemma Forall2_combine {A B} (R : A -> B -> Prop) : forall l k, Forall2 R l k -> forall x y, In (x, y) (combine l k) -> R x y.
Proof.
  intros l k HF. induction HF as [|a c l k Hac HF IH]; intros x y Hin; [contradiction|].
  destruct Hin as [E|Hin]; [injection E as <- <-; exact Hac|exact (IH _ _ Hin)].
Qed.

(** ** What a held value is read from *)
Lemma held_parts : forall enc m t p v b, wf_type t -> holds_exactly enc m t p v ->
  (part_of enc m t p b <-> own_bytes t v p b \/ behind enc m t p b).
Proof.
  intros enc m t. induction t using valtype_ind'; intros p v ad Hwf Hv; unfold holds_exactly in *;
    try (cbn [holds] in Hv; contradiction);
    try (cbn [part_of own_bytes behind]; unfold among, within; tauto).
  - cbn [wf_type] in Hwf. destruct Hwf as [_ Hwf]. apply all_Forall in Hwf.
    apply holds_record in Hv. destruct Hv as (fields & ls & -> & El & HF & _).
    rewrite Forall_forall in H, Hwf.
    assert (G : forall g o, In (g, o) (combine fs (field_offsets 0 ls)) ->
      exists x, map_get fields (fst g) = Some x /\
        (part_of enc m (snd g) (p + o) ad <-> own_bytes (snd g) x (p + o) ad \/ behind enc m (snd g) (p + o) ad)).
    { intros g o Hin. destruct (Forall2_combine _ _ _ HF _ _ Hin) as (x & Ex & Hx). exists x. split; [exact Ex|].
      pose proof (in_combine_l _ _ _ _ Hin) as Hi. apply (H g Hi); [apply Hwf; exact Hi|exact Hx]. }
    cbn [part_of own_bytes behind]. unfold rec_parts, rec_own, rec_behind. split.
    + intros (ls' & f & o & E & Hin & Hb). rewrite map_map in E. cbn [fst snd] in E. rewrite El in E. injection E as <-.
      destruct (in_combine_unmap _ _ _ _ _ Hin) as (g & -> & Hin'). cbn [fst snd] in Hb.
      destruct (G g o Hin') as (x & Ex & Hg). apply Hg in Hb. destruct Hb as [Hb|Hb]; [left|right].
      * exists fields, ls, (fst g, (sp_layout (snd g), own_bytes (snd g))), o. rewrite map_map. cbn [fst snd].
        repeat (split; [assumption||reflexivity|]). split; [|rewrite Ex; exact Hb]. exact (in_combine_map (fun f : string * valtype => (fst f, (sp_layout (snd f), own_bytes (snd f)))) _ _ _ _ Hin').
      * exists ls, (fst g, (sp_layout (snd g), behind enc m (snd g))), o. rewrite map_map. cbn [fst snd].
        repeat (split; [assumption||reflexivity|]). split; [|exact Hb]. exact (in_combine_map (fun f : string * valtype => (fst f, (sp_layout (snd f), behind enc m (snd f)))) _ _ _ _ Hin').
    + intros [(m0 & ls' & f & o & E0 & E & Hin & Hb)|(ls' & f & o & E & Hin & Hb)];
        rewrite map_map in E; cbn [fst snd] in E; rewrite El in E; injection E as <-;
        destruct (in_combine_unmap _ _ _ _ _ Hin) as (g & -> & Hin'); cbn [fst snd] in Hb;
        destruct (G g o Hin') as (x & Ex & Hg);
        exists ls, (fst g, (sp_layout (snd g), part_of enc m (snd g))), o; rewrite map_map; cbn [fst snd];
        (split; [exact El|]); (split; [exact (in_combine_map (fun f : string * valtype => (fst f, (sp_layout (snd f), part_of enc m (snd f)))) _ _ _ _ Hin')|]); apply Hg.
      * injection E0 as <-. rewrite Ex in Hb. left. exact Hb.
      * right. exact Hb.
  - cbn [wf_type] in Hwf. destruct Hwf as [(Hnd & Hbf & Hre) Hwf]. apply all_Forall in Hwf.
    apply holds_variant in Hv. destruct Hv as (d & ls & i & c & key & x & -> & Ed & El & En & Ec & Hk & Hx).
    unfold some_label, L_Format.parts in Hk. rewrite map_case_label in Hk.
    rewrite Forall_forall in H, Hwf. specialize (H c (nth_error_In _ _ Ec)). specialize (Hwf c (nth_error_In _ _ Ec)).
    assert (Ei : N.to_nat (number m p (N.to_nat d)) = i) by lia.
    cbn [part_of own_bytes behind]. unfold var_parts, var_own, var_behind. rewrite !map_length. split.
    + intros (d' & Ed' & Hb). assert (d' = d) as -> by congruence. destruct Hb as [Hb|(ls' & c' & q & El' & Ec' & Et & Hb)].
      { left. exists d, key, x, i. rewrite map_case_label. repeat (split; [assumption||reflexivity|]). left. exact Hb. }
      rewrite Ei, nth_error_map, Ec in Ec'. injection Ec' as <-. cbn in Et.
      destruct (c_type c) as [t|] eqn:Tc; [|discriminate]. injection Et as <-. cbn [snd] in *.
      rewrite (payload_types_map (fun t => (sp_layout t, part_of enc m t)) fst) in El'.
      apply (H _ x _ Hwf) in Hb; [|assert (ls' = ls) as -> by exact (some_eq _ _ _ El' El); exact Hx].
      destruct Hb as [Hb|Hb].
      * left. exists d, key, x, i. rewrite map_case_label. repeat (split; [assumption||reflexivity|]). right.
        exists ls', (map_case (fun t => (sp_layout t, own_bytes t)) c), (sp_layout t, own_bytes t).
        rewrite (payload_types_map (fun t => (sp_layout t, own_bytes t)) fst). split; [exact El'|].
        split; [rewrite nth_error_map, Ec; reflexivity|]. split; [cbn; rewrite Tc; reflexivity|exact Hb].
      * right. exists d, ls', (map_case (fun t => (sp_layout t, behind enc m t)) c), (sp_layout t, behind enc m t).
        rewrite (payload_types_map (fun t => (sp_layout t, behind enc m t)) fst). split; [exact Ed|]. split; [exact El'|].
        split; [rewrite Ei, nth_error_map, Ec; reflexivity|]. split; [cbn; rewrite Tc; reflexivity|exact Hb].
    + intros [(d' & k0 & x0 & j & Ed' & E0 & Sj & Hb)|(d' & ls' & c' & q & Ed' & El' & Ec' & Et & Hb)];
        assert (d' = d) as -> by congruence; exists d; (split; [exact Ed|]).
      * injection E0 as <- <-. rewrite map_case_label in Sj. assert (j = i) as -> by exact (selects_fun _ _ _ _ Hnd Sj Hk).
        destruct Hb as [Hb|(ls' & c' & q & El' & Ec' & Et & Hb)]; [left; exact Hb|right].
        rewrite nth_error_map, Ec in Ec'. injection Ec' as <-. cbn in Et.
        destruct (c_type c) as [t|] eqn:Tc; [|discriminate]. injection Et as <-. cbn [snd] in *.
        rewrite (payload_types_map (fun t => (sp_layout t, own_bytes t)) fst) in El'.
        exists ls', (map_case (fun t => (sp_layout t, part_of enc m t)) c), (sp_layout t, part_of enc m t).
        rewrite (payload_types_map (fun t => (sp_layout t, part_of enc m t)) fst). split; [exact El'|].
        split; [rewrite Ei, nth_error_map, Ec; reflexivity|]. split; [cbn; rewrite Tc; reflexivity|]. cbn [snd].
        apply (H _ x _ Hwf); [|left; exact Hb]. assert (ls' = ls) as -> by exact (some_eq _ _ _ El' El). exact Hx.
      * right. rewrite Ei, nth_error_map, Ec in Ec'. injection Ec' as <-. cbn in Et.
        destruct (c_type c) as [t|] eqn:Tc; [|discriminate]. injection Et as <-. cbn [snd] in *.
        rewrite (payload_types_map (fun t => (sp_layout t, behind enc m t)) fst) in El'.
        exists ls', (map_case (fun t => (sp_layout t, part_of enc m t)) c), (sp_layout t, part_of enc m t).
        rewrite (payload_types_map (fun t => (sp_layout t, part_of enc m t)) fst). split; [exact El'|].
        split; [rewrite Ei, nth_error_map, Ec; reflexivity|]. split; [cbn; rewrite Tc; reflexivity|]. cbn [snd].
        apply (H _ x _ Hwf); [|right; exact Hb]. assert (ls' = ls) as -> by exact (some_eq _ _ _ El' El). exact Hx.
  - rewrite <- !(own_despecialize t). rewrite <- (parts_despecialize enc m t), <- (behind_despecialize enc m t).
    apply IHt; [apply wf_despecialize; exact Hwf|apply holds_despecialize; exact Hv].
Qed.

(** ** Values are told apart by the bytes they occupy *)
Lemma held_moves enc1 enc2 : forall t v m1 p1 m2 p2, wf_type t -> inline t ->
  (forall i, own_bytes t v p1 (p1 + i) -> byte m1 (p1 + i) = byte m2 (p2 + i)) ->
  holds_exactly enc1 m1 t p1 v -> holds_exactly enc2 m2 t p2 v.
Proof.
  intros t. unfold holds_exactly. induction t using valtype_ind'; intros v m1 p1 m2 p2 Hwf Hi HB Hv; try contradiction;
    try (cbn [holds] in *; match type of Hv with
       | context [number m1 p1 ?n] => rewrite (copied_number n m1 p1 m2 p2) in Hv; [exact Hv|];
           intros i Hn; apply HB; cbn [own_bytes]; unfold within; lia end).
  - cbn [wf_type] in Hwf. destruct Hwf as [_ Hwf]. apply all_Forall in Hwf. cbn [inline] in Hi. apply free_all in Hi.
    rewrite Forall_forall in H, Hwf, Hi.
    apply holds_record in Hv. apply holds_record. destruct Hv as (fields & ls & -> & El & HF & HD). exists fields, ls.
    split; [reflexivity|]. split; [exact El|]. split; [|exact HD].
    assert (G : forall f o, In (f, o) (combine fs (field_offsets 0 ls)) ->
      (exists x, map_get fields (fst f) = Some x /\ holds encodes (@some_label) False enc2 m2 (snd f) (p2 + o) x)).
    { intros f o Hin. destruct (Forall2_combine _ _ _ HF _ _ Hin) as (x & Ex & Hx). exists x. split; [exact Ex|].
      pose proof (in_combine_l _ _ _ _ Hin) as Hin'. apply (H f Hin' x m1 (p1 + o)); auto.
      intros i Hb. rewrite <- !N.add_assoc. apply HB. cbn [own_bytes].
      exists fields, ls, (fst f, (sp_layout (snd f), own_bytes (snd f))), o. rewrite map_map. cbn [fst snd].
      split; [reflexivity|]. split; [exact El|].
      split; [exact (in_combine_map (fun f : string * valtype => (fst f, (sp_layout (snd f), own_bytes (snd f)))) _ _ _ _ Hin)|].
      rewrite Ex, N.add_assoc. exact Hb. }
    apply Forall2_nth; [clear -HF; induction HF; cbn; congruence|]. intros i f o Ef Eo. apply G.
    clear -Ef Eo. revert i Ef Eo. generalize (field_offsets 0 ls). induction fs as [|g fs IH]; intros [|o' os] [|i] Ef Eo; cbn in *; try discriminate.
    + injection Ef as <-. injection Eo as <-. left. reflexivity.
    + right. exact (IH _ _ Ef Eo).
  - cbn [wf_type] in Hwf. destruct Hwf as [(Hnd & Hbf & Hre) Hwf]. apply all_Forall in Hwf.
    apply holds_variant in Hv. apply holds_variant. destruct Hv as (d & ls & i & c & key & x & -> & Ed & El & En & Ec & Hk & Hx).
    assert (Hsel : selects (map c_label cs) key i) by (unfold some_label, L_Format.parts in Hk; rewrite map_case_label in Hk; exact Hk).
    exists d, ls, i, c, key, x. split; [reflexivity|]. split; [exact Ed|]. split; [exact El|]. split; [|split; [exact Ec|split]].
    + rewrite <- En. symmetry. apply copied_number. intros j Hj. apply HB. cbn [own_bytes]. exists d, key, x, i.
      rewrite map_length, map_case_label. split; [exact Ed|]. split; [reflexivity|]. split; [exact Hsel|]. left. unfold within. lia.
    + unfold some_label, L_Format.parts. rewrite map_case_label. exact Hsel.
    + cbn [inline] in Hi. apply free_all in Hi. rewrite Forall_forall in H, Hwf, Hi. pose proof (nth_error_In _ _ Ec) as Hin.
      specialize (H c Hin). specialize (Hwf c Hin). specialize (Hi c Hin). destruct (c_type c) as [t|] eqn:Tc; [|exact Hx].
      apply (H x m1 (p1 + payload_offset d ls)); auto. intros j Hb. rewrite <- !N.add_assoc. apply HB. cbn [own_bytes].
      exists d, key, x, i. rewrite map_length, map_case_label. split; [exact Ed|]. split; [reflexivity|]. split; [exact Hsel|]. right.
      exists ls, (map_case (fun t => (sp_layout t, own_bytes t)) c), (sp_layout t, own_bytes t).
      rewrite (payload_types_map (fun t => (sp_layout t, own_bytes t)) fst). split; [exact El|].
      split; [rewrite nth_error_map, Ec; reflexivity|]. split; [cbn; rewrite Tc; reflexivity|]. cbn [snd]. rewrite N.add_assoc. exact Hb.
  - apply holds_despecialize. apply (IHt v m1 p1); [apply wf_despecialize; exact Hwf|apply inline_despecialize; exact Hi| |apply holds_despecialize; exact Hv].
    intros i Hb. apply HB. apply own_despecialize. exact Hb.
Qed.

(** What one memory holds at one place is one value. *)
Lemma held_same enc m : forall t p v v1 v2, wf_type t -> inline t ->
  holds_exactly enc m t p v1 -> holds_exactly enc m t p v2 -> same_value t v v1 -> same_value t v v2.
Proof.
  intros t. unfold holds_exactly. induction t using valtype_ind'; intros p v v1 v2 Hwf Hi H1 H2 Hs; try contradiction;
    try (cbn [holds] in *; subst v1 v2; exact Hs).
  - destruct H1 as (b & -> & Hb & _), H2 as (b' & -> & Hb' & _). assert (b = b') as <-; [|exact Hs]. destruct b, b'; try reflexivity.
    + symmetry. apply Hb', Hb. reflexivity.
    + apply Hb, Hb'. reflexivity.
  - destruct H1 as (z & -> & Hz), H2 as (z' & -> & Hz'). rewrite (twos_fun 8 _ _ _ ltac:(lia) Hz' Hz). exact Hs.
  - destruct H1 as (z & -> & Hz), H2 as (z' & -> & Hz'). rewrite (twos_fun 16 _ _ _ ltac:(lia) Hz' Hz). exact Hs.
  - destruct H1 as (z & -> & Hz), H2 as (z' & -> & Hz'). rewrite (twos_fun 32 _ _ _ ltac:(lia) Hz' Hz). exact Hs.
  - destruct H1 as (z & -> & Hz), H2 as (z' & -> & Hz'). rewrite (twos_fun 64 _ _ _ ltac:(lia) Hz' Hz). exact Hs.
  - destruct H1 as (z & -> & Hz & _), H2 as (z' & -> & Hz' & _). assert (z = z') as <-; [|exact Hs].
    destruct Hz as [[N1 ->]|[N1 ->]], Hz' as [[N2 ->]|[N2 ->]]; congruence||contradiction.
  - destruct H1 as (z & -> & Hz & _), H2 as (z' & -> & Hz' & _). assert (z = z') as <-; [|exact Hs].
    destruct Hz as [[N1 ->]|[N1 ->]], Hz' as [[N2 ->]|[N2 ->]]; congruence||contradiction.
  - destruct H1 as [-> _], H2 as [-> _]. exact Hs.
  - cbn [wf_type] in Hwf. destruct Hwf as [_ Hwf]. apply all_Forall in Hwf. cbn [inline] in Hi. apply free_all in Hi.
    apply holds_record in H1. apply holds_record in H2. destruct H1 as (m1 & ls & -> & El & HF & HD), H2 as (m2 & ls' & -> & El' & HF' & HD').
    assert (ls' = ls) as -> by congruence. cbn [same_value] in *. destruct Hs as (m0 & m0' & -> & E & HS & _). injection E as <-.
    exists m0, m2. repeat (split; [reflexivity|]). split; [|rewrite map_map; exact HD'].
    rewrite Forall_map in *. cbn [fst snd] in *. clear El El' HD HD'. revert HF HF' H Hwf Hi HS. generalize (field_offsets 0 ls).
    induction fs as [|f fs IH]; intros os HF HF' H Hwf Hi HS; [constructor|].
    inversion HF as [|? ? ? ? (x & Ex & Hx) HF1]; subst. inversion HF' as [|? ? ? ? (x' & Ex' & Hx') HF1']; subst.
    inversion H; subst. inversion Hwf; subst. inversion Hi; subst. inversion HS as [|? ? (z & z' & Ez & Ez' & Hz) HS1]; subst.
    constructor; [|eapply IH; eassumption]. exists z, x'. repeat (split; [assumption|]). assert (z' = x) as -> by congruence. eauto.
  - cbn [wf_type] in Hwf. destruct Hwf as [(Hnd & Hbf & Hre) Hwf]. apply all_Forall in Hwf. cbn [inline] in Hi. apply free_all in Hi.
    apply holds_variant in H1. apply holds_variant in H2.
    destruct H1 as (d & ls & i & c & key & x & -> & Ed & El & En & Ec & Hk & Hx), H2 as (d' & ls' & i' & c' & key' & x' & -> & Ed' & El' & En' & Ec' & Hk' & Hx').
    assert (d' = d) as -> by congruence. assert (ls' = ls) as -> by congruence. assert (i' = i) as -> by lia.
    assert (c' = c) as -> by congruence. unfold some_label, L_Format.parts in Hk, Hk'. rewrite map_case_label in Hk, Hk'.
    cbn [same_value] in *. destruct Hs as (k0 & x0 & k1 & x1 & j & c1 & -> & E & S0 & S1 & Ej & HR). injection E as <- <-.
    rewrite map_case_label in S0, S1. assert (j = i) as -> by exact (selects_fun _ _ _ _ Hnd S1 Hk).
    rewrite nth_error_map, Ec in Ej. injection Ej as <-.
    exists k0, x0, key', x', i. eexists. rewrite map_case_label. repeat (split; [reflexivity||assumption|]).
    split; [rewrite nth_error_map, Ec; reflexivity|]. cbn [map_case c_type] in *.
    pose proof (nth_error_In _ _ Ec) as Hin. rewrite Forall_forall in H, Hwf, Hi. specialize (H c Hin). specialize (Hwf c Hin). specialize (Hi c Hin).
    destruct (c_type c); [|exact Hx']. cbn [option_map] in HR. exact (H _ x0 x x' Hwf Hi Hx Hx' HR).
  - cbn [holds] in *. destruct H1 as (m1 & -> & F1 & D1 & _), H2 as (m2 & -> & F2 & D2 & _). cbn [same_value] in *.
    destruct Hs as (m0 & m0' & -> & E & HS & _). injection E as <-. exists m0, m2. repeat (split; [reflexivity|]). split.
    + rewrite Forall_map in *. rewrite Forall_forall in *. intros l Hin. destruct (HS l Hin) as (y & y' & Ey & Ey' & Hy). cbn [fst snd] in *.
      exists y, y'. split; [exact Ey|]. split; [|exact Hy]. apply In_nth_error in Hin. destruct Hin as [k Hk].
      rewrite <- Ey', (F1 _ _ Hk). apply F2. exact Hk.
    + rewrite map_map. cbn. rewrite map_id. exact D2.
  - apply same_value_despecialize. apply (IHt p v v1 v2); [apply wf_despecialize; exact Hwf|apply inline_despecialize; exact Hi|apply holds_despecialize; exact H1|
      apply holds_despecialize; exact H2|apply same_value_despecialize; exact Hs].
Qed.
