(** The bytes of a value do not depend on where it is. *)
From Coq Require Import NArith ZArith List String Ascii Bool Lia ZifyBool ZifyNat ZifyN.
From Verif Require Import GoBase M_Types M_Layout S_Layout L_Layout M_State M_Utf M_Load M_Store M_Flat
  S_Utf S_Values S_Memory S_Access S_Flat S_Format S_Looks S_Own L_Access L_Variant L_Labels L_Despecialize L_Mem L_Frame
  L_RoundTrip L_StoreLoad L_Lifted L_CtxFree L_Format L_Looks L_Own L_OwnSame.
Import ListNotations.
Open Scope N_scope.
Open Scope go_scope.

Section Places.
Context (cx1 cx2 : callctx) (init1 init2 : N -> Prop).
Context (Hc1 : correct_allocator cx1 init1) (Hc2 : correct_allocator cx2 init2).

(** Two writes, in two memories, to places of [n] bytes from [p1] and [p2] on:
    they end alike, and afterwards the bytes [W] of the first place are those
    at the same distance in the second. *)
Definition twin (W : N -> Prop) (p1 p2 n : N) (m1 m2 : M unit) : Prop :=
  forall s1 s2 o1 o2 s1' s2', roomy init1 p1 n s1 -> roomy init2 p2 n s2 ->
    m1 s1 = (o1, s1') -> m2 s2 = (o2, s2') ->
    o1 = o2 /\ (o1 = Ok tt -> forall i, W (p1 + i) -> byte (s_mem s1') (p1 + i) = byte (s_mem s2') (p2 + i)).

Lemma twin_ret p1 p2 n (W : N -> Prop) : (forall b, ~ W b) -> twin W p1 p2 n (ret tt) (ret tt).
Proof.
  intros HW s1 s2 o1 o2 s1' s2' _ _ E1 E2. inversion E1; inversion E2; subst. split; [reflexivity|].
  intros _ i Hb. destruct (HW _ Hb).
Qed.

Lemma twin_fails p1 p2 n o (W : N -> Prop) : o <> Ok tt -> twin W p1 p2 n (lift_o o) (lift_o o).
Proof.
  intros Ho s1 s2 o1 o2 s1' s2' _ _ E1 E2. inversion E1; inversion E2; subst. split; [reflexivity|]. intros X. destruct (Ho X).
Qed.

Lemma twin_lift {A} W p1 p2 n (o : outcome A) f g :
  (forall a, o = Ok a -> twin W p1 p2 n (f a) (g a)) -> twin W p1 p2 n (let* a := lift_o o in f a) (let* a := lift_o o in g a).
Proof.
  intros H. destruct o.
  - intros s1 s2 o1 o2 s1' s2' R1 R2 E1 E2. rewrite bind_lift_ok in E1, E2. exact (H a eq_refl _ _ _ _ _ _ R1 R2 E1 E2).
  - intros s1 s2 o1 o2 s1' s2' _ _ E1 E2. unfold bind, lift_o in *. inversion E1; inversion E2; subst.
    split; [reflexivity|discriminate].
  - intros s1 s2 o1 o2 s1' s2' _ _ E1 E2. unfold bind, lift_o in *. inversion E1; inversion E2; subst.
    split; [reflexivity|discriminate].
  - intros s1 s2 o1 o2 s1' s2' _ _ E1 E2. unfold bind, lift_o in *. inversion E1; inversion E2; subst.
    split; [reflexivity|discriminate].
Qed.

Lemma twin_sub (W W' : N -> Prop) p1 p2 n e k m1 m2 :
  twin W (p1 + e) (p2 + e) k m1 m2 -> e + k <= n -> (forall b, W' b -> W b /\ p1 + e <= b) -> twin W' p1 p2 n m1 m2.
Proof.
  intros H H1 HW s1 s2 o1 o2 s1' s2' R1 R2 E1 E2.
  destruct (H s1 s2 o1 o2 s1' s2') as [A B]; try assumption; try (eapply roomy_sub; [eassumption|lia|lia]).
  split; [exact A|]. intros Eo i Hi. destruct (HW _ Hi) as [Hi' He]. specialize (B Eo (i - e)).
  replace (p1 + e + (i - e)) with (p1 + i) in B by lia. replace (p2 + e + (i - e)) with (p2 + i) in B by lia. auto.
Qed.

Lemma twin_weaken (W W' : N -> Prop) p1 p2 n m1 m2 :
  twin W p1 p2 n m1 m2 -> (forall b, W' b -> W b) -> twin W' p1 p2 n m1 m2.
Proof.
  intros H HW s1 s2 o1 o2 s1' s2' R1 R2 E1 E2. destruct (H _ _ _ _ _ _ R1 R2 E1 E2) as [A B]. split; auto.
Qed.

(** One write after the other: the second must not touch what the first one is
    compared on. *)
Lemma twin_bind (W1 W2 R1 R2 R1' R2' : N -> Prop) p1 p2 n m1 m2 f1 f2 :
  twin W1 p1 p2 n m1 m2 -> keeps init1 R1 p1 n m1 -> keeps init2 R1' p2 n m2 ->
  twin W2 p1 p2 n f1 f2 -> keeps init1 R2 p1 n f1 -> keeps init2 R2' p2 n f2 ->
  (forall i, W1 (p1 + i) -> i < n /\ ~ R2 (p1 + i) /\ ~ R2' (p2 + i)) ->
  twin (fun b => W1 b \/ W2 b) p1 p2 n (m1 ;; f1) (m2 ;; f2).
Proof.
  intros Am Km Km' Af Kf Kf' Hd s1 s2 o1 o2 s1' s2' Q1 Q2 E1 E2. unfold bind in E1, E2.
  destruct (m1 s1) as [x1 t1] eqn:M1. destruct (m2 s2) as [x2 t2] eqn:M2.
  destruct (Am _ _ _ _ _ _ Q1 Q2 M1 M2) as [<- B].
  pose proof (Km _ _ _ (proj1 Q1) (proj1 (proj2 Q1)) M1) as S1.
  pose proof (Km' _ _ _ (proj1 Q2) (proj1 (proj2 Q2)) M2) as S2.
  destruct x1 as [[]|e| |]; try (inversion E1; inversion E2; subst; split; [reflexivity|discriminate]).
  pose proof (roomy_step _ _ _ _ _ _ Q1 S1) as T1. pose proof (roomy_step _ _ _ _ _ _ Q2 S2) as T2.
  destruct (Af _ _ _ _ _ _ T1 T2 E1 E2) as [<- C]. split; [reflexivity|]. intros Eo i [Hb|Hb]; [|apply C; assumption].
  pose proof (Kf _ _ _ (proj1 T1) (proj1 (proj2 T1)) E1) as S1'.
  pose proof (Kf' _ _ _ (proj1 T2) (proj1 (proj2 T2)) E2) as S2'.
  destruct (Hd i Hb) as (Hi & Hn & Hn').
  rewrite (st_frame _ _ _ _ S1' (p1 + i)), (st_frame _ _ _ _ S2' (p2 + i)); try assumption.
  - apply B; [reflexivity|exact Hb].
  - apply (proj2 (proj2 T2)). unfold within. lia.
  - apply (proj2 (proj2 T1)). unfold within. lia.
Qed.

Lemma twin_store_bytes p1 p2 n bs : N.of_nat (List.length bs) = n ->
  twin (within p1 n) p1 p2 n (store_bytes p1 n bs) (store_bytes p2 n bs).
Proof.
  intros Hn s1 s2 o1 o2 s1' s2' (G1 & L1 & _) (G2 & L2 & _) E1 E2.
  rewrite store_bytes_ok in E1 by assumption. rewrite store_bytes_ok in E2 by assumption.
  inversion E1; inversion E2; subst. split; [reflexivity|]. intros _ i [Hb1 Hb2]. cbn [wr s_mem].
  rewrite !byte_write by (destruct G1 as (? & _); destruct G2 as (? & _); unfold len in *; lia).
  replace (p1 + i - p1) with i by lia. replace (p2 + i - p2) with i by lia.
  destruct (N.leb_spec p1 (p1 + i)), (N.ltb_spec (p1 + i) (p1 + N.of_nat (List.length bs))); try lia.
  destruct (N.leb_spec p2 (p2 + i)), (N.ltb_spec (p2 + i) (p2 + N.of_nat (List.length bs))); try lia. reflexivity.
Qed.

Lemma twin_store_int v p1 p2 n sg : n = 0 \/ n = 1 \/ n = 2 \/ n = 4 \/ n = 8 ->
  twin (within p1 n) p1 p2 n (store_int v p1 n sg) (store_int v p2 n sg).
Proof.
  intros Hn. unfold store_int. apply twin_lift. intros i _. apply twin_lift. intros _ _.
  apply twin_store_bytes. destruct Hn as [->|Hn]; [reflexivity|]. apply int_bytes_exact. exact Hn.
Qed.

(** The checks before a write do not tell the places apart. *)
Lemma twin_guarded W al sz a n st1 st2 v p1 p2 : al = Ok a -> sz = Ok n -> valid_align a ->
  p1 + n < two32 -> p2 + n < two32 -> (a | p1) <-> (a | p2) ->
  ((a | p1) -> (a | p2) -> twin W p1 p2 n (guarded al sz st1 v p1) (guarded al sz st2 v p2)) ->
  twin W p1 p2 n (guarded al sz st1 v p1) (guarded al sz st2 v p2).
Proof.
  intros Ha Hn Hv Hp1 Hp2 Hd H s1 s2 o1 o2 s1' s2' R1 R2 E1 E2.
  destruct (guarded_cases al sz a n st1 v p1 s1 Ha Hn Hv (proj1 R1) Hp1) as [(D1 & _ & _)|[G1 D1]].
  - exact (H D1 (proj1 Hd D1) _ _ _ _ _ _ R1 R2 E1 E2).
  - destruct (guarded_cases al sz a n st2 v p2 s2 Ha Hn Hv (proj1 R2) Hp2) as [(D2 & _ & _)|[G2 D2]].
    + exact (H (proj2 Hd D2) D2 _ _ _ _ _ _ R1 R2 E1 E2).
    + rewrite G1 in E1. rewrite G2 in E2. inversion E1; inversion E2; subst. split; [reflexivity|discriminate].
Qed.

Lemma twin_unguard W al sz a n st1 st2 v p1 p2 : al = Ok a -> sz = Ok n -> valid_align a ->
  p1 + n < two32 -> p2 + n < two32 -> (a | p1) <-> (a | p2) ->
  twin W p1 p2 n (st1 v p1) (st2 v p2) ->
  twin W p1 p2 n (guarded al sz st1 v p1) (guarded al sz st2 v p2).
Proof.
  intros Ha Hn Hv Hp1 Hp2 Hd H. eapply twin_guarded; try eassumption. intros D1 D2 s1 s2 o1 o2 s1' s2' R1 R2 E1 E2.
  destruct (guarded_cases al sz a n st1 v p1 s1 Ha Hn Hv (proj1 R1) Hp1) as [(_ & _ & G1)|[_ [D|D]]];
    [|contradiction|destruct R1 as (_ & R1 & _); lia].
  destruct (guarded_cases al sz a n st2 v p2 s2 Ha Hn Hv (proj1 R2) Hp2) as [(_ & _ & G2)|[_ [D|D]]];
    [|contradiction|destruct R2 as (_ & R2 & _); lia].
  rewrite G1 in E1. rewrite G2 in E2. exact (H _ _ _ _ _ _ R1 R2 E1 E2).
Qed.

Definition twin_ok (t : valtype) : Prop :=
  forall a sz v p1 p2, sp_layout t = Some (a, sz) -> wf_type t -> inline t -> lists_fit t v ->
  p1 + sz < two32 -> p2 + sz < two32 -> (a | p1) <-> (a | p2) ->
  twin (own_bytes t v p1) p1 p2 sz (store cx1 t v p1) (store cx2 t v p2).

Lemma add_divide_iff a p1 p2 o : (a | p1) -> (a | p2) -> (a | p1 + o) <-> (a | p2 + o).
Proof.
  intros H1 H2. split; intros H.
  - apply N.divide_add_r; [assumption|]. eapply N.divide_add_cancel_r; [|exact H]. assumption.
  - apply N.divide_add_r; [assumption|]. eapply N.divide_add_cancel_r; [|exact H]. assumption.
Qed.

Lemma store_at_twin : forall fs ls pos base1 base2 n m,
  Forall (fun f => twin_ok (snd f)) fs ->
  Forall (fun f => lists_fit (snd f) (match map_get m (fst f) with Some v => v | None => VNil end)) fs ->
  Forall (fun f => wf_type (snd f)) fs -> Forall (fun f => inline (snd f)) fs ->
  all_some (map (fun f => sp_layout (snd f)) fs) = Some ls ->
  Forall (fun l : layout => (fst l | base1)) ls -> Forall (fun l : layout => (fst l | base2)) ls ->
  base1 + n < two32 -> base2 + n < two32 -> fields_end pos ls <= n ->
  twin (fun b => exists f o, In (f, o) (combine fs (field_offsets pos ls)) /\
     own_bytes (snd f) (match map_get m (fst f) with Some v => v | None => VNil end) (base1 + o) b) base1 base2 n
    (store_at (map (fun f => (fst f, store cx1 (snd f))) fs) (map (N.add base1) (field_offsets pos ls)) m)
    (store_at (map (fun f => (fst f, store cx2 (snd f))) fs) (map (N.add base2) (field_offsets pos ls)) m).
Proof.
  intros fs. induction fs as [|[l t] fs IH]; intros ls pos base1 base2 n m Hf Hm Hw Hi Hs V1 V2 Hb1 Hb2 He.
  - cbn in Hs. injection Hs as <-. apply twin_ret. intros b (f & o & [] & _).
  - cbn in Hs. destruct (sp_layout t) as [[a sz]|] eqn:Et; [|discriminate].
    destruct (all_some _) as [ls'|] eqn:El; [|discriminate]. injection Hs as <-.
    inversion Hf as [|? ? Hf1 Hf2]; subst. inversion Hm as [|? ? Hm1 Hm2]; subst.
    inversion Hw as [|? ? Hw1 Hw2]; subst. inversion Hi as [|? ? Hi1 Hi2]; subst.
    inversion V1 as [|? ? V11 V12]; subst. inversion V2 as [|? ? V21 V22]; subst. cbn [fst snd] in *.
    pose proof (all_some_valid snd fs ls' El) as Hv.
    destruct (sp_layout_facts _ _ _ Et) as (_ & Hva & _).
    cbn [fields_end] in He. pose proof (fields_end_ge ls' (up_to a pos + sz) Hv).
    cbn [map field_offsets store_at fst snd].
    set (v := match map_get m l with Some v => v | None => VNil end) in *.
    assert (A : twin (own_bytes t v (base1 + up_to a pos)) base1 base2 n (store cx1 t v (base1 + up_to a pos)) (store cx2 t v (base2 + up_to a pos))).
    { eapply twin_sub; [eapply Hf1; [exact Et|exact Hw1|exact Hi1|exact Hm1|lia|lia|apply add_divide_iff; assumption]|lia|].
      intros b Hb. split; [exact Hb|]. apply (own_inside_all _ _ _ _ _ _ Et Hb). }
    assert (K : forall cx init base, correct_allocator cx init -> base + n < two32 ->
      keeps init (fun _ => True) base n (store cx t v (base + up_to a pos))).
    { intros cx init base Hc Hb. eapply keeps_sub; [eapply (own_ok_all cx init t Hc); [exact Et|exact Hm1|lia]|lia|auto]. }
    assert (K' : forall cx init base, correct_allocator cx init -> base + n < two32 ->
      keeps init (fun b => base + (up_to a pos + sz) <= b) base n
      (store_at (map (fun f => (fst f, store cx (snd f))) fs) (map (N.add base) (field_offsets (up_to a pos + sz) ls')) m)).
    { intros cx init base Hc Hb. eapply store_at_keeps; try eassumption.
      - apply Forall_forall. intros f _. apply own_ok_all. exact Hc.
      - intros f o b Hin Hob. pose proof (offsets_ge _ _ _ _ _ Hv Hin) as Ho.
        assert (X : exists x, sp_layout (snd f) = Some x).
        { apply in_combine_l in Hin. clear - Hin El. revert ls' El. induction fs as [|g fs IH]; intros ls' El; [contradiction|].
          cbn in El. destruct (sp_layout (snd g)) as [x|] eqn:Eg; [|discriminate].
          destruct (all_some _) as [ls''|] eqn:E2; [|discriminate].
          destruct Hin as [->|Hin]; [eauto|]. eapply IH; [exact Hin|reflexivity]. }
        destruct X as [[fa fsz] X]. pose proof (own_inside_all _ _ _ _ _ _ X Hob) as [Y _]. lia. }
    pose proof (IH ls' (up_to a pos + sz) base1 base2 n m Hf2 Hm2 Hw2 Hi2 eq_refl V12 V22 Hb1 Hb2 He) as R.
    eapply twin_weaken; [eapply (twin_bind _ _ _ _ _ _ base1 base2 n);
      [exact A|exact (K _ _ _ Hc1 Hb1)|exact (K _ _ _ Hc2 Hb2)|exact R|exact (K' _ _ _ Hc1 Hb1)|exact (K' _ _ _ Hc2 Hb2)|]|].
    + intros i Hb'. pose proof (own_inside_all _ _ _ _ _ _ Et Hb') as Y. unfold within in *. lia.
    + intros b (f & o & [E|Hin] & Hob).
      * inversion E; subst. left. exact Hob.
      * right. eauto.
Qed.

Lemma twin_ok_all : forall t, twin_ok t.
Proof.
  intros t. induction t using valtype_ind'; intros al sz v p1 p2 Hl Hwf Hin Hfit Hp1 Hp2 Hdd;
    try discriminate Hl; try (destruct Hin; fail);
    try (cbn in Hl; injection Hl as <- <-;
         eapply twin_unguard; [reflexivity|reflexivity|unfold valid_align; lia|exact Hp1|exact Hp2|exact Hdd|];
         (apply twin_store_int; lia) || (destruct v; ((apply twin_store_int; lia) || (apply twin_fails; discriminate))); fail).
  - (* record *)
    cbn [sp_layout] in Hl.
    destruct (all_some (map (fun f => sp_layout (snd f)) fs)) as [ls|] eqn:El; [|discriminate].
    cbn [bindo] in Hl. assert (Hl' : sp_layout (TRecord fs) = Some (al, sz)) by (cbn [sp_layout]; rewrite El; exact Hl).
    assert (Hr : sp_record ls = (al, sz)) by congruence.
    destruct (sp_layout_facts _ _ _ Hl') as (Ha & Hva & _ & Hs).
    pose proof (all_some_valid snd fs ls El) as Hv. pose proof (sp_record_end ls Hv) as He. rewrite Hr in He. cbn [snd] in He.
    assert (Dv : forall p, (al | p) -> Forall (fun l : layout => (fst l | p)) ls).
    { intros p Hp. apply fields_base_div; [assumption|]. replace (max_align ls) with al by (injection Hr; auto). assumption. }
    set (st := fun cx => store_record (map (fun f => (fst f, mkComp (alignment (snd f)) (size (snd f)) (store cx (snd f)))) fs)).
    change (store cx1 (TRecord fs) v p1) with (guarded (alignment (TRecord fs)) (size (TRecord fs)) (st cx1) v p1).
    change (store cx2 (TRecord fs) v p2) with (guarded (alignment (TRecord fs)) (size (TRecord fs)) (st cx2) v p2).
    destruct v;
      try (eapply twin_unguard; [exact Ha|apply Hs; lia|exact Hva|exact Hp1|exact Hp2|exact Hdd|]; apply twin_fails; discriminate).
    eapply twin_guarded; [exact Ha|apply Hs; lia|exact Hva|exact Hp1|exact Hp2|exact Hdd|]. intros D1 D2.
    change (guarded (alignment (TRecord fs)) (size (TRecord fs)) (st cx1) (VMap m) p1) with (store cx1 (TRecord fs) (VMap m) p1).
    change (guarded (alignment (TRecord fs)) (size (TRecord fs)) (st cx2) (VMap m) p2) with (store cx2 (TRecord fs) (VMap m) p2).
    intros s1 s2 o1 o2 s1' s2' R1 R2 E1 E2.
    assert (R1' := R1). assert (R2' := R2). destruct R1' as (G1 & L1 & _). destruct R2' as (G2 & L2 & _).
    rewrite (record_store_offsets cx1 fs ls) in E1;
      [|assumption|rewrite Hr; assumption|rewrite Hr; assumption|rewrite Hr, mem_len32_ok by assumption; exact L1].
    rewrite (record_store_offsets cx2 fs ls) in E2;
      [|assumption|rewrite Hr; assumption|rewrite Hr; assumption|rewrite Hr, mem_len32_ok by assumption; exact L2].
    destruct Hwf as [_ Hwf]. apply all_Forall in Hwf. cbn [inline] in Hin. apply and_Forall in Hin.
    assert (F : Forall (fun f => lists_fit (snd f) (match map_get m (fst f) with Some v => v | None => VNil end)) fs).
    { cbn in Hfit. specialize (Hfit m eq_refl). clear - Hfit.
      induction fs as [|f fs IH]; constructor; inversion Hfit; subst; auto.
      destruct (map_get m (fst f)) eqn:Ef; [apply H1; assumption|apply lists_fit_nil]. }
    destruct (store_at_twin fs ls 0 p1 p2 sz m H F Hwf Hin El (Dv _ D1) (Dv _ D2) Hp1 Hp2 He _ _ _ _ _ _ R1 R2 E1 E2) as [A B].
    split; [exact A|]. intros Eo b Hb. apply B; [exact Eo|].
    cbn [own_bytes] in Hb. destruct Hb as (m' & ls' & f & o & Em & El' & Hio & Hb). injection Em as <-.
    rewrite map_map in El'. cbn [fst snd] in El'. assert (ls' = ls) by congruence. subst ls'.
    destruct (in_combine_unmap _ _ _ _ _ Hio) as (f0 & -> & Hio'). exists f0, o. auto.
  - (* variant *)
    assert (Hl' := Hl). cbn [sp_layout] in Hl.
    destruct (all_some (payload_types (map (map_case sp_layout) cs))) as [ls|] eqn:El; [|discriminate].
    cbn [bindo] in Hl. destruct (sp_variant_inv _ _ _ _ Hl) as (d & dt & Hd & _ & _ & Hvd & _ & Hsz & Hcase & Hpos).
    destruct (variant_payload_placed _ _ _ _ _ El Hl' Hd) as (Hpo & _ & _ & Hpl).
    destruct (sp_layout_facts _ _ _ Hl') as (Ha & Hva & _ & Hs).
    assert (Hn : N.of_nat (List.length cs) < two32).
    { change (2 ^ 8) with 256 in *; change (2 ^ 16) with 65536 in *; change (2 ^ 24) with 16777216 in *; unfold two32; lia. }
    pose proof (up_to_ge al (payload_offset d ls + max_size ls) (valid_align_nz _ Hva)) as Hup.
    set (st := fun cx => store_variant (map (map_case (fun t => mkComp (alignment t) (size t) (store cx t))) cs)).
    change (store cx1 (TVariant cs) v p1) with (guarded (alignment (TVariant cs)) (size (TVariant cs)) (st cx1) v p1).
    change (store cx2 (TVariant cs) v p2) with (guarded (alignment (TVariant cs)) (size (TVariant cs)) (st cx2) v p2).
    eapply twin_guarded; [exact Ha|apply Hs; lia|exact Hva|exact Hp1|exact Hp2|exact Hdd|]. intros D1 D2.
    change (guarded (alignment (TVariant cs)) (size (TVariant cs)) (st cx1) v p1) with (store cx1 (TVariant cs) v p1).
    change (guarded (alignment (TVariant cs)) (size (TVariant cs)) (st cx2) v p2) with (store cx2 (TVariant cs) v p2).
    intros s1 s2 o1 o2 s1' s2' R1 R2 E1 E2.
    assert (R1' := R1). assert (R2' := R2). destruct R1' as (G1 & L1 & _). destruct R2' as (G2 & L2 & _).
    rewrite (variant_store_offsets cx1 cs ls al sz d) in E1; try assumption;
      [|rewrite mem_len32_ok by assumption; exact L1].
    rewrite (variant_store_offsets cx2 cs ls al sz d) in E2; try assumption;
      [|rewrite mem_len32_ok by assumption; exact L2].
    revert s1 s2 o1 o2 s1' s2' R1 R2 G1 G2 L1 L2 E1 E2.
    set (rest := fun cx p => let* (i, p0) := lift_o (match_case v cs) in
      store_uint d i p ;; match nth_error cs (N.to_nat i) with
        | Some c => match c_type c with Some t => store cx t p0 (p + payload_offset d ls) | None => ret tt end
        | None => lift_o Panic end).
    assert (K : twin (own_bytes (TVariant cs) v p1) p1 p2 sz (rest cx1 p1) (rest cx2 p2)).
    2:{ intros s1 s2 o1 o2 s1' s2' R1 R2 _ _ _ _ E1 E2. exact (K _ _ _ _ _ _ R1 R2 E1 E2). }
    unfold rest. clear rest.
    apply twin_lift. intros [i x] Em.
    destruct (match_case_inv _ _ _ _ Hn Em) as (key & Ev & Hsel).
    assert (Fit : forall c t, nth_error cs (N.to_nat i) = Some c -> c_type c = Some t -> lists_fit t x).
    { intros c t Ei Et. cbn in Hfit. specialize (Hfit key x (N.to_nat i) (map_case lists_fit c) Ev).
      rewrite map_map in Hfit. specialize (Hfit Hsel). rewrite nth_error_map, Ei in Hfit.
      specialize (Hfit eq_refl). cbn in Hfit. rewrite Et in Hfit. exact Hfit. }
    set (W2 := fun b => exists c t, nth_error cs (N.to_nat i) = Some c /\ c_type c = Some t /\ own_bytes t x (p1 + payload_offset d ls) b).
    assert (Ku : forall init p, keeps init (fun _ => True) p sz (store_uint d i p)).
    { intros init p. apply (keeps_sub init (within p d) _ p sz p d); [|lia|auto].
      apply framed_store_bytes; [apply int_bytes_bytes|apply int_bytes_length]. }
    assert (Kp : forall cx init p, correct_allocator cx init -> p + sz < two32 ->
      keeps init (fun b => p + payload_offset d ls <= b) p sz
        (match nth_error cs (N.to_nat i) with
        | Some c => match c_type c with Some t => store cx t x (p + payload_offset d ls) | None => ret tt end
        | None => lift_o Panic end)).
    { intros cx init p Hc Hp. destruct (nth_error cs (N.to_nat i)) as [c|] eqn:Ei;
        [|intros s o s' Hg Hlen E; inversion E; subst; apply step_refl; assumption].
      destruct (c_type c) as [t|] eqn:Et; [|apply keeps_ret].
      destruct (payload_layout _ _ _ _ El (nth_error_In _ _ Ei) Et) as ([pa ps] & Hpt & _).
      destruct (Hpl c t pa ps (nth_error_In _ _ Ei) Et Hpt) as (_ & _ & Hin').
      apply (keeps_sub init (own_bytes t x (p + payload_offset d ls)) _ p sz (p + payload_offset d ls) ps); [|lia|].
      - eapply (own_ok_all cx init t Hc); [exact Hpt|exact (Fit _ _ eq_refl Et)|lia].
      - intros b Hb. destruct (own_inside_all _ _ _ _ _ _ Hpt Hb) as [Y _]. exact Y. }
    apply (twin_weaken (fun b => within p1 d b \/ W2 b)).
    + eapply (twin_bind (within p1 d) W2); [|apply Ku|apply Ku| |exact (Kp _ _ _ Hc1 Hp1)|exact (Kp _ _ _ Hc2 Hp2)|].
      * apply (twin_sub (within p1 d) _ p1 p2 sz 0 d); [|lia|intros b Hb; split; [exact Hb|unfold within in Hb; lia]].
        rewrite !N.add_0_r.
        apply twin_store_bytes. apply int_bytes_exact. destruct Hcase as [(_ & -> & _)|[(_ & -> & _)|(_ & -> & _)]]; lia.
      * destruct (nth_error cs (N.to_nat i)) as [c|] eqn:Ei; [|apply twin_fails; discriminate].
        destruct (c_type c) as [t|] eqn:Et.
        2:{ apply twin_ret. intros b (c' & t & Ec & Et' & _). congruence. }
        destruct (payload_layout _ _ _ _ El (nth_error_In _ _ Ei) Et) as ([pa ps] & Hpt & _).
        destruct (Hpl c t pa ps (nth_error_In _ _ Ei) Et Hpt) as (_ & Hpa & Hin').
        apply (twin_sub (own_bytes t x (p1 + payload_offset d ls)) _ p1 p2 sz (payload_offset d ls) ps); [|lia|].
        -- rewrite Forall_forall in H. specialize (H c (nth_error_In _ _ Ei)). rewrite Et in H.
           eapply H; [exact Hpt| | |exact (Fit _ _ eq_refl Et)|lia|lia|].
           ++ destruct Hwf as [_ Hwf]. apply all_Forall in Hwf. rewrite Forall_forall in Hwf.
              specialize (Hwf c (nth_error_In _ _ Ei)). rewrite Et in Hwf. exact Hwf.
           ++ cbn [inline] in Hin. apply and_Forall in Hin. rewrite Forall_forall in Hin.
              specialize (Hin c (nth_error_In _ _ Ei)). rewrite Et in Hin. exact Hin.
           ++ apply add_divide_iff; eapply N.divide_trans; eassumption.
        -- intros b (c' & t' & Ec & Et' & Hb). assert (c' = c) by congruence. subst c'. assert (t' = t) by congruence. subst t'.
           split; [exact Hb|]. apply (own_inside_all _ _ _ _ _ _ Hpt Hb).
      * intros b Hb. unfold within in *. lia.
    + intros b Hb. cbn [own_bytes] in Hb. destruct Hb as (d' & key' & x' & i' & Hd' & Ev' & Hsel' & Hb).
      rewrite map_length in Hd'. assert (d' = d) by congruence. subst d'. destruct Hb as [Hb|Hb]; [left; exact Hb|right].
      rewrite Ev in Ev'. injection Ev' as <- <-. rewrite map_map in Hsel'.
      destruct Hb as (ls' & c & r & El' & Ei & Ec & Hb).
      rewrite (payload_types_map (fun t => (sp_layout t, own_bytes t)) fst) in El'. cbn [fst] in El'.
      assert (Some ls' = Some ls) as X by (rewrite <- El; symmetry; exact El'). injection X as ->.
      assert (i' = N.to_nat i) as ->.
      { eapply selects_fun; [exact (proj1 (proj1 Hwf))|exact Hsel'|exact Hsel]. }
      rewrite nth_error_map in Ei. destruct (nth_error cs (N.to_nat i)) as [c0|] eqn:E0; [|discriminate].
      injection Ei as <-. cbn in Ec. destruct (c_type c0) as [t|] eqn:Et; [|discriminate]. injection Ec as <-.
      exists c0, t. auto.
  - (* flags *)
    cbn [sp_layout] in Hl. assert (El : sp_flags (List.length ls) = (al, sz)) by congruence.
    destruct (sp_layout_facts (TFlags ls) al sz Hl) as (Ha & Hva & _ & Hs).
    cbn [own_bytes]. rewrite El. cbn [snd].
    unfold store. eapply twin_unguard; [exact Ha|apply Hs; lia|exact Hva|exact Hp1|exact Hp2|exact Hdd|].
    destruct v; try (apply twin_fails; discriminate). unfold store_flags. apply twin_lift. intros i _.
    apply twin_lift. intros sz' Hsz'.
    assert (sz' = sz) by (specialize (Hs ltac:(lia)); cbn [size] in Hs; congruence). subst sz'.
    apply twin_store_int. destruct Hwf as [_ Hwf]. unfold sp_flags in El.
    destruct (N.eqb_spec (N.of_nat (List.length ls)) 0); [inversion El; lia|].
    destruct (N.leb_spec (N.of_nat (List.length ls)) 8); [inversion El; lia|].
    destruct (N.leb_spec (N.of_nat (List.length ls)) 16); [inversion El; lia|]. injection El as _ <-.
    destruct (N.le_gt_cases (N.of_nat (List.length ls)) 32).
    + assert ((N.of_nat (List.length ls) + 31) / 32 = 1) as ->; [|lia].
      symmetry. apply (N.div_unique _ 32 1 (N.of_nat (List.length ls) - 1)); lia.
    + assert ((N.of_nat (List.length ls) + 31) / 32 = 2) as ->; [|lia].
      symmetry. apply (N.div_unique _ 32 2 (N.of_nat (List.length ls) - 33)); lia.
  - (* specialised *)
    rewrite <- sp_layout_despecialize in Hl. apply lists_fit_despecialize in Hfit.
    apply wf_despecialize in Hwf. apply inline_despecialize in Hin.
    rewrite <- (store_despecialize cx1), <- (store_despecialize cx2). eapply twin_weaken; [eapply IHt; eassumption|].
    intros b. apply own_despecialize.
Qed.

End Places.

(** Which bytes of its place a value occupies does not depend on the place. *)
Lemma own_shift : forall t v p1 p2 o i, own_bytes t v (p1 + o) (p1 + i) -> own_bytes t v (p2 + o) (p2 + i).
Proof.
  intros t. induction t using valtype_ind'; intros v p1 p2 o i Hb;
    try (cbn [own_bytes] in *; unfold within in *; lia); try exact Hb.
  - cbn [own_bytes] in *. destruct Hb as (m & ls & f & e & Ev & El & Hio & Hb).
    destruct (in_combine_unmap _ _ _ _ _ Hio) as (f0 & -> & Hio').
    exists m, ls, (fst f0, (sp_layout (snd f0), own_bytes (snd f0))), e. split; [exact Ev|]. split; [exact El|]. split; [exact Hio|].
    cbn [fst snd] in *. rewrite Forall_forall in H. rewrite <- N.add_assoc. rewrite <- N.add_assoc in Hb.
    eapply (H f0); [eapply in_combine_l; exact Hio'|exact Hb].
  - cbn [own_bytes] in *. destruct Hb as (d & key & x & j & Hd & Ev & Hs & Hb).
    exists d, key, x, j. split; [exact Hd|]. split; [exact Ev|]. split; [exact Hs|].
    destruct Hb as [Hb|(ls & c & q & El & Ec & Et & Hb)]; [left; unfold within in *; lia|right].
    exists ls, c, q. split; [exact El|]. split; [exact Ec|]. split; [exact Et|].
    rewrite nth_error_map in Ec. destruct (nth_error cs j) as [c0|] eqn:E0; [|discriminate]. injection Ec as <-.
    rewrite Forall_forall in H. specialize (H c0 (nth_error_In _ _ E0)).
    cbn in Et. destruct (c_type c0) as [t|] eqn:Et0; [|discriminate]. injection Et as <-. cbn [snd] in *.
    rewrite <- N.add_assoc. rewrite <- N.add_assoc in Hb. exact (H _ _ _ _ _ Hb).
  - apply own_despecialize. apply own_despecialize in Hb. eapply IHt; exact Hb.
Qed.

(** Without lists no list is too long. *)
Lemma inline_fits : forall t v, inline t -> lists_fit t v.
Proof.
  intros t. induction t using valtype_ind'; intros v Hi; try exact I; try (destruct Hi; fail).
  - cbn [inline] in Hi. apply and_Forall in Hi. cbn [lists_fit]. intros m E. rewrite Forall_map.
    rewrite Forall_forall in *. intros f Hf x _. cbn [fst snd] in *. exact (H f Hf x (Hi f Hf)).
  - cbn [inline] in Hi. apply and_Forall in Hi. cbn [lists_fit]. intros key p i c Ev Hs Hn.
    rewrite nth_error_map in Hn. destruct (nth_error cs i) as [c0|] eqn:E0; [|discriminate]. injection Hn as <-.
    rewrite Forall_forall in *. specialize (H c0 (nth_error_In _ _ E0)). specialize (Hi c0 (nth_error_In _ _ E0)).
    cbn [map_case c_type]. destruct (c_type c0) as [t|]; [exact (H p Hi)|exact I].
  - apply inline_despecialize in Hi. apply lists_fit_despecialize. apply IHt, Hi.
Qed.
