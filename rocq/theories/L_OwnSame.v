(** The bytes a value occupies are all written: what they were before does not
    matter. *)
From Coq Require Import NArith ZArith List String Ascii Bool Lia ZifyBool ZifyNat ZifyN.
From Verif Require Import GoBase M_Types M_Layout S_Layout L_Layout M_State M_Utf M_Load M_Store M_Flat
  S_Utf S_Values S_Memory S_Access S_Flat S_Format S_Looks S_Own L_Access L_Variant L_Labels L_Despecialize L_Mem L_Frame
  L_RoundTrip L_StoreLoad L_Lifted L_CtxFree L_Format L_Looks L_Own.
Import ListNotations.
Open Scope N_scope.
Open Scope go_scope.

(** The [n] bytes from [p] on are in memory and in use. *)
Definition roomy (init : N -> Prop) (p n : N) (s : state) : Prop :=
  good s /\ p + n <= len s /\ forall b, within p n b -> owned init (s_hist s) b.

Definition alike (init W : N -> Prop) (p n : N) (m : M unit) : Prop :=
  forall s1 s2 o1 o2 s1' s2', roomy init p n s1 -> roomy init p n s2 ->
    m s1 = (o1, s1') -> m s2 = (o2, s2') ->
    o1 = o2 /\ (o1 = Ok tt -> forall b, W b -> byte (s_mem s1') b = byte (s_mem s2') b).

Lemma roomy_step init p n s s' R : roomy init p n s -> step init s s' R -> roomy init p n s'.
Proof.
  intros (G & L & O) St. pose proof (st_len _ _ _ _ St). split; [apply St|]. split; [lia|].
  intros b Hb. eapply step_owned; [exact St|auto].
Qed.

Lemma roomy_sub init p n q k s : roomy init p n s -> p <= q -> q + k <= p + n -> roomy init q k s.
Proof.
  intros (G & L & O) H1 H2. split; [exact G|]. split; [lia|]. intros b Hb. apply O. unfold within in *. lia.
Qed.

Lemma alike_none init p n m (W : N -> Prop) :
  (forall b, ~ W b) -> (exists o, forall s, roomy init p n s -> fst (m s) = o) -> alike init W p n m.
Proof.
  intros HW (o & Ho) s1 s2 o1 o2 s1' s2' R1 R2 E1 E2. pose proof (Ho _ R1) as H1. pose proof (Ho _ R2) as H2.
  rewrite E1 in H1. rewrite E2 in H2. cbn in *. split; [congruence|]. intros _ b Hb. destruct (HW b Hb).
Qed.

Lemma alike_fails init p n o (W : N -> Prop) : o <> Ok tt -> alike init W p n (lift_o o).
Proof.
  intros Ho s1 s2 o1 o2 s1' s2' _ _ E1 E2. inversion E1; inversion E2; subst. split; [reflexivity|]. intros X. destruct (Ho X).
Qed.

Lemma alike_lift {A} init W p n (o : outcome A) f :
  (forall a, o = Ok a -> alike init W p n (f a)) -> alike init W p n (let* a := lift_o o in f a).
Proof.
  intros H. destruct o.
  - intros s1 s2 o1 o2 s1' s2' R1 R2 E1 E2. rewrite bind_lift_ok in E1, E2. exact (H a eq_refl _ _ _ _ _ _ R1 R2 E1 E2).
  - intros s1 s2 o1 o2 s1' s2' _ _ E1 E2. unfold bind, lift_o in *. inversion E1; inversion E2; subst.
    split; [reflexivity|discriminate].
  - intros s1 s2 o1 o2 s1' s2' _ _ E1 E2. unfold bind, lift_o in *. inversion E1; inversion E2; subst.
    split; [reflexivity|discriminate].
  - intros s1 s2 o1 o2 s1' s2' _ _ E1 E2. unfold bind, lift_o in *. inversion E1; inversion E2; subst.
    split; [reflexivity|discriminate].
Qed.

Lemma alike_sub init (W W' : N -> Prop) p n q k m :
  alike init W q k m -> p <= q -> q + k <= p + n -> (forall b, W' b -> W b) -> alike init W' p n m.
Proof.
  intros H H1 H2 HW s1 s2 o1 o2 s1' s2' R1 R2 E1 E2.
  destruct (H s1 s2 o1 o2 s1' s2') as [A B]; try assumption; try (eapply roomy_sub; eassumption). split; auto.
Qed.

(** One write after the other: the second must not touch what the first one is
    compared on. *)
Lemma alike_bind init (W1 W2 R1 R2 : N -> Prop) p n m f :
  alike init W1 p n m -> keeps init R1 p n m -> alike init W2 p n f -> keeps init R2 p n f ->
  (forall b, W1 b -> within p n b /\ ~ R2 b) ->
  alike init (fun b => W1 b \/ W2 b) p n (m ;; f).
Proof.
  intros Am Km Af Kf Hd s1 s2 o1 o2 s1' s2' Q1 Q2 E1 E2. unfold bind in E1, E2.
  destruct (m s1) as [x1 t1] eqn:M1. destruct (m s2) as [x2 t2] eqn:M2.
  destruct (Am _ _ _ _ _ _ Q1 Q2 M1 M2) as [<- B].
  pose proof (Km _ _ _ (proj1 Q1) (proj1 (proj2 Q1)) M1) as S1.
  pose proof (Km _ _ _ (proj1 Q2) (proj1 (proj2 Q2)) M2) as S2.
  destruct x1 as [[]|e| |]; try (inversion E1; inversion E2; subst; split; [reflexivity|discriminate]).
  pose proof (roomy_step _ _ _ _ _ _ Q1 S1) as T1. pose proof (roomy_step _ _ _ _ _ _ Q2 S2) as T2.
  destruct (Af _ _ _ _ _ _ T1 T2 E1 E2) as [<- C]. split; [reflexivity|]. intros Eo b [Hb|Hb]; [|apply C; assumption].
  pose proof (Kf _ _ _ (proj1 T1) (proj1 (proj2 T1)) E1) as S1'.
  pose proof (Kf _ _ _ (proj1 T2) (proj1 (proj2 T2)) E2) as S2'.
  destruct (Hd b Hb) as [Hi Hn].
  rewrite (st_frame _ _ _ _ S1' b (proj2 (proj2 T1) b Hi) Hn), (st_frame _ _ _ _ S2' b (proj2 (proj2 T2) b Hi) Hn).
  apply B; [reflexivity|exact Hb].
Qed.

Lemma alike_store_bytes init p n bs : N.of_nat (List.length bs) = n -> alike init (within p n) p n (store_bytes p n bs).
Proof.
  intros Hn s1 s2 o1 o2 s1' s2' (G1 & L1 & _) (G2 & L2 & _) E1 E2.
  rewrite store_bytes_ok in E1 by assumption. rewrite store_bytes_ok in E2 by assumption.
  inversion E1; inversion E2; subst. split; [reflexivity|]. intros _ b [Hb1 Hb2]. cbn [wr s_mem].
  rewrite !byte_write by (destruct G1 as (? & _); destruct G2 as (? & _); unfold len in *; lia).
  destruct (N.leb_spec p b), (N.ltb_spec b (p + N.of_nat (List.length bs))); try lia; reflexivity.
Qed.

Lemma int_bytes_exact n x : n = 1 \/ n = 2 \/ n = 4 \/ n = 8 -> N.of_nat (List.length (int_bytes n x)) = n.
Proof. intros [->|[->|[->| ->]]]; reflexivity. Qed.

Lemma alike_store_int init v p n sg : n = 0 \/ n = 1 \/ n = 2 \/ n = 4 \/ n = 8 -> alike init (within p n) p n (store_int v p n sg).
Proof.
  intros Hn. unfold store_int. apply alike_lift. intros i _. apply alike_lift. intros _ _.
  apply alike_store_bytes. destruct Hn as [->|Hn]; [reflexivity|]. apply int_bytes_exact. exact Hn.
Qed.

Lemma alike_guarded init W al sz a n st v p : al = Ok a -> sz = Ok n -> valid_align a -> p + n < two32 ->
  alike init W p n (st v p) -> alike init W p n (guarded al sz st v p).
Proof.
  intros Ha Hn Hv Hp H s1 s2 o1 o2 s1' s2' R1 R2 E1 E2.
  destruct (guarded_cases al sz a n st v p s1 Ha Hn Hv (proj1 R1) Hp) as [(D1 & _ & G1)|[G1 D1]]; rewrite G1 in E1;
  destruct (guarded_cases al sz a n st v p s2 Ha Hn Hv (proj1 R2) Hp) as [(D2 & _ & G2)|[G2 D2]]; rewrite G2 in E2.
  - exact (H _ _ _ _ _ _ R1 R2 E1 E2).
  - destruct R2 as (_ & R2 & _). exfalso. destruct D2; [contradiction|lia].
  - destruct R1 as (_ & R1 & _). exfalso. destruct D1; [contradiction|lia].
  - inversion E1; inversion E2; subst. split; [reflexivity|discriminate].
Qed.

Definition same_ok (cx : callctx) (init : N -> Prop) (t : valtype) : Prop :=
  forall a sz v p, sp_layout t = Some (a, sz) -> wf_type t -> inline t -> lists_fit t v -> p + sz < two32 ->
  alike init (own_bytes t v p) p sz (store cx t v p).

Lemma offsets_ge : forall {A} (fs : list A) ls pos f o, Forall (fun l => valid_align (fst l)) ls ->
  In (f, o) (combine fs (field_offsets pos ls)) -> pos <= o.
Proof.
  intros A fs ls. revert fs. induction ls as [|[a s] ls IH]; intros [|g fs] pos f o Hv Hin; cbn in Hin; try contradiction.
  inversion Hv; subst. pose proof (up_to_ge a pos (valid_align_nz _ H1)). destruct Hin as [E|Hin].
  - inversion E; subst. assumption.
  - specialize (IH fs _ _ _ H2 Hin). lia.
Qed.

Lemma store_at_alike : forall cx init fs ls pos base n m, correct_allocator cx init ->
  Forall (fun f => same_ok cx init (snd f)) fs ->
  Forall (fun f => lists_fit (snd f) (match map_get m (fst f) with Some v => v | None => VNil end)) fs ->
  Forall (fun f => wf_type (snd f)) fs -> Forall (fun f => inline (snd f)) fs ->
  all_some (map (fun f => sp_layout (snd f)) fs) = Some ls ->
  base + n < two32 -> fields_end pos ls <= n ->
  alike init (fun b => exists f o, In (f, o) (combine fs (field_offsets pos ls)) /\
     own_bytes (snd f) (match map_get m (fst f) with Some v => v | None => VNil end) (base + o) b) base n
    (store_at (map (fun f => (fst f, store cx (snd f))) fs) (map (N.add base) (field_offsets pos ls)) m).
Proof.
  intros cx init fs. induction fs as [|[l t] fs IH]; intros ls pos base n m Hc Hf Hm Hw Hi Hs Hb He.
  - cbn in Hs. injection Hs as <-. apply alike_none; [intros b (f & o & [] & _)|]. exists (Ok tt). reflexivity.
  - cbn in Hs. destruct (sp_layout t) as [[a sz]|] eqn:Et; [|discriminate].
    destruct (all_some _) as [ls'|] eqn:El; [|discriminate]. injection Hs as <-.
    inversion Hf as [|? ? Hf1 Hf2]; subst. inversion Hm as [|? ? Hm1 Hm2]; subst.
    inversion Hw as [|? ? Hw1 Hw2]; subst. inversion Hi as [|? ? Hi1 Hi2]; subst. cbn [fst snd] in *.
    pose proof (all_some_valid snd fs ls' El) as Hv.
    destruct (sp_layout_facts _ _ _ Et) as (_ & Hva & _).
    cbn [fields_end] in He. pose proof (fields_end_ge ls' (up_to a pos + sz) Hv).
    cbn [map field_offsets store_at fst snd].
    set (v := match map_get m l with Some v => v | None => VNil end) in *.
    assert (A : alike init (own_bytes t v (base + up_to a pos)) base n (store cx t v (base + up_to a pos))).
    { eapply alike_sub; [eapply Hf1; [exact Et|exact Hw1|exact Hi1|exact Hm1|lia]|lia|lia|auto]. }
    assert (K : keeps init (fun _ => True) base n (store cx t v (base + up_to a pos))).
    { eapply keeps_sub; [eapply (own_ok_all cx init t Hc); [exact Et|exact Hm1|lia]|lia|auto]. }
    assert (K' : keeps init (fun b => base + (up_to a pos + sz) <= b) base n
      (store_at (map (fun f => (fst f, store cx (snd f))) fs) (map (N.add base) (field_offsets (up_to a pos + sz) ls')) m)).
    { eapply store_at_keeps; try eassumption.
      - apply Forall_forall. intros f _. apply own_ok_all. exact Hc.
      - intros f o b Hin Hob. pose proof (offsets_ge _ _ _ _ _ Hv Hin) as Ho.
        assert (X : exists x, sp_layout (snd f) = Some x).
        { apply in_combine_l in Hin. clear - Hin El. revert ls' El. induction fs as [|g fs IH]; intros ls' El; [contradiction|].
          cbn in El. destruct (sp_layout (snd g)) as [x|] eqn:Eg; [|discriminate].
          destruct (all_some _) as [ls''|] eqn:E2; [|discriminate].
          destruct Hin as [->|Hin]; [eauto|]. eapply IH; [exact Hin|reflexivity]. }
        destruct X as [[fa fsz] X]. pose proof (own_inside_all _ _ _ _ _ _ X Hob) as [Y _]. lia. }
    pose proof (IH ls' (up_to a pos + sz) base n m Hc Hf2 Hm2 Hw2 Hi2 eq_refl Hb He) as R.
    eapply alike_sub; [eapply (alike_bind init _ _ _ _ base n); [exact A|exact K|exact R|exact K'|]|lia|lia|].
    + intros b Hb'. pose proof (own_inside_all _ _ _ _ _ _ Et Hb') as Y. unfold within in *. split; lia.
    + intros b (f & o & [E|Hin] & Hob).
      * inversion E; subst. left. exact Hob.
      * right. eauto.
Qed.

Lemma in_combine_unmap {A B C} (g : A -> B) : forall (l : list A) (k : list C) x y,
  In (x, y) (combine (map g l) k) -> exists x0, x = g x0 /\ In (x0, y) (combine l k).
Proof.
  induction l as [|a l IH]; intros [|c k] x y H; cbn in *; try contradiction.
  destruct H as [E|H]; [injection E as <- <-; eauto|]. destruct (IH _ _ _ H) as (x0 & ? & ?). eauto.
Qed.

Lemma and_Forall {A} (P : A -> Prop) l : fold_right and True (map P l) -> Forall P l.
Proof. induction l; cbn; intros H; constructor; tauto. Qed.

Lemma same_ok_all : forall cx init t, correct_allocator cx init -> same_ok cx init t.
Proof.
  intros cx init t Hc. induction t using valtype_ind'; intros al sz v p Hl Hwf Hin Hfit Hp;
    try discriminate Hl; try (destruct Hin; fail);
    try (cbn in Hl; injection Hl as <- <-;
         eapply alike_guarded; [reflexivity|reflexivity|unfold valid_align; lia|exact Hp|];
         (apply alike_store_int; lia) || (destruct v; ((apply alike_store_int; lia) || (apply alike_fails; discriminate))); fail).
  - (* record *)
    cbn [sp_layout] in Hl.
    destruct (all_some (map (fun f => sp_layout (snd f)) fs)) as [ls|] eqn:El; [|discriminate].
    cbn [bindo] in Hl. assert (Hl' : sp_layout (TRecord fs) = Some (al, sz)) by (cbn [sp_layout]; rewrite El; exact Hl).
    assert (Hr : sp_record ls = (al, sz)) by congruence.
    destruct (sp_layout_facts _ _ _ Hl') as (Ha & Hva & _ & Hs).
    pose proof (all_some_valid snd fs ls El) as Hv. pose proof (sp_record_end ls Hv) as He. rewrite Hr in He. cbn [snd] in He.
    set (st := store_record (map (fun f => (fst f, mkComp (alignment (snd f)) (size (snd f)) (store cx (snd f)))) fs)).
    change (store cx (TRecord fs) v p) with (guarded (alignment (TRecord fs)) (size (TRecord fs)) st v p).
    destruct v;
      try (eapply alike_guarded; [exact Ha|apply Hs; lia|exact Hva|exact Hp|]; apply alike_fails; discriminate).
    intros s1 s2 o1 o2 s1' s2' R1 R2 E1 E2.
    assert (R1' := R1). assert (R2' := R2). destruct R1' as (G1 & L1 & _). destruct R2' as (G2 & L2 & _).
    destruct (guarded_cases (alignment (TRecord fs)) (size (TRecord fs)) al sz st (VMap m) p s1 Ha (Hs ltac:(lia)) Hva G1 Hp)
      as [(Hd & _ & _)|[X1 D1]].
    2:{ destruct (guarded_cases (alignment (TRecord fs)) (size (TRecord fs)) al sz st (VMap m) p s2 Ha (Hs ltac:(lia)) Hva G2 Hp)
          as [(Hd & _ & _)|[X2 _]]; [exfalso; destruct D1; [contradiction|lia]|].
        rewrite X1 in E1. rewrite X2 in E2. inversion E1; inversion E2; subst. split; [reflexivity|discriminate]. }
    change (guarded (alignment (TRecord fs)) (size (TRecord fs)) st (VMap m) p) with (store cx (TRecord fs) (VMap m) p) in E1, E2.
    rewrite (record_store_offsets cx fs ls) in E1;
      [|assumption|rewrite Hr; assumption|rewrite Hr; assumption|rewrite Hr, mem_len32_ok by assumption; exact L1].
    rewrite (record_store_offsets cx fs ls) in E2;
      [|assumption|rewrite Hr; assumption|rewrite Hr; assumption|rewrite Hr, mem_len32_ok by assumption; exact L2].
    destruct Hwf as [_ Hwf]. apply all_Forall in Hwf. cbn [inline] in Hin. apply and_Forall in Hin.
    assert (F : Forall (fun f => lists_fit (snd f) (match map_get m (fst f) with Some v => v | None => VNil end)) fs).
    { cbn in Hfit. specialize (Hfit m eq_refl). clear - Hfit.
      induction fs as [|f fs IH]; constructor; inversion Hfit; subst; auto.
      destruct (map_get m (fst f)) eqn:Ef; [apply H1; assumption|apply lists_fit_nil]. }
    destruct (store_at_alike cx init fs ls 0 p sz m Hc H F Hwf Hin El Hp He _ _ _ _ _ _ R1 R2 E1 E2) as [A B].
    split; [exact A|]. intros Eo b Hb. apply B; [exact Eo|].
    cbn [own_bytes] in Hb. destruct Hb as (m' & ls' & f & o & Em & El' & Hio & Hb). injection Em as <-.
    rewrite map_map in El'. cbn [fst snd] in El'. assert (ls' = ls) by congruence. subst ls'.
    destruct (in_combine_unmap _ _ _ _ _ Hio) as (f0 & -> & Hio'). exists f0, o. auto.
  - (* variant *)
    assert (Hl' := Hl). cbn [sp_layout] in Hl.
    destruct (all_some (payload_types (map (map_case sp_layout) cs))) as [ls|] eqn:El; [|discriminate].
    cbn [bindo] in Hl. destruct (sp_variant_inv _ _ _ _ Hl) as (d & dt & Hd & _ & _ & Hvd & _ & Hsz & Hcase & Hpos).
    destruct (variant_payload_placed _ _ _ _ _ El Hl' Hd) as (Hpo & _ & _ & Hpl).
    destruct (sp_layout_facts _ _ _ Hl') as (Ha & Hva & _ & Hs).
    assert (Hn : N.of_nat (List.length cs) < two32).
    { change (2 ^ 8) with 256 in *; change (2 ^ 16) with 65536 in *; change (2 ^ 24) with 16777216 in *; unfold two32; lia. }
    pose proof (up_to_ge al (payload_offset d ls + max_size ls) (valid_align_nz _ Hva)) as Hup.
    set (st := store_variant (map (map_case (fun t => mkComp (alignment t) (size t) (store cx t))) cs)).
    intros s1 s2 o1 o2 s1' s2' R1 R2 E1 E2.
    assert (R1' := R1). assert (R2' := R2). destruct R1' as (G1 & L1 & _). destruct R2' as (G2 & L2 & _).
    destruct (guarded_cases (alignment (TVariant cs)) (size (TVariant cs)) al sz st v p s1 Ha (Hs ltac:(lia)) Hva G1 Hp)
      as [(Hdv & _ & _)|[X1 D1]].
    2:{ destruct (guarded_cases (alignment (TVariant cs)) (size (TVariant cs)) al sz st v p s2 Ha (Hs ltac:(lia)) Hva G2 Hp)
          as [(Hdv & _ & _)|[X2 _]]; [exfalso; destruct D1; [contradiction|lia]|].
        change (store cx (TVariant cs) v p) with (guarded (alignment (TVariant cs)) (size (TVariant cs)) st v p) in E1, E2.
        rewrite X1 in E1. rewrite X2 in E2. inversion E1; inversion E2; subst. split; [reflexivity|discriminate]. }
    rewrite (variant_store_offsets cx cs ls al sz d) in E1; try assumption;
      [|rewrite mem_len32_ok by assumption; exact L1].
    rewrite (variant_store_offsets cx cs ls al sz d) in E2; try assumption;
      [|rewrite mem_len32_ok by assumption; exact L2].
    revert s1 s2 o1 o2 s1' s2' R1 R2 G1 G2 L1 L2 E1 E2.
    assert (K : alike init (own_bytes (TVariant cs) v p) p sz (let* (i, p0) := lift_o (match_case v cs) in
      store_uint d i p ;; match nth_error cs (N.to_nat i) with
        | Some c => match c_type c with Some t => store cx t p0 (p + payload_offset d ls) | None => ret tt end
        | None => lift_o Panic end)).
    2:{ intros s1 s2 o1 o2 s1' s2' R1 R2 _ _ _ _ E1 E2. exact (K _ _ _ _ _ _ R1 R2 E1 E2). }
    apply alike_lift. intros [i x] Em.
    destruct (match_case_inv _ _ _ _ Hn Em) as (key & Ev & Hsel).
    set (W2 := fun b => exists c t, nth_error cs (N.to_nat i) = Some c /\ c_type c = Some t /\ own_bytes t x (p + payload_offset d ls) b).
    apply (alike_sub init (fun b => within p d b \/ W2 b) _ p sz p sz); [|lia|lia|].
    + apply (alike_bind init (within p d) W2 (fun _ => True) (fun b => p + payload_offset d ls <= b)).
      * apply (alike_sub init (within p d) _ p sz p d); [|lia|lia|auto].
        apply alike_store_bytes. apply int_bytes_exact. destruct Hcase as [(_ & -> & _)|[(_ & -> & _)|(_ & -> & _)]]; lia.
      * apply (keeps_sub init (within p d) _ p sz p d); [|lia|auto].
        apply framed_store_bytes; [apply int_bytes_bytes|apply int_bytes_length].
      * destruct (nth_error cs (N.to_nat i)) as [c|] eqn:Ei; [|apply alike_fails; discriminate].
        destruct (c_type c) as [t|] eqn:Et.
        2:{ apply alike_none; [|exists (Ok tt); reflexivity]. intros b (c' & t & Ec & Et' & _). congruence. }
        destruct (payload_layout _ _ _ _ El (nth_error_In _ _ Ei) Et) as ([pa ps] & Hpt & _).
        destruct (Hpl c t pa ps (nth_error_In _ _ Ei) Et Hpt) as (_ & _ & Hin').
        apply (alike_sub init (own_bytes t x (p + payload_offset d ls)) _ p sz (p + payload_offset d ls) ps); [|lia|lia|].
        -- rewrite Forall_forall in H. specialize (H c (nth_error_In _ _ Ei)). rewrite Et in H.
           eapply H; [exact Hpt| | | |lia].
           ++ destruct Hwf as [_ Hwf]. apply all_Forall in Hwf. rewrite Forall_forall in Hwf.
              specialize (Hwf c (nth_error_In _ _ Ei)). rewrite Et in Hwf. exact Hwf.
           ++ cbn [inline] in Hin. apply and_Forall in Hin. rewrite Forall_forall in Hin.
              specialize (Hin c (nth_error_In _ _ Ei)). rewrite Et in Hin. exact Hin.
           ++ cbn in Hfit. specialize (Hfit key x (N.to_nat i) (map_case lists_fit c) Ev).
              rewrite map_map in Hfit. specialize (Hfit Hsel). rewrite nth_error_map, Ei in Hfit.
              specialize (Hfit eq_refl). cbn in Hfit. rewrite Et in Hfit. exact Hfit.
        -- intros b (c' & t' & Ec & Et' & Hb). congruence.
      * destruct (nth_error cs (N.to_nat i)) as [c|] eqn:Ei;
          [|intros s o s' Hg Hlen E; inversion E; subst; apply step_refl; assumption].
        destruct (c_type c) as [t|] eqn:Et; [|apply keeps_ret].
        destruct (payload_layout _ _ _ _ El (nth_error_In _ _ Ei) Et) as ([pa ps] & Hpt & _).
        destruct (Hpl c t pa ps (nth_error_In _ _ Ei) Et Hpt) as (_ & _ & Hin').
        apply (keeps_sub init (own_bytes t x (p + payload_offset d ls)) _ p sz (p + payload_offset d ls) ps); [|lia|].
        -- eapply (own_ok_all cx init t Hc); [exact Hpt| |lia].
           cbn in Hfit. specialize (Hfit key x (N.to_nat i) (map_case lists_fit c) Ev).
           rewrite map_map in Hfit. specialize (Hfit Hsel). rewrite nth_error_map, Ei in Hfit.
           specialize (Hfit eq_refl). cbn in Hfit. rewrite Et in Hfit. exact Hfit.
        -- intros b Hb. destruct (own_inside_all _ _ _ _ _ _ Hpt Hb) as [Y _]. exact Y.
      * intros b Hb. unfold within in *. lia.
    + intros b Hb. cbn [own_bytes] in Hb. destruct Hb as (d' & key' & x' & i' & Hd' & Ev' & Hsel' & Hb).
      rewrite map_length in Hd'. assert (d' = d) by congruence. subst d'. destruct Hb as [Hb|Hb]; [left; exact Hb|right].
      rewrite Ev in Ev'. injection Ev' as <- <-. rewrite map_map in Hsel'.
      destruct Hb as (ls' & c & r & El' & Ei & Ec & Hb).
      rewrite (payload_types_map (fun t => (sp_layout t, own_bytes t)) fst) in El'. cbn [fst] in El'.
      assert (Some ls' = Some ls) as X by (rewrite <- El; symmetry; exact El'). injection X as ->.
      assert (i' = N.to_nat i) as ->.
      { eapply selects_fun; [exact (proj1 (proj1 Hwf))|exact Hsel'|exact Hsel]. }
      rewrite nth_error_map in Ei. destruct (nth_error cs (N.to_nat i)) as [c0|] eqn:E0; [|discriminate].
      injection Ei as <-. cbn in Ec. destruct (c_type c0) as [t|] eqn:Et; [|discriminate]. injection Ec as <-.
      exists c0, t. auto.
  - (* flags *)
    cbn [sp_layout] in Hl. assert (El : sp_flags (List.length ls) = (al, sz)) by congruence.
    destruct (sp_layout_facts (TFlags ls) al sz Hl) as (Ha & Hva & _ & Hs).
    cbn [own_bytes]. rewrite El. cbn [snd].
    unfold store. eapply alike_guarded; [exact Ha|apply Hs; lia|exact Hva|exact Hp|].
    destruct v; try (apply alike_fails; discriminate). unfold store_flags. apply alike_lift. intros i _.
    apply alike_lift. intros sz' Hsz'.
    assert (sz' = sz) by (specialize (Hs ltac:(lia)); cbn [size] in Hs; congruence). subst sz'.
    apply alike_store_int. destruct Hwf as [_ Hwf]. unfold sp_flags in El.
    destruct (N.eqb_spec (N.of_nat (List.length ls)) 0); [inversion El; lia|].
    destruct (N.leb_spec (N.of_nat (List.length ls)) 8); [inversion El; lia|].
    destruct (N.leb_spec (N.of_nat (List.length ls)) 16); [inversion El; lia|]. injection El as _ <-.
    destruct (N.le_gt_cases (N.of_nat (List.length ls)) 32).
    + assert ((N.of_nat (List.length ls) + 31) / 32 = 1) as ->; [|lia].
      symmetry. apply (N.div_unique _ 32 1 (N.of_nat (List.length ls) - 1)); lia.
    + assert ((N.of_nat (List.length ls) + 31) / 32 = 2) as ->; [|lia].
      symmetry. apply (N.div_unique _ 32 2 (N.of_nat (List.length ls) - 33)); lia.
  - (* specialised *)
    rewrite <- sp_layout_despecialize in Hl. apply lists_fit_despecialize in Hfit.
    apply wf_despecialize in Hwf. apply inline_despecialize in Hin.
    rewrite <- store_despecialize. eapply alike_sub; [eapply IHt; eassumption|lia|lia|].
    intros b. apply own_despecialize.
Qed.
