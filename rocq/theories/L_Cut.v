(** Proofs: lists are read element by element. *)
From Coq Require Import NArith ZArith String Bool Lia ZifyBool ZifyNat ZifyN List.
From Verif Require Import GoBase M_Types M_Layout S_Layout L_Layout M_State M_Utf M_Load M_Flat
  S_Utf S_Values S_Memory S_Inside S_Grow L_Access L_Mem L_Width L_Format L_RoundTrip L_Flat L_Grow.
Import ListNotations.
Open Scope N_scope.
Open Scope go_scope.

Lemma same_memory {A} (f : M A) s a s' : stable f -> wf_mem (s_mem s) -> f s = (Ok a, s') -> s_mem s' = s_mem s.
Proof.
  intros H (_ & Hm & _) E. destruct (H s s a s') as (w & -> & _); [|reflexivity|exact E|reflexivity].
  split; [lia|]. split; [exact Hm|]. exists []. symmetry. apply app_nil_r.
Qed.

Lemma elems_length n ld : forall p sz i s l s', load_elems n ld p sz i s = (Ok l, s') -> List.length l = n.
Proof.
  induction n as [|n IH]; intros p sz i s l s' E; cbn [load_elems] in E; [injection E as <- _; reflexivity|].
  unfold bind at 1 in E. destruct (ld (add32 p (mul32 i sz)) s) as [[v|e| |] s0]; try discriminate.
  unfold bind in E. destruct (load_elems n ld p sz (i + 1) s0) as [[vs|e| |] s1] eqn:E1; try discriminate.
  injection E as <- _. cbn [List.length]. f_equal. eapply IH. exact E1.
Qed.

Lemma elems_shift n ld p sz k : forall i s, load_elems n ld p sz (k + i) s = load_elems n ld (p + k * sz) sz i s.
Proof.
  induction n as [|n IH]; intros i s; cbn [load_elems]; [reflexivity|].
  replace (add32 p (mul32 (k + i) sz)) with (add32 (p + k * sz) (mul32 i sz)).
  2:{ unfold add32, mul32, u32. rewrite !N.add_mod_idemp_r by discriminate. f_equal. lia. }
  unfold bind. destruct (ld (add32 (p + k * sz) (mul32 i sz)) s) as [[v|e| |] s0]; try reflexivity.
  rewrite <- N.add_assoc, IH. reflexivity.
Qed.

Lemma elems_split n1 n2 ld p sz : forall i s l s', load_elems (n1 + n2) ld p sz i s = (Ok l, s') <->
  exists l1 l2 s1, l = (l1 ++ l2)%list /\ load_elems n1 ld p sz i s = (Ok l1, s1) /\ load_elems n2 ld p sz (N.of_nat n1 + i) s1 = (Ok l2, s').
Proof.
  induction n1 as [|n1 IH]; intros i s l s'.
  - cbn [Nat.add load_elems]. rewrite N.add_0_l. split.
    + intros E. exists [], l, s. auto.
    + intros (l1 & l2 & s1 & -> & E & E2). injection E as <- <-. exact E2.
  - cbn [Nat.add load_elems]. unfold bind.
    destruct (ld (add32 p (mul32 i sz)) s) as [[v|e| |] s0];
      [|split; [discriminate|intros (l1 & l2 & s1 & _ & E & _); discriminate]..].
    replace (N.of_nat (S n1) + i) with (N.of_nat n1 + (i + 1)) by lia. split.
    + intros E. destruct (load_elems (n1 + n2) ld p sz (i + 1) s0) as [[vs|e| |] s2] eqn:Ev; try discriminate. injection E as <- <-.
      apply IH in Ev. destruct Ev as (l1 & l2 & s1 & -> & E1 & E2). exists (v :: l1), l2, s1. rewrite E1. auto.
    + intros (l1 & l2 & s1 & -> & E1 & E2). destruct (load_elems n1 ld p sz (i + 1) s0) as [[vs|e| |] s2] eqn:Ev; try discriminate.
      injection E1 as <- <-. assert (X : load_elems (n1 + n2) ld p sz (i + 1) s0 = (Ok (vs ++ l2)%list, s')) by (apply IH; exists vs, l2, s2; auto).
      rewrite X. reflexivity.
Qed.

(** What LoadListFromRange does for a list inside memory. *)
Lemma range_run cx t a sz p n s : sp_layout t = Some (a, sz) -> wf_type (TList t) -> wf_mem (s_mem s) ->
  (a | p) -> p + n * sz <= m_len (s_mem s) ->
  load_list_from_range (alignment t) (size t) (load cx t) p n s
  = (let* vs := load_elems (N.to_nat n) (load cx t) p sz 0 in ret (VList vs)) s.
Proof.
  intros Hl [_ (a' & sz' & Hl' & Hsz)] W Hd Hb. rewrite Hl in Hl'. injection Hl' as <- <-.
  destruct (sp_layout_facts _ _ _ Hl) as (Ha & Hva & Hdv & Hs). unfold load_list_from_range.
  rewrite Ha, (Hs Hsz). pose proof W as (_ & Hm & _).
  erewrite bind_ok; [|reflexivity]. erewrite bind_ok; [|apply check_aligned_ok; [assumption|unfold two32; lia|assumption]].
  erewrite bind_ok; [|reflexivity].
  assert (Em : mul32 n sz = n * sz) by (unfold mul32; apply N.mod_small; unfold two32; lia).
  erewrite bind_ok; [reflexivity|]. rewrite Em, check_bounds_run by (assumption || lia).
  replace (p + n * sz <=? m_len (s_mem s)) with true by lia. reflexivity.
Qed.

Lemma range_split cx t a sz p n1 n2 s v s' : sp_layout t = Some (a, sz) -> wf_type (TList t) -> wf_mem (s_mem s) ->
  (a | p) -> p + (n1 + n2) * sz <= m_len (s_mem s) ->
  load_list_from_range (alignment t) (size t) (load cx t) p (n1 + n2) s = (Ok v, s') <->
  exists l1 l2 s1, v = VList (l1 ++ l2) /\ N.of_nat (List.length l1) = n1 /\ N.of_nat (List.length l2) = n2 /\
    load_list_from_range (alignment t) (size t) (load cx t) p n1 s = (Ok (VList l1), s1) /\
    load_list_from_range (alignment t) (size t) (load cx t) (p + n1 * sz) n2 s1 = (Ok (VList l2), s').
Proof.
  intros Hl Hwf W Hd Hb. rewrite (range_run cx t a sz), (range_run cx t a sz p n1) by (assumption || nia).
  destruct (sp_layout_facts _ _ _ Hl) as (_ & _ & Hdv & _).
  assert (Hd2 : (a | p + n1 * sz)) by (apply N.divide_add_r; [exact Hd|apply N.divide_mul_r; exact Hdv]).
  assert (R : forall l1 s1, load_elems (N.to_nat n1) (load cx t) p sz 0 s = (Ok l1, s1) ->
    load_list_from_range (alignment t) (size t) (load cx t) (p + n1 * sz) n2 s1
    = (let* vs := load_elems (N.to_nat n2) (load cx t) p sz (N.of_nat (N.to_nat n1) + 0) in ret (VList vs)) s1).
  { intros l1 s1 E. assert (Em : s_mem s1 = s_mem s).
    { eapply same_memory; [apply stable_elems; intros q; apply stable_load|exact W|exact E]. }
    rewrite (range_run cx t a sz) by (rewrite ?Em; assumption || nia). unfold bind. rewrite N2Nat.id, elems_shift. reflexivity. }
  replace (N.to_nat (n1 + n2)) with (N.to_nat n1 + N.to_nat n2)%nat by lia. split.
  - intros E. unfold bind in E. destruct (load_elems _ _ _ _ _ s) as [[l|e| |] s2] eqn:El in E; try discriminate. injection E as <- <-.
    apply elems_split in El. destruct El as (l1 & l2 & s1 & -> & E1 & E2). exists l1, l2, s1.
    rewrite (R l1 s1 E1). unfold bind. rewrite E1, E2. apply elems_length in E1, E2. repeat split; lia.
  - intros (l1 & l2 & s1 & -> & _ & _ & E1 & E2). unfold bind in E1.
    destruct (load_elems (N.to_nat n1) _ _ _ _ s) as [[l|e| |] s2] eqn:El; try discriminate. injection E1 as <- <-.
    rewrite (R l s2 eq_refl) in E2. unfold bind in E2. destruct (load_elems _ _ _ _ _ s2) as [[l'|e| |] s3] eqn:El' in E2; try discriminate.
    injection E2 as <- <-. unfold bind.
    assert (X : load_elems (N.to_nat n1 + N.to_nat n2) (load cx t) p sz 0 s = (Ok (l ++ l')%list, s3)) by (apply elems_split; exists l, l', s2; auto).
    rewrite X. reflexivity.
Qed.

Lemma range_one cx t a sz p s v s' : sp_layout t = Some (a, sz) -> wf_type (TList t) -> wf_mem (s_mem s) ->
  (a | p) -> p + sz <= m_len (s_mem s) ->
  load_list_from_range (alignment t) (size t) (load cx t) p 1 s = (Ok (VList [v]), s') <-> load cx t p s = (Ok v, s').
Proof.
  intros Hl Hwf W Hd Hb. rewrite (range_run cx t a sz) by (assumption || lia). change (N.to_nat 1) with 1%nat. cbn [load_elems].
  replace (add32 p (mul32 0 sz)) with p.
  2:{ unfold mul32, add32, u32. rewrite N.mul_0_l, N.mod_0_l, N.add_0_r by discriminate. symmetry. apply N.mod_small.
      pose proof W as (_ & Hm & _). unfold two32. lia. }
  unfold bind, ret. destruct (load cx t p s) as [[x|e| |] s0]; split; intros E; try discriminate; injection E as -> ->; reflexivity.
Qed.

Lemma lift_range cx t p n s v it s' :
  lift_flat cx (TList t) (IBase [CU32 p; CU32 n] 0) s = (Ok (v, it), s') <->
  it = IBase [CU32 p; CU32 n] 2 /\ load_list_from_range (alignment t) (size t) (load cx t) p n s = (Ok v, s').
Proof.
  cbn [lift_flat]. unfold lift_flat_list.
  erewrite bind_ok; [|apply next_u32_val; reflexivity]. cbv beta iota.
  erewrite bind_ok; [|apply next_u32_val; reflexivity]. cbv beta iota. unfold bind, ret.
  destruct (load_list_from_range _ _ _ p n s) as [[x|e| |] s0]; (split; [intros E; try discriminate|intros [-> E]; try discriminate]).
  - injection E as -> <- ->. auto.
  - injection E as -> ->. reflexivity.
Qed.

Lemma load_range cx t q s : wf_mem (s_mem s) -> q + 8 <= m_len (s_mem s) ->
  load cx (TList t) q s
  = load_list_from_range (alignment t) (size t) (load cx t) (number (s_mem s) q 4) (number (s_mem s) (q + 4) 4) s.
Proof.
  intros W Hq. cbn [load]. unfold load_list. pose proof W as (_ & Hm & _).
  erewrite bind_ok; [|apply number_u32; [exact W|unfold len; lia]].
  replace (add32 q 4) with (q + 4) by (unfold add32; symmetry; apply N.mod_small; unfold two32; lia).
  erewrite bind_ok; [|apply number_u32; [exact W|unfold len; lia]]. reflexivity.
Qed.
