(** Proofs: what is loaded from memory is also loaded after it has grown. *)
From Coq Require Import NArith ZArith String Bool Lia ZifyBool ZifyNat ZifyN List.
From Verif Require Import GoBase M_Types M_Layout S_Layout L_Layout M_State M_Utf M_Load M_Flat M_Canon
  S_Utf S_Values S_Memory S_Inside S_Grow L_Access L_Flat L_Labels L_Despecialize L_Looks.
Import ListNotations.
Open Scope N_scope.
Open Scope go_scope.

(** What succeeds in one memory succeeds alike in every memory it grows to. *)
Definition stable {A} (f : M A) : Prop := forall s1 s2 a s1',
  appended (s_mem s1) (s_mem s2) -> s_world s1 = s_world s2 -> f s1 = (Ok a, s1') ->
  exists w, s1' = with_world s1 w /\ f s2 = (Ok a, with_world s2 w).

Lemma stable_lift {A} (o : outcome A) : stable (lift_o o).
Proof.
  intros s1 s2 a s1' _ Ew E. injection E as -> <-. exists (s_world s1). split; [symmetry; apply with_same|].
  rewrite Ew, with_same. reflexivity.
Qed.
Lemma stable_ret {A} (x : A) : stable (ret x).
Proof. apply (stable_lift (Ok x)). Qed.
Lemma stable_bind {A B} (f : M A) (g : A -> M B) : stable f -> (forall a, stable (g a)) -> stable (bind f g).
Proof.
  intros Hf Hg s1 s2 b s1' Ha Ew E. unfold bind in E. destruct (f s1) as [o s] eqn:Ef.
  destruct o as [a|e| |]; try discriminate.
  destruct (Hf s1 s2 a s Ha Ew Ef) as (w & -> & E2).
  destruct (Hg a (with_world s1 w) (with_world s2 w) b s1' Ha eq_refl E) as (w' & -> & E3).
  exists w'. split; [reflexivity|]. unfold bind. rewrite E2. exact E3.
Qed.
Lemma stable_worldly {A} (f : M A) : worldly f -> stable f.
Proof.
  intros H s1 s2 a s1' _ Ew E. destruct (H s1) as (o & w & _ & Ho). rewrite (Ho s1 eq_refl) in E. injection E as -> <-.
  exists w. split; [reflexivity|]. apply Ho. symmetry. exact Ew.
Qed.

Lemma slice_more m1 m2 more lo hi bs : m_data m2 = (m_data m1 ++ more)%list -> mem_slice m1 lo hi = Ok bs -> mem_slice m2 lo hi = Ok bs.
Proof.
  intros E H. unfold mem_slice, mem_cap in *. rewrite E, app_length.
  destruct (lo <=? hi) eqn:H1; [|discriminate].
  destruct (hi <=? N.of_nat (List.length (m_data m1))) eqn:H2; [|discriminate]. cbn [andb] in *. injection H as <-.
  replace (hi <=? N.of_nat (List.length (m_data m1) + List.length more)) with true by lia.
  rewrite skipn_app, firstn_app, skipn_length.
  replace (N.to_nat (hi - lo) - (List.length (m_data m1) - N.to_nat lo))%nat with 0%nat by lia.
  rewrite firstn_O, app_nil_r. reflexivity.
Qed.

Lemma stable_slice {A} lo hi (f : list N -> M A) : (forall bs, stable (f bs)) ->
  stable (let* m := get_mem in let* bs := lift_o (mem_slice m lo hi) in f bs).
Proof.
  intros Hf s1 s2 a s1' Ha Ew E. unfold bind, get_mem, lift_o in *.
  destruct (mem_slice (s_mem s1) lo hi) as [bs|e| |] eqn:Es; try discriminate.
  pose proof Ha as (_ & _ & more & Em). rewrite (slice_more _ _ _ _ _ _ Em Es). apply (Hf bs s1 s2 a s1' Ha Ew E).
Qed.

Lemma stable_uint k p : stable (load_uint k p).
Proof. unfold load_uint. apply stable_slice. intros bs. apply stable_ret. Qed.

Lemma stable_bounds e p n : stable (check_bounds e p n).
Proof.
  intros s1 s2 a s1' Ha Ew E. pose proof Ha as (Hl & Hm & _). unfold check_bounds, bind, get_mem in *. cbv beta iota in *.
  unfold mem_len32, u32 in *. rewrite (N.mod_small (m_len (s_mem s2))) by exact Hm.
  rewrite (N.mod_small (m_len (s_mem s1))) in E by (change two32 with (2 ^ 32); lia).
  destruct (m_len (s_mem s1) <? add32 p n) eqn:H1; [discriminate|].
  replace (m_len (s_mem s2) <? add32 p n) with false by lia.
  apply (stable_ret tt s1 s2 a s1' Ha Ew E).
Qed.

Create HintDb stable.
#[export] Hint Resolve stable_lift stable_ret stable_uint stable_bounds : stable.
Ltac stable1 :=
  match goal with
  | |- stable (bind _ _) => apply stable_bind; [|let x := fresh "x" in intros x]
  | |- stable (match ?x with _ => _ end) => destruct x
  | |- stable (if ?x then _ else _) => destruct x
  | _ => solve [auto with stable]
  end.
Ltac stably := intros; cbv zeta; repeat stable1.

Lemma stable_int t p : stable (load_int t p).
Proof. unfold load_int. stably. Qed.
#[export] Hint Resolve stable_int : stable.
Lemma stable_sized p n : stable (load_int_with_size p n).
Proof. unfold load_int_with_size. stably. Qed.
#[export] Hint Resolve stable_sized : stable.
Lemma stable_u32 p : stable (load_u32 p).
Proof. unfold load_u32. stably. Qed.
Lemma stable_u64 p : stable (load_u64 p).
Proof. unfold load_u64. stably. Qed.
Lemma stable_aligned e p a : stable (check_aligned e p a).
Proof. unfold check_aligned. stably. Qed.
#[export] Hint Resolve stable_u32 stable_u64 stable_aligned : stable.
Lemma stable_own cx i rt : stable (lift_own cx i rt).
Proof. apply stable_worldly, worldly_lift_own. Qed.
Lemma stable_borrow cx i rt : stable (lift_borrow cx i rt).
Proof. apply stable_worldly, worldly_lift_borrow. Qed.
#[export] Hint Resolve stable_own stable_borrow : stable.

Lemma stable_text cx p n : stable (load_string_from_range cx p n).
Proof.
  unfold load_string_from_range. cbv zeta. apply stable_bind; [auto with stable|]. intros c.
  apply stable_bind; [auto with stable|]. intros _. apply stable_bind; [auto with stable|]. intros _.
  apply stable_slice. stably.
Qed.
Lemma stable_elems n ld : (forall p, stable (ld p)) -> forall p sz i, stable (load_elems n ld p sz i).
Proof. intros H. induction n as [|n IH]; intros p sz i; cbn [load_elems]; [stably|]. stably. Qed.
Lemma stable_range al sz ld : (forall p, stable (ld p)) -> forall p n, stable (load_list_from_range al sz ld p n).
Proof.
  intros H p n. unfold load_list_from_range. pose proof (stable_elems (N.to_nat n) ld H). stably.
Qed.
#[export] Hint Resolve stable_text stable_range : stable.

Lemma stable_load cx t : forall p, stable (load cx t p).
Proof.
  induction t using valtype_ind'; intros p; cbn [load];
    try (unfold load_bool, load_f32, load_f64, load_char, load_string, load_list, load_flags, ret_u32; stably; fail).
  - unfold load_record. apply stable_bind; [|stably].
    assert (F : forall acc p, stable (load_fields (map (fun f => (fst f, mkComp (alignment (snd f)) (size (snd f)) (load cx (snd f)))) fs) p acc)); [|apply F].
    clear p. induction fs as [|[l t] fs IH]; intros acc p; cbn [map fst snd load_fields q_al q_op q_sz]; [stably|].
    inversion H; subst. cbn [snd] in *. specialize (IH H3). stably.
  - unfold load_variant. apply stable_bind; [stably|]. intros dt.
    apply stable_bind; [stably|]. intros iv. apply stable_bind; [stably|]. intros i. cbv zeta.
    destruct (_ <=? i); [stably|]. rewrite nth_error_map.
    destruct (nth_error cs (N.to_nat i)) as [c|] eqn:Ec; cbn [option_map]; [|stably].
    apply nth_error_In in Ec. rewrite Forall_forall in H. specialize (H c Ec).
    destruct c as [l [t|] r]; cbn [map_case c_type q_op] in *; [cbn in H|]; stably.
  - rewrite <- (load_despecialize cx t). apply IHt.
Qed.
#[export] Hint Resolve stable_load : stable.

Lemma stable_next32 it : stable (next_u32 it).
Proof. unfold next_u32. stably. Qed.
Lemma stable_next64 it : stable (next_u64 it).
Proof. unfold next_u64. stably. Qed.
Lemma stable_nextf32 it : stable (next_f32 it).
Proof. unfold next_f32. stably. Qed.
Lemma stable_nextf64 it : stable (next_f64 it).
Proof. unfold next_f64. stably. Qed.
#[export] Hint Resolve stable_next32 stable_next64 stable_nextf32 stable_nextf64 : stable.
Lemma stable_words n : forall sh acc it, stable (lift_flag_words n sh acc it).
Proof. induction n as [|n IH]; intros sh acc it; cbn [lift_flag_words]; stably. Qed.
#[export] Hint Resolve stable_words : stable.

Lemma stable_lifted cx t : forall it, stable (lift_flat cx t it).
Proof.
  induction t using valtype_ind'; intros it; cbn [lift_flat];
    try (unfold lmap, lift_flat_char, lift_flat_flags, lift_flat_string, lift_flat_list, lift_flat_handle; stably; fail).
  - unfold lift_flat_record. apply stable_bind; [|stably].
    assert (F : forall acc it, stable (lift_fields (map (fun f => (fst f, lift_flat cx (snd f))) fs) acc it)); [|apply F].
    clear it. induction fs as [|[l t] fs IH]; intros acc it; cbn [map fst snd lift_fields]; [stably|].
    inversion H; subst. cbn [snd] in *. specialize (IH H3). stably.
  - unfold lift_flat_variant. apply stable_bind; [stably|]. intros [|first rest]; [stably|]. destruct (negb _); [stably|].
    apply stable_bind; [stably|]. intros [i it1]. destruct (_ <=? i); [stably|].
    rewrite nth_error_map. destruct (nth_error cs (N.to_nat i)) as [c|] eqn:Ec; cbn [option_map]; [|stably].
    apply nth_error_In in Ec. rewrite Forall_forall in H. specialize (H c Ec).
    destruct c as [l [t|] r]; cbn [map_case c_type] in *; [cbn in H|]; stably.
  - rewrite <- (lift_flat_despecialize cx t). apply IHt.
Qed.

#[export] Hint Resolve stable_lifted : stable.
Lemma stable_each cx ts : forall it, stable (lift_each (map (lift_flat cx) ts) it).
Proof. induction ts as [|t ts IH]; intros it; cbn [map lift_each]; stably. Qed.
#[export] Hint Resolve stable_each : stable.
Lemma stable_values order cx max ts it : stable (lift_values order cx max ts it).
Proof.
  unfold lift_values. apply stable_bind; [stably|]. intros flat. destruct (Nat.leb _ _); [stably|].
  apply stable_bind; [stably|]. intros [ptr it']. apply stable_bind; [stably|]. intros a. apply stable_bind; [stably|]. intros _.
  apply stable_bind; [stably|]. intros sz. apply stable_bind; [stably|]. intros _.
  apply stable_bind; [apply stable_load|]. intros v. stably.
Qed.

(** Memory cut to its length, which is all a guest can see of it. *)
Definition cut (s : state) : state :=
  mkState (mkMem (firstn (N.to_nat (m_len (s_mem s))) (m_data (s_mem s))) (m_len (s_mem s))) (s_hist s) (s_world s).
Lemma cut_length s : wf_mem (s_mem s) -> List.length (m_data (s_mem (cut s))) = N.to_nat (m_len (s_mem s)).
Proof. intros (H & _). unfold mem_cap in H. cbn [cut s_mem m_data]. rewrite firstn_length. lia. Qed.
Lemma cut_wf s : wf_mem (s_mem s) -> wf_mem (s_mem (cut s)).
Proof.
  intros H. pose proof (cut_length s H) as L. destruct H as (H1 & H2 & H3). split; [|split; [exact H2|]].
  - unfold mem_cap. rewrite L. cbn [cut s_mem m_len]. lia.
  - cbn [cut s_mem m_data]. rewrite Forall_forall in *. intros x Hx. apply H3.
    rewrite <- (firstn_skipn (N.to_nat (m_len (s_mem s)))). apply in_or_app. left. exact Hx.
Qed.
Lemma cut_byte s i : i < m_len (s_mem s) -> byte (s_mem (cut s)) i = byte (s_mem s) i.
Proof.
  intros H. unfold byte. cbn [cut s_mem m_data].
  rewrite <- (firstn_skipn (N.to_nat (m_len (s_mem s))) (m_data (s_mem s))) at 2.
  destruct (Nat.lt_ge_cases (N.to_nat i) (List.length (firstn (N.to_nat (m_len (s_mem s))) (m_data (s_mem s))))) as [L|L].
  - symmetry. apply app_nth1. exact L.
  - rewrite firstn_length in L. rewrite (firstn_skipn (N.to_nat (m_len (s_mem s)))).
    rewrite !nth_overflow; [reflexivity| |rewrite firstn_length]; lia.
Qed.
Lemma cut_appended s1 s2 : wf_mem (s_mem s1) -> wf_mem (s_mem s2) -> grown (s_mem s1) (s_mem s2) ->
  appended (s_mem (cut s1)) (s_mem s2).
Proof.
  intros W1 W2 (Hl & Hb). split; [exact Hl|]. split; [apply W2|].
  exists (skipn (N.to_nat (m_len (s_mem s1))) (m_data (s_mem s2))).
  rewrite <- (firstn_skipn (N.to_nat (m_len (s_mem s1))) (m_data (s_mem s2))) at 1. f_equal.
  pose proof (cut_length s1 W1) as L. destruct W2 as (C2 & _). unfold mem_cap in C2.
  apply (nth_ext _ _ 0 0).
  - rewrite L, firstn_length. lia.
  - rewrite firstn_length. intros n Hn. assert (Hi : N.of_nat n < m_len (s_mem s1)) by lia.
    pose proof (cut_byte s1 _ Hi) as Hc. rewrite <- (Hb _ Hi) in Hc. unfold byte in Hc. rewrite Nat2N.id in Hc. rewrite Hc.
    rewrite <- (firstn_skipn (N.to_nat (m_len (s_mem s1))) (m_data (s_mem s2))) at 2. symmetry. apply app_nth1.
    rewrite firstn_length. lia.
Qed.

(** ** A memory of 4 GiB *)
Lemma full_u32 p more s1 s2 n s1' : m_data (s_mem s2) = (m_data (s_mem s1) ++ more)%list ->
  load_u32 p s1 = (Ok n, s1') -> s1' = s1 /\ load_u32 p s2 = (Ok n, s2).
Proof.
  intros Em E. unfold load_u32, load_int, load_uint, bind, get_mem, lift_o, ret in *.
  destruct (mem_slice (s_mem s1) p (add32 p 4)) as [bs|e| |] eqn:Es; try discriminate.
  rewrite (slice_more _ _ _ _ _ _ Em Es). injection E as <- <-. auto.
Qed.

Lemma full_text cx p more s1 s2 txt s1' : m_data (s_mem s2) = (m_data (s_mem s1) ++ more)%list -> m_len (s_mem s2) = 2 ^ 32 ->
  load cx TString p s1 = (Ok (VStr txt), s1') -> txt <> [] -> load cx TString p s2 = (Err ETrap, s2).
Proof.
  intros Em Hl E Ht. cbn [load] in *. unfold load_string in *.
  unfold bind at 1 in E. destruct (load_u32 p s1) as [[b|e| |] s] eqn:E1; try discriminate.
  destruct (full_u32 _ _ _ s2 _ _ Em E1) as (-> & E1').
  unfold bind at 1 in E. destruct (load_u32 (add32 p 4) s1) as [[n|e| |] s] eqn:E2; try discriminate.
  destruct (full_u32 _ _ _ s2 _ _ Em E2) as (-> & E2').
  unfold bind at 1. rewrite E1'. unfold bind at 1. rewrite E2'.
  unfold load_string_from_range in *. cbv zeta in *.
  remember (match cx_enc cx with EncLatin1Utf16 => if tcu_utf16 (u32_to_tagged n) then EncUtf16LE else EncLatin1 | e => e end) as enc.
  unfold bind at 1 in E. unfold bind at 1. destruct (get_codec enc) as [c|e| |] eqn:Ec; try discriminate. unfold lift_o at 1 in E. unfold lift_o at 1.
  set (len := mul32 (tcu_units (u32_to_tagged n)) (codec_rune_size c)) in *.
  unfold bind at 1 in E. unfold bind at 1.
  assert (Ha : forall s', check_aligned ETrap b (codec_alignment c) s' = (fst (check_aligned ETrap b (codec_alignment c) s1), s')).
  { intros s'. unfold check_aligned, bind, lift_o. destruct (align_to b (codec_alignment c)); try reflexivity. destruct (b =? a); reflexivity. }
  rewrite Ha in E. rewrite Ha. destruct (fst (check_aligned ETrap b (codec_alignment c) s1)); try discriminate.
  unfold check_bounds, bind, get_mem, lift_o, ret in *. unfold mem_len32 at 1. rewrite Hl. change (u32 (2 ^ 32)) with 0.
  destruct (0 <? add32 b len) eqn:Hz; [reflexivity|]. exfalso.
  destruct (mem_len32 (s_mem s1) <? add32 b len); [discriminate|].
  unfold mem_slice in E. destruct (b <=? add32 b len) eqn:Hb; [|discriminate]. cbn [andb] in E.
  destruct (add32 b len <=? mem_cap (s_mem s1)); [|discriminate].
  replace (add32 b len - b) with 0 in E by lia. cbn [N.to_nat firstn] in E.
  destruct c; cbn in E; injection E as <- _; apply Ht; reflexivity.
Qed.

Lemma full_list cx t a sz p n s : sp_layout t = Some (a, sz) -> wf_type (TList t) -> m_len (s_mem s) = 2 ^ 32 ->
  (a | p) -> 0 < p + n * sz < 2 ^ 32 ->
  lift_flat cx (TList t) (IBase [CU32 p; CU32 n] 0) s = (Err ETrap, s).
Proof.
  intros Hl [_ (a' & sz' & Hl' & Hsz)] Hm Hd Hb. rewrite Hl in Hl'. injection Hl' as <- <-.
  destruct (sp_layout_facts _ _ _ Hl) as (Ha & Hva & Hdv & Hs). cbn [lift_flat]. unfold lift_flat_list.
  erewrite bind_ok; [|apply next_u32_val; reflexivity]. cbv beta iota.
  erewrite bind_ok; [|apply next_u32_val; reflexivity]. cbv beta iota.
  unfold bind at 1. unfold load_list_from_range. rewrite Ha, (Hs Hsz).
  erewrite bind_ok; [|reflexivity]. erewrite bind_ok; [|apply check_aligned_ok; [assumption|unfold two32; lia|assumption]].
  erewrite bind_ok; [|reflexivity].
  assert (Em : mul32 n sz = n * sz) by (unfold mul32; apply N.mod_small; unfold two32; lia).
  unfold bind at 1. unfold check_bounds, bind at 1, get_mem. unfold mem_len32. rewrite Hm, Em. change (u32 (2 ^ 32)) with 0.
  unfold add32. rewrite N.mod_small by (unfold two32; lia). replace (0 <? p + n * sz) with true by lia. reflexivity.
Qed.
