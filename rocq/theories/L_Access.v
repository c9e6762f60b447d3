(** Records and variants reach their components at the specified offsets. *)
From Coq Require Import NArith ZArith List String Bool Lia ZifyBool ZifyNat ZifyN.
From Verif Require Import GoBase M_Types M_Layout S_Layout L_Layout M_State M_Utf M_Load M_Store M_Flat S_Access.
Import ListNotations.
Open Scope N_scope.
Open Scope go_scope.

Lemma bind_ext : forall {A B} (m : M A) (f g : A -> M B) s,
  (forall a s', f a s' = g a s') -> bind m f s = bind m g s.
Proof. intros. unfold bind. destruct (m s) as [[ | | | ] ?]; auto. Qed.

Lemma bind_ok : forall {A B} (m : M A) (f : A -> M B) s a s',
  m s = (Ok a, s') -> bind m f s = f a s'.
Proof. intros. unfold bind. rewrite H. reflexivity. Qed.

Lemma bind_lift_ok : forall {A B} (x : A) (f : A -> M B) s, bind (lift_o (Ok x)) f s = f x s.
Proof. reflexivity. Qed.

Lemma bind_ret : forall {A B} (x : A) (f : A -> M B) s, bind (ret x) f s = f x s.
Proof. reflexivity. Qed.

Lemma bind_inv : forall {A B} (m : M A) (f : A -> M B) s b s'',
  bind m f s = (Ok b, s'') -> exists a s', m s = (Ok a, s') /\ f a s' = (Ok b, s'').
Proof.
  intros. unfold bind in H. destruct (m s) as [[a|e| | ] s']; try discriminate. eauto.
Qed.

Lemma bind_assoc : forall {A B C} (m : M A) (f : A -> M B) (g : B -> M C) s,
  bind (bind m f) g s = bind m (fun a => bind (f a) g) s.
Proof. intros. unfold bind. destruct (m s) as [[ | | | ] ?]; reflexivity. Qed.

(** A component whose alignment and size are as specified. *)
Definition comp_is {F} (p : layout) (q : comp F) : Prop :=
  q_al q = Ok (fst p) /\ q_sz q = Ok (snd p) /\ valid_align (fst p).

Lemma divide_le_max : forall l p, Forall (fun p => valid_align (fst p)) l -> In p l ->
  (fst p | max_align l).
Proof.
  intros l p Hv Hin. apply valid_align_divides.
  - rewrite Forall_forall in Hv. apply Hv; assumption.
  - apply max_align_valid; assumption.
  - clear Hv. induction l as [|q l IH]; [contradiction|]. rewrite max_align_cons.
    destruct Hin as [->|Hin]; [lia|]. specialize (IH Hin). lia.
Qed.

Lemma load_fields_at : forall (fs : list (string * comp (N -> M any))) ls base pos acc st,
  Forall2 (fun p f => comp_is p (snd f)) ls fs ->
  Forall (fun p => (fst p | base)) ls ->
  base + fields_end pos ls < two32 ->
  load_fields fs (base + pos) acc st
  = load_at (map (fun f => (fst f, q_op (snd f))) fs)
            (map (N.add base) (field_offsets pos ls)) acc st.
Proof.
  intros fs ls base pos acc st H. revert pos acc st.
  induction H as [|[a s] [l q] ls fs Hf Hfs IH]; intros pos acc st Hd Hb; [reflexivity|].
  cbn [load_fields map field_offsets load_at fst snd].
  destruct Hf as (Ha & Hs & Hv). cbn [fst snd] in *. inversion Hd as [|? ? Hda Hds]; subst. cbn in Hda.
  assert (Forall (fun p => valid_align (fst p)) ls) as Hvl.
  { clear - Hfs. induction Hfs as [|p f ls fs Hf Hfs IH]; constructor; auto. apply Hf. }
  cbn [fields_end] in Hb. pose proof (fields_end_ge ls (up_to a pos + s) Hvl) as Hge.
  rewrite Ha, bind_lift_ok. rewrite align_to_up by (apply valid_align_nz; assumption).
  rewrite bind_lift_ok, up_to_shift by (assumption || apply valid_align_nz; assumption).
  rewrite u32_small by lia.
  apply bind_ext. intros v st'. rewrite Hs, bind_lift_ok. unfold add32.
  rewrite N.mod_small by lia. replace (base + up_to a pos + s) with (base + (up_to a pos + s)) by lia.
  apply IH; assumption.
Qed.

Lemma store_fields_at : forall (fs : list (string * comp (any -> N -> M unit))) ls base pos m st,
  Forall2 (fun p f => comp_is p (snd f)) ls fs ->
  Forall (fun p => (fst p | base)) ls ->
  base + fields_end pos ls < two32 ->
  store_fields fs m (base + pos) st
  = store_at (map (fun f => (fst f, q_op (snd f))) fs)
             (map (N.add base) (field_offsets pos ls)) m st.
Proof.
  intros fs ls base pos m st H. revert pos st.
  induction H as [|[a s] [l q] ls fs Hf Hfs IH]; intros pos st Hd Hb; [reflexivity|].
  cbn [store_fields map field_offsets store_at fst snd].
  destruct Hf as (Ha & Hs & Hv). cbn [fst snd] in *. inversion Hd as [|? ? Hda Hds]; subst. cbn in Hda.
  assert (Forall (fun p => valid_align (fst p)) ls) as Hvl.
  { clear - Hfs. induction Hfs as [|p f ls fs Hf Hfs IH]; constructor; auto. apply Hf. }
  cbn [fields_end] in Hb. pose proof (fields_end_ge ls (up_to a pos + s) Hvl) as Hge.
  rewrite Ha, bind_lift_ok. rewrite align_to_up by (apply valid_align_nz; assumption).
  rewrite bind_lift_ok, up_to_shift by (assumption || apply valid_align_nz; assumption).
  rewrite u32_small by lia.
  apply bind_ext. intros v st'. rewrite Hs, bind_lift_ok. unfold add32.
  rewrite N.mod_small by lia. replace (base + up_to a pos + s) with (base + (up_to a pos + s)) by lia.
  apply IH; assumption.
Qed.

(** Specified layouts of the fields of a record type. *)
Lemma sp_layout_facts : forall t a s, sp_layout t = Some (a, s) ->
  alignment t = Ok a /\ valid_align a /\ (a | s) /\ (s < two32 -> size t = Ok s).
Proof.
  intros t a s H. destruct (layout_ok_all t) as (_ & L). rewrite H in L.
  destruct L as (Ha & Hv & Hd & s' & Hs & _ & _ & He). repeat split; auto.
  intros Hlt. rewrite Hs, He; auto.
Qed.

Lemma field_le_end : forall ls pos, Forall (fun p => valid_align (fst p)) ls ->
  Forall (fun p : layout => pos + snd p <= fields_end pos ls) ls.
Proof.
  induction ls as [|[a s] ls IH]; intros pos H; inversion H; subst; constructor; cbn in *.
  - pose proof (up_to_ge a pos (valid_align_nz a H2)).
    pose proof (fields_end_ge ls (up_to a pos + s) H3). lia.
  - pose proof (up_to_ge a pos (valid_align_nz a H2)).
    specialize (IH (up_to a pos + s) H3). eapply Forall_impl; [|exact IH]. cbn. intros. lia.
Qed.

Lemma all_some_valid : forall {A} (g : A -> valtype) fs ls,
  all_some (map (fun f => sp_layout (g f)) fs) = Some ls ->
  Forall (fun p => valid_align (fst p)) ls.
Proof.
  intros A g fs ls H. apply all_some_Forall2 in H.
  remember (map _ fs) as os. revert fs Heqos.
  induction H as [|o [a s] os ls Ho H IH]; intros fs E; [constructor|].
  destruct fs as [|f fs]; [discriminate|]. cbn in E. injection E as E1 E2.
  assert (Ho' : sp_layout (g f) = Some (a, s)) by (rewrite <- E1; exact Ho).
  constructor; [|eapply IH; exact E2]. apply sp_layout_facts in Ho'. apply Ho'.
Qed.

Lemma comp_is_fields : forall {F} (op : valtype -> F) (fs : list (string * valtype)) ls,
  all_some (map (fun f => sp_layout (snd f)) fs) = Some ls ->
  fields_end 0 ls < two32 ->
  Forall2 (fun p f => comp_is p (snd f)) ls
    (map (fun f => (fst f, mkComp (alignment (snd f)) (size (snd f)) (op (snd f)))) fs).
Proof.
  intros F op fs ls H Hb. pose proof (all_some_valid snd fs ls H) as Hv.
  pose proof (field_le_end ls 0 Hv) as Hle.
  assert (Hsz : Forall (fun p : layout => snd p < two32) ls).
  { eapply Forall_impl; [|exact Hle]. cbn. intros. lia. }
  clear Hle Hb. apply all_some_Forall2 in H. remember (map (fun f => sp_layout (snd f)) fs) as os.
  revert fs Heqos. induction H as [|o [a s] os ls Ho H IH]; intros fs E.
  - destruct fs; [constructor|discriminate].
  - destruct fs as [|f fs]; [discriminate|]. cbn in E. injection E as E1 E2.
    assert (Ho' : sp_layout (snd f) = Some (a, s)) by (rewrite <- E1; exact Ho).
    inversion Hv; inversion Hsz; subst. cbn [map]. constructor; [|apply IH; auto].
    destruct (sp_layout_facts _ _ _ Ho') as (Ha & Hva & _ & Hs). repeat split; cbn; auto.
Qed.

Lemma fields_base_div : forall ls base, Forall (fun p => valid_align (fst p)) ls ->
  (max_align ls | base) -> Forall (fun p : layout => (fst p | base)) ls.
Proof.
  intros ls base Hv Hd. apply Forall_forall. intros p Hin.
  eapply N.divide_trans; [|exact Hd]. apply divide_le_max; assumption.
Qed.

Lemma sp_record_end : forall ls, Forall (fun p => valid_align (fst p)) ls ->
  fields_end 0 ls <= snd (sp_record ls).
Proof.
  intros ls Hv. cbn. apply up_to_ge. apply valid_align_nz, max_align_valid. assumption.
Qed.

Lemma record_load_offsets : forall cx fs ls ptr st,
  all_some (map (fun f => sp_layout (snd f)) fs) = Some ls ->
  (fst (sp_record ls) | ptr) -> ptr + snd (sp_record ls) < two32 ->
  load cx (TRecord fs) ptr st
  = (let* m := load_at (map (fun f => (fst f, load cx (snd f))) fs)
                       (map (N.add ptr) (field_offsets 0 ls)) [] in ret (VMap m)) st.
Proof.
  intros cx fs ls ptr st H Hd Hb. pose proof (all_some_valid snd fs ls H) as Hv.
  pose proof (sp_record_end ls Hv) as He.
  cbn [load]. unfold load_record. rewrite <- (N.add_0_r ptr) at 1.
  unfold bind at 1. rewrite (load_fields_at _ ls).
  - rewrite map_map. reflexivity.
  - apply comp_is_fields; [assumption|lia].
  - apply fields_base_div; assumption.
  - lia.
Qed.

Lemma check_aligned_ok : forall e ptr a s, valid_align a -> ptr < two32 -> (a | ptr) ->
  check_aligned e ptr a s = (Ok tt, s).
Proof.
  intros e ptr a s Hv Hp Hd. unfold check_aligned.
  rewrite align_to_up by (apply valid_align_nz; assumption).
  rewrite bind_lift_ok, up_to_id by (assumption || apply valid_align_nz; assumption).
  rewrite u32_small by assumption. rewrite N.eqb_refl. reflexivity.
Qed.

Lemma check_aligned_bad : forall e ptr a s, valid_align a -> ~ (a | ptr) ->
  check_aligned e ptr a s = (Err e, s).
Proof.
  intros e ptr a s Hv Hd. unfold check_aligned.
  rewrite align_to_up by (apply valid_align_nz; assumption). rewrite bind_lift_ok.
  destruct (N.eqb_spec ptr (u32 (up_to a ptr))); [|reflexivity].
  exfalso. apply Hd. rewrite e0. apply divide_u32; [assumption|apply up_to_div].
Qed.

Lemma record_store_offsets : forall cx fs ls m ptr st,
  all_some (map (fun f => sp_layout (snd f)) fs) = Some ls ->
  (fst (sp_record ls) | ptr) -> ptr + snd (sp_record ls) < two32 ->
  ptr + snd (sp_record ls) <= mem_len32 (s_mem st) ->
  store cx (TRecord fs) (VMap m) ptr st
  = store_at (map (fun f => (fst f, store cx (snd f))) fs)
             (map (N.add ptr) (field_offsets 0 ls)) m st.
Proof.
  intros cx fs ls m ptr st H Hd Hb Hm. pose proof (all_some_valid snd fs ls H) as Hv.
  pose proof (sp_record_end ls Hv) as He.
  assert (Hl : sp_layout (TRecord fs) = Some (sp_record ls)).
  { cbn [sp_layout]. rewrite H. reflexivity. }
  unfold store; fold store. unfold guarded, store_validate.
  destruct (sp_layout_facts _ _ _ Hl) as (Ha & Hva & _ & Hs).
  rewrite bind_assoc, Ha, bind_lift_ok, bind_assoc.
  erewrite bind_ok; [|apply check_aligned_ok; [exact Hva|lia|exact Hd]].
  rewrite bind_assoc, Hs, bind_lift_ok by (fold two32; cbn [snd sp_record] in *; lia).
  erewrite bind_ok.
  2:{ unfold check_bounds. erewrite bind_ok; [|reflexivity].
      unfold add32. rewrite N.mod_small by (cbn [snd sp_record] in *; lia).
      destruct (N.ltb_spec (mem_len32 (s_mem st)) (ptr + up_to (max_align ls) (fields_end 0 ls))).
      - cbn [snd sp_record] in *; lia.
      - reflexivity. }
  unfold store_record. rewrite <- (N.add_0_r ptr) at 1.
  rewrite (store_fields_at _ ls).
  - rewrite map_map. reflexivity.
  - apply comp_is_fields; [assumption|lia].
  - apply fields_base_div; assumption.
  - lia.
Qed.

Lemma field_offsets_placed : forall ls pos size, Forall (fun p => valid_align (fst p)) ls ->
  fields_end pos ls <= size -> placed_from pos (field_offsets pos ls) ls size.
Proof.
  induction ls as [|[a s] ls IH]; intros pos size Hv H; cbn in *; [lia|].
  inversion Hv; subst. split; [apply up_to_div|]. split; [apply up_to_ge, valid_align_nz; assumption|].
  apply IH; assumption.
Qed.

Lemma record_offsets_placed : forall fs ls a s,
  all_some (map (fun f => sp_layout (snd f)) fs) = Some ls ->
  sp_layout (TRecord fs) = Some (a, s) ->
  placed_from 0 (field_offsets 0 ls) ls s /\ Forall (fun p => (fst p | a)) ls.
Proof.
  intros fs ls a s H Hl. pose proof (all_some_valid snd fs ls H) as Hv.
  cbn [sp_layout] in Hl. rewrite H in Hl. inversion Hl; subst. split.
  - apply field_offsets_placed; [assumption|]. apply (sp_record_end ls Hv).
  - apply Forall_forall. intros p Hin. apply divide_le_max; assumption.
Qed.
