(** Values that are copied from one place to another. *)
From Coq Require Import NArith ZArith List String Ascii Bool Lia ZifyBool ZifyNat ZifyN.
From Verif Require Import GoBase M_Types M_Layout S_Layout L_Layout M_State M_Utf M_Load
  S_Utf S_Values S_Memory S_Access S_Flat S_Format S_Inside S_Looks S_Move L_Access L_Variant L_Labels L_Despecialize L_Mem L_Utf L_Flags
  L_Frame L_RoundTrip L_StoreLoad L_Lifted L_CtxFree L_Format L_Looks.
Import ListNotations.
Open Scope N_scope.
Open Scope go_scope.

(** Two runs return the same, change the world alike and nothing else. *)
Definition paired {A} (f1 f2 : M A) (s1 s2 : state) : Prop :=
  exists o w, returned o /\ f1 s1 = (o, with_world s1 w) /\ f2 s2 = (o, with_world s2 w).

Record near (s1 s2 : state) : Prop := mkNear { n_good1 : good s1; n_good2 : good s2; n_world : s_world s1 = s_world s2 }.

Lemma near_with s1 s2 w : near s1 s2 -> near (with_world s1 w) (with_world s2 w).
Proof. intros [H1 H2 H3]. split; assumption || reflexivity. Qed.

Lemma near_rel s1 s2 : near s1 s2 -> len s1 = len s2 -> rel s1 s2.
Proof. intros [H1 H2 H3] L. split; assumption. Qed.

Lemma pair_pure {A} (f1 f2 : M A) o s1 s2 : near s1 s2 -> returned o -> f1 s1 = (o, s1) -> f2 s2 = (o, s2) -> paired f1 f2 s1 s2.
Proof. intros R H E1 E2. exists o, (s_world s1). rewrite with_same, (n_world _ _ R), with_same. auto. Qed.

Lemma pair_bind {A B} (f1 f2 : M A) (g1 g2 : A -> M B) s1 s2 : paired f1 f2 s1 s2 ->
  (forall a w, paired (g1 a) (g2 a) (with_world s1 w) (with_world s2 w)) -> paired (bind f1 g1) (bind f2 g2) s1 s2.
Proof.
  intros (o & w & H & E1 & E2) Hg. destruct o as [a|e| |].
  - destruct (Hg a w) as (o & w' & H' & E1' & E2'). exists o, w'. split; [exact H'|].
    split; (erewrite bind_ok; [|eassumption]); assumption.
  - exists (Err e), w. split; [apply returned_err|]. unfold bind. rewrite E1, E2. auto.
  - destruct H. congruence.
  - destruct H. congruence.
Qed.

Lemma pair_ret {A} (a : A) s1 s2 : near s1 s2 -> paired (ret a) (ret a) s1 s2.
Proof. intros. eapply pair_pure; [assumption|apply returned_ok|reflexivity|reflexivity]. Qed.
Lemma pair_lift {A} (o : outcome A) s1 s2 : near s1 s2 -> returned o -> paired (lift_o o) (lift_o o) s1 s2.
Proof. intros. eapply pair_pure; [assumption|eassumption|reflexivity|reflexivity]. Qed.
Lemma pair_worldly {A} (f : M A) s1 s2 : near s1 s2 -> worldly f -> paired f f s1 s2.
Proof.
  intros R H. destruct (H s1) as (o & w & Ho & E). exists o, w. split; [exact Ho|].
  split; apply E; [reflexivity|symmetry; apply R].
Qed.

Lemma copied_sub m1 p1 m2 p2 n o k : copied m1 p1 m2 p2 n -> o + k <= n -> copied m1 (p1 + o) m2 (p2 + o) k.
Proof. intros H Hk i Hi. rewrite <- !N.add_assoc. apply H. lia. Qed.

Lemma copied_number n : forall m1 p1 m2 p2, copied m1 p1 m2 p2 (N.of_nat n) -> number m1 p1 n = number m2 p2 n.
Proof.
  induction n as [|n IH]; intros m1 p1 m2 p2 H; [reflexivity|]. cbn [number].
  pose proof (H 0 ltac:(lia)) as H0. rewrite !N.add_0_r in H0. rewrite H0.
  rewrite (IH m1 (p1 + 1) m2 (p2 + 1)); [reflexivity|]. apply (copied_sub _ _ _ _ _ 1 _ H). lia.
Qed.

Lemma pair_uint k p1 p2 s1 s2 : near s1 s2 -> p1 + k <= len s1 -> p2 + k <= len s2 -> copied (s_mem s1) p1 (s_mem s2) p2 k ->
  paired (load_uint k p1) (load_uint k p2) s1 s2.
Proof.
  intros R H1 H2 C. eapply (pair_pure _ _ (Ok (number (s_mem s1) p1 (N.to_nat k))));
    [assumption|apply returned_ok|apply number_load; [apply R|assumption]|].
  rewrite (copied_number (N.to_nat k) _ p1 (s_mem s2) p2) by (rewrite N2Nat.id; exact C). apply number_load; [apply R|exact H2].
Qed.

Lemma pair_int t p1 p2 s1 s2 k : near s1 s2 -> p1 + k <= len s1 -> p2 + k <= len s2 -> copied (s_mem s1) p1 (s_mem s2) p2 k ->
  sp_layout t = Some (k, k) ->
  match t with TBool | TF32 | TF64 | TChar | TOwn _ | TBorrow _ | TFlags _ => False | _ => True end ->
  paired (load_int t p1) (load_int t p2) s1 s2.
Proof.
  intros R H1 H2 C E Ht.
  destruct t; try contradiction; try (cbn [load_int]; apply pair_lift; [assumption|apply returned_err]);
    injection E as <-; cbn [load_int]; (apply pair_bind; [apply pair_uint; assumption|]);
    intros; apply pair_ret, near_with, R.
Qed.

Lemma pair_u32 p1 p2 s1 s2 : near s1 s2 -> p1 + 4 <= len s1 -> p2 + 4 <= len s2 -> copied (s_mem s1) p1 (s_mem s2) p2 4 ->
  paired (load_u32 p1) (load_u32 p2) s1 s2.
Proof.
  intros R H1 H2 C. eapply (pair_pure _ _ (Ok (number (s_mem s1) p1 4)));
    [assumption|apply returned_ok|apply number_u32; [apply R|assumption]|].
  rewrite (copied_number 4 _ p1 (s_mem s2) p2 C). apply number_u32; [apply R|exact H2].
Qed.

(** ** Types *)
Definition moves (cx : callctx) (t : valtype) : Prop :=
  forall a sz p1 p2 s1 s2, sp_layout t = Some (a, sz) -> wf_type t -> near s1 s2 ->
  (a | p1) -> (a | p2) -> p1 + sz <= len s1 -> p2 + sz <= len s2 ->
  copied (s_mem s1) p1 (s_mem s2) p2 sz ->
  inline t \/ (len s1 = len s2 /\ addressable (cx_enc cx) (s_mem s1) t p1 /\ alike s1 s2 (behind (cx_enc cx) (s_mem s1) t p1)) ->
  paired (load cx t p1) (load cx t p2) s1 s2.

Lemma two_words s1 s2 p1 p2 : near s1 s2 -> p1 + 8 <= len s1 -> p2 + 8 <= len s2 -> copied (s_mem s1) p1 (s_mem s2) p2 8 ->
  forall {A} (g : N -> N -> M A), paired (g (number (s_mem s1) p1 4) (number (s_mem s1) (p1 + 4) 4))
    (g (number (s_mem s1) p1 4) (number (s_mem s1) (p1 + 4) 4)) s1 s2 ->
  paired (let* x := load_u32 p1 in let* y := load_u32 (add32 p1 4) in g x y)
    (let* x := load_u32 p2 in let* y := load_u32 (add32 p2 4) in g x y) s1 s2.
Proof.
  intros R H1 H2 C A g (o & w & Ho & E1 & E2). exists o, w. split; [exact Ho|].
  assert (L1 : len s1 < two32) by apply (n_good1 _ _ R). assert (L2 : len s2 < two32) by apply (n_good2 _ _ R).
  assert (X1 : add32 p1 4 = p1 + 4) by (unfold add32; rewrite N.mod_small; lia).
  assert (X2 : add32 p2 4 = p2 + 4) by (unfold add32; rewrite N.mod_small; lia).
  rewrite X1, X2. split.
  - erewrite bind_ok; [|apply number_u32; [apply R|lia]]. erewrite bind_ok; [|apply number_u32; [apply R|lia]]. exact E1.
  - erewrite bind_ok; [|apply number_u32; [apply R|lia]]. erewrite bind_ok; [|apply number_u32; [apply R|lia]].
    rewrite <- (copied_number 4 (s_mem s1) p1 (s_mem s2) p2), <- (copied_number 4 (s_mem s1) (p1 + 4) (s_mem s2) (p2 + 4)); [exact E2| |].
    + apply (copied_sub _ _ _ _ _ 4 _ C). cbn. lia.
    + intros i Hi. apply C. cbn in Hi. lia.
Qed.

Lemma moves_string cx : moves cx TString.
Proof.
  intros a sz p1 p2 s1 s2 Hl _ R _ _ H1 H2 C [[]|(L & Had & AL)]. injection Hl as <- <-.
  cbn [load]. unfold load_string. apply (two_words s1 s2 p1 p2 R H1 H2 C).
  pose proof (number_lt 4 (s_mem s1) p1 (n_good1 _ _ R)) as B1. pose proof (number_lt 4 (s_mem s1) (p1 + 4) (n_good1 _ _ R)) as B2.
  exact (twin_text cx _ _ s1 s2 (near_rel _ _ R L) B1 B2 Had AL).
Qed.

Lemma moves_list cx t : moves cx (TList t).
Proof.
  intros a sz p1 p2 s1 s2 Hl Hwf R _ _ H1 H2 C [[]|(L & Had & AL)]. injection Hl as <- <-.
  destruct Hwf as [Hwf (a & sz & Hlt & Hsz)]. destruct (sp_layout_facts _ _ _ Hlt) as (Ha & _ & _ & Hs). specialize (Hs Hsz).
  cbn [load]. unfold load_list. rewrite Ha, Hs.
  apply (two_words s1 s2 p1 p2 R H1 H2 C).
  pose proof (number_lt 4 (s_mem s1) p1 (n_good1 _ _ R)) as B1.
  exact (twin_items cx t a sz _ _ s1 s2 (looks_all cx t) Hlt Hwf (near_rel _ _ R L) B1 Had AL).
Qed.

Lemma pair_fields cx fs : forall ls pos b1 b2 acc s1 s2,
  Forall (fun f => moves cx (snd f)) fs -> Forall (fun f => wf_type (snd f)) fs -> near s1 s2 ->
  all_some (map (fun f => sp_layout (snd f)) fs) = Some ls ->
  Forall (fun l : layout => (fst l | b1)) ls -> Forall (fun l : layout => (fst l | b2)) ls ->
  b1 + fields_end pos ls <= len s1 -> b2 + fields_end pos ls <= len s2 ->
  copied (s_mem s1) b1 (s_mem s2) b2 (fields_end pos ls) ->
  Forall (fun f => inline (snd f)) fs \/
    (len s1 = len s2 /\ Forall2 (fun f o => addressable (cx_enc cx) (s_mem s1) (snd f) (b1 + o)) fs (field_offsets pos ls) /\
     alike s1 s2 (fun b => exists f o, In (f, o) (combine fs (field_offsets pos ls)) /\ behind (cx_enc cx) (s_mem s1) (snd f) (b1 + o) b)) ->
  paired (load_at (map (fun f => (fst f, load cx (snd f))) fs) (map (N.add b1) (field_offsets pos ls)) acc)
       (load_at (map (fun f => (fst f, load cx (snd f))) fs) (map (N.add b2) (field_offsets pos ls)) acc) s1 s2.
Proof.
  induction fs as [|[l t] fs IH]; intros ls pos b1 b2 acc s1 s2 Hrd Hwf R Hs Hd1 Hd2 He1 He2 C K.
  - cbn in Hs. injection Hs as <-. apply pair_ret, R.
  - change (all_some (sp_layout t :: map (fun f => sp_layout (snd f)) fs) = Some ls) in Hs.
    cbn [all_some] in Hs. destruct (sp_layout t) as [[a sz]|] eqn:Et; [|discriminate].
    destruct (all_some (map (fun f => sp_layout (snd f)) fs)) as [ls'|] eqn:El; [|discriminate]. injection Hs as <-.
    inversion Hrd as [|? ? Hrd1 Hrd2]; subst. inversion Hwf as [|? ? Hwf1 Hwf2]; subst.
    inversion Hd1 as [|? ? D1 D1']; subst. inversion Hd2 as [|? ? D2 D2']; subst. cbn [fst snd] in *.
    cbn [field_offsets] in *.
    pose proof (all_some_valid snd fs ls' El) as Hv.
    destruct (sp_layout_facts _ _ _ Et) as (_ & Hva & _).
    cbn [fields_end] in He1, He2, C. pose proof (fields_end_ge ls' (up_to a pos + sz) Hv).
    cbn [map load_at fst snd]. apply pair_bind.
    + apply (Hrd1 a sz); try assumption; try lia.
      * apply N.divide_add_r; [assumption|apply up_to_div].
      * apply N.divide_add_r; [assumption|apply up_to_div].
      * apply (copied_sub _ _ _ _ _ (up_to a pos) sz C). lia.
      * destruct K as [K|(L & Had & AL)]; [left; inversion K; assumption|right]. inversion Had as [|? ? ? ? Had1 Had2]; subst.
        split; [exact L|]. split; [exact Had1|].
        eapply alike_sub; [exact AL|]. intros b Hb. exists (l, t), (up_to a pos). split; [left; reflexivity|exact Hb].
    + intros v w. apply IH; try assumption; [apply near_with, R|reflexivity|].
      destruct K as [K|(L & Had & AL)]; [left; inversion K; assumption|right]. inversion Had as [|? ? ? ? Had1 Had2]; subst.
      split; [exact L|]. split; [exact Had2|].
      apply alike_with. eapply alike_sub; [exact AL|]. intros b (f & o & Hi & Hb). exists f, o. split; [right; exact Hi|exact Hb].
Qed.

Lemma record_behind enc m fs p b :
  (exists ls f o, all_some (map (fun f : string * valtype => sp_layout (snd f)) fs) = Some ls /\
     In (f, o) (combine fs (field_offsets 0 ls)) /\ behind enc m (snd f) (p + o) b) ->
  behind enc m (TRecord fs) p b.
Proof.
  intros (ls & f & o & E & Hi & Hb). cbn [behind]. unfold rec_behind.
  exists ls, (fst f, (sp_layout (snd f), behind enc m (snd f))), o. rewrite map_map. split; [exact E|]. split; [|exact Hb].
  clear -Hi. revert Hi. generalize (field_offsets 0 ls). induction fs as [|g fs IH]; intros os Hi; [contradiction|].
  destruct os as [|o' os]; [contradiction|]. destruct Hi as [Hi|Hi]; [left; congruence|right; apply IH, Hi].
Qed.

Lemma moves_record cx fs : Forall (fun f => moves cx (snd f)) fs -> moves cx (TRecord fs).
Proof.
  intros H a sz p1 p2 s1 s2 Hl Hwf R D1 D2 H1 H2 C K.
  cbn [wf_type] in Hwf. destruct Hwf as [Hnd Hwt]. apply all_Forall in Hwt.
  assert (Hl' := Hl). cbn [sp_layout] in Hl'.
  destruct (all_some (map (fun f => sp_layout (snd f)) fs)) as [ls|] eqn:El; [|discriminate].
  assert (Hr : sp_record ls = (a, sz)) by (cbn [bindo] in Hl'; congruence).
  pose proof (all_some_valid snd fs ls El) as Hv. pose proof (sp_record_end ls Hv) as Hend. rewrite Hr in Hend. cbn [snd] in Hend.
  assert (Dv : forall p, (a | p) -> Forall (fun l : layout => (fst l | p)) ls).
  { intros p Hp. apply fields_base_div; [assumption|]. replace (max_align ls) with a by (injection Hr; auto). assumption. }
  assert (L1 : len s1 < two32) by apply (n_good1 _ _ R). assert (L2 : len s2 < two32) by apply (n_good2 _ _ R).
  assert (T : paired (let* m := load_at (map (fun f => (fst f, load cx (snd f))) fs) (map (N.add p1) (field_offsets 0 ls)) [] in ret (VMap m))
    (let* m := load_at (map (fun f => (fst f, load cx (snd f))) fs) (map (N.add p2) (field_offsets 0 ls)) [] in ret (VMap m)) s1 s2).
  { apply pair_bind; [apply pair_fields; try assumption; try lia; auto|].
    { intros i Hi. apply C. lia. }
    { destruct K as [K|(L & Had & AL)]; [left; cbn [inline] in K; apply free_all in K; exact K|right].
      split; [exact L|]. cbn [addressable] in Had. unfold rec_addressable in Had. rewrite map_map in Had. specialize (Had ls El).
      rewrite Forall2_map_l in Had. cbn [fst snd] in Had. split; [exact Had|].
      eapply alike_sub; [exact AL|]. intros b (f & o & Hi & Hb). apply record_behind. exists ls, f, o. auto. }
    intros mp w. apply pair_ret, near_with, R. }
  destruct T as (o & w & Ho & E1 & E2). exists o, w. split; [exact Ho|].
  rewrite !(record_load_offsets cx fs ls) by (try assumption; rewrite Hr; cbn [fst snd]; try assumption; lia). auto.
Qed.

Lemma moves_variant cx cs : Forall (fun c => opt_all (moves cx) (c_type c)) cs -> moves cx (TVariant cs).
Proof.
  intros H a sz p1 p2 s1 s2 Hl Hwf R D1 D2 H1 H2 C K.
  cbn [wf_type] in Hwf. destruct Hwf as [(Hnd & Hbf & Hre) Hwt]. apply all_Forall in Hwt.
  assert (Hl' := Hl). cbn [sp_layout] in Hl'.
  destruct (all_some (payload_types (map (map_case sp_layout) cs))) as [ls|] eqn:El; [|discriminate].
  cbn [bindo] in Hl'. destruct (sp_variant_inv _ _ _ _ Hl') as (d & dt & Hdz & _ & _ & Hvd & Ea & Esz & Hcase & Hpos).
  destruct (variant_payload_placed _ _ _ _ _ El Hl Hdz) as (Hpo & _ & Hda & Hpl).
  destruct (sp_layout_facts _ _ _ Hl) as (Ha & Hva & _ & Hs).
  pose proof (up_to_ge a (payload_offset d ls + max_size ls) (valid_align_nz _ Hva)) as Hup.
  assert (L1 : len s1 < two32) by apply (n_good1 _ _ R). assert (L2 : len s2 < two32) by apply (n_good2 _ _ R).
  set (i := number (s_mem s1) p1 (N.to_nat d)).
  assert (E1 : load_uint d p1 s1 = (Ok i, s1)) by (apply number_load; [apply R|lia]).
  assert (E2 : load_uint d p2 s2 = (Ok i, s2)).
  { unfold i. rewrite (copied_number _ _ p1 (s_mem s2) p2); [apply number_load; [apply R|lia]|].
    rewrite N2Nat.id. intros k Hk. apply C. lia. }
  assert (T : forall c, nth_error cs (N.to_nat i) = Some c ->
     paired (match c_type c with None => ret VNil | Some t => load cx t (p1 + payload_offset d ls) end)
          (match c_type c with None => ret VNil | Some t => load cx t (p2 + payload_offset d ls) end) s1 s2).
  { intros c Ei. assert (Hic : In c cs) by (eapply nth_error_In; exact Ei).
    destruct (c_type c) as [t|] eqn:Et; [|apply pair_ret; exact R].
    destruct (payload_layout _ _ _ _ El Hic Et) as ([pa ps] & Hpt & _).
    destruct (Hpl c t pa ps Hic Et Hpt) as (Hpd & Hpa & Hin).
    rewrite Forall_forall in H. specialize (H c Hic). rewrite Et in H.
    rewrite Forall_forall in Hwt. specialize (Hwt c Hic). rewrite Et in Hwt.
    apply (H pa ps); try assumption; try lia.
    - apply N.divide_add_r; [|assumption]. eapply N.divide_trans; eassumption.
    - apply N.divide_add_r; [|assumption]. eapply N.divide_trans; eassumption.
    - apply (copied_sub _ _ _ _ _ _ _ C). lia.
    - destruct K as [K|(L & Had & AL)]; [left|right].
      + cbn [inline] in K. apply free_all in K. rewrite Forall_forall in K. specialize (K c Hic). rewrite Et in K. exact K.
      + split; [exact L|].
        split; [exact (addressable_variant _ _ _ _ Had d ls (N.to_nat i) c t Hdz El (eq_sym (N2Nat.id i)) Ei Et)|].
        eapply alike_sub; [exact AL|]. intros b Hb. cbn [behind]. unfold var_behind.
        exists d, ls, (map_case (fun t => (sp_layout t, behind (cx_enc cx) (s_mem s1) t)) c), (sp_layout t, behind (cx_enc cx) (s_mem s1) t).
        rewrite map_length. split; [exact Hdz|].
        rewrite (payload_types_map (fun t => (sp_layout t, behind (cx_enc cx) (s_mem s1) t)) fst). split; [exact El|].
        split; [rewrite nth_error_map; fold i; rewrite Ei; reflexivity|]. split; [cbn; rewrite Et; reflexivity|exact Hb]. }
  assert (T' : paired (match nth_error cs (N.to_nat i) with
     | None => lift_o (Err ETrap)
     | Some c =>
         let* l := lift_o (case_label c cs) in
         let* v := match c_type c with None => ret VNil | Some t => load cx t (p1 + payload_offset d ls) end in
         ret (VMap [(l, v)])
     end) (match nth_error cs (N.to_nat i) with
     | None => lift_o (Err ETrap)
     | Some c =>
         let* l := lift_o (case_label c cs) in
         let* v := match c_type c with None => ret VNil | Some t => load cx t (p2 + payload_offset d ls) end in
         ret (VMap [(l, v)])
     end) s1 s2).
  { destruct (nth_error cs (N.to_nat i)) as [c|] eqn:Ei; [|apply pair_lift; [exact R|apply returned_err]].
    assert (Hic : In c cs) by (eapply nth_error_In; exact Ei).
    assert (Hlab : exists l, case_label c cs = Ok l).
    { apply case_label_ends. rewrite Forall_forall in Hre. auto. }
    destruct Hlab as [l Hlab]. rewrite Hlab.
    destruct (T c eq_refl) as (o & w & Ho & X1 & X2).
    assert (Y : paired (let* v := match c_type c with None => ret VNil | Some t => load cx t (p1 + payload_offset d ls) end in ret (VMap [(l, v)]))
      (let* v := match c_type c with None => ret VNil | Some t => load cx t (p2 + payload_offset d ls) end in ret (VMap [(l, v)])) s1 s2).
    { apply pair_bind; [exact (T c eq_refl)|]. intros v w'. apply pair_ret, near_with, R. }
    exact Y. }
  destruct T' as (o & w & Ho & X1 & X2). exists o, w. split; [exact Ho|].
  rewrite !(variant_load_offsets cx cs ls a sz d) by (assumption || lia).
  split; (erewrite bind_ok; [|eassumption]); assumption.
Qed.

Lemma moves_flags cx ls : moves cx (TFlags ls).
Proof.
  intros a sz p1 p2 s1 s2 Hl _ R _ _ H1 H2 C _.
  destruct (sp_layout_facts _ _ _ Hl) as (_ & _ & _ & Hs).
  assert (Hlen : len s1 < two32) by apply (n_good1 _ _ R). specialize (Hs ltac:(lia)).
  cbn [size] in Hs. cbn [load]. unfold load_flags. rewrite Hs.
  match goal with |- paired (bind (lift_o (Ok ?c)) ?g) (bind _ ?h) _ _ => change (paired (g c) (h c) s1 s2) end. cbv beta.
  apply pair_bind; [|intros v w'; apply pair_ret, near_with, R].
  unfold load_int_with_size.
  repeat match goal with |- paired (if ?x =? ?y then _ else _) _ _ _ => destruct (N.eqb_spec x y) as [->|] end;
    [apply pair_ret, R|eapply pair_int; [exact R|exact H1|exact H2|exact C|reflexivity|exact I]..|apply pair_lift; [exact R|apply returned_err]].
Qed.

Lemma behind_despecialize enc m t p b : behind enc m (despecialize t) p b <-> behind enc m t p b.
Proof.
  destruct t; try reflexivity; cbn [despecialize behind].
  - rewrite (map_itoa_fields (fun t => (sp_layout t, behind enc m t))). reflexivity.
  - rewrite map_enum_cases. reflexivity.
  - rewrite map_itoa_cases. reflexivity.
Qed.

Lemma moves_all cx t : moves cx t.
Proof.
  induction t using valtype_ind';
    [ | | | | | | | | | | | |apply moves_string|apply moves_list|apply moves_record; assumption
     |apply moves_variant; assumption|apply moves_flags| | | | ].
  all: try (intros al sz p1 p2 s1 s2 Hl _ R _ _ H1 H2 C _; discriminate Hl).
  all: try (intros al sz p1 p2 s1 s2 Hl _ R _ _ H1 H2 C _; injection Hl as <- <-; cbn [load]; eapply pair_int; [exact R|exact H1|exact H2|exact C|reflexivity|exact I]).
  all: try (intros al sz p1 p2 s1 s2 Hl _ R _ _ H1 H2 C _; injection Hl as <- <-; cbn [load]).
  - unfold load_bool. apply pair_bind; [eapply pair_int; [exact R|exact H1|exact H2|exact C|reflexivity|exact I]|].
    intros v w. apply (near_with _ _ w) in R. destruct v; (apply pair_ret; exact R) || (apply pair_lift; [exact R|apply returned_err]).
  - unfold load_f32. apply pair_bind; [apply pair_u32; assumption|]. intros v w. apply pair_ret, near_with, R.
  - unfold load_f64, load_u64. apply pair_bind; [|intros v w; apply pair_ret, near_with, R].
    apply pair_bind; [eapply pair_int; [exact R|exact H1|exact H2|exact C|reflexivity|exact I]|].
    intros v w. apply (near_with _ _ w) in R. destruct v; (apply pair_ret; exact R) || (apply pair_lift; [exact R|apply returned_err]).
  - unfold load_char. apply pair_bind; [eapply (pair_int TU32); [exact R|exact H1|exact H2|exact C|reflexivity|exact I]|].
    intros v w. apply (near_with _ _ w) in R. destruct v; try (apply pair_lift; [exact R|apply returned_err]).
    apply pair_bind; [apply pair_lift; [exact R|apply rune_returns]|]. intros r w'. apply pair_ret, near_with, R.
  - apply pair_bind; [apply pair_u32; assumption|]. intros i w. apply pair_worldly; [apply near_with, R|].
    apply worldly_bind; [apply worldly_lift_own|]. intros n. apply worldly_ret.
  - apply pair_bind; [apply pair_u32; assumption|]. intros i w. apply pair_worldly; [apply near_with, R|].
    apply worldly_bind; [apply worldly_lift_borrow|]. intros n. apply worldly_ret.
  - intros al sz p1 p2 s1 s2 Hl Hwf R D1 D2 H1 H2 C K. rewrite <- sp_layout_despecialize in Hl. apply wf_despecialize in Hwf.
    assert (K' : inline (despecialize t) \/ (len s1 = len s2 /\ addressable (cx_enc cx) (s_mem s1) (despecialize t) p1 /\
      alike s1 s2 (behind (cx_enc cx) (s_mem s1) (despecialize t) p1))).
    { destruct K as [K|(L & Had & AL)]; [left; apply inline_despecialize, K|right].
      split; [exact L|]. split; [apply addressable_despecialize, Had|].
      exact (alike_sub _ _ _ _ AL (fun b => proj1 (behind_despecialize _ _ t p1 b))). }
    destruct (IHt _ _ p1 p2 s1 s2 Hl Hwf R D1 D2 H1 H2 C K') as (o & w & Ho & E1 & E2). rewrite load_despecialize in E1, E2.
    exists o, w. auto.
Qed.

Lemma behind_part enc m t : forall p b, behind enc m t p b -> part_of enc m t p b.
Proof.
  induction t using valtype_ind'; intros p x; try contradiction; try (intros Hb; right; exact Hb).
  - intros (ls & f & o & E & Hin & Hb). rewrite map_map in E. cbn [fst snd] in E. apply record_parts.
    revert E Hin. generalize 0. intros pos E. 
    assert (G : forall os, In (f, o) (combine (map (fun f => (fst f, (sp_layout (snd f), behind enc m (snd f)))) fs) os) ->
      exists g, In (g, o) (combine fs os) /\ part_of enc m (snd g) (p + o) x).
    { clear E. induction fs as [|g fs IH]; intros os Hin; [contradiction|]. destruct os as [|o' os]; [contradiction|].
      inversion H as [|? ? Hg Hfs]; subst. destruct Hin as [X|Hin].
      - injection X as <- <-. exists g. split; [left; reflexivity|]. apply Hg. exact Hb.
      - destruct (IH Hfs os Hin) as (g' & Hi & Hp). exists g'. split; [right; exact Hi|exact Hp]. }
    intros Hin. destruct (G _ Hin) as (g & Hi & Hp). exists ls, g, o. auto.
  - intros (d & ls & c & q & Ed & El & En & Eq & Hb). exists d. rewrite map_length in *. split; [exact Ed|right].
    rewrite nth_error_map in En. destruct (nth_error cs _) as [c0|] eqn:Ec; [|discriminate]. injection En as <-.
    cbn in Eq. destruct (c_type c0) as [t|] eqn:Et; [|discriminate]. injection Eq as <-. cbn [snd] in Hb.
    exists ls, (map_case (fun t => (sp_layout t, part_of enc m t)) c0), (sp_layout t, part_of enc m t).
    rewrite (payload_types_map (fun t => (sp_layout t, behind enc m t)) fst) in El.
    rewrite (payload_types_map (fun t => (sp_layout t, part_of enc m t)) fst). split; [exact El|].
    split; [rewrite nth_error_map, Ec; reflexivity|]. split; [cbn; rewrite Et; reflexivity|].
    cbn [snd]. rewrite Forall_forall in H. specialize (H c0 (nth_error_In _ _ Ec)). rewrite Et in H. apply H, Hb.
  - intros Hb. apply parts_despecialize, IHt, behind_despecialize, Hb.
Qed.

Lemma inline_nothing_behind enc m t : forall p b, inline t -> ~ behind enc m t p b.
Proof.
  induction t using valtype_ind'; intros p x Hi; try contradiction; try (intros X; contradiction X).
  - intros (ls & f & o & E & Hin & Hb). clear E. cbn [inline] in Hi. apply free_all in Hi. revert Hin. generalize (field_offsets 0 ls).
    induction fs as [|g fs IH]; intros os Hin; [contradiction|]. destruct os as [|o' os]; [contradiction|].
    inversion H as [|? ? Hg Hfs]; subst. inversion Hi as [|? ? Ig Ifs]; subst. destruct Hin as [X|Hin].
    + injection X as <- <-. exact (Hg _ _ Ig Hb).
    + exact (IH Hfs Ifs os Hin).
  - intros (d & ls & c & q & Ed & El & En & Eq & Hb). cbn [inline] in Hi. apply free_all in Hi.
    rewrite nth_error_map in En. destruct (nth_error cs _) as [c0|] eqn:Ec; [|discriminate]. injection En as <-.
    cbn in Eq. destruct (c_type c0) as [t|] eqn:Et; [|discriminate]. injection Eq as <-. cbn [snd] in Hb.
    rewrite Forall_forall in H, Hi. specialize (H c0 (nth_error_In _ _ Ec)). specialize (Hi c0 (nth_error_In _ _ Ec)).
    rewrite Et in H, Hi. exact (H _ _ Hi Hb).
  - intros Hb. apply behind_despecialize in Hb. revert Hb. apply IHt, inline_despecialize, Hi.
Qed.
