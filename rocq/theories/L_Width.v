From Coq Require Import NArith ZArith List String Bool Lia ZifyBool ZifyNat ZifyN Permutation.
From Verif Require Import GoBase M_Types M_Layout S_Layout L_Layout M_State M_Utf M_Load M_Store M_Flat M_Canon
  S_Utf S_Values S_Memory S_Access S_Flat S_Canon S_Format S_FlatFormat S_Calls L_Access L_Mem L_Frame L_RoundTrip L_StoreLoad L_Lifted L_Flat
  L_Format L_FlatFormat L_Guards L_CtxFree L_Canon L_Calls P_Memory P_Canon
  S_Requests S_Blame L_Blame P_Blame P_Calls S_Width.
Import ListNotations.
Open Scope N_scope.
Open Scope go_scope.

Lemma flattens_same : forall ts kss kss', Forall2 flattens ts kss -> Forall2 flattens ts kss' -> kss = kss'.
Proof.
  intros ts kss kss' H H'. apply flatten_types_ok in H. apply flatten_types_ok in H'. destruct H as [H _], H' as [H' _]. rewrite H in H'. clear H.
  revert kss' H'. induction kss as [|k kss IH]; intros [|k' kss'] E; try discriminate; [reflexivity|]. injection E as -> E. f_equal. now apply IH.
Qed.
Lemma narrow_wide : forall maxf ts, narrow maxf ts -> wide maxf ts -> False.
Proof. intros maxf ts (k & H & L) (k' & H' & L'). rewrite (flattens_same _ _ _ H H') in L. lia. Qed.

Lemma wf_tuple : forall ts, Forall wf_type ts -> wf_type (TTuple ts).
Proof. intros ts H. induction H; cbn; [exact I|]. split; [assumption|exact IHForall]. Qed.
Lemma hf_tuple : forall ts, Forall handle_free ts -> handle_free (TTuple ts).
Proof. intros ts H. induction H; cbn; [exact I|]. split; [assumption|exact IHForall]. Qed.

(** Where the iterator stands after the values [used]. *)
Lemma lift_any : forall order cx s maxf ts cs rest,
  (forall m, Permutation (order m) m) ->
  Forall wf_type ts -> Forall handle_free ts -> cx_enc cx <> EncUnknown -> good s ->
  presented (cx_enc cx) (s_mem s) maxf ts cs rest ->
  (exists vs pre, cs = (pre ++ rest)%list /\ lift_values order cx maxf ts (IBase cs 0) s = (Ok (vs, IBase cs (List.length pre)), s) /\
     taken (cx_enc cx) (s_mem s) maxf ts cs vs)
  \/ (lift_values order cx maxf ts (IBase cs 0) s = (Err ETrap, s) /\ forall vs, ~ taken (cx_enc cx) (s_mem s) maxf ts cs vs).
Proof.
  intros order cx s maxf ts cs rest Hord Hwf Hh He Hg [kss used rest' Hk Hn [Ek Hok] Had|a sz ptr rest' Hw Hl Hp Had].
  - destruct (flatten_types_ok ts kss Hk) as [_ Ef]. pose proof Hn as Hn'. apply Nat.leb_le in Hn'.
    assert (EV : lift_values order cx maxf ts (IBase (used ++ rest') 0) s = lift_each (map (lift_flat cx) ts) (IBase (used ++ rest') 0) s).
    { unfold lift_values. unfold bind at 1, lift_o at 1. rewrite Ef, Hn'. reflexivity. }
    rewrite EV. clear EV.
    destruct (split_groups ts kss used Hk Ek) as (css & -> & HG).
    pose proof (yields_base (List.concat css) [] rest') as Y. cbn [app List.length Nat.add] in Y.
    assert (Hok' : Forall cval_ok (List.concat css)) by (eapply Forall_impl; [|exact Hok]; intros [] X; exact X).
    destruct (lift_each_decided cx s ts css _ _ Hwf Hh He Hg Hok' HG (Had css eq_refl HG) Y) as [(vs & E & H)|(E & H)].
    + left. exists vs, (List.concat css). split; [reflexivity|]. split; [exact E|]. constructor; [exists kss; auto|exact H].
    + right. split; [exact E|]. intros vs T. inversion T as [u' r' ? _ Hr Eu|? ? ? ? ? ? W]; subst.
      2:{ eapply narrow_wide; [|exact W]. exists kss. auto. }
      assert (Ku : kinds u' = List.concat kss) by (eapply in_turn_kinds; [exact Hr|exact Hk]).
      assert (L : List.length u' = List.length (List.concat css)).
      { apply (f_equal (@List.length _)) in Ku. apply (f_equal (@List.length _)) in Ek. unfold kinds in *. rewrite map_length in *. congruence. }
      assert (u' = List.concat css).
      { apply (f_equal (firstn (List.length u'))) in Eu. rewrite firstn_app, Nat.sub_diag, firstn_all, app_nil_r in Eu. rewrite L, firstn_app, Nat.sub_diag, firstn_all, app_nil_r in Eu. exact Eu. }
      subst u'. apply in_turn_groups in Hr. destruct Hr as (css' & Ec & HG' & HL).
      rewrite (groups_unique ts css css' Ec HG HG') in H. apply H. eapply Forall2_mono; [exact HL|]. cbn beta. intros t c _ (v & X). eapply lifted_liftable. exact X.
  - pose proof Hw as (kss & Hk & Hn).
    destruct (spilled_values_read order cx maxf ts kss ptr rest' s a sz Hord Hk Hn (wf_tuple _ Hwf) (hf_tuple _ Hh) He Hg Hl Hp) as [((H1 & H2 & _) & vs & fields & E & R & P)|(N & E)].
    + intros D B. apply Had. split; assumption.
    + left. exists vs, [CU32 ptr]. split; [reflexivity|]. split; [exact E|]. econstructor; eauto. split; assumption.
    + right. split; [exact E|]. intros vs T. inversion T as [? ? ? Nw|a' sz' ? ? fields ? _ Hl' [D B] R P]; subst; [eapply narrow_wide; eauto|].
      unfold tuple_layout in *. rewrite Hl in Hl'. injection Hl' as <- <-. apply N. split; [exact D|]. split; [exact B|]. eapply reads_readable. exact R.
Qed.

Lemma check_bounds_run : forall e ptr n s, wf_mem (s_mem s) -> ptr + n < 2 ^ 32 ->
  check_bounds e ptr n s = (if ptr + n <=? m_len (s_mem s) then Ok tt else Err e, s).
Proof.
  intros e ptr sz s Hm Hp. unfold check_bounds. erewrite bind_ok; [|reflexivity]. rewrite mem_len32_ok by exact Hm. unfold add32. rewrite N.mod_small by (unfold two32; lia).
  unfold len. destruct (N.ltb_spec (m_len (s_mem s)) (ptr + sz)), (N.leb_spec (ptr + sz) (m_len (s_mem s))); try lia; reflexivity.
Qed.

(** The address check of a tuple that is about to be handed out. *)
Lemma address_checked : forall a sz ptr s, valid_align a -> wf_mem (s_mem s) -> ptr + sz < 2 ^ 32 ->
  (good_address (s_mem s) a sz ptr /\ (check_aligned EOther ptr a ;; check_bounds EOther ptr sz ;; ret [VU32 ptr]) s = (Ok [VU32 ptr], s))
  \/ (~ good_address (s_mem s) a sz ptr /\ (check_aligned EOther ptr a ;; check_bounds EOther ptr sz ;; ret [VU32 ptr]) s = (Err EOther, s)).
Proof.
  intros a sz ptr s Hv Hm Hp. destruct (N.eq_dec (ptr mod a) 0) as [D|D].
  - apply N.mod_divide in D; [|apply valid_align_nz; exact Hv]. unfold bind at 1 3. rewrite check_aligned_ok by (assumption || (unfold two32; lia)).
    unfold bind. rewrite check_bounds_run by assumption. unfold good_address.
    destruct (N.leb_spec (ptr + sz) (m_len (s_mem s))); [left|right]; (split; [|reflexivity]); [auto|intros [_ B]; lia].
  - right. assert (D' : ~ (a | ptr)) by (intros X; apply D, N.mod_divide; [apply valid_align_nz; exact Hv|exact X]).
    split; [intros [X _]; auto|]. unfold bind. rewrite check_aligned_bad by assumption. reflexivity.
Qed.

Lemma lower_any : forall cx init maxf ts vs asked s o s1,
  correct_allocator cx init -> Forall wf_type ts -> good s ->
  sending cx maxf ts vs asked -> lower_values cx maxf vs ts None s = (o, s1) ->
  (exists flat, o = Ok flat /\ step init s s1 (fun _ => False) /\ made s s1 asked /\ sent (cx_enc cx) init maxf ts vs s s1 flat)
  \/ (refused cx asked s o s1 /\ forall flat, o <> Ok flat).
Proof.
  intros cx init maxf ts vs asked s o s1 Hc Hw Hg Hs E. destruct Hs as [asked (kss & Hk & Hn) Hty Hask|a sz Hwd Hl Hsz].
  - pose proof (arguments_blame cx init ts kss vs asked None maxf s o s1 Hc Hw Hk Hn Hty Hask Hg E) as BL.
    destruct BL as [(cs & -> & Hwk & Hps & Md)|BL]; [left|right; split; [exact BL|]; intros flat; eapply refused_fails; exact BL].
    destruct (lower_values_passes cx init maxf ts vs kss None s _ s1 Hc Hw Hty Hk Hn Hg E) as [(cs' & E' & St & _)|F]; [|now destruct F as (? & ? & _ & _ & [])].
    exists (map VCore cs). split; [reflexivity|]. split; [exact St|]. split; [exact Md|]. econstructor; eassumption.
  - pose proof Hwd as (kss & Hk & Hn). destruct (flatten_types_ok ts kss Hk) as [_ Ef]. apply Nat.leb_gt in Hn.
    destruct (sp_layout_facts _ _ _ Hl) as (Hal & Hv & _ & Hz).
    unfold lower_values in E. unfold bind at 1, lift_o at 1 in E. rewrite Ef, Hn in E. unfold lower_values_to_tuple in E.
    unfold bind at 1, lift_o at 1 in E. rewrite Hal in E. unfold bind at 1, lift_o at 1 in E. rewrite (Hz Hsz) in E. unfold bind at 1 in E.
    destruct (realloc cx 0 0 a sz s) as [p s2] eqn:Er. pose proof (realloc_fresh cx init a sz s p s2 Hc Hg Er) as [St P].
    unfold realloc in Er. destruct (cx_realloc cx (mkReq 0 0 a sz) s) as [q [m w]] eqn:Ec.
    destruct q as [q|e| |]; injection Er as <- <-.
    + destruct P as (D & B & F1 & F2). left.
      destruct (address_checked a sz (u32 q) _ Hv (st_good _ _ _ _ St)) as [(G & A)|(G & _)].
      { unfold len in B. pose proof (st_good _ _ _ _ St) as (_ & X & _). cbn [s_mem] in *. unfold two32 in X. lia. }
      2:{ exfalso. apply G. split; assumption. }
      rewrite A in E. injection E as <- <-. exists [VU32 (u32 q)]. split; [reflexivity|]. split; [exact St|].
      split; [exists [(new_block a sz, u32 q)]; split; reflexivity|].
      eapply sent_tuple; [exact Hwd|exact Hl|exact G|]. intros b Hb. split; [apply F1|apply F2]; exact Hb.
    + right. injection E as <- <-. split; [|discriminate]. exists [], (new_block a sz), [], s. unfold new_block. rewrite Ec. split; [reflexivity|]. split; [exists []; split; reflexivity|]. split; [constructor|]. repeat split.
    + right. injection E as <- <-. split; [|discriminate]. exists [], (new_block a sz), [], s. unfold new_block. rewrite Ec. split; [reflexivity|]. split; [exists []; split; reflexivity|]. split; [constructor|]. repeat split.
    + right. injection E as <- <-. split; [|discriminate]. exists [], (new_block a sz), [], s. unfold new_block. rewrite Ec. split; [reflexivity|]. split; [exists []; split; reflexivity|]. split; [constructor|]. repeat split.
Qed.
