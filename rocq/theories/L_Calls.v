From Coq Require Import NArith ZArith List String Bool Lia ZifyBool ZifyNat ZifyN.
From Verif Require Import GoBase M_Types M_Layout S_Layout L_Layout M_State M_Utf M_Load M_Store M_Flat M_Canon
  S_Utf S_Values S_Memory S_Access S_Flat S_Format S_FlatFormat S_Calls S_Canon L_Access L_Mem L_Frame L_RoundTrip L_StoreLoad L_Lifted L_Flat
  L_Format L_FlatFormat L_Guards L_Canon.
Import ListNotations.
Open Scope N_scope.
Open Scope go_scope.

Lemma in_turn_mono : forall (R R' : valtype -> list cval -> any -> Prop) ts cs vs,
  (forall t c v, R t c v -> R' t c v) -> in_turn R ts cs vs -> in_turn R' ts cs vs.
Proof. intros R R' ts cs vs H. induction 1; constructor; auto. Qed.

Lemma in_turn_kinds : forall R ts cs vs kss, in_turn R ts cs vs -> Forall2 flattens ts kss -> kinds cs = List.concat kss.
Proof.
  intros R ts cs vs kss H. revert kss. induction H as [|t ts c cs v vs Hk _ _ IH]; intros kss HF; inversion HF; subst; [reflexivity|].
  unfold kinds in *. rewrite map_app. cbn [List.concat]. f_equal; [|apply IH; assumption].
  apply flattens_iff in Hk. match goal with H : flattens t _ |- _ => apply flattens_iff in H; rewrite H in Hk end. congruence.
Qed.

Lemma split_groups : forall ts kss cs, Forall2 flattens ts kss -> kinds cs = List.concat kss ->
  exists css, cs = List.concat css /\ Forall2 (fun t c => flattens t (kinds c)) ts css.
Proof.
  intros ts kss cs HF E. destruct (split_kinds kss cs E) as (css & -> & <-). exists css. split; [reflexivity|].
  clear E. revert css HF. induction ts as [|t ts IH]; intros [|c css] HF; inversion HF; subst; constructor; auto.
Qed.

Lemma lift_each_decided : forall cx s ts css it it',
  Forall wf_type ts -> Forall handle_free ts -> cx_enc cx <> EncUnknown -> good s ->
  Forall cval_ok (List.concat css) ->
  Forall2 (fun t c => flattens t (kinds c)) ts css ->
  Forall2 (flat_addressable (cx_enc cx) (s_mem s)) ts css ->
  yields it (List.concat css) it' ->
  (exists vs, lift_each (map (lift_flat cx) ts) it s = (Ok (vs, it'), s) /\
     received_as (cx_enc cx) (s_mem s) ts (List.concat css) vs)
  \/ (lift_each (map (lift_flat cx) ts) it s = (Err ETrap, s) /\
      ~ Forall2 (liftable (cx_enc cx) (s_mem s)) ts css).
Proof.
  intros cx s ts. induction ts as [|t ts IH]; intros css it it' Hwf Hh He Hg Hok Hk Had Y.
  - inversion Hk; subst. cbn in Y. subst it'. left. exists []. split; [reflexivity|constructor].
  - inversion Hk as [|? c ? css' Hk1 Hk2]; subst. inversion Had as [|? ? ? ? Had1 Had2]; subst.
    inversion Hwf; subst. inversion Hh; subst. cbn [List.concat] in *. apply Forall_app in Hok. destruct Hok as [Hok1 Hok2].
    apply yields_app in Y. destruct Y as (it1 & Y1 & Y2).
    cbn [map lift_each].
    destruct (lifts_ok_all cx t c it it1 s) as [([v it2] & E & Ei & H)|(E & H)]; try assumption.
    { apply flatten_complete. exact Hk1. }
    + cbn [fst snd] in Ei, H. subst it2.
      destruct (IH css' it1 it') as [(vs & Es & Hs)|(Es & Hs)]; try assumption.
      * left. exists (v :: vs). split.
        -- erewrite bind_ok; [|exact E]. cbv beta iota. erewrite bind_ok; [|exact Es]. reflexivity.
        -- constructor; assumption.
      * right. split.
        -- erewrite bind_ok; [|exact E]. cbv beta iota. unfold bind. rewrite Es. reflexivity.
        -- intros HF. inversion HF; subst. contradiction.
    + right. split; [unfold bind; rewrite E; reflexivity|]. intros HF. inversion HF; subst. contradiction.
Qed.

Lemma groups_unique : forall ts css css', List.concat css = List.concat css' ->
  Forall2 (fun t c => flattens t (kinds c)) ts css -> Forall2 (fun t c => flattens t (kinds c)) ts css' -> css = css'.
Proof.
  induction ts as [|t ts IH]; intros css css' E H H'; inversion H as [|? c ? r Hc Hr]; inversion H' as [|? c' ? r' Hc' Hr']; subst; [reflexivity|].
  cbn [List.concat] in E. apply flattens_iff in Hc, Hc'. rewrite Hc in Hc'. injection Hc' as Ek.
  assert (L : List.length c = List.length c').
  { apply (f_equal (@List.length _)) in Ek. unfold kinds in Ek. rewrite !map_length in Ek. exact Ek. }
  assert (c = c' /\ List.concat r = List.concat r') as [-> E'].
  { clear - E L. revert c' L E. induction c as [|x c IH]; intros [|y c'] L E; try discriminate; [auto|].
    cbn in E. injection E as -> E. injection L as L. destruct (IH c' L E) as [-> ?]. auto. }
  f_equal. apply IH; assumption.
Qed.

Lemma in_turn_groups : forall R ts cs vs, in_turn R ts cs vs ->
  exists css, cs = List.concat css /\ Forall2 (fun t c => flattens t (kinds c)) ts css /\
    Forall2 (fun t c => exists v, R t c v) ts css.
Proof.
  intros R ts cs vs H. induction H as [|t ts c cs v vs Hk Hr _ (css & -> & H1 & H2)].
  - exists []. split; [reflexivity|]. split; constructor.
  - exists (c :: css). split; [reflexivity|]. split; constructor; eauto.
Qed.

Lemma lift_values_decided : forall order cx s maxf ts kss cs extra,
  Forall wf_type ts -> Forall handle_free ts -> cx_enc cx <> EncUnknown -> good s ->
  Forall2 flattens ts kss -> (List.length (List.concat kss) <= maxf)%nat ->
  well_kinded (List.concat kss) cs -> all_addressable (cx_enc cx) (s_mem s) ts cs ->
  (exists vs it, lift_values order cx maxf ts (IBase (cs ++ extra) 0) s = (Ok (vs, it), s) /\
     received_as (cx_enc cx) (s_mem s) ts cs vs)
  \/ (lift_values order cx maxf ts (IBase (cs ++ extra) 0) s = (Err ETrap, s) /\ ~ receivable (cx_enc cx) (s_mem s) ts cs).
Proof.
  intros order cx s maxf ts kss cs extra Hwf Hh He Hg Hk Hn [Ek Hok] Had.
  destruct (flatten_types_ok ts kss Hk) as [_ Ef]. apply Nat.leb_le in Hn.
  assert (EV : lift_values order cx maxf ts (IBase (cs ++ extra) 0) s = lift_each (map (lift_flat cx) ts) (IBase (cs ++ extra) 0) s).
  { unfold lift_values. unfold bind at 1, lift_o at 1. rewrite Ef, Hn. reflexivity. }
  rewrite EV. clear EV.
  destruct (split_groups ts kss cs Hk Ek) as (css & -> & HG).
  pose proof (yields_base (List.concat css) [] extra) as Y. cbn [app List.length Nat.add] in Y.
  assert (Hok' : Forall cval_ok (List.concat css)) by (eapply Forall_impl; [|exact Hok]; intros [] X; exact X).
  destruct (lift_each_decided cx s ts css _ _ Hwf Hh He Hg Hok' HG (Had css eq_refl HG) Y) as [(vs & E & H)|(E & H)]; [left; eauto|right].
  split; [exact E|]. intros (vs & Hr). apply in_turn_groups in Hr. destruct Hr as (css' & Ec & HG' & HL).
  rewrite (groups_unique ts css css' Ec HG HG') in H. apply H. eapply Forall2_mono; [exact HL|]. cbn beta. intros t c _ (v & X). exact X.
Qed.

Lemma lower_each_passes : forall cx init ts vs kss,
  correct_allocator cx init -> Forall wf_type ts -> Forall2 (has_type (cx_enc cx)) ts vs -> Forall2 flattens ts kss ->
  writes cx init 0 0 (lower_each (map (lower_flat cx) ts) vs)
    (fun cs s => well_kinded (List.concat kss) cs /\ passed_as (cx_enc cx) (s_mem s) ts cs vs).
Proof.
  intros cx init ts vs kss Hc Hwf Hty. revert kss. induction Hty as [|t v ts vs Ht _ IH]; intros kss Hk.
  - inversion Hk; subst. apply writes_ret. intros s _ _. split; [split; [reflexivity|constructor]|constructor].
  - inversion Hk as [|? ks ? kss' Hk1 Hk2]; subst. inversion Hwf; subst.
    cbn [map lower_each]. eapply writes_mono.
    + eapply (writes_bind cx init 0 0 0 0 0 0);
        [eapply (lowers_ok_all cx init t Hc); [apply flatten_complete; exact Hk1|assumption|assumption]| |intros; unfold within in *; lia..].
      intros a.
      eapply (writes_bind cx init 0 0 0 0 0 0 _ _ _ (fun b c _ => c = (a ++ b)%list)); [apply (IH H2 kss'); assumption| |intros; unfold within in *; lia..].
      intros b. apply writes_ret. reflexivity.
    + cbn beta. intros cs s _ _ (a & (Ka & Oa & v' & Sa & Va) & b & ((Kb & Ob) & Pb) & ->). split.
      * split; [unfold kinds in *; rewrite map_app, Ka, Kb; reflexivity|].
        apply Forall_app. split; [|exact Ob]. eapply Forall_impl; [|exact Oa]. intros [] X; exact X.
      * constructor; [|eauto|exact Pb]. rewrite Ka. exact Hk1.
Qed.

Lemma lower_values_passes : forall cx init maxf ts vs kss out s o s1,
  correct_allocator cx init -> Forall wf_type ts -> Forall2 (has_type (cx_enc cx)) ts vs -> Forall2 flattens ts kss ->
  (List.length (List.concat kss) <= maxf)%nat -> good s ->
  lower_values cx maxf vs ts out s = (o, s1) ->
  (exists cs, o = Ok (map VCore cs) /\ step init s s1 (fun _ => False) /\ well_kinded (List.concat kss) cs /\
     passed_as (cx_enc cx) (s_mem s1) ts cs vs)
  \/ alloc_failed cx o.
Proof.
  intros cx init maxf ts vs kss out s o s1 Hc Hwf Hty Hk Hn Hg E.
  destruct (flatten_types_ok ts kss Hk) as [_ Ef]. apply Nat.leb_le in Hn.
  unfold lower_values in E. unfold bind at 1, lift_o at 1 in E. rewrite Ef, Hn in E. unfold bind in E.
  destruct (lower_each (map (lower_flat cx) ts) vs s) as [o1 s1'] eqn:E1.
  destruct (lower_each_passes cx init ts vs kss Hc Hwf Hty Hk s o1 s1' Hg) as [(cs & -> & S & K)|F]; try assumption.
  - intros b [H1 H2]. lia.
  - unfold len. lia.
  - injection E as <- <-. left. exists cs. split; [reflexivity|]. split.
    + destruct S as [S1 S2 S3 S4 S5]. split; auto. intros b Ho _. apply S5; [exact Ho|]. unfold within. lia.
    + apply K. split; [apply (st_good _ _ _ _ S)|]. split; [lia|reflexivity].
  - right. destruct o1; inversion E; subst; try exact F.
Qed.

Lemma as_core_cases : forall vs, (exists cs, vs = map VCore cs /\ as_core vs = Ok cs) \/
  ((forall cs, vs <> map VCore cs) /\ as_core vs = Err ECast).
Proof.
  induction vs as [|v vs IH]; [left; exists []; split; reflexivity|].
  destruct v; try (right; split; [intros [|c cs] E; discriminate|reflexivity]).
  cbn [as_core]. destruct IH as [(cs & -> & ->)|(H & ->)].
  - left. exists (c :: cs). split; reflexivity.
  - right. split; [|reflexivity]. intros [|c' cs] E; [discriminate|]. injection E as _ E. apply (H cs E).
Qed.

Lemma exit_ignored_run : forall cx s, exists s', exit_call_ignored cx s = (Ok tt, s') /\ s_mem s' = s_mem s /\ guards s' = guards s.
Proof.
  intros cx s. unfold exit_call_ignored. destruct (exit_call (cx_id cx) s) as [o s1] eqn:E.
  pose proof (quiet_exit_call _ _ _ _ E) as G.
  unfold exit_call, bind, get_world in E. destruct (nth_error (w_calls (s_world s)) (cx_id cx)) as [k|].
  - destruct (k_borrow k =? 0)%Z; inversion E; subst; eexists; (split; [reflexivity|split; [reflexivity|exact G]]).
  - inversion E; subst. eexists. split; [reflexivity|]. split; [reflexivity|exact G].
Qed.

Lemma post_closure : forall f cx, runs_post_return f ((match f with Some f => f | None => ret tt end) ;; exit_call_ignored cx).
Proof.
  intros f cx s. destruct f as [f|].
  - destruct (f s) as [[[]|e| |] s1] eqn:E.
    + destruct (exit_ignored_run cx s1) as (s2 & E2 & M2 & G2). exists s2. unfold bind. rewrite E. auto.
    + exists s1. unfold bind. rewrite E. auto.
    + exists s1. unfold bind. rewrite E. auto.
    + exists s1. unfold bind. rewrite E. auto.
  - destruct (exit_ignored_run cx s) as (s2 & E2 & M2 & G2). exists s2. unfold bind, ret. auto.
Qed.

Lemma unlocked_guards : forall s inst s0 s1 s2, locked s inst s0 -> may_leave s inst -> guards s1 = guards s0 ->
  List.length (guards s2) = List.length (guards s1) ->
  (forall i, i <> inst -> nth_error (guards s2) i = nth_error (guards s1) i) ->
  (forall e l, nth_error (guards s1) inst = Some (e, l) -> nth_error (guards s2) inst = Some (e, true)) ->
  guards s2 = guards s.
Proof.
  intros s inst s0 s1 s2 (L & O & I) [e He] G L2 O2 I2. rewrite G in *.
  assert (X : forall (l l' : list (bool * bool)), (forall i, nth_error l i = nth_error l' i) -> l = l').
  { clear. induction l as [|x l IH]; intros [|y l'] H; try (specialize (H 0%nat); discriminate); [reflexivity|].
    pose proof (H 0%nat) as H0. injection H0 as ->. f_equal. apply IH. intros i. exact (H (S i)). }
  apply X. intros i. destruct (Nat.eq_dec i inst) as [->|Hn].
  - rewrite He. eapply I2. eapply I. exact He.
  - rewrite O2, O by exact Hn. reflexivity.
Qed.
