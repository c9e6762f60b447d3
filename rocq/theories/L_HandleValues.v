(** Lifting and lowering act on exactly the handles the values carry. *)
From Coq Require Import NArith ZArith List String Bool Arith Permutation Lia ZifyBool ZifyNat ZifyN.
From Verif Require Import GoBase M_Types M_Layout S_Layout L_Layout M_State M_Utf M_Load M_Store M_Flat M_Canon
  S_Values S_Accept S_Flat S_Canon L_Access L_Flat L_Canon L_Despecialize L_Alloc L_Labels L_Variant L_RoundTrip L_Flags L_Lifted L_Accept
  S_Handles L_Handles S_Linked S_HandleCalls L_HandleCalls S_HandleValues.
Import ListNotations.
Open Scope N_scope.
Open Scope go_scope.

(** ** Runs of the abstract machine *)
Inductive arun : handles -> list (op * outcome N) -> handles -> Prop :=
| ar_nil : forall a b, same a b -> arun a [] b
| ar_cons : forall a o r c evs b, answers a o r c -> arun c evs b -> arun a ((o, r) :: evs) b.

Lemma arun_snoc : forall a evs b, arun a evs b -> forall o r c d, answers b o r c -> same c d -> arun a (evs ++ [(o, r)]) d.
Proof.
  intros a evs b H. induction H as [a b S|a o r c evs b HA H IH]; intros o' r' c' d HA' S'; cbn [app].
  - destruct (answers_same b a o' r' c' (same_sym _ _ S) HA') as (e & HE & SE). eapply ar_cons; [exact HE|].
    apply ar_nil. eapply same_trans; [apply same_sym; exact SE|exact S'].
  - eapply ar_cons; [exact HA|]. eapply IH; eauto.
Qed.
Lemma evolves_arun : forall insts s calls evs s' calls', evolves insts s calls evs s' calls' ->
  forall ops rs, history insts ops rs s calls -> N.of_nat (made ops + made (map fst evs)) < two32 ->
  arun (view (s_world s) calls) evs (view (s_world s') calls').
Proof.
  intros insts s calls evs s' calls' (s1 & A & W) ops rs H Hn. rewrite <- W. clear W s'.
  induction A as [s calls|s calls evs s1 calls1 o r s2 A IH Hp E]; [apply ar_nil; apply same_refl|].
  rewrite map_app, made_app in Hn. pose proof (history_after _ _ _ _ _ _ A ops rs H) as H3.
  destruct (history_inv _ _ _ _ _ H3) as [HI Hlen]; [rewrite made_app; lia|].
  destruct (step insts s1 calls1 _ o r s2 HI Hlen) as (_ & _ & b & Hb & Hs); [rewrite made_app; lia|exact Hp|exact E|].
  eapply arun_snoc; [apply IH; [exact H|lia]|exact Hb|exact Hs].
Qed.

(** ** The operations for a list of handles *)
Definition lift_event (cx : callctx) (x : carried * N) : op * outcome N :=
  (if cd_own (fst x) then OpLiftOwn cx (cd_type (fst x)) (snd x) else OpLiftBorrow cx (cd_type (fst x)) (snd x), Ok (cd_rep (fst x))).
Definition lower_event (cx : callctx) (x : carried * N) : op * outcome N :=
  (if cd_own (fst x) then OpLowerOwn cx (cd_type (fst x)) (VU32 (cd_rep (fst x))) else OpLowerBorrow cx (cd_type (fst x)) (VU32 (cd_rep (fst x))), Ok (snd x)).

Definition ownedk (inst : nat) (xs : list (carried * N)) : list key := map (key_of inst) (filter (fun x => cd_own (fst x)) xs).
Definition borrowedk (inst : nat) (xs : list (carried * N)) : list key := map (key_of inst) (filter (fun x => negb (cd_own (fst x))) xs).
Definition newk (inst : nat) (xs : list (carried * N)) : list key := map (key_of inst) (filter (fun x => negb (directb inst (fst x))) xs).

Lemma an_own : forall a cx rt i rep c, answers a (OpLiftOwn cx rt i) (Ok rep) c ->
  exists h, at_key a (cx_inst cx, rt_id rt, i) = Some h /\ hd_rep h = rep /\ ~ lent a (cx_inst cx, rt_id rt, i) /\
    c = with_handles a (put (at_key a) (cx_inst cx, rt_id rt, i) None).
Proof. intros a cx rt i rep c H. inversion H; subst. match goal with T : takes _ _ _ _ |- _ => inversion T; subst end. eauto. Qed.
Lemma an_borrow : forall a cx rt i rep c, answers a (OpLiftBorrow cx rt i) (Ok rep) c ->
  exists h, at_key a (cx_inst cx, rt_id rt, i) = Some h /\ hd_rep h = rep /\
    c = with_loans a (fun c k => loaned a c k \/ (c = cx_id cx /\ k = (cx_inst cx, rt_id rt, i))).
Proof. intros a cx rt i rep c H. inversion H; subst. eauto. Qed.
Lemma an_lower : forall a cx rt own rep j c,
  answers a (if own : bool then OpLowerOwn cx rt (VU32 rep) else OpLowerBorrow cx rt (VU32 rep)) (Ok j) c ->
  (own = false /\ rt_impl rt = Some (cx_inst cx) /\ j = rep /\ c = a) \/
  ((own = true \/ rt_impl rt <> Some (cx_inst cx)) /\ at_key a (cx_inst cx, rt_id rt, j) = None /\
   c = with_handles a (put (at_key a) (cx_inst cx, rt_id rt, j) (Some (mkHandle rep own (if own then None else Some (cx_id cx)))))).
Proof.
  intros a cx rt own rep j c H. destruct own; inversion H; subst; auto;
    match goal with T : adds _ _ _ _ _ _ |- _ => inversion T; subst end; right; auto.
Qed.

Lemma atook : forall cx xs a b, arun a (map (lift_event cx) xs) b ->
  Forall (fun x => exists h, at_key a (key_of (cx_inst cx) x) = Some h /\ hd_rep h = cd_rep (fst x)) xs /\
  NoDup (ownedk (cx_inst cx) xs) /\ (forall k, In k (borrowedk (cx_inst cx) xs) -> ~ In k (ownedk (cx_inst cx) xs)) /\
  (forall k, In k (ownedk (cx_inst cx) xs) -> at_key b k = None) /\
  (forall k, ~ In k (ownedk (cx_inst cx) xs) -> at_key b k = at_key a k) /\
  (forall k, lent a k -> ~ In k (ownedk (cx_inst cx) xs)).
Proof.
  intros cx xs. induction xs as [|[[own rt rep] i] xs IH]; intros a b H; cbn [map] in H.
  - inversion H as [? ? (S & _)|]; subst. repeat split; cbn; try constructor; auto; try (intros ? []).
  - inversion H as [|? ? ? c ? ? HA HR]; subst. destruct (IH _ _ HR) as (F & Nd & Db & O1 & O2 & Le). clear IH H.
    set (inst := cx_inst cx) in *. unfold lift_event in HA; cbn [fst snd cd_own cd_type cd_rep] in HA.
    set (k := (inst, rt_id rt, i)) in *.
    assert (Ek : key_of inst (mkCarried own rt rep, i) = k) by reflexivity.
    destruct own.
    + destruct (an_own _ _ _ _ _ _ HA) as (h & K & <- & L & ->). fold inst in K, L, HR. fold k in K, L, HR.
      assert (Ow : ownedk inst ((mkCarried true rt (hd_rep h), i) :: xs) = k :: ownedk inst xs) by reflexivity.
      assert (Bo : borrowedk inst ((mkCarried true rt (hd_rep h), i) :: xs) = borrowedk inst xs) by reflexivity.
      rewrite Ow, Bo. clear Ow Bo.
      assert (P1 : forall k', at_key (with_handles a (put (at_key a) k None)) k' = if key_dec k k' then None else at_key a k') by reflexivity.
      fold inst in O1, O2, Le, F. fold k in O2, Le, F.
      assert (Nin : forall x, In x xs -> key_of inst x <> k).
      { intros x Hx Ex. rewrite Forall_forall in F. destruct (F x Hx) as (h' & X & _). rewrite Ex, P1 in X. destruct (key_dec k k); congruence. }
      split; [|split; [|split; [|split; [|split]]]].
      * constructor; [exists h; rewrite Ek; auto|]. rewrite Forall_forall in *. intros x Hx. destruct (F x Hx) as (h' & X & Y). exists h'. split; [|exact Y].
        rewrite P1 in X. destruct (key_dec k (key_of inst x)); [discriminate|exact X].
      * constructor; [|exact Nd]. intros X. unfold ownedk in X. apply in_map_iff in X. destruct X as (x & Ex & Hx). apply filter_In in Hx. eapply Nin; [apply Hx|exact Ex].
      * intros k' Hb [<-|Ho]; [|eapply Db; eauto]. unfold borrowedk in Hb. apply in_map_iff in Hb. destruct Hb as (x & Ex & Hx). apply filter_In in Hx. eapply Nin; [apply Hx|exact Ex].
      * intros k' Ho. destruct (in_dec key_dec k' (ownedk inst xs)) as [Hi|Hi]; [auto|]. destruct Ho as [<-|Ho]; [|contradiction].
        rewrite O2, P1 by exact Hi. destruct (key_dec k k); congruence.
      * intros k' Hn. rewrite O2, P1 by (intros X; apply Hn; right; exact X). destruct (key_dec k k') as [<-|]; [|reflexivity]. exfalso. apply Hn. left. reflexivity.
      * intros k' Hl [<-|Ho]; [contradiction|]. eapply Le; [exact Hl|exact Ho].
    + destruct (an_borrow _ _ _ _ _ _ HA) as (h & K & <- & ->). fold inst in K, HR, O2, Le, F. fold k in K, HR, O2, Le, F.
      assert (Ow : ownedk inst ((mkCarried false rt (hd_rep h), i) :: xs) = ownedk inst xs) by reflexivity.
      assert (Bo : borrowedk inst ((mkCarried false rt (hd_rep h), i) :: xs) = k :: borrowedk inst xs) by reflexivity.
      rewrite Ow, Bo. clear Ow Bo. cbn [with_loans at_key] in *.
      split; [constructor; [exists h; rewrite Ek; auto|exact F]|]. split; [exact Nd|]. split; [|split; [exact O1|split; [exact O2|]]].
      * intros k' [<-|Hb]; [|apply Db; exact Hb]. apply Le. exists (cx_id cx). right. auto.
      * intros k' (c & Hl). apply Le. exists c. left. exact Hl.
Qed.

Lemma directb_spec : forall inst h, directb inst h = true <-> direct inst h.
Proof.
  intros inst [own rt rep]. unfold directb, direct. cbn [cd_own cd_type]. destruct own; cbn [negb andb]; [split; [discriminate|intros [X _]; discriminate]|].
  destruct (rt_impl rt) as [i|]; [|split; [discriminate|intros [_ X]; discriminate]].
  rewrite Nat.eqb_eq. split; [intros ->; auto|intros [_ X]; congruence].
Qed.

Lemma agave : forall cx xs a b, arun a (map (lower_event cx) xs) b ->
  Forall (fun x => direct (cx_inst cx) (fst x) -> snd x = cd_rep (fst x)) xs /\
  Forall (fun x => at_key a (key_of (cx_inst cx) x) = None /\
     exists h, at_key b (key_of (cx_inst cx) x) = Some h /\ hd_rep h = cd_rep (fst x) /\ hd_own h = cd_own (fst x))
    (filter (fun x => negb (directb (cx_inst cx) (fst x))) xs) /\
  NoDup (newk (cx_inst cx) xs) /\ (forall k, ~ In k (newk (cx_inst cx) xs) -> at_key b k = at_key a k).
Proof.
  intros cx xs. induction xs as [|[[own rt rep] i] xs IH]; intros a b H; cbn [map] in H.
  - inversion H as [? ? (S & _)|]; subst. cbn. repeat split; try constructor; auto.
  - inversion H as [|? ? ? c ? ? HA HR]; subst. destruct (IH _ _ HR) as (D & F & Nd & O). clear IH H.
    set (inst := cx_inst cx) in *. unfold lower_event in HA; cbn [fst snd cd_own cd_type cd_rep] in HA.
    set (k := (inst, rt_id rt, i)) in *.
    assert (Ek : key_of inst (mkCarried own rt rep, i) = k) by reflexivity.
    assert (Hc : (directb inst (mkCarried own rt rep) = true /\ i = rep /\ c = a) \/
      (directb inst (mkCarried own rt rep) = false /\ at_key a k = None /\ exists sc, c = with_handles a (put (at_key a) k (Some (mkHandle rep own sc))))).
    { destruct (an_lower _ _ _ _ _ _ _ HA) as [(-> & Hr & -> & ->)|(Ho & K & ->)].
      - left. split; [|auto]. apply directb_spec. split; [reflexivity|exact Hr].
      - right. split; [|split; [exact K|eexists; reflexivity]]. destruct (directb inst (mkCarried own rt rep)) eqn:Ed; [|reflexivity].
        apply directb_spec in Ed. destruct Ed as [Ed1 Ed2]. cbn in Ed1, Ed2. destruct Ho as [Ho|Ho]; [congruence|contradiction]. }
    destruct Hc as [(Hd & -> & ->)|(Hd & K & sc & ->)].
    + unfold newk. cbn [filter fst]. rewrite Hd. cbn [negb]. split; [constructor; [intros _; reflexivity|exact D]|]. split; [exact F|]. split; [exact Nd|exact O].
    + unfold newk. cbn [filter fst]. rewrite Hd. cbn [negb map]. rewrite Ek. fold (newk inst xs).
      assert (P1 : forall k', at_key (with_handles a (put (at_key a) k (Some (mkHandle rep own sc)))) k' = if key_dec k k' then Some (mkHandle rep own sc) else at_key a k') by reflexivity.
      assert (Nin : forall x, In x (filter (fun x => negb (directb inst (fst x))) xs) -> key_of inst x <> k).
      { intros x Hx Ex. rewrite Forall_forall in F. destruct (F x Hx) as (X & _). rewrite Ex, P1 in X. destruct (key_dec k k); congruence. }
      assert (Nk : ~ In k (newk inst xs)) by (intros X; unfold newk in X; apply in_map_iff in X; destruct X as (x & Ex & Hx); eapply Nin; eauto).
      split; [constructor; [|exact D]|split; [|split]].
      * cbn [fst snd]. intros Hx. apply directb_spec in Hx. congruence.
      * constructor.
        -- rewrite Ek. split; [exact K|]. rewrite O, P1 by exact Nk. destruct (key_dec k k); [|congruence]. eexists. split; [reflexivity|]. auto.
        -- rewrite Forall_forall in *. intros x Hx. destruct (F x Hx) as (X & Y). split; [|exact Y]. rewrite P1 in X. destruct (key_dec k (key_of inst x)); [discriminate|exact X].
      * constructor; [exact Nk|exact Nd].
      * intros k' Hn. rewrite O, P1 by (intros X; apply Hn; right; exact X). destruct (key_dec k k') as [<-|]; [|reflexivity]. exfalso. apply Hn. left. reflexivity.
Qed.

(** ** What was taken and given, as observed *)
Lemma made_lift_events : forall cx xs, made (map fst (map (lift_event cx) xs)) = 0%nat.
Proof. intros cx xs. unfold made. induction xs as [|[[own rt rep] i] xs IH]; [reflexivity|]. cbn [map fst lift_event cd_own]. destruct own; exact IH. Qed.
Lemma made_lower_events : forall cx xs, (made (map fst (map (lower_event cx) xs)) <= List.length xs)%nat.
Proof.
  intros cx xs. induction xs as [|x xs IH]; [cbn; lia|]. cbn [map List.length]. change (fst (lower_event cx x) :: map fst (map (lower_event cx) xs)) with ([fst (lower_event cx x)] ++ map fst (map (lower_event cx) xs))%list.
  rewrite made_app. pose proof (made_one (fst (lower_event cx x))). lia.
Qed.

Lemma evolves_took : forall insts ops rs s calls cx xs s' calls', history insts ops rs s calls -> N.of_nat (made ops) < two32 ->
  (cx_inst cx < insts)%nat -> evolves insts s calls (map (lift_event cx) xs) s' calls' -> took insts (cx_inst cx) xs s s'.
Proof.
  intros insts ops rs s calls cx xs s' calls' H Hn Hi V. pose proof (evolves_history _ _ _ _ _ _ _ _ H V) as H'.
  assert (Hn' : N.of_nat (made (ops ++ map fst (map (lift_event cx) xs))) < two32) by (rewrite made_app, made_lift_events; lia).
  pose proof (evolves_arun _ _ _ _ _ _ V ops rs H ltac:(rewrite made_lift_events; lia)) as R.
  destruct (atook _ _ _ _ R) as (F & Nd & Db & O1 & O2 & _). unfold took. cbv zeta. fold (ownedk (cx_inst cx) xs). fold (borrowedk (cx_inst cx) xs).
  split; [|split; [exact Nd|split; [exact Db|split]]].
  - eapply Forall_impl; [|exact F]. intros x (h & K & <-). rewrite (history_at _ _ _ _ _ _ _ _ H Hn Hi). unfold key_of in K. rewrite K. reflexivity.
  - intros inst' rt i Hi' Hk. rewrite (history_at _ _ _ _ _ _ _ _ H' Hn' Hi'), O1 by exact Hk. reflexivity.
  - intros inst' rt i Hi' Hk. rewrite (history_at _ _ _ _ _ _ _ _ H' Hn' Hi'), (history_at _ _ _ _ _ _ _ _ H Hn Hi'), O2 by exact Hk. reflexivity.
Qed.
Lemma evolves_gave : forall insts ops rs s calls cx xs s' calls', history insts ops rs s calls -> N.of_nat (made ops + List.length xs) < two32 ->
  (cx_inst cx < insts)%nat -> evolves insts s calls (map (lower_event cx) xs) s' calls' -> gave insts (cx_inst cx) xs s s'.
Proof.
  intros insts ops rs s calls cx xs s' calls' H Hn Hi V. pose proof (evolves_history _ _ _ _ _ _ _ _ H V) as H'.
  pose proof (made_lower_events cx xs) as Mx.
  assert (Hn' : N.of_nat (made (ops ++ map fst (map (lower_event cx) xs))) < two32) by (rewrite made_app; lia).
  pose proof (evolves_arun _ _ _ _ _ _ V ops rs H ltac:(lia)) as R.
  destruct (agave _ _ _ _ R) as (D & F & Nd & O). unfold gave. cbv zeta. fold (newk (cx_inst cx) xs).
  split; [exact D|]. split; [|split; [exact Nd|]].
  - eapply Forall_impl; [|exact F]. intros x (K & h & K' & <- & Ho). rewrite (history_at _ _ _ _ _ _ _ _ H ltac:(lia) Hi), (history_at _ _ _ _ _ _ _ _ H' Hn' Hi).
    unfold key_of in K, K'. rewrite K, K'. split; [reflexivity|]. split; [reflexivity|].
    change (cx_inst cx, rt_id (cd_type (fst x)), snd x) with (key_of (cx_inst cx) x) in K'. rewrite entry_view in K'.
    destruct (entry s' (key_of (cx_inst cx) x)) as [e|]; [|discriminate]. exists e. split; [reflexivity|]. cbn in K'. injection K' as <-. exact Ho.
  - intros inst' rt i Hi' Hk. rewrite (history_at _ _ _ _ _ _ _ _ H' Hn' Hi'), (history_at _ _ _ _ _ _ _ _ H ltac:(lia) Hi'), O by exact Hk. reflexivity.
Qed.

Lemma evolves_nothing : forall insts s calls s' calls', evolves insts s calls [] s' calls' -> s_world s' = s_world s.
Proof.
  intros insts s calls s' calls' (x & A & W). rewrite <- W. inversion A as [|? ? evs ? ? ? ? ? ? ? ? X]; subst; [reflexivity|].
  match goal with X : (_ ++ [_])%list = [] |- _ => destruct (app_cons_not_nil _ _ _ (eq_sym X)) end.
Qed.

(** ** Functions that act on the handles they report *)
Section Delivers.
Variables (insts : nat) (cx : callctx) (ev : carried * N -> op * outcome N).
Definition delivers {A} (m : M A) (Q : A -> list (carried * N) -> Prop) : Prop := forall s calls x s',
  (cx_inst cx < insts)%nat -> In (cx_id cx) calls -> m s = (Ok x, s') ->
  exists xs, evolves insts s calls (map ev xs) s' calls /\ Q x xs.

Lemma delivers_silent : forall {A} (m : M A), acts insts cx (fun _ => False) 0 m -> delivers m (fun _ xs => xs = []).
Proof.
  intros A m H s calls x s' Hi Hc E. destruct (H _ _ _ _ Hi Hc E) as (evs & V & F & _). exists []. split; [|reflexivity].
  destruct evs as [|e evs]; [exact V|]. inversion F; subst. contradiction.
Qed.
Lemma delivers_lift : forall {A} (o : outcome A) (Q : A -> list (carried * N) -> Prop), (forall x, o = Ok x -> Q x []) -> delivers (lift_o o) Q.
Proof. intros A o Q H s calls x s' _ _ E. injection E as E <-. exists []. split; [apply evolves_nil; reflexivity|auto]. Qed.
Lemma delivers_ret : forall {A} (x : A) (Q : A -> list (carried * N) -> Prop), Q x [] -> delivers (ret x) Q.
Proof. intros A x Q H. apply delivers_lift. intros y E. injection E as <-. exact H. Qed.
Lemma delivers_bind : forall {A B} (m : M A) (f : A -> M B) P (Q : B -> list (carried * N) -> Prop), delivers m P ->
  (forall x xs, P x xs -> delivers (f x) (fun y ys => Q y (xs ++ ys)%list)) -> delivers (bind m f) Q.
Proof.
  intros A B m f P Q Hm Hf s calls y s' Hi Hc E. apply bind_inv in E. destruct E as (x & s1 & E1 & E2).
  destruct (Hm _ _ _ _ Hi Hc E1) as (xs & V1 & HP). destruct (Hf x xs HP _ _ _ _ Hi Hc E2) as (ys & V2 & HQ).
  exists (xs ++ ys)%list. split; [rewrite map_app; eapply evolves_trans; eauto|exact HQ].
Qed.
(** ... where the first step touches no handles, *)
Lemma delivers_after : forall {A B} (m : M A) (f : A -> M B) (Q : B -> list (carried * N) -> Prop), acts insts cx (fun _ => False) 0 m ->
  (forall x s s', m s = (Ok x, s') -> delivers (f x) Q) -> delivers (bind m f) Q.
Proof.
  intros A B m f Q Hm Hf s calls y s' Hi Hc E. apply bind_inv in E. destruct E as (x & s1 & E1 & E2).
  destruct (delivers_silent m Hm _ _ _ _ Hi Hc E1) as (xs & V1 & ->). destruct (Hf x _ _ E1 _ _ _ _ Hi Hc E2) as (ys & V2 & HQ).
  exists ys. split; [exact (evolves_trans _ _ _ _ _ _ _ _ _ V1 V2)|exact HQ].
Qed.
(** or the second. *)
Lemma delivers_mono : forall {A} (m : M A) (P Q : A -> list (carried * N) -> Prop), delivers m P -> (forall x xs, P x xs -> Q x xs) -> delivers m Q.
Proof. intros A m P Q H I s calls x s' Hi Hc E. destruct (H _ _ _ _ Hi Hc E) as (xs & V & HP). eauto. Qed.
End Delivers.

(** ** Specification lemmas *)
Definition bears (t : valtype) (v : any) (xs : list (carried * N)) : Prop := carries t v (map fst xs).

Lemma carries_despecialize : forall t v hs, carries (despecialize t) v hs <-> carries t v hs.
Proof.
  destruct t; intros v hs; try reflexivity; cbn [despecialize carries].
  - rewrite (map_itoa_fields carries). reflexivity.
  - rewrite map_enum_cases. reflexivity.
  - rewrite map_itoa_cases. reflexivity.
Qed.

Lemma map_set_new : forall {A} (m : list (string * A)) l v, ~ In l (map fst m) -> map_set m l v = (m ++ [(l, v)])%list.
Proof.
  induction m as [|[k x] m IH]; intros l v H; [reflexivity|]. cbn [map_set]. destruct (String.eqb_spec l k) as [->|].
  - exfalso. apply H. left. reflexivity.
  - cbn [app]. rewrite IH; [reflexivity|]. intros X. apply H. right. exact X.
Qed.
Lemma map_get_combine : forall {A} (ls : list string) (vs : list A) i l v, NoDup ls -> nth_error ls i = Some l -> nth_error vs i = Some v ->
  map_get (combine ls vs) l = Some v.
Proof.
  induction ls as [|k ls IH]; intros vs i l v Hn Hl Hv; [destruct i; discriminate|]. inversion Hn; subst.
  destruct vs as [|x vs]; [destruct i; discriminate|]. destruct i as [|i]; cbn in Hl, Hv; cbn [combine map_get].
  - injection Hl as ->. injection Hv as ->. rewrite String.eqb_refl. reflexivity.
  - destruct (String.eqb_spec l k) as [->|]; [exfalso; apply H1; eapply nth_error_In; exact Hl|]. eapply IH; eauto.
Qed.
Lemma concat_fst : forall (xss : list (list (carried * N))), map fst (List.concat xss) = List.concat (map (map fst) xss).
Proof. intros. apply concat_map. Qed.

(** A record built field by field. *)
Definition filled (fs : list (string * (any -> list (carried * N) -> Prop))) (acc m : list (string * any)) (xs : list (carried * N)) : Prop :=
  exists vxs, Forall2 (fun f vx => snd f (fst vx) (snd vx)) fs vxs /\ m = (acc ++ combine (map fst fs) (map fst vxs))%list /\ xs = List.concat (map snd vxs).
Lemma filled_nil : forall acc, filled [] acc acc [].
Proof. intros acc. exists []. split; [constructor|]. cbn. rewrite app_nil_r. auto. Qed.
Lemma filled_cons : forall l (P : any -> list (carried * N) -> Prop) fs acc v x m xs, ~ In l (map fst acc) -> P v x -> filled fs (map_set acc l v) m xs -> filled ((l, P) :: fs) acc m (x ++ xs).
Proof.
  intros l P fs acc v x m xs Hl HP (vxs & F & -> & ->). exists ((v, x) :: vxs). split; [constructor; [exact HP|exact F]|].
  rewrite map_set_new by exact Hl. rewrite <- app_assoc. auto.
Qed.
Lemma filled_record : forall fs m xs, NoDup (map fst fs) -> filled (map (fun f => (fst f, bears (snd f))) fs) [] m xs -> bears (TRecord fs) (VMap m) xs.
Proof.
  intros fs m xs Hn (vxs & F & -> & ->). exists (combine (map fst (map (fun f => (fst f, bears (snd f))) fs)) (map fst vxs)), (map (fun vx => map fst (snd vx)) vxs).
  rewrite map_map. cbn [fst app]. split; [reflexivity|]. split.
  - assert (X : forall i f vx, nth_error fs i = Some f -> nth_error vxs i = Some vx -> map_get (combine (map fst fs) (map fst vxs)) (fst f) = Some (fst vx)).
    { intros i f vx Hf Hv. eapply map_get_combine with (i := i); [exact Hn| |]; apply map_nth_error; assumption. }
    revert X. set (M := combine (map fst fs) (map fst vxs)). clearbody M. clear Hn.
    remember (map (fun f => (fst f, bears (snd f))) fs) as gs eqn:Eg. revert fs Eg. induction F as [|g vx gs vxs Hg F IH]; intros fs Eg X; destruct fs as [|f fs]; try discriminate; [constructor|].
    cbn [map] in Eg. injection Eg as -> Eg. cbn [map]. constructor.
    + cbn [fst snd]. rewrite (X 0%nat f vx eq_refl eq_refl). exact Hg.
    + apply IH; [exact Eg|]. intros i f' vx' Hf Hv. exact (X (S i) f' vx' Hf Hv).
  - rewrite concat_fst, map_map. reflexivity.
Qed.

Lemma variant_carries : forall {A} (f : A -> any -> list carried -> Prop) (cs : list (caseOf A)) key i c v hs,
  selects (map c_label cs) key i -> nth_error cs i = Some c ->
  match c_type c with Some y => f y v hs | None => hs = [] end ->
  var_carries (map (map_case f) cs) (VMap [(key, v)]) hs.
Proof.
  intros A f cs key i c v hs Hs Hn Hx. exists key, v, i, (map_case f c). split; [reflexivity|].
  rewrite map_case_label. split; [exact Hs|]. split; [apply map_nth_error; exact Hn|].
  destruct c as [l [y|] r]; exact Hx.
Qed.

(** A value that can be stored carries no handles. *)
Lemma storable_bare : forall t v, storable t v -> carries t v [].
Proof.
  unfold storable. intros t. induction t using valtype_ind'; intros v Hs; cbn [shaped carries] in *; try reflexivity; try contradiction.
  - destruct Hs as (l & -> & F). exists l, (map (fun _ => []) l). split; [reflexivity|]. split.
    + induction F; cbn; constructor; auto.
    + clear F. induction l; [reflexivity|exact IHl].
  - destruct Hs as (m & -> & F). exists m, (map (fun _ => []) fs). split; [reflexivity|]. split.
    + rewrite Forall_map in F. induction H as [|f fs Hf _ IH]; cbn; [constructor|]. inversion F; subst. constructor; [apply Hf; assumption|apply IH; assumption].
    + clear. induction fs; [reflexivity|exact IHfs].
  - destruct Hs as (key & p & i & c & -> & Hsel & Hi & Hc). rewrite nth_error_map in Hi. destruct (nth_error cs i) as [c'|] eqn:Ec; [|discriminate].
    injection Hi as <-. rewrite map_case_label in Hsel. eapply variant_carries; [exact Hsel|exact Ec|].
    rewrite Forall_forall in H. specialize (H c' (nth_error_In _ _ Ec)). destruct c' as [l [y|] r]; cbn in *; auto.
  - apply carries_despecialize. apply IHt. apply shaped_despecialize. exact Hs.
Qed.

(** A value carries one list of handles only. *)
Lemma Forall2_unique : forall {A B} (R : A -> B -> Prop) l m m', (forall x y y', In x l -> R x y -> R x y' -> y = y') -> Forall2 R l m -> Forall2 R l m' -> m = m'.
Proof.
  intros A B R l m m' H F. revert m'. induction F as [|x y l m Hx F IH]; intros m' F'; inversion F'; subst; [reflexivity|].
  f_equal; [eapply H; [left; reflexivity|eassumption|eassumption]|]. apply IH; [|assumption]. intros; eapply H; [right|..]; eassumption.
Qed.
Lemma carries_unique : forall t, wf_type t -> forall v hs hs', carries t v hs -> carries t v hs' -> hs = hs'.
Proof.
  intros t. induction t using valtype_ind'; intros Hw v hs hs' C C'; cbn [carries] in *; try congruence.
  - destruct C as (l & hss & -> & F & ->), C' as (l' & hss' & El & F' & ->). injection El as <-.
    f_equal. eapply Forall2_unique; [|exact F|exact F']. intros x y y' _ X Y. eapply IHt; [apply Hw|exact X|exact Y].
  - destruct Hw as [Hn Hw]. apply all_Forall in Hw. destruct C as (m & hss & -> & F & ->), C' as (m' & hss' & Em & F' & ->). injection Em as <-.
    f_equal. eapply Forall2_unique; [|exact F|exact F']. intros f y y' Hf X Y. apply in_map_iff in Hf. destruct Hf as (g & <- & Hg). cbn [fst snd] in *.
    rewrite Forall_forall in H, Hw. eapply (H g Hg); [apply Hw; exact Hg|exact X|exact Y].
  - destruct Hw as [(Hn & Hb & Hr) Hw]. apply all_Forall in Hw.
    destruct C as (key & p & i & c & -> & S & Hi & Hc), C' as (key' & p' & i' & c' & Ev & S' & Hi' & Hc'). injection Ev as <- <-.
    assert (i = i') as <-. { eapply selects_fun; [|exact S|exact S']. rewrite map_case_label. exact Hn. }
    rewrite Hi in Hi'. injection Hi' as <-. rewrite nth_error_map in Hi. destruct (nth_error cs i) as [d|] eqn:Ed; [|discriminate]. injection Hi as <-.
    rewrite Forall_forall in H, Hw. specialize (H d (nth_error_In _ _ Ed)). specialize (Hw d (nth_error_In _ _ Ed)).
    destruct d as [l [y|] r]; cbn in *; [eapply H; eauto|congruence].
  - destruct C as (n & -> & ->), C' as (n' & E & ->). injection E as <-. reflexivity.
  - destruct C as (n & -> & ->), C' as (n' & E & ->). injection E as <-. reflexivity.
  - rewrite <- carries_despecialize in C, C'. eapply IHt; [apply wf_despecialize; exact Hw|exact C|exact C'].
Qed.

(** ** Lifting *)
Section Lifting.
Variables (insts : nat) (cx : callctx).
Notation del := (delivers insts cx (lift_event cx)).

Lemma del_own : forall i rt, del (lift_own cx i rt) (fun rep xs => xs = [(mkCarried true rt rep, i)]).
Proof.
  intros i rt s calls rep s' Hi Hc E. exists [(mkCarried true rt rep, i)]. split; [|reflexivity].
  exact (evolves_one insts s calls (OpLiftOwn cx rt i) (Ok rep) s' (conj Hi Hc) E).
Qed.
Lemma del_borrow : forall i rt, del (lift_borrow cx i rt) (fun rep xs => xs = [(mkCarried false rt rep, i)]).
Proof.
  intros i rt s calls rep s' Hi Hc E. exists [(mkCarried false rt rep, i)]. split; [|reflexivity].
  exact (evolves_one insts s calls (OpLiftBorrow cx rt i) (Ok rep) s' (conj Hi Hc) E).
Qed.

Lemma del_elems : forall n ld p sz i (P : any -> list (carried * N) -> Prop), (forall q, del (ld q) P) ->
  del (load_elems n ld p sz i) (fun vs xs => exists xss, Forall2 P vs xss /\ xs = List.concat xss).
Proof.
  induction n as [|n IH]; intros ld p sz i P H; cbn [load_elems].
  - apply delivers_ret. exists []. split; [constructor|reflexivity].
  - eapply delivers_bind; [apply H|]. intros v x Hv. eapply delivers_bind; [apply IH; exact H|]. intros vs xs (xss & F & ->).
    apply delivers_ret. exists (x :: xss). split; [constructor; assumption|]. cbn [List.concat]. rewrite app_nil_r. reflexivity.
Qed.
Lemma del_list : forall t al sz ld p n, (forall q, del (ld q) (bears t)) -> del (load_list_from_range al sz ld p n) (bears (TList t)).
Proof.
  intros t al sz ld p n H. unfold load_list_from_range. do 4 (apply delivers_after; [auto using acts_lift, acts_check_aligned, acts_check_bounds|intros ? ? ? _]).
  eapply delivers_bind; [apply del_elems; exact H|]. intros vs xs (xss & F & ->). apply delivers_ret. rewrite app_nil_r.
  exists vs, (map (map fst) xss). split; [reflexivity|]. split; [|apply concat_fst].
  induction F; cbn; constructor; auto.
Qed.
Lemma del_fields : forall (fs : list (string * comp (N -> M any))) (Ps : list (string * (any -> list (carried * N) -> Prop))) p acc,
  Forall2 (fun f P => fst f = fst P /\ forall q, del (q_op (snd f) q) (snd P)) fs Ps ->
  NoDup (map fst acc ++ map fst Ps) -> del (load_fields fs p acc) (filled Ps acc).
Proof.
  intros fs Ps p acc H. revert p acc. induction H as [|[l q] [l' P] fs Ps [E Hq] H IH]; intros p acc Hn; cbn [load_fields].
  - apply delivers_ret. apply filled_nil.
  - cbn in E; subst l'. cbn [map fst snd] in Hn, Hq. pose proof (NoDup_remove_2 _ _ _ Hn) as Hl.
    do 2 (apply delivers_after; [apply acts_lift|intros ? ? ? _]). eapply delivers_bind; [apply Hq|]. intros v vx Hv.
    apply delivers_after; [apply acts_lift|intros ? ? ? _].
    assert (Ha : ~ In l (map fst acc)) by (intros X; apply Hl; apply in_or_app; left; exact X).
    eapply delivers_mono; [apply IH|intros m xs Hm; eapply filled_cons; eauto].
    rewrite map_set_new by exact Ha. rewrite map_app, <- app_assoc. cbn [map fst app]. exact Hn.
Qed.
Lemma del_variant : forall {A} (mk : A -> comp (N -> M any)) (f : A -> any -> list carried -> Prop) (cs : list (caseOf A)) p,
  Forall (fun c => bar_free (c_label c)) cs ->
  Forall (fun c => opt_all (fun x => forall q, del (q_op (mk x) q) (fun v xs => f x v (map fst xs))) (c_type c)) cs ->
  del (load_variant (map (map_case mk) cs) p) (fun v xs => var_carries (map (map_case f) cs) v (map fst xs)).
Proof.
  intros A mk f cs p Hb H. unfold load_variant. do 3 (apply delivers_after; [auto using acts_lift, acts_load_int|intros ? ? ? _]).
  match goal with |- delivers _ _ _ (if ?b then _ else _) _ => destruct b end; [apply delivers_lift; discriminate|].
  rewrite nth_error_map. destruct (nth_error cs (N.to_nat x1)) as [c|] eqn:Ei; [|apply delivers_lift; discriminate].
  cbn [option_map]. cbn zeta. do 2 (apply delivers_after; [apply acts_lift|intros ? ? ? _]).
  apply delivers_after; [apply acts_lift|]. intros label sl sl' El. injection El as El _.
  assert (Hs : selects (map c_label cs) label (N.to_nat x1)).
  { rewrite <- (map_case_label mk). eapply case_label_selects; [apply wf_cases_map; assumption|rewrite nth_error_map, Ei; reflexivity|exact El]. }
  rewrite Forall_forall in H. specialize (H c (nth_error_In _ _ Ei)).
  eapply (delivers_bind _ _ _ _ _ (fun v xs => match c_type c with Some x => f x v (map fst xs) | None => xs = [] end)).
  - cbn [map_case c_type]. destruct (c_type c); [apply H|apply delivers_ret; reflexivity].
  - intros v xs Hv. apply delivers_ret. rewrite app_nil_r. eapply variant_carries; [exact Hs|exact Ei|]. destruct (c_type c); [exact Hv|subst; reflexivity].
Qed.

Lemma acts_bare : forall t, handles_in t = [] -> lifts_ok cx (fun _ => False) t.
Proof. intros t E. split; intros rt i X; rewrite E in X; exact X. Qed.
Lemma del_bare : forall t p, handles_in t = [] -> (forall v, carries t v []) -> del (load cx t p) (bears t).
Proof.
  intros t p E C. eapply delivers_mono; [apply delivers_silent; apply acts_load; apply acts_bare; exact E|]. intros v xs ->. apply C.
Qed.
Lemma del_load : forall t, wf_type t -> forall p, del (load cx t p) (bears t).
Proof.
  intros t. induction t using valtype_ind'; intros Hw p; try (apply del_bare; [reflexivity|intros v; reflexivity]).
  - cbn [load]. unfold load_list. do 2 (apply delivers_after; [apply acts_load_u32|intros ? ? ? _]). apply del_list. apply IHt. apply Hw.
  - cbn [load]. destruct Hw as [Hn Hw]. apply all_Forall in Hw. unfold load_record.
    eapply delivers_bind; [|intros m xs Hm; apply delivers_ret; rewrite app_nil_r; apply filled_record; [exact Hn|exact Hm]].
    apply del_fields; [|cbn [map app]; rewrite map_map; exact Hn].
    apply Forall2_maps. rewrite Forall_forall in *. intros f Hf. cbn [fst snd q_op]. split; [reflexivity|]. apply H; [assumption|apply Hw; assumption].
  - cbn [load]. destruct Hw as [(Hn & Hb & Hr) Hw]. apply all_Forall in Hw. apply del_variant; [assumption|].
    rewrite Forall_forall in *. intros c Hc. specialize (H c Hc). specialize (Hw c Hc). destruct (c_type c); cbn in *; auto.
  - cbn [load]. apply delivers_after; [apply acts_load_u32|intros i ? ? _]. unfold ret_u32. eapply delivers_bind; [apply del_own|].
    intros rep xs ->. apply delivers_ret. exists rep. auto.
  - cbn [load]. apply delivers_after; [apply acts_load_u32|intros i ? ? _]. unfold ret_u32. eapply delivers_bind; [apply del_borrow|].
    intros rep xs ->. apply delivers_ret. exists rep. auto.
  - rewrite <- load_despecialize. eapply delivers_mono; [apply IHt; apply wf_despecialize; exact Hw|]. intros v xs. apply carries_despecialize.
Qed.

(** The same from core values. *)
Notation dell m P := (forall it, delivers insts cx (lift_event cx) (m it) (fun r xs => P (fst r) xs)).
Lemma dell_fields : forall (fs : list (string * LM any)) (Ps : list (string * (any -> list (carried * N) -> Prop))) acc,
  Forall2 (fun f P => fst f = fst P /\ dell (snd f) (snd P)) fs Ps ->
  NoDup (map fst acc ++ map fst Ps) -> dell (lift_fields fs acc) (filled Ps acc).
Proof.
  intros fs Ps acc H. revert acc. induction H as [|[l q] [l' P] fs Ps [E Hq] H IH]; intros acc Hn it; cbn [lift_fields].
  - apply delivers_ret. apply filled_nil.
  - cbn in E; subst l'. cbn [map fst snd] in Hn, Hq. pose proof (NoDup_remove_2 _ _ _ Hn) as Hl.
    eapply delivers_bind; [apply Hq|]. intros [v it1] x Hv. cbn [fst] in Hv.
    assert (Ha : ~ In l (map fst acc)) by (intros X; apply Hl; apply in_or_app; left; exact X).
    eapply delivers_mono; [apply IH|intros m xs Hm; eapply filled_cons; eauto].
    rewrite map_set_new by exact Ha. rewrite map_app, <- app_assoc. cbn [map fst app]. exact Hn.
Qed.
Lemma dell_variant : forall {A} flat (mk : A -> LM any) (f : A -> any -> list carried -> Prop) (cs : list (caseOf A)),
  Forall (fun c => bar_free (c_label c)) cs ->
  Forall (fun c => opt_all (fun x => dell (mk x) (fun v xs => f x v (map fst xs))) (c_type c)) cs ->
  dell (lift_flat_variant flat (map (map_case mk) cs)) (fun v xs => var_carries (map (map_case f) cs) v (map fst xs)).
Proof.
  intros A flat mk f cs Hb H it. unfold lift_flat_variant. apply delivers_after; [apply acts_lift|intros [|first rest] ? ? _; [apply delivers_lift; discriminate|]].
  destruct (negb (kind_eqb first KU32)); [apply delivers_lift; discriminate|].
  apply delivers_after; [apply acts_next_u32|intros [i it1] ? ? _].
  match goal with |- delivers _ _ _ (if ?b then _ else _) _ => destruct b end; [apply delivers_lift; discriminate|].
  rewrite nth_error_map. destruct (nth_error cs (N.to_nat i)) as [c|] eqn:Ei; [|apply delivers_lift; discriminate].
  cbn [option_map]. rewrite Forall_forall in H. specialize (H c (nth_error_In _ _ Ei)).
  assert (L : forall label, case_label (map_case mk c) (map (map_case mk) cs) = Ok label -> selects (map c_label cs) label (N.to_nat i)).
  { intros label El. rewrite <- (map_case_label mk). eapply case_label_selects; [apply wf_cases_map; assumption|rewrite nth_error_map, Ei; reflexivity|exact El]. }
  cbn [c_type map_case] in *. destruct (c_type c) as [x|] eqn:Et; cbn [opt_all] in H.
  - eapply delivers_bind; [apply H|]. intros [v cit] xs Hv. cbn [fst] in Hv.
    destruct cit as [|it2 rest2]; [apply delivers_lift; discriminate|].
    apply delivers_after; [apply acts_lift|intros it3 ? ? _]. apply delivers_after; [apply acts_lift|]. intros label sl sl' El. injection El as El _.
    apply delivers_ret. rewrite app_nil_r. cbn [fst]. eapply variant_carries; [apply L; exact El|exact Ei|]. rewrite Et. exact Hv.
  - apply delivers_after; [apply acts_lift|intros it3 ? ? _]. apply delivers_after; [apply acts_lift|]. intros label sl sl' El. injection El as El _.
    apply delivers_ret. cbn [fst]. eapply variant_carries; [apply L; exact El|exact Ei|]. rewrite Et. reflexivity.
Qed.
Lemma dell_bare : forall t, handles_in t = [] -> (forall v, carries t v []) -> dell (lift_flat cx t) (bears t).
Proof.
  intros t E C it. eapply delivers_mono; [apply delivers_silent; apply acts_lift_flat; apply acts_bare; exact E|]. intros v xs ->. apply C.
Qed.
Lemma del_lift : forall t, wf_type t -> dell (lift_flat cx t) (bears t).
Proof.
  intros t. induction t using valtype_ind'; intros Hw; try (apply dell_bare; [reflexivity|intros v; reflexivity]); intros it.
  - cbn [lift_flat]. unfold lift_flat_list. do 2 (apply delivers_after; [apply acts_next_u32|intros [? ?] ? ? _]).
    eapply delivers_bind; [apply del_list; apply del_load; apply Hw|]. intros v xs Hv. apply delivers_ret. rewrite app_nil_r. exact Hv.
  - cbn [lift_flat]. destruct Hw as [Hn Hw]. apply all_Forall in Hw. unfold lift_flat_record.
    apply (delivers_bind _ _ _ _ _ (fun r xs => filled (map (fun f => (fst f, bears (snd f))) fs) [] (fst r) xs)); [|intros [m it1] xs Hm; apply delivers_ret; rewrite app_nil_r; apply filled_record; [exact Hn|exact Hm]].
    apply dell_fields; [|cbn [map app]; rewrite map_map; exact Hn].
    apply Forall2_maps. rewrite Forall_forall in *. intros f Hf. cbn [fst snd]. split; [reflexivity|]. apply H; [assumption|apply Hw; assumption].
  - cbn [lift_flat]. destruct Hw as [(Hn & Hb & Hr) Hw]. apply all_Forall in Hw.
    eapply delivers_mono; [apply (dell_variant _ (lift_flat cx) carries); [assumption|]|intros x xs Hx; exact Hx].
    rewrite Forall_forall in *. intros c Hc. specialize (H c Hc). specialize (Hw c Hc). destruct (c_type c); cbn in *; auto.
  - cbn [lift_flat]. unfold lift_flat_handle. apply delivers_after; [apply acts_lift|intros [x it1] ? ? _]. destruct x; try (apply delivers_lift; discriminate).
    eapply delivers_bind; [apply del_own|]. intros rep xs ->. apply delivers_ret. exists rep. auto.
  - cbn [lift_flat]. unfold lift_flat_handle. apply delivers_after; [apply acts_lift|intros [x it1] ? ? _]. destruct x; try (apply delivers_lift; discriminate).
    eapply delivers_bind; [apply del_borrow|]. intros rep xs ->. apply delivers_ret. exists rep. auto.
  - rewrite <- lift_flat_despecialize. eapply delivers_mono; [apply IHt; apply wf_despecialize; exact Hw|]. intros v xs. apply carries_despecialize.
Qed.
Lemma del_lift_each : forall ts, Forall wf_type ts -> forall it,
  delivers insts cx (lift_event cx) (lift_each (map (lift_flat cx) ts) it)
    (fun r xs => exists tvs, map fst tvs = ts /\ map snd tvs = fst r /\ carry_all tvs (map fst xs)).
Proof.
  induction 1 as [|t ts Ht _ IH]; intros it; cbn [map lift_each].
  - apply delivers_ret. exists []. repeat split. constructor.
  - eapply delivers_bind; [apply del_lift; exact Ht|]. intros [v it1] xs Hv. cbn [fst] in Hv.
    eapply delivers_bind; [apply IH|]. intros [vs it2] ys (tvs & E1 & E2 & C). cbn [fst] in E2. apply delivers_ret. rewrite app_nil_r.
    exists ((t, v) :: tvs). cbn [map fst snd]. rewrite E1, E2. split; [reflexivity|]. split; [reflexivity|]. rewrite map_app. constructor; assumption.
Qed.
End Lifting.

(** ** Lowering *)
Lemma appear_app : forall js cs js' cs', appear js cs -> appear js' cs' -> appear (js ++ js') (cs ++ cs').
Proof. intros js cs js' cs' H H'. induction H; cbn [app]; [exact H'|apply ap_other; assumption|apply ap_index; assumption]. Qed.
Lemma appear_none : forall cs, appear [] cs.
Proof. induction cs; constructor; assumption. Qed.
Lemma appear_coerce : forall js cs flat r, appear js cs -> coerce_payload cs flat = Ok r -> appear js r.
Proof.
  intros js cs flat r H. revert flat r. induction H as [|js c cs H IH|j js c cs Hc H IH]; intros flat r E.
  - apply appear_none.
  - destruct flat as [|w flat]; [discriminate|]. cbn [coerce_payload] in E. destruct (coerce_payload cs flat) eqn:E1; try discriminate.
    injection E as <-. apply ap_other. eapply IH. exact E1.
  - destruct flat as [|w flat]; [discriminate|]. cbn [coerce_payload] in E. destruct (coerce_payload cs flat) eqn:E1; try discriminate.
    injection E as <-. apply ap_index; [|eapply IH; exact E1]. destruct Hc as [-> | ->], w; cbn; auto.
Qed.

Section Lowering.
Variables (insts : nat) (cx : callctx).
Hypothesis Hlw : leaves_world (cx_realloc cx).
Notation del := (delivers insts cx (lower_event cx)).

(** What lowering [v] gives: the handles of the value, no more than the type
    mentions, and their indices among the core values. *)
Definition hands (t : valtype) (v : any) (cs : list cval) (xs : list (carried * N)) : Prop :=
  bears t v xs /\ appear (map snd xs) cs /\ (List.length xs <= List.length (handles_in t))%nat.

Lemma del_lower_own : forall v rt, del (lower_own cx v rt) (fun j xs => exists rep, v = VU32 rep /\ xs = [(mkCarried true rt rep, j)]).
Proof.
  intros v rt s calls j s' Hi Hc E. destruct v; try discriminate. match goal with E : _ cx (VU32 ?r) rt s = _ |- _ => rename r into rep end. exists [(mkCarried true rt rep, j)]. split; [|eauto].
  exact (evolves_one insts s calls (OpLowerOwn cx rt (VU32 rep)) (Ok j) s' (conj Hi Hc) E).
Qed.
Lemma del_lower_borrow : forall v rt, del (lower_borrow cx v rt) (fun j xs => exists rep, v = VU32 rep /\ xs = [(mkCarried false rt rep, j)]).
Proof.
  intros v rt s calls j s' Hi Hc E. destruct v; try discriminate. match goal with E : _ cx (VU32 ?r) rt s = _ |- _ => rename r into rep end. exists [(mkCarried false rt rep, j)]. split; [|eauto].
  exact (evolves_one insts s calls (OpLowerBorrow cx rt (VU32 rep)) (Ok j) s' (conj Hi Hc) E).
Qed.
Lemma del_lower_fields : forall (mk : valtype -> any -> M (list cval)) fs m, Forall (fun f => forall v, del (mk (snd f) v) (hands (snd f) v)) fs ->
  del (lower_fields (map (fun f => (fst f, mk (snd f))) fs) m)
    (hands (TRecord fs) (VMap m)).
Proof.
  intros mk fs m H. assert (G : del (lower_fields (map (fun f => (fst f, mk (snd f))) fs) m)
    (fun cs xs => (exists hss, Forall2 (fun f h => snd f (match map_get m (fst f) with Some x => x | None => VNil end) h) (map (fun f => (fst f, carries (snd f))) fs) hss /\
      map fst xs = List.concat hss) /\ appear (map snd xs) cs /\ (List.length xs <= List.length (handles_in (TRecord fs)))%nat)).
  { induction H as [|[l t] fs Hf _ IH]; cbn [map lower_fields fst snd] in *.
    - apply delivers_ret. split; [exists []; split; [constructor|reflexivity]|split; [constructor|cbn; lia]].
    - eapply delivers_bind; [apply Hf|]. intros a xs (Hb & Ha & Hl). eapply delivers_bind; [apply IH|]. intros b ys ((hss & F & E) & Hb' & Hl').
      apply delivers_ret. rewrite app_nil_r. split; [|split; [rewrite map_app; apply appear_app; assumption|]].
      2: { rewrite handles_sum in Hl' |- *. cbn [map list_sum fold_right snd]. change (fold_right Nat.add 0%nat ?l) with (list_sum l). rewrite app_length. lia. }
      exists (map fst xs :: hss). split; [constructor; [exact Hb|exact F]|]. rewrite map_app, E. reflexivity. }
  eapply delivers_mono; [exact G|]. intros cs xs ((hss & F & E) & Ha & Hl). split; [exists m, hss; auto|split; assumption].
Qed.
Lemma del_lower_variant : forall flat (mk : valtype -> any -> M (list cval)) cs v,
  (forall ks, flat = Ok ks -> N.of_nat (List.length cs) <= 2 ^ 32) ->
  Forall (fun c => opt_all (fun t => forall v, del (mk t v) (hands t v)) (c_type c)) cs ->
  del (lower_flat_variant flat (map (map_case mk) cs) v) (hands (TVariant cs) v).
Proof.
  intros flat mk cs v Hf H. unfold lower_flat_variant.
  apply delivers_after; [apply acts_lift|]. intros [i x] s s' Hm. injection Hm as Hm _.
  apply delivers_after; [apply acts_lift|]. intros ft t t' Hd. injection Hd as Hd _. apply Hf in Hd.
  apply match_case_inv in Hm; [|rewrite map_length; exact Hd]. destruct Hm as (key & j & -> & -> & Hs). rewrite map_case_label in Hs.
  destruct ft as [|first rest]; [apply delivers_lift; discriminate|].
  destruct (negb _); [apply delivers_lift; discriminate|].
  rewrite Nnat.Nat2N.id, nth_error_map. destruct (nth_error cs j) as [c|] eqn:Ec; cbn [option_map]; [|apply delivers_lift; discriminate].
  rewrite Forall_forall in H. specialize (H c (nth_error_In _ _ Ec)).
  eapply (delivers_bind _ _ _ _ _ (fun cvs xs => match c_type c with Some u => bears u x xs | None => xs = [] end /\ appear (map snd xs) cvs /\ (List.length xs <= List.length (handles_in (TVariant cs)))%nat)).
  - pose proof (handles_case cs c) as HC. apply nth_error_In in Ec. destruct c as [l [u|] r]; cbn [map_case c_type opt_all] in *.
    + eapply delivers_mono; [apply H|]. intros cvs xs (B & A & L). specialize (HC u Ec eq_refl). split; [exact B|split; [exact A|lia]].
    + apply delivers_ret. split; [reflexivity|split; [constructor|cbn; lia]].
  - intros cvs xs (Hx & Ha & Hl). apply delivers_after; [apply acts_lift|]. intros p u u' Hp. injection Hp as Hp _.
    apply delivers_ret. rewrite app_nil_r. split; [|split; [|exact Hl]].
    + unfold bears. cbn [carries]. eapply variant_carries; [exact Hs|exact Ec|]. destruct (c_type c); [exact Hx|subst; reflexivity].
    + apply ap_other. eapply appear_coerce; eassumption.
Qed.
Lemma del_lower_bare : forall t v, handles_in t = [] -> (forall v, carries t v []) -> del (lower_flat cx t v) (hands t v).
Proof.
  intros t v E C. eapply delivers_mono; [apply delivers_silent|intros cs xs ->; split; [apply C|split; [apply appear_none|cbn; lia]]].
  assert (L : lowers_ok cx (fun _ => False) t) by (split; intros rt i X; rewrite E in X; exact X).
  pose proof (acts_lower_flat insts cx (fun _ => False) Hlw t L v) as A. rewrite E in A. exact A.
Qed.
Lemma del_lower : forall t v, del (lower_flat cx t v) (hands t v).
Proof.
  intros t. induction t using valtype_ind'; intros v; try (apply del_lower_bare; [reflexivity|intros v'; reflexivity]).
  - intros s calls cs s' Hi Hc E. pose proof (list_accepts cx (alignment t) (size t) (store cx t) (storable t) v (fun v p => store_needs cx t v p)) as Hn.
    cbn [lower_flat] in E. unfold lower_flat_list in E.
    assert (B : bears (TList t) v []). { apply (storable_bare (TList t)). destruct (bind_inv _ _ _ _ _ E) as (x & s1 & E1 & _). cbn [shaped]. eapply Hn. exact E1. }
    revert s calls cs s' Hi Hc E. change (del (let* (ptr, len) := store_list_into_range cx (alignment t) (size t) (store cx t) v in ret [CU32 ptr; CU32 len]) (hands (TList t) v)).
    apply delivers_after; [|intros [ptr len] ? ? _; apply delivers_ret; split; [exact B|split; [apply appear_none|cbn; lia]]].
    apply acts_store_list_into_range; [exact Hlw|]. intros; apply acts_store. exact Hlw.
  - cbn [lower_flat]. unfold lower_flat_record. destruct v; try (apply delivers_lift; discriminate).
    apply del_lower_fields. exact H.
  - cbn [lower_flat]. apply del_lower_variant; [|exact H].
    intros ks E. cbn [flatten_type] in E. unfold flatten_variant in E.
    destruct (fold_left _ _ _) as [fl| | | ]; try discriminate. cbn in E.
    destruct (discriminant_type _) as [dt| | | ] eqn:Ed; try discriminate. rewrite map_length in Ed. apply discriminant_range in Ed. lia.
  - cbn [lower_flat]. unfold ret_handle. eapply delivers_bind; [apply del_lower_own|]. intros j xs (rep & -> & ->). apply delivers_ret.
    split; [exists rep; auto|]. split; [cbn; apply ap_index; [auto|constructor]|cbn; lia].
  - cbn [lower_flat]. unfold ret_handle. eapply delivers_bind; [apply del_lower_borrow|]. intros j xs (rep & -> & ->). apply delivers_ret.
    split; [exists rep; auto|]. split; [cbn; apply ap_index; [auto|constructor]|cbn; lia].
  - rewrite <- lower_flat_despecialize. eapply delivers_mono; [apply IHt|]. intros cs xs (B & A & L). split; [apply carries_despecialize; exact B|]. rewrite handles_despecialize in L. split; assumption.
Qed.
Lemma del_lower_each : forall vs ts, del (lower_each (map (lower_flat cx) ts) vs)
  (fun cs xs => (List.length vs <= List.length ts)%nat /\ carry_all (combine ts vs) (map fst xs) /\ appear (map snd xs) cs /\
    (List.length xs <= List.length (flat_map handles_in ts))%nat).
Proof.
  induction vs as [|v vs IH]; intros [|t ts]; cbn [map lower_each combine].
  - apply delivers_ret. split; [cbn; lia|]. split; [constructor|]. split; [constructor|cbn; lia].
  - apply delivers_ret. split; [cbn; lia|]. split; [constructor|]. split; [constructor|cbn; lia].
  - apply delivers_lift. discriminate.
  - eapply delivers_bind; [apply del_lower|]. intros a xs (B & A & N1). eapply delivers_bind; [apply IH|]. intros b ys (L & C & A' & N2).
    apply delivers_ret. rewrite app_nil_r, !map_app. split; [cbn; lia|]. split; [constructor; assumption|]. split; [apply appear_app; assumption|].
    cbn [flat_map]. rewrite !app_length. lia.
Qed.
End Lowering.

(** ** Parameter lists in memory *)
Lemma map_snd_combine_full : forall {A B} (l : list A) (m : list B), List.length l = List.length m -> map snd (combine l m) = m.
Proof. induction l as [|a l IH]; intros [|b m] E; try discriminate; [reflexivity|]. cbn. rewrite IH by (injection E as E; exact E). reflexivity. Qed.
Lemma map_fst_combine_full : forall {A B} (l : list A) (m : list B), List.length l = List.length m -> map fst (combine l m) = l.
Proof. induction l as [|a l IH]; intros [|b m] E; try discriminate; [reflexivity|]. cbn. rewrite IH by (injection E as E; exact E). reflexivity. Qed.
Lemma Forall2_len : forall {A B} (R : A -> B -> Prop) l m, Forall2 R l m -> List.length l = List.length m.
Proof. induction 1; cbn; congruence. Qed.
Lemma snd_itoa_fields : forall {A} (l : list A), map snd (itoa_fields l) = l.
Proof.
  intros A l. unfold itoa_fields. rewrite map_map. cbn [snd]. generalize 0%N. induction l as [|x l IH]; intros n; [reflexivity|]. cbn. rewrite IH. reflexivity.
Qed.
Lemma filled_values : forall fs m xs, filled (map (fun f => (fst f, bears (snd f))) fs) [] m xs ->
  exists tvs, map fst tvs = map snd fs /\ map snd tvs = map snd m /\ carry_all tvs (map fst xs).
Proof.
  intros fs m xs (vxs & F & -> & ->). exists (combine (map snd fs) (map fst vxs)).
  assert (L : List.length fs = List.length vxs) by (apply Forall2_len in F; rewrite map_length in F; exact F).
  rewrite map_map. cbn [app fst]. rewrite map_fst_combine_full, !map_snd_combine_full by (rewrite !map_length; exact L).
  split; [reflexivity|]. split; [reflexivity|]. clear L. remember (map (fun f => (fst f, bears (snd f))) fs) as gs eqn:Eg. revert fs Eg.
  induction F as [|g vx gs vxs Hg F IH]; intros [|f fs] Eg; try discriminate; cbn [map combine List.concat]; [constructor|].
  cbn [map] in Eg. injection Eg as -> Eg. rewrite map_app. constructor; [exact Hg|apply IH; exact Eg].
Qed.
Lemma del_load_tuple : forall insts cx ts p, Forall wf_type ts ->
  delivers insts cx (lift_event cx) (load cx (TTuple ts) p)
    (fun v xs => exists m tvs, v = VMap m /\ map fst tvs = ts /\ map snd tvs = map snd m /\ carry_all tvs (map fst xs)).
Proof.
  intros insts cx ts p Hw. rewrite <- load_despecialize. cbn [despecialize load]. unfold load_record.
  apply (delivers_bind _ _ _ _ _ (filled (map (fun f => (fst f, bears (snd f))) (itoa_fields ts)) [])).
  - apply del_fields; [|cbn [map app]; rewrite map_map; apply itoa_fields_nodup].
    apply Forall2_maps. apply Forall_forall. intros f Hf. cbn [fst snd q_op]. split; [reflexivity|]. apply del_load.
    rewrite Forall_forall in Hw. apply Hw. rewrite <- (snd_itoa_fields ts). apply in_map. exact Hf.
  - intros m xs Hm. apply delivers_ret. rewrite app_nil_r. destruct (filled_values _ _ _ Hm) as (tvs & A & B & C). rewrite snd_itoa_fields in A. exists m, tvs. auto.
Qed.
Lemma carry_all_perm : forall tvs tvs' hs, Permutation tvs tvs' -> carry_all tvs hs -> exists hs', carry_all tvs' hs' /\ Permutation hs hs'.
Proof.
  intros tvs tvs' hs HP. revert hs. induction HP as [|x l l' HP IH|x y l|l l' l'' HP IH HP' IH']; intros hs C.
  - inversion C; subst. exists []. split; constructor.
  - inversion C; subst. match goal with X : carry_all l _ |- _ => destruct (IH _ X) as (hs' & C' & P') end.
    eexists. split; [constructor; eassumption|]. apply Permutation_app_head. exact P'.
  - inversion C as [|t v tvs0 h hs0 X C' E1 E2]; subst. inversion C' as [|t' v' tvs1 h' hs1 X' C'' E1 E2]; subst.
    eexists. split; [constructor; [exact X'|constructor; [exact X|exact C'']]|]. rewrite !app_assoc. apply Permutation_app_tail. apply Permutation_app_comm.
  - destruct (IH _ C) as (h1 & C1 & P1). destruct (IH' _ C1) as (h2 & C2 & P2). exists h2. split; [exact C2|]. eapply Permutation_trans; eauto.
Qed.
Lemma del_lift_values : forall insts cx order maxf ts it, Forall wf_type ts -> (forall m, Permutation (order m) m) ->
  delivers insts cx (lift_event cx) (lift_values order cx maxf ts it)
    (fun r xs => exists tvs hs, Permutation (map fst tvs) ts /\ map snd tvs = fst r /\ carry_all tvs hs /\ Permutation hs (map fst xs) /\
      (forall ks, flatten_types ts = Ok ks -> (List.length ks <= maxf)%nat -> map fst tvs = ts /\ hs = map fst xs)).
Proof.
  intros insts cx order maxf ts it Hw Ho. unfold lift_values. apply delivers_after; [apply acts_lift|]. intros flat s s' Ef. injection Ef as Ef _.
  destruct (Nat.leb_spec (List.length flat) maxf) as [Hl|Hl].
  - eapply delivers_mono; [apply del_lift_each; exact Hw|]. intros r xs (tvs & A & B & C). exists tvs, (map fst xs). rewrite A.
    split; [reflexivity|]. split; [exact B|]. split; [exact C|]. split; [reflexivity|]. auto.
  - apply delivers_after; [apply acts_next_u32|intros [ptr it1] ? ? _]. do 4 (apply delivers_after; [auto using acts_lift, acts_check_aligned, acts_check_bounds|intros ? ? ? _]).
    eapply delivers_bind; [apply del_load_tuple; exact Hw|]. intros v xs (m & tvs & -> & A & B & C). apply delivers_ret. rewrite app_nil_r. cbn [fst].
    assert (P0 : Permutation (map snd tvs) (map snd (order m))) by (rewrite B; apply Permutation_map; apply Permutation_sym; apply Ho).
    apply Permutation_sym in P0. apply Permutation_map_inv in P0. destruct P0 as (tvs' & E' & P').
    destruct (carry_all_perm _ _ _ P' C) as (hs & C' & Ph). exists tvs', hs. split; [rewrite <- A; apply Permutation_map; apply Permutation_sym; exact P'|].
    split; [symmetry; exact E'|]. split; [exact C'|]. split; [apply Permutation_sym; exact Ph|]. intros ks Ek Hk. rewrite Ef in Ek. injection Ek as <-. lia.
Qed.

(** ** Stretches that leave every handle alone *)
Definition calm (o : op) : Prop := forall inst r, away inst r o.
Definition alike (insts : nat) (s s' : state) : Prop :=
  (forall inst rt i, (inst < insts)%nat -> found s' inst rt i = found s inst rt i) /\
  (forall k, option_map h_own (entry s' k) = option_map h_own (entry s k)).
Lemma alike_refl : forall insts s, alike insts s s.
Proof. split; reflexivity. Qed.
Lemma alike_trans : forall insts s s' s'', alike insts s s' -> alike insts s' s'' -> alike insts s s''.
Proof. intros insts s s' s'' [A B] [C D]. split; intros; [rewrite C by assumption; apply A; assumption|rewrite D; apply B]. Qed.
Lemma alike_world : forall insts s s', s_world s' = s_world s -> alike insts s s'.
Proof. intros insts s s' E. split; intros; [apply found_world; exact E|rewrite (entry_world _ _ _ E); reflexivity]. Qed.
Lemma calm_alike : forall insts ops rs s calls evs s' calls', history insts ops rs s calls -> N.of_nat (made ops + made (map fst evs)) < two32 ->
  evolves insts s calls evs s' calls' -> Forall calm (map fst evs) -> alike insts s s'.
Proof.
  intros insts ops rs s calls evs s' calls' H Hn V F. split.
  - intros inst rt i Hi. eapply away_found; [exact H|exact Hn|exact V| |exact Hi]. eapply Forall_impl; [|exact F]. intros o Ho. apply Ho.
  - intros k. assert (E : at_key (view (s_world s') calls') k = at_key (view (s_world s) calls) k).
    { apply (evolves_keeps (fun a => at_key a k = at_key (view (s_world s) calls) k) (fun o _ => calm o)) with (insts := insts) (s := s) (calls := calls) (evs := evs) (ops := ops) (rs := rs);
        [| |exact V|exact H|exact Hn|reflexivity|].
      - intros a b (S1 & _) X. rewrite <- S1. exact X.
      - intros a o r c HA X HQ. destruct k as [[inst t] i]. rewrite (away_key _ _ _ _ _ _ _ HA (HQ inst t)). exact X.
      - rewrite Forall_map in F. exact F. }
    rewrite !entry_view in E. destruct (entry s' k), (entry s k); cbn in E |- *; try discriminate; [|reflexivity]. injection E as _ E _. rewrite E. reflexivity.
Qed.
Lemma took_alike : forall insts inst xs s s' t t', (inst < insts)%nat -> took insts inst xs s s' -> alike insts t s -> alike insts s' t' -> took insts inst xs t t'.
Proof.
  intros insts inst xs s s' t t' Hi (A & B & C & D & E) [F _] [G _]. split; [|split; [exact B|split; [exact C|split]]].
  - eapply Forall_impl; [|exact A]. intros x Hx. rewrite <- F by exact Hi. exact Hx.
  - intros inst' rt i Hi' X. rewrite G by exact Hi'. apply D; assumption.
  - intros inst' rt i Hi' X. rewrite G, <- F by exact Hi'. apply E; assumption.
Qed.
Lemma gave_alike : forall insts inst xs s s' t t', (inst < insts)%nat -> gave insts inst xs s s' -> alike insts t s -> alike insts s' t' -> gave insts inst xs t t'.
Proof.
  intros insts inst xs s s' t t' Hi (A & B & C & D) [F _] [G K]. split; [exact A|]. split; [|split; [exact C|]].
  - eapply Forall_impl; [|exact B]. intros x (X & Y & e & E1 & E2). rewrite <- F, G by exact Hi. split; [exact X|]. split; [exact Y|].
    specialize (K (key_of inst x)). rewrite E1 in K. destruct (entry t' (key_of inst x)) as [e'|]; [|discriminate]. exists e'. split; [reflexivity|]. cbn in K. congruence.
  - intros inst' rt i Hi' X. rewrite G, <- F by exact Hi'. apply D; assumption.
Qed.

Definition still (insts : nat) (s : state) (calls : list nat) (s' : state) (calls' : list nat) : Prop :=
  exists evs, evolves insts s calls evs s' calls' /\ Forall calm (map fst evs) /\ made (map fst evs) = 0%nat.
Lemma quiet_calm : forall o, quiet_op o -> calm o.
Proof. intros o H inst r. apply quiet_away. exact H. Qed.
Lemma still_trans : forall insts s c s1 c1 s2 c2, still insts s c s1 c1 -> still insts s1 c1 s2 c2 -> still insts s c s2 c2.
Proof.
  intros insts s c s1 c1 s2 c2 (e1 & V1 & F1 & M1) (e2 & V2 & F2 & M2). exists (e1 ++ e2)%list.
  split; [eapply evolves_trans; eauto|]. rewrite map_app. split; [apply Forall_app; auto|]. rewrite made_app. lia.
Qed.
Lemma still_world : forall insts s c s', s_world s' = s_world s -> still insts s c s' c.
Proof. intros. exists []. split; [apply evolves_nil; assumption|]. split; [constructor|reflexivity]. Qed.
Lemma still_quiet : forall insts s c ev s' c', evolves insts s c [ev] s' c' -> quiet_op (fst ev) -> still insts s c s' c'.
Proof.
  intros insts s c ev s' c' V Q. exists [ev]. split; [exact V|]. split; [repeat constructor; apply quiet_calm; exact Q|].
  unfold made; cbn. destruct (fst ev); try contradiction; reflexivity.
Qed.
Lemma still_exit : forall insts cx s c s', In (cx_id cx) c -> exit_call_ignored cx s = (Ok tt, s') ->
  exists c', still insts s c s' c' /\ incl (remove Nat.eq_dec (cx_id cx) c) c'.
Proof.
  intros insts cx s c s' Hc E. unfold exit_call_ignored in E. destruct (exit_call (cx_id cx) s) as [o1 s1] eqn:E1.
  assert (R : run (OpExit (cx_id cx)) s = (match o1 with Ok _ => Ok 0 | Err e => Err e | Panic => Panic | Diverge => Diverge end, s1)).
  { cbn [run]. unfold bind. rewrite E1. destruct o1; reflexivity. }
  assert (Es : s' = s1) by (destruct o1; inversion E; reflexivity). subst s1.
  eexists. split; [exists [(OpExit (cx_id cx), match o1 with Ok _ => Ok 0 | Err e => Err e | Panic => Panic | Diverge => Diverge end)]; split; [exact (evolves_one insts s c (OpExit (cx_id cx)) _ s' Hc R)|split; [repeat constructor|reflexivity]]|].
  destruct o1; cbn [opened]; intros x Hx; try exact Hx; apply in_remove in Hx; tauto.
Qed.
Lemma still_new_call : forall insts opts i s c cx s', (i < insts)%nat -> new_call opts i s = (Ok cx, s') ->
  cx = mkCtx (ncalls s) i (o_enc opts) (o_realloc opts) /\ still insts s c s' (ncalls s :: c).
Proof.
  intros insts opts i s c cx s' Hi E.
  assert (R : run (OpEnter opts i) s = (Ok (N.of_nat (ncalls s)), s')) by (inversion E; reflexivity).
  pose proof (evolves_one insts s c (OpEnter opts i) _ _ Hi R) as V1. cbn [opened] in V1. rewrite Nat2N.id in V1.
  split; [inversion E; reflexivity|]. eapply still_quiet; [exact V1|exact I].
Qed.
Lemma still_leave : forall insts i b s c s', (i < insts)%nat -> set_may_leave i b s = (Ok tt, s') -> still insts s c s' c.
Proof. intros insts i b s c s' Hi E. destruct (evolves_leave insts i b s c _ _ Hi E) as (_ & ev & V & Q). eapply still_quiet; eauto. Qed.
Lemma still_enter : forall insts i b s c s', (i < insts)%nat -> set_may_enter i b s = (Ok tt, s') -> still insts s c s' c.
Proof.
  intros insts i b s c s' Hi E.
  assert (R : run (OpGuards i b (i_may_leave (inst_at (s_world s') i))) s = (Ok 0, s')).
  { cbn [run]. unfold bind at 1. rewrite E. unfold bind at 1. rewrite set_leave_noop. reflexivity. }
  pose proof (evolves_one insts s c (OpGuards i b (i_may_leave (inst_at (s_world s') i))) (Ok 0) s' Hi R) as V. eapply still_quiet; [exact V|exact I].
Qed.
Lemma still_alike : forall insts ops rs s c s' c', history insts ops rs s c -> N.of_nat (made ops) < two32 -> still insts s c s' c' ->
  alike insts s s' /\ exists ops' rs', history insts ops' rs' s' c' /\ made ops' = made ops.
Proof.
  intros insts ops rs s c s' c' H Hn (evs & V & F & M0). split; [eapply calm_alike; [exact H|rewrite M0; lia|exact V|exact F]|].
  eexists _, _. split; [eapply evolves_history; eauto|]. rewrite made_app. lia.
Qed.

(** ** Calls *)
Lemma as_core_inv : forall vs cs, as_core vs = Ok cs -> vs = map VCore cs.
Proof.
  induction vs as [|v vs IH]; intros cs E; [injection E as <-; reflexivity|]. destruct v; try discriminate. cbn [as_core] in E.
  destruct (as_core vs) as [r| | |] eqn:Er; try discriminate. injection E as <-. cbn. rewrite (IH r eq_refl). reflexivity.
Qed.
Lemma carry_all_unique : forall ts vs, Forall wf_type ts -> forall hs hs', carry_all (combine ts vs) hs -> carry_all (combine ts vs) hs' -> hs = hs'.
Proof.
  intros ts vs H. revert vs. induction H as [|t ts Ht _ IH]; intros vs hs hs' C C'.
  - inversion C; inversion C'; reflexivity.
  - destruct vs as [|v vs]; cbn [combine] in *; [inversion C; inversion C'; reflexivity|].
    inversion C; inversion C'; subst. f_equal; [eapply carries_unique; eauto|eapply IH; eauto].
Qed.
Lemma del_lift_flat_values : forall insts cx order maxf ts kss it, Forall wf_type ts -> Forall2 flattens ts kss -> (List.length (List.concat kss) <= maxf)%nat ->
  delivers insts cx (lift_event cx) (lift_values order cx maxf ts it)
    (fun r xs => List.length (fst r) = List.length ts /\ carry_all (combine ts (fst r)) (map fst xs)).
Proof.
  intros insts cx order maxf ts kss it Hw Hk Hl. unfold lift_values. apply delivers_after; [apply acts_lift|]. intros flat s s' Ef. injection Ef as Ef _.
  rewrite (flat_types_ok _ _ Hk) in Ef. injection Ef as <-. apply Nat.leb_le in Hl. rewrite Hl.
  eapply delivers_mono; [apply del_lift_each; exact Hw|]. intros r xs (tvs & A & B & C). rewrite <- A, <- B, !map_length. split; [reflexivity|].
  replace (combine (map fst tvs) (map snd tvs)) with tvs; [exact C|]. clear. induction tvs as [|[t v] tvs IH]; [reflexivity|]. cbn. rewrite <- IH. reflexivity.
Qed.
Lemma del_lower_values : forall insts cx, leaves_world (cx_realloc cx) -> forall maxf ts kss vs out, Forall2 flattens ts kss -> (List.length (List.concat kss) <= maxf)%nat ->
  delivers insts cx (lower_event cx) (lower_values cx maxf vs ts out)
    (fun fl xs => exists cs, fl = map VCore cs /\ (List.length vs <= List.length ts)%nat /\ carry_all (combine ts vs) (map fst xs) /\ appear (map snd xs) cs /\
      (List.length xs <= List.length (flat_map handles_in ts))%nat).
Proof.
  intros insts cx Hlw maxf ts kss vs out Hk Hl. unfold lower_values. apply delivers_after; [apply acts_lift|]. intros flat s s' Ef. injection Ef as Ef _.
  rewrite (flat_types_ok _ _ Hk) in Ef. injection Ef as <-. apply Nat.leb_le in Hl. rewrite Hl.
  eapply delivers_bind; [apply del_lower_each; exact Hlw|]. intros cs xs (A & B & C & D). apply delivers_ret. rewrite app_nil_r. exists cs. auto.
Qed.

(** From the beginning of a call to the moment the core function runs. *)
Lemma call_moves : forall insts ops rs s calls order opts inst opts' inst' ts kss m h it maxp maxp' cx s1 vs it' s2 cx' t1 t2 fl t3 t4,
  leaves_world (o_realloc opts') -> history insts ops rs s calls -> N.of_nat (made ops + List.length (flat_map handles_in ts)) < 2 ^ 32 ->
  (inst < insts)%nat -> (inst' < insts)%nat -> Forall wf_type ts -> Forall2 flattens ts kss ->
  (List.length (List.concat kss) <= maxp)%nat -> (List.length (List.concat kss) <= maxp')%nat ->
  new_call opts inst s = (Ok cx, s1) -> lift_values order cx maxp ts it s1 = (Ok (vs, it'), s2) ->
  new_call opts' inst' (other m h s2) = (Ok cx', t1) -> set_may_leave inst' false t1 = (Ok tt, t2) ->
  lower_values cx' maxp' vs ts None t2 = (Ok fl, t3) -> set_may_leave inst' true t3 = (Ok tt, t4) ->
  exists xs ys cs, List.length vs = List.length ts /\ carry_all (combine ts vs) (map fst xs) /\ moved insts inst inst' xs ys s t4 /\
    fl = map VCore cs /\ appear (map snd ys) cs /\ cx_inst cx = inst /\ cx_realloc cx = o_realloc opts /\ cx_inst cx' = inst' /\ cx_id cx <> cx_id cx' /\
    exists ops' rs', history insts ops' rs' t4 (cx_id cx' :: cx_id cx :: calls) /\ (made ops' <= made ops + List.length (flat_map handles_in ts))%nat.
Proof.
  intros insts ops rs s calls order opts inst opts' inst' ts kss m h it maxp maxp' cx s1 vs it' s2 cx' t1 t2 fl t3 t4 Hlw H Hn Hi Hi' Hw Hk Hl Hl' E1 E2 C1 C2 C3 C4.
  change (2 ^ 32) with two32 in Hn. set (kp := List.length (flat_map handles_in ts)) in *.
  destruct (still_new_call insts opts inst s calls cx s1 Hi E1) as (Ecx & P1).
  assert (Ici : cx_inst cx = inst) by (rewrite Ecx; reflexivity). assert (Icd : cx_id cx = ncalls s) by (rewrite Ecx; reflexivity). rewrite <- Icd in P1.
  destruct (still_alike _ _ _ _ _ _ _ H ltac:(lia) P1) as (A1 & ops1 & rs1 & H1 & M1).
  destruct (del_lift_flat_values insts cx order maxp ts kss it Hw Hk Hl s1 (cx_id cx :: calls) _ s2 ltac:(rewrite Ici; exact Hi) (or_introl eq_refl) E2) as (xs & V2 & Lv & C). cbn [fst] in Lv, C.
  pose proof (evolves_took _ _ _ _ _ _ _ _ _ H1 ltac:(lia) ltac:(rewrite Ici; exact Hi) V2) as T. rewrite Ici in T.
  pose proof (evolves_history _ _ _ _ _ _ _ _ H1 V2) as H2. pose proof (made_lift_events cx xs) as ML.
  set (ops2 := (ops1 ++ map fst (map (lift_event cx) xs))%list) in *. assert (M2 : made ops2 = made ops) by (unfold ops2; rewrite made_app; lia). clearbody ops2.
  pose proof (still_world insts s2 (cx_id cx :: calls) (other m h s2) eq_refl) as P3.
  destruct (still_new_call insts opts' inst' (other m h s2) (cx_id cx :: calls) cx' t1 Hi' C1) as (Ecx' & P4).
  assert (Ici' : cx_inst cx' = inst') by (rewrite Ecx'; reflexivity). assert (Icd' : cx_id cx' = ncalls (other m h s2)) by (rewrite Ecx'; reflexivity). rewrite <- Icd' in P4.
  pose proof (still_leave insts inst' false t1 (cx_id cx' :: cx_id cx :: calls) t2 Hi' C2) as P5.
  pose proof (still_trans _ _ _ _ _ _ _ (still_trans _ _ _ _ _ _ _ P3 P4) P5) as P.
  destruct (still_alike _ _ _ _ _ _ _ H2 ltac:(lia) P) as (A2 & ops3 & rs3 & H3 & M3).
  assert (Hlw' : leaves_world (cx_realloc cx')) by (rewrite Ecx'; exact Hlw).
  destruct (del_lower_values insts cx' Hlw' maxp' ts kss vs None Hk Hl' t2 (cx_id cx' :: cx_id cx :: calls) _ t3 ltac:(rewrite Ici'; exact Hi') (or_introl eq_refl) C3) as (ys & V3 & cs & -> & _ & Cy & Ap & Ly).
  fold kp in Ly. pose proof (evolves_gave _ _ _ _ _ _ ys _ _ H3 ltac:(lia) ltac:(rewrite Ici'; exact Hi') V3) as G. rewrite Ici' in G.
  pose proof (evolves_history _ _ _ _ _ _ _ _ H3 V3) as H4. pose proof (made_lower_events cx' ys) as MW.
  set (ops4 := (ops3 ++ map fst (map (lower_event cx') ys))%list) in *. assert (M4 : (made ops4 <= made ops + kp)%nat) by (unfold ops4; rewrite made_app; lia). clearbody ops4.
  pose proof (still_leave insts inst' true t3 (cx_id cx' :: cx_id cx :: calls) t4 Hi' C4) as P6.
  destruct (still_alike _ _ _ _ _ _ _ H4 ltac:(lia) P6) as (A4 & ops5 & rs5 & H5 & M5).
  exists xs, ys, cs. split; [exact Lv|]. split; [exact C|]. split.
  - split; [exact (carry_all_unique _ _ Hw _ _ Cy C)|]. exists s2. split; [eapply took_alike; [exact Hi|exact T|exact A1|apply alike_refl]|].
    eapply gave_alike; [exact Hi'|exact G|exact A2|exact A4].
  - split; [reflexivity|]. split; [exact Ap|]. split; [exact Ici|]. split; [rewrite Ecx; reflexivity|]. split; [exact Ici'|]. split.
    + rewrite Icd'. pose proof (calls_known _ _ _ _ _ H2 (cx_id cx) (or_introl eq_refl)) as X. unfold ncalls in *. cbn [other s_world]. lia.
    + exists ops5, rs5. split; [exact H5|lia].
Qed.

(** From the end of the core function to the lowered results. *)
Lemma call_returns : forall insts ops rs t5 c order' inst inst' ts kss rcs maxr maxr' cx cx' rvs it' t7 s3 s4 it fl s5 s6,
  history insts ops rs t5 c -> N.of_nat (made ops + List.length (flat_map handles_in ts)) < two32 ->
  (inst < insts)%nat -> (inst' < insts)%nat -> Forall wf_type ts -> Forall2 flattens ts kss ->
  (List.length (List.concat kss) <= maxr)%nat -> (List.length (List.concat kss) <= maxr')%nat ->
  cx_inst cx = inst -> leaves_world (cx_realloc cx) -> cx_inst cx' = inst' -> In (cx_id cx) c -> In (cx_id cx') c ->
  lift_values order' cx' maxr' ts (IBase rcs 0) t5 = (Ok (rvs, it'), t7) -> s_world s3 = s_world t7 ->
  set_may_leave inst false s3 = (Ok tt, s4) -> lower_values cx maxr rvs ts (Some it) s4 = (Ok fl, s5) -> set_may_leave inst true s5 = (Ok tt, s6) ->
  exists xs ys cs, List.length rvs = List.length ts /\ carry_all (combine ts rvs) (map fst xs) /\ moved insts inst' inst xs ys t5 s6 /\
    fl = map VCore cs /\ appear (map snd ys) cs /\
    exists ops' rs', history insts ops' rs' s6 c /\ (made ops' <= made ops + List.length (flat_map handles_in ts))%nat.
Proof.
  intros insts ops rs t5 c order' inst inst' ts kss rcs maxr maxr' cx cx' rvs it' t7 s3 s4 it fl s5 s6 H Hn Hi Hi' Hw Hk Hl Hl' Ici Hlw Ici' Ic Ic' C7 W3 E4 E5 E6.
  set (kr := List.length (flat_map handles_in ts)) in *.
  destruct (del_lift_flat_values insts cx' order' maxr' ts kss (IBase rcs 0) Hw Hk Hl' t5 c _ t7 ltac:(rewrite Ici'; exact Hi') Ic' C7) as (xs & V & Lv & C). cbn [fst] in Lv, C.
  pose proof (evolves_took _ _ _ _ _ _ _ _ _ H ltac:(lia) ltac:(rewrite Ici'; exact Hi') V) as T. rewrite Ici' in T.
  pose proof (evolves_history _ _ _ _ _ _ _ _ H V) as H2. pose proof (made_lift_events cx' xs) as ML.
  set (ops2 := (ops ++ map fst (map (lift_event cx') xs))%list) in *. assert (M2 : made ops2 = made ops) by (unfold ops2; rewrite made_app; lia). clearbody ops2.
  pose proof (still_trans _ _ _ _ _ _ _ (still_world insts t7 c s3 W3) (still_leave insts inst false s3 c s4 Hi E4)) as P.
  destruct (still_alike _ _ _ _ _ _ _ H2 ltac:(lia) P) as (A2 & ops3 & rs3 & H3 & M3).
  destruct (del_lower_values insts cx Hlw maxr ts kss rvs (Some it) Hk Hl s4 c _ s5 ltac:(rewrite Ici; exact Hi) Ic E5) as (ys & V3 & cs & -> & _ & Cy & Ap & Ly).
  fold kr in Ly. pose proof (evolves_gave _ _ _ _ _ _ ys _ _ H3 ltac:(lia) ltac:(rewrite Ici; exact Hi) V3) as G. rewrite Ici in G.
  pose proof (evolves_history _ _ _ _ _ _ _ _ H3 V3) as H4. pose proof (made_lower_events cx ys) as MW.
  set (ops4 := (ops3 ++ map fst (map (lower_event cx) ys))%list) in *. assert (M4 : (made ops4 <= made ops + kr)%nat) by (unfold ops4; rewrite made_app; lia). clearbody ops4.
  destruct (still_alike _ _ _ _ _ _ _ H4 ltac:(lia) (still_leave insts inst true s5 c s6 Hi E6)) as (A4 & ops5 & rs5 & H5 & M5).
  exists xs, ys, cs. split; [exact Lv|]. split; [exact C|]. split.
  - split; [exact (carry_all_unique _ _ Hw _ _ Cy C)|]. exists t7. split; [exact T|]. eapply gave_alike; [exact Hi|exact G|exact A2|exact A4].
  - split; [reflexivity|]. split; [exact Ap|]. exists ops5, rs5. split; [exact H5|lia].
Qed.
