(** C81: runs that end at a refused allocation. *)
From Coq Require Import NArith ZArith List String Bool Lia.
From Verif Require Import GoBase M_Types M_Layout S_Layout L_Layout M_State M_Utf M_Load M_Store M_Flat M_Canon
  S_Values S_Memory S_Requests L_Requests L_Alloc S_Blame.
Import ListNotations.
Open Scope N_scope.
Open Scope go_scope.

Notation allocator := (req -> state -> outcome N * (memory * world)).

(** ** Two allocators *)

Definition grows {A} (m : M A) : Prop := forall s, exists b, s_hist (snd (m s)) = (b ++ s_hist s)%list.

Lemma grows_bind {A B} (m : M A) (f : A -> M B) : grows m -> (forall x, grows (f x)) -> grows (bind m f).
Proof.
  intros Hm Hf s. destruct (Hm s) as [b Hb]. unfold bind. destruct (m s) as [[x|e| |] s1]; cbn [snd] in *; try (exists b; exact Hb).
  destruct (Hf x s1) as [b' Hb']. exists (b' ++ b)%list. rewrite Hb', Hb. apply app_assoc.
Qed.
Lemma grows_realloc cx a b c d : grows (realloc cx a b c d).
Proof.
  intros s. unfold realloc. destruct (cx_realloc cx _ s) as [[p|e| |] [m w]]; cbn [snd s_hist]; try (exists []; reflexivity).
  exists [(mkReq a b c d, u32 p)]. reflexivity.
Qed.

Lemma reaches_trans cx s s1 s2 : reaches cx s s1 -> reaches cx s1 s2 -> reaches cx s s2.
Proof. intros H1. induction 1; [exact H1|eapply wrote; eauto|eapply granted; eauto]. Qed.
Lemma reaches_same cx s s' : m_len (s_mem s') = m_len (s_mem s) -> s_hist s' = s_hist s -> reaches cx s s'.
Proof. intros H1 H2. eapply wrote; [apply at_start|exact H1|exact H2]. Qed.

(** Runs that neither call the allocator nor change the size of the memory. *)
Definition still {A} (m : M A) : Prop := forall s o s', m s = (o, s') -> m_len (s_mem s') = m_len (s_mem s) /\ s_hist s' = s_hist s.

Lemma still_lift {A} (o : outcome A) : still (lift_o o).
Proof. intros s r s' E. inversion E. auto. Qed.
Lemma still_get_mem : still get_mem.
Proof. intros s r s' E. inversion E. auto. Qed.
Lemma still_bind {A B} (m : M A) (f : A -> M B) : still m -> (forall x, still (f x)) -> still (bind m f).
Proof.
  intros Hm Hf s o s' E. unfold bind in E. destruct (m s) as [[x|e| |] s1] eqn:Em; apply Hm in Em; try (inversion E; subst; exact Em).
  apply Hf in E. destruct E as [-> ->]. exact Em.
Qed.
Lemma still_store_bytes p n bs : still (store_bytes p n bs).
Proof.
  intros s o s' E. unfold store_bytes, bind, get_mem, lift_o in E. destruct (mem_slice (s_mem s) p (add32 p n)); inversion E; subst; auto.
Qed.
Lemma still_get_world : still get_world.
Proof. intros s r s' E. inversion E. auto. Qed.
Lemma still_put_world w : still (put_world w).
Proof. intros s r s' E. inversion E. auto. Qed.
Lemma still_handle_add i rt h : still (handle_add i rt h).
Proof.
  unfold handle_add. apply still_bind; [apply still_get_world|]. intros w. cbv zeta.
  destruct (stack_pop _) as [free [k|]]; [destruct (nth_error _ _) as [[x|]|]|];
    (apply still_bind; [apply still_put_world|]; intros _; apply still_lift).
Qed.
Lemma still_lower_own cx v rt : still (lower_own cx v rt).
Proof. destruct v; try apply still_lift. apply still_handle_add. Qed.
Lemma still_lower_borrow cx v rt : still (lower_borrow cx v rt).
Proof. destruct v; try apply still_lift. unfold lower_borrow. destruct (match rt_impl rt with Some _ => _ | None => _ end); [apply still_lift|apply still_handle_add]. Qed.

Section Two.
Variables al1 al2 : allocator.
Variable D : req -> state -> Prop.
Notation cx1 := (mkCtx 0 0 EncUtf8 al1).

(** Two runs are the same, or they part at a request in [D] that the first
    allocator refuses; if the second one grants it, it is part of what the
    second run asked for. *)
Definition parts A (m1 m2 : M A) : Prop := grows m1 /\ grows m2 /\ (forall s x s', m1 s = (Ok x, s') -> reaches cx1 s s') /\ forall s,
  m1 s = m2 s \/
  exists r s1 b, D r s1 /\ reaches cx1 s s1 /\ s_hist s1 = (b ++ s_hist s)%list /\
    same_failure (fst (al1 r s1)) (fst (m1 s)) /\
    snd (al1 r s1) = (s_mem (snd (m1 s)), s_world (snd (m1 s))) /\ s_hist (snd (m1 s)) = s_hist s1 /\
    (forall q, fst (al2 r s1) = Ok q -> exists b', s_hist (snd (m2 s)) = (b' ++ (r, u32 q) :: s_hist s1)%list).

Lemma parts_still A (m : M A) : still m -> parts A m m.
Proof.
  intros L. assert (G : grows m) by (intros s; destruct (m s) as [o s'] eqn:E; apply L in E; exists []; apply E).
  split; [exact G|]. split; [exact G|]. split; [|intros s; now left]. intros s x s' E. apply L in E. now apply reaches_same.
Qed.

Lemma parts_bind A B (m m' : M A) (f f' : A -> M B) : parts A m m' -> (forall x, parts B (f x) (f' x)) -> parts B (bind m f) (bind m' f').
Proof.
  intros (G1 & G2 & Hr & H) Hf. split; [apply grows_bind; [exact G1|intros x; apply Hf]|].
  assert (Gf : forall x, grows (f' x)) by (intros x; apply Hf).
  split; [apply grows_bind; assumption|]. split.
  { intros s y s' E. unfold bind in E. destruct (m s) as [[x|e| |] s0] eqn:Em; try discriminate.
    destruct (Hf x) as (_ & _ & Hx & _). eapply reaches_trans; [eapply Hr; exact Em|eapply Hx; exact E]. }
  intros s. destruct (H s) as [E|(r & s1 & b & Hd & Hre & Hb & F & W & K & N)].
  - unfold bind. rewrite <- E. destruct (G1 s) as [b0 Hb0]. destruct (m s) as [[x|e| |] s0] eqn:Em; try (left; reflexivity).
    destruct (Hf x) as (_ & _ & _ & Hx). cbn [snd] in Hb0.
    destruct (Hx s0) as [Ex|(r & s1 & b & Hd & Hre & Hb & F & W & K & N)]; [left; exact Ex|right].
    exists r, s1, (b ++ b0)%list. split; [exact Hd|]. split; [eapply reaches_trans; [eapply Hr; exact Em|exact Hre]|].
    split; [rewrite Hb, Hb0; apply app_assoc|]. auto.
  - right. exists r, s1, b. split; [exact Hd|]. split; [exact Hre|]. split; [exact Hb|].
    assert (X : forall q, fst (al2 r s1) = Ok q -> exists b', s_hist (snd (bind m' f' s)) = (b' ++ (r, u32 q) :: s_hist s1)%list).
    { intros q Eq. destruct (N q Eq) as [b' Hb']. unfold bind. destruct (m' s) as [[x|e| |] s2]; cbn [snd] in *; try (exists b'; exact Hb').
      destruct (Gf x s2) as [b2 Hb2]. exists (b2 ++ b')%list. rewrite Hb2, Hb'. apply app_assoc. }
    unfold bind in *. destruct (m s) as [[x|e| |] s0]; cbn [fst snd] in *;
      destruct (fst (al1 r s1)); try contradiction; cbn [same_failure] in *; auto.
Qed.

Hypothesis Hal : forall r s, al1 r s = al2 r s \/ (D r s /\ forall p, fst (al1 r s) <> Ok p).

Lemma parts_realloc id inst enc a b c d : parts N (realloc (mkCtx id inst enc al1) a b c d) (realloc (mkCtx id inst enc al2) a b c d).
Proof.
  split; [apply grows_realloc|]. split; [apply grows_realloc|]. split.
  { intros s x s' E. unfold realloc in E. cbn [cx_realloc] in E. destruct (al1 (mkReq a b c d) s) as [[p|e| |] [m w]] eqn:Ea; try discriminate.
    injection E as <- <-. eapply granted; [apply at_start|exact Ea]. }
  intros s. unfold realloc. cbn [cx_realloc].
  destruct (Hal (mkReq a b c d) s) as [E|[Hd Hn]]; [left; now rewrite E|right].
  exists (mkReq a b c d), s, []. split; [exact Hd|]. split; [apply at_start|]. split; [reflexivity|].
  assert (X : forall q, fst (al2 (mkReq a b c d) s) = Ok q ->
    exists b', s_hist (snd (let (o, mw) := al2 (mkReq a b c d) s in let (m, w) := mw in
       match o with | Ok p => (Ok (u32 p), mkState m ((mkReq a b c d, u32 p) :: s_hist s) w)
       | Err e => (Err e, mkState m (s_hist s) w) | Panic => (Panic, mkState m (s_hist s) w) | Diverge => (Diverge, mkState m (s_hist s) w) end))
      = (b' ++ (mkReq a b c d, u32 q) :: s_hist s)%list).
  { intros q Eq. destruct (al2 (mkReq a b c d) s) as [o [m w]]. cbn [fst] in Eq. subst o. exists []. reflexivity. }
  destruct (al1 (mkReq a b c d) s) as [[p|e| |] [m w]]; [now elim (Hn p)|..]; cbn [fst snd same_failure s_mem s_world s_hist];
    (split; [reflexivity || exact I|]); (split; [reflexivity|]); (split; [reflexivity|]); exact X.
Qed.

Lemma parts_store id inst enc t v p : parts _ (store (mkCtx id inst enc al1) t v p) (store (mkCtx id inst enc al2) t v p).
Proof.
  apply (rel_store parts); intros; try (apply parts_still; first [apply still_lift|apply still_get_mem|apply still_store_bytes]).
  - now apply parts_bind.
  - apply parts_realloc.
Qed.
Lemma parts_lower_flat id inst enc t v : parts _ (lower_flat (mkCtx id inst enc al1) t v) (lower_flat (mkCtx id inst enc al2) t v).
Proof.
  apply (rel_lower_flat parts); intros; try (apply parts_still; first [apply still_lift|apply still_get_mem|apply still_store_bytes]).
  - now apply parts_bind.
  - apply parts_realloc.
  - apply (parts_still _ (lower_own (mkCtx id inst enc al1) v0 rt)), still_lower_own.
  - apply (parts_still _ (lower_borrow (mkCtx id inst enc al1) v0 rt)), still_lower_borrow.
Qed.
Lemma parts_lower_values id inst enc n vs ts out : parts _ (lower_values (mkCtx id inst enc al1) n vs ts out) (lower_values (mkCtx id inst enc al2) n vs ts out).
Proof.
  apply (rel_lower_values parts); intros; try (apply parts_still; first [apply still_lift|apply still_get_mem|apply still_store_bytes]).
  - now apply parts_bind.
  - apply parts_realloc.
  - apply (parts_still _ (lower_own (mkCtx id inst enc al1) v rt)), still_lower_own.
  - apply (parts_still _ (lower_borrow (mkCtx id inst enc al1) v rt)), still_lower_borrow.
Qed.
End Two.

(** ** Relabelled refusals *)

Definition failed (o : outcome N) : bool := match o with Ok _ => false | _ => true end.
Definition relabel (P : req -> state -> bool) (X : outcome N) (al : allocator) : allocator := fun r s =>
  if failed (fst (al r s)) && P r s then (X, snd (al r s)) else al r s.

Definition req_eqb (a b : req) : bool :=
  (r_optr a =? r_optr b) && (r_osize a =? r_osize b) && (r_align a =? r_align b) && (r_size a =? r_size b).
Lemma req_eqb_eq a b : req_eqb a b = true <-> a = b.
Proof.
  unfold req_eqb. rewrite !andb_true_iff, !N.eqb_eq. split.
  - destruct a, b. cbn. intros [[[-> ->] ->] ->]. reflexivity.
  - intros ->. auto.
Qed.

(** Is [r] the next of the requests [rs], counted from [s], in state [s1]? *)
Definition nextb (s : state) (rs : list req) (r : req) (s1 : state) : bool :=
  match nth_error rs (List.length (s_hist s1) - List.length (s_hist s)) with Some r' => req_eqb r r' | None => false end.

Section Runs.
Context {A : Type}.
Variable F : allocator -> M A.
Hypothesis F_parts : forall al1 al2 D,
  (forall r s, al1 r s = al2 r s \/ (D r s /\ forall p, fst (al1 r s) <> Ok p)) -> parts al1 al2 D A (F al1) (F al2).
Variable rs : list req.
Hypothesis F_logs : forall al, logs rs (F al).

Lemma made_next s s' done rest b b' r q s1 :
  rs = (done ++ rest)%list -> made s s' done -> s_hist s1 = (b ++ s_hist s)%list -> s_hist s' = (b' ++ (r, q) :: s_hist s1)%list ->
  nextb s rs r s1 = true.
Proof.
  intros Er (bl & Hbl & Hd) Hb Hs. unfold nextb. rewrite Hb, app_length. replace (List.length b + _ - _)%nat with (List.length b) by lia.
  rewrite Hs, Hb, app_comm_cons, app_assoc in Hbl. apply app_inv_tail in Hbl. subst bl. rewrite map_app in Hd. cbn [map fst] in Hd.
  rewrite rev_app_distr in Hd. cbn [rev] in Hd. rewrite <- app_assoc in Hd. cbn [app] in Hd. subst done. rewrite Er, <- app_assoc.
  rewrite nth_error_app2 by (rewrite rev_length, map_length; lia). rewrite rev_length, map_length, Nat.sub_diag. cbn [nth_error app]. now apply req_eqb_eq.
Qed.

(** Requests that are not next are not made: how they are refused does not matter. *)
Lemma bad_granted s al1 al2 :
  (forall r s1, al1 r s1 = al2 r s1 \/
    (nextb s rs r s1 = false /\ (exists q, fst (al2 r s1) = Ok q) /\ forall p, fst (al1 r s1) <> Ok p)) ->
  F al1 s = F al2 s.
Proof.
  intros Hal. destruct (F_parts al1 al2 (fun r s1 => nextb s rs r s1 = false /\ exists q, fst (al2 r s1) = Ok q)) as (_ & _ & _ & H).
  { intros r s0. destruct (Hal r s0) as [E|(H1 & H2 & H3)]; auto. }
  destruct (H s) as [E|(r & s1 & b & [Hp [q Hq]] & _ & Hb & _ & _ & _ & N)]; [exact E|exfalso].
  destruct (N q Hq) as [b' Hb']. destruct (F al2 s) as [o s'] eqn:E.
  destruct (F_logs _ _ _ _ E) as (done & rest & Er & M & _). cbn [snd] in Hb'.
  pose proof (made_next s s' done rest b b' r _ s1 Er M Hb Hb') as K. congruence.
Qed.
Lemma bad_requests s al X : (forall p, X <> Ok p) -> F al s = F (relabel (fun r s1 => negb (nextb s rs r s1)) X al) s.
Proof.
  intros HX. set (P := fun r s1 => negb (nextb s rs r s1)). transitivity (F (relabel P (Ok 0) al) s); [|symmetry].
  all: apply bad_granted; intros r s0; unfold relabel; destruct (failed (fst (al r s0))) eqn:Ef; cbn [andb]; [|left; reflexivity].
  all: unfold P; destruct (nextb s rs r s0); cbn [negb]; [left; reflexivity|right; split; [reflexivity|]].
  all: split; [exists 0; reflexivity|]; cbn [fst]; try exact HX.
  intros p Hp. rewrite Hp in Ef. discriminate.
Qed.

(** If the run cannot fail by itself, a failure is the allocator's, at the next request. *)
Lemma blame id inst enc al s o s' :
  (forall X, (X = Panic \/ X = Diverge) -> (exists x, fst (F (relabel (fun _ _ => true) X al) s) = Ok x) \/
     same_failure X (fst (F (relabel (fun _ _ => true) X al) s))) ->
  F al s = (o, s') ->
  (exists x, o = Ok x /\ made s s' rs) \/ refused (mkCtx id inst enc al) rs s o s'.
Proof.
  intros HX E. destruct (F_logs al _ _ _ E) as (done & rest & Er & M & K).
  assert (Hc : (exists x, o = Ok x) \/ exists X : outcome N, (X = Panic \/ X = Diverge) /\ ~ same_failure X o /\ forall x, o <> Ok x).
  { destruct o as [x|e| |]; [left; eauto|right; exists Panic|right; exists Diverge|right; exists Panic]; (split; [auto|split; [auto|congruence]]). }
  destruct Hc as [[x ->]|(X & HX0 & Hn & Hnok)].
  { left. exists x. split; [reflexivity|]. rewrite (K x eq_refl), app_nil_r in Er. now subst rs. }
  right. specialize (HX X HX0).
  set (al1 := relabel (fun r s1 => nextb s rs r s1) X al).
  assert (E1 : F (relabel (fun _ _ => true) X al) s = F al1 s).
  { rewrite (bad_requests s al1 X) by (destruct HX0; subst X; discriminate).
    destruct (F_parts (relabel (fun _ _ => true) X al) (relabel (fun r s1 => negb (nextb s rs r s1)) X al1) (fun _ _ => False)) as (_ & _ & _ & H).
    - intros r s0. left. unfold al1, relabel. destruct (failed (fst (al r s0))) eqn:Ef; cbn [andb].
      + destruct (nextb s rs r s0) eqn:En; cbn [fst negb andb]; rewrite ?andb_false_r, ?Ef; cbn [andb negb]; reflexivity.
      + rewrite Ef. reflexivity.
    - destruct (H s) as [H1|(? & ? & ? & [] & _)]. exact H1. }
  rewrite E1 in HX.
  destruct (F_parts al al1 (fun r s1 => nextb s rs r s1 = true)) as (_ & _ & _ & H).
  { intros r s0. unfold al1, relabel. destruct (failed (fst (al r s0))) eqn:Ef; cbn [andb]; [|left; reflexivity].
    destruct (nextb s rs r s0) eqn:En; [right|left; reflexivity]. split; [reflexivity|]. intros p Hp. rewrite Hp in Ef. discriminate. }
  destruct (H s) as [Es|(r & s1 & b & Hd & Hre & Hb & Fl & W & Kh & _)].
  - rewrite <- Es, E in HX. cbn [fst] in HX. destruct HX as [[x Hx]|Hf]; [now elim (Hnok x)|contradiction].
  - rewrite E in *. cbn [fst snd] in *. destruct M as (bl & Hbl & Hd').
    assert (bl = b) by (rewrite Kh, Hb in Hbl; now apply app_inv_tail in Hbl). subst bl.
    unfold nextb in Hd. rewrite Hb, app_length in Hd. replace (List.length b + _ - _)%nat with (List.length b) in Hd by lia.
    rewrite Er, nth_error_app2 in Hd by (rewrite <- Hd', rev_length, map_length; lia).
    rewrite <- Hd', rev_length, map_length, Nat.sub_diag in Hd. destruct rest as [|r' rest]; [discriminate|]. cbn [nth_error] in Hd.
    apply req_eqb_eq in Hd. subst r'. exists done, r, rest, s1. split; [exact Er|]. split; [exists b; auto|]. split; [|cbn [cx_realloc]; auto].
    clear - Hre. induction Hre; [apply at_start|eapply wrote; eauto|eapply granted; eauto].
Qed.
End Runs.

Lemma relabel_correct id inst enc P X al init : (forall p, X <> Ok p) ->
  correct_allocator (mkCtx id inst enc al) init -> correct_allocator (mkCtx id inst enc (relabel P X al)) init.
Proof.
  intros HX Hc r s o m w H1 H2 Hm E. cbn [cx_realloc] in *. unfold relabel in E. destruct (failed (fst (al r s)) && P r s).
  - destruct (al r s) as [o' [m' w']] eqn:Ea. cbn [snd] in E. injection E as <- <- <-.
    destruct (Hc r s o' m' w' H1 H2 Hm Ea) as (C1 & C2 & C3 & C4 & _). repeat (split; [assumption|]). intros p Hp. now elim (HX p).
  - exact (Hc r s o m w H1 H2 Hm E).
Qed.
Lemma relabel_fails {A} id inst enc X al (o : outcome A) : (forall p, X <> Ok p) ->
  alloc_failed (mkCtx id inst enc (relabel (fun _ _ => true) X al)) o -> same_failure X o.
Proof.
  intros HX (r & s & _ & _ & H). cbn [cx_realloc] in H.
  assert (K : forall q, fst (relabel (fun _ _ => true) X al r s) = q -> (forall p, q <> Ok p) -> X = q).
  { intros q. unfold relabel. destruct (al r s) as [[p|e| |] mw]; cbn [failed fst andb]; try (intros; assumption). intros <- Hq. now elim (Hq p). }
  destruct o as [x|e| |]; [contradiction|..]; apply K in H; try congruence; subst X; cbn; auto.
Qed.

(** ** Calls *)

Lemma reaches_realloc cx cx' s s1 : cx_realloc cx = cx_realloc cx' -> reaches cx s s1 -> reaches cx' s s1.
Proof. intros E H. induction H; [apply at_start|eapply wrote; eauto|eapply granted; [eauto|]]. now rewrite <- E. Qed.
Lemma refused_move {A B} cx cx' rs s0 s (o : outcome A) (o' : outcome B) s' :
  cx_realloc cx = cx_realloc cx' -> s_hist s0 = s_hist s -> m_len (s_mem s0) = m_len (s_mem s) ->
  same_failure o o' -> refused cx rs s0 o s' -> refused cx' rs s o' s'.
Proof.
  intros Ec Eh El Eo (done & r & rest & s1 & E & M & R & F & W & K). exists done, r, rest, s1. split; [exact E|].
  split; [destruct M as (b & Hb & Hd); exists b; rewrite <- Eh; auto|]. split.
  { eapply reaches_trans; [|eapply reaches_realloc; [exact Ec|exact R]]. now apply reaches_same. }
  rewrite <- Ec. split; [|auto]. destruct (fst (cx_realloc cx r s1)), o; try contradiction; destruct o'; try contradiction; cbn in *; congruence.
Qed.
Lemma refused_fails {A} cx rs s (o : outcome A) s' : refused cx rs s o s' -> forall x, o <> Ok x.
Proof. intros (d & r & re & s1 & _ & _ & _ & F & _) y ->. destruct (fst (cx_realloc cx r s1)); contradiction. Qed.
Lemma made_from s0 s s' rs : s_hist s0 = s_hist s -> made s0 s' rs -> made s s' rs.
Proof. intros E (b & Hb & Hd). exists b. rewrite <- E. auto. Qed.
