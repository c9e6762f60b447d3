(** Proofs about the requests made of the allocator. *)
From Coq Require Import NArith ZArith String Ascii Bool Lia ZifyBool ZifyNat ZifyN List.
From Verif Require Import GoBase M_Types M_Layout S_Layout L_Layout M_State M_Utf M_Load M_Store M_Flat S_Utf L_Utf
  S_Values S_Memory S_Access L_Access L_Variant L_Labels L_Despecialize L_Mem L_Frame S_Format L_RoundTrip L_Format S_Requests.
Import ListNotations.
Open Scope N_scope.
Open Scope go_scope.

(** ** Requests *)
Definition logs {A} (rs : list req) (m : M A) : Prop :=
  forall s o s', m s = (o, s') -> exists done rest, rs = (done ++ rest)%list /\ made s s' done /\ forall x, o = Ok x -> rest = [].

Lemma made_refl s : made s s [].
Proof. exists []. auto. Qed.
Lemma made_same s s' : s_hist s' = s_hist s -> made s s' [].
Proof. intros E. exists []. auto. Qed.
Lemma made_trans s s1 s2 a b : made s s1 a -> made s1 s2 b -> made s s2 (a ++ b)%list.
Proof.
  intros (x & Hx & <-) (y & Hy & <-). exists (y ++ x)%list. rewrite Hy, Hx, app_assoc. split; [reflexivity|].
  now rewrite map_app, rev_app_distr.
Qed.

Lemma logs_quiet {A} (m : M A) : (forall s o s', m s = (o, s') -> s_hist s' = s_hist s) -> logs [] m.
Proof. intros H s o s' E. exists [], []. split; [reflexivity|]. split; [apply made_same, (H _ _ _ E)|auto]. Qed.
Lemma logs_ret {A} (x : A) : logs [] (ret x).
Proof. apply logs_quiet. intros s o s' E. inversion E. reflexivity. Qed.
Lemma logs_lift {A} (o : outcome A) : logs [] (lift_o o).
Proof. apply logs_quiet. intros s o' s' E. inversion E. reflexivity. Qed.
Lemma logs_fail {A} rs (o : outcome A) : (forall x, o <> Ok x) -> logs rs (lift_o o).
Proof.
  intros H s o' s' E. inversion E; subst. exists [], rs. split; [reflexivity|]. split; [apply made_refl|].
  intros x Ex. now apply H in Ex.
Qed.

Lemma logs_bind {A B} rs1 rs2 (m : M A) (f : A -> M B) : logs rs1 m -> (forall x, logs rs2 (f x)) -> logs (rs1 ++ rs2) (bind m f).
Proof.
  intros Hm Hf s o s' E. unfold bind in E. destruct (m s) as [o1 s1] eqn:E1.
  destruct (Hm _ _ _ E1) as (d1 & r1 & -> & M1 & K1).
  destruct o1 as [x|e| |]; [|inversion E; subst; exists d1, (r1 ++ rs2)%list; rewrite app_assoc; split; [reflexivity|]; split; [exact M1|discriminate]..].
  specialize (K1 x eq_refl). subst r1. destruct (Hf x _ _ _ E) as (d2 & r2 & -> & M2 & K2).
  exists (d1 ++ d2)%list, r2. rewrite app_nil_r, app_assoc. split; [reflexivity|]. split; [|exact K2]. eapply made_trans; eassumption.
Qed.
Lemma logs_then {A B} rs (m : M A) (f : A -> M B) : logs [] m -> (forall x, logs rs (f x)) -> logs rs (bind m f).
Proof. intros H K. exact (logs_bind [] rs m f H K). Qed.
Lemma logs_end {A B} rs (m : M A) (f : A -> M B) : logs rs m -> (forall x, logs [] (f x)) -> logs rs (bind m f).
Proof. intros H K. rewrite <- (app_nil_r rs). now apply logs_bind. Qed.
Lemma logs_try {A B} rs (o : outcome A) (f : A -> M B) : (forall x, o = Ok x -> logs rs (f x)) -> logs rs (bind (lift_o o) f).
Proof.
  intros H. destruct o as [x|e| |]; [intros s o s' E; rewrite bind_lift_ok in E; now apply (H x eq_refl) in E|..];
    (intros s o' s' E; unfold bind, lift_o in E; inversion E; subst; exists [], rs; split; [reflexivity|]; split; [apply made_refl|discriminate]).
Qed.
Lemma logs_realloc cx a n : logs [new_block a n] (realloc cx 0 0 a n).
Proof.
  intros s o s' E. unfold realloc in E. destruct (cx_realloc cx _ s) as [o1 [m w]].
  destruct o1 as [p|e| |]; inversion E; subst;
    [exists [new_block a n], []; split; [reflexivity|]; split; [|auto]; exists [(new_block a n, u32 p)]; auto
    |exists [], [new_block a n]; split; [reflexivity|]; split; [now apply made_same|discriminate]..].
Qed.

Lemma logs_bytes p n bs : logs [] (store_bytes p n bs).
Proof.
  apply logs_then; [apply logs_quiet; intros s o s' E; inversion E; reflexivity|]. intros m. apply logs_try. intros _ _.
  apply logs_quiet. intros s o s' E. inversion E. reflexivity.
Qed.
Lemma logs_int v p n sg : logs [] (store_int v p n sg).
Proof. unfold store_int. apply logs_try. intros. apply logs_try. intros. apply logs_bytes. Qed.
Lemma logs_check_aligned e p a : logs [] (check_aligned e p a).
Proof. apply logs_try. intros x _. destruct (p =? x); [apply logs_ret|apply logs_lift]. Qed.
Lemma logs_check_bounds e p n : logs [] (check_bounds e p n).
Proof.
  apply logs_then; [apply logs_quiet; intros s o s' E; inversion E; reflexivity|]. intros m.
  destruct (_ <? _); [apply logs_lift|apply logs_ret].
Qed.
Lemma logs_guarded rs al sz st v p : logs rs (st v p) -> logs rs (guarded al sz st v p).
Proof.
  intros H. unfold guarded, store_validate. apply logs_then; [|intros _; exact H].
  apply logs_try. intros a _. apply logs_then; [apply logs_check_aligned|]. intros _. apply logs_try. intros n _. apply logs_check_bounds.
Qed.

Lemma logs_dynamic cx c cs : Forall scalar_value cs -> expressible c cs -> N.of_nat (List.length (text_bytes c cs)) < 2 ^ 32 ->
  logs [new_block (text_align c) (N.of_nat (List.length (text_bytes c cs)))] (store_string_dynamic cx (utf8_text cs) c).
Proof.
  intros Hs He Hl. unfold store_string_dynamic. apply logs_try. intros bs E. rewrite text_encoded in E by assumption.
  injection E as <-. cbv zeta. rewrite u32_small by exact Hl.
  replace (codec_alignment c) with (text_align c) by (now destruct c).
  apply logs_end; [apply logs_realloc|]. intros q. apply logs_then; [apply logs_bytes|]. intros _. apply logs_ret.
Qed.

Lemma logs_text cx v rs : text_asks (cx_enc cx) v rs -> exists s, v = VStr s /\ logs rs (store_string_into_range cx s).
Proof.
  intros (cs & c & Hs & -> & Hw & He & Hl & ->). exists (utf8_text cs). split; [reflexivity|].
  unfold store_string_into_range.
  destruct (cx_enc cx) eqn:Ee; cbn in Hw; try contradiction; try (subst c; apply logs_try; intros c' E; injection E as <-; now apply logs_dynamic).
  apply logs_try. intros _ _. cbv zeta.
  assert (Ew : is_latin1 (utf8_text cs) = forallb latin1_ok cs) by (unfold is_latin1; rewrite utf8_runes_text by assumption; reflexivity).
  assert (Fw : forallb latin1_ok cs = true <-> Forall (fun x => x < 256) cs).
  { rewrite forallb_forall, Forall_forall. unfold latin1_ok. split; intros H x Hx; specialize (H x Hx); lia. }
  rewrite Ew. apply logs_try. intros c' E. assert (c' = c).
  { destruct (forallb latin1_ok cs) eqn:F; cbn in E; injection E as <-.
    - symmetry. apply Hw. now apply Fw.
    - symmetry. apply Hw. rewrite <- Fw. congruence. }
  subst c'. apply logs_end; [now apply logs_dynamic|]. intros []. apply logs_ret.
Qed.

Lemma logs_elems st sz : forall l parts q i, Forall2 (fun v rs => forall p, logs rs (st v p)) l parts ->
  logs (List.concat parts) (store_elems l st q sz i).
Proof.
  intros l parts q i H. revert i. induction H as [|v rs l parts Hv H IH]; intros i; cbn [store_elems List.concat]; [apply logs_ret|].
  apply logs_bind; [apply Hv|]. intros _. apply IH.
Qed.

Lemma logs_list cx t st v rs (P : any -> list req -> Prop) :
  (forall v rs p, P v rs -> logs rs (st v p)) ->
  list_asks (sp_layout t) P v rs -> logs rs (store_list_into_range cx (alignment t) (size t) st v).
Proof.
  intros HP (l & a & sz & parts & -> & Hl & Hn & Hp & ->). cbn [store_list_into_range].
  destruct (layout_ok_all t) as (_ & L). rewrite Hl in L. destruct L as (Ha & _ & _ & sz' & Hs & _ & Hlt & Heq).
  assert (En : N.of_nat (List.length l) * sz' = N.of_nat (List.length l) * sz).
  { destruct l as [|x l]; [reflexivity|]. rewrite Heq; [reflexivity|]. cbn [List.length] in Hn. change (2 ^ 32) with two32 in Hn. nia. }
  rewrite Hs, Ha. apply logs_try. intros x E. injection E as <-. cbv zeta.
  destruct (_ <=? _)%Z; [apply logs_fail; discriminate|].
  apply logs_try. intros x E. injection E as <-. rewrite En, u32_small by exact Hn.
  apply (logs_bind [_] (List.concat parts)); [apply logs_realloc|]. intros q.
  apply logs_then; [apply logs_check_aligned|]. intros _. apply logs_then; [apply logs_check_bounds|]. intros _.
  apply logs_end; [|intros _; apply logs_ret]. apply logs_elems. clear - Hp HP.
  induction Hp; constructor; auto.
Qed.

Lemma logs_pair rs (m : M (N * N)) p : logs rs m -> logs rs (let* (b, n) := m in store_u32 b p ;; store_u32 n (add32 p 4)).
Proof. intros H. apply logs_end; [exact H|]. intros [b n]. apply logs_then; [apply logs_bytes|]. intros _. apply logs_bytes. Qed.

Lemma disc_count n dt : discriminant_type n = Ok dt -> N.of_nat n < two32.
Proof.
  unfold discriminant_type, two32. cbv zeta. destruct (N.eqb_spec (N.of_nat n) 0); [lia|].
  repeat match goal with |- context [if ?b then _ else _] => destruct b eqn:? end; try discriminate; intros _; lia.
Qed.

Lemma asks_despecialize enc t v rs : asks enc (despecialize t) v rs <-> asks enc t v rs.
Proof.
  destruct t; try reflexivity; cbn [despecialize asks].
  - rewrite (map_itoa_fields (asks enc)). reflexivity.
  - rewrite map_enum_cases. reflexivity.
  - rewrite map_itoa_cases. reflexivity.
Qed.

Lemma store_logs cx t : forall v rs p, wf_type t -> asks (cx_enc cx) t v rs -> logs rs (store cx t v p).
Proof.
  induction t using valtype_ind'; intros v rs p Hwf Ha;
    try (cbn in Ha; subst rs; apply logs_guarded; (apply logs_int || (destruct v; (apply logs_int || apply logs_lift)))).
  - (* string *)
    apply logs_guarded. destruct (logs_text cx v rs Ha) as (s & -> & L). cbn [store_str]. now apply logs_pair.
  - (* list *)
    change (logs rs (guarded (alignment (TList t)) (size (TList t)) (store_list cx (alignment t) (size t) (store cx t)) v p)).
    apply logs_guarded. apply logs_pair. eapply logs_list; [|exact Ha]. intros v' rs' p' H. apply IHt; [apply Hwf|exact H].
  - (* record *)
    change (logs rs (guarded (alignment (TRecord fs)) (size (TRecord fs))
      (store_record (map (fun f => (fst f, mkComp (alignment (snd f)) (size (snd f)) (store cx (snd f)))) fs)) v p)).
    apply logs_guarded. destruct Ha as (m & parts & -> & Hp & ->). cbn [store_record]. destruct Hwf as [_ Hwf].
    revert p parts Hp. induction fs as [|[l t] fs IH]; intros p parts Hp; cbn [map] in Hp.
    + inversion Hp; subst. apply logs_ret.
    + inversion Hp as [|? part ? parts' (x & Hx & Hpx) Hp']; subst. cbn [fst snd] in *.
      inversion H; subst. destruct Hwf as [Hw1 Hw2]. cbn [snd] in *.
      cbn [map store_fields q_al q_sz q_op List.concat fst snd]. apply logs_try. intros a _. apply logs_try. intros q _.
      apply logs_bind; [unfold map_any; rewrite Hx; apply H2; assumption|]. intros _. apply logs_try. intros n _.
      apply IH; assumption.
  - (* variant *)
    change (logs rs (guarded (alignment (TVariant cs)) (size (TVariant cs))
      (store_variant (map (map_case (fun t => mkComp (alignment t) (size t) (store cx t))) cs)) v p)).
    apply logs_guarded. destruct Ha as (key & x & i & c & -> & Hsel & Hc & Hr). destruct Hwf as [(Hnd & _) Hwf].
    unfold store_variant. rewrite match_case_map, map_length. apply logs_try. intros [j y] Em. apply logs_try. intros dt Hdt.
    apply disc_count in Hdt. rewrite map_map in Hsel. cbn in Hsel. change (fun x => c_label x) with (@c_label valtype) in Hsel.
    rewrite (match_case_selects cs key x i Hnd Hdt) in Em by exact Hsel. injection Em as <- <-.
    apply logs_then; [apply logs_int|]. intros _. cbv zeta. apply logs_try. intros a _. apply logs_try. intros q _.
    rewrite Nat2N.id, nth_error_map. rewrite nth_error_map in Hc. destruct (nth_error cs i) as [c'|] eqn:Ec; [|discriminate].
    cbn in Hc. injection Hc as <-. cbn [option_map]. apply nth_error_In in Ec.
    rewrite Forall_forall in H. specialize (H c' Ec). assert (Hw : match c_type c' with Some x => wf_type x | None => True end).
    { clear - Hwf Ec. induction cs as [|c cs IH]; [contradiction|]. destruct Hwf as [H1 H2]. destruct Ec as [<-|Ec]; [exact H1|exact (IH H2 Ec)]. }
    destruct c' as [l [t|] r]; cbn in *; [apply H; assumption|]. subst rs. apply logs_ret.
  - (* flags *)
    cbn in Ha. subst rs. apply logs_guarded. destruct v; try apply logs_lift. cbn [store_flags].
    apply logs_try. intros. apply logs_try. intros. apply logs_int.
  - (* specialised *)
    rewrite <- store_despecialize. apply IHt; [apply wf_despecialize; exact Hwf|now apply asks_despecialize].
Qed.

Lemma logs_handle (m : M N) : logs [] m -> logs [] (ret_handle m).
Proof. intros H. apply logs_end; [exact H|]. intros. apply logs_ret. Qed.

Lemma quiet_get_world : logs [] get_world.
Proof. apply logs_quiet. intros s o s' E. inversion E. reflexivity. Qed.
Lemma quiet_put_world w : logs [] (put_world w).
Proof. apply logs_quiet. intros s o s' E. inversion E. reflexivity. Qed.

Lemma quiet_handle_add i rt h : logs [] (handle_add i rt h).
Proof.
  unfold handle_add. apply logs_then; [apply quiet_get_world|]. intros w. cbv zeta.
  destruct (stack_pop _) as [free [k|]]; [destruct (nth_error _ _) as [[x|]|]|];
    (apply logs_then; [apply quiet_put_world|]; intros _; (apply logs_ret || apply logs_lift)).
Qed.
Lemma quiet_lower_own cx v rt : logs [] (lower_own cx v rt).
Proof. destruct v; try apply logs_lift. apply quiet_handle_add. Qed.
Lemma quiet_lower_borrow cx v rt : logs [] (lower_borrow cx v rt).
Proof. destruct v; try apply logs_lift. unfold lower_borrow. destruct (match rt_impl rt with Some _ => _ | None => _ end); [apply logs_ret|apply quiet_handle_add]. Qed.

Lemma lower_logs cx t : forall v rs, wf_type t -> asks (cx_enc cx) t v rs -> logs rs (lower_flat cx t v).
Proof.
  induction t using valtype_ind'; intros v rs Hwf Ha;
    try (cbn in Ha; subst rs; apply logs_lift);
    try (cbn in Ha; subst rs; cbn [lower_flat]; apply logs_handle; (apply quiet_lower_own || apply quiet_lower_borrow)).
  - (* string *)
    destruct (logs_text cx v rs Ha) as (s & -> & L). cbn [lower_flat lower_string]. apply logs_end; [exact L|]. intros [q n]. apply logs_ret.
  - (* list *)
    cbn [lower_flat]. unfold lower_flat_list. apply logs_end; [|intros [q n]; apply logs_ret].
    eapply logs_list; [|exact Ha]. intros v' rs' p' H. apply store_logs; [apply Hwf|exact H].
  - (* record *)
    destruct Ha as (m & parts & -> & Hp & ->). destruct Hwf as [_ Hwf]. cbn [lower_flat lower_flat_record].
    revert parts Hp. induction fs as [|[l t] fs IH]; intros parts Hp; cbn [map] in Hp.
    + inversion Hp; subst. apply logs_ret.
    + inversion Hp as [|? part ? parts' (x & Hx & Hpx) Hp']; subst. cbn [fst snd] in *.
      inversion H; subst. destruct Hwf as [Hw1 Hw2]. cbn [snd] in *.
      cbn [map lower_fields List.concat fst snd].
      apply logs_bind; [unfold map_any; rewrite Hx; apply H2; assumption|]. intros a.
      apply logs_end; [apply IH; assumption|]. intros b. apply logs_ret.
  - (* variant *)
    destruct Ha as (key & x & i & c & -> & Hsel & Hc & Hr). destruct Hwf as [(Hnd & _) Hwf].
    change (logs rs (lower_flat_variant (flatten_type (TVariant cs)) (map (map_case (lower_flat cx)) cs) (VMap [(key, x)]))).
    unfold lower_flat_variant. rewrite match_case_map. apply logs_try. intros [j y] Em. apply logs_try. intros ft Hft.
    assert (Hdt : exists dt, discriminant_type (List.length cs) = Ok dt).
    { cbn [flatten_type] in Hft. unfold flatten_variant in Hft. rewrite map_length in Hft.
      destruct (discriminant_type (List.length cs)) as [dt|e| |]; [eauto|..]; exfalso; clear - Hft; cbn in Hft;
        destruct (fold_left _ _ _); discriminate. }
    destruct Hdt as [dt Hdt]. apply disc_count in Hdt.
    rewrite map_map in Hsel. cbn in Hsel. change (fun x => c_label x) with (@c_label valtype) in Hsel.
    rewrite (match_case_selects cs key x i Hnd Hdt) in Em by exact Hsel. injection Em as <- <-.
    destruct ft as [|first rest]; [apply logs_fail; discriminate|]. destruct (negb _); [apply logs_fail; discriminate|].
    rewrite Nat2N.id, nth_error_map. rewrite nth_error_map in Hc. destruct (nth_error cs i) as [c'|] eqn:Ec; [|discriminate].
    cbn in Hc. injection Hc as <-. cbn [option_map]. apply nth_error_In in Ec.
    rewrite Forall_forall in H. specialize (H c' Ec). assert (Hw : match c_type c' with Some x => wf_type x | None => True end).
    { clear - Hwf Ec. induction cs as [|c cs IH]; [contradiction|]. destruct Hwf as [H1 H2]. destruct Ec as [<-|Ec]; [exact H1|exact (IH H2 Ec)]. }
    apply logs_end; [|intros pl; apply logs_try; intros; apply logs_ret].
    destruct c' as [l [t|] r]; cbn in *; [apply H; assumption|]. subst rs. apply logs_ret.
  - (* specialised *)
    rewrite <- lower_flat_despecialize. apply IHt; [apply wf_despecialize; exact Hwf|now apply asks_despecialize].
Qed.

(** ** Every value has its requests, and only one sequence of them *)
Lemma text_bytes_short c cs : Forall scalar_value cs -> N.of_nat (List.length (utf8_text cs)) < 2 ^ 31 ->
  N.of_nat (List.length (text_bytes c cs)) < 2 ^ 32.
Proof.
  intros Hs H.
  assert (X : (List.length (text_bytes c cs) <= 2 * List.length (utf8_text cs))%nat).
  { clear H. unfold text_bytes, utf8_text. induction Hs as [|x cs Hx Hs IH]; [destruct c as [|[|]|]; cbn; lia|].
    assert (Y : (1 <= List.length (sp_utf8 x) /\ List.length (sp_utf16 x) <= List.length (sp_utf8 x))%nat).
    { unfold sp_utf8, sp_utf16. repeat match goal with |- context [if ?b then _ else _] => destruct b eqn:? end; cbn [List.length]; lia. }
    destruct c as [|[|]|]; cbn [flat_map List.length] in *; rewrite ?flat_map_app, ?app_length in *; try lia.
    - assert (Z : forall l, List.length (flat_map unit16_be l) = (2 * List.length l)%nat) by (induction l as [|? l IHl]; cbn; [reflexivity|rewrite IHl; lia]).
      rewrite !Z in *. lia.
    - assert (Z : forall l, List.length (flat_map unit16_le l) = (2 * List.length l)%nat) by (induction l as [|? l IHl]; cbn; [reflexivity|rewrite IHl; lia]).
      rewrite !Z in *. lia. }
  change (2 ^ 31) with 2147483648 in H. change (2 ^ 32) with 4294967296. lia.
Qed.

Lemma asks_text_exists enc s : string_ok enc s -> exists rs, text_asks enc (VStr s) rs.
Proof.
  intros (cs & Hs & -> & Hl & He).
  assert (K : forall c, text_written enc cs c -> expressible c cs -> exists rs, text_asks enc (VStr (utf8_text cs)) rs).
  { intros c Hw Hx. eexists. exists cs, c. split; [exact Hs|]. split; [reflexivity|]. split; [exact Hw|]. split; [exact Hx|].
    split; [now apply text_bytes_short|reflexivity]. }
  destruct enc; try contradiction; try (eapply K; [reflexivity|exact I || exact He]).
  assert (D : Forall (fun x => x < 256) cs \/ ~ Forall (fun x => x < 256) cs).
  { destruct (forallb (fun x => x <? 256) cs) eqn:F; [left|right]; [apply Forall_forall; intros x Hx; rewrite forallb_forall in F; specialize (F x Hx); lia|].
    intros K'. rewrite Forall_forall in K'. enough (forallb (fun x => x <? 256) cs = true) by congruence.
    apply forallb_forall. intros x Hx. specialize (K' x Hx). cbn in K'. lia. }
  destruct D as [D|D]; [apply (K CLatin1)|apply (K (CUtf16 false))]; try (split; intros; congruence || contradiction); try exact D; exact I.
Qed.

Lemma asks_exists enc t : forall v, wf_type t -> has_type enc t v -> exists rs, asks enc t v rs.
Proof.
  induction t using valtype_ind'; intros v Hwf Hv; try (exists []; reflexivity).
  - destruct Hv as (s & -> & Hs). now apply asks_text_exists.
  - destruct Hv as (l & a & sz & -> & Hf & Hl & Hn & _).
    assert (P : exists parts, Forall2 (asks enc t) l parts).
    { clear Hn. destruct Hwf as [Hwf _]. induction Hf as [|x l Hx Hf IH]; [exists []; constructor|]. destruct IH as [ps IH]. destruct (IHt x Hwf Hx) as [r Hr].
      exists (r :: ps). now constructor. }
    destruct P as [parts P]. eexists. exists l, a, sz, parts. repeat split; eassumption || reflexivity.
  - destruct Hv as (m & -> & Hf). destruct Hwf as [_ Hwf].
    assert (P : exists parts, Forall2 (fun f part => exists x, map_get m (fst f) = Some x /\ snd f x part) (map (fun f => (fst f, asks enc (snd f))) fs) parts).
    { induction fs as [|[l t] fs IH]; [exists []; constructor|]. cbn [map] in Hf. inversion Hf as [|? ? (x & Hx & Hp) Hf']; subst.
      inversion H; subst. destruct Hwf as [W1 W2]. destruct (IH H3 W2 Hf') as [ps P]. cbn [fst snd] in *. destruct (H2 x W1 Hp) as [r Hr].
      exists (r :: ps). cbn [map]. constructor; [exists x; split; assumption|exact P]. }
    destruct P as [parts P]. eexists. exists m, parts. split; [reflexivity|]. split; [exact P|reflexivity].
  - destruct Hv as (key & x & i & c & -> & Hsel & Hc & Hp). destruct Hwf as [_ Hwf].
    rewrite nth_error_map in Hc. destruct (nth_error cs i) as [c'|] eqn:Ec; [|discriminate]. injection Hc as <-.
    pose proof (nth_error_In _ _ Ec) as Hin. rewrite Forall_forall in H. specialize (H c' Hin).
    assert (Hw : match c_type c' with Some x => wf_type x | None => True end).
    { clear - Hwf Hin. induction cs as [|c cs IH]; [contradiction|]. destruct Hwf as [H1 H2]. destruct Hin as [<-|Ec]; [exact H1|exact (IH H2 Ec)]. }
    assert (K : exists rs, match option_map (asks enc) (c_type c') with Some P => P x rs | None => rs = [] end).
    { destruct c' as [l [t|] r]; cbn in *; [now apply H|now exists []]. }
    destruct K as [rs K]. exists rs. exists key, x, i, (map_case (asks enc) c'). split; [reflexivity|].
    split; [rewrite map_map in *; exact Hsel|]. split; [rewrite nth_error_map, Ec; reflexivity|].
    destruct c' as [l [t|] r]; exact K.
  - destruct (IHt v) as [rs Hrs]; [now apply wf_despecialize|now apply has_type_despecialize|]. exists rs. now apply asks_despecialize.
Qed.

Lemma utf8_text_inj cs cs' : Forall scalar_value cs -> Forall scalar_value cs' -> utf8_text cs = utf8_text cs' -> cs = cs'.
Proof. intros H H' E. rewrite <- (utf8_runes_text cs), <- (utf8_runes_text cs'), E by assumption. reflexivity. Qed.

Lemma asks_unique enc t : forall v rs rs', wf_type t -> asks enc t v rs -> asks enc t v rs' -> rs = rs'.
Proof.
  induction t using valtype_ind'; intros v rs rs' Hwf Ha Hb; try (cbn in Ha, Hb; congruence).
  - destruct Ha as (cs & c & Hs & -> & Hw & _ & _ & ->), Hb as (cs' & c' & Hs' & E & Hw' & _ & _ & ->).
    injection E as E. apply utf8_text_inj in E; [|assumption..]. subst cs'.
    assert (c = c') as ->; [|reflexivity]. destruct enc; cbn in Hw, Hw'; try congruence; try contradiction.
    destruct (forallb (fun x => x <? 256) cs) eqn:F.
    + assert (Forall (fun x => x < 256) cs) by (apply Forall_forall; intros x Hx; rewrite forallb_forall in F; specialize (F x Hx); lia).
      destruct Hw as [-> _], Hw' as [-> _]; auto.
    + assert (~ Forall (fun x => x < 256) cs).
      { intros K'. rewrite Forall_forall in K'. enough (forallb (fun x => x <? 256) cs = true) by congruence.
        apply forallb_forall. intros x Hx. specialize (K' x Hx). cbn in K'. lia. }
      rewrite (proj2 Hw H), (proj2 Hw' H). reflexivity.
  - destruct Ha as (l & a & sz & parts & -> & Hl & _ & Hp & ->), Hb as (l' & a' & sz' & parts' & E & Hl' & _ & Hp' & ->).
    injection E as <-. rewrite Hl in Hl'. injection Hl' as <- <-. f_equal. f_equal. destruct Hwf as [Hwf _].
    clear - IHt Hwf Hp Hp'. revert parts' Hp'. induction Hp as [|x r l parts Hx Hp IH]; intros parts' Hp'; inversion Hp'; subst; [reflexivity|].
    f_equal; [eapply IHt; eassumption|now apply IH].
  - destruct Ha as (m & parts & -> & Hp & ->), Hb as (m' & parts' & E & Hp' & ->). injection E as <-. f_equal.
    destruct Hwf as [_ Hwf]. revert parts Hp parts' Hp'. induction fs as [|[l t] fs IH]; intros parts Hp parts' Hp'; cbn [map] in *.
    + inversion Hp; inversion Hp'; reflexivity.
    + inversion Hp as [|? r ? ps (x & Hx & Hr) Hps]; inversion Hp' as [|? r' ? ps' (x' & Hx' & Hr') Hps']; subst. cbn [fst snd] in *.
      inversion H; subst. destruct Hwf as [W1 W2]. assert (x' = x) by congruence. subst x'. f_equal; [eapply H2; eassumption|]. apply IH; assumption.
  - destruct Ha as (key & x & i & c & -> & Hsel & Hc & Hr), Hb as (key' & x' & i' & c' & E & Hsel' & Hc' & Hr'). injection E as <- <-.
    destruct Hwf as [(Hnd & _) Hwf]. rewrite map_map in Hsel, Hsel'. cbn in Hsel, Hsel'.
    change (fun x => c_label x) with (@c_label valtype) in Hsel, Hsel'. assert (i' = i) by exact (selects_fun _ _ _ _ Hnd Hsel' Hsel). subst i'.
    rewrite Hc in Hc'. injection Hc' as <-. rewrite nth_error_map in Hc. destruct (nth_error cs i) as [c'|] eqn:Ec; [|discriminate]. injection Hc as <-.
    pose proof (nth_error_In _ _ Ec) as Hin. rewrite Forall_forall in H. specialize (H c' Hin).
    assert (Hw : match c_type c' with Some x => wf_type x | None => True end).
    { clear - Hwf Hin. induction cs as [|c cs IH]; [contradiction|]. destruct Hwf as [H1 H2]. destruct Hin as [<-|Ec']; [exact H1|exact (IH H2 Ec')]. }
    destruct c' as [l [t|] r]; cbn in *; [eapply H; eassumption|congruence].
  - apply (IHt v); [now apply wf_despecialize|now apply asks_despecialize..].
Qed.

(** ** Where bytes may change *)
Definition touches {A} (own W : N -> Prop) (m : M A) : Prop := forall s o s', m s = (o, s') -> changes_only own W s s'.

Section Touches.
  Variable own : N -> Prop.

  Lemma changes_refl W s : changes_only own W s s.
  Proof. exists []. split; [reflexivity|]. intros b H. now elim H. Qed.
  Lemma changes_trans W s s1 s2 : changes_only own W s s1 -> changes_only own W s1 s2 -> changes_only own W s s2.
  Proof.
    intros (x & Hx & Cx) (y & Hy & Cy). exists (y ++ x)%list. rewrite Hy, Hx, app_assoc. split; [reflexivity|]. intros b Hb.
    destruct (N.eq_dec (byte (s_mem s1) b) (byte (s_mem s) b)) as [E|E].
    - rewrite <- E in Hb. destruct (Cy b Hb) as [?|[?|(r & q & Hin & ?)]]; auto. right; right. exists r, q. split; [apply in_or_app; auto|assumption].
    - destruct (Cx b E) as [?|[?|(r & q & Hin & ?)]]; auto. right; right. exists r, q. split; [apply in_or_app; auto|assumption].
  Qed.
  Lemma touches_weaken {A} (W W' : N -> Prop) (m : M A) : (forall b, W b -> W' b) -> touches own W m -> touches own W' m.
  Proof. intros H T s o s' E. destruct (T _ _ _ E) as (x & Hx & C). exists x. split; [exact Hx|]. intros b Hb. destruct (C b Hb) as [?|[?|?]]; auto. Qed.
  Lemma touches_quiet {A} W (m : M A) : (forall s o s', m s = (o, s') -> s_hist s' = s_hist s /\ s_mem s' = s_mem s) -> touches own W m.
  Proof. intros H s o s' E. destruct (H _ _ _ E) as [Hh Hm]. exists []. split; [exact Hh|]. intros b Hb. rewrite Hm in Hb. now elim Hb. Qed.
  Lemma touches_ret {A} W (x : A) : touches own W (ret x).
  Proof. apply touches_quiet. intros s o s' E. now inversion E. Qed.
  Lemma touches_lift {A} W (o : outcome A) : touches own W (lift_o o).
  Proof. apply touches_quiet. intros s o' s' E. now inversion E. Qed.
  Lemma touches_bind {A B} W (m : M A) (f : A -> M B) : touches own W m -> (forall x, touches own W (f x)) -> touches own W (bind m f).
  Proof.
    intros Hm Hf s o s' E. unfold bind in E. destruct (m s) as [o1 s1] eqn:E1. specialize (Hm _ _ _ E1).
    destruct o1 as [x|e| |]; [|inversion E; subst; exact Hm..]. eapply changes_trans; [exact Hm|]. exact (Hf _ _ _ _ E).
  Qed.
  Lemma touches_try {A B} W (o : outcome A) (f : A -> M B) : (forall x, o = Ok x -> touches own W (f x)) -> touches own W (bind (lift_o o) f).
  Proof.
    intros H s o' s' E. destruct o as [x|e| |]; [rewrite bind_lift_ok in E; exact (H x eq_refl _ _ _ E)|..];
      (unfold bind, lift_o in E; inversion E; subst; apply changes_refl).
  Qed.
  Lemma touches_realloc {A} cx W a n (f : N -> M A) : writes_only own cx ->
    (forall q, q < 2 ^ 32 -> touches own (fun b => W b \/ around q n b) (f q)) -> touches own W (bind (realloc cx 0 0 a n) f).
  Proof.
    intros Hw H s o s' E. unfold bind, realloc in E. destruct (cx_realloc cx _ s) as [o1 [m w]] eqn:Er. specialize (Hw _ _ _ _ _ Er).
    destruct o1 as [p|e| |].
    - apply H in E; [|apply N.mod_lt; discriminate]. destruct E as (x & Hx & C). cbn [s_hist s_mem] in Hx, C.
      exists (x ++ [(new_block a n, u32 p)])%list. split; [rewrite Hx, <- app_assoc; reflexivity|]. intros b Hb.
      destruct (N.eq_dec (byte m b) (byte (s_mem s) b)) as [Eb|Eb]; [|left; exact (Hw b Eb)]. rewrite <- Eb in Hb.
      destruct (C b Hb) as [?|[[?|?]|(r & q & Hin & ?)]]; auto; right; right;
        [exists (new_block a n), (u32 p); split; [apply in_or_app; right; left; reflexivity|assumption]|exists r, q; split; [apply in_or_app; auto|assumption]].
    - inversion E; subst. exists []. split; [reflexivity|]. intros b Hb. left. exact (Hw b Hb).
    - inversion E; subst. exists []. split; [reflexivity|]. intros b Hb. left. exact (Hw b Hb).
    - inversion E; subst. exists []. split; [reflexivity|]. intros b Hb. left. exact (Hw b Hb).
  Qed.
  Lemma touches_bytes (W : N -> Prop) p n bs : p < 2 ^ 32 -> n < 2 ^ 32 -> N.of_nat (List.length bs) <= n -> (forall b, around p n b -> W b) ->
    touches own W (store_bytes p n bs).
  Proof.
    intros Hp Hn Hl HW s o s' E. unfold store_bytes, bind, get_mem, lift_o in E.
    destruct (mem_slice (s_mem s) p (add32 p n)) as [x|e| |] eqn:Em; [|inversion E; subst; apply changes_refl..].
    unfold mem_slice in Em. destruct ((p <=? add32 p n) && (add32 p n <=? mem_cap (s_mem s))) eqn:C; [|discriminate].
    apply andb_true_iff in C. destruct C as [C1 C2]. apply N.leb_le in C1, C2.
    assert (Ea : add32 p n = p + n).
    { unfold add32, two32 in *. change (2 ^ 32) with 4294967296 in *. destruct (N.lt_ge_cases (p + n) 4294967296); [now apply N.mod_small|].
      exfalso. replace (p + n) with ((p + n - 4294967296) + 1 * 4294967296) in C1 by lia. rewrite N.mod_add, N.mod_small in C1 by lia. lia. }
    rewrite Ea in *. unfold put_mem in E. inversion E; subst. exists []. split; [reflexivity|]. cbn [s_mem]. intros b Hb.
    rewrite byte_write in Hb by lia. right; left. apply HW. destruct ((p <=? b) && (b <? p + N.of_nat (List.length bs))) eqn:D; [|now elim Hb].
    apply andb_true_iff in D. destruct D as [D1 D2]. apply N.leb_le in D1. apply N.ltb_lt in D2. exists (b - p). split; [lia|].
    assert (p + n < 2 ^ 32) by (rewrite <- Ea; apply N.mod_lt; discriminate).
    rewrite N.mod_small by lia. lia.
  Qed.
  Lemma touches_int (W : N -> Prop) v p n sg : p < 2 ^ 32 -> n < 2 ^ 32 -> (forall b, around p n b -> W b) -> touches own W (store_int v p n sg).
  Proof.
    intros. unfold store_int. apply touches_try. intros. apply touches_try. intros. apply touches_bytes; try assumption. apply int_bytes_length.
  Qed.
  Lemma touches_check_bounds W e p n : touches own W (check_bounds e p n).
  Proof. apply touches_quiet. intros s o s' E. unfold check_bounds, bind, get_mem in E. destruct (_ <? _); inversion E; auto. Qed.
  Lemma touches_check_aligned W e p a (m : M unit) : valid_align a -> ((a | p) -> touches own W m) -> touches own W (check_aligned e p a ;; m).
  Proof.
    intros Hv H s o s' E. unfold bind in E. destruct (N.eq_dec (p mod a) 0) as [D|D].
    - apply N.mod_divide in D; [|now apply valid_align_nz]. destruct (check_aligned e p a s) as [o1 s1] eqn:Ec.
      assert (C : changes_only own W s s1).
      { apply (touches_quiet W (check_aligned e p a)) in Ec; [exact Ec|]. intros s0 o0 s0' E0. unfold check_aligned, align_to in E0. rewrite bind_lift_ok in E0.
        destruct (_ =? _); inversion E0; auto. }
      destruct o1 as [x|?| |]; [|inversion E; subst; exact C..]. eapply changes_trans; [exact C|]. exact (H D _ _ _ E).
    - rewrite check_aligned_bad in E; [inversion E; subst; apply changes_refl|assumption|]. intros D'. apply D. now apply N.mod_divide; [apply valid_align_nz|].
  Qed.
  Lemma touches_guarded W al sz st v p a : al = Ok a -> valid_align a -> ((a | p) -> touches own W (st v p)) -> touches own W (guarded al sz st v p).
  Proof.
    intros -> Hv H s o s' E. unfold guarded, store_validate in E.
    assert (E' : (check_aligned EOther p a ;; ((let* n := lift_o sz in check_bounds EOther p n) ;; st v p)) s = (o, s')).
    { rewrite <- E. unfold bind, lift_o. destruct (check_aligned EOther p a s) as [[?|?| |] ?]; reflexivity. }
    revert E'. apply touches_check_aligned; [exact Hv|]. intros D. apply touches_bind; [|intros _; exact (H D)].
    apply touches_try. intros. apply touches_check_bounds.
  Qed.
End Touches.

Lemma around_sub p n o k b : o + k <= n -> around ((p + o) mod 2 ^ 32) k b -> around p n b.
Proof.
  intros H (j & Hj & ->). exists (o + j). split; [lia|]. rewrite N.add_mod_idemp_l by discriminate. f_equal. lia.
Qed.
Lemma around_head p n k b : k <= n -> around p k b -> around p n b.
Proof. intros H (j & Hj & ->). exists j. split; [lia|reflexivity]. Qed.

Lemma align_round a base pos : valid_align a -> (a | base) -> u32 (up_to a ((base + pos) mod 2 ^ 32)) = (base + up_to a pos) mod 2 ^ 32.
Proof.
  intros Hv Hd. pose proof (valid_align_nz a Hv) as Hz. change (u32 ?x) with (x mod 2 ^ 32).
  rewrite <- up_to_shift by assumption. set (x := base + pos). rewrite (N.div_mod x (2 ^ 32)) at 2 by discriminate.
  rewrite up_to_shift; [|exact Hz|].
  - rewrite (N.mul_comm (2 ^ 32)), N.add_comm, N.mod_add by discriminate. reflexivity.
  - apply N.divide_mul_l. unfold valid_align in Hv. destruct Hv as [Hv | [Hv | [Hv | Hv]]]; rewrite Hv; [exists (2 ^ 32)|exists (2 ^ 31)|exists (2 ^ 30)|exists (2 ^ 29)]; reflexivity.
Qed.

Lemma touches_string own cx W s : writes_only own cx -> touches own W (store_string_into_range cx s).
Proof.
  intros Hw.
  assert (K : forall c, touches own W (store_string_dynamic cx s c)).
  { intros c. unfold store_string_dynamic. apply touches_try. intros bs _. cbv zeta. apply touches_realloc; [exact Hw|]. intros q Hq.
    apply touches_bind; [|intros _; apply touches_ret]. apply touches_bytes; [exact Hq|apply N.mod_lt; discriminate| |intros; now right].
    rewrite firstn_length. lia. }
  unfold store_string_into_range. apply touches_try. intros c _. destruct (cx_enc cx); try apply K.
  cbv zeta. apply touches_try. intros c' _. apply touches_bind; [apply K|]. intros []. apply touches_ret.
Qed.

Lemma touches_elems own (W : N -> Prop) (st : any -> N -> M unit) sz q n : forall l i,
  i * sz + N.of_nat (List.length l) * sz <= n -> (forall b, around q n b -> W b) ->
  Forall (fun v => forall p, p < 2 ^ 32 -> touches own (around p sz) (st v p)) l ->
  touches own W (store_elems l st q sz i).
Proof.
  induction l as [|v l IH]; intros i Hi HW Hf; [apply touches_ret|]. inversion Hf as [|? ? Hv Hf']; subst. cbn [store_elems List.length] in *.
  assert (E : add32 q (mul32 (u32 i) sz) = (q + i * sz) mod 2 ^ 32).
  { unfold add32, mul32, u32. change two32 with (2 ^ 32). rewrite N.mul_mod_idemp_l, N.add_mod_idemp_r by discriminate. reflexivity. }
  rewrite E. apply touches_bind; [|intros _; apply IH; [nia|assumption..]].
  eapply touches_weaken; [|apply Hv, N.mod_lt; discriminate]. intros b Hb. apply HW. apply (around_sub q n (i * sz) sz); [nia|exact Hb].
Qed.

Lemma touches_list own cx t W v : writes_only own cx ->
  (forall a sz v p, sp_layout t = Some (a, sz) -> sz < 2 ^ 32 -> p < 2 ^ 32 -> lists_fit t v -> touches own (around p sz) (store cx t v p)) ->
  lists_fit (TList t) v -> touches own W (store_list_into_range cx (alignment t) (size t) (store cx t) v).
Proof.
  intros Hw IH Hfit. destruct v; try apply touches_lift. destruct (Hfit l eq_refl) as [Hfl Hsz]. cbn [store_list_into_range].
  destruct (layout_ok_all t) as (_ & L). destruct (sp_layout t) as [[a sz]|] eqn:Et.
  2:{ destruct L as [e ->]. apply touches_try. discriminate. }
  destruct L as (Ha & Hv & _ & sz' & Hs & _ & Hlt & Heq). specialize (Hsz _ _ eq_refl).
  assert (En : N.of_nat (List.length l) * sz' = N.of_nat (List.length l) * sz /\ (l <> [] -> sz' = sz)).
  { destruct l as [|x l]; [split; [reflexivity|congruence]|]. assert (sz' = sz) as ->; [|auto]. apply Heq. cbn [List.length] in Hsz. change (2 ^ 32) with two32 in Hsz. nia. }
  destruct En as [En Es]. rewrite Hs, Ha. apply touches_try. intros x E. injection E as <-. cbv zeta. destruct (_ <=? _)%Z; [apply touches_lift|].
  apply touches_try. intros x E. injection E as <-. rewrite En, u32_small by exact Hsz. apply touches_realloc; [exact Hw|]. intros q Hq.
  assert (C : forall (m : M unit) (f : unit -> M (N * N)), touches own (fun b => W b \/ around q (N.of_nat (List.length l) * sz) b) m ->
    (forall x, touches own (fun b => W b \/ around q (N.of_nat (List.length l) * sz) b) (f x)) ->
    touches own (fun b => W b \/ around q (N.of_nat (List.length l) * sz) b) (check_aligned ETrap q a ;; (m ;; f tt))).
  { intros m f H1 H2. apply touches_bind; [|intros _; apply touches_bind; [exact H1|intros _; apply H2]].
    apply touches_quiet. intros s0 o0 s0' E0. unfold check_aligned, align_to in E0. rewrite bind_lift_ok in E0. destruct (_ =? _); inversion E0; auto. }
  apply (C (check_bounds ETrap q (N.of_nat (List.length l) * sz)) (fun _ => store_elems l (store cx t) q sz' 0 ;; ret (q, u32 (N.of_nat (List.length l))))); [apply touches_check_bounds|].
  intros _. apply touches_bind; [|intros _; apply touches_ret].
  destruct l as [|v0 l']; [apply touches_ret|]. rewrite Es in * by discriminate. clear C Es.
  apply (touches_elems own _ _ _ _ (N.of_nat (List.length (v0 :: l')) * sz)); [lia|intros; now right|].
  eapply Forall_impl; [|exact Hfl]. intros v Hv0 p Hp. eapply IH; try eassumption. reflexivity.
Qed.

Lemma touches_pair own p (m : M (N * N)) : p < 2 ^ 32 -> touches own (around p 8) m ->
  touches own (around p 8) (let* (b, n) := m in store_u32 b p ;; store_u32 n (add32 p 4)).
Proof.
  intros Hp H. apply touches_bind; [exact H|]. intros [b n]. unfold store_u32. apply touches_bind; [|intros _].
  - apply touches_bytes; [exact Hp|reflexivity|rewrite le_encode_length; reflexivity|]. intros x. apply around_head. lia.
  - apply touches_bytes; [apply N.mod_lt; discriminate|reflexivity|rewrite le_encode_length; reflexivity|]. intros x. apply (around_sub p 8 4 4). lia.
Qed.

Lemma touches_fields own cx m p n : forall fs ls pos,
  Forall (fun f => forall a sz v p, sp_layout (snd f) = Some (a, sz) -> sz < 2 ^ 32 -> p < 2 ^ 32 -> lists_fit (snd f) v ->
    touches own (around p sz) (store cx (snd f) v p)) fs ->
  Forall (fun f => lists_fit (snd f) (map_any m (fst f))) fs ->
  all_some (map (fun f => sp_layout (snd f)) fs) = Some ls ->
  Forall (fun l : layout => (fst l | p)) ls -> n < 2 ^ 32 -> fields_end pos ls <= n ->
  touches own (around p n)
    (store_fields (map (fun f => (fst f, mkComp (alignment (snd f)) (size (snd f)) (store cx (snd f)))) fs) m ((p + pos) mod 2 ^ 32)).
Proof.
  induction fs as [|[l t] fs IH]; intros ls pos Hf Hm Hs Hd Hn He; [apply touches_ret|].
  cbn in Hs. destruct (sp_layout t) as [[a sz]|] eqn:Et; [|discriminate].
  destruct (all_some _) as [ls'|] eqn:El; [|discriminate]. injection Hs as <-.
  inversion Hf as [|? ? Hf1 Hf2]; subst. inversion Hm as [|? ? Hm1 Hm2]; subst. inversion Hd as [|? ? Hd1 Hd2]; subst. cbn [fst snd] in *.
  pose proof (all_some_valid snd fs ls' El) as Hv.
  destruct (sp_layout_facts _ _ _ Et) as (Ha & Hva & _ & Hsz).
  cbn [fields_end] in He. pose proof (fields_end_ge ls' (up_to a pos + sz) Hv).
  assert (Hlt : sz < two32) by (change two32 with (2 ^ 32); lia). specialize (Hsz Hlt).
  cbn [map store_fields q_al q_sz q_op fst snd]. rewrite Ha, Hsz.
  apply touches_try. intros x E. injection E as <-. rewrite align_to_up by now apply valid_align_nz. apply touches_try. intros x E. injection E as <-.
  rewrite align_round by assumption. apply touches_bind; [|intros _].
  - eapply touches_weaken; [|eapply Hf1; [exact Et|exact Hlt|apply N.mod_lt; discriminate|exact Hm1]]. intros b. apply around_sub. lia.
  - apply touches_try. intros x E. injection E as <-. unfold add32. change two32 with (2 ^ 32). rewrite N.add_mod_idemp_l, <- N.add_assoc by discriminate.
    apply (IH ls'); try assumption. reflexivity.
Qed.

Lemma touches_handle_add own W i rt h : touches own W (handle_add i rt h).
Proof.
  unfold handle_add. apply touches_bind; [apply touches_quiet; intros s o s' E; now inversion E|]. intros w. cbv zeta.
  destruct (stack_pop _) as [free [k|]]; [destruct (nth_error _ _) as [[x|]|]|];
    (apply touches_bind; [apply touches_quiet; intros s o s' E; now inversion E|]; intros _; (apply touches_ret || apply touches_lift)).
Qed.
Lemma quiet_own own W cx v rt : touches own W (lower_own cx v rt).
Proof. destruct v; try apply touches_lift. apply touches_handle_add. Qed.
Lemma quiet_borrow own W cx v rt : touches own W (lower_borrow cx v rt).
Proof.
  destruct v; try apply touches_lift. unfold lower_borrow.
  destruct (match rt_impl rt with Some _ => _ | None => _ end); [apply touches_ret|apply touches_handle_add].
Qed.

Theorem store_touches own cx t : writes_only own cx -> forall a sz v p,
  sp_layout t = Some (a, sz) -> sz < 2 ^ 32 -> p < 2 ^ 32 -> lists_fit t v -> touches own (around p sz) (store cx t v p).
Proof.
  intros Hw. induction t using valtype_ind'; intros al sz v p Hl Hlt Hp Hfit;
    try discriminate;
    try (cbn in Hl; injection Hl as <- <-;
         eapply touches_guarded; [reflexivity|unfold valid_align; lia|]; intros _;
         (apply touches_int || (destruct v; (apply touches_int || apply touches_lift))); auto; fail).
  - (* string *)
    cbn in Hl; injection Hl as <- <-. eapply touches_guarded; [reflexivity|unfold valid_align; lia|]. intros _.
    destruct v; try apply touches_lift. cbn [store_str]. apply touches_pair; [exact Hp|]. now apply touches_string.
  - (* list *)
    cbn in Hl; injection Hl as <- <-.
    change (store cx (TList t) v p) with (guarded (Ok 4) (Ok 8) (store_list cx (alignment t) (size t) (store cx t)) v p).
    eapply touches_guarded; [reflexivity|unfold valid_align; lia|]. intros _. unfold store_list. apply touches_pair; [exact Hp|].
    apply touches_list; assumption.
  - (* record *)
    assert (Hl' := Hl). cbn [sp_layout] in Hl.
    destruct (all_some (map (fun f => sp_layout (snd f)) fs)) as [ls|] eqn:El; [|discriminate].
    cbn [bindo] in Hl. assert (Hr : sp_record ls = (al, sz)) by congruence.
    destruct (sp_layout_facts _ _ _ Hl') as (Ha & Hva & _ & Hs).
    pose proof (all_some_valid snd fs ls El) as Hv. pose proof (sp_record_end ls Hv) as He. rewrite Hr in He. cbn [snd] in He.
    eapply touches_guarded; [exact Ha|exact Hva|]. intros Hd. destruct v; try apply touches_lift. cbn [store_record].
    replace p with ((p + 0) mod 2 ^ 32) at 2 by (rewrite N.add_0_r; now apply N.mod_small).
    apply (touches_fields own cx m p sz fs ls 0); try assumption.
    + cbn in Hfit. specialize (Hfit m eq_refl). clear - Hfit. unfold map_any.
      induction fs as [|f fs IH]; constructor; inversion Hfit; subst; auto.
      destruct (map_get m (fst f)) eqn:Ef; [apply H1; assumption|apply lists_fit_nil].
    + apply fields_base_div; [exact Hv|]. assert (Em : al = max_align ls) by (unfold sp_record in Hr; congruence). now rewrite <- Em.
  - (* variant *)
    assert (Hl' := Hl). cbn [sp_layout] in Hl.
    destruct (all_some (payload_types (map (map_case sp_layout) cs))) as [ls|] eqn:El; [|discriminate].
    cbn [bindo] in Hl. destruct (sp_variant_inv _ _ _ _ Hl) as (d & dt & Hd & Hdt & Hss & Hvd & Hal & Hsz & Hcase & Hpos).
    destruct (variant_payload_placed _ _ _ _ _ El Hl' Hd) as (Hpo & Hma & Hda & Hpl).
    destruct (sp_layout_facts _ _ _ Hl') as (Ha & Hva & _ & Hs).
    pose proof (all_some_payloads_valid _ _ El) as Hv. pose proof (max_align_valid _ Hv) as Hm.
    assert (Hn : N.of_nat (List.length cs) < two32).
    { change (2 ^ 8) with 256 in *; change (2 ^ 16) with 65536 in *; change (2 ^ 24) with 16777216 in *; unfold two32; lia. }
    pose proof (up_to_ge al (payload_offset d ls + max_size ls) (valid_align_nz _ Hva)) as Hge. rewrite <- Hsz in Hge.
    pose proof (up_to_ge (max_align ls) d (valid_align_nz _ Hm)) as Hge2. fold (payload_offset d ls) in Hge2.
    change (store cx (TVariant cs) v p) with (guarded (alignment (TVariant cs)) (size (TVariant cs))
       (store_variant (map (map_case (fun t => mkComp (alignment t) (size t) (store cx t))) cs)) v p).
    eapply touches_guarded; [exact Ha|exact Hva|]. intros Hdv. unfold store_variant. rewrite match_case_map, map_length.
    apply touches_try. intros [i x] Em. rewrite Hdt. apply touches_try. intros dt' E. injection E as <-. cbv zeta. rewrite Hss.
    apply touches_bind; [apply touches_int; [exact Hp|unfold valid_align in Hvd; lia|intros b; apply around_head; lia]|]. intros _.
    rewrite (mca_types cs ls) by exact El. apply touches_try. intros y E. injection E as <-.
    rewrite align_to_up by (apply valid_align_nz; assumption). apply touches_try. intros y E. injection E as <-.
    unfold add32. change two32 with (2 ^ 32). rewrite align_round; [|exact Hm|eapply N.divide_trans; eassumption].
    fold (payload_offset d ls). rewrite nth_error_map. destruct (nth_error cs (N.to_nat i)) as [c|] eqn:Ei; [|apply touches_lift].
    cbn [option_map]. destruct (c_type c) as [t|] eqn:Et; cbn [map_case c_type option_map]; rewrite Et; cbn [option_map q_op]; [|apply touches_ret].
    destruct (payload_layout _ _ _ _ El (nth_error_In _ _ Ei) Et) as ([pa ps] & Hpt & _).
    destruct (Hpl c t pa ps (nth_error_In _ _ Ei) Et Hpt) as (_ & _ & Hin).
    eapply touches_weaken; [intros b; apply (around_sub p sz (payload_offset d ls) ps); lia|].
    rewrite Forall_forall in H. specialize (H c (nth_error_In _ _ Ei)). rewrite Et in H.
    eapply H; [exact Hpt|lia|apply N.mod_lt; discriminate|].
    destruct (match_case_inv _ _ _ _ Hn Em) as (key & Ev & Hsel).
    cbn in Hfit. specialize (Hfit key x (N.to_nat i) (map_case lists_fit c) Ev).
    rewrite map_map in Hfit. specialize (Hfit Hsel). rewrite nth_error_map, Ei in Hfit.
    specialize (Hfit eq_refl). cbn in Hfit. rewrite Et in Hfit. exact Hfit.
  - (* flags *)
    cbn [sp_layout] in Hl.
    destruct (sp_layout_facts (TFlags ls) al sz Hl) as (Ha & Hva & _ & Hs).
    unfold store. eapply touches_guarded; [exact Ha|exact Hva|]. intros _.
    destruct v; try apply touches_lift. unfold store_flags. apply touches_try. intros i _.
    apply touches_try. intros sz' Hsz'. specialize (Hs Hlt). cbn [size] in Hs.
    assert (sz' = sz) by congruence. subst sz'. apply touches_int; auto.
  - (* specialised *)
    rewrite <- sp_layout_despecialize in Hl. apply lists_fit_despecialize in Hfit.
    rewrite <- store_despecialize. eapply IHt; eassumption.
Qed.

Theorem lower_touches own cx t : writes_only own cx -> forall v, lists_fit t v -> touches own (fun _ => False) (lower_flat cx t v).
Proof.
  intros Hw. induction t using valtype_ind'; intros v Hfit; try apply touches_lift.
  - destruct v; try apply touches_lift. cbn [lower_flat lower_string]. apply touches_bind; [now apply touches_string|]. intros []. apply touches_ret.
  - cbn [lower_flat]. unfold lower_flat_list. apply touches_bind; [|intros []; apply touches_ret]. apply touches_list; try assumption. now apply store_touches.
  - destruct v; try apply touches_lift. cbn [lower_flat lower_flat_record]. cbn in Hfit. specialize (Hfit m eq_refl).
    induction fs as [|[l t] fs IH]; [apply touches_ret|]. inversion H as [|? ? H1 H2]; subst. inversion Hfit as [|? ? F1 F2]; subst. cbn [map lower_fields fst snd] in *.
    apply touches_bind; [apply H1; unfold map_any; destruct (map_get m l) eqn:Ef; [now apply F1|apply lists_fit_nil]|]. intros x.
    apply touches_bind; [now apply IH|]. intros y. apply touches_ret.
  - change (touches own (fun _ => False) (lower_flat_variant (flatten_type (TVariant cs)) (map (map_case (lower_flat cx)) cs) v)).
    unfold lower_flat_variant. rewrite match_case_map. apply touches_try. intros [i x] Em. apply touches_try. intros ft Hft.
    assert (Hdt : exists dt, discriminant_type (List.length cs) = Ok dt).
    { cbn [flatten_type] in Hft. unfold flatten_variant in Hft. rewrite map_length in Hft.
      destruct (discriminant_type (List.length cs)) as [dt|e| |]; [eauto|..]; exfalso; clear - Hft; cbn in Hft;
        destruct (fold_left _ _ _); discriminate. }
    destruct Hdt as [dt Hdt]. apply disc_count in Hdt. destruct ft as [|first rest]; [apply touches_lift|]. destruct (negb _); [apply touches_lift|].
    rewrite nth_error_map. destruct (nth_error cs (N.to_nat i)) as [c|] eqn:Ei; [|apply touches_lift]. cbn [option_map].
    apply touches_bind; [|intros pl; apply touches_try; intros; apply touches_ret].
    cbn [map_case c_type]. destruct (c_type c) as [t|] eqn:Et; cbn [option_map]; [|apply touches_ret].
    rewrite Forall_forall in H. specialize (H c (nth_error_In _ _ Ei)). rewrite Et in H. apply H.
    destruct (match_case_inv _ _ _ _ Hdt Em) as (key & Ev & Hsel).
    cbn in Hfit. specialize (Hfit key x (N.to_nat i) (map_case lists_fit c) Ev).
    rewrite map_map in Hfit. specialize (Hfit Hsel). rewrite nth_error_map, Ei in Hfit.
    specialize (Hfit eq_refl). cbn in Hfit. rewrite Et in Hfit. exact Hfit.
  - cbn [lower_flat]. apply touches_bind; [|intros; apply touches_ret]. apply quiet_own.
  - cbn [lower_flat]. apply touches_bind; [|intros; apply touches_ret]. apply quiet_borrow.
  - apply lists_fit_despecialize in Hfit. rewrite <- lower_flat_despecialize. now apply IHt.
Qed.
