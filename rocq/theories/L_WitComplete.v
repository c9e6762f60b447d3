(** The WIT parser over the machine: what the grammar spells is accepted. *)
From Coq Require Import Arith NArith ZArith String Ascii Bool List Lia.
From Verif Require Import GoBase M_Text M_WitLex M_ParseBase M_Strconv M_WitAst M_WitParse S_WitLex S_WitParse
  L_ParseBase L_WitSim L_WitLit L_WitSound.
Import ListNotations.
Open Scope nat_scope.
Open Scope parse_scope.

Section Complete.
Notation mch := (machine EndOfStream).
Variable x0 : text.
Notation e := (Ends x0).

(** On a spelling with at most [n] tokens, followed by tokens that satisfy
    [P], the parser gives what is spelled and leaves what follows. *)
Definition run (P : list tk -> Prop) (n : nat) {A} (G : spelling A) (p : parser (stream toktype) A) : Prop :=
  forall w x rest, G w x -> length w <= n -> P rest -> p (w ++ rest, e) = (Ok x, (rest, e)).
Definition any : list tk -> Prop := fun _ => True.

Lemma exp_tok k s ts : tok s = (k, txt s) -> exp mch k (tok s :: ts, e) = (Ok tt, (ts, e)).
Proof. intros ->. apply (expect_run EndOfStream kind_eqb kind_eqb_spec). Qed.
Lemma ate_tok k s ts : tok s = (k, txt s) -> ate mch k (tok s :: ts, e) = (Ok true, (ts, e)).
Proof. intros ->. apply (eat_run EndOfStream kind_eqb kind_eqb_spec). Qed.
Lemma ate_skip k ts : not_before k ts -> k <> EndOfStream -> ate mch k (ts, e) = (Ok false, (ts, e)).
Proof.
  intros N Hk. destruct ts as [|t ts].
  - unfold ate, M_ParseBase.eat. apply handled_run. eapply plet_run; [reflexivity|]. cbn [fst].
    destruct (kind_eqb_spec EndOfStream k); [congruence | reflexivity].
  - apply (eat_skip EndOfStream kind_eqb kind_eqb_spec). exact N.
Qed.
Lemma run_id w i rest : a_name w i -> parse_id mch (w ++ rest, e) = (Ok i, (rest, e)).
Proof. intros []; reflexivity. Qed.
Lemma run_integer w n rest : a_number w n -> parse_integer mch (w ++ rest, e) = (Ok (Z.of_N n), (rest, e)).
Proof.
  intros [v m H L]. unfold parse_integer. apply handled_run. eapply plet_run; [reflexivity|]. cbn [fst snd].
  rewrite (number_value_read v m H L). reflexivity.
Qed.

Ltac fin := repeat first [rewrite <- app_assoc | progress (cbn [app])]; rewrite ?app_nil_r.
Ltac nb := first [eassumption | exact I | (intros X; discriminate X) | (cbn; intros X; discriminate X) | intuition discriminate ].
Ltac one := match goal with
  | |- handled _ _ = _ => apply handled_run
  | |- pbind (unwrap (exp _ _)) _ _ = _ => eapply plet_run; [apply exp_tok; reflexivity|]
  | |- pbind (unwrap (ate _ _)) _ (tok _ :: _, _) = _ => eapply plet_run; [apply ate_tok; reflexivity|]; cbv iota
  | |- pbind (unwrap (parse_id _)) _ _ = _ => eapply plet_run; [apply run_id; eassumption|]
  | |- pbind (unwrap (pret _)) _ _ = _ => eapply plet_run; [reflexivity|]
  | |- pret _ _ = _ => reflexivity
  end.
Ltac kind := repeat match goal with
  | |- context [fst (tok ?s)] => let k := eval vm_compute in (fst (tok s)) in change (fst (tok s)) with k
  end; cbn [fst]; cbv iota.
Ltac skip := eapply plet_run; [apply ate_skip; [try nb | try discriminate; try assumption]|]; cbv iota.
(** x := p.Unwrap() by the lemma L *)
Tactic Notation "call" uconstr(L) := eapply plet_run; [eapply L; try eassumption; try nb|].

Lemma run_version w v rest : a_version w v -> parse_version mch (w ++ rest, e) = (Ok v, (rest, e)).
Proof.
  intros [w1 a w2 b w3 c Ha Hb Hc]. fin. unfold parse_version. one.
  call run_integer. one. call run_integer. one. call run_integer.
  rewrite (uint64_small _ _ Ha), (uint64_small _ _ Hb), (uint64_small _ _ Hc). reflexivity.
Qed.
Lemma run_package w p rest : a_package (tok "package" :: w) p -> parse_package mch (w ++ rest, e) = (Ok p, (rest, e)).
Proof.
  intros H. inversion H as [ns wn n wv v Hn Hv E]; subst. unfold parse_package. fin. one.
  eapply plet_run; [reflexivity|]. one. one. destruct Hv as [|wv v Hv].
  - skip. repeat one.
  - fin. one. eapply plet_run; [call run_version; one|]. repeat one.
Qed.

Lemma run_use_path n : run (not_before Colon) n a_use_path (parse_use_path mch).
Proof.
  intros w x rest [wi i Hi] _ N. unfold parse_use_path. one. one. skip. one.
Qed.
Lemma run_use_name n : run (not_before KAs) n a_use_name (parse_use_name mch).
Proof.
  intros w x rest [wi i wa a Hi Ha] _ N. fin. unfold parse_use_name. one. destruct Ha as [|wa a Ha].
  - skip. one.
  - fin. repeat one.
Qed.

(** Lists with commas. The items can be followed by a comma or by the end. *)
Lemma run_items {A} (G : spelling A) P k s p N m : tok s = (k, txt s) -> k <> EndOfStream -> k <> Comma ->
  run P N G p -> (forall x, ~ G [] x) -> (forall r, P (tok "," :: r)) -> (forall r, P (tok s :: r)) ->
  forall w xs rest, commas G k w xs -> length w <= N -> length w < m ->
  items_loop mch m k p (w ++ tok s :: rest, e) = (Ok xs, (rest, e)).
Proof.
  intros Ht Hk Hc Hp Hne P1 P2 w xs rest H. revert m. induction H as [|w x Gx Nx|w ws x xs Gx Nx H IH]; intros m HN Hm;
    (destruct m as [|m]; [lia|]); cbn [items_loop].
  - eapply plet_run; [apply ate_tok, Ht|]. reflexivity.
  - assert (not_before k (w ++ tok s :: rest)) by (destruct w; [destruct (Hne _ Gx) | exact Nx]).
    skip. eapply plet_run; [apply Hp; [exact Gx | exact HN | apply P2]|]. skip.
    { rewrite Ht. cbn. exact Hc. }
    eapply plet_run; [apply exp_tok, Ht|]. reflexivity.
  - rewrite app_length in *. cbn [length] in *. fin.
    assert (not_before k (w ++ tok "," :: ws ++ tok s :: rest)) by (destruct w; [destruct (Hne _ Gx) | exact Nx]).
    skip. eapply plet_run; [apply Hp; [exact Gx | lia | apply P1]|]. one.
    eapply plet_run; [apply IH; lia|]. reflexivity.
Qed.
Lemma run_item_list {A} (G : spelling A) P b sb k s p N : tok sb = (b, txt sb) -> tok s = (k, txt s) ->
  k <> EndOfStream -> k <> Comma ->
  run P N G p -> (forall x, ~ G [] x) -> (forall r, P (tok "," :: r)) -> (forall r, P (tok s :: r)) ->
  forall w xs rest, commas G k w xs -> length w < N ->
  parse_item_list mch N b k p (tok sb :: w ++ tok s :: rest, e) = (Ok xs, (rest, e)).
Proof.
  intros Hb Ht Hk Hc Hp Hne P1 P2 w xs rest H HN. unfold parse_item_list. one.
  eapply plet_run; [apply exp_tok, Hb|]. eapply run_items; eauto; lia.
Qed.

(** *** Types *)
Definition type_end (r : list tk) : Prop := not_before Less r.

Section Types.
Variable pt : parser (stream toktype) wtype.
Variable N : nat.
Hypothesis Hpt : run type_end N a_type pt.

Ltac ty := eapply plet_run; [apply Hpt; [eassumption | try lia | try nb]|].

Lemma run_two w a b rest : two_types a_type w a b -> length w <= N -> (w = [] -> type_end rest) ->
  parse_two mch pt (w ++ rest, e) = (Ok (a, b), (rest, e)).
Proof.
  intros H HN T. unfold parse_two. destruct H as [|w t Ht Nt|w t Ht|w t w' t' Ht Nt Ht'];
    repeat (rewrite app_length in HN || cbn [length] in HN); fin.
  - specialize (T eq_refl). skip. one.
  - one. skip; [destruct w; [destruct (type_nonempty _ Ht) | exact Nt]|].
    eapply plet_run; [ty; skip; one|]. repeat one.
  - one. one. eapply plet_run; [one; ty; one|]. repeat one.
  - one. skip; [destruct w; [destruct (type_nonempty _ Ht) | exact Nt]|].
    eapply plet_run; [ty; one; ty; one|]. repeat one.
Qed.

Lemma two_bare w a b : two_types a_type w a b -> w = [] -> a = None /\ b = None.
Proof. intros [] E; try discriminate E. auto. Qed.
Lemma run_any_body w x rest : a_type w x -> length w <= S N -> (bare x -> type_end rest) ->
  type_body mch pt N (w ++ rest, e) = (Ok x, (rest, e)).
Proof.
  intros H HN T. unfold type_body. one.
  destruct H; repeat (rewrite app_length in HN || cbn [length] in HN); fin;
    (eapply plet_run; [reflexivity|]); kind.
  - reflexivity.
  - reflexivity.
  - reflexivity.
  - reflexivity.
  - eapply plet_run; [unfold parse_stream; one; eapply plet_run; [apply run_two; [eassumption | lia | intros E; apply T; match goal with H : two_types _ _ _ _ |- _ => destruct (two_bare _ _ _ H E) as [-> ->] end; unfold bare; tauto] | reflexivity]|]. one.
  - eapply plet_run; [unfold parse_result; one; eapply plet_run; [apply run_two; [eassumption | lia | intros E; apply T; match goal with H : two_types _ _ _ _ |- _ => destruct (two_bare _ _ _ H E) as [-> ->] end; unfold bare; tauto] | reflexivity]|]. one.
  - eapply plet_run; [unfold parse_future; one; specialize (T ltac:(unfold bare; tauto)); skip; one|]. one.
  - eapply plet_run; [unfold parse_future; one; one; ty; repeat one|]. one.
  - eapply plet_run; [unfold parse_list; one; one; ty; repeat one|]. one.
  - eapply plet_run; [unfold parse_option; one; one; ty; repeat one|]. one.
  - eapply plet_run; [unfold parse_tuple; one|one].
    eapply plet_run; [|one]. eapply (run_item_list a_type type_end Less "<" Greater ">"); try reflexivity; try discriminate;
      [exact Hpt | exact type_nonempty | eassumption | lia].
  - repeat one.
  - repeat one.
  - cbn [fst snd] in *. destruct k; try reflexivity; destruct H; cbn; tauto.
Qed.
Lemma run_body : run type_end (S N) a_type (type_body mch pt N).
Proof. intros w x rest H HN T. apply run_any_body; auto. Qed.
End Types.

Lemma run_type N : run type_end N a_type (parse_type mch N).
Proof.
  induction N as [|N IH].
  - intros w x rest H HN. destruct w; [destruct (type_nonempty _ H) | cbn in HN; lia].
  - cbn [parse_type]. apply run_body, IH.
Qed.
Lemma run_any_type N w x rest : a_type w x -> length w <= N -> (bare x -> type_end rest) ->
  parse_type mch N (w ++ rest, e) = (Ok x, (rest, e)).
Proof.
  intros H HN T. destruct N as [|N].
  - destruct w; [destruct (type_nonempty _ H) | cbn in HN; lia].
  - cbn [parse_type]. apply run_any_body; [apply run_type | exact H | exact HN | exact T].
Qed.

(** *** Uses *)
Ltac len H := repeat (rewrite app_length in H || cbn [length] in H).

Lemma use_name_nonempty x : ~ a_use_name [] x.
Proof. intros H. inversion H as [w i wa a Hi Ha E]. apply id_first in Hi. destruct Hi as (t & -> & _). discriminate. Qed.
Lemma run_use N : run any N a_use (parse_use mch N).
Proof.
  intros w x rest [wp p wn ns Hp Hn] HN _. len HN. fin. unfold parse_use. one. one.
  eapply plet_run; [apply (run_use_path N); [eassumption | lia | nb]|]. one.
  eapply plet_run; [eapply (run_item_list a_use_name (not_before KAs) OpenBrace "{" CloseBrace "}");
    try reflexivity; try discriminate; [apply run_use_name | exact use_name_nonempty | eassumption | lia]|].
  repeat one.
Qed.

(** *** Functions *)
Lemma run_parameter N : run type_end N a_parameter (parse_parameter mch N).
Proof.
  intros w x rest [wi i wt t Hi Ht] HN T. len HN. fin. unfold parse_parameter. repeat one.
  eapply plet_run; [apply run_type; [eassumption | lia | exact T]|]. one.
Qed.
Lemma parameter_first w x r : a_parameter w x -> not_before CloseParen (w ++ r).
Proof.
  intros [wi i wt t Hi Ht]. destruct (id_first _ _ Hi) as (u & -> & [Hu|Hu]); cbn; rewrite Hu; discriminate.
Qed.
Lemma run_parameters_loop N m w xs rest : commas a_parameter CloseParen w xs -> length w <= N -> length w < m ->
  parameters_loop mch m (parse_parameter mch N) (w ++ tok ")" :: rest, e) = (Ok xs, (rest, e)).
Proof.
  intros H. revert m. induction H as [|w x Gx Nx|w ws x xs Gx Nx H IH]; intros m HN Hm;
    (destruct m as [|m]; [lia|]); cbn [parameters_loop].
  - cbn [app]. repeat one.
  - skip; [eapply parameter_first; eassumption|].
    eapply plet_run; [apply run_parameter; [exact Gx | exact HN | nb]|].
    eapply plet_run; [reflexivity|]. kind. repeat one.
  - len HN. len Hm. fin. skip; [eapply parameter_first; eassumption|].
    eapply plet_run; [apply run_parameter; [exact Gx | lia | nb]|].
    eapply plet_run; [reflexivity|]. kind. one.
    eapply plet_run; [apply IH; lia|]. one.
Qed.
Lemma run_parameters N : run any N a_parameters (parse_parameters mch N).
Proof.
  intros w x rest [w' ps H] HN _. len HN. fin. unfold parse_parameters. one. apply run_parameters_loop; [assumption | lia | lia].
Qed.
Definition func_end (r : list tk) : Prop := not_before RightArrow r /\ not_before Less r.
Lemma run_func N : run func_end N a_func (parse_func mch N).
Proof.
  intros w x rest [wp ps wr rs Hp Hr] HN [T1 T2]. len HN. fin. unfold parse_func. one. one.
  eapply plet_run; [apply run_parameters; [eassumption | lia | exact I]|].
  destruct Hr as [|wr ps' Hr|wr t Ht Nt]; fin.
  - skip. repeat one.
  - len HN. one. destruct Hr as [wr ps' Hr]. eapply plet_run.
    + eapply plet_run; [reflexivity|]. kind. change (kind_eqb (fst (tok "(")) OpenParen) with true. kind.
      eapply plet_run; [apply (run_parameters N (tok "(" :: wr ++ [tok ")"]) ps'); [constructor; exact Hr | lia | exact I]|]. one.
    + one.
  - len HN. one. destruct wr as [|u wr]; [destruct (type_nonempty _ Ht)|]. eapply plet_run.
    + eapply plet_run; [reflexivity|]. cbn in Nt. destruct (kind_eqb_spec (fst u) OpenParen); [congruence|].
      eapply plet_run; [apply (run_type N (u :: wr) t); [exact Ht | lia | exact T2]|]. one.
    + one.
Qed.
Lemma semicolon_func_end r : func_end (tok ";" :: r).
Proof. split; nb. Qed.
Lemma run_func_item N : run any N a_func_item (parse_func_item mch N).
Proof.
  intros w x rest [wi i wf f Hi Hf] HN _. len HN. fin. unfold parse_func_item. repeat one.
  eapply plet_run; [apply run_func; [eassumption | lia | apply semicolon_func_end]|]. repeat one.
Qed.

(** *** Type definitions *)
Lemma trial_run {L A} (p : parser L (option A)) l a l' : p l = (Ok (Some a), l') -> trial p l = (Ok (Some a), l').
Proof. unfold trial. intros ->. reflexivity. Qed.
Lemma trial_none {L A} (p : parser L (option A)) l l' : p l = (Ok None, l') -> trial p l = (Ok None, l).
Proof. unfold trial. intros ->. reflexivity. Qed.
Lemma id_not k w i r : a_name w i -> k <> Id -> k <> ExplicitId -> not_before k (w ++ r).
Proof. intros [] ? ?; cbn; congruence. Qed.
Ltac idn := eapply id_not; [eassumption | discriminate | discriminate].
Lemma func_first w f r : a_func w f -> exists w', w ++ r = tok "func" :: w'.
Proof. intros []. eexists. fin. reflexivity. Qed.
Lemma run_method N : run any N a_method (parse_method mch N).
Proof.
  intros w x rest H HN _. unfold parse_method. destruct H as [w ps Hp|wi i wf f Hi Hf|w f Hf]; len HN; fin.
  - one. eapply plet_run; [apply run_parameters; [eassumption | lia | exact I]|]. repeat one.
  - skip; [idn|]. eapply plet_run; [apply trial_run; repeat one|].
    eapply plet_run; [apply run_func; [eassumption | lia | apply semicolon_func_end]|]. repeat one.
  - assert (not_before KConstructor (w ++ rest)).
    { destruct Hf as [wi i wf f Hi Hf]. fin. idn. }
    skip. apply plet_run with (a := None) (l1 := (w ++ rest, e)).
    + unfold at_static. pose proof Hf as Hf'. destruct Hf' as [wi i wf f Hi Hf']. fin.
      destruct (func_first _ _ (tok ";" :: rest) Hf') as (w' & ->). eapply trial_none. repeat one. skip. reflexivity.
    + kind. eapply plet_run; [apply run_func_item; [eassumption | lia | exact I]|]. one.
Qed.
Lemma method_first w x r : a_method w x -> exists t w', w ++ r = t :: w' /\ fst t <> CloseBrace.
Proof.
  intros H. assert (Y : forall w i r, a_name w i -> exists t w', w ++ r = t :: w' /\ fst t <> CloseBrace).
  { intros w0 i r0 []; do 2 eexists; (split; [reflexivity | discriminate]). }
  destruct H as [w ps Hp|wi i wf f Hi Hf|w f Hf]; fin.
  - do 2 eexists. split; [reflexivity | discriminate].
  - eapply Y, Hi.
  - destruct Hf as [wi i wf f Hi Hf]. fin. eapply Y, Hi.
Qed.
Lemma method_length w x : a_method w x -> 0 < length w.
Proof. intros H. destruct (method_first w x [] H) as (t & w' & E & _). rewrite app_nil_r in E. rewrite E. cbn. lia. Qed.
Lemma run_methods N m w ms rest : many a_method w ms -> length w <= N -> length w < m ->
  methods_loop mch m (parse_method mch N) (w ++ tok "}" :: rest, e) = (Ok ms, (rest, e)).
Proof.
  intros H. revert m. induction H as [|w ws x xs Gx H IH]; intros m HN Hm; (destruct m as [|m]; [lia|]); cbn [methods_loop].
  - eapply plet_run; [reflexivity|]. change (kind_eqb (fst (tok "}")) CloseBrace) with true. kind. repeat one.
  - len HN. len Hm. fin. pose proof (method_length _ _ Gx).
    destruct (method_first _ _ (ws ++ tok "}" :: rest) Gx) as (t & w' & E & Nt).
    eapply plet_run; [rewrite E; reflexivity|]. destruct (kind_eqb_spec (fst t) CloseBrace); [congruence|]. rewrite <- E.
    eapply plet_run; [apply run_method; [exact Gx | lia | exact I]|].
    eapply plet_run; [apply IH; lia|]. one.
Qed.

(** A resource without semicolon must not be followed by one. *)
Definition item_end (r : list tk) : Prop := not_before Semicolon r /\ not_before OpenBrace r.
Lemma run_resource N : run item_end N a_resource (parse_resource mch N).
Proof.
  intros w x rest H HN [T1 T2]. unfold parse_resource. destruct H as [wi i Hi|wi i Hi|wi i wm ms Hi Hm]; len HN; fin.
  - repeat one. destruct rest as [|u rest].
    + eapply plet_run; [reflexivity|]. kind. repeat one.
    + eapply plet_run; [reflexivity|]. cbn in T1, T2. eapply plet_run; [|one]. destruct (fst u); congruence || reflexivity.
  - repeat one. eapply plet_run; [reflexivity|]. eapply plet_run; [kind; repeat one|]. one.
  - repeat one. eapply plet_run; [reflexivity|]. eapply plet_run; [kind|one].
    one. apply run_methods; [eassumption | lia | lia].
Qed.
Lemma run_field N : run type_end N a_field (parse_field mch N).
Proof.
  intros w x rest [wi i wt t Hi Ht] HN T. len HN. fin. unfold parse_field. repeat one.
  eapply plet_run; [apply run_type; [eassumption | lia | exact T]|]. one.
Qed.
Lemma run_case N : run (not_before OpenParen) N a_case (parse_case mch N).
Proof.
  intros w x rest [wi i Hi|wi i wt t Hi Ht] HN T; len HN; fin; unfold parse_case; repeat one.
  - skip. one.
  - eapply plet_run; [apply run_type; [eassumption | lia | nb]|]. repeat one.
Qed.
Lemma run_braced k kw {A} (G : spelling A) p P (f : text -> list A -> iitem) N : tok kw = (k, txt kw) ->
  run P N G p -> (forall x, ~ G [] x) -> (forall r, P (tok "," :: r)) -> (forall r, P (tok "}" :: r)) ->
  run any N (braced kw G f)
    (handled (exp mch k ;;> plet id := parse_id mch in
      plet xs := parse_item_list mch N OpenBrace CloseBrace p in pret (f id xs))).
Proof.
  intros Ht Hp Hne P1 P2 w x rest [wi i w' xs Hi Hx] HN _. len HN. fin. one.
  eapply plet_run; [apply exp_tok, Ht|]. one.
  eapply plet_run; [eapply (run_item_list G P OpenBrace "{" CloseBrace "}"); try reflexivity; try discriminate; eauto; lia|]. one.
Qed.
Lemma run_name_item P N : run P N a_name (plet id := parse_id mch in pret id).
Proof. intros w x rest H _ _. repeat one. Qed.
Lemma run_record N : run any N a_record (parse_record mch N).
Proof.
  apply (run_braced KRecord "record" a_field _ type_end IRecord N eq_refl (run_field N)); [|intros r; nb|intros r; nb].
  intros x H. inversion H as [wi i wt t Hi Ht E]. destruct (id_first _ _ Hi) as (u & -> & _). discriminate.
Qed.
Lemma run_flags N : run any N a_flags (parse_flags mch N).
Proof.
  apply (run_braced KFlags "flags" a_name _ any IFlags N eq_refl (run_name_item _ _)); [exact name_nonempty|intros r; nb|intros r; nb].
Qed.
Lemma run_variant N : run any N a_variant (parse_variant mch N).
Proof.
  apply (run_braced KVariant "variant" a_case _ (not_before OpenParen) IVariant N eq_refl (run_case N)); [|intros r; nb|intros r; nb].
  intros x H. inversion H as [wi i Hi E|wi i wt t Hi Ht E]; destruct (id_first _ _ Hi) as (u & Eu & _); subst; discriminate.
Qed.
Lemma run_enum N : run any N an_enum (parse_enum mch N).
Proof.
  apply (run_braced KEnum "enum" a_name _ any IEnum N eq_refl); [|exact name_nonempty|intros r; nb|intros r; nb].
  intros w x rest H _ _. unfold parse_enum_case. repeat one.
Qed.
Lemma run_type_item N : run any N a_type_item (parse_type_item mch N).
Proof.
  intros w x rest [wi i wt t Hi Ht] HN T. len HN. fin. unfold parse_type_item. repeat one.
  eapply plet_run; [apply run_type; [eassumption | lia | nb]|]. repeat one.
Qed.
Lemma run_type_def N : run any N a_type_item (parse_type_def mch N).
Proof.
  intros w x rest H HN T. unfold parse_type_def. one. pose proof H as H'. destruct H'.
  eapply plet_run; [reflexivity|]. kind. eapply plet_run; [apply run_type_item; eassumption|]. one.
Qed.

(** *** Interfaces *)
Lemma run_interface_item N : run item_end N an_interface_item (parse_interface_item mch N).
Proof.
  intros w x rest H HN T. unfold parse_interface_item. one. destruct H as [w u H|w i H|w i H|w i H|w i H|w i H|w i H|w f H].
  - pose proof H as H'. destruct H'. eapply plet_run; [reflexivity|]. kind.
    eapply plet_run; [apply run_use; [exact H | exact HN | exact I]|]. one.
  - pose proof H as H'. destruct H'; (eapply plet_run; [reflexivity|]); kind;
    (eapply plet_run; [apply run_resource; [exact H | exact HN | exact T]|]); one.
  - pose proof H as H'. destruct H'. eapply plet_run; [reflexivity|]. kind.
    eapply plet_run; [apply run_record; [exact H | exact HN | exact I]|]. one.
  - pose proof H as H'. destruct H'. eapply plet_run; [reflexivity|]. kind.
    eapply plet_run; [apply run_flags; [exact H | exact HN | exact I]|]. one.
  - pose proof H as H'. destruct H'. eapply plet_run; [reflexivity|]. kind.
    eapply plet_run; [apply run_variant; [exact H | exact HN | exact I]|]. one.
  - pose proof H as H'. destruct H'. eapply plet_run; [reflexivity|]. kind.
    eapply plet_run; [apply run_enum; [exact H | exact HN | exact I]|]. one.
  - pose proof H as H'. destruct H'. eapply plet_run; [reflexivity|]. kind.
    eapply plet_run; [apply run_type_def; [exact H | exact HN | exact I]|]. one.
  - pose proof H as H'. destruct H' as [wi i wf f Hi Hf]. pose proof Hi as Hi'. destruct Hi'; (eapply plet_run; [reflexivity|]); kind;
    (eapply plet_run; [apply run_func_item; [exact H | exact HN | exact I]|]); one.
Qed.
Lemma run_until {A} (G : spelling A) P p N m k s w xs rest : tok s = (k, txt s) -> k <> EndOfStream ->
  run P N G p -> (forall w x, G w x -> 0 < length w /\ not_before k w /\ forall r, P (w ++ r)) -> P (tok s :: rest) ->
  many G w xs -> length w <= N -> length w < m ->
  until_eat mch m k p (w ++ tok s :: rest, e) = (Ok xs, (rest, e)).
Proof.
  intros Ht Hk Hp HG P0 H. revert m.
  assert (PP : forall w xs, many G w xs -> P (w ++ tok s :: rest)).
  { intros w0 xs0 [|w1 ws x1 xs1 G1 _]; [exact P0|]. rewrite <- app_assoc. apply (HG _ _ G1). }
  induction H as [|w ws x xs Gx H IH]; intros m HN Hm; (destruct m as [|m]; [lia|]); cbn [until_eat].
  - eapply plet_run; [apply ate_tok, Ht|]. reflexivity.
  - len HN. len Hm. fin. destruct (HG _ _ Gx) as (L & Nk & _).
    assert (not_before k (w ++ ws ++ tok s :: rest)) by (destruct w; [cbn in L; lia | exact Nk]).
    skip. eapply plet_run; [apply Hp; [exact Gx | lia | apply (PP _ _ H)]|].
    eapply plet_run; [apply IH; lia|]. one.
Qed.
Lemma interface_item_first w x : an_interface_item w x -> 0 < length w /\ not_before CloseBrace w /\ forall r, item_end (w ++ r).
Proof.
  assert (K : forall t w, fst t <> CloseBrace -> fst t <> Semicolon -> fst t <> OpenBrace ->
    0 < length (t :: w) /\ not_before CloseBrace (t :: w) /\ forall r, item_end ((t :: w) ++ r)).
  { intros t w0 H1 H2 H3. cbn. repeat split; auto; lia. }
  intros H. destruct H as [w u H|w i H|w i H|w i H|w i H|w i H|w i H|w f H]; destruct H;
    try (apply K; discriminate).
  destruct H; (apply K; discriminate).
Qed.
Lemma run_interface_items N : run any N interface_body (parse_interface_items mch N).
Proof.
  intros w x rest [w' is H] HN T. len HN. fin. unfold parse_interface_items. one. one.
  apply (run_until an_interface_item item_end _ N N CloseBrace "}"); try reflexivity; try discriminate; try lia; try assumption.
  - apply run_interface_item.
  - apply interface_item_first.
  - split; nb.
Qed.

(** *** Worlds *)
Lemma run_extern N : run any N an_extern (parse_extern mch N).
Proof.
  intros w x rest H HN T. unfold parse_extern. one.
  destruct H as [wi i wf f Hi Hf|wi i wb is Hi Hb|w p Hp]; len HN; fin.
  - destruct (func_first _ _ (tok ";" :: rest) Hf) as (w' & E).
    eapply plet_run.
    + unfold at_extern. apply trial_run. one. one. eapply plet_run; [rewrite E; reflexivity|]. kind. rewrite <- E. reflexivity.
    + kind. eapply plet_run; [apply run_func; [eassumption | lia | apply semicolon_func_end]|]. repeat one.
  - eapply plet_run.
    + unfold at_extern. apply trial_run. one. one. eapply plet_run; [reflexivity|]. reflexivity.
    + kind. one. eapply plet_run; [apply run_interface_items; [eassumption | lia | exact I]|]. one.
  - apply plet_run with (a := None) (l1 := (w ++ tok ";" :: rest, e)).
    + unfold at_extern. destruct Hp as [w i Hi]. eapply trial_none. one. skip. reflexivity.
    + kind. eapply plet_run; [apply (run_use_path N); [eassumption | lia | nb]|]. repeat one.
Qed.
Lemma run_include_name N : run any N an_include_name (parse_include_name mch).
Proof. intros w x rest [wi i wa a Hi Ha] _ _. fin. unfold parse_include_name. repeat one. Qed.
Lemma include_name_first w x : an_include_name w x -> 0 < length w /\ not_before CloseBrace w /\ forall r, any (w ++ r).
Proof. intros [wi i wa a Hi Ha]. destruct Hi; cbn; repeat split; try lia; discriminate. Qed.
Lemma run_world_item N : run item_end N a_world_item (parse_world_item mch N).
Proof.
  intros w x rest H HN T. unfold parse_world_item. one.
  destruct H as [w f H|w f H|w p H|w p wn ns H Hn|w u H|w i H|w i H|w i H|w i H].
  - fin. eapply plet_run; [reflexivity|]. kind. len HN. eapply plet_run; [unfold parse_export; one; one|one].
    eapply plet_run; [apply run_extern; [eassumption | lia | exact I]|]. one.
  - fin. eapply plet_run; [reflexivity|]. kind. len HN. eapply plet_run; [unfold parse_import; one; one|one].
    eapply plet_run; [apply run_extern; [eassumption | lia | exact I]|]. one.
  - fin. eapply plet_run; [reflexivity|]. kind. len HN. eapply plet_run; [unfold parse_include; one; one|one].
    eapply plet_run; [apply (run_use_path N); [eassumption | lia | nb]|]. skip. eapply plet_run; [repeat one|]. one.
  - fin. eapply plet_run; [reflexivity|]. kind. len HN. eapply plet_run; [unfold parse_include; one; one|one].
    eapply plet_run; [apply (run_use_path N); [eassumption | lia | nb]|]. one. eapply plet_run; [one|one].
    apply (run_until an_include_name any _ N N CloseBrace "}"); try reflexivity; try discriminate; try lia; try assumption.
    + apply run_include_name.
    + apply include_name_first.
  - pose proof H as H'. destruct H'. eapply plet_run; [reflexivity|]. kind.
    eapply plet_run; [apply run_use; [exact H | exact HN | exact I]|]. one.
  - pose proof H as H'. destruct H'. eapply plet_run; [reflexivity|]. kind.
    eapply plet_run; [apply run_type_def; [exact H | exact HN | exact I]|]. one.
  - pose proof H as H'. destruct H'. eapply plet_run; [reflexivity|]. kind.
    eapply plet_run; [apply run_record; [exact H | exact HN | exact I]|]. one.
  - pose proof H as H'. destruct H'. eapply plet_run; [reflexivity|]. kind.
    eapply plet_run; [apply run_variant; [exact H | exact HN | exact I]|]. one.
  - pose proof H as H'. destruct H'; (eapply plet_run; [reflexivity|]); kind;
    (eapply plet_run; [apply run_resource; [exact H | exact HN | exact T]|]); one.
Qed.
Lemma world_item_first w x : a_world_item w x -> 0 < length w /\ not_before CloseBrace w /\ forall r, item_end (w ++ r).
Proof.
  assert (K : forall t w, fst t <> CloseBrace -> fst t <> Semicolon -> fst t <> OpenBrace ->
    0 < length (t :: w) /\ not_before CloseBrace (t :: w) /\ forall r, item_end ((t :: w) ++ r)).
  { intros t w0 H1 H2 H3. cbn. repeat split; auto; lia. }
  intros H. destruct H as [w f H|w f H|w p H|w p wn ns H Hn|w u H|w i H|w i H|w i H|w i H];
    try (apply K; discriminate); destruct H; (apply K; discriminate).
Qed.

(** *** Files *)
Lemma run_world N wi i w its rest : a_name wi i -> many a_world_item w its -> length w < N ->
  parse_world mch N (wi ++ tok "{" :: w ++ tok "}" :: rest, e) = (Ok {| wo_id := i; wo_items := its |}, (rest, e)).
Proof.
  intros Hi H HN. unfold parse_world. repeat one. eapply plet_run; [unfold parse_world_items; one|one].
  apply (run_until a_world_item item_end _ N N CloseBrace "}"); try reflexivity; try discriminate; try lia; try assumption.
  - apply run_world_item.
  - apply world_item_first.
  - split; nb.
Qed.
Lemma run_top_use wp p wa a rest : a_use_path wp p -> opt_as wa a -> not_before Colon (wa ++ rest) ->
  (a = None -> not_before KAs rest) ->
  parse_top_use mch (wp ++ wa ++ rest, e) = (Ok {| tu_item := p; tu_as := a |}, (rest, e)).
Proof.
  intros Hp Ha N1 N2. unfold parse_top_use. one.
  eapply plet_run; [apply (run_use_path (length wp)); [eassumption | lia | exact N1]|].
  destruct Ha as [|wa a Ha]; fin.
  - skip. repeat one.
  - one. eapply plet_run; [repeat one|]. one.
Qed.

Lemma name_length w i : a_name w i -> length w = 1.
Proof. intros []; reflexivity. Qed.
Lemma run_start N fuel (ts : list tk) is : Forall (fun t => fst t <> EndOfStream) ts -> file_items ts is -> length ts < fuel -> length ts <= N ->
  exists t s, nxt mch (ts, e) = (Ok t, s) /\ ast_loop mch fuel N (fst t) s = (Ok is, ([], Ends [])).
Proof.
  intros V H. revert fuel. induction H as [|wp p wa a ws is Hp Ha H IH N1 N2|wi i w its ws is Hi Hw H IH|wi i wb its ws is Hi Hb H IH|k v ws is Hk H IH];
    intros fuel Hf HN; (destruct fuel as [|fuel]; [lia|]).
  - exists (EndOfStream, x0), ([], Ends []). split; reflexivity.
  - len Hf. len HN. inversion V as [|? ? _ V1]; subst. rewrite !Forall_app in V1. destruct V1 as (_ & _ & V1).
    destruct (IH V1 fuel ltac:(lia) ltac:(lia)) as (t & s & E1 & E2).
    do 2 eexists. split; [reflexivity|]. change (fst (tok "use")) with KUse. cbn [ast_loop].
    change (kind_eqb KUse EndOfStream) with false. cbv iota. eapply plet_run.
    + cbn [ast_item_after]. eapply plet_run; [apply run_top_use; eassumption|]. one.
    + eapply plet_run; [exact E1|]. eapply plet_run; [exact E2|]. one.
  - len Hf. len HN. inversion V as [|? ? _ V1]; subst. rewrite !Forall_app in V1. destruct V1 as (_ & V1).
    inversion V1 as [|? ? _ V2]; subst. rewrite !Forall_app in V2. destruct V2 as (_ & V2). inversion V2; subst.
    destruct (IH ltac:(assumption) fuel ltac:(lia) ltac:(lia)) as (t & s & E1 & E2).
    do 2 eexists. split; [reflexivity|]. change (fst (tok "world")) with KWorld. cbn [ast_loop].
    change (kind_eqb KWorld EndOfStream) with false. cbv iota. eapply plet_run.
    + cbn [ast_item_after]. eapply plet_run; [apply run_world; [eassumption | eassumption | lia]|]. one.
    + eapply plet_run; [exact E1|]. eapply plet_run; [exact E2|]. one.
  - len Hf. len HN. inversion V as [|? ? _ V1]; subst. rewrite !Forall_app in V1. destruct V1 as (_ & _ & V1).
    destruct (IH V1 fuel ltac:(lia) ltac:(lia)) as (t & s & E1 & E2).
    do 2 eexists. split; [reflexivity|]. change (fst (tok "interface")) with KInterface. cbn [ast_loop].
    change (kind_eqb KInterface EndOfStream) with false. cbv iota. eapply plet_run.
    + cbn [ast_item_after]. eapply plet_run; [unfold parse_interface; one; one|one].
      eapply plet_run; [apply run_interface_items; [eassumption | lia | exact I]|]. one.
    + eapply plet_run; [exact E1|]. eapply plet_run; [exact E2|]. one.
  - len Hf. len HN. inversion V as [|? ? Vk V1]; subst. cbn [fst] in Vk.
    destruct (IH V1 fuel ltac:(lia) ltac:(lia)) as (t & s & E1 & E2).
    do 2 eexists. split; [reflexivity|]. cbn [fst ast_loop].
    destruct (kind_eqb_spec k EndOfStream); [congruence|].
    assert (ast_item_after mch N k = pret ANothing) as -> by (destruct k; try reflexivity; destruct Hk; cbn; tauto).
    one. eapply plet_run; [exact E1|]. eapply plet_run; [exact E2|]. one.
Qed.

Theorem run_ast N (ts : list tk) a : Forall (fun t => fst t <> EndOfStream) ts -> a_file ts a -> length ts < N ->
  parse_ast mch N (ts, e) = (Ok a, ([], Ends [])).
Proof.
  intros V H HN. unfold parse_ast. one. destruct H as [w is H Np|wp p w is Hp H].
  - destruct (run_start N N w is V H ltac:(lia) ltac:(lia)) as (t & s & E1 & E2).
    eapply plet_run; [exact E1|]. destruct (kind_eqb_spec (fst t) KPackage) as [Et|Nt].
    + exfalso. destruct w as [|t' w]; cbn in E1; injection E1 as <- <-; [discriminate | exact (Np Et)].
    + eapply plet_run; [exact E2|]. one.
  - rewrite Forall_app in V. destruct V as [_ V]. len HN. pose proof Hp as Hp'. destruct Hp'. fin.
    eapply plet_run; [reflexivity|]. change (kind_eqb (fst (tok "package")) KPackage) with true. cbv iota.
    destruct (run_start N N w is V H ltac:(lia) ltac:(lia)) as (t & s & E1 & E2).
    eapply plet_run; [exact (run_package (ns :: tok ":" :: wn ++ wv ++ [tok ";"]) _ w Hp)|] ||
    (eapply plet_run; [pose proof (run_package (ns :: tok ":" :: wn ++ wv ++ [tok ";"]) _ w Hp) as Q;
      cbn [app] in Q; rewrite <- !app_assoc in Q; exact Q|]).
    eapply plet_run; [exact E1|]. eapply plet_run; [exact E2|]. one.
Qed.
End Complete.
