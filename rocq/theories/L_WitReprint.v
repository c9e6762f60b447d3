(** What was parsed can be written down by the printer of S_WitPrint. *)
From Coq Require Import Arith NArith ZArith Decimal String Ascii Bool List Lia.
From Verif Require Import GoBase M_Text S_Utf M_WitLex S_WitLex L_WitLex L_WitToks L_WitHist P_WitLex.
From Verif Require Import M_WitAst S_WitParse S_WitPrint L_WitSound L_WitPrint.
Import ListNotations.
Open Scope nat_scope.
Local Notation app := Datatypes.app.

Lemma name_texts w i : a_name w i -> map snd w = [i] /\ exists k, hd_error w = Some (k, i) /\ (k = Id \/ k = ExplicitId).
Proof. intros []; cbn; eauto. Qed.
Lemma print_name_text i : snd (print_name i) = i.
Proof. unfold print_name. destruct i as [|[[] [] [] [] [] [] [] []] i]; reflexivity. Qed.
Lemma print_type_name_text w : snd (print_type_name w) = w.
Proof.
  unfold print_type_name. destruct (find _ _) as [s|] eqn:F; [|apply print_name_text].
  apply find_some in F. destruct F as [Hi E]. apply text_eqb_eq in E. subst w. cbn [other_primitives In] in Hi.
  repeat (destruct Hi as [<-|Hi]; [reflexivity|]). destruct Hi.
Qed.
Lemma hd_app {A} (w r : list A) t : hd_error w = Some t -> hd_error (w ++ r) = Some t.
Proof. destruct w; [discriminate|exact (fun H => H)]. Qed.
Lemma not_before_hd k w w' : hd_error w' = hd_error w -> not_before k w -> not_before k w'.
Proof. destruct w, w'; cbn; intros H; inversion H; auto. Qed.

Section Reprint.
Variable U : tables.
Hypothesis HU : good_tables U.
Notation solids := (Forall (solid U)).

(** Tokens for [x] with the texts of [p]; they begin as [w] does *)
Definition re {A} (G : spelling A) (p w : list tk) (x : A) : Prop :=
  exists ts, map snd ts = map snd p /\ G ts x /\ solids ts /\ hd_error ts = hd_error w.
Definition re0 {A} (G : spelling A) (p : list tk) (x : A) : Prop :=
  exists ts, map snd ts = map snd p /\ G ts x /\ solids ts.
Lemma re_re0 {A} (G : spelling A) p w x : re G p w x -> re0 G p x.
Proof. intros (ts & H1 & H2 & H3 & _). now exists ts. Qed.

Ltac parts H := repeat first [rewrite Forall_app in H | rewrite Forall_cons_iff in H]; repeat match type of H with _ /\ _ => let X := fresh "F" in destruct H as [X H]; parts X end.
Ltac kwd := match goal with |- solid _ (tok _) => apply solid_tok; reflexivity end.
Ltac sol := repeat first [assumption | match goal with
  | |- Forall _ [] => apply Forall_nil
  | |- Forall _ (_ :: _) => apply Forall_cons; [first [kwd | assumption]|]
  | |- Forall _ (_ ++ _) => apply Forall_app; split
  end].
Ltac texts := unfold angle; repeat first [rewrite map_app | progress cbn [map snd Datatypes.app] | rewrite print_name_text];
  repeat match goal with H : map snd ?w = _ |- context [@map ?A ?B ?f ?w] => change (@map A B f w) with (map snd w); rewrite H end;
  repeat first [rewrite map_app | progress cbn [map snd Datatypes.app] | rewrite print_name_text]; try reflexivity.

Lemma re_commas {A} (G : spelling A) (f : A -> list tk) close w xs :
  commas G close w xs -> solids w -> (forall x, In x xs -> forall w, G w x -> solids w -> re G (f x) w x) ->
  re0 (commas G close) (with_commas f xs) xs.
Proof.
  induction 1 as [|w x Hx Hn|w ws x xs Hx Hn H IH]; intros S R.
  - exists []. repeat split; constructor.
  - destruct (R x (or_introl eq_refl) w Hx S) as (ts & T & G' & S' & E). exists ts. cbn [with_commas]. rewrite app_nil_r.
    split; [exact T|]. split; [|exact S']. apply commas_last; [exact G'|]. eapply not_before_hd; eassumption.
  - apply Forall_app in S. destruct S as [S1 S2]. inversion S2; subst.
    destruct (R x (or_introl eq_refl) w Hx S1) as (ts & T & G' & S' & E).
    destruct IH as (us & T' & G'' & S''); [assumption|intros; apply R; [now right|assumption..]|].
    destruct xs as [|y xs].
    + exists ts. cbn [with_commas]. rewrite app_nil_r. split; [exact T|]. split; [|exact S'].
      apply commas_last; [exact G'|]. eapply not_before_hd; eassumption.
    + exists (ts ++ tok "," :: us). split; [|split].
      * change (with_commas f (x :: y :: xs)) with (f x ++ tok "," :: with_commas f (y :: xs)).
        rewrite !map_app. cbn [map]. now rewrite T, T'.
      * apply commas_more; [exact G'| |exact G'']. eapply not_before_hd; eassumption.
      * sol.
Qed.
Lemma re_many {A} (G : spelling A) (f : A -> list tk) w xs :
  many G w xs -> solids w -> (forall x w, G w x -> solids w -> re0 G (f x) x) -> re0 (many G) (flat_map f xs) xs.
Proof.
  induction 1 as [|w ws x xs Hx H IH]; intros S R; [exists []; repeat split; constructor|].
  apply Forall_app in S. destruct S as [S1 S2]. destruct (R x w Hx S1) as (ts & T & G' & S').
  destruct (IH S2 R) as (us & T' & G'' & S''). exists (ts ++ us). cbn [flat_map]. rewrite !map_app, T, T'.
  split; [reflexivity|]. split; [now constructor | sol].
Qed.

(** ** Types *)
Definition type_re (t : wtype) : Prop := forall w, a_type w t -> solids w -> re a_type (print_type t) w t.

Lemma re_two a b w : opt_P type_re a -> opt_P type_re b -> two_types a_type w a b -> solids w ->
  exists ts, map snd ts = map snd (print_two (option_map print_type a) (option_map print_type b)) /\ two_types a_type ts a b /\ solids ts.
Proof.
  intros Ha Hb H S. destruct H as [|w t H N|w t H|w t w' t' H N H']; cbn [opt_P option_map print_two] in *.
  - exists []. repeat split; constructor.
  - parts S. destruct (Ha w H) as (ts & T & G & St & E); [assumption|].
    exists (tok "<" :: ts ++ [tok ">"]). split; [texts|]. split; [constructor; [exact G|eapply not_before_hd; eassumption]|sol].
  - parts S. destruct (Hb w H) as (ts & T & G & St & E); [assumption|].
    exists (tok "<" :: tok "_" :: tok "," :: ts ++ [tok ">"]). split; [texts|]. split; [now constructor|sol].
  - parts S. destruct (Ha w H) as (ts & T & G & St & E); [assumption|]. destruct (Hb w' H') as (us & T' & G' & S' & E'); [assumption|].
    exists (tok "<" :: ts ++ tok "," :: us ++ [tok ">"]). split; [texts|].
    split; [constructor; [exact G|eapply not_before_hd; eassumption|exact G']|sol].
Qed.

Ltac gr := try match goal with
  | H : two_types _ ?w _ _ |- _ => rename H into G', w into w'
  | H : commas _ _ ?w _ |- _ => rename H into G', w into w'
  | H : a_name ?w _ |- _ => rename H into G', w into w'
  | H : a_type ?w _ |- _ => rename H into G', w into w'
  end.
Lemma re_type t : type_re t.
Proof.
  induction t as [| | | |a b Ha Hb|a Ha|a b Ha Hb|a b Ha Hb|a b Ha Hb|ts H|id|id|v] using wtype_induction; intros w G S; cbn [print_type].
  1-4: exists w; inversion G; subst; auto.
  - inversion G; subst; clear G; gr. parts S.
    destruct (re_two a b w' Ha Hb G') as (ts & T & G2 & S2); [assumption|].
    exists (tok "stream" :: ts). split; [texts|]. split; [now constructor|]. split; [sol|reflexivity].
  - inversion G; subst; clear G; gr.
    + eexists. split; [|split; [constructor|split; [exact S|reflexivity]]]. reflexivity.
    + parts S. destruct (Ha w' G') as (ts & T & G2 & S2 & _); [assumption|].
      exists (tok "future" :: tok "<" :: ts ++ [tok ">"]). split; [texts|]. split; [now constructor|]. split; [sol|reflexivity].
  - inversion G; subst; clear G; gr. parts S. destruct (Ha w' G') as (ts & T & G2 & S2 & _); [assumption|].
    exists (tok "list" :: tok "<" :: ts ++ [tok ">"]). split; [texts|]. split; [now constructor|]. split; [sol|reflexivity].
  - inversion G; subst; clear G; gr. parts S. destruct (Ha w' G') as (ts & T & G2 & S2 & _); [assumption|].
    exists (tok "option" :: tok "<" :: ts ++ [tok ">"]). split; [texts|]. split; [now constructor|]. split; [sol|reflexivity].
  - inversion G; subst; clear G; gr. parts S.
    destruct (re_two a b w' Ha Hb G') as (ts & T & G2 & S2); [assumption|].
    exists (tok "result" :: ts). split; [texts|]. split; [now constructor|]. split; [sol|reflexivity].
  - inversion G; subst; clear G; gr. parts S.
    destruct (re_commas _ print_type _ _ _ G') as (us & T & G2 & S2); [assumption|intros x Hx w2; apply (H x Hx)|].
    exists (tok "tuple" :: tok "<" :: us ++ [tok ">"]). split; [texts|]. split; [now constructor|]. split; [sol|reflexivity].
  - inversion G; subst; gr. destruct (name_texts _ _ G') as [T _].
    eexists. split; [|split; [exact G|split; [exact S|reflexivity]]]. texts.
  - inversion G; subst; gr. destruct (name_texts _ _ G') as [T _].
    eexists. split; [|split; [exact G|split; [exact S|reflexivity]]]. texts.
  - inversion G; subst. eexists. split; [|split; [exact G|split; [exact S|reflexivity]]]. cbn [map snd]. now rewrite print_type_name_text.
Qed.

(** ** Functions and uses *)
Ltac name H := let T := fresh "T" in let k := fresh "k" in let E := fresh "E" in let K := fresh "K" in
  destruct (name_texts _ _ H) as (T & k & E & K).
Ltac heads := first [reflexivity | repeat (erewrite hd_app by eassumption); reflexivity].

Lemma re_parameter p w : a_parameter w p -> solids w -> re a_parameter (print_parameter p) w p.
Proof.
  intros [wi i wt t Hi Ht] S. parts S. name Hi. destruct (re_type t wt Ht) as (ts & T' & G & S' & _); [assumption|].
  exists (wi ++ tok ":" :: ts). unfold print_parameter. cbn [pa_id pa_type].
  split; [texts|]. split; [now constructor|]. split; [sol|heads].
Qed.
Lemma re_parameters ps w : a_parameters w ps -> solids w -> re a_parameters (print_parameters ps) w ps.
Proof.
  intros [w' ps' H] S. parts S. destruct (re_commas _ print_parameter _ _ _ H) as (ts & T & G & S'); [assumption|intros; now apply re_parameter|].
  exists (tok "(" :: ts ++ [tok ")"]). unfold print_parameters. split; [texts|]. split; [now constructor|]. split; [sol|heads].
Qed.
Lemma re_results r w : a_result w r -> solids w -> re0 a_result (print_results r) r.
Proof.
  intros [|w' ps H|w' t H N] S; unfold print_results; cbn [rl_anonymous rl_named].
  - exists []. repeat split; constructor.
  - parts S. destruct ps as [|p ps]; [exists []; repeat split; constructor|].
    destruct (re_parameters _ _ H) as (ts & T & G & S' & _); [assumption|].
    exists (tok "->" :: ts). split; [texts|]. split; [now constructor|sol].
  - parts S. destruct (re_type t w' H) as (ts & T & G & S' & E); [assumption|].
    exists (tok "->" :: ts). split; [texts|]. split; [constructor; [exact G|eapply not_before_hd; eassumption]|sol].
Qed.
Lemma re_func f w : a_func w f -> solids w -> re a_func (print_func f) w f.
Proof.
  intros [wp ps wr rs Hp Hr] S. parts S. destruct (re_parameters _ _ Hp) as (ts & T & G & S' & _); [assumption|].
  destruct (re_results _ _ Hr) as (us & T' & G' & S''); [assumption|].
  exists (tok "func" :: ts ++ us). unfold print_func. cbn [ft_params ft_results]. split; [texts|]. split; [now constructor|]. split; [sol|heads].
Qed.
Lemma re_func_item f w : a_func_item w f -> solids w -> re a_func_item (print_func_item f) w f.
Proof.
  intros [wi i wf g Hi Hf] S. parts S. name Hi. destruct (re_func _ _ Hf) as (ts & T' & G & S' & _); [assumption|].
  exists (wi ++ tok ":" :: ts ++ [tok ";"]). unfold print_func_item. cbn [fi_id fi_type]. split; [texts|]. split; [now constructor|]. split; [sol|heads].
Qed.
Lemma as_texts w a : opt_as w a -> map snd w = map snd (print_as a).
Proof. intros [|w' i H]; [reflexivity|]. name H. cbn [print_as]. texts. Qed.
Lemma re_use_name u w : a_use_name w u -> solids w -> re a_use_name (print_use_name u) w u.
Proof.
  intros [w' i wa a Hi Ha] S. name Hi. pose proof (as_texts _ _ Ha) as Ta. eexists. unfold print_use_name. cbn [un_name un_as].
  split; [|split; [constructor; eassumption|split; [exact S|reflexivity]]]. texts.
Qed.
Lemma path_texts w p : a_use_path w p -> map snd w = [up_id p] /\ exists t, hd_error w = Some t.
Proof. intros [w' i H]. name H. split; [exact T|eauto]. Qed.
Lemma re_use u w : a_use w u -> solids w -> re0 a_use (print_use u) u.
Proof.
  intros [wp p wn ns Hp Hn] S. parts S. destruct (path_texts _ _ Hp) as [Tp _].
  destruct (re_commas _ print_use_name _ _ _ Hn) as (ts & T & G & S'); [assumption|intros; now apply re_use_name|].
  exists (tok "use" :: wp ++ tok "." :: tok "{" :: ts ++ [tok "}"; tok ";"]). unfold print_use. cbn [us_from us_names].
  split; [texts|]. split; [now constructor|sol].
Qed.

(** ** Definitions *)
Lemma re_method m w : a_method w m -> solids w -> re0 a_method (print_method m) m.
Proof.
  intros [w' ps H|wi i wf f Hi Hf|w' f H] S; cbn [print_method].
  - parts S. destruct (re_parameters _ _ H) as (ts & T & G & S' & _); [assumption|].
    exists (tok "constructor" :: ts ++ [tok ";"]). split; [texts|]. split; [now constructor|sol].
  - parts S. name Hi. destruct (re_func _ _ Hf) as (ts & T' & G & S' & _); [assumption|].
    exists (wi ++ tok ":" :: tok "static" :: ts ++ [tok ";"]). split; [texts|]. split; [now constructor|sol].
  - destruct (re_func_item _ _ H S) as (ts & T & G & S' & _). exists ts. split; [exact T|]. split; [now constructor|exact S'].
Qed.
Lemma re_resource i w : a_resource w i -> solids w -> re0 an_interface_item (print_item i) i /\ re0 a_resource (print_item i) i.
Proof.
  intros H S. assert (X : re0 a_resource (print_item i) i).
  { destruct H as [wi i H|wi i H|wi i wm ms H Hm]; parts S; name H; cbn [print_item].
    - exists (tok "resource" :: wi ++ [tok ";"]). split; [texts|]. split; [now constructor|sol].
    - exists (tok "resource" :: wi ++ [tok ";"]). split; [texts|]. split; [now constructor|sol].
    - destruct (re_many _ print_method _ _ Hm) as (ts & T' & G & S'); [assumption|intros x w'; apply re_method|].
      destruct ms as [|m ms].
      + exists (tok "resource" :: wi ++ [tok ";"]). split; [texts|]. split; [now constructor|sol].
      + exists (tok "resource" :: wi ++ tok "{" :: ts ++ [tok "}"]). split; [texts|]. split; [now constructor|sol]. }
  split; [|exact X]. destruct X as (ts & T & G & S'). exists ts. split; [exact T|]. split; [now constructor|exact S'].
Qed.
Lemma re_field f w : a_field w f -> solids w -> re a_field (print_field f) w f.
Proof.
  intros [wi i wt t Hi Ht] S. parts S. name Hi. destruct (re_type t wt Ht) as (ts & T' & G & S' & _); [assumption|].
  exists (wi ++ tok ":" :: ts). unfold print_field. cbn [fd_name fd_type].
  split; [texts|]. split; [now constructor|]. split; [sol|heads].
Qed.
Lemma re_case c w : a_case w c -> solids w -> re a_case (print_case c) w c.
Proof.
  intros [wi i Hi|wi i wt t Hi Ht] S; unfold print_case; cbn [cs_name cs_type]; name Hi.
  - exists wi. split; [texts|]. split; [now constructor|]. split; [exact S|reflexivity].
  - parts S. destruct (re_type t wt Ht) as (ts & T' & G & S' & _); [assumption|].
    exists (wi ++ tok "(" :: ts ++ [tok ")"]). split; [texts|]. split; [now constructor|]. split; [sol|heads].
Qed.
Lemma re_label i w : a_name w i -> solids w -> re a_name [print_name i] w i.
Proof. intros H S. name H. exists w. split; [texts|]. auto. Qed.
Lemma re_braced {A B} kw (G : spelling A) (f : text -> list A -> B) (p : A -> list tk) w y :
  existsb (String.eqb kw) (map fst (keywords ++ marks)) = true ->
  braced kw G f w y -> solids w -> (forall x w, G w x -> solids w -> re G (p x) w x) ->
  exists i xs, y = f i xs /\ re0 (braced kw G f) (print_braced kw i p xs) y.
Proof.
  intros Hk [wi i w' xs Hi Hx] S R. parts S. name Hi. exists i, xs. split; [reflexivity|].
  destruct (re_commas _ p _ _ _ Hx) as (ts & T' & G' & S'); [assumption|intros; now apply R|].
  exists (tok kw :: wi ++ tok "{" :: ts ++ [tok "}"]). unfold print_braced. split; [texts|]. split; [now constructor|].
  constructor; [now apply solid_tok|]. sol.
Qed.
Lemma re_type_item i w : a_type_item w i -> solids w -> re0 a_type_item (print_item i) i.
Proof.
  intros [wi j wt t Hi Ht] S. parts S. name Hi. destruct (re_type t wt Ht) as (ts & T' & G & S' & _); [assumption|].
  exists (tok "type" :: wi ++ tok "=" :: ts ++ [tok ";"]). cbn [print_item]. split; [texts|]. split; [now constructor|sol].
Qed.
Lemma re_record i w : a_record w i -> solids w -> re0 a_record (print_item i) i.
Proof.
  intros H S. destruct (re_braced "record" _ _ print_field _ _ eq_refl H S) as (j & xs & -> & X); [intros; now apply re_field|exact X].
Qed.
Lemma re_variant i w : a_variant w i -> solids w -> re0 a_variant (print_item i) i.
Proof.
  intros H S. destruct (re_braced "variant" _ _ print_case _ _ eq_refl H S) as (j & xs & -> & X); [intros; now apply re_case|exact X].
Qed.
Lemma re_flags i w : a_flags w i -> solids w -> re0 a_flags (print_item i) i.
Proof.
  intros H S. destruct (re_braced "flags" _ _ (fun f => [print_name f]) _ _ eq_refl H S) as (j & xs & -> & X); [intros; now apply re_label|exact X].
Qed.
Lemma re_enum i w : an_enum w i -> solids w -> re0 an_enum (print_item i) i.
Proof.
  intros H S. destruct (re_braced "enum" _ _ (fun f => [print_name f]) _ _ eq_refl H S) as (j & xs & -> & X); [intros; now apply re_label|exact X].
Qed.
Lemma re0_up {A B} (G : spelling A) (G' : spelling B) p x y : (forall w, G w x -> G' w y) -> re0 G p x -> re0 G' p y.
Proof. intros H (ts & T & G1 & S). exists ts. auto. Qed.

Lemma re_item i w : an_interface_item w i -> solids w -> re0 an_interface_item (print_item i) i.
Proof.
  intros [w' u H|w' j H|w' j H|w' j H|w' j H|w' j H|w' j H|w' f H] S.
  - eapply re0_up; [|eapply re_use; eassumption]. intros. now constructor.
  - now apply (re_resource _ _ H).
  - eapply re0_up; [|eapply re_record; eassumption]. intros. now apply ii_record.
  - eapply re0_up; [|eapply re_flags; eassumption]. intros. now apply ii_flags.
  - eapply re0_up; [|eapply re_variant; eassumption]. intros. now apply ii_variant.
  - eapply re0_up; [|eapply re_enum; eassumption]. intros. now apply ii_enum.
  - eapply re0_up; [|eapply re_type_item; eassumption]. intros. now apply ii_type.
  - eapply re0_up; [|eapply re_re0, re_func_item; eassumption]. intros. now constructor.
Qed.

(** ** Interfaces, worlds and files *)
Lemma re_body is w : interface_body w is -> solids w -> re0 interface_body (print_body is) is.
Proof.
  intros [w' is' H] S. parts S. destruct (re_many _ print_item _ _ H) as (ts & T & G & S'); [assumption|intros x w2; apply re_item|].
  exists (tok "{" :: ts ++ [tok "}"]). unfold print_body. split; [texts|]. split; [now constructor|sol].
Qed.
Lemma re_extern e w : an_extern w e -> solids w -> re0 an_extern (print_extern e) e.
Proof.
  intros [wi i wf f Hi Hf|wi i wb is Hi Hb|w' p Hp] S; cbn [print_extern]; parts S.
  - name Hi. destruct (re_func _ _ Hf) as (ts & T' & G & S' & _); [assumption|].
    exists (wi ++ tok ":" :: ts ++ [tok ";"]). split; [texts|]. split; [now constructor|sol].
  - name Hi. destruct (re_body _ _ Hb) as (ts & T' & G & S'); [assumption|].
    exists (wi ++ tok ":" :: tok "interface" :: ts). split; [texts|]. split; [now constructor|sol].
  - destruct (path_texts _ _ Hp) as [Tp _]. exists (w' ++ [tok ";"]). split; [texts|]. split; [now constructor|sol].
Qed.
Lemma re_include_name n w : an_include_name w n -> solids w -> re0 an_include_name (print_include_name n) n.
Proof.
  intros [wi i wa a Hi Ha] S. name Hi. name Ha. eexists. unfold print_include_name. cbn [ic_name ic_as].
  split; [|split; [constructor; eassumption|exact S]]. texts.
Qed.
Lemma re_world_item i w : a_world_item w i -> solids w -> re0 a_world_item (print_world_item i) i.
Proof.
  intros [w' e H|w' e H|w' p H|w' p wn ns H Hn|w' u H|w' j H|w' j H|w' j H|w' j H] S; cbn [print_world_item].
  - parts S. destruct (re_extern _ _ H) as (ts & T & G & S'); [assumption|].
    exists (tok "export" :: ts). split; [texts|]. split; [now constructor|sol].
  - parts S. destruct (re_extern _ _ H) as (ts & T & G & S'); [assumption|].
    exists (tok "import" :: ts). split; [texts|]. split; [now constructor|sol].
  - destruct (path_texts _ _ H) as [Tp _]. eexists. split; [|split; [apply wi_include; exact H|exact S]]. texts.
  - destruct (path_texts _ _ H) as [Tp _]. parts S.
    destruct (re_many _ print_include_name _ _ Hn) as (ts & T & G & S'); [assumption|intros x w2; apply re_include_name|].
    destruct ns as [|n ns].
    + exists (tok "include" :: w' ++ [tok ";"]). split; [texts|]. split; [now apply wi_include|sol].
    + exists (tok "include" :: w' ++ tok "with" :: tok "{" :: ts ++ [tok "}"]). split; [texts|]. split; [now apply wi_include_with|sol].
  - eapply re0_up; [|eapply re_use; eassumption]. intros. now constructor.
  - eapply re0_up; [|eapply re_type_item; eassumption]. intros. now apply wi_type.
  - eapply re0_up; [|eapply re_record; eassumption]. intros. now apply wi_record.
  - eapply re0_up; [|eapply re_variant; eassumption]. intros. now apply wi_variant.
  - eapply re0_up; [|apply (re_resource _ _ H S)]. intros. now apply wi_resource.
Qed.

Lemma re_items w is : file_items w is -> solids w ->
  exists ts, map snd ts = map snd (flat_map print_ast_item is) /\ file_items ts is /\ solids ts /\
    not_before Colon ts /\ not_before KAs ts /\ not_before KPackage ts.
Proof.
  induction 1 as [|wp p wa a ws is Hp Ha H IH Nc Na|wi i w its ws is Hi Hw H IH|wi i wb its ws is Hi Hb H IH|k v ws is Hk H IH];
    intros S; cbn [flat_map print_ast_item tu_item tu_as wo_id wo_items if_name if_items].
  - exists []. repeat split; constructor.
  - parts S. destruct (path_texts _ _ Hp) as [Tp _]. pose proof (as_texts _ _ Ha) as Ta.
    destruct IH as (ts & T & G & S' & N1 & N2 & N3); [assumption|].
    exists (tok "use" :: wp ++ wa ++ ts). split; [|split; [|split; [sol|repeat split; discriminate]]].
    + texts; try (rewrite <- ?app_assoc; reflexivity).
    + constructor; try assumption; [|intros _; exact N2].
      destruct Ha; cbn [Datatypes.app not_before]; [exact N1|discriminate].
  - parts S. name Hi. destruct IH as (ts & T' & G & S' & N1 & N2 & N3); [assumption|].
    destruct (re_many _ print_world_item _ _ Hw) as (us & T2 & G2 & S2); [assumption|intros x w2; apply re_world_item|].
    exists (tok "world" :: wi ++ tok "{" :: us ++ tok "}" :: ts). split; [|split; [now constructor|split; [sol|repeat split; discriminate]]].
    texts; try (rewrite <- ?app_assoc; reflexivity).
  - parts S. name Hi. destruct IH as (ts & T' & G & S' & N1 & N2 & N3); [assumption|].
    destruct (re_body _ _ Hb) as (us & T2 & G2 & S2); [assumption|].
    exists (tok "interface" :: wi ++ us ++ ts). split; [|split; [now constructor|split; [sol|repeat split; discriminate]]].
    texts.
  - parts S. destruct IH as (ts & T' & G & S' & N1 & N2 & N3); [assumption|].
    exists (tok ";" :: ts). split; [texts|]. split; [|split; [sol|repeat split; discriminate]].
    apply (items_other Semicolon (txt ";")); [cbn; intuition discriminate|exact G].
Qed.

Lemma re_number n w : a_number w n -> solids w -> re0 a_number [print_number n] n.
Proof.
  intros [w' n' H Hn] S. destruct (number_spells U n' Hn) as [H1 H2]. exists [print_number n'].
  split; [reflexivity|]. split; [exact H1|]. sol.
Qed.
Lemma re_version v w : a_version w v -> solids w -> re0 a_version (print_version v) v.
Proof.
  intros [w1 a w2 b w3 c Ha Hb Hc] S. parts S.
  destruct (re_number _ _ Ha) as (t1 & T1 & G1 & S1); [assumption|]. destruct (re_number _ _ Hb) as (t2 & T2 & G2 & S2); [assumption|].
  destruct (re_number _ _ Hc) as (t3 & T3 & G3 & S3); [assumption|].
  exists (t1 ++ tok "." :: t2 ++ tok "." :: t3). unfold print_version. cbn [v_major v_minor v_patch].
  split; [texts|]. split; [now constructor|sol].
Qed.
Lemma re_package p w : a_package w p -> solids w -> re0 a_package (print_package p) p.
Proof.
  intros [ns wn n wv v Hn Hv] S. parts S. name Hn.
  assert (X : exists ts, map snd ts = map snd (match v with Some v => tok "@" :: print_version v | None => [] end) /\ opt_version ts v /\ solids ts).
  { destruct Hv as [|w' v Hv]; [exists []; repeat split; constructor|].
    match goal with F : solids (tok "@" :: w') |- _ => parts F end.
    destruct (re_version _ _ Hv) as (ts & T' & G & S'); [assumption|].
    exists (tok "@" :: ts). split; [texts|]. split; [now constructor|sol]. }
  destruct X as (ts & T' & G & S'). exists (tok "package" :: ns :: tok ":" :: wn ++ ts ++ [tok ";"]).
  unfold print_package. cbn [pk_namespace pk_name pk_version]. split; [texts|]. split; [now constructor|sol].
Qed.
Lemma re_file a w : a_file w a -> solids w -> re0 a_file (print_ast a) a.
Proof.
  intros [w' is H N|wp p w' is Hp H] S; unfold print_ast; cbn [as_package as_items].
  - destruct (re_items _ _ H S) as (ts & T & G & S' & _ & _ & N3). exists ts. split; [exact T|]. split; [now constructor|exact S'].
  - parts S. destruct (re_items _ _ H) as (ts & T & G & S' & _); [assumption|].
    destruct (re_package _ _ Hp) as (us & T' & G' & S''); [assumption|].
    exists (us ++ ts). split; [texts|]. split; [now constructor|sol].
Qed.
End Reprint.
