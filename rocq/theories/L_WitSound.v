(** The WIT parser over the machine: what it accepts is spelled as the grammar
    says. *)
From Coq Require Import Arith NArith ZArith String Ascii Bool List Lia.
From Verif Require Import GoBase M_Text M_WitLex M_ParseBase M_Strconv M_WitAst M_WitParse S_WitLex S_WitParse
  L_ParseBase L_WitSim L_WitLit.
Import ListNotations.
Open Scope nat_scope.
Open Scope parse_scope.

(** ** Keywords and marks *)
Definition word_of (k : toktype) : option string :=
  match find (fun p => kind_eqb (snd p) k) (keywords ++ marks) with Some (s, _) => Some s | None => None end.

Lemma in_words s k : In (s, k) (keywords ++ marks) -> word_of k = Some s.
Proof.
  intros H. assert (F : Forall (fun p => word_of (snd p) = Some (fst p)) (keywords ++ marks)) by (repeat constructor).
  rewrite Forall_forall in F. exact (F _ H).
Qed.

Section Sound.
Variable U : tables.
Notation mch := (machine EndOfStream).

Definition valid (t : tk) : Prop := token_text U (fst t) (snd t).

Lemma token_mark k w s : word_of k = Some s -> token_text U k w -> w = txt s.
Proof.
  intros E H. destruct k; cbn [token_text] in H; try discriminate E;
    destruct H as (s' & H & ->); apply in_words in H; congruence.
Qed.
Lemma valid_eos w : ~ valid (EndOfStream, w).
Proof. exact (fun H => H). Qed.

(** ** Soundness, in steps *)

(** On valid tokens that satisfy [P] the parser takes a spelling of its result
    and leaves the rest; or, if [b], it may also take the end of the stream
    for a token. *)
Definition snd_ (P : list tk -> Prop) (b : bool) {A} (G : spelling A) (p : parser (stream toktype) A) : Prop :=
  forall ts e x s', P ts -> Forall valid ts -> wfine e -> p (ts, e) = (Ok x, s') ->
  (exists w rest, ts = w ++ rest /\ s' = (rest, e) /\ Forall valid rest /\ G w x) \/
  (b = true /\ s' = ([], Ends [])).
Definition any : list tk -> Prop := fun _ => True.
Notation sound := (snd_ any false).
Notation weak := (snd_ any true).

Lemma snd_on (P Q : list tk -> Prop) b {A} (G : spelling A) p : snd_ Q b G p -> (forall ts, P ts -> Q ts) -> snd_ P b G p.
Proof. intros H HP ts e x s' Hp. apply H. auto. Qed.
Lemma snd_weak (P : list tk -> Prop) b {A} (G : spelling A) p : snd_ P false G p -> snd_ P b G p.
Proof. intros H ts e x s' Hp V He E. destruct (H ts e x s' Hp V He E) as [R|[? _]]; [auto | discriminate]. Qed.
Lemma snd_spells (P : list tk -> Prop) b {A} (G G' : spelling A) p : snd_ P b G p -> (forall w x, G w x -> G' w x) -> snd_ P b G' p.
Proof.
  intros H HG ts e x s' Hp V He E. destruct (H ts e x s' Hp V He E) as [(w & r & E1 & E2 & E3 & E4)|R]; [|auto].
  left. exists w, r. auto.
Qed.
Lemma snd_handled (P : list tk -> Prop) b {A} (G : spelling A) p : snd_ P b G p -> snd_ P b G (handled p).
Proof. intros H ts e x s' Hp V He E. apply (proj1 (handled_ok _ _ _ _)) in E. exact (H _ _ _ _ Hp V He E). Qed.
Lemma snd_pret (P : list tk -> Prop) b {A} (G : spelling A) x : G [] x -> snd_ P b G (pret x).
Proof.
  intros H ts e y s' Hp V He E. apply pret_ok in E. destruct E as [<- <-]. left. exists [], ts. auto.
Qed.
Lemma snd_perr (P : list tk -> Prop) b {A} (G : spelling A) : snd_ P b G perr.
Proof. intros ts e x s' Hp V He E. discriminate. Qed.
Lemma snd_pdiverge (P : list tk -> Prop) b {A} (G : spelling A) : snd_ P b G pdiverge.
Proof. intros ts e x s' Hp V He E. discriminate. Qed.

Lemma snd_bind (P : list tk -> Prop) b {A B} (G : spelling A) (H : spelling B) p f :
  snd_ P false G p -> (forall a w, G w a -> snd_ any b (fun w' => H (w ++ w')) (f a)) ->
  snd_ P b H (pbind (unwrap p) f).
Proof.
  intros Hp Hf ts e x s' Hts V He E. apply plet_ok in E. destruct E as (a & s1 & E1 & E2).
  destruct (Hp _ _ _ _ Hts V He E1) as [(w & r & -> & -> & V' & Ga)|[? _]]; [|discriminate].
  destruct (Hf a w Ga r e x s' I V' He E2) as [(w' & r' & -> & -> & V'' & Gb)|R]; [left|auto].
  exists (w ++ w'), r'. rewrite app_assoc. auto.
Qed.

(** The last statement *)
Lemma snd_last (P : list tk -> Prop) b {A B} (G : spelling A) (H : spelling B) p g :
  snd_ P b G p -> (forall a w, G w a -> H w (g a)) -> snd_ P b H (plet a := p in pret (g a)).
Proof.
  intros Hp Hf ts e x s' Hts V He E. apply plet_ok in E. destruct E as (a & s1 & E1 & E2).
  apply pret_ok in E2. destruct E2 as [<- <-].
  destruct (Hp _ _ _ _ Hts V He E1) as [(w & r & -> & -> & V' & Ga)|R]; [left|auto].
  exists w, r. auto.
Qed.

Lemma exp_inv k s ts e u s' : word_of k = Some s -> tok s = (k, txt s) -> Forall valid ts ->
  exp mch k (ts, e) = (Ok u, s') -> exists ts', ts = tok s :: ts' /\ s' = (ts', e) /\ Forall valid ts'.
Proof.
  intros Hw Ht V E. apply (expect_ok EndOfStream kind_eqb kind_eqb_spec) in E; [|intros ->; discriminate].
  destruct E as (w & ts' & e' & E & ->). injection E as -> ->. inversion V as [|t l V1 V2]; subst.
  exists ts'. rewrite Ht. rewrite (token_mark k w s Hw V1). auto.
Qed.
Lemma snd_exp (P : list tk -> Prop) k s : word_of k = Some s -> tok s = (k, txt s) -> snd_ P false (fun w _ => w = [tok s]) (exp mch k).
Proof.
  intros Hw Ht ts e x s' Hts V He E. destruct (exp_inv k s ts e x s' Hw Ht V E) as (ts' & -> & -> & V').
  left. exists [tok s], ts'. auto.
Qed.
(** expect(lexer, k).Unwrap(); f *)
Lemma snd_exp_then (P : list tk -> Prop) b k s {B} (H : spelling B) f : word_of k = Some s -> tok s = (k, txt s) ->
  snd_ any b (fun w => H (tok s :: w)) f -> snd_ P b H (exp mch k ;;> f).
Proof.
  intros Hw Ht Hf. eapply snd_bind; [apply (snd_exp P k s Hw Ht)|]. intros a w ->. exact Hf.
Qed.
Lemma exp_end k u s' : k <> EndOfStream -> exp mch k ([], Ends []) = (Ok u, s') -> False.
Proof.
  intros Hk E. apply (expect_ok EndOfStream kind_eqb kind_eqb_spec) in E; [|exact Hk].
  destruct E as (w & ts' & e' & E & _). discriminate.
Qed.
(** x := p.Unwrap(); expect(lexer, k).Unwrap(); f, where p may take the end *)
Lemma snd_weak_exp (P : list tk -> Prop) b k s {A B} (G : spelling A) (H : spelling B) p f : word_of k = Some s -> tok s = (k, txt s) ->
  snd_ P true G p -> (forall a w, G w a -> snd_ any b (fun w' => H (w ++ tok s :: w')) (f a)) ->
  snd_ P b H (plet a := p in exp mch k ;;> f a).
Proof.
  intros Hw Ht Hp Hf ts e x s' Hts V He E. apply plet_ok in E. destruct E as (a & s1 & E1 & E2).
  destruct (Hp _ _ _ _ Hts V He E1) as [(w & r & -> & -> & V' & Ga)|[_ ->]].
  - apply plet_ok in E2. destruct E2 as (u & s2 & E2 & E3).
    destruct (exp_inv k s _ _ _ _ Hw Ht V' E2) as (ts' & -> & -> & V2).
    destruct (Hf a w Ga ts' e x s' I V2 He E3) as [(w' & r' & -> & -> & V'' & Gb)|R]; [left|auto].
    exists (w ++ tok s :: w'), r'. rewrite <- app_assoc. auto.
  - apply plet_ok in E2. destruct E2 as (u & s2 & E2 & E3). exfalso. eapply exp_end; [|exact E2].
    intros ->. discriminate.
Qed.

Lemma ate_inv k s ts e c s' : word_of k = Some s -> tok s = (k, txt s) -> Forall valid ts ->
  ate mch k (ts, e) = (Ok c, s') ->
  (c = true /\ exists ts', ts = tok s :: ts' /\ s' = (ts', e) /\ Forall valid ts') \/
  (c = false /\ s' = (ts, e) /\ not_before k ts).
Proof.
  intros Hw Ht V E. apply (eat_ok EndOfStream kind_eqb kind_eqb_spec) in E; [|intros ->; discriminate].
  destruct E as [(-> & w & ts' & e' & E & ->)|(-> & -> & N & _)].
  - injection E as -> ->. inversion V as [|t l V1 V2]; subst. left. split; [reflexivity|].
    exists ts'. rewrite Ht. rewrite (token_mark k w s Hw V1). auto.
  - right. auto.
Qed.
Lemma snd_ate (P : list tk -> Prop) b k s {B} (H : spelling B) f : word_of k = Some s -> tok s = (k, txt s) ->
  snd_ any b (fun w => H (tok s :: w)) (f true) -> snd_ (fun ts => P ts /\ not_before k ts) b H (f false) ->
  snd_ P b H (pbind (unwrap (ate mch k)) f).
Proof.
  intros Hw Ht Ht1 Hf1 ts e x s' Hts V He E. apply plet_ok in E. destruct E as (a & s1 & E1 & E2).
  destruct (ate_inv k s _ _ _ _ Hw Ht V E1) as [(-> & ts' & -> & -> & V')|(-> & -> & N)].
  - destruct (Ht1 ts' e x s' I V' He E2) as [(w' & r' & -> & -> & V'' & Gb)|R]; [left|auto].
    exists (tok s :: w'), r'. auto.
  - apply (Hf1 ts e x s'); auto.
Qed.

(** What the peeked token says about the stream *)
Definition first_is (t : toktype * text) (ts : list tk) : Prop :=
  match ts with [] => fst t = EndOfStream | t' :: _ => t' = t end.
Lemma snd_pk (P : list tk -> Prop) b {B} (H : spelling B) f : (forall t, snd_ (fun ts => P ts /\ first_is t ts) b H (f t)) ->
  snd_ P b H (pbind (unwrap (pk mch)) f).
Proof.
  intros Hf ts e x s' Hts V He E. apply plet_ok in E. destruct E as (t & s1 & E1 & E2).
  assert (s1 = (ts, e) /\ first_is t ts) as [-> Ft].
  { destruct ts as [|t' ts]; cbn in E1; [destruct e; [|discriminate]|]; injection E1 as <- <-; split; reflexivity. }
  apply (Hf t ts e x s'); auto.
Qed.
Lemma first_not t k ts : first_is t ts -> fst t <> k -> not_before k ts.
Proof. destruct ts; cbn; [auto|]. intros -> ?. assumption. Qed.

(** Taking a token *)
Lemma snd_nxt (P : list tk -> Prop) b {B} (H : spelling B) f :
  (forall t, valid t -> snd_ any b (fun w => H (t :: w)) (f t)) ->
  (forall w x s', f (EndOfStream, w) ([], Ends []) = (Ok x, s') -> b = true /\ s' = ([], Ends [])) ->
  snd_ P b H (pbind (unwrap (nxt mch)) f).
Proof.
  intros Hf Hend ts e x s' Hts V He E. apply plet_ok in E. destruct E as (t & s1 & E1 & E2).
  destruct ts as [|t' ts]; cbn in E1.
  - destruct e as [w|]; [|discriminate]. injection E1 as <- <-. right. eapply Hend, E2.
  - injection E1 as <- <-. inversion V as [|? ? V1 V2]; subst.
    destruct (Hf t' V1 ts e x s' I V2 He E2) as [(w' & r' & -> & -> & V'' & Gb)|R]; [left|auto].
    exists (t' :: w'), r'. auto.
Qed.

Lemma not_before_app k w r : w <> [] -> not_before k (w ++ r) -> not_before k w.
Proof. destruct w; [congruence|]. auto. Qed.

(** ** The parsers *)
Ltac mark := first [apply snd_exp_then with (1 := eq_refl) (2 := eq_refl)
                  | apply snd_ate with (1 := eq_refl) (2 := eq_refl)].
Ltac fin := repeat first [rewrite <- app_assoc | progress (cbn [app])]; rewrite ?app_nil_r.

Lemma sound_id : sound a_name (parse_id mch).
Proof.
  unfold parse_id. apply snd_handled, snd_nxt.
  - intros [k w] V. cbn [fst snd]. destruct k; try apply snd_perr; apply snd_pret; constructor.
  - intros w x s' E. discriminate.
Qed.
Lemma id_first w i : a_name w i -> exists t, w = [t] /\ (fst t = Id \/ fst t = ExplicitId).
Proof. intros []; eexists; split; try reflexivity; auto. Qed.

Lemma sound_integer : sound (fun w z => exists n, z = Z.of_N n /\ a_number w n) (parse_integer mch).
Proof.
  unfold parse_integer. apply snd_handled, snd_nxt.
  - intros [k w] V. cbn [fst snd]. destruct k; try apply snd_perr.
    destruct (parse_int w 32) as [z|] eqn:E; [|apply snd_perr]. apply snd_pret.
    destruct V as [V1 V2]. cbn in V1, V2. apply (integer_value U) in E; [|assumption..].
    destruct E as (n & E & Hn & ->). exists n. split; [reflexivity | now constructor].
  - intros w x s' E. discriminate.
Qed.
Lemma uint64_small w n : a_number w n -> uint64_of (Z.of_N n) = n.
Proof.
  intros [v m H L]. unfold uint64_of. rewrite Z.mod_small; [apply N2Z.id|].
  split; [apply N2Z.is_nonneg|]. change (2 ^ 64)%Z with (Z.of_N (2 ^ 64)). apply N2Z.inj_lt.
  eapply N.lt_trans; [exact L | reflexivity].
Qed.

Ltac act := first [mark | apply snd_handled | apply snd_pret].
Ltac one := match goal with
  | |- snd_ _ _ _ (handled _) => apply snd_handled
  | |- snd_ _ _ _ (pbind (unwrap (exp _ _)) _) => apply snd_exp_then with (1 := eq_refl) (2 := eq_refl)
  | |- snd_ _ _ _ (pbind (unwrap (ate _ _)) _) => apply snd_ate with (1 := eq_refl) (2 := eq_refl); cbv iota
  | |- snd_ _ _ _ (pbind (unwrap (parse_id _)) _) =>
      let H := fresh "Hi" in let w := fresh "wi" in let i := fresh "i" in
      eapply snd_bind; [eapply snd_on; [apply sound_id | exact (fun _ _ => I)] | intros i w H]
  | |- snd_ _ _ _ (pbind (unwrap (pk _)) _) => apply snd_pk; intros ?
  | |- snd_ _ _ _ (pret _) => apply snd_pret; fin
  | |- snd_ _ _ _ perr => apply snd_perr
  end.
(** bind with a lemma of the form [snd_ any false G p] *)
Tactic Notation "by_lemma" uconstr(L) "as" ident(x) ident(w) ident(H) :=
  eapply snd_bind; [eapply snd_on; [apply L | exact (fun _ _ => I)] | intros x w H].

Lemma sound_version : sound a_version (parse_version mch).
Proof.
  unfold parse_version. repeat one.
  by_lemma sound_integer as za wa Ha. one. by_lemma sound_integer as zb wb Hb. one. by_lemma sound_integer as zc wc Hc. one.
  destruct Ha as (na & -> & Ha), Hb as (nb & -> & Hb), Hc as (nc & -> & Hc).
  rewrite (uint64_small _ _ Ha), (uint64_small _ _ Hb), (uint64_small _ _ Hc). now constructor.
Qed.
(** After the word package *)
Lemma sound_package : sound (fun w p => a_package (tok "package" :: w) p) (parse_package mch).
Proof.
  unfold parse_package. one. apply snd_nxt.
  2:{ intros w x s' E. exfalso. apply plet_ok in E. destruct E as (u & s2 & E2 & E3). eapply exp_end; [|exact E2]. discriminate. }
  intros ns V. repeat one.
  - eapply (snd_bind _ _ (fun w v => opt_version (tok "@" :: w) v)).
    + apply (snd_last _ _ a_version); [apply sound_version|]. intros v w H. now constructor.
    + intros v w H. repeat one. apply (package_of ns wi i (tok "@" :: w) v); assumption.
  - eapply snd_bind; [apply (snd_pret _ false (fun w x => w = [] /\ x = None)); auto|].
    intros v w [-> ->]. repeat one. apply (package_of ns wi i [] None); [assumption | constructor].
Qed.

Lemma sound_path ns : sound (fun _ _ => False) (parse_path mch ns).
Proof. unfold parse_path, parse_optional_version. repeat one. by_lemma (snd_perr any false (fun _ _ => False)) as v w H. destruct H. Qed.
Lemma sound_use_path : sound a_use_path (parse_use_path mch).
Proof.
  unfold parse_use_path. repeat one.
  - eapply snd_spells; [apply sound_path|]. intros ? ? [].
  - constructor. exact Hi.
Qed.
Lemma sound_use_name : sound a_use_name (parse_use_name mch).
Proof.
  unfold parse_use_name. repeat one.
  - apply (used wi i (tok "as" :: wi0) (Some i0)); [assumption | constructor; assumption].
  - rewrite <- (app_nil_r wi). apply (used wi i [] None); [assumption | constructor].
Qed.

(** Lists with commas, of items that may take the end *)
Lemma snd_items {A} (G : spelling A) k s p : word_of k = Some s -> tok s = (k, txt s) ->
  snd_ any true G p -> (forall x, ~ G [] x) -> forall n,
  sound (fun w xs => exists w', w = w' ++ [tok s] /\ commas G k w' xs) (items_loop mch n k p).
Proof.
  intros Hw Ht Hp Hne. induction n as [|n IH]; cbn [items_loop]; [apply snd_pdiverge|].
  eapply snd_ate; [exact Hw | exact Ht | |].
  - apply snd_pret. exists []. split; [reflexivity | constructor].
  - intros ts e x s' [_ N] V He E. apply plet_ok in E. destruct E as (a & s1 & E1 & E2).
    destruct (Hp _ _ _ _ I V He E1) as [(w & r & -> & -> & V' & Ga)|[_ ->]].
    + assert (Nw : not_before k w) by (apply not_before_app with r; [intros ->; exact (Hne _ Ga) | exact N]).
      apply plet_ok in E2. destruct E2 as (c & s2 & E2 & E3).
      destruct (ate_inv Comma "," _ _ _ _ eq_refl eq_refl V' E2) as [(-> & ts' & -> & -> & V2)|(-> & -> & Nc)].
      * apply plet_ok in E3. destruct E3 as (xs & s3 & E3 & E4). apply pret_ok in E4. destruct E4 as [<- <-].
        destruct (IH _ _ _ _ I V2 He E3) as [(w' & r' & -> & -> & V3 & (w2 & -> & Gw))|[? _]]; [left|discriminate].
        exists (w ++ tok "," :: w2 ++ [tok s]), r'. repeat split; [fin; reflexivity | assumption |].
        exists (w ++ tok "," :: w2). split; [fin; reflexivity | now constructor].
      * apply plet_ok in E3. destruct E3 as (u & s3 & E3 & E4). apply pret_ok in E4. destruct E4 as [<- <-].
        destruct (exp_inv k s _ _ _ _ Hw Ht V' E3) as (ts' & -> & -> & V2). left.
        exists (w ++ [tok s]), ts'. repeat split; [fin; reflexivity | assumption |].
        exists w. split; [reflexivity | now constructor].
    + exfalso. apply plet_ok in E2. destruct E2 as (c & s2 & E2 & E3).
      destruct (ate_inv Comma "," _ _ _ _ eq_refl eq_refl (Forall_nil _) E2) as [(-> & ts' & ? & _)|(-> & -> & Nc)]; [discriminate|].
      apply plet_ok in E3. destruct E3 as (u & s3 & E3 & E4). eapply exp_end; [|exact E3]. intros ->. discriminate.
Qed.
Lemma snd_item_list {A} (G : spelling A) b sb k s p n : word_of b = Some sb -> tok sb = (b, txt sb) ->
  word_of k = Some s -> tok s = (k, txt s) -> snd_ any true G p -> (forall x, ~ G [] x) ->
  sound (fun w xs => exists w', w = tok sb :: w' ++ [tok s] /\ commas G k w' xs) (parse_item_list mch n b k p).
Proof.
  intros Hb Hb' Hk Hk' Hp Hne. unfold parse_item_list. apply snd_handled.
  eapply snd_exp_then; [exact Hb | exact Hb' |]. eapply snd_spells; [apply (snd_items G k s p Hk Hk' Hp Hne)|].
  intros w x (w' & -> & H). eauto.
Qed.

Lemma sound_use n : sound a_use (parse_use mch n).
Proof.
  unfold parse_use. repeat one. by_lemma sound_use_path as p wp Hp. one.
  by_lemma (snd_item_list a_use_name OpenBrace "{" CloseBrace "}" _ n eq_refl eq_refl eq_refl eq_refl (snd_weak _ true _ _ sound_use_name)) as ns wn Hn.
  - intros x H. inversion H as [w i wa a Hi Ha E]. apply id_first in Hi. destruct Hi as (t & -> & _). discriminate.
  - destruct Hn as (wn' & -> & Hn). repeat one. now constructor.
Qed.

(** *** Types *)
Lemma type_first w t : a_type w t -> w <> [].
Proof. intros [] E; discriminate. Qed.
Lemma type_nonempty t : ~ a_type [] t.
Proof. intros H. exact (type_first _ _ H eq_refl). Qed.

Lemma snd_not_before (P : list tk -> Prop) k b {A} (G : spelling A) p :
  snd_ (fun ts => P ts /\ not_before k ts) b G p -> (forall x, ~ G [] x) ->
  snd_ (fun ts => P ts /\ not_before k ts) b (fun w x => G w x /\ not_before k w) p.
Proof.
  intros H Hne ts e x s' Hts V He E. destruct (H _ _ _ _ Hts V He E) as [(w & r & -> & -> & V' & Ga)|R]; [left|auto].
  exists w, r. repeat split; auto. apply not_before_app with r; [intros ->; exact (Hne _ Ga) | apply Hts].
Qed.
Lemma snd_same (P : list tk -> Prop) b {A} (G : spelling A) p : snd_ P b G p -> snd_ P b G (plet i := p in pret i).
Proof. intros H. apply (snd_last P b G G p (fun i => i) H). auto. Qed.
Lemma snd_end P b {A} (G : spelling A) p : snd_ any b G p -> snd_ P b G p.
Proof. intros H. eapply snd_on; [exact H | intros; exact I]. Qed.

Section Types.
Variable pt : parser (stream toktype) wtype.
Hypothesis Hpt : weak a_type pt.

(** One type or two *)
Definition pair_of (w : list tk) (r : option wtype * option wtype) : Prop :=
  (exists t, r = (Some t, None) /\ a_type w t) \/
  (exists w1 t1 w2 t2, w = w1 ++ tok "," :: w2 /\ r = (Some t1, Some t2) /\ a_type w1 t1 /\ a_type w2 t2).
Lemma weak_pair P : snd_ P true pair_of
  (plet t := pt in plet c := ate mch Comma in
   if c then (plet e := pt in pret (Some t, Some e)) else pret (Some t, None)).
Proof.
  intros ts e x s' _ V He E. apply plet_ok in E. destruct E as (t & s1 & E1 & E2).
  apply plet_ok in E2. destruct E2 as (c & s2 & E2 & E3).
  destruct (Hpt _ _ _ _ I V He E1) as [(w & r & -> & -> & V' & Ga)|[_ ->]].
  - destruct (ate_inv Comma "," _ _ _ _ eq_refl eq_refl V' E2) as [(-> & ts' & -> & -> & V2)|(-> & -> & Nc)].
    + apply plet_ok in E3. destruct E3 as (t' & s3 & E3 & E4). apply pret_ok in E4. destruct E4 as [<- <-].
      destruct (Hpt _ _ _ _ I V2 He E3) as [(w' & r' & -> & -> & V3 & Gb)|[_ ->]]; [left | right; auto].
      exists (w ++ tok "," :: w'), r'. split; [fin; reflexivity|]. repeat split; [assumption|].
      right. exists w, t, w', t'. auto.
    + apply pret_ok in E3. destruct E3 as [<- <-]. left. exists w, r. repeat split; auto. left. eauto.
  - destruct (ate_inv Comma "," _ _ _ _ eq_refl eq_refl (Forall_nil _) E2) as [(-> & ts' & ? & _)|(-> & -> & Nc)]; [discriminate|].
    apply pret_ok in E3. destruct E3 as [<- <-]. right. auto.
Qed.
Lemma pair_nonempty r : ~ pair_of [] r.
Proof.
  intros [(t & _ & H)|(w1 & t1 & w2 & t2 & E & _)]; [exact (type_nonempty _ H)|]. destruct w1; discriminate.
Qed.
Lemma sound_two : sound (fun w r => two_types a_type w (fst r) (snd r)) (parse_two mch pt).
Proof.
  unfold parse_two. one; [one|one].
  - eapply (snd_weak_exp _ _ Greater ">" (fun w r => exists w' t, w = tok "," :: w' /\ r = (None, Some t) /\ a_type w' t)); try reflexivity.
    + one. eapply snd_last; [exact Hpt|]. intros t w H. exists w, t. auto.
    + intros r w (w' & t & -> & -> & H). one. cbn [fst snd]. now constructor.
  - eapply (snd_weak_exp _ _ Greater ">" (fun w r => pair_of w r /\ not_before Underscore w)); try reflexivity.
    + apply snd_not_before; [apply weak_pair | exact pair_nonempty].
    + intros r w [[(t & -> & H)|(w1 & t1 & w2 & t2 & -> & -> & H1 & H2)] N]; one; cbn [fst snd].
      * now constructor.
      * constructor; auto. destruct w1; [destruct (type_nonempty _ H1) | exact N].
  - constructor.
Qed.
Lemma snd_kw k w s : word_of k = Some s -> tok s = (k, txt s) -> valid (k, w) -> (k, w) = tok s.
Proof. intros Hw Ht V. rewrite Ht. f_equal. exact (token_mark k w s Hw V). Qed.

Lemma weak_body n : weak a_type (type_body mch pt n).
Proof.
  unfold type_body. apply snd_handled, snd_nxt.
  2:{ intros w x s' E. apply pret_ok in E. destruct E as [_ <-]. auto. }
  intros [k w] V. cbn [fst snd].
  assert (K : forall s, word_of k = Some s -> tok s = (k, txt s) -> (k, w) = tok s) by (intros s Hw Ht; now apply snd_kw).
  destruct k;
    try (apply snd_pret; apply ty_name; intros H; cbn in H; intuition discriminate);
    erewrite K by reflexivity; clear K.
  - apply snd_pret. constructor.
  - apply snd_pret. constructor.
  - apply snd_pret. constructor.
  - apply snd_pret. constructor.
  - repeat one. now constructor.
  - repeat one. now constructor.
  - (* option *) apply snd_same. unfold parse_option. repeat one.
    eapply (snd_weak_exp _ _ Greater ">" a_type); try reflexivity; [exact Hpt|]. intros t w' H. one. now constructor.
  - (* result *) apply snd_same, snd_handled, snd_weak. eapply snd_last; [apply sound_two|]. intros r w' H. now constructor.
  - (* future *) apply snd_same. unfold parse_future. repeat one; [|constructor].
    eapply (snd_weak_exp _ _ Greater ">" a_type); try reflexivity; [exact Hpt|]. intros t w' H. one. now constructor.
  - (* stream *) apply snd_same, snd_handled, snd_weak. eapply snd_last; [apply sound_two|]. intros r w' H. now constructor.
  - (* list *) apply snd_same. unfold parse_list. repeat one.
    eapply (snd_weak_exp _ _ Greater ">" a_type); try reflexivity; [exact Hpt|]. intros t w' H. one. now constructor.
  - (* tuple *) apply snd_same, snd_handled, snd_weak.
    eapply snd_last; [apply (snd_item_list a_type Less "<" Greater ">" _ n eq_refl eq_refl eq_refl eq_refl Hpt type_nonempty)|].
    intros ts w' (w1 & -> & H). now constructor.
Qed.
End Types.

Lemma weak_type n : weak a_type (parse_type mch n).
Proof. induction n as [|n IH]; cbn [parse_type]; [apply snd_pdiverge | apply weak_body, IH]. Qed.

(** *** Functions *)
Lemma weak_parameter n : weak a_parameter (parse_parameter mch n).
Proof.
  unfold parse_parameter. repeat one. eapply snd_last; [apply weak_type|]. intros t w H. now constructor.
Qed.
Lemma sound_parameters_loop n m :
  sound (fun w xs => exists w', w = w' ++ [tok ")"] /\ commas a_parameter CloseParen w' xs)
    (parameters_loop mch m (parse_parameter mch n)).
Proof.
  induction m as [|m IH]; cbn [parameters_loop]; [apply snd_pdiverge|]. one.
  - apply snd_pret. exists []. split; [reflexivity | constructor].
  - intros ts e x s' [_ N] V He E. apply plet_ok in E. destruct E as (a & s1 & E1 & E2).
    apply plet_ok in E2. destruct E2 as (t & s2 & E2 & E3).
    destruct (weak_parameter n _ _ _ _ I V He E1) as [(w & r & -> & -> & V' & Ga)|[_ ->]].
    + assert (Nw : not_before CloseParen w).
      { destruct Ga as [wi i wt ty Hi Ht]. destruct (id_first _ _ Hi) as (u & -> & [Hu|Hu]); cbn; rewrite Hu; discriminate. }
      assert (s2 = (r, e)) as ->.
      { destruct r as [|t' r]; cbn in E2; [destruct e; [|discriminate]|]; injection E2 as _ <-; reflexivity. }
      destruct (fst t); try discriminate E3.
      * apply plet_ok in E3. destruct E3 as (u & s3 & E3 & E4).
        destruct (exp_inv CloseParen ")" _ _ _ _ eq_refl eq_refl V' E3) as (ts' & -> & -> & V2).
        apply pret_ok in E4. destruct E4 as [<- <-]. left.
        exists (w ++ [tok ")"]), ts'. split; [fin; reflexivity|]. repeat split; [assumption|].
        exists w. split; [reflexivity | now constructor].
      * apply plet_ok in E3. destruct E3 as (u & s3 & E3 & E4).
        destruct (exp_inv Comma "," _ _ _ _ eq_refl eq_refl V' E3) as (ts' & -> & -> & V2).
        apply plet_ok in E4. destruct E4 as (xs & s4 & E4 & E5). apply pret_ok in E5. destruct E5 as [<- <-].
        destruct (IH _ _ _ _ I V2 He E4) as [(w' & r' & -> & -> & V3 & (w2 & -> & Gw))|[? _]]; [left|discriminate].
        exists (w ++ tok "," :: w2 ++ [tok ")"]), r'. split; [fin; reflexivity|]. repeat split; [assumption|].
        exists (w ++ tok "," :: w2). split; [fin; reflexivity | now constructor].
    + exfalso. cbn in E2. injection E2 as <- <-. discriminate.
Qed.
Lemma sound_parameters n : sound a_parameters (parse_parameters mch n).
Proof.
  unfold parse_parameters. one. eapply snd_spells; [apply sound_parameters_loop|]. intros w x (w' & -> & H). now constructor.
Qed.

Lemma weak_func n : weak a_func (parse_func mch n).
Proof.
  unfold parse_func. repeat one. by_lemma sound_parameters as ps wp Hp. one.
  - eapply (snd_last _ _ (fun w rs => a_result (tok "->" :: w) rs)).
    + one. destruct (kind_eqb_spec (fst t) OpenParen) as [Et|Nt].
      * eapply snd_last; [apply snd_weak, snd_end, sound_parameters|]. intros rs w H. now constructor.
      * intros ts e x s' [_ F] V He E. eapply first_not in F; [|exact Nt].
        assert (X : snd_ (fun ts => any ts /\ not_before OpenParen ts) true (fun w x => a_type w x /\ not_before OpenParen w) (parse_type mch n)).
        { apply snd_not_before; [apply snd_end, weak_type | exact type_nonempty]. }
        assert (Y : snd_ (fun ts => any ts /\ not_before OpenParen ts) true (fun w rs => a_result (tok "->" :: w) rs)
           (plet t := parse_type mch n in pret {| rl_named := []; rl_anonymous := Some t |})).
        { eapply snd_last; [exact X|]. intros ty w [H N]. now constructor. }
        exact (Y _ _ _ _ (conj I F) V He E).
    + intros rs w H. fin. now constructor.
  - eapply snd_bind; [apply (snd_pret _ false (fun w x => w = [] /\ x = {| rl_named := []; rl_anonymous := None |})); auto|].
    intros rs w [-> ->]. one. rewrite <- (app_nil_r wp). constructor; [assumption | constructor].
Qed.
Lemma sound_func_item n : sound a_func_item (parse_func_item mch n).
Proof.
  unfold parse_func_item. repeat one. eapply (snd_weak_exp _ _ Semicolon ";" a_func); try reflexivity; [apply weak_func|].
  intros f w H. one. now constructor.
Qed.

(** *** Type definitions *)
Lemma trial_ok {L A} (p : parser L (option A)) l x l' : trial p l = (Ok x, l') ->
  (exists a, x = Some a /\ p l = (Ok (Some a), l')) \/ (x = None /\ l' = l /\ exists l1, p l = (Ok None, l1)).
Proof.
  unfold trial. destruct (p l) as [[[a|]| | |] l1]; intros E; try discriminate; injection E as <- <-; eauto 6.
Qed.

Lemma sound_method n : sound a_method (parse_method mch n).
Proof.
  unfold parse_method. one.
  - by_lemma sound_parameters as ps wp Hp. repeat one. now constructor.
  - intros ts e x s' [_ N] V He E. apply plet_ok in E. destruct E as (o & s1 & E1 & E2).
    unfold at_static in E1. apply trial_ok in E1. destruct E1 as [(id & -> & E1)|(-> & -> & _)].
    + assert (X : sound (fun w o => forall i, o = Some i -> exists wi, a_name wi i /\ w = wi ++ [tok ":"; tok "static"])
        (plet id := parse_id mch in exp mch Colon ;;>
         plet b := ate mch KStatic in pret (if b then Some id else None))).
      { repeat one; intros j Ej; [|discriminate]. injection Ej as <-. exists wi. auto. }
      destruct (X _ _ _ _ I V He E1) as [(w & r & -> & -> & V' & G)|[? _]]; [|discriminate].
      destruct (G id eq_refl) as (wi & Hi & ->).
      assert (Y : sound (fun w => a_method ((wi ++ [tok ":"; tok "static"]) ++ w))
        (plet f := parse_func mch n in exp mch Semicolon ;;> pret (MStatic id f))).
      { eapply (snd_weak_exp _ _ Semicolon ";" a_func); try reflexivity; [apply weak_func|].
        intros f w H. one. fin. now constructor. }
      destruct (Y _ _ _ _ I V' He E2) as [(w & r' & -> & -> & V2 & G2)|[? _]]; [left|discriminate].
      eexists _, r'. repeat split; [|assumption|exact G2]. rewrite <- !app_assoc. reflexivity.
    + assert (Y : sound a_method (plet f := parse_func_item mch n in pret (MMethod [] f))).
      { eapply snd_last; [apply sound_func_item|]. intros f w H. now constructor. }
      exact (Y _ _ _ _ I V He E2).
Qed.
Lemma sound_methods n m :
  sound (fun w ms => exists w', w = w' ++ [tok "}"] /\ many a_method w' ms) (methods_loop mch m (parse_method mch n)).
Proof.
  induction m as [|m IH]; cbn [methods_loop]; [apply snd_pdiverge|]. one.
  destruct (kind_eqb (fst t) CloseBrace).
  - one. one. exists []. split; [reflexivity | constructor].
  - by_lemma sound_method as x w H. by_lemma IH as xs w' H'. destruct H' as (w2 & -> & H'). one.
    exists (w ++ w2). split; [fin; reflexivity | now constructor].
Qed.
Lemma sound_resource n : sound a_resource (parse_resource mch n).
Proof.
  unfold parse_resource. repeat one.
  assert (X : snd_ (fun ts => any ts /\ first_is t ts) false (fun w ms => a_resource (tok "resource" :: wi ++ w) (IResource i ms))
    (match fst t with
     | Semicolon => exp mch Semicolon ;;> pret []
     | OpenBrace => exp mch OpenBrace ;;> methods_loop mch n (parse_method mch n)
     | _ => pret []
     end)).
  { destruct (fst t); try (apply snd_pret; fin; now constructor).
    - one. eapply snd_spells; [apply sound_methods|]. intros w ms (w' & -> & H). now constructor.
    - one. one. now constructor. }
  eapply snd_last; [exact X|]. intros ms w H. fin. exact H.
Qed.

Lemma weak_field n : weak a_field (parse_field mch n).
Proof. unfold parse_field. repeat one. eapply snd_last; [apply weak_type|]. intros t w H. now constructor. Qed.
Lemma sound_case n : sound a_case (parse_case mch n).
Proof.
  unfold parse_case. repeat one; [|now constructor].
  eapply (snd_weak_exp _ _ CloseParen ")" a_type); try reflexivity; [apply weak_type|]. intros t w H. one. now constructor.
Qed.
Lemma name_nonempty i : ~ a_name [] i.
Proof. intros H. inversion H. Qed.

(** A keyword, a name and a list in braces *)
Lemma sound_braced k kw {A} (G : spelling A) p (f : text -> list A -> iitem) n :
  word_of k = Some kw -> tok kw = (k, txt kw) -> weak G p -> (forall x, ~ G [] x) ->
  sound (braced kw G f)
    (handled (exp mch k ;;> plet id := parse_id mch in
      plet xs := parse_item_list mch n OpenBrace CloseBrace p in pret (f id xs))).
Proof.
  intros Hw Ht Hp Hne. apply snd_handled. eapply snd_exp_then; [exact Hw | exact Ht|]. one.
  eapply snd_last; [apply (snd_item_list G OpenBrace "{" CloseBrace "}" _ n eq_refl eq_refl eq_refl eq_refl Hp Hne)|].
  intros xs w (w' & -> & H). now constructor.
Qed.
Lemma sound_record n : sound a_record (parse_record mch n).
Proof.
  apply (sound_braced KRecord "record" a_field _ IRecord n eq_refl eq_refl (weak_field n)).
  intros x H. inversion H as [wi i wt t Hi Ht E]. destruct (id_first _ _ Hi) as (u & -> & _). discriminate.
Qed.
Lemma sound_flags n : sound a_flags (parse_flags mch n).
Proof.
  apply (sound_braced KFlags "flags" a_name _ IFlags n eq_refl eq_refl (snd_weak _ true _ _ (snd_same _ _ _ _ sound_id)) name_nonempty).
Qed.
Lemma sound_variant n : sound a_variant (parse_variant mch n).
Proof.
  apply (sound_braced KVariant "variant" a_case _ IVariant n eq_refl eq_refl (snd_weak _ true _ _ (sound_case n))).
  intros x H. inversion H as [wi i Hi E|wi i wt t Hi Ht E]; destruct (id_first _ _ Hi) as (u & Eu & _); subst; discriminate.
Qed.
Lemma sound_enum n : sound an_enum (parse_enum mch n).
Proof.
  apply (sound_braced KEnum "enum" a_name _ IEnum n eq_refl eq_refl
    (snd_weak _ true _ _ (snd_handled _ _ _ _ (snd_same _ _ _ _ sound_id))) name_nonempty).
Qed.
Lemma sound_type_item n : sound a_type_item (parse_type_item mch n).
Proof.
  unfold parse_type_item. repeat one.
  eapply (snd_weak_exp _ _ Semicolon ";" a_type); try reflexivity; [apply weak_type|]. intros t w H. one. now constructor.
Qed.

(** *** Interfaces *)
Lemma sound_type_def_at P n : snd_ (fun ts => P ts /\ exists t, first_is t ts /\ fst t = KType) false a_type_item (parse_type_def mch n).
Proof.
  unfold parse_type_def. one. one. intros ts e x s' [[_ (u & F1 & Fu)] F2] V He E.
  assert (fst t = KType) as Et.
  { destruct ts; cbn in F1, F2; congruence. }
  rewrite Et in E. exact (snd_same _ _ _ _ (sound_type_item n) _ _ _ _ I V He E).
Qed.
Lemma sound_interface_item n : sound an_interface_item (parse_interface_item mch n).
Proof.
  unfold parse_interface_item. one. one.
  assert (D : snd_ (fun ts => any ts /\ first_is t ts) false an_interface_item (plet f := parse_func_item mch n in pret (IFunc f))).
  { eapply snd_last; [apply snd_end, sound_func_item|]. intros f w H. now constructor. }
  destruct (fst t) eqn:Et; try exact D.
  - eapply snd_last; [apply snd_end, sound_use|]. intros u w H. now constructor.
  - apply snd_same. eapply snd_spells; [eapply snd_on; [apply sound_type_def_at with (P := any)|]|].
    + intros ts [Ha F]. split; [exact I|]. exists t. auto.
    + intros w i H. now apply ii_type.
  - apply snd_same. eapply snd_spells; [apply snd_end, sound_resource|]. intros w i H. now apply ii_resource.
  - apply snd_same. eapply snd_spells; [apply snd_end, sound_record|]. intros w i H. now apply ii_record.
  - apply snd_same. eapply snd_spells; [apply snd_end, sound_flags|]. intros w i H. now apply ii_flags.
  - apply snd_same. eapply snd_spells; [apply snd_end, sound_variant|]. intros w i H. now apply ii_variant.
  - apply snd_same. eapply snd_spells; [apply snd_end, sound_enum|]. intros w i H. now apply ii_enum.
Qed.
Lemma sound_until {A} (G : spelling A) k s p n : word_of k = Some s -> tok s = (k, txt s) -> sound G p ->
  sound (fun w xs => exists w', w = w' ++ [tok s] /\ many G w' xs) (until_eat mch n k p).
Proof.
  intros Hw Ht Hp. induction n as [|n IH]; cbn [until_eat]; [apply snd_pdiverge|].
  eapply snd_ate; [exact Hw | exact Ht | |].
  - one. exists []. split; [reflexivity | constructor].
  - by_lemma Hp as x w H. by_lemma IH as xs w' H'. destruct H' as (w2 & -> & H'). one.
    exists (w ++ w2). split; [fin; reflexivity | now constructor].
Qed.
Lemma sound_interface_items n : sound interface_body (parse_interface_items mch n).
Proof.
  unfold parse_interface_items. repeat one.
  eapply snd_spells; [apply (sound_until an_interface_item CloseBrace "}" _ n eq_refl eq_refl (sound_interface_item n))|].
  intros w xs (w' & -> & H). now constructor.
Qed.

(** *** Worlds *)
Lemma sound_extern n : sound an_extern (parse_extern mch n).
Proof.
  unfold parse_extern. one. intros ts e x s' _ V He E. apply plet_ok in E. destruct E as (o & s1 & E1 & E2).
  unfold at_extern in E1. apply trial_ok in E1. destruct E1 as [([id isf] & -> & E1)|(-> & -> & _)].
  - assert (X : sound (fun w o => forall i b, o = Some (i, b) -> exists wi, a_name wi i /\ w = wi ++ [tok ":"])
      (plet id := parse_id mch in plet b := ate mch Colon in
       if b then (plet t := pk mch in
         match fst t with KFunc => pret (Some (id, true)) | KInterface => pret (Some (id, false)) | _ => perr end)
       else pret None)).
    { repeat one.
      - destruct (fst t); try apply snd_perr; one; intros j b Ej; injection Ej as <- <-; exists wi; auto.
      - intros; discriminate. }
    destruct (X _ _ _ _ I V He E1) as [(w & r & -> & -> & V' & G)|[? _]]; [|discriminate].
    destruct (G id isf eq_refl) as (wi & Hi & ->).
    assert (Y : sound (fun w => an_extern ((wi ++ [tok ":"]) ++ w))
      (if isf then (plet f := parse_func mch n in exp mch Semicolon ;;> pret (EFunc id f))
       else (exp mch KInterface ;;> plet is := parse_interface_items mch n in pret (EInterface id is)))).
    { destruct isf.
      - eapply (snd_weak_exp _ _ Semicolon ";" a_func); try reflexivity; [apply weak_func|].
        intros f w H. one. fin. now constructor.
      - one. eapply snd_last; [apply sound_interface_items|]. intros is w H. fin. now constructor. }
    destruct isf; (destruct (Y _ _ _ _ I V' He E2) as [(w & r' & -> & -> & V2 & G2)|[? _]]; [left|discriminate]);
      (eexists _, r'; repeat split; [|assumption|exact G2]; rewrite <- !app_assoc; reflexivity).
  - assert (Y : sound an_extern (plet p := parse_use_path mch in exp mch Semicolon ;;> pret (EUsePath p))).
    { by_lemma sound_use_path as p w H. repeat one. now constructor. }
    exact (Y _ _ _ _ I V He E2).
Qed.
Lemma sound_include n : sound a_world_item (parse_include mch n).
Proof.
  unfold parse_include. repeat one. by_lemma sound_use_path as p wp Hp. one.
  - eapply (snd_last _ _ (fun w ns => a_world_item (tok "include" :: wp ++ tok "with" :: w) (WInclude p ns))).
    + one. eapply snd_spells; [apply (sound_until an_include_name CloseBrace "}" _ n eq_refl eq_refl)|].
      * unfold parse_include_name. repeat one. now constructor.
      * intros w ns (w' & -> & H). now constructor.
    + intros ns w H. fin. exact H.
  - eapply (snd_last _ _ (fun w ns => a_world_item (tok "include" :: wp ++ w) (WInclude p ns))).
    + one. one. now constructor.
    + intros ns w H. fin. exact H.
Qed.
Lemma sound_world_item n : sound a_world_item (parse_world_item mch n).
Proof.
  unfold parse_world_item. one. one.
  destruct (fst t) eqn:Et; try apply snd_perr.
  - eapply snd_last; [apply snd_end, sound_use|]. intros u w H. now constructor.
  - eapply snd_last; [eapply snd_on; [apply sound_type_def_at with (P := any)|]|].
    + intros ts [Ha F]. split; [exact I|]. exists t. auto.
    + intros i w H. now apply wi_type.
  - eapply snd_last; [apply snd_end, sound_resource|]. intros i w H. now apply wi_resource.
  - eapply snd_last; [apply snd_end, sound_record|]. intros i w H. now apply wi_record.
  - eapply snd_last; [apply snd_end, sound_variant|]. intros i w H. now apply wi_variant.
  - apply snd_same. unfold parse_import. repeat one. eapply snd_last; [apply sound_extern|]. intros i w H. now constructor.
  - apply snd_same. unfold parse_export. repeat one. eapply snd_last; [apply sound_extern|]. intros i w H. now constructor.
  - apply snd_same, snd_end, sound_include.
Qed.

(** *** Files *)
Lemma sound_world n : sound (fun w x => exists wi i wb its, a_name wi i /\ many a_world_item wb its /\
    w = wi ++ tok "{" :: wb ++ [tok "}"] /\ x = {| wo_id := i; wo_items := its |}) (parse_world mch n).
Proof.
  unfold parse_world. repeat one. eapply snd_last.
  - apply snd_handled, (sound_until a_world_item CloseBrace "}" _ n eq_refl eq_refl (sound_world_item n)).
  - intros is w (w' & -> & H). exists wi, i, w', is. auto.
Qed.
Lemma sound_interface n : sound (fun w x => exists wi i wb its, a_name wi i /\ interface_body wb its /\
    w = wi ++ wb /\ x = {| if_name := i; if_items := its |}) (parse_interface mch n).
Proof.
  unfold parse_interface. repeat one. eapply snd_last; [apply sound_interface_items|].
  intros is w H. exists wi, i, w, is. auto.
Qed.
Lemma top_use_ok ts e x s' : Forall valid ts -> wfine e -> parse_top_use mch (ts, e) = (Ok x, s') ->
  exists wp p wa a rest, ts = wp ++ wa ++ rest /\ s' = (rest, e) /\ Forall valid rest /\ a_use_path wp p /\ opt_as wa a /\
    not_before Colon (wa ++ rest) /\ (a = None -> not_before KAs rest) /\ x = {| tu_item := p; tu_as := a |}.
Proof.
  intros V He E. unfold parse_top_use in E. apply (proj1 (handled_ok _ _ _ _)) in E.
  apply plet_ok in E. destruct E as (p & s1 & E1 & E2).
  assert (exists wp r, ts = wp ++ r /\ s1 = (r, e) /\ Forall valid r /\ a_use_path wp p /\ not_before Colon r)
    as (wp & r & -> & -> & V1 & Hp & Nc).
  { unfold parse_use_path in E1. apply (proj1 (handled_ok _ _ _ _)) in E1.
    apply plet_ok in E1. destruct E1 as (i & s2 & E1 & E3).
    destruct (sound_id _ _ _ _ I V He E1) as [(w & r & -> & -> & V1 & Hi)|[? _]]; [|discriminate].
    apply plet_ok in E3. destruct E3 as (b & s3 & E3 & E4).
    destruct (ate_inv Colon ":" _ _ _ _ eq_refl eq_refl V1 E3) as [(-> & ts' & -> & -> & V2)|(-> & -> & N)].
    - destruct (sound_path i _ _ _ _ I V2 He E4) as [(? & ? & _ & _ & _ & [])|[? _]]; discriminate.
    - apply pret_ok in E4. destruct E4 as [<- <-]. exists w, r. repeat split; auto. }
  apply plet_ok in E2. destruct E2 as (b & s3 & E2 & E3).
  destruct (ate_inv KAs "as" _ _ _ _ eq_refl eq_refl V1 E2) as [(-> & ts' & -> & -> & V2)|(-> & -> & N)].
  - apply plet_ok in E3. destruct E3 as (a & s4 & E3 & E4). apply pret_ok in E4. destruct E4 as [<- <-].
    apply plet_ok in E3. destruct E3 as (i & s5 & E3 & E4). apply pret_ok in E4. destruct E4 as [<- <-].
    destruct (sound_id _ _ _ _ I V2 He E3) as [(w & r & -> & -> & V3 & Hi)|[? _]]; [|discriminate].
    exists wp, p, (tok "as" :: w), (Some i), r. repeat split; auto; try discriminate. now constructor.
  - apply plet_ok in E3. destruct E3 as (a & s4 & E3 & E4). apply pret_ok in E4. destruct E4 as [<- <-].
    apply pret_ok in E3. destruct E3 as [<- <-].
    exists wp, p, [], None, r. repeat split; auto. constructor.
Qed.

Lemma loop_eos n fuel s is s' : ast_loop mch fuel n EndOfStream s = (Ok is, s') -> is = [] /\ s' = s.
Proof. destruct fuel; cbn; intros E; [discriminate|]. apply pret_ok in E. destruct E as [<- <-]. auto. Qed.

Lemma sound_loop n fuel : forall k v ts e is s', valid (k, v) -> Forall valid ts -> wfine e ->
  ast_loop mch fuel n k (ts, e) = (Ok is, s') -> e = Ends [] /\ s' = ([], Ends []) /\ file_items ((k, v) :: ts) is.
Proof.
  induction fuel as [|fuel IH]; intros k v ts e is s' Vk V He E; cbn [ast_loop] in E; [discriminate|].
  destruct (kind_eqb_spec k EndOfStream) as [->|Nk]; [destruct (valid_eos _ Vk)|].
  apply plet_ok in E. destruct E as (i & s1 & E1 & E2).
  apply plet_ok in E2. destruct E2 as (t & s2 & E2 & E3).
  apply plet_ok in E3. destruct E3 as (is' & s3 & E3 & E4). apply pret_ok in E4. destruct E4 as [<- <-].
  (* what follows the item *)
  assert (N : forall r, s1 = (r, e) -> Forall valid r -> e = Ends [] /\ s3 = ([], Ends []) /\ file_items r is').
  { intros r -> Vr. destruct r as [|t' r]; cbn in E2.
    - destruct e as [w|]; [|discriminate]. injection E2 as <- <-. cbn in He. subst w.
      apply loop_eos in E3. destruct E3 as [-> ->]. repeat split. constructor.
    - injection E2 as <- <-. inversion Vr; subst. destruct t' as [k' v']. cbn [fst] in E3. eapply IH; eauto. }
  assert (Other : ~ In k [KUse; KWorld; KInterface] -> ast_item_after mch n k = pret ANothing ->
    e = Ends [] /\ s3 = ([], Ends []) /\ file_items ((k, v) :: ts) (i :: is')).
  { intros Hk Ek. rewrite Ek in E1. apply pret_ok in E1. destruct E1 as [<- <-].
    destruct (N ts eq_refl V) as (He' & Hs & H). repeat split; auto. now constructor. }
  destruct k; try (apply Other; [intros H; cbn in H; intuition discriminate | reflexivity]); clear Other; cbn [ast_item_after] in E1.
  - (* use *) apply plet_ok in E1. destruct E1 as (x & s4 & E1 & E4). apply pret_ok in E4. destruct E4 as [<- <-].
    destruct (top_use_ok _ _ _ _ V He E1) as (wp & p & wa & a & r & -> & -> & Vr & Hp & Ha & N1 & N2 & ->).
    destruct (N r eq_refl Vr) as (He' & Hs & H). repeat split; auto.
    rewrite (snd_kw KUse v "use" eq_refl eq_refl Vk). now constructor.
  - (* interface *) apply plet_ok in E1. destruct E1 as (x & s4 & E1 & E4). apply pret_ok in E4. destruct E4 as [<- <-].
    destruct (sound_interface n _ _ _ _ I V He E1) as [(w & r & -> & -> & Vr & (wi & i & wb & its & Hi & Hb & -> & ->))|[? _]]; [|discriminate].
    destruct (N r eq_refl Vr) as (He' & Hs & H). repeat split; auto.
    rewrite (snd_kw KInterface v "interface" eq_refl eq_refl Vk). rewrite <- app_assoc. now constructor.
  - (* world *) apply plet_ok in E1. destruct E1 as (x & s4 & E1 & E4). apply pret_ok in E4. destruct E4 as [<- <-].
    destruct (sound_world n _ _ _ _ I V He E1) as [(w & r & -> & -> & Vr & (wi & i & wb & its & Hi & Hb & -> & ->))|[? _]]; [|discriminate].
    destruct (N r eq_refl Vr) as (He' & Hs & H). repeat split; auto.
    rewrite (snd_kw KWorld v "world" eq_refl eq_refl Vk). fin. now constructor.
Qed.

Lemma sound_start n fuel ts e t s1 is s' : Forall valid ts -> wfine e ->
  nxt mch (ts, e) = (Ok t, s1) -> ast_loop mch fuel n (fst t) s1 = (Ok is, s') ->
  e = Ends [] /\ s' = ([], Ends []) /\ file_items ts is.
Proof.
  intros V He E1 E2. destruct ts as [|t' ts]; cbn in E1.
  - destruct e as [w|]; [|discriminate]. injection E1 as <- <-. cbn in He. subst w.
    apply loop_eos in E2. destruct E2 as [-> ->]. repeat split. constructor.
  - injection E1 as <- <-. inversion V; subst. destruct t' as [k v]. eapply sound_loop; eauto.
Qed.

Theorem sound_ast n ts e a s' : Forall valid ts -> wfine e -> parse_ast mch n (ts, e) = (Ok a, s') ->
  e = Ends [] /\ a_file ts a.
Proof.
  intros V He E. unfold parse_ast in E. apply (proj1 (handled_ok _ _ _ _)) in E.
  apply plet_ok in E. destruct E as (t & s1 & E1 & E2).
  destruct (kind_eqb_spec (fst t) KPackage) as [Et|Nt].
  - assert (exists ts', ts = t :: ts' /\ s1 = (ts', e)) as (ts' & -> & ->).
    { destruct ts as [|t' ts]; cbn in E1; [destruct e; [|discriminate]|]; injection E1 as <- <-; [discriminate|eauto]. }
    inversion V as [|? ? Vt V']; subst.
    apply plet_ok in E2. destruct E2 as (p & s2 & E2 & E3).
    destruct (sound_package _ _ _ _ I V' He E2) as [(w & r & -> & -> & Vr & Hp)|[? _]]; [|discriminate].
    apply plet_ok in E3. destruct E3 as (t2 & s3 & E3 & E4).
    apply plet_ok in E4. destruct E4 as (is & s4 & E4 & E5). apply pret_ok in E5. destruct E5 as [<- <-].
    destruct (sound_start n n r e t2 s3 is s4 Vr He E3 E4) as (He' & _ & H). split; [exact He'|].
    destruct t as [k v]. cbn in Et. subst k. rewrite (snd_kw KPackage v "package" eq_refl eq_refl Vt).
    apply (file_package (tok "package" :: w) p r is Hp H).
  - apply plet_ok in E2. destruct E2 as (is & s4 & E2 & E5). apply pret_ok in E5. destruct E5 as [<- <-].
    destruct (sound_start n n ts e t s1 is s4 V He E1 E2) as (He' & _ & H). split; [exact He'|].
    constructor; [exact H|]. destruct ts as [|t' ts]; [exact I|]. cbn in E1. injection E1 as <- <-. exact Nt.
Qed.
End Sound.
