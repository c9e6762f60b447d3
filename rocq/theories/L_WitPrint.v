(** What the printer of S_WitPrint writes is spelled as the grammar says and
    is cut into the same tokens. *)
From Coq Require Import Arith NArith ZArith Decimal DecimalN String Ascii Bool List Lia.
From Verif Require Import GoBase M_Text S_Utf M_WitLex S_WitLex L_WitLex L_WitToks L_WitHist P_WitLex.
From Verif Require Import M_WitAst S_WitParse S_WitPrint L_WitSound.
From Verif Require S_WatPrint L_WatPrint L_WatLit S_WatParse.
Import ListNotations.
Open Scope nat_scope.
Local Notation app := Datatypes.app.

Lemma all_in {A} (P : A -> Prop) l : all P l -> forall x, In x l -> P x.
Proof. induction l as [|y l IH]; cbn; [tauto|]. intros [H H'] x [->|Hx]; auto. Qed.

Section Print.
Variable U : tables.
Hypothesis HU : good_tables U.

(** A token that counts: of the right form, and neither whitespace nor comment *)
Definition solid (t : tk) : Prop := valid U t /\ space_or_comment (fst t) = false.

(** ** Blanks between tokens *)
Lemma begins_one P Q w : begins P w -> begins Q w -> exists r, P r /\ Q r.
Proof.
  intros (r & t & V & Hp & B) (r' & t' & V' & Hq & B').
  pose proof (decode_encoded _ _ _ V B) as D. pose proof (decode_encoded _ _ _ V' B') as D'.
  rewrite D in D'. inversion D'; subst. eauto.
Qed.
Lemma word_begins first w : word U first w -> begins first w.
Proof.
  intros (r & rs & V & Hf & _ & _ & B). exists r, (utf8_text rs). split; [exact V|]. split; [exact Hf|]. exact B.
Qed.
Lemma space_letter r : space r -> ~ letter U r.
Proof.
  intros S L. destruct HU as (_ & _ & H & _). destruct (H r S) as [Hl Hd]. unfold letter in L.
  destruct L as [L|[_ L]]; [|congruence]. unfold space in S. cbn [In] in S. lia.
Qed.
Lemma space_digit r : space r -> ~ digit U r.
Proof.
  intros S L. destruct HU as (_ & _ & H & _). destruct (H r S) as [Hl Hd]. unfold digit in L.
  destruct L as [L|[_ L]]; [|congruence]. unfold space in S. cbn [In] in S. lia.
Qed.
Lemma letter_digit_first w : word U (fun r => letter U r \/ r = code "_") w -> ~ begins (fun r => r = code "%") w.
Proof.
  intros W B. destruct (begins_one _ _ _ (word_begins _ _ W) B) as (r & [L|E] & ->); [|discriminate E].
  destruct L as [L|[L _]]; unfold code in L; cbn in L; lia.
Qed.

Lemma in_words s k : In (s, k) (keywords ++ marks) ->
  token_text U k (txt s) /\ space_or_comment k = false /\ (forall r, separate U k (txt s) (" "%char :: r)) /\
  exists c w, txt s = c :: w /\ (32 < N_of_ascii c < 128)%N.
Proof.
  assert (B : forall P r, begins P (" "%char :: r) -> P 32%N) by (intros P r H; now apply begins_ascii in H).
  assert (X : forall r, ~ begins (inner U) (" "%char :: r)).
  { intros r H. apply B in H. unfold inner, letter, digit in H. cbn in H. lia. }
  intros H. assert (H' := H). cbn [keywords marks app In] in H.
  repeat (destruct H as [H|H]; [injection H as <- <-;
    (split; [eexists; split; [exact H' | reflexivity]|]; split; [reflexivity|];
     split; [intros r; cbn [separate]; first [exact I | apply X | idtac]|do 2 eexists; split; [reflexivity|cbn; lia]])|]);
  try contradiction H.
  - intros (t & E). discriminate E.
  - split; intros (t & E); discriminate E.
Qed.
Lemma tok_in s : existsb (String.eqb s) (map fst (keywords ++ marks)) = true -> exists k, tok s = (k, txt s) /\ In (s, k) (keywords ++ marks).
Proof.
  intros H. unfold tok. destruct (find _ _) as [[s' k]|] eqn:F.
  - apply find_some in F. destruct F as [F E]. cbn in E. apply String.eqb_eq in E. subst s'. eauto.
  - exfalso. apply existsb_exists in H. destruct H as (s' & Hi & E). apply String.eqb_eq in E. subst s'.
    apply in_map_iff in Hi. destruct Hi as ([s' k] & <- & Hi). pose proof (find_none _ _ F _ Hi) as N. cbn in N.
    now rewrite String.eqb_refl in N.
Qed.
Lemma solid_tok s : existsb (String.eqb s) (map fst (keywords ++ marks)) = true -> solid (tok s).
Proof.
  intros H. destruct (tok_in s H) as (k & -> & Hi). destruct (in_words s k Hi) as (H1 & H2 & _). split; assumption.
Qed.

(** A token that counts does not begin with a space, and a blank ends it. *)
Lemma solid_first t r : solid t -> ~ begins space (snd t ++ r).
Proof.
  destruct t as [k w]. intros [V S]. cbn [fst snd] in *. unfold valid in V. cbn [fst snd] in V.
  assert (Ap : forall P, begins P w -> begins P (w ++ r)).
  { intros P (x & t & Vx & Hx & B). exists x, (t ++ bytes r). split; [exact Vx|]. split; [exact Hx|].
    unfold bytes in *. rewrite map_app, B. now rewrite <- app_assoc. }
  assert (K : forall s, In (s, k) (keywords ++ marks) -> w = txt s -> ~ begins space (w ++ r)).
  { intros s Hi -> B. destruct (in_words s k Hi) as (_ & _ & _ & c & v & E & Hc). rewrite E in B. cbn [app] in B.
    apply begins_ascii in B; [|lia]. unfold space in B. cbn in B. lia. }
  destruct k; try discriminate S; try (destruct V as (s & Hi & E); exact (K s Hi E)); cbn [token_text] in V.
  - contradiction V.
  - intros B. destruct V as [V _]. apply word_begins, Ap in V. destruct (begins_one _ _ _ B V) as (x & Sx & [L|E]).
    + exact (space_letter x Sx L).
    + subst x. unfold space in Sx. cbn in Sx. lia.
  - intros B. destruct V as [Nw (rs & Vs & Ds & Ew)]. destruct rs as [|x rs]; [destruct w; [congruence | discriminate Ew]|].
    inversion Vs; subst. inversion Ds; subst.
    assert (V' : begins (digit U) w) by (exists x, (utf8_text rs); auto). apply Ap in V'.
    destruct (begins_one _ _ _ B V') as (y & Sy & Dy). exact (space_digit y Sy Dy).
  - intros B. destruct V as [->|(v & -> & _)]; cbn [app] in B; (apply begins_ascii in B; [|reflexivity]);
      unfold space in B; cbn [In] in B; cbn in B; lia.
Qed.
Lemma solid_blank t r : solid t -> separate U (fst t) (snd t) (" "%char :: r).
Proof.
  destruct t as [k w]. intros [V S]. cbn [fst snd] in *. unfold valid in V. cbn [fst snd] in V.
  assert (B : forall P r, begins P (" "%char :: r) -> P 32%N) by (intros P r' H; now apply begins_ascii in H).
  destruct k; try discriminate S; try (destruct V as (s & Hi & ->); now apply (in_words s _ Hi)); cbn [token_text separate] in *.
  - exact I.
  - intros H. apply B in H. unfold inner, letter, digit in H. cbn in H. lia.
  - intros H. apply B in H. unfold digit in H. cbn in H. lia.
  - destruct (text_eqb w (txt "%")); intros H; apply B in H; unfold inner, letter, digit in H; cbn in H; lia.
Qed.

Lemma blanks_text ts : text_of (blanks ts) = spaced ts.
Proof.
  unfold text_of, blanks, spaced. induction ts as [|t ts IH]; [reflexivity|]. cbn [flat_map app map concat].
  cbn [snd]. rewrite IH, <- app_assoc. reflexivity.
Qed.
Lemma blanks_significant ts : Forall solid ts -> significant (blanks ts) = ts.
Proof.
  unfold significant, blanks. induction 1 as [|t ts [_ Ht] _ IH]; [reflexivity|]. cbn [flat_map app filter].
  rewrite Ht. cbn [negb fst space_or_comment]. now rewrite IH.
Qed.
Lemma blanks_separated ts : Forall solid ts -> separated U (blanks ts).
Proof.
  induction 1 as [|t ts Ht H IH]; [exact I|]. cbn [blanks flat_map app]. destruct t as [k w].
  assert (H0 := Ht). destruct H0 as [V S]. cbn [separated]. split; [exact V|]. split.
  - cbn [map snd concat app]. apply (solid_blank (k, w) _ Ht).
  - split; [|split; [|exact IH]].
    + split; [discriminate|]. apply ascii_all. constructor; [|constructor]. split; [reflexivity|]. unfold space. cbn. tauto.
    + fold (blanks ts). change (concat (map snd (blanks ts))) with (text_of (blanks ts)). rewrite blanks_text. cbn [separate].
      destruct H as [|t' ts' Ht' H']; [apply begins_nil|].
      unfold spaced. cbn [map concat]. rewrite <- app_assoc. apply solid_first, Ht'.
Qed.

(** ** Names and numbers *)
Lemma name_spells i : good_name U i -> a_name [print_name i] i /\ solid (print_name i).
Proof.
  intros [H|H].
  - assert (E : print_name i = (Id, i)).
    { destruct i as [|c w]; [reflexivity|]. cbn [print_name]. destruct (ascii_dec c "%") as [->|N].
      - exfalso. destruct H as [H _]. apply (letter_digit_first _ H).
        exists (code "%"), (bytes w). split; [left; vm_compute; reflexivity|]. split; reflexivity.
      - clear - N. destruct c as [[] [] [] [] [] [] [] []]; try reflexivity. now destruct N. }
    rewrite E. split; [constructor|]. split; [exact H | reflexivity].
  - assert (E : print_name i = (ExplicitId, i)) by (destruct H as [->|(v & -> & _)]; reflexivity).
    rewrite E. split; [constructor|]. split; [exact H | reflexivity].
Qed.
Lemma name_kind i : fst (print_name i) = Id \/ fst (print_name i) = ExplicitId.
Proof.
  unfold print_name. destruct i as [|c i]; [now left|]. destruct c as [[] [] [] [] [] [] [] []]; cbn; auto.
Qed.

Lemma type_name_spells w : good_name U w \/ In w (map txt other_primitives) ->
  a_type [print_type_name w] (TyId w) /\ solid (print_type_name w) /\
  ~ In (fst (print_type_name w)) [Underscore; Greater; OpenParen; CloseParen].
Proof.
  intros H. unfold print_type_name. destruct (find _ _) as [s|] eqn:F.
  - apply find_some in F. destruct F as [Hi E]. apply text_eqb_eq in E. subst w.
    clear H. cbn [other_primitives In] in Hi.
    repeat (destruct Hi as [<-|Hi]; [split; [|split; [apply solid_tok; reflexivity|vm_compute; intuition discriminate]];
      match goal with |- a_type [tok ?s] _ => let k := eval vm_compute in (tok s) in change (tok s) with k end;
      apply ty_name; vm_compute; intuition discriminate|]). destruct Hi.
  - destruct H as [H|H].
    + destruct (name_spells w H) as [H1 H2]. split; [|split; [exact H2|]].
      * pose proof (name_kind w) as K. destruct (print_name w) as [k v] eqn:E. cbn [fst] in K.
        assert (v = w) as -> by (unfold print_name in E; destruct w as [|[[] [] [] [] [] [] [] []] ?]; inversion E; reflexivity).
        apply ty_name. destruct K as [->| ->]; vm_compute; intuition discriminate.
      * destruct (name_kind w) as [-> | ->]; cbn; intuition discriminate.
    + exfalso. apply in_map_iff in H. destruct H as (s & <- & Hs). pose proof (find_none _ _ F _ Hs) as N. cbn in N.
      assert (text_eqb (txt s) (txt s) = true) by now apply text_eqb_eq. congruence.
Qed.

Lemma number_digits d : number_value 10 (S_WatPrint.digits_of d) = N.of_uint d.
Proof.
  rewrite <- L_WatPrint.value_digits. unfold S_WatParse.value.
  rewrite L_WatPrint.no_score by apply L_WatPrint.digits_dec. unfold number_value. generalize 0%N.
  induction d; intros n; cbn [S_WatPrint.digits_of fold_left]; [reflexivity|..]; rewrite IHd; f_equal.
Qed.
Lemma number_spells n : (n < 2 ^ 31)%N -> a_number [print_number n] n /\ solid (print_number n).
Proof.
  intros Hn. unfold print_number.
  assert (E : N.to_uint n = unorm (N.to_uint n)) by (rewrite <- (DecimalN.Unsigned.to_of (N.to_uint n)), (DecimalN.Unsigned.of_to n); reflexivity).
  assert (V : number_value 10 (S_WatPrint.digits_of (N.to_uint n)) = n) by (rewrite number_digits; apply DecimalN.Unsigned.of_to).
  pose proof (L_WatPrint.digits_dec (N.to_uint n)) as H.
  assert (D : Forall (fun c => 48 <= code c <= 57)%N (S_WatPrint.digits_of (N.to_uint n))).
  { eapply Forall_impl; [|exact H]. intros c Hc. exact Hc. }
  assert (W : number_text (S_WatPrint.digits_of (N.to_uint n)) n).
  { destruct (S_WatPrint.digits_of (N.to_uint n)) as [|c w] eqn:Q.
    - exfalso. rewrite E in Q. unfold unorm in Q. destruct (nzhead (N.to_uint n)); discriminate.
    - destruct (ascii_dec c "0") as [->|Nc].
      + rewrite E in Q. unfold unorm in Q. destruct (nzhead (N.to_uint n)) as [|d|d|d|d|d|d|d|d|d|d] eqn:Z; try discriminate.
        * injection Q as <-. rewrite <- V. apply number_zero.
        * exfalso. now apply L_WatPrint.nzhead_no_zero in Z.
      + rewrite <- V. inversion D; subst. apply number_decimal; [|assumption].
        assert (code c <> 48%N); [|lia]. intros X. apply Nc. unfold code in X.
        rewrite <- (ascii_N_embedding c), X. reflexivity. }
  split; [now constructor|]. split; [|reflexivity]. unfold valid. cbn [fst snd token_text]. split.
  - intros Q. rewrite Q in W. inversion W.
  - apply ascii_all. unfold bytes. rewrite Forall_map. eapply Forall_impl; [|exact D]. intros c Hc. cbv beta in Hc. unfold code in Hc.
    split; [lia|]. left. lia.
Qed.

(** ** Lists *)
Lemma commas_spells {A} (G : spelling A) (f : A -> list tk) close xs :
  (forall x, In x xs -> G (f x) x /\ not_before close (f x)) -> commas G close (with_commas f xs) xs.
Proof.
  induction xs as [|x xs IH]; intros H; cbn [with_commas]; [constructor|].
  destruct (H x (or_introl eq_refl)) as [H1 H2].
  destruct xs as [|y xs]; [rewrite app_nil_r; now apply commas_last|].
  apply commas_more; [exact H1 | exact H2 | apply IH; intros z Hz; apply H; now right].
Qed.
Lemma commas_solid {A} (f : A -> list tk) xs : (forall x, In x xs -> Forall solid (f x)) -> Forall solid (with_commas f xs).
Proof.
  induction xs as [|x xs IH]; intros H; cbn [with_commas]; [constructor|].
  apply Forall_app. split; [apply H; now left|]. destruct xs as [|y xs]; [constructor|].
  constructor; [now apply solid_tok|]. apply IH. intros z Hz. apply H. now right.
Qed.
Lemma many_spells {A} (G : spelling A) (f : A -> list tk) xs : (forall x, In x xs -> G (f x) x) -> many G (flat_map f xs) xs.
Proof. induction xs as [|x xs IH]; intros H; cbn [flat_map]; constructor; [apply H; now left | apply IH; intros; apply H; now right]. Qed.
Lemma flat_solid {A} (f : A -> list tk) xs : (forall x, In x xs -> Forall solid (f x)) -> Forall solid (flat_map f xs).
Proof. induction xs as [|x xs IH]; intros H; cbn [flat_map]; [constructor|]. apply Forall_app. split; [apply H; now left | apply IH; intros; apply H; now right]. Qed.

(** ** Types *)
Section Induction.
Variable P : wtype -> Prop.
Definition opt_P (o : option wtype) : Prop := match o with Some t => P t | None => True end.
Hypothesis H1 : P TyU32.
Hypothesis H2 : P TyString.
Hypothesis H3 : P TyFloat32.
Hypothesis H4 : P TyFloat64.
Hypothesis H5 : forall a b, opt_P a -> opt_P b -> P (TyStream a b).
Hypothesis H6 : forall a, opt_P a -> P (TyFuture a).
Hypothesis H7 : forall a b, opt_P a -> opt_P b -> P (TyList a b).
Hypothesis H8 : forall a b, opt_P a -> opt_P b -> P (TyOption a b).
Hypothesis H9 : forall a b, opt_P a -> opt_P b -> P (TyResult a b).
Hypothesis H10 : forall ts, (forall t, In t ts -> P t) -> P (TyTuple ts).
Hypothesis H11 : forall id, P (TyOwn id).
Hypothesis H12 : forall id, P (TyBorrow id).
Hypothesis H13 : forall w, P (TyId w).
Fixpoint wtype_induction (t : wtype) : P t :=
  let opt o := match o return opt_P o with Some t => wtype_induction t | None => I end in
  match t with
  | TyU32 => H1 | TyString => H2 | TyFloat32 => H3 | TyFloat64 => H4
  | TyStream a b => H5 a b (opt a) (opt b)
  | TyFuture a => H6 a (opt a)
  | TyList a b => H7 a b (opt a) (opt b)
  | TyOption a b => H8 a b (opt a) (opt b)
  | TyResult a b => H9 a b (opt a) (opt b)
  | TyTuple ts => H10 ts ((fix go l : forall t, In t l -> P t :=
      match l with
      | [] => fun t (H : In t []) => match H with end
      | x :: r => fun t (H : In t (x :: r)) =>
          match H with or_introl E => eq_ind x P (wtype_induction x) t E | or_intror H => go r t H end
      end) ts)
  | TyOwn id => H11 id | TyBorrow id => H12 id | TyId w => H13 w
  end.
End Induction.

Definition type_ok (t : wtype) : Prop := good_type U t ->
  a_type (print_type t) t /\ Forall solid (print_type t) /\
  forall k, In k [Underscore; Greater; OpenParen; CloseParen] -> not_before k (print_type t).

Ltac kwd := match goal with |- solid (tok _) => apply solid_tok; reflexivity end.
Ltac plain := intros k Hk; cbn [In] in Hk; repeat (destruct Hk as [<-|Hk]; [vm_compute; discriminate|]); destruct Hk.
Ltac sol := repeat first [assumption | match goal with
  | |- Forall _ [] => apply Forall_nil
  | |- Forall _ (_ :: _) => apply Forall_cons; [first [kwd | assumption]|]
  | |- Forall _ (_ ++ _) => apply Forall_app; split
  end].

Lemma two_spells a b : opt_P type_ok a -> opt_P type_ok b -> good_option (good_type U) a -> good_option (good_type U) b ->
  two_types a_type (print_two (option_map print_type a) (option_map print_type b)) a b /\
  Forall solid (print_two (option_map print_type a) (option_map print_type b)).
Proof.
  destruct a as [a|], b as [b|]; cbn [opt_P good_option option_map print_two]; intros Ha Hb Ga Gb.
  - destruct (Ha Ga) as (A1 & A2 & A3), (Hb Gb) as (B1 & B2 & _). split; [|sol].
    constructor; [exact A1 | apply A3; now left | exact B1].
  - destruct (Ha Ga) as (A1 & A2 & A3). split; [|sol]. constructor; [exact A1 | apply A3; now left].
  - destruct (Hb Gb) as (B1 & B2 & _). split; [|sol]. now constructor.
  - split; constructor.
Qed.
Lemma type_spells t : type_ok t.
Proof.
  induction t as [| | | |a b Ha Hb|a Ha|a b Ha Hb|a b Ha Hb|a b Ha Hb|ts H|id|id|w] using wtype_induction; intros G; cbn [print_type].
  - split; [constructor | split; [sol | plain]].
  - split; [constructor | split; [sol | plain]].
  - split; [constructor | split; [sol | plain]].
  - split; [constructor | split; [sol | plain]].
  - destruct G as [Ga Gb]. destruct (two_spells a b Ha Hb Ga Gb) as [H1 H2]. split; [now constructor|]. split; [sol | plain].
  - destruct a as [a|]; [|split; [constructor | split; [sol | plain]]].
    destruct (Ha G) as (H1 & H2 & _). split; [now constructor|]. split; [unfold angle; sol | plain].
  - destruct G as [Ga ->]. destruct a as [a|]; [|contradiction].
    destruct (Ha Ga) as (H1 & H2 & _). split; [now constructor|]. split; [unfold angle; sol | plain].
  - destruct G as [Ga ->]. destruct a as [a|]; [|contradiction].
    destruct (Ha Ga) as (H1 & H2 & _). split; [now constructor|]. split; [unfold angle; sol | plain].
  - destruct G as [Ga Gb]. destruct (two_spells a b Ha Hb Ga Gb) as [H1 H2]. split; [now constructor|]. split; [sol | plain].
  - cbn [good_type] in G. pose proof (all_in _ _ G) as G'. split; [|split; [|plain]].
    + constructor. apply commas_spells. intros t Ht. destruct (H t Ht (G' t Ht)) as (H1 & _ & H3).
      split; [exact H1|]. apply H3. cbn. tauto.
    + unfold angle. assert (Forall solid (with_commas print_type ts)) by (apply commas_solid; intros t Ht; now apply H, G'). sol.
  - destruct (name_spells id G) as [H1 H2]. split; [|split; [unfold angle; sol | plain]].
    change (a_type (tok "own" :: tok "<" :: [print_name id] ++ [tok ">"]) (TyOwn id)). now constructor.
  - destruct (name_spells id G) as [H1 H2]. split; [|split; [unfold angle; sol | plain]].
    change (a_type (tok "borrow" :: tok "<" :: [print_name id] ++ [tok ">"]) (TyBorrow id)). now constructor.
  - destruct (type_name_spells w G) as (H1 & H2 & H3). split; [exact H1|]. split; [sol|].
    intros k Hk E. cbn [not_before] in E. apply H3. now rewrite E.
Qed.

(** ** Functions and uses *)
Ltac name H := let H1 := fresh "N" in let H2 := fresh "S" in destruct (name_spells _ H) as [H1 H2].
Lemma name_not k i : k <> Id -> k <> ExplicitId -> forall r, not_before k (print_name i :: r).
Proof. intros H1 H2 r E. destruct (name_kind i) as [K|K]; cbn in E; congruence. Qed.

Lemma parameter_spells p : good_parameter U p -> a_parameter (print_parameter p) p /\ Forall solid (print_parameter p).
Proof.
  destruct p as [i t]. intros [Hi Ht]. cbn [pa_id pa_type] in *. unfold print_parameter. cbn [pa_id pa_type]. name Hi.
  destruct (type_spells t Ht) as (T1 & T2 & _). split; [|sol].
  change (a_parameter ([print_name i] ++ tok ":" :: print_type t) {| pa_id := i; pa_type := t |}). now constructor.
Qed.
Lemma parameters_spell ps : all (good_parameter U) ps -> a_parameters (print_parameters ps) ps /\ Forall solid (print_parameters ps).
Proof.
  intros H. pose proof (all_in _ _ H) as G. unfold print_parameters. split.
  - constructor. apply commas_spells. intros p Hp. split; [now apply parameter_spells, G|].
    unfold print_parameter. apply name_not; discriminate.
  - assert (Forall solid (with_commas print_parameter ps)) by (apply commas_solid; intros p Hp; now apply parameter_spells, G). sol.
Qed.
Lemma results_spell r : good_results U r -> a_result (print_results r) r /\ Forall solid (print_results r).
Proof.
  destruct r as [ps [t|]]; intros (Hp & Ht & Ho); unfold print_results; cbn [rl_anonymous rl_named good_option] in *.
  - destruct Ho as [->|]; [|discriminate]. destruct (type_spells t Ht) as (T1 & T2 & T3). split; [|sol].
    constructor; [exact T1|]. apply T3. cbn. tauto.
  - destruct ps as [|p ps]; [split; constructor|]. destruct (parameters_spell _ Hp) as [P1 P2]. split; [|sol].
    now constructor.
Qed.
Lemma func_spells f : good_func U f -> a_func (print_func f) f /\ Forall solid (print_func f).
Proof.
  destruct f as [ps r]. intros [Hp Hr]. cbn [ft_params ft_results] in *. unfold print_func. cbn [ft_params ft_results].
  destruct (parameters_spell ps Hp) as [P1 P2], (results_spell r Hr) as [R1 R2]. split; [now constructor | sol].
Qed.
Lemma func_item_spells f : good_func_item U f -> a_func_item (print_func_item f) f /\ Forall solid (print_func_item f).
Proof.
  destruct f as [i f]. intros [Hi Hf]. cbn [fi_id fi_type] in *. unfold print_func_item. cbn [fi_id fi_type]. name Hi.
  destruct (func_spells f Hf) as [F1 F2]. split; [|sol].
  change (a_func_item ([print_name i] ++ tok ":" :: print_func f ++ [tok ";"]) {| fi_id := i; fi_type := f |}). now constructor.
Qed.
Lemma path_spells p : good_path U p -> a_use_path [print_name (up_id p)] p /\ solid (print_name (up_id p)).
Proof.
  destruct p as [i pk n]. intros (Hi & Hp & Hn). cbn [up_id up_package up_name] in *. subst. name Hi. split; [now constructor|assumption].
Qed.
Lemma as_spells a : good_option (good_name U) a -> opt_as (print_as a) a /\ Forall solid (print_as a).
Proof.
  destruct a as [i|]; cbn [good_option print_as]; intros H; [|split; constructor]. name H. split; [now constructor | sol].
Qed.
Lemma use_name_spells u : good_use_name U u -> a_use_name (print_use_name u) u /\ Forall solid (print_use_name u).
Proof.
  destruct u as [i a]. intros [Hi Ha]. cbn [un_name un_as] in *. unfold print_use_name. cbn [un_name un_as]. name Hi.
  destruct (as_spells a Ha) as [A1 A2]. split; [|sol].
  change (a_use_name ([print_name i] ++ print_as a) {| un_name := i; un_as := a |}). now constructor.
Qed.
Lemma use_spells u : good_use U u -> a_use (print_use u) u /\ Forall solid (print_use u).
Proof.
  destruct u as [p ns]. intros [Hp Hn]. cbn [us_from us_names] in *. unfold print_use. cbn [us_from us_names].
  destruct (path_spells p Hp) as [P1 P2]. pose proof (all_in _ _ Hn) as G. split.
  - change (a_use (tok "use" :: [print_name (up_id p)] ++ tok "." :: tok "{" :: with_commas print_use_name ns ++ [tok "}"; tok ";"])
      {| us_from := p; us_names := ns |}). constructor; [exact P1|].
    apply commas_spells. intros x Hx. split; [now apply use_name_spells, G|]. unfold print_use_name. apply name_not; discriminate.
  - assert (Forall solid (with_commas print_use_name ns)) by (apply commas_solid; intros x Hx; now apply use_name_spells, G). sol.
Qed.

(** ** Definitions *)
Lemma method_spells m : good_method U m -> a_method (print_method m) m /\ Forall solid (print_method m).
Proof.
  destruct m as [ps|i f|i f]; cbn [good_method print_method].
  - intros H. destruct (parameters_spell ps H) as [P1 P2]. split; [now constructor | sol].
  - intros [Hi Hf]. name Hi. destruct (func_spells f Hf) as [F1 F2]. split; [|sol].
    change (a_method ([print_name i] ++ tok ":" :: tok "static" :: print_func f ++ [tok ";"]) (MStatic i f)). now constructor.
  - intros [-> H]. destruct (func_item_spells f H) as [F1 F2]. split; [now constructor | sol].
Qed.
Lemma field_spells f : good_field U f -> a_field (print_field f) f /\ Forall solid (print_field f).
Proof.
  destruct f as [i t]. intros [Hi Ht]. cbn [fd_name fd_type] in *. unfold print_field. cbn [fd_name fd_type]. name Hi.
  destruct (type_spells t Ht) as (T1 & T2 & _). split; [|sol].
  change (a_field ([print_name i] ++ tok ":" :: print_type t) {| fd_name := i; fd_type := t |}). now constructor.
Qed.
Lemma case_spells c : good_case U c -> a_case (print_case c) c /\ Forall solid (print_case c).
Proof.
  destruct c as [i [t|]]; intros [Hi Ht]; cbn [cs_name cs_type good_option] in *; unfold print_case; cbn [cs_name cs_type]; name Hi.
  - destruct (type_spells t Ht) as (T1 & T2 & _). split; [|sol].
    change (a_case ([print_name i] ++ tok "(" :: print_type t ++ [tok ")"]) {| cs_name := i; cs_type := Some t |}). now constructor.
  - split; [now constructor | sol].
Qed.
Lemma braced_spells {A B} kw (G : spelling A) (f : A -> list tk) (mk : text -> list A -> B) (good : A -> Prop) i xs :
  existsb (String.eqb kw) (map fst (keywords ++ marks)) = true ->
  (forall x, good x -> G (f x) x /\ Forall solid (f x)) -> (forall x, not_before CloseBrace (f x)) ->
  good_name U i -> all good xs ->
  braced kw G mk (print_braced kw i f xs) (mk i xs) /\ Forall solid (print_braced kw i f xs).
Proof.
  intros Hk Hf Hb Hi Hx. pose proof (all_in _ _ Hx) as Gx. name Hi. unfold print_braced. split.
  - change (braced kw G mk (tok kw :: [print_name i] ++ tok "{" :: with_commas f xs ++ [tok "}"]) (mk i xs)).
    constructor; [assumption|]. apply commas_spells. intros x Hx'. split; [now apply Hf, Gx | apply Hb].
  - assert (Forall solid (with_commas f xs)) by (apply commas_solid; intros x Hx'; now apply Hf, Gx).
    apply Forall_cons; [now apply solid_tok|]. sol.
Qed.
Lemma names_spell x : good_name U x -> a_name [print_name x] x /\ Forall solid [print_name x].
Proof. intros H. name H. split; [assumption | sol]. Qed.
Lemma name_close i r : not_before CloseBrace (print_name i :: r).
Proof. apply name_not; discriminate. Qed.

Lemma resource_spells i ms : good_item U (IResource i ms) ->
  a_resource (print_item (IResource i ms)) (IResource i ms) /\ Forall solid (print_item (IResource i ms)).
Proof.
  intros [Hi Hm]. name Hi. destruct ms as [|m ms].
  - cbn [print_item]. split; [|sol].
    change (a_resource (tok "resource" :: [print_name i] ++ [tok ";"]) (IResource i [])). now apply resource_semicolon.
  - pose proof (all_in _ _ Hm) as Gm. set (l := m :: ms) in *.
    change (print_item (IResource i l)) with (tok "resource" :: print_name i :: tok "{" :: flat_map print_method l ++ [tok "}"]).
    assert (Forall solid (flat_map print_method l)) by (apply flat_solid; intros x Hx; now apply method_spells, Gm).
    split; [|sol].
    change (a_resource (tok "resource" :: [print_name i] ++ tok "{" :: flat_map print_method l ++ [tok "}"]) (IResource i l)).
    constructor; [assumption|]. apply many_spells. intros x Hx. now apply method_spells, Gm.
Qed.
Lemma record_spells i fs : good_item U (IRecord i fs) ->
  a_record (print_item (IRecord i fs)) (IRecord i fs) /\ Forall solid (print_item (IRecord i fs)).
Proof.
  intros [Hi Hx]. apply (braced_spells "record" a_field print_field IRecord (good_field U)); auto using field_spells.
  intros x. apply name_close.
Qed.
Lemma variant_spells i cs : good_item U (IVariant i cs) ->
  a_variant (print_item (IVariant i cs)) (IVariant i cs) /\ Forall solid (print_item (IVariant i cs)).
Proof.
  intros [Hi Hx]. apply (braced_spells "variant" a_case print_case IVariant (good_case U)); auto using case_spells.
  intros x. apply name_close.
Qed.
Lemma flags_spells i fs : good_item U (IFlags i fs) ->
  a_flags (print_item (IFlags i fs)) (IFlags i fs) /\ Forall solid (print_item (IFlags i fs)).
Proof.
  intros [Hi Hx]. apply (braced_spells "flags" a_name (fun f => [print_name f]) IFlags (good_name U)); auto using names_spell.
  intros x. apply name_close.
Qed.
Lemma enum_spells i cs : good_item U (IEnum i cs) ->
  an_enum (print_item (IEnum i cs)) (IEnum i cs) /\ Forall solid (print_item (IEnum i cs)).
Proof.
  intros [Hi Hx]. apply (braced_spells "enum" a_name (fun f => [print_name f]) IEnum (good_name U)); auto using names_spell.
  intros x. apply name_close.
Qed.
Lemma type_item_spells i t : good_item U (IType i t) ->
  a_type_item (print_item (IType i t)) (IType i t) /\ Forall solid (print_item (IType i t)).
Proof.
  intros [Hi Ht]. name Hi. destruct (type_spells t Ht) as (T1 & T2 & _). cbn [print_item]. split; [|sol].
  change (a_type_item (tok "type" :: [print_name i] ++ tok "=" :: print_type t ++ [tok ";"]) (IType i t)). now constructor.
Qed.
Lemma item_spells i : good_item U i -> an_interface_item (print_item i) i /\ Forall solid (print_item i).
Proof.
  intros H. destruct i as [u|i ms|i fs|i fs|i cs|i cs|i t|f].
  - destruct (use_spells u H). split; [now constructor | assumption].
  - destruct (resource_spells _ _ H). split; [now apply ii_resource | assumption].
  - destruct (record_spells _ _ H). split; [now apply ii_record | assumption].
  - destruct (flags_spells _ _ H). split; [now apply ii_flags | assumption].
  - destruct (variant_spells _ _ H). split; [now apply ii_variant | assumption].
  - destruct (enum_spells _ _ H). split; [now apply ii_enum | assumption].
  - destruct (type_item_spells _ _ H). split; [now apply ii_type | assumption].
  - destruct (func_item_spells f H). split; [now constructor | assumption].
Qed.

(** ** Interfaces, worlds, files *)
Lemma body_spells is : all (good_item U) is -> interface_body (print_body is) is /\ Forall solid (print_body is).
Proof.
  intros H. pose proof (all_in _ _ H) as G. unfold print_body.
  assert (Forall solid (flat_map print_item is)) by (apply flat_solid; intros x Hx; now apply item_spells, G).
  split; [|sol]. constructor. apply many_spells. intros x Hx. now apply item_spells, G.
Qed.
Lemma extern_spells e : good_extern U e -> an_extern (print_extern e) e /\ Forall solid (print_extern e).
Proof.
  destruct e as [i f|i is|p]; cbn [good_extern print_extern].
  - intros [Hi Hf]. name Hi. destruct (func_spells f Hf) as [F1 F2]. split; [|sol].
    change (an_extern ([print_name i] ++ tok ":" :: print_func f ++ [tok ";"]) (EFunc i f)). now constructor.
  - intros [Hi Hb]. name Hi. destruct (body_spells is Hb) as [B1 B2]. split; [|sol].
    change (an_extern ([print_name i] ++ tok ":" :: tok "interface" :: print_body is) (EInterface i is)). now constructor.
  - intros H. destruct (path_spells p H) as [P1 P2]. split; [|sol].
    change (an_extern ([print_name (up_id p)] ++ [tok ";"]) (EUsePath p)). now constructor.
Qed.
Lemma include_name_spells n : good_include_name U n -> an_include_name (print_include_name n) n /\ Forall solid (print_include_name n).
Proof.
  destruct n as [i a]. intros [Hi Ha]. cbn [ic_name ic_as] in *. name Hi. name Ha. unfold print_include_name. cbn [ic_name ic_as].
  split; [|sol]. change (an_include_name ([print_name i] ++ tok "as" :: [print_name a]) {| ic_name := i; ic_as := a |}). now constructor.
Qed.
Lemma world_item_spells w : good_world_item U w -> a_world_item (print_world_item w) w /\ Forall solid (print_world_item w).
Proof.
  destruct w as [e|e|p ns|i]; cbn [good_world_item].
  - intros H. destruct (extern_spells e H). cbn [print_world_item]. split; [now constructor | sol].
  - intros H. destruct (extern_spells e H). cbn [print_world_item]. split; [now constructor | sol].
  - intros [Hp Hn]. destruct (path_spells p Hp) as [P1 P2]. destruct ns as [|n ns].
    + cbn [print_world_item]. split; [|sol].
      change (a_world_item (tok "include" :: [print_name (up_id p)] ++ [tok ";"]) (WInclude p [])). now constructor.
    + pose proof (all_in _ _ Hn) as G. set (l := n :: ns) in *.
      change (print_world_item (WInclude p l)) with
        (tok "include" :: print_name (up_id p) :: tok "with" :: tok "{" :: flat_map print_include_name l ++ [tok "}"]).
      assert (Forall solid (flat_map print_include_name l)) by (apply flat_solid; intros x Hx; now apply include_name_spells, G).
      split; [|sol].
      change (a_world_item (tok "include" :: [print_name (up_id p)] ++ tok "with" :: tok "{" :: flat_map print_include_name l ++ [tok "}"])
        (WInclude p l)).
      constructor; [exact P1|]. apply many_spells. intros x Hx. now apply include_name_spells, G.
  - cbn [print_world_item]. destruct i as [u|i ms|i fs|i fs|i cs|i cs|i t|f]; try contradiction; intros H.
    + destruct (use_spells u H). split; [now constructor | assumption].
    + destruct (resource_spells _ _ H). split; [now apply wi_resource | assumption].
    + destruct (record_spells _ _ H). split; [now apply wi_record | assumption].
    + destruct (variant_spells _ _ H). split; [now apply wi_variant | assumption].
    + destruct (type_item_spells _ _ H). split; [now apply wi_type | assumption].
Qed.

Lemma ast_item_first i : good_ast_item U i -> exists t r, print_ast_item i = t :: r /\ ~ In (fst t) [Colon; KAs; KPackage].
Proof.
  destruct i; cbn [print_ast_item]; intros _; do 2 eexists; (split; [reflexivity|]); vm_compute; intuition discriminate.
Qed.
Lemma ast_items_first is k : all (good_ast_item U) is -> In k [Colon; KAs; KPackage] -> not_before k (flat_map print_ast_item is).
Proof.
  destruct is as [|i is]; [intros; exact I|]. intros [H _] Hk. cbn [flat_map].
  destruct (ast_item_first i H) as (t & r & -> & N). cbn [app not_before]. intros E. apply N. now rewrite E.
Qed.
Lemma ast_items_spell is : all (good_ast_item U) is ->
  file_items (flat_map print_ast_item is) is /\ Forall solid (flat_map print_ast_item is).
Proof.
  induction is as [|i is IH]; intros H; [split; constructor|]. destruct H as [Hi H]. destruct (IH H) as [I1 I2].
  pose proof (ast_items_first is Colon H ltac:(cbn; tauto)) as F1. pose proof (ast_items_first is KAs H ltac:(cbn; tauto)) as F2.
  cbn [flat_map]. destruct i as [[p a]|[i ws]|[i bs]|]; cbn [print_ast_item good_ast_item tu_item tu_as wo_id wo_items if_name if_items] in *.
  - destruct Hi as [Hp Ha]. destruct (path_spells p Hp) as [P1 P2], (as_spells a Ha) as [A1 A2]. split; [|sol].
    change ((tok "use" :: print_name (up_id p) :: print_as a) ++ flat_map print_ast_item is) with
      (tok "use" :: [print_name (up_id p)] ++ print_as a ++ flat_map print_ast_item is).
    constructor; [exact P1 | exact A1 | exact I1 | | intros _; exact F2].
    destruct a as [a|]; [cbn; discriminate | exact F1].
  - destruct Hi as [Hi Hw]. name Hi. pose proof (all_in _ _ Hw) as G.
    assert (Forall solid (flat_map print_world_item ws)) by (apply flat_solid; intros x Hx; now apply world_item_spells, G).
    split; [|sol]. cbn [app]. rewrite <- app_assoc. cbn [app].
    change (print_name i :: tok "{" :: ?x) with ([print_name i] ++ tok "{" :: x).
    constructor; [assumption| |exact I1]. apply many_spells. intros x Hx. now apply world_item_spells, G.
  - destruct Hi as [Hi Hb]. name Hi. destruct (body_spells bs Hb) as [B1 B2]. split; [|sol].
    change ((tok "interface" :: print_name i :: print_body bs) ++ ?x) with (tok "interface" :: [print_name i] ++ print_body bs ++ x).
    now constructor.
  - split; [|sol]. cbn [app]. change (tok ";") with (Semicolon, txt ";"). constructor; [|exact I1]. vm_compute. intuition discriminate.
Qed.

Lemma version_spells v : good_version v -> a_version (print_version v) v /\ Forall solid (print_version v).
Proof.
  destruct v as [a b c p q]. intros (Ha & Hb & Hc & Hp & Hq). cbn [v_major v_minor v_patch v_pre v_build] in *. subst.
  unfold print_version. cbn [v_major v_minor v_patch].
  destruct (number_spells a Ha), (number_spells b Hb), (number_spells c Hc). split; [|sol].
  change ([print_number a; tok "."; print_number b; tok "."; print_number c]) with
    ([print_number a] ++ tok "." :: [print_number b] ++ tok "." :: [print_number c]). now constructor.
Qed.
Lemma package_spells p : good_package U p -> a_package (print_package p) p /\ Forall solid (print_package p).
Proof.
  destruct p as [ns n v]. intros (Hs & Hn & Hv). cbn [pk_namespace pk_name pk_version] in *. name Hs. name Hn.
  unfold print_package. cbn [pk_namespace pk_name pk_version]. set (wv := match v with Some v => _ | None => _ end).
  assert (V : opt_version wv v /\ Forall solid wv).
  { destruct v as [v|]; cbn [good_option] in Hv; [|split; constructor].
    destruct (version_spells v Hv). split; [now constructor | unfold wv; sol]. }
  destruct V as [V1 V2]. split; [|sol].
  assert (E : ns = snd (print_name ns)) by (inversion N; reflexivity). rewrite E at 2.
  change (print_name n :: wv ++ [tok ";"]) with ([print_name n] ++ wv ++ [tok ";"]). now constructor.
Qed.
Lemma ast_spells a : good_ast U a -> a_file (print_ast a) a /\ Forall solid (print_ast a).
Proof.
  destruct a as [[p|] is]; intros [Hp Hi]; cbn [as_package as_items good_option] in *; unfold print_ast; cbn [as_package as_items];
    destruct (ast_items_spell is Hi) as [I1 I2].
  - destruct (package_spells p Hp). split; [now constructor | sol].
  - cbn [app]. split; [|exact I2]. constructor; [exact I1|]. apply ast_items_first; [exact Hi | cbn; tauto].
Qed.
End Print.
