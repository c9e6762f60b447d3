(** What the printer of S_WatPrint writes is spelled as the grammar says. *)
From Coq Require Import Arith NArith ZArith Decimal DecimalFacts DecimalN DecimalPos String Ascii Bool List Lia.
From Verif Require Import GoBase M_Text M_WatLex M_WatAst S_WatLex S_WatParse S_WatPrint L_WatTokens L_WatNum L_WatLit L_WatSound.
Import ListNotations.

(** ** Numbers *)

Lemma digits_dec d : Forall dec_digit (digits_of d).
Proof. induction d; cbn [digits_of]; constructor; auto; unfold dec_digit; cbn; lia. Qed.

Lemma no_score w : Forall dec_digit w -> filter (fun c => negb (Ascii.eqb c "_")) w = w.
Proof.
  induction 1 as [|c w Hc _ IH]; [reflexivity|]. cbn [filter].
  destruct (Ascii.eqb c "_") eqn:E; [|cbn; now rewrite IH].
  apply Ascii.eqb_eq in E. subst c. unfold dec_digit in Hc. cbn in Hc. lia.
Qed.

Definition fold10 (w : text) (n : N) : N := fold_left (fun n c => n * 10 + digit c)%N w n.

Lemma fold10_acc d : forall p, fold10 (digits_of d) (Npos p) = Npos (Pos.of_uint_acc d p).
Proof.
  unfold fold10. induction d; intros p; cbn [digits_of fold_left Pos.of_uint_acc]; try reflexivity;
    rewrite <- IHd; f_equal;
    match goal with |- (_ * 10 + ?x)%N = _ => let v := eval vm_compute in x in change x with v end; lia.
Qed.

Lemma value_digits d : value 10 (digits_of d) = N.of_uint d.
Proof.
  unfold value. rewrite no_score by apply digits_dec.
  change (fold10 (digits_of d) 0 = Pos.of_uint d).
  induction d; cbn [digits_of Pos.of_uint]; try reflexivity;
    unfold fold10; cbn [fold_left]; [exact IHd|..];
    match goal with |- fold_left _ _ ?n = Npos (Pos.of_uint_acc _ ?p) => change n with (Npos p) end;
    apply fold10_acc.
Qed.

Lemma nzhead_no_zero d d' : nzhead d <> D0 d'.
Proof. induction d; cbn; try discriminate; auto. Qed.

Lemma natural_literal n : unsigned_literal (digits_of (N.to_uint n)) n.
Proof.
  assert (E : N.to_uint n = unorm (N.to_uint n)) by (rewrite <- (DecimalN.Unsigned.to_of (N.to_uint n)), (DecimalN.Unsigned.of_to n); reflexivity).
  assert (V : value 10 (digits_of (N.to_uint n)) = n) by (rewrite value_digits; apply DecimalN.Unsigned.of_to).
  destruct (digits_of (N.to_uint n)) as [|c w] eqn:D.
  - exfalso. rewrite E in D. unfold unorm in D. destruct (nzhead (N.to_uint n)); discriminate.
  - pose proof (digits_dec (N.to_uint n)) as H. rewrite D in H.
    assert (W : wasm_num dec_digit (c :: w)).
    { clear - H. revert c H. induction w as [|c' w IH]; intros c H; inversion H; subst; [now constructor|].
      constructor; auto. }
    destruct (ascii_dec c "0") as [->|Nc]; [|rewrite <- V; now apply lit_decimal].
    rewrite E in D. unfold unorm in D. destruct (nzhead (N.to_uint n)) as [|d|d|d|d|d|d|d|d|d|d] eqn:Z; try discriminate.
    + injection D as <-. rewrite <- V. cbn. apply lit_zero.
    + exfalso. now apply nzhead_no_zero in Z.
Qed.

Lemma dec_words n : words dec_digit (digits_of (N.to_uint n)).
Proof.
  split; [|apply digits_dec]. pose proof (natural_literal n) as H.
  destruct (digits_of (N.to_uint n)); [|discriminate]. destruct (unsigned_first _ _ H) as (? & ? & ? & _). discriminate.
Qed.

Lemma words_digits w : words dec_digit w -> digits dec_digit w.
Proof.
  intros [N H]. destruct w as [|c w]; [congruence|]. inversion H; subst. exists c, w. split; [reflexivity|].
  split; [assumption|]. eapply Forall_impl; [|eassumption]. auto.
Qed.

(** A token that counts: of the right form, and neither whitespace nor comment *)
Definition solid (t : tk) : Prop := valid t /\ space_or_comment (fst t) = false.

Lemma natural_valid n : solid (natural n).
Proof.
  split; [|reflexivity]. exists [], (digits_of (N.to_uint n)). split; [now left|]. left. split; [reflexivity|]. apply words_digits, dec_words.
Qed.

Lemma integer_valid z : solid (integer z).
Proof.
  unfold integer. destruct (z <? 0)%Z; [|apply natural_valid].
  split; [|reflexivity]. exists (txt "-"), (digits_of (N.to_uint (Z.to_N (- z)))). split; [now right; right|]. left. split; [reflexivity|].
  apply words_digits, dec_words.
Qed.

Lemma integer_tk z : integer z = (TInteger, snd (integer z)).
Proof. unfold integer. destruct (z <? 0)%Z; reflexivity. Qed.

Lemma integer_i32 z : (- 2 ^ 31 <= z < 2 ^ 31)%Z -> i32_literal (snd (integer z)) z.
Proof.
  intros H. unfold integer. destruct (Z.ltb_spec z 0).
  - cbn [snd]. replace z with (- Z.of_N (Z.to_N (- z)))%Z at 2 by lia. apply i32_negative; [apply natural_literal|lia].
  - apply i32_unsigned with (Z.to_N z); [apply natural_literal|lia|]. split; [cbn; lia|]. now rewrite Z2N.id by lia.
Qed.

Lemma integer_i64 z : (- 2 ^ 31 <= z < 2 ^ 32)%Z -> i64_literal (snd (integer z)) z.
Proof.
  intros H. unfold integer. destruct (Z.ltb_spec z 0).
  - cbn [snd]. replace z with (- Z.of_N (Z.to_N (- z)))%Z at 2 by lia. apply i64_negative; [apply natural_literal|lia].
  - replace z with (Z.of_N (Z.to_N z)) at 2 by lia. apply i64_unsigned; [apply natural_literal|lia].
Qed.

Lemma natural_limit n : (n < 2 ^ 32)%N -> exists z, i32_literal (snd (natural n)) z /\ unsigned32 z = n.
Proof.
  intros H. set (z := if (n <? 2 ^ 31)%N then Z.of_N n else (Z.of_N n - 2 ^ 32)%Z).
  assert (W : wrap 32 n z).
  { unfold wrap, z. destruct (N.ltb_spec n (2 ^ 31)); [split; [cbn; lia|reflexivity]|].
    split; [cbn; lia|]. replace (Z.of_N n - 2 ^ 32)%Z with (Z.of_N n + (-1) * 2 ^ 32)%Z by lia. apply Z_mod_plus_full. }
  exists z. split; [apply i32_unsigned with n; [apply natural_literal|assumption|assumption]|].
  unfold unsigned32. destruct W as [_ W]. rewrite W. rewrite Z.mod_small by lia. lia.
Qed.

Lemma natural_index n : (n < 2 ^ 32)%N -> index_literal (snd (natural n)) n.
Proof.
  intros H. pose proof (index_signed [] (digits_of (N.to_uint n)) (Z.of_N n) (or_introl eq_refl) (dec_words n)) as X.
  cbn [app] in X. rewrite Z.mod_small, N2Z.id in X by lia. apply X; [|lia].
  cbn [text_eqb]. rewrite value_digits, (DecimalN.Unsigned.of_to n). reflexivity.
Qed.

(** ** Words *)

Lemma kw_valid s : brun (txt s) = Some PWord -> classify Reserved (txt s) = Reserved -> solid (kw s).
Proof. intros B C. split; [|reflexivity]. unfold valid. cbn [kw fst snd]. rewrite <- C at 1. now apply (classify_text Reserved _ PWord). Qed.

Ltac word := apply kw_valid; vm_compute; reflexivity.

Lemma plain_valid p : solid (kw (plain_word p)).
Proof. destruct p; word. Qed.
Lemma indexed_valid o : solid (kw (indexed_word o)).
Proof. destruct o; word. Qed.
Lemma type_valid t : solid (type_name t).
Proof. destruct t; word. Qed.
Lemma types_valid ts : Forall solid (map type_name ts).
Proof. induction ts; constructor; auto using type_valid. Qed.
Lemma lp_valid : solid lp. Proof. split; reflexivity. Qed.
Lemma rp_valid : solid rp. Proof. split; reflexivity. Qed.
Lemma parens_valid ts : Forall solid ts -> Forall solid (parens ts).
Proof. intros H. constructor; [exact lp_valid|]. apply Forall_app. split; [exact H|]. constructor; [exact rp_valid|constructor]. Qed.
Lemma name_valid n : good_name n -> Forall solid (name n).
Proof. destruct n; cbn; intros H; constructor; [split; [exact H|reflexivity]|constructor]. Qed.
Lemma index_valid i : good_index i -> solid (print_index i).
Proof. destruct i; cbn; intros H; [split; [exact H|reflexivity]|apply natural_valid]. Qed.
Lemma flat_valid {A} (f : A -> list tk) l : (forall x, In x l -> Forall solid (f x)) -> Forall solid (flat_map f l).
Proof.
  induction l as [|x l IH]; intros H; cbn; [constructor|]. apply Forall_app. split; [apply H; now left|].
  apply IH. intros y Hy. apply H. now right.
Qed.

(** ** Grammar *)

Lemma name_spells n : opt_id (name n) n.
Proof. destruct n; constructor. Qed.
Lemma index_spells i : good_index i -> an_index [print_index i] i.
Proof. destruct i as [id|n]; cbn; intros H; constructor. now apply natural_index. Qed.
Lemma type_spells t : val_type [type_name t] t.
Proof. constructor. Qed.
Lemma types_spell ts : many val_type (map type_name ts) ts.
Proof.
  induction ts as [|t ts IH]; cbn [map]; [constructor|].
  apply (many_cons val_type [type_name t] (map type_name ts) t ts); [constructor|exact IH].
Qed.
Lemma flat_spells {A} (G : spelling A) (f : A -> list tk) l :
  (forall x, In x l -> G (f x) x) -> many (paren G) (flat_map (fun x => parens (f x)) l) l.
Proof.
  induction l as [|x l IH]; intros H; cbn [flat_map]; [constructor|].
  apply many_cons; [constructor; apply H; now left|]. apply IH. intros y Hy. apply H. now right.
Qed.
(** Elements wrapped in a constructor *)
Lemma flat_spells_map {A B} (G : spelling B) (c : A -> B) (f : A -> list tk) l :
  (forall x, In x l -> G (f x) (c x)) -> many (paren G) (flat_map (fun x => parens (f x)) l) (map c l).
Proof.
  induction l as [|x l IH]; intros H; cbn [flat_map map]; [constructor|].
  apply many_cons; [constructor; apply H; now left|]. apply IH. intros y Hy. apply H. now right.
Qed.
Lemma many_app {A} (G : spelling A) w1 x1 w2 x2 : many G w1 x1 -> many G w2 x2 -> many G (w1 ++ w2) (x1 ++ x2).
Proof. intros H1 H2. induction H1; [exact H2|]. cbn. rewrite <- app_assoc. now constructor. Qed.

Lemma results_spell r : results (kw "result" :: map type_name r) r.
Proof. constructor. apply types_spell. Qed.
Lemma result_list_spells rs : many (paren results) (flat_map print_result rs) rs.
Proof. apply (flat_spells results (fun r => kw "result" :: map type_name r)). intros r _. apply results_spell. Qed.
Lemma result_spells r : length r = 1%nat -> one_result (kw "result" :: map type_name r) r.
Proof. destruct r as [|t [|]]; try discriminate. intros _. cbn. constructor. constructor. Qed.
Lemma param_spells p : good_param p -> param (kw "param" :: name (p_id p) ++ map type_name (p_types p)) p.
Proof.
  destruct p as [[id|] ts]; unfold good_param; cbn [p_id p_types name app].
  - intros [_ H]. destruct ts as [|t [|]]; try discriminate. constructor. constructor.
  - intros _. constructor. apply types_spell.
Qed.

Lemma every_in {A} (P : A -> Prop) l : every P l -> forall x, In x l -> P x.
Proof. induction l as [|y l IH]; cbn; [tauto|]. intros [H1 H2] x [->|H]; auto. Qed.

(** Induction over instruction trees *)
Section Induction.
Variable P : instr -> Prop.
Hypothesis step : forall i,
  (forall j, match i with
             | IBlock _ _ b | ILoop _ _ b => In j b
             | IIf _ _ c t e => In j c \/ In j t \/ (exists b, e = Some b /\ In j b)
             | IFolded f ps => j = f \/ In j ps
             | _ => False
             end -> P j) -> P i.
Fixpoint tree_induction (i : instr) : P i.
Proof.
  destruct i as [|p|o ix|is|z|z|b|b|n rs b|n rs b|n rs c t e|id|f ps]; apply step; intros j Hj; try contradiction.
  - apply (every_in P b); [|exact Hj]. clear - tree_induction. induction b; [exact I|]. split; [apply tree_induction|assumption].
  - apply (every_in P b); [|exact Hj]. clear - tree_induction. induction b; [exact I|]. split; [apply tree_induction|assumption].
  - destruct Hj as [Hj|[Hj|Hj]].
    + apply (every_in P c); [|exact Hj]. clear - tree_induction. induction c; [exact I|]. split; [apply tree_induction|assumption].
    + apply (every_in P t); [|exact Hj]. clear - tree_induction. induction t; [exact I|]. split; [apply tree_induction|assumption].
    + destruct e as [b|]; [|exfalso; destruct Hj as (? & ? & _); discriminate].
      apply (every_in P b); [|destruct Hj as (b' & E & Hj); injection E as ->; exact Hj].
      clear - tree_induction. induction b; [exact I|]. split; [apply tree_induction|assumption].
  - destruct Hj as [->|Hj]; [apply tree_induction|].
    apply (every_in P ps); [|exact Hj]. clear - tree_induction. induction ps; [exact I|]. split; [apply tree_induction|assumption].
Qed.
End Induction.

Section Print.
Variable f32tk f64tk : N -> tk.
Variable F : floats.
Notation prn := (print_instr f32tk f64tk).
Notation good := (good_instr f32tk f64tk F).

Lemma operator_spells i : is_operator i -> good i -> operator F (prn i) i.
Proof.
  destruct i as [|p|o ix|is|z|z|b|b|n rs b|n rs b|n rs c t e|id|f ps]; cbn [is_operator]; try contradiction;
    intros _ H; cbn [good_instr print_instr] in *.
  - apply op_forgotten. cbn. tauto.
  - constructor.
  - apply op_indexed. now apply index_spells.
  - destruct is as [|i [|]]; try contradiction. cbn [map]. apply op_br_table. now apply index_spells.
  - rewrite integer_tk. constructor. now apply integer_i32.
  - rewrite integer_tk. constructor. now apply integer_i64.
  - constructor. apply H.
  - constructor. apply H.
  - constructor.
Qed.

Lemma flat_nil {A B} (f : A -> list B) l : (forall x, In x l -> f x = []) -> flat_map f l = [].
Proof.
  induction l as [|x l IH]; intros H; [reflexivity|]. cbn. rewrite (H x (or_introl eq_refl)).
  apply IH. intros y Hy. apply H. now right.
Qed.
Lemma flat_self {A B} (c : A -> B) (f : B -> list A) l : (forall x, f (c x) = [x]) -> flat_map f (map c l) = l.
Proof. intros H. induction l as [|x l IH]; [reflexivity|]. cbn. now rewrite H, IH. Qed.
Lemma flat_none {A B C} (c : A -> B) (f : B -> list C) l : (forall x, f (c x) = []) -> flat_map f (map c l) = [].
Proof. intros H. induction l as [|x l IH]; [reflexivity|]. cbn. now rewrite H, IH. Qed.

Ltac flats := repeat first [ rewrite flat_map_app | rewrite flat_self by reflexivity | rewrite flat_none by reflexivity ];
  cbn [flat_map app]; repeat (rewrite app_nil_r || rewrite app_nil_l); cbn [app]; try reflexivity.

Lemma instr_spells i : good i -> instruction F (prn i) i.
Proof.
  induction i as [i IH] using tree_induction. intros H.
  destruct i as [|p|o ix|is|z|z|b|b|n rs b|n rs b|n rs c t e|id|f ps];
    try (apply i_operator, operator_spells; [exact I|exact H]); cbn [good_instr print_instr] in *.
  - apply i_block; [apply name_spells|apply result_list_spells|].
    apply (flat_spells _ prn). intros x Hx. apply IH; [exact Hx|]. now apply (every_in _ b).
  - apply i_loop; [apply name_spells|apply result_list_spells|].
    apply (flat_spells _ prn). intros x Hx. apply IH; [exact Hx|]. now apply (every_in _ b).
  - destruct H as (Hn & Hr & Hc & Ht & He).
    set (ss := map SResult rs ++ map SClause c ++ [SThen t] ++ match e with Some b => [SElse b] | None => [] end).
    assert (E : IIf n rs c t e = IIf n (if_results ss) (if_clause ss) (if_then ss) (if_else ss)).
    { unfold if_results, if_clause, if_then, if_else, ss. f_equal; destruct e; flats. }
    rewrite E. apply i_if; [apply name_spells|]. unfold ss. apply many_app.
    { apply (flat_spells_map (an_if_section F) SResult (fun r => kw "result" :: map type_name r)).
      intros r Hr'. constructor. apply result_spells. rewrite Forall_forall in Hr. now apply Hr. }
    apply many_app.
    { apply (flat_spells_map (an_if_section F) SClause prn).
      intros x Hx. constructor. apply IH; [now left|]. now apply (every_in _ c). }
    apply (many_cons _ (parens (kw "then" :: flat_map (fun i => parens (prn i)) t))).
    { constructor. constructor. apply (flat_spells _ prn). intros x Hx. apply IH; [now right; left|]. now apply (every_in _ t). }
    destruct e as [b|]; [|constructor]. rewrite <- (app_nil_r (parens _)). apply many_cons; [|constructor].
    constructor. constructor. apply (flat_spells _ prn). intros x Hx. apply IH; [right; right; eauto|]. now apply (every_in _ b).
  - destruct H as (Ho & Hg & Hp & He). apply i_folded; [now apply operator_spells| |exact Hp].
    apply (flat_spells _ prn). intros x Hx. apply IH; [now right|]. now apply (every_in _ ps).
Qed.

Lemma results_valid rs : Forall solid (flat_map print_result rs).
Proof. apply flat_valid. intros r _. apply parens_valid. constructor; [word|apply types_valid]. Qed.

Lemma f32_valid t b : good_const (f32_const F) t b -> solid t.
Proof. intros [H1 H2]. split; [exact H1|]. destruct H2; reflexivity. Qed.
Lemma f64_valid t b : good_const (f64_const F) t b -> solid t.
Proof. intros [H1 H2]. split; [exact H1|]. destruct H2; reflexivity. Qed.

Lemma instr_valid i : good i -> Forall solid (prn i).
Proof.
  induction i as [i IH] using tree_induction. intros H.
  assert (Nest : forall l, (forall x, In x l -> Forall solid (prn x)) -> Forall solid (flat_map (fun i => parens (prn i)) l)).
  { intros l Hl. apply flat_valid. intros x Hx. now apply parens_valid, Hl. }
  destruct i as [|p|o ix|is|z|z|b|b|n rs b|n rs b|n rs c t e|id|f ps]; cbn [good_instr print_instr] in *.
  - constructor; [word|constructor].
  - constructor; [apply plain_valid|constructor].
  - constructor; [apply indexed_valid|]. constructor; [now apply index_valid|constructor].
  - destruct is as [|i [|]]; try contradiction. constructor; [word|]. constructor; [now apply index_valid|constructor].
  - constructor; [word|]. constructor; [apply integer_valid|constructor].
  - constructor; [word|]. constructor; [apply integer_valid|constructor].
  - constructor; [word|]. constructor; [exact (f32_valid _ _ H)|constructor].
  - constructor; [word|]. constructor; [exact (f64_valid _ _ H)|constructor].
  - constructor; [word|]. apply Forall_app; split; [now apply name_valid|]. apply Forall_app; split; [apply results_valid|].
    apply Nest. intros x Hx. apply IH; [exact Hx|]. now apply (every_in _ b).
  - constructor; [word|]. apply Forall_app; split; [now apply name_valid|]. apply Forall_app; split; [apply results_valid|].
    apply Nest. intros x Hx. apply IH; [exact Hx|]. now apply (every_in _ b).
  - destruct H as (Hn & Hr & Hc & Ht & He). constructor; [word|].
    apply Forall_app; split; [now apply name_valid|]. apply Forall_app; split; [apply results_valid|].
    apply Forall_app; split; [apply Nest; intros x Hx; apply IH; [now left|now apply (every_in _ c)]|].
    apply Forall_app; split.
    + apply parens_valid. constructor; [word|]. apply Nest. intros x Hx. apply IH; [now right; left|now apply (every_in _ t)].
    + destruct e as [b|]; [|constructor]. apply parens_valid. constructor; [word|]. apply Nest. intros x Hx.
      apply IH; [right; right; eauto|now apply (every_in _ b)].
  - constructor; [word|]. apply parens_valid. constructor; [word|]. constructor; [split; [exact H|reflexivity]|constructor].
  - destruct H as (Ho & Hg & Hp & He). apply Forall_app; split; [apply IH; [now left|assumption]|].
    apply Nest. intros x Hx. apply IH; [now right|]. now apply (every_in _ ps).
Qed.

Lemma instrs_valid l : Forall good l -> Forall solid (flat_map (fun i => parens (prn i)) l).
Proof. intros H. apply flat_valid. intros x Hx. apply parens_valid, instr_valid. rewrite Forall_forall in H. now apply H. Qed.
Lemma param_valid p : good_param p -> Forall solid (print_param p).
Proof.
  intros H. apply parens_valid. constructor; [word|]. apply Forall_app; split; [|apply types_valid].
  apply name_valid. unfold good_param in H. destruct (p_id p); [apply H|exact I].
Qed.
Lemma params_valid l : Forall good_param l -> Forall solid (flat_map print_param l).
Proof. intros H. apply flat_valid. intros p Hp. apply param_valid. rewrite Forall_forall in H. now apply H. Qed.
Lemma quoted_valid e : ~ In quote e -> solid (quoted_name e).
Proof. intros H. split; [|reflexivity]. exists e. auto. Qed.
Lemma limits_valid l : Forall solid (print_limits l).
Proof. constructor; [apply natural_valid|]. destruct (lim_max l); [constructor; [apply natural_valid|]|]; constructor. Qed.

Ltac parts := repeat match goal with
  | |- Forall solid (_ ++ _) => apply Forall_app; split
  | |- Forall solid (kw _ :: _) => constructor; [word|]
  | |- Forall solid [] => constructor
  | |- Forall solid (parens _) => apply parens_valid
  | |- Forall solid (name _) => apply name_valid
  | |- Forall solid (flat_map print_result _) => apply results_valid
  | |- Forall solid (flat_map print_param _) => apply params_valid
  | |- Forall solid (flat_map (fun i => parens (prn i)) _) => apply instrs_valid
  | |- Forall solid (print_limits _) => apply limits_valid
  | |- Forall solid (type_name _ :: _) => constructor; [apply type_valid|]
  end; auto.

Lemma func_valid f : good_func f32tk f64tk F f -> Forall solid (print_func f32tk f64tk f).
Proof.
  intros (Hn & He & Hp & Hr & Hi). unfold print_func. parts.
  - apply flat_valid. intros e Hin. parts. constructor; [|constructor]. apply quoted_valid.
    rewrite Forall_forall in He. now apply He.
  - apply flat_valid. intros t _. parts.
Qed.

Lemma func_spells f : good_func f32tk f64tk F f -> function F (print_func f32tk f64tk f) f.
Proof.
  intros (Hn & He & Hp & Hr & Hi). unfold good_results in *. rewrite Forall_forall in He, Hp, Hr, Hi.
  set (ss := map FExport (f_exports f) ++ map FParam (f_params f) ++ map FResult (f_results f) ++
             map FLocal (f_locals f) ++ map FInstr (f_instrs f)).
  set (ws := flat_map (fun e => parens [kw "export"; quoted_name e]) (f_exports f) ++
    flat_map print_param (f_params f) ++ flat_map print_result (f_results f) ++
    flat_map (fun t => parens [kw "local"; type_name t]) (f_locals f) ++
    flat_map (fun i => parens (prn i)) (f_instrs f)).
  pose proof (a_function F (name (f_id f)) (f_id f) ws ss [] [] (name_spells _)) as X.
  rewrite (app_nil_r ws) in X. unfold print_func. fold ws.
  assert (E : forall g, g = f -> function F (kw "func" :: name (f_id f) ++ ws) g -> function F (kw "func" :: name (f_id f) ++ ws) f)
    by (intros g ->; auto).
  eapply E; [|apply X].
  - destruct f as [fi fl fe fp fr fins]. unfold ss. cbn [f_id f_locals f_exports f_params f_results f_instrs]. f_equal; flats.
  - unfold ss, ws. repeat apply many_app.
    + apply (flat_spells_map (a_func_section F) FExport (fun e => [kw "export"; quoted_name e])).
      intros e Hin. constructor. constructor. now apply He.
    + apply (flat_spells_map (a_func_section F) FParam (fun p => kw "param" :: name (p_id p) ++ map type_name (p_types p))).
      intros p Hin. constructor. apply param_spells. now apply Hp.
    + apply (flat_spells_map (a_func_section F) FResult (fun r => kw "result" :: map type_name r)).
      intros r Hin. constructor. apply result_spells. now apply Hr.
    + apply (flat_spells_map (a_func_section F) FLocal (fun t => [kw "local"; type_name t])).
      intros t Hin. constructor. constructor.
    + apply (flat_spells_map (a_func_section F) FInstr prn).
      intros x Hin. constructor. apply instr_spells. now apply Hi.
  - constructor.
Qed.

Lemma limits_spell l : good_limits l -> a_limits (print_limits l) l.
Proof.
  destruct l as [mn [mx|]]; unfold good_limits, print_limits; cbn [lim_min lim_max]; intros [H1 H2].
  - destruct (natural_limit mn H1) as (z1 & L1 & E1). destruct (natural_limit mx H2) as (z2 & L2 & E2).
    rewrite <- E1 at 2. rewrite <- E2 at 2. now constructor.
  - destruct (natural_limit mn H1) as (z1 & L1 & E1). rewrite <- E1 at 2. now constructor.
Qed.

Lemma module_spells m : good_module f32tk f64tk F m ->
  a_directive F (print_module f32tk f64tk m) (DModule m) /\ Forall solid (print_module f32tk f64tk m).
Proof.
  intros (Ht & Hf & Hb & Hm & Hg). rewrite Forall_forall in Ht, Hf, Hb, Hm, Hg. split.
  - set (ss := map SecType (md_types m) ++ map SecFunc (md_funcs m) ++ map SecTable (md_tables m) ++
               map SecMemory (md_memories m) ++ map SecGlobal (md_globals m)).
    replace m with (module_of ss) at 2.
    2:{ destruct m as [a b c d e]. unfold module_of, ss. cbn [md_funcs md_memories md_types md_tables md_globals].
        f_equal; flats. }
    unfold print_module, parens. cbn [app]. apply d_module. unfold ss. repeat apply many_app.
    + apply (flat_spells_map (a_section F) SecType print_type). intros [i [ps rs]] Hin.
      destruct (Ht _ Hin) as (H1 & H2 & H3). cbn [td_id td_func ft_params ft_results] in *.
      unfold good_results in *. rewrite Forall_forall in H2, H3.
      constructor. unfold print_type. cbn [td_id td_func ft_params ft_results].
      apply a_type_def; [apply name_spells|]. constructor.
      set (fs := map TParam ps ++ map TResult rs).
      replace ps with (flat_map (fun s => match s with TParam p => [p] | _ => [] end) fs) at 2 by (unfold fs; flats).
      replace rs with (flat_map (fun s => match s with TResult p => [p] | _ => [] end) fs) at 2 by (unfold fs; flats).
      constructor. unfold fs. apply many_app.
      * apply (flat_spells_map a_type_section TParam (fun p => kw "param" :: name (p_id p) ++ map type_name (p_types p))).
        intros p Hp. constructor. apply param_spells. now apply H2.
      * apply (flat_spells_map a_type_section TResult (fun r => kw "result" :: map type_name r)).
        intros r Hr. constructor. apply result_spells. now apply H3.
    + apply (flat_spells_map (a_section F) SecFunc (print_func f32tk f64tk)). intros x Hin. constructor.
      apply func_spells. now apply Hf.
    + apply (flat_spells_map (a_section F) SecTable print_table). intros [i l r es] Hin.
      destruct (Hb _ Hin) as (H1 & H2 & H4). cbn [tb_id tb_limits tb_ref tb_elems] in *.
      constructor. unfold print_table. cbn [tb_id tb_limits tb_ref tb_elems].
      apply a_table; [apply name_spells|constructor; now apply limits_spell| |].
      * destruct r as [[|]|]; [constructor|constructor|apply rt_other; discriminate].
      * apply (flat_spells element (fun id => [kw "elem"; (TId, id)])). intros id _. constructor.
    + apply (flat_spells_map (a_section F) SecMemory print_memory). intros [i l] Hin.
      destruct (Hm _ Hin) as (H1 & H2). cbn [m_id m_limits] in *. constructor. unfold print_memory. cbn [m_id m_limits].
      constructor; [apply name_spells|now apply limits_spell].
    + apply (flat_spells_map (a_section F) SecGlobal (print_global f32tk f64tk)). intros [i mu t is] Hin.
      destruct (Hg _ Hin) as (H1 & H2). cbn [g_id g_instrs] in *. rewrite Forall_forall in H2.
      constructor. unfold print_global. cbn [g_id g_mutable g_type g_instrs].
      assert (HI : many (paren (instruction F)) (flat_map (fun i => parens (prn i)) is) is).
      { apply (flat_spells _ prn). intros x Hx. apply instr_spells. now apply H2. }
      destruct mu; [apply (a_variable F _ _ [type_name t])|apply (a_constant F _ _ [type_name t])]; try assumption;
        try apply name_spells; constructor.
  - unfold print_module. parts. constructor; [split; reflexivity|]. parts; apply flat_valid; intros x Hin; parts.
    + destruct (Ht _ Hin) as (H1 & H2 & H3). unfold print_type. parts.
    + apply func_valid. now apply Hf.
    + destruct (Hb _ Hin) as (H1 & H2 & H4). unfold print_table. parts.
      * destruct (tb_ref x) as [[|]|]; parts.
      * apply flat_valid. intros id Hid. parts. constructor; [|constructor]. split; [|reflexivity]. rewrite Forall_forall in H4. now apply H4.
    + destruct (Hm _ Hin) as (H1 & H2). unfold print_memory. parts.
    + destruct (Hg _ Hin) as (H1 & H2). unfold print_global. parts. destruct (g_mutable x); parts.
Qed.
End Print.

(** ** Texts *)

Fixpoint blanks (ts : list tk) : list tk :=
  match ts with
  | [] => []
  | [t] => [t]
  | t :: ts' => t :: (Whitespace, txt " ") :: blanks ts'
  end.

Lemma blanks_text ts : text_of (blanks ts) = spaced ts.
Proof.
  induction ts as [|t ts IH]; [reflexivity|]. destruct ts as [|u ts]; [apply app_nil_r|].
  change (text_of (blanks (t :: u :: ts))) with (snd t ++ txt " " ++ text_of (blanks (u :: ts))).
  rewrite IH. reflexivity.
Qed.

Lemma blanks_significant ts : Forall solid ts -> significant (blanks ts) = ts.
Proof.
  induction ts as [|t ts IH]; intros H; [reflexivity|]. inversion H as [|? ? [_ Ht] Hs]; subst. specialize (IH Hs).
  destruct ts as [|u ts]; [cbn; now rewrite Ht|].
  change (significant (blanks (t :: u :: ts))) with
    (if negb (space_or_comment (fst t)) then t :: significant (blanks (u :: ts)) else significant (blanks (u :: ts))).
  rewrite Ht, IH. reflexivity.
Qed.

Lemma solid_first t : solid t -> exists c w, snd t = c :: w /\ ~ space c.
Proof.
  destruct t as [ty w]. intros [H1 H2]. unfold valid in H1. cbn [fst snd] in *.
  destruct (brun_complete _ _ H1) as (p & rt & B & A & C).
  destruct w as [|c w]; [discriminate|]. exists c, w. split; [reflexivity|]. intros Hc.
  cbn [brun] in B. rewrite first_space in B by exact Hc. apply arun_ws in B. destruct B as [-> _].
  injection A as <-. cbn in C. subst ty. discriminate.
Qed.

Lemma blank_separate ty w : ty <> Whitespace -> separate ty (" "%char :: w).
Proof.
  intros H. assert (N : ~ id_char " ") by (intros [[Hx _] _]; cbn in Hx; lia).
  destruct ty; cbn; auto; discriminate.
Qed.

Lemma cut_blanks ts r : Forall solid ts -> cut (blanks (ts ++ [rp])) r.
Proof.
  induction ts as [|t ts IH]; intros H; [cbn; auto|].
  inversion H as [|? ? Ht Hs]; subst. specialize (IH Hs).
  assert (E : exists u us, ts ++ [rp] = u :: us /\ solid u).
  { destruct ts as [|u us]; [exists rp, []; auto using rp_valid|]. inversion Hs; subst. exists u, (us ++ [rp]). auto. }
  destruct E as (u & us & E & Hu). cbn [app]. rewrite E in *. destruct t as [ty w].
  change (blanks ((ty, w) :: u :: us)) with ((ty, w) :: (Whitespace, txt " ") :: blanks (u :: us)).
  cbn [cut]. split; [apply Ht|]. split; [apply blank_separate; intros ->; destruct Ht; discriminate|].
  split; [split; [discriminate|repeat constructor]|]. split; [|exact IH].
  rewrite blanks_text. destruct (solid_first u Hu) as (c & w' & Ec & Hc).
  assert (B : exists x, spaced (u :: us) = c :: x) by (destruct us; cbn [spaced]; rewrite Ec; eexists; reflexivity).
  destruct B as [x ->]. exact Hc.
Qed.
