(** Trees that come out of the WAT and WAST parsers can be written by the
    printers of S_WatPrint and S_WastPrint. *)
From Coq Require Import Arith NArith ZArith Decimal String Ascii Bool List Lia.
From Verif Require Import GoBase M_Text M_WatLex M_Strconv M_WatAst S_WatLex S_WatParse M_WatParse S_WatPrint L_WatTokens L_WatNum L_WatLit L_WatSound L_WatPrint.
From Verif Require Import M_WastParse S_WastParse S_WastPrint.
Import ListNotations.

Lemma every_intro {A} (P : A -> Prop) l : (forall x, In x l -> P x) -> every P l.
Proof. induction l as [|x l IH]; intros H; [exact I|]. split; [apply H; now left|]. apply IH. intros y Hy. apply H. now right. Qed.
Lemma last_in {A} (x : A) ls d : In x (last ls d) -> In x d \/ exists l, In l ls /\ In x l.
Proof.
  induction ls as [|l ls IH]; [now left|]. cbn [last]. destruct ls as [|m ls]; [right; exists l; cbn; auto|].
  intros H. destruct (IH H) as [Hd|(y & Hy & Hx)]; [now left|]. right. exists y. split; [now right|exact Hx].
Qed.
Lemma last_some {A} (b : A) ls : last (map Some ls) None = Some b -> In b ls.
Proof.
  induction ls as [|l ls IH]; [discriminate|]. cbn [map last]. destruct (map Some ls) eqn:E.
  - intros H. left. congruence.
  - intros H. right. now apply IH.
Qed.

(** ** Numbers *)
Lemma i32_bounds w z : i32_literal w z -> (- 2 ^ 31 <= z < 2 ^ 31)%Z.
Proof. intros [w' n z' _ _ [H _]|w' n _ H]; [exact H|]. change (2 ^ 31)%N with 2147483648%N in H. lia. Qed.
Lemma i64_bounds w z : i64_literal w z -> (- 2 ^ 31 <= z < 2 ^ 32)%Z.
Proof. intros [w' n _ H|w' n _ H]; [change (2 ^ 32)%N with 4294967296%N in H | change (2 ^ 31)%N with 2147483648%N in H]; lia. Qed.
Lemma unsigned_bound z : (Z.to_N (z mod 2 ^ 32) < 2 ^ 32)%N.
Proof. pose proof (Z.mod_pos_bound z (2 ^ 32) ltac:(lia)). change (2 ^ 32)%N with (Z.to_N (2 ^ 32)). lia. Qed.

Section Reprint.
Variable f32tk f64tk : N -> tk.
Variable F : floats.
(** The tokens of the text. What they say about floats can be written. *)
Variable ok : tk -> Prop.
Hypothesis ok_valid : forall t, ok t -> valid t.
Hypothesis ok32 : forall t b, ok t -> f32_const F t b -> good_const (f32_const F) (f32tk b) b.
Hypothesis ok64 : forall t b, ok t -> f64_const F t b -> good_const (f64_const F) (f64tk b) b.
Notation oks := (Forall ok).
Notation good := (good_instr f32tk f64tk F).

Ltac parts H := repeat first [rewrite Forall_app in H | rewrite Forall_cons_iff in H]; repeat match type of H with _ /\ _ => let X := fresh "V" in destruct H as [X H]; parts X end.

Ltac ids := match goal with H : ok (TId, _) |- _ => now apply ok_valid in H end.
Lemma many_paren {A} (G : spelling A) w xs x : many (paren G) w xs -> oks w -> In x xs -> exists w', G w' x /\ oks w'.
Proof.
  induction 1 as [|w ws y ys [w' y' Hy] H IH]; intros V Hx; [destruct Hx|].
  parts V. destruct Hx as [<-|Hx]; [eauto|]. now apply IH.
Qed.
Lemma name_ok w n : opt_id w n -> oks w -> good_name n.
Proof. intros [|id] V; [exact I|]. parts V. ids. Qed.
Lemma id_ok id w : oks w -> In (TId, id) w -> id_text id.
Proof. intros V H. rewrite Forall_forall in V. apply V in H. now apply ok_valid in H. Qed.
Lemma index_ok w i : an_index w i -> oks w -> good_index i.
Proof.
  intros [w' n H|w'] V; cbn [good_index]; [|apply (id_ok w' _ V); now left].
  destruct H. apply unsigned_bound.
Qed.
Lemma one_result_ok w r : one_result w r -> length r = 1%nat.
Proof. now intros []. Qed.

Lemma operator_ok w i : operator F w i -> oks w -> is_operator i /\ good i.
Proof.
  intros H V. destruct H as [p|s Hs|o w i H|w i H|w z H|w z H|t b H|t b H|id]; cbn [is_operator good_instr]; split; try exact I; parts V.
  - now apply (index_ok w).
  - now apply (index_ok w).
  - now apply (i32_bounds w).
  - now apply (i64_bounds w).
  - now apply (ok32 t).
  - now apply (ok64 t).
  - ids.
Qed.

Lemma instr_ok i : forall w, instruction F w i -> oks w -> good i.
Proof.
  induction i as [i IH] using tree_induction. intros w H V.
  assert (Nest : forall l, (forall x, In x l -> match i with
             | IBlock _ _ b | ILoop _ _ b => In x b
             | IIf _ _ c t e => In x c \/ In x t \/ (exists b, e = Some b /\ In x b)
             | IFolded f ps => x = f \/ In x ps
             | _ => False
             end) -> (forall x, In x l -> exists w', instruction F w' x /\ oks w') -> every good l).
  { intros l H1 H2. apply every_intro. intros x Hx. destruct (H2 x Hx) as (w' & H3 & H4). apply (IH x (H1 x Hx) w' H3 H4). }
  destruct H as [w i H|w i ws ps H Hp Hn|wn n wr rs wb b Hn Hr Hb|wn n wr rs wb b Hn Hr Hb|wn n ws ss Hn Hs].
  - now apply (operator_ok w).
  - parts V. destruct (operator_ok w i H) as [H1 H2]; [assumption|]. cbn [good_instr]. split; [exact H1|]. split; [exact H2|].
    split; [exact Hn|]. apply Nest; [now right|]. intros x Hx. now apply (many_paren _ ws ps).
  - parts V. cbn [good_instr]. split; [now apply (name_ok wn)|]. apply Nest; [auto|]. intros x Hx. now apply (many_paren _ wb b).
  - parts V. cbn [good_instr]. split; [now apply (name_ok wn)|]. apply Nest; [auto|]. intros x Hx. now apply (many_paren _ wb b).
  - parts V. cbn [good_instr].
    assert (Sec : forall s, In s ss -> exists w', an_if_section F w' s /\ oks w') by (intros s; now apply many_paren with (w := ws)).
    split; [now apply (name_ok wn)|]. split; [|split; [|split]].
    + apply Forall_forall. intros r Hr. unfold if_results in Hr. apply in_flat_map in Hr. destruct Hr as (s & H1 & H2).
      destruct (Sec s H1) as (w' & H3 & _). destruct s as [r'| | |]; cbn in H2; try contradiction. destruct H2 as [<-|[]].
      inversion H3; subst. now apply (one_result_ok w').
    + apply Nest; [now left|]. intros x Hx. unfold if_clause in Hx. apply in_flat_map in Hx. destruct Hx as (s & H1 & H2).
      destruct (Sec s H1) as (w' & H3 & H4). destruct s as [| | |j]; cbn in H2; try contradiction. destruct H2 as [<-|[]].
      inversion H3; subst. eauto.
    + apply Nest; [now right; left|]. intros x Hx. unfold if_then in Hx. apply last_in in Hx. destruct Hx as [[]|(b & Hb & Hx)].
      apply in_flat_map in Hb. destruct Hb as (s & H1 & H2).
      destruct (Sec s H1) as (w' & H3 & H4). destruct s as [|b'| |]; cbn in H2; try contradiction. destruct H2 as [<-|[]].
      inversion H3; subst. parts H4. now apply (many_paren _ ws0 b').
    + destruct (if_else ss) as [b|] eqn:E; [|exact I]. apply Nest; [right; right; eauto|]. intros x Hx.
      assert (Hb : In (SElse b) ss).
      { unfold if_else in E. replace (flat_map _ ss) with (map Some (flat_map (fun s => match s with SElse b => [b] | _ => [] end) ss)) in E.
        - apply last_some in E. apply in_flat_map in E. destruct E as (s & H1 & H2). destruct s; cbn in H2; try contradiction.
          destruct H2 as [->|[]]. exact H1.
        - clear. induction ss as [|[] ss IH]; cbn; congruence. }
      destruct (Sec _ Hb) as (w' & H3 & H4). inversion H3; subst. parts H4. now apply (many_paren _ ws0 b).
Qed.
Lemma instrs_ok w b : many (paren (instruction F)) w b -> oks w -> Forall good b.
Proof.
  intros H V. apply Forall_forall. intros x Hx. destruct (many_paren _ w b x H V Hx) as (w' & H1 & H2). now apply (instr_ok x w').
Qed.
Lemma row_ok w b : many (instruction F) w b -> oks w -> Forall good b.
Proof. induction 1 as [|w ws x xs Hx H IH]; intros V; [constructor|]. parts V. constructor; [now apply (instr_ok x w)|now apply IH]. Qed.

Lemma param_ok w p : param w p -> oks w -> good_param p.
Proof.
  intros [id w' t Ht|ws ts H] V; unfold good_param; cbn [p_id p_types]; [|exact I]. split; [|reflexivity].
  parts V. ids.
Qed.
Lemma string_ok w s : a_string w s -> ~ In quote s.
Proof. now intros []. Qed.

Lemma func_ok w f : function F w f -> oks w -> good_func f32tk f64tk F f.
Proof.
  intros [wn n ws ss wb b Hn Hs Hb] V. parts V.
  assert (Sec : forall s, In s ss -> exists w', a_func_section F w' s /\ oks w') by (intros s; now apply many_paren with (w := ws)).
  unfold good_func, good_results; cbn [f_id f_locals f_exports f_params f_results f_instrs]. split; [now apply (name_ok wn)|].
  split; [|split; [|split; [|apply Forall_app; split; [|now apply (row_ok wb)]]]]; apply Forall_forall; intros x Hx; apply in_flat_map in Hx;
    destruct Hx as (s & H1 & H2); destruct (Sec s H1) as (w' & H3 & H4); destruct s; cbn in H2; try contradiction; destruct H2 as [<-|[]];
    inversion H3; subst; try (parts H4).
  - now apply (string_ok w0).
  - now apply (param_ok w').
  - now apply (one_result_ok w').
  - now apply (instr_ok i w').
Qed.
Lemma limits_ok w l : a_limits w l -> good_limits l.
Proof. intros [w' z H|w1 z1 w2 z2 H1 H2]; unfold good_limits; cbn [lim_min lim_max]; split; try exact I; apply unsigned_bound. Qed.

Lemma directive_ok w m : a_directive F w (DModule m) -> oks w -> good_module f32tk f64tk F m.
Proof.
  intros H V. inversion H as [ws ss Hs|]; subst. parts V.
  assert (Sec : forall s, In s ss -> exists w', a_section F w' s /\ oks w') by (intros s; now apply many_paren with (w := ws)).
  unfold good_module, module_of; cbn [md_types md_funcs md_tables md_memories md_globals].
  split; [|split; [|split; [|split]]]; apply Forall_forall; intros x Hx; apply in_flat_map in Hx;
    destruct Hx as (s & H1 & H2); destruct (Sec s H1) as (w' & H3 & H4); destruct s; cbn in H2; try contradiction; destruct H2 as [<-|[]];
    inversion H3 as [? ? G|? ? G|? ? G|? ? G|? ? G]; subst; clear H3.
  - destruct G as [wn n w f Hn Hf|wn n Hn]; parts H4; cbn [td_id td_func]; split; try (now apply (name_ok wn)); [|split; constructor].
    destruct Hf as [w f [fs ss' Hf]]. match goal with V : oks (lp :: _) |- _ => parts V end. cbn [ft_params ft_results].
    assert (Sec' : forall s, In s ss' -> exists w', a_type_section w' s /\ oks w') by (intros s; now apply many_paren with (w := fs)).
    unfold good_results. split; apply Forall_forall; intros y Hy; apply in_flat_map in Hy; destruct Hy as (s & H5 & H6);
      destruct (Sec' s H5) as (w2 & H7 & H8); destruct s; cbn in H6; try contradiction; destruct H6 as [<-|[]]; inversion H7; subst.
    + now apply (param_ok w2).
    + now apply (one_result_ok w2).
  - now apply (func_ok w').
  - destruct G as [wn n wl l wr r we es Hn Hl Hr He]. parts H4. cbn [tb_id tb_limits tb_elems]. split; [now apply (name_ok wn)|]. split.
    + destruct Hl as [|wl l Hl]; [split; [reflexivity|exact I]|]. now apply (limits_ok wl).
    + apply Forall_forall. intros id Hid. destruct (many_paren _ we es id He) as (w2 & H5 & H6); [assumption|exact Hid|].
      inversion H5; subst. apply (id_ok id _ H6). right. now left.
  - destruct G as [wn n w l Hn Hl]. parts H4. cbn [m_id m_limits]. split; [now apply (name_ok wn)|now apply (limits_ok w)].
  - destruct G as [wn n w t wi is Hn Ht Hi|wn n w t wi is Hn Ht Hi]; parts H4; cbn [g_id g_instrs]; (split; [now apply (name_ok wn)|now apply (instrs_ok wi)]).
Qed.

(** ** Scripts *)
(** An f64.const without a number is 0. *)
Hypothesis zero64 : good_const (f64_const F) (f64tk 0) 0.

Lemma number_ok w c : S_WastParse.a_number F w c -> oks w -> good_wconst f32tk f64tk F c.
Proof.
  intros [w' z H|w' z H|t b H|t b H|] V; cbn [good_wconst]; parts V.
  - now apply (i32_bounds w').
  - now apply (i64_bounds w').
  - now apply (ok32 t).
  - now apply (ok64 t).
  - exact zero64.
Qed.
Lemma action_ok w a : an_action F w a -> oks w -> good_action f32tk f64tk F a.
Proof.
  intros [wn n w' s wc cs Hn Hs Hc|w' _ _] V; cbn [good_action in_name in_string in_consts]; [|exact I]. parts V.
  split; [now apply (name_ok wn)|]. split; [now apply (string_ok w')|].
  apply Forall_forall. intros c Hi. destruct (many_paren _ wc cs c Hc) as (w2 & H5 & H6); [assumption|exact Hi|].
  destruct H5 as [w2 c H5|]; [now apply (number_ok w2)|exact I].
Qed.
Lemma quote_wat_ok w q : a_quote_wat F w q -> oks w -> good_quote_wat f32tk f64tk F q.
Proof.
  intros [w' [m|] H|w' s H|w' s H] V; cbn [good_quote_wat]; try exact I; try (now apply (string_ok w')).
  now apply (directive_ok w').
Qed.
Lemma results_ok w rs : many (a_result F) w rs -> oks w -> Forall (good_wconst f32tk f64tk F) (concat rs).
Proof.
  induction 1 as [|w ws x xs Hx H IH]; intros V; [constructor|]. parts V. cbn [concat]. apply Forall_app. split; [|now apply IH].
  destruct Hx as [w x [w' x' Hx]|]; [|constructor]. constructor; [|constructor]. parts V0. now apply (number_ok w').
Qed.
Lemma wdirective_ok w d : a_wdirective F w d -> oks w -> good_wdirective f32tk f64tk F d.
Proof.
  intros [w' q H|wa a wr rs Ha Hr|wa a wt s Ha Hs|wq q wt s Hq Hs|wq q wt s Hq Hs] V; cbn [good_wdirective]; [|parts V..].
  - now apply (quote_wat_ok w').
  - split; [now apply (action_ok wa)|now apply (results_ok wr)].
  - split; [now apply (action_ok wa)|now apply (string_ok wt)].
  - split; [now apply (quote_wat_ok wq)|now apply (string_ok wt)].
  - split; [now apply (quote_wat_ok wq)|now apply (string_ok wt)].
Qed.
Lemma script_ok w ds : a_script F w ds -> oks w -> Forall (good_wdirective f32tk f64tk F) ds.
Proof. induction 1 as [|w ws x xs Hx H IH]; intros V; [constructor|]. parts V. constructor; [now apply (wdirective_ok w)|now apply IH]. Qed.
End Reprint.

(** ** Writing the floats of a text with its own tokens *)
Definition read_const (float : text -> option N) (int : text -> option N) (t : tk) : option N :=
  match fst t with TFloat => float (snd t) | TInteger => int (snd t) | _ => None end.
Definition write_from (read : tk -> option N) (ts : list tk) (b : N) : tk :=
  match find (fun t => match read t with Some c => (c =? b)%N | None => false end) ts with Some t => t | None => lp end.

Lemma write_from_good (G : tk -> N -> Prop) read ts : (forall t b, valid t -> G t b <-> read t = Some b) -> Forall valid ts ->
  forall t b, In t ts -> G t b -> good_const G (write_from read ts b) b.
Proof.
  intros HG V t b Hi H. rewrite Forall_forall in V. unfold write_from.
  destruct (find _ ts) as [u|] eqn:E.
  - apply find_some in E. destruct E as [Hu E]. split; [now apply V|]. apply HG; [now apply V|].
    destruct (read u) as [c|]; [|discriminate]. apply N.eqb_eq in E. now subst.
  - exfalso. pose proof (find_none _ _ E t Hi) as X. cbn beta in X. apply HG in H; [|now apply V]. rewrite H in X.
    rewrite N.eqb_refl in X. discriminate.
Qed.

Section Write.
Variable pf : text -> option N.
Definition read32_tk : tk -> option N := read_const (float32_literal pf) (fun w => option_map float32_of_int (int32_literal w)).
Definition read64_tk : tk -> option N := read_const (fun w => option_map widen (pf w)) (fun w => option_map float64_of_int (int64_literal w)).
Lemma read32_ok t b : valid t -> f32_const (model_floats pf) t b <-> read32_tk t = Some b.
Proof.
  intros V. split.
  - intros H. destruct H as [w b H|w z H]; cbn; [now apply float32_literal_spec; [apply V|]|].
    apply int32_literal_spec in H; [|exact V]. now rewrite H.
  - destruct t as [k w]. unfold read32_tk, read_const. cbn [fst snd]. destruct k; try discriminate; intros H.
    + destruct (int32_literal w) as [z|] eqn:E; [|discriminate]. injection H as <-. apply int32_literal_spec in E; [|exact V].
      now apply (f32_of_int (model_floats pf)).
    + constructor. apply float32_literal_spec in H; [exact H|apply V].
Qed.
Lemma read64_ok t b : valid t -> f64_const (model_floats pf) t b <-> read64_tk t = Some b.
Proof.
  intros V. split.
  - intros H. destruct H as [w b H|w z H]; cbn in *; [now rewrite H|].
    apply int64_literal_spec in H; [|exact V]. now rewrite H.
  - destruct t as [k w]. unfold read64_tk, read_const. cbn [fst snd]. destruct k; try discriminate; intros H.
    + destruct (int64_literal w) as [z|] eqn:E; [|discriminate]. injection H as <-. apply int64_literal_spec in E; [|exact V].
      now apply (f64_of_int (model_floats pf)).
    + destruct (pf w) as [c|] eqn:E; [|discriminate]. injection H as <-. now apply (f64_of_float (model_floats pf)).
Qed.
End Write.
