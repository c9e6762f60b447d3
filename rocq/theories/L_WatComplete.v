(** The WAT parser over the machine: what is spelled as the grammar says is
    accepted, with the tree that the grammar gives. *)
From Coq Require Import Arith NArith ZArith String Ascii Bool List Lia.
From Verif Require Import GoBase M_Text M_WatLex M_ParseBase M_Strconv M_WatAst M_WatParse S_WatLex S_WatParse
  L_ParseBase L_WatSim L_WatTotal L_WatLit L_WatSound.
Import ListNotations.
Open Scope nat_scope.
Open Scope parse_scope.

Section Complete.
Variable pf : text -> option N.
Notation mch := (machine EndOfStream).
Notation F := (model_floats pf).

(** What may follow *)
Definition next_is (P : toktype -> Prop) (rest : list tk) : Prop := exists t r, rest = t :: r /\ P (fst t).
Definition stop : list tk -> Prop := next_is (fun k => k = CloseParen \/ k = Reserved).
Definition not_id : list tk -> Prop := next_is (fun k => k <> TId).
Definition no_open : list tk -> Prop := next_is (fun k => k <> OpenParen).

Lemma next_weaken (P Q : toktype -> Prop) r : next_is P r -> (forall k, P k -> Q k) -> next_is Q r.
Proof. intros (t & r' & E & H) HPQ. exists t, r'. auto. Qed.
Lemma next_cons (P : toktype -> Prop) t r : P (fst t) -> next_is P (t :: r).
Proof. intros H. exists t, r. auto. Qed.
Lemma stop_open r : stop r -> no_open r.
Proof. intros H. eapply next_weaken; [exact H|]. intros k [->| ->]; discriminate. Qed.
Lemma stop_id r : stop r -> not_id r.
Proof. intros H. eapply next_weaken; [exact H|]. intros k [->| ->]; discriminate. Qed.
Lemma rp_stop r : stop (rp :: r).
Proof. apply next_cons. left. reflexivity. Qed.

Lemma pk_run t ts e : pk mch (t :: ts, e) = (Ok t, (t :: ts, e)).
Proof. reflexivity. Qed.
Lemma nxt_run t ts e : nxt mch (t :: ts, e) = (Ok t, (ts, e)).
Proof. reflexivity. Qed.
Lemma word_run w ts e : word mch w ((Reserved, w) :: ts, e) = (Ok tt, (ts, e)).
Proof. apply expect_value_run. apply tok_eqb_spec. Qed.
Lemma exp_run k w ts e : exp mch k ((k, w) :: ts, e) = (Ok tt, (ts, e)).
Proof. apply expect_run. apply tok_eqb_spec. Qed.
Lemma ate_run w ts e : ate mch OpenParen ((OpenParen, w) :: ts, e) = (Ok true, (ts, e)).
Proof. apply eat_run. apply tok_eqb_spec. Qed.
Lemma lp_run ts e : ate mch OpenParen (lp :: ts, e) = (Ok true, (ts, e)).
Proof. apply (ate_run (txt "(")). Qed.
Lemma rp_run ts e : exp mch CloseParen (rp :: ts, e) = (Ok tt, (ts, e)).
Proof. apply (exp_run CloseParen (txt ")")). Qed.
Lemma ate_skip r e : no_open r -> ate mch OpenParen (r, e) = (Ok false, (r, e)).
Proof. intros (t & r' & -> & H). apply eat_skip; [apply tok_eqb_spec | exact H]. Qed.

Lemma tok_eqb_refl k : tok_eqb k k = true.
Proof. destruct k; reflexivity. Qed.
Lemma tok_eqb_neq a b : a <> b -> tok_eqb a b = false.
Proof. intros H. destruct (tok_eqb_spec a b); congruence. Qed.

Ltac len := cbn [length app] in *; repeat (rewrite app_length in *; cbn [length] in * ); lia.
Ltac bind := eapply plet_run; [|cbv beta].
Ltac peek := eapply plet_run; [apply pk_run | cbv beta; cbn [fst snd]].
Ltac take := eapply plet_run; [apply nxt_run | cbv beta; cbn [fst snd]].
Ltac wd := eapply plet_run; [apply word_run | cbv beta].

Lemma id_run id rest e : parse_id mch ((TId, id) :: rest, e) = (Ok id, (rest, e)).
Proof. unfold parse_id. take. reflexivity. Qed.

Lemma optional_id_run w x rest e : opt_id w x -> not_id rest ->
  parse_optional_id mch (w ++ rest, e) = (Ok x, (rest, e)).
Proof.
  intros H (t & r & -> & Hr). unfold parse_optional_id. destruct H; cbn [app].
  - peek. rewrite tok_eqb_neq by exact Hr. reflexivity.
  - peek. rewrite tok_eqb_refl. bind; [apply id_run | reflexivity].
Qed.
Lemma block_name_run w x rest e : opt_id w x -> not_id rest ->
  block_name mch (w ++ rest, e) = (Ok x, (rest, e)).
Proof.
  intros H (t & r & -> & Hr). unfold block_name. destruct H; cbn [app].
  - peek. rewrite tok_eqb_neq by exact Hr. reflexivity.
  - peek. rewrite tok_eqb_refl. take. reflexivity.
Qed.
Lemma func_id_run w x rest e : opt_id w x -> not_id rest ->
  func_id mch (w ++ rest, e) = (Ok x, (rest, e)).
Proof.
  intros H (t & r & -> & Hr). unfold func_id. destruct H; cbn [app].
  - peek. rewrite tok_eqb_neq by exact Hr. reflexivity.
  - peek. rewrite tok_eqb_refl. take. reflexivity.
Qed.

Lemma string_run w x rest e : a_string w x -> parse_string mch (w ++ rest, e) = (Ok x, (rest, e)).
Proof.
  intros [b Hb]. unfold parse_string.
  eapply plet_run; [apply (nxt_run (TString, [quote] ++ b ++ [quote]) rest e) | cbv beta; cbn [fst snd]].
  rewrite tok_eqb_refl.
  rewrite (trim_quoted b Hb). reflexivity.
Qed.
Lemma int32_run w z rest e : valid (TInteger, w) -> i32_literal w z ->
  parse_int32 mch ((TInteger, w) :: rest, e) = (Ok z, (rest, e)).
Proof.
  intros V H. unfold parse_int32. apply handled_run. take. rewrite tok_eqb_refl.
  apply int32_literal_spec in H; [|exact V]. rewrite H. reflexivity.
Qed.
Lemma int64_run w z rest e : valid (TInteger, w) -> i64_literal w z ->
  parse_int64 mch ((TInteger, w) :: rest, e) = (Ok z, (rest, e)).
Proof.
  intros V H. unfold parse_int64. apply handled_run. take. rewrite tok_eqb_refl.
  apply int64_literal_spec in H; [|exact V]. rewrite H. reflexivity.
Qed.
Lemma float32_run w b rest e : valid (TFloat, w) -> f32_float F w b ->
  parse_float32 mch pf ((TFloat, w) :: rest, e) = (Ok b, (rest, e)).
Proof.
  intros V H. unfold parse_float32. apply handled_run. take. rewrite tok_eqb_refl.
  apply float32_literal_spec in H; [|apply V]. rewrite H. reflexivity.
Qed.
Lemma float64_run w b rest e : pf w = Some b ->
  parse_float64 mch pf ((TFloat, w) :: rest, e) = (Ok (widen b), (rest, e)).
Proof.
  intros H. unfold parse_float64. apply handled_run. take. rewrite tok_eqb_refl, H. reflexivity.
Qed.
Lemma peek_float_run t rest e : peek_float mch (t :: rest, e) = (Ok (tok_eqb (fst t) TFloat), (t :: rest, e)).
Proof. unfold peek_float. apply handled_run. peek. reflexivity. Qed.
Lemma val_type_run w t rest e : val_type w t -> parse_val_type mch (w ++ rest, e) = (Ok t, (rest, e)).
Proof.
  intros H. destruct H as [t]. unfold parse_val_type. apply handled_run. cbn [app]. take. destruct t; reflexivity.
Qed.
Lemma index_run w i rest e : an_index w i -> parse_index mch (w ++ rest, e) = (Ok i, (rest, e)).
Proof.
  intros H. destruct H as [w n H|w]; unfold parse_index; apply handled_run; cbn [app]; take; [|reflexivity].
  apply index_literal_spec in H. destruct H as (z & H & ->). bind; [rewrite H; reflexivity | reflexivity].
Qed.
Lemma result_run w x rest e : one_result w x -> parse_result mch (w ++ rest, e) = (Ok x, (rest, e)).
Proof.
  intros [w' t H]. unfold parse_result. apply handled_run. cbn [app]. wd.
  bind; [apply val_type_run, H | reflexivity].
Qed.
Lemma val_type_head w t : val_type w t -> exists v, w = [(Reserved, v)].
Proof. intros []. eexists. reflexivity. Qed.
Lemma param_types_run n : forall w xs rest e, many val_type w xs -> next_is (fun k => k <> Reserved) rest ->
  length (w ++ rest) < n -> M_WatParse.param_types mch n (w ++ rest, e) = (Ok xs, (rest, e)).
Proof.
  induction n as [|n IH]; intros w xs rest e H Hr Hl; [lia|]. cbn [M_WatParse.param_types].
  destruct H as [|w ws x xs H H'].
  - destruct Hr as (t & r & -> & Hr). cbn [app]. peek. rewrite tok_eqb_neq by exact Hr. reflexivity.
  - rewrite <- app_assoc. pose proof (val_type_head _ _ H) as (v & ->). cbn [app] in *. peek. cbn in Hl.
    bind; [exact (val_type_run [(Reserved, v)] x (ws ++ rest) e H)|].
    bind; [apply IH; [exact H' | exact Hr | lia] | reflexivity].
Qed.
Lemma parameter_run n w x rest e : param w x -> length (w ++ rp :: rest) < n ->
  parse_parameter mch n (w ++ rp :: rest, e) = (Ok x, (rp :: rest, e)).
Proof.
  intros H Hl. unfold parse_parameter. apply handled_run. destruct H as [id w t H|ws ts H]; cbn [app].
  - wd. bind; [apply (optional_id_run [(TId, id)] (Some id)); [constructor|]|].
    + pose proof (val_type_head _ _ H) as (v & ->). apply next_cons. discriminate.
    + cbv iota. bind; [apply val_type_run, H | reflexivity].
  - wd. bind; [apply (optional_id_run [] None); [constructor|]|].
    + destruct H as [|w' ws x xs H H']; [apply next_cons; discriminate|].
      pose proof (val_type_head _ _ H) as (v & ->). apply next_cons. discriminate.
    + cbv iota. bind; [apply param_types_run; [exact H | apply next_cons; discriminate|] | reflexivity].
      cbn in Hl. lia.
Qed.
Lemma until_close_run n : forall w xs rest e, many val_type w xs ->
  length (w ++ rp :: rest) < n -> until_close mch n (w ++ rp :: rest, e) = (Ok xs, (rp :: rest, e)).
Proof.
  induction n as [|n IH]; intros w xs rest e H Hl; [lia|]. cbn [until_close].
  destruct H as [|w ws x xs H H'].
  - cbn [app]. peek. reflexivity.
  - rewrite <- app_assoc. pose proof (val_type_head _ _ H) as (v & ->). cbn [app] in *. peek. cbn in Hl.
    cbn [tok_eqb]. bind; [exact (val_type_run [(Reserved, v)] x (ws ++ rp :: rest) e H)|].
    bind; [apply IH; [exact H' | lia] | reflexivity].
Qed.

(** No block type follows. *)
Definition no_result (rest : list tk) : Prop :=
  no_open rest \/ exists k v r, rest = lp :: (k, v) :: r /\ v <> txt "result".

Lemma at_result_none rest e : no_result rest -> at_result mch (rest, e) = (Ok None, (rest, e)).
Proof.
  intros [H|(k & v & r & -> & H)]; unfold at_result, trial.
  - unfold pbind, unwrap. rewrite ate_skip by exact H. reflexivity.
  - unfold pbind, unwrap, lp. rewrite ate_run. rewrite pk_run. cbn [fst snd].
    apply text_eqb_false in H. rewrite H. reflexivity.
Qed.
Lemma at_result_some rest e :
  at_result mch (lp :: kw "result" :: rest, e) = (Ok (Some tt), (kw "result" :: rest, e)).
Proof.
  unfold at_result, trial, pbind, unwrap, lp. rewrite ate_run, pk_run. reflexivity.
Qed.
Lemma block_type_run n : forall w xs rest e, many (paren results) w xs -> no_result rest ->
  length (w ++ rest) < n -> block_type_loop mch n (w ++ rest, e) = (Ok xs, (rest, e)).
Proof.
  induction n as [|n IH]; intros w xs rest e H Hr Hl; [lia|]. cbn [block_type_loop].
  destruct H as [|w ws x xs H H'].
  - bind; [apply at_result_none, Hr | reflexivity].
  - destruct H as [w x H]. destruct H as [w ts H]. cbn [app] in *. repeat (rewrite <- app_assoc in *; cbn [app] in *).
    bind; [apply at_result_some|]. cbv iota. wd.
    bind; [apply until_close_run; [exact H | len]|].
    bind; [apply rp_run|]. bind; [apply IH; [exact H' | exact Hr | len] | reflexivity].
Qed.

(** ** Loops *)

Lemma closed_run {A} (p : parser _ A) x s rest e :
  p s = (Ok x, (rp :: rest, e)) -> closed mch p s = (Ok x, (rest, e)).
Proof. intros H. unfold closed. bind; [exact H|]. bind; [apply rp_run | reflexivity]. Qed.

Lemma while_run {A} (G : spelling A) p m :
  (forall w x rest e, G w x -> Forall valid w -> length (w ++ rp :: rest) < m ->
     p (w ++ rp :: rest, e) = (Ok x, (rp :: rest, e))) ->
  forall n w xs rest e, many (paren G) w xs -> Forall valid w -> no_open rest ->
  length (w ++ rest) < n -> length (w ++ rest) <= m ->
  while_eat tok_eqb mch n OpenParen (closed mch p) (w ++ rest, e) = (Ok xs, (rest, e)).
Proof.
  intros Hp. induction n as [|n IH]; intros w xs rest e H V Hr Hl Hm; [lia|]. cbn [while_eat].
  destruct H as [|w ws x xs H H'].
  - bind; [apply ate_skip, Hr | reflexivity].
  - destruct H as [w x H]. cbn [app] in *. repeat (rewrite <- app_assoc in *; cbn [app] in *).
    bind; [apply lp_run|]. cbv iota.
    inversion V as [|? ? _ V']; subst. apply Forall_app in V'. destruct V' as [V1 V2].
    inversion V2 as [|? ? _ V3]; subst. cbn in Hl, Hm. rewrite app_length in Hl, Hm. cbn in Hl, Hm.
    bind; [apply closed_run, Hp; [exact H | exact V1 | rewrite app_length; cbn; lia]|].
    bind; [apply IH; [exact H' | exact V3 | exact Hr | lia | lia] | reflexivity].
Qed.

Lemma sections_run {A B} (G : spelling B) (add : A -> B -> A) body m :
  (forall w x rest e a, G w x -> Forall valid w -> length (w ++ rp :: rest) < m ->
     body a (w ++ rp :: rest, e) = (Ok (add a x), (rp :: rest, e))) ->
  forall n w xs rest e a, many (paren G) w xs -> Forall valid w -> no_open rest ->
  length (w ++ rest) < n -> length (w ++ rest) <= m ->
  sections mch n body a (w ++ rest, e) = (Ok (fold_left add xs a), (rest, e)).
Proof.
  intros Hp. induction n as [|n IH]; intros w xs rest e a H V Hr Hl Hm; [lia|]. cbn [sections].
  destruct H as [|w ws x xs H H'].
  - bind; [apply ate_skip, Hr | reflexivity].
  - destruct H as [w x H]. cbn [app] in *. repeat (rewrite <- app_assoc in *; cbn [app] in *).
    bind; [apply lp_run|]. cbv iota.
    inversion V as [|? ? _ V']; subst. apply Forall_app in V'. destruct V' as [V1 V2].
    inversion V2 as [|? ? _ V3]; subst. cbn in Hl, Hm. rewrite app_length in Hl, Hm. cbn in Hl, Hm.
    bind; [apply closed_run, Hp; [exact H | exact V1 | rewrite app_length; cbn; lia]|].
    cbn [fold_left]. apply IH; [exact H' | exact V3 | exact Hr | lia | lia].
Qed.

(** ** Instructions *)

(** The words that begin an instruction *)
Definition heads : list text :=
  map fst plain_cases ++ map fst index_cases ++
  map txt ["br_table"; "i32.const"; "i64.const"; "f32.const"; "f64.const"; "block"; "loop"; "if"; "call_indirect"]%string.
(** The words that begin something else in parentheses *)
Definition others : list text :=
  map txt ["result"; "then"; "else"; "local"; "param"; "export"; "import"]%string.

Lemma heads_others s v : In s heads -> In v others -> text_eqb s v = false.
Proof.
  assert (forallb (fun s => forallb (fun v => negb (text_eqb s v)) others) heads = true) as H by (vm_compute; reflexivity).
  intros Hs Hv. rewrite forallb_forall in H. specialize (H s Hs). rewrite forallb_forall in H.
  specialize (H v Hv). destruct (text_eqb s v); [discriminate | reflexivity].
Qed.

Lemma in_heads s : existsb (text_eqb s) heads = true -> In s heads.
Proof.
  intros H. apply existsb_exists in H. destruct H as (v & Hv & E). apply text_eqb_true in E. subst. exact Hv.
Qed.

Lemma operator_head w i : operator F w i -> exists s w', w = (Reserved, s) :: w' /\ In s heads.
Proof.
  intros H. destruct H as [p|s Hs|o w i _|w i _|w z _|w z _|t b _|t b _|id]; eexists; eexists; (split; [reflexivity|]);
    apply in_heads; try (vm_compute; reflexivity).
  - destruct p; vm_compute; reflexivity.
  - repeat (destruct Hs as [<-|Hs]; [vm_compute; reflexivity|]). destruct Hs.
  - destruct o; vm_compute; reflexivity.
Qed.
Lemma instruction_head w i : instruction F w i -> exists s w', w = (Reserved, s) :: w' /\ In s heads.
Proof.
  intros H. destruct H as [w i H|w i ws ps H _ _|wn n wr rs wb b _ _ _|wn n wr rs wb b _ _ _|wn n ws ss _ _].
  - exact (operator_head _ _ H).
  - destruct (operator_head _ _ H) as (s & w' & -> & Hs). eexists; eexists. split; [reflexivity | exact Hs].
  - eexists; eexists. split; [reflexivity|]. apply in_heads. vm_compute. reflexivity.
  - eexists; eexists. split; [reflexivity|]. apply in_heads. vm_compute. reflexivity.
  - eexists; eexists. split; [reflexivity|]. apply in_heads. vm_compute. reflexivity.
Qed.

Lemma many_paren_next {A} (G : spelling A) (P : toktype -> Prop) w xs rest :
  many (paren G) w xs -> P OpenParen -> next_is P rest -> next_is P (w ++ rest).
Proof.
  intros H HP Hr. destruct H as [|w ws x xs H _]; [exact Hr|]. destruct H. apply next_cons. exact HP.
Qed.

Section Instr.
Variable pi : parser (stream toktype) instr.
Variable n : nat.
Hypothesis Hpi : forall w x rest e, instruction F w x -> Forall valid w -> stop rest -> length (w ++ rest) < n ->
  pi (w ++ rest, e) = (Ok x, (rest, e)).

Lemma Hpi_closed w x rest e : instruction F w x -> Forall valid w -> length (w ++ rp :: rest) < n ->
  pi (w ++ rp :: rest, e) = (Ok x, (rp :: rest, e)).
Proof. intros H V Hl. apply Hpi; [exact H | exact V | apply rp_stop | exact Hl]. Qed.

Lemma instructions_run w xs rest e : many (paren (instruction F)) w xs -> Forall valid w -> no_open rest ->
  length (w ++ rest) < n -> parse_instructions mch pi n (w ++ rest, e) = (Ok xs, (rest, e)).
Proof.
  intros H V Hr Hl. unfold parse_instructions. apply handled_run.
  apply (while_run (instruction F) pi n Hpi_closed n); try assumption; lia.
Qed.

Lemma kw_tail s (w : list tk) : Forall valid (kw s :: w) -> Forall valid w.
Proof. apply valid_tail. Qed.

Lemma if_section_run w x rest e a : an_if_section F w x -> Forall valid w -> length (w ++ rp :: rest) < n ->
  M_WatParse.if_section mch pi n a (w ++ rp :: rest, e) = (Ok (add_if a x), (rp :: rest, e)).
Proof.
  intros H V Hl. unfold M_WatParse.if_section. destruct H as [w r H|ws b H|ws b H|w i H].
  - destruct H as [w t H]. cbn [app]. peek. rewrite text_eqb_refl.
    bind; [exact (result_run (kw "result" :: w) [t] _ _ (result_type _ _ H)) | reflexivity].
  - cbn [app]. peek. change (text_eqb (txt "then") (txt "result")) with false. rewrite text_eqb_refl. cbv iota.
    bind; [unfold parse_then; apply handled_run; wd; apply instructions_run;
           [exact H | eapply kw_tail, V | apply stop_open, rp_stop | len] | reflexivity].
  - cbn [app]. peek. change (text_eqb (txt "else") (txt "result")) with false.
    change (text_eqb (txt "else") (txt "then")) with false. rewrite text_eqb_refl. cbv iota.
    bind; [unfold parse_else; apply handled_run; wd; apply instructions_run;
           [exact H | eapply kw_tail, V | apply stop_open, rp_stop | len] | reflexivity].
  - pose proof (instruction_head _ _ H) as (s & w' & -> & Hs). cbn [app]. peek.
    rewrite !(heads_others s) by (exact Hs || (cbn; tauto)).
    bind; [exact (Hpi_closed _ _ rest e H V Hl) | reflexivity].
Qed.

Lemma valid_app3 (a b c : list tk) : Forall valid (a ++ b ++ c) -> Forall valid a /\ Forall valid b /\ Forall valid c.
Proof. rewrite !Forall_app. tauto. Qed.

Lemma no_result_instrs w xs rest : many (paren (instruction F)) w xs -> stop rest -> no_result (w ++ rest).
Proof.
  intros H Hr. destruct H as [|w ws x xs H _]; [left; apply stop_open, Hr|].
  destruct H as [w x H]. pose proof (instruction_head _ _ H) as (s & w' & -> & Hs).
  right. eexists; eexists; eexists. split; [cbn [app]; rewrite <- app_assoc; reflexivity|].
  apply text_eqb_false, heads_others; [exact Hs | cbn; tauto].
Qed.
Lemma not_id_parens {A B} (G : spelling A) (G' : spelling B) w xs w' xs' rest :
  many (paren G) w xs -> many (paren G') w' xs' -> stop rest -> not_id (w ++ w' ++ rest).
Proof.
  intros H H' Hr. apply (many_paren_next G _ w xs); [exact H | discriminate|].
  apply (many_paren_next G' _ w' xs'); [exact H' | discriminate|]. apply stop_id, Hr.
Qed.

(** Operators with all that belongs to them: the two kinds of spelling *)
Lemma operator_run w x rest e : operator F w x -> Forall valid w ->
  exists k w', w = (Reserved, k) :: w' /\ parse_operator mch pf pi n k (w' ++ rest, e) = (Ok x, (rest, e)).
Proof.
  intros H V. destruct H as [p|s Hs|o w i H|w i H|w z H|w z H|t b H|t b H|id];
    eexists; eexists; (split; [reflexivity|]).
  - unfold parse_operator. destruct p; reflexivity.
  - unfold parse_operator. repeat (destruct Hs as [<-|Hs]; [reflexivity|]). destruct Hs.
  - replace (parse_operator mch pf pi n (txt (indexed_word o))) with
      (plet i := parse_index mch in pret (IIndexed o i)) by (destruct o; reflexivity).
    bind; [apply index_run, H | reflexivity].
  - change (parse_operator mch pf pi n (txt "br_table")) with (plet i := parse_index mch in pret (IBrTable [i])).
    bind; [apply index_run, H | reflexivity].
  - change (parse_operator mch pf pi n (txt "i32.const")) with (plet v := parse_int32 mch in pret (II32Const v)).
    inversion V as [|? ? _ V1]; subst. inversion V1 as [|? ? V2 _]; subst. cbn [app].
    bind; [apply int32_run; [exact V2 | exact H] | reflexivity].
  - change (parse_operator mch pf pi n (txt "i64.const")) with (plet v := parse_int64 mch in pret (II64Const v)).
    inversion V as [|? ? _ V1]; subst. inversion V1 as [|? ? V2 _]; subst. cbn [app].
    bind; [apply int64_run; [exact V2 | exact H] | reflexivity].
  - change (parse_operator mch pf pi n (txt "f32.const")) with
      (plet f := peek_float mch in
       if f then (plet v := parse_float32 mch pf in pret (IF32Const v))
       else (plet v := parse_int32 mch in pret (IF32Const (float32_of_int v)))).
    inversion V as [|? ? _ V1]; subst. inversion V1 as [|? ? V2 _]; subst. cbn [app].
    bind; [apply peek_float_run|]. destruct H as [w b H|w z H]; cbn [fst tok_eqb].
    + bind; [apply float32_run; [exact V2 | exact H] | reflexivity].
    + bind; [apply int32_run; [exact V2 | exact H] | reflexivity].
  - change (parse_operator mch pf pi n (txt "f64.const")) with
      (plet f := peek_float mch in
       if f then (plet v := parse_float64 mch pf in pret (IF64Const v))
       else (plet v := parse_int64 mch in pret (IF64Const (float64_of_int v)))).
    inversion V as [|? ? _ V1]; subst. inversion V1 as [|? ? V2 _]; subst. cbn [app].
    bind; [apply peek_float_run|]. destruct H as [w b H|w z H]; cbn [fst tok_eqb].
    + bind; [apply float64_run; exact H | reflexivity].
    + bind; [apply int64_run; [exact V2 | exact H] | reflexivity].
  - change (parse_operator mch pf pi n (txt "call_indirect")) with (parse_call_indirect mch).
    unfold parse_call_indirect. apply handled_run. cbn [app].
    bind; [unfold parse_type_use; apply handled_run; bind; [apply (exp_run OpenParen (txt "("))|]; wd;
           bind; [apply id_run|]; bind; [apply rp_run|]; reflexivity | reflexivity].
Qed.

Lemma block_run wn nm wr rs wb b rest e : opt_id wn nm -> many (paren results) wr rs ->
  many (paren (instruction F)) wb b -> Forall valid (wn ++ wr ++ wb) -> stop rest ->
  length (wn ++ wr ++ wb ++ rest) < n ->
  parse_operator mch pf pi n (txt "block") (wn ++ wr ++ wb ++ rest, e) = (Ok (IBlock nm rs b), (rest, e)) /\
  parse_operator mch pf pi n (txt "loop") (wn ++ wr ++ wb ++ rest, e) = (Ok (ILoop nm rs b), (rest, e)).
Proof.
  intros Hn Hr Hb V Hs Hl. apply valid_app3 in V. destruct V as (V1 & V2 & V3).
  change (parse_operator mch pf pi n (txt "block")) with (parse_block mch pi n).
  change (parse_operator mch pf pi n (txt "loop")) with (parse_loop mch pi n).
  split.
  - unfold parse_block. apply handled_run. bind; [apply block_name_run; [exact Hn | eapply not_id_parens; eauto]|].
    bind; [unfold parse_block_type; apply handled_run, block_type_run;
           [exact Hr | eapply no_result_instrs; eauto | len]|].
    bind; [apply instructions_run; [exact Hb | exact V3 | apply stop_open, Hs | len] | reflexivity].
  - unfold parse_loop. apply handled_run. bind; [apply block_name_run; [exact Hn | eapply not_id_parens; eauto]|].
    bind; [unfold parse_block_type; apply handled_run, block_type_run;
           [exact Hr | eapply no_result_instrs; eauto | len]|].
    bind; [apply instructions_run; [exact Hb | exact V3 | apply stop_open, Hs | len] | reflexivity].
Qed.
Lemma if_run wn nm ws ss rest e : opt_id wn nm -> many (paren (an_if_section F)) ws ss ->
  Forall valid (wn ++ ws) -> stop rest -> length (wn ++ ws ++ rest) < n ->
  parse_operator mch pf pi n (txt "if") (wn ++ ws ++ rest, e) =
    (Ok (IIf nm (if_results ss) (if_clause ss) (if_then ss) (if_else ss)), (rest, e)).
Proof.
  intros Hn Hs V Hr Hl. apply Forall_app in V. destruct V as (V1 & V2).
  change (parse_operator mch pf pi n (txt "if")) with (parse_if mch pi n).
  unfold parse_if. apply handled_run. bind.
  - apply block_name_run; [exact Hn|]. eapply many_paren_next; [exact Hs | discriminate | apply stop_id, Hr].
  - bind; [eapply (sections_run _ add_if _ n if_section_run n);
           [exact Hs | exact V2 | apply stop_open, Hr | len | len]|].
    rewrite fold_if. reflexivity.
Qed.

Lemma body_run w x rest e : instruction F w x -> Forall valid w -> stop rest -> length (w ++ rest) < S n ->
  instruction_body mch pf pi n (w ++ rest, e) = (Ok x, (rest, e)).
Proof.
  intros H V Hr Hl. unfold instruction_body. apply handled_run.
  assert (forall k w' i, w = (Reserved, k) :: w' ->
            parse_operator mch pf pi n k (w' ++ rest, e) = (Ok i, (rest, e)) -> x = i ->
     (plet t := nxt mch
      in if tok_eqb (fst t) Reserved
         then
          plet inst := parse_operator mch pf pi n (snd t)
          in plet p := pk mch
             in if tok_eqb (fst p) OpenParen
                then plet ps := while_eat tok_eqb mch n OpenParen (closed mch pi) in pret (IFolded inst ps)
                else pret inst
         else perr) (w ++ rest, e) = (Ok x, (rest, e))) as Simple.
  { intros k w' i -> E ->. cbn [app]. take. cbn [tok_eqb]. bind; [exact E|].
    destruct Hr as (t & r & -> & Ht). peek. rewrite tok_eqb_neq by (destruct Ht as [->| ->]; discriminate). reflexivity. }
  destruct H as [w i H|w i ws ps H Hm Hne|wn nm wr rs wb b Hn Hrs Hb|wn nm wr rs wb b Hn Hrs Hb|wn nm ws ss Hn Hs].
  - destruct (operator_run w i rest e H V) as (k & w' & -> & E). eapply Simple; [reflexivity | exact E | reflexivity].
  - apply Forall_app in V. destruct V as [V1 V2].
    destruct (operator_run w i (ws ++ rest) e H V1) as (k & w' & -> & E).
    rewrite <- app_assoc. cbn [app]. take. cbn [tok_eqb]. bind; [exact E|].
    assert (exists ws', ws = lp :: ws') as (ws' & Ews).
    { destruct Hm as [|? ? ? ? Hp _]; [congruence|]. destruct Hp. eexists. reflexivity. }
    subst ws. eapply plet_run; [apply (pk_run lp)|]. cbv beta iota.
    bind; [|reflexivity].
    apply (while_run (instruction F) pi n Hpi_closed n (lp :: ws') ps rest e);
      [exact Hm | exact V2 | apply stop_open, Hr | len | len].
  - apply kw_tail in V. cbn [app] in Hl. eapply Simple; [reflexivity | | reflexivity].
    rewrite <- !app_assoc. eapply block_run; eauto. rewrite <- !app_assoc in Hl. cbn [length] in Hl. lia.
  - apply kw_tail in V. cbn [app] in Hl. eapply Simple; [reflexivity | | reflexivity].
    rewrite <- !app_assoc. eapply block_run; eauto. rewrite <- !app_assoc in Hl. cbn [length] in Hl. lia.
  - apply kw_tail in V. cbn [app] in Hl. eapply Simple; [reflexivity | | reflexivity].
    rewrite <- !app_assoc. eapply if_run; eauto. rewrite <- !app_assoc in Hl. cbn [length] in Hl. lia.
Qed.
End Instr.

Lemma instruction_run n : forall w x rest e, instruction F w x -> Forall valid w -> stop rest -> length (w ++ rest) < n ->
  parse_instruction mch pf n (w ++ rest, e) = (Ok x, (rest, e)).
Proof.
  induction n as [|n IH]; intros w x rest e H V Hr Hl; [lia|]. cbn [parse_instruction].
  apply body_run; assumption.
Qed.

(** ** Functions *)

Lemma many_instr_stop w xs rest : many (instruction F) w xs -> stop (w ++ rp :: rest).
Proof.
  intros H. destruct H as [|w ws x xs H _]; [apply rp_stop|].
  destruct (instruction_head _ _ H) as (s & w' & -> & _). apply next_cons. right. reflexivity.
Qed.

Lemma plain_loop_run m n : forall w xs rest e, many (instruction F) w xs -> Forall valid w ->
  length (w ++ rp :: rest) < n -> length (w ++ rp :: rest) < m ->
  plain_loop mch (parse_instruction mch pf m) n (w ++ rp :: rest, e) = (Ok xs, (rp :: rest, e)).
Proof.
  induction n as [|n IH]; intros w xs rest e H V Hl Hm; [lia|]. cbn [plain_loop].
  destruct H as [|w ws x xs H H']; [peek; reflexivity|].
  destruct (instruction_head _ _ H) as (s & w' & -> & _). rewrite <- app_assoc.
  apply Forall_app in V. destruct V as [V1 V2]. eapply plet_run; [apply (pk_run (Reserved, s))|]. cbv beta. cbn [fst tok_eqb].
  bind; [apply (instruction_run m ((Reserved, s) :: w') x (ws ++ rp :: rest) e);
         [exact H | exact V1 | eapply many_instr_stop; eauto | len]|].
  bind; [apply IH; [exact H' | exact V2 | len | len] | reflexivity].
Qed.

Lemma func_section_run n w x rest e a : a_func_section F w x -> Forall valid w -> length (w ++ rp :: rest) < n ->
  M_WatParse.func_section mch pf n a (w ++ rp :: rest, e) = (Ok (add_func a x), (rp :: rest, e)).
Proof.
  intros H V Hl. unfold M_WatParse.func_section.
  destruct H as [w t H|w p H|w r H|w nm H|w1 w2 m f H1 H2|w i H].
  - cbn [app]. peek. rewrite text_eqb_refl. cbv iota.
    bind; [unfold parse_local; apply handled_run; wd; bind; [apply val_type_run, H | reflexivity] | reflexivity].
  - assert (exists w', w = kw "param" :: w') as (w' & Ew) by (destruct H; eexists; reflexivity).
    subst w. eapply plet_run; [apply (pk_run (kw "param"))|]. cbv beta. cbn [fst snd kw].
    change (text_eqb (txt "param") (txt "local")) with false. rewrite text_eqb_refl. cbv iota.
    bind; [apply (parameter_run n (kw "param" :: w') p rest e); [exact H | exact Hl] | reflexivity].
  - destruct H as [w t H]. cbn [app]. peek. change (text_eqb (txt "result") (txt "local")) with false.
    change (text_eqb (txt "result") (txt "param")) with false. rewrite text_eqb_refl. cbv iota.
    bind; [exact (result_run (kw "result" :: w) [t] _ _ (result_type _ _ H)) | reflexivity].
  - cbn [app]. peek. change (text_eqb (txt "export") (txt "local")) with false.
    change (text_eqb (txt "export") (txt "param")) with false.
    change (text_eqb (txt "export") (txt "result")) with false. rewrite text_eqb_refl. cbv iota.
    bind; [unfold parse_export; apply handled_run; wd; bind; [apply string_run, H | reflexivity] | reflexivity].
  - cbn [app]. rewrite <- app_assoc. peek. change (text_eqb (txt "import") (txt "local")) with false.
    change (text_eqb (txt "import") (txt "param")) with false.
    change (text_eqb (txt "import") (txt "result")) with false.
    change (text_eqb (txt "import") (txt "export")) with false. rewrite text_eqb_refl. cbv iota.
    bind; [unfold parse_import; apply handled_run; wd; bind; [apply string_run, H1|];
           bind; [apply string_run, H2 | reflexivity] | reflexivity].
  - pose proof (instruction_head _ _ H) as (s & w' & -> & Hs). cbn [app]. peek.
    rewrite !(heads_others s) by (exact Hs || (cbn; tauto)).
    bind; [exact (instruction_run n _ _ (rp :: rest) e H V (rp_stop rest) Hl) | reflexivity].
Qed.

Lemma func_run n w x rest e : function F w x -> Forall valid w -> length (w ++ rp :: rest) < n ->
  parse_func mch pf n (w ++ rp :: rest, e) = (Ok x, (rp :: rest, e)).
Proof.
  intros H V Hl. destruct H as [wn nm ws ss wb b Hn Hs Hb]. unfold parse_func. apply handled_run. cbn [app].
  apply kw_tail, valid_app3 in V. destruct V as (V1 & V2 & V3). repeat rewrite <- app_assoc. wd.
  pose proof (many_instr_stop _ _ rest Hb) as St.
  bind; [apply func_id_run; [exact Hn|]; eapply many_paren_next; [exact Hs | discriminate | apply stop_id, St]|].
  bind; [eapply (sections_run _ add_func _ n); [|exact Hs | exact V2 | apply stop_open, St | len | len]|].
  { intros. apply func_section_run; assumption. }
  bind; [apply plain_loop_run; [exact Hb | exact V3 | len | len]|].
  rewrite fold_func. reflexivity.
Qed.

(** ** Types, tables, globals, memories *)

Lemma type_section_run n w x rest e a : a_type_section w x -> length (w ++ rp :: rest) < n ->
  func_type_section mch n a (w ++ rp :: rest, e) = (Ok (add_type a x), (rp :: rest, e)).
Proof.
  intros H Hl. unfold func_type_section. destruct H as [w p H|w r H|].
  - assert (exists w', w = kw "param" :: w') as (w' & Ew) by (destruct H; eexists; reflexivity).
    subst w. eapply plet_run; [apply (pk_run (kw "param"))|]. cbv beta. cbn [fst snd kw].
    rewrite text_eqb_refl. cbv iota.
    bind; [apply (parameter_run n (kw "param" :: w') p rest e); [exact H | exact Hl] | reflexivity].
  - destruct H as [w t H]. cbn [app]. peek.
    change (text_eqb (txt "result") (txt "param")) with false. rewrite text_eqb_refl. cbv iota.
    bind; [exact (result_run (kw "result" :: w) [t] _ _ (result_type _ _ H)) | reflexivity].
  - cbn [app]. peek. reflexivity.
Qed.
Lemma func_type_run n w x rest e : func_type w x -> Forall valid w -> length (w ++ rp :: rest) < n ->
  parse_func_type mch n (w ++ rp :: rest, e) = (Ok x, (rp :: rest, e)).
Proof.
  intros H V Hl. destruct H as [ws ss H]. unfold parse_func_type. apply handled_run. cbn [app]. wd.
  apply kw_tail in V. rewrite <- fold_type.
  eapply (sections_run _ add_type _ n); [|exact H | exact V | apply stop_open, rp_stop | len | len].
  intros. apply type_section_run; assumption.
Qed.
Lemma type_run n w x rest e : type_def w x -> Forall valid w -> length (w ++ rp :: rest) < n ->
  parse_type mch n (w ++ rp :: rest, e) = (Ok x, (rp :: rest, e)).
Proof.
  intros H V Hl. unfold parse_type. apply handled_run. destruct H as [wn nm w f Hn H|wn nm Hn]; cbn [app].
  - destruct H as [w f H]. repeat (rewrite <- app_assoc; cbn [app]). wd.
    apply kw_tail, Forall_app in V. destruct V as [_ V]. apply valid_tail, Forall_app in V. destruct V as [V _].
    bind; [apply optional_id_run; [exact Hn | apply next_cons; discriminate]|].
    bind; [apply lp_run|]. cbv iota. bind; [apply closed_run, func_type_run; [exact H | exact V | len] | reflexivity].
  - wd. bind; [apply optional_id_run; [exact Hn | apply next_cons; discriminate]|].
    bind; [apply ate_skip, stop_open, rp_stop|]. reflexivity.
Qed.

Lemma limits_run w x rest e : a_limits w x -> Forall valid w -> next_is (fun k => k <> TInteger) rest ->
  parse_limits mch (w ++ rest, e) = (Ok x, (rest, e)).
Proof.
  intros H V (t & r & -> & Ht). unfold parse_limits. apply handled_run.
  destruct H as [w z H|w1 z1 w2 z2 H1 H2]; cbn [app].
  - inversion V as [|? ? V1 _]; subst. bind; [apply int32_run; [exact V1 | exact H]|].
    peek. rewrite tok_eqb_neq by exact Ht. reflexivity.
  - inversion V as [|? ? V1 V2]; subst. inversion V2 as [|? ? V3 _]; subst.
    bind; [apply int32_run; [exact V1 | exact H1]|]. peek. rewrite tok_eqb_refl.
    bind; [apply int32_run; [exact V3 | exact H2] | reflexivity].
Qed.
Lemma ref_type_head w r : ref_type w r -> exists v, w = [(Reserved, v)].
Proof. intros []; eexists; reflexivity. Qed.
Lemma limits_head w x : a_limits w x -> exists v w', w = (TInteger, v) :: w'.
Proof. intros []; eexists; eexists; reflexivity. Qed.

Lemma table_type_run wl l wr r rest e : opt_limits wl l -> ref_type wr r -> Forall valid wl ->
  parse_table_type mch (wl ++ wr ++ rest, e) = (Ok (l, r), (rest, e)).
Proof.
  intros Hl Hr V. unfold parse_table_type. apply handled_run.
  assert (forall e', nxt mch (wr ++ rest, e') = (Ok (hd lp wr), (rest, e')) /\
    (if tok_eqb (fst (hd lp wr)) Reserved then
      pret (l, if text_eqb (snd (hd lp wr)) (txt "externref") then Some ExternRef
                 else if text_eqb (snd (hd lp wr)) (txt "funcref") then Some FuncRef else None)
     else perr) (rest, e') = (Ok (l, r), (rest, e'))) as Nx.
  { intros e'. destruct Hr as [| |w H1 H2]; (split; [reflexivity|]); cbn [hd fst snd kw tok_eqb]; try reflexivity.
    apply text_eqb_false in H1, H2. rewrite H1, H2. reflexivity. }
  destruct (Nx e) as [Nx1 Nx2]. destruct (ref_type_head _ _ Hr) as (v & ->).
  destruct Hl as [|w l H].
  - cbn [app]. peek. cbn [tok_eqb]. bind; [reflexivity|]. bind; [exact Nx1 | exact Nx2].
  - destruct (limits_head _ _ H) as (u & w' & ->). eapply plet_run; [apply (pk_run (TInteger, u))|]. cbv beta.
    cbn [fst tok_eqb]. bind; [exact (limits_run _ _ ([(Reserved, v)] ++ rest) e H V ltac:(apply next_cons; discriminate))|].
    bind; [exact Nx1 | exact Nx2].
Qed.
Lemma element_run w x rest e : element w x -> table_element mch (w ++ rp :: rest, e) = (Ok x, (rp :: rest, e)).
Proof. intros []. unfold table_element. cbn [app]. take. cbn [tok_eqb]. rewrite text_eqb_refl. apply id_run. Qed.

Lemma table_run n w x rest e : table_def w x -> Forall valid w -> length (w ++ rp :: rest) < n ->
  parse_table mch n (w ++ rp :: rest, e) = (Ok x, (rp :: rest, e)).
Proof.
  intros H V Hl. destruct H as [wn nm wl l wr r we es Hn Hll Hr He]. unfold parse_table. apply handled_run.
  apply kw_tail, valid_app3 in V. destruct V as (V1 & V2 & V3). apply Forall_app in V3. destruct V3 as [V3 V4].
  cbn [app]. repeat rewrite <- app_assoc. wd.
  bind; [apply optional_id_run; [exact Hn|]|].
  { destruct (ref_type_head _ _ Hr) as (v & ->).
    destruct Hll as [|w l H]; [|destruct (limits_head _ _ H) as (u & w' & ->)]; apply next_cons; discriminate. }
  bind; [apply table_type_run; [exact Hll | exact Hr | exact V2]|].
  bind; [apply (while_run element (table_element mch) n); [|exact He | exact V4 | apply stop_open, rp_stop | len | len]|].
  { intros. apply element_run. assumption. }
  reflexivity.
Qed.

Lemma global_run n w x rest e : global_def F w x -> Forall valid w -> length (w ++ rp :: rest) < n ->
  parse_global mch pf n (w ++ rp :: rest, e) = (Ok x, (rp :: rest, e)).
Proof.
  intros H V Hl. unfold parse_global. apply handled_run.
  destruct H as [wn nm w t wi is Hn Ht Hi|wn nm w t wi is Hn Ht Hi];
    apply kw_tail, valid_app3 in V; destruct V as (V1 & V2 & V3); cbn [app]; repeat (rewrite <- app_assoc; cbn [app]); wd.
  - destruct (val_type_head _ _ Ht) as (v & Ev).
    bind; [apply optional_id_run; [exact Hn | rewrite Ev; apply next_cons; discriminate]|].
    bind; [unfold parse_global_type; apply handled_run; bind; [apply ate_skip; rewrite Ev; apply next_cons; discriminate|];
           cbv iota; bind; [apply val_type_run, Ht | reflexivity]|].
    bind; [apply (instructions_run _ n (instruction_run n)); [exact Hi | exact V3 | apply stop_open, rp_stop | len] | reflexivity].
  - bind; [apply optional_id_run; [exact Hn | apply next_cons; discriminate]|].
    bind; [unfold parse_global_type; apply handled_run; bind; [apply lp_run|]; cbv iota; wd;
           bind; [apply val_type_run, Ht|]; bind; [apply rp_run | reflexivity]|].
    bind; [apply (instructions_run _ n (instruction_run n)); [exact Hi | exact V3 | apply stop_open, rp_stop | len] | reflexivity].
Qed.
Lemma memory_run w x rest e : memory_def w x -> Forall valid w ->
  parse_memory mch (w ++ rp :: rest, e) = (Ok x, (rp :: rest, e)).
Proof.
  intros H V. destruct H as [wn nm w l Hn H]. unfold parse_memory. apply handled_run. cbn [app].
  apply kw_tail, Forall_app in V. destruct V as [V1 V2]. rewrite <- app_assoc. wd.
  bind; [apply optional_id_run; [exact Hn|]|].
  { destruct (limits_head _ _ H) as (u & w' & ->). apply next_cons. discriminate. }
  bind; [apply limits_run; [exact H | exact V2 | apply next_cons; discriminate] | reflexivity].
Qed.

(** ** Modules *)

Lemma section_head w x : a_section F w x -> exists w', w = kw (match x with
  | SecFunc _ => "func" | SecType _ => "type" | SecTable _ => "table" | SecGlobal _ => "global" | SecMemory _ => "memory" end) :: w'.
Proof. intros [w' y H|w' y H|w' y H|w' y H|w' y H]; destruct H; eexists; reflexivity. Qed.

Lemma module_section_run n w x rest e a : a_section F w x -> Forall valid w -> length (w ++ rp :: rest) < n ->
  module_section mch pf n a (w ++ rp :: rest, e) = (Ok (add_section a x), (rp :: rest, e)).
Proof.
  intros H V Hl. unfold module_section. destruct (section_head _ _ H) as (w' & Ew).
  eapply plet_run; [rewrite Ew; apply pk_run|]. cbv beta.
  match goal with |- _ (?s, _) = _ => replace s with (w ++ rp :: rest) by (rewrite Ew; reflexivity) end.
  destruct H as [w y H|w y H|w y H|w y H|w y H]; cbn [fst snd kw].
  - rewrite text_eqb_refl. bind; [exact (func_run n w y rest e H V Hl) | reflexivity].
  - change (text_eqb (txt "type") (txt "func")) with false. rewrite text_eqb_refl. cbv iota.
    bind; [exact (type_run n w y rest e H V Hl) | reflexivity].
  - change (text_eqb (txt "table") (txt "func")) with false. change (text_eqb (txt "table") (txt "type")) with false.
    rewrite text_eqb_refl. cbv iota. bind; [exact (table_run n w y rest e H V Hl) | reflexivity].
  - change (text_eqb (txt "global") (txt "func")) with false. change (text_eqb (txt "global") (txt "type")) with false.
    change (text_eqb (txt "global") (txt "table")) with false.
    rewrite text_eqb_refl. cbv iota. bind; [exact (global_run n w y rest e H V Hl) | reflexivity].
  - change (text_eqb (txt "memory") (txt "func")) with false. change (text_eqb (txt "memory") (txt "type")) with false.
    change (text_eqb (txt "memory") (txt "table")) with false. change (text_eqb (txt "memory") (txt "global")) with false.
    rewrite text_eqb_refl. cbv iota. bind; [exact (memory_run w y rest e H V) | reflexivity].
Qed.

Theorem directive_run n w x rest e : a_directive F w x -> Forall valid w -> length (w ++ rest) < n ->
  parse_directive mch pf n (w ++ rest, e) = (Ok x, (rest, e)).
Proof.
  intros H V Hl. unfold parse_directive. apply handled_run. destruct H as [ws ss H|]; cbn [app].
  - repeat (rewrite <- app_assoc; cbn [app]). apply valid_tail, valid_tail, Forall_app in V. destruct V as [V _].
    bind; [apply (exp_run OpenParen (txt "("))|]. peek. cbv iota.
    bind; [bind; [unfold parse_module; apply handled_run; bind; [apply exp_run|];
                  eapply (sections_run _ add_section _ n); [|exact H | exact V | apply stop_open, rp_stop | len | len]|]|].
    + intros. apply module_section_run; assumption.
    + rewrite fold_module. reflexivity.
    + bind; [apply rp_run | reflexivity].
  - bind; [apply (exp_run OpenParen (txt "("))|]. peek. cbv iota.
    bind; [bind; [unfold parse_component; apply handled_run; bind; [apply exp_run | reflexivity] | reflexivity]|].
    bind; [apply rp_run | reflexivity].
Qed.
End Complete.
