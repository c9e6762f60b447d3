(** Property C48 and the WAST part of C45: the WAST parser. *)
From Coq Require Import Arith NArith ZArith String Ascii Bool List Lia.
From Verif Require Import GoBase M_Text M_WatLex S_WatLex L_WatLex L_WatTokens L_WatNum P_WatLex.
From Verif Require Import M_ParseBase M_Strconv M_WatAst M_WatParse M_WastParse S_WatParse S_WastParse S_WatPrint S_WastPrint.
From Verif Require Import L_ParseBase L_ParseTotal L_WatSim L_WatTotal L_WatLit L_WatSound L_WatComplete L_WatBridge L_WatPrint
  L_WastParse P_WatParse.
Import ListNotations.
Open Scope nat_scope.

(** ** The end of a file *)

Lemma brun_unfinished w : unfinished w -> exists p, brun w = Some p /\ accept p = None.
Proof.
  intros [->|[(b & -> & H)|[(b & -> & H)|(b & -> & H)]]].
  - eexists. split; reflexivity.
  - exists PLine. split; [|reflexivity]. change (brun (txt ";;" ++ b)) with (arun PLine b). apply arun_line. auto.
  - change (brun (txt "(;" ++ b)) with (arun PBlock b).
    destruct (arun PBlock b) as [q|] eqn:E.
    + exists q. split; [reflexivity|]. apply arun_block in E.
      destruct E as [(-> & _)|[(-> & _)|(-> & b' & -> & _)]]; try reflexivity.
      exfalso. apply H. exists b', []. now rewrite app_nil_r.
    + exfalso. assert (D : ends_semi b \/ ~ ends_semi b).
      { unfold ends_semi. destruct b as [|c b] using rev_ind; [right; intros (v & E'); destruct v; discriminate|].
        destruct (ascii_dec c ";") as [->|N]; [left; eauto|right; intros (v & E')].
        apply app_inj_tail in E'. destruct E'. congruence. }
      destruct D as [D|D].
      * assert (X : arun PBlock b = Some PBlockSemi) by (apply arun_block; auto). congruence.
      * assert (X : arun PBlock b = Some PBlock) by (apply arun_block; auto). congruence.
  - exists PStr. split; [|reflexivity]. change (brun (quote :: b)) with (arun PStr b). apply arun_str. auto.
Qed.

(** A lexer before the beginning of a comment or string, or at the end, is at
    the end of its stream. *)
Lemma leftover_reads l r : aligned l -> rest_of l = r -> leftover r -> W_reads l ([], Ends r).
Proof.
  intros A Hr [->|U].
  - apply (spent_reads EndOfStream next skipped view _ done_next). auto.
  - destruct (brun_unfinished r U) as (p & B & Ac).
    pose proof (next_brun l r p [] A ltac:(rewrite app_nil_r; exact Hr) B I) as N. rewrite Ac in N. cbn [finish] in N.
    pose proof (make_token_at l _ EndOfStream r [] A ltac:(rewrite app_nil_r; exact Hr) eq_refl) as M.
    destruct (make_token _ EndOfStream) as [t l'] eqn:E. destruct M as (M1 & M2 & M3 & M4 & M5 & M6).
    assert (E' : next l = (Ok t, l')) by exact N.
    apply (reads_end EndOfStream next skipped view _ l t l' r E');
      [unfold skipped; now rewrite M1 | unfold view; now rewrite M1, M2 | auto].
Qed.

(** ** C45, WAST *)
Section Parse.
(** strconv.ParseFloat(s, 32), as bits; any function *)
Variable pf : text -> option N.
Notation F := (model_floats pf).
Notation mch := (machine EndOfStream).

Lemma sim_script n : sim W_R (parse_wast wat_source pf n) (parse_wast mch pf n).
Proof. apply sim_wast; [apply wat_next_sim|apply wat_peek_sim]. Qed.

(** Parsing any text ends, with a script or an error. *)
Theorem wast_parse_ends : forall swap input, ended (ParseWast pf swap input).
Proof.
  intros swap input. unfold ParseWast. rewrite fuel.
  apply (text_ends swap input _ _ 0 (sim_script _) (T_wast pf (3 + length input) (S (length input)) ltac:(lia))).
  intros l l'. apply handled_no_panic.
Qed.

(** ** C48: what is accepted, and as which script *)

(** A file is accepted as [ds] exactly if it is a sequence of tokens that,
    with whitespace and comments left out, spells the directives [ds] in
    order, with nothing after them but perhaps the beginning of a comment or
    string. *)
Theorem wast_parse_means : forall swap input ds,
  ParseWast pf swap input = Ok ds <->
  exists ts r, input = text_of ts ++ r /\ cut ts r /\ leftover r /\ a_script F (significant ts) ds.
Proof.
  intros swap input ds. unfold ParseWast. rewrite fuel. set (n := 3 + length input). split.
  - intros P.
    destruct (reads_some (length input) (new_lexer swap input) (new_aligned swap input)) as
      (ts & r & e & E & C & H & Fe & He); [rewrite new_rest; lia|]. rewrite new_rest in E.
    assert (HR : W_R (new_lexer swap input) (significant ts, e)) by (split; [left; apply new_aligned|exact H]).
    pose proof (sim_script n _ _ HR) as S.
    destruct (parse_wast wat_source pf n (new_lexer swap input)) as [o l'] eqn:P'. cbn [fst] in P. subst o.
    destruct (parse_wast mch pf n (significant ts, e)) as [[d'|y| |] s'] eqn:M; cbn in S; try contradiction. destruct S as [<- _].
    unfold parse_wast in M. apply (proj1 (handled_ok _ _ _ _)) in M.
    apply sound_wast in M; [|exact (significant_valid ts r C)|exact Fe]. destruct M as [Hf G].
    exists ts, r. split; [exact E|]. split; [exact C|]. split; [|exact G].
    destruct e as [w|]; [|congruence]. subst r. exact Fe.
  - intros (ts & r & E & C & Lf & G).
    destruct (reads_text ts (new_lexer swap input) r (new_aligned swap input) E C) as (l1 & A1 & R1 & H).
    specialize (H [] (Ends r) (leftover_reads l1 r A1 R1 Lf)). rewrite app_nil_r in H.
    assert (HR : W_R (new_lexer swap input) (significant ts, Ends r)) by (split; [left; apply new_aligned|exact H]).
    pose proof (sim_script n _ _ HR) as S. pose proof (short_enough ts r input E C) as Hl.
    unfold parse_wast in S at 2.
    rewrite (handled_run _ _ _ _ (wast_run pf n _ ds r G (significant_valid ts r C) ltac:(unfold n; lia))) in S.
    destruct (parse_wast wat_source pf n (new_lexer swap input)) as [[d'|y| |] l']; cbn in S; try contradiction.
    destruct S as [-> _]. reflexivity.
Qed.

(** One spelling has one script. *)
Theorem wast_spelling_unambiguous : forall ts ds ds', Forall valid ts -> a_script F ts ds -> a_script F ts ds' -> ds = ds'.
Proof.
  intros ts ds ds' V H H'.
  pose proof (wast_run pf (S (length ts)) ts ds [] H V ltac:(lia)) as R.
  pose proof (wast_run pf (S (length ts)) ts ds' [] H' V ltac:(lia)) as R'. congruence.
Qed.

(** Scripts one after the other are read as one script. *)
Lemma many_app {A} (G : spelling A) w xs w' xs' : many G w xs -> many G w' xs' -> many G (w ++ w') (xs ++ xs').
Proof. induction 1; intros H'; [exact H'|]. rewrite <- app_assoc. cbn [app]. constructor; auto. Qed.

Theorem wast_scripts_join : forall swap ts ts' r ds ds', cut (ts ++ ts') r -> leftover r ->
  a_script F (significant ts) ds -> a_script F (significant ts') ds' ->
  ParseWast pf swap (text_of ts ++ text_of ts' ++ r) = Ok (ds ++ ds').
Proof.
  intros swap ts ts' r ds ds' C L H H'. apply wast_parse_means. exists (ts ++ ts'), r.
  rewrite text_of_app, <- app_assoc, significant_app. split; [reflexivity|]. split; [exact C|]. split; [exact L|].
  now apply many_app.
Qed.

(** ** Scripts that can be written parse back *)
Section Print.
Variable f32 f64 : N -> tk.

Lemma const_spells c : good_wconst f32 f64 F c ->
  paren (a_number F) (print_const f32 f64 c) c /\ Forall solid (print_const f32 f64 c).
Proof.
  intros H. unfold print_const. destruct c as [z|z|b|b]; cbn [good_wconst] in H.
  - split.
    + constructor. unfold integer. pose proof (integer_i32 z H) as L. unfold integer in *.
      destruct (z <? 0)%Z; constructor; exact L.
    + apply parens_valid. constructor; [word|]. constructor; [apply integer_valid|constructor].
  - split.
    + constructor. pose proof (integer_i64 z H) as L. unfold integer in *.
      destruct (z <? 0)%Z; constructor; exact L.
    + apply parens_valid. constructor; [word|]. constructor; [apply integer_valid|constructor].
  - split; [constructor; constructor; apply H|].
    apply parens_valid. constructor; [word|]. constructor; [exact (f32_valid F _ _ H)|constructor].
  - split; [constructor; constructor; apply H|].
    apply parens_valid. constructor; [word|]. constructor; [exact (f64_valid F _ _ H)|constructor].
Qed.

Lemma argument_spells c : match c with Some c => good_wconst f32 f64 F c | None => True end ->
  paren (a_const F) (print_argument f32 f64 c) c /\ Forall solid (print_argument f32 f64 c).
Proof.
  destruct c as [c|]; intros H; cbn [print_argument].
  - destruct (const_spells c H) as [H1 H2]. split; [|exact H2]. destruct H1 as [w c' H1]. constructor. now constructor.
  - split; [constructor; apply c_reference; now left|]. apply parens_valid. constructor; [word|constructor].
Qed.

Lemma many_flat {A} (G : spelling A) (f : A -> list tk) l : (forall x, In x l -> G (f x) x) -> many G (flat_map f l) l.
Proof. induction l as [|x l IH]; intros H; cbn [flat_map]; constructor; [apply H; now left | apply IH; intros; apply H; now right]. Qed.

Lemma action_spells a : good_action f32 f64 F a ->
  an_action F (print_action f32 f64 a) a /\ Forall solid (print_action f32 f64 a).
Proof.
  destruct a as [[nm s cs]|]; cbn [good_action in_name in_string in_consts];
    [|intros _; split; [apply a_unknown; discriminate|apply parens_valid; constructor; [word|constructor]]]. intros (Hn & Hs & Hc).
  rewrite Forall_forall in Hc. unfold print_action. cbn [in_name in_string in_consts]. split.
  - unfold parens. cbn [app]. change (quoted_name s :: ?x) with ([quoted_name s] ++ x).
    apply a_invoke; [apply name_spells | now constructor |]. apply many_flat.
    intros c Hi. now apply argument_spells, Hc.
  - apply parens_valid. constructor; [word|]. apply Forall_app. split; [now apply name_valid|].
    constructor; [now apply quoted_valid|]. apply flat_valid. intros c Hi. now apply argument_spells, Hc.
Qed.

Lemma quote_wat_spells q : good_quote_wat f32 f64 F q ->
  a_quote_wat F (print_quote_wat f32 f64 q) q /\ Forall solid (print_quote_wat f32 f64 q).
Proof.
  destruct q as [[m|]|s|s]; cbn [good_quote_wat print_quote_wat]; intros H.
  - destruct (module_spells f32 f64 F m H). split; [now constructor | assumption].
  - split; [constructor; constructor|]. repeat constructor.
  - split; [apply (q_module F [quoted_name s]); now constructor|].
    apply parens_valid. constructor; [split; reflexivity|]. constructor; [word|]. constructor; [now apply quoted_valid|constructor].
  - split; [apply (q_component F [quoted_name s]); now constructor|].
    apply parens_valid. constructor; [split; reflexivity|]. constructor; [word|]. constructor; [now apply quoted_valid|constructor].
Qed.

Lemma wdirective_spells d : good_wdirective f32 f64 F d ->
  a_wdirective F (print_wdirective f32 f64 d) d /\ Forall solid (print_wdirective f32 f64 d).
Proof.
  destruct d as [q|q s|q s|a s|a rs]; cbn [good_wdirective print_wdirective].
  - intros H. destruct (quote_wat_spells q H). split; [now constructor | assumption].
  - intros [H Hs]. destruct (quote_wat_spells q H) as [H1 H2]. split; [constructor; [exact H1 | now constructor]|].
    apply parens_valid. constructor; [word|]. apply Forall_app. split; [exact H2|].
    constructor; [now apply quoted_valid | constructor].
  - intros [H Hs]. destruct (quote_wat_spells q H) as [H1 H2]. split; [constructor; [exact H1 | now constructor]|].
    apply parens_valid. constructor; [word|]. apply Forall_app. split; [exact H2|].
    constructor; [now apply quoted_valid | constructor].
  - intros [H Hs]. destruct (action_spells a H) as [H1 H2]. split; [constructor; [exact H1 | now constructor]|].
    apply parens_valid. constructor; [word|]. apply Forall_app. split; [exact H2|].
    constructor; [now apply quoted_valid | constructor].
  - intros [H Hr]. rewrite Forall_forall in Hr. destruct (action_spells a H) as [H1 H2]. split.
    + replace rs with (concat (map (fun c => [c]) rs)) at 2
        by (clear; induction rs; cbn; congruence).
      apply wd_return; [exact H1|]. clear H. induction rs as [|c rs IH]; cbn [flat_map map]; [constructor|].
      constructor; [|apply IH; intros; apply Hr; now right]. constructor. apply const_spells, Hr. now left.
    + apply parens_valid. constructor; [word|]. apply Forall_app. split; [exact H2|].
      apply flat_valid. intros c Hc. now apply const_spells, Hr.
Qed.

Lemma parens_last ts : exists a, parens ts = a ++ [rp].
Proof. exists (lp :: ts). reflexivity. Qed.
Lemma wdirective_last d : exists a, print_wdirective f32 f64 d = a ++ [rp].
Proof.
  destruct d as [[[m|]|s|s]|q s|q s|a s|a rs]; cbn [print_wdirective print_quote_wat print_module]; apply parens_last.
Qed.

Theorem script_parses_back : forall swap ds, Forall (good_wdirective f32 f64 F) ds ->
  ParseWast pf swap (spaced (print_script f32 f64 ds)) = Ok ds.
Proof.
  intros swap ds H. apply wast_parse_means. rewrite Forall_forall in H.
  assert (V : Forall solid (print_script f32 f64 ds)).
  { apply flat_valid. intros d Hd. now apply wdirective_spells, H. }
  exists (blanks (print_script f32 f64 ds)), []. rewrite blanks_text, blanks_significant by exact V.
  split; [now rewrite app_nil_r|]. split; [|split; [now left|]].
  - assert (E : print_script f32 f64 ds = [] \/ exists a, print_script f32 f64 ds = a ++ [rp]).
    { clear. unfold print_script. induction ds as [|d ds IH] using rev_ind; [now left|right].
      rewrite flat_map_app. cbn [flat_map]. rewrite app_nil_r. destruct (wdirective_last d) as (a & ->).
      exists (flat_map (print_wdirective f32 f64) ds ++ a). now rewrite app_assoc. }
    destruct E as [->|(a & E)]; [exact I|]. rewrite E in *. apply cut_blanks. apply Forall_app in V. apply V.
  - apply many_flat. intros d Hd. now apply wdirective_spells, H.
Qed.
End Print.
End Parse.

(** ** Scripts of the WebAssembly test suite that are rejected, and other
    texts that are accepted *)
Section Oddities.
Variable pf : text -> option N.
Definition q (s : string) : text := [quote] ++ txt s ++ [quote].
Definition wast_rejected (input : text) : Prop := forall swap ds, ParseWast pf swap input <> Ok ds.

Ltac rejects := intros swap ds; destruct swap; vm_compute; discriminate.

Theorem register_rejected : wast_rejected (txt "(register " ++ q "m" ++ txt ")").
Proof. rejects. Qed.
Theorem lone_invoke_rejected : wast_rejected (txt "(invoke " ++ q "f" ++ txt ")").
Proof. rejects. Qed.
Theorem assert_exhaustion_rejected :
  wast_rejected (txt "(assert_exhaustion (invoke " ++ q "f" ++ txt ") " ++ q "call stack exhausted" ++ txt ")").
Proof. rejects. Qed.
Theorem assert_unlinkable_rejected : wast_rejected (txt "(assert_unlinkable (module) " ++ q "unknown import" ++ txt ")").
Proof. rejects. Qed.
Theorem get_rejected : wast_rejected (txt "(assert_return (get " ++ q "g" ++ txt ") (i32.const 1))").
Proof. rejects. Qed.
Theorem null_argument_rejected :
  wast_rejected (txt "(assert_return (invoke " ++ q "f" ++ txt " (ref.null func)))").
Proof. rejects. Qed.
(** A result that is a reference is rejected, balanced as it is ... *)
Theorem null_result_rejected : wast_rejected (txt "(assert_return (invoke " ++ q "f" ++ txt ") (ref.null))").
Proof. rejects. Qed.
(** ... and accepted, and forgotten, without its closing parenthesis. *)
Theorem parentheses_balance_refuted :
  ~ (forall swap input ds, ParseWast pf swap input = Ok ds ->
      count_occ ascii_dec input "("%char = count_occ ascii_dec input ")"%char).
Proof.
  intros H. specialize (H false (txt "(assert_return (invoke " ++ q "f" ++ txt ") (ref.null)")
    [DReturn (Some {| in_name := None; in_string := txt "f"; in_consts := [] |}) []] ltac:(vm_compute; reflexivity)).
  vm_compute in H. discriminate.
Qed.
(** Which NaNs a result may be is forgotten. *)
Definition nan_result (w : string) : text := txt "(assert_return (invoke " ++ q "f" ++ txt ") (f32.const " ++ txt w ++ txt "))".
Theorem nan_patterns_kept_refuted :
  ~ (forall swap ds, ParseWast pf swap (nan_result "nan:canonical") = Ok ds ->
      ParseWast pf swap (nan_result "nan:arithmetic") <> Ok ds).
Proof.
  intros H. apply (H false [DReturn (Some {| in_name := None; in_string := txt "f"; in_consts := [] |}) [CF32 4290772992]]);
    vm_compute; reflexivity.
Qed.

(** An action with another name is accepted, and its name forgotten. *)
Theorem unknown_actions_rejected_refuted :
  ~ (forall swap w ds, ParseWast pf swap (txt "(assert_return (" ++ w ++ txt "))") = Ok ds ->
      exists v, w = txt "invoke" ++ v \/ w = txt "get" ++ v).
Proof.
  intros H. destruct (H false (txt "frobnicate") [DReturn None []] ltac:(vm_compute; reflexivity)) as (v & [E|E]);
    discriminate E.
Qed.

(** f64.const without a number is read as 0. *)
Theorem numbers_required_refuted :
  ~ (forall swap w ds, ParseWast pf swap (txt "(assert_return (invoke " ++ q "f" ++ txt ") (f64.const" ++ w ++ txt "))") = Ok ds ->
      w <> []).
Proof.
  intros H. apply (H false [] [DReturn (Some {| in_name := None; in_string := txt "f"; in_consts := [] |}) [CF64 0]]);
    [vm_compute; reflexivity | reflexivity].
Qed.

(** A comment or string that is not closed at the end of a script does not
    make it an error. *)
Theorem unclosed_comment_rejected_refuted :
  ~ (forall swap input b ds ds', ParseWast pf swap input = Ok ds -> ParseWast pf swap (input ++ txt "(;" ++ b) = Ok ds' ->
      block_end b).
Proof.
  intros H. specialize (H false (txt "(module)") (txt " (assert_return (invoke)") [DWat (QWat (DModule (module_of [])))]
    [DWat (QWat (DModule (module_of [])))] ltac:(vm_compute; reflexivity) ltac:(vm_compute; reflexivity)).
  assert (E : ~ In ";"%char (txt " (assert_return (invoke)")) by (cbn; intuition discriminate).
  destruct H as (x & y & Hxy). rewrite Hxy in E. apply E, in_or_app. right. now left.
Qed.
End Oddities.

(** ** Examples *)
Example wast_sample_good : forall pf f32 f64, Forall (good_wdirective f32 f64 (model_floats pf))
  [DWat (QWat (DModule (module_of []))); DWat (QModule (txt "(module)"));
   DReturn (Some {| in_name := None; in_string := txt "add"; in_consts := [Some (CI32 1); Some (CI32 (-2)); None] |}) [CI32 (-1); CI64 7];
   DTrap (Some {| in_name := Some (txt "$m"); in_string := txt "div"; in_consts := [] |}) (txt "integer divide by zero");
   DInvalid (QWat DComponent) (txt "type mismatch");
   DMalformed (QComponent (txt "(")) (txt "unexpected token")].
Proof.
  intros pf f32 f64.
  assert (Nq : forall s, existsb (Ascii.eqb quote) s = false -> ~ In quote s).
  { intros s H Hi. rewrite <- Bool.not_true_iff_false, existsb_exists in H. apply H. exists quote. split; [exact Hi | reflexivity]. }
  repeat apply Forall_cons; try apply Forall_nil; cbn [good_wdirective good_quote_wat good_action in_name in_string in_consts].
  - repeat split; constructor.
  - now apply Nq.
  - split; [split; [exact I|]; split; [now apply Nq|]|].
    + repeat apply Forall_cons; try apply Forall_nil; cbn; try lia; exact I.
    + repeat apply Forall_cons; try apply Forall_nil; cbn; lia.
  - split; [|now apply Nq]. split; [|split; [now apply Nq | constructor]].
    cbn. exists (txt "m"). split; [reflexivity|]. split; [discriminate|]. repeat constructor; cbn; try lia; intuition discriminate.
  - split; [exact I | now apply Nq].
  - split; now apply Nq.
Qed.

Example wast_sample_parses : forall pf,
  ParseWast pf false (txt "(module) ;; a comment" ++ [newline] ++
    txt "(assert_return (invoke " ++ q "add" ++ txt " (i32.const 1)(i32.const -2)) (i32.const 0xffffffff))") =
  Ok [DWat (QWat (DModule (module_of [])));
      DReturn (Some {| in_name := None; in_string := txt "add"; in_consts := [Some (CI32 1); Some (CI32 (-2))] |}) [CI32 (-1)]].
Proof. intros pf. vm_compute. reflexivity. Qed.

Print Assumptions wast_parse_ends.
Print Assumptions wast_parse_means.
Print Assumptions wast_spelling_unambiguous.
Print Assumptions wast_scripts_join.
Print Assumptions script_parses_back.
Print Assumptions register_rejected.
Print Assumptions lone_invoke_rejected.
Print Assumptions assert_exhaustion_rejected.
Print Assumptions assert_unlinkable_rejected.
Print Assumptions get_rejected.
Print Assumptions null_argument_rejected.
Print Assumptions null_result_rejected.
Print Assumptions parentheses_balance_refuted.
Print Assumptions nan_patterns_kept_refuted.
Print Assumptions unknown_actions_rejected_refuted.
Print Assumptions numbers_required_refuted.
Print Assumptions unclosed_comment_rejected_refuted.
