(** What the WAST parser has read can always be completed, as L_WatViable.v
    for WAT. *)
From Coq Require Import Arith NArith ZArith String Ascii Bool List Lia.
From Verif Require Import L_WatViable.
From Verif Require Import GoBase M_Text M_WatLex M_ParseBase M_Strconv M_WatAst M_WatParse M_WastParse S_WatParse L_ParseBase L_WatSim.
From Verif Require Import L_WatRel L_WatStop L_WastRel L_WastStop.
From Verif Require Import M_WatParse.
Import ListNotations.
Open Scope nat_scope.
Open Scope parse_scope.
#[local] Arguments tok_eqb : simpl never.
#[local] Arguments text_eqb : simpl never.

Section Float.
Variable pf : text -> option N.
Ltac use4w lem := apply (lem _ _ first counter pf rel4 rel4_next rel4_peek rel4_pret rel4_perr (fun A => rel4_pdiverge A _) rel4_handled rel4_bind le le_zero4 le_succ (rel4_block pf)).
Ltac ew n lem := apply (E_rel n); intros; use4w lem; assumption.
Definition E_word' := L_WatViable.E_word pf.
Definition E_exp' := L_WatViable.E_exp pf.
Definition E_eat' := L_WatViable.E_eat pf.
Definition E_string' := L_WatViable.E_string pf.
Definition E_int32' := L_WatViable.E_int32 pf.
Definition E_int64' := L_WatViable.E_int64 pf.
Definition E_float32' := L_WatViable.E_float32 pf.
Definition E_float64' := L_WatViable.E_float64 pf.
#[local] Hint Resolve E_word' E_exp' E_eat' E_pk E_nxt E_string' E_int32' E_int64' E_float32' E_float64' : wx.
#[local] Hint Resolve V_string V_int32 V_int64 : wv.
#[local] Hint Resolve R_string R_int32 R_int64 : wr.

(** ** Constants *)
Lemma peek_integer_eq {L A} (src : source L toktype) (f g : parser L A) s :
  (plet b := peek_integer src in if b then f else g) s = (plet t := pk src in if tok_eqb (fst t) TInteger then f else g) s.
Proof. unfold peek_integer. rewrite !plet_eq. unfold handled. rewrite plet_eq. destruct (pk src s) as [[t| | |] s']; reflexivity. Qed.
Definition f64_rest {L} (src : source L toktype) : parser L (option wconst) :=
  plet b := peek_integer src in
  if b then (plet v := parse_int64 src in pret (Some (CF64 (float64_of_int v)))) else pret (Some (CF64 0)).
Lemma R_f64_rest : runs [] (fun _ _ => f64_rest counter) ([zero] ++ []).
Proof. exists 0. eexists. intros. do 2 eexists. reflexivity. Qed.
Lemma V_f64_rest : V [] (f64_rest first) (fun _ _ => f64_rest counter).
Proof.
  intros c H. destruct c as [|t c]; [exists [zero]; split; [side | exact R_f64_rest]|].
  unfold f64_rest in *. rewrite peek_integer_eq, plet_eq, f_pk in H.
  assert (X : V [] (if tok_eqb (fst t) TInteger then plet v := parse_int64 first in pret (Some (CF64 (float64_of_int v))) else pret (Some (CF64 0)))
    (fun _ _ => if tok_eqb (fst t) TInteger then plet v := parse_int64 counter in pret (Some (CF64 (float64_of_int v))) else pret (Some (CF64 0)))) by v.
  destruct (X _ H) as (d & I & R). exists d. split; [exact I|]. apply (runs_eq _ _ _ _ (fun _ _ => peek_integer_eq counter _ _)).
  apply (runs_peek _ _ t). exact R.
Qed.
Lemma R_const : runs [] (fun _ _ => parse_const counter pf) [word_tk "i32.const"; zero].
Proof. exists 0. eexists. intros. do 2 eexists. reflexivity. Qed.
Lemma E_const : E (parse_const first pf) (fun _ _ => parse_const counter pf). Proof. ew 0 (@rel_const). Qed.
Lemma V_const : V [] (parse_const first pf) (fun _ _ => parse_const counter pf).
Proof.
  unfold parse_const. apply V_next; [eexists; split; [|exact R_const]; side|]. intros t.
  destruct (tok_eqb (fst t) Reserved); [|v]. destruct (text_eqb (snd t) (txt "i32.const")); [v|]. destruct (text_eqb (snd t) (txt "i64.const")); [v|].
  destruct (text_eqb (snd t) (txt "f32.const")).
  { apply (V_number _ _ (plet v := parse_float32 counter pf in pret (Some (CF32 v))) (plet v := parse_int32 counter in pret (Some (CF32 (float32_of_int v))))); [|v|crun].
    intros u c T. rewrite plet_eq. unfold parse_float32, handled. rewrite plet_eq, f_nxt, T. destruct (float32_literal pf (snd u)); discriminate. }
  destruct (text_eqb (snd t) (txt "f64.const")); [|v].
  apply (V_number _ _ (plet v := parse_float64 counter pf in pret (Some (CF64 v))) (f64_rest counter)); [|exact V_f64_rest|exact R_f64_rest].
  intros u c T. rewrite plet_eq. unfold parse_float64, handled. rewrite plet_eq, f_nxt, T. destruct (pf (snd u)); discriminate.
Qed.
#[local] Hint Resolve R_const E_const V_const : wr wx wv.
Lemma V_const' : V others (parse_const first pf) (fun _ _ => parse_const counter pf).
Proof. apply (V_more []); [side | exact V_const]. Qed.
Definition R_loop := R_while pf (parse_const first pf) (fun _ => parse_const counter pf) E_const V_const'.
Definition E_loop := E_while pf (parse_const first pf) (fun _ => parse_const counter pf) E_const V_const'.
Definition V_loop := V_while pf (parse_const first pf) (fun _ => parse_const counter pf) E_const V_const'.
#[local] Hint Resolve R_loop E_loop V_loop : wr wx wv.
Lemma R_consts : runs [OpenParen] (fun m _ => parse_consts counter pf m) [].
Proof. unfold parse_consts. apply (runs_handled _ (fun m _ => _)), R_loop. Qed.
Lemma E_consts n : E (parse_consts first pf n) (fun m _ => parse_consts counter pf m).
Proof. unfold parse_consts. apply (E_handled _ (fun m _ => _)), E_loop. Qed.
Lemma V_consts n : V [OpenParen] (parse_consts first pf n) (fun m _ => parse_consts counter pf m).
Proof. unfold parse_consts. apply (V_handled _ _ (fun m _ => _)), V_loop. Qed.
#[local] Hint Resolve R_consts E_consts V_consts : wr wx wv.

(** ** Actions *)
Lemma E_invoke n : E (parse_invoke first pf n) (fun m _ => parse_invoke counter pf m).
Proof. unfold parse_invoke. ext. Qed.
Lemma V_invoke n : V [OpenParen] (parse_invoke first pf n) (fun m _ => parse_invoke counter pf m).
Proof.
  unfold parse_invoke. v. exists [some_string]. split; [side|]. apply (runs_peek _ _ some_string).
  apply (runs_bind_eq [] [OpenParen] (fun _ _ => pret None) _ _ [] [some_string]); [apply runs_pret| |side|reflexivity].
  intros name. apply (runs_bind_eq [] [OpenParen] (fun _ _ => parse_string counter) _ _ [some_string] []); [exact R_string| |side|reflexivity].
  intros s. apply (runs_bind_eq [OpenParen] [OpenParen] (fun m _ => parse_consts counter pf m) _ _ [] []); [exact R_consts| |side|reflexivity].
  intros cs. apply runs_pret.
Qed.
#[local] Hint Resolve E_invoke V_invoke : wx wv.
Lemma R_action : runs [] (fun m _ => parse_action counter pf m) [open; word_tk "return"; close].
Proof. exists 0. eexists. intros. do 2 eexists. reflexivity. Qed.
Lemma E_action n : E (parse_action first pf n) (fun m _ => parse_action counter pf m). Proof. ew n (@rel_action). Qed.
Lemma V_action n : V [] (parse_action first pf n) (fun m _ => parse_action counter pf m).
Proof.
  unfold parse_action. apply (V_handled _ _ (fun m _ => _)). apply V_exp.
  { exists [open; word_tk "return"; close]. split; [side|]. exists 0. eexists. intros. do 2 eexists. reflexivity. }
  apply V_next. { exists [word_tk "return"; close]. split; [side|]. exists 0. eexists. intros. do 2 eexists. reflexivity. }
  intros t. destruct (tok_eqb (fst t) Reserved); [|v]. eapply (V_bind [OpenParen] _ _ (fun m _ => _)); [ext| |v|].
  - destruct (text_eqb (snd t) (txt "invoke")); [v|]. destruct (text_eqb (snd t) (txt "get")); v.
  - intros a. exists [close]. split; [side|]. split; [crun | side].
Qed.
#[local] Hint Resolve R_action E_action V_action : wr wx wv.

(** ** Results *)
Notation turn src n :=
  (plet b := ate src OpenParen in
   if b then
     plet c := parse_const src pf in
     match c with
     | None => results_loop src pf n
     | Some r => exp src CloseParen ;;> plet rs := results_loop src pf n in pret (r :: rs)
     end
   else pret []).
Lemma R_results_loop : runs [OpenParen] (fun m _ => results_loop counter pf m) [].
Proof. apply (runs_S _ _ (fun m _ => turn counter m) _ (fun m m' s => eq_refl)). apply runs_pass; [side | apply runs_pret]. Qed.
Lemma E_results_loop n : E (results_loop first pf n) (fun m _ => results_loop counter pf m).
Proof.
  induction n as [|n IH]; [intros c x c' X; discriminate|].
  assert (X : E (turn first n) (fun m _ => turn counter m)) by ext.
  intros c x c' H. destruct (X c x c' H) as (d & N & -> & P & Q). exists d, (S N). split; [reflexivity|]. split; [exact P|].
  intros m m' rest e i k L L'. destruct m; [lia|]. apply (Q m m'); lia.
Qed.
#[local] Hint Resolve R_results_loop E_results_loop : wr wx.
Lemma V_results_loop n : V [OpenParen] (results_loop first pf n) (fun m _ => results_loop counter pf m).
Proof.
  induction n as [|n IH]; [apply V_pdiverge|].
  eapply V_map; [intros d; apply (runs_S _ _ (fun m _ => turn counter m) _ (fun m m' s => eq_refl))|].
  change (results_loop first pf (S n)) with (turn first n).
  apply V_eat; [exists []; split; [side|]; apply runs_pass; [side | apply runs_pret] | | v].
  apply (V_bind [] _ _ (fun _ _ => _)); [ext | v | v |]. intros [r|].
  - eexists. split; [|split; [crun|]]; side.
  - exists []. split; [side|]. split; [crun | side].
Qed.
Lemma R_results : runs [OpenParen] (fun m _ => parse_results counter pf m) [].
Proof. apply (runs_handled _ (fun m _ => _)), R_results_loop. Qed.
Lemma E_results n : E (parse_results first pf n) (fun m _ => parse_results counter pf m).
Proof. apply (E_handled _ (fun m _ => _)), E_results_loop. Qed.
Lemma V_results n : V [OpenParen] (parse_results first pf n) (fun m _ => parse_results counter pf m).
Proof. apply (V_handled _ _ (fun m _ => _)), V_results_loop. Qed.
#[local] Hint Resolve R_results E_results V_results : wr wx wv.

Lemma E_return n : E (parse_assert_return first pf n) (fun m _ => parse_assert_return counter pf m). Proof. ew n (@rel_return). Qed.
Lemma V_return n : V [OpenParen] (parse_assert_return first pf n) (fun m _ => parse_assert_return counter pf m).
Proof. unfold parse_assert_return. v. Qed.
Lemma E_trap n : E (parse_assert_trap first pf n) (fun m _ => parse_assert_trap counter pf m). Proof. ew n (@rel_trap). Qed.
Lemma V_trap n : V [] (parse_assert_trap first pf n) (fun m _ => parse_assert_trap counter pf m).
Proof. unfold parse_assert_trap. v. Qed.
#[local] Hint Resolve E_return V_return E_trap V_trap : wx wv.

(** ** Modules *)
Lemma V_eat_last {B} b k (f : bool -> parser _ B) (g : nat -> nat -> bool -> parser cst B) :
  C b (fun m m' => pbind (unwrap (ate counter k)) (g m m')) ->
  V b (f true) (fun m m' => g m m' true) -> (forall t c, f false (Some (t :: c)) <> (Diverge, None)) ->
  V b (pbind (unwrap (ate first k)) f) (fun m m' => pbind (unwrap (ate counter k)) (g m m')).
Proof.
  intros K Ft Ff c S. destruct c as [|t c]; [exact K|]. rewrite plet_eq, f_ate in S.
  destruct (tok_eqb (fst t) k) eqn:Hk; [|destruct (Ff t c S)].
  apply tok_eqb_eq in Hk. destruct (Ft c S) as (d & I & R). exists d. split; [exact I | now apply runs_eat].
Qed.
Definition R_secs' := R_module_secs pf.
Definition E_secs' := E_module_secs pf.
Definition V_secs' := V_module_secs pf.
#[local] Hint Resolve R_secs' E_secs' V_secs' : wr wx wv.
Lemma R_quote_rest : runs [] (fun m _ => quote_rest counter pf m) [(TModule, txt "module"); close].
Proof. exists 1. eexists. intros. destruct m as [|m]; [lia|]. do 2 eexists. reflexivity. Qed.
Lemma R_quote_direct : runs [] (fun m _ => quote_direct counter pf m) [open; (TModule, txt "module"); close].
Proof. exists 1. eexists. intros. destruct m as [|m]; [lia|]. do 2 eexists. reflexivity. Qed.
Lemma E_quote_rest n : E (quote_rest first pf n) (fun m _ => quote_rest counter pf m). Proof. ew n (@rel_quote_rest). Qed.
Lemma E_quote_direct n : E (quote_direct first pf n) (fun m _ => quote_direct counter pf m). Proof. ew n (@rel_quote_direct). Qed.
#[local] Hint Resolve R_quote_rest R_quote_direct E_quote_rest E_quote_direct : wr wx.
Lemma V_quoted make : V [] (quoted first make) (fun _ _ => quoted counter make).
Proof. unfold quoted. v. comp_next zero. Qed.
#[local] Hint Resolve V_quoted : wv.
Lemma V_quote_rest n : V [] (quote_rest first pf n) (fun m _ => quote_rest counter pf m).
Proof.
  unfold quote_rest. apply V_eat; [eexists; split; [|exact R_quote_rest]; side| |].
  - v. comp_peek close.
  - apply V_eat_last.
    + exists [(TModule, txt "module"); close]. split; [side|]. exists 1. eexists. intros. destruct m as [|m]; [lia|]. do 2 eexists. reflexivity.
    + v. exists [close]. split; [side|]. exists 1. eexists. intros. destruct m as [|m]; [lia|]. do 2 eexists. reflexivity.
    + intros t c. rewrite plet_eq, f_nxt. discriminate.
Qed.
#[local] Hint Resolve V_quote_rest : wv.
Lemma V_quote_direct n : V [] (quote_direct first pf n) (fun m _ => quote_direct counter pf m).
Proof.
  unfold quote_direct. apply (V_handled _ _ (fun m _ => _)). apply V_exp; [|v].
  eexists; split; [|eapply (runs_exp _ _ open); [reflexivity | exact R_quote_rest]]; side.
Qed.
#[local] Hint Resolve V_quote_direct : wv.
Lemma V_assertion n w make : In (Reserved, w) vocab -> V [] (assertion first pf n w make) (fun m _ => assertion counter pf m w make).
Proof.
  intros Iw. unfold assertion. apply (V_handled _ _ (fun m _ => _)). apply V_word; [|v].
  eexists. split; [|crun]. intros t [<-|H]; [exact Iw|]. vm_compute in H |- *. intuition.
Qed.
Lemma E_assertion n w make : E (assertion first pf n w make) (fun m _ => assertion counter pf m w make).
Proof. unfold assertion. ext. Qed.
#[local] Hint Resolve E_assertion : wx.
Lemma R_wdirective_rest : runs [] (fun m _ => plet t := pk counter in
  if text_eqb (snd t) (txt "module") || text_eqb (snd t) (txt "component") then (plet q := quote_rest counter pf m in pret (DWat q))
  else match lookup kinds (snd t) with
       | Some k =>
           plet d := (match k with
                      | KReturn => parse_assert_return counter pf m
                      | KInvalid => assertion counter pf m (txt "assert_invalid") DInvalid
                      | KMalformed => assertion counter pf m (txt "assert_malformed") DMalformed
                      | KTrap => parse_assert_trap counter pf m
                      end) in
           exp counter CloseParen ;;> pret d
       | None => perr
       end) [(TModule, txt "module"); close].
Proof. exists 1. eexists. intros. destruct m as [|m]; [lia|]. do 2 eexists. reflexivity. Qed.
Lemma V_wdirective_direct n : V [] (wdirective_direct first pf n) (fun m _ => wdirective_direct counter pf m).
Proof.
  unfold wdirective_direct. apply (V_handled _ _ (fun m _ => _)). apply V_exp.
  { eexists; split; [|eapply (runs_exp _ _ open); [reflexivity | exact R_wdirective_rest]]; side. }
  apply V_peek. { eexists; split; [|exact R_wdirective_rest]; side. }
  intros t. destruct (text_eqb (snd t) (txt "module") || text_eqb (snd t) (txt "component")); [v|].
  destruct (lookup kinds (snd t)) as [k|]; [|v]. eapply (V_bind [OpenParen] _ _ (fun m _ => _)); [| |v|].
  - destruct k; ext.
  - destruct k; [v|..]; (apply (V_more []); [side|]); [apply V_assertion; vm_compute; tauto..|v].
  - intros d. exists [close]. split; [side|]. split; [crun | side].
Qed.
Lemma V_wdirective n : V [] (parse_wdirective first pf (S n)) (fun m _ => parse_wdirective counter pf m).
Proof.
  apply (V_eq _ _ _ _ (f_wdirective pf n)). apply (V_ge _ _ _ (fun m _ => wdirective_direct counter pf m)); [|apply V_wdirective_direct].
  intros m m' s. apply c_wdirective.
Qed.
Lemma E_wdirective n : E (parse_wdirective first pf (S n)) (fun m _ => parse_wdirective counter pf m).
Proof.
  apply (E_ge _ _ (fun m _ => wdirective_direct counter pf m)); [intros m m' s; apply c_wdirective|].
  assert (X : E (wdirective_direct first pf (S n)) (fun m _ => wdirective_direct counter pf m)) by ew (S n) (@rel_wdirective_direct).
  intros c a c'. rewrite f_wdirective. apply X.
Qed.
End Float.

(** Every file of tokens on which the parser only asks for more can be
    completed to a script. *)
Theorem viable_script pf n : forall c, wast_loop first pf n (Some c) = (Diverge, None) ->
  exists d, incl d vocab /\ exists N a, forall m e i k, N <= m -> fst (wast_loop counter pf m (mkC (c ++ d) (Ends e) i k)) = Ok a.
Proof.
  induction n as [|n IH]; intros c H; [discriminate|]. cbn [wast_loop] in H. rewrite plet_eq, f_pk in H. destruct c as [|t c].
  - exists []. split; [intros x []|]. exists 1, []. intros m e i k L. destruct m as [|m]; [lia|]. reflexivity.
  - destruct (tok_eqb (fst t) EndOfStream) eqn:T; [discriminate|]. rewrite plet_eq in H.
    assert (St : forall m ts e i k, wast_loop counter pf (S m) (mkC (t :: ts) e i k) =
      (plet d := parse_wdirective counter pf (S m) in plet ds := wast_loop counter pf m in pret (d :: ds)) (mkC (t :: ts) e i (S i))).
    { intros. cbn [wast_loop]. rewrite plet_eq. cbn [pk counter s_peek c_peek c_ts c_end c_n]. now rewrite T. }
    destruct (parse_wdirective first pf (S n) (Some (t :: c))) as [[d0| | |] c'] eqn:P; try discriminate.
    + destruct (E_wdirective pf n _ _ _ P) as (r & N & -> & _ & Q). rewrite plet_eq in H.
      assert (H' : wast_loop first pf n (Some r) = (Diverge, None)) by (destruct (wast_loop first pf n (Some r)) as [[| | |] s]; try discriminate; now inversion H).
      destruct (IH r H') as (d & I & N' & a & R). exists d. split; [exact I|]. exists (S (Nat.max N N')), (d0 :: a).
      intros m e i k L. destruct m as [|m]; [lia|]. cbn [app]. rewrite St, plet_eq.
      destruct (Q (S m) (S m) d (Ends e) i (S i)) as (n1 & k1 & Q1); [lia|lia|]. cbn [app] in Q1. rewrite Q1, plet_eq.
      specialize (R m e n1 k1 ltac:(lia)). destruct (wast_loop counter pf m _) as [[x| | |] s]; cbn in R; inversion R. reflexivity.
    + inversion H; subst c'. destruct (V_wdirective pf n _ P) as (d & I & N & d0 & R). exists d. split; [exact I|]. exists (S (S N)), [d0].
      intros m e i k L. destruct m as [|m]; [lia|]. cbn [app]. rewrite St, plet_eq.
      destruct (R (S m) (S m) [] (Ends e) i (S i)) as (n1 & k1 & Q1); [lia|lia|exact (fun x => x)|]. rewrite app_nil_r in Q1. cbn [app] in Q1. rewrite Q1, plet_eq.
      destruct m as [|m]; [lia|]. reflexivity.
Qed.
