(** Where the parser of WAST stops, as L_WatPlace.v for WAT. *)
From Coq Require Import Arith NArith ZArith String Ascii Bool List Lia.
From Verif Require Import L_WatViable L_WastViable.
From Verif Require Import GoBase M_Text M_WatLex S_WatLex L_WatLex L_WatTokens L_WatNum P_WatLex S_LexErrors P_LexErrors.
From Verif Require Import M_ParseBase M_WatAst S_WatParse M_WatParse M_WastParse S_WastParse L_ParseBase L_ParseTotal L_WatSim L_WatTotal L_WatBridge L_WatPrint P_WatParse.
From Verif Require Import L_WatLit L_WatSound L_WastParse P_WastParse.
From Verif Require Import M_WatLocate M_WastLocate S_WastStop L_WatRel L_WatStop L_WatEnd L_WatNote L_WatPlace L_WastRel L_WastStop.
Import ListNotations.
Open Scope nat_scope.

(** ** Noting changes nothing. *)
Lemma plain_wast pf n : plain _ (parse_wast wat_source pf n) (parse_wast noting pf n).
Proof.
  assert (B : forall n n', n = n' -> plain _ (parse_instruction wat_source pf n) (parse_instruction noting pf n') ->
    plain _ (parse_block wat_source (parse_instruction wat_source pf n) n) (parse_block noting (parse_instruction noting pf n') n') /\
    plain _ (parse_loop wat_source (parse_instruction wat_source pf n) n) (parse_loop noting (parse_instruction noting pf n') n')).
  { apply (rel_block_trial wat_source noting pf plain (plain_note _) (plain_note _) plain_pret plain_perr plain_pdiverge plain_handled plain_bind
      eq (same_zero' plain) same_S plain_trial). }
  apply (rel_wast wat_source noting pf plain (plain_note _) (plain_note _) plain_pret plain_perr plain_pdiverge plain_handled plain_bind
      eq (same_zero' plain) same_S B); [|reflexivity].
  intros k j H. apply (rel_wdirective_trial wat_source noting pf plain (plain_note _) (plain_note _) plain_pret plain_perr plain_pdiverge plain_handled plain_bind
      eq (same_zero' plain) same_S B plain_trial). exact H.
Qed.
Lemma parse_wast_at pf swap input : fst (ParseWastAt pf swap input) = ParseWast pf swap input.
Proof. apply (plain_wast pf (S (rounds (new_lexer swap input))) {| no_lexer := new_lexer swap input; no_token := None |}). Qed.

Lemma notes_wast input G0 E0 pf n : notes input G0 E0 _ (parse_wast noting pf n) (parse_wast counter pf n).
Proof.
  assert (B : forall n n', n = n' -> notes input G0 E0 _ (parse_instruction noting pf n) (parse_instruction counter pf n') ->
    notes input G0 E0 _ (parse_block noting (parse_instruction noting pf n) n) (parse_block counter (parse_instruction counter pf n') n') /\
    notes input G0 E0 _ (parse_loop noting (parse_instruction noting pf n) n) (parse_loop counter (parse_instruction counter pf n') n')).
  { apply (rel_block_trial noting counter pf (notes input G0 E0) (notes_next _ _ _) (notes_peek _ _ _) (notes_pret _ _ _) (notes_perr _ _ _)
      (notes_pdiverge _ _ _) (notes_handled _ _ _) (notes_bind _ _ _) eq (same_zero'' (notes input G0 E0)) same_S (notes_trial _ _ _)). }
  apply (rel_wast noting counter pf (notes input G0 E0) (notes_next _ _ _) (notes_peek _ _ _) (notes_pret _ _ _) (notes_perr _ _ _)
      (notes_pdiverge _ _ _) (notes_handled _ _ _) (notes_bind _ _ _) eq (same_zero'' (notes input G0 E0)) same_S B); [|reflexivity].
  intros k j H. apply (rel_wdirective_trial noting counter pf (notes input G0 E0) (notes_next _ _ _) (notes_peek _ _ _) (notes_pret _ _ _) (notes_perr _ _ _)
      (notes_pdiverge _ _ _) (notes_handled _ _ _) (notes_bind _ _ _) eq (same_zero'' (notes input G0 E0)) same_S B (notes_trial _ _ _)). exact H.
Qed.

Lemma nothing_separates ty : separate ty [].
Proof. destruct ty; cbn; auto. Qed.
Lemma cut_all_blanks ts : Forall solid ts -> cut (blanks ts) [].
Proof.
  induction ts as [|t ts IH]; intros H; [exact I|]. inversion H as [|? ? Ht Hs]; subst. specialize (IH Hs). destruct t as [ty w].
  destruct ts as [|u us]; [cbn [blanks cut]; split; [apply Ht|]; split; [apply nothing_separates|exact I]|].
  inversion Hs as [|? ? Hu _]; subst.
  change (blanks ((ty, w) :: u :: us)) with ((ty, w) :: (Whitespace, txt " ") :: blanks (u :: us)).
  cbn [cut]. split; [apply Ht|]. split; [apply blank_separate; intros ->; destruct Ht; discriminate|].
  split; [split; [discriminate|repeat constructor]|]. split; [|exact IH].
  rewrite blanks_text. destruct (solid_first u Hu) as (c & w' & Ec & Hc).
  assert (B : exists x, S_WatPrint.spaced (u :: us) = c :: x) by (destruct us; cbn [S_WatPrint.spaced]; rewrite Ec; eexists; reflexivity).
  destruct B as [x ->]. exact Hc.
Qed.

Section Place.
Variables (pf : text -> option N) (swap : bool).
Notation steps := (steps swap).

(** ** A file and its run over the machine that counts *)
Lemma wast_counts input : exists F E after, tells (new_lexer swap input) F E /\
  input = text_of (map view F) ++ after /\ cut (map view F) after /\ placed input 0 F /\
  match E with
  | Some t => t_type t = EndOfStream /\ after = t_capture t /\ fine (Ends after) /\
      t_position t = length (text_of (map view F)) /\ good_token input t
  | None => no_start after
  end /\
  match ParseWastAt pf swap input, parse_wast counter pf (steps input) (begin_at (significant (map view F)) (ending_of E)) with
  | (Ok a, _), (Ok b, _) => a = b
  | (Err _, s), (Err _, c) => look input F E s (c_k c)
  | _, _ => False
  end.
Proof.
  destruct (tells_some (length input) (new_lexer swap input) (new_aligned swap input) (fresh_ok swap input) ltac:(reflexivity)) as
    (F & E & after & T & R & Cu & Pl & Fin). exists F, E, after. change (rest_of (new_lexer swap input)) with input in R.
  split; [exact T|]. split; [exact R|]. split; [exact Cu|]. split; [exact Pl|]. split; [exact Fin|].
  pose proof (notes_wast input F E pf (steps input) {| no_lexer := new_lexer swap input; no_token := None |}
    (begin_at (significant (map view F)) (ending_of E))) as X.
  pose proof (wast_parse_ends pf swap input) as En. rewrite <- parse_wast_at in En.
  unfold ParseWastAt in *. fold (steps input) in *.
  assert (B : both input F E {| no_lexer := new_lexer swap input; no_token := None |} (begin_at (significant (map view F)) (ending_of E))).
  { split; [split; [apply fresh_ok|left; apply new_aligned]|]. split; [reflexivity|]. split; [|intros i Hi; discriminate].
    left. exists [], F. cbn. rewrite sig_view. auto. }
  specialize (X B).
  destruct (parse_wast noting _ _ _) as [[a|e| |] s]; destruct (parse_wast counter _ _ _) as [[b|e'| |] c]; cbn [fst] in En;
    try contradiction; try exact X; try apply X; destruct En as [[? En]|[? En]]; discriminate.
Qed.
Lemma wast_counts_text ts : cut ts [] ->
  match ParseWast pf swap (text_of ts), fst (parse_wast counter pf (steps (text_of ts)) (begin_at (significant ts) (Ends []))) with
  | Ok a, Ok b => a = b
  | Err _, Err _ => True
  | _, _ => False
  end.
Proof.
  intros S. destruct (wast_counts (text_of ts)) as (F & E & after & T & _ & _ & _ & _ & X). rewrite <- parse_wast_at.
  destruct (tells_text ts _ F E (new_aligned _ _) eq_refl S T) as [<- (t & -> & C)].
  cbn [ending_of] in X. rewrite C in X.
  destruct (ParseWastAt pf _ _) as [[a|e| |] s]; destruct (parse_wast counter _ _ _) as [[b|e'| |] c]; cbn [fst]; auto.
Qed.
Lemma wast_more_fuel n m s : n <= m -> fst (parse_wast counter pf n s) <> Diverge -> parse_wast counter pf m s = parse_wast counter pf n s.
Proof. intros L D. destruct (rel3_wast pf n m L s) as [E|E]; [congruence|now symmetry]. Qed.

Lemma ends_script w : Forall solid w ->
  (exists N a, forall m, N <= m -> fst (parse_wast counter pf m (begin_at w (Ends []))) = Ok a) -> script_tokens swap pf w.
Proof.
  intros S (N & a & H). exists (text_of (blanks w)), (blanks w), a. pose proof (cut_all_blanks w S) as Sp.
  pose proof (blanks_significant w S) as Sg.
  split; [|auto]. pose proof (wast_counts_text (blanks w) Sp) as X. rewrite Sg in X. set (n := steps _) in X.
  specialize (H (Nat.max N n) ltac:(lia)).
  rewrite (wast_more_fuel n (Nat.max N n)) in H by (try lia; intros D; rewrite D in X; destruct (ParseWast pf _ _); contradiction).
  rewrite H in X. destruct (ParseWast pf _ _); try contradiction. now subst.
Qed.

Lemma stopped_script n c e r x : parse_wast first pf n (Some c) = (Err e, r) -> ~ script_tokens swap pf (c ++ x).
Proof.
  intros P (input & ts & a & Pa & -> & S & W). pose proof (wast_counts_text ts S) as X. rewrite Pa, W in X.
  set (n2 := steps _) in X. destruct (rel2_wast (length c) x (Ends []) pf n) as [_ H]. specialize (H c 0 0 eq_refl). rewrite P in H.
  destruct r as [c'|]; [|contradiction]. destruct H as (n' & k' & H & _). unfold begin_at in X.
  pose proof (wast_more_fuel n (Nat.max n n2) (mkC (c ++ x) (Ends []) 0 0) ltac:(lia)) as M1. rewrite H in M1. specialize (M1 ltac:(discriminate)).
  pose proof (wast_more_fuel n2 (Nat.max n n2) (mkC (c ++ x) (Ends []) 0 0) ltac:(lia)) as M2.
  destruct (parse_wast counter pf n2 _) as [[b| | |] c2]; cbn in X; try contradiction. specialize (M2 ltac:(discriminate)). congruence.
Qed.

Lemma wast_stop n G fin e c' : parse_wast counter pf (S n) (begin_at G fin) = (Err e, c') ->
  exists i, c_k c' = S i /\ parse_wast first pf (S n) (Some (firstn i G)) = (Diverge, None) /\
    (i < length G -> exists e r, parse_wast first pf (S n) (Some (firstn (S i) G)) = (Err e, r)).
Proof.
  intros P. unfold begin_at in P.
  assert (K : forall j, j <= length G ->
    (parse_wast first pf (S n) (Some (firstn j G)) = (Diverge, None) /\ j < c_k c') \/
    ((exists e r, parse_wast first pf (S n) (Some (firstn j G)) = (Err e, r)) /\ c_k c' <= j)).
  { intros j L. destruct (rel2_wast j (skipn j G) fin pf (S n)) as [_ H].
    specialize (H (firstn j G) 0 0 ltac:(rewrite firstn_length; lia)). rewrite firstn_skipn, P in H.
    destruct (parse_wast first pf (S n) (Some (firstn j G))) as [[a|e'| |] [c2|]]; cbn in H; try contradiction.
    - destruct H as (n' & k' & H & _). discriminate.
    - right. destruct H as (n' & k' & H & _ & K & _). injection H as _ ->. cbn. split; [eauto|]. apply K. lia.
    - destruct H as (n' & k' & H & _). discriminate.
    - discriminate.
    - left. split; [reflexivity|apply H]. }
  assert (K1 : 0 < c_k c').
  { destruct (K 0 ltac:(lia)) as [[_ H]|[(e1 & r1 & Q) _]]; [exact H|]. cbn [firstn] in Q. exfalso. discriminate Q. }
  exists (c_k c' - 1). split; [lia|]. split.
  - destruct (le_lt_dec (c_k c' - 1) (length G)) as [L|L].
    + destruct (K _ L) as [[H _]|[_ H]]; [exact H|lia].
    + rewrite firstn_all2 by lia. destruct (K (length G) (le_n _)) as [[H _]|[_ H]]; [now rewrite firstn_all in H|lia].
  - intros L. destruct (K (S (c_k c' - 1)) L) as [[_ H]|[H _]]; [lia|exact H].
Qed.

Lemma starved_script n ts rest : cut ts rest -> parse_wast first pf n (Some (significant ts)) = (Diverge, None) ->
  exists x, script_tokens swap pf (significant ts ++ x).
Proof.
  intros Cu P.
  assert (P' : wast_loop first pf n (Some (significant ts)) = (Diverge, None)).
  { unfold parse_wast, handled in P. destruct (wast_loop first pf n _) as [[| | |] s]; try discriminate. exact P. }
  destruct (viable_script pf n _ P') as (d & Hd & N & a & H). exists d.
  apply ends_script; [|exists N, a; intros m L; unfold parse_wast, handled; specialize (H m [] 0 0 L); unfold begin_at;
    destruct (wast_loop counter pf m _) as [[| | |] s]; cbn in *; congruence]. apply Forall_app. split.
  - apply cut_valid in Cu. apply Forall_forall. intros t Ht. unfold significant in Ht. apply filter_In in Ht. destruct Ht as [Ht S].
    split; [exact (proj1 (Forall_forall _ _) Cu t Ht)|]. now destruct (space_or_comment (fst t)).
  - apply (incl_Forall Hd vocab_solid).
Qed.

(** A file is accepted just if its tokens are those of an accepted file. *)
Lemma script_spells ts after ds : cut ts after -> leftover after -> ParseWast pf swap (text_of ts ++ after) = Ok ds ->
  a_script (L_WatLit.model_floats pf) (significant ts) ds.
Proof.
  intros C Lf P. unfold ParseWast in P. set (n := S _) in P. set (l := new_lexer swap (text_of ts ++ after)) in P.
  destruct (reads_text ts l after (new_aligned _ _) eq_refl C) as (l1 & A1 & R1 & H).
  specialize (H [] (Ends after) (leftover_reads l1 after A1 R1 Lf)). rewrite app_nil_r in H.
  assert (HR : W_R l (significant ts, Ends after)) by (split; [left; apply new_aligned|exact H]).
  pose proof (sim_script pf n _ _ HR) as S.
  destruct (parse_wast wat_source pf n l) as [o l'] eqn:P'. cbn [fst] in P. subst o.
  destruct (parse_wast (machine EndOfStream) pf n (significant ts, Ends after)) as [[d'|y| |] s'] eqn:M; cbn in S; try contradiction. destruct S as [<- _].
  unfold parse_wast in M. apply (proj1 (handled_ok _ _ _ _)) in M.
  apply sound_wast in M; [|exact (significant_valid ts after C)|exact Lf]. apply M.
Qed.
Lemma script_accepts ts after : cut ts after -> leftover after -> script_tokens swap pf (significant ts) ->
  exists ds, ParseWast pf swap (text_of ts ++ after) = Ok ds.
Proof.
  intros C Lf (input & ts' & ds & P & -> & C' & W). exists ds. apply wast_parse_means. exists ts, after.
  repeat (split; [auto; fail|]). rewrite <- W. apply (script_spells ts' [] ds C' (or_introl eq_refl)). now rewrite app_nil_r.
Qed.
Lemma solid_significant ts rest : cut ts rest -> Forall solid (significant ts).
Proof.
  intros Cu. apply cut_valid in Cu. apply Forall_forall. intros t Ht. unfold significant in Ht. apply filter_In in Ht. destruct Ht as [Ht S].
  split; [exact (proj1 (Forall_forall _ _) Cu t Ht)|]. now destruct (space_or_comment (fst t)).
Qed.
Lemma script_accepted ts after : cut ts after -> leftover after -> (exists ds, ParseWast pf swap (text_of ts ++ after) = Ok ds) ->
  script_tokens swap pf (significant ts).
Proof.
  intros C Lf [ds P]. pose proof (solid_significant ts after C) as S. exists (text_of (blanks (significant ts))), (blanks (significant ts)), ds.
  pose proof (cut_all_blanks _ S) as Cb. pose proof (blanks_significant _ S) as Sb.
  split; [|auto]. apply wast_parse_means. exists (blanks (significant ts)), []. rewrite app_nil_r.
  split; [reflexivity|]. split; [exact Cb|]. split; [now left|]. rewrite Sb. exact (script_spells ts after ds C Lf P).
Qed.

Theorem wast_error_place input e : ParseWast pf swap input = Err e ->
  exists before after, input = text_of before ++ after /\ cut before after /\
  (exists x, script_tokens swap pf (significant before ++ x)) /\
  match wast_error_token pf swap input with
  | Some t => t_position t = length (text_of before) /\ place_of input (t_position t) (t_line t) (t_column t) /\
      ((exists after', after = t_capture t ++ after' /\ cut (before ++ [view t]) after' /\ space_or_comment (t_type t) = false /\
          forall x, ~ script_tokens swap pf (significant before ++ view t :: x)) \/
       (t_type t = EndOfStream /\ after = t_capture t /\ (after = [] \/ unfinished after) /\ ~ script_tokens swap pf (significant before)))
  | None => no_start after
  end.
Proof.
  intros P. destruct (wast_counts input) as (F & E & after & _ & R & Cu & Pl & Fin & X). pose proof (parse_wast_at pf swap input) as PA.
  unfold wast_error_token. destruct (ParseWastAt pf swap input) as [o s]. cbn [fst snd] in *. rewrite P in PA. subst o.
  destruct (parse_wast counter pf (steps input) _) as [[| e' | |] c] eqn:Q; try contradiction.
  destruct (wast_stop _ _ _ _ _ Q) as (i & Ki & St & Er). specialize (X i Ki).
  assert (Lg : length (significant (map view F)) = length (sig F)) by (rewrite <- sig_view; apply map_length).
  destruct (nth_error (sig F) i) as [t|] eqn:Nt.
  - rewrite X. assert (Li : i < length (sig F)) by (apply nth_error_Some; congruence).
    destruct (looked F i t Nt) as (F0 & F1 & -> & L0 & Sk). rewrite map_app in Cu, R. cbn [map] in Cu, R. pose proof Cu as Cu'.
    apply cut_app in Cu. destruct Cu as [Cu0 Cu1].
    exists (map view F0), (text_of (view t :: map view F1) ++ after). split; [now rewrite R, text_of_app, <- app_assoc|]. split; [exact Cu0|].
    rewrite <- L0, firstn_sig in St. split; [exact (starved_script _ _ _ Cu0 St)|].
    destruct (Pl F0 t F1 eq_refl) as [P1 P2]. split; [exact P1|]. split; [now apply good_place|]. left.
    exists (text_of (map view F1) ++ after). split; [unfold text_of; cbn [map concat view snd]; now rewrite <- app_assoc|].
    split. { change (view t :: map view F1) with ([view t] ++ map view F1) in Cu'. rewrite app_assoc in Cu'. apply cut_app in Cu'. apply Cu'. }
    rewrite skipped_ok in Sk. split; [exact Sk|]. intros x. destruct (Er ltac:(lia)) as (e2 & r & H).
    assert (Ef : firstn (S i) (significant (map view (F0 ++ t :: F1))) = significant (map view F0) ++ [view t]).
    { replace (S i) with (length (sig (F0 ++ [t]))) by (unfold sig; rewrite filter_app, app_length; fold (sig F0); cbn; rewrite skipped_ok, Sk; cbn; lia).
      change (F0 ++ t :: F1) with (F0 ++ [t] ++ F1). rewrite app_assoc, firstn_sig, map_app, significant_app. cbn [map significant filter].
      rewrite Sk. reflexivity. }
    rewrite Ef in H. pose proof (stopped_script _ _ _ _ x H) as N. now rewrite <- app_assoc in N.
  - apply nth_error_None in Nt. exists (map view F), after. split; [exact R|]. split; [exact Cu|].
    rewrite firstn_all2 in St by lia. split; [exact (starved_script _ _ _ Cu St)|].
    destruct E as [et|].
    + destruct X as (t & -> & Te & Eq). destruct Fin as (Ty & Ca & Fi & Pe & G).
      assert (Hk : c_k c <= S (length (sig F))).
      { destruct (quiet_wast pf (t_capture et) (eq_ind _ (fun x => lookup valtypes x = None) (fine_no_type _ Fi) _ Ca) (steps input) (begin_at (significant (map view F)) (ending_of (Some et))) eq_refl) as [B _].
        rewrite Q in B. unfold bound, whole in B. cbn in B. lia. }
      rewrite (Eq ltac:(lia)). split; [exact Pe|]. split; [now apply good_place|]. right. split; [exact Ty|]. split; [exact Ca|]. split; [exact Fi|].
      intros Ac. destruct (script_accepts _ _ Cu Fi Ac) as [d Hd]. rewrite <- R in Hd. congruence.
    + destruct X as [_ ->]. exact Fin.
Qed.
End Place.
