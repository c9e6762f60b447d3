(** Where the parser of WAT stops: the tokens before the error, and the
    files that begin with them. *)
From Coq Require Import Arith NArith ZArith String Ascii Bool List Lia.
From Verif Require Import L_WatViable.
From Verif Require Import GoBase M_Text M_WatLex S_WatLex L_WatLex L_WatTokens L_WatNum P_WatLex S_LexErrors P_LexErrors.
From Verif Require Import M_ParseBase M_WatAst S_WatParse M_WatParse L_ParseBase L_ParseTotal L_WatSim L_WatTotal L_WatBridge L_WatPrint P_WatParse.
From Verif Require Import M_WatLocate S_WatStop L_WatRel L_WatStop L_WatEnd L_WatNote.
Import ListNotations.
Open Scope nat_scope.

Definition placed (input : text) (p : nat) (F : list token) : Prop :=
  forall F0 t F1, F = F0 ++ t :: F1 -> t_position t = p + length (text_of (map view F0)) /\ good_token input t.

(** Every lexer tells something. *)
Lemma tells_some n : forall l, aligned l -> inv l -> length (rest_of l) <= n ->
  exists F E after, tells l F E /\ rest_of l = text_of (map view F) ++ after /\ cut (map view F) after /\
    placed (l_input l) (l_position l) F /\
    match E with
    | Some t => t_type t = EndOfStream /\ after = t_capture t /\ fine (Ends after) /\
        t_position t = l_position l + length (text_of (map view F)) /\ good_token (l_input l) t
    | None => no_start after
    end.
Proof.
  induction n as [|n IH]; intros l A I Hn;
    (destruct (next_sound l A) as [(t & l' & E & A' & I' & P & Rr & D)|(l' & E & _)];
     [|exists [], None, (rest_of l); split; [econstructor; eauto|]; split; [reflexivity|]; split; [exact Logic.I|];
       split; [intros F0 t F1 Q; destruct F0; discriminate|];
       apply (next_fails l A) in E; apply E]);
    destruct (here_next l t l' (conj I (or_introl A)) E) as ((Hi & _) & _ & _ & G);
    (destruct D as [[D Hs]|(D & R' & C)];
     [|exists [], (Some t), (t_capture t); split; [eapply tells_end; eauto|]; split; [rewrite Rr, R', app_nil_r; reflexivity|]; split; [exact Logic.I|];
       split; [intros F0 t0 F1 Q; destruct F0; discriminate|];
       split; [exact D|]; split; [reflexivity|]; split; [exact C|]; split; [cbn; lia|exact G]]).
  - exfalso. apply text_nonempty in D. rewrite Rr, app_length in Hn. destruct (t_capture t); [congruence|]. cbn in Hn. lia.
  - assert (Hl : length (rest_of l') < length (rest_of l)).
    { pose proof (text_nonempty _ _ D). rewrite Rr, app_length. destruct (t_capture t); [congruence|]. cbn. lia. }
    assert (Pos : l_position l' = l_position l + length (t_capture t)).
    { destruct (next_good l I) as [(t0 & l0 & E0 & _ & _ & _ & _ & _ & K & S)|(l0 & E0 & _)]; rewrite E0 in E; inversion E; subst.
      unfold start in S. rewrite K, (al_pos l' A') in S. lia. }
    destruct (IH l' A' Hi ltac:(lia)) as (F & E' & after & T & Rl & Cu & Pl & Fin).
    exists (t :: F), E', after. split; [eapply tells_token; eauto; intros Q; rewrite Q in D; exact D|].
    split; [rewrite Rr, Rl; unfold text_of; cbn [map concat view snd]; now rewrite <- app_assoc|].
    split; [cbn [map cut view]; rewrite Rl in Hs; auto|]. split.
    + intros F0 u F1 Q. destruct F0 as [|x F0]; cbn [app] in Q; inversion Q; subst.
      * split; [cbn; lia|exact G].
      * destruct (Pl F0 u F1 eq_refl) as [P1 P2]. rewrite I' in P2. split; [|exact P2].
        rewrite P1, Pos. unfold text_of. cbn [map concat view snd]. rewrite app_length. lia.
    + destruct E' as [et|]; [|exact Fin]. destruct Fin as (Y1 & Y2 & Y3 & Y4 & Y5). rewrite I' in Y5. repeat (split; [assumption|]). split; [|exact Y5].
      rewrite Y4, Pos. unfold text_of. cbn [map concat view snd]. rewrite app_length. lia.
Qed.

Lemma good_place input t : good_token input t -> place_of input (t_position t) (t_line t) (t_column t).
Proof.
  intros G. destruct G as (r & _ & _ & S & _). unfold sound_at in S. pose proof (advance_newlines (firstn (t_position t) input) 0 0) as N.
  destruct (advance_column (firstn (t_position t) input)) as (l & L & C). rewrite S in *. cbn in N, C. split; [exact N|]. exists l. auto.
Qed.

Lemma fine_no_type w : fine (Ends w) -> lookup valtypes w = None.
Proof. intros H. apply fine_lookup; [reflexivity|exact H]. Qed.

Section Place.
Variables (pf : text -> option N) (swap : bool).

(** ** A file and its run over the machine that counts *)
Definition steps (input : text) : nat := S (rounds (new_lexer swap input)).
Definition begin_at (G : list tk) (fin : ending) : cst := mkC G fin 0 0.

Lemma counts input : exists F E after, tells (new_lexer swap input) F E /\
  input = text_of (map view F) ++ after /\ cut (map view F) after /\ placed input 0 F /\
  match E with
  | Some t => t_type t = EndOfStream /\ after = t_capture t /\ fine (Ends after) /\
      t_position t = length (text_of (map view F)) /\ good_token input t
  | None => no_start after
  end /\
  match ParseAt pf (new_lexer swap input), parse_directive counter pf (steps input) (begin_at (significant (map view F)) (ending_of E)) with
  | (Ok a, _), (Ok b, _) => a = b
  | (Err _, s), (Err _, c) => look input F E s (c_k c)
  | _, _ => False
  end.
Proof.
  destruct (tells_some (length input) (new_lexer swap input) (new_aligned swap input) (fresh_ok swap input) ltac:(reflexivity)) as
    (F & E & after & T & R & Cu & Pl & Fin). exists F, E, after. change (rest_of (new_lexer swap input)) with input in R.
  split; [exact T|]. split; [exact R|]. split; [exact Cu|]. split; [exact Pl|]. split; [exact Fin|].
  pose proof (notes_directive input F E pf (steps input) {| no_lexer := new_lexer swap input; no_token := None |}
    (begin_at (significant (map view F)) (ending_of E))) as X.
  destruct (parse_at pf (new_lexer swap input)) as [PA _]. pose proof (wat_parse_ends pf swap input) as En. rewrite <- PA in En.
  unfold ParseAt in *. fold (steps input) in *.
  assert (B : both input F E {| no_lexer := new_lexer swap input; no_token := None |} (begin_at (significant (map view F)) (ending_of E))).
  { split; [split; [apply fresh_ok|left; apply new_aligned]|]. split; [reflexivity|]. split; [|intros i Hi; discriminate].
    left. exists [], F. cbn. rewrite sig_view. auto. }
  specialize (X B).
  destruct (parse_directive noting _ _ _) as [[a|e| |] s]; destruct (parse_directive counter _ _ _) as [[b|e'| |] c]; cbn [fst] in En;
    try contradiction; try exact X; try apply X; destruct En as [[? En]|[? En]]; discriminate.
Qed.

(** A file of given tokens *)
Lemma tells_text ts : forall l F E, aligned l -> rest_of l = text_of ts -> cut ts [] -> tells l F E ->
  map view F = ts /\ exists t, E = Some t /\ t_capture t = [].
Proof.
  induction ts as [|[ty w] ts IH]; intros l F E A R S T.
  - destruct (done_next l (conj A R)) as (t & l' & N & _ & V & _). inversion V.
    destruct T as [l t' l1 F E N' Ht T|l t' l1 N' Ht|l l1 N']; rewrite N in N'; inversion N'; subst; [congruence|].
    split; [reflexivity|eauto].
  - destruct S as (Ht & Hs & S). rewrite app_nil_r in Hs. unfold text_of in R. cbn [map concat snd] in R.
    destruct (next_complete l ty w _ A R Ht Hs) as (t & l' & N & T1 & T2 & _ & A1 & _ & R1).
    destruct T as [l t' l1 F E N' Ht' T|l t' l1 N' Ht'|l l1 N']; rewrite N in N'; inversion N'; subst.
    + destruct (IH l1 F E A1 R1 S T) as [<- H]. auto.
    + rewrite Ht' in Ht. destruct Ht.
Qed.
Lemma counts_text ts : cut ts [] ->
  match fst (parse pf (new_lexer swap (text_of ts))), fst (parse_directive counter pf (steps (text_of ts)) (begin_at (significant ts) (Ends []))) with
  | Ok a, Ok b => a = b
  | Err _, Err _ => True
  | _, _ => False
  end.
Proof.
  intros S. destruct (counts (text_of ts)) as (F & E & after & T & _ & _ & _ & _ & X).
  destruct (parse_at pf (new_lexer swap (text_of ts))) as [PA _]. rewrite <- PA.
  destruct (tells_text ts _ F E (new_aligned _ _) eq_refl S T) as [<- (t & -> & C)].
  cbn [ending_of] in X. rewrite C in X.
  destruct (ParseAt pf _) as [[a|e| |] s]; destruct (parse_directive counter _ _ _) as [[b|e'| |] c]; cbn [fst]; auto.
Qed.

(** More fuel *)
Lemma more_fuel n m s : n <= m -> fst (parse_directive counter pf n s) <> Diverge -> parse_directive counter pf m s = parse_directive counter pf n s.
Proof. intros L D. destruct (rel3_directive pf n m L s) as [E|E]; [congruence|now symmetry]. Qed.

(** Tokens that the parser reads to the end are those of a file. *)
Lemma ends_acceptable w : Forall solid w ->
  (exists N a, forall m, N <= m -> fst (parse_directive counter pf m (begin_at (w ++ [rp]) (Ends []))) = Ok a) -> acceptable swap pf (w ++ [rp]).
Proof.
  intros S (N & a & H). exists (text_of (blanks (w ++ [rp]))), (blanks (w ++ [rp])), a.
  pose proof (cut_blanks w [] S) as Sp.
  assert (Sg : significant (blanks (w ++ [rp])) = w ++ [rp]).
  { apply blanks_significant. apply Forall_app. split; [exact S|]. constructor; [apply rp_valid|constructor]. }
  split; [|auto]. pose proof (counts_text (blanks (w ++ [rp])) Sp) as X. rewrite Sg in X. set (n := steps _) in X.
  specialize (H (Nat.max N n) ltac:(lia)).
  rewrite (more_fuel n (Nat.max N n)) in H by (try lia; intros D; rewrite D in X; destruct (fst (parse pf _)); contradiction).
  rewrite H in X. destruct (fst (parse pf _)); try contradiction. now subst.
Qed.

(** No file begins with tokens on which the parser has stopped. *)
Lemma stopped_unacceptable n c e r x : parse_directive first pf n (Some c) = (Err e, r) -> ~ acceptable swap pf (c ++ x).
Proof.
  intros P (input & ts & a & Pa & -> & S & W). pose proof (counts_text ts S) as X. rewrite Pa, W in X.
  set (n2 := steps _) in X. destruct (rel2_directive (length c) x (Ends []) pf n) as [_ H]. specialize (H c 0 0 eq_refl). rewrite P in H.
  destruct r as [c'|]; [|contradiction]. destruct H as (n' & k' & H & _). unfold begin_at in X.
  pose proof (more_fuel n (Nat.max n n2) (mkC (c ++ x) (Ends []) 0 0) ltac:(lia)) as M1. rewrite H in M1. specialize (M1 ltac:(discriminate)).
  pose proof (more_fuel n2 (Nat.max n n2) (mkC (c ++ x) (Ends []) 0 0) ltac:(lia)) as M2.
  destruct (parse_directive counter pf n2 _) as [[b| | |] c2]; cbn in X; try contradiction. specialize (M2 ltac:(discriminate)). congruence.
Qed.

(** Tokens are cut in one way. *)
Lemma cut_unique a : forall b r r', cut a r -> cut b r' -> text_of a ++ r = text_of b ++ r' ->
  length (text_of a) = length (text_of b) -> a = b.
Proof.
  assert (G : forall a b l r r', aligned l -> rest_of l = text_of a ++ r -> cut a r -> cut b r' -> text_of a ++ r = text_of b ++ r' ->
    length (text_of a) = length (text_of b) -> a = b).
  { clear a. induction a as [|[ty w] a IH]; intros [|[ty' w'] b] l r r' A R C C' E L; [reflexivity| | |];
      unfold text_of in L; cbn [map concat snd length] in L; try rewrite app_length in L.
    - destruct C' as (H & _). apply text_nonempty in H. destruct w'; [congruence|discriminate L].
    - destruct C as (H & _). apply text_nonempty in H. destruct w; [congruence|discriminate L].
    - destruct C as (Ht & Hs & C), C' as (Ht' & Hs' & C'). pose proof (eq_trans R E) as R'.
      unfold text_of in R, R'. cbn [map concat snd] in R, R'. rewrite <- app_assoc in R, R'.
      destruct (next_complete l ty w _ A R Ht Hs) as (t & l1 & N & T1 & T2 & _ & A1 & _ & R1).
      destruct (next_complete l ty' w' _ A R' Ht' Hs') as (t' & l1' & N' & T1' & T2' & _ & _ & _ & R1').
      rewrite N in N'. inversion N'; subst t' l1'. subst. f_equal. rewrite app_length in L.
      apply (IH b l1 r r' A1 R1 C C' (eq_trans (eq_sym R1) R1')). unfold text_of. lia. }
  intros b r r' C C' E L. apply (G a b (new_lexer swap (text_of a ++ r)) r r' (new_aligned _ _) eq_refl C C' E L).
Qed.

Lemma vocab_solid : Forall solid vocab.
Proof.
  assert (A : solid name_a).
  { split; [|reflexivity]. destruct (brun (txt "$a")) as [p|] eqn:E; [|discriminate E]. injection E as E.
    apply (classify_text TId (txt "$a") p); [now rewrite <- E|now rewrite <- E]. }
  assert (B : solid some_string) by (split; [|reflexivity]; exists []; split; [reflexivity|intros []]).
  assert (C : solid zero) by apply (natural_valid 0).
  unfold vocab, word_tk.
  repeat (apply Forall_cons; [first [exact A | exact B | exact C | apply kw_valid; vm_compute; reflexivity | split; reflexivity]|]). apply Forall_nil.
Qed.

(** ** Where the parser stops *)
Lemma stop n G fin e c' : parse_directive counter pf (S n) (begin_at G fin) = (Err e, c') ->
  exists i, c_k c' = S i /\ parse_directive first pf (S n) (Some (firstn i G)) = (Diverge, None) /\
    (i < length G -> exists e r, parse_directive first pf (S n) (Some (firstn (S i) G)) = (Err e, r)).
Proof.
  intros P. unfold begin_at in P.
  assert (K : forall j, j <= length G ->
    (parse_directive first pf (S n) (Some (firstn j G)) = (Diverge, None) /\ j < c_k c') \/
    ((exists e r, parse_directive first pf (S n) (Some (firstn j G)) = (Err e, r)) /\ c_k c' <= j)).
  { intros j L. destruct (rel2_directive j (skipn j G) fin pf (S n)) as [_ H].
    specialize (H (firstn j G) 0 0 ltac:(rewrite firstn_length; lia)). rewrite firstn_skipn, P in H.
    destruct (parse_directive first pf (S n) (Some (firstn j G))) as [[a|e'| |] [c2|]]; cbn in H; try contradiction.
    - destruct H as (n' & k' & H & _). discriminate.
    - right. destruct H as (n' & k' & H & _ & K & _). injection H as _ ->. cbn. split; [eauto|]. apply K. lia.
    - destruct H as (n' & k' & H & _). discriminate.
    - discriminate.
    - left. split; [reflexivity|apply H]. }
  assert (K1 : 0 < c_k c').
  { destruct (K 0 ltac:(lia)) as [[_ H]|[(e1 & r1 & Q) _]]; [exact H|]. cbn [firstn] in Q. exfalso. discriminate Q. }
  exists (c_k c' - 1). split; [lia|]. split.
  - destruct (le_lt_dec (c_k c' - 1) (length G)) as [L|L].
    + destruct (K _ L) as [[H _]|[_ H]]; [exact H|lia].
    + rewrite firstn_all2 by lia. destruct (K (length G) (le_n _)) as [[H _]|[_ H]]; [now rewrite firstn_all in H|lia].
  - intros L. destruct (K (S (c_k c' - 1)) L) as [[_ H]|[H _]]; [lia|exact H].
Qed.

Lemma looked F : forall i t, nth_error (sig F) i = Some t ->
  exists F0 F1, F = F0 ++ t :: F1 /\ length (sig F0) = i /\ skipped t = false.
Proof.
  induction F as [|u F IH]; intros i t H; [destruct i; discriminate|]. cbn [sig filter] in H. fold (sig F) in H.
  destruct (skipped u) eqn:S; cbn [negb] in H.
  - destruct (IH i t H) as (F0 & F1 & -> & L & S'). exists (u :: F0), F1. cbn [sig filter]. rewrite S. auto.
  - destruct i as [|i]; cbn in H.
    + injection H as ->. exists [], F. auto.
    + destruct (IH i t H) as (F0 & F1 & -> & L & S'). exists (u :: F0), F1. cbn [sig filter]. rewrite S. cbn. auto.
Qed.


Lemma starved_viable n ts rest : cut ts rest -> parse_directive first pf n (Some (significant ts)) = (Diverge, None) ->
  exists x, acceptable swap pf (significant ts ++ x).
Proof.
  intros Cu P. destruct (viable pf n _ P) as (d & Hd & N & a & H). exists (d ++ [rp]). rewrite app_assoc.
  apply ends_acceptable; [|exists N, a; intros m L; apply H, L]. apply Forall_app. split.
  - apply cut_valid in Cu. apply Forall_forall. intros t Ht. unfold significant in Ht. apply filter_In in Ht. destruct Ht as [Ht S].
    split; [exact (proj1 (Forall_forall _ _) Cu t Ht)|]. now destruct (space_or_comment (fst t)).
  - apply (incl_Forall Hd vocab_solid).
Qed.

Lemma firstn_sig F0 F : firstn (length (sig F0)) (significant (map view (F0 ++ F))) = significant (map view F0).
Proof.
  rewrite <- !sig_view. unfold sig. rewrite filter_app, map_app, firstn_app, map_length, Nat.sub_diag. cbn [firstn].
  rewrite app_nil_r. apply firstn_all2. now rewrite map_length.
Qed.

(** A file is accepted if its tokens are those of an accepted file. *)
Lemma acceptable_accepts ts after : cut ts after -> acceptable swap pf (significant ts) ->
  exists d, fst (parse pf (new_lexer swap (text_of ts ++ after))) = Ok d.
Proof.
  intros C (input & ts' & d & P & -> & C' & W). exists d. apply wat_parse_means.
  assert (T : exists w rest, significant ts' = w ++ rest /\ a_directive (L_WatLit.model_floats pf) w d).
  { unfold parse in P. rewrite fuel in P.
    apply (tokens_mean swap (text_of ts') _ _ _ (sim_parse pf _) (L_WatSound.sound_directive pf _)
      (fun w x rest e => run_parse pf w x rest e _) ts' d eq_refl C'). exact P. }
  destruct T as (w & rest & Ew & Gw). rewrite W in Ew. destruct (significant_split _ _ _ Ew) as (a & b & -> & <- & _).
  apply cut_app in C. exists a, (text_of b ++ after). rewrite text_of_app, <- app_assoc. split; [reflexivity|]. split; [apply C|exact Gw].
Qed.

Theorem error_place input e : fst (parse pf (new_lexer swap input)) = Err e ->
  exists before after, input = text_of before ++ after /\ cut before after /\
  (exists x, acceptable swap pf (significant before ++ x)) /\
  match error_token pf (new_lexer swap input) with
  | Some t => t_position t = length (text_of before) /\ place_of input (t_position t) (t_line t) (t_column t) /\
      ((exists after', after = t_capture t ++ after' /\ cut (before ++ [view t]) after' /\ space_or_comment (t_type t) = false /\
          forall x, ~ acceptable swap pf (significant before ++ view t :: x)) \/
       (t_type t = EndOfStream /\ after = t_capture t /\ (after = [] \/ unfinished after) /\ ~ acceptable swap pf (significant before)))
  | None => no_start after
  end.
Proof.
  intros P. destruct (counts input) as (F & E & after & _ & R & Cu & Pl & Fin & X). destruct (parse_at pf (new_lexer swap input)) as [PA _].
  unfold error_token. destruct (ParseAt pf (new_lexer swap input)) as [o s]. cbn [fst snd] in *. rewrite P in PA. subst o.
  destruct (parse_directive counter pf (steps input) _) as [[| e' | |] c] eqn:Q; try contradiction.
  destruct (stop _ _ _ _ _ Q) as (i & Ki & St & Er). specialize (X i Ki).
  assert (Lg : length (significant (map view F)) = length (sig F)) by (rewrite <- sig_view; apply map_length).
  destruct (nth_error (sig F) i) as [t|] eqn:Nt.
  - rewrite X. assert (Li : i < length (sig F)) by (apply nth_error_Some; congruence).
    destruct (looked F i t Nt) as (F0 & F1 & -> & L0 & Sk). rewrite map_app in Cu, R. cbn [map] in Cu, R. pose proof Cu as Cu'.
    apply cut_app in Cu. destruct Cu as [Cu0 Cu1].
    exists (map view F0), (text_of (view t :: map view F1) ++ after). split; [now rewrite R, text_of_app, <- app_assoc|]. split; [exact Cu0|].
    rewrite <- L0, firstn_sig in St. split; [exact (starved_viable _ _ _ Cu0 St)|].
    destruct (Pl F0 t F1 eq_refl) as [P1 P2]. split; [exact P1|]. split; [now apply good_place|]. left.
    exists (text_of (map view F1) ++ after). split; [unfold text_of; cbn [map concat view snd]; now rewrite <- app_assoc|].
    split. { change (view t :: map view F1) with ([view t] ++ map view F1) in Cu'. rewrite app_assoc in Cu'. apply cut_app in Cu'. apply Cu'. }
    rewrite skipped_ok in Sk. split; [exact Sk|]. intros x. destruct (Er ltac:(lia)) as (e2 & r & H).
    assert (Ef : firstn (S i) (significant (map view (F0 ++ t :: F1))) = significant (map view F0) ++ [view t]).
    { replace (S i) with (length (sig (F0 ++ [t]))) by (unfold sig; rewrite filter_app, app_length; fold (sig F0); cbn; rewrite skipped_ok, Sk; cbn; lia).
      change (F0 ++ t :: F1) with (F0 ++ [t] ++ F1). rewrite app_assoc, firstn_sig, map_app, significant_app. cbn [map significant filter].
      rewrite Sk. reflexivity. }
    rewrite Ef in H. pose proof (stopped_unacceptable _ _ _ _ x H) as N. now rewrite <- app_assoc in N.
  - apply nth_error_None in Nt. exists (map view F), after. split; [exact R|]. split; [exact Cu|].
    rewrite firstn_all2 in St by lia. split; [exact (starved_viable _ _ _ Cu St)|].
    destruct E as [et|].
    + destruct X as (t & -> & Te & Eq). destruct Fin as (Ty & Ca & Fi & Pe & G).
      assert (Hk : c_k c <= S (length (sig F))).
      { destruct (quiet_directive pf (t_capture et) (eq_ind _ (fun x => lookup valtypes x = None) (fine_no_type _ Fi) _ Ca) (steps input) (begin_at (significant (map view F)) (ending_of (Some et))) eq_refl) as [B _].
        rewrite Q in B. unfold bound, whole in B. cbn in B. lia. }
      rewrite (Eq ltac:(lia)). split; [exact Pe|]. split; [now apply good_place|]. right. split; [exact Ty|]. split; [exact Ca|]. split; [exact Fi|].
      intros Ac. destruct (acceptable_accepts _ _ Cu Ac) as [d Hd]. rewrite <- R in Hd. congruence.
    + destruct X as [_ ->]. exact Fin.
Qed.
End Place.
