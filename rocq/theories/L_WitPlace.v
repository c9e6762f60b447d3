(** Where the parser of WIT stops: the tokens before the error, and the
    files that begin with them. *)
From Coq Require Import Arith NArith ZArith String Ascii Bool List Lia.
From Verif Require Import GoBase M_Text S_Utf M_WitLex S_WitLex L_WitLex L_WitToks L_WitHist S_WitErrors P_WitErrors.
From Verif Require Import M_ParseBase M_WitAst M_WitParse S_WitParse L_ParseBase L_ParseTotal L_WitSim L_WitSound L_WitComplete L_WitBridge.
From Verif Require Import S_WitPrint L_WitPrint P_WitParse.
From Verif Require Import M_WitLocate S_WitStop L_WitRel L_WitStop L_WitViable L_WitNote.
Import ListNotations.
Open Scope nat_scope.

Lemma text_cat a b : text_of (a ++ b) = text_of a ++ text_of b.
Proof. unfold text_of. now rewrite map_app, concat_app. Qed.
Lemma cuts_app U a : forall b r, cuts U (a ++ b) r <-> cuts U a (text_of b ++ r) /\ cuts U b r.
Proof.
  induction a as [|[ty w] a IH]; intros b r; cbn [app cuts]; [tauto|]. rewrite IH, text_cat, <- app_assoc. tauto.
Qed.
Lemma cuts_separated U ts : cuts U ts [] <-> separated U ts.
Proof. induction ts as [|[ty w] ts IH]; cbn [cuts separated]; [tauto|]. rewrite IH, app_nil_r. tauto. Qed.
Lemma cuts_valid U ts r : cuts U ts r -> Forall (valid U) ts.
Proof. induction ts as [|[ty w] ts IH]; cbn; constructor; [apply H | apply IH, H]. Qed.

Section Place.
Variable U : tables.
Hypothesis HU : good_tables U.
Notation next := (M_WitLex.next U).
Notation tells := (L_WitNote.tells U).
Notation here := (L_WitNote.here U).

Definition placed (input : text) (p : nat) (F : list token) : Prop :=
  forall F0 t F1, F = F0 ++ t :: F1 -> t_position t = p + length (text_of (map view F0)) /\ good_token input t.

(** Every lexer tells something. *)
Lemma tells_some n : forall l, aligned l -> inv l -> length (rest l) <= n ->
  exists F E after, tells l F E /\ rest l = text_of (map view F) ++ after /\ cuts U (map view F) after /\
    placed (l_input l) (l_position l) F /\
    match E with Some t => after = [] | None => exists v, unreadable U after v end.
Proof.
  induction n as [|n IH]; intros l A I Hn;
    (destruct (next_sound U HU l A) as [(t & l' & E & A' & I' & P & Rr & D)|(l' & E & _)];
     [|exists [], None, (rest l); split; [econstructor; eauto|]; split; [reflexivity|]; split; [exact Logic.I|];
       split; [intros F0 t F1 Q; destruct F0; discriminate|];
       unfold M_WitLex.next in E; rewrite (al_peek l A) in E; apply (next_raw_error U HU l _ _ (al_inside l A)) in E;
       destruct E as (_ & v & Hv & _); exists v; exact Hv]);
    (destruct D as [[D Hs]|(D & R' & C)];
     [|exists [], (Some t), []; split; [eapply tells_end; eauto|]; split; [rewrite Rr, R', C; reflexivity|]; split; [exact Logic.I|];
       split; [intros F0 t0 F1 Q; destruct F0; discriminate|reflexivity]]).
  - exfalso. apply (text_nonempty U) in D. rewrite Rr, app_length in Hn. destruct (t_capture t); [congruence|]. cbn in Hn. lia.
  - assert (Hl : length (rest l') < length (rest l)).
    { pose proof (text_nonempty U _ _ D). rewrite Rr, app_length. destruct (t_capture t); [congruence|]. cbn. lia. }
    destruct (here_next U HU l t l' (conj I (or_introl A)) E) as ((Hi & _) & _ & _ & G).
    assert (Pos : l_position l' = l_position l + length (t_capture t)).
    { destruct (next_good U HU l I) as [(t0 & l0 & E0 & _ & _ & _ & _ & K & S)|(l0 & E0 & _)]; rewrite E0 in E; inversion E; subst.
      unfold start in S. rewrite K, (al_pos l' A') in S. lia. }
    destruct (IH l' A' Hi ltac:(lia)) as (F & E' & after & T & Rl & Cu & Pl & Fin).
    exists (t :: F), E', after. split; [eapply tells_token; eauto; intros Q; rewrite Q in D; exact D|].
    split; [rewrite Rr, Rl; unfold text_of; cbn [map concat view snd]; now rewrite <- app_assoc|].
    split; [cbn [map cuts view]; rewrite Rl in Hs; auto|]. split; [|exact Fin].
    intros F0 u F1 Q. destruct F0 as [|x F0]; cbn [app] in Q; inversion Q; subst.
    + split; [cbn; lia|exact G].
    + destruct (Pl F0 u F1 eq_refl) as [P1 P2]. rewrite I' in P2. split; [|exact P2].
      rewrite P1, Pos. unfold text_of. cbn [map concat view snd]. rewrite app_length. lia.
Qed.

Lemma good_place input t : good_token input t -> place_of input (t_position t) (t_line t) (t_column t).
Proof.
  intros (r & _ & _ & S & _). unfold sound_at in S. pose proof (advance_newlines (firstn (t_position t) input) 0 0) as N.
  destruct (advance_column (firstn (t_position t) input)) as (l & L & C). rewrite S in *. cbn in N, C. split; [exact N|]. exists l. auto.
Qed.

(** ** A file and its run over the machine that counts *)
Definition fuel (input : text) : nat := S (rounds (new_lexer input)).
Definition begin_at (G : list tk) (fin : ending) : cst := mkC G fin 0 0.

Lemma counts input : exists F E after, tells (new_lexer input) F E /\
  input = text_of (map view F) ++ after /\ cuts U (map view F) after /\ placed input 0 F /\
  match E with Some _ => after = [] | None => exists v, unreadable U after v end /\
  match ParseAt U input, parse_ast counter (fuel input) (begin_at (significant (map view F)) (ending_of E)) with
  | (Ok a, _), (Ok b, _) => a = b
  | (Err _, s), (Err _, c) => look input F E s (c_k c)
  | _, _ => False
  end.
Proof.
  destruct (tells_some (length input) (new_lexer input) (new_aligned input) (fresh_ok input) ltac:(reflexivity)) as
    (F & E & after & T & R & Cu & Pl & Fin). exists F, E, after. change (rest (new_lexer input)) with input in R.
  split; [exact T|]. split; [exact R|]. split; [exact Cu|]. split; [exact Pl|]. split; [exact Fin|].
  pose proof (notes_ast U HU input F E (fuel input) {| no_lexer := new_lexer input; no_token := None |}
    (begin_at (significant (map view F)) (ending_of E))) as X.
  destruct (parse_at U input) as [PA _]. pose proof (wit_parse_ends U input HU) as En. rewrite <- PA in En.
  unfold ParseAt in *. fold (fuel input) in *.
  assert (B : both U input F E {| no_lexer := new_lexer input; no_token := None |} (begin_at (significant (map view F)) (ending_of E))).
  { split; [split; [apply fresh_ok|left; apply new_aligned]|]. split; [reflexivity|]. split; [|intros i Hi; discriminate].
    left. exists [], F. cbn. rewrite sig_view. auto. }
  specialize (X B).
  destruct (parse_ast (noting U) _ _) as [[a|e| |] s]; destruct (parse_ast counter _ _) as [[b|e'| |] c]; cbn [fst] in En;
    try contradiction; try exact X; try apply X; destruct En as [[? En]|[? En]]; discriminate.
Qed.

(** A file of given tokens *)
Lemma tells_text ts : forall l F E, aligned l -> rest l = text_of ts -> separated U ts -> tells l F E -> map view F = ts /\ E <> None.
Proof.
  induction ts as [|[ty w] ts IH]; intros l F E A R S T.
  - destruct (done_next U HU l (conj A R)) as (t & l' & N & _ & V & _). inversion V.
    destruct T as [l t' l1 F E N' Ht T|l t' l1 N' Ht|l l1 N']; rewrite N in N'; inversion N'; subst; [congruence|].
    split; [reflexivity|discriminate].
  - destruct S as (Ht & Hs & S). unfold text_of in R. cbn [map concat snd] in R.
    destruct (next_complete U HU l ty w _ A R Ht Hs) as (t & l' & N & T1 & T2 & _ & A1 & _ & R1).
    destruct T as [l t' l1 F E N' Ht' T|l t' l1 N' Ht'|l l1 N']; rewrite N in N'; inversion N'; subst.
    + destruct (IH l1 F E A1 R1 S T) as [<- H]. auto.
    + rewrite Ht' in Ht. destruct Ht.
Qed.
Lemma counts_text ts : separated U ts ->
  match Parse U (text_of ts), fst (parse_ast counter (fuel (text_of ts)) (begin_at (significant ts) (Ends []))) with
  | Ok a, Ok b => a = b
  | Err _, Err _ => True
  | _, _ => False
  end.
Proof.
  intros S. destruct (counts (text_of ts)) as (F & E & after & T & _ & _ & _ & _ & X).
  destruct (parse_at U (text_of ts)) as [PA _]. rewrite <- PA.
  destruct (tells_text ts _ F E (new_aligned _) eq_refl S T) as [<- HE]. destruct E as [t|]; [|congruence].
  cbn [ending_of] in X. destruct (ParseAt U _) as [[a|e| |] s]; destruct (parse_ast counter _ _) as [[b|e'| |] c]; cbn [fst]; auto.
Qed.

(** More fuel *)
Lemma more_fuel n m s : n <= m -> fst (parse_ast counter n s) <> Diverge -> parse_ast counter m s = parse_ast counter n s.
Proof. intros L D. destruct (rel3_ast n m L s) as [E|E]; [congruence|now symmetry]. Qed.

(** Tokens that the parser reads to the end are those of a file. *)
Lemma ends_acceptable w : Forall (solid U) w -> ends (fun m _ => parse_ast counter m) w -> acceptable U w.
Proof.
  intros S (N & a & H). exists (text_of (blanks w)), (blanks w), a.
  pose proof (blanks_separated U HU w S) as Sp. pose proof (blanks_significant U w S) as Sg.
  split; [|auto]. pose proof (counts_text (blanks w) Sp) as X. rewrite Sg in X. set (n := fuel _) in X.
  specialize (H (Nat.max N n) (Nat.max N n) 0 0 [] ltac:(lia) ltac:(lia)). cbn beta in H. unfold begin_at in X.
  rewrite (more_fuel n (Nat.max N n)) in H by (try lia; intros D; rewrite D in X; destruct (Parse U _); contradiction).
  rewrite H in X. destruct (Parse U _); try contradiction. now subst.
Qed.

(** No file begins with tokens on which the parser has stopped. *)
Lemma stopped_unacceptable n c e r x : parse_ast first n (Some c) = (Err e, r) -> ~ acceptable U (c ++ x).
Proof.
  intros P (input & ts & a & Pa & -> & S & W). pose proof (counts_text ts S) as X. rewrite Pa, W in X.
  set (n2 := fuel _) in X. destruct (rel2_ast (length c) x (Ends []) n) as [_ H]. specialize (H c 0 0 eq_refl). rewrite P in H.
  destruct r as [c'|]; [|contradiction]. destruct H as (n' & k' & H & _). unfold begin_at in X.
  pose proof (more_fuel n (Nat.max n n2) (mkC (c ++ x) (Ends []) 0 0) ltac:(lia)) as M1. rewrite H in M1. specialize (M1 ltac:(discriminate)).
  pose proof (more_fuel n2 (Nat.max n n2) (mkC (c ++ x) (Ends []) 0 0) ltac:(lia)) as M2.
  destruct (parse_ast counter n2 _) as [[b| | |] c2]; cbn in X; try contradiction. specialize (M2 ltac:(discriminate)). congruence.
Qed.

(** Tokens are cut in one way. *)
Lemma cuts_unique a : forall b r r', cuts U a r -> cuts U b r' -> text_of a ++ r = text_of b ++ r' ->
  length (text_of a) = length (text_of b) -> a = b.
Proof.
  assert (G : forall a b l r r', aligned l -> rest l = text_of a ++ r -> cuts U a r -> cuts U b r' -> text_of a ++ r = text_of b ++ r' ->
    length (text_of a) = length (text_of b) -> a = b).
  { clear a. induction a as [|[ty w] a IH]; intros [|[ty' w'] b] l r r' A R C C' E L; [reflexivity| | |];
      unfold text_of in L; cbn [map concat snd length] in L; try rewrite app_length in L.
    - destruct C' as (H & _). apply (text_nonempty U) in H. destruct w'; [congruence|discriminate L].
    - destruct C as (H & _). apply (text_nonempty U) in H. destruct w; [congruence|discriminate L].
    - destruct C as (Ht & Hs & C), C' as (Ht' & Hs' & C'). pose proof (eq_trans R E) as R'.
      unfold text_of in R, R'. cbn [map concat snd] in R, R'. rewrite <- app_assoc in R, R'.
      destruct (next_complete U HU l ty w _ A R Ht Hs) as (t & l1 & N & T1 & T2 & _ & A1 & _ & R1).
      destruct (next_complete U HU l ty' w' _ A R' Ht' Hs') as (t' & l1' & N' & T1' & T2' & _ & _ & _ & R1').
      rewrite N in N'. inversion N'; subst t' l1'. subst. f_equal. rewrite app_length in L.
      apply (IH b l1 r r' A1 R1 C C' (eq_trans (eq_sym R1) R1')). unfold text_of. lia. }
  intros b r r' C C' E L. apply (G a b (new_lexer (text_of a ++ r)) r r' (new_aligned _) eq_refl C C' E L).
Qed.

Lemma vocab_solid : Forall (solid U) vocab.
Proof.
  assert (I : solid U (Id, txt "a")).
  { split; [|reflexivity]. split.
    - exists 97%N, []. split; [left; reflexivity|]. split; [left; left; right; split; discriminate|].
      split; [constructor|]. split; [constructor|reflexivity].
    - intros (s & k & H & E). cbn [keywords In] in H.
      repeat (destruct H as [H|H]; [injection H as <- _; discriminate|]). exact H. }
  assert (Z : solid U (Integer, txt "0")) by apply (number_spells U 0 ltac:(reflexivity)).
  unfold vocab. repeat (apply Forall_cons; [first [exact I | exact Z | apply solid_tok; reflexivity]|]). apply Forall_nil.
Qed.

(** ** Where the parser stops *)
Lemma stop n G fin e c' : parse_ast counter (S n) (begin_at G fin) = (Err e, c') ->
  exists i, c_k c' = S i /\ parse_ast first (S n) (Some (firstn i G)) = (Diverge, None) /\
    (i < length G -> exists e r, parse_ast first (S n) (Some (firstn (S i) G)) = (Err e, r)).
Proof.
  intros P. unfold begin_at in P.
  assert (K : forall j, j <= length G ->
    (parse_ast first (S n) (Some (firstn j G)) = (Diverge, None) /\ j < c_k c') \/
    ((exists e r, parse_ast first (S n) (Some (firstn j G)) = (Err e, r)) /\ c_k c' <= j)).
  { intros j L. destruct (rel2_ast j (skipn j G) fin (S n)) as [_ H].
    specialize (H (firstn j G) 0 0 ltac:(rewrite firstn_length; lia)). rewrite firstn_skipn, P in H.
    destruct (parse_ast first (S n) (Some (firstn j G))) as [[a|e'| |] [c2|]]; cbn in H; try contradiction.
    - destruct H as (n' & k' & H & _). discriminate.
    - right. destruct H as (n' & k' & H & _ & K & _). injection H as _ ->. cbn. split; [eauto|]. apply K. lia.
    - destruct H as (n' & k' & H & _). discriminate.
    - discriminate.
    - left. split; [reflexivity|apply H]. }
  assert (K1 : 0 < c_k c').
  { destruct (K 0 ltac:(lia)) as [[_ H]|[(e1 & r1 & Q) _]]; [exact H|]. cbn [firstn] in Q. exfalso. discriminate Q. }
  exists (c_k c' - 1). split; [lia|]. split.
  - destruct (le_lt_dec (c_k c' - 1) (length G)) as [L|L].
    + destruct (K _ L) as [[H _]|[_ H]]; [exact H|lia].
    + rewrite firstn_all2 by lia. destruct (K (length G) (le_n _)) as [[H _]|[_ H]]; [now rewrite firstn_all in H|lia].
  - intros L. destruct (K (S (c_k c' - 1)) L) as [[_ H]|[H _]]; [lia|exact H].
Qed.

Lemma looked F : forall i t, nth_error (sig F) i = Some t ->
  exists F0 F1, F = F0 ++ t :: F1 /\ length (sig F0) = i /\ skipped t = false.
Proof.
  induction F as [|u F IH]; intros i t H; [destruct i; discriminate|]. cbn [sig filter] in H. fold (sig F) in H.
  destruct (skipped u) eqn:S; cbn [negb] in H.
  - destruct (IH i t H) as (F0 & F1 & -> & L & S'). exists (u :: F0), F1. cbn [sig filter]. rewrite S. auto.
  - destruct i as [|i]; cbn in H.
    + injection H as ->. exists [], F. auto.
    + destruct (IH i t H) as (F0 & F1 & -> & L & S'). exists (u :: F0), F1. cbn [sig filter]. rewrite S. cbn. auto.
Qed.

Lemma cut_path c : cut c -> in_package_path c.
Proof.
  intros (c0 & u & c' & -> & K & i & x & c2 & -> & Ni & Cx & D). exists c0, u, i, x, c2. split; [reflexivity|].
  assert (Nm : forall k, is_name k = true -> k = Id \/ k = ExplicitId) by (intros []; auto; discriminate).
  split; [exact K|]. split; [now apply Nm|]. split; [exact Cx|].
  destruct D as [->|[(p & -> & Np)|(p & s & -> & Np & Sl)]]; [now left| |]; right; exists p; (split; [now apply Nm|]); eauto.
Qed.

Lemma starved_viable n ts rest : cuts U ts rest -> parse_ast first n (Some (significant ts)) = (Diverge, None) ->
  in_package_path (significant ts) \/ exists x, acceptable U (significant ts ++ x).
Proof.
  intros Cu P. destruct (viable n _ P) as [H|(d & Hd & H)]; [left; now apply cut_path|]. right. exists d.
  apply ends_acceptable; [|exact H]. apply Forall_app. split.
  - apply cuts_valid in Cu. apply Forall_forall. intros t Ht. unfold significant in Ht. apply filter_In in Ht. destruct Ht as [Ht S].
    split; [exact (proj1 (Forall_forall _ _) Cu t Ht)|]. now destruct (space_or_comment (fst t)).
  - apply (incl_Forall Hd vocab_solid).
Qed.

Lemma firstn_sig F0 F : firstn (length (sig F0)) (significant (map view (F0 ++ F))) = significant (map view F0).
Proof.
  rewrite <- !sig_view. unfold sig. rewrite filter_app, map_app, firstn_app, map_length, Nat.sub_diag. cbn [firstn].
  rewrite app_nil_r. apply firstn_all2. now rewrite map_length.
Qed.

Theorem error_place input e : Parse U input = Err e ->
  exists before after, input = text_of before ++ after /\ cuts U before after /\
  (in_package_path (significant before) \/ exists x, acceptable U (significant before ++ x)) /\
  match error_token U input with
  | Some t => t_position t = length (text_of before) /\ place_of input (t_position t) (t_line t) (t_column t) /\
      ((exists after', after = t_capture t ++ after' /\ cuts U (before ++ [view t]) after' /\ space_or_comment (t_type t) = false /\
          forall x, ~ acceptable U (significant before ++ view t :: x)) \/
       (t_type t = EndOfStream /\ t_capture t = [] /\ after = [] /\ ~ acceptable U (significant before)))
  | None => exists v, unreadable U after v
  end.
Proof.
  intros P. destruct (counts input) as (F & E & after & _ & R & Cu & Pl & Fin & X). destruct (parse_at U input) as [PA _].
  unfold error_token. destruct (ParseAt U input) as [o s]. cbn [fst snd] in *. rewrite P in PA. subst o.
  destruct (parse_ast counter (fuel input) _) as [[| e' | |] c] eqn:Q; try contradiction.
  destruct (stop _ _ _ _ _ Q) as (i & Ki & St & Er). specialize (X i Ki).
  assert (Lg : length (significant (map view F)) = length (sig F)) by (rewrite <- sig_view; apply map_length).
  destruct (nth_error (sig F) i) as [t|] eqn:Nt.
  - rewrite X. assert (Li : i < length (sig F)) by (apply nth_error_Some; congruence).
    destruct (looked F i t Nt) as (F0 & F1 & -> & L0 & Sk). rewrite map_app in Cu, R. cbn [map] in Cu, R. pose proof Cu as Cu'.
    apply cuts_app in Cu. destruct Cu as [Cu0 Cu1].
    exists (map view F0), (text_of (view t :: map view F1) ++ after). split; [now rewrite R, text_cat, <- app_assoc|]. split; [exact Cu0|].
    rewrite <- L0, firstn_sig in St. split; [exact (starved_viable _ _ _ Cu0 St)|].
    destruct (Pl F0 t F1 eq_refl) as [P1 P2]. split; [exact P1|]. split; [now apply good_place|]. left.
    exists (text_of (map view F1) ++ after). split; [unfold text_of; cbn [map concat view snd]; now rewrite <- app_assoc|].
    split. { change (view t :: map view F1) with ([view t] ++ map view F1) in Cu'. rewrite app_assoc in Cu'. apply cuts_app in Cu'. apply Cu'. }
    rewrite skipped_ok in Sk. split; [exact Sk|]. intros x. destruct (Er ltac:(lia)) as (e2 & r & H).
    assert (Ef : firstn (S i) (significant (map view (F0 ++ t :: F1))) = significant (map view F0) ++ [view t]).
    { replace (S i) with (length (sig (F0 ++ [t]))) by (unfold sig; rewrite filter_app, app_length; fold (sig F0); cbn; rewrite skipped_ok, Sk; cbn; lia).
      change (F0 ++ t :: F1) with (F0 ++ [t] ++ F1). rewrite app_assoc, firstn_sig, map_app, significant_app. cbn [map significant filter].
      rewrite Sk. reflexivity. }
    rewrite Ef in H. pose proof (stopped_unacceptable _ _ _ _ x H) as N. now rewrite <- app_assoc in N.
  - apply nth_error_None in Nt. exists (map view F), after. split; [exact R|]. split; [exact Cu|].
    rewrite firstn_all2 in St by lia. split; [exact (starved_viable _ _ _ Cu St)|].
    destruct E as [et|].
    + destruct X as (t & -> & Ty & Ca & G). subst after. rewrite app_nil_r in R.
      assert (Pt : t_position t = length (text_of (map view F))).
      { rewrite <- R. destruct G as (r & Hr & Le & _ & He & _). rewrite (He Ty), Ca in Hr. cbn in Hr.
        apply (f_equal (@length _)) in Hr. rewrite skipn_length in Hr. cbn in Hr. lia. }
      split; [exact Pt|]. split; [now apply good_place|]. right. split; [exact Ty|]. split; [exact Ca|]. split; [reflexivity|].
      intros (input' & ts & a & Pa & -> & S & W).
      apply (wit_parse_means U (text_of ts) a HU) in Pa. destruct Pa as (ts' & Et & S' & Fa).
      rewrite (separated_unique U ts ts' HU S S' Et) in W. rewrite W in Fa.
      assert (Ok' : Parse U input = Ok a). { apply (wit_parse_means U input a HU). exists (map view F). rewrite <- cuts_separated. auto. }
      congruence.
    + destruct X as [_ ->]. exact Fin.
Qed.
End Place.
