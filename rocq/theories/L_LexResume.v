(** Proofs about a WAT lexer after an error. *)
From Coq Require Import Arith NArith String Ascii Bool Lia List.
From Verif Require Import GoBase M_Text M_WatLex S_WatLex L_WatLex L_WatTokens L_WatNum P_WatLex M_LexErrors S_LexErrors P_LexErrors S_LexResume.
Import ListNotations.
Open Scope nat_scope.

(** What is consumed and which rule accepts, as a function of the text ahead. *)
Definition act (rs : list rule) (s : text) : nat * option toktype :=
  match s with
  | [] => (0, Some EndOfStream)
  | c :: rest =>
      match matches (map new_lexeme rs) c with
      | [] => (1, None)
      | xs => let (w, r) := munch xs rest in (S (length w), r)
      end
  end.

Lemma next_act l : l_peek l = None ->
  next_raw l = finish (set_position l (l_position l + fst (act (l_rules l) (rest_of l)))) (snd (act (l_rules l) (rest_of l))).
Proof.
  intros K. rewrite next_raw_cases. unfold act, rest_of, lexemes.
  destruct (skipn (l_position l) (l_input l)) as [|c rest].
  - cbn [fst snd finish]. now rewrite Nat.add_0_r, set_position_same.
  - destruct (matches _ c) as [|y ys].
    + cbn [fst snd finish]. now rewrite Nat.add_1_r.
    + destruct (munch (y :: ys) rest) as [w r]. cbn [fst snd]. now rewrite Nat.add_succ_r.
Qed.

Lemma act_length rs s : (fst (act rs s) <= length s)%nat.
Proof.
  unfold act. destruct s as [|c s]; [cbn; lia|]. destruct (matches _ c) as [|y ys]; [cbn; lia|].
  destruct (munch (y :: ys) s) as [w r] eqn:E. destruct (munch_spec _ _ _ _ E) as (r' & -> & _). cbn [fst length].
  rewrite app_length. lia.
Qed.

Lemma act_fails swap s : snd (act (rules swap) s) = None <-> no_start s.
Proof.
  destruct (next_fails (new_lexer swap s) (new_aligned swap s)) as [F1 F2]. unfold rest_of in F1, F2. cbn [l_position l_input new_lexer skipn] in F1, F2.
  unfold next in F1, F2. cbn [l_peek new_lexer] in F1, F2. rewrite next_act in F1, F2 by reflexivity.
  unfold rest_of in F1, F2. cbn [l_position l_input l_rules new_lexer skipn] in F1, F2.
  destruct (act (rules swap) s) as [n [ty|]]; cbn [fst snd finish] in *.
  - split; [discriminate|]. intros H. specialize (F1 H). discriminate.
  - split; [|auto]. intros _. now apply (F2 EOther _ eq_refl).
Qed.
Lemma act_fails_one swap s : snd (act (rules swap) s) = None -> fst (act (rules swap) s) = 1%nat.
Proof.
  intros H. pose proof (proj1 (act_fails swap s) H) as N.
  destruct (next_fails (new_lexer swap s) (new_aligned swap s)) as [F1 _]. unfold rest_of in F1. cbn [l_position l_input new_lexer skipn] in F1.
  unfold next in F1. cbn [l_peek new_lexer] in F1. rewrite next_act in F1 by reflexivity.
  unfold rest_of in F1. cbn [l_position l_input l_rules new_lexer skipn] in F1.
  destruct (act (rules swap) s) as [n [ty|]]; cbn [fst snd finish] in *; [discriminate|].
  specialize (F1 N). injection F1 as ->. reflexivity.
Qed.

(** The text of the token that ends [n] characters on. *)
Lemma capture_on l n : (l_offset l <= l_position l <= length (l_input l))%nat ->
  capture (set_position l (l_position l + n)) =
  firstn (l_position l - l_offset l) (skipn (l_offset l) (l_input l)) ++ firstn n (rest_of l).
Proof.
  intros H. unfold capture, rest_of. cbn [l_position l_offset l_input set_position].
  replace (l_position l + n - l_offset l)%nat with ((l_position l - l_offset l) + n)%nat by lia.
  assert (E : skipn (l_position l) (l_input l) = skipn (l_position l - l_offset l) (skipn (l_offset l) (l_input l))).
  { rewrite skipn_skipn_add. f_equal. lia. }
  rewrite E. clear E. generalize (skipn (l_offset l) (l_input l)). intros u. generalize (l_position l - l_offset l)%nat. intros k. clear.
  revert u. induction k as [|k IH]; intros u; [reflexivity|]. destruct u as [|c u]; cbn; [now rewrite firstn_nil|]. f_equal. apply IH.
Qed.

(** ** The type *)
Lemma classify_odd c s ty : is_id_char c = false -> classify ty (c :: s) = ty.
Proof.
  intros H. destruct ty; try reflexivity. revert H.
  destruct c as [[] [] [] [] [] [] [] []]; intros H; try discriminate H; reflexivity.
Qed.

Lemma spoilt_classify ty w : (ty <> TInteger /\ ty <> TFloat /\ ty <> TModule /\ ty <> TComponent) -> spoilt (classify ty w) = ty.
Proof.
  intros H. destruct ty; try reflexivity; try (exfalso; intuition congruence). cbn [classify].
  destruct (is_integer w); [reflexivity|]. destruct (is_float w); [reflexivity|]. unfold keyword. cbn [text_get].
  repeat destruct (text_eqb _ _); reflexivity.
Qed.

Lemma act_type swap s ty : snd (act (rules swap) s) = Some ty -> ty <> TInteger /\ ty <> TFloat /\ ty <> TModule /\ ty <> TComponent.
Proof.
  unfold act. destruct s as [|c s]; [intros H; inversion H; repeat split; discriminate|].
  rewrite first_ok. destruct (first c) as [p|]; [|discriminate]. unfold lives. destruct (live p) as [|y ys] eqn:El; [discriminate|].
  rewrite <- El. destruct (munch (live p) s) as [w r] eqn:E. cbn [snd]. intros ->.
  destruct (munch_spec _ _ _ _ E) as (r' & _ & _ & Hr). rewrite runs_live in Hr.
  assert (G : forall b, emit (lives (arun p w)) b = Some ty -> ty <> TInteger /\ ty <> TFloat /\ ty <> TModule /\ ty <> TComponent).
  { intros b. unfold emit, lives. destruct (arun p w) as [q|].
    - rewrite accept_ok. destruct q; cbn; try destruct b; intros K; inversion K; repeat split; discriminate.
    - cbn. destruct b; intros K; inversion K; repeat split; discriminate. }
  destruct r' as [|d r'].
  - apply (G true). symmetry. exact Hr.
  - destruct Hr as [Hr _]. apply (G false). symmetry. exact Hr.
Qed.

(** ** Histories *)
Record resumed (swap : bool) (k : nat) (l : lexer) : Prop := {
  rs_inv : inv l;
  rs_rules : l_rules l = rules swap;
  rs_pos : l_position l = (l_offset l + k)%nat;
  rs_peek : l_peek l <> None -> k = 0%nat;
  rs_junk : (0 < k)%nat -> exists c, nth_error (l_input l) (l_offset l) = Some c /\ is_id_char c = false }.

Lemma no_start_head s c r : no_start s -> s = c :: r -> is_id_char c = false.
Proof.
  intros (c0 & r0 & -> & H) E. injection E as -> ->. destruct H as [(_ & H & _)|(-> & _)]; [|reflexivity].
  rewrite <- id_char_ok in H. now apply not_true_iff_false.
Qed.

Lemma resumed_raw swap k l : resumed swap k l -> l_peek l = None ->
  (exists t l', next_raw l = (Ok t, l') /\ resumed swap 0 l' /\ l_peek l' = None) \/
  (next_raw l = (Err EOther, set_position l (S (l_position l))) /\ resumed swap (S k) (set_position l (S (l_position l)))).
Proof.
  intros [I R P K J] Hp. destruct (next_raw_good l I Hp) as [(t & l' & E & G & _ & _ & R' & O & K' & L & V & _)|(l' & E & _ & _ & _ & _ & V & _)].
  - left. exists t, l'. split; [exact E|]. split; [|exact K']. constructor; try assumption; try congruence; try lia.
  - right. pose proof (next_act l Hp) as N. rewrite R, E in N.
    destruct (act (rules swap) (rest_of l)) as [n [ty|]] eqn:Ea; cbn [fst snd finish] in N; [discriminate|].
    pose proof (act_fails_one swap (rest_of l)) as O. rewrite Ea in O. specialize (O eq_refl). cbn in O. subst n.
    rewrite Nat.add_1_r in N. injection N as ->. split; [exact E|].
    constructor; cbn [l_position l_offset l_input l_rules l_peek set_position]; try assumption; try congruence; try lia.
    intros _. destruct k as [|k]; [|apply J; lia].
    assert (NS : no_start (rest_of l)) by (apply (act_fails swap); now rewrite Ea).
    pose proof NS as (c & r & Ec & _). exists c. split; [|now apply (no_start_head _ _ _ NS Ec)].
    rewrite nth_skipn. replace (l_offset l) with (l_position l) by lia. fold (rest_of l). now rewrite Ec.
Qed.

Lemma resumed_call swap k l o r l' : resumed swap k l -> call o l = (r, l') ->
  resumed swap (match r with Ok _ => 0 | _ => S k end) l'.
Proof.
  intros H E. destruct (l_peek l) as [t|] eqn:Hp.
  - assert (k = 0%nat) by (apply H; congruence). subst k. destruct o; cbn [call] in E; unfold next, peek in E; rewrite Hp in E; inversion E; subst; [|assumption].
    destruct H as [[? ? ? ?] ? ? ? ?]. constructor; cbn; auto. constructor; cbn; auto. discriminate.
  - destruct (resumed_raw swap k l H Hp) as [(t & l1 & N & R & K)|(N & R)].
    + destruct o; cbn [call] in E; unfold next, peek in E; rewrite Hp, N in E; inversion E; subst; [assumption|].
      destruct R as [[? ? ? ?] ? ? ? ?]. constructor; cbn; auto. constructor; cbn; auto.
      intros t0 H0. inversion H0; subst t0.
      destruct (next_raw_good l (rs_inv _ _ _ H) Hp) as [(t1 & l2 & E1 & G & _ & Ei & _ & O & _ & L & _)|(l2 & E1 & _)]; rewrite N in E1; [|discriminate].
      inversion E1; subst. rewrite Ei. split; [assumption|]. lia.
    + destruct o; cbn [call] in E; unfold next, peek in E; rewrite Hp, N in E; inversion E; subst; assumption.
Qed.

Lemma resumed_calls swap ops : forall k l, resumed swap k l ->
  resumed swap (fold_left (fun k e => match snd e with Ok _ => 0 | _ => S k end) (fst (calls ops l)) k) (snd (calls ops l)).
Proof.
  induction ops as [|o ops IH]; intros k l H; [exact H|]. cbn [calls].
  destruct (call o l) as [r l1] eqn:E. pose proof (resumed_call _ _ _ _ _ _ H E) as H1. apply IH in H1.
  destruct (calls ops l1) as [h l2]. cbn [fst snd fold_left] in *. exact H1.
Qed.

Lemma resumed_new swap input : resumed swap 0 (new_lexer swap input).
Proof. constructor; try reflexivity; [apply fresh_ok|lia]. Qed.

(** ** Lexers with the same text ahead *)
Record like (l m : lexer) : Prop := {
  lk_rules : l_rules l = l_rules m;
  lk_rest : rest_of l = rest_of m;
  lk_capture : capture l = capture m;
  lk_left : (l_offset l <= l_position l <= length (l_input l))%nat;
  lk_right : (l_offset m <= l_position m <= length (l_input m))%nat;
  lk_peek : match l_peek l, l_peek m with
            | Some t, Some u => t_type t = t_type u /\ t_capture t = t_capture u
            | None, None => True
            | _, _ => False
            end }.

Lemma like_token l m n ty : like l m -> l_peek l = None -> (n <= length (rest_of l))%nat ->
  let x := make_token (set_position l (l_position l + n)) ty in
  let y := make_token (set_position m (l_position m + n)) ty in
  t_type (fst x) = t_type (fst y) /\ t_capture (fst x) = t_capture (fst y) /\ like (snd x) (snd y).
Proof.
  intros [R S C L M K] Hp Hn. rewrite Hp in K. destruct (l_peek m) eqn:Hm; [contradiction|].
  assert (E : capture (set_position l (l_position l + n)) = capture (set_position m (l_position m + n))).
  { rewrite !capture_on by assumption. unfold capture in C. now rewrite C, S. }
  pose proof Hn as Hn'. rewrite S in Hn'. unfold rest_of in Hn, Hn', S. rewrite skipn_length in Hn, Hn'.
  unfold make_token. rewrite E. destruct (advance (l_line (set_position l _)) _ _), (advance (l_line (set_position m _)) _ _).
  cbn [fst snd t_type t_capture]. split; [reflexivity|]. split; [reflexivity|].
  constructor; cbn; [assumption| | |lia|lia|rewrite Hp, Hm; exact Logic.I].
  - unfold rest_of. cbn. rewrite <- !skipn_skipn_add. now rewrite S.
  - unfold capture. cbn. now rewrite !Nat.sub_diag.
Qed.

Lemma like_raw l m : like l m -> l_peek l = None ->
  match next_raw l, next_raw m with
  | (Ok t, l'), (Ok u, m') => t_type t = t_type u /\ t_capture t = t_capture u /\ like l' m' /\ l_peek l' = None
  | (Err _, l'), (Err _, m') => like l' m' /\ l_peek l' = None
  | _, _ => False
  end.
Proof.
  intros H Hp. assert (Hm : l_peek m = None) by (pose proof (lk_peek _ _ H) as K; rewrite Hp in K; now destruct (l_peek m)).
  rewrite (next_act l Hp), (next_act m Hm), <- (lk_rules _ _ H), <- (lk_rest _ _ H).
  pose proof (act_length (l_rules l) (rest_of l)) as Ln. destruct (act (l_rules l) (rest_of l)) as [n [ty|]]; cbn [fst snd finish] in *.
  - pose proof (like_token l m n ty H Hp Ln) as T. cbn zeta in T. destruct T as (T1 & T2 & T3). unfold ok_token.
    split; [exact T1|]. split; [exact T2|]. split; [exact T3|]. unfold make_token. now destruct (advance _ _ _).
  - split; [|exact Hp]. destruct H as [R S C L M K]. pose proof Ln as Ln'. rewrite S in Ln'. unfold rest_of in Ln, Ln', S. rewrite skipn_length in Ln, Ln'.
    constructor; cbn; try assumption; try lia.
    + unfold rest_of. cbn. rewrite <- !skipn_skipn_add. now rewrite S.
    + change (capture (set_position l (l_position l + n)) = capture (set_position m (l_position m + n))).
      rewrite !capture_on by assumption. unfold capture in C. unfold rest_of. now rewrite C, S.
Qed.

Lemma like_set l m t u : like l m -> t_type t = t_type u -> t_capture t = t_capture u ->
  like (set_peek l (Some t)) (set_peek m (Some u)).
Proof. intros [R S C L M K] E1 E2. constructor; cbn; auto. Qed.
Lemma like_unset l m : like l m -> like (set_peek l None) (set_peek m None).
Proof. intros [R S C L M K]. constructor; cbn; auto. Qed.

Lemma like_call l m o : like l m ->
  seen (o, fst (call o l)) = seen (o, fst (call o m)) /\ like (snd (call o l)) (snd (call o m)).
Proof.
  intros H. pose proof (lk_peek _ _ H) as K. unfold seen. cbn [fst snd].
  destruct (l_peek l) as [t|] eqn:Hp, (l_peek m) as [u|] eqn:Hm; try contradiction.
  - destruct K as [K1 K2]. destruct o; cbn [call]; unfold next, peek; rewrite Hp, Hm; cbn [fst snd]; rewrite K1, K2; (split; [reflexivity|]); [now apply like_unset|assumption].
  - pose proof (like_raw l m H Hp) as N. destruct (next_raw l) as [[t|e| |] l'] eqn:El, (next_raw m) as [[u|e'| |] m'] eqn:Em; try contradiction.
    + destruct N as (N1 & N2 & N3 & _). destruct o; cbn [call]; unfold next, peek; rewrite Hp, Hm, El, Em; cbn [fst snd]; rewrite N1, N2; (split; [reflexivity|]); [assumption|now apply like_set].
    + destruct N as (N3 & _). destruct o; cbn [call]; unfold next, peek; rewrite Hp, Hm, El, Em; cbn [fst snd]; split; auto.
Qed.

Lemma like_calls ops : forall l m, like l m -> map seen (fst (calls ops l)) = map seen (fst (calls ops m)).
Proof.
  induction ops as [|o ops IH]; intros l m H; [reflexivity|]. cbn [calls].
  destruct (like_call l m o H) as [E H1]. destruct (call o l) as [r l1], (call o m) as [r' m1]. cbn [fst snd] in *.
  specialize (IH _ _ H1). destruct (calls ops l1), (calls ops m1). cbn [fst map] in *. now rewrite E, IH.
Qed.
