(** Proofs about the WAT lexer. *)
From Coq Require Import Arith NArith String Ascii Bool List Lia.
From Verif Require Import GoBase M_Text M_WatLex S_WatLex.
Import ListNotations.

(** ** The scanning loop as a function of the remaining text *)
Definition emit (xs : list lexeme) (eof : bool) : option toktype :=
  match first_accepted xs with
  | Some ty => Some ty
  | None => if eof then Some EndOfStream else None
  end.

Fixpoint munch (xs : list lexeme) (rest : text) : text * option toktype :=
  match rest with
  | [] => ([], emit xs true)
  | c :: rest' =>
      match matches xs c with
      | [] => ([], emit xs false)
      | ys => let (w, r) := munch ys rest' in (c :: w, r)
      end
  end.

Definition finish (l : lexer) (r : option toktype) : outcome token * lexer :=
  match r with
  | Some ty => ok_token (make_token l ty)
  | None => (Err EOther, l)
  end.

Lemma nth_skipn {A} (s : list A) n : nth_error s n = match skipn n s with [] => None | c :: _ => Some c end.
Proof. revert n. induction s as [|a s IH]; intros [|n]; cbn; auto. Qed.

Lemma skipn_S {A} (s : list A) n c r : skipn n s = c :: r -> skipn (S n) s = r.
Proof. revert n. induction s as [|a s IH]; intros [|n] H; cbn in *; try discriminate; [now inversion H|auto]. Qed.

Lemma scan_munch f : forall xs l,
  (length (skipn (l_position l) (l_input l)) < f)%nat ->
  scan f xs l =
  let (w, r) := munch xs (skipn (l_position l) (l_input l)) in
  finish (set_position l (l_position l + length w)) r.
Proof.
  induction f as [|f IH]; intros xs l Hf; [lia|].
  cbn [scan]. unfold peek_rune. rewrite nth_skipn.
  destruct (skipn (l_position l) (l_input l)) as [|c rest] eqn:E; cbn [munch].
  - cbn [length]. rewrite Nat.add_0_r. unfold emit, finish, set_position.
    destruct l; cbn. destruct (first_accepted xs); reflexivity.
  - destruct (matches xs c) as [|y ys] eqn:Em.
    + cbn [length]. rewrite Nat.add_0_r. unfold emit, finish, set_position.
      destruct l; cbn. destruct (first_accepted xs); reflexivity.
    + unfold read_rune. rewrite nth_skipn, E. cbn [snd].
      rewrite IH.
      * cbn [l_position l_input set_position]. rewrite (skipn_S _ _ _ _ E).
        destruct (munch (y :: ys) rest) as [w r]. cbn [length].
        f_equal. unfold set_position. cbn. f_equal. lia.
      * cbn [l_position l_input set_position]. rewrite (skipn_S _ _ _ _ E). cbn in Hf. lia.
Qed.

(** ** Running a rule over a text *)
Fixpoint run (x : lexeme) (w : text) : option lexeme :=
  match w with
  | [] => Some x
  | c :: w' => match eat x c with Some x' => run x' w' | None => None end
  end.

Fixpoint runs (xs : list lexeme) (w : text) : list lexeme :=
  match w with
  | [] => xs
  | c :: w' => runs (matches xs c) w'
  end.

Lemma run_app x a b : run x (a ++ b) = match run x a with Some y => run y b | None => None end.
Proof.
  revert x. induction a as [|c a IH]; intros x; cbn; [reflexivity|].
  destruct (eat x c); [apply IH|reflexivity].
Qed.

Lemma matches_in xs c y : In y (matches xs c) <-> exists x, In x xs /\ eat x c = Some y.
Proof.
  induction xs as [|x xs IH]; cbn; [split; [tauto|intros (x & [] & _)]|].
  destruct (eat x c) as [x'|] eqn:E; cbn; rewrite IH; split.
  - intros [<-|(z & Hz & Ez)]; [exists x|exists z]; auto.
  - intros (z & [<-|Hz] & Ez); [left; congruence|right; now exists z].
  - intros (z & Hz & Ez). exists z. auto.
  - intros (z & [<-|Hz] & Ez); [congruence|now exists z].
Qed.

Lemma runs_in w : forall xs y, In y (runs xs w) <-> exists x, In x xs /\ run x w = Some y.
Proof.
  induction w as [|c w IH]; intros xs y; cbn.
  - split; [intros H; now exists y|]. intros (x & H & E). inversion E; subst. assumption.
  - rewrite IH. split.
    + intros (x & Hx & E). apply matches_in in Hx. destruct Hx as (z & Hz & Ez).
      exists z. rewrite Ez. auto.
    + intros (x & Hx & E). destruct (eat x c) as [x'|] eqn:Ex; [|discriminate].
      exists x'. split; [|assumption]. apply matches_in. now exists x.
Qed.

Lemma matches_nil c : matches [] c = [].
Proof. reflexivity. Qed.

Lemma runs_nil w : runs [] w = [].
Proof. induction w; cbn; auto. Qed.

Lemma munch_spec rest : forall xs w r, munch xs rest = (w, r) ->
  exists rest', rest = w ++ rest' /\ (xs <> [] -> runs xs w <> []) /\
    match rest' with
    | [] => r = emit (runs xs w) true
    | c :: _ => r = emit (runs xs w) false /\ matches (runs xs w) c = []
    end.
Proof.
  induction rest as [|c rest IH]; intros xs w r H; cbn in H.
  - inversion H; subst. exists []. cbn. auto.
  - destruct (matches xs c) as [|y ys] eqn:E.
    + inversion H; subst. exists (c :: rest). cbn. auto.
    + destruct (munch (y :: ys) rest) as [w' r'] eqn:Em. inversion H; subst.
      destruct (IH _ _ _ Em) as (rest' & -> & Hn & Hr). exists rest'. cbn [runs app]. rewrite E.
      split; [reflexivity|]. split; [|assumption]. intros _. apply Hn. discriminate.
Qed.

(** The loop stops exactly where no rule goes on. *)
Lemma munch_exact w : forall xs rest, runs xs w <> [] ->
  match rest with [] => True | c :: _ => matches (runs xs w) c = [] end ->
  munch xs (w ++ rest) = (w, emit (runs xs w) (match rest with [] => true | _ => false end)).
Proof.
  induction w as [|c w IH]; intros xs rest Hn Hr; cbn [app runs] in *.
  - destruct rest as [|c rest]; cbn; [reflexivity|]. cbn in Hr. now rewrite Hr.
  - cbn [munch]. destruct (matches xs c) as [|y ys] eqn:E; [rewrite runs_nil in Hn; congruence|].
    now rewrite (IH _ _ Hn Hr).
Qed.

(** ** next_raw *)
Lemma starts_matches rs c : starts rs c = matches (map new_lexeme rs) c.
Proof.
  induction rs as [|r rs IH]; cbn; [reflexivity|].
  assert (E : rule_check r c = match eat (new_lexeme r) c with Some _ => true | None => false end).
  { destruct r as [d ty|s ty]; unfold rule_check, eat; cbn.
    - destruct (follow _ c); reflexivity.
    - destruct s as [|a s]; cbn; [reflexivity|]. destruct (Ascii.eqb a c); reflexivity. }
  rewrite E, IH. destruct (eat (new_lexeme r) c); reflexivity.
Qed.

Definition lexemes (l : lexer) : list lexeme := map new_lexeme (l_rules l).

Lemma set_position_same l : set_position l (l_position l) = l.
Proof. now destruct l. Qed.

(** All cases of next_raw. *)
Lemma next_raw_cases l :
  next_raw l =
  match skipn (l_position l) (l_input l) with
  | [] => ok_token (make_token l EndOfStream)
  | c :: rest =>
      match matches (lexemes l) c with
      | [] => (Err EOther, set_position l (S (l_position l)))
      | xs => let (w, r) := munch xs rest in
              finish (set_position l (S (l_position l) + length w)) r
      end
  end.
Proof.
  unfold next_raw, read_rune. rewrite nth_skipn.
  destruct (skipn (l_position l) (l_input l)) as [|c rest] eqn:E; [reflexivity|].
  cbn [l_rules set_position]. rewrite starts_matches. fold (lexemes l).
  destruct (matches (lexemes l) c) as [|y ys] eqn:Em; [reflexivity|].
  rewrite scan_munch; cbn [l_position l_input set_position]; rewrite (skipn_S _ _ _ _ E).
  - reflexivity.
  - pose proof (f_equal (@length ascii) E) as L. rewrite skipn_length in L. cbn in L. lia.
Qed.

(** next_raw stops at some later position, with a token or an error. *)
Lemma next_raw_shape l : (l_position l <= length (l_input l))%nat ->
  exists p, (l_position l <= p <= length (l_input l))%nat /\
    (l_position l = length (l_input l) \/ l_position l < p)%nat /\
    ((exists ty, next_raw l = ok_token (make_token (set_position l p) ty) /\
        (In ty (map rule_type (l_rules l)) /\ (l_position l < p)%nat \/
         ty = EndOfStream /\ p = length (l_input l))) \/
     (next_raw l = (Err EOther, set_position l p) /\ l_position l <> length (l_input l))).
Proof.
  intros Hp. rewrite next_raw_cases.
  destruct (skipn (l_position l) (l_input l)) as [|c rest] eqn:E;
    pose proof (f_equal (@length ascii) E) as L; rewrite skipn_length in L; cbn in L.
  - exists (l_position l). split; [lia|]. split; [left; lia|]. left. exists EndOfStream.
    rewrite set_position_same. split; [reflexivity|]. right. split; [reflexivity|lia].
  - destruct (matches (lexemes l) c) as [|y ys] eqn:Em.
    + exists (S (l_position l)). split; [lia|]. split; [lia|]. right. split; [reflexivity|lia].
    + destruct (munch (y :: ys) rest) as [w r] eqn:Ew.
      destruct (munch_spec _ _ _ _ Ew) as (rest' & Er & _ & Hr).
      assert (Lw : (length w <= length rest)%nat) by (rewrite Er, app_length; lia).
      exists (S (l_position l) + length w)%nat. split; [lia|]. split; [lia|].
      assert (Hin : forall b, first_accepted (runs (y :: ys) w) = Some b -> In b (map rule_type (l_rules l))).
      { intros b Hb.
        assert (G : forall xs, (forall x, In x xs -> In (lx_rule x) (l_rules l)) -> first_accepted xs = Some b ->
                  In b (map rule_type (l_rules l))).
        { induction xs as [|x xs IH]; cbn; [discriminate|]. intros Hx. destruct (accepted x).
          - intros Hb'. inversion Hb'; subst. apply in_map. apply Hx. now left.
          - apply IH. intros z Hz. apply Hx. now right. }
        apply (G _) with (2 := Hb). intros x Hx. apply runs_in in Hx. destruct Hx as (z & Hz & Ez).
        rewrite <- Em in Hz. apply matches_in in Hz. destruct Hz as (u & Hu & Eu).
        assert (R : forall u c z, eat u c = Some z -> lx_rule z = lx_rule u).
        { clear. intros u c z. unfold eat. destruct (lx_rule u) eqn:Eu.
          - destruct (follow _ c); [|discriminate]. intros H; inversion H; subst; cbn; congruence.
          - destruct (nth_error s (lx_at u)); [|discriminate]. destruct (Ascii.eqb a c); [|discriminate].
            intros H; inversion H; subst; cbn; congruence. }
        assert (RR : forall w u z, run u w = Some z -> lx_rule z = lx_rule u).
        { induction w0 as [|d w0 IH]; cbn; intros u0 z0 H; [inversion H; now subst|].
          destruct (eat u0 d) eqn:E0; [|discriminate]. apply IH in H. apply R in E0. congruence. }
        rewrite (RR _ _ _ Ez), (R _ _ _ Eu). unfold lexemes in Hu. apply in_map_iff in Hu.
        destruct Hu as (ru & <- & Hru). exact Hru. }
      destruct rest' as [|d rest'].
      * subst r. unfold emit. destruct (first_accepted (runs (y :: ys) w)) as [b|] eqn:Eb.
        -- left. exists b. split; [reflexivity|]. left. split; [now apply Hin|lia].
        -- left. exists EndOfStream. split; [reflexivity|]. right. split; [reflexivity|].
           rewrite app_nil_r in Er. subst rest. lia.
      * destruct Hr as [-> _]. unfold emit. destruct (first_accepted (runs (y :: ys) w)) as [b|] eqn:Eb.
        -- left. exists b. split; [reflexivity|]. left. split; [now apply Hin|lia].
        -- right. split; [reflexivity|lia].
Qed.

(** ** Invariant *)
Definition sound_at (input : text) (p line column : nat) : Prop :=
  advance 0 0 (firstn p input) = (line, column).

(** A token that stands in the input where it says it does. *)
Definition good_token (input : text) (t : token) : Prop :=
  exists rest, skipn (t_position t) input = t_capture t ++ rest /\
    (t_position t <= length input)%nat /\
    sound_at input (t_position t) (t_line t) (t_column t) /\
    (t_type t = EndOfStream -> rest = []) /\
    (t_capture t = [] -> t_type t = EndOfStream).

Definition plain_rules (l : lexer) : Prop :=
  forall ty, In ty (map rule_type (l_rules l)) -> forall w, classify ty w <> EndOfStream.

Record inv (l : lexer) : Prop := {
  inv_order : (l_offset l <= l_position l <= length (l_input l))%nat;
  inv_metrics : sound_at (l_input l) (l_offset l) (l_line l) (l_column l);
  inv_rules : plain_rules l;
  inv_peek : forall t, l_peek l = Some t ->
    good_token (l_input l) t /\ l_offset l = (t_position t + length (t_capture t))%nat }.

(** Where the next token starts. *)
Definition start (l : lexer) : nat :=
  match l_peek l with Some t => t_position t | None => l_offset l end.

Lemma advance_app a : forall b line column,
  advance line column (a ++ b) = let (x, y) := advance line column a in advance x y b.
Proof.
  induction a as [|c a IH]; intros b line column; cbn; [reflexivity|].
  destruct (Ascii.eqb c _); apply IH.
Qed.

Lemma firstn_skipn_add {A} (s : list A) n m : firstn (n + m) s = firstn n s ++ firstn m (skipn n s).
Proof.
  revert s. induction n as [|n IH]; intros s; cbn; [reflexivity|].
  destruct s as [|a s]; cbn; [now rewrite firstn_nil|]. now rewrite IH.
Qed.

Lemma skipn_skipn_add {A} (s : list A) n m : skipn m (skipn n s) = skipn (n + m) s.
Proof.
  revert s. induction n as [|n IH]; intros s; cbn; [reflexivity|].
  destruct s as [|a s]; cbn; [apply skipn_nil|]. apply IH.
Qed.

Lemma classify_eos ty w : classify ty w = EndOfStream -> ty = EndOfStream.
Proof.
  destruct ty; cbn; try discriminate; auto.
  destruct (is_integer w); [discriminate|]. destruct (is_float w); [discriminate|].
  unfold keyword. cbn. destruct (text_eqb _ w); [discriminate|]. destruct (text_eqb _ w); discriminate.
Qed.

Lemma capture_length l p : (l_offset l <= p <= length (l_input l))%nat ->
  length (capture (set_position l p)) = (p - l_offset l)%nat.
Proof. intros H. unfold capture. cbn. rewrite firstn_length, skipn_length. lia. Qed.

Lemma make_token_good l p ty : inv l -> l_peek l = None ->
  (l_position l <= p <= length (l_input l))%nat ->
  (l_position l = length (l_input l) \/ l_position l < p)%nat ->
  (In ty (map rule_type (l_rules l)) /\ (l_position l < p)%nat \/ ty = EndOfStream /\ p = length (l_input l)) ->
  let (t, l') := make_token (set_position l p) ty in
  good_token (l_input l) t /\ t_position t = l_offset l /\ l_input l' = l_input l /\ l_rules l' = l_rules l /\
  l_position l' = p /\ l_offset l' = p /\ l_peek l' = None /\
  (p = t_position t + length (t_capture t))%nat /\ inv l'.
Proof.
  intros [Ho Hm Hr Hk] Hpk Hp Hlt Hty. unfold make_token.
  pose proof (capture_length l p ltac:(lia)) as Lc.
  destruct (advance _ _ _) as [line column] eqn:Ea. cbn in *.
  assert (Ecap : skipn (l_offset l) (l_input l) = capture (set_position l p) ++ skipn p (l_input l)).
  { unfold capture. cbn. rewrite <- (firstn_skipn (p - l_offset l) (skipn (l_offset l) (l_input l))) at 1.
    f_equal. rewrite skipn_skipn_add. f_equal. lia. }
  split; [|repeat (split; [first [reflexivity|assumption|lia]|])].
  - exists (skipn p (l_input l)). cbn. split; [assumption|]. split; [lia|]. split; [assumption|]. split.
    + intros E. apply classify_eos in E. destruct Hty as [[Hin _]|[_ ->]]; [|apply skipn_all].
      exfalso. apply (Hr _ Hin []). subst ty. reflexivity.
    + intros E. rewrite E in Lc. cbn in Lc. destruct Hty as [[_ L]|[-> _]]; [lia|reflexivity].
  - constructor; cbn.
    + lia.
    + unfold sound_at in *. replace p with (l_offset l + (p - l_offset l))%nat at 1 by lia.
      rewrite firstn_skipn_add, advance_app, Hm. exact Ea.
    + exact Hr.
    + rewrite Hpk. discriminate.
Qed.

Lemma inv_set_position l p : inv l -> (l_position l <= p <= length (l_input l))%nat -> inv (set_position l p).
Proof. intros [H1 H2 H3 H4] H. constructor; cbn; auto; lia. Qed.

(** One call of next without a pending token *)
Lemma next_raw_good l : inv l -> l_peek l = None ->
  (exists t l', next_raw l = (Ok t, l') /\ good_token (l_input l) t /\ t_position t = l_offset l /\
     l_input l' = l_input l /\ l_rules l' = l_rules l /\ l_offset l' = l_position l' /\ l_peek l' = None /\
     l_position l' = (t_position t + length (t_capture t))%nat /\ inv l' /\
     ((l_position l < l_position l')%nat \/ l_position l = length (l_input l) /\ t_type t = EndOfStream)) \/
  (exists l', next_raw l = (Err EOther, l') /\ l_input l' = l_input l /\ l_rules l' = l_rules l /\
     l_offset l' = l_offset l /\ l_peek l' = None /\ inv l' /\ (l_position l < l_position l')%nat).
Proof.
  intros Hi Hp.
  destruct (next_raw_shape l) as (p & Hr & Hlt & [(ty & E & Hty)|[E Hne]]); [apply Hi| |].
  - left.
    pose proof (make_token_good l p ty Hi Hp Hr Hlt Hty) as H.
    unfold ok_token in E. destruct (make_token (set_position l p) ty) as [t l'] eqn:Em. cbn in E.
    destruct H as (G & P & I & R & Ps & Of & Pk & Ln & Iv).
    exists t, l'. rewrite E. repeat (split; [first [reflexivity|assumption|congruence]|]).
    destruct Hlt as [He|?]; [|left; lia].
    destruct Hty as [[_ ?]|[-> _]]; [left; lia|]. right. split; [assumption|].
    unfold make_token in Em. destruct (advance _ _ _) in Em. inversion Em. reflexivity.
  - right. exists (set_position l p). rewrite E. cbn.
    repeat (split; [first [reflexivity|assumption|now apply inv_set_position]|]). lia.
Qed.

Definition fresh_ok (swap : bool) (input : text) : inv (new_lexer swap input).
Proof.
  constructor; cbn.
  - lia.
  - reflexivity.
  - intros ty H w E. apply classify_eos in E. subst ty. unfold plain_rules, new_lexer, rules in H. cbn in H.
    destruct swap; cbn in H; intuition discriminate.
  - discriminate.
Qed.

Lemma set_peek_none l : l_peek l = None -> set_peek l None = l.
Proof. destruct l; cbn. now intros ->. Qed.

(** Next, in general *)
Lemma next_good l : inv l ->
  (exists t l', next l = (Ok t, l') /\ good_token (l_input l) t /\ t_position t = start l /\
     l_input l' = l_input l /\ l_rules l' = l_rules l /\ inv l' /\ l_peek l' = None /\
     start l' = (t_position t + length (t_capture t))%nat) \/
  (exists l', next l = (Err EOther, l') /\ l_input l' = l_input l /\ l_rules l' = l_rules l /\
     inv l' /\ l_peek l' = None /\ start l' = start l).
Proof.
  intros Hi. unfold next, start. destruct (l_peek l) as [t|] eqn:Ep.
  - left. exists t, (set_peek l None). destruct (inv_peek _ Hi _ Ep) as [G O].
    split; [reflexivity|]. split; [assumption|]. cbn. repeat (split; [reflexivity|]).
    split; [|split; [reflexivity|assumption]]. destruct Hi. constructor; cbn; auto. discriminate.
  - destruct (next_raw_good l Hi Ep) as [(t & l' & E & G & P & I & R & O & K & L & V & _)|(l' & E & I & R & O & K & V & _)].
    + left. exists t, l'. rewrite K. repeat (split; [first [assumption|reflexivity]|]). lia.
    + right. exists l'. rewrite K. repeat (split; [first [assumption|reflexivity]|]). assumption.
Qed.

(** Peek gives what Next would give, and Next then gives it. *)
Lemma peek_next l : l_peek l = None ->
  match next l with
  | (Ok t, l') => peek l = (Ok t, set_peek l' (Some t)) /\ (l_peek l' = None -> next (set_peek l' (Some t)) = (Ok t, l'))
  | (Err _, l') => peek l = (Panic, l')
  | _ => True
  end.
Proof.
  intros H. unfold next, peek. rewrite H. destruct (next_raw l) as [[t|e| |] l'] eqn:E; auto.
  split; [reflexivity|]. intros K. cbn. destruct l'; cbn in *. now rewrite K.
Qed.

Lemma peek_good l : inv l ->
  (exists t l', peek l = (Ok t, l') /\ good_token (l_input l) t /\ t_position t = start l /\
     l_input l' = l_input l /\ l_rules l' = l_rules l /\ inv l' /\ start l' = start l /\ l_peek l' = Some t) \/
  (exists l', peek l = (Panic, l') /\ l_input l' = l_input l /\ l_rules l' = l_rules l /\
     inv l' /\ start l' = start l).
Proof.
  intros Hi. unfold peek. destruct (l_peek l) as [t|] eqn:Ep.
  - left. exists t, l. destruct (inv_peek _ Hi _ Ep) as [G O]. unfold start. rewrite Ep.
    repeat (split; [first [reflexivity|assumption]|]). assumption || reflexivity.
  - destruct (next_raw_good l Hi Ep) as [(t & l' & E & G & P & I & R & O & K & L & V & _)|(l' & E & I & R & O & K & V & _)]; rewrite E.
    + left. exists t, (set_peek l' (Some t)). unfold start. rewrite Ep. cbn.
      repeat (split; [first [reflexivity|assumption]|]). split; [|split; [assumption|reflexivity]].
      destruct V as [V1 V2 V3 V4]. constructor; cbn; auto. intros u Hu. inversion Hu; subst.
      rewrite I. split; [assumption|]. lia.
    + right. exists l'. unfold start. rewrite Ep, K. auto.
Qed.
