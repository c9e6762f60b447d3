(** Proofs about the WIT lexer: histories of calls. The arguments are those of
    the WAT lexer (L_WatLex.v, P_WatLex.v). *)
From Coq Require Import Arith NArith String Ascii Bool List Lia.
From Verif Require Import GoBase M_Text M_WitLex S_WitLex L_WitLex L_WitToks.
Import ListNotations.

Section Tables.
Variable U : tables.
Hypothesis HU : good_tables U.

Local Notation next_raw := (M_WitLex.next_raw U).
Local Notation next := (M_WitLex.next U).
Local Notation peek := (M_WitLex.peek U).
Local Notation call := (S_WitLex.call U).
Local Notation calls := (S_WitLex.calls U).
Local Notation sstep := (S_WitLex.sstep U).
Local Notation ssteps := (S_WitLex.ssteps U).
Local Notation reachable := (S_WitLex.reachable U).
Local Notation token_text := (S_WitLex.token_text U).
Local Notation separate := (S_WitLex.separate U).
Local Notation separated := (S_WitLex.separated U).

(** ** Invariant *)
Definition sound_at (input : text) (p line column : nat) : Prop :=
  advance 0 0 (firstn p input) = (line, column).

(** A token that stands in the input where it says it does. *)
Definition good_token (input : text) (t : token) : Prop :=
  exists rest, skipn (t_position t) input = t_capture t ++ rest /\
    (t_position t <= length input)%nat /\
    sound_at input (t_position t) (t_line t) (t_column t) /\
    (t_type t = EndOfStream -> rest = []) /\
    (t_capture t = [] -> t_type t = EndOfStream).

Record inv (l : lexer) : Prop := {
  inv_order : (l_offset l <= l_position l <= length (l_input l))%nat;
  inv_metrics : sound_at (l_input l) (l_offset l) (l_line l) (l_column l);
  inv_peek : forall t, l_peek l = Some t ->
    good_token (l_input l) t /\ l_offset l = (t_position t + length (t_capture t))%nat }.

(** Where the next token starts. *)
Definition start (l : lexer) : nat :=
  match l_peek l with Some t => t_position t | None => l_offset l end.

Lemma advance_app a : forall b line column,
  advance line column (a ++ b) = let (x, y) := advance line column a in advance x y b.
Proof.
  induction a as [|c a IH]; intros b line column; cbn; [reflexivity|].
  destruct (Ascii.eqb c _); apply IH.
Qed.

Lemma capture_length l p : (l_offset l <= p <= length (l_input l))%nat ->
  length (capture (set_position l p)) = (p - l_offset l)%nat.
Proof. intros H. unfold capture. cbn. rewrite firstn_length, skipn_length. lia. Qed.

Lemma make_token_good l p ty : inv l -> l_peek l = None ->
  (l_position l <= p <= length (l_input l))%nat ->
  (ty <> EndOfStream /\ (l_position l < p)%nat \/ ty = EndOfStream /\ p = length (l_input l)) ->
  exists t l', make_token (set_position l p) ty = (Ok t, l') /\ t_type t = ty /\
  good_token (l_input l) t /\ t_position t = l_offset l /\ l_input l' = l_input l /\
  l_position l' = p /\ l_offset l' = p /\ l_peek l' = None /\
  (p = t_position t + length (t_capture t))%nat /\ inv l'.
Proof.
  intros [Ho Hm Hk] Hpk Hp Hty. unfold make_token.
  pose proof (capture_length l p ltac:(lia)) as Lc.
  destruct (advance _ _ _) as [line column] eqn:Ea. cbn in *. do 2 eexists. split; [reflexivity|]. cbn.
  split; [reflexivity|].
  assert (Ecap : skipn (l_offset l) (l_input l) = capture (set_position l p) ++ skipn p (l_input l)).
  { unfold capture. cbn. rewrite <- (firstn_skipn (p - l_offset l) (skipn (l_offset l) (l_input l))) at 1.
    f_equal. rewrite skipn_skipn_add. f_equal. lia. }
  split; [|repeat (split; [first [reflexivity|assumption|lia]|])].
  - exists (skipn p (l_input l)). cbn. split; [assumption|]. split; [lia|]. split; [assumption|]. split.
    + intros E. destruct Hty as [[N _]|[_ ->]]; [congruence|apply skipn_all].
    + intros E. rewrite E in Lc. cbn in Lc. destruct Hty as [[_ L]|[-> _]]; [lia|reflexivity].
  - constructor; cbn.
    + lia.
    + unfold sound_at in *. replace p with (l_offset l + (p - l_offset l))%nat at 1 by lia.
      rewrite firstn_skipn_add, advance_app, Hm. exact Ea.
    + rewrite Hpk. discriminate.
Qed.

Lemma inv_set_position l p : inv l -> (l_position l <= p <= length (l_input l))%nat -> inv (set_position l p).
Proof. intros [H1 H2 H3] H. constructor; cbn; auto; lia. Qed.

Lemma set_position_same l : set_position l (l_position l) = l.
Proof. now destruct l. Qed.

(** One call of next without a pending token *)
Lemma next_raw_good l : inv l -> l_peek l = None ->
  (exists t l', next_raw l = (Ok t, l') /\ good_token (l_input l) t /\ t_position t = l_offset l /\
     l_input l' = l_input l /\ l_offset l' = l_position l' /\ l_peek l' = None /\
     l_position l' = (t_position t + length (t_capture t))%nat /\ inv l' /\
     ((l_position l < l_position l')%nat \/ l_position l = length (l_input l) /\ t_type t = EndOfStream)) \/
  (exists l', next_raw l = (Err EOther, l') /\ l_input l' = l_input l /\
     l_offset l' = l_offset l /\ l_peek l' = None /\ inv l' /\ (l_position l < l_position l')%nat).
Proof.
  intros Hi Hp. assert (I : inside l) by (unfold inside; destruct (inv_order l Hi); lia).
  destruct (next_raw_shape U HU l I) as [[Er E]|(w & s & Er & Nw & D)].
  - left. apply rest_nil in Er; [|assumption].
    destruct (make_token_good l (l_position l) EndOfStream Hi Hp) as (t & l' & Em & Ty & G & P & I' & Ps & Of & Pk & Ln & Iv);
      [lia|right; auto|]. rewrite set_position_same in Em. exists t, l'. rewrite E.
    repeat (split; [first [reflexivity|assumption|congruence]|]). right. split; [assumption|assumption].
  - assert (Lw : (0 < length w /\ l_position l + length w <= length (l_input l))%nat).
    { split; [destruct w; [congruence|cbn; lia]|]. pose proof (rest_length l) as R. rewrite Er, app_length in R.
      unfold inside in I. lia. }
    destruct D as [(ty & E & Ht & _)|E].
    + left. destruct (make_token_good l (l_position l + length w) ty Hi Hp) as (t & l' & Em & Ty & G & P & I' & Ps & Of & Pk & Ln & Iv);
        [lia|left; split; [assumption|lia]|]. exists t, l'. rewrite E.
      repeat (split; [first [reflexivity|assumption|congruence]|]). left. lia.
    + right. exists (adv l w). rewrite E. split; [reflexivity|].
      split; [reflexivity|]. split; [reflexivity|]. split; [assumption|]. split; [|cbn; lia].
      apply inv_set_position; [assumption|lia].
Qed.

Lemma fresh_ok (input : text) : inv (new_lexer input).
Proof. constructor; cbn; [lia|reflexivity|discriminate]. Qed.

(** Next, in general *)
Lemma next_good l : inv l ->
  (exists t l', next l = (Ok t, l') /\ good_token (l_input l) t /\ t_position t = start l /\
     l_input l' = l_input l /\ inv l' /\ l_peek l' = None /\
     start l' = (t_position t + length (t_capture t))%nat) \/
  (exists l', next l = (Err EOther, l') /\ l_input l' = l_input l /\
     inv l' /\ l_peek l' = None /\ start l' = start l).
Proof.
  intros Hi. unfold M_WitLex.next, start. destruct (l_peek l) as [t|] eqn:Ep.
  - left. exists t, (set_peek l None). destruct (inv_peek _ Hi _ Ep) as [G O].
    split; [reflexivity|]. split; [assumption|]. cbn. repeat (split; [reflexivity|]).
    split; [|split; [reflexivity|assumption]]. destruct Hi. constructor; cbn; auto. discriminate.
  - destruct (next_raw_good l Hi Ep) as [(t & l' & E & G & P & I & O & K & L & V & _)|(l' & E & I & O & K & V & _)].
    + left. exists t, l'. rewrite K. repeat (split; [first [assumption|reflexivity]|]). lia.
    + right. exists l'. rewrite K. repeat (split; [first [assumption|reflexivity]|]). assumption.
Qed.

(** Peek gives what Next would give, and Next then gives it. *)
Lemma peek_next l : l_peek l = None ->
  match next l with
  | (Ok t, l') => peek l = (Ok t, set_peek l' (Some t)) /\ (l_peek l' = None -> next (set_peek l' (Some t)) = (Ok t, l'))
  | (Err _, l') => peek l = (Panic, l')
  | _ => True
  end.
Proof.
  intros H. unfold M_WitLex.next, M_WitLex.peek. rewrite H. destruct (next_raw l) as [[t|e| |] l'] eqn:E; auto.
  split; [reflexivity|]. intros K. cbn. destruct l'; cbn in *. now rewrite K.
Qed.

Lemma peek_good l : inv l ->
  (exists t l', peek l = (Ok t, l') /\ good_token (l_input l) t /\ t_position t = start l /\
     l_input l' = l_input l /\ inv l' /\ start l' = start l /\ l_peek l' = Some t) \/
  (exists l', peek l = (Panic, l') /\ l_input l' = l_input l /\
     inv l' /\ start l' = start l).
Proof.
  intros Hi. unfold M_WitLex.peek. destruct (l_peek l) as [t|] eqn:Ep.
  - left. exists t, l. destruct (inv_peek _ Hi _ Ep) as [G O]. unfold start. rewrite Ep.
    repeat (split; [first [reflexivity|assumption]|]). assumption || reflexivity.
  - destruct (next_raw_good l Hi Ep) as [(t & l' & E & G & P & I & O & K & L & V & _)|(l' & E & I & O & K & V & _)]; rewrite E.
    + left. exists t, (set_peek l' (Some t)). unfold start. rewrite Ep. cbn.
      repeat (split; [first [reflexivity|assumption]|]). split; [|split; [assumption|reflexivity]].
      destruct V as [V1 V2 V3]. constructor; cbn; auto. intros u Hu. inversion Hu; subst.
      rewrite I. split; [assumption|]. lia.
    + right. exists l'. unfold start. rewrite Ep, K. auto.
Qed.

(** Tokens that follow each other from [p] to [q]. *)
Inductive follows (input : text) : nat -> list token -> nat -> Prop :=
| follows_nil p : follows input p [] p
| follows_cons p t ts q : t_position t = p -> good_token input t ->
    follows input (p + length (t_capture t)) ts q -> follows input p (t :: ts) q.

Lemma calls_good ops : forall l h l', inv l -> calls ops l = (h, l') ->
  inv l' /\ l_input l' = l_input l /\
  follows (l_input l) (start l) (taken h) (start l') /\
  (forall o r, In (o, r) h -> (exists t, r = Ok t /\ good_token (l_input l) t) \/
     (o = ONext /\ r = Err EOther) \/ (o = OPeek /\ r = Panic)).
Proof.
  induction ops as [|o ops IH]; intros l h l' Hi H; cbn in H.
  - inversion H; subst. cbn. split; [assumption|]. split; [reflexivity|]. split; [constructor|tauto].
  - destruct (call o l) as [r l1] eqn:Ec. destruct (calls ops l1) as [h1 l2] eqn:Eh.
    inversion H; subst. destruct o; cbn [S_WitLex.call] in Ec.
    + destruct (next_good l Hi) as [(t & l1' & E & G & P & I & V & K & S)|(l1' & E & I & V & K & S)];
        rewrite E in Ec; inversion Ec; subst r l1;
        destruct (IH _ _ _ V Eh) as (V2 & I2 & F2 & A2).
      * split; [assumption|]. split; [congruence|]. split.
        -- cbn. rewrite <- P. constructor; [reflexivity|assumption|]. rewrite <- S, <- I. exact F2.
        -- intros o r [E'|Hin]; [inversion E'; subst; left; eauto|]. rewrite I in A2. now apply A2.
      * split; [assumption|]. split; [congruence|]. split.
        -- cbn. rewrite <- S, <- I. exact F2.
        -- intros o r [E'|Hin]; [inversion E'; subst; auto|]. rewrite I in A2. now apply A2.
    + destruct (peek_good l Hi) as [(t & l1' & E & G & P & I & V & S & K)|(l1' & E & I & V & S)];
        rewrite E in Ec; inversion Ec; subst r l1;
        destruct (IH _ _ _ V Eh) as (V2 & I2 & F2 & A2).
      * split; [assumption|]. split; [congruence|]. split.
        -- cbn. rewrite <- S, <- I. exact F2.
        -- intros o r [E'|Hin]; [inversion E'; subst; left; eauto|]. rewrite I in A2. now apply A2.
      * split; [assumption|]. split; [congruence|]. split.
        -- cbn. rewrite <- S, <- I. exact F2.
        -- intros o r [E'|Hin]; [inversion E'; subst; auto|]. rewrite I in A2. now apply A2.
Qed.

Lemma follows_text input p ts q : follows input p ts q -> (p <= length input)%nat ->
  skipn p input = captures ts ++ skipn q input /\ (q <= length input)%nat /\
  q = (p + length (captures ts))%nat.
Proof.
  induction 1 as [p|p t ts q E G F IH]; intros Hp; [cbn; split; [reflexivity|split; lia]|].
  destruct G as (rest & Er & Hle & _ & _ & _). subst p.
  assert (L : (t_position t + length (t_capture t) <= length input)%nat).
  { apply (f_equal (@length ascii)) in Er. rewrite skipn_length, app_length in Er. lia. }
  destruct (IH L) as (E1 & E2 & E3). unfold captures in *. cbn.
  rewrite Er, <- app_assoc, app_length. split; [|split; [assumption|lia]]. f_equal. rewrite <- E1.
  rewrite <- skipn_skipn_add, Er, skipn_app, skipn_all, Nat.sub_diag. reflexivity.
Qed.

Lemma follows_split input before : forall p t after q, follows input p (before ++ t :: after) q ->
  follows input p before (t_position t) /\ good_token input t /\
  follows input (t_position t + length (t_capture t)) after q.
Proof.
  induction before as [|b before IH]; intros p t after q H; cbn in H.
  - inversion H; subst. split; [constructor|]. auto.
  - inversion H; subst. destruct (IH _ _ _ _ H6) as (F & G & F2). split; [|auto]. now constructor.
Qed.

Lemma advance_newlines w : forall line column,
  fst (advance line column w) = (line + newlines w)%nat.
Proof.
  unfold newlines. induction w as [|c w IH]; intros line column; cbn [advance]; [cbn; lia|].
  destruct (Ascii.eqb c newline) eqn:E; rewrite IH.
  - apply Ascii.eqb_eq in E. subst c. rewrite count_occ_cons_eq by reflexivity. lia.
  - apply Ascii.eqb_neq in E. rewrite count_occ_cons_neq by assumption. reflexivity.
Qed.

Lemma advance_column w : exists l, last_line w l /\ snd (advance 0 0 w) = length l.
Proof.
  assert (G : forall w line column l0, length l0 = column -> ~ In newline l0 ->
    exists l, ~ In newline l /\ (l = l0 ++ w \/ exists a, w = a ++ newline :: l) /\ snd (advance line column w) = length l).
  { clear w. induction w as [|c w IH]; intros line column l0 L N; cbn [advance].
    - exists l0. rewrite app_nil_r. auto.
    - destruct (Ascii.eqb c newline) eqn:E.
      + apply Ascii.eqb_eq in E. subst c. destruct (IH (S line) 0%nat [] eq_refl ltac:(cbn; tauto)) as (l & Nl & D & S).
        exists l. split; [assumption|]. split; [|assumption]. right.
        destruct D as [->|(a & ->)]; [now exists []|]. now exists (newline :: a).
      + apply Ascii.eqb_neq in E. destruct (IH line (S column) (l0 ++ [c])) as (l & Nl & D & S).
        * rewrite app_length. cbn. lia.
        * rewrite in_app_iff. cbn. intuition.
        * exists l. split; [assumption|]. split; [|assumption].
          destruct D as [->|(a & ->)]; [left; now rewrite <- app_assoc|]. right. now exists (c :: a). }
  destruct (G w 0%nat 0%nat [] eq_refl ltac:(cbn; tauto)) as (l & N & D & S). exists l. split; [|assumption].
  split; [assumption|]. destruct D as [->|D]; [left; reflexivity|now right].
Qed.

Lemma reachable_inv input l : reachable input l -> inv l /\ l_input l = input.
Proof.
  intros (ops & ->). destruct (calls ops (new_lexer input)) as [h l] eqn:E.
  destruct (calls_good _ _ _ _ (fresh_ok input) E) as (V & I & _). auto.
Qed.

Lemma next_count_cons o ops : next_count (o :: ops) = (match o with ONext => 1 | OPeek => 0 end + next_count ops)%nat.
Proof. destruct o; reflexivity. Qed.

Definition spent (l : lexer) (k : nat) : Prop :=
  match l_peek l with
  | None => (k <= l_position l)%nat \/ l_position l = length (l_input l)
  | Some t => (S k <= l_position l)%nat \/ (l_position l = length (l_input l) /\ t_type t = EndOfStream)
  end.

Lemma calls_spent ops : forall l k, inv l -> spent l k ->
  spent (snd (calls ops l)) (next_count ops + k).
Proof.
  induction ops as [|o ops IH]; intros l k Hi Hs; [exact Hs|].
  cbn [S_WitLex.calls]. destruct (call o l) as [r l1] eqn:Ec. specialize (IH l1).
  destruct (calls ops l1) as [h l2] eqn:Eh. cbn [snd] in *. rewrite next_count_cons.
  assert (G : inv l1 /\ spent l1 (match o with ONext => 1 | OPeek => 0 end + k)).
  { destruct o; cbn [S_WitLex.call] in Ec.
    - unfold M_WitLex.next in Ec. unfold spent in Hs. destruct (l_peek l) as [t|] eqn:Ep.
      + inversion Ec; subst. split; [destruct Hi; constructor; cbn; auto; discriminate|].
        unfold spent. cbn. destruct Hs as [Hs|[Hs _]]; auto.
      + destruct (next_raw_good l Hi Ep) as [(t & l' & E & G & P & I & O & K & L & V & D)|(l' & E & I & O & K & V & D)];
          rewrite E in Ec; inversion Ec; subst; (split; [assumption|]); unfold spent; rewrite K, I.
        * destruct D as [D|[D Ty]].
          -- destruct Hs as [Hs|Hs]; [left; lia|]. pose proof (inv_order _ V) as Q. rewrite I in Q. lia.
          -- right. pose proof (inv_order _ V) as Q. rewrite I in Q. 
             destruct G as (rest & Er & Hle & _ & Heos & _). rewrite (Heos Ty), app_nil_r in Er.
             apply (f_equal (@length ascii)) in Er. rewrite skipn_length in Er. lia.
        * destruct Hs as [Hs|Hs]; [left; lia|]. pose proof (inv_order _ V) as Q. rewrite I in Q. lia.
    - unfold M_WitLex.peek in Ec. unfold spent in Hs. destruct (l_peek l) as [t|] eqn:Ep.
      + inversion Ec; subst. split; [assumption|]. unfold spent. now rewrite Ep.
      + destruct (next_raw_good l Hi Ep) as [(t & l' & E & G & P & I & O & K & L & V & D)|(l' & E & I & O & K & V & D)];
          rewrite E in Ec; inversion Ec; subst.
        * split.
          -- destruct V as [V1 V2 V3]. constructor; cbn; auto. intros u Hu. inversion Hu; subst.
             rewrite I. split; [assumption|]. lia.
          -- unfold spent. cbn. rewrite I. pose proof (inv_order _ V) as Q. rewrite I in Q.
             destruct D as [D|[D Ty]].
             ++ destruct Hs as [Hs|Hs]; [left; lia|]. lia.
             ++ right. split; [|assumption]. destruct G as (rest & Er & Hle & _ & Heos & _).
                rewrite (Heos Ty), app_nil_r in Er.
                apply (f_equal (@length ascii)) in Er. rewrite skipn_length in Er. lia.
        * split; [assumption|]. unfold spent. rewrite K, I.
          destruct Hs as [Hs|Hs]; [left; lia|]. pose proof (inv_order _ V) as Q. rewrite I in Q. lia. }
  destruct G as [Hi1 Hs1]. replace (match o with ONext => 1 | OPeek => 0 end + next_count ops + k)%nat
    with (next_count ops + (match o with ONext => 1 | OPeek => 0 end + k))%nat by lia.
  now apply IH.
Qed.

Lemma peeks_from ops : forall l, inv l -> (forall o r, In (o, r) (fst (calls ops l)) -> r <> Panic) ->
  let ops' := filter (fun o => match o with ONext => true | OPeek => false end) ops in
  next_results (fst (calls ops l)) = next_results (fst (calls ops' l)) /\
  (* the state without the peeks is the state with the last peek undone *)
  (forall h lf h' lf', calls ops l = (h, lf) -> calls ops' l = (h', lf') -> next lf = next lf').
Proof.
  induction ops as [|o ops IH]; intros l Hi Hp ops'; cbn zeta in *.
  - split; [reflexivity|]. cbn. intros. congruence.
  - cbn [S_WitLex.calls filter] in *. destruct o; cbn [S_WitLex.call] in *.
    + destruct (next l) as [r l1] eqn:E. destruct (calls ops l1) as [h1 l2] eqn:Eh.
      assert (V : inv l1).
      { destruct (next_good l Hi) as [(t0 & l0 & E0 & _ & _ & _ & V & _)|(l0 & E0 & _ & V & _)]; rewrite E0 in E; inversion E; now subst. }
      specialize (IH l1 V). rewrite Eh in IH. cbn [fst] in *.
      destruct IH as [I1 I2]; [intros o r0 Hin; apply (Hp o r0); now right|].
      subst ops'. cbn [S_WitLex.calls S_WitLex.call]. rewrite E.
      destruct (calls (filter _ ops) l1) as [h3 l3] eqn:E3. cbn [fst] in *. split.
      * cbn. now rewrite I1.
      * intros h lf h' lf' Q1 Q2. inversion Q1; inversion Q2; subst. now apply (I2 _ _ _ _ eq_refl eq_refl).
    + destruct (peek l) as [r l1] eqn:E. destruct (calls ops l1) as [h1 l2] eqn:Eh. cbn [fst] in *.
      assert (Np : r <> Panic) by (apply (Hp OPeek r); now left).
      (* a successful peek leaves a lexer on which every history goes the same way *)
      assert (V : inv l1 /\ next l1 = next l).
      { destruct (l_peek l) as [u|] eqn:Ep.
        - unfold M_WitLex.peek in E. rewrite Ep in E. inversion E; subst. auto.
        - pose proof (peek_next l Ep) as P.
          destruct (peek_good l Hi) as [(t0 & l0 & E0 & _ & _ & _ & V & _)|(l0 & E0 & _)]; rewrite E0 in E; inversion E; subst; [|congruence].
          split; [assumption|].
          destruct (next_good l Hi) as [(t1 & l9 & E1 & _ & _ & _ & _ & K & _)|(l9 & E1 & _)]; rewrite E1 in P.
          + destruct P as [P1 P2]. rewrite P1 in E0. inversion E0; subst. rewrite (P2 K). congruence.
          + rewrite P in E0. discriminate. }
      destruct V as [V N]. specialize (IH l1 V). rewrite Eh in IH. cbn [fst] in *.
      destruct IH as [I1 I2]; [intros o r0 Hin; apply (Hp o r0); now right|].
      subst ops'. cbn [next_results].
      (* the two filtered runs agree *)
      assert (Q : forall ns, (forall o, In o ns -> o = ONext) ->
        next_results (fst (calls ns l1)) = next_results (fst (calls ns l)) /\
        next (snd (calls ns l1)) = next (snd (calls ns l))).
      { intros [|o ns] Hns; [split; [reflexivity|exact N]|]. pose proof (Hns o (or_introl eq_refl)) as ->. cbn [S_WitLex.calls S_WitLex.call].
        rewrite N. split; reflexivity. }
      specialize (Q (filter (fun o => match o with ONext => true | OPeek => false end) ops)).
      assert (Hns : forall o, In o (filter (fun o => match o with ONext => true | OPeek => false end) ops) -> o = ONext).
      { intros o Ho. apply filter_In in Ho. destruct Ho as [_ Ho]. now destruct o. }
      specialize (Q Hns). destruct Q as [Q1 Q2]. split; [now rewrite I1|].
      intros h lf h' lf' C1 C2. inversion C1; subst.
      destruct (calls (filter _ ops) l1) as [h5 l5] eqn:E5. rewrite C2 in Q2. cbn [snd] in Q2.
      rewrite (I2 _ _ _ _ eq_refl eq_refl). exact Q2.
Qed.

Lemma nth_set_nth {A} (s : list A) i j a :
  nth_error (set_nth s i a) j = if (i =? j)%nat then match nth_error s i with Some _ => Some a | None => None end else nth_error s j.
Proof.
  revert i j. induction s as [|x s IH]; intros [|i] [|j]; cbn; try reflexivity.
  - destruct (i =? j)%nat; reflexivity.
  - apply IH.
Qed.

Lemma ssteps_answers os : forall s i l, nth_error s i = Some l ->
  forall h s', ssteps os s = (h, s') ->
  exists ops l', calls ops l = (answers i h, l') /\ nth_error s' i = Some l'.
Proof.
  induction os as [|o os IH]; intros s i l Hl h s' H; cbn in H.
  - inversion H; subst. exists [], l. auto.
  - destruct (sstep o s) as [e s1] eqn:Es. destruct (ssteps os s1) as [h1 s2] eqn:Eh. inversion H; subst.
    destruct o as [j o|j]; cbn in Es.
    + destruct (nth_error s j) as [lj|] eqn:Ej.
      * destruct (call o lj) as [r lj'] eqn:Ec. inversion Es; subst.
        pose proof (nth_set_nth s j i lj') as N. destruct (j =? i)%nat eqn:Eji.
        -- apply Nat.eqb_eq in Eji. subst j. rewrite Hl in Ej. inversion Ej; subst lj. rewrite Hl in N.
           destruct (IH _ _ _ N _ _ Eh) as (ops & l' & C & F). exists (o :: ops), l'.
           cbn [S_WitLex.calls answers]. rewrite Ec, C, Nat.eqb_refl. auto.
        -- rewrite Hl in N. destruct (IH _ _ _ N _ _ Eh) as (ops & l' & C & F). exists ops, l'.
           cbn [answers]. rewrite Nat.eqb_sym, Eji. auto.
      * inversion Es; subst. apply (IH _ _ _ Hl _ _ Eh).
    + destruct (nth_error s j) as [lj|] eqn:Ej; inversion Es; subst.
      * apply (IH (s ++ [clone lj]) i l); [|assumption]. rewrite nth_error_app1; [assumption|].
        apply nth_error_Some. congruence.
      * apply (IH _ _ _ Hl _ _ Eh).
Qed.


(** ** Lexers without errors *)
Record aligned (l : lexer) : Prop := {
  al_inside : inside l;
  al_pos : l_offset l = l_position l;
  al_peek : l_peek l = None }.

Lemma make_token_at l ty w r : aligned l -> rest l = w ++ r ->
  exists t l', make_token (adv l w) ty = (Ok t, l') /\ t_type t = ty /\ t_capture t = w /\ t_position t = l_position l /\
  aligned l' /\ l_input l' = l_input l /\ rest l' = r.
Proof.
  intros [I P K] Hr. unfold make_token. rewrite (capture_adv l w r P Hr). destruct (advance _ _ _) as [x y].
  do 2 eexists. split; [reflexivity|]. cbn.
  split; [reflexivity|]. split; [reflexivity|]. split; [assumption|].
  split; [constructor; cbn; auto; exact (adv_inside l w r I Hr)|]. split; [reflexivity|]. exact (adv_rest l w r Hr).
Qed.

Lemma next_complete l ty w r : aligned l -> rest l = w ++ r -> token_text ty w -> separate ty w r ->
  exists t l', next l = (Ok t, l') /\ t_type t = ty /\ t_capture t = w /\ t_position t = l_position l /\
    aligned l' /\ l_input l' = l_input l /\ rest l' = r.
Proof.
  intros A Hr Ht Hs. unfold M_WitLex.next. rewrite (al_peek l A).
  rewrite (next_raw_complete U HU l ty w r (al_inside l A) (al_pos l A) Hr Ht Hs).
  exact (make_token_at l ty w r A Hr).
Qed.

Lemma next_sound l : aligned l ->
  (exists t l', next l = (Ok t, l') /\ aligned l' /\ l_input l' = l_input l /\ t_position t = l_position l /\
     rest l = t_capture t ++ rest l' /\
     ((token_text (t_type t) (t_capture t) /\ separate (t_type t) (t_capture t) (rest l')) \/
      (t_type t = EndOfStream /\ rest l' = [] /\ t_capture t = []))) \/
  (exists l', next l = (Err EOther, l') /\
     forall ty w r, rest l = w ++ r -> token_text ty w -> ~ separate ty w r).
Proof.
  intros A. destruct (next_raw_shape U HU l (al_inside l A)) as [[Er E]|(w & s & Er & Nw & [(ty & E & Ht & Ts)|E])].
  - left. destruct (make_token_at l EndOfStream [] [] A Er) as (t & l' & M & M1 & M2 & M3 & M4 & M5 & M6).
    rewrite adv_nil in M. exists t, l'. unfold M_WitLex.next. rewrite (al_peek l A), E, M, M2, M6, Er.
    repeat (split; [first [reflexivity|assumption]|]). right. auto.
  - left. destruct (make_token_at l ty w s A Er) as (t & l' & M & M1 & M2 & M3 & M4 & M5 & M6).
    exists t, l'. unfold M_WitLex.next. rewrite (al_peek l A), E, M, M1, M2, M6, Er.
    repeat (split; [first [reflexivity|assumption]|]). left. exact (Ts (al_pos l A)).
  - right. exists (adv l w).
    assert (N : next l = (Err EOther, adv l w)) by (unfold M_WitLex.next; now rewrite (al_peek l A)).
    split; [exact N|]. intros ty w' r' Hr Ht Hs.
    destruct (next_complete l ty w' r' A Hr Ht Hs) as (t & l'' & N' & _). rewrite N in N'. discriminate.
Qed.

(** A lexer that has not met an error is aligned, up to a peeked token. *)
Definition unpeek (l : lexer) : Prop :=
  aligned l \/ exists l0 t, aligned l0 /\ l_input l0 = l_input l /\ next l0 = (Ok t, set_peek l None) /\ l_peek l = Some t.

Lemma next_aligned_ok l t l' : aligned l -> next l = (Ok t, l') -> aligned l' /\ l_input l' = l_input l.
Proof.
  intros A E. destruct (next_sound l A) as [(t0 & l0 & E0 & A0 & I & _)|(l0 & E0 & _)]; rewrite E0 in E; inversion E; subst; auto.
Qed.

Definition token_ok (input : text) (t : token) : Prop :=
  exists rest, skipn (t_position t) input = t_capture t ++ rest /\
  ((token_text (t_type t) (t_capture t) /\ separate (t_type t) (t_capture t) rest) \/
   (t_type t = EndOfStream /\ rest = [] /\ t_capture t = [])).

Lemma next_aligned_token l t l' : aligned l -> next l = (Ok t, l') -> token_ok (l_input l) t.
Proof.
  intros A E. destruct (next_sound l A) as [(t0 & l0 & E0 & A0 & I & P & R & D)|(l0 & E0 & _)]; rewrite E0 in E; inversion E; subst.
  exists (rest l'). rewrite P. auto.
Qed.

Lemma set_peek_twice l t : l_peek l = None -> set_peek (set_peek l (Some t)) None = l.
Proof. destruct l; cbn. now intros ->. Qed.

Lemma calls_aligned ops : forall l, unpeek l -> no_error (fst (calls ops l)) ->
  unpeek (snd (calls ops l)) /\ l_input (snd (calls ops l)) = l_input l /\
  forall o t, In (o, Ok t) (fst (calls ops l)) -> token_ok (l_input l) t.
Proof.
  induction ops as [|o ops IH]; intros l Up N; [cbn; split; [assumption|split; [reflexivity|tauto]]|].
  cbn [S_WitLex.calls] in *. destruct (call o l) as [r l1] eqn:Ec. specialize (IH l1).
  destruct (calls ops l1) as [h l2]. cbn [fst snd] in *.
  destruct (N o r) as [t Er]; [now left|]. subst r.
  assert (G : unpeek l1 /\ l_input l1 = l_input l /\ token_ok (l_input l) t).
  { destruct o; cbn [S_WitLex.call] in Ec.
    - destruct Up as [A|(l0 & t0 & A & I & E & K)].
      + destruct (next_aligned_ok _ _ _ A Ec) as [A1 I1]. split; [now left|]. split; [assumption|].
        now apply (next_aligned_token l t l1).
      + unfold M_WitLex.next in Ec. rewrite K in Ec. inversion Ec; subst.
        destruct (next_aligned_ok _ _ _ A E) as [A1 I1]. split; [now left|]. split; [reflexivity|].
        rewrite <- I. now apply (next_aligned_token _ _ _ A E).
    - destruct Up as [A|(l0 & t0 & A & I & E & K)].
      + pose proof (peek_next l (al_peek l A)) as P.
        destruct (next l) as [r l9] eqn:En. destruct r as [t9|e| |].
        * destruct P as [P _]. rewrite P in Ec. inversion Ec; subst.
          destruct (next_aligned_ok _ _ _ A En) as [A1 I1]. split.
          -- right. exists l, t. split; [assumption|]. cbn. split; [congruence|]. split; [|reflexivity].
             rewrite En. f_equal. symmetry. apply set_peek_twice. apply A1.
          -- split; [exact I1|]. now apply (next_aligned_token _ _ _ A En).
        * rewrite P in Ec. discriminate.
        * destruct (next_sound l A) as [(? & ? & E0 & _)|(? & E0 & _)]; congruence.
        * destruct (next_sound l A) as [(? & ? & E0 & _)|(? & E0 & _)]; congruence.
      + unfold M_WitLex.peek in Ec. rewrite K in Ec. inversion Ec; subst. split; [right; now exists l0, t|].
        split; [reflexivity|]. rewrite <- I. now apply (next_aligned_token _ _ _ A E). }
  destruct G as (U1 & I1 & T1). destruct IH as (U2 & I2 & T2); [assumption|intros o' r' Hin; apply (N o' r'); now right|].
  split; [assumption|]. split; [congruence|]. intros o' t' [E|Hin]; [inversion E; now subst|].
  rewrite <- I1. now apply (T2 o').
Qed.

Lemma new_aligned input : aligned (new_lexer input).
Proof. constructor; cbn; auto. unfold inside. cbn. lia. Qed.

Lemma token_nonempty ty : ~ token_text ty [].
Proof.
  assert (K : forall s k, In (s, k) (keywords ++ marks) -> [] <> txt s).
  { intros s k H E. assert (F : Forall (fun p => txt (fst p) <> []) (keywords ++ marks)).
    { cbn [keywords marks app]. repeat (apply Forall_cons; [discriminate|]). constructor. }
    rewrite Forall_forall in F. now apply (F (s, k) H). }
  intros H. destruct ty; cbn in H;
    try (destruct H as (s & Hin & E); now apply (K s _ Hin)); try tauto.
  - destruct H as (b & E & _). discriminate.
  - destruct H as (b & E & _). discriminate.
  - destruct H as ((r & rs & _ & _ & _ & _ & B) & _). cbn in B. symmetry in B. apply app_eq_nil in B.
    now apply (utf8_nonempty r).
  - destruct H as [H|(v & H & _)]; discriminate.
Qed.

Lemma read_back_from ts : forall l, aligned l -> rest l = concat (map snd ts) -> separated ts ->
  exists rs l' te, calls (repeat ONext (length ts)) l = (map (fun t => (ONext, Ok t)) rs, l') /\
    map (fun t => (t_type t, t_capture t)) rs = ts /\
    fst (next l') = Ok te /\ t_type te = EndOfStream /\ t_capture te = [].
Proof.
  induction ts as [|[ty w] ts IH]; intros l A Hr Hs; cbn [concat map] in *.
  - exists [], l. cbn [S_WitLex.calls repeat length].
    destruct (next_sound l A) as [(t & l' & E & A' & I & P & R & D)|(l' & E & D)].
    + exists t. rewrite E. rewrite Hr in R. symmetry in R. apply app_eq_nil in R. destruct R as [R1 R2].
      split; [reflexivity|]. split; [reflexivity|]. split; [reflexivity|]. split; [|assumption].
      destruct D as [[D _]|[D _]]; [|assumption]. exfalso. rewrite R1 in D. now apply (token_nonempty _ D).
    + exfalso. destruct (next_raw_shape U HU l (al_inside l A)) as [[_ E2]|(w & s & Er & Nw & _)].
      * unfold M_WitLex.next in E. rewrite (al_peek l A), E2 in E. unfold make_token in E. destruct (advance _ _ _); discriminate.
      * rewrite Hr in Er. symmetry in Er. apply app_eq_nil in Er. tauto.
  - destruct Hs as (Ht & Hsep & Hs).
    destruct (next_complete l ty w _ A Hr Ht Hsep) as (t & l' & E & T1 & T2 & T3 & A' & I & R).
    destruct (IH l' A' R Hs) as (rs & lf & te & C & M & F & Ty).
    exists (t :: rs), lf, te. cbn [length repeat S_WitLex.calls S_WitLex.call map]. rewrite E, C.
    split; [reflexivity|]. split; [|auto]. rewrite M, T1, T2. reflexivity.
Qed.

End Tables.
