(** Properties C36, C37, C38 and C53: the WAT lexer. *)
From Coq Require Import Arith NArith String Ascii Bool List Lia.
From Verif Require Import GoBase M_Text M_WatLex S_WatLex L_WatLex L_WatTokens L_WatNum.
Import ListNotations.

(** A file with every kind of token, used in the examples. *)
Definition sample : text :=
  txt "(module ;; c" ++ [newline] ++ txt " $f 0x1F (; ;b; ;) " ++ [quote] ++ txt "s" ++ [quote] ++ txt " 0x1.8p+3)".

(** ** Histories *)

(** Tokens that follow each other from [p] to [q]. *)
Inductive follows (input : text) : nat -> list token -> nat -> Prop :=
| follows_nil p : follows input p [] p
| follows_cons p t ts q : t_position t = p -> good_token input t ->
    follows input (p + length (t_capture t)) ts q -> follows input p (t :: ts) q.

Lemma calls_good ops : forall l h l', inv l -> calls ops l = (h, l') ->
  inv l' /\ l_input l' = l_input l /\ l_rules l' = l_rules l /\
  follows (l_input l) (start l) (taken h) (start l') /\
  (forall o r, In (o, r) h -> (exists t, r = Ok t /\ good_token (l_input l) t) \/
     (o = ONext /\ r = Err EOther) \/ (o = OPeek /\ r = Panic)).
Proof.
  induction ops as [|o ops IH]; intros l h l' Hi H; cbn in H.
  - inversion H; subst. cbn. split; [assumption|]. split; [reflexivity|]. split; [reflexivity|]. split; [constructor|tauto].
  - destruct (call o l) as [r l1] eqn:Ec. destruct (calls ops l1) as [h1 l2] eqn:Eh.
    inversion H; subst. destruct o; cbn [call] in Ec.
    + destruct (next_good l Hi) as [(t & l1' & E & G & P & I & R & V & K & S)|(l1' & E & I & R & V & K & S)];
        rewrite E in Ec; inversion Ec; subst r l1;
        destruct (IH _ _ _ V Eh) as (V2 & I2 & R2 & F2 & A2).
      * split; [assumption|]. split; [congruence|]. split; [congruence|]. split.
        -- cbn. rewrite <- P. constructor; [reflexivity|assumption|]. rewrite <- S, <- I. exact F2.
        -- intros o r [E'|Hin]; [inversion E'; subst; left; eauto|]. rewrite I in A2. now apply A2.
      * split; [assumption|]. split; [congruence|]. split; [congruence|]. split.
        -- cbn. rewrite <- S, <- I. exact F2.
        -- intros o r [E'|Hin]; [inversion E'; subst; auto|]. rewrite I in A2. now apply A2.
    + destruct (peek_good l Hi) as [(t & l1' & E & G & P & I & R & V & S & K)|(l1' & E & I & R & V & S)];
        rewrite E in Ec; inversion Ec; subst r l1;
        destruct (IH _ _ _ V Eh) as (V2 & I2 & R2 & F2 & A2).
      * split; [assumption|]. split; [congruence|]. split; [congruence|]. split.
        -- cbn. rewrite <- S, <- I. exact F2.
        -- intros o r [E'|Hin]; [inversion E'; subst; left; eauto|]. rewrite I in A2. now apply A2.
      * split; [assumption|]. split; [congruence|]. split; [congruence|]. split.
        -- cbn. rewrite <- S, <- I. exact F2.
        -- intros o r [E'|Hin]; [inversion E'; subst; auto|]. rewrite I in A2. now apply A2.
Qed.

Lemma follows_text input p ts q : follows input p ts q -> (p <= length input)%nat ->
  skipn p input = captures ts ++ skipn q input /\ (q <= length input)%nat /\
  q = (p + length (captures ts))%nat.
Proof.
  induction 1 as [p|p t ts q E G F IH]; intros Hp; [cbn; split; [reflexivity|split; lia]|].
  destruct G as (rest & Er & Hle & _ & _ & _). subst p.
  assert (L : (t_position t + length (t_capture t) <= length input)%nat).
  { apply (f_equal (@length ascii)) in Er. rewrite skipn_length, app_length in Er. lia. }
  destruct (IH L) as (E1 & E2 & E3). unfold captures in *. cbn.
  rewrite Er, <- app_assoc, app_length. split; [|split; [assumption|lia]]. f_equal. rewrite <- E1.
  rewrite <- skipn_skipn_add, Er, skipn_app, skipn_all, Nat.sub_diag. reflexivity.
Qed.

Lemma follows_split input before : forall p t after q, follows input p (before ++ t :: after) q ->
  follows input p before (t_position t) /\ good_token input t /\
  follows input (t_position t + length (t_capture t)) after q.
Proof.
  induction before as [|b before IH]; intros p t after q H; cbn in H.
  - inversion H; subst. split; [constructor|]. auto.
  - inversion H; subst. destruct (IH _ _ _ _ H6) as (F & G & F2). split; [|auto]. now constructor.
Qed.

(** C36: the tokens taken by any history of Next and Peek calls, with or
    without errors in between, cut the input into consecutive pieces: nothing
    is lost, nothing is invented, and each position is the length of what
    comes before. After an end-of-stream token nothing is left. *)
Theorem tokens_cut_the_input : forall swap input ops,
  let ts := taken (fst (calls ops (new_lexer swap input))) in
  exists rest, input = captures ts ++ rest /\
    (forall t, In t ts -> t_type t = EndOfStream -> rest = []) /\
    (forall before t after, ts = before ++ t :: after -> t_position t = length (captures before)).
Proof.
  intros swap input ops. destruct (calls ops (new_lexer swap input)) as [h l] eqn:E. cbn [fst].
  destruct (calls_good _ _ _ _ (fresh_ok swap input) E) as (V & I & R & F & _). cbn in F.
  exists (skipn (start l) input).
  destruct (follows_text _ _ _ _ F ltac:(lia)) as (E1 & E2 & E3).
  split; [exact E1|]. split.
  - intros t Ht Hty. apply in_split in Ht. destruct Ht as (a & b & Eab). rewrite Eab in F.
    destruct (follows_split _ _ _ _ _ _ F) as (F1 & (rest & Er & Hle & _ & Heos & _) & F2).
    specialize (Heos Hty). subst rest. rewrite app_nil_r in Er.
    apply (f_equal (@length ascii)) in Er. rewrite skipn_length in Er.
    destruct (follows_text _ _ _ _ F2 ltac:(lia)) as (_ & E5 & E6). apply skipn_all2. lia.
  - intros before t after Eab. rewrite Eab in F.
    destruct (follows_split _ _ _ _ _ _ F) as (F1 & _ & _).
    destruct (follows_text _ _ _ _ F1 ltac:(lia)) as (_ & _ & E6). exact E6.
Qed.

Example tokens_cut_the_input_case :
  map (fun t => (t_type t, t_position t)) (taken (fst (calls [ONext; OPeek; ONext; ONext; ONext] (new_lexer true sample)))) =
  [(OpenParen, 0); (TModule, 1); (Whitespace, 7); (LineComment, 8)]%nat.
Proof. vm_compute. reflexivity. Qed.

Lemma advance_newlines w : forall line column,
  fst (advance line column w) = (line + newlines w)%nat.
Proof.
  unfold newlines. induction w as [|c w IH]; intros line column; cbn [advance]; [cbn; lia|].
  destruct (Ascii.eqb c newline) eqn:E; rewrite IH.
  - apply Ascii.eqb_eq in E. subst c. rewrite count_occ_cons_eq by reflexivity. lia.
  - apply Ascii.eqb_neq in E. rewrite count_occ_cons_neq by assumption. reflexivity.
Qed.

Lemma advance_column w : exists l, last_line w l /\ snd (advance 0 0 w) = length l.
Proof.
  assert (G : forall w line column l0, length l0 = column -> ~ In newline l0 ->
    exists l, ~ In newline l /\ (l = l0 ++ w \/ exists a, w = a ++ newline :: l) /\ snd (advance line column w) = length l).
  { clear w. induction w as [|c w IH]; intros line column l0 L N; cbn [advance].
    - exists l0. rewrite app_nil_r. auto.
    - destruct (Ascii.eqb c newline) eqn:E.
      + apply Ascii.eqb_eq in E. subst c. destruct (IH (S line) 0%nat [] eq_refl ltac:(cbn; tauto)) as (l & Nl & D & S).
        exists l. split; [assumption|]. split; [|assumption]. right.
        destruct D as [->|(a & ->)]; [now exists []|]. now exists (newline :: a).
      + apply Ascii.eqb_neq in E. destruct (IH line (S column) (l0 ++ [c])) as (l & Nl & D & S).
        * rewrite app_length. cbn. lia.
        * rewrite in_app_iff. cbn. intuition.
        * exists l. split; [assumption|]. split; [|assumption].
          destruct D as [->|(a & ->)]; [left; now rewrite <- app_assoc|]. right. now exists (c :: a). }
  destruct (G w 0%nat 0%nat [] eq_refl ltac:(cbn; tauto)) as (l & N & D & S). exists l. split; [|assumption].
  split; [assumption|]. destruct D as [->|D]; [left; reflexivity|now right].
Qed.

(** C37: the line of a token is the number of newlines before it in the input
    and its column the number of bytes since the last of them. *)
Theorem lines_and_columns : forall swap input ops t,
  (exists o, In (o, Ok t) (fst (calls ops (new_lexer swap input)))) ->
  t_line t = newlines (firstn (t_position t) input) /\
  exists l, last_line (firstn (t_position t) input) l /\ t_column t = length l.
Proof.
  intros swap input ops t (o & H). destruct (calls ops (new_lexer swap input)) as [h l] eqn:E. cbn [fst] in H.
  destruct (calls_good _ _ _ _ (fresh_ok swap input) E) as (V & I & R & F & A). cbn in A.
  destruct (A _ _ H) as [(t' & Et & G)|[[_ K]|[_ K]]]; try discriminate. inversion Et; subst t'.
  destruct G as (rest & _ & _ & Sd & _). unfold sound_at in Sd.
  pose proof (advance_newlines (firstn (t_position t) input) 0 0) as L.
  destruct (advance_column (firstn (t_position t) input)) as (ll & Hl & C).
  rewrite Sd in L, C. cbn in L, C. split; [assumption|]. now exists ll.
Qed.

Example lines_and_columns_case :
  map (fun t => (t_type t, t_line t, t_column t)) (skipn 4 (taken (fst (calls (repeat ONext 8) (new_lexer false sample))))) =
  [(Whitespace, 1, 0); (TId, 1, 1); (Whitespace, 1, 3); (TInteger, 1, 4)]%nat.
Proof. vm_compute. reflexivity. Qed.

(** ** C38: progress *)

Lemma reachable_inv swap input l : reachable swap input l -> inv l /\ l_input l = input /\ l_rules l = rules swap.
Proof.
  intros (ops & ->). destruct (calls ops (new_lexer swap input)) as [h l] eqn:E.
  destruct (calls_good _ _ _ _ (fresh_ok swap input) E) as (V & I & R & _). auto.
Qed.

(** Next gives a token or an error, whatever happened before; it never
    panics. A token without text is the end of the stream. *)
Theorem next_gives_token_or_error : forall swap input l, reachable swap input l ->
  (exists t, fst (next l) = Ok t /\ (t_capture t = [] -> t_type t = EndOfStream)) \/ fst (next l) = Err EOther.
Proof.
  intros swap input l H. apply reachable_inv in H. destruct H as (Hi & _).
  destruct (next_good l Hi) as [(t & l' & E & (rest & _ & _ & _ & _ & G) & _)|(l' & E & _)]; rewrite E; cbn; eauto.
Qed.

Lemma next_count_cons o ops : next_count (o :: ops) = (match o with ONext => 1 | OPeek => 0 end + next_count ops)%nat.
Proof. destruct o; reflexivity. Qed.

Definition spent (l : lexer) (k : nat) : Prop :=
  match l_peek l with
  | None => (k <= l_position l)%nat \/ l_position l = length (l_input l)
  | Some t => (S k <= l_position l)%nat \/ (l_position l = length (l_input l) /\ t_type t = EndOfStream)
  end.

Lemma calls_spent ops : forall l k, inv l -> spent l k ->
  spent (snd (calls ops l)) (next_count ops + k).
Proof.
  induction ops as [|o ops IH]; intros l k Hi Hs; [exact Hs|].
  cbn [calls]. destruct (call o l) as [r l1] eqn:Ec. specialize (IH l1).
  destruct (calls ops l1) as [h l2] eqn:Eh. cbn [snd] in *. rewrite next_count_cons.
  assert (G : inv l1 /\ spent l1 (match o with ONext => 1 | OPeek => 0 end + k)).
  { destruct o; cbn [call] in Ec.
    - unfold next in Ec. unfold spent in Hs. destruct (l_peek l) as [t|] eqn:Ep.
      + inversion Ec; subst. split; [destruct Hi; constructor; cbn; auto; discriminate|].
        unfold spent. cbn. destruct Hs as [Hs|[Hs _]]; auto.
      + destruct (next_raw_good l Hi Ep) as [(t & l' & E & G & P & I & R & O & K & L & V & D)|(l' & E & I & R & O & K & V & D)];
          rewrite E in Ec; inversion Ec; subst; (split; [assumption|]); unfold spent; rewrite K, I.
        * destruct D as [D|[D Ty]].
          -- destruct Hs as [Hs|Hs]; [left; lia|]. pose proof (inv_order _ V) as Q. rewrite I in Q. lia.
          -- right. pose proof (inv_order _ V) as Q. rewrite I in Q. 
             destruct G as (rest & Er & Hle & _ & Heos & _). rewrite (Heos Ty), app_nil_r in Er.
             apply (f_equal (@length ascii)) in Er. rewrite skipn_length in Er. lia.
        * destruct Hs as [Hs|Hs]; [left; lia|]. pose proof (inv_order _ V) as Q. rewrite I in Q. lia.
    - unfold peek in Ec. unfold spent in Hs. destruct (l_peek l) as [t|] eqn:Ep.
      + inversion Ec; subst. split; [assumption|]. unfold spent. now rewrite Ep.
      + destruct (next_raw_good l Hi Ep) as [(t & l' & E & G & P & I & R & O & K & L & V & D)|(l' & E & I & R & O & K & V & D)];
          rewrite E in Ec; inversion Ec; subst.
        * split.
          -- destruct V as [V1 V2 V3 V4]. constructor; cbn; auto. intros u Hu. inversion Hu; subst.
             rewrite I. split; [assumption|]. lia.
          -- unfold spent. cbn. rewrite I. pose proof (inv_order _ V) as Q. rewrite I in Q.
             destruct D as [D|[D Ty]].
             ++ destruct Hs as [Hs|Hs]; [left; lia|]. lia.
             ++ right. split; [|assumption]. destruct G as (rest & Er & Hle & _ & Heos & _).
                rewrite (Heos Ty), app_nil_r in Er.
                apply (f_equal (@length ascii)) in Er. rewrite skipn_length in Er. lia.
        * split; [assumption|]. unfold spent. rewrite K, I.
          destruct Hs as [Hs|Hs]; [left; lia|]. pose proof (inv_order _ V) as Q. rewrite I in Q. lia. }
  destruct G as [Hi1 Hs1]. replace (match o with ONext => 1 | OPeek => 0 end + next_count ops + k)%nat
    with (next_count ops + (match o with ONext => 1 | OPeek => 0 end + k))%nat by lia.
  now apply IH.
Qed.

(** Tokenisation ends: once Next has been called as often as the input has
    bytes, every further call gives the end of the stream, whether or not
    there were errors or Peek calls in between. *)
Theorem tokenisation_ends : forall swap input ops, (length input <= next_count ops)%nat ->
  exists t, fst (next (snd (calls ops (new_lexer swap input)))) = Ok t /\ t_type t = EndOfStream.
Proof.
  intros swap input ops Hn.
  pose proof (calls_spent ops (new_lexer swap input) 0 (fresh_ok swap input)) as Hs.
  specialize (Hs ltac:(left; cbn; lia)). rewrite Nat.add_0_r in Hs.
  destruct (calls ops (new_lexer swap input)) as [h l] eqn:E. cbn [snd] in *.
  destruct (calls_good _ _ _ _ (fresh_ok swap input) E) as (V & I & R & _). cbn in I.
  pose proof (inv_order _ V) as Q. rewrite I in Q. unfold spent in Hs. unfold next.
  destruct (l_peek l) as [t|] eqn:Ep.
  - destruct Hs as [Hs|[_ Hs]]; [lia|]. exists t. auto.
  - rewrite next_raw_cases. rewrite (skipn_all2 (l_input l)) by (rewrite I in *; lia).
    unfold ok_token. cbn [fst]. exists (fst (make_token l EndOfStream)). split; [reflexivity|].
    unfold make_token. destruct (advance _ _ _). reflexivity.
Qed.

(** Not every input is used up sooner: one Next per byte can be needed. *)
Example tokenisation_ends_case :
  map t_type (taken (fst (calls (repeat ONext 6) (new_lexer false (txt "(()))"))))) =
  [OpenParen; OpenParen; CloseParen; CloseParen; CloseParen; EndOfStream].
Proof. vm_compute. reflexivity. Qed.

(** ** C38: Peek *)

(** Peek gives the token the next Next gives, as often as it is asked, and
    does not change what Next gives or leaves. *)
Theorem peek_is_next : forall swap input l t l', reachable swap input l -> next l = (Ok t, l') ->
  exists lp, peek l = (Ok t, lp) /\ peek lp = (Ok t, lp) /\ next lp = (Ok t, l').
Proof.
  intros swap input l t l' H E. apply reachable_inv in H. destruct H as (Hi & _).
  destruct (l_peek l) as [u|] eqn:Ep.
  - exists l. unfold next, peek in *. rewrite Ep in *. inversion E; subst. auto.
  - pose proof (peek_next l Ep) as P. rewrite E in P. destruct P as [P1 P2]. eexists. split; [exact P1|].
    split; [unfold peek; reflexivity|]. apply P2.
    destruct (next_good l Hi) as [(t0 & l0 & E0 & _ & _ & _ & _ & _ & K & _)|(l0 & E0 & _)]; rewrite E0 in E; inversion E; now subst.
Qed.

(** Where Next reports an error, Peek panics. *)
Theorem peek_panics_on_error : forall swap input l, reachable swap input l ->
  (fst (peek l) = Panic <-> fst (next l) = Err EOther).
Proof.
  intros swap input l H. apply reachable_inv in H. destruct H as (Hi & _).
  destruct (l_peek l) as [u|] eqn:Ep.
  - unfold next, peek. rewrite Ep. cbn. split; discriminate.
  - pose proof (peek_next l Ep) as P.
    destruct (next_good l Hi) as [(t & l' & E & _)|(l' & E & _)]; rewrite E in P.
    + destruct P as [P _]. rewrite P, E. cbn. split; discriminate.
    + rewrite P, E. cbn. tauto.
Qed.

(** Peek does not report errors: on a character that starts no token it
    panics. *)
Theorem peek_reports_errors_refuted :
  ~ (forall swap input l, reachable swap input l -> fst (peek l) <> Panic).
Proof.
  intros H. apply (H false (txt ",") (new_lexer false (txt ","))); [|vm_compute; reflexivity]. now exists [].
Qed.

(** Peek calls are not visible: without them Next gives the same results. *)
Lemma peeks_from ops : forall l, inv l -> (forall o r, In (o, r) (fst (calls ops l)) -> r <> Panic) ->
  let ops' := filter (fun o => match o with ONext => true | OPeek => false end) ops in
  next_results (fst (calls ops l)) = next_results (fst (calls ops' l)) /\
  (* the state without the peeks is the state with the last peek undone *)
  (forall h lf h' lf', calls ops l = (h, lf) -> calls ops' l = (h', lf') -> next lf = next lf').
Proof.
  induction ops as [|o ops IH]; intros l Hi Hp ops'; cbn zeta in *.
  - split; [reflexivity|]. cbn. intros. congruence.
  - cbn [calls filter] in *. destruct o; cbn [call] in *.
    + destruct (next l) as [r l1] eqn:E. destruct (calls ops l1) as [h1 l2] eqn:Eh.
      assert (V : inv l1).
      { destruct (next_good l Hi) as [(t0 & l0 & E0 & _ & _ & _ & _ & V & _)|(l0 & E0 & _ & _ & V & _)]; rewrite E0 in E; inversion E; now subst. }
      specialize (IH l1 V). rewrite Eh in IH. cbn [fst] in *.
      destruct IH as [I1 I2]; [intros o r0 Hin; apply (Hp o r0); now right|].
      subst ops'. cbn [calls call]. rewrite E.
      destruct (calls (filter _ ops) l1) as [h3 l3] eqn:E3. cbn [fst] in *. split.
      * cbn. now rewrite I1.
      * intros h lf h' lf' Q1 Q2. inversion Q1; inversion Q2; subst. now apply (I2 _ _ _ _ eq_refl eq_refl).
    + destruct (peek l) as [r l1] eqn:E. destruct (calls ops l1) as [h1 l2] eqn:Eh. cbn [fst] in *.
      assert (Np : r <> Panic) by (apply (Hp OPeek r); now left).
      (* a successful peek leaves a lexer on which every history goes the same way *)
      assert (V : inv l1 /\ next l1 = next l).
      { destruct (l_peek l) as [u|] eqn:Ep.
        - unfold peek in E. rewrite Ep in E. inversion E; subst. auto.
        - pose proof (peek_next l Ep) as P.
          destruct (peek_good l Hi) as [(t0 & l0 & E0 & _ & _ & _ & _ & V & _)|(l0 & E0 & _)]; rewrite E0 in E; inversion E; subst; [|congruence].
          split; [assumption|].
          destruct (next_good l Hi) as [(t1 & l9 & E1 & _ & _ & _ & _ & _ & K & _)|(l9 & E1 & _)]; rewrite E1 in P.
          + destruct P as [P1 P2]. rewrite P1 in E0. inversion E0; subst. rewrite (P2 K). congruence.
          + rewrite P in E0. discriminate. }
      destruct V as [V N]. specialize (IH l1 V). rewrite Eh in IH. cbn [fst] in *.
      destruct IH as [I1 I2]; [intros o r0 Hin; apply (Hp o r0); now right|].
      subst ops'. cbn [next_results].
      (* the two filtered runs agree *)
      assert (Q : forall ns, (forall o, In o ns -> o = ONext) ->
        next_results (fst (calls ns l1)) = next_results (fst (calls ns l)) /\
        next (snd (calls ns l1)) = next (snd (calls ns l))).
      { intros [|o ns] Hns; [split; [reflexivity|exact N]|]. pose proof (Hns o (or_introl eq_refl)) as ->. cbn [calls call].
        rewrite N. split; reflexivity. }
      specialize (Q (filter (fun o => match o with ONext => true | OPeek => false end) ops)).
      assert (Hns : forall o, In o (filter (fun o => match o with ONext => true | OPeek => false end) ops) -> o = ONext).
      { intros o Ho. apply filter_In in Ho. destruct Ho as [_ Ho]. now destruct o. }
      specialize (Q Hns). destruct Q as [Q1 Q2]. split; [now rewrite I1|].
      intros h lf h' lf' C1 C2. inversion C1; subst.
      destruct (calls (filter _ ops) l1) as [h5 l5] eqn:E5. rewrite C2 in Q2. cbn [snd] in Q2.
      rewrite (I2 _ _ _ _ eq_refl eq_refl). exact Q2.
Qed.

Theorem peeks_are_invisible : forall swap input ops,
  (forall o r, In (o, r) (fst (calls ops (new_lexer swap input))) -> r <> Panic) ->
  next_results (fst (calls ops (new_lexer swap input))) =
  next_results (fst (calls (repeat ONext (next_count ops)) (new_lexer swap input))).
Proof.
  intros swap input ops H.
  destruct (peeks_from ops _ (fresh_ok swap input) H) as [E _]. rewrite E.
  do 3 f_equal. unfold next_count. clear. induction ops as [|[] ops IH]; cbn; [reflexivity| |assumption]. now f_equal.
Qed.

Example peeks_are_invisible_case :
  let ops := [OPeek; OPeek; ONext; OPeek; ONext; ONext; OPeek] in
  (forall o r, In (o, r) (fst (calls ops (new_lexer false (txt "(f 1)")))) -> r <> Panic) /\
  map (fun r => match r with Ok t => Some (t_type t) | _ => None end)
    (next_results (fst (calls ops (new_lexer false (txt "(f 1)"))))) = [Some OpenParen; Some Reserved; Some Whitespace].
Proof.
  split; [|vm_compute; reflexivity]. intros o r H. vm_compute in H. intuition congruence.
Qed.

(** ** C38: Clone *)

Lemma nth_set_nth {A} (s : list A) i j a :
  nth_error (set_nth s i a) j = if (i =? j)%nat then match nth_error s i with Some _ => Some a | None => None end else nth_error s j.
Proof.
  revert i j. induction s as [|x s IH]; intros [|i] [|j]; cbn; try reflexivity.
  - destruct (i =? j)%nat; reflexivity.
  - apply IH.
Qed.

Lemma ssteps_answers os : forall s i l, nth_error s i = Some l ->
  forall h s', ssteps os s = (h, s') ->
  exists ops l', calls ops l = (answers i h, l') /\ nth_error s' i = Some l'.
Proof.
  induction os as [|o os IH]; intros s i l Hl h s' H; cbn in H.
  - inversion H; subst. exists [], l. auto.
  - destruct (sstep o s) as [e s1] eqn:Es. destruct (ssteps os s1) as [h1 s2] eqn:Eh. inversion H; subst.
    destruct o as [j o|j]; cbn in Es.
    + destruct (nth_error s j) as [lj|] eqn:Ej.
      * destruct (call o lj) as [r lj'] eqn:Ec. inversion Es; subst.
        pose proof (nth_set_nth s j i lj') as N. destruct (j =? i)%nat eqn:Eji.
        -- apply Nat.eqb_eq in Eji. subst j. rewrite Hl in Ej. inversion Ej; subst lj. rewrite Hl in N.
           destruct (IH _ _ _ N _ _ Eh) as (ops & l' & C & F). exists (o :: ops), l'.
           cbn [calls answers]. rewrite Ec, C, Nat.eqb_refl. auto.
        -- rewrite Hl in N. destruct (IH _ _ _ N _ _ Eh) as (ops & l' & C & F). exists ops, l'.
           cbn [answers]. rewrite Nat.eqb_sym, Eji. auto.
      * inversion Es; subst. apply (IH _ _ _ Hl _ _ Eh).
    + destruct (nth_error s j) as [lj|] eqn:Ej; inversion Es; subst.
      * apply (IH (s ++ [clone lj]) i l); [|assumption]. rewrite nth_error_app1; [assumption|].
        apply nth_error_Some. congruence.
      * apply (IH _ _ _ Hl _ _ Eh).
Qed.

(** Any number of lexers, some of them clones of others, in use in any order:
    each answers as if it were alone, starting from the lexer it was cloned
    from. *)
Theorem clones_are_independent : forall s i l os1 h1 s1,
  ssteps os1 s = (h1, s1) -> nth_error s1 i = Some l ->
  forall os2 h2 s2, ssteps (SClone i :: os2) s1 = (h2, s2) ->
  (exists ops l', calls ops l = (answers i h2, l') /\ nth_error s2 i = Some l') /\
  (exists ops l', calls ops l = (answers (length s1) h2, l') /\ nth_error s2 (length s1) = Some l').
Proof.
  intros s i l os1 h1 s1 _ Hl os2 h2 s2 H.
  cbn in H. rewrite Hl in H. destruct (ssteps os2 (s1 ++ [clone l])) as [h3 s3] eqn:E. inversion H; subst.
  split; eapply ssteps_answers; try exact E.
  - rewrite nth_error_app1; [assumption|]. apply nth_error_Some. congruence.
  - rewrite nth_error_app2, Nat.sub_diag by lia. reflexivity.
Qed.

Example clones_are_independent_case :
  let (h, s) := ssteps [SCall 0 ONext; SClone 0; SCall 1 ONext; SCall 1 ONext; SCall 0 OPeek; SCall 0 ONext]
                  [new_lexer false (txt "(f g)")] in
  length s = 2%nat /\
  map (fun x => match x with (i, _, Ok t) => (i, t_type t) | (i, _, _) => (i, EndOfStream) end) h =
  [(0, OpenParen); (1, Reserved); (1, Whitespace); (0, Reserved); (0, Reserved)]%nat.
Proof. vm_compute. auto. Qed.

(** ** C53: texts of tokens *)

(** A lexer that has not met an error is aligned, up to a peeked token. *)
Definition unpeek (l : lexer) : Prop :=
  aligned l \/ exists l0 t, aligned l0 /\ l_input l0 = l_input l /\ next l0 = (Ok t, set_peek l None) /\ l_peek l = Some t.

Lemma next_aligned_ok l t l' : aligned l -> next l = (Ok t, l') -> aligned l' /\ l_input l' = l_input l.
Proof.
  intros A E. destruct (next_sound l A) as [(t0 & l0 & E0 & A0 & I & _)|(l0 & E0 & _)]; rewrite E0 in E; inversion E; subst; auto.
Qed.

Definition token_ok (input : text) (t : token) : Prop :=
  exists rest, skipn (t_position t) input = t_capture t ++ rest /\
  ((token_text (t_type t) (t_capture t) /\ separate (t_type t) rest) \/
   (t_type t = EndOfStream /\ rest = [] /\ (t_capture t = [] \/ unfinished (t_capture t)))).

Lemma next_aligned_token l t l' : aligned l -> next l = (Ok t, l') -> token_ok (l_input l) t.
Proof.
  intros A E. destruct (next_sound l A) as [(t0 & l0 & E0 & A0 & I & P & R & D)|(l0 & E0 & _)]; rewrite E0 in E; inversion E; subst.
  exists (rest_of l'). rewrite P. auto.
Qed.

Lemma set_peek_twice l t : l_peek l = None -> set_peek (set_peek l (Some t)) None = l.
Proof. destruct l; cbn. now intros ->. Qed.

Lemma calls_aligned ops : forall l, unpeek l -> no_error (fst (calls ops l)) ->
  unpeek (snd (calls ops l)) /\ l_input (snd (calls ops l)) = l_input l /\
  forall o t, In (o, Ok t) (fst (calls ops l)) -> token_ok (l_input l) t.
Proof.
  induction ops as [|o ops IH]; intros l U N; [cbn; split; [assumption|split; [reflexivity|tauto]]|].
  cbn [calls] in *. destruct (call o l) as [r l1] eqn:Ec. specialize (IH l1).
  destruct (calls ops l1) as [h l2]. cbn [fst snd] in *.
  destruct (N o r) as [t Er]; [now left|]. subst r.
  assert (G : unpeek l1 /\ l_input l1 = l_input l /\ token_ok (l_input l) t).
  { destruct o; cbn [call] in Ec.
    - destruct U as [A|(l0 & t0 & A & I & E & K)].
      + destruct (next_aligned_ok _ _ _ A Ec) as [A1 I1]. split; [now left|]. split; [assumption|].
        now apply (next_aligned_token l t l1).
      + unfold next in Ec. rewrite K in Ec. inversion Ec; subst.
        destruct (next_aligned_ok _ _ _ A E) as [A1 I1]. split; [now left|]. split; [reflexivity|].
        rewrite <- I. now apply (next_aligned_token _ _ _ A E).
    - destruct U as [A|(l0 & t0 & A & I & E & K)].
      + pose proof (peek_next l (al_peek l A)) as P.
        destruct (next l) as [r l9] eqn:En. destruct r as [t9|e| |].
        * destruct P as [P _]. rewrite P in Ec. inversion Ec; subst.
          destruct (next_aligned_ok _ _ _ A En) as [A1 I1]. split.
          -- right. exists l, t. split; [assumption|]. cbn. split; [congruence|]. split; [|reflexivity].
             rewrite En. f_equal. symmetry. apply set_peek_twice. apply A1.
          -- split; [exact I1|]. now apply (next_aligned_token _ _ _ A En).
        * rewrite P in Ec. discriminate.
        * destruct (next_sound l A) as [(? & ? & E0 & _)|(? & E0 & _)]; congruence.
        * destruct (next_sound l A) as [(? & ? & E0 & _)|(? & E0 & _)]; congruence.
      + unfold peek in Ec. rewrite K in Ec. inversion Ec; subst. split; [right; now exists l0, t|].
        split; [reflexivity|]. rewrite <- I. now apply (next_aligned_token _ _ _ A E). }
  destruct G as (U1 & I1 & T1). destruct IH as (U2 & I2 & T2); [assumption|intros o' r' Hin; apply (N o' r'); now right|].
  split; [assumption|]. split; [congruence|]. intros o' t' [E|Hin]; [inversion E; now subst|].
  rewrite <- I1. now apply (T2 o').
Qed.

Lemma new_aligned swap input : aligned (new_lexer swap input).
Proof. constructor; cbn; auto. now exists swap. Qed.

(** As long as no error was reported, every token's text is of the token's
    type, and the token could not have been longer. Only the end-of-stream
    token can carry a text of no type: an unfinished comment or string. *)
Theorem token_texts : forall swap input ops o t,
  no_error (fst (calls ops (new_lexer swap input))) ->
  In (o, Ok t) (fst (calls ops (new_lexer swap input))) ->
  exists rest, skipn (t_position t) input = t_capture t ++ rest /\
  ((token_text (t_type t) (t_capture t) /\ separate (t_type t) rest) \/
   (t_type t = EndOfStream /\ rest = [] /\ (t_capture t = [] \/ unfinished (t_capture t)))).
Proof.
  intros swap input ops o t N H.
  destruct (calls_aligned ops (new_lexer swap input) (or_introl (new_aligned _ _)) N) as (_ & _ & T).
  exact (T _ _ H).
Qed.

(** The other way round: a file written as tokens, each as long as it can be,
    is read back as exactly these tokens, then the end of the stream. *)
Lemma read_back_from ts : forall l, aligned l -> rest_of l = concat (map snd ts) -> separated ts ->
  exists rs l' te, calls (repeat ONext (length ts)) l = (map (fun t => (ONext, Ok t)) rs, l') /\
    map (fun t => (t_type t, t_capture t)) rs = ts /\
    fst (next l') = Ok te /\ t_type te = EndOfStream /\ t_capture te = [].
Proof.
  induction ts as [|[ty w] ts IH]; intros l A Hr Hs; cbn [concat map] in *.
  - unfold rest_of in Hr. exists [], l. cbn [calls repeat length].
    assert (E : exists te, fst (next l) = Ok te /\ t_type te = EndOfStream /\ t_capture te = []).
    { destruct (next_sound l A) as [(t & l' & E & A' & I & P & R & D)|(l' & E & D)].
      - exists t. rewrite E. unfold rest_of in R at 1. rewrite Hr in R. symmetry in R. apply app_eq_nil in R.
        destruct R as [R1 R2]. split; [reflexivity|]. split; [|assumption].
        destruct D as [[D _]|[D _]]; [|assumption]. exfalso. rewrite R1 in D. clear - D.
        destruct (brun_complete _ _ D) as (p & rt & B & _). discriminate.
      - exfalso. unfold next in E. rewrite (al_peek l A), next_raw_cases, Hr in E.
        unfold ok_token in E. discriminate. }
    destruct E as (te & E). exists te. split; [reflexivity|]. split; [reflexivity|]. exact E.
  - destruct Hs as (Ht & Hsep & Hs).
    destruct (next_complete l ty w _ A Hr Ht Hsep) as (t & l' & E & T1 & T2 & T3 & A' & I & R).
    destruct (IH l' A' R Hs) as (rs & lf & te & C & M & F & Ty).
    exists (t :: rs), lf, te. cbn [length repeat calls call map]. rewrite E, C.
    split; [reflexivity|]. split; [|auto]. rewrite M, T1, T2. reflexivity.
Qed.

Theorem tokens_read_back : forall swap ts, separated ts ->
  exists rs l' te, calls (repeat ONext (length ts)) (new_lexer swap (concat (map snd ts))) =
      (map (fun t => (ONext, Ok t)) rs, l') /\
    map (fun t => (t_type t, t_capture t)) rs = ts /\
    fst (next l') = Ok te /\ t_type te = EndOfStream /\ t_capture te = [].
Proof. intros swap ts H. apply read_back_from; [apply new_aligned|reflexivity|assumption]. Qed.

(** A file is rejected only where no token fits. *)
Theorem error_means_no_token : forall swap input ops,
  no_error (fst (calls ops (new_lexer swap input))) ->
  let l := snd (calls ops (new_lexer swap input)) in
  fst (next l) = Err EOther ->
  forall ty w r, skipn (length (captures (taken (fst (calls ops (new_lexer swap input)))))) input = w ++ r ->
  token_text ty w -> ~ separate ty r.
Proof.
  intros swap input ops N l E ty w r Hr.
  destruct (calls_aligned ops (new_lexer swap input) (or_introl (new_aligned _ _)) N) as (U & I & _). fold l in U, I.
  destruct (calls ops (new_lexer swap input)) as [h l9] eqn:Ec. cbn [fst snd] in *. subst l.
  destruct (calls_good _ _ _ _ (fresh_ok swap input) Ec) as (V & _ & _ & F & _). cbn in F.
  destruct (follows_text _ _ _ _ F ltac:(lia)) as (_ & _ & E3). cbn in E3.
  destruct U as [A|(l0 & t0 & _ & _ & _ & K)].
  - destruct (next_sound l9 A) as [(t & l' & En & _)|(l' & En & D)]; [rewrite En in E; discriminate|].
    apply D. unfold rest_of. rewrite I. cbn. rewrite <- Hr. f_equal. rewrite <- E3.
    unfold start. rewrite (al_peek _ A). symmetry. apply A.
  - unfold next in E. rewrite K in E. discriminate.
Qed.

Lemma not_begins_space c r : is_space c = false -> ~ begins_with space (c :: r).
Proof. intros H. unfold begins_with. rewrite <- space_ok. congruence. Qed.
Lemma not_begins_id c r : is_id_char c = false -> ~ begins_with id_char (c :: r).
Proof. intros H. unfold begins_with. rewrite <- id_char_ok. congruence. Qed.

Lemma word_ok w : forallb is_id_char w = true -> w <> [] -> words id_char w.
Proof.
  intros H N. split; [assumption|]. apply Forall_forall. intros c Hc. apply id_char_ok.
  rewrite forallb_forall in H. auto.
Qed.

Example tokens_read_back_case : separated
  [(OpenParen, txt "("); (TModule, txt "module"); (Whitespace, txt " "); (TId, txt "$f"); (Whitespace, [newline]);
   (TString, [quote] ++ txt "a b" ++ [quote]); (TInteger, txt "-0x1F"); (CloseParen, txt ")")].
Proof.
  split; [reflexivity|]. split; [cbn; discriminate|].
  split; [reflexivity|]. split; [apply not_begins_id; reflexivity|].
  split; [split; [discriminate|repeat constructor]|]. split; [apply not_begins_space; reflexivity|].
  split; [exists (txt "f"); split; [reflexivity|apply word_ok; [reflexivity|discriminate]]|].
  split; [apply not_begins_id; reflexivity|].
  split; [split; [discriminate|repeat constructor]; apply space_ok; reflexivity|]. split; [apply not_begins_space; reflexivity|].
  split; [exists (txt "a b"); split; [reflexivity|vm_compute; intuition discriminate]|]. split; [exact I|].
  split; [apply is_integer_ok; reflexivity|]. split; [apply not_begins_id; reflexivity|].
  split; [reflexivity|]. split; exact I.
Qed.

(** ** C53: numbers of the WebAssembly text format *)

Lemma wasm_num_digits P w : wasm_num P w -> digits P w.
Proof.
  induction 1 as [c H|c w H Hw (d & w' & -> & Hd & Hw')|c w H Hw (d & w' & -> & Hd & Hw')].
  - exists c, []. auto.
  - exists c, (d :: w'). split; [reflexivity|]. split; [assumption|]. constructor; auto.
  - exists c, ("_"%char :: d :: w'). split; [reflexivity|]. split; [assumption|]. constructor; [now right|]. constructor; auto.
Qed.

(** The first token of a text. *)
Definition first_type (w : text) : outcome toktype :=
  match fst (next (new_lexer false w)) with Ok t => Ok (t_type t) | Err e => Err e | Panic => Panic | Diverge => Diverge end.

(** Integers of the format are integer tokens. *)
Theorem wasm_integers : forall swap s n rest, opt_sign s ->
  (wasm_num dec_digit n \/ exists m, n = txt "0x" ++ m /\ wasm_num hex_digit m) -> ~ begins_with id_char rest ->
  exists t l, next (new_lexer swap ((s ++ n) ++ rest)) = (Ok t, l) /\ t_type t = TInteger /\ t_capture t = s ++ n.
Proof.
  intros swap s n rest Hs Hn Hr.
  destruct (next_complete (new_lexer swap ((s ++ n) ++ rest)) TInteger (s ++ n) rest) as (t & l & E & T & C & _).
  - apply new_aligned.
  - reflexivity.
  - cbn. exists s. destruct Hn as [Hn|(m & -> & Hn)].
    + exists n. split; [assumption|]. left. split; [reflexivity|now apply wasm_num_digits].
    + exists m. split; [assumption|]. right. split; [reflexivity|now apply wasm_num_digits].
  - exact Hr.
  - exists t, l. auto.
Qed.

(** Hexadecimal floats of the format are float tokens if their exponent, if
    they have one, has a sign. Full statement: every float of the format
    ([wasm_float]) is a float or integer token; refuted below for decimal
    floats and for exponents without sign. *)
Lemma wasm_num_id (P : ascii -> Prop) w : (forall c, P c -> hex_digit c) -> wasm_num P w -> Forall id_char w /\ w <> [].
Proof. intros HP H. apply (digits_id P); [assumption|now apply wasm_num_digits]. Qed.

Lemma exp_stops e : exp_part e -> stops hex_digit e.
Proof.
  intros (p & x & -> & Hp & _). cbn. rewrite <- hex_ok.
  destruct Hp as [->| ->]; vm_compute; intuition discriminate.
Qed.

Theorem wasm_hex_floats_partial : forall swap s m e rest, opt_sign s ->
  wasm_mantissa hex_digit m ->
  (e = [] /\ ~ wasm_num hex_digit m \/
   exists p sg n, e = p :: sg ++ n /\ In p (txt "pP") /\ (sg = txt "+" \/ sg = txt "-") /\ wasm_num dec_digit n) ->
  ~ begins_with id_char rest ->
  exists t l, next (new_lexer swap ((s ++ txt "0x" ++ m ++ e) ++ rest)) = (Ok t, l) /\
    t_type t = TFloat /\ t_capture t = s ++ txt "0x" ++ m ++ e.
Proof.
  intros swap s m e rest Hs Hm He Hr.
  assert (He' : (e = [] /\ ~ wasm_num hex_digit m \/ exp_part e) /\ Forall id_char e).
  { destruct He as [[-> H]|(p & sg & n & -> & Hp & Hsg & Hn)]; [auto|]. split.
    - right. exists p, (sg ++ n). split; [reflexivity|]. split; [cbn in Hp; unfold exp_letter; intuition|].
      destruct Hsg as [->| ->]; eexists _, n; (split; [reflexivity|]); (split; [auto|now apply wasm_num_digits]).
    - constructor; [apply id_char_ok; cbn in Hp; destruct Hp as [<-|[<-|[]]]; reflexivity|].
      apply Forall_app. split.
      + destruct Hsg as [->| ->]; repeat constructor; apply id_char_ok; reflexivity.
      + apply (wasm_num_id dec_digit); [intros; now left|assumption]. }
  destruct He' as [He' Hide].
  assert (Hidm : Forall id_char m).
  { destruct Hm as [Hm|(a & Ha & [->|(b & Hb & ->)])].
    - now apply (wasm_num_id hex_digit).
    - apply Forall_app. split; [now apply (wasm_num_id hex_digit)|repeat constructor; apply id_char_ok; reflexivity].
    - apply Forall_app. split; [now apply (wasm_num_id hex_digit)|]. apply Forall_app.
      split; [repeat constructor; apply id_char_ok; reflexivity|now apply (wasm_num_id hex_digit)]. }
  destruct (next_complete (new_lexer swap ((s ++ txt "0x" ++ m ++ e) ++ rest)) TFloat (s ++ txt "0x" ++ m ++ e) rest)
    as (t & l & E & T & C & _).
  - apply new_aligned.
  - reflexivity.
  - split.
    + split; [split|].
      * destruct Hs as [->|[->| ->]]; discriminate.
      * apply Forall_app. split; [destruct Hs as [->|[->| ->]]; repeat constructor; apply id_char_ok; reflexivity|].
        apply Forall_app. split; [repeat constructor; apply id_char_ok; reflexivity|]. apply Forall_app. auto.
      * destruct Hs as [->|[->| ->]]; apply not_id_text; discriminate.
    + exists s, (txt "0x" ++ m ++ e). split; [assumption|]. split; [reflexivity|]. right. right.
      assert (Dot : stops hex_digit (txt "." ++ e)) by (cbn; rewrite <- hex_ok; vm_compute; intuition discriminate).
      destruct Hm as [Hm|(a & Ha & [->|(b & Hb & ->)])].
      * exists m, e. split; [reflexivity|]. split; [now apply wasm_num_digits|].
        destruct He' as [[_ H]|H]; [tauto|]. split; [now apply exp_stops|]. right. now left.
      * exists a, (txt "." ++ e). rewrite <- app_assoc. split; [reflexivity|]. split; [now apply wasm_num_digits|].
        split; [assumption|]. destruct He' as [[-> _]|H]; [left; reflexivity|]. right. right. left. now exists e.
      * exists a, (txt "." ++ b ++ e). rewrite <- !app_assoc. split; [reflexivity|]. split; [now apply wasm_num_digits|].
        split; [cbn; rewrite <- hex_ok; vm_compute; intuition discriminate|]. right. right. right. exists "."%char, b, e.
        split; [reflexivity|]. split; [intros [K|K]; discriminate|]. split; [now apply wasm_num_digits|].
        destruct He' as [[-> _]|H]; [split; [exact I|now left]|]. split; [now apply exp_stops|now right].
  - exact Hr.
  - exists t, l. auto.
Qed.

(** 0xA_b.8p-1 *)
Example wasm_hex_floats_case : wasm_mantissa hex_digit (txt "A_b.8") /\ wasm_num dec_digit (txt "1") /\
  first_type (txt "0xA_b.8p-1 ") = Ok TFloat.
Proof.
  split; [|split; [|vm_compute; reflexivity]].
  - right. exists (txt "A_b"). split.
    + apply wasm_sep; [apply hex_ok; reflexivity|]. apply wasm_one. apply hex_ok. reflexivity.
    + right. exists (txt "8"). split; [apply wasm_one; apply hex_ok; reflexivity|reflexivity].
  - apply wasm_one. apply digit_ok. reflexivity.
Qed.

(** Decimal floats are not float tokens. *)
Theorem decimal_floats_refuted :
  ~ (forall w, wasm_float w -> first_type w = Ok TFloat \/ first_type w = Ok TInteger).
Proof.
  intros H. destruct (H (txt "1.5")) as [K|K]; [|vm_compute in K; discriminate|vm_compute in K; discriminate].
  exists [], (txt "1.5"). split; [now left|]. split; [reflexivity|]. left.
  exists (txt "1.5"), []. split; [reflexivity|]. split; [|now left].
  right. exists (txt "1"). split; [apply wasm_one; apply digit_ok; reflexivity|]. right.
  exists (txt "5"). split; [apply wasm_one; apply digit_ok; reflexivity|reflexivity].
Qed.

(** Nor are hexadecimal floats whose exponent has no sign. *)
Theorem unsigned_exponents_refuted :
  ~ (forall m n, wasm_num hex_digit m -> wasm_num dec_digit n ->
       first_type (txt "0x" ++ m ++ txt "p" ++ n) = Ok TFloat).
Proof.
  intros H. specialize (H (txt "1") (txt "3")).
  assert (K : first_type (txt "0x" ++ txt "1" ++ txt "p" ++ txt "3") = Ok TFloat).
  { apply H; apply wasm_one; [apply hex_ok|apply digit_ok]; reflexivity. }
  vm_compute in K. discriminate.
Qed.

(** And a float token need not be a float of the format: any character is
    taken for the dot. *)
Theorem float_tokens_are_floats_refuted :
  ~ (forall w, first_type w = Ok TFloat -> wasm_float w).
Proof.
  intros H. specialize (H (txt "0x1z2") ltac:(vm_compute; reflexivity)).
  assert (Z : forall (P : ascii -> Prop) w, (forall c, P c -> c <> "z"%char) -> wasm_num P w -> ~ In "z"%char w).
  { intros P w HP. induction 1 as [c Hc|c w Hc _ IH|c w Hc _ IH]; cbn.
    - intros [->|[]]. now apply (HP _ Hc).
    - intros [->|K]; [now apply (HP _ Hc)|auto].
    - intros [->|[K|K]]; [now apply (HP _ Hc)|discriminate|auto]. }
  assert (Zd : forall c, dec_digit c -> c <> "z"%char) by (intros c Hc ->; vm_compute in Hc; intuition).
  assert (Zh : forall c, hex_digit c -> c <> "z"%char) by (intros c Hc ->; vm_compute in Hc; intuition).
  assert (Zs : forall s, opt_sign s -> ~ In "z"%char s) by (intros s [->|[->| ->]]; cbn; intuition discriminate).
  assert (Zm : forall (P : ascii -> Prop) m, (forall c, P c -> c <> "z"%char) -> wasm_mantissa P m -> ~ In "z"%char m).
  { intros P m HP [Hm|(a & Ha & [->|(b & Hb & ->)])].
    - now apply (Z P).
    - rewrite in_app_iff. apply (Z P) in Ha; [|assumption]. cbn. intuition discriminate.
    - rewrite !in_app_iff. apply (Z P) in Ha; [|assumption]. apply (Z P) in Hb; [|assumption]. cbn. intuition discriminate. }
  assert (Ze : forall ls e, ~ In "z"%char ls -> wasm_exponent ls e -> ~ In "z"%char e).
  { intros ls e Hl (p & s & n & -> & Hp & Hsg & Hn). cbn. rewrite in_app_iff.
    apply (Z dec_digit) in Hn; [|assumption]. apply Zs in Hsg. intros [->|[K|K]]; auto. }
  assert (In "z"%char (txt "0x1z2")) as Hz by (cbn; tauto).
  destruct H as (s & d & Hs & E & D). rewrite E in Hz. apply in_app_iff in Hz. destruct Hz as [Hz|Hz]; [now apply (Zs s)|].
  destruct D as [(m & e & -> & Hm & He)|[(m & e & -> & Hm & He)|[->|[->|(n & -> & Hn)]]]].
  - apply in_app_iff in Hz. destruct Hz as [Hz|Hz]; [now apply (Zm _ _ Zd Hm)|].
    destruct He as [->|He]; [destruct Hz|]. revert Hz. apply (Ze (txt "eE")); [cbn; intuition discriminate|assumption].
  - apply in_app_iff in Hz. destruct Hz as [Hz|Hz]; [cbn in Hz; intuition discriminate|].
    apply in_app_iff in Hz. destruct Hz as [Hz|Hz]; [now apply (Zm _ _ Zh Hm)|].
    destruct He as [->|He]; [destruct Hz|]. revert Hz. apply (Ze (txt "pP")); [cbn; intuition discriminate|assumption].
  - cbn in Hz. intuition discriminate.
  - cbn in Hz. intuition discriminate.
  - apply in_app_iff in Hz. destruct Hz as [Hz|Hz]; [cbn in Hz; intuition discriminate|]. revert Hz. now apply (Z hex_digit).
Qed.

(** Block comments of the format nest; here the first ";)" ends them. *)
Theorem nested_comments_refuted :
  ~ (forall a b, ~ block_end (a ++ b) -> exists t l,
       next (new_lexer false (txt "(;" ++ a ++ txt "(;" ++ b ++ txt ";);)")) = (Ok t, l) /\
       t_capture t = txt "(;" ++ a ++ txt "(;" ++ b ++ txt ";);)").
Proof.
  intros H. destruct (H [] []) as (t & l & E & C); [apply block_end_nil|].
  apply (f_equal fst) in E. vm_compute in E. inversion E; subst t. vm_compute in C. discriminate.
Qed.

(** Nor is a quotation mark escaped by a backslash. *)
Theorem string_escapes_refuted :
  ~ (forall b, ~ In quote b -> exists t l,
       next (new_lexer false ([quote] ++ b ++ txt "\" ++ [quote] ++ b ++ [quote])) = (Ok t, l) /\
       t_capture t = [quote] ++ b ++ txt "\" ++ [quote] ++ b ++ [quote]).
Proof.
  intros H. destruct (H []) as (t & l & E & C); [tauto|].
  apply (f_equal fst) in E. vm_compute in E. inversion E; subst t. vm_compute in C. discriminate.
Qed.

(** An unfinished comment or string is not an error but the end of the
    stream. *)
Theorem unfinished_rejected_refuted :
  ~ (forall swap input ops t, no_error (fst (calls ops (new_lexer swap input))) ->
       In t (taken (fst (calls ops (new_lexer swap input)))) -> t_type t = EndOfStream -> t_capture t = []).
Proof.
  intros H.
  pose (t := {| t_type := EndOfStream; t_position := 0; t_column := 0; t_line := 0; t_capture := txt "(; x" |}).
  assert (E : fst (calls [ONext] (new_lexer false (txt "(; x"))) = [(ONext, Ok t)]) by (vm_compute; reflexivity).
  specialize (H false (txt "(; x") [ONext] t). rewrite E in H.
  assert (K : t_capture t = []); [|discriminate].
  apply H; [|now left|reflexivity]. intros o r [Hin|[]]. inversion Hin. now exists t.
Qed.

Print Assumptions tokens_cut_the_input.
Print Assumptions lines_and_columns.
Print Assumptions next_gives_token_or_error.
Print Assumptions tokenisation_ends.
Print Assumptions peek_is_next.
Print Assumptions peek_panics_on_error.
Print Assumptions peek_reports_errors_refuted.
Print Assumptions peeks_are_invisible.
Print Assumptions clones_are_independent.
Print Assumptions token_texts.
Print Assumptions tokens_read_back.
Print Assumptions error_means_no_token.
Print Assumptions wasm_integers.
Print Assumptions wasm_hex_floats_partial.
Print Assumptions decimal_floats_refuted.
Print Assumptions unsigned_exponents_refuted.
Print Assumptions float_tokens_are_floats_refuted.
Print Assumptions nested_comments_refuted.
Print Assumptions string_escapes_refuted.
Print Assumptions unfinished_rejected_refuted.
