(** Proofs about a WIT lexer after an error. *)
From Coq Require Import Arith NArith String Ascii Bool List Lia.
From Verif Require Import GoBase M_Text M_Utf S_Utf L_Utf M_WitLex S_WitLex L_WitLex L_WitToks L_WitHist P_WitLex M_LexErrors S_WitErrors P_WitErrors S_WitResume.
Import ListNotations.
Open Scope nat_scope.

Lemma first_rune_app f (v t : text) : v <> [] -> first_rune f (v ++ t) = f (fst (decode_rune (v ++ t))).
Proof. destruct v; [congruence|reflexivity]. Qed.

Lemma span_det f w s : span f w s -> forall w' s', span f w' s' -> w ++ s = w' ++ s' -> w = w'.
Proof.
  induction 1 as [s F|v w s Nv Lv F S IH]; intros w' s' S' E; inversion S' as [u F'|v' w2 u Nv' Lv' F' S2]; subst; [reflexivity| | |].
  - exfalso. cbn in E. subst s. rewrite <- app_assoc, (first_rune_app _ _ _ Nv') in F. congruence.
  - exfalso. cbn in E. subst s'. rewrite <- app_assoc, (first_rune_app _ _ _ Nv) in F'. congruence.
  - rewrite <- !app_assoc in E. assert (L : length v = length v') by (rewrite Lv, Lv', E; reflexivity).
    assert (v = v') by (apply (app_same_length v v' (w ++ s) (w2 ++ s')); assumption). subst v'.
    f_equal. apply app_inv_head in E. now apply (IH w2 s').
Qed.

(** The type of a word. *)
Definition word_type (c : text) : toktype := match text_get keyword_map c with Some ty => ty | None => Id end.

(** The type does not depend on the text, or is that of a word. *)
Definition typing (f : text -> toktype) : Prop :=
  (exists ty, (forall c, f c = ty) /\ ~ In ty (map snd keywords)) \/ f = word_type.

Lemma while_twin f ty g l m : inside l -> inside m -> rest l = rest m ->
  (forall x, ty x = g (capture x)) ->
  exists w s, rest l = w ++ s /\ while_token f ty l = make_token (adv l w) (g (capture (adv l w))) /\
    while_token f ty m = make_token (adv m w) (g (capture (adv m w))).
Proof.
  intros I J E G. destruct (while_token_spec f ty l I) as (w & s & Ew & Sp & W). destruct (while_token_spec f ty m J) as (w' & s' & Ew' & Sp' & W').
  assert (w = w') by (apply (span_det f w s Sp w' s' Sp'); congruence). subst w'.
  exists w, s. rewrite W, W', !G. auto.
Qed.

(** A single character token, and some others, are not keywords. *)
Lemma single_plain r ty : single r = Some ty -> ~ In ty (map snd keywords).
Proof.
  unfold single. repeat (destruct (_ =? _)%N; [intros H; inversion H; vm_compute; intuition discriminate|]). discriminate.
Qed.

Section tables.
Variable U : tables.
Hypothesis HU : good_tables U.

Definition twin_ok (l m : lexer) (a b : outcome token * lexer) : Prop :=
  (exists w s g, rest l = w ++ s /\ typing g /\ a = make_token (adv l w) (g (capture (adv l w))) /\
     b = make_token (adv m w) (g (capture (adv m w)))) \/
  (exists v s, rest l = v ++ s /\ a = (Err EOther, adv l v) /\ b = (Err EOther, adv m v)).

Lemma twin_plain l m w s ty : rest l = w ++ s -> ~ In ty (map snd keywords) ->
  twin_ok l m (make_token (adv l w) ty) (make_token (adv m w) ty).
Proof. intros E H. left. exists w, s, (fun _ => ty). split; [exact E|]. split; [left; eauto|]. auto. Qed.

Lemma twin_while l m v s f ty g : inside l -> inside m -> rest l = rest m -> rest l = v ++ s ->
  typing g -> (forall x, ty x = g (capture x)) ->
  twin_ok l m (while_token f ty (adv l v)) (while_token f ty (adv m v)).
Proof.
  intros I J E Ev Tg G. pose proof Ev as Ev'. rewrite E in Ev'.
  pose proof (adv_rest l v s Ev) as R. pose proof (adv_rest m v s Ev') as R'.
  destruct (while_twin f ty g (adv l v) (adv m v) (adv_inside _ _ _ I Ev) (adv_inside _ _ _ J Ev')) as (w & s' & Ew & W & W'); [congruence|exact G|].
  rewrite adv_adv in W, W'. left. exists (v ++ w), s', g. split; [rewrite Ev, <- app_assoc; f_equal; congruence|]. auto.
Qed.

Lemma typing_const ty : ~ In ty (map snd keywords) -> typing (fun _ => ty).
Proof. intros H. left. exists ty. auto. Qed.

Ltac plain := vm_compute; intuition discriminate.

Lemma next_twin l m : inside l -> inside m -> rest l = rest m -> twin_ok l m (next_raw U l) (next_raw U m).
Proof.
  intros I J E. unfold next_raw. destruct (rest l) as [|c0 t0] eqn:Er.
  { destruct (read_rune_end l I Er) as [-> _]. symmetry in E. destruct (read_rune_end m J E) as [-> _].
    rewrite <- (adv_nil l) at 2. rewrite <- (adv_nil m) at 2. apply (twin_plain l m [] []); [now rewrite Er|plain]. }
  rewrite <- Er in E.
  destruct (read_rune_some l) as (v & s & Ev & Nv & Lv & R & _); [congruence|].
  destruct (read_rune_some m) as (v' & s' & Ev' & Nv' & Lv' & R' & _); [congruence|].
  assert (v = v') by (apply (app_same_length v v' s s'); congruence). subst v'.
  assert (s = s') by (rewrite E, Ev' in Ev; now apply app_inv_head in Ev). subst s'.
  rewrite R, R', <- E. clear R R'. pose proof Lv as Lv0. destruct (decode_rune (rest l)) as [r k] eqn:D. cbn [fst snd] in *.
  pose proof (adv_inside l v s I Ev) as I1. pose proof (adv_inside m v s J Ev') as J1.
  pose proof (adv_rest l v s Ev) as R1. pose proof (adv_rest m v s Ev') as R1'.
  destruct (is_space r). { apply (twin_while l m v s) with (g := fun _ => Whitespace); auto. apply typing_const. plain. }
  destruct (N.eqb_spec r (ch "/")) as [Es|Es].
  { destruct (eat_char "/" (adv l v) ltac:(reflexivity) I1) as [(u & Eu & Ee)|[Nu Ee]]; rewrite Ee;
      destruct (eat_char "/" (adv m v) ltac:(reflexivity) J1) as [(u' & Eu' & Ee')|[Nu' Ee']]; rewrite Ee'.
    - rewrite !adv_adv. apply (twin_while l m (v ++ ["/"%char]) u) with (g := fun _ => LineComment); auto.
      + rewrite Ev, <- app_assoc. f_equal. now rewrite <- R1.
      + apply typing_const. plain.
    - exfalso. apply Nu'. rewrite R1', <- R1, Eu. now exists u.
    - exfalso. apply Nu. rewrite R1, <- R1', Eu'. now exists u'.
    - clear Nu Nu' Ee Ee'.
      destruct (eat_char "*" (adv l v) ltac:(reflexivity) I1) as [(u & Eu & Ee)|[Nu Ee]]; rewrite Ee;
        destruct (eat_char "*" (adv m v) ltac:(reflexivity) J1) as [(u' & Eu' & Ee')|[Nu' Ee']]; rewrite Ee'.
      + assert (u = u') by congruence. subst u'. rewrite !adv_adv.
        assert (E2 : rest l = (v ++ ["*"%char]) ++ u) by (rewrite Ev, <- app_assoc; f_equal; now rewrite <- R1).
        assert (E2' : rest m = (v ++ ["*"%char]) ++ u) by congruence.
        pose proof (adv_inside _ _ _ I E2) as I2. pose proof (adv_inside _ _ _ J E2') as J2.
        pose proof (adv_rest _ _ _ E2) as R2. pose proof (adv_rest _ _ _ E2') as R2'.
        set (a := adv l (v ++ ["*"%char])) in *. set (b := adv m (v ++ ["*"%char])) in *.
        pose proof (rest_le a). pose proof (rest_le b).
        destruct (block_loop_spec (S (S (length (l_input a)))) 1 a I2) as [(w & x & Ew & Dp & B)|[Nv1 B]]; [lia| |]; rewrite B;
        (destruct (block_loop_spec (S (S (length (l_input b)))) 1 b J2) as [(w' & x' & Ew' & Dp' & B')|[Nv1' B']]; [lia| |]; rewrite B').
        * assert (w' = w) by (apply (deep_prefix w 1 x (rest a) Dp (eq_sym Ew) w' x'); congruence). subst w'.
          unfold a, b. rewrite !adv_adv. apply (twin_plain l m _ x); [|plain]. rewrite <- (app_assoc _ w x), <- Ew, R2. exact E2.
        * exfalso. apply (Nv1' w x); congruence.
        * exfalso. apply (Nv1 w' x'); congruence.
        * right. exists ((v ++ ["*"%char]) ++ u), []. split; [now rewrite app_nil_r|]. unfold a, b in *. rewrite R2, R2', !adv_adv. auto.
      + exfalso. apply Nu'. rewrite R1', <- R1, Eu. now exists u.
      + exfalso. apply Nu. rewrite R1, <- R1', Eu'. now exists u'.
      + apply (twin_plain l m v s); [exact Ev|plain]. }
  destruct (single r) as [ty|] eqn:Esi. { apply (twin_plain l m v s); [exact Ev|now apply single_plain in Esi]. }
  destruct (r =? ch "-")%N.
  { destruct (eat_char ">" (adv l v) ltac:(reflexivity) I1) as [(u & Eu & Ee)|[Nu Ee]]; rewrite Ee;
      destruct (eat_char ">" (adv m v) ltac:(reflexivity) J1) as [(u' & Eu' & Ee')|[Nu' Ee']]; rewrite Ee'.
    - rewrite !adv_adv. apply (twin_plain l m _ u); [|plain]. rewrite Ev, <- app_assoc. f_equal. now rewrite <- R1.
    - exfalso. apply Nu'. rewrite R1', <- R1, Eu. now exists u.
    - exfalso. apply Nu. rewrite R1, <- R1', Eu'. now exists u'.
    - apply (twin_plain l m v s); [exact Ev|plain]. }
  destruct (r =? ch "+")%N. { apply (twin_plain l m v s); [exact Ev|plain]. }
  destruct (r =? ch "%")%N.
  { destruct (eat_if_cases (is_key_start U) (adv l v) I1) as [[Ee F]|(v2 & s2 & Ev2 & Nv2 & Lv2 & F & Ee)]; rewrite Ee;
      destruct (eat_if_cases (is_key_start U) (adv m v) J1) as [[Ee' F']|(v2' & s2' & Ev2' & Nv2' & Lv2' & F' & Ee')]; rewrite Ee'.
    - apply (twin_plain l m v s); [exact Ev|plain].
    - exfalso. rewrite R1, <- R1', Ev2', (first_rune_app _ _ _ Nv2') in F. congruence.
    - exfalso. rewrite R1', <- R1, Ev2, (first_rune_app _ _ _ Nv2) in F'. congruence.
    - assert (v2 ++ s2 = v2' ++ s2') by congruence.
      assert (v2 = v2') by (apply (app_same_length v2 v2' s2 s2'); congruence). subst v2'.
      rewrite !adv_adv. apply (twin_while l m (v ++ v2) s2) with (g := fun _ => ExplicitId); auto.
      + rewrite Ev, <- app_assoc. f_equal. congruence.
      + apply typing_const. plain. }
  destruct (is_key_start U r). { apply (twin_while l m v s) with (g := word_type); auto. now right. }
  destruct (is_digit U r). { apply (twin_while l m v s) with (g := fun _ => Integer); auto. apply typing_const. plain. }
  right. exists v, s. auto.
Qed.

(** ** Refused text *)
Lemma text_get_in {A} (k : list (text * A)) c a : text_get k c = Some a -> In (c, a) k.
Proof.
  induction k as [|[x b] k IH]; cbn; [discriminate|]. destruct (text_eqb x c) eqn:E.
  - intros H. inversion H; subst. left. f_equal. now apply text_eqb_eq.
  - intros H. right. auto.
Qed.

Lemma unreadable_head s v : unreadable U s v ->
  exists c v', v = c :: v' /\ ~ (97 <= code c <= 122)%N /\ code c <> code "_".
Proof.
  intros [((t & ->) & [(r & V & B & _ & Hl & _ & Hn)|(L & Nb)])|((u & -> & _) & ->)].
  - destruct v as [|c v]. { exfalso. cbn in B. symmetry in B. now apply utf8_nonempty in B. }
    exists c, v. split; [reflexivity|].
    destruct (N.ltb_spec (code c) 128) as [Hc|Hc].
    + assert (D : decode_rune (c :: v) = (r, length (sp_utf8 r))).
      { apply (decode_encoded _ r [] V). rewrite B. now rewrite app_nil_r. }
      rewrite decode_ascii in D by exact Hc. injection D as D _. unfold code at 1 2 3. rewrite D. split.
      * intros K. apply Hl. left. right. exact K.
      * intros K. apply Hn. rewrite K. vm_compute. auto 20.
    + change (code "_") with 95%N. lia.
  - destruct v as [|c [|? ?]]; try discriminate. exists c, []. split; [reflexivity|].
    destruct (N.ltb_spec (code c) 128) as [Hc|Hc]; [|change (code "_") with 95%N; lia].
    exfalso. apply Nb. exists (code c), (bytes t). split; [unfold scalar_value; lia|]. split; [exact Logic.I|].
    cbn [app bytes map]. unfold sp_utf8. destruct (N.ltb_spec (code c) 128); [reflexivity|lia].
  - exists "/"%char, (txt "*" ++ u). split; [reflexivity|]. vm_compute. intuition (try discriminate).
Qed.

Lemma keyword_heads : Forall (fun e => exists c w, fst e = c :: w /\ ((97 <= code c <= 122)%N \/ code c = code "_")) keyword_map.
Proof.
  unfold keyword_map. repeat (constructor; [do 2 eexists; split; [reflexivity|]; first [right; reflexivity|left; vm_compute; split; discriminate]|]). constructor.
Qed.

Lemma word_type_odd c s : ~ (97 <= code c <= 122)%N -> code c <> code "_" -> word_type (c :: s) = Id.
Proof.
  intros H1 H2. unfold word_type. destruct (text_get keyword_map (c :: s)) as [ty|] eqn:E; [|reflexivity].
  apply text_get_in in E. pose proof (proj1 (Forall_forall _ _) keyword_heads _ E) as (c' & w & Ew & H). cbn in Ew. injection Ew as <- <-. tauto.
Qed.

Lemma word_type_keyword w : word_type w = Id \/ In (word_type w) (map snd keywords).
Proof.
  unfold word_type. destruct (text_get keyword_map w) as [ty|] eqn:E; [|now left]. right. apply text_get_in in E.
  apply (in_map snd) in E. cbn [snd] in E. revert E. unfold keyword_map, keywords. cbn [map snd In]. tauto.
Qed.

Lemma spoilt_typing g c s w : typing g -> ~ (97 <= code c <= 122)%N -> code c <> code "_" -> spoilt (g w) (g (c :: s)).
Proof.
  intros [(ty & G & N)| ->] H1 H2.
  - right. rewrite !G. auto.
  - rewrite word_type_odd by assumption. destruct (word_type_keyword w) as [E|E]; [|left; auto].
    rewrite E. right. split; [vm_compute; intuition discriminate|reflexivity].
Qed.

(** ** Histories *)
Lemma passed_snoc s k j t v : passed U s k j -> s = j ++ t -> unreadable U t v -> passed U s (S k) (j ++ v).
Proof.
  intros H. revert t v. induction H as [s|v0 t0 k j H0 H IH]; intros t v E Hv.
  - cbn in E. subst s. cbn. assert (P : exists t1, t = v ++ t1).
    { destruct Hv as [[K _]|[_ ->]]; [exact K|]. exists []. now rewrite app_nil_r. }
    destruct P as (t1 & ->). rewrite <- (app_nil_r v) at 2. constructor; [exact Hv|constructor].
  - rewrite <- app_assoc in *. apply app_inv_head in E. constructor; [exact H0|]. now apply (IH t).
Qed.

Record resumed (k : nat) (l : lexer) : Prop := {
  rs_inv : inv l;
  rs_passed : exists j, skipn (l_offset l) (l_input l) = j ++ rest l /\ l_position l = l_offset l + length j /\
    passed U (skipn (l_offset l) (l_input l)) k j;
  rs_peek : l_peek l <> None -> k = 0 }.

Lemma resumed_raw k l : resumed k l -> l_peek l = None ->
  (exists t l', next_raw U l = (Ok t, l') /\ resumed 0 l' /\ l_peek l' = None) \/
  (exists l', next_raw U l = (Err EOther, l') /\ resumed (S k) l').
Proof.
  intros [V (j & Ej & Pj & Hj) K] Hp.
  assert (I : inside l) by (unfold inside; destruct (inv_order l V); lia).
  destruct (next_raw_good U HU l V Hp) as [(t & l' & E & G & _ & _ & O & K' & L & V' & _)|(l' & E & Ei & Eo & K' & V' & _)].
  - left. exists t, l'. split; [exact E|]. split; [|exact K']. constructor; [exact V'| |congruence].
    exists []. split; [unfold rest; now rewrite O|]. split; [cbn; lia|constructor].
  - right. exists l'. split; [exact E|]. apply (next_raw_error U HU) in E; [|exact I]. destruct E as (_ & v & Hv & ->).
    constructor; [exact V'| |intros X; contradiction].
    assert (P : exists t1, rest l = v ++ t1).
    { destruct Hv as [[P _]|[_ ->]]; [exact P|]. exists []. now rewrite app_nil_r. }
    destruct P as (t1 & Et). exists (j ++ v). rewrite (adv_rest l v t1 Et). cbn [adv set_position l_offset l_input l_position].
    split; [rewrite Ej, Et; now rewrite app_assoc|]. split; [rewrite app_length; lia|]. now apply (passed_snoc _ _ _ (rest l)).
Qed.

Lemma resumed_call k l o r l' : resumed k l -> call U o l = (r, l') ->
  resumed (match r with Ok _ => 0 | _ => S k end) l'.
Proof.
  intros H E. destruct (l_peek l) as [t|] eqn:Hp.
  - assert (k = 0) by (apply H; congruence). subst k. destruct o; cbn [call] in E; unfold next, peek in E; rewrite Hp in E; inversion E; subst; [|assumption].
    destruct H as [[? ? ?] ? ?]. constructor; cbn; auto. constructor; cbn; auto. discriminate.
  - destruct (resumed_raw k l H Hp) as [(t & l1 & N & R & K)|(l1 & N & R)].
    + destruct o; cbn [call] in E; unfold next, peek in E; rewrite Hp, N in E; inversion E; subst; [assumption|].
      destruct R as [[? ? ?] ? ?]. constructor; cbn; auto. constructor; cbn; auto.
      intros t0 H0. inversion H0; subst t0.
      destruct (next_raw_good U HU l (rs_inv _ _ H) Hp) as [(t1 & l2 & E1 & G & _ & Ei & O & _ & L & _)|(l2 & E1 & _)]; rewrite N in E1; [|discriminate].
      inversion E1; subst. rewrite Ei. split; [assumption|]. lia.
    + destruct o; cbn [call] in E; unfold next, peek in E; rewrite Hp, N in E; inversion E; subst; assumption.
Qed.

Lemma resumed_calls ops : forall k l, resumed k l ->
  resumed (fold_left (fun k e => match snd e with Ok _ => 0 | _ => S k end) (fst (calls U ops l)) k) (snd (calls U ops l)).
Proof.
  induction ops as [|o ops IH]; intros k l H; [exact H|]. cbn [calls].
  destruct (call U o l) as [r l1] eqn:E. pose proof (resumed_call _ _ _ _ _ H E) as H1. apply IH in H1.
  destruct (calls U ops l1) as [h l2]. cbn [fst snd fold_left] in *. exact H1.
Qed.

Lemma resumed_new input : resumed 0 (new_lexer input).
Proof.
  constructor; [apply fresh_ok| |reflexivity]. exists []. split; [reflexivity|]. split; [reflexivity|constructor].
Qed.

(** ** Lexers with the same text ahead *)
Record like (l m : lexer) : Prop := {
  lk_rest : rest l = rest m;
  lk_capture : capture l = capture m;
  lk_left : (l_offset l <= l_position l <= length (l_input l))%nat;
  lk_right : (l_offset m <= l_position m <= length (l_input m))%nat;
  lk_peek : match l_peek l, l_peek m with
            | Some t, Some u => t_type t = t_type u /\ t_capture t = t_capture u
            | None, None => True
            | _, _ => False
            end }.

Lemma capture_on l w s : (l_offset l <= l_position l <= length (l_input l))%nat -> rest l = w ++ s ->
  capture (adv l w) = capture l ++ w.
Proof.
  intros H E. unfold capture, adv. cbn [l_position l_offset l_input set_position].
  replace (l_position l + length w - l_offset l) with ((l_position l - l_offset l) + length w) by lia.
  rewrite firstn_skipn_add. f_equal. rewrite skipn_skipn_add.
  replace (l_offset l + (l_position l - l_offset l)) with (l_position l) by lia. fold (rest l). rewrite E.
  now rewrite firstn_app, Nat.sub_diag, firstn_all, firstn_O, app_nil_r.
Qed.

Lemma like_raw l m : like l m -> l_peek l = None ->
  match next_raw U l, next_raw U m with
  | (Ok t, l'), (Ok u, m') => t_type t = t_type u /\ t_capture t = t_capture u /\ like l' m' /\ l_peek l' = None
  | (Err _, l'), (Err _, m') => like l' m' /\ l_peek l' = None
  | _, _ => False
  end.
Proof.
  intros [R C L M K] Hp. rewrite Hp in K. destruct (l_peek m) eqn:Hm; [contradiction|].
  assert (I : inside l) by (unfold inside; lia). assert (J : inside m) by (unfold inside; lia).
  destruct (next_twin l m I J R) as [(w & s & g & E & _ & -> & ->)|(v & s & E & -> & ->)].
  - pose proof E as E'. rewrite R in E'. unfold make_token. rewrite (capture_on l w s L E), (capture_on m w s M E'), C.
    destruct (advance (l_line (adv l w)) _ _), (advance (l_line (adv m w)) _ _). cbn [t_type t_capture l_peek].
    split; [reflexivity|]. split; [reflexivity|]. split; [|exact Hp].
    pose proof (adv_inside l w s I E) as I1. pose proof (adv_inside m w s J E') as J1. unfold inside in I1, J1. cbn in I1, J1.
    constructor; cbn [l_offset l_position l_input l_peek adv set_position]; [| |lia|lia|now rewrite Hp, Hm].
    + change (rest (adv l w) = rest (adv m w)). now rewrite (adv_rest l w s E), (adv_rest m w s E').
    + unfold capture. cbn. now rewrite !Nat.sub_diag.
  - pose proof E as E'. rewrite R in E'. split; [|exact Hp].
    pose proof (adv_inside l v s I E) as I1. pose proof (adv_inside m v s J E') as J1. unfold inside in I1, J1. cbn in I1, J1.
    constructor; [|now rewrite (capture_on l v s L E), (capture_on m v s M E'), C|cbn; lia|cbn; lia|cbn; now rewrite Hp, Hm].
    now rewrite (adv_rest l v s E), (adv_rest m v s E').
Qed.

Lemma like_set l m t u : like l m -> t_type t = t_type u -> t_capture t = t_capture u ->
  like (set_peek l (Some t)) (set_peek m (Some u)).
Proof. intros [S C L M K] E1 E2. constructor; cbn; auto. Qed.
Lemma like_unset l m : like l m -> like (set_peek l None) (set_peek m None).
Proof. intros [S C L M K]. constructor; cbn; auto. Qed.

Lemma like_call l m o : like l m ->
  seen (o, fst (call U o l)) = seen (o, fst (call U o m)) /\ like (snd (call U o l)) (snd (call U o m)).
Proof.
  intros H. pose proof (lk_peek _ _ H) as K. unfold seen. cbn [fst snd].
  destruct (l_peek l) as [t|] eqn:Hp, (l_peek m) as [u|] eqn:Hm; try contradiction.
  - destruct K as [K1 K2]. destruct o; cbn [call]; unfold next, peek; rewrite Hp, Hm; cbn [fst snd]; rewrite K1, K2; (split; [reflexivity|]); [now apply like_unset|assumption].
  - pose proof (like_raw l m H Hp) as N. destruct (next_raw U l) as [[t|e| |] l'] eqn:El, (next_raw U m) as [[u|e'| |] m'] eqn:Em; try contradiction.
    + destruct N as (N1 & N2 & N3 & _). destruct o; cbn [call]; unfold next, peek; rewrite Hp, Hm, El, Em; cbn [fst snd]; rewrite N1, N2; (split; [reflexivity|]); [assumption|now apply like_set].
    + destruct N as (N3 & _). destruct o; cbn [call]; unfold next, peek; rewrite Hp, Hm, El, Em; cbn [fst snd]; split; auto.
Qed.

Lemma like_calls ops : forall l m, like l m -> map seen (fst (calls U ops l)) = map seen (fst (calls U ops m)).
Proof.
  induction ops as [|o ops IH]; intros l m H; [reflexivity|]. cbn [calls].
  destruct (like_call l m o H) as [E H1]. destruct (call U o l) as [r l1], (call U o m) as [r' m1]. cbn [fst snd] in *.
  specialize (IH _ _ H1). destruct (calls U ops l1), (calls U ops m1). cbn [fst map] in *. now rewrite E, IH.
Qed.
End tables.
