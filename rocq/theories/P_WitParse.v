(** Properties C41, C42 and the WIT part of C45: the WIT parser. *)
From Coq Require Import Arith NArith ZArith String Ascii Bool List Lia.
From Verif Require Import GoBase M_Text S_Utf M_WitLex S_WitLex L_WitLex L_WitToks L_WitHist P_WitLex.
From Verif Require Import M_ParseBase M_WitAst M_WitParse S_WitParse S_WitPrint L_ParseBase L_ParseTotal L_WitSim L_WitLit L_WitSound
  L_WitComplete L_WitBridge L_WitPrint.
Import ListNotations.
Open Scope nat_scope.

Notation mch := (machine EndOfStream).
Notation W_reads U := (@reads lexer token toktype EndOfStream (M_WitLex.next U) skipped view
  (fun l => aligned l /\ rest l = [])).
Notation W_R U := (@R lexer token toktype EndOfStream (M_WitLex.next U) skipped view (L_WitHist.unpeek U)
  (fun l => aligned l /\ rest l = [])).

Definition ended {A} (o : outcome A) : Prop := (exists a, o = Ok a) \/ (exists e, o = Err e).

Lemma no_panic {L A} (p : parser L A) l l' : handled p l <> (Panic, l').
Proof. unfold handled. destruct (p l) as [[| | |] ?]; discriminate. Qed.

Lemma sim_file U n : good_tables U -> sim (W_R U) (parse_ast (wit_source U) n) (parse_ast mch n).
Proof. intros HU. apply sim_ast; [now apply wit_next_sim | now apply wit_peek_sim]. Qed.
Lemma sim_one_type U n : good_tables U -> sim (W_R U) (parse_type (wit_source U) n) (parse_type mch n).
Proof. intros HU. apply sim_type; [now apply wit_next_sim | now apply wit_peek_sim]. Qed.

Lemma text_of_app ts ts' : text_of (ts ++ ts') = text_of ts ++ text_of ts'.
Proof. unfold text_of. now rewrite map_app, concat_app. Qed.
Lemma significant_app ts ts' : significant (ts ++ ts') = significant ts ++ significant ts'.
Proof. apply filter_app. Qed.

(** A text is in one way a sequence of tokens. *)
Lemma separated_unique U ts ts' : good_tables U -> separated U ts -> separated U ts' -> text_of ts = text_of ts' -> ts = ts'.
Proof.
  intros HU. cut (forall l, aligned l -> rest l = text_of ts -> separated U ts -> forall ts', separated U ts' ->
    text_of ts = text_of ts' -> ts = ts').
  { intros X C C' E. apply (X (new_lexer (text_of ts)) (new_aligned _) eq_refl C ts' C' E). }
  induction ts as [|[ty w] ts IH]; intros l A Hr C [|[ty' w'] us] C' E.
  - reflexivity.
  - exfalso. destruct C' as (H & _). apply (text_nonempty U) in H. destruct w'; [congruence | discriminate E].
  - exfalso. destruct C as (H & _). apply (text_nonempty U) in H. destruct w; [congruence | discriminate E].
  - destruct C as (Ht & Hs & C), C' as (Ht' & Hs' & C').
    destruct (next_complete U HU l ty w _ A Hr Ht Hs) as (t & l1 & N & T1 & T2 & _ & A1 & _ & R1).
    destruct (next_complete U HU l ty' w' _ A (eq_trans Hr E) Ht' Hs') as (t' & l1' & N' & T1' & T2' & _ & _ & _ & R1').
    rewrite N in N'. inversion N'; subst t' l1'. subst. f_equal.
    apply (IH l1 A1 R1 C us C' (eq_trans (eq_sym R1) R1')).
Qed.

(** ** C45, WIT: parsing any text ends, with a syntax tree or an error. *)
Theorem wit_parse_ends : forall U input, good_tables U -> ended (Parse U input).
Proof.
  intros U input HU. unfold Parse. change (S (rounds (new_lexer input))) with (3 + length input). set (n := 3 + length input).
  destruct (reads_some U HU (length input) (new_lexer input) (new_aligned input) ltac:(reflexivity)) as
    (ts & e & H & V & Fe & Hl & _). change (rest (new_lexer input)) with input in Hl.
  assert (HR : W_R U (new_lexer input) (significant ts, e)) by (split; [left; apply new_aligned | exact H]).
  pose proof (sim_file U n HU _ _ HR) as S. pose proof (significant_length ts) as Hs.
  pose proof (T_ast n (Datatypes.S (length (significant ts))) ltac:(unfold n; lia)
    (significant ts) e Fe (Nat.lt_succ_diag_r _)) as T.
  unfold ended. destruct (parse_ast (wit_source U) n (new_lexer input)) as [[d|x| |] l'] eqn:P; cbn [fst]; eauto.
  - exfalso. unfold parse_ast in P. now apply no_panic in P.
  - exfalso. destruct (parse_ast mch n _) as [[| | |] ?]; cbn in S, T; tauto.
Qed.

(** ** C42: what is accepted, and as which syntax tree *)

(** A text is accepted as [a] exactly if it is a sequence of tokens that, with
    whitespace and comments left out, spells the file [a]. *)
Theorem wit_parse_means : forall U input a, good_tables U ->
  (Parse U input = Ok a <-> exists ts, input = text_of ts /\ separated U ts /\ a_file (significant ts) a).
Proof.
  intros U input a HU. unfold Parse. change (S (rounds (new_lexer input))) with (3 + length input). set (n := 3 + length input). split.
  - intros P.
    destruct (reads_some U HU (length input) (new_lexer input) (new_aligned input) ltac:(reflexivity)) as
      (ts & e & H & V & Fe & Hl & Hok).
    assert (HR : W_R U (new_lexer input) (significant ts, e)) by (split; [left; apply new_aligned | exact H]).
    pose proof (sim_file U n HU _ _ HR) as S.
    destruct (parse_ast (wit_source U) n (new_lexer input)) as [o l'] eqn:P'. cbn [fst] in P. subst o.
    destruct (parse_ast mch n (significant ts, e)) as [[d'|y| |] s'] eqn:M; cbn in S; try contradiction. destruct S as [<- _].
    apply (sound_ast U) in M; [|apply (significant_valid U), V | exact Fe]. destruct M as [-> G].
    destruct (Hok ltac:(discriminate)) as [E C]. exists ts. split; [exact E|]. split; assumption.
  - intros (ts & E & C & G).
    pose proof (reads_text U HU ts (new_lexer input) (new_aligned input) E C) as H.
    assert (HR : W_R U (new_lexer input) (significant ts, Ends [])) by (split; [left; apply new_aligned | exact H]).
    pose proof (sim_file U n HU _ _ HR) as S. pose proof (separated_length U ts C) as Hl. pose proof (significant_length ts) as Hs.
    rewrite (run_ast [] n (significant ts) a) in S.
    + destruct (parse_ast (wit_source U) n (new_lexer input)) as [[d'|y| |] l']; cbn in S; try contradiction.
      destruct S as [-> _]. reflexivity.
    + apply (valid_no_end U), (significant_valid U), (separated_valid U), C.
    + exact G.
    + apply Nat.le_lt_trans with (length (text_of ts)); [exact (Nat.le_trans _ _ _ Hs Hl) | unfold n; rewrite E; lia].
Qed.

(** One sequence of tokens spells at most one file. *)
Theorem wit_spelling_unambiguous : forall U ts a a', Forall (fun t => token_text U (fst t) (snd t)) ts ->
  a_file ts a -> a_file ts a' -> a = a'.
Proof.
  intros U ts a a' V H H'. apply (valid_no_end U) in V.
  pose proof (run_ast [] (S (length ts)) ts a V H (Nat.lt_succ_diag_r _)) as R.
  pose proof (run_ast [] (S (length ts)) ts a' V H' (Nat.lt_succ_diag_r _)) as R'. congruence.
Qed.

(** Texts with the same tokens, whatever the whitespace and the comments, are
    read as the same file. *)
Theorem wit_spaces_do_not_matter : forall U ts ts', good_tables U -> separated U ts -> separated U ts' ->
  significant ts = significant ts' ->
  forall a, Parse U (text_of ts) = Ok a <-> Parse U (text_of ts') = Ok a.
Proof.
  assert (X : forall U ts ts', good_tables U -> separated U ts -> separated U ts' -> significant ts = significant ts' ->
    forall a, Parse U (text_of ts) = Ok a -> Parse U (text_of ts') = Ok a).
  { intros U ts ts' HU C C' E a P. apply wit_parse_means in P; [|exact HU]. destruct P as (ts0 & E0 & C0 & G).
    assert (ts0 = ts) as -> by (apply (separated_unique U); auto).
    apply wit_parse_means; [exact HU|]. exists ts'. rewrite <- E. auto. }
  intros U ts ts' HU C C' E a. split; apply X; auto.
Qed.

(** Files one after the other: items are read one by one, so that what stands
    before an item does not change how it is read. *)
Lemma items_app w is w' is' : file_items w is -> file_items w' is' -> not_before Colon w' -> not_before KAs w' ->
  file_items (w ++ w') (is ++ is').
Proof.
  intros H H' N1 N2. induction H as [|wp p wa a ws is Hp Ha H IH Nc Na|wi i w its ws is Hi Hw H IH|wi i wb its ws is Hi Hb H IH|k v ws is Hk H IH];
    cbn [app]; [exact H'| | | |].
  - rewrite <- !app_assoc. constructor; auto.
    + rewrite app_assoc. destruct (wa ++ ws); [exact N1 | exact Nc].
    + intros E. specialize (Na E). destruct ws; [exact N2 | exact Na].
  - repeat (rewrite <- app_assoc; cbn [app]). now constructor.
  - rewrite <- !app_assoc. now constructor.
  - now constructor.
Qed.

Theorem wit_files_join : forall U ts ts' a is, good_tables U -> separated U (ts ++ ts') ->
  a_file (significant ts) a -> file_items (significant ts') is ->
  not_before Colon (significant ts') -> not_before KAs (significant ts') -> (significant ts = [] -> not_before KPackage (significant ts')) ->
  Parse U (text_of ts ++ text_of ts') = Ok {| as_package := as_package a; as_items := as_items a ++ is |}.
Proof.
  intros U ts ts' a is HU C H H' N1 N2 N3. apply wit_parse_means; [exact HU|]. exists (ts ++ ts').
  rewrite text_of_app, significant_app. split; [reflexivity|]. split; [exact C|].
  inversion H as [w its Hi Np|wp p w its Hp Hi E]; subst; cbn [as_package as_items].
  - constructor; [now apply items_app|]. destruct (significant ts); [now apply N3 | exact Np].
  - rewrite <- app_assoc. constructor; [exact Hp | now apply items_app].
Qed.

(** ** C41: types *)

(** The tokens that Next still gives, up to the end *)
Inductive gives (U : tables) : lexer -> list tk -> Prop :=
| gives_end l t l' : next U l = (Ok t, l') -> t_type t = EndOfStream -> gives U l []
| gives_token l t l' ts : next U l = (Ok t, l') -> t_type t <> EndOfStream -> gives U l' ts ->
    gives U l ((t_type t, t_capture t) :: ts).

Lemma reads_gives U l s : W_reads U l s -> snd s <> Fails -> exists r, gives U l r /\ significant r = fst s.
Proof.
  induction 1 as [l t l' s E K H IH|l t l' ts e E K Ne H IH|l t l' w E K V D|l e l' E]; cbn [fst snd] in *; intros F.
  - destruct (IH F) as (r & G & S). exists ((t_type t, t_capture t) :: r). unfold skipped in K. split.
    + econstructor; [exact E | intros Q; rewrite Q in K; discriminate | exact G].
    + cbn [significant filter fst]. change (filter _ r) with (significant r).
      assert (Q : space_or_comment (t_type t) = true) by exact K. rewrite Q. exact S.
  - destruct (IH F) as (r & G & S). exists ((t_type t, t_capture t) :: r). split.
    + econstructor; [exact E | exact Ne | exact G].
    + cbn [significant filter fst]. change (filter _ r) with (significant r). rewrite S.
      assert (Q : space_or_comment (t_type t) = false) by exact K. rewrite Q. reflexivity.
  - exists []. split; [|reflexivity]. econstructor; [exact E | inversion V; reflexivity].
  - congruence.
Qed.

(** The tokens of a type, with whitespace and comments between them and
    anything after them, parse to the type and nothing more is consumed. Only
    after a bare result, stream or future the next token must not be <. *)
Theorem wit_type_parses : forall U n ts ts' t, good_tables U -> separated U (ts ++ ts') ->
  a_type (significant ts) t -> (bare t -> not_before Less (significant ts')) -> length ts <= n ->
  exists l r, parse_type (wit_source U) n (new_lexer (text_of (ts ++ ts'))) = (Ok t, l) /\
    gives U l r /\ significant r = significant ts'.
Proof.
  intros U n ts ts' t HU C H Hb Hn. set (l0 := new_lexer (text_of (ts ++ ts'))).
  pose proof (reads_text U HU _ l0 (new_aligned _) eq_refl C) as Rd. rewrite significant_app in Rd.
  assert (HR : W_R U l0 (significant ts ++ significant ts', Ends [])) by (split; [left; apply new_aligned | exact Rd]).
  pose proof (sim_one_type U n HU _ _ HR) as S.
  rewrite (run_any_type [] n (significant ts) t) in S; [|exact H|exact (Nat.le_trans _ _ _ (significant_length ts) Hn)|exact Hb].
  destruct (parse_type (wit_source U) n l0) as [[x|y| |] l']; cbn in S; try contradiction. destruct S as [<- [_ Rd']].
  destruct (reads_gives U l' _ Rd') as (r & G & E); [discriminate|]. exists l', r. auto.
Qed.

(** Nothing else is read as a type: what the parser takes for a type is the
    tokens of a type, unless it takes everything up to the end of the text. *)
Theorem wit_type_means : forall U n ts t l, good_tables U -> separated U ts ->
  parse_type (wit_source U) n (new_lexer (text_of ts)) = (Ok t, l) ->
  exists w r, gives U l r /\ significant ts = w ++ significant r /\ (a_type w t \/ significant r = []).
Proof.
  intros U n ts t l HU C P. set (l0 := new_lexer (text_of ts)) in *.
  pose proof (reads_text U HU _ l0 (new_aligned _) eq_refl C) as Rd.
  assert (HR : W_R U l0 (significant ts, Ends [])) by (split; [left; apply new_aligned | exact Rd]).
  pose proof (sim_one_type U n HU _ _ HR) as S. rewrite P in S.
  destruct (parse_type mch n (significant ts, Ends [])) as [[x|y| |] s'] eqn:M; cbn in S; try contradiction.
  destruct S as [-> [_ Rd']].
  apply (weak_type U) in M; [|exact I|apply (significant_valid U), (separated_valid U), C|reflexivity].
  destruct M as [(w & rest & E & -> & _ & G)|[_ ->]];
    (destruct (reads_gives U l _ Rd') as (r & Gr & Er); [discriminate|]); cbn [fst] in Er.
  - exists w, r. split; [exact Gr|]. split; [now rewrite Er|]. now left.
  - exists (significant ts), r. split; [exact Gr|]. rewrite Er, app_nil_r. split; [reflexivity|].
    now right.
Qed.

(** ** C41, C42: trees that can be written parse back *)

(** Files with records, variants, enums, flags, functions, resources, uses,
    interfaces and worlds, and any types in them *)
Theorem wit_file_parses_back : forall U a, good_tables U -> good_ast U a -> Parse U (spaced (print_ast a)) = Ok a.
Proof.
  intros U a HU H. destruct (ast_spells U a H) as [G S]. apply wit_parse_means; [exact HU|].
  exists (blanks (print_ast a)). rewrite blanks_text, (blanks_significant U) by exact S.
  split; [reflexivity|]. split; [now apply blanks_separated | exact G].
Qed.

(** Types, in front of any tokens: what follows is left. Only after a bare
    result, stream or future it must not be <. *)
Theorem wit_type_parses_back : forall U n t (rest : list tk), good_tables U -> good_type U t ->
  Forall (fun x => token_text U (fst x) (snd x)) rest -> significant rest = rest -> (bare t -> not_before Less rest) ->
  2 * length (print_type t) <= n ->
  exists l r, parse_type (wit_source U) n (new_lexer (spaced (print_type t ++ rest))) = (Ok t, l) /\
    gives U l r /\ significant r = rest.
Proof.
  intros U n t rest HU H V Hs N Hn. destruct (type_spells U t H) as (G & S & _).
  assert (S' : Forall (solid U) rest).
  { rewrite Forall_forall in *. intros x Hx. split; [now apply V|]. rewrite <- Hs in Hx. unfold significant in Hx.
    apply filter_In in Hx. destruct Hx as [_ Hx]. now apply negb_true_iff in Hx. }
  assert (E : blanks (print_type t ++ rest) = blanks (print_type t) ++ blanks rest) by (unfold blanks; apply flat_map_app).
  rewrite <- blanks_text, E.
  destruct (wit_type_parses U n (blanks (print_type t)) (blanks rest) t HU) as (l & r & H1 & H2 & H3).
  - change (separated U (@Datatypes.app tk (blanks (print_type t)) (blanks rest))). rewrite <- E. apply blanks_separated; [exact HU|]. apply Forall_app. auto.
  - now rewrite (blanks_significant U).
  - now rewrite (blanks_significant U).
  - assert (L : forall ts, length (blanks ts) = 2 * length ts).
    { induction ts as [|x ts IH]; [reflexivity|]. cbn [blanks flat_map app length]. unfold blanks in IH. rewrite IH. lia. }
    rewrite L. exact Hn.
  - rewrite (blanks_significant U) in H3 by exact S'. eauto.
Qed.

(** ** What is rejected and what is accepted although it should not be *)

(** Use paths with a namespace are rejected: no file that begins with one
    parses ... *)
Theorem namespaced_use_rejected : forall U ts x i ws, good_tables U -> separated U ts -> a_name [x] i ->
  significant ts = tok "use" :: x :: tok ":" :: ws -> forall a, Parse U (text_of ts) <> Ok a.
Proof.
  intros U ts x i ws HU C Hx E a P. apply wit_parse_means in P; [|exact HU]. destruct P as (ts0 & E0 & C0 & G).
  assert (ts0 = ts) as -> by (apply (separated_unique U); auto). rewrite E in G.
  assert (F : forall w its, w = tok "use" :: x :: tok ":" :: ws -> ~ file_items w its).
  { intros w its Ew H. destruct H as [|wp p wa b ws' is Hp Ha H Nc Na|wi j w its ws' is Hi Hw H|wi j wb its ws' is Hi Hb H|k v ws' is Hk H];
      try discriminate Ew.
    - injection Ew as Ew. destruct Hp as [w1 i1 Hn]. destruct Hn; cbn [app] in Ew; injection Ew as _ Ew; rewrite Ew in Nc; now apply Nc.
    - injection Ew as -> _ _. apply Hk. now left. }
  inversion G as [w its Hi Np Ew|wp p w its Hp Hi Ew]; subst.
  - exact (F _ _ eq_refl Hi).
  - inversion Hp; subst. discriminate Ew.
Qed.

(** ... and no path of an accepted file has a package. *)
Definition item_paths (i : iitem) : list use_path := match i with IUse u => [us_from u] | _ => [] end.
Definition extern_paths (e : extern) : list use_path :=
  match e with EUsePath p => [p] | EInterface _ is => flat_map item_paths is | EFunc _ _ => [] end.
Definition world_item_paths (w : witem) : list use_path :=
  match w with WExport e | WImport e => extern_paths e | WInclude p _ => [p] | WItem i => item_paths i end.
Definition ast_item_paths (i : ast_item) : list use_path :=
  match i with
  | AUse u => [tu_item u]
  | AWorld w => flat_map world_item_paths (wo_items w)
  | AInterface i => flat_map item_paths (if_items i)
  | ANothing => []
  end.
Definition plain_path (p : use_path) : Prop := up_package p = None /\ up_name p = [].

Lemma many_all {A} (G : spelling A) (P : A -> Prop) w xs : (forall w x, G w x -> P x) -> many G w xs -> forall x, In x xs -> P x.
Proof. intros H. induction 1; cbn; [tauto|]. intros y [<-|Hy]; eauto. Qed.
Lemma path_plain w p : a_use_path w p -> plain_path p.
Proof. intros []. split; reflexivity. Qed.
Lemma use_plain w u : a_use w u -> plain_path (us_from u).
Proof. intros []. cbn. eapply path_plain; eassumption. Qed.
Lemma flat_all {A B} (f : A -> list B) (P : B -> Prop) xs : (forall x, In x xs -> forall y, In y (f x) -> P y) ->
  forall y, In y (flat_map f xs) -> P y.
Proof. intros H y Hy. apply in_flat_map in Hy. destruct Hy as (x & Hx & Hy). eauto. Qed.
Lemma item_plain w i : an_interface_item w i -> forall p, In p (item_paths i) -> plain_path p.
Proof.
  intros [w' u H|w' i' H|w' i' H|w' i' H|w' i' H|w' i' H|w' i' H|w' f H] p Hp; try (destruct H; cbn in Hp; contradiction);
    cbn in Hp; try contradiction.
  destruct Hp as [<-|[]]. eapply use_plain; eassumption.
Qed.
Lemma extern_plain w e : an_extern w e -> forall p, In p (extern_paths e) -> plain_path p.
Proof.
  intros [wi i wf f Hi Hf|wi i wb is Hi Hb|w' p' Hp'] p; cbn [extern_paths]; [cbn; tauto| |].
  - destruct Hb as [w' is' H]. apply flat_all. eapply (many_all _ (fun i => forall p, In p (item_paths i) -> plain_path p));
      [|exact H]. intros; eapply item_plain; eassumption.
  - intros [<-|[]]. eapply path_plain; eassumption.
Qed.
Lemma world_item_plain w i : a_world_item w i -> forall p, In p (world_item_paths i) -> plain_path p.
Proof.
  intros H p Hp. destruct H as [w' e H|w' e H|w' q H|w' q wn ns H H'|w' u H|w' i' H|w' i' H|w' i' H|w' i' H];
    cbn [world_item_paths] in Hp; try (eapply extern_plain; eassumption); try (destruct Hp as [<-|[]]; eapply path_plain; eassumption);
    try (destruct H; cbn in Hp; contradiction).
  destruct Hp as [<-|[]]. eapply use_plain; eassumption.
Qed.
Theorem use_paths_have_no_package : forall U input a, good_tables U -> Parse U input = Ok a ->
  forall i p, In i (as_items a) -> In p (ast_item_paths i) -> up_package p = None /\ up_name p = [].
Proof.
  intros U input a HU P. apply wit_parse_means in P; [|exact HU]. destruct P as (ts & _ & _ & G).
  assert (F : forall w is, file_items w is -> forall i, In i is -> forall p, In p (ast_item_paths i) -> plain_path p).
  { induction 1 as [|wp q wa b ws is Hp Ha H IH Nc Na|wi j w its ws is Hi Hw H IH|wi j wb its ws is Hi Hb H IH|k v ws is Hk H IH];
      intros i Hin; [destruct Hin| | | |]; (destruct Hin as [<-|Hin]; [|now apply IH]); cbn [ast_item_paths tu_item wo_items if_items].
    - intros p [<-|[]]. eapply path_plain; eassumption.
    - apply flat_all. eapply (many_all _ (fun i => forall p, In p (world_item_paths i) -> plain_path p)); [|eassumption].
      intros; eapply world_item_plain; eassumption.
    - destruct Hb as [w' is' Hm]. apply flat_all. eapply (many_all _ (fun i => forall p, In p (item_paths i) -> plain_path p));
        [|exact Hm]. intros; eapply item_plain; eassumption.
    - intros p []. }
  destruct G as [w is H N|wp p w is Hp H]; cbn [as_items]; intros; eapply F; eassumption.
Qed.

(** Any other tokens are accepted as a file, each as an item without content:
    here a file has neither use, world nor interface, and no package at its
    beginning. *)
Theorem unknown_tokens_accepted : forall U ts, good_tables U -> separated U ts ->
  Forall (fun t => ~ In (fst t) [KUse; KWorld; KInterface]) (significant ts) -> not_before KPackage (significant ts) ->
  Parse U (text_of ts) = Ok {| as_package := None; as_items := repeat ANothing (length (significant ts)) |}.
Proof.
  intros U ts HU C H N. apply wit_parse_means; [exact HU|]. exists ts. split; [reflexivity|]. split; [exact C|].
  constructor; [|exact N]. clear - H. induction H as [|[k v] w Hk H IH]; cbn [length repeat]; [constructor|]. now constructor.
Qed.

Definition accepted (U : tables) (input : text) : Prop := exists a, Parse U input = Ok a.
Definition rejected (U : tables) (input : text) : Prop := forall a, Parse U input <> Ok a.
Ltac rejects := intros a; vm_compute; discriminate.
Ltac accepts := eexists; vm_compute; reflexivity.

(** So a file that is not WIT at all is accepted. *)
Theorem unknown_tokens_rejected_refuted :
  ~ (forall U input a, good_tables U -> Parse U input = Ok a -> In ANothing (as_items a) -> exists x y, input = x ++ txt ";" ++ y).
Proof.
  intros H. destruct (H latin (txt "hello, (world2) 42") _ latin_good ltac:(vm_compute; reflexivity) ltac:(cbn; tauto)) as (x & y & E).
  assert (I : In ";"%char (txt "hello, (world2) 42")) by (rewrite E; apply in_or_app; right; now left). vm_compute in I. intuition discriminate.
Qed.
(** A second package declaration is accepted, and forgotten. *)
Theorem one_package_refuted : ~ (forall U a, good_tables U -> Parse U (txt "package a:b; package c:d;") <> Ok a).
Proof. intros H. eapply (H latin); [apply latin_good | vm_compute; reflexivity]. Qed.
(** The semicolon after a use at the top can be left out, and the one after a
    resource. *)
Theorem semicolons_required_refuted : ~ (forall U, good_tables U ->
  rejected U (txt "use a use b") /\ rejected U (txt "interface i { resource r resource s }")).
Proof. intros H. destruct (H latin latin_good) as [H1 _]. eapply H1. vm_compute. reflexivity. Qed.

(** Any token is accepted as a type. *)
Theorem types_are_names_refuted :
  ~ (forall U input i t w a, good_tables U -> Parse U input = Ok a ->
      In (AInterface {| if_name := i; if_items := [IType t (TyId w)] |}) (as_items a) ->
      w <> txt ";" /\ w <> txt "use" /\ w <> txt "42").
Proof.
  intros H. specialize (H latin (txt "interface i { type t = ;; }") (txt "i") (txt "t") (txt ";") _ latin_good
    ltac:(vm_compute; reflexivity) ltac:(cbn; tauto)). now apply H.
Qed.

(** What is accepted in an interface as the definition of a type is not always
    accepted in a world: flags and enums are not. *)
Theorem worlds_define_types_refuted :
  ~ (forall U d, good_tables U -> accepted U (txt "interface i { " ++ d ++ txt " }") -> accepted U (txt "world w { " ++ d ++ txt " }")).
Proof.
  intros H. destruct (H latin (txt "flags f { a, b }") latin_good ltac:(accepts)) as [a E]. vm_compute in E. discriminate.
Qed.
Theorem enums_in_worlds_rejected : rejected latin (txt "world w { enum e { a, b } }").
Proof. rejects. Qed.

(** Imports and includes of another package are rejected. *)
Theorem namespaced_import_rejected : rejected latin (txt "world w { import wasi:io/streams; }").
Proof. rejects. Qed.
Theorem namespaced_import_version_rejected : rejected latin (txt "world w { import wasi:io/streams@0.2.0; }").
Proof. rejects. Qed.
Theorem namespaced_interface_use_rejected : rejected latin (txt "interface i { use wasi:io/streams.{input-stream}; }").
Proof. rejects. Qed.
Theorem namespaced_include_rejected : rejected latin (txt "world w { include wasi:cli/imports; }").
Proof. rejects. Qed.
(** Names after an include, with commas and a semicolon as in WIT, are
    rejected. *)
Theorem include_with_rejected : rejected latin (txt "world w { include v with { a as b, c as d } }").
Proof. rejects. Qed.

(** Versions with leading zeros are accepted and read in base 8 ... *)
Theorem versions_are_decimal_refuted :
  ~ (forall U a p v, good_tables U -> Parse U (txt "package a:b@1.010.0;") = Ok a -> as_package a = Some p ->
      pk_version p = Some v -> v_minor v = 10%N \/ v_minor v = 0%N).
Proof.
  intros H. destruct (H latin _ _ _ latin_good ltac:(vm_compute; reflexivity) eq_refl eq_refl) as [E|E]; discriminate E.
Qed.
(** ... or rejected; pre-release versions too. *)
Theorem version_eight_rejected : rejected latin (txt "package a:b@1.08.0;").
Proof. rejects. Qed.
Theorem prerelease_rejected : rejected latin (txt "package a:b@1.0.0-rc;").
Proof. rejects. Qed.

(** The element type of a list or option is not in the field ItemType. *)
Theorem list_item_type_set_refuted :
  ~ (forall U a i t e x, good_tables U -> Parse U (txt "interface i { type t = list<u32>; }") = Ok a ->
      In (AInterface {| if_name := i; if_items := [IType t (TyList e x)] |}) (as_items a) -> x = Some TyU32).
Proof.
  intros H. specialize (H latin _ (txt "i") (txt "t") (Some TyU32) None latin_good ltac:(vm_compute; reflexivity) ltac:(cbn; tauto)).
  discriminate H.
Qed.
Theorem item_types_never_set : forall w e x, a_type w (TyList e x) \/ a_type w (TyOption e x) -> x = None.
Proof. intros w e x [H|H]; inversion H; reflexivity. Qed.
(** A method does not have its name. *)
Theorem method_names_refuted :
  ~ (forall U a i r m f, good_tables U -> Parse U (txt "interface i { resource r { m: func(); } }") = Ok a ->
      In (AInterface {| if_name := i; if_items := [IResource r [MMethod m f]] |}) (as_items a) -> m = txt "m").
Proof.
  intros H. specialize (H latin _ (txt "i") (txt "r") [] {| fi_id := txt "m"; fi_type := {| ft_params := [];
    ft_results := {| rl_named := []; rl_anonymous := None |} |} |} latin_good ltac:(vm_compute; reflexivity) ltac:(cbn; tauto)).
  discriminate H.
Qed.

(** ** Examples *)
Ltac is_name := left; split; [apply ascii_word; [reflexivity | unfold letter, code; cbn; lia | ascii_chars]|
  let k := fresh in let Ek := fresh in intros (? & k & ? & Ek);
  match type of Ek with ?w = _ => let G := fresh in
    assert (G : text_get keyword_map w = Some k) by (apply keyword_get; eauto); vm_compute in G; discriminate G end].
Definition sample_type : wtype :=
  TyResult (Some (TyList (Some (TyTuple [TyU32; TyId (txt "u8"); TyOption (Some TyString) None])) None)) (Some (TyBorrow (txt "point"))).
Example sample_type_good : good_type latin sample_type.
Proof. cbn. repeat split; try (right; tauto). is_name. Qed.
Definition sample_file : ast :=
  {| as_package := Some {| pk_namespace := txt "local"; pk_name := txt "demo";
       pk_version := Some {| v_major := 1; v_minor := 20; v_patch := 0; v_pre := []; v_build := [] |} |};
     as_items :=
       [AUse {| tu_item := {| up_id := txt "host"; up_package := None; up_name := [] |}; tu_as := Some (txt "guest") |}; ANothing;
        AInterface {| if_name := txt "shapes"; if_items :=
          [IRecord (txt "point") [{| fd_name := txt "x"; fd_type := TyFloat32 |}; {| fd_name := txt "y"; fd_type := TyFloat32 |}];
           IVariant (txt "shape") [{| cs_name := txt "empty"; cs_type := None |}; {| cs_name := txt "dot"; cs_type := Some (TyId (txt "point")) |}];
           IEnum (txt "colour") [txt "red"; txt "blue"]; IFlags (txt "bits") [txt "a"; txt "b"];
           IResource (txt "canvas") [MConstructor []; MStatic (txt "best")
             {| ft_params := []; ft_results := {| rl_named := []; rl_anonymous := Some sample_type |} |}]] |};
        AWorld {| wo_id := txt "main"; wo_items := [WImport (EUsePath {| up_id := txt "shapes"; up_package := None; up_name := [] |})] |}] |}.
Example sample_file_good : good_ast latin sample_file.
Proof. cbn. repeat split; try (right; tauto); try is_name; try (left; is_name); auto. right. cbn. tauto. Qed.
Example sample_file_parses : Parse latin (spaced (print_ast sample_file)) = Ok sample_file.
Proof. apply wit_file_parses_back; [apply latin_good | apply sample_file_good]. Qed.
Example sample_text_parses : Parse latin (txt "package local:demo; // demo" ++ [newline] ++
  txt "interface i { f: func(a: list<u32>,) -> (b: u8); /* no more */ }") =
  Ok {| as_package := Some {| pk_namespace := txt "local"; pk_name := txt "demo"; pk_version := None |};
        as_items := [AInterface {| if_name := txt "i"; if_items := [IFunc {| fi_id := txt "f"; fi_type :=
          {| ft_params := [{| pa_id := txt "a"; pa_type := TyList (Some TyU32) None |}];
             ft_results := {| rl_named := [{| pa_id := txt "b"; pa_type := TyId (txt "u8") |}]; rl_anonymous := None |} |} |}] |}] |}.
Proof. vm_compute. reflexivity. Qed.
(** The hypotheses of [wit_type_parses], [wit_files_join] and of the theorems
    about use and unknown tokens are met. *)
Example type_case : a_type (significant [(KOption, txt "option"); (Whitespace, txt " "); (Less, txt "<"); (KBool, txt "bool"); (Greater, txt ">")])
  (TyOption (Some (TyId (txt "bool"))) None).
Proof. apply (ty_option [(KBool, txt "bool")]). constructor. vm_compute. intuition discriminate. Qed.
Example use_case : exists ts x ws, separated latin ts /\ a_name [x] (txt "wasi") /\ significant ts = tok "use" :: x :: tok ":" :: ws.
Proof.
  set (us := [tok "use"; (Id, txt "wasi"); tok ":"; (Id, txt "io"); tok "/"; (Id, txt "streams")]).
  assert (N : forall i, good_name latin i -> solid latin (print_name i)) by (intros i H; now apply (name_spells latin)).
  assert (S : Forall (solid latin) us).
  { repeat apply Forall_cons; try apply Forall_nil; try (apply solid_tok; reflexivity);
      match goal with |- solid _ (Id, ?i) => change (solid latin (print_name i)); apply N; is_name end. }
  exists (blanks us), (Id, txt "wasi"), [(Id, txt "io"); tok "/"; (Id, txt "streams")].
  split; [apply blanks_separated; [apply latin_good | exact S]|]. split; [constructor|].
  now rewrite (blanks_significant latin) by exact S.
Qed.

Print Assumptions wit_parse_ends.
Print Assumptions wit_parse_means.
Print Assumptions wit_spelling_unambiguous.
Print Assumptions wit_spaces_do_not_matter.
Print Assumptions wit_files_join.
Print Assumptions wit_type_parses.
Print Assumptions wit_type_means.
Print Assumptions wit_file_parses_back.
Print Assumptions wit_type_parses_back.
Print Assumptions namespaced_use_rejected.
Print Assumptions use_paths_have_no_package.
Print Assumptions unknown_tokens_accepted.
Print Assumptions unknown_tokens_rejected_refuted.
Print Assumptions one_package_refuted.
Print Assumptions semicolons_required_refuted.
Print Assumptions types_are_names_refuted.
Print Assumptions worlds_define_types_refuted.
Print Assumptions enums_in_worlds_rejected.
Print Assumptions namespaced_import_rejected.
Print Assumptions namespaced_import_version_rejected.
Print Assumptions namespaced_interface_use_rejected.
Print Assumptions namespaced_include_rejected.
Print Assumptions include_with_rejected.
Print Assumptions versions_are_decimal_refuted.
Print Assumptions version_eight_rejected.
Print Assumptions prerelease_rejected.
Print Assumptions list_item_type_set_refuted.
Print Assumptions item_types_never_set.
Print Assumptions method_names_refuted.
