(** What the WAT parser has read can always be completed: for tokens on which
    the parser found no error there are further ones with which it accepts. *)
From Coq Require Import Arith NArith ZArith String Ascii Bool List Lia.
From Verif Require Import GoBase M_Text M_WatLex M_ParseBase M_Strconv M_WatAst M_WatParse S_WatParse L_ParseBase L_WatSim L_WatRel L_WatStop.
From Verif Require Import M_WatParse.
Import ListNotations.
Open Scope nat_scope.
Open Scope parse_scope.
#[local] Arguments tok_eqb : simpl never.
#[local] Arguments text_eqb : simpl never.

(** The tokens used for completing *)
Definition word_tk (s : string) : tk := (Reserved, txt s).
Definition name_a : tk := (TId, txt "$a").
Definition some_string : tk := (TString, [quote; quote]).
Definition zero : tk := (TInteger, txt "0").
Definition open : tk := (OpenParen, txt "(").
Definition close : tk := (CloseParen, txt ")").
Definition vocab : list tk :=
  [open; close; (TModule, txt "module"); (TComponent, txt "component"); name_a; some_string; zero;
   word_tk "return"; word_tk "i32"; word_tk "funcref"; word_tk "elem"; word_tk "result"; word_tk "param"; word_tk "local";
   word_tk "export"; word_tk "import"; word_tk "type"; word_tk "then"; word_tk "else"; word_tk "func"; word_tk "table";
   word_tk "global"; word_tk "mut"; word_tk "memory";
   word_tk "assert_return"; word_tk "assert_invalid"; word_tk "assert_malformed"; word_tk "assert_trap"; word_tk "invoke"; word_tk "i32.const"].

(** The next token is none of these kinds, and the file can be read on. *)
Definition free (b : list toktype) (rest : list tk) (e : ending) : Prop :=
  match rest with t :: _ => ~ In (fst t) b | [] => match e with Ends _ => ~ In EndOfStream b | Fails => False end end.
(** The tokens [d] are read, whatever follows, if it is not one of [b]. *)
Definition runs {A} (b : list toktype) (q : nat -> nat -> parser cst A) (d : list tk) : Prop :=
  exists N a, forall m m' rest e n k, N <= m -> N <= m' -> free b rest e ->
  exists n' k', q m m' (mkC (d ++ rest) e n k) = (Ok a, mkC rest e n' k').
Definition C {A} (b : list toktype) (q : nat -> nat -> parser cst A) : Prop := exists d, incl d vocab /\ runs b q d.
Definition joins (b b' : list toktype) (d : list tk) : Prop :=
  match d with [] => incl b b' | t :: _ => ~ In (fst t) b end.
(** When the parser runs out of tokens there are more that complete them. *)
Definition V {A} (b : list toktype) (p : parser (option (list tk)) A) (q : nat -> nat -> parser cst A) : Prop :=
  forall c, p (Some c) = (Diverge, None) -> exists d, incl d vocab /\ runs b q (c ++ d).
(** An answer on the first tokens is the answer on the file. *)
Definition E {A} (p : parser (option (list tk)) A) (q : nat -> nat -> parser cst A) : Prop :=
  forall c a c', p (Some c) = (Ok a, c') -> exists d N, c' = Some d /\ (exists c0, c = c0 ++ d) /\
  forall m m' rest e n k, N <= m -> N <= m' -> exists n' k', q m m' (mkC (c ++ rest) e n k) = (Ok a, mkC (d ++ rest) e n' k').

Lemma joins_free b b' d rest e : joins b b' d -> free b' rest e -> free b (d ++ rest) e.
Proof.
  destruct d as [|t d]; [|auto]. cbn. intros I. destruct rest as [|t rest]; cbn; [destruct e; auto|]; intros F H; apply F, I, H.
Qed.

(** ** Reading given tokens *)
Lemma runs_pret {A} b (a : A) : runs b (fun _ _ => pret a) [].
Proof. exists 0, a. intros. exists n, k. reflexivity. Qed.
Lemma runs_handled {A} b (q : nat -> nat -> parser cst A) d : runs b q d -> runs b (fun m m' => handled (q m m')) d.
Proof.
  intros (N & a & H). exists N, a. intros. unfold handled. destruct (H m m' rest e n k) as (n' & k' & ->); eauto.
Qed.
Lemma runs_bind {A B} b b' (q : nat -> nat -> parser cst A) (g : nat -> nat -> A -> parser cst B) d d' :
  runs b q d -> (forall a, runs b' (fun m m' => g m m' a) d') -> joins b b' d' ->
  runs b' (fun m m' => pbind (unwrap (q m m')) (g m m')) (d ++ d').
Proof.
  intros (N & a & H) G J. destruct (G a) as (N' & x & H'). exists (Nat.max N N'), x. intros m m' rest e n k L L' F. rewrite plet_eq, <- app_assoc.
  destruct (H m m' (d' ++ rest) e n k) as (n' & k' & ->); [lia|lia|now apply (joins_free b b')|].
  apply H'; auto; lia.
Qed.
Lemma runs_bind_eq {A B} b b' (q : nat -> nat -> parser cst A) (g : nat -> nat -> A -> parser cst B) l d d' :
  runs b q d -> (forall a, runs b' (fun m m' => g m m' a) d') -> joins b b' d' -> l = d ++ d' ->
  runs b' (fun m m' => pbind (unwrap (q m m')) (g m m')) l.
Proof. intros. subst l. eapply runs_bind; eassumption. Qed.
Lemma runs_next {B} b (g : nat -> nat -> tk -> parser cst B) t d :
  runs b (fun m m' => g m m' t) d -> runs b (fun m m' => pbind (unwrap (nxt counter)) (g m m')) (t :: d).
Proof. intros (N & a & H). exists N, a. intros. rewrite plet_eq. cbn. apply H; auto. Qed.
Lemma runs_peek {B} b (g : nat -> nat -> tk -> parser cst B) t d :
  runs b (fun m m' => g m m' t) (t :: d) -> runs b (fun m m' => pbind (unwrap (pk counter)) (g m m')) (t :: d).
Proof. intros (N & a & H). exists N, a. intros. rewrite plet_eq. cbn. apply H; auto. Qed.
(** Nothing is read: what is peeked at is not one of [b]. *)
Lemma runs_peek_free {B} b (g : nat -> nat -> tk -> parser cst B) d :
  (exists N a, forall t, ~ In (fst t) b -> forall m m' rest e n k, N <= m -> N <= m' -> free b rest e ->
   exists n' k', g m m' t (mkC (d ++ rest) e n k) = (Ok a, mkC rest e n' k')) -> joins b b d ->
  runs b (fun m m' => pbind (unwrap (pk counter)) (g m m')) d.
Proof.
  intros (N & a & H) J. exists N, a. intros m m' rest e n i L L' F. rewrite plet_eq.
  pose proof (joins_free _ _ _ _ _ J F) as F'.
  change (pk counter) with c_peek. unfold c_peek. cbn [c_ts c_end c_n]. destruct (d ++ rest) as [|t ts] eqn:D; cbn in F'.
  - destruct e; [|destruct F']. rewrite <- D. apply H; auto.
  - rewrite <- D. apply H; auto.
Qed.
Lemma tok_eqb_refl k : tok_eqb k k = true.
Proof. destruct k; reflexivity. Qed.
Lemma tok_eqb_neq k k' : k <> k' -> tok_eqb k k' = false.
Proof. destruct k, k'; try reflexivity; congruence. Qed.
Lemma tok_eqb_eq k k' : tok_eqb k k' = true -> k = k'.
Proof. destruct k, k'; try reflexivity; discriminate. Qed.
Lemma tok_eqb_false k k' : tok_eqb k k' = false -> k <> k'.
Proof. intros H ->. rewrite tok_eqb_refl in H. discriminate. Qed.
Lemma runs_exp {B} b (g : nat -> nat -> parser cst B) t k d : fst t = k ->
  runs b g d -> runs b (fun m m' => pbind (unwrap (exp counter k)) (fun _ => g m m')) (t :: d).
Proof. intros <- (N & a & H). exists N, a. intros. rewrite plet_eq, c_exp. cbn. rewrite tok_eqb_refl. apply H; auto. Qed.
Lemma text_eqb_refl w : text_eqb w w = true.
Proof. unfold text_eqb. now destruct (list_eq_dec ascii_dec w w). Qed.
Lemma text_eqb_eq w w' : text_eqb w w' = true -> w = w'.
Proof. unfold text_eqb. destruct (list_eq_dec ascii_dec w w'); congruence. Qed.
Lemma f_word w s : word first w s =
  match s with
  | Some (t :: ts) => if tok_eqb (fst t) Reserved then if text_eqb (snd t) w then (Ok tt, Some ts) else (Err EOther, Some ts) else (Err EOther, Some ts)
  | _ => (Diverge, None)
  end.
Proof.
  unfold word, expect_value, handled, unwrap. destruct s as [[|t ts]|]; try reflexivity. cbn.
  destruct (tok_eqb (fst t) Reserved); [destruct (text_eqb (snd t) w)|]; reflexivity.
Qed.
Lemma runs_word {B} b (g : nat -> nat -> parser cst B) w d :
  runs b g d -> runs b (fun m m' => pbind (unwrap (word counter w)) (fun _ => g m m')) ((Reserved, w) :: d).
Proof.
  intros (N & a & H). exists N, a. intros. rewrite plet_eq. unfold word, expect_value, handled, unwrap, pbind. cbn.
  change (tok_eqb Reserved Reserved) with true. rewrite text_eqb_refl. cbn. apply H; auto.
Qed.
Lemma runs_eat {B} b (g : nat -> nat -> bool -> parser cst B) k t d : fst t = k ->
  runs b (fun m m' => g m m' true) d -> runs b (fun m m' => pbind (unwrap (ate counter k)) (g m m')) (t :: d).
Proof. intros <- (N & a & H). exists N, a. intros. rewrite plet_eq, c_ate. cbn. rewrite tok_eqb_refl. apply H; auto. Qed.
Lemma runs_pass {B} b (g : nat -> nat -> bool -> parser cst B) k d : joins [k] b d ->
  runs b (fun m m' => g m m' false) d -> runs b (fun m m' => pbind (unwrap (ate counter k)) (g m m')) d.
Proof.
  intros J (N & a & H). exists N, a. intros m m' rest e n i L L' F. rewrite plet_eq, c_ate.
  pose proof (joins_free _ _ _ _ _ J F) as F'.
  assert (X : exists n' k', c_peek (mkC (d ++ rest) e n i) = (Ok (match d ++ rest with t :: _ => t | [] => match e with Ends w => (EndOfStream, w) | Fails => name_a end end),
     mkC (d ++ rest) e n' k') /\ n' = n).
  { unfold c_peek. destruct (d ++ rest) as [|t ts]; [destruct e; [|destruct F']|]; cbn; eauto. }
  destruct X as (n1 & k1 & -> & ->). rewrite tok_eqb_neq; [apply H; auto|].
  destruct (d ++ rest) as [|t ts]; cbn in F'; [destruct e; [|destruct F']|]; cbn; intros <-; apply F'; left; reflexivity.
Qed.
Lemma runs_eq {A} b (q q' : nat -> nat -> parser cst A) d : (forall m m' s, q m m' s = q' m m' s) -> runs b q' d -> runs b q d.
Proof. intros Q (N & a & H). exists N, a. intros. rewrite Q. apply H; auto. Qed.
Lemma runs_S {A} b (q q' : nat -> nat -> parser cst A) d : (forall m m' s, q (S m) m' s = q' m m' s) -> runs b q' d -> runs b q d.
Proof. intros Q (N & a & H). exists (S N), a. intros. destruct m; [lia|]. rewrite Q. apply H; auto; lia. Qed.
Lemma runs_diag {A} b (q : nat -> nat -> parser cst A) d : runs b q d -> runs b (fun m _ => q m m) d.
Proof. intros (N & a & H). exists N, a. intros. apply H; auto. Qed.
Lemma runs_swap {A} b (q : nat -> parser cst A) d : runs b (fun m _ => q m) d -> runs b (fun _ m => q m) d.
Proof. intros (N & a & H). exists N, a. intros. apply (H m' m'); auto. Qed.
Lemma runs_more {A} b b' (q : nat -> nat -> parser cst A) d : incl b b' -> runs b q d -> runs b' q d.
Proof. intros I (N & a & H). exists N, a. intros. apply H; auto. apply (joins_free b b' []); auto. Qed.

(** ** Answers *)
Lemma E_rel {A} n (p : parser _ A) q : (forall m m', n <= m -> n <= m' -> rel4 A p (q m m')) -> E p q.
Proof.
  intros H c a c' P. destruct (H n n ltac:(lia) ltac:(lia) c a c' P) as (d & -> & Pre & _). exists d, n. split; [reflexivity|]. split; [exact Pre|].
  intros m m' rest e i k L L'. destruct (H m m' L L' c a _ P) as (d' & X & _ & Q). inversion X; subst d'. apply Q.
Qed.
Lemma E_pret {A} (a : A) : E (pret a) (fun _ _ => pret a).
Proof. apply (E_rel 0). intros. apply rel4_pret. Qed.
Lemma E_perr {A} : E (@perr _ A) (fun _ _ => perr).
Proof. apply (E_rel 0). intros. apply rel4_perr. Qed.
Lemma E_handled {A} (p : parser _ A) q : E p q -> E (handled p) (fun m m' => handled (q m m')).
Proof.
  intros H c x c' X. unfold handled in X. destruct (p (Some c)) as [[a| | |] c1] eqn:P; try discriminate. inversion X; subst.
  destruct (H c x c' P) as (d & N & -> & Pre & Q). exists d, N. split; [reflexivity|]. split; [exact Pre|].
  intros. unfold handled. destruct (Q m m' rest e n k) as (n' & k' & ->); eauto.
Qed.
Lemma E_bind {A B} (p : parser _ A) q (f : A -> parser _ B) g : E p q -> (forall a, E (f a) (fun m m' => g m m' a)) ->
  E (pbind (unwrap p) f) (fun m m' => pbind (unwrap (q m m')) (g m m')).
Proof.
  intros H F c x c' X. rewrite plet_eq in X. destruct (p (Some c)) as [[a| | |] c1] eqn:P; try discriminate.
  destruct (H c a c1 P) as (d & N & -> & (c0 & C0) & Q). destruct (F a d x c' X) as (d' & N' & -> & (c2 & C2) & Q'). exists d', (Nat.max N N'). split; [reflexivity|].
  split; [exists (c0 ++ c2); subst; apply app_assoc|].
  intros. rewrite plet_eq. destruct (Q m m' rest e n k) as (n' & k' & ->); [lia|lia|]. apply Q'; lia.
Qed.

(** ** Completing *)
Lemma V_pret {A} b (a : A) q : V b (pret a) q.
Proof. intros c X. discriminate. Qed.
Lemma V_perr {A} b q : V b (@perr _ A) q.
Proof. intros c X. discriminate. Qed.
Lemma V_pdiverge {A} b q : V b (@pdiverge _ A) q.
Proof. intros c X. discriminate. Qed.
Lemma V_handled {A} b (p : parser _ A) q : V b p q -> V b (handled p) (fun m m' => handled (q m m')).
Proof.
  intros H c X. unfold handled in X. destruct (p (Some c)) as [[| | |] s] eqn:P; try discriminate. inversion X; subst.
  destruct (H c P) as (d & I & R). exists d. split; [exact I | now apply runs_handled].
Qed.
Lemma V_bind {A B} b b' (p : parser _ A) q (f : A -> parser _ B) (g : nat -> nat -> A -> parser cst B) :
  E p q -> V b p q -> (forall a, V b' (f a) (fun m m' => g m m' a)) ->
  (forall a, exists d, incl d vocab /\ runs b' (fun m m' => g m m' a) d /\ joins b b' d) ->
  V b' (pbind (unwrap p) f) (fun m m' => pbind (unwrap (q m m')) (g m m')).
Proof.
  intros X HV F K c S. rewrite plet_eq in S. destruct (p (Some c)) as [[a| | |] s] eqn:P; try discriminate.
  - destruct (X c a s P) as (c' & N & -> & (c0 & ->) & Q).
    destruct (F a c' S) as (d & I & (N' & x & R)). exists d. split; [exact I|].
    exists (Nat.max N N'), x. intros m m' rest e n k L L' Fr. rewrite plet_eq, <- app_assoc.
    destruct (Q m m' (d ++ rest) e n k) as (n' & k' & ->); [lia|lia|]. rewrite app_assoc. apply R; auto; lia.
  - inversion S; subst s. destruct (HV c P) as (d & I & R).
    destruct R as (N1 & a & R). destruct (K a) as (d' & I' & (N2 & x & R') & J). exists (d ++ d'). split; [now apply incl_app|].
    exists (Nat.max N1 N2), x. intros m m' rest e n k L L' Fr. rewrite plet_eq, <- !app_assoc, (app_assoc c).
    destruct (R m m' (d' ++ rest) e n k) as (n' & k' & ->); [lia|lia|now apply (joins_free b b')|]. apply R'; auto; lia.
Qed.
Lemma V_next {B} b (f : tk -> parser _ B) (g : nat -> nat -> tk -> parser cst B) :
  C b (fun m m' => pbind (unwrap (nxt counter)) (g m m')) ->
  (forall t, V b (f t) (fun m m' => g m m' t)) ->
  V b (pbind (unwrap (nxt first)) f) (fun m m' => pbind (unwrap (nxt counter)) (g m m')).
Proof.
  intros K F c S. destruct c as [|t c]; [exact K|]. rewrite plet_eq, f_nxt in S.
  destruct (F t c S) as (d & I & R). exists d. split; [exact I | now apply runs_next].
Qed.
Lemma V_peek {B} b (f : tk -> parser _ B) (g : nat -> nat -> tk -> parser cst B) :
  C b (fun m m' => pbind (unwrap (pk counter)) (g m m')) ->
  (forall t, V b (f t) (fun m m' => g m m' t)) ->
  V b (pbind (unwrap (pk first)) f) (fun m m' => pbind (unwrap (pk counter)) (g m m')).
Proof.
  intros K F c S. destruct c as [|t c]; [exact K|]. rewrite plet_eq, f_pk in S.
  destruct (F t _ S) as (d & I & R). exists d. split; [exact I | now apply runs_peek].
Qed.
Lemma V_exp {B} b k (p : parser _ B) q :
  C b (fun m m' => pbind (unwrap (exp counter k)) (fun _ => q m m')) -> V b p q ->
  V b (pbind (unwrap (exp first k)) (fun _ => p)) (fun m m' => pbind (unwrap (exp counter k)) (fun _ => q m m')).
Proof.
  intros K F c S. destruct c as [|t c]; [exact K|]. rewrite plet_eq, f_exp in S.
  destruct (tok_eqb (fst t) k) eqn:Hk; [|discriminate]. apply tok_eqb_eq in Hk.
  destruct (F c S) as (d & I & R). exists d. split; [exact I | now apply runs_exp].
Qed.
Lemma V_word {B} b w (p : parser _ B) q :
  C b (fun m m' => pbind (unwrap (word counter w)) (fun _ => q m m')) -> V b p q ->
  V b (pbind (unwrap (word first w)) (fun _ => p)) (fun m m' => pbind (unwrap (word counter w)) (fun _ => q m m')).
Proof.
  intros K F c S. destruct c as [|[k w'] c]; [exact K|]. rewrite plet_eq, f_word in S. cbn [fst snd] in S.
  destruct (tok_eqb k Reserved) eqn:Hk; [|discriminate]. apply tok_eqb_eq in Hk. destruct (text_eqb w' w) eqn:Hw; [|discriminate].
  apply text_eqb_eq in Hw. subst. destruct (F c S) as (d & I & R). exists d. split; [exact I | now apply runs_word].
Qed.
Lemma V_eat {B} b k (f : bool -> parser _ B) (g : nat -> nat -> bool -> parser cst B) :
  C b (fun m m' => pbind (unwrap (ate counter k)) (g m m')) ->
  V b (f true) (fun m m' => g m m' true) -> V b (f false) (fun m m' => g m m' false) ->
  V b (pbind (unwrap (ate first k)) f) (fun m m' => pbind (unwrap (ate counter k)) (g m m')).
Proof.
  intros K Ft Ff c S. destruct c as [|t c]; [exact K|]. rewrite plet_eq, f_ate in S.
  destruct (tok_eqb (fst t) k) eqn:Hk.
  - apply tok_eqb_eq in Hk. destruct (Ft c S) as (d & I & R). exists d. split; [exact I | now apply runs_eat].
  - apply tok_eqb_false in Hk. destruct (Ff _ S) as (d & I & R). exists d. split; [exact I|].
    apply runs_pass; [|exact R]. cbn. intros [->|[]]. now apply Hk.
Qed.
Lemma V_eq {A} b (p p' : parser _ A) q : (forall s, p s = p' s) -> V b p' q -> V b p q.
Proof. intros P H c. rewrite P. apply H. Qed.
Lemma V_map {A} b (p : parser _ A) q q' : (forall d, runs b q d -> runs b q' d) -> V b p q -> V b p q'.
Proof. intros Q H c S. destruct (H c S) as (d & I & R); eauto 6. Qed.
Lemma V_more {A} b b' (p : parser _ A) q : incl b b' -> V b p q -> V b' p q.
Proof. intros W H c S. destruct (H c S) as (d & I & R). exists d. split; [exact I|]. now apply (runs_more b b'). Qed.

(** ** The functions of the parser *)

(** The token of [vocab] of the kind *)
Definition wd (k : toktype) : tk :=
  match find (fun t => tok_eqb (fst t) k) vocab with Some t => t | None => name_a end.

Create HintDb wr.
Create HintDb wx.
Create HintDb wv.
Ltac side :=
  match goal with
  | |- incl _ _ => let t := fresh in let H := fresh in intros t H; vm_compute in H |- *; intuition
  | |- joins _ _ _ => vm_compute; intuition discriminate
  | |- fst _ = _ => reflexivity
  end.
(** Tokens that complete what is left of a function *)
Ltac crun :=
  cbv beta iota;
  lazymatch goal with
  | |- forall _, _ => intros ?; crun
  | |- runs _ (fun m m' => pret _) _ => apply runs_pret
  | |- runs _ (fun m m' => handled (@?q m m')) _ => apply (runs_handled _ q); crun
  | |- runs _ (fun m m' => pbind (unwrap (exp counter ?k)) (@?g m m')) _ =>
      let t := eval vm_compute in (wd k) in eapply (runs_exp _ _ t); [side | crun]
  | |- runs _ (fun m m' => pbind (unwrap (word counter _)) (@?g m m')) _ => eapply runs_word; crun
  | |- runs _ (fun m m' => pbind (unwrap (ate counter ?k)) (@?g m m')) _ =>
      first [eapply runs_pass; [| crun]; side
            | let t := eval vm_compute in (wd k) in eapply (runs_eat _ _ _ t); [side | crun]]
  | |- runs _ (fun m m' => pbind (unwrap (pk counter)) (@?g m m')) (?t :: _) => apply runs_peek; crun
  | |- runs _ (fun m m' => pbind (unwrap (nxt counter)) (@?g m m')) (?t :: _) => apply runs_next; crun
  | |- runs _ (fun m m' => pbind (unwrap (@?q m m')) (@?g m m')) _ =>
      first [eapply runs_bind; [solve [eauto with wr] | crun | side] | eapply (runs_bind []); [crun | crun | side]]
  | |- runs _ (fun m m' => if ?b then _ else _) _ =>
      first [let x := eval vm_compute in b in (match x with true => idtac | false => idtac end); change b with x; crun | solve [eauto with wr]]
  | |- _ => solve [eauto with wr]
  end.
Ltac comp := eexists; split; [|crun]; side.
Ltac comp_next t := let x := eval vm_compute in t in eexists; split; [|eapply (runs_next _ _ x); crun]; side.
Ltac comp_peek t := let x := eval vm_compute in t in eexists; split; [|eapply (runs_peek _ _ x); crun]; side.

(** An answer on the first tokens: through the lemmas of L_WatRel *)
Ltac ext :=
  cbv beta iota;
  lazymatch goal with
  | |- forall _, _ => intros ?; ext
  | |- E (pret _) _ => apply E_pret
  | |- E perr _ => apply E_perr
  | |- E (pbind _ _) _ => apply E_bind; [ext | ext]
  | |- E (handled _) (fun m m' => handled (@?q m m')) => apply (E_handled _ q); ext
  | |- E (if ?b then _ else _) _ => destruct b; ext
  | |- E (match ?b with _ => _ end) _ => destruct b; ext
  | |- _ => solve [eauto with wx]
  end.
Ltac v :=
  cbv beta iota;
  lazymatch goal with
  | |- forall _, _ => intros ?; v
  | |- V _ (pret _) _ => apply V_pret
  | |- V _ perr _ => apply V_perr
  | |- V _ pdiverge _ => apply V_pdiverge
  | |- V _ (handled _) (fun m m' => handled (@?q m m')) => apply (V_handled _ _ q); v
  | |- V _ (pbind (unwrap (exp first _)) _) _ => apply V_exp; [comp | v]
  | |- V _ (pbind (unwrap (word first _)) _) _ => apply V_word; [comp | v]
  | |- V _ (pbind (unwrap (ate first _)) _) _ => apply V_eat; [comp | v | v]
  | |- V _ (pbind (unwrap (pk first)) _) _ => apply V_peek; [try comp | v]
  | |- V _ (pbind (unwrap (nxt first)) _) _ => apply V_next; [try comp | v]
  | |- V _ (pbind _ _) _ =>
      first [eapply V_bind; [ext | solve [eauto with wv] | v | intros ?; eexists; split; [|split; [crun|]]; side]
            | apply (V_bind []); [ext | v | v | intros ?; eexists; split; [|split; [crun|]]; side]]
  | |- V _ (if ?b then _ else _) _ => destruct b; v
  | |- V _ (match ?b with _ => _ end) _ => destruct b; v
  | |- _ => solve [eauto with wv]
  end.

Section Float.
Variable pf : text -> option N.
Ltac e0 lem := apply (E_rel 0); intros; use4 pf lem.
Ltac e1 n lem := apply (E_rel n); intros; use4 pf lem; assumption.

Lemma E_word w : E (word first w) (fun _ _ => word counter w). Proof. e0 (@rel_word). Qed.
Lemma E_exp k : E (exp first k) (fun _ _ => exp counter k). Proof. e0 (@rel_expect). Qed.
Lemma E_eat k : E (ate first k) (fun _ _ => ate counter k). Proof. e0 (@rel_eat). Qed.
Lemma E_pk : E (pk first) (fun _ _ => pk counter). Proof. apply (E_rel 0). intros. exact rel4_peek. Qed.
Lemma E_nxt : E (nxt first) (fun _ _ => nxt counter). Proof. apply (E_rel 0). intros. exact rel4_next. Qed.
#[local] Hint Resolve E_word E_exp E_eat E_pk E_nxt : wx.

Lemma V_option {A} b (o : option A) q : V b (of_option o) q.
Proof. intros c H. destruct o; discriminate. Qed.
#[local] Hint Resolve V_option : wv.

Lemma R_id : runs [] (fun _ _ => parse_id counter) [name_a].
Proof. exists 0, (txt "$a"). intros. do 2 eexists. reflexivity. Qed.
Lemma E_id : E (parse_id first) (fun _ _ => parse_id counter). Proof. e0 (@rel_id). Qed.
#[local] Hint Resolve R_id E_id : wr wx.
Lemma V_id : V [] (parse_id first) (fun _ _ => parse_id counter).
Proof. unfold parse_id. v. comp_next name_a. Qed.
#[local] Hint Resolve V_id : wv.

Lemma R_optional_id : runs [TId] (fun _ _ => parse_optional_id counter) [].
Proof.
  apply runs_peek_free; [|side]. exists 0, None. intros t Ht m m' rest e n k _ _ F. rewrite tok_eqb_neq; [do 2 eexists; reflexivity|].
  intros Q. apply Ht. now left.
Qed.
Lemma E_optional_id : E (parse_optional_id first) (fun _ _ => parse_optional_id counter). Proof. e0 (@rel_optional_id). Qed.
#[local] Hint Resolve R_optional_id E_optional_id : wr wx.
Lemma V_optional_id : V [TId] (parse_optional_id first) (fun _ _ => parse_optional_id counter).
Proof. unfold parse_optional_id. apply V_peek; [exists []; split; [side | exact R_optional_id]|]. v. Qed.
#[local] Hint Resolve V_optional_id : wv.

Lemma R_string : runs [] (fun _ _ => parse_string counter) [some_string].
Proof. exists 0, []. intros. do 2 eexists. reflexivity. Qed.
Lemma E_string : E (parse_string first) (fun _ _ => parse_string counter). Proof. e0 (@rel_string). Qed.
#[local] Hint Resolve R_string E_string : wr wx.
Lemma V_string : V [] (parse_string first) (fun _ _ => parse_string counter).
Proof. unfold parse_string. v. comp_next some_string. Qed.
#[local] Hint Resolve V_string : wv.

Lemma R_int32 : runs [] (fun _ _ => parse_int32 counter) [zero].
Proof. exists 0, 0%Z. intros. do 2 eexists. reflexivity. Qed.
Lemma E_int32 : E (parse_int32 first) (fun _ _ => parse_int32 counter). Proof. e0 (@rel_int32). Qed.
#[local] Hint Resolve R_int32 E_int32 : wr wx.
Lemma V_int32 : V [] (parse_int32 first) (fun _ _ => parse_int32 counter).
Proof. unfold parse_int32. v. exists [zero]. split; [side|]. exact R_int32. Qed.
#[local] Hint Resolve V_int32 : wv.
Lemma R_int64 : runs [] (fun _ _ => parse_int64 counter) [zero].
Proof. exists 0, 0%Z. intros. do 2 eexists. reflexivity. Qed.
Lemma E_int64 : E (parse_int64 first) (fun _ _ => parse_int64 counter). Proof. e0 (@rel_int64). Qed.
#[local] Hint Resolve R_int64 E_int64 : wr wx.
Lemma V_int64 : V [] (parse_int64 first) (fun _ _ => parse_int64 counter).
Proof. unfold parse_int64. v. exists [zero]. split; [side|]. exact R_int64. Qed.
#[local] Hint Resolve V_int64 : wv.

Lemma R_val_type : runs [] (fun _ _ => parse_val_type counter) [word_tk "i32"].
Proof. exists 0, TI32. intros. do 2 eexists. reflexivity. Qed.
Lemma E_val_type : E (parse_val_type first) (fun _ _ => parse_val_type counter). Proof. e0 (@rel_val_type). Qed.
#[local] Hint Resolve R_val_type E_val_type : wr wx.
Lemma V_val_type : V [] (parse_val_type first) (fun _ _ => parse_val_type counter).
Proof. unfold parse_val_type. v. exists [word_tk "i32"]. split; [side|]. exact R_val_type. Qed.
#[local] Hint Resolve V_val_type : wv.

Lemma R_index : runs [] (fun _ _ => parse_index counter) [name_a].
Proof. exists 0, (IDIndex (txt "$a")). intros. do 2 eexists. reflexivity. Qed.
Lemma E_index : E (parse_index first) (fun _ _ => parse_index counter). Proof. e0 (@rel_index). Qed.
#[local] Hint Resolve R_index E_index : wr wx.
Lemma V_index : V [] (parse_index first) (fun _ _ => parse_index counter).
Proof.
  intros c H. exists [name_a]. split; [side|]. destruct c as [|[k w] c]; [exact R_index|].
  exfalso. revert H. unfold parse_index, handled. rewrite plet_eq, f_nxt. cbn [fst snd]. destruct k; try discriminate.
  rewrite plet_eq. destruct (atoi w); discriminate.
Qed.
#[local] Hint Resolve V_index : wv.

Lemma V_result : V [] (parse_result first) (fun _ _ => parse_result counter).
Proof. unfold parse_result. v. Qed.
Lemma R_result : runs [] (fun _ _ => parse_result counter) ((Reserved, txt "result") :: [word_tk "i32"] ++ []).
Proof. unfold parse_result. crun. Qed.
Lemma E_result : E (parse_result first) (fun _ _ => parse_result counter). Proof. e0 (@rel_result). Qed.
#[local] Hint Resolve V_result R_result E_result : wv wr wx.

Lemma R_param_types : runs [Reserved] (fun m _ => param_types counter m) [].
Proof.
  apply (runs_S _ _ _ _ (fun m m' s => eq_refl)). apply runs_peek_free; [|side]. exists 0, []. intros t Ht m m' rest e n k _ _ F.
  rewrite tok_eqb_neq; [do 2 eexists; reflexivity|]. intros Q. apply Ht. now left.
Qed.
Lemma E_param_types n : E (param_types first n) (fun m _ => param_types counter m). Proof. e1 n (@rel_param_types). Qed.
#[local] Hint Resolve R_param_types E_param_types : wr wx.
Lemma V_param_types n : V [Reserved] (param_types first n) (fun m _ => param_types counter m).
Proof.
  induction n as [|n IH]; [apply V_pdiverge|]. cbn [param_types]. eapply V_map; [intros d; apply (runs_S _ _ _ _ (fun m m' s => eq_refl))|].
  apply V_peek; [|v]. exists []. split; [side|].
  apply runs_peek_free; [|side]. exists 0, []. intros t Ht m m' rest e i k _ _ F.
  rewrite tok_eqb_neq; [do 2 eexists; reflexivity|]. intros Q. apply Ht. now left.
Qed.
#[local] Hint Resolve V_param_types : wv.

(** The same, with the answer *)
Definition runs_to {A} (b : list toktype) (q : nat -> nat -> parser cst A) (d : list tk) (a : A) : Prop :=
  exists N, forall m m' rest e n k, N <= m -> N <= m' -> free b rest e ->
  exists n' k', q m m' (mkC (d ++ rest) e n k) = (Ok a, mkC rest e n' k').
Lemma runs_bind_to {A B} b b' (q : nat -> nat -> parser cst A) a (g : nat -> nat -> A -> parser cst B) d d' :
  runs_to b q d a -> runs b' (fun m m' => g m m' a) d' -> joins b b' d' ->
  runs b' (fun m m' => pbind (unwrap (q m m')) (g m m')) (d ++ d').
Proof.
  intros (N & H) (N' & x & H') J. exists (Nat.max N N'), x. intros m m' rest e n k L L' F. rewrite plet_eq, <- app_assoc.
  destruct (H m m' (d' ++ rest) e n k) as (n' & k' & ->); [lia|lia|now apply (joins_free b b')|].
  apply H'; auto; lia.
Qed.
Lemma no_id : runs_to [TId] (fun _ _ => parse_optional_id counter) [] None.
Proof.
  exists 0. intros m m' rest e n i L L' F. unfold parse_optional_id. rewrite plet_eq.
  change (pk counter) with c_peek. unfold c_peek. cbn [c_ts c_end c_n app]. destruct rest as [|t ts]; cbn in F.
  - destruct e; [|destruct F]. do 2 eexists. reflexivity.
  - rewrite tok_eqb_neq; [do 2 eexists; reflexivity|]. intros Q. apply F. now left.
Qed.
Lemma R_parameter : runs [TId; Reserved] (fun m _ => parse_parameter counter m) ((Reserved, txt "param") :: [] ++ [] ++ []).
Proof.
  unfold parse_parameter. apply (runs_handled _ (fun m _ => _)), runs_word. eapply (runs_bind_to [TId]); [apply no_id | crun | side].
Qed.
Lemma E_parameter n : E (parse_parameter first n) (fun m _ => parse_parameter counter m). Proof. e1 n (@rel_parameter). Qed.
#[local] Hint Resolve R_parameter E_parameter : wr wx.
Lemma V_parameter n : V [TId; Reserved] (parse_parameter first n) (fun m _ => parse_parameter counter m).
Proof.
  unfold parse_parameter. apply (V_handled _ _ (fun m _ => _)). apply V_word.
  - exists ((Reserved, txt "param") :: [] ++ [] ++ []). split; [side|]. apply runs_word. eapply (runs_bind_to [TId]); [apply no_id | crun | side].
  - apply (V_bind [TId] _ _ (fun _ _ => _)); [ext | v | |].
    + intros [id|]; [apply (V_more []); [side|] | apply (V_more [Reserved]); [side|]]; v.
    + intros [id|].
      * exists ([word_tk "i32"] ++ []). split; [side|]. split; [crun | side].
      * exists ([] ++ []). split; [side|]. split; [crun | side].
Qed.
#[local] Hint Resolve V_parameter : wv.

Lemma V_local : V [] (parse_local first) (fun _ _ => parse_local counter).
Proof. unfold parse_local. v. Qed.
Lemma E_local : E (parse_local first) (fun _ _ => parse_local counter). Proof. e0 (@rel_local). Qed.
Lemma V_export : V [] (parse_export first) (fun _ _ => parse_export counter).
Proof. unfold parse_export. v. Qed.
Lemma E_export : E (parse_export first) (fun _ _ => parse_export counter). Proof. e0 (@rel_export). Qed.
Lemma V_import : V [] (parse_import first) (fun _ _ => parse_import counter).
Proof. unfold parse_import. v. Qed.
Lemma E_import : E (parse_import first) (fun _ _ => parse_import counter). Proof. e0 (@rel_import). Qed.
Lemma V_call_indirect : V [] (parse_call_indirect first) (fun _ _ => parse_call_indirect counter).
Proof. unfold parse_call_indirect, parse_type_use. v. Qed.
Lemma E_call_indirect : E (parse_call_indirect first) (fun _ _ => parse_call_indirect counter). Proof. e0 (@rel_call_indirect). Qed.
#[local] Hint Resolve V_local E_local V_export E_export V_import E_import V_call_indirect E_call_indirect : wv wx.

(** Every kind but the closing parenthesis *)
Definition others : list toktype :=
  [LineComment; BlockComment; Whitespace; OpenParen; TString; TId; Keyword; Reserved; TInteger; TFloat; EndOfStream; TModule; TComponent].
Lemma others_close k : ~ In k others -> k = CloseParen.
Proof. destruct k; cbn; intuition. Qed.
Lemma E_until_close n : E (until_close first n) (fun m _ => until_close counter m). Proof. e1 n (@rel_until_close). Qed.
Lemma R_until_close : runs others (fun m _ => until_close counter m) [].
Proof.
  apply (runs_S _ _ _ _ (fun m m' s => eq_refl)). apply runs_peek_free; [|side]. exists 0, []. intros t Ht m m' rest e n k _ _ F.
  rewrite (others_close _ Ht). do 2 eexists. reflexivity.
Qed.
#[local] Hint Resolve E_until_close R_until_close : wx wr.
Lemma V_until_close n : V others (until_close first n) (fun m _ => until_close counter m).
Proof.
  induction n as [|n IH]; [apply V_pdiverge|]. cbn [until_close]. eapply V_map; [intros d; apply (runs_S _ _ _ _ (fun m m' s => eq_refl))|].
  apply V_peek; [|v]. exists []. split; [side|].
  apply runs_peek_free; [|side]. exists 0, []. intros t Ht m m' rest e i k _ _ F.
  rewrite (others_close _ Ht). do 2 eexists. reflexivity.
Qed.
#[local] Hint Resolve V_until_close : wv.

Lemma no_name : runs_to [TId] (fun _ _ => block_name counter) [] None.
Proof.
  exists 0. intros m m' rest e n i L L' F. unfold block_name. rewrite plet_eq.
  change (pk counter) with c_peek. unfold c_peek. cbn [c_ts c_end c_n app]. destruct rest as [|t ts]; cbn in F.
  - destruct e; [|destruct F]. do 2 eexists. reflexivity.
  - rewrite tok_eqb_neq; [do 2 eexists; reflexivity|]. intros Q. apply F. now left.
Qed.
Lemma runs_to_runs {A} b (q : nat -> nat -> parser cst A) d a : runs_to b q d a -> runs b q d.
Proof. intros (N & H). exists N, a. exact H. Qed.
Lemma R_block_name : runs [TId] (fun _ _ => block_name counter) [].
Proof. eapply runs_to_runs, no_name. Qed.
Lemma E_block_name : E (block_name first) (fun _ _ => block_name counter). Proof. e0 (@rel_block_name). Qed.
#[local] Hint Resolve E_block_name R_block_name : wx wr.
Lemma V_block_name : V [TId] (block_name first) (fun _ _ => block_name counter).
Proof. unfold block_name. apply V_peek; [exists []; split; [side | exact R_block_name]|]. v. comp_next name_a. Qed.
#[local] Hint Resolve V_block_name : wv.

(** ** Loops *)
Set Default Proof Using "All".
Section Loops.
Context {A : Type}.
Variable it : A -> parser (option (list tk)) A.
Variable it' : nat -> A -> parser cst A.
Hypothesis HE : forall a, E (it a) (fun m _ => it' m a).
Hypothesis HV : forall a, V others (it a) (fun m _ => it' m a).
Lemma HE' a : E (it a) (fun _ m => it' m a).
Proof.
  intros c x c' H. destruct (HE a c x c' H) as (d & N & -> & P & Q). exists d, N. split; [reflexivity|]. split; [exact P|].
  intros. apply (Q m' m'); auto.
Qed.
Lemma HV' a : V others (it a) (fun _ m => it' m a).
Proof. eapply V_map; [intros d; apply runs_swap | apply HV]. Qed.
#[local] Hint Resolve HE' HV' : wx wv.
Lemma E_closed a : E (closed first (it a)) (fun _ m => closed counter (it' m a)).
Proof. unfold closed. ext. Qed.
Lemma V_closed a : V [] (closed first (it a)) (fun _ m => closed counter (it' m a)).
Proof. unfold closed. v. Qed.
#[local] Hint Resolve E_closed V_closed : wx wv.
Lemma R_sections a : runs [OpenParen] (fun m m' => sections counter m (it' m') a) [].
Proof. apply (runs_S _ _ _ _ (fun m m' s => eq_refl)). apply runs_pass; [side|]. apply runs_pret. Qed.
Lemma E_sections n : forall a, E (sections first n it a) (fun m m' => sections counter m (it' m') a).
Proof.
  induction n as [|n IH]; intros a; [intros c x c' X; discriminate|]. cbn [sections].
  assert (X : E (plet b := ate first OpenParen in (if b then plet acc := closed first (it a) in sections first n it acc else pret a))
    (fun m m' => plet b := ate counter OpenParen in (if b then plet acc := closed counter (it' m' a) in sections counter m (it' m') acc else pret a))).
  { ext. }
  intros c x c' H. destruct (X c x c' H) as (d & N & -> & P & Q). exists d, (S N). split; [reflexivity|]. split; [exact P|].
  intros m m' rest e i k L L'. destruct m; [lia|]. apply Q; lia.
Qed.
#[local] Hint Resolve R_sections E_sections : wr wx.
Lemma V_sections n : forall a, V [OpenParen] (sections first n it a) (fun m m' => sections counter m (it' m') a).
Proof.
  induction n as [|n IH]; intros a; [apply V_pdiverge|]. cbn [sections]. eapply V_map; [intros d; apply (runs_S _ _ _ _ (fun m m' s => eq_refl))|].
  apply V_eat; [exists []; split; [side|]; apply runs_pass; [side | apply runs_pret] | | v]. v.
Qed.
End Loops.
Unset Default Proof Using.
(** Fuel counted in another way *)
Definition grows (f : nat -> nat -> nat) : Prop := forall N, exists N', forall m m', N' <= m -> N' <= m' -> N <= f m m'.
Lemma runs_re {A} f g (q : nat -> nat -> parser cst A) b d : grows f -> grows g -> runs b q d -> runs b (fun m m' => q (f m m') (g m m')) d.
Proof.
  intros F G (N & a & H). destruct (F N) as (N1 & H1), (G N) as (N2 & H2). exists (Nat.max N1 N2), a. intros. apply H; auto; [apply H1|apply H2]; lia.
Qed.
Lemma E_re {A} f g p (q : nat -> nat -> parser cst A) : grows f -> grows g -> E p q -> E p (fun m m' => q (f m m') (g m m')).
Proof.
  intros F G H c x c' X. destruct (H c x c' X) as (d & N & -> & P & Q). destruct (F N) as (N1 & H1), (G N) as (N2 & H2).
  exists d, (Nat.max N1 N2). split; [reflexivity|]. split; [exact P|]. intros. apply Q; [apply H1|apply H2]; lia.
Qed.
Lemma V_re {A} f g b p (q : nat -> nat -> parser cst A) : grows f -> grows g -> V b p q -> V b p (fun m m' => q (f m m') (g m m')).
Proof. intros F G H c X. destruct (H c X) as (d & I & R). exists d. split; [exact I|]. now apply runs_re. Qed.
Ltac grow := let N := fresh in intros N; exists (S N); intros; cbn; lia.
(** Enough fuel *)
Lemma runs_ge {A} b (q q' : nat -> nat -> parser cst A) d : (forall m m' s, q (S m) (S m') s = q' (S m) (S m') s) -> runs b q' d -> runs b q d.
Proof. intros Q (N & a & H). exists (S N), a. intros. destruct m, m'; try lia. rewrite Q. apply H; auto; lia. Qed.
Lemma E_ge {A} p (q q' : nat -> nat -> parser cst A) : (forall m m' s, q (S m) (S m') s = q' (S m) (S m') s) -> E p q' -> E p q.
Proof.
  intros Q H c x c' X. destruct (H c x c' X) as (d & N & -> & P & R). exists d, (S N). split; [reflexivity|]. split; [exact P|].
  intros. destruct m, m'; try lia. rewrite Q. apply R; lia.
Qed.
Lemma V_ge {A} b p (q q' : nat -> nat -> parser cst A) : (forall m m' s, q (S m) (S m') s = q' (S m) (S m') s) -> V b p q' -> V b p q.
Proof. intros Q H c X. destruct (H c X) as (d & I & R). exists d. split; [exact I|]. now apply (runs_ge _ _ q'). Qed.

Set Default Proof Using "All".
Section Whiles.
Context {A : Type}.
Variable it : parser (option (list tk)) A.
Variable it' : nat -> parser cst A.
Hypothesis HE : E it (fun _ m => it' m).
Hypothesis HV : V others it (fun _ m => it' m).
#[local] Hint Resolve HE HV : wx wv.
Lemma E_closed_it : E (closed first it) (fun _ m => closed counter (it' m)).
Proof. unfold closed. ext. Qed.
Lemma V_closed_it : V [] (closed first it) (fun _ m => closed counter (it' m)).
Proof. unfold closed. v. Qed.
#[local] Hint Resolve E_closed_it V_closed_it : wx wv.
Notation loop src n it := (while_eat tok_eqb src n OpenParen (closed src it)).
Notation turn src n it := (plet b := ate src OpenParen in if b then (plet x := closed src it in plet xs := loop src n it in pret (x :: xs)) else pret []).
Lemma R_turn : runs [OpenParen] (fun m m' => turn counter m (it' m')) [].
Proof. apply runs_pass; [side | apply runs_pret]. Qed.
Lemma R_while : runs [OpenParen] (fun m m' => loop counter m (it' m')) [].
Proof. apply (runs_S _ _ (fun m m' => turn counter m (it' m')) _ (fun m m' s => eq_refl)). apply R_turn. Qed.
Lemma E_while n : E (loop first n it) (fun m m' => loop counter m (it' m')).
Proof.
  induction n as [|n IH]; [intros c x c' X; discriminate|].
  assert (X : E (turn first n it) (fun m m' => turn counter m (it' m'))) by ext.
  intros c x c' H. destruct (X c x c' H) as (d & N & -> & P & Q). exists d, (S N). split; [reflexivity|]. split; [exact P|].
  intros m m' rest e i k L L'. destruct m; [lia|]. apply Q; lia.
Qed.
#[local] Hint Resolve R_while E_while : wr wx.
Lemma V_while n : V [OpenParen] (loop first n it) (fun m m' => loop counter m (it' m')).
Proof.
  induction n as [|n IH]; [apply V_pdiverge|].
  eapply V_map; [intros d; apply (runs_S _ _ (fun m m' => turn counter m (it' m')) _ (fun m m' s => eq_refl))|].
  change (loop first (S n) it) with (turn first n it).
  apply V_eat; [exists []; split; [side | apply R_turn] | | v]. v.
Qed.
#[local] Hint Resolve V_while : wv.
(** Block types and instructions *)
Lemma R_whiles : runs [OpenParen] (fun _ m => loop counter (pred m) (it' m)) [].
Proof. apply (runs_re (fun _ m => pred m) (fun _ m => m) (fun m m' => loop counter m (it' m'))); [grow | grow | apply R_while]. Qed.
Lemma E_whiles n : E (loop first n it) (fun _ m => loop counter (pred m) (it' m)).
Proof. apply (E_re (fun _ m => pred m) (fun _ m => m) _ (fun m m' => loop counter m (it' m'))); [grow | grow | apply E_while]. Qed.
Lemma V_whiles n : V [OpenParen] (loop first n it) (fun _ m => loop counter (pred m) (it' m)).
Proof. apply (V_re (fun _ m => pred m) (fun _ m => m) _ _ (fun m m' => loop counter m (it' m'))); [grow | grow | apply V_while]. Qed.
#[local] Hint Resolve R_whiles E_whiles V_whiles : wr wx wv.
End Whiles.
Section Direct.
Variable it : parser (option (list tk)) instr.
Variable it' : nat -> parser cst instr.
Hypothesis HE : E it (fun _ m => it' m).
Hypothesis HV : V others it (fun _ m => it' m).
Notation loop src n it := (while_eat tok_eqb src n OpenParen (closed src it)).
Definition direct_E_closed := E_closed_it it it' HE HV.
Definition direct_V_closed := V_closed_it it it' HE HV.
Definition direct_R_whiles := R_whiles it it' HE HV.
Definition direct_E_whiles := E_whiles it it' HE HV.
Definition direct_V_whiles := V_whiles it it' HE HV.
#[local] Hint Resolve direct_E_closed direct_V_closed direct_R_whiles direct_E_whiles direct_V_whiles : wr wx wv.
Notation direct_turn src k n' it again :=
  (plet b := ate src OpenParen in
   if b then
     plet t := pk src in
     if text_eqb (snd t) (txt "result") then
       word src (txt "result") ;;> plet tys := until_close src k in exp src CloseParen ;;> plet r := again in pret (tys :: fst r, snd r)
     else plet x := closed src it in plet xs := loop src n' it in pret ([], x :: xs)
   else pret ([], [])).
Notation again m m' := (block_direct counter (it' m') m' m).
Lemma direct_first n k s : block_direct first it (S n) (S k) s = direct_turn first k n it (block_direct first it (S n) k) s.
Proof. reflexivity. Qed.
Lemma direct_counter m m' s : again (S m) (S m') s = direct_turn counter (pred (S m)) (pred (S m')) (it' (S m')) (again (pred (S m)) (S m')) s.
Proof. reflexivity. Qed.
Notation turn m m' := (direct_turn counter (pred m) (pred m') (it' m') (again (pred m) m')).
Lemma R_direct : runs [OpenParen] (fun m m' => again m m') [].
Proof. apply (runs_ge _ _ (fun m m' => turn m m') _ direct_counter). apply runs_pass; [side | apply runs_pret]. Qed.
Lemma R_again : runs [OpenParen] (fun m m' => again (pred m) m') [].
Proof. apply (runs_re (fun m _ => pred m) (fun _ m => m) (fun m m' => again m m')); [grow | grow | apply R_direct]. Qed.
Lemma R_until_pred : runs others (fun m _ => until_close counter (pred m)) [].
Proof. apply (runs_re (fun m _ => pred m) (fun _ m => m) (fun m m' => until_close counter m)); [grow | grow | apply R_until_close]. Qed.
Lemma E_until_pred n : E (until_close first n) (fun m _ => until_close counter (pred m)).
Proof. apply (E_re (fun m _ => pred m) (fun _ m => m) _ (fun m m' => until_close counter m)); [grow | grow | apply E_until_close]. Qed.
Lemma V_until_pred n : V others (until_close first n) (fun m _ => until_close counter (pred m)).
Proof. apply (V_re (fun m _ => pred m) (fun _ m => m) _ _ (fun m m' => until_close counter m)); [grow | grow | apply V_until_close]. Qed.
#[local] Hint Resolve R_again R_until_pred E_until_pred V_until_pred : wr wx wv.
Lemma E_direct n k : E (block_direct first it n k) (fun m m' => again m m').
Proof.
  destruct n as [|n].
  - induction k as [|k IH]; [intros c x c' X; discriminate|]. cbn [block_direct].
    apply (E_ge _ _ (fun m m' => turn m m') direct_counter).
    assert (IH' : E (block_direct first it 0 k) (fun m m' => again (pred m) m')).
    { apply (E_re (fun m _ => pred m) (fun _ m => m) _ (fun m m' => again m m')); [grow | grow | exact IH]. }
    assert (Z : forall T (q : nat -> nat -> parser cst T), E pdiverge q) by (intros T q c x c' X; discriminate).
    ext.
  - induction k as [|k IH]; [intros c x c' X; discriminate|].
    apply (E_ge _ _ (fun m m' => turn m m') direct_counter).
    assert (IH' : E (block_direct first it (S n) k) (fun m m' => again (pred m) m')).
    { apply (E_re (fun m _ => pred m) (fun _ m => m) _ (fun m m' => again m m')); [grow | grow | exact IH]. }
    cbn [block_direct]. ext.
Qed.
Lemma V_direct n k : V [OpenParen] (block_direct first it n k) (fun m m' => again m m').
Proof.
  assert (K : C [OpenParen] (fun m m' => turn m m')).
  { exists []. split; [side|]. apply runs_pass; [side | apply runs_pret]. }
  assert (K2 : C [OpenParen] (fun m m' => plet t := pk counter in
     if text_eqb (snd t) (txt "result") then
       word counter (txt "result") ;;> plet tys := until_close counter (pred m) in exp counter CloseParen ;;> plet r := again (pred m) m' in pret (tys :: fst r, snd r)
     else plet x := closed counter (it' m') in plet xs := loop counter (pred m') (it' m') in pret ([], x :: xs))).
  { comp_peek (word_tk "result"). }
  destruct n as [|n].
  - induction k as [|k IH]; [apply V_pdiverge|]. cbn [block_direct].
    apply (V_ge _ _ _ (fun m m' => turn m m') direct_counter).
    assert (EX : E (block_direct first it 0 k) (fun m m' => again (pred m) m')).
    { apply (E_re (fun m _ => pred m) (fun _ m => m) _ (fun m m' => again m m')); [grow | grow | apply E_direct]. }
    assert (IH' : V [OpenParen] (block_direct first it 0 k) (fun m m' => again (pred m) m')).
    { apply (V_re (fun m _ => pred m) (fun _ m => m) _ _ (fun m m' => again m m')); [grow | grow | exact IH]. }
    apply V_eat; [exact K | | v]. apply V_peek; [exact K2 | v].
  - induction k as [|k IH]; [apply V_pdiverge|].
    apply (V_ge _ _ _ (fun m m' => turn m m') direct_counter).
    assert (EX : E (block_direct first it (S n) k) (fun m m' => again (pred m) m')).
    { apply (E_re (fun m _ => pred m) (fun _ m => m) _ (fun m m' => again m m')); [grow | grow | apply E_direct]. }
    assert (IH' : V [OpenParen] (block_direct first it (S n) k) (fun m m' => again (pred m) m')).
    { apply (V_re (fun m _ => pred m) (fun _ m => m) _ _ (fun m m' => again m m')); [grow | grow | exact IH]. }
    cbn [block_direct]. apply V_eat; [exact K | | v]. apply V_peek; [exact K2 | v].
Qed.
Lemma V_by {B} n (make : option text -> list (list valtype) -> list instr -> B) :
  V [TId; OpenParen] (block_by first it n make) (fun m _ => block_by counter (it' m) m make).
Proof.
  unfold block_by.
  assert (X : E (block_direct first it n n) (fun m _ => again m m)).
  { apply (E_re (fun m _ => m) (fun m _ => m) _ (fun m m' => again m m')); [grow | grow | apply E_direct]. }
  assert (Y : V [OpenParen] (block_direct first it n n) (fun m _ => again m m)).
  { apply (V_re (fun m _ => m) (fun m _ => m) _ _ (fun m m' => again m m')); [grow | grow | apply V_direct]. }
  assert (Z : runs [OpenParen] (fun m _ => again m m) []) by (apply (runs_diag _ (fun m m' => again m m')), R_direct).
  v.
Qed.
End Direct.
Unset Default Proof Using.

(** ** Instructions *)
Ltac use4b lem := apply (lem _ _ first counter pf rel4 rel4_next rel4_peek rel4_pret rel4_perr (fun A => rel4_pdiverge A _) rel4_handled rel4_bind le le_zero4 le_succ (rel4_block pf)).
Ltac e1b n lem := apply (E_rel n); intros; use4b lem; assumption.
Lemma rel4_instruction n m : n <= m -> rel4 _ (parse_instruction first pf n) (parse_instruction counter pf m).
Proof. intros H. use4b (@rel_instruction); exact H. Qed.
Lemma E_peek_float : E (peek_float first) (fun _ _ => peek_float counter). Proof. e0 (@rel_peek_float). Qed.
Lemma E_float32 : E (parse_float32 first pf) (fun _ _ => parse_float32 counter pf). Proof. e0 (@rel_float32). Qed.
Lemma E_float64 : E (parse_float64 first pf) (fun _ _ => parse_float64 counter pf). Proof. e0 (@rel_float64). Qed.
#[local] Hint Resolve E_peek_float E_float32 E_float64 : wx.
Lemma V_number {A} (f g : parser (option (list tk)) A) (f' g' : parser cst A) :
  (forall t c, tok_eqb (fst t) TFloat = true -> fst (f (Some (t :: c))) <> Diverge) ->
  V [] g (fun _ _ => g') -> runs [] (fun _ _ => g') ([zero] ++ []) ->
  V [] (plet b := peek_float first in if b then f else g) (fun _ _ => plet b := peek_float counter in if b then f' else g').
Proof.
  intros Hf Hg Hz.
  assert (Pc : forall s, (plet b := peek_float counter in if b then f' else g') s = (plet t := pk counter in if tok_eqb (fst t) TFloat then f' else g') s).
  { intros s. unfold peek_float. rewrite !plet_eq. unfold handled. rewrite plet_eq. destruct (pk counter s) as [[t| | |] s']; reflexivity. }
  intros c H. destruct c as [|t c].
  - exists ([zero] ++ []). split; [side|]. apply (runs_eq _ _ _ _ (fun _ _ => Pc)). apply (runs_peek _ _ zero). exact Hz.
  - rewrite plet_eq in H. unfold peek_float, handled in H. rewrite plet_eq, f_pk in H. cbn in H. destruct (tok_eqb (fst t) TFloat) eqn:T.
    + exfalso. apply (Hf t c T). exact (f_equal fst H).
    + destruct (Hg _ H) as (d & I & R). exists d. split; [exact I|]. apply (runs_eq _ _ _ _ (fun _ _ => Pc)). apply runs_peek. rewrite T. exact R.
Qed.
Section Operator.
Variable n : nat.
Notation pi := (parse_instruction first pf n).
Notation pi' m := (parse_instruction counter pf m).
Hypothesis HV : V others pi (fun m _ => pi' m).
Lemma E_pi : E pi (fun m _ => pi' m).
Proof. apply (E_rel n). intros. now apply rel4_instruction. Qed.
Lemma E_pi' : E pi (fun _ m => pi' m).
Proof. apply (E_rel n). intros. now apply rel4_instruction. Qed.
Lemma V_pi' : V others pi (fun _ m => pi' m).
Proof using HV. eapply V_map; [intros d; apply runs_swap | apply HV]. Qed.
Lemma E_block : E (parse_block first pi n) (fun m _ => parse_block counter (pi' m) m).
Proof. apply (E_rel n). intros. apply rel4_block; [assumption | now apply rel4_instruction]. Qed.
Lemma E_loop : E (parse_loop first pi n) (fun m _ => parse_loop counter (pi' m) m).
Proof. apply (E_rel n). intros. apply rel4_block; [assumption | now apply rel4_instruction]. Qed.
Lemma V_block : V [TId; OpenParen] (parse_block first pi n) (fun m _ => parse_block counter (pi' m) m).
Proof using HV.
  apply (V_eq _ _ _ _ (f_block pf n)). eapply V_map; [intros d; apply (runs_eq _ _ _ _ (fun m _ => c_block pf m))|].
  apply (V_by pi (fun m => pi' m)); [apply E_pi' | apply V_pi'].
Qed.
Lemma V_loop : V [TId; OpenParen] (parse_loop first pi n) (fun m _ => parse_loop counter (pi' m) m).
Proof using HV.
  apply (V_eq _ _ _ _ (f_loop pf n)). eapply V_map; [intros d; apply (runs_eq _ _ _ _ (fun m _ => c_loop pf m))|].
  apply (V_by pi (fun m => pi' m)); [apply E_pi' | apply V_pi'].
Qed.
(** Instructions in parentheses *)
Notation loop src n it := (while_eat tok_eqb src n OpenParen (closed src it)).
Lemma R_loop : runs [OpenParen] (fun m _ => loop counter m (pi' m)) [].
Proof using HV. apply (runs_diag _ (fun m m' => loop counter m (pi' m'))), (R_while pi (fun m => pi' m)); [apply E_pi' | apply V_pi']. Qed.
Lemma E_loop_it : E (loop first n pi) (fun m _ => loop counter m (pi' m)).
Proof using HV. apply (E_re (fun m _ => m) (fun m _ => m) _ (fun m m' => loop counter m (pi' m'))); [grow | grow|]. apply (E_while pi (fun m => pi' m)); [apply E_pi' | apply V_pi']. Qed.
Lemma V_loop_it : V [OpenParen] (loop first n pi) (fun m _ => loop counter m (pi' m)).
Proof using HV. apply (V_re (fun m _ => m) (fun m _ => m) _ _ (fun m m' => loop counter m (pi' m'))); [grow | grow|]. apply (V_while pi (fun m => pi' m)); [apply E_pi' | apply V_pi']. Qed.
#[local] Hint Resolve R_loop E_loop_it V_loop_it : wr wx wv.
Lemma R_instructions : runs [OpenParen] (fun m _ => parse_instructions counter (pi' m) m) [].
Proof using HV. unfold parse_instructions. crun. Qed.
Lemma E_instructions : E (parse_instructions first pi n) (fun m _ => parse_instructions counter (pi' m) m).
Proof using HV. unfold parse_instructions. ext. Qed.
Lemma V_instructions : V [OpenParen] (parse_instructions first pi n) (fun m _ => parse_instructions counter (pi' m) m).
Proof using HV. unfold parse_instructions. v. Qed.
#[local] Hint Resolve R_instructions E_instructions V_instructions : wr wx wv.
#[local] Hint Resolve E_pi HV : wx wv.
Lemma E_then : E (parse_then first pi n) (fun m _ => parse_then counter (pi' m) m).
Proof using HV. unfold parse_then. ext. Qed.
Lemma V_then : V [OpenParen] (parse_then first pi n) (fun m _ => parse_then counter (pi' m) m).
Proof using HV. unfold parse_then. v. Qed.
Lemma E_else : E (parse_else first pi n) (fun m _ => parse_else counter (pi' m) m).
Proof using HV. unfold parse_else. ext. Qed.
Lemma V_else : V [OpenParen] (parse_else first pi n) (fun m _ => parse_else counter (pi' m) m).
Proof using HV. unfold parse_else. v. Qed.
#[local] Hint Resolve E_then E_else V_then V_else : wx wv.
Lemma V_if_section a : V others (if_section first pi n a) (fun m _ => if_section counter (pi' m) m a).
Proof using HV.
  unfold if_section. apply V_peek.
  { exists [(Reserved, txt "result"); word_tk "i32"]. split; [side|]. apply (runs_peek _ _ (Reserved, txt "result")).
    change (text_eqb (snd (Reserved, txt "result")) (txt "result")) with true. cbv iota.
    eapply (runs_bind_eq [] others (fun _ _ => parse_result counter)); [apply R_result | crun | side | reflexivity]. }
  intros t. destruct (text_eqb (snd t) (txt "result")); [v|]. destruct (text_eqb (snd t) (txt "then")); [v|]. destruct (text_eqb (snd t) (txt "else")); v.
Qed.
Lemma E_if_section a : E (if_section first pi n a) (fun m _ => if_section counter (pi' m) m a).
Proof. apply (E_rel n). intros. use4b (@rel_if_section); [assumption | now apply rel4_instruction]. Qed.
Lemma R_if : runs [TId; OpenParen] (fun m _ => parse_if counter (pi' m) m) ([] ++ [] ++ []).
Proof using HV.
  unfold parse_if. apply (runs_handled _ (fun m _ => _)). eapply (runs_bind [TId]); [crun | | side]. intros name.
  eapply (runs_bind [OpenParen]); [|crun|side]. apply (runs_diag _ (fun m m' => sections counter m (if_section counter (pi' m') m') no_parts)).
  apply (R_sections (if_section first pi n) (fun m => if_section counter (pi' m) m)); [apply E_if_section | apply V_if_section].
Qed.
Lemma E_if : E (parse_if first pi n) (fun m _ => parse_if counter (pi' m) m).
Proof. apply (E_rel n). intros. use4b (@rel_parse_if); [assumption | now apply rel4_instruction]. Qed.
Lemma V_if : V [TId; OpenParen] (parse_if first pi n) (fun m _ => parse_if counter (pi' m) m).
Proof using HV.
  unfold parse_if. apply (V_handled _ _ (fun m _ => _)).
  assert (X : E (sections first n (if_section first pi n) no_parts) (fun m _ => sections counter m (if_section counter (pi' m) m) no_parts)).
  { apply (E_re (fun m _ => m) (fun m _ => m) _ (fun m m' => sections counter m (if_section counter (pi' m') m') no_parts)); [grow|grow|].
    apply (E_sections (if_section first pi n) (fun m => if_section counter (pi' m) m)); [apply E_if_section | apply V_if_section]. }
  assert (Y : V [OpenParen] (sections first n (if_section first pi n) no_parts) (fun m _ => sections counter m (if_section counter (pi' m) m) no_parts)).
  { apply (V_re (fun m _ => m) (fun m _ => m) _ _ (fun m m' => sections counter m (if_section counter (pi' m') m') no_parts)); [grow|grow|].
    apply (V_sections (if_section first pi n) (fun m => if_section counter (pi' m) m)); [apply E_if_section | apply V_if_section]. }
  assert (Z : runs [OpenParen] (fun m _ => sections counter m (if_section counter (pi' m) m) no_parts) []).
  { apply (runs_diag _ (fun m m' => sections counter m (if_section counter (pi' m') m') no_parts)).
    apply (R_sections (if_section first pi n) (fun m => if_section counter (pi' m) m)); [apply E_if_section | apply V_if_section]. }
  v.
Qed.
#[local] Hint Resolve E_block E_loop E_if : wx.
Lemma E_operator w : E (parse_operator first pf pi n w) (fun m _ => parse_operator counter pf (pi' m) m w).
Proof. unfold parse_operator. ext. Qed.
Ltac more := apply (V_more []); [side|].
Lemma V_operator w : V [TId; OpenParen] (parse_operator first pf pi n w) (fun m _ => parse_operator counter pf (pi' m) m w).
Proof using HV.
  unfold parse_operator. destruct (lookup plain_cases w); [v|]. destruct (lookup index_cases w); [v|].
  destruct (text_eqb w (txt "br_table")); [v|]. destruct (text_eqb w (txt "i32.const")); [v|]. destruct (text_eqb w (txt "i64.const")); [v|].
  destruct (text_eqb w (txt "f32.const")).
  { more. apply (V_number _ _ (plet v := parse_float32 counter pf in pret (IF32Const v)) (plet v := parse_int32 counter in pret (IF32Const (float32_of_int v)))); [|v|crun].
    intros t c T. rewrite plet_eq. unfold parse_float32, handled. rewrite plet_eq, f_nxt, T. destruct (float32_literal pf (snd t)); discriminate. }
  destruct (text_eqb w (txt "f64.const")).
  { more. apply (V_number _ _ (plet v := parse_float64 counter pf in pret (IF64Const v)) (plet v := parse_int64 counter in pret (IF64Const (float64_of_int v)))); [|v|crun].
    intros t c T. rewrite plet_eq. unfold parse_float64, handled. rewrite plet_eq, f_nxt, T. destruct (pf (snd t)); discriminate. }
  destruct (text_eqb w (txt "block")); [apply V_block|]. destruct (text_eqb w (txt "loop")); [apply V_loop|].
  destruct (text_eqb w (txt "if")); [apply V_if|]. destruct (text_eqb w (txt "call_indirect")); [more; v | v].
Qed.
#[local] Hint Resolve E_operator V_operator : wx wv.
Notation tail src n it inst :=
  (plet p := pk src in if tok_eqb (fst p) OpenParen then (plet ps := loop src n it in pret (IFolded inst ps)) else pret inst).
Lemma R_tail i : runs others (fun m _ => tail counter m (pi' m) i) [].
Proof.
  apply runs_peek_free; [|side]. exists 0, i. intros t Ht m m' rest e j k _ _ F. rewrite (others_close _ Ht). do 2 eexists. reflexivity.
Qed.
Lemma V_body : V others (instruction_body first pf pi n) (fun m _ => instruction_body counter pf (pi' m) m).
Proof using HV.
  unfold instruction_body. apply (V_handled _ _ (fun m _ => _)). apply V_next.
  - exists [word_tk "return"]. split; [side|]. apply (runs_next _ _ (word_tk "return")).
    change (tok_eqb (fst (word_tk "return")) Reserved) with true. cbv iota.
    eapply (runs_bind_eq [] _ (fun m _ => _) _ _ [] []); [|apply R_tail | side | reflexivity]. exists 0, (IPlain Return). intros. do 2 eexists. reflexivity.
  - intros t. destruct (tok_eqb (fst t) Reserved); [|v].
    apply (V_bind [TId; OpenParen] _ _ (fun m _ => _)); [ext | v | |].
    + intros i. apply V_peek; [exists []; split; [side | apply R_tail]|]. v.
    + intros i. exists []. split; [side|]. split; [apply R_tail | side].
Qed.
End Operator.
Lemma V_instruction n : V others (parse_instruction first pf n) (fun m _ => parse_instruction counter pf m).
Proof.
  induction n as [|n IH]; [apply V_pdiverge|]. eapply V_map; [|exact (V_body n IH)]. intros d.
  apply (runs_S _ (fun m _ => parse_instruction counter pf m) (fun m _ => instruction_body counter pf (parse_instruction counter pf m) m) _ (fun m m' s => eq_refl)).
Qed.
Lemma E_instruction n : E (parse_instruction first pf n) (fun m _ => parse_instruction counter pf m).
Proof. apply (E_rel n). intros. now apply rel4_instruction. Qed.
Lemma R_instruction : runs others (fun m _ => parse_instruction counter pf m) [word_tk "return"].
Proof.
  apply (runs_S _ (fun m _ => parse_instruction counter pf m) (fun m _ => instruction_body counter pf (parse_instruction counter pf m) m) _ (fun m m' s => eq_refl)). unfold instruction_body. apply (runs_handled _ (fun m _ => _)).
  apply (runs_next _ _ (word_tk "return")). change (tok_eqb (fst (word_tk "return")) Reserved) with true. cbv iota.
  eapply (runs_bind_eq [] _ (fun m _ => _) _ _ [] []); [|apply R_tail | side | reflexivity]. exists 0, (IPlain Return). intros. do 2 eexists. reflexivity.
Qed.
#[local] Hint Resolve V_instruction E_instruction R_instruction : wv wx wr.
Lemma E_instrs n : E (parse_instructions first (parse_instruction first pf n) n) (fun m _ => parse_instructions counter (parse_instruction counter pf m) m).
Proof. apply E_instructions, V_instruction. Qed.
Lemma V_instrs n : V [OpenParen] (parse_instructions first (parse_instruction first pf n) n) (fun m _ => parse_instructions counter (parse_instruction counter pf m) m).
Proof. apply V_instructions, V_instruction. Qed.
Lemma R_instrs : runs [OpenParen] (fun m _ => parse_instructions counter (parse_instruction counter pf m) m) [].
Proof. apply (R_instructions 0), V_instruction. Qed.
#[local] Hint Resolve V_instrs E_instrs R_instrs : wv wx wr.

(** ** Functions *)
Lemma R_plain : runs others (fun m m' => plain_loop counter (parse_instruction counter pf m') m) [].
Proof.
  apply (runs_S _ _ _ _ (fun m m' s => eq_refl)). apply runs_peek_free; [|side]. exists 0, []. intros t Ht m m' rest e n k _ _ F.
  rewrite (others_close _ Ht). do 2 eexists. reflexivity.
Qed.
Lemma E_plain j n : E (plain_loop first (parse_instruction first pf n) j) (fun m m' => plain_loop counter (parse_instruction counter pf m') m).
Proof. apply (E_rel (Nat.max j n)). intros. use4b (@rel_plain_loop); [lia|]. apply rel4_instruction. lia. Qed.
Lemma E_instruction' n : E (parse_instruction first pf n) (fun _ m => parse_instruction counter pf m).
Proof. apply (E_rel n). intros. now apply rel4_instruction. Qed.
Lemma V_instruction' n : V others (parse_instruction first pf n) (fun _ m => parse_instruction counter pf m).
Proof. eapply V_map; [intros d; apply runs_swap | apply V_instruction]. Qed.
#[local] Hint Resolve V_instruction' E_instruction' E_plain R_plain : wv wx wr.
Lemma V_plain j n : V others (plain_loop first (parse_instruction first pf n) j) (fun m m' => plain_loop counter (parse_instruction counter pf m') m).
Proof.
  induction j as [|j IH]; [apply V_pdiverge|]. cbn [plain_loop]. eapply V_map; [intros d; apply (runs_S _ _ _ _ (fun m m' s => eq_refl))|].
  apply V_peek; [|v]. exists []. split; [side|].
  apply runs_peek_free; [|side]. exists 0, []. intros t Ht m m' rest e i k _ _ F.
  rewrite (others_close _ Ht). do 2 eexists. reflexivity.
Qed.
Notation plains m := (plain_loop counter (parse_instruction counter pf m) m).
Lemma R_plains : runs others (fun m _ => plains m) [].
Proof. apply (runs_diag _ (fun m m' => plain_loop counter (parse_instruction counter pf m') m)), R_plain. Qed.
Lemma E_plains n : E (plain_loop first (parse_instruction first pf n) n) (fun m _ => plains m).
Proof. apply (E_re (fun m _ => m) (fun m _ => m) _ (fun m m' => plain_loop counter (parse_instruction counter pf m') m)); [grow | grow | apply E_plain]. Qed.
Lemma V_plains n : V others (plain_loop first (parse_instruction first pf n) n) (fun m _ => plains m).
Proof. apply (V_re (fun m _ => m) (fun m _ => m) _ _ (fun m m' => plain_loop counter (parse_instruction counter pf m') m)); [grow | grow | apply V_plain]. Qed.
#[local] Hint Resolve R_plains E_plains V_plains : wr wx wv.

(** Sections of which the fuel is that of their items *)
Section Sections.
Context {A : Type}.
Variable it : nat -> A -> parser (option (list tk)) A.
Variable it' : nat -> A -> parser cst A.
Hypothesis HE : forall n a, E (it n a) (fun m _ => it' m a).
Hypothesis HV : forall n a, V others (it n a) (fun m _ => it' m a).
Lemma R_secs a : runs [OpenParen] (fun m _ => sections counter m (it' m) a) [].
Proof using All. apply (runs_diag _ (fun m m' => sections counter m (it' m') a)), (R_sections (it 0) it' (HE 0) (HV 0)). Qed.
Lemma E_secs n a : E (sections first n (it n) a) (fun m _ => sections counter m (it' m) a).
Proof using All.
  apply (E_re (fun m _ => m) (fun m _ => m) _ (fun m m' => sections counter m (it' m') a)); [grow | grow | apply (E_sections (it n) it' (HE n) (HV n))].
Qed.
Lemma V_secs n a : V [OpenParen] (sections first n (it n) a) (fun m _ => sections counter m (it' m) a).
Proof using All.
  apply (V_re (fun m _ => m) (fun m _ => m) _ _ (fun m m' => sections counter m (it' m') a)); [grow | grow | apply (V_sections (it n) it' (HE n) (HV n))].
Qed.
End Sections.
Lemma E_func_section n f : E (func_section first pf n f) (fun m _ => func_section counter pf m f). Proof. e1b n (@rel_func_section). Qed.
Lemma V_func_section n f : V others (func_section first pf n f) (fun m _ => func_section counter pf m f).
Proof.
  unfold func_section. apply V_peek; [|v].
  exists [word_tk "return"]. split; [side|]. apply (runs_peek _ _ (word_tk "return")).
  repeat lazymatch goal with |- runs _ (fun m m' => if ?b then _ else _) _ => change b with false; cbv iota end.
  eapply (runs_bind_eq others _ (fun m _ => _)); [apply R_instruction | crun | side | reflexivity].
Qed.
Lemma no_func_id : runs_to [TId] (fun _ _ => func_id counter) [] None.
Proof.
  exists 0. intros m m' rest e n i L L' F. unfold func_id. rewrite plet_eq.
  change (pk counter) with c_peek. unfold c_peek. cbn [c_ts c_end c_n app]. destruct rest as [|t ts]; cbn in F.
  - destruct e; [|destruct F]. do 2 eexists. reflexivity.
  - rewrite tok_eqb_neq; [do 2 eexists; reflexivity|]. intros Q. apply F. now left.
Qed.
Lemma R_func_id : runs [TId] (fun _ _ => func_id counter) [].
Proof. eapply runs_to_runs, no_func_id. Qed.
Lemma E_func_id : E (func_id first) (fun _ _ => func_id counter). Proof. unfold func_id. ext. Qed.
Lemma V_func_id : V [TId] (func_id first) (fun _ _ => func_id counter).
Proof. unfold func_id. apply V_peek; [exists []; split; [side | exact R_func_id]|]. v. comp_next name_a. Qed.
#[local] Hint Resolve R_func_id E_func_id V_func_id : wr wx wv.
Definition R_func_secs := R_secs (func_section first pf) (func_section counter pf) E_func_section V_func_section.
Definition E_func_secs := E_secs (func_section first pf) (func_section counter pf) E_func_section V_func_section.
Definition V_func_secs := V_secs (func_section first pf) (func_section counter pf) E_func_section V_func_section.
#[local] Hint Resolve R_func_secs E_func_secs V_func_secs : wr wx wv.
Lemma E_func n : E (parse_func first pf n) (fun m _ => parse_func counter pf m). Proof. e1b n (@rel_func). Qed.
Lemma V_func n : V others (parse_func first pf n) (fun m _ => parse_func counter pf m).
Proof. unfold parse_func. v. Qed.
#[local] Hint Resolve E_func V_func : wx wv.

(** ** Types, tables, globals and memories *)
Lemma E_type_section n f : E (func_type_section first n f) (fun m _ => func_type_section counter m f). Proof. e1b n (@rel_func_type_section). Qed.
Lemma V_type_section n f : V others (func_type_section first n f) (fun m _ => func_type_section counter m f).
Proof.
  unfold func_type_section. apply V_peek; [|v]. exists [(Reserved, txt "result"); word_tk "i32"]. split; [side|].
  apply (runs_peek _ _ (Reserved, txt "result")).
  change (text_eqb (snd (Reserved, txt "result")) (txt "param")) with false. change (text_eqb (snd (Reserved, txt "result")) (txt "result")) with true. cbv iota.
  eapply (runs_bind_eq [] others (fun _ _ => parse_result counter)); [apply R_result | crun | side | reflexivity].
Qed.
Definition R_type_secs := R_secs (func_type_section first) (func_type_section counter) E_type_section V_type_section.
Definition E_type_secs := E_secs (func_type_section first) (func_type_section counter) E_type_section V_type_section.
Definition V_type_secs := V_secs (func_type_section first) (func_type_section counter) E_type_section V_type_section.
#[local] Hint Resolve R_type_secs E_type_secs V_type_secs : wr wx wv.
Lemma E_func_type n : E (parse_func_type first n) (fun m _ => parse_func_type counter m). Proof. e1b n (@rel_func_type). Qed.
Lemma V_func_type n : V [OpenParen] (parse_func_type first n) (fun m _ => parse_func_type counter m).
Proof. unfold parse_func_type. v. Qed.
#[local] Hint Resolve E_func_type V_func_type : wx wv.
Lemma E_closed_type n : E (closed first (parse_func_type first n)) (fun m _ => closed counter (parse_func_type counter m)).
Proof. unfold closed. ext. Qed.
Lemma V_closed_type n : V [] (closed first (parse_func_type first n)) (fun m _ => closed counter (parse_func_type counter m)).
Proof. unfold closed. v. Qed.
#[local] Hint Resolve E_closed_type V_closed_type : wx wv.
Lemma E_type n : E (parse_type first n) (fun m _ => parse_type counter m). Proof. e1b n (@rel_type). Qed.
Lemma V_type n : V [TId; OpenParen] (parse_type first n) (fun m _ => parse_type counter m).
Proof. unfold parse_type. v. Qed.

Lemma E_limits : E (parse_limits first) (fun _ _ => parse_limits counter). Proof. apply (E_rel 0). intros. use4b (@rel_limits). Qed.
Notation limits_tail src mn := (plet t := pk src in
    if tok_eqb (fst t) TInteger
    then (plet mx := parse_int32 src in pret {| lim_min := u32_of mn; lim_max := Some (u32_of mx) |})
    else pret {| lim_min := u32_of mn; lim_max := None |}).
Lemma R_limits_tail mn : runs [TInteger] (fun _ _ => limits_tail counter mn) [].
Proof.
  apply runs_peek_free; [|side]. exists 0. eexists. intros t Ht m m' rest e n k _ _ F. rewrite tok_eqb_neq; [do 2 eexists; reflexivity|].
  intros Q. apply Ht. now left.
Qed.
#[local] Hint Resolve E_limits R_limits_tail : wx wr.
Lemma R_limits : runs [TInteger] (fun _ _ => parse_limits counter) [zero].
Proof. unfold parse_limits. apply (runs_handled _ (fun _ _ => _)). eapply (runs_bind_eq [] _ (fun _ _ => _)); [apply R_int32 | apply R_limits_tail | side | reflexivity]. Qed.
#[local] Hint Resolve R_limits : wr.
Lemma V_limits : V [TInteger] (parse_limits first) (fun _ _ => parse_limits counter).
Proof.
  unfold parse_limits. apply (V_handled _ _ (fun _ _ => _)). apply (V_bind [] _ _ (fun _ _ => _)); [ext | v | |].
  - intros mn. apply V_peek; [exists []; split; [side | apply R_limits_tail]|]. v.
  - intros mn. exists []. split; [side|]. split; [apply R_limits_tail | side].
Qed.
#[local] Hint Resolve V_limits : wv.
Lemma E_table_type : E (parse_table_type first) (fun _ _ => parse_table_type counter). Proof. apply (E_rel 0). intros. use4b (@rel_table_type). Qed.
Lemma R_table_type : runs [] (fun _ _ => parse_table_type counter) [word_tk "funcref"].
Proof. exists 0. eexists. intros. do 2 eexists. reflexivity. Qed.
#[local] Hint Resolve E_table_type R_table_type : wx wr.
Lemma V_table_type : V [] (parse_table_type first) (fun _ _ => parse_table_type counter).
Proof.
  unfold parse_table_type. apply (V_handled _ _ (fun _ _ => _)). apply V_peek.
  { exists [word_tk "funcref"]. split; [side|]. exists 0. eexists. intros. do 2 eexists. reflexivity. }
  intros t. apply (V_bind [TInteger] _ _ (fun _ _ => _)); [ext | destruct (tok_eqb (fst t) TInteger); v | |].
  - intros lim. apply V_next; [comp_next (word_tk "funcref") | v].
  - intros lim. exists [word_tk "funcref"]. split; [side|]. split; [|side]. exists 0. eexists. intros. do 2 eexists. reflexivity.
Qed.
#[local] Hint Resolve V_table_type : wv.
Lemma E_element : E (table_element first) (fun _ _ => table_element counter). Proof. apply (E_rel 0). intros. use4b (@rel_table_element). Qed.
Lemma V_element : V [] (table_element first) (fun _ _ => table_element counter).
Proof. unfold table_element. v. comp_next (word_tk "elem"). Qed.
Lemma V_element' : V others (table_element first) (fun _ _ => table_element counter).
Proof. apply (V_more []); [side | exact V_element]. Qed.
Notation elements src n := (while_eat tok_eqb src n OpenParen (closed src (table_element src))).
Definition R_elements := R_while (table_element first) (fun _ => table_element counter) E_element V_element'.
Definition E_elements := E_while (table_element first) (fun _ => table_element counter) E_element V_element'.
Definition V_elements := V_while (table_element first) (fun _ => table_element counter) E_element V_element'.
#[local] Hint Resolve R_elements E_elements V_elements : wr wx wv.
Lemma E_table n : E (parse_table first n) (fun m _ => parse_table counter m). Proof. e1b n (@rel_table). Qed.
Lemma V_table n : V [OpenParen] (parse_table first n) (fun m _ => parse_table counter m).
Proof. unfold parse_table. v. Qed.
Lemma V_global_type : V [] (parse_global_type first) (fun _ _ => parse_global_type counter).
Proof. unfold parse_global_type. v. Qed.
Lemma E_global_type : E (parse_global_type first) (fun _ _ => parse_global_type counter).
Proof. unfold parse_global_type. ext. Qed.
#[local] Hint Resolve V_global_type E_global_type : wv wx.
Lemma R_global_type : runs [] (fun _ _ => parse_global_type counter) [word_tk "i32"].
Proof. exists 0. eexists. intros. do 2 eexists. reflexivity. Qed.
#[local] Hint Resolve R_global_type : wr.
Lemma E_global n : E (parse_global first pf n) (fun m _ => parse_global counter pf m). Proof. e1b n (@rel_global). Qed.
Lemma V_global n : V [OpenParen] (parse_global first pf n) (fun m _ => parse_global counter pf m).
Proof. unfold parse_global. v. Qed.
Lemma E_memory : E (parse_memory first) (fun _ _ => parse_memory counter). Proof. apply (E_rel 0). intros. use4b (@rel_memory). Qed.
Lemma V_memory : V [TInteger] (parse_memory first) (fun _ _ => parse_memory counter).
Proof. unfold parse_memory. v. Qed.
Lemma R_memory : runs [TInteger] (fun _ _ => parse_memory counter) ((Reserved, txt "memory") :: [] ++ [zero] ++ []).
Proof. unfold parse_memory. crun. Qed.
#[local] Hint Resolve E_type V_type E_table V_table E_global V_global E_memory V_memory R_memory : wx wv wr.

(** ** Modules *)
Lemma E_module_section n a : E (module_section first pf n a) (fun m _ => module_section counter pf m a). Proof. e1b n (@rel_module_section). Qed.
Lemma V_module_section n a : V others (module_section first pf n a) (fun m _ => module_section counter pf m a).
Proof.
  unfold module_section. apply V_peek; [|v].
  exists [(Reserved, txt "memory"); zero]. split; [side|]. apply (runs_peek _ _ (Reserved, txt "memory")).
  repeat lazymatch goal with |- runs _ (fun m m' => if ?b then _ else _) _ => first [change b with false | change b with true]; cbv iota end.
  eapply (runs_bind_eq [TInteger] _ (fun m _ => _)); [apply R_memory | crun | side | reflexivity].
Qed.
Definition R_module_secs := R_secs (module_section first pf) (module_section counter pf) E_module_section V_module_section.
Definition E_module_secs := E_secs (module_section first pf) (module_section counter pf) E_module_section V_module_section.
Definition V_module_secs := V_secs (module_section first pf) (module_section counter pf) E_module_section V_module_section.
#[local] Hint Resolve R_module_secs E_module_secs V_module_secs : wr wx wv.
Lemma R_module : runs [OpenParen] (fun m _ => parse_module counter pf m) [(TModule, txt "module")].
Proof. unfold parse_module. crun. Qed.
Lemma E_module n : E (parse_module first pf n) (fun m _ => parse_module counter pf m). Proof. unfold parse_module. ext. Qed.
Lemma V_module n : V [OpenParen] (parse_module first pf n) (fun m _ => parse_module counter pf m).
Proof. unfold parse_module. v. Qed.
#[local] Hint Resolve R_module E_module V_module : wr wx wv.
Lemma V_directive n : V [] (parse_directive first pf n) (fun m _ => parse_directive counter pf m).
Proof.
  assert (K : runs [] (fun m _ => parse_directive counter pf m) [open; (TModule, txt "module"); close]).
  { exists 1. eexists. intros. destruct m as [|m]; [lia|]. do 2 eexists. reflexivity. }
  assert (K2 : C [] (fun m _ => plet t := pk counter in
    plet root :=
      (match fst t with
       | TModule => plet m := parse_module counter pf m in pret (DModule m)
       | TComponent => parse_component counter ;;> pret DComponent
       | _ => perr
       end) in
    exp counter CloseParen ;;> pret root)).
  { exists [(TModule, txt "module"); close]. split; [side|]. exists 1. eexists. intros. destruct m as [|m]; [lia|]. do 2 eexists. reflexivity. }
  unfold parse_directive in *. apply (V_handled _ _ (fun m _ => _)).
  intros c. revert c. apply V_exp.
  { destruct K2 as (d & I & R). exists (open :: d). split; [intros t [<-|H]; [left; reflexivity | now apply I] |]. now apply runs_exp. }
  apply V_peek; [exact K2|]. intros t. eapply (V_bind [OpenParen] _ _ (fun m _ => _)); [| | v |].
  - unfold parse_component. destruct (fst t); ext.
  - unfold parse_component. destruct (fst t); v.
  - intros root. exists [close]. split; [side|]. split; [crun | side].
Qed.
End Float.

Theorem viable pf n c : parse_directive first pf n (Some c) = (Diverge, None) ->
  exists d, incl d vocab /\ exists N a, forall m rest e i k, N <= m -> fst (parse_directive counter pf m (mkC ((c ++ d) ++ rest) (Ends e) i k)) = Ok a.
Proof.
  intros H. destruct (V_directive pf n c H) as (d & I & N & a & R). exists d. split; [exact I|]. exists N, a. intros m rest e i k L.
  destruct (R m m rest (Ends e) i k L L) as (n' & k' & X); [destruct rest; cbn; tauto|]. now rewrite X.
Qed.
