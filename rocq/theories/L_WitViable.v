(** What the WIT parser has read can always be completed: for tokens on which
    the parser found no error there are further ones with which it accepts,
    unless it is inside the path of a package, which it never accepts. *)
From Coq Require Import Arith NArith ZArith String Ascii Bool List Lia.
From Verif Require Import GoBase M_Text M_WitLex M_ParseBase M_Strconv M_WitAst M_WitParse S_WitParse L_ParseBase L_WitSim L_WitRel L_WitStop.
Import ListNotations.
Open Scope nat_scope.
Open Scope parse_scope.

(** The tokens used for completing *)
Definition vocab : list tk :=
  [tok ";"; tok ":"; tok "."; tok ","; tok "("; tok ")"; tok "{"; tok "}"; tok "<"; tok ">"; tok "="; tok "as"; tok "func";
   tok "u32"; tok "use"; tok "resource"; tok "variant"; tok "record"; tok "flags"; tok "enum"; tok "type"; tok "interface";
   tok "export"; tok "import"; tok "include"; (Id, txt "a"); (Integer, txt "0")].
Definition name_a : tk := (Id, txt "a").

(** The next token is none of these kinds, and the file can be read on. *)
Definition free (b : list toktype) (rest : list tk) (e : ending) : Prop :=
  match rest with t :: _ => ~ In (fst t) b | [] => match e with Ends _ => ~ In EndOfStream b | Fails => False end end.
(** The tokens [d] are read, whatever follows, if it is not one of [b]. *)
Definition runs {A} (b : list toktype) (q : nat -> nat -> parser cst A) (d : list tk) : Prop :=
  exists N a, forall m m' rest e n k, N <= m -> N <= m' -> free b rest e ->
  exists n' k', q m m' (mkC (d ++ rest) e n k) = (Ok a, mkC rest e n' k').
Definition C {A} (b : list toktype) (q : nat -> nat -> parser cst A) : Prop := exists d, incl d vocab /\ runs b q d.
Definition joins (b b' : list toktype) (d : list tk) : Prop :=
  match d with [] => incl b b' | t :: _ => ~ In (fst t) b end.
(** When the parser runs out of tokens there are more that complete them,
    or the tokens are hopeless. *)
Definition V {A} (D : list tk -> Prop) (b : list toktype) (p : parser (option (list tk)) A) (q : nat -> nat -> parser cst A) : Prop :=
  forall c, p (Some c) = (Diverge, None) -> D c \/ exists d, incl d vocab /\ runs b q (c ++ d).
(** An answer on the first tokens is the answer on the file. *)
Definition E {A} (p : parser (option (list tk)) A) (q : nat -> nat -> parser cst A) : Prop :=
  forall c a c', p (Some c) = (Ok a, c') -> exists d N, c' = Some d /\ (exists c0, c = c0 ++ d) /\
  forall m m' rest e n k, N <= m -> N <= m' -> exists n' k', q m m' (mkC (c ++ rest) e n k) = (Ok a, mkC (d ++ rest) e n' k').

Lemma joins_free b b' d rest e : joins b b' d -> free b' rest e -> free b (d ++ rest) e.
Proof.
  destruct d as [|t d]; [|auto]. cbn. intros I. destruct rest as [|t rest]; cbn; [destruct e; auto|]; intros F H; apply F, I, H.
Qed.

(** ** Reading given tokens *)
Lemma runs_pret {A} b (a : A) : runs b (fun _ _ => pret a) [].
Proof. exists 0, a. intros. exists n, k. reflexivity. Qed.
Lemma runs_handled {A} b (q : nat -> nat -> parser cst A) d : runs b q d -> runs b (fun m m' => handled (q m m')) d.
Proof.
  intros (N & a & H). exists N, a. intros. unfold handled. destruct (H m m' rest e n k) as (n' & k' & ->); eauto.
Qed.
Lemma runs_bind {A B} b b' (q : nat -> nat -> parser cst A) (g : nat -> nat -> A -> parser cst B) d d' :
  runs b q d -> (forall a, runs b' (fun m m' => g m m' a) d') -> joins b b' d' ->
  runs b' (fun m m' => pbind (unwrap (q m m')) (g m m')) (d ++ d').
Proof.
  intros (N & a & H) G J. destruct (G a) as (N' & x & H'). exists (Nat.max N N'), x. intros m m' rest e n k L L' F. rewrite plet_eq, <- app_assoc.
  destruct (H m m' (d' ++ rest) e n k) as (n' & k' & ->); [lia|lia|now apply (joins_free b b')|].
  apply H'; auto; lia.
Qed.
Lemma runs_next {B} b (g : nat -> nat -> tk -> parser cst B) t d :
  runs b (fun m m' => g m m' t) d -> runs b (fun m m' => pbind (unwrap (nxt counter)) (g m m')) (t :: d).
Proof. intros (N & a & H). exists N, a. intros. rewrite plet_eq. cbn. apply H; auto. Qed.
Lemma runs_peek {B} b (g : nat -> nat -> tk -> parser cst B) t d :
  runs b (fun m m' => g m m' t) (t :: d) -> runs b (fun m m' => pbind (unwrap (pk counter)) (g m m')) (t :: d).
Proof. intros (N & a & H). exists N, a. intros. rewrite plet_eq. cbn. apply H; auto. Qed.
Lemma kind_eqb_refl k : kind_eqb k k = true.
Proof. unfold kind_eqb. destruct (toktype_eq_dec k k); congruence. Qed.
Lemma kind_eqb_neq k k' : k <> k' -> kind_eqb k k' = false.
Proof. unfold kind_eqb. destruct (toktype_eq_dec k k'); congruence. Qed.
Lemma kind_eqb_eq k k' : kind_eqb k k' = true -> k = k'.
Proof. unfold kind_eqb. destruct (toktype_eq_dec k k'); congruence. Qed.
Lemma kind_eqb_false k k' : kind_eqb k k' = false -> k <> k'.
Proof. unfold kind_eqb. destruct (toktype_eq_dec k k'); congruence. Qed.
Lemma runs_exp {B} b (g : nat -> nat -> parser cst B) t k d : fst t = k ->
  runs b g d -> runs b (fun m m' => pbind (unwrap (exp counter k)) (fun _ => g m m')) (t :: d).
Proof. intros <- (N & a & H). exists N, a. intros. rewrite plet_eq, c_exp. cbn. rewrite kind_eqb_refl. apply H; auto. Qed.
Lemma runs_id {B} b (g : nat -> nat -> text -> parser cst B) t d : is_name (fst t) = true ->
  (forall a, runs b (fun m m' => g m m' a) d) -> runs b (fun m m' => pbind (unwrap (parse_id counter)) (g m m')) (t :: d).
Proof. intros Hn G. destruct (G (snd t)) as (N & a & H). exists N, a. intros. rewrite plet_eq, c_id. cbn. rewrite Hn. apply H; auto. Qed.
Lemma runs_eat {B} b (g : nat -> nat -> bool -> parser cst B) k t d : fst t = k ->
  runs b (fun m m' => g m m' true) d -> runs b (fun m m' => pbind (unwrap (ate counter k)) (g m m')) (t :: d).
Proof. intros <- (N & a & H). exists N, a. intros. rewrite plet_eq, c_ate. cbn. rewrite kind_eqb_refl. apply H; auto. Qed.
Lemma runs_pass {B} b (g : nat -> nat -> bool -> parser cst B) k d : joins [k] b d ->
  runs b (fun m m' => g m m' false) d -> runs b (fun m m' => pbind (unwrap (ate counter k)) (g m m')) d.
Proof.
  intros J (N & a & H). exists N, a. intros m m' rest e n i L L' F. rewrite plet_eq, c_ate.
  pose proof (joins_free _ _ _ _ _ J F) as F'.
  assert (X : exists n' k', c_peek (mkC (d ++ rest) e n i) = (Ok (match d ++ rest with t :: _ => t | [] => match e with Ends w => (EndOfStream, w) | Fails => name_a end end),
     mkC (d ++ rest) e n' k') /\ n' = n).
  { unfold c_peek. destruct (d ++ rest) as [|t ts]; [destruct e; [|destruct F']|]; cbn; eauto. }
  destruct X as (n1 & k1 & -> & ->). rewrite kind_eqb_neq; [apply H; auto|].
  destruct (d ++ rest) as [|t ts]; cbn in F'; [destruct e; [|destruct F']|]; cbn; intros <-; apply F'; left; reflexivity.
Qed.
Lemma runs_eq {A} b (q q' : nat -> nat -> parser cst A) d : (forall m m' s, q m m' s = q' m m' s) -> runs b q' d -> runs b q d.
Proof. intros Q (N & a & H). exists N, a. intros. rewrite Q. apply H; auto. Qed.
Lemma runs_S {A} b (q q' : nat -> nat -> parser cst A) d : (forall m m' s, q (S m) m' s = q' m m' s) -> runs b q' d -> runs b q d.
Proof. intros Q (N & a & H). exists (S N), a. intros. destruct m; [lia|]. rewrite Q. apply H; auto; lia. Qed.
Lemma runs_diag {A} b (q : nat -> nat -> parser cst A) d : runs b q d -> runs b (fun m _ => q m m) d.
Proof. intros (N & a & H). exists N, a. intros. apply H; auto. Qed.
Lemma runs_swap {A} b (q : nat -> parser cst A) d : runs b (fun m _ => q m) d -> runs b (fun _ m => q m) d.
Proof. intros (N & a & H). exists N, a. intros. apply (H m' m'); auto. Qed.
Lemma runs_more {A} b b' (q : nat -> nat -> parser cst A) d : incl b b' -> runs b q d -> runs b' q d.
Proof. intros I (N & a & H). exists N, a. intros. apply H; auto. apply (joins_free b b' []); auto. Qed.

(** ** Answers *)
Lemma E_rel {A} n (p : parser _ A) q : (forall m m', n <= m -> n <= m' -> rel4 A p (q m m')) -> E p q.
Proof.
  intros H c a c' P. destruct (H n n ltac:(lia) ltac:(lia) c a c' P) as (d & -> & Pre & _). exists d, n. split; [reflexivity|]. split; [exact Pre|].
  intros m m' rest e i k L L'. destruct (H m m' L L' c a _ P) as (d' & X & _ & Q). inversion X; subst d'. apply Q.
Qed.
Lemma E_pret {A} (a : A) : E (pret a) (fun _ _ => pret a).
Proof. apply (E_rel 0). intros. apply rel4_pret. Qed.
Lemma E_perr {A} : E (@perr _ A) (fun _ _ => perr).
Proof. apply (E_rel 0). intros. apply rel4_perr. Qed.
Lemma E_handled {A} (p : parser _ A) q : E p q -> E (handled p) (fun m m' => handled (q m m')).
Proof.
  intros H c x c' X. unfold handled in X. destruct (p (Some c)) as [[a| | |] c1] eqn:P; try discriminate. inversion X; subst.
  destruct (H c x c' P) as (d & N & -> & Pre & Q). exists d, N. split; [reflexivity|]. split; [exact Pre|].
  intros. unfold handled. destruct (Q m m' rest e n k) as (n' & k' & ->); eauto.
Qed.
Lemma E_bind {A B} (p : parser _ A) q (f : A -> parser _ B) g : E p q -> (forall a, E (f a) (fun m m' => g m m' a)) ->
  E (pbind (unwrap p) f) (fun m m' => pbind (unwrap (q m m')) (g m m')).
Proof.
  intros H F c x c' X. rewrite plet_eq in X. destruct (p (Some c)) as [[a| | |] c1] eqn:P; try discriminate.
  destruct (H c a c1 P) as (d & N & -> & (c0 & C0) & Q). destruct (F a d x c' X) as (d' & N' & -> & (c2 & C2) & Q'). exists d', (Nat.max N N'). split; [reflexivity|].
  split; [exists (c0 ++ c2); subst; apply app_assoc|].
  intros. rewrite plet_eq. destruct (Q m m' rest e n k) as (n' & k' & ->); [lia|lia|]. apply Q'; lia.
Qed.

(** ** Completing *)
Definition False1 : list tk -> Prop := fun _ => False.
Lemma V_pret {A} D b (a : A) q : V D b (pret a) q.
Proof. intros c X. discriminate. Qed.
Lemma V_perr {A} D b q : V D b (@perr _ A) q.
Proof. intros c X. discriminate. Qed.
Lemma V_pdiverge {A} D b q : V D b (@pdiverge _ A) q.
Proof. intros c X. discriminate. Qed.
Lemma V_handled {A} D b (p : parser _ A) q : V D b p q -> V D b (handled p) (fun m m' => handled (q m m')).
Proof.
  intros H c X. unfold handled in X. destruct (p (Some c)) as [[| | |] s] eqn:P; try discriminate. inversion X; subst.
  destruct (H c P) as [|(d & I & R)]; [left; assumption|]. right. exists d. split; [exact I | now apply runs_handled].
Qed.
Lemma V_bind {A B} (D D1 D2 : list tk -> Prop) b b' (p : parser _ A) q (f : A -> parser _ B) (g : nat -> nat -> A -> parser cst B) :
  E p q -> V D1 b p q -> (forall a, V D2 b' (f a) (fun m m' => g m m' a)) ->
  (forall a, exists d, incl d vocab /\ runs b' (fun m m' => g m m' a) d /\ joins b b' d) ->
  (forall c, D1 c -> D c) -> (forall c c', D2 c' -> D (c ++ c')) ->
  V D b' (pbind (unwrap p) f) (fun m m' => pbind (unwrap (q m m')) (g m m')).
Proof.
  intros X HV F K W1 W2 c S. rewrite plet_eq in S. destruct (p (Some c)) as [[a| | |] s] eqn:P; try discriminate.
  - destruct (X c a s P) as (c' & N & -> & (c0 & ->) & Q).
    destruct (F a c' S) as [H|(d & I & (N' & x & R))]; [left; now apply W2|]. right. exists d. split; [exact I|].
    exists (Nat.max N N'), x. intros m m' rest e n k L L' Fr. rewrite plet_eq, <- app_assoc.
    destruct (Q m m' (d ++ rest) e n k) as (n' & k' & ->); [lia|lia|]. rewrite app_assoc. apply R; auto; lia.
  - inversion S; subst s. destruct (HV c P) as [H|(d & I & R)]; [left; now apply W1|]. right.
    destruct R as (N1 & a & R). destruct (K a) as (d' & I' & (N2 & x & R') & J). exists (d ++ d'). split; [now apply incl_app|].
    exists (Nat.max N1 N2), x. intros m m' rest e n k L L' Fr. rewrite plet_eq, <- !app_assoc, (app_assoc c).
    destruct (R m m' (d' ++ rest) e n k) as (n' & k' & ->); [lia|lia|now apply (joins_free b b')|]. apply R'; auto; lia.
Qed.
Lemma V_next {B} (D : list tk -> Prop) (D2 : tk -> list tk -> Prop) b (f : tk -> parser _ B) (g : nat -> nat -> tk -> parser cst B) :
  C b (fun m m' => pbind (unwrap (nxt counter)) (g m m')) ->
  (forall t, V (D2 t) b (f t) (fun m m' => g m m' t)) -> (forall t c, D2 t c -> D (t :: c)) ->
  V D b (pbind (unwrap (nxt first)) f) (fun m m' => pbind (unwrap (nxt counter)) (g m m')).
Proof.
  intros K F W c S. destruct c as [|t c]; [right; exact K|]. rewrite plet_eq, f_nxt in S.
  destruct (F t c S) as [H|(d & I & R)]; [left; now apply W|]. right. exists d. split; [exact I | now apply runs_next].
Qed.
Lemma V_peek {B} (D : list tk -> Prop) b (f : tk -> parser _ B) (g : nat -> nat -> tk -> parser cst B) :
  C b (fun m m' => pbind (unwrap (pk counter)) (g m m')) ->
  (forall t, V D b (f t) (fun m m' => g m m' t)) ->
  V D b (pbind (unwrap (pk first)) f) (fun m m' => pbind (unwrap (pk counter)) (g m m')).
Proof.
  intros K F c S. destruct c as [|t c]; [right; exact K|]. rewrite plet_eq, f_pk in S.
  destruct (F t _ S) as [H|(d & I & R)]; [left; exact H|]. right. exists d. split; [exact I | now apply runs_peek].
Qed.
Lemma V_exp {B} (D D2 : list tk -> Prop) b k (p : parser _ B) q :
  C b (fun m m' => pbind (unwrap (exp counter k)) (fun _ => q m m')) ->
  V D2 b p q -> (forall t c, fst t = k -> D2 c -> D (t :: c)) ->
  V D b (pbind (unwrap (exp first k)) (fun _ => p)) (fun m m' => pbind (unwrap (exp counter k)) (fun _ => q m m')).
Proof.
  intros K F W c S. destruct c as [|t c]; [right; exact K|]. rewrite plet_eq, f_exp in S.
  destruct (kind_eqb (fst t) k) eqn:Hk; [|discriminate]. apply kind_eqb_eq in Hk.
  destruct (F c S) as [H|(d & I & R)]; [left; now apply W|]. right. exists d. split; [exact I | now apply runs_exp].
Qed.
Lemma V_id {B} (D D2 : list tk -> Prop) b (f : text -> parser _ B) (g : nat -> nat -> text -> parser cst B) :
  C b (fun m m' => pbind (unwrap (parse_id counter)) (g m m')) ->
  (forall a, V D2 b (f a) (fun m m' => g m m' a)) -> (forall t c, is_name (fst t) = true -> D2 c -> D (t :: c)) ->
  V D b (pbind (unwrap (parse_id first)) f) (fun m m' => pbind (unwrap (parse_id counter)) (g m m')).
Proof.
  intros K F W c S. destruct c as [|t c]; [right; exact K|]. rewrite plet_eq, f_id in S.
  destruct (is_name (fst t)) eqn:Hk; [|discriminate].
  destruct (F (snd t) c S) as [H|(d & I & (N & x & R))]; [left; now apply W|]. right. exists d. split; [exact I|].
  exists N, x. intros. rewrite plet_eq, c_id. cbn. rewrite Hk. apply R; auto.
Qed.
Lemma V_eat {B} (D D2 : list tk -> Prop) b k (f : bool -> parser _ B) (g : nat -> nat -> bool -> parser cst B) :
  C b (fun m m' => pbind (unwrap (ate counter k)) (g m m')) ->
  V D2 b (f true) (fun m m' => g m m' true) -> (forall t c, fst t = k -> D2 c -> D (t :: c)) ->
  V D b (f false) (fun m m' => g m m' false) ->
  V D b (pbind (unwrap (ate first k)) f) (fun m m' => pbind (unwrap (ate counter k)) (g m m')).
Proof.
  intros K Ft W Ff c S. destruct c as [|t c]; [right; exact K|]. rewrite plet_eq, f_ate in S.
  destruct (kind_eqb (fst t) k) eqn:Hk.
  - apply kind_eqb_eq in Hk. destruct (Ft c S) as [H|(d & I & R)]; [left; now apply W|]. right. exists d. split; [exact I | now apply runs_eat].
  - apply kind_eqb_false in Hk. destruct (Ff _ S) as [H|(d & I & R)]; [left; exact H|]. right. exists d. split; [exact I|].
    apply runs_pass; [|exact R]. cbn. intros [->|[]]. now apply Hk.
Qed.
Lemma V_eq {A} D b (p p' : parser _ A) q : (forall s, p s = p' s) -> V D b p' q -> V D b p q.
Proof. intros P H c. rewrite P. apply H. Qed.
Lemma V_map {A} D b (p : parser _ A) q q' : (forall d, runs b q d -> runs b q' d) -> V D b p q -> V D b p q'.
Proof. intros Q H c S. destruct (H c S) as [|(d & I & R)]; eauto 6. Qed.
Lemma V_more {A} (D D' : list tk -> Prop) b (p : parser _ A) q : (forall c, D c -> D' c) -> V D b p q -> V D' b p q.
Proof. intros W H c S. destruct (H c S) as [|(d & I & R)]; eauto 6. Qed.

(** ** The functions of the parser *)

(** The path of a package, up to where the parser gives up *)
Definition path_part (c : list tk) : Prop :=
  exists i x c', c = i :: x :: c' /\ is_name (fst i) = true /\ fst x = Colon /\
  (c' = [] \/ (exists p, c' = [p] /\ is_name (fst p) = true) \/ exists p s, c' = [p; s] /\ is_name (fst p) = true /\ fst s = Slash).
Definition cut (c : list tk) : Prop :=
  exists c0 u c', c = c0 ++ u :: c' /\ (fst u = KUse \/ fst u = KInclude) /\ path_part c'.
Lemma cut_cons t c : cut c -> cut (t :: c).
Proof. intros (c0 & u & c' & -> & H). exists (t :: c0), u, c'. split; [reflexivity | exact H]. Qed.
Lemma cut_app c c' : cut c' -> cut (c ++ c').
Proof. induction c; [auto|]. intros H. now apply cut_cons, IHc. Qed.

(** The token of [vocab] of the kind *)
Definition wd (k : toktype) : tk :=
  match find (fun t => kind_eqb (fst t) k) vocab with Some t => t | None => name_a end.

(** Kinds with which something may go on *)
Definition wide : list toktype := [Less; Comma; KAs; OpenParen; RightArrow; Colon].
Create HintDb wr.
Create HintDb wx.
Ltac side :=
  match goal with
  | |- incl _ _ => let t := fresh in let H := fresh in intros t H; vm_compute in H |- *; intuition
  | |- joins _ _ _ => vm_compute; intuition discriminate
  | |- fst _ = _ => reflexivity
  | |- is_name _ = true => reflexivity
  end.
(** Tokens that complete what is left of a function *)
Ltac crun :=
  cbv beta iota;
  lazymatch goal with
  | |- forall _, _ => intros ?; crun
  | |- runs _ (fun m m' => pret _) _ => apply runs_pret
  | |- runs _ (fun m m' => handled _) _ => apply runs_handled; crun
  | |- runs _ (fun m m' => pbind (unwrap (exp counter ?k)) (@?g m m')) _ =>
      let t := eval vm_compute in (wd k) in eapply (runs_exp _ _ t); [side | crun]
  | |- runs _ (fun m m' => pbind (unwrap (parse_id counter)) (@?g m m')) _ =>
      eapply (runs_id _ _ name_a); [side | crun]
  | |- runs _ (fun m m' => pbind (unwrap (ate counter ?k)) (@?g m m')) _ =>
      first [eapply runs_pass; [| crun]; side
            | let t := eval vm_compute in (wd k) in eapply (runs_eat _ _ _ t); [side | crun]]
  | |- runs _ (fun m m' => pbind (unwrap (pk counter)) (@?g m m')) (?t :: _) => apply runs_peek; crun
  | |- runs _ (fun m m' => pbind (unwrap (nxt counter)) (@?g m m')) (?t :: _) => apply runs_next; crun
  | |- runs _ (fun m m' => pbind (unwrap (@?q m m')) (@?g m m')) _ =>
      first [eapply runs_bind; [solve [eauto with wr] | crun | side] | eapply (runs_bind []); [crun | crun | side]
            | eapply (runs_bind wide); [crun | crun | side]]
  | |- _ => solve [eauto with wr]
  end.
Ltac comp := eexists; split; [|crun]; side.
Ltac comp_next t := let x := eval vm_compute in t in eexists; split; [|eapply (runs_next _ _ x); cbn [fst snd]; crun]; side.
Ltac comp_peek t := let x := eval vm_compute in t in eexists; split; [|eapply (runs_peek _ _ x); cbn [fst snd]; crun]; side.

Create HintDb wv.
(** An answer on the first tokens: through the lemmas of L_WitRel *)
Ltac ext :=
  cbv beta iota;
  lazymatch goal with
  | |- forall _, _ => intros ?; ext
  | |- E (pret _) _ => apply E_pret
  | |- E perr _ => apply E_perr
  | |- E (pbind _ _) _ => apply E_bind; [ext | ext]
  | |- E (handled _) (fun m m' => handled (@?q m m')) => apply (E_handled _ q); ext
  | |- E (if ?b then _ else _) _ => destruct b; ext
  | |- E (match ?b with _ => _ end) _ => destruct b; ext
  | |- _ => solve [eauto with wx]
  end.
Ltac keep := intros; apply cut_cons; assumption.
Ltac v :=
  cbv beta iota;
  lazymatch goal with
  | |- forall _, _ => intros ?; v
  | |- V _ _ (pret _) _ => apply V_pret
  | |- V _ _ perr _ => apply V_perr
  | |- V _ _ pdiverge _ => apply V_pdiverge
  | |- V _ _ (handled _) (fun m m' => handled (@?q m m')) => apply (V_handled _ _ _ q); v
  | |- V _ _ (pbind (unwrap (exp first _)) _) _ => apply (V_exp cut cut); [comp | v | keep]
  | |- V _ _ (pbind (unwrap (parse_id first)) _) _ => apply (V_id cut cut); [comp | v | keep]
  | |- V _ _ (pbind (unwrap (ate first _)) _) _ => apply (V_eat cut cut); [comp | v | keep | v]
  | |- V _ _ (pbind (unwrap (pk first)) _) _ => apply (V_peek cut); [try comp | v]
  | |- V _ _ (pbind (unwrap (nxt first)) _) _ => apply (V_next cut (fun _ => cut)); [try comp | v | keep]
  | |- V _ _ (pbind _ _) _ =>
      first [eapply (V_bind cut cut cut); [ext | solve [eauto with wv] | v | intros ?; eexists; split; [|split; [crun|]]; side | auto | intros; apply cut_app; assumption]
            | apply (V_bind cut cut cut []); [ext | v | v | intros ?; eexists; split; [|split; [crun|]]; side | auto | intros; apply cut_app; assumption]
            | apply (V_bind cut cut cut wide); [ext | v | v | intros ?; eexists; split; [|split; [crun|]]; side | auto | intros; apply cut_app; assumption]]
  | |- V _ _ (if ?b then _ else _) _ => destruct b; v
  | |- V _ _ (match ?b with _ => _ end) _ => destruct b; v
  | |- _ => solve [eauto with wv]
  end.

Lemma R_integer : runs [] (fun _ _ => parse_integer counter) [(Integer, txt "0")].
Proof. exists 0, 0%Z. intros. do 2 eexists. reflexivity. Qed.
#[local] Hint Resolve R_integer : wr.
Lemma E_integer : E (parse_integer first) (fun _ _ => parse_integer counter).
Proof. apply (E_rel 0). intros. use4 (@rel_integer). Qed.
#[local] Hint Resolve E_integer : wx.
Lemma V_integer : V cut [] (parse_integer first) (fun _ _ => parse_integer counter).
Proof.
  intros c H. right. exists [(Integer, txt "0")]. split; [side|]. destruct c as [|[k w] c]; [exact R_integer|].
  exfalso. revert H. unfold parse_integer, handled. rewrite plet_eq, f_nxt. cbn [fst snd]. destruct k; try discriminate.
  destruct (parse_int w 32); discriminate.
Qed.
#[local] Hint Resolve V_integer : wv.
Lemma V_version : V cut [] (parse_version first) (fun _ _ => parse_version counter).
Proof. unfold parse_version. v. Qed.
Lemma R_version : C [] (fun _ _ => parse_version counter).
Proof. unfold parse_version. comp. Qed.
Lemma E_version : E (parse_version first) (fun _ _ => parse_version counter).
Proof. apply (E_rel 0). intros. use4 (@rel_version). Qed.
#[local] Hint Resolve E_version V_version : wx wv.
Lemma E_id : E (parse_id first) (fun _ _ => parse_id counter).
Proof. apply (E_rel 0). intros. use4 (@rel_id). Qed.
Lemma E_exp k : E (exp first k) (fun _ _ => exp counter k).
Proof. apply (E_rel 0). intros. use4 (@rel_expect). Qed.
Lemma E_eat k : E (ate first k) (fun _ _ => ate counter k).
Proof. apply (E_rel 0). intros. use4 (@rel_eat). Qed.
Lemma E_pk : E (pk first) (fun _ _ => pk counter).
Proof. apply (E_rel 0). intros. exact rel4_peek. Qed.
#[local] Hint Resolve E_id E_exp E_eat E_pk : wx.

Lemma V_package : V cut [] (parse_package first) (fun _ _ => parse_package counter).
Proof. unfold parse_package. v. comp_next name_a. Qed.

(** Paths *)
Lemma V_use_path : V path_part [Colon] (parse_use_path first) (fun _ _ => parse_use_path counter).
Proof.
  unfold parse_use_path. apply (V_handled _ _ _ (fun _ _ => _)). intros c H.
  destruct c as [|i c]; [right; comp|]. rewrite plet_eq, f_id in H. destruct (is_name (fst i)) eqn:Hi; [|discriminate].
  rewrite plet_eq, f_ate in H. destruct c as [|x c].
  { right. exists []. split; [side|]. rewrite app_nil_r. apply runs_id; [exact Hi|]. crun. }
  destruct (kind_eqb (fst x) Colon) eqn:Hx; [|discriminate]. apply kind_eqb_eq in Hx.
  left. exists i, x, c. do 3 (split; [auto|]). unfold parse_path, handled in H. rewrite plet_eq, f_id in H.
  destruct c as [|p c]; [auto|]. destruct (is_name (fst p)) eqn:Hp; [|discriminate]. rewrite plet_eq, f_exp in H.
  destruct c as [|s c]; [right; left; eauto|]. destruct (kind_eqb (fst s) Slash) eqn:Hs; [|discriminate]. apply kind_eqb_eq in Hs.
  rewrite plet_eq, f_id in H. destruct c as [|q c]; [right; right; eauto|]. destruct (is_name (fst q)); discriminate.
Qed.
Lemma R_use_path : runs [Colon] (fun _ _ => parse_use_path counter) [name_a].
Proof. unfold parse_use_path. crun. Qed.
Lemma E_use_path : E (parse_use_path first) (fun _ _ => parse_use_path counter).
Proof. apply (E_rel 0). intros. use4 (@rel_use_path). Qed.
#[local] Hint Resolve R_use_path E_use_path : wr wx.
Lemma V_top_use : V (fun c => path_part c \/ cut c) [Colon; KAs] (parse_top_use first) (fun _ _ => parse_top_use counter).
Proof.
  unfold parse_top_use. apply (V_handled _ _ _ (fun _ _ => _)).
  apply (V_bind _ path_part cut [Colon] _ _ (fun _ _ => _)); [ext | exact V_use_path | v | | auto | intros; right; now apply cut_app].
  intros ?. eexists. split; [|split; [crun|]]; side.
Qed.
(** Lists *)
Set Default Proof Using "All".
Section Items.
Context {A : Type}.
Variable it : nat -> parser (option (list tk)) A.
Variable it' : nat -> parser cst A.
Variable b : list toktype.
Variable close : toktype.
Hypothesis HR : forall n m, n <= m -> rel4 A (it n) (it' m).
Hypothesis HV : forall n, V cut b (it n) (fun m _ => it' m).
Lemma E_it n : E (it n) (fun _ m => it' m).
Proof. apply (E_rel n). auto. Qed.
Lemma V_it n : V cut b (it n) (fun _ m => it' m).
Proof. eapply V_map; [intros d; apply runs_swap | apply HV]. Qed.
#[local] Hint Resolve E_it V_it : wx wv.
Hypothesis Hclose : ~ In close b.
Hypothesis Hcomma : close <> Comma.
Hypothesis Hvocab : In (wd close) vocab /\ fst (wd close) = close.
Lemma close_in : incl [wd close] vocab.
Proof. intros t [<-|[]]; apply Hvocab. Qed.
Lemma R_items : runs [] (fun m m' => items_loop counter m close (it' m')) [wd close].
Proof. apply (runs_S _ _ _ _ (fun m m' s => eq_refl)). apply runs_eat; [apply Hvocab | apply runs_pret]. Qed.
Lemma E_items j n : E (items_loop first j close (it n)) (fun m m' => items_loop counter m close (it' m')).
Proof. apply (E_rel (Nat.max j n)). intros m m' L L'. use4 (@rel_items); [lia|]. apply HR. lia. Qed.
#[local] Hint Resolve E_items : wx.
Lemma V_items j n : V cut [] (items_loop first j close (it n)) (fun m m' => items_loop counter m close (it' m')).
Proof.
  induction j as [|j IH]; [apply V_pdiverge|]. cbn [items_loop]. eapply V_map; [intros d; apply (runs_S _ _ _ _ (fun m m' s => eq_refl))|].
  apply (V_eat cut cut); [| v | keep |].
  { exists [wd close]. split; [apply close_in|]. apply runs_eat; [apply Hvocab | apply runs_pret]. }
  assert (X : forall a : A, runs [] (fun _ _ : nat => exp counter close ;;> pret [a]) [wd close]).
  { intros a. apply runs_exp; [apply Hvocab | apply runs_pret]. }
  assert (Y : forall a, runs [] (fun m m' => plet c := ate counter Comma in (if c then plet xs := items_loop counter m close (it' m') in pret (a :: xs) else exp counter close ;;> pret [a])) [wd close]).
  { intros a. apply runs_pass; [cbn; rewrite (proj2 Hvocab); intros [H|[]]; now apply Hcomma|]. apply X. }
  apply (V_bind cut cut cut b _ _ (fun _ m' => it' m')); [apply E_it | apply V_it | | | auto | intros; now apply cut_app].
  - intros a. apply (V_eat cut cut); [exists [wd close]; split; [apply close_in | apply Y] | | keep |].
    + apply (V_bind cut cut cut [] _ _ (fun m m' => items_loop counter m close (it' m'))); [ext | exact IH | v | | auto | intros; now apply cut_app].
      intros xs. exists []. split; [side|]. split; [apply runs_pret | side].
    + apply (V_exp cut cut); [exists [wd close]; split; [apply close_in | apply X] | v | keep].
  - intros a. exists [wd close]. split; [apply close_in|]. split; [apply Y|]. cbn. rewrite (proj2 Hvocab). exact Hclose.
Qed.
Lemma R_list open t : fst t = open -> runs [] (fun m _ => parse_item_list counter m open close (it' m)) [t; wd close].
Proof.
  intros H. unfold parse_item_list. apply runs_handled. apply runs_exp; [exact H|]. apply (runs_diag _ (fun m m' => items_loop counter m close (it' m'))), R_items.
Qed.
Lemma V_list open n : In (wd open) vocab /\ fst (wd open) = open -> V cut [] (parse_item_list first n open close (it n)) (fun m _ => parse_item_list counter m open close (it' m)).
Proof.
  intros [I O]. unfold parse_item_list. apply (V_handled _ _ _ (fun _ _ => _)). apply (V_exp cut cut); [| | keep].
  - exists [wd open; wd close]. split; [intros t [<-|[<-|[]]]; [exact I | apply Hvocab]|]. apply runs_exp; [exact O|].
    apply (runs_diag _ (fun m m' => items_loop counter m close (it' m'))), R_items.
  - eapply V_map; [intros d; apply (runs_diag _ (fun m m' => items_loop counter m close (it' m'))) | apply V_items].
Qed.
(** Until a closing brace *)
Lemma R_until : runs [] (fun m m' => until_eat counter m close (it' m')) [wd close].
Proof. apply (runs_S _ _ _ _ (fun m m' s => eq_refl)). apply runs_eat; [apply Hvocab | apply runs_pret]. Qed.
Lemma E_until j n : E (until_eat first j close (it n)) (fun m m' => until_eat counter m close (it' m')).
Proof. apply (E_rel (Nat.max j n)). intros m m' L L'. use4m (@rel_until); [lia|]. apply HR. lia. Qed.
#[local] Hint Resolve E_until : wx.
Lemma V_until j n : V cut [] (until_eat first j close (it n)) (fun m m' => until_eat counter m close (it' m')).
Proof.
  induction j as [|j IH]; [apply V_pdiverge|]. cbn [until_eat]. eapply V_map; [intros d; apply (runs_S _ _ _ _ (fun m m' s => eq_refl))|].
  apply (V_eat cut cut); [| v | keep |].
  { exists [wd close]. split; [apply close_in|]. apply runs_eat; [apply Hvocab | apply runs_pret]. }
  apply (V_bind cut cut cut b _ _ (fun _ m' => it' m')); [apply E_it | apply V_it | | | auto | intros; now apply cut_app].
  - intros a. apply (V_bind cut cut cut [] _ _ (fun m m' => until_eat counter m close (it' m'))); [ext | exact IH | v | | auto | intros; now apply cut_app].
    intros xs. exists []. split; [side|]. split; [apply runs_pret | side].
  - intros a. exists [wd close]. split; [apply close_in|]. split.
    + change [wd close] with ([wd close] ++ []). eapply runs_bind; [apply R_until | intros; apply runs_pret | side].
    + cbn. rewrite (proj2 Hvocab). exact Hclose.
Qed.
End Items.
Unset Default Proof Using.
(** Types *)
Ltac sat := split; [vm_compute; tauto | reflexivity].
Ltac nin := cbn; intuition discriminate.
Ltac list_of lem it it' b close HR HV :=
  apply (lem _ it it' b close HR HV ltac:(nin) ltac:(discriminate) ltac:(sat)).
Lemma V_use_name (n : nat) : V cut [KAs] (parse_use_name first) (fun _ _ => parse_use_name counter).
Proof. unfold parse_use_name. v. Qed.
Lemma rel4_use_name (n m : nat) : n <= m -> rel4 _ (parse_use_name first) (parse_use_name counter).
Proof. intros _. use4 (@rel_use_name). Qed.
Notation names_first n := (parse_item_list first n OpenBrace CloseBrace (parse_use_name first)).
Notation names_counter m := (parse_item_list counter m OpenBrace CloseBrace (parse_use_name counter)).
Lemma R_use_names : runs [] (fun m _ => names_counter m) [tok "{"; tok "}"].
Proof. list_of (@R_list) (fun _ : nat => parse_use_name first) (fun _ : nat => parse_use_name counter) [KAs] CloseBrace rel4_use_name V_use_name. reflexivity. Qed.
Lemma V_use_names n : V cut [] (names_first n) (fun m _ => names_counter m).
Proof. list_of (@V_list) (fun _ : nat => parse_use_name first) (fun _ : nat => parse_use_name counter) [KAs] CloseBrace rel4_use_name V_use_name. sat. Qed.
Lemma E_use_names n : E (names_first n) (fun m _ => names_counter m).
Proof. apply (E_rel n). intros. use4 (@rel_item_list); [assumption | use4 (@rel_use_name)]. Qed.
#[local] Hint Resolve R_use_names V_use_names E_use_names : wr wv wx.
Lemma path_cut t c : fst t = KUse -> path_part c \/ cut c -> cut (t :: c).
Proof. intros H [P|P]; [|now apply cut_cons]. exists [], t, c. auto. Qed.
Lemma V_use n : V cut [] (parse_use first n) (fun m _ => parse_use counter m).
Proof.
  unfold parse_use. apply (V_handled _ _ _ (fun _ _ => _)). apply (V_exp cut (fun c => path_part c \/ cut c)); [comp | | exact path_cut].
  apply (V_bind _ path_part cut [Colon] _ _ (fun _ _ => _)); [ext | exact V_use_path | v | | auto | intros; right; now apply cut_app].
  intros ?. eexists. split; [|split; [crun|]]; side.
Qed.

Set Default Proof Using "All".
Section Two.
Variable pt : parser (option (list tk)) wtype.
Variable pt' : nat -> parser cst wtype.
Hypothesis HR : E pt (fun m _ => pt' m).
Hypothesis HV : V cut [Less] pt (fun m _ => pt' m).
Hypothesis HC : runs [Less] (fun m _ => pt' m) [tok "u32"].
#[local] Hint Resolve HR HV HC : wx wv wr.
Lemma V_two : V cut [Less] (parse_two first pt) (fun m _ => parse_two counter (pt' m)).
Proof. unfold parse_two. v. Qed.
Lemma E_two : E (parse_two first pt) (fun m _ => parse_two counter (pt' m)).
Proof. unfold parse_two. ext. Qed.
Lemma R_two : runs [Less] (fun m _ => parse_two counter (pt' m)) [].
Proof. unfold parse_two. crun. Qed.
#[local] Hint Resolve V_two E_two R_two : wx wv wr.
Lemma V_stream : V cut [Less] (parse_stream first pt) (fun m _ => parse_stream counter (pt' m)).
Proof. unfold parse_stream. v. Qed.
Lemma V_result : V cut [Less] (parse_result first pt) (fun m _ => parse_result counter (pt' m)).
Proof. unfold parse_result. v. Qed.
Lemma V_future : V cut [Less] (parse_future first pt) (fun m _ => parse_future counter (pt' m)).
Proof. unfold parse_future. v. Qed.
Lemma V_list_type : V cut [Less] (parse_list first pt) (fun m _ => parse_list counter (pt' m)).
Proof. unfold parse_list. v. Qed.
Lemma V_option : V cut [Less] (parse_option first pt) (fun m _ => parse_option counter (pt' m)).
Proof. unfold parse_option. v. Qed.
End Two.
Unset Default Proof Using.
Lemma R_type : runs [Less] (fun m _ => parse_type counter m) [tok "u32"].
Proof.
  apply (runs_S _ _ (fun m _ => type_body counter (parse_type counter m) m) _ (fun m m' s => eq_refl)). unfold type_body. apply runs_handled, runs_next.
  exact (runs_pret _ TyU32).
Qed.
Lemma E_type n : E (parse_type first n) (fun m _ => parse_type counter m).
Proof. apply (E_rel n). intros. use4 (@rel_type). assumption. Qed.
#[local] Hint Resolve R_type E_type : wr wx.
Lemma tuple_tail n : (forall i, i <= n -> V cut [Less] (parse_type first i) (fun m _ => parse_type counter m)) ->
  V cut [] (parse_item_list first n Less Greater (parse_type first n)) (fun m _ => parse_item_list counter m Less Greater (parse_type counter m)).
Proof.
  intros IH.
  assert (H : V cut [] (parse_item_list first n Less Greater (parse_type first (Nat.min n n))) (fun m _ => parse_item_list counter m Less Greater (parse_type counter m))).
  { apply (V_list (fun i => parse_type first (Nat.min i n)) (fun m => parse_type counter m) [Less] Greater).
    - intros i m L. use4 (@rel_type). lia.
    - intros i. apply IH. lia.
    - nin.
    - discriminate.
    - sat.
    - sat. }
  now rewrite Nat.min_id in H.
Qed.
Lemma V_type n : V cut [Less] (parse_type first n) (fun m _ => parse_type counter m).
Proof.
  induction n as [n IH] using (well_founded_induction lt_wf). destruct n as [|n]; [apply V_pdiverge|]. cbn [parse_type].
  eapply V_map; [intros d; apply (runs_S _ _ (fun m _ => type_body counter (parse_type counter m) m) _ (fun m m' s => eq_refl))|].
  pose proof (E_type n) as HE. pose proof (IH n ltac:(lia)) as HV. pose proof R_type as HC.
  assert (HT : forall i, i <= n -> V cut [Less] (parse_type first i) (fun m _ => parse_type counter m)) by (intros i L; apply IH; lia).
  pose proof (tuple_tail n HT) as HTup. clear IH HT.
  pose proof (V_stream _ _ HE HV HC) as H1. pose proof (V_result _ _ HE HV HC) as H2. pose proof (V_future _ _ HE HV HC) as H3.
  pose proof (V_list_type _ _ HE HV HC) as H4. pose proof (V_option _ _ HE HV HC) as H5.
  unfold type_body. apply (V_handled _ _ _ (fun m _ => _)). apply (V_next cut (fun _ => cut)); [comp_next (tok "u32") | | keep].
  assert (Same : forall p q, E p q -> V cut [Less] p q -> V cut [Less] (plet ty := p in pret ty) (fun m m' => plet ty := (q m m' : parser cst wtype) in pret ty)).
  { intros p q HE' HV'. apply (V_bind cut cut cut [Less] _ _ q); [exact HE' | exact HV' | v | | auto | intros; now apply cut_app].
    intros a. exists []. split; [side|]. split; [apply runs_pret | side]. }
  assert (T : V cut [Less] (parse_tuple first (parse_type first n) n) (fun m _ => parse_tuple counter (parse_type counter m) m)).
  { unfold parse_tuple. apply (V_handled _ _ _ (fun m _ => _)).
    apply (V_bind cut cut cut [] _ _ (fun m _ => _)); [ | exact HTup | v | | auto | intros; now apply cut_app].
    - apply (E_rel n). intros. use4 (@rel_item_list); [assumption|]. use4 (@rel_type). assumption.
    - intros a. exists []. split; [side|]. split; [apply runs_pret | side]. }
  assert (RT : forall i m, i <= m -> rel4 _ (parse_type first i) (parse_type counter m)) by (intros; use4 (@rel_type); assumption).
  intros [k w]. cbn [fst snd]. destruct k; try apply V_pret;
    try (apply (Same _ (fun m _ => _)); [|assumption]; unfold parse_stream, parse_result, parse_future, parse_list, parse_option, parse_tuple; apply (E_handled _ (fun m _ => _)); try (unfold parse_two; ext)).
  all: try v.
  apply (E_bind _ (fun m _ => _)); [|ext]. apply (E_rel n). intros. use4 (@rel_item_list); auto.
Qed.
#[local] Hint Resolve V_type : wv.
(** Functions *)
Lemma E_parameter n : E (parse_parameter first n) (fun m _ => parse_parameter counter m).
Proof. apply (E_rel n). intros. use4 (@rel_parameter). assumption. Qed.
Lemma V_parameter n : V cut [Less] (parse_parameter first n) (fun m _ => parse_parameter counter m).
Proof. unfold parse_parameter. v. Qed.
Lemma R_parameter : runs [Less] (fun m _ => parse_parameter counter m) [name_a; tok ":"; tok "u32"].
Proof. unfold parse_parameter. apply runs_handled. apply runs_id; [reflexivity|]. intros. apply runs_exp; [reflexivity|]. change [tok "u32"] with ([tok "u32"] ++ []). crun. Qed.
Lemma E_parameter' n : E (parse_parameter first n) (fun _ m => parse_parameter counter m).
Proof. apply (E_rel n). intros. use4 (@rel_parameter). assumption. Qed.
Lemma V_parameter' n : V cut [Less] (parse_parameter first n) (fun _ m => parse_parameter counter m).
Proof. eapply V_map; [intros d; apply runs_swap | apply V_parameter]. Qed.
#[local] Hint Resolve E_parameter V_parameter E_parameter' V_parameter' : wx wv.
Lemma R_parameters_loop : runs [] (fun m m' => parameters_loop counter m (parse_parameter counter m')) [tok ")"].
Proof. apply (runs_S _ _ _ _ (fun m m' s => eq_refl)). apply runs_eat; [reflexivity | apply runs_pret]. Qed.
Lemma E_parameters_loop j n : E (parameters_loop first j (parse_parameter first n)) (fun m m' => parameters_loop counter m (parse_parameter counter m')).
Proof. apply (E_rel (Nat.max j n)). intros m m' L L'. use4 (@rel_parameters_loop); [lia|]. use4 (@rel_parameter). lia. Qed.
#[local] Hint Resolve R_parameters_loop E_parameters_loop : wr wx.
Lemma V_parameters_loop j n : V cut [] (parameters_loop first j (parse_parameter first n)) (fun m m' => parameters_loop counter m (parse_parameter counter m')).
Proof.
  induction j as [|j IH]; [apply V_pdiverge|]. cbn [parameters_loop]. eapply V_map; [intros d; apply (runs_S _ _ _ _ (fun m m' s => eq_refl))|].
  apply (V_eat cut cut); [eexists; split; [|eapply (runs_eat _ _ _ (tok ")")); [side | crun]]; side | v | keep |].
  apply (V_bind cut cut cut [Less] _ _ (fun _ m' => _)); [ext | v | | | auto | intros; now apply cut_app].
  - intros a. apply (V_peek cut); [comp_peek (tok ")")|]. v.
  - intros a. eexists; split; [|split; [eapply (runs_peek _ _ (CloseParen, txt ")")); cbn [fst]; crun|]]; side.
Qed.
Lemma R_parameters : runs [] (fun m _ => parse_parameters counter m) [tok "("; tok ")"].
Proof. unfold parse_parameters. apply runs_exp; [reflexivity|]. apply (runs_diag _ (fun m m' => parameters_loop counter m (parse_parameter counter m'))), R_parameters_loop. Qed.
Lemma V_parameters n : V cut [] (parse_parameters first n) (fun m _ => parse_parameters counter m).
Proof.
  unfold parse_parameters. apply (V_exp cut cut); [| | keep].
  - exists [tok "("; tok ")"]. split; [side | exact R_parameters].
  - eapply V_map; [intros d; apply (runs_diag _ (fun m m' => parameters_loop counter m (parse_parameter counter m'))) | apply V_parameters_loop].
Qed.
Lemma E_parameters n : E (parse_parameters first n) (fun m _ => parse_parameters counter m).
Proof. apply (E_rel n). intros. use4 (@rel_parameters). assumption. Qed.
#[local] Hint Resolve R_parameters V_parameters E_parameters : wr wv wx.
Ltac vb b := apply (V_bind cut cut cut b); [ext | try v | try v | intros ?; eexists; split; [|split; [crun|]]; side | auto | intros; apply cut_app; assumption].
Lemma V_func n : V cut [RightArrow; Less] (parse_func first n) (fun m _ => parse_func counter m).
Proof.
  unfold parse_func. apply (V_handled _ _ _ (fun m _ => _)). apply (V_exp cut cut); [comp | | keep]. vb (@nil toktype).
  intros ps. apply (V_eat cut cut); [comp | | keep | cbv iota; vb (@nil toktype)].
  cbv iota. apply (V_bind cut cut cut [Less]); [ext | | v | intros ?; eexists; split; [|split; [crun|]]; side | auto | intros; apply cut_app; assumption].
  apply (V_peek cut); [|v]. exists [tok "("; tok ")"]. split; [side|]. apply runs_peek. change (kind_eqb (fst (tok "(")) OpenParen) with true. cbv iota.
  change [tok "("; tok ")"] with ([tok "("; tok ")"] ++ []). crun.
Qed.
Lemma R_func : runs [RightArrow; Less] (fun m _ => parse_func counter m) [tok "func"; tok "("; tok ")"].
Proof.
  unfold parse_func. apply runs_handled. apply runs_exp; [reflexivity|]. change [tok "("; tok ")"] with ([tok "("; tok ")"] ++ []).
  eapply runs_bind; [exact R_parameters | intros ps | side]. apply runs_pass; [side|]. change (@nil tk) with (@nil tk ++ []). crun.
Qed.
Lemma E_func n : E (parse_func first n) (fun m _ => parse_func counter m).
Proof. apply (E_rel n). intros. use4 (@rel_func). assumption. Qed.
#[local] Hint Resolve R_func V_func E_func : wr wv wx.
Lemma V_func_item n : V cut [] (parse_func_item first n) (fun m _ => parse_func_item counter m).
Proof. unfold parse_func_item. v. Qed.
Lemma E_func_item n : E (parse_func_item first n) (fun m _ => parse_func_item counter m).
Proof. apply (E_rel n). intros. use4 (@rel_func_item). assumption. Qed.
#[local] Hint Resolve V_func_item E_func_item : wv wx.
(** Resources *)
Lemma V_method n : V cut [] (parse_method first n) (fun m _ => parse_method counter m).
Proof.
  apply (V_eq _ _ _ _ _ (f_method n)). eapply V_map; [intros d; apply (runs_eq _ _ (fun m _ => method_direct counter m)); intros; apply c_method|].
  unfold method_direct. v.
Qed.
Lemma E_method n : E (parse_method first n) (fun m _ => parse_method counter m).
Proof. apply (E_rel n). intros. now apply rel4_method. Qed.
Lemma E_method' n : E (parse_method first n) (fun _ m => parse_method counter m).
Proof. apply (E_rel n). intros. now apply rel4_method. Qed.
Lemma V_method' n : V cut [] (parse_method first n) (fun _ m => parse_method counter m).
Proof. eapply V_map; [intros d; apply runs_swap | apply V_method]. Qed.
#[local] Hint Resolve E_method' V_method' : wx wv.
Lemma R_methods : runs [] (fun m m' => methods_loop counter m (parse_method counter m')) [tok "}"].
Proof.
  apply (runs_S _ _ _ _ (fun m m' s => eq_refl)). apply runs_peek. change (kind_eqb (fst (tok "}")) CloseBrace) with true. cbv iota.
  apply runs_exp; [reflexivity | apply runs_pret].
Qed.
Lemma E_methods j n : E (methods_loop first j (parse_method first n)) (fun m m' => methods_loop counter m (parse_method counter m')).
Proof. apply (E_rel (Nat.max j n)). intros m m' L L'. use4m (@rel_methods_loop); [lia|]. apply rel4_method. lia. Qed.
#[local] Hint Resolve R_methods E_methods : wr wx.
Lemma V_methods j n : V cut [] (methods_loop first j (parse_method first n)) (fun m m' => methods_loop counter m (parse_method counter m')).
Proof.
  induction j as [|j IH]; [apply V_pdiverge|]. cbn [methods_loop].
  assert (C [] (fun m m' => methods_loop counter m (parse_method counter m'))) as HC by (exists [tok "}"]; split; [side | exact R_methods]).
  eapply V_map; [intros d; apply (runs_S _ _ _ _ (fun m m' s => eq_refl))|].
  apply (V_peek cut); [exists [tok "}"]; split; [side|]|v].
  apply runs_peek. change (kind_eqb (fst (tok "}")) CloseBrace) with true. cbv iota. crun.
Qed.
Lemma E_methods1 n : E (methods_loop first n (parse_method first n)) (fun m _ => methods_loop counter m (parse_method counter m)).
Proof. apply (E_rel n). intros m m' L L'. use4m (@rel_methods_loop); [lia|]. apply rel4_method. lia. Qed.
Lemma V_methods1 n : V cut [] (methods_loop first n (parse_method first n)) (fun m _ => methods_loop counter m (parse_method counter m)).
Proof. eapply V_map; [intros d; apply (runs_diag _ (fun m m' => methods_loop counter m (parse_method counter m'))) | apply V_methods]. Qed.
Lemma R_methods1 : runs [] (fun m _ => methods_loop counter m (parse_method counter m)) [tok "}"].
Proof. apply (runs_diag _ (fun m m' => methods_loop counter m (parse_method counter m'))), R_methods. Qed.
#[local] Hint Resolve R_methods1 V_methods1 E_methods1 : wr wv wx.
Lemma V_resource n : V cut [] (parse_resource first n) (fun m _ => parse_resource counter m).
Proof.
  unfold parse_resource. apply (V_handled _ _ _ (fun m _ => _)).
  assert (X : forall id, runs [] (fun m _ => plet t := pk counter in
    plet ms := match fst t with
       | Semicolon => exp counter Semicolon ;;> pret []
       | OpenBrace => exp counter OpenBrace ;;> methods_loop counter m (parse_method counter m)
       | _ => pret []
       end in pret (IResource id ms)) [tok ";"]).
  { intros id. apply runs_peek. cbn [fst tok]. change [tok ";"] with ([tok ";"] ++ []). change (fst (tok ";")) with Semicolon. crun. }
  apply (V_exp cut cut); [exists [tok "resource"; name_a; tok ";"]; split; [side | apply runs_exp; [side|]; apply runs_id; [side | exact X]] | | keep].
  apply (V_id cut cut); [exists [name_a; tok ";"]; split; [side | apply runs_id; [side | exact X]] | | keep].
  intros id. apply (V_peek cut); [exists [tok ";"]; split; [side | apply X]|].
  intros t. apply (V_bind cut cut cut []); [ext | v | v | intros ?; eexists; split; [|split; [crun|]]; side | auto | intros; apply cut_app; assumption].
Qed.
(** Other definitions *)
Lemma E_resource n : E (parse_resource first n) (fun m _ => parse_resource counter m).
Proof. apply (E_rel n). intros. use4m (@rel_resource). assumption. Qed.
#[local] Hint Resolve V_resource E_resource : wv wx.
Lemma V_fields_one n : V cut [Less] (parse_field first n) (fun m _ => parse_field counter m).
Proof. unfold parse_field. v. Qed.
Lemma rel4_field n m : n <= m -> rel4 _ (parse_field first n) (parse_field counter m).
Proof. use4m (@rel_field). Qed.
Lemma R_fields : runs [] (fun m _ => parse_item_list counter m OpenBrace CloseBrace (parse_field counter m)) [wd OpenBrace; wd CloseBrace].
Proof. list_of (@R_list) (fun n : nat => parse_field first n) (fun m : nat => parse_field counter m) [Less] CloseBrace rel4_field V_fields_one. reflexivity. Qed.
Lemma V_fields n : V cut [] (parse_item_list first n OpenBrace CloseBrace (parse_field first n)) (fun m _ => parse_item_list counter m OpenBrace CloseBrace (parse_field counter m)).
Proof. list_of (@V_list) (fun n : nat => parse_field first n) (fun m : nat => parse_field counter m) [Less] CloseBrace rel4_field V_fields_one. sat. Qed.
Lemma E_fields n : E (parse_item_list first n OpenBrace CloseBrace (parse_field first n)) (fun m _ => parse_item_list counter m OpenBrace CloseBrace (parse_field counter m)).
Proof. apply (E_rel n). intros. use4 (@rel_item_list); [assumption | now apply (rel4_field n m)]. Qed.
#[local] Hint Resolve R_fields V_fields E_fields : wr wv wx.
Lemma V_cases_one n : V cut [OpenParen] (parse_case first n) (fun m _ => parse_case counter m).
Proof. unfold parse_case. v. Qed.
Lemma rel4_case n m : n <= m -> rel4 _ (parse_case first n) (parse_case counter m).
Proof. use4m (@rel_case). Qed.
Lemma R_cases : runs [] (fun m _ => parse_item_list counter m OpenBrace CloseBrace (parse_case counter m)) [wd OpenBrace; wd CloseBrace].
Proof. list_of (@R_list) (fun n : nat => parse_case first n) (fun m : nat => parse_case counter m) [OpenParen] CloseBrace rel4_case V_cases_one. reflexivity. Qed.
Lemma V_cases n : V cut [] (parse_item_list first n OpenBrace CloseBrace (parse_case first n)) (fun m _ => parse_item_list counter m OpenBrace CloseBrace (parse_case counter m)).
Proof. list_of (@V_list) (fun n : nat => parse_case first n) (fun m : nat => parse_case counter m) [OpenParen] CloseBrace rel4_case V_cases_one. sat. Qed.
Lemma E_cases n : E (parse_item_list first n OpenBrace CloseBrace (parse_case first n)) (fun m _ => parse_item_list counter m OpenBrace CloseBrace (parse_case counter m)).
Proof. apply (E_rel n). intros. use4 (@rel_item_list); [assumption | now apply (rel4_case n m)]. Qed.
#[local] Hint Resolve R_cases V_cases E_cases : wr wv wx.
Lemma V_labels_one (n : nat) : V cut [] (parse_enum_case first) (fun _ _ => parse_enum_case counter).
Proof. unfold parse_enum_case. v. Qed.
Lemma rel4_enum_case (n m : nat) : n <= m -> rel4 _ (parse_enum_case first) (parse_enum_case counter).
Proof. intros _. use4m (@rel_enum_case). Qed.
Lemma R_labels : runs [] (fun m _ => parse_item_list counter m OpenBrace CloseBrace (parse_enum_case counter)) [wd OpenBrace; wd CloseBrace].
Proof. list_of (@R_list) (fun n : nat => parse_enum_case first) (fun m : nat => parse_enum_case counter) (@nil toktype) CloseBrace rel4_enum_case V_labels_one. reflexivity. Qed.
Lemma V_labels n : V cut [] (parse_item_list first n OpenBrace CloseBrace (parse_enum_case first)) (fun m _ => parse_item_list counter m OpenBrace CloseBrace (parse_enum_case counter)).
Proof. list_of (@V_list) (fun n : nat => parse_enum_case first) (fun m : nat => parse_enum_case counter) (@nil toktype) CloseBrace rel4_enum_case V_labels_one. sat. Qed.
Lemma E_labels n : E (parse_item_list first n OpenBrace CloseBrace (parse_enum_case first)) (fun m _ => parse_item_list counter m OpenBrace CloseBrace (parse_enum_case counter)).
Proof. apply (E_rel n). intros. use4 (@rel_item_list); [assumption | now apply (rel4_enum_case n m)]. Qed.
#[local] Hint Resolve R_labels V_labels E_labels : wr wv wx.
Lemma V_flag_names_one (n : nat) : V cut [] (plet id := parse_id first in pret id) (fun _ _ => plet id := parse_id counter in pret id).
Proof. v. Qed.
Lemma rel4_flag (n m : nat) : n <= m -> rel4 _ (plet id := parse_id first in pret id) (plet id := parse_id counter in pret id).
Proof. intros _. direct4. Qed.
Lemma R_flag_names : runs [] (fun m _ => parse_item_list counter m OpenBrace CloseBrace (plet id := parse_id counter in pret id)) [wd OpenBrace; wd CloseBrace].
Proof. list_of (@R_list) (fun n : nat => plet id := parse_id first in pret id) (fun m : nat => plet id := parse_id counter in pret id) (@nil toktype) CloseBrace rel4_flag V_flag_names_one. reflexivity. Qed.
Lemma V_flag_names n : V cut [] (parse_item_list first n OpenBrace CloseBrace (plet id := parse_id first in pret id)) (fun m _ => parse_item_list counter m OpenBrace CloseBrace (plet id := parse_id counter in pret id)).
Proof. list_of (@V_list) (fun n : nat => plet id := parse_id first in pret id) (fun m : nat => plet id := parse_id counter in pret id) (@nil toktype) CloseBrace rel4_flag V_flag_names_one. sat. Qed.
Lemma E_flag_names n : E (parse_item_list first n OpenBrace CloseBrace (plet id := parse_id first in pret id)) (fun m _ => parse_item_list counter m OpenBrace CloseBrace (plet id := parse_id counter in pret id)).
Proof. apply (E_rel n). intros. use4 (@rel_item_list); [assumption | now apply (rel4_flag n m)]. Qed.
#[local] Hint Resolve R_flag_names V_flag_names E_flag_names : wr wv wx.
Lemma V_record n : V cut [] (parse_record first n) (fun m _ => parse_record counter m).
Proof. unfold parse_record. v. Qed.
Lemma E_record n : E (parse_record first n) (fun m _ => parse_record counter m).
Proof. apply (E_rel n). intros. use4m (@rel_record). assumption. Qed.
#[local] Hint Resolve V_record E_record : wv wx.
Lemma V_flags n : V cut [] (parse_flags first n) (fun m _ => parse_flags counter m).
Proof. unfold parse_flags. v. Qed.
Lemma E_flags n : E (parse_flags first n) (fun m _ => parse_flags counter m).
Proof. apply (E_rel n). intros. use4m (@rel_flags). assumption. Qed.
#[local] Hint Resolve V_flags E_flags : wv wx.
Lemma V_variant n : V cut [] (parse_variant first n) (fun m _ => parse_variant counter m).
Proof. unfold parse_variant. v. Qed.
Lemma E_variant n : E (parse_variant first n) (fun m _ => parse_variant counter m).
Proof. apply (E_rel n). intros. use4m (@rel_variant). assumption. Qed.
#[local] Hint Resolve V_variant E_variant : wv wx.
Lemma V_enum n : V cut [] (parse_enum first n) (fun m _ => parse_enum counter m).
Proof. unfold parse_enum. v. Qed.
Lemma E_enum n : E (parse_enum first n) (fun m _ => parse_enum counter m).
Proof. apply (E_rel n). intros. use4m (@rel_enum). assumption. Qed.
#[local] Hint Resolve V_enum E_enum : wv wx.
Lemma V_type_item n : V cut [] (parse_type_item first n) (fun m _ => parse_type_item counter m).
Proof. unfold parse_type_item. v. Qed.
Lemma E_type_item n : E (parse_type_item first n) (fun m _ => parse_type_item counter m).
Proof. apply (E_rel n). intros. use4m (@rel_type_item). assumption. Qed.
#[local] Hint Resolve V_type_item E_type_item : wv wx.
(** Items *)
Lemma R_type_item : runs [] (fun m _ => parse_type_item counter m) [tok "type"; name_a; tok "="; tok "u32"; tok ";"].
Proof.
  unfold parse_type_item. apply runs_handled, runs_exp; [side|]. apply runs_id; [side|]. intros. apply runs_exp; [side|].
  change [tok "u32"; tok ";"] with ([tok "u32"] ++ [tok ";"]). eapply runs_bind; [exact R_type | intros | side]. crun.
Qed.
Lemma R_func_item : runs [] (fun m _ => parse_func_item counter m) [name_a; tok ":"; tok "func"; tok "("; tok ")"; tok ";"].
Proof.
  unfold parse_func_item. apply runs_handled, runs_id; [side|]. intros. apply runs_exp; [side|].
  change [tok "func"; tok "("; tok ")"; tok ";"] with ([tok "func"; tok "("; tok ")"] ++ [tok ";"]). eapply runs_bind; [exact R_func | intros | side]. crun.
Qed.
#[local] Hint Resolve R_type_item R_func_item : wr.
Lemma again {A} b (q : nat -> nat -> parser cst A) d : runs b q d -> runs b (fun m m' => plet x := q m m' in pret x) d.
Proof. intros H. rewrite <- (app_nil_r d). eapply runs_bind; [exact H | intros; apply runs_pret | side]. Qed.
Lemma again' {A B} b (q : nat -> nat -> parser cst A) (f : A -> B) d : runs b q d -> runs b (fun m m' => plet x := q m m' in pret (f x)) d.
Proof. intros H. rewrite <- (app_nil_r d). eapply runs_bind; [exact H | intros; apply runs_pret | side]. Qed.
Lemma V_type_def n : V cut [] (parse_type_def first n) (fun m _ => parse_type_def counter m).
Proof.
  unfold parse_type_def. apply (V_handled _ _ _ (fun m _ => _)). apply (V_peek cut); [|v].
  exists [tok "type"; name_a; tok "="; tok "u32"; tok ";"]. split; [side|]. apply runs_peek. change (fst (tok "type")) with KType. cbv iota.
  apply again, R_type_item.
Qed.
Lemma E_type_def n : E (parse_type_def first n) (fun m _ => parse_type_def counter m).
Proof. apply (E_rel n). intros. use4m (@rel_type_def). assumption. Qed.
#[local] Hint Resolve V_type_def E_type_def : wv wx.
Lemma E_use n : E (parse_use first n) (fun m _ => parse_use counter m).
Proof. apply (E_rel n). intros. use4 (@rel_use). assumption. Qed.
#[local] Hint Resolve V_use E_use : wv wx.
Lemma V_interface_item n : V cut [] (parse_interface_item first n) (fun m _ => parse_interface_item counter m).
Proof.
  unfold parse_interface_item. apply (V_handled _ _ _ (fun m _ => _)). apply (V_peek cut); [|v].
  exists [name_a; tok ":"; tok "func"; tok "("; tok ")"; tok ";"]. split; [side|]. apply runs_peek. cbn [fst name_a]. cbv iota.
  apply again', R_func_item.
Qed.
Lemma rel4_interface_item n m : n <= m -> rel4 _ (parse_interface_item first n) (parse_interface_item counter m).
Proof. use4m (@rel_interface_item). Qed.
Lemma R_iitems : runs [] (fun m _ => until_eat counter m CloseBrace (parse_interface_item counter m)) [tok "}"].
Proof. apply (runs_diag _ (fun m m' => until_eat counter m CloseBrace (parse_interface_item counter m'))). list_of (@R_until) (fun n : nat => parse_interface_item first n) (fun m : nat => parse_interface_item counter m) (@nil toktype) CloseBrace rel4_interface_item V_interface_item. Qed.
Lemma V_iitems n : V cut [] (until_eat first n CloseBrace (parse_interface_item first n)) (fun m _ => until_eat counter m CloseBrace (parse_interface_item counter m)).
Proof.
  eapply V_map; [intros d; apply (runs_diag _ (fun m m' => until_eat counter m CloseBrace (parse_interface_item counter m')))|].
  list_of (@V_until) (fun n : nat => parse_interface_item first n) (fun m : nat => parse_interface_item counter m) (@nil toktype) CloseBrace rel4_interface_item V_interface_item.
Qed.
Lemma E_iitems n : E (until_eat first n CloseBrace (parse_interface_item first n)) (fun m _ => until_eat counter m CloseBrace (parse_interface_item counter m)).
Proof. apply (E_rel n). intros. use4m (@rel_until); [assumption | now apply (rel4_interface_item n m)]. Qed.
#[local] Hint Resolve R_iitems V_iitems E_iitems : wr wv wx.
Lemma V_interface_items n : V cut [] (parse_interface_items first n) (fun m _ => parse_interface_items counter m).
Proof. unfold parse_interface_items. v. Qed.
Lemma E_interface_items n : E (parse_interface_items first n) (fun m _ => parse_interface_items counter m).
Proof. apply (E_rel n). intros. use4m (@rel_interface_items). assumption. Qed.
#[local] Hint Resolve V_interface_items E_interface_items : wv wx.
Lemma R_interface_items : runs [] (fun m _ => parse_interface_items counter m) [tok "{"; tok "}"].
Proof. unfold parse_interface_items. apply runs_handled, runs_exp; [side | exact R_iitems]. Qed.
#[local] Hint Resolve R_interface_items : wr.
Lemma V_interface n : V cut [] (parse_interface first n) (fun m _ => parse_interface counter m).
Proof. unfold parse_interface. v. Qed.
Lemma E_interface n : E (parse_interface first n) (fun m _ => parse_interface counter m).
Proof. apply (E_rel n). intros. use4m (@rel_interface). assumption. Qed.
#[local] Hint Resolve V_interface E_interface : wv wx.
(** Worlds *)
Lemma V_extern n : V cut [] (parse_extern first n) (fun m _ => parse_extern counter m).
Proof.
  apply (V_eq _ _ _ _ _ (f_extern n)). eapply V_map; [intros d; apply (runs_eq _ _ (fun m _ => extern_direct counter m)); intros; apply c_extern|].
  unfold extern_direct. apply (V_handled _ _ _ (fun m _ => _)). apply (V_id cut cut); [comp | intros id | keep].
  apply (V_eat cut cut); [comp | cbv iota | keep | v]. apply (V_peek cut); [|v].
  exists [tok "func"; tok "("; tok ")"; tok ";"]. split; [side|]. apply runs_peek. change (fst (tok "func")) with KFunc. cbv iota.
  change [tok "func"; tok "("; tok ")"; tok ";"] with ([tok "func"; tok "("; tok ")"] ++ [tok ";"]). eapply runs_bind; [exact R_func | intros | side]. crun.
Qed.
Lemma E_extern n : E (parse_extern first n) (fun m _ => parse_extern counter m).
Proof. apply (E_rel n). intros. now apply rel4_extern. Qed.
Lemma R_extern : runs [] (fun m _ => parse_extern counter m) [name_a; tok ";"].
Proof.
  apply (runs_eq _ _ (fun m _ => extern_direct counter m)); [intros; apply c_extern|]. unfold extern_direct. crun.
Qed.
#[local] Hint Resolve R_extern V_extern E_extern : wr wv wx.
Lemma V_export n : V cut [] (parse_export first n) (fun m _ => parse_export counter m).
Proof. unfold parse_export. v. Qed.
Lemma E_export n : E (parse_export first n) (fun m _ => parse_export counter m).
Proof. apply (E_rel n). intros. use4e (@rel_export). assumption. Qed.
#[local] Hint Resolve V_export E_export : wv wx.
Lemma V_import n : V cut [] (parse_import first n) (fun m _ => parse_import counter m).
Proof. unfold parse_import. v. Qed.
Lemma E_import n : E (parse_import first n) (fun m _ => parse_import counter m).
Proof. apply (E_rel n). intros. use4e (@rel_import). assumption. Qed.
#[local] Hint Resolve V_import E_import : wv wx.
Lemma V_include_name (n : nat) : V cut [] (parse_include_name first) (fun _ _ => parse_include_name counter).
Proof. unfold parse_include_name. v. Qed.
Lemma rel4_include_name (n m : nat) : n <= m -> rel4 _ (parse_include_name first) (parse_include_name counter).
Proof. intros _. use4e (@rel_include_name). Qed.
Lemma R_includes : runs [] (fun m _ => until_eat counter m CloseBrace (parse_include_name counter)) [tok "}"].
Proof. apply (runs_diag _ (fun m m' => until_eat counter m CloseBrace (parse_include_name counter))). list_of (@R_until) (fun n : nat => parse_include_name first) (fun m : nat => parse_include_name counter) (@nil toktype) CloseBrace rel4_include_name V_include_name. Qed.
Lemma V_includes n : V cut [] (until_eat first n CloseBrace (parse_include_name first)) (fun m _ => until_eat counter m CloseBrace (parse_include_name counter)).
Proof.
  eapply V_map; [intros d; apply (runs_diag _ (fun m m' => until_eat counter m CloseBrace (parse_include_name counter)))|].
  list_of (@V_until) (fun n : nat => parse_include_name first) (fun m : nat => parse_include_name counter) (@nil toktype) CloseBrace rel4_include_name V_include_name. exact n.
Qed.
Lemma E_includes n : E (until_eat first n CloseBrace (parse_include_name first)) (fun m _ => until_eat counter m CloseBrace (parse_include_name counter)).
Proof. apply (E_rel n). intros. use4m (@rel_until); [assumption | now apply (rel4_include_name n m)]. Qed.
#[local] Hint Resolve R_includes V_includes E_includes : wr wv wx.
Lemma include_cut t c : fst t = KInclude -> path_part c \/ cut c -> cut (t :: c).
Proof. intros H [P|P]; [|now apply cut_cons]. exists [], t, c. auto. Qed.
Lemma V_include n : V cut [] (parse_include first n) (fun m _ => parse_include counter m).
Proof.
  unfold parse_include. apply (V_handled _ _ _ (fun _ _ => _)). apply (V_exp cut (fun c => path_part c \/ cut c)); [comp | | exact include_cut].
  apply (V_bind _ path_part cut [Colon] _ _ (fun _ _ => _)); [ext | exact V_use_path | v | | auto | intros; right; now apply cut_app].
  intros ?. eexists. split; [|split; [crun|]]; side.
Qed.
Lemma E_include n : E (parse_include first n) (fun m _ => parse_include counter m).
Proof. apply (E_rel n). intros. use4e (@rel_include). assumption. Qed.
#[local] Hint Resolve V_include E_include : wv wx.
Lemma V_world_item n : V cut [] (parse_world_item first n) (fun m _ => parse_world_item counter m).
Proof.
  unfold parse_world_item. apply (V_handled _ _ _ (fun m _ => _)). apply (V_peek cut); [|v].
  exists [tok "resource"; name_a; tok ";"]. split; [side|]. apply runs_peek. change (fst (tok "resource")) with KResource. cbv iota.
  apply again'. unfold parse_resource. apply runs_handled, runs_exp; [side|]. apply runs_id; [side|]. intros id. apply runs_peek.
  change [tok ";"] with ([tok ";"] ++ []). change (fst (tok ";")) with Semicolon. crun.
Qed.
Lemma rel4_world_item n m : n <= m -> rel4 _ (parse_world_item first n) (parse_world_item counter m).
Proof. use4e (@rel_world_item). Qed.
Lemma R_witems : runs [] (fun m _ => until_eat counter m CloseBrace (parse_world_item counter m)) [tok "}"].
Proof. apply (runs_diag _ (fun m m' => until_eat counter m CloseBrace (parse_world_item counter m'))). list_of (@R_until) (fun n : nat => parse_world_item first n) (fun m : nat => parse_world_item counter m) (@nil toktype) CloseBrace rel4_world_item V_world_item. Qed.
Lemma V_witems n : V cut [] (until_eat first n CloseBrace (parse_world_item first n)) (fun m _ => until_eat counter m CloseBrace (parse_world_item counter m)).
Proof.
  eapply V_map; [intros d; apply (runs_diag _ (fun m m' => until_eat counter m CloseBrace (parse_world_item counter m')))|].
  list_of (@V_until) (fun n : nat => parse_world_item first n) (fun m : nat => parse_world_item counter m) (@nil toktype) CloseBrace rel4_world_item V_world_item.
Qed.
Lemma E_witems n : E (until_eat first n CloseBrace (parse_world_item first n)) (fun m _ => until_eat counter m CloseBrace (parse_world_item counter m)).
Proof. apply (E_rel n). intros. use4m (@rel_until); [assumption | now apply (rel4_world_item n m)]. Qed.
#[local] Hint Resolve R_witems V_witems E_witems : wr wv wx.
Lemma V_world n : V cut [] (parse_world first n) (fun m _ => parse_world counter m).
Proof. unfold parse_world, parse_world_items. v. Qed.
Lemma E_world n : E (parse_world first n) (fun m _ => parse_world counter m).
Proof. apply (E_rel n). intros. use4e (@rel_world). assumption. Qed.
#[local] Hint Resolve V_world E_world : wv wx.
(** Files *)
Definition ends {A} (q : nat -> nat -> parser cst A) (d : list tk) : Prop :=
  exists N a, forall m m' n k w, N <= m -> N <= m' -> fst (q m m' (mkC d (Ends w) n k)) = Ok a.
Definition lost (k : toktype) (c : list tk) : Prop := (k = KUse /\ path_part c) \/ cut c.
Lemma lost_cut t c : lost (fst t) c -> cut (t :: c).
Proof. intros [[H P]|P]; [apply path_cut; auto | now apply cut_cons]. Qed.
Lemma lost_app k c t c' : lost (fst t) c' -> lost k (c ++ t :: c').
Proof. intros H. right. apply cut_app. now apply lost_cut. Qed.
Lemma E_top_use : E (parse_top_use first) (fun _ _ => parse_top_use counter).
Proof. apply (E_rel 0). intros. use4 (@rel_top_use). Qed.
Lemma E_ast_item n k : E (ast_item_after first n k) (fun _ m => ast_item_after counter m k).
Proof. apply (E_rel n). intros. use4e (@rel_ast_item). assumption. Qed.
Lemma E_world' n : E (parse_world first n) (fun _ m => parse_world counter m).
Proof. apply (E_rel n). intros. use4e (@rel_world). assumption. Qed.
Lemma E_interface' n : E (parse_interface first n) (fun _ m => parse_interface counter m).
Proof. apply (E_rel n). intros. use4m (@rel_interface). assumption. Qed.
Lemma V_ast_item n k : V (lost k) [Colon; KAs] (ast_item_after first n k) (fun _ m => ast_item_after counter m k).
Proof.
  unfold ast_item_after. destruct k; try apply V_pret.
  - apply (V_bind _ (fun c => path_part c \/ cut c) False1 [Colon; KAs] _ _ (fun _ _ => _)); [apply E_top_use | apply V_top_use | v | | unfold lost; intuition | intros ? ? []].
    intros a. exists []. split; [side|]. split; [apply runs_pret | side].
  - apply (V_bind _ cut False1 [] _ _ (fun _ m => _)); [apply E_interface' | eapply V_map; [intros d; apply runs_swap | apply V_interface] | v | | unfold lost; intuition | intros ? ? []].
    intros a. exists []. split; [side|]. split; [apply runs_pret | side].
  - apply (V_bind _ cut False1 [] _ _ (fun _ m => _)); [apply E_world' | eapply V_map; [intros d; apply runs_swap | apply V_world] | v | | unfold lost; intuition | intros ? ? []].
    intros a. exists []. split; [side|]. split; [apply runs_pret | side].
Qed.
Lemma loop_at_end m m' : ast_loop counter (S m) m' EndOfStream = pret [].
Proof. reflexivity. Qed.
Lemma ends_after k c d : runs [Colon; KAs] (fun _ m => ast_item_after counter m k) (c ++ d) -> ends (fun m m' => ast_loop counter m m' k) (c ++ d).
Proof.
  intros (N & a & R). destruct (kind_eqb k EndOfStream) eqn:K.
  - exists 1, []. intros m m' n i w L L'. destruct m; [lia|]. cbn [ast_loop]. rewrite K. reflexivity.
  - exists (S (S N)), [a]. intros m m' n i w L L'. destruct m as [|[|m]]; [lia|lia|]. cbn [ast_loop]. rewrite K, plet_eq.
    destruct (R m' m' [] (Ends w) n i ltac:(lia) ltac:(lia) ltac:(cbn; intuition discriminate)) as (n' & k' & X). rewrite app_nil_r in X. rewrite X.
    rewrite plet_eq. cbn [nxt s_next counter c_next c_ts c_end fst]. rewrite plet_eq. reflexivity.
Qed.
Lemma V_ast_loop j n k c : ast_loop first j n k (Some c) = (Diverge, None) ->
  lost k c \/ exists d, incl d vocab /\ ends (fun m m' => ast_loop counter m m' k) (c ++ d).
Proof.
  revert k c. induction j as [|j IH]; intros k c S; [discriminate|]. cbn [ast_loop] in S.
  destruct (kind_eqb k EndOfStream) eqn:K; [discriminate|]. rewrite plet_eq in S.
  destruct (ast_item_after first n k (Some c)) as [[a| | |] s] eqn:P; try discriminate.
  - destruct (E_ast_item n k c a s P) as (c' & N & -> & (c0 & ->) & Q). rewrite plet_eq, f_nxt in S. destruct c' as [|t c'].
    + right. exists []. split; [side|]. rewrite !app_nil_r in *. exists (Nat.max N 2), [a]. intros m m' i l w L L'. destruct m as [|[|m]]; [lia|lia|].
      cbn [ast_loop]. rewrite K, plet_eq. destruct (Q m' m' [] (Ends w) i l ltac:(lia) ltac:(lia)) as (n' & k' & X). rewrite app_nil_r in X. rewrite X.
      rewrite plet_eq. cbn [nxt s_next counter c_next c_ts c_end fst app]. rewrite plet_eq. reflexivity.
    + rewrite plet_eq in S. destruct (ast_loop first j n (fst t) (Some c')) as [[is| | |] s] eqn:P2; try discriminate. inversion S; subst s.
      destruct (IH _ _ P2) as [H|(d & I & (N2 & x & R))]; [left; now apply lost_app|]. right. exists d. split; [exact I|].
      exists (Datatypes.S (Nat.max N N2)), (a :: x). intros m m' i l w L L'. destruct m as [|m]; [lia|]. cbn [ast_loop]. rewrite K, plet_eq.
      destruct (Q m' m' d (Ends w) i l ltac:(lia) ltac:(lia)) as (n' & k' & ->). rewrite plet_eq. cbn [nxt s_next counter c_next c_ts c_end app].
      rewrite plet_eq. pose proof (R m m' (Datatypes.S n') (Datatypes.S n') w ltac:(lia) ltac:(lia)) as Y. cbn [fst c_n].
      destruct (ast_loop counter m m' (fst t) _) as [o z]. cbn in Y. subst o. reflexivity.
  - inversion S; subst s. destruct (V_ast_item n k c P) as [H|(d & I & R)]; [left; exact H|]. right. exists d. split; [exact I | now apply ends_after].
Qed.
Lemma E_package : E (parse_package first) (fun _ _ => parse_package counter).
Proof. apply (E_rel 0). intros. use4 (@rel_package). Qed.
Theorem viable n c : parse_ast first n (Some c) = (Diverge, None) ->
  cut c \/ exists d, incl d vocab /\ ends (fun m _ => parse_ast counter m) (c ++ d).
Proof.
  unfold parse_ast, handled. intros S. rewrite plet_eq, f_nxt in S. destruct c as [|t c].
  { right. exists []. split; [side|]. exists 1, {| as_package := None; as_items := [] |}. intros m m' i l w L L'. destruct m; [lia|]. reflexivity. }
  destruct (kind_eqb (fst t) KPackage) eqn:K.
  - rewrite plet_eq in S. destruct (parse_package first (Some c)) as [[p| | |] s] eqn:P; try discriminate.
    + destruct (E_package c p s P) as (c' & N & -> & (c0 & ->) & Q). rewrite plet_eq, f_nxt in S. destruct c' as [|u c'].
      * right. exists []. split; [side|]. exists (Nat.max N 1), {| as_package := Some p; as_items := [] |}. intros m m' i l w L L'. destruct m; [lia|].
        rewrite plet_eq. cbn [nxt s_next counter c_next c_ts c_end app]. rewrite K, plet_eq.
        destruct (Q m' m' [] (Ends w) (Datatypes.S i) (Datatypes.S i) ltac:(lia) ltac:(lia)) as (n' & k' & X). cbn [c_n]. rewrite !app_nil_r in *. rewrite X.
        reflexivity.
      * rewrite plet_eq in S. destruct (ast_loop first n n (fst u) (Some c')) as [[is| | |] s] eqn:P2; try discriminate. inversion S; subst s.
        destruct (V_ast_loop _ _ _ _ P2) as [H|(d & I & (N2 & x & R))]; [left; apply (cut_app (t :: c0)); now apply lost_cut|]. right. exists d. split; [exact I|].
        exists (Nat.max N N2), {| as_package := Some p; as_items := x |}. intros m m' i l w L L'.
        rewrite plet_eq. cbn [nxt s_next counter c_next c_ts c_end app]. rewrite K, plet_eq.
        destruct (Q m' m' d (Ends w) (Datatypes.S i) (Datatypes.S i) ltac:(lia) ltac:(lia)) as (n' & k' & X). cbn [c_n]. rewrite X.
        rewrite plet_eq. cbn [nxt s_next counter c_next c_ts c_end app c_n]. rewrite plet_eq.
        pose proof (R m m (Datatypes.S n') (Datatypes.S n') w ltac:(lia) ltac:(lia)) as Y. destruct (ast_loop counter m m (fst u) _) as [o z]. cbn in Y. subst o. reflexivity.
    + inversion S; subst s. destruct (V_package c P) as [H|(d & I & (N & a & R))]; [left; now apply cut_cons|]. right. exists d. split; [exact I|].
      exists (Nat.max N 1), {| as_package := Some a; as_items := [] |}. intros m m' i l w L L'. destruct m; [lia|].
      rewrite plet_eq. cbn [nxt s_next counter c_next c_ts c_end app]. rewrite K, plet_eq.
      destruct (R m' m' [] (Ends w) (Datatypes.S i) (Datatypes.S i) ltac:(lia) ltac:(lia) ltac:(cbn; tauto)) as (n' & k' & X). rewrite app_nil_r in X. cbn [c_n]. rewrite X.
      reflexivity.
  - rewrite plet_eq in S. destruct (ast_loop first n n (fst t) (Some c)) as [[is| | |] s] eqn:P2; try discriminate. inversion S; subst s.
    destruct (V_ast_loop _ _ _ _ P2) as [H|(d & I & (N2 & x & R))]; [left; now apply lost_cut|]. right. exists d. split; [exact I|].
    exists N2, {| as_package := None; as_items := x |}. intros m m' i l w L L'.
    rewrite plet_eq. cbn [nxt s_next counter c_next c_ts c_end app c_n]. rewrite K, plet_eq.
    pose proof (R m m (Datatypes.S i) (Datatypes.S i) w ltac:(lia) ltac:(lia)) as Y. destruct (ast_loop counter m m (fst t) _) as [o z]. cbn in Y. subst o. reflexivity.
Qed.
