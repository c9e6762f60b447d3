(** How far the WIT parser looks: the parser over a machine that counts the
    tokens taken and remembers the last one looked at, and over a machine
    that knows only the first tokens of a file. *)
From Coq Require Import Arith NArith ZArith String Ascii Bool List Lia.
From Verif Require Import GoBase M_Text M_WitLex M_ParseBase M_Strconv M_WitAst M_WitParse S_WitParse L_ParseBase L_WitSim L_WitRel.
Import ListNotations.
Open Scope nat_scope.
Open Scope parse_scope.

(** The tokens to come, how they end, the number of tokens taken, and the
    number of the token last looked at, counted from 1 *)
Record cst := mkC { c_ts : list tk; c_end : ending; c_n : nat; c_k : nat }.
Definition c_next : parser cst tk := fun s =>
  match c_ts s, c_end s with
  | t :: ts, e => (Ok t, mkC ts e (S (c_n s)) (S (c_n s)))
  | [], Ends w => (Ok (EndOfStream, w), mkC [] (Ends []) (S (c_n s)) (S (c_n s)))
  | [], Fails => (Err EOther, mkC [] Fails (c_n s) (S (c_n s)))
  end.
Definition c_peek : parser cst tk := fun s =>
  match c_ts s, c_end s with
  | t :: ts, e => (Ok t, mkC (t :: ts) e (c_n s) (S (c_n s)))
  | [], Ends w => (Ok (EndOfStream, w), mkC [] (Ends w) (c_n s) (S (c_n s)))
  | [], Fails => (Err EOther, mkC [] Fails (c_n s) (S (c_n s)))
  end.
Definition counter : source cst toktype := {| s_next := c_next; s_peek := c_peek |}.

(** The first tokens of a file; [None] after asking for more *)
Definition f_next : parser (option (list tk)) tk := fun s =>
  match s with Some (t :: ts) => (Ok t, Some ts) | _ => (Diverge, None) end.
Definition f_peek : parser (option (list tk)) tk := fun s =>
  match s with Some (t :: ts) => (Ok t, s) | _ => (Diverge, None) end.
Definition first : source (option (list tk)) toktype := {| s_next := f_next; s_peek := f_peek |}.

(** ** Reading without a clone: the same with one token of lookahead *)
Section Direct.
Context {L : Type}.
Variable src : source L toktype.
Definition method_direct (n : nat) : parser L method :=
  plet c := ate src KConstructor in
  if c then (plet ps := parse_parameters src n in exp src Semicolon ;;> pret (MConstructor ps))
  else (plet id := parse_id src in exp src Colon ;;>
        plet b := ate src KStatic in
        if b then (plet f := parse_func src n in exp src Semicolon ;;> pret (MStatic id f))
        else (plet f := parse_func src n in exp src Semicolon ;;> pret (MMethod [] {| fi_id := id; fi_type := f |}))).
Definition extern_direct (n : nat) : parser L extern :=
  handled (
    plet id := parse_id src in
    plet b := ate src Colon in
    if b then
      plet t := pk src in
      match fst t with
      | KFunc => plet f := parse_func src n in exp src Semicolon ;;> pret (EFunc id f)
      | KInterface => exp src KInterface ;;> plet is := parse_interface_items src n in pret (EInterface id is)
      | _ => perr
      end
    else exp src Semicolon ;;> pret (EUsePath {| up_id := id; up_package := None; up_name := [] |})).
End Direct.


Definition is_name (k : toktype) : bool := match k with Id | ExplicitId => true | _ => false end.

(** *** One step of the machines *)
Lemma f_id s : parse_id first s =
  match s with
  | Some (t :: ts) => if is_name (fst t) then (Ok (snd t), Some ts) else (Err EOther, Some ts)
  | _ => (Diverge, None)
  end.
Proof. destruct s as [[|[k v] ts]|]; try reflexivity. destruct k; reflexivity. Qed.
Lemma f_exp k s : exp first k s =
  match s with
  | Some (t :: ts) => if kind_eqb (fst t) k then (Ok tt, Some ts) else (Err EOther, Some ts)
  | _ => (Diverge, None)
  end.
Proof.
  destruct s as [[|[k' v] ts]|]; try reflexivity. unfold exp, expect, handled, pbind, unwrap. cbn.
  destruct (kind_eqb k' k); reflexivity.
Qed.
Lemma f_ate k s : ate first k s =
  match s with
  | Some (t :: ts) => if kind_eqb (fst t) k then (Ok true, Some ts) else (Ok false, Some (t :: ts))
  | _ => (Diverge, None)
  end.
Proof.
  destruct s as [[|[k' v] ts]|]; try reflexivity. unfold ate, eat, handled, pbind, unwrap. cbn.
  destruct (kind_eqb k' k) eqn:E; [|reflexivity]. unfold expect, handled, pbind, unwrap. cbn. rewrite E. reflexivity.
Qed.
Lemma f_pk s : pk first s = match s with Some (t :: ts) => (Ok t, Some (t :: ts)) | _ => (Diverge, None) end.
Proof. destruct s as [[|t ts]|]; reflexivity. Qed.
Lemma f_nxt s : nxt first s = match s with Some (t :: ts) => (Ok t, Some ts) | _ => (Diverge, None) end.
Proof. destruct s as [[|t ts]|]; reflexivity. Qed.

Lemma c_id s : parse_id counter s =
  match c_next s with
  | (Ok t, s') => if is_name (fst t) then (Ok (snd t), s') else (Err EOther, s')
  | (_, s') => (Err EOther, s')
  end.
Proof. destruct s as [[|[k v] ts] [w|] n i]; try reflexivity; destruct k; reflexivity. Qed.
Lemma c_exp k s : exp counter k s =
  match c_next s with
  | (Ok t, s') => if kind_eqb (fst t) k then (Ok tt, s') else (Err EOther, s')
  | (_, s') => (Err EOther, s')
  end.
Proof.
  unfold exp, expect, handled, pbind, unwrap. cbn [s_next counter].
  destruct s as [[|[k' v] ts] [w|] n i]; cbn; try reflexivity; destruct (kind_eqb _ k); reflexivity.
Qed.
Lemma c_ate k s : ate counter k s =
  match c_peek s with
  | (Ok t, s') => if kind_eqb (fst t) k then (Ok true, snd (c_next s)) else (Ok false, s')
  | (_, s') => (Err EOther, s')
  end.
Proof.
  unfold ate, eat, handled, pbind, unwrap. cbn [s_peek counter].
  destruct s as [[|[k' v] ts] [w|] n i]; cbn; try reflexivity;
    (destruct (kind_eqb _ k) eqn:E; [|reflexivity]; unfold expect, handled, pbind, unwrap; cbn; rewrite E; reflexivity).
Qed.

Lemma plet_eq {L A B} (p : parser L A) (f : A -> parser L B) l :
  pbind (unwrap p) f l = match p l with
                         | (Ok a, l') => f a l'
                         | (Err _, l') => (Panic, l')
                         | (Panic, l') => (Panic, l')
                         | (Diverge, l') => (Diverge, l')
                         end.
Proof. unfold pbind, unwrap. destruct (p l) as [[| | |] ?]; reflexivity. Qed.

(** The constructions of the parser respect equality of functions. *)
Lemma plet_ext {L A B} (p q : parser L A) (f g : A -> parser L B) l :
  p l = q l -> (forall a l', p l = (Ok a, l') -> f a l' = g a l') -> pbind (unwrap p) f l = pbind (unwrap q) g l.
Proof. intros E F. rewrite !plet_eq, <- E. destruct (p l) as [[a| | |] l'] eqn:P; auto. Qed.

Lemma f_method n s : parse_method first n s = method_direct first n s.
Proof.
  unfold parse_method, method_direct. apply plet_ext; [reflexivity|]. intros [|] l _; [reflexivity|].
  rewrite !plet_eq. unfold at_static, trial. rewrite plet_eq, f_id.
  destruct l as [[|t ts]|]; try reflexivity. destruct (is_name (fst t)) eqn:Hn; [|reflexivity].
  rewrite !plet_eq, f_exp. destruct ts as [|x ts]; try reflexivity. destruct (kind_eqb (fst x) Colon) eqn:Hx; [|reflexivity].
  rewrite !plet_eq, f_ate. destruct ts as [|y ts]; try reflexivity. destruct (kind_eqb (fst y) KStatic) eqn:Hy; cbn [pret]; [reflexivity|].
  unfold pret at 1. rewrite plet_eq. unfold parse_func_item, handled. rewrite plet_eq, f_id, Hn, plet_eq, f_exp, Hx, !plet_eq.
  destruct (parse_func first n (Some (y :: ts))) as [[f| | |] l']; try reflexivity.
  rewrite !plet_eq. destruct (exp first Semicolon l') as [[| | |] l'']; reflexivity.
Qed.
Lemma f_extern n s : parse_extern first n s = extern_direct first n s.
Proof.
  unfold parse_extern, extern_direct, handled. rewrite !plet_eq. unfold at_extern, trial. rewrite plet_eq, f_id.
  destruct s as [[|t ts]|]; try reflexivity. destruct (is_name (fst t)) eqn:Hn; [|reflexivity].
  rewrite !plet_eq, f_ate. destruct ts as [|x ts]; try reflexivity. destruct (kind_eqb (fst x) Colon) eqn:Hx.
  - rewrite !plet_eq, f_pk. destruct ts as [|y ts]; try reflexivity. destruct (fst y); reflexivity.
  - unfold pret at 1. rewrite plet_eq. unfold parse_use_path, handled. rewrite plet_eq, f_id, Hn, plet_eq, f_ate, Hx. unfold pret at 1.
    rewrite plet_eq. reflexivity.
Qed.

(** What follows does not depend on what was looked at before. *)
Definition unseen (s : cst) (k : nat) : cst := mkC (c_ts s) (c_end s) (c_n s) k.
Lemma c_func_unseen n s k : parse_func counter n (unseen s k) = parse_func counter n s.
Proof. unfold parse_func, handled. rewrite !plet_eq, !c_exp. destruct s as [ts e m i]. reflexivity. Qed.

Lemma c_method n s : parse_method counter n s = method_direct counter n s.
Proof.
  unfold parse_method, method_direct. apply plet_ext; [reflexivity|]. intros [|] l _; [reflexivity|].
  rewrite !plet_eq. unfold at_static, trial. rewrite plet_eq, c_id.
  destruct (c_next l) as [[t| | |] l1] eqn:N1; try reflexivity. destruct (is_name (fst t)) eqn:Hn; [|reflexivity].
  rewrite !plet_eq, c_exp. destruct (c_next l1) as [[x| | |] l2] eqn:N2; try reflexivity.
  destruct (kind_eqb (fst x) Colon) eqn:Hx; [|reflexivity].
  rewrite !plet_eq, c_ate. destruct (c_peek l2) as [[y| | |] l3] eqn:N3; try reflexivity.
  destruct (kind_eqb (fst y) KStatic) eqn:Hy; [reflexivity|].
  unfold pret at 1. rewrite plet_eq. unfold parse_func_item, handled. rewrite plet_eq, c_id, N1, Hn, plet_eq, c_exp, N2, Hx, !plet_eq.
  assert (E : l3 = unseen l2 (c_k l3)).
  { destruct l2 as [[|? ?] [?|] ? ?]; inversion N3; reflexivity. }
  rewrite E, c_func_unseen. destruct (parse_func counter n l2) as [[f| | |] l']; try reflexivity.
  rewrite !plet_eq. destruct (exp counter Semicolon l') as [[| | |] l'']; reflexivity.
Qed.
Lemma c_extern n s : parse_extern counter n s = extern_direct counter n s.
Proof.
  unfold parse_extern, extern_direct, handled. rewrite !plet_eq. unfold at_extern, trial. rewrite plet_eq, c_id.
  destruct (c_next s) as [[t| | |] l1] eqn:N1; try reflexivity. destruct (is_name (fst t)) eqn:Hn; [|reflexivity].
  rewrite !plet_eq, c_ate. destruct (c_peek l1) as [[x| | |] l2] eqn:N2; try reflexivity. destruct (kind_eqb (fst x) Colon) eqn:Hx.
  - rewrite !plet_eq. destruct (pk counter (snd (c_next l1))) as [[y| | |] l3]; try reflexivity. destruct (fst y); reflexivity.
  - unfold pret at 1. rewrite plet_eq. unfold parse_use_path, handled. rewrite plet_eq, c_id, N1, Hn, plet_eq, c_ate, N2, Hx. unfold pret at 1.
    rewrite plet_eq. reflexivity.
Qed.

(** ** Looking further and further *)
Section Stays.
Variable m : nat.
(** After [m] tokens have been taken and one more has been looked at, this
    stays so. *)
Definition stays {A} (q : parser cst A) : Prop :=
  forall s, m <= c_n s -> m <= c_n (snd (q s)) /\ (m < c_k s -> m < c_k (snd (q s))).

Lemma stays_next : stays c_next.
Proof. intros [[|t ts] [w|] n k] H; cbn in *; lia. Qed.
Lemma stays_peek : stays c_peek.
Proof. intros [[|t ts] [w|] n k] H; cbn in *; lia. Qed.
Lemma stays_pret A (a : A) : stays (pret a).
Proof. intros s H. cbn. auto. Qed.
Lemma stays_perr A : stays (@perr cst A).
Proof. intros s H. cbn. auto. Qed.
Lemma stays_pdiverge A : stays (@pdiverge cst A).
Proof. intros s H. cbn. auto. Qed.
Lemma stays_handled A (p : parser cst A) : stays p -> stays (handled p).
Proof. intros Hp s H. specialize (Hp s H). unfold handled. destruct (p s) as [[| | |] ?]; exact Hp. Qed.
Lemma stays_bind A B (p : parser cst A) (f : A -> parser cst B) : stays p -> (forall a, stays (f a)) -> stays (pbind (unwrap p) f).
Proof.
  intros Hp Hf s H. specialize (Hp s H). rewrite plet_eq. destruct (p s) as [[a| | |] s1]; cbn [snd] in *; try exact Hp.
  destruct Hp as [H1 H2]. destruct (Hf a s1 H1) as [H3 H4]. auto.
Qed.
Lemma stays_trial A (p : parser cst (option A)) : stays p -> stays (trial p).
Proof.
  intros Hp s H. specialize (Hp s H). unfold trial. destruct (p s) as [[[a|]| | |] s1]; cbn [snd] in *; auto.
Qed.
End Stays.

(** ** The parser on the first tokens of a file, and on the file *)
Section First.
Variable m : nat.
Variable rest : list tk.
Variable fin : ending.

Definition far {A} (r : outcome A * cst) : Prop :=
  m < c_k (snd r) /\ match fst r with Ok _ => m <= c_n (snd r) | _ => True end.
(** The tokens [c] are the rest of the first [m] tokens; [rest] comes after
    them. If the first tokens suffice to end, then the parser ends the same
    way on the whole file, otherwise it looks further. *)
Definition rel2 (A : Type) (p : parser (option (list tk)) A) (q : parser cst A) : Prop :=
  stays m q /\ forall c n k, n + length c = m ->
  match p (Some c) with
  | (Diverge, None) => far (q (mkC (c ++ rest) fin n k))
  | (Diverge, Some _) => fst (q (mkC (c ++ rest) fin n k)) = Diverge
  | (_, None) => False
  | (o, Some c') => exists n' k', q (mkC (c ++ rest) fin n k) = (o, mkC (c' ++ rest) fin n' k') /\
      n' + length c' = m /\ (k <= m -> k' <= m) /\ exists c0, c = c0 ++ c'
  end.

Lemma rel2_pret A (a : A) : rel2 A (pret a) (pret a).
Proof. split; [apply stays_pret|]. intros c n k E. cbn. exists n, k. repeat split; auto. exists []. reflexivity. Qed.
Lemma rel2_perr A : rel2 A perr perr.
Proof. split; [apply stays_perr|]. intros c n k E. cbn. exists n, k. repeat split; auto. exists []. reflexivity. Qed.
Lemma rel2_pdiverge A : rel2 A pdiverge pdiverge.
Proof. split; [apply stays_pdiverge|]. intros c n k E. reflexivity. Qed.
Lemma rel2_next : rel2 tk (s_next first) (s_next counter).
Proof.
  split; [apply stays_next|]. intros [|t c] n k E; cbn in *.
  - unfold far, c_next. destruct rest as [|t ts]; [destruct fin|]; cbn; lia.
  - exists (S n), (S n). repeat split; try lia. exists [t]. reflexivity.
Qed.
Lemma rel2_peek : rel2 tk (s_peek first) (s_peek counter).
Proof.
  split; [apply stays_peek|]. intros [|t c] n k E; cbn in *.
  - unfold far, c_peek. destruct rest as [|t ts]; [destruct fin|]; cbn; lia.
  - exists n, (S n). repeat split; try lia. exists []. reflexivity.
Qed.
Lemma rel2_handled A p q : rel2 A p q -> rel2 A (handled p) (handled q).
Proof.
  intros [S H]. split; [now apply stays_handled|]. intros c n k E. specialize (H c n k E). unfold handled.
  destruct (p (Some c)) as [[a|e| |] [c'|]]; try contradiction;
    try (destruct H as (n' & k' & -> & H); exists n', k'; split; [reflexivity | exact H]).
  { destruct (q _) as [[| | |] ?]; try discriminate; reflexivity. }
  destruct (q _) as [[| | |] ?]; exact H.
Qed.
Lemma rel2_bind A B p q (f : A -> _) g : rel2 A p q -> (forall a, rel2 B (f a) (g a)) -> rel2 B (pbind (unwrap p) f) (pbind (unwrap q) g).
Proof.
  intros [S H] F. split; [apply stays_bind; [exact S | apply F]|]. intros c n k E. specialize (H c n k E). rewrite !plet_eq.
  destruct (p (Some c)) as [[a|e| |] [c'|]]; try contradiction.
  - destruct H as (n' & k' & -> & E' & K & c0 & C). destruct (F a) as [_ Fa]. specialize (Fa c' n' k' E').
    destruct (f a (Some c')) as [[b|e| |] [c''|]]; try contradiction; try exact Fa;
      (destruct Fa as (n2 & k2 & -> & E2 & K2 & c1 & C1); exists n2, k2; repeat split; auto; exists (c0 ++ c1); subst; apply app_assoc).
  - destruct H as (n' & k' & -> & H). exists n', k'. split; [reflexivity | exact H].
  - destruct H as (n' & k' & -> & H). exists n', k'. split; [reflexivity | exact H].
  - destruct (q _) as [[| | |] ?]; try discriminate; reflexivity.
  - destruct (q _) as [[b|e| |] s]; cbn [fst snd] in *; try exact H. destruct H as [H1 H2]. cbn in H1, H2.
    destruct (F b) as [Fs _]. destruct (Fs s H2) as [H3 H4]. split; [now apply H4|]. destruct (fst (g b s)); auto.
Qed.
Lemma rel2_eq A p p' q q' : (forall s, p s = p' s) -> (forall s, q s = q' s) -> rel2 A p' q' -> rel2 A p q.
Proof.
  intros E1 E2 [S H]. split; [intros s Hs; rewrite E2; now apply S|]. intros c n k E. rewrite E1, E2. now apply H.
Qed.
Lemma same_zero x : 0 = x -> x = 0 \/ forall A (q : parser cst A), rel2 A pdiverge q.
Proof. auto. Qed.
Lemma same_S n x : S n = x -> exists y, x = S y /\ n = y.
Proof. intros <-. eauto. Qed.

Ltac use2 lem := apply (lem _ _ first counter rel2 rel2_next rel2_peek rel2_pret rel2_perr rel2_pdiverge rel2_handled rel2_bind eq same_zero same_S).
Ltac direct2 :=
  repeat match goal with
  | |- rel2 _ (pret _) (pret _) => apply rel2_pret
  | |- rel2 _ perr perr => apply rel2_perr
  | |- rel2 _ (handled _) (handled _) => apply rel2_handled
  | |- rel2 _ (pbind (unwrap _) _) (pbind (unwrap _) _) => apply rel2_bind; [|intros ?]
  | |- rel2 _ (pk _) (pk _) => exact rel2_peek
  | |- rel2 _ (exp _ _) (exp _ _) => use2 (@rel_expect)
  | |- rel2 _ (ate _ _) (ate _ _) => use2 (@rel_eat)
  | |- rel2 _ (parse_id _) (parse_id _) => use2 (@rel_id)
  | |- rel2 _ (parse_func _ _) (parse_func _ _) => use2 (@rel_func); reflexivity
  | |- rel2 _ (parse_parameters _ _) (parse_parameters _ _) => use2 (@rel_parameters); reflexivity
  | |- rel2 _ (match ?x with _ => _ end) (match ?x with _ => _ end) => destruct x
  end.
Lemma rel2_method n n' : n = n' -> rel2 _ (parse_method first n) (parse_method counter n').
Proof. intros <-. apply (rel2_eq _ _ _ _ _ (f_method n) (c_method n)). unfold method_direct. direct2. Qed.
Ltac use2m lem := apply (lem _ _ first counter rel2 rel2_next rel2_peek rel2_pret rel2_perr rel2_pdiverge rel2_handled rel2_bind eq same_zero same_S rel2_method).
Lemma rel2_extern n n' : n = n' -> rel2 _ (parse_extern first n) (parse_extern counter n').
Proof.
  intros <-. apply (rel2_eq _ _ _ _ _ (f_extern n) (c_extern n)). unfold extern_direct. direct2. use2m (@rel_interface_items). reflexivity.
Qed.
Lemma rel2_ast n : rel2 _ (parse_ast first n) (parse_ast counter n).
Proof.
  apply (rel_ast first counter rel2 rel2_next rel2_peek rel2_pret rel2_perr rel2_pdiverge rel2_handled rel2_bind eq same_zero same_S rel2_method rel2_extern).
  reflexivity.
Qed.
End First.

(** ** More fuel does not change an answer. *)
Definition rel3 (A : Type) (p q : parser cst A) : Prop := forall s, fst (p s) = Diverge \/ p s = q s.
Lemma rel3_refl A p : rel3 A p p.
Proof. right. reflexivity. Qed.
Lemma rel3_handled A p q : rel3 A p q -> rel3 A (handled p) (handled q).
Proof.
  intros H s. unfold handled. destruct (H s) as [E|E]; [|right; now rewrite E].
  left. destruct (p s) as [[| | |] ?]; try discriminate; reflexivity.
Qed.
Lemma rel3_bind A B p q (f : A -> _) g : rel3 A p q -> (forall a, rel3 B (f a) (g a)) -> rel3 B (pbind (unwrap p) f) (pbind (unwrap q) g).
Proof.
  intros H F s. rewrite !plet_eq. destruct (H s) as [E|<-]; [left; destruct (p s) as [[| | |] ?]; try discriminate; reflexivity|].
  destruct (p s) as [[a| | |] s']; auto. apply F.
Qed.
Lemma rel3_trial A p q : rel3 (option A) p q -> rel3 (option A) (trial p) (trial q).
Proof.
  intros H s. unfold trial. destruct (H s) as [E|<-]; [left; destruct (p s) as [[| | |] ?]; try discriminate; reflexivity|]. auto.
Qed.
Lemma le_zero x : 0 <= x -> x = 0 \/ forall A (q : parser cst A), rel3 A pdiverge q.
Proof. right. left. reflexivity. Qed.
Lemma le_succ n x : S n <= x -> exists y, x = S y /\ n <= y.
Proof. intros H. destruct x; [lia|]. exists x. split; [reflexivity | lia]. Qed.
Lemma rel3_method n n' : n <= n' -> rel3 _ (parse_method counter n) (parse_method counter n').
Proof.
  apply (rel_method_trial counter counter rel3 (rel3_refl _ _) (rel3_refl _ _) (fun A a => rel3_refl _ _) (fun A => rel3_refl _ _)
    (fun A => rel3_refl _ _) rel3_handled rel3_bind le le_zero le_succ rel3_trial).
Qed.
Lemma rel3_extern n n' : n <= n' -> rel3 _ (parse_extern counter n) (parse_extern counter n').
Proof.
  apply (rel_extern_trial counter counter rel3 (rel3_refl _ _) (rel3_refl _ _) (fun A a => rel3_refl _ _) (fun A => rel3_refl _ _)
    (fun A => rel3_refl _ _) rel3_handled rel3_bind le le_zero le_succ rel3_method rel3_trial).
Qed.
Lemma rel3_ast n n' : n <= n' -> rel3 _ (parse_ast counter n) (parse_ast counter n').
Proof.
  apply (rel_ast counter counter rel3 (rel3_refl _ _) (rel3_refl _ _) (fun A a => rel3_refl _ _) (fun A => rel3_refl _ _)
    (fun A => rel3_refl _ _) rel3_handled rel3_bind le le_zero le_succ rel3_method rel3_extern).
Qed.

(** ** An answer on the first tokens is the answer on any file. *)
Definition rel4 (A : Type) (p : parser (option (list tk)) A) (q : parser cst A) : Prop :=
  forall c a c', p (Some c) = (Ok a, c') -> exists d, c' = Some d /\ (exists c0, c = c0 ++ d) /\
  forall rest e n k, exists n' k', q (mkC (c ++ rest) e n k) = (Ok a, mkC (d ++ rest) e n' k').
Lemma rel4_pret A (a : A) : rel4 A (pret a) (pret a).
Proof. intros c x c' E. inversion E; subst. exists c. split; [reflexivity|]. split; [exists []; reflexivity|]. intros. exists n, k. reflexivity. Qed.
Lemma rel4_perr A : rel4 A perr perr.
Proof. intros c x c' E. discriminate. Qed.
Lemma rel4_pdiverge A q : rel4 A pdiverge q.
Proof. intros c x c' E. discriminate. Qed.
Lemma rel4_next : rel4 tk (s_next first) (s_next counter).
Proof. intros [|t c] x c' E; inversion E; subst. exists c. split; [reflexivity|]. split; [exists [x]; reflexivity|]. intros. do 2 eexists. reflexivity. Qed.
Lemma rel4_peek : rel4 tk (s_peek first) (s_peek counter).
Proof. intros [|t c] x c' E; inversion E; subst. eexists. split; [reflexivity|]. split; [exists []; reflexivity|]. intros. do 2 eexists. reflexivity. Qed.
Lemma rel4_handled A p q : rel4 A p q -> rel4 A (handled p) (handled q).
Proof.
  intros H c x c' E. unfold handled in E. destruct (p (Some c)) as [[a| | |] c1] eqn:P; try discriminate. inversion E; subst.
  destruct (H c x c' P) as (d & -> & Pre & Q). exists d. split; [reflexivity|]. split; [exact Pre|]. intros. unfold handled. destruct (Q rest e n k) as (n' & k' & ->). eauto.
Qed.
Lemma rel4_bind A B p q (f : A -> _) g : rel4 A p q -> (forall a, rel4 B (f a) (g a)) -> rel4 B (pbind (unwrap p) f) (pbind (unwrap q) g).
Proof.
  intros H F c x c' E. rewrite plet_eq in E. destruct (p (Some c)) as [[a| | |] c1] eqn:P; try discriminate.
  destruct (H c a c1 P) as (d & -> & (c0 & C0) & Q). destruct (F a d x c' E) as (d' & -> & (c1 & C1) & Q'). exists d'. split; [reflexivity|].
  split; [exists (c0 ++ c1); subst; apply app_assoc|].
  intros. rewrite plet_eq. destruct (Q rest e n k) as (n' & k' & ->). apply Q'.
Qed.
Lemma rel4_eq A p p' q q' : (forall s, p s = p' s) -> (forall s, q s = q' s) -> rel4 A p' q' -> rel4 A p q.
Proof.
  intros E1 E2 H c x c' E. rewrite E1 in E. destruct (H c x c' E) as (d & -> & Pre & Q). exists d. split; [reflexivity|]. split; [exact Pre|]. intros. rewrite E2. apply Q.
Qed.
Lemma le_zero4 x : 0 <= x -> x = 0 \/ forall A (q : parser cst A), rel4 A pdiverge q.
Proof. right. apply rel4_pdiverge. Qed.
Ltac use4 lem := apply (lem _ _ first counter rel4 rel4_next rel4_peek rel4_pret rel4_perr (fun A => rel4_pdiverge A _) rel4_handled rel4_bind le le_zero4 le_succ).
Ltac direct4 :=
  repeat match goal with
  | |- rel4 _ (pret _) (pret _) => apply rel4_pret
  | |- rel4 _ perr perr => apply rel4_perr
  | |- rel4 _ (handled _) (handled _) => apply rel4_handled
  | |- rel4 _ (pbind (unwrap _) _) (pbind (unwrap _) _) => apply rel4_bind; [|intros ?]
  | |- rel4 _ (pk _) (pk _) => exact rel4_peek
  | |- rel4 _ (exp _ _) (exp _ _) => use4 (@rel_expect)
  | |- rel4 _ (ate _ _) (ate _ _) => use4 (@rel_eat)
  | |- rel4 _ (parse_id _) (parse_id _) => use4 (@rel_id)
  | |- rel4 _ (parse_func _ _) (parse_func _ _) => use4 (@rel_func); assumption
  | |- rel4 _ (parse_parameters _ _) (parse_parameters _ _) => use4 (@rel_parameters); assumption
  | |- rel4 _ (match ?x with _ => _ end) (match ?x with _ => _ end) => destruct x
  end.
Lemma rel4_method n n' : n <= n' -> rel4 _ (parse_method first n) (parse_method counter n').
Proof. intros H. apply (rel4_eq _ _ _ _ _ (f_method n) (c_method n')). unfold method_direct. direct4. Qed.
Ltac use4m lem := apply (lem _ _ first counter rel4 rel4_next rel4_peek rel4_pret rel4_perr (fun A => rel4_pdiverge A _) rel4_handled rel4_bind le le_zero4 le_succ rel4_method).
Lemma rel4_extern n n' : n <= n' -> rel4 _ (parse_extern first n) (parse_extern counter n').
Proof.
  intros H. apply (rel4_eq _ _ _ _ _ (f_extern n) (c_extern n')). unfold extern_direct. direct4. use4m (@rel_interface_items). assumption.
Qed.
Ltac use4e lem := apply (lem _ _ first counter rel4 rel4_next rel4_peek rel4_pret rel4_perr (fun A => rel4_pdiverge A _) rel4_handled rel4_bind le le_zero4 le_succ rel4_method rel4_extern).
