(** The reader accepts exactly [S_BinaryLoose]. *)
From Coq Require Import NArith PeanoNat List Bool Lia.
From Verif Require Import GoBase M_Leb128 M_Api M_Binary S_Leb128 S_Binary S_BinaryLoose L_Leb128 L_Binary.
Import ListNotations.
Open Scope N_scope.
Open Scope go_scope.
Open Scope reader_scope.

Definition bytes (s : list N) : Prop := Forall (fun b => b < 256) s.

(** The reader [p] gives [a] for exactly the bytes of [R a]. *)
Definition exact {A} (p : reader A) (R : A -> list N -> Prop) : Prop :=
  forall s a r, bytes s -> p s = Ok (a, r) <-> exists bs, s = bs ++ r /\ R a bs.

Lemma exact_iff {A} (p : reader A) R R' : (forall a bs, bytes bs -> R a bs <-> R' a bs) -> exact p R -> exact p R'.
Proof.
  intros H E s a r B. rewrite (E s a r B). split; intros (bs & -> & X); exists bs; (split; [reflexivity|]);
    apply Forall_app in B; apply H; tauto.
Qed.

Lemma exact_bind {A B} (p : reader A) (f : A -> reader B) R (Q : A -> B -> list N -> Prop) :
  exact p R -> (forall a, exact (f a) (Q a)) ->
  exact (rbind p f) (fun b bs => exists a b1 b2, bs = b1 ++ b2 /\ R a b1 /\ Q a b b2).
Proof.
  intros Hp Hf s b r Bs. unfold rbind, obind. split.
  - destruct (p s) as [[a s']|e| |] eqn:E; try discriminate. apply (Hp _ _ _ Bs) in E. destruct E as (b1 & -> & Ha).
    apply Forall_app in Bs. intros E. apply (Hf a) in E; [|apply Bs]. destruct E as (b2 & -> & Hb).
    exists (b1 ++ b2). rewrite app_assoc. split; [reflexivity|]. eauto 8.
  - intros (bs & -> & a & b1 & b2 & -> & Ha & Hb). rewrite <- app_assoc in *.
    assert (E : p (b1 ++ b2 ++ r) = Ok (a, b2 ++ r)) by (apply Hp; [exact Bs|eauto]).
    rewrite E. apply Forall_app in Bs. apply (Hf a); [apply Bs|eauto].
Qed.

Lemma exact_ret {A} (x : A) : exact (rret x) (fun a bs => a = x /\ bs = []).
Proof.
  intros s a r _. unfold rret. split.
  - intros E. inversion E; subst. exists []. auto.
  - intros (bs & -> & -> & ->). reflexivity.
Qed.

Lemma exact_err {A} e : exact (@rerr A e) (fun _ _ => False).
Proof. intros s a r _. unfold rerr. split; [discriminate|]. intros (bs & _ & []). Qed.

Lemma exact_map {A B} (p : reader A) (g : A -> B) R : exact p R ->
  exact (rlet a := p in rret (g a)) (fun b bs => exists a, b = g a /\ R a bs).
Proof.
  intros H. eapply exact_iff; [|apply exact_bind; [exact H|intros a; apply exact_ret]].
  intros b bs _. split.
  - intros (a & b1 & b2 & -> & Ha & -> & ->). exists a. rewrite app_nil_r. auto.
  - intros (a & -> & Ha). exists a, bs, []. rewrite app_nil_r. auto.
Qed.

Lemma exact_byte : exact read_byte (fun b bs => bs = [b]).
Proof.
  intros [|c s] b r _; cbn; split.
  - discriminate.
  - intros (bs & E & ->). discriminate.
  - intros E. inversion E; subst. exists [b]. auto.
  - intros (bs & E & ->). inversion E; subst. reflexivity.
Qed.

Lemma exact_leb : exact read_leb loose_number.
Proof.
  intros s n r B. unfold read_leb. split.
  - destruct (leb_split s B) as [(e & rest & F & ->)|T].
    + destruct (decode_value e rest F) as (_ & E & _). rewrite E. cbn [obind]. intros X. inversion X; subst.
      exists e. split; [reflexivity|]. split; auto.
    + rewrite (decode_reader_truncated s T). discriminate.
  - intros (bs & -> & F & ->). destruct (decode_value bs r F) as (_ & E & _). rewrite E. reflexivity.
Qed.

Lemma exact_full n : exact (read_full n) (fun a bs => a = bs /\ N.of_nat (length bs) = n).
Proof.
  intros s a r _. unfold read_full. destruct (N.leb_spec n (N.of_nat (length s))) as [H|H]; split.
  - intros E. inversion E; subst. exists (firstn (N.to_nat n) s). rewrite firstn_skipn.
    split; [reflexivity|]. split; [reflexivity|]. rewrite firstn_length. lia.
  - intros (bs & -> & -> & <-). rewrite Nat2N.id, firstn_app, Nat.sub_diag, firstn_all, skipn_app, Nat.sub_diag, skipn_all.
    cbn. rewrite app_nil_r. reflexivity.
  - discriminate.
  - intros (bs & -> & -> & <-). rewrite app_length in H. lia.
Qed.

Lemma exact_times {A} (p : reader A) R n : exact p R ->
  exact (read_times n p) (fun xs bs => length xs = n /\ exists parts, Forall2 R xs parts /\ bs = concat parts).
Proof.
  intros H. induction n as [|n IH]; cbn [read_times].
  - eapply exact_iff; [|apply exact_ret]. intros xs bs _. split.
    + intros (-> & ->). split; [reflexivity|]. exists []. auto.
    + intros (L & parts & F & ->). destruct xs; [|discriminate]. inversion F. auto.
  - eapply exact_iff; [|apply exact_bind; [exact H|intros a; apply exact_map, IH]].
    intros xs bs _. split.
    + intros (a & b1 & b2 & -> & Ha & l & -> & L & parts & F & ->). split; [cbn; lia|].
      exists (b1 :: parts). split; [constructor; assumption|reflexivity].
    + intros (L & parts & F & ->). destruct xs as [|a l]; [discriminate|]. inversion F as [|? b1 ? parts' Ha F']; subst.
      exists a, b1, (concat parts'). split; [reflexivity|]. split; [exact Ha|]. exists l. cbn in L. injection L as L. eauto 8.
Qed.

Lemma loose_below n bs : loose_number n bs -> n < 2 ^ 32.
Proof. intros (_ & ->). apply N.mod_lt. discriminate. Qed.

Section exact.
Variable heap : N.
Hypothesis Hh : 2 ^ 32 - 1 <= heap.

Lemma exact_make_bind {B} n (f : reader B) R : n < 2 ^ 32 -> exact f R -> exact (rlet _ := make heap n in f) R.
Proof.
  intros Hn H s b r Bs. unfold rbind, make, obind.
  destruct (N.leb_spec n heap); [|lia]. apply H, Bs.
Qed.

(** A number followed by something that depends on it. *)
Lemma exact_number {B} (f : N -> reader B) (Q : N -> B -> list N -> Prop) :
  (forall n, n < 2 ^ 32 -> exact (f n) (Q n)) ->
  exact (rlet n := read_leb in f n) (fun b bs => exists n b1 b2, bs = b1 ++ b2 /\ loose_number n b1 /\ Q n b b2).
Proof.
  intros Hf s b r Bs. unfold rbind, obind. split.
  - destruct (read_leb s) as [[a s']|e| |] eqn:E; try discriminate. apply (exact_leb _ _ _ Bs) in E. destruct E as (b1 & -> & Ha).
    apply Forall_app in Bs. intros E. apply (Hf a) in E; [|apply (loose_below _ _ Ha)|apply Bs]. destruct E as (b2 & -> & Hb).
    exists (b1 ++ b2). rewrite app_assoc. split; [reflexivity|]. eauto 8.
  - intros (bs & -> & a & b1 & b2 & -> & Ha & Hb). rewrite <- app_assoc in *.
    assert (E : read_leb (b1 ++ b2 ++ r) = Ok (a, b2 ++ r)) by (apply exact_leb; [exact Bs|eauto]).
    rewrite E. apply Forall_app in Bs. apply (Hf a); [apply (loose_below _ _ Ha)|apply Bs|eauto].
Qed.

Lemma exact_vec {A} (p : reader A) R : exact p R -> exact (read_vec heap p) (loose_vec R).
Proof.
  intros H. unfold read_vec.
  eapply exact_iff; [|apply exact_number; intros n Hn; apply exact_make_bind; [exact Hn|apply exact_times, H]].
  intros xs bs _. split.
  - intros (n & b1 & b2 & -> & Hn & L & parts & F & ->). exists b1, parts. rewrite L, N2Nat.id. auto.
  - intros (n & parts & Hn & F & ->). exists (N.of_nat (length xs)), n, (concat parts).
    split; [reflexivity|]. split; [exact Hn|]. rewrite Nat2N.id. eauto.
Qed.

Lemma exact_valtype : exact read_valtype valtype_bytes.
Proof.
  unfold read_valtype. intros s t r B. unfold rbind, obind, read_byte. split.
  - destruct s as [|b s]; [discriminate|].
    destruct (N.eqb_spec b 127) as [->|]; [|destruct (N.eqb_spec b 126) as [->|]; [|destruct (N.eqb_spec b 125) as [->|];
      [|destruct (N.eqb_spec b 124) as [->|]; [|discriminate]]]]; intros E; inversion E; subst; (eexists [_]; split; [reflexivity|constructor]).
  - intros (bs & -> & []); reflexivity.
Qed.

Lemma exact_type : exact (read_type heap) loose_functype.
Proof.
  unfold read_type. eapply exact_iff; [|apply exact_bind; [apply exact_byte|]; intros b;
    instantiate (1 := fun b t bs => b = 0x60 /\ exists ps rs, loose_vec valtype_bytes (ft_params t) ps /\ loose_vec valtype_bytes (ft_returns t) rs /\ bs = ps ++ rs)].
  - intros t bs _. split.
    + intros (b & b1 & b2 & -> & -> & -> & ps & rs & Hp & Hr & ->). exists ps, rs. auto.
    + intros (ps & rs & Hp & Hr & ->). exists 0x60, [0x60], (ps ++ rs). split; [reflexivity|]. split; [reflexivity|]. eauto 8.
  - destruct (N.eqb_spec b 96) as [->|Hb]; cbn [negb].
    + eapply exact_iff; [|apply exact_bind; [apply exact_vec, exact_valtype|intros ps;
        apply (exact_map _ (fun rs => {| ft_params := ps; ft_returns := rs |})), exact_vec, exact_valtype]].
      intros t bs _. split.
      * intros (ps & b1 & b2 & -> & Hp & rs & -> & Hr). split; [reflexivity|]. exists b1, b2. auto.
      * intros (_ & ps & rs & Hp & Hr & ->). exists (ft_params t), ps, rs. split; [reflexivity|]. split; [exact Hp|].
        exists (ft_returns t). destruct t. auto.
    + eapply exact_iff; [|apply exact_err]. intros t bs _. split; [intros []|]. intros (E & _). congruence.
Qed.

Lemma exact_func : exact read_func loose_func.
Proof.
  unfold read_func. eapply exact_iff; [|apply (exact_map _ (fun i => {| f_type := i; f_locals := []; f_body := None |})), exact_leb].
  intros f bs _. unfold loose_func. split.
  - intros (i & -> & Hi). auto.
  - intros (Hi & L & Bd). exists (f_type f). destruct f. cbn in *. subst. auto.
Qed.

Lemma exact_string : exact (read_string heap)
  (fun nm bs => exists n, loose_number (N.of_nat (length nm)) n /\ bs = n ++ nm).
Proof.
  unfold read_string. eapply exact_iff; [|apply exact_number; intros n Hn;
    instantiate (1 := fun n nm bs => nm = bs /\ N.of_nat (length bs) = n)].
  - intros nm bs _. split.
    + intros (n & b1 & b2 & -> & H & -> & L). exists b1. rewrite L. auto.
    + intros (n & H & ->). exists (N.of_nat (length nm)), n, nm. auto.
  - destruct (N.eqb_spec n 0) as [->|Hn0].
    + eapply exact_iff; [|apply exact_ret]. intros nm bs _. split.
      * intros (-> & ->). auto.
      * intros (-> & L). destruct bs; [auto|cbn in L; lia].
    + apply exact_make_bind; [exact Hn|]. apply exact_full.
Qed.

Lemma exact_export : exact (read_export heap) loose_export.
Proof.
  assert (K : forall nm k, exact (rlet i := read_leb in if k =? 0 then rret {| ex_name := nm; ex_func := i |} else rerr EOther)
    (fun e bs => k = 0 /\ ex_name e = nm /\ loose_number (ex_func e) bs)).
  { intros nm k. destruct (N.eqb_spec k 0) as [->|Hk].
    - eapply exact_iff; [|apply (exact_map _ (fun i => {| ex_name := nm; ex_func := i |})), exact_leb].
      intros e bs _. split.
      + intros (i & -> & Hi). auto.
      + intros (_ & <- & Hi). exists (ex_func e). destruct e. auto.
    - eapply exact_iff; [|apply exact_bind; [apply exact_leb|intros i; apply exact_err]].
      intros e bs _. split; [|intros (E & _); congruence]. intros (? & ? & ? & _ & _ & []). }
  unfold read_export. eapply exact_iff; [|apply exact_bind; [apply exact_string|intros nm; apply exact_bind; [apply exact_byte|
    intros k; apply K]]].
  intros e bs _. split.
  - intros (nm & b1 & b2 & -> & (n & Hn & ->) & k & b3 & b4 & -> & -> & -> & <- & Hi).
    exists n, b4. rewrite <- app_assoc. auto.
  - intros (n & ix & Hn & Hi & ->). exists (ex_name e), (n ++ ex_name e), (0 :: ix). rewrite <- app_assoc. split; [reflexivity|].
    split; [eauto|]. exists 0, [0], ix. auto 8.
Qed.

Lemma exact_instr : exact read_instr (fun i bs => loose_instr i bs \/ (i = IEnd /\ bs = [0x0b])).
Proof.
  unfold read_instr. intros s i r B. unfold rbind at 1, obind, read_byte. split.
  - destruct s as [|b s]; [discriminate|]. inversion B as [|? ? Hb Bs]; subst.
    destruct (N.eqb_spec b 11) as [->|]; [intros E; inversion E; subst; exists [11]; auto|].
    destruct (N.eqb_spec b 32) as [->|].
    + intros E. apply (exact_map _ ILocalGet _ exact_leb) in E; [|exact Bs]. destruct E as (bs & -> & j & -> & Hj).
      exists (32 :: bs). split; [reflexivity|]. left. constructor. exact Hj.
    + destruct (N.eqb_spec b 106) as [->|]; [|discriminate]. intros E; inversion E; subst. exists [106]. split; [reflexivity|]. left. constructor.
  - intros (bs & -> & [H|(-> & ->)]); [inversion H as [j b Hj|]; subst|].
    + cbn in B. inversion B; subst. cbn. apply (exact_map _ ILocalGet _ exact_leb); [assumption|]. eauto.
    + reflexivity.
    + reflexivity.
Qed.

Lemma loose_instr_end i bs : loose_instr i bs -> i <> IEnd /\ (0 < length bs)%nat.
Proof. intros []; (split; [discriminate|cbn; lia]). Qed.

Lemma exact_loop : forall f s a r, bytes s -> (length s < f)%nat ->
  read_expr_loop f s = Ok (a, r) <->
  exists is parts, a = is ++ [IEnd] /\ Forall2 loose_instr is parts /\ s = concat parts ++ [0x0b] ++ r.
Proof.
  induction f as [|f IH]; intros s a r B L; [lia|]. cbn [read_expr_loop]. unfold rbind at 1, obind. split.
  - destruct (read_instr s) as [[i s']|e| |] eqn:E; try discriminate. apply (exact_instr _ _ _ B) in E.
    destruct E as (bs & -> & [Hi|(-> & ->)]).
    + destruct (loose_instr_end _ _ Hi) as [He Hlen]. apply Forall_app in B. rewrite app_length in L.
      assert (X : (rlet l := read_expr_loop f in rret (i :: l)) s' = Ok (a, r) ->
        exists is parts, a = is ++ [IEnd] /\ Forall2 loose_instr is parts /\ bs ++ s' = concat parts ++ [0x0b] ++ r).
      { unfold rbind, obind. destruct (read_expr_loop f s') as [[l s'']|e| |] eqn:E; try discriminate.
        intros X. inversion X; subst. apply IH in E; [|apply B|lia]. destruct E as (is & parts & -> & F & ->).
        exists (i :: is), (bs :: parts). split; [reflexivity|]. split; [constructor; assumption|]. cbn. rewrite app_assoc. reflexivity. }
      destruct i; try exact X. congruence.
    + intros E. inversion E; subst. exists [], []. split; [reflexivity|]. split; [constructor|reflexivity].
  - intros (is & parts & -> & F & ->). destruct F as [|i bs is parts Hi F].
    + cbn. reflexivity.
    + cbn [concat] in *. rewrite <- app_assoc in *. destruct (loose_instr_end _ _ Hi) as [He Hlen].
      assert (E : read_instr (bs ++ concat parts ++ [0x0b] ++ r) = Ok (i, concat parts ++ [0x0b] ++ r)) by (apply exact_instr; [exact B|eauto]).
      rewrite E. apply Forall_app in B. rewrite app_length in L.
      assert (E2 : read_expr_loop f (concat parts ++ [0x0b] ++ r) = Ok (is ++ [IEnd], r)) by (apply IH; [apply B|lia|eauto]).
      destruct i; try congruence; unfold rbind, obind; rewrite E2; reflexivity.
Qed.

Lemma exact_expr : exact read_expr (fun a bs => exists is parts, a = is ++ [IEnd] /\ Forall2 loose_instr is parts /\ bs = concat parts ++ [0x0b]).
Proof.
  intros s a r B. unfold read_expr. rewrite exact_loop by (assumption || lia). split.
  - intros (is & parts & -> & F & ->). exists (concat parts ++ [0x0b]). rewrite <- app_assoc. eauto 8.
  - intros (bs & -> & is & parts & -> & F & ->). exists is, parts. rewrite <- app_assoc. auto.
Qed.

Lemma exact_code f : exact (read_code heap f) (fun f' bs => loose_code f bs f').
Proof.
  unfold read_code. eapply exact_iff; [|apply exact_bind; [apply exact_leb|intros n; apply exact_bind; [apply exact_vec, exact_valtype|
    intros ls; apply (exact_map _ (fun body => {| f_type := f_type f; f_locals := ls; f_body := Some body |})), exact_expr]]].
  intros f' bs _. split.
  - intros (n & size & b2 & -> & Hn & locals & ls & b4 & -> & Hl & body & -> & is & parts & -> & F & ->).
    exists size, n, locals, ls, is, parts. auto.
  - intros (size & n & locals & ls & is & parts & Hn & Hl & F & -> & ->).
    exists n, size, (ls ++ concat parts ++ [0x0b]). split; [reflexivity|]. split; [exact Hn|].
    exists locals, ls, (concat parts ++ [0x0b]). split; [reflexivity|]. split; [exact Hl|]. exists (is ++ [IEnd]). eauto 8.
Qed.

Lemma exact_update : forall n fs, exact (update_funcs heap n fs)
  (fun fs' bs => exists coded others coded', fs = coded ++ others /\ length coded = n /\ loose_codes coded bs coded' /\ fs' = coded' ++ others).
Proof.
  induction n as [|n IH]; intros fs; cbn [update_funcs].
  - eapply exact_iff; [|apply exact_ret]. intros fs' bs _. split.
    + intros (-> & ->). exists [], fs, []. repeat split. constructor.
    + intros (coded & others & coded' & -> & L & C & ->). destruct coded; [|discriminate]. inversion C; subst. auto.
  - destruct fs as [|f fs].
    + eapply exact_iff; [|apply exact_err]. intros fs' bs _. split; [intros []|].
      intros (coded & others & coded' & E & L & _). destruct coded; discriminate.
    + eapply exact_iff; [|apply exact_bind; [apply exact_code|intros f'; apply (exact_map _ (cons f')), IH]].
      intros fs' bs _. split.
      * intros (f' & b1 & b2 & -> & Hf & l & -> & coded & others & coded' & -> & L & C & ->).
        exists (f :: coded), others, (f' :: coded'). split; [reflexivity|]. split; [cbn; lia|]. split; [constructor; assumption|reflexivity].
      * intros (coded & others & coded' & E & L & C & ->). destruct coded as [|f0 coded]; [discriminate|].
        cbn in E. injection E as -> ->. inversion C as [|? b1 f' ? b2 coded1 Hf C']; subst.
        exists f', b1, b2. split; [reflexivity|]. split; [exact Hf|]. exists (coded1 ++ others). split; [reflexivity|].
        exists coded, others, coded1. cbn in L. injection L as L. auto.
Qed.

(** What follows the header of a section. *)
Definition body_of (m : module) (id n : N) (m' : module) (bs : list N) : Prop :=
  (id = 1 /\ exists ts, loose_vec loose_functype ts bs /\ m' = {| m_types := ts; m_funcs := m_funcs m; m_exports := m_exports m |}) \/
  (id = 3 /\ exists fs, loose_vec loose_func fs bs /\ m' = {| m_types := m_types m; m_funcs := fs; m_exports := m_exports m |}) \/
  (id = 7 /\ exists es, loose_vec loose_export es bs /\ m' = {| m_types := m_types m; m_funcs := m_funcs m; m_exports := es |}) \/
  (id = 10 /\ exists coded others coded' count cs, m_funcs m = coded ++ others /\ loose_number (N.of_nat (length coded)) count /\
     loose_codes coded cs coded' /\ bs = count ++ cs /\
     m' = {| m_types := m_types m; m_funcs := coded' ++ others; m_exports := m_exports m |}) \/
  (id <> 1 /\ id <> 3 /\ id <> 7 /\ id <> 10 /\ m' = m /\ N.of_nat (length bs) = n).

Lemma body_section m id n m' bs size : loose_number n size -> body_of m id n m' bs -> loose_section m (id :: size ++ bs) m'.
Proof.
  intros Hn [(-> & ts & H & ->)|[(-> & ts & H & ->)|[(-> & ts & H & ->)|[(-> & c & o & c' & k & cs & E & Hk & H & -> & ->)|
    (H1 & H3 & H7 & H10 & -> & <-)]]]].
  - now apply (ls_types m size n).
  - now apply (ls_funcs m size n).
  - now apply (ls_exports m size n).
  - now apply (ls_codes m size n k c o).
  - now apply ls_other.
Qed.

Lemma section_body m b m' : loose_section m b m' ->
  exists id n size bs, b = id :: size ++ bs /\ loose_number n size /\ body_of m id n m' bs.
Proof.
  unfold body_of. intros [size n ts bs Hn H|size n fs bs Hn H|size n es bs Hn H|size n k c o bs c' Hn E Hk H|id size bs H1 H3 H7 H10 Hn].
  - exists 1, n, size, bs. split; [reflexivity|]. split; [exact Hn|]. eauto 8.
  - exists 3, n, size, bs. split; [reflexivity|]. split; [exact Hn|]. eauto 8.
  - exists 7, n, size, bs. split; [reflexivity|]. split; [exact Hn|]. eauto 8.
  - exists 10, n, size, (k ++ bs). split; [reflexivity|]. split; [exact Hn|]. do 3 right; left. split; [reflexivity|]. exists c, o, c', k, bs. auto.
  - exists id, (N.of_nat (length bs)), size, bs. auto 15.
Qed.

Lemma exact_section m id n : n < 2 ^ 32 -> exact (read_section heap id n m) (fun m' bs => body_of m id n m' bs).
Proof.
  intros Hn. unfold read_section, body_of.
  destruct (N.eqb_spec id 1) as [->|H1]; [|destruct (N.eqb_spec id 3) as [->|H3]; [|destruct (N.eqb_spec id 10) as [->|H10];
    [|destruct (N.eqb_spec id 7) as [->|H7]]]].
  - eapply exact_iff; [|apply (exact_map _ (fun ts => {| m_types := ts; m_funcs := m_funcs m; m_exports := m_exports m |})), exact_vec, exact_type].
    intros m' bs _. split.
    + intros (ts & -> & H). left. eauto.
    + intros [(_ & ts & H & ->)|[(E & _)|[(E & _)|[(E & _)|(E & _)]]]]; try congruence. eauto.
  - eapply exact_iff; [|apply (exact_map _ (fun fs => {| m_types := m_types m; m_funcs := fs; m_exports := m_exports m |})), exact_vec, exact_func].
    intros m' bs _. split.
    + intros (ts & -> & H). right; left. eauto.
    + intros [(E & _)|[(_ & ts & H & ->)|[(E & _)|[(E & _)|(_ & E & _)]]]]; try congruence. eauto.
  - unfold update_funcs_with_code. eapply exact_iff; [|apply exact_bind; [apply exact_leb|intros k; apply (exact_map _ (fun fs => {| m_types := m_types m; m_funcs := fs; m_exports := m_exports m |})), exact_update]].
    intros m' bs _. split.
    + intros (k & b1 & b2 & -> & Hk & fs & -> & c & o & c' & E & L & C & ->). do 3 right; left. split; [reflexivity|].
      exists c, o, c', b1, b2. rewrite L, N2Nat.id. auto.
    + intros [(E & _)|[(E & _)|[(E & _)|[(_ & c & o & c' & k & cs & E & Hk & C & -> & ->)|(_ & _ & _ & E & _)]]]]; try congruence.
      exists (N.of_nat (length c)), k, cs. split; [reflexivity|]. split; [exact Hk|]. exists (c' ++ o). split; [reflexivity|].
      exists c, o, c'. rewrite Nat2N.id. auto.
  - eapply exact_iff; [|apply (exact_map _ (fun es => {| m_types := m_types m; m_funcs := m_funcs m; m_exports := es |})), exact_vec, exact_export].
    intros m' bs _. split.
    + intros (ts & -> & H). do 2 right; left. eauto.
    + intros [(E & _)|[(E & _)|[(_ & ts & H & ->)|[(E & _)|(_ & _ & E & _)]]]]; try congruence. eauto.
  - apply exact_make_bind; [exact Hn|]. destruct (N.eqb_spec n 0) as [->|Hn0].
    + eapply exact_iff; [|apply exact_ret]. intros m' bs _. split.
      * intros (-> & ->). do 4 right. auto 8.
      * intros [(E & _)|[(E & _)|[(E & _)|[(E & _)|(_ & _ & _ & _ & -> & E)]]]]; try congruence.
        destruct bs; [auto|cbn in E; lia].
    + eapply exact_iff; [|apply (exact_map _ (fun _ => m)), exact_full]. intros m' bs _. split.
      * intros (a & -> & -> & E). do 4 right. auto 8.
      * intros [(E & _)|[(E & _)|[(E & _)|[(E & _)|(_ & _ & _ & _ & -> & E)]]]]; try congruence. eauto.
Qed.

Lemma exact_header : exact read_header (fun h bs => exists size, bs = fst h :: size /\ loose_number (snd h) size).
Proof.
  unfold read_header. eapply exact_iff; [|apply exact_bind; [apply exact_byte|intros id; apply (exact_map _ (fun n => (id, n))), exact_leb]].
  intros [id n] bs _. cbn [fst snd]. split.
  - intros (id' & b1 & b2 & -> & -> & n' & E & H). inversion E; subst. exists b2. auto.
  - intros (size & -> & H). exists id, [id], size. eauto 8.
Qed.

Lemma header_eof s : bytes s -> read_header s = Err EEOF -> s = [].
Proof.
  intros B. destruct s as [|b s]; [reflexivity|]. unfold read_header, rbind, read_byte, read_leb, obind. cbn.
  inversion B as [|? ? _ Bs]; subst. destruct (leb_split s Bs) as [(e & rest & F & ->)|T].
  - destruct (decode_value e rest F) as (_ & E & _). rewrite E. discriminate.
  - rewrite (decode_reader_truncated s T). discriminate.
Qed.

Lemma exact_sections : forall f s m m' r, bytes s -> (length s < f)%nat ->
  read_sections heap f m s = Ok (m', r) <-> r = [] /\ loose_sections m s m'.
Proof.
  induction f as [|f IH]; intros s m m' r B L; [lia|]. cbn [read_sections]. split.
  - destruct (read_header s) as [[[id n] s1]|e| |] eqn:E; try discriminate.
    + apply (exact_header _ _ _ B) in E. destruct E as (hs & -> & size & -> & Hn). cbn [fst snd] in *.
      assert (B1 : bytes s1) by (apply Forall_app in B; apply B). unfold obind.
      destruct (read_section heap id n m s1) as [[m1 s2]|e| |] eqn:E; try discriminate.
      apply (exact_section m id n (loose_below _ _ Hn) _ _ _ B1) in E. destruct E as (bs & -> & H).
      apply Forall_app in B1. intros E. cbn in L. rewrite !app_length in L. apply IH in E; [|apply B1|lia]. destruct E as [-> E].
      split; [reflexivity|]. rewrite app_assoc.
      apply (lss_section m ((id :: size) ++ bs) m1 s2 m'); [|exact E]. exact (body_section _ _ _ _ _ _ Hn H).
    + destruct e; try discriminate. apply header_eof in E; [|exact B]. subst. intros E. inversion E; subst. split; [reflexivity|constructor].
  - intros (-> & H). destruct H as [m|m b m1 bss m' H Hs].
    + reflexivity.
    + apply section_body in H. destruct H as (id & n & size & bs & -> & Hn & H).
      assert (E : read_header ((id :: size ++ bs) ++ bss) = Ok ((id, n), bs ++ bss)).
      { apply exact_header; [exact B|]. exists (id :: size). split; [cbn; rewrite <- app_assoc; reflexivity|]. exists size. auto. }
      rewrite E. cbn in B, L. inversion B as [|? ? _ B1]; subst. rewrite <- app_assoc in B1. apply Forall_app in B1. destruct B1 as [_ B1].
      assert (E2 : read_section heap id n m (bs ++ bss) = Ok (m1, bss)) by (apply exact_section; [apply (loose_below _ _ Hn)|exact B1|eauto]).
      rewrite E2. cbn [obind]. apply Forall_app in B1. apply IH; [apply B1| |auto]. rewrite !app_length in L. lia.
Qed.

(** *** Lists of sections *)
Lemma section_list_of m s m' : loose_sections m s m' <-> exists secs, s = concat secs /\ section_list m secs m'.
Proof.
  split.
  - induction 1 as [m|m b m1 bss m' H Hs (secs & -> & L)]; [exists []; split; [reflexivity|constructor]|].
    exists (b :: secs). split; [reflexivity|econstructor; eassumption].
  - intros (secs & -> & L). induction L; cbn; econstructor; eassumption.
Qed.
Lemma section_list_firstn m secs m' : section_list m secs m' -> forall k, exists m1, section_list m (firstn k secs) m1.
Proof.
  induction 1 as [m|m b m1 secs m' H L IH]; intros [|k]; cbn; try (eexists; constructor).
  destruct (IH k) as (m2 & L2). exists m2. econstructor; eassumption.
Qed.

(** A section is not the beginning of another. *)
Lemma section_unique m b m1 x b' m1' x' : bytes (b ++ x) -> b ++ x = b' ++ x' ->
  loose_section m b m1 -> loose_section m b' m1' -> b = b' /\ m1 = m1' /\ x = x'.
Proof.
  intros B E H H'.
  assert (R : forall b m1 x, bytes (b ++ x) -> loose_section m b m1 -> exists h s, read_header (b ++ x) = Ok (h, s) /\ read_section heap (fst h) (snd h) m s = Ok (m1, x)).
  { clear b m1 x b' m1' x' B E H H'. intros b m1 x B H. apply section_body in H. destruct H as (id & n & size & bs & -> & Hn & H). exists (id, n), (bs ++ x). split.
    - apply exact_header; [exact B|]. exists (id :: size). split; [cbn; rewrite <- app_assoc; reflexivity|]. exists size. auto.
    - cbn in B. inversion B as [|? ? _ B1]; subst. rewrite <- app_assoc in B1. apply Forall_app in B1. destruct B1 as [_ B1].
      apply exact_section; [apply (loose_below _ _ Hn)|exact B1|eauto]. }
  destruct (R b m1 x B H) as (h & s & E1 & E2). rewrite E in B. destruct (R b' m1' x' B H') as (h' & s' & E3 & E4).
  rewrite E in E1. rewrite E1 in E3. injection E3 as <- <-. rewrite E2 in E4. injection E4 as <- <-.
  split; [|auto]. now apply app_inv_tail in E.
Qed.

Lemma section_list_prefix m secs m' : section_list m secs m' -> forall secs' m1 t, bytes (concat secs) -> section_list m secs' m1 ->
  concat secs = concat secs' ++ t -> exists k, concat secs' = concat (firstn k secs).
Proof.
  induction 1 as [m|m b m1 secs m' H L IH]; intros secs' m2 t B L' E.
  - exists O. cbn in E. symmetry in E. apply app_eq_nil in E. apply E.
  - inversion L' as [|? b' m3 secs3 ? H' L3]; subst; [exists O; reflexivity|]. cbn [concat] in *. rewrite <- app_assoc in E.
    destruct (section_unique m b m1 _ b' m3 _ B E H H') as (<- & <- & E2). apply Forall_app in B.
    destruct (IH secs3 m2 t (proj2 B) L3 E2) as (k & Ek). exists (S k). cbn. now rewrite Ek.
Qed.

Lemma exact_uint16 : exact read_uint16 (fun v bs => v < 2 ^ 16 /\ bs = [v mod 256; v / 256]).
Proof.
  intros s v r B. unfold read_uint16, rbind, obind. split.
  - destruct (read_full 2 s) as [[a s']|e| |] eqn:E; try discriminate. apply exact_full in E; [|exact B].
    destruct E as (bs & -> & -> & Hl). destruct bs as [|lo [|hi [|? ?]]]; cbn in Hl; try lia.
    intros E. assert (Ev : v = lo + 256 * hi /\ r = s') by (unfold rret in E; split; congruence). clear E. destruct Ev as [-> ->].
    cbn in B. inversion B as [|? ? H1 B']; subst. inversion B' as [|? ? H2 _]; subst.
    exists [lo; hi]. split; [reflexivity|]. split; [lia|].
    rewrite (N.mul_comm 256), N.mod_add, N.div_add, N.mod_small, N.div_small by lia. reflexivity.
  - intros (bs & -> & Hv & ->).
    assert (E : read_full 2 ([v mod 256; v / 256] ++ r) = Ok ([v mod 256; v / 256], r)) by (apply exact_full; [exact B|eauto]).
    rewrite E. unfold rret. do 2 f_equal. rewrite N.add_comm. symmetry. apply N.div_mod. lia.
Qed.

Lemma bytes_eq_iff a : forall b, bytes_equal a b = true <-> a = b.
Proof.
  induction a as [|x a IH]; intros [|y b]; cbn; try (split; [discriminate|discriminate]); [tauto|].
  rewrite andb_true_iff, N.eqb_eq, IH. split; [intros [-> ->]; reflexivity|intros E; inversion E; auto].
Qed.

Lemma exact_preamble : exact read_preamble
  (fun p bs => p_version p < 2 ^ 16 /\ p_layer p < 2 ^ 16 /\
     bs = [0x00; 0x61; 0x73; 0x6d] ++ [p_version p mod 256; p_version p / 256] ++ [p_layer p mod 256; p_layer p / 256]).
Proof.
  assert (K : forall a, exact (if negb (bytes_equal magic a) then rerr EOther else
      rlet version := read_uint16 in rlet layer := read_uint16 in rret {| p_version := version; p_layer := layer |})
    (fun p bs => a = magic /\ p_version p < 2 ^ 16 /\ p_layer p < 2 ^ 16 /\
       bs = [p_version p mod 256; p_version p / 256] ++ [p_layer p mod 256; p_layer p / 256])).
  { intros a. destruct (bytes_equal magic a) eqn:E; cbn [negb].
    - apply bytes_eq_iff in E. subst a.
      eapply exact_iff; [|apply exact_bind; [apply exact_uint16|intros v; apply (exact_map _ (fun l => {| p_version := v; p_layer := l |})), exact_uint16]].
      intros p bs _. split.
      + intros (v & b1 & b2 & -> & (Hv & ->) & l & -> & Hl & ->). auto.
      + intros (_ & Hv & Hl & ->). eexists _, _, _. split; [reflexivity|]. split; [split; [exact Hv|reflexivity]|].
        exists (p_layer p). destruct p. auto.
    - eapply exact_iff; [|apply exact_err]. intros p bs _. split; [intros []|]. intros (-> & _).
      rewrite (proj2 (bytes_eq_iff magic magic) eq_refl) in E. discriminate. }
  unfold read_preamble, read_bytes. eapply exact_iff; [|apply exact_bind; [apply exact_full|exact K]].
  intros p bs _. split.
  - intros (a & b1 & b2 & -> & (-> & _) & -> & Hv & Hl & ->). auto.
  - intros (Hv & Hl & ->). eexists magic, magic, _. split; [reflexivity|]. auto 8.
Qed.

Lemma loose_exact bs d rest : bytes bs -> read heap bs = Ok (d, rest) <-> loose_file bs d rest.
Proof.
  intros B. unfold read, rbind at 1, obind, loose_file. split.
  - destruct (read_preamble bs) as [[[v layer] s]|e| |] eqn:E; try discriminate.
    apply (exact_preamble _ _ _ B) in E. destruct E as (hs & -> & Hv & Hl & ->). cbn [p_version p_layer] in *.
    unfold component_version, module_version. intros E. exists v, layer, s.
    rewrite <- !app_assoc. split; [exact Hv|]. split; [exact Hl|]. split; [reflexivity|].
    destruct (N.eqb_spec v 10) as [->|].
    + inversion E; subst. auto.
    + destruct (N.eqb_spec v 1) as [->|]; [|discriminate]. revert E. unfold rbind, obind, read_module.
      destruct (read_sections heap _ _ s) as [[m r]|e| |] eqn:E; try discriminate. intros X. inversion X; subst.
      apply exact_sections in E; [|apply Forall_app in B; apply B|lia]. destruct E as [-> E]. cbn. eauto 8.
  - intros (v & layer & body & Hv & Hl & -> & Hp & H).
    assert (E : read_preamble ([0x00; 0x61; 0x73; 0x6d] ++ [v mod 256; v / 256] ++ [layer mod 256; layer / 256] ++ body)
      = Ok ({| p_version := v; p_layer := layer |}, body)).
    { apply exact_preamble; [exact B|]. eexists. split; [|cbn [p_version p_layer]; split; [exact Hv|]; split; [exact Hl|reflexivity]].
      rewrite <- !app_assoc. reflexivity. }
    rewrite E. cbn [p_version]. unfold component_version, module_version. destruct d as [p dir]. cbn in Hp, H. subst p.
    destruct H as [(-> & -> & ->)|(-> & -> & m & -> & H)]; [reflexivity|]. cbn [N.eqb Pos.eqb].
    unfold rbind, read_module. apply Forall_app in B. destruct B as [_ B]. apply Forall_app in B. destruct B as [_ B].
    apply Forall_app in B. destruct B as [_ B].
    rewrite (proj2 (exact_sections (S (length body)) body {| m_types := []; m_funcs := []; m_exports := [] |} m [] B (Nat.lt_succ_diag_r _)) (conj eq_refl H)).
    reflexivity.
Qed.
End exact.
