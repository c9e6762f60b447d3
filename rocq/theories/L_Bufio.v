(** Encode over a bufio.Writer and Decode over a bufio.Reader, against the
    same functions on bytes at hand. *)
From Coq Require Import Arith NArith List Bool Lia.
From Verif Require Import GoBase M_Leb128 S_Leb128 L_Leb128 P_Leb128 M_Stream M_Bufio S_Bufio.
Import ListNotations.
Open Scope N_scope.

(** ** Writing *)

(** How a step changes the writer: nothing that went out comes back, and
    nothing is lost. *)
Definition grows (w w' : bufwriter) (out : list N) : Prop :=
  written w' = written w ++ out /\ (exists x, bw_taken w' = bw_taken w ++ x) /\ writer_ok w' /\ bw_size w' = bw_size w.

Lemma flush_spec to w : fair to -> writer_ok w -> bw_err w = None ->
  (exists w', flush to w = (Ok tt, w') /\ grows w w' [] /\ bw_err w' = None /\ bw_buf w' = []) \/
  (exists e w', flush to w = (Err e, w') /\ grows w w' [] /\ bw_err w' = Some e /\ error_of to e).
Proof.
  intros F [O1 O2] E. unfold flush. rewrite E. destruct (bw_buf w) as [|b buf] eqn:B.
  { left. exists w. split; [reflexivity|]. split; [|split; [exact E|exact B]]. unfold grows, written, writer_ok. rewrite B, !app_nil_r.
    split; [reflexivity|]. split; [exists []; now rewrite app_nil_r|]. split; [|reflexivity]. split; [exact O1|cbn; lia]. }
  pose proof (F (bw_calls w) (b :: buf)) as Le. destruct (to (bw_calls w) (b :: buf)) as [n err] eqn:T. cbn [fst] in Le.
  assert (G : forall e, grows w (mkWriter (bw_size w) (skipn n (b :: buf)) (Some e) (S (bw_calls w)) (bw_taken w ++ firstn n (b :: buf))) []).
  { intros e. unfold grows, written, writer_ok. cbn [bw_taken bw_buf bw_size]. rewrite B, app_nil_r, <- app_assoc, firstn_skipn.
    split; [reflexivity|]. split; [eauto|]. split; [|reflexivity]. split; [exact O1|]. rewrite skipn_length. lia. }
  destruct (Nat.ltb_spec n (length (b :: buf))) as [L|L].
  - right. destruct err as [e|].
    + exists e. eexists. split; [reflexivity|]. split; [apply G|]. split; [reflexivity|]. unfold error_of. eauto 8.
    + exists EOther. eexists. split; [reflexivity|]. split; [apply G|]. split; [reflexivity|]. unfold error_of. do 4 eexists. eauto.
  - destruct err as [e|].
    + right. exists e. eexists. split; [reflexivity|]. split; [apply G|]. split; [reflexivity|]. unfold error_of. eauto 8.
    + left. eexists. split; [reflexivity|]. split; [|split; reflexivity]. unfold grows, written, writer_ok. cbn [bw_taken bw_buf bw_size].
      rewrite B, !app_nil_r. split; [reflexivity|]. split; [eauto|]. split; [|reflexivity]. split; [exact O1|cbn; lia].
Qed.

Lemma write_byte_spec to w b : fair to -> writer_ok w -> bw_err w = None ->
  (exists w', write_byte to w b = (Ok tt, w') /\ grows w w' [b] /\ bw_err w' = None) \/
  (exists e w', write_byte to w b = (Err e, w') /\ grows w w' [] /\ bw_err w' = Some e /\ error_of to e).
Proof.
  intros F O E. unfold write_byte. rewrite E.
  assert (P : forall w0, grows w w0 [] -> bw_err w0 = None -> (length (bw_buf w0) < bw_size w0)%nat ->
    exists w', (if (length (bw_buf w0) <? bw_size w0)%nat
      then (Ok tt, mkWriter (bw_size w0) (bw_buf w0 ++ [b]) (bw_err w0) (bw_calls w0) (bw_taken w0)) else (Panic, w0)) = (Ok tt, w') /\
      grows w w' [b] /\ bw_err w' = None).
  { intros w0 (G1 & G2 & G3 & G4) E0 L. rewrite (proj2 (Nat.ltb_lt _ _) L). eexists. split; [reflexivity|]. split; [|exact E0].
    unfold grows, written, writer_ok in *. cbn [bw_taken bw_buf bw_size]. rewrite app_assoc, G1, app_nil_r.
    split; [reflexivity|]. split; [exact G2|]. split; [|exact G4]. split; [apply G3|]. rewrite app_length. cbn. lia. }
  assert (R : grows w w []).
  { unfold grows. rewrite app_nil_r. split; [reflexivity|]. split; [exists []; now rewrite app_nil_r|]. auto. }
  destruct (Nat.eqb_spec (bw_size w - length (bw_buf w)) 0) as [Z|Z].
  - destruct (flush_spec to w F O E) as [(w' & -> & G & E' & B)|(e & w' & -> & G & E' & Er)].
    + left. apply P; auto. rewrite B. cbn. apply G.
    + right. exists e, w'. auto.
  - left. apply P; auto. lia.
Qed.

Lemma grows_trans w w1 w2 a b : grows w w1 a -> grows w1 w2 b -> grows w w2 (a ++ b).
Proof.
  intros (A1 & (x & A2) & A3 & A4) (B1 & (y & B2) & B3 & B4). unfold grows. rewrite B1, A1, app_assoc.
  split; [reflexivity|]. split; [exists (x ++ y); now rewrite B2, A2, app_assoc|]. split; [exact B3|congruence].
Qed.
Lemma grows_refl w : writer_ok w -> grows w w [].
Proof. intros O. unfold grows. rewrite app_nil_r. split; [reflexivity|]. split; [exists []; now rewrite app_nil_r|]. auto. Qed.

Lemma encode_loop_spec to : fair to -> forall fuel total value w, fuel <> 0%nat -> value < 2 ^ (7 * N.of_nat fuel) ->
  writer_ok w -> bw_err w = None -> let e := leb_encode_aux fuel value in
  (exists w', encode_loop to fuel total value w = (Ok (total + N.of_nat (length e)), w') /\ grows w w' e /\ bw_err w' = None) \/
  (exists err k w', encode_loop to fuel total value w = (Err err, w') /\ (k < length e)%nat /\ grows w w' (firstn k e) /\
     bw_err w' = Some err /\ error_of to err).
Proof.
  intros F fuel. induction fuel as [|f IH]; intros total value w Z V O E; [easy|]. cbn [encode_loop leb_encode_aux].
  set (v' := N.shiftr value 7). cbv zeta. set (b := if v' =? 0 then N.land value 127 else N.lor (N.land value 127) 128).
  destruct (write_byte_spec to w b F O E) as [(w1 & -> & G & E1)|(err & w1 & -> & G & E1 & Er)].
  - destruct (N.eqb_spec v' 0) as [Z0|Z0].
    + left. exists w1. unfold b in G. auto.
    + assert (V' : v' < 2 ^ (7 * N.of_nat f)).
      { unfold v'. rewrite N.shiftr_div_pow2. apply N.div_lt_upper_bound; [discriminate|]. rewrite <- N.pow_add_r.
        replace (7 + 7 * N.of_nat f) with (7 * N.of_nat (S f)) by lia. exact V. }
      assert (Zf : f <> 0%nat) by (intros ->; apply N.lt_1_r in V'; contradiction).
      destruct (IH (total + 1) v' w1 Zf V') as [(w2 & -> & G2 & E2)|(err & k & w2 & -> & K & G2 & E2 & Er)]; [apply G|exact E1|..].
      * left. exists w2. split; [f_equal; f_equal; cbn [length]; lia|]. split; [|exact E2]. apply (grows_trans _ _ _ _ _ G G2).
      * right. exists err, (S k), w2. split; [reflexivity|]. split; [cbn [length]; lia|]. split; [|auto].
        cbn [firstn]. apply (grows_trans _ _ _ _ _ G G2).
  - right. exists err, 0%nat, w1. split; [reflexivity|]. split; [|auto]. destruct (v' =? 0); cbn; lia.
Qed.
Lemma encode_spec to v w : fair to -> v < 2 ^ 32 -> writer_ok w -> bw_err w = None ->
  (exists w', Encode to v w = (Ok (N.of_nat (length (leb_encode v))), w') /\ grows w w' (leb_encode v) /\ bw_err w' = None) \/
  (exists err k w', Encode to v w = (Err err, w') /\ (k < length (leb_encode v))%nat /\ grows w w' (firstn k (leb_encode v)) /\
     bw_err w' = Some err /\ error_of to err).
Proof.
  intros F V O E. apply (encode_loop_spec to F 5 0 v w); auto. eapply N.lt_le_trans; [exact V|]. now vm_compute.
Qed.
Lemma encode_failed to v w e : bw_err w = Some e -> Encode to v w = (Err e, w).
Proof. intros E. unfold Encode. cbn [encode_loop]. unfold write_byte. now rewrite E. Qed.
Lemma flush_failed to w e : bw_err w = Some e -> flush to w = (Err e, w).
Proof. intros E. unfold flush. now rewrite E. Qed.

Lemma encode_all_spec to : fair to -> forall vs w, Forall (fun v => v < 2 ^ 32) vs -> writer_ok w -> bw_err w = None ->
  (exists w', encode_all to vs w = (Ok (map (fun v => N.of_nat (length (leb_encode v))) vs), w') /\
     grows w w' (concat (map leb_encode vs)) /\ bw_err w' = None) \/
  (exists err k w', encode_all to vs w = (Err err, w') /\ (k < length (concat (map leb_encode vs)))%nat /\
     grows w w' (firstn k (concat (map leb_encode vs))) /\ bw_err w' = Some err /\ error_of to err).
Proof.
  intros F vs. induction vs as [|v vs IH]; intros w V O E.
  { left. exists w. split; [reflexivity|]. split; [now apply grows_refl|exact E]. }
  inversion V as [|? ? Vv Vs]; subst. cbn [encode_all map concat].
  destruct (encode_spec to v w F Vv O E) as [(w1 & -> & G & E1)|(err & k & w1 & -> & K & G & E1 & Er)].
  - destruct (IH w1 Vs) as [(w2 & -> & G2 & E2)|(err & k & w2 & -> & K & G2 & E2 & Er)]; [apply G|exact E1|..].
    + left. exists w2. split; [reflexivity|]. split; [|exact E2]. apply (grows_trans _ _ _ _ _ G G2).
    + right. exists err, (length (leb_encode v) + k)%nat, w2. split; [reflexivity|]. rewrite app_length. split; [lia|].
      rewrite firstn_app_2. split; [|auto]. apply (grows_trans _ _ _ _ _ G G2).
  - right. exists err, k, w1. split; [reflexivity|]. rewrite app_length. split; [lia|]. split; [|auto].
    rewrite firstn_app. replace (k - length (leb_encode v))%nat with 0%nat by lia. cbn [firstn]. now rewrite app_nil_r.
Qed.
Lemma takes_all_fair to : takes_all to -> fair to.
Proof. intros T k p. rewrite T. cbn. lia. Qed.
Lemma takes_all_error to e : takes_all to -> ~ error_of to e.
Proof. intros T (k & p & n & err & Eq & [->|(-> & L & _)]); rewrite T in Eq; inversion Eq; subst; lia. Qed.

(** ** Reading *)
Lemma patient_tail p ps f t : patient (mkStream (p :: ps) f t) -> patient (mkStream ps f t).
Proof. intros P a b c E. apply (P (p :: a) b c). cbn in *. now rewrite E. Qed.
Lemma patient_cut k p ps f t : patient (mkStream (p :: ps) f t) -> skipn k p <> [] -> patient (mkStream (skipn k p :: ps) f t).
Proof.
  intros P N a b c E H. cbn in E. destruct a as [|x a].
  - destruct b as [|y b]; [cbn; lia|]. cbn in E. inversion E; subst. inversion H; subst. easy.
  - cbn in E. inversion E; subst. apply (P (p :: a) b c); [reflexivity|exact H].
Qed.

(** What fill leaves *)
Lemma fill_spec tries : forall r, reader_ok r -> br_buf r = [] -> br_err r = None -> (tries <= 100)%nat ->
  (forall a b, st_pieces (br_from r) = a ++ b -> Forall (fun p => p = []) a -> (length a < tries)%nat) ->
  let r' := fill tries r in reader_ok r' /\ unread r' = unread r /\ st_final (br_from r') = st_final (br_from r) /\
    (br_buf r' <> [] \/ br_buf r' = [] /\ br_err r' = Some (st_final (br_from r)) /\ unread r = []).
Proof.
  induction tries as [|n IH]; intros r O B E T H.
  { specialize (H [] _ eq_refl ltac:(constructor)). cbn in H. lia. }
  destruct r as [sz buf err [ps fin tg]]. cbn [br_buf br_err] in B, E. subst buf err. destruct O as (S1 & P & _).
  cbn [br_size br_from] in *. cbn [fill br_size br_from]. unfold st_read. cbn [st_pieces st_final st_together] in *.
  destruct ps as [|p ps].
  - cbn zeta. unfold reader_ok, unread. cbn. auto 10.
  - destruct (Nat.leb_spec (length p) sz) as [L|L].
    + pose proof (patient_tail _ _ _ _ P) as P'. destruct ps as [|q ps].
      * destruct tg.
        -- destruct p as [|x p]; cbn zeta; unfold reader_ok, unread; cbn [br_size br_buf br_err br_from st_pieces st_final concat app];
             rewrite ?app_nil_r; (split; [auto|]); (split; [reflexivity|]); (split; [reflexivity|]);
             [right; auto|left; discriminate].
        -- destruct p as [|x p].
           ++ specialize (IH (mkReader sz [] None (mkStream [] fin false))). cbn zeta in IH. unfold unread in IH |- *.
              cbn [br_buf br_from br_size br_err st_pieces st_final concat app] in *.
              destruct IH as (I1 & I2 & I3 & I4); auto.
              ** unfold reader_ok. cbn. auto.
              ** lia.
              ** intros a b Eq _. destruct a; [|discriminate]. specialize (H [[]] [] eq_refl ltac:(auto)). cbn in *. lia.
           ++ cbn zeta. unfold reader_ok, unread. cbn. rewrite app_nil_r. split; [auto|]. split; [reflexivity|]. split; [reflexivity|].
              left. discriminate.
      * destruct p as [|x p].
        -- specialize (IH (mkReader sz [] None (mkStream (q :: ps) fin tg))). cbn zeta in IH. unfold unread in IH |- *.
           cbn [br_buf br_from br_size br_err st_pieces st_final] in *. destruct IH as (I1 & I2 & I3 & I4); auto.
           ++ unfold reader_ok. cbn. auto.
           ++ lia.
           ++ intros a b Eq Fa. specialize (H ([] :: a) b). cbn in H. rewrite Eq in H. specialize (H eq_refl). 
              assert (X : Forall (fun p : list N => p = []) ([] :: a)) by (constructor; auto). specialize (H X). cbn in H. lia.
        -- cbn zeta. unfold reader_ok, unread. cbn. split; [auto|]. split; [reflexivity|]. split; [reflexivity|].
           left. discriminate.
    + assert (Ne : skipn sz p <> []) by (intros Z; apply (f_equal (@length N)) in Z; rewrite skipn_length in Z; cbn in Z; lia).
      destruct (firstn sz p) as [|x xs] eqn:Fi.
      { apply (f_equal (@length N)) in Fi. rewrite firstn_length in Fi. cbn in Fi. lia. }
      cbn zeta. unfold reader_ok, unread. cbn [br_size br_buf br_err br_from st_pieces st_final concat].
      split; [split; [exact S1|]; split; [now apply patient_cut|now left]|]. rewrite <- Fi.
      split; [now rewrite app_assoc, firstn_skipn|]. split; [reflexivity|]. left. rewrite Fi. discriminate.
Qed.

(** ReadByte gives the next byte, or the error at the end. *)
Lemma read_byte_spec r : reader_ok r ->
  match unread r with
  | b :: rest => exists r', read_byte r = (Ok b, r') /\ reader_ok r' /\ unread r' = rest /\ st_final (br_from r') = st_final (br_from r)
  | [] => exists r', read_byte r = (Err (st_final (br_from r)), r') /\ reader_ok r' /\ unread r' = [] /\ st_final (br_from r') = st_final (br_from r)
  end.
Proof.
  intros O. unfold read_byte. cbv zeta. destruct (br_buf r) as [|b buf] eqn:B.
  - destruct (br_err r) as [e|] eqn:E.
    + destruct O as (S1 & P & [X|[X Y]]); [congruence|]. assert (U : unread r = []) by (unfold unread; now rewrite B, Y).
      rewrite U. inversion X; subst. rewrite E in X. inversion X; subst. eexists. split; [reflexivity|].
      unfold reader_ok, unread. cbn. rewrite Y. auto 8.
    + destruct (fill_spec empty_reads r O B E) as (O' & U & Fi & X); [unfold empty_reads; lia| |].
      { intros a b Eq Ha. destruct O as (_ & P & _). apply (P [] a b); auto. }
      set (r1 := fill empty_reads r) in *. clearbody r1. rewrite <- U. destruct X as [X|(X & Y & Z)].
      * destruct (br_buf r1) as [|b buf] eqn:B1; [easy|]. unfold unread at 1. rewrite B1. cbn [app]. eexists. split; [reflexivity|].
        destruct O' as (S1 & P & Q). unfold reader_ok, unread. cbn. auto 8.
      * rewrite Z in U. rewrite U. rewrite X, Y. eexists. split; [reflexivity|]. rewrite <- Fi in Y.
        destruct O' as (S1 & P & Q). destruct Q as [Q|[Q Q']]; [congruence|].
        unfold reader_ok, unread. cbn. rewrite Q'. auto 8.
  - unfold unread at 1. rewrite B. cbn [app]. eexists. split; [reflexivity|]. destruct O as (S1 & P & Q). unfold reader_ok, unread. cbn. auto 8.
Qed.

Lemma decode_loop_spec : forall s fuel val shift total r, reader_ok r -> unread r = s -> (length s < fuel)%nat ->
  match leb_decode_aux val shift total s with
  | Ok (v, n, rest) => exists r', decode_loop fuel val shift total r = (Ok (v, n), r') /\ reader_ok r' /\ unread r' = rest /\
      st_final (br_from r') = st_final (br_from r)
  | _ => exists r', decode_loop fuel val shift total r = (Err (st_final (br_from r)), r') /\ reader_ok r' /\ unread r' = []
  end.
Proof.
  induction s as [|b s IH]; intros fuel val shift total r O U L; (destruct fuel as [|fuel]; [cbn in L; lia|]);
    cbn [leb_decode_aux decode_loop]; pose proof (read_byte_spec r O) as R; rewrite U in R; destruct R as (r' & -> & O' & U' & Fi).
  - exists r'. auto.
  - destruct (N.land b 128 =? 0); [exists r'; auto|]. cbn [length] in L.
    specialize (IH fuel (N.lor val (leb_group b shift)) (shift + 7) (total + 1) r' O' U' ltac:(lia)). rewrite <- Fi.
    destruct (leb_decode_aux _ _ _ _) as [[[v n] rest]| | |]; exact IH.
Qed.
Lemma decode_spec r : reader_ok r ->
  match leb_decode (unread r) with
  | Ok (v, n, rest) => exists r', Decode r = (Ok (v, n), r') /\ reader_ok r' /\ unread r' = rest /\ st_final (br_from r') = st_final (br_from r)
  | _ => exists r', Decode r = (Err (st_final (br_from r)), r') /\ reader_ok r' /\ unread r' = []
  end.
Proof. intros O. unfold Decode, leb_decode. apply decode_loop_spec; auto. Qed.
