(** C79: LEB128 numbers through buffered writers and readers, which may fail.
    [encode_all] and [decode_all] are one call after the other. *)
From Coq Require Import Arith NArith List Bool Lia.
From Verif Require Import GoBase M_Leb128 S_Leb128 L_Leb128 P_Leb128 M_Stream M_Bufio S_Bufio L_Bufio.
Import ListNotations.
Open Scope N_scope.

(** A number has one shortest form. *)
Theorem shortest_is_one : forall v bs bs', shortest v bs -> shortest v bs' -> bs = bs'.
Proof.
  assert (H : forall bs, leb_form bs -> forall bs', leb_form bs' -> length bs = length bs' -> leb_value bs = leb_value bs' -> bs = bs').
  { induction 1 as [b B|b bs B F IH]; intros bs' F' L V; destruct F' as [b' B'|b' bs' B' F']; cbn [length] in L.
    - unfold last_byte in *. cbn [leb_value] in V. rewrite !N.mul_0_r, !N.add_0_r, !N.mod_small in V by assumption. now subst.
    - destruct F'; discriminate.
    - destruct F; discriminate.
    - cbn [leb_value] in V. unfold more_byte in *.
      pose proof (N.mod_upper_bound b 128 ltac:(discriminate)). pose proof (N.mod_upper_bound b' 128 ltac:(discriminate)).
      assert (E : b mod 128 = b' mod 128 /\ leb_value bs = leb_value bs') by lia. destruct E as [E1 E2].
      rewrite (IH bs' F' ltac:(lia) E2). f_equal.
      pose proof (N.div_mod b 128 ltac:(discriminate)). pose proof (N.div_mod b' 128 ltac:(discriminate)).
      assert (b / 128 = 1) by (symmetry; apply (N.div_unique b 128 1 (b - 128)); lia).
      assert (b' / 128 = 1) by (symmetry; apply (N.div_unique b' 128 1 (b' - 128)); lia). lia. }
  intros v bs bs' (F & V & M) (F' & V' & M'). apply H; auto; [|congruence]. specialize (M bs' F' V'). specialize (M' bs F V). lia.
Qed.
Print Assumptions shortest_is_one.
Lemma encode_shortest v : v < 2 ^ 32 -> shortest v (leb_encode v).
Proof. intros V. destruct (leb128_encode_minimal v V) as (F & E & _ & M). split; [exact F|]. split; [exact E|exact M]. Qed.

(** Encode writes the shortest form of the number and says how many bytes it
    has, or it reports an error of the io.Writer, which the buffered writer
    then keeps; in that case only some of the bytes were written. Either way
    what was written before stays, and nothing that the io.Writer has taken is
    taken back. *)
Theorem encode_through_writer : forall to w v, fair to -> writer_ok w -> bw_err w = None -> v < 2 ^ 32 ->
  exists bs out w', shortest v bs /\ written w' = written w ++ out /\
  (exists x, bw_taken w' = bw_taken w ++ x) /\ writer_ok w' /\
  (Encode to v w = (Ok (N.of_nat (length bs)), w') /\ out = bs /\ bw_err w' = None \/
   exists e rest, Encode to v w = (Err e, w') /\ bs = out ++ rest /\ rest <> [] /\ bw_err w' = Some e /\ error_of to e).
Proof.
  intros to w v F O E V. exists (leb_encode v).
  destruct (encode_spec to v w F V O E) as [(w' & Eq & (G1 & G2 & G3 & _) & E')|(e & k & w' & Eq & K & (G1 & G2 & G3 & _) & E' & Er)].
  - exists (leb_encode v), w'. split; [now apply encode_shortest|]. split; [exact G1|]. split; [exact G2|]. split; [exact G3|]. left. auto.
  - exists (firstn k (leb_encode v)), w'. split; [now apply encode_shortest|]. split; [exact G1|]. split; [exact G2|]. split; [exact G3|]. right.
    exists e, (skipn k (leb_encode v)). rewrite firstn_skipn. split; [exact Eq|]. split; [reflexivity|]. split; [|auto].
    intros Z. apply (f_equal (@length N)) in Z. rewrite skipn_length in Z. cbn [length] in Z. lia.
Qed.
Print Assumptions encode_through_writer.
(** A writer of two bytes, over an io.Writer that takes three bytes and then
    fails *)
Definition three : sink := fun k p => match k with 0%nat => (length p, None) | _ => (Nat.min 1 (length p), Some EOther) end.
Example encode_through_writer_used : fair three /\ writer_ok (new_writer 2) /\
  Encode three 624485 (new_writer 2) = (Ok 3, mkWriter 2 [38] None 1 [229; 142]) /\
  fst (Encode three 624485 (mkWriter 2 [38] None 1 [229; 142])) = Err EOther.
Proof.
  split; [intros [|k] p; cbn; [lia|destruct p; cbn; lia]|]. split; [split; cbn; lia|]. split; reflexivity.
Qed.

(** After an error every call reports it again, and writes nothing. *)
Theorem writer_error_stays : forall to w e v, bw_err w = Some e -> Encode to v w = (Err e, w) /\ flush to w = (Err e, w).
Proof. intros to w e v E. split; [now apply encode_failed|now apply flush_failed]. Qed.
Print Assumptions writer_error_stays.
Example writer_error_stays_used : bw_err (mkWriter 2 [7] (Some EOther) 2 [229; 142; 38]) = Some EOther.
Proof. reflexivity. Qed.

(** When Flush succeeds after the numbers were written without an error, the
    io.Writer has all of them, each in its shortest form. *)
Theorem flushed_numbers_arrive : forall to w vs ns w1 w2, fair to -> writer_ok w -> bw_err w = None -> Forall (fun v => v < 2 ^ 32) vs ->
  encode_all to vs w = (Ok ns, w1) -> flush to w1 = (Ok tt, w2) ->
  exists bss, Forall2 shortest vs bss /\ ns = map (fun bs => N.of_nat (length bs)) bss /\ bw_taken w2 = written w ++ concat bss.
Proof.
  intros to w vs ns w1 w2 F O E V A Fl. exists (map leb_encode vs). split.
  { clear - V. induction V as [|v vs Hv _ IH]; [constructor|]. constructor; [now apply encode_shortest|exact IH]. }
  destruct (encode_all_spec to F vs w V O E) as [(w' & Eq & G & E')|(e & k & w' & Eq & _)]; rewrite Eq in A; [|discriminate].
  inversion A; subst. split; [now rewrite map_map|].
  destruct G as (G1 & _ & G3 & _).
  destruct (flush_spec to w1 F G3 E') as [(w' & Eq' & (H1 & _) & _ & B)|(e & w' & Eq' & _)]; rewrite Eq' in Fl; [|discriminate].
  inversion Fl; subst. unfold written in H1 at 1. rewrite B, !app_nil_r in H1. now rewrite H1, G1.
Qed.
Print Assumptions flushed_numbers_arrive.

(** Over an io.Writer that takes everything nothing fails, whatever the size
    of the buffer. *)
Theorem good_writer_never_fails : forall to w vs, takes_all to -> writer_ok w -> bw_err w = None -> Forall (fun v => v < 2 ^ 32) vs ->
  exists ns w1 w2, encode_all to vs w = (Ok ns, w1) /\ flush to w1 = (Ok tt, w2) /\ bw_err w2 = None.
Proof.
  intros to w vs T O E V. pose proof (takes_all_fair to T) as F.
  destruct (encode_all_spec to F vs w V O E) as [(w' & Eq & G & E')|(e & k & w' & _ & _ & _ & _ & Er)]; [|destruct (takes_all_error to e T Er)].
  destruct (flush_spec to w' F ltac:(apply G) E') as [(w2 & Eq' & _ & E2 & _)|(e & w2 & _ & _ & _ & Er)]; [|destruct (takes_all_error to e T Er)].
  eauto 8.
Qed.
Print Assumptions good_writer_never_fails.
Definition all : sink := fun _ p => (length p, None).
Example flushed_numbers_arrive_used : exists w1 w2,
  encode_all all [624485; 1; 300] (new_writer 2) = (Ok [3; 1; 2], w1) /\ flush all w1 = (Ok tt, w2) /\
  takes_all all /\ bw_taken w1 = [229; 142; 38; 1] /\ bw_taken w2 = [229; 142; 38; 1; 172; 2].
Proof.
  do 2 eexists. split; [vm_compute; reflexivity|]. split; [vm_compute; reflexivity|].
  split; [intros k p; reflexivity|]. split; reflexivity.
Qed.

(** An Encode that fails may have written some bytes of its number. *)
Theorem failed_encode_writes_nothing_refuted :
  exists to w v e w', fair to /\ writer_ok w /\ bw_err w = None /\ v < 2 ^ 32 /\ Encode to v w = (Err e, w') /\ bw_taken w' <> bw_taken w.
Proof.
  exists three, (mkWriter 1 [] None 0 []), 624485. do 2 eexists.
  split; [apply encode_through_writer_used|]. split; [split; cbn; lia|]. split; [reflexivity|]. split; [reflexivity|].
  split; [vm_compute; reflexivity|]. discriminate.
Qed.
Print Assumptions failed_encode_writes_nothing_refuted.

(** ** Reading *)

(** Decode gives the number that the bytes still to be read begin with,
    modulo 2^32, and leaves exactly the bytes after it, however the io.Reader
    cuts them into pieces, also if it reads nothing now and then, and if its
    last bytes come together with its error. *)
Theorem decode_through_reader : forall r bs rest, reader_ok r -> unread r = bs ++ rest -> leb_form bs ->
  exists r', Decode r = (Ok (leb_value bs mod 2 ^ 32, N.of_nat (length bs)), r') /\ reader_ok r' /\ unread r' = rest /\
  st_final (br_from r') = st_final (br_from r).
Proof.
  intros r bs rest O U F. pose proof (decode_spec r O) as D. destruct (leb128_decode_value bs rest F) as (_ & _ & X).
  rewrite U, X in D. exact D.
Qed.
Print Assumptions decode_through_reader.

(** If they begin with no number, because they end too early, the result is
    the error of the io.Reader: io.EOF or its own. *)
Theorem decode_reports_reader_error : forall r, reader_ok r -> Forall more_byte (unread r) ->
  exists r', Decode r = (Err (st_final (br_from r)), r') /\ unread r' = [].
Proof.
  intros r O M. pose proof (decode_spec r O) as D. rewrite (decode_truncated _ M) in D. destruct D as (r' & D & _ & U). eauto.
Qed.
Print Assumptions decode_reports_reader_error.
(** There is nothing else for bytes. *)
Theorem number_or_cut_off : forall s, Forall (fun b => b < 256) s -> (exists bs rest, s = bs ++ rest /\ leb_form bs) \/ Forall more_byte s.
Proof.
  intros s H. destruct (leb_split s H) as [(e & rest & F & Eq)|M]; [left; exists e, rest; auto|right; exact M].
Qed.
Print Assumptions number_or_cut_off.
Example decode_through_reader_used :
  let r := new_reader 16 (mkStream [[229]; []; [142; 38; 129]] ENotExist true) in
  reader_ok r /\ leb_form [229; 142; 38] /\ fst (decode_all 1 r) = Ok [(624485, 3)] /\
  fst (decode_all 2 r) = Err ENotExist.
Proof.
  cbv zeta. split.
  { split; [cbn; lia|]. split; [|now left]. intros a b c E H. apply (f_equal (@length _)) in E. cbn in E. rewrite !app_length in E. lia. }
  split; [repeat constructor; discriminate|]. split; reflexivity.
Qed.

(** Numbers written through any buffered writer and flushed are read back in
    order through any buffered reader over any io.Reader that delivers the
    bytes; then comes the reader's own end. *)
Theorem buffered_round_trip : forall to size vs ns w1 w2 r, fair to -> (0 < size)%nat -> Forall (fun v => v < 2 ^ 32) vs ->
  encode_all to vs (new_writer size) = (Ok ns, w1) -> flush to w1 = (Ok tt, w2) ->
  reader_ok r -> unread r = bw_taken w2 ->
  exists r', decode_all (length vs) r = (Ok (combine vs ns), r') /\
  exists r'', Decode r' = (Err (st_final (br_from r)), r'').
Proof.
  intros to size vs ns w1 w2 r F Sz V A Fl O U.
  assert (O0 : writer_ok (new_writer size)) by (split; cbn; lia).
  destruct (encode_all_spec to F vs (new_writer size) V O0 eq_refl) as [(w' & Eq & G & E')|(e & k & w' & Eq & _)]; rewrite Eq in A; [|discriminate].
  inversion A; subst w' ns. clear A. destruct G as (G1 & _ & G3 & _).
  destruct (flush_spec to w1 F G3 E') as [(w' & Eq' & (H1 & _) & _ & B)|(e & w' & Eq' & _)]; rewrite Eq' in Fl; [|discriminate].
  inversion Fl; subst w'. unfold written in H1 at 1. rewrite B, !app_nil_r, G1 in H1. cbn in H1. rewrite H1 in U. clear - V O U.
  revert r O U. induction V as [|v vs Hv _ IH]; intros r O U.
  - exists r. split; [reflexivity|]. pose proof (decode_reports_reader_error r O) as D. rewrite U in D.
    destruct (D ltac:(constructor)) as (r' & D' & _). eauto.
  - cbn [map concat] in U. destruct (leb128_encode_minimal v Hv) as (Fo & Va & _).
    destruct (decode_through_reader r _ _ O U Fo) as (r1 & D & O1 & U1 & Fi). destruct (IH r1 O1 U1) as (r2 & D2 & r3 & D3).
    cbn [length decode_all]. rewrite D, D2. rewrite Va, N.mod_small by exact Hv. exists r2. split; [reflexivity|].
    exists r3. now rewrite <- Fi.
Qed.
Print Assumptions buffered_round_trip.
Example buffered_round_trip_used :
  let r := new_reader 16 (mkStream [[229; 142]; [38; 1; 172]; []; [2]] EEOF false) in
  reader_ok r /\ unread r = [229; 142; 38; 1; 172; 2] /\ fst (decode_all 3 r) = Ok [(624485, 3); (1, 1); (300, 2)].
Proof.
  cbv zeta. split.
  { split; [cbn; lia|]. split; [|now left]. intros a b c E H. apply (f_equal (@length _)) in E. cbn in E. rewrite !app_length in E. lia. }
  split; reflexivity.
Qed.

(** A reader that gives nothing a hundred times in a row is given up on. *)
Theorem impatient_reader_refuted : exists st, concat (st_pieces st) = [5] /\ fst (Decode (new_reader 16 st)) = Err EOther.
Proof. exists (mkStream (repeat [] 100 ++ [[5]]) EEOF false). split; reflexivity. Qed.
Print Assumptions impatient_reader_refuted.
