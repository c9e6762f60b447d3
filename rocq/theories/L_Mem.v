(** Memory: reading, writing, allocating, framing. *)
From Coq Require Import NArith ZArith List String Bool Lia ZifyBool ZifyNat ZifyN.
From Verif Require Import GoBase M_Types M_Layout S_Layout L_Layout M_State M_Utf M_Load M_Store
  S_Memory L_Access L_Variant.
Import ListNotations.
Open Scope N_scope.
Open Scope go_scope.

(** ** Lists *)
Lemma write_at_length : forall lo bs data, List.length (write_at lo bs data) = List.length data.
Proof.
  induction lo as [|lo IH]; intros bs data.
  - revert bs. induction data as [|d data IHd]; intros bs; [reflexivity|].
    destruct bs; cbn; [reflexivity|]. rewrite IHd. reflexivity.
  - destruct data as [|d data]; cbn; [reflexivity|]. rewrite IH. reflexivity.
Qed.

Lemma write_at_nth : forall lo bs data i d, (lo + List.length bs <= List.length data)%nat ->
  nth i (write_at lo bs data) d
  = if (Nat.leb lo i && Nat.ltb i (lo + List.length bs))%bool then nth (i - lo) bs d else nth i data d.
Proof.
  induction lo as [|lo IH]; intros bs data i d H.
  - cbn [Nat.leb andb]. revert bs i H. induction data as [|x data IHd]; intros bs i H.
    + destruct bs; [|cbn in H; lia]. cbn. destruct (Nat.ltb_spec i 0); [lia|reflexivity].
    + destruct bs as [|b bs]; cbn [write_at].
      * cbn [List.length]. destruct (Nat.ltb_spec i (0 + 0)); [lia|reflexivity].
      * destruct i as [|i]; [reflexivity|]. cbn [nth]. cbn in H. rewrite IHd by (cbn; lia).
        cbn [List.length]. rewrite !Nat.sub_0_r.
        destruct (Nat.ltb_spec i (0 + List.length bs)), (Nat.ltb_spec (S i) (0 + S (List.length bs))); try lia; reflexivity.
  - destruct data as [|x data]; [cbn in H; lia|]. cbn [write_at].
    destruct i as [|i]; [reflexivity|]. cbn [nth Nat.leb]. cbn in H. rewrite IH by lia.
    change (S lo + List.length bs)%nat with (S (lo + List.length bs)).
    change (S i - S lo)%nat with (i - lo)%nat.
    destruct (Nat.ltb_spec i (lo + List.length bs)), (Nat.ltb_spec (S i) (S (lo + List.length bs))); try lia; reflexivity.
Qed.

Lemma write_at_Forall : forall P lo bs data, Forall P bs -> Forall P data -> Forall P (write_at lo bs data).
Proof.
  intros P. induction lo as [|lo IH]; intros bs data Hb Hd.
  - revert bs Hb. induction data as [|d data IHd]; intros bs Hb; [constructor|].
    destruct bs as [|b bs]; cbn; [assumption|]. inversion Hb; inversion Hd; subst. constructor; auto.
  - destruct data; cbn; [constructor|]. inversion Hd; subst. constructor; auto.
Qed.

Lemma nth_slice : forall {A} k n (l : list A) i d, (i < n)%nat ->
  nth i (firstn n (skipn k l)) d = nth (k + i) l d.
Proof.
  intros A. induction k as [|k IH]; intros n l i d H.
  - cbn [skipn Nat.add]. revert n l H. induction i as [|i IHi]; intros n l H; destruct n as [|n]; try lia;
      destruct l as [|x l]; cbn; auto. apply IHi. lia.
  - destruct l as [|x l].
    + rewrite skipn_nil, firstn_nil. destruct i; reflexivity.
    + cbn [skipn Nat.add nth]. apply IH. assumption.
Qed.

Lemma firstn_skipn_ext : forall {A} n k (l l' : list A) d,
  (k + n <= List.length l)%nat -> (k + n <= List.length l')%nat ->
  (forall i, (k <= i < k + n)%nat -> nth i l d = nth i l' d) ->
  firstn n (skipn k l) = firstn n (skipn k l').
Proof.
  intros A n k l l' d H H' E. apply (nth_ext _ _ d d).
  - rewrite !firstn_length, !skipn_length. lia.
  - intros i Hi. rewrite firstn_length, skipn_length in Hi.
    rewrite !nth_slice by lia. apply E. lia.
Qed.

(** ** Slices *)
Definition slice (m : memory) (p n : N) : list N :=
  firstn (N.to_nat n) (skipn (N.to_nat p) (m_data m)).

Lemma mem_slice_ok : forall m p n, wf_mem m -> p + n <= m_len m ->
  mem_slice m p (add32 p n) = Ok (slice m p n).
Proof.
  intros m p n (Hc & Hl & _) H. unfold mem_slice, add32, two32. change (2 ^ 32) with 4294967296 in *.
  rewrite N.mod_small by lia.
  destruct (N.leb_spec p (p + n)), (N.leb_spec (p + n) (mem_cap m)); try lia.
  cbn [andb]. unfold slice. replace (p + n - p) with n by lia. reflexivity.
Qed.

Lemma slice_length : forall m p n, wf_mem m -> p + n <= m_len m ->
  List.length (slice m p n) = N.to_nat n.
Proof.
  intros m p n (Hc & _) H. unfold slice. rewrite firstn_length, skipn_length.
  unfold mem_cap in Hc. lia.
Qed.

Lemma slice_ext : forall m m' p n, wf_mem m -> wf_mem m' -> p + n <= m_len m -> p + n <= m_len m' ->
  (forall b, within p n b -> byte m b = byte m' b) -> slice m p n = slice m' p n.
Proof.
  intros m m' p n (Hc & _) (Hc' & _) H H' E. unfold mem_cap in *. unfold slice.
  apply (firstn_skipn_ext _ _ _ _ 0); [lia|lia|].
  intros i Hi. specialize (E (N.of_nat i)). unfold byte in E. rewrite Nat2N.id in E.
  apply E. unfold within. lia.
Qed.

Lemma slice_bytes : forall m p n, wf_mem m -> Forall (fun b => b < 256) (slice m p n).
Proof.
  intros m p n (_ & _ & H). unfold slice. apply Forall_forall. intros x Hx.
  rewrite Forall_forall in H. apply H.
  assert (In x (skipn (N.to_nat p) (m_data m))).
  { rewrite <- (firstn_skipn (N.to_nat n)). apply in_or_app. left. assumption. }
  rewrite <- (firstn_skipn (N.to_nat p)). apply in_or_app. right. assumption.
Qed.

Lemma byte_write : forall m p bs b, p + N.of_nat (List.length bs) <= mem_cap m ->
  byte (mem_write m p bs) b
  = if (p <=? b) && (b <? p + N.of_nat (List.length bs)) then nth (N.to_nat (b - p)) bs 0 else byte m b.
Proof.
  intros m p bs b H. unfold byte, mem_write, mem_cap in *. cbn [m_data].
  rewrite write_at_nth by lia.
  destruct (N.leb_spec p b), (Nat.leb_spec (N.to_nat p) (N.to_nat b)); try lia; cbn [andb]; try reflexivity.
  destruct (N.ltb_spec b (p + N.of_nat (List.length bs))),
    (Nat.ltb_spec (N.to_nat b) (N.to_nat p + List.length bs)); try lia; try reflexivity.
  f_equal. lia.
Qed.

Lemma wf_write : forall m p bs, wf_mem m -> Forall (fun b => b < 256) bs -> wf_mem (mem_write m p bs).
Proof.
  intros m p bs (Hc & Hl & Hb) H. repeat split.
  - unfold mem_write, mem_cap in *. cbn. rewrite write_at_length. assumption.
  - assumption.
  - cbn. apply write_at_Forall; assumption.
Qed.

Lemma slice_write : forall m p bs, wf_mem m -> p + N.of_nat (List.length bs) <= m_len m ->
  Forall (fun b => b < 256) bs -> slice (mem_write m p bs) p (N.of_nat (List.length bs)) = bs.
Proof.
  intros m p bs Hm H Hb. pose proof (wf_write m p bs Hm Hb) as Hw.
  apply (nth_ext _ _ 0 0).
  - rewrite slice_length; [lia|assumption|cbn; assumption].
  - rewrite slice_length by (assumption || (cbn; assumption)). intros i Hi.
    assert (E : nth i (slice (mem_write m p bs) p (N.of_nat (List.length bs))) 0 = byte (mem_write m p bs) (p + N.of_nat i)).
    { unfold slice, byte. rewrite nth_slice by lia. f_equal. lia. }
    rewrite E, byte_write by (destruct Hm as (Hc & _); lia).
    destruct (N.leb_spec p (p + N.of_nat i)), (N.ltb_spec (p + N.of_nat i) (p + N.of_nat (List.length bs))); try lia.
    cbn [andb]. f_equal. lia.
Qed.

(** ** Little endian numbers *)
Lemma le_encode_length : forall n x, List.length (le_encode n x) = n.
Proof. induction n; intros; cbn; auto. Qed.

Lemma le_encode_bytes : forall n x, Forall (fun b => b < 256) (le_encode n x).
Proof. induction n; intros; cbn; constructor; auto. apply N.mod_lt. lia. Qed.

Lemma le_decode_encode : forall n x, le_decode (le_encode n x) = x mod 256 ^ N.of_nat n.
Proof.
  induction n as [|n IH]; intros x; cbn [le_encode le_decode].
  - rewrite N.mod_1_r. reflexivity.
  - rewrite IH. replace (N.of_nat (S n)) with (N.succ (N.of_nat n)) by lia.
    rewrite N.pow_succ_r'.
    rewrite N.mod_mul_r; [reflexivity|lia|]. apply N.pow_nonzero. lia.
Qed.

Lemma le_decode_lt : forall bs, Forall (fun b => b < 256) bs ->
  le_decode bs < 256 ^ N.of_nat (List.length bs).
Proof.
  induction 1 as [|b bs Hb H IH]; cbn [le_decode List.length]; [reflexivity|].
  replace (N.of_nat (S (List.length bs))) with (N.succ (N.of_nat (List.length bs))) by lia.
  rewrite N.pow_succ_r'. lia.
Qed.

(** ** States *)
Definition good (s : state) : Prop := wf_mem (s_mem s).
Definition len (s : state) : N := m_len (s_mem s).

Lemma mem_len32_ok : forall s, good s -> mem_len32 (s_mem s) = len s.
Proof. intros s (_ & H & _). unfold mem_len32, len. apply u32_small. exact H. Qed.

(** [s'] is reachable from [s] by writing at most the addresses of [R] and
    fresh blocks. *)
Record step (init : N -> Prop) (s s' : state) (R : N -> Prop) : Prop := mkStep {
  st_good : good s';
  st_len : len s <= len s';
  st_hist : exists l, s_hist s' = (l ++ s_hist s)%list;
  st_world : s_world s' = s_world s;
  st_frame : forall b, owned init (s_hist s) b -> ~ R b -> byte (s_mem s') b = byte (s_mem s) b }.

Lemma owned_mono : forall init h l b, owned init h b -> owned init (l ++ h)%list b.
Proof.
  intros init h l b [H|(r & p & Hin & H)]; [left; assumption|].
  right. exists r, p. split; [apply in_or_app; right; assumption|assumption].
Qed.

Lemma step_owned : forall init s s' R b, step init s s' R ->
  owned init (s_hist s) b -> owned init (s_hist s') b.
Proof. intros init s s' R b [_ _ [l ->] _ _] H. apply owned_mono. assumption. Qed.

Lemma step_refl : forall init s R, good s -> step init s s R.
Proof. intros. constructor; auto; [lia|exists []; reflexivity]. Qed.

Lemma step_weaken : forall init s s' (R R' : N -> Prop),
  step init s s' R -> (forall b, owned init (s_hist s) b -> R b -> R' b) -> step init s s' R'.
Proof.
  intros init s s' R R' [H1 H2 H3 H4 H5] H. constructor; auto.
Qed.

Lemma step_trans : forall init s s1 s2 (R R1 R2 : N -> Prop),
  step init s s1 R1 -> step init s1 s2 R2 ->
  (forall b, owned init (s_hist s) b -> R1 b -> R b) ->
  (forall b, owned init (s_hist s) b -> R2 b -> R b) -> step init s s2 R.
Proof.
  intros init s s1 s2 R R1 R2 S1 S2 H1 H2.
  pose proof (st_len _ _ _ _ S1). pose proof (st_len _ _ _ _ S2).
  constructor.
  - apply S2.
  - lia.
  - destruct (st_hist _ _ _ _ S1) as [l1 E1]. destruct (st_hist _ _ _ _ S2) as [l2 E2].
    exists (l2 ++ l1)%list. rewrite E2, E1, app_assoc. reflexivity.
  - rewrite (st_world _ _ _ _ S2). apply (st_world _ _ _ _ S1).
  - intros b Ho Hr. rewrite (st_frame _ _ _ _ S2); [apply (st_frame _ _ _ _ S1)|eapply step_owned; eauto|]; eauto.
Qed.

(** ** Primitive operations *)
Definition wr (s : state) (p : N) (bs : list N) : state :=
  mkState (mem_write (s_mem s) p bs) (s_hist s) (s_world s).

Lemma store_bytes_ok : forall p n bs s, good s -> p + n <= len s ->
  store_bytes p n bs s = (Ok tt, wr s p bs).
Proof.
  intros p n bs s Hg H. unfold store_bytes. erewrite bind_ok; [|reflexivity].
  rewrite mem_slice_ok by assumption. reflexivity.
Qed.

Lemma store_bytes_cases : forall p n bs s,
  store_bytes p n bs s = (Ok tt, wr s p bs) /\ p <= add32 p n /\ add32 p n <= mem_cap (s_mem s)
  \/ store_bytes p n bs s = (Panic, s).
Proof.
  intros p n bs s. unfold store_bytes, bind, get_mem, lift_o, mem_slice, put_mem.
  destruct (N.leb_spec p (add32 p n)), (N.leb_spec (add32 p n) (mem_cap (s_mem s))); cbn; auto.
Qed.

Lemma step_wr : forall init s p bs, good s -> Forall (fun b => b < 256) bs ->
  p + N.of_nat (List.length bs) <= len s ->
  step init s (wr s p bs) (within p (N.of_nat (List.length bs))).
Proof.
  intros init s p bs Hg Hb H. constructor; cbn [wr s_mem s_hist s_world].
  - apply wf_write; assumption.
  - unfold len. cbn. lia.
  - exists []. reflexivity.
  - reflexivity.
  - intros b _ Hn. rewrite byte_write by (destruct Hg as (Hc & _); unfold len in H; lia).
    destruct (N.leb_spec p b), (N.ltb_spec b (p + N.of_nat (List.length bs))); try reflexivity.
    exfalso. apply Hn. unfold within. lia.
Qed.

(** Reading a number in a state that agrees with one in which it was written. *)
Lemma load_uint_ok : forall n p s, good s -> p + n <= len s ->
  load_uint n p s = (Ok (le_decode (slice (s_mem s) p n)), s).
Proof.
  intros n p s Hg H. unfold load_uint. erewrite bind_ok; [|reflexivity].
  rewrite mem_slice_ok by assumption. reflexivity.
Qed.

Lemma load_uint_lt : forall n p s x s', good s -> p + n <= len s ->
  load_uint n p s = (Ok x, s') -> x < 256 ^ n.
Proof.
  intros n p s x s' Hg H E. rewrite load_uint_ok in E by assumption. inversion E; subst.
  pose proof (le_decode_lt (slice (s_mem s') p n) (slice_bytes _ _ _ Hg)) as L.
  rewrite slice_length, N2Nat.id in L by assumption. exact L.
Qed.

Lemma load_after_wr : forall s p k x s'', good s -> good s'' ->
  p + N.of_nat k <= len s -> len s <= len s'' ->
  (forall b, within p (N.of_nat k) b -> byte (s_mem s'') b = byte (s_mem (wr s p (le_encode k x))) b) ->
  load_uint (N.of_nat k) p s'' = (Ok (x mod 256 ^ N.of_nat k), s'').
Proof.
  intros s p k x s'' Hg Hg'' H Hl E. rewrite load_uint_ok by (assumption || lia).
  rewrite (slice_ext (s_mem s'') (s_mem (wr s p (le_encode k x)))); try assumption.
  - pose proof (slice_write (s_mem s) p (le_encode k x) Hg) as W. rewrite le_encode_length in W.
    cbn [wr s_mem]. rewrite W; [rewrite le_decode_encode; reflexivity|assumption|apply le_encode_bytes].
  - apply wf_write; [assumption|apply le_encode_bytes].
  - unfold len in *. lia.
Qed.

(** ** Allocation *)
Lemma realloc_fresh : forall cx init a n s o s', correct_allocator cx init -> good s ->
  realloc cx 0 0 a n s = (o, s') ->
  step init s s' (fun _ => False) /\
  match o with
  | Ok p => (a | p) /\ p + n <= len s' /\
            (forall b, within p n b -> ~ owned init (s_hist s) b) /\
            (forall b, within p n b -> owned init (s_hist s') b)
  | _ => alloc_failed cx o
  end.
Proof.
  intros cx init a n s o s' Hc Hg H. unfold realloc in H.
  destruct (cx_realloc cx (mkReq 0 0 a n) s) as [o1 [m w]] eqn:E.
  destruct (Hc (mkReq 0 0 a n) s o1 m w eq_refl eq_refl Hg E) as (-> & W & L & P & F).
  assert (Hf : forall B (x : outcome B), match x with Ok _ => False | Err e => o1 = Err e | Panic => o1 = Panic | Diverge => o1 = Diverge end ->
    alloc_failed cx x).
  { intros B x X. exists (mkReq 0 0 a n), s. rewrite E. auto. }
  destruct o1 as [p|e| | ]; inversion H; subst; clear H.
  - destruct (F p eq_refl) as (D & B & Fr).
    cbn in D, B, Fr. assert (Hp : u32 p = p).
    { apply u32_small. destruct W as (_ & W & _). change (2 ^ 32) with two32 in W. unfold len in *. lia. }
    rewrite Hp. split; [|split; [assumption|split; [assumption|split; [assumption|]]]].
    + constructor; cbn [s_mem s_hist s_world]; auto. exists [(mkReq 0 0 a n, p)]. reflexivity.
    + intros b Hb. right. exists (mkReq 0 0 a n), p. split; [left; reflexivity|exact Hb].
  - split; [|apply Hf; reflexivity]. constructor; cbn [s_mem s_hist s_world]; auto. exists []. reflexivity.
  - split; [|apply Hf; reflexivity]. constructor; cbn [s_mem s_hist s_world]; auto. exists []. reflexivity.
  - split; [|apply Hf; reflexivity]. constructor; cbn [s_mem s_hist s_world]; auto. exists []. reflexivity.
Qed.

Lemma guarded_cases : forall al sz a n st v ptr s, al = Ok a -> sz = Ok n -> valid_align a ->
  good s -> ptr + n < two32 ->
  ((a | ptr) /\ ptr + n <= len s /\ guarded al sz st v ptr s = st v ptr s) \/
  guarded al sz st v ptr s = (Err EOther, s) /\ (~ (a | ptr) \/ len s < ptr + n).
Proof.
  intros al sz a n st v ptr s Ha Hs Hv Hg Hb.
  assert (Hnz := valid_align_nz _ Hv).
  destruct (N.eq_dec (ptr mod a) 0) as [D|D].
  - apply N.mod_divide in D; [|assumption].
    destruct (N.le_gt_cases (ptr + n) (len s)) as [B|B].
    + left. repeat split; try assumption. eapply guarded_ok; try eassumption.
      rewrite mem_len32_ok; assumption.
    + right. split; [|right; assumption]. subst. unfold guarded, store_validate.
      rewrite bind_assoc, bind_lift_ok, bind_assoc.
      erewrite bind_ok; [|apply check_aligned_ok; [exact Hv|lia|exact D]].
      rewrite bind_assoc, bind_lift_ok. unfold check_bounds, bind, get_mem.
      rewrite mem_len32_ok by assumption. unfold add32. rewrite N.mod_small by lia.
      destruct (N.ltb_spec (len s) (ptr + n)); [reflexivity|lia].
  - right. assert (D' : ~ (a | ptr)) by (intros X; apply N.mod_divide in X; auto).
    split; [|left; assumption]. subst. unfold guarded, store_validate.
    rewrite bind_assoc, bind_lift_ok, bind_assoc. unfold bind at 1.
    rewrite check_aligned_bad by assumption. reflexivity.
Qed.

(** The bytes of a slice, as a number. *)
Lemma slice_cons : forall m p n, p + N.succ n <= mem_cap m ->
  slice m p (N.succ n) = byte m p :: slice m (p + 1) n.
Proof.
  intros m p n H. unfold slice, byte, mem_cap in *. rewrite N2Nat.inj_succ.
  replace (N.to_nat (p + 1)) with (S (N.to_nat p)) by lia.
  assert (L : (N.to_nat p < List.length (m_data m))%nat) by lia. clear H.
  revert L. generalize (N.to_nat p), (m_data m). intros k l. revert l.
  induction k as [|k IH]; intros l L; (destruct l as [|x l]; [cbn in L; lia|]).
  - reflexivity.
  - cbn [skipn nth]. apply IH. cbn in L. lia.
Qed.

Lemma number_slice : forall n m p, p + N.of_nat n <= mem_cap m ->
  le_decode (slice m p (N.of_nat n)) = number m p n.
Proof.
  induction n as [|n IH]; intros m p H; [reflexivity|].
  rewrite Nat2N.inj_succ, slice_cons by lia. cbn [le_decode number]. rewrite IH by lia. reflexivity.
Qed.

Lemma load_number : forall n p s, good s -> p + N.of_nat n <= len s ->
  load_uint (N.of_nat n) p s = (Ok (number (s_mem s) p n), s).
Proof.
  intros n p s Hg H. rewrite load_uint_ok by assumption. rewrite number_slice; [reflexivity|].
  destruct Hg as (Hc & _). unfold len in H. lia.
Qed.

Lemma byte_lt : forall m i, wf_mem m -> byte m i < 256.
Proof.
  intros m i (_ & _ & H). unfold byte. rewrite Forall_forall in H.
  destruct (Nat.lt_ge_cases (N.to_nat i) (List.length (m_data m))) as [L|L].
  - apply H. apply nth_In. exact L.
  - rewrite nth_overflow by exact L. lia.
Qed.

Lemma number_lt : forall n m p, wf_mem m -> number m p n < 256 ^ N.of_nat n.
Proof.
  induction n as [|n IH]; intros m p H; [reflexivity|]. cbn [number].
  rewrite Nat2N.inj_succ, N.pow_succ_r'. specialize (IH m (p + 1) H). pose proof (byte_lt m p H). lia.
Qed.
