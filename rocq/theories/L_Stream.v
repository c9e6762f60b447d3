(** Reading a stream against reading the bytes it delivers. *)
From Coq Require Import Arith NArith List Bool Lia ZifyNat ZifyN.
From Verif Require Import GoBase M_Leb128 M_Api M_Binary L_Binary M_Stream.
Import ListNotations.
Open Scope N_scope.

(** A stream that delivers [s], at least a byte at a time, and ends with
    io.EOF, which comes with the last bytes when [t]. *)
Definition carries (t : bool) (st : stream) (s : list N) : Prop :=
  Forall (fun c => c <> []) (st_pieces st) /\ concat (st_pieces st) = s /\ st_final st = EEOF /\ st_together st = t.

Definition same {A} (t : bool) (o : outcome (A * stream)) (o' : outcome (A * list N)) : Prop :=
  match o' with
  | Ok (a, s') => exists st', o = Ok (a, st') /\ carries t st' s'
  | Err e => o = Err e
  | Panic => o = Panic
  | Diverge => o = Diverge
  end.
Definition like {A} (t : bool) (ps : sreader A) (p : reader A) : Prop :=
  forall st s, carries t st s -> (t = true /\ ps st = Err EEOF) \/ same t (ps st) (p s).

Lemma like_ret {A} t (a : A) : like t (sret a) (rret a).
Proof. intros st s R. right. exists st. auto. Qed.
Lemma like_err {A} t e : like t (@serr A e) (rerr e).
Proof. intros st s R. right. reflexivity. Qed.
Lemma like_bind {A B} t ps (p : reader A) (fs : A -> sreader B) f :
  like t ps p -> (forall a, like t (fs a) (f a)) -> like t (sbind ps fs) (rbind p f).
Proof.
  intros Hp Hf st s R. unfold sbind, rbind, obind. destruct (Hp st s R) as [[T E]|E].
  - left. rewrite E. auto.
  - unfold same in E. destruct (p s) as [[a s']|e| |].
    + destruct E as (st' & -> & R'). apply Hf. exact R'.
    + right. rewrite E. reflexivity.
    + right. rewrite E. reflexivity.
    + right. rewrite E. reflexivity.
Qed.
Lemma like_make t heap n : like t (smake heap n) (make heap n).
Proof. intros st s R. right. unfold smake, make. destruct (n <=? heap); [exists st; auto|reflexivity]. Qed.

Lemma at_least_carried t fuel : forall n got st s, carries t st s -> (st_calls st < fuel)%nat ->
  if Nat.leb n (length s) then exists st', read_at_least fuel n got st = Ok (got ++ firstn n s, st') /\ carries t st' (skipn n s)
  else read_at_least fuel n got st = Err EEOF.
Proof.
  induction fuel as [|f IH]; intros n got st s R Hf; [lia|].
  destruct n as [|n].
  { cbn. exists st. rewrite app_nil_r. auto. }
  remember (S n) as k eqn:Ek. cbn [read_at_least]. replace (Nat.eqb k 0) with false by (symmetry; apply Nat.eqb_neq; lia).
  destruct st as [ps fin tg]. destruct R as (Hne & Hc & Hfin & Ht). cbn [st_pieces st_final st_together] in *.
  unfold st_read. cbn [st_pieces st_final st_together]. destruct ps as [|c cs].
  - cbn in Hc. subst s. cbn [length]. replace (Nat.leb k 0) with false by (symmetry; apply Nat.leb_gt; lia).
    rewrite Nat.sub_0_r. replace (Nat.eqb k 0) with false by (symmetry; apply Nat.eqb_neq; lia). rewrite Hfin. reflexivity.
  - inversion Hne as [|? ? Hc0 Hcs]. subst. cbn [concat]. destruct (Nat.leb (length c) (S n)) eqn:L.
    + apply Nat.leb_le in L.
      assert (G : if Nat.leb (S n) (length (c ++ concat cs)) then
                    exists st', read_at_least f (S n - length c) (got ++ c) (mkStream cs EEOF t) = Ok (got ++ firstn (S n) (c ++ concat cs), st') /\ carries t st' (skipn (S n) (c ++ concat cs))
                  else read_at_least f (S n - length c) (got ++ c) (mkStream cs EEOF t) = Err EEOF).
      { specialize (IH (S n - length c)%nat (got ++ c) (mkStream cs EEOF t) (concat cs)).
        assert (R' : carries t (mkStream cs EEOF t) (concat cs)) by (repeat split; cbn; auto).
        assert (F' : (st_calls (mkStream cs EEOF t) < f)%nat).
        { unfold st_calls in *. cbn [st_pieces concat length] in *. rewrite app_length in Hf. lia. }
        specialize (IH R' F'). rewrite app_length. rewrite firstn_app, skipn_app, firstn_all2, skipn_all2 by lia.
        destruct (Nat.leb_spec (S n - length c) (length (concat cs))); destruct (Nat.leb_spec (S n) (length c + length (concat cs))); try lia.
        - destruct IH as (st' & E & R1). exists st'. rewrite E, app_assoc. auto.
        - exact IH. }
      destruct cs as [|c' cs']; [|exact G]. destruct t; [|exact G].
      cbn [concat]. rewrite app_nil_r in *. destruct (Nat.eqb_spec (S n - length c) 0) as [E|E].
      * replace (Nat.leb (S n) (length c)) with true by (symmetry; apply Nat.leb_le; lia).
        exists (mkStream [] EEOF true). rewrite firstn_all2, skipn_all2 by lia. split; [reflexivity|]. repeat split; auto.
      * replace (Nat.leb (S n) (length c)) with false by (symmetry; apply Nat.leb_gt; lia). reflexivity.
    + apply Nat.leb_gt in L. rewrite app_length. replace (Nat.leb (S n) (length c + length (concat cs))) with true by (symmetry; apply Nat.leb_le; lia).
      rewrite firstn_length. replace (S n - Nat.min (S n) (length c))%nat with 0%nat by lia.
      rewrite firstn_app, skipn_app. replace (S n - length c)%nat with 0%nat by lia. rewrite firstn_O, app_nil_r. cbn [skipn].
      exists (mkStream (skipn (S n) c :: cs) EEOF t). split.
      * destruct f; reflexivity.
      * repeat split; cbn [st_pieces st_final st_together]; auto. constructor; [|exact Hcs]. intros E. apply (f_equal (@length N)) in E. rewrite skipn_length in E. cbn in E. lia.
Qed.
Lemma full_carried t n st s : carries t st s -> same t (sfull n st) (read_full n s).
Proof.
  intros R. unfold sfull, read_full. pose proof (at_least_carried t (S (st_calls st)) (N.to_nat n) [] st s R (Nat.lt_succ_diag_r _)) as H.
  destruct (Nat.leb_spec (N.to_nat n) (length s)) as [L|L].
  - replace (n <=? N.of_nat (length s)) with true by (symmetry; apply N.leb_le; lia). exact H.
  - replace (n <=? N.of_nat (length s)) with false by (symmetry; apply N.leb_gt; lia). exact H.
Qed.
Lemma like_full t n : like t (sfull n) (read_full n).
Proof. intros st s R. right. apply full_carried. exact R. Qed.
Lemma byte_carried t st s : carries t st s -> same t (sbyte st) (read_byte s).
Proof.
  intros R. pose proof (full_carried t 1 st s R) as H. unfold sbyte, sbind. unfold read_full in H. destruct s as [|b s]; cbn [length] in H.
  - change (sfull 1 st = Err EEOF) in H. rewrite H. reflexivity.
  - replace (1 <=? N.of_nat (S (length s))) with true in H by (symmetry; apply N.leb_le; lia). destruct H as (st' & -> & R').
    exists st'. auto.
Qed.
Lemma like_byte t : like t sbyte read_byte.
Proof. intros st s R. right. apply byte_carried. exact R. Qed.

(** The last bytes of a number may be lost when the end comes with them. *)
Lemma leb_carried t fuel : forall v sh n st s, carries t st s -> (st_calls st < fuel)%nat ->
  (t = true /\ sleb_aux fuel v sh n st = Err EEOF /\
   ((exists a k, leb_decode_reader_aux v sh n s = Ok (a, k, [])) \/ leb_decode_reader_aux v sh n s = Err EOther)) \/
  match leb_decode_reader_aux v sh n s with
  | Ok (a, k, s') => exists st', sleb_aux fuel v sh n st = Ok (a, k, st') /\ carries t st' s'
  | Err e => sleb_aux fuel v sh n st = Err e
  | _ => False
  end.
Proof.
  induction fuel as [|f IH]; intros v sh n st s R Hf; [lia|].
  destruct st as [ps fin tg]. destruct R as (Hne & Hc & Hfin & Ht). cbn [st_pieces st_final st_together] in *.
  cbn [sleb_aux]. unfold st_read. cbn [st_pieces st_final st_together]. destruct ps as [|c cs].
  - cbn in Hc. subst s. right. reflexivity.
  - inversion Hne as [|? ? Hc0 Hcs]. subst. destruct c as [|b c]; [congruence|]. cbn [concat app leb_decode_reader_aux].
    assert (G : forall st' , carries t st' (c ++ concat cs) -> (st_calls st' < f)%nat ->
      (t = true /\ (if N.land b 128 =? 0 then Ok (N.lor v (leb_group b sh), n + 1, st') else sleb_aux f (N.lor v (leb_group b sh)) (sh + 7) (n + 1) st') = Err EEOF /\
       ((exists a k, (if N.land b 128 =? 0 then Ok (N.lor v (leb_group b sh), n + 1, c ++ concat cs) else leb_decode_reader_aux (N.lor v (leb_group b sh)) (sh + 7) (n + 1) (c ++ concat cs)) = Ok (a, k, [])) \/
        (if N.land b 128 =? 0 then Ok (N.lor v (leb_group b sh), n + 1, c ++ concat cs) else leb_decode_reader_aux (N.lor v (leb_group b sh)) (sh + 7) (n + 1) (c ++ concat cs)) = Err EOther)) \/
      match (if N.land b 128 =? 0 then Ok (N.lor v (leb_group b sh), n + 1, c ++ concat cs) else leb_decode_reader_aux (N.lor v (leb_group b sh)) (sh + 7) (n + 1) (c ++ concat cs)) with
      | Ok (a, k, s') => exists st'', (if N.land b 128 =? 0 then Ok (N.lor v (leb_group b sh), n + 1, st') else sleb_aux f (N.lor v (leb_group b sh)) (sh + 7) (n + 1) st') = Ok (a, k, st'') /\ carries t st'' s'
      | Err e => (if N.land b 128 =? 0 then Ok (N.lor v (leb_group b sh), n + 1, st') else sleb_aux f (N.lor v (leb_group b sh)) (sh + 7) (n + 1) st') = Err e
      | _ => False
      end).
    { intros st' R' F'. destruct (N.land b 128 =? 0); [right; exists st'; auto|]. apply IH; assumption. }
    destruct c as [|b' c].
    + cbn [length Nat.leb]. cbn [app] in *.
      assert (R' : carries t (mkStream cs EEOF t) (concat cs)) by (repeat split; auto).
      assert (F' : (st_calls (mkStream cs EEOF t) < f)%nat) by (unfold st_calls in *; cbn [st_pieces concat length app] in *; lia).
      specialize (G _ R' F').
      destruct cs as [|c' cs']; [|exact G]. destruct t; [|exact G]. clear G. left. split; [reflexivity|]. split; [reflexivity|].
      cbn. destruct (N.land b 128 =? 0); [left; eexists _, _; reflexivity|right; reflexivity].
    + cbn [length Nat.leb firstn skipn].
      apply G; [repeat split; auto; constructor; [discriminate|exact Hcs]|].
      unfold st_calls in *. cbn [st_pieces concat length app] in *. lia.
Qed.
Lemma sleb_carried t st s : carries t st s ->
  (t = true /\ sleb st = Err EEOF /\ ((exists a, read_leb s = Ok (a, [])) \/ read_leb s = Err EOther)) \/ same t (sleb st) (read_leb s).
Proof.
  intros R. unfold sleb, sleb_decode, read_leb, leb_decode_reader.
  destruct (leb_carried t (S (st_calls st)) 0 0 0 st s R (Nat.lt_succ_diag_r _)) as [(T & E & H)|H].
  - left. rewrite E. split; [exact T|]. split; [reflexivity|]. destruct H as [(a & k & ->)| ->]; [left; exists a; reflexivity|right; reflexivity].
  - right. destruct (leb_decode_reader_aux 0 0 0 s) as [[[a k] s']|e| |]; cbn [obind same]; [|rewrite H; reflexivity|destruct H..].
    destruct H as (st' & -> & R'). exists st'. auto.
Qed.
Lemma like_leb t : like t sleb read_leb.
Proof. intros st s R. destruct (sleb_carried t st s R) as [(T & E & _)|H]; [left; auto|right; exact H]. Qed.

Create HintDb like.
#[export] Hint Resolve like_ret like_err like_make like_full like_byte like_leb : like.
Ltac alike :=
  intros; repeat first
  [ solve [auto with like]
  | apply like_bind; [|intros ?]
  | match goal with |- like _ (if ?b then _ else _) (if ?b then _ else _) => destruct b end
  | match goal with |- like _ (match ?x with _ => _ end) (match ?x with _ => _ end) => destruct x end ].

Lemma like_uint16 t : like t suint16 read_uint16.
Proof. unfold suint16, read_uint16. alike. Qed.
#[export] Hint Resolve like_uint16 : like.
Lemma like_preamble t : like t spreamble read_preamble.
Proof. unfold spreamble, read_preamble, read_bytes. alike. Qed.
Lemma like_times {A} t n ps (p : reader A) : like t ps p -> like t (stimes n ps) (read_times n p).
Proof. intros H. induction n; cbn [stimes read_times]; alike. Qed.
Lemma like_vec {A} t heap ps (p : reader A) : like t ps p -> like t (svec heap ps) (read_vec heap p).
Proof. intros H. unfold svec, read_vec. alike. apply like_times. exact H. Qed.
Lemma like_valtype t : like t svaltype read_valtype.
Proof. unfold svaltype, read_valtype. alike. Qed.
Lemma like_valtypes t heap : like t (svaltypes heap) (read_valtypes heap).
Proof. apply like_vec. apply like_valtype. Qed.
#[export] Hint Resolve like_valtypes : like.
Lemma like_type t heap : like t (stype heap) (read_type heap).
Proof. unfold stype, read_type. alike. Qed.
Lemma like_func t : like t sfunc read_func.
Proof. unfold sfunc, read_func. alike. Qed.
Lemma like_string t heap : like t (sstring heap) (read_string heap).
Proof. unfold sstring, read_string. alike. Qed.
#[export] Hint Resolve like_string : like.
Lemma like_export t heap : like t (sexport heap) (read_export heap).
Proof. unfold sexport, read_export. alike. Qed.
Lemma like_instr t : like t sinstr read_instr.
Proof. unfold sinstr, read_instr. alike. Qed.
#[export] Hint Resolve like_instr : like.
Lemma like_expr_loop t f : like t (sexpr_loop f) (read_expr_loop f).
Proof.
  induction f; cbn [sexpr_loop read_expr_loop]; [intros st s R; right; reflexivity|]. alike.
Qed.
Lemma like_expr t : like t sexpr read_expr.
Proof. intros st s R. unfold sexpr, read_expr. pose proof R as (_ & C & _). rewrite C. apply like_expr_loop. exact R. Qed.
#[export] Hint Resolve like_expr : like.
Lemma like_code t heap fn : like t (scode heap fn) (read_code heap fn).
Proof. unfold scode, read_code. alike. Qed.
#[export] Hint Resolve like_code : like.
Lemma like_update t heap n : forall fs, like t (supdate_funcs heap n fs) (update_funcs heap n fs).
Proof. induction n; intros fs; cbn [supdate_funcs update_funcs]; alike. Qed.
#[export] Hint Resolve like_update : like.
Lemma like_update_with_code t heap m : like t (supdate_with_code heap m) (update_funcs_with_code heap m).
Proof. unfold supdate_with_code, update_funcs_with_code. alike. Qed.
#[export] Hint Resolve like_update_with_code : like.
Lemma like_section t heap id size m : like t (ssection heap id size m) (read_section heap id size m).
Proof.
  unfold ssection, read_section, stypes, read_types, sfuncs, read_funcs, sexports, read_exports.
  destruct (id =? 1); [apply like_bind; [apply like_vec, like_type|alike]|].
  destruct (id =? 3); [apply like_bind; [apply like_vec, like_func|alike]|].
  destruct (id =? 10); [alike|].
  destruct (id =? 7); [apply like_bind; [apply like_vec, like_export|alike]|].
  alike.
Qed.

(** The sections up to the end: from a stream that ends together with its last
    bytes, the same, or an error, or a module where reading the bytes gives
    the same module or an error. *)
Definition first {A B} (o : outcome (A * B)) : outcome A :=
  match o with Ok (a, _) => Ok a | Err e => Err e | Panic => Panic | Diverge => Diverge end.
Lemma section_nothing heap id size m m' r : read_section heap id size m [] = Ok (m', r) -> m' = m /\ r = [].
Proof.
  unfold read_section. destruct (id =? 1); [discriminate|]. destruct (id =? 3); [discriminate|]. destruct (id =? 10); [discriminate|].
  destruct (id =? 7); [discriminate|]. unfold rbind, make. destruct (size <=? heap); [|discriminate]. cbn [obind].
  destruct (size =? 0) eqn:E; [intros H; injection H as -> ->; auto|]. unfold read_full. apply N.eqb_neq in E.
  replace (size <=? N.of_nat (length (@nil N))) with false by (symmetry; apply N.leb_gt; cbn; lia). discriminate.
Qed.
Lemma sections_carried t heap f : forall m st s, carries t st s ->
  ssections heap f m st = first (read_sections heap f m s) \/
  (t = true /\ (ssections heap f m st = Err EEOF \/
    exists m', ssections heap f m st = Ok m' /\ forall m'' r, read_sections heap f m s = Ok (m'', r) -> m'' = m')).
Proof.
  induction f as [|f IH]; intros m st s R; [left; reflexivity|]. cbn [ssections read_sections]. unfold sheader, sbind, read_header, rbind.
  pose proof (byte_carried t st s R) as Hb. destruct s as [|id s].
  { cbn [read_byte same] in Hb. rewrite Hb. left. reflexivity. }
  destruct Hb as (st1 & -> & R1). cbn [read_byte obind].
  destruct (sleb_carried t st1 s R1) as [(T & -> & H)|H].
  - right. split; [exact T|]. right. exists m. split; [reflexivity|]. intros m'' r.
    destruct H as [(a & ->)| ->]; [|discriminate]. cbn [obind rret]. destruct (read_section heap id a m []) as [[m1 r1]|e| |] eqn:E; try discriminate.
    apply section_nothing in E. destruct E as [-> ->]. cbn [obind]. destruct f; [discriminate|]. intros E. injection E as <- _. reflexivity.
  - destruct (read_leb s) as [[size s1]|e| |]; cbn [same obind rret sret] in *.
    + destruct H as (st2 & -> & R2). cbn [sret]. destruct (like_section t heap id size m st2 s1 R2) as [[T E]|E].
      * rewrite E. right. auto.
      * destruct (read_section heap id size m s1) as [[m' s2]|e| |]; cbn [same obind] in *; [|rewrite E; left; reflexivity..].
        destruct E as (st3 & -> & R3). apply IH. exact R3.
    + rewrite H. left. destruct e; reflexivity.
    + rewrite H. left. reflexivity.
    + rewrite H. left. reflexivity.
Qed.
Lemma sread_carried t heap st s : carries t st s ->
  sread heap st = first (read heap s) \/
  (t = true /\ (sread heap st = Err EEOF \/ exists d, sread heap st = Ok d /\ forall d' r, read heap s = Ok (d', r) -> d' = d)).
Proof.
  intros R. unfold sread, read, rbind. destruct (like_preamble t st s R) as [[T E]|E].
  { rewrite E. right. auto. }
  destruct (read_preamble s) as [[p s1]|e| |]; cbn [same obind] in *; [|rewrite E; left; reflexivity..].
  destruct E as (st1 & -> & R1). destruct (p_version p =? component_version); [left; reflexivity|].
  destruct (p_version p =? module_version); [|left; reflexivity].
  unfold smodule, read_module. pose proof R1 as (_ & C & _). rewrite C.
  destruct (sections_carried t heap (S (length s1)) {| m_types := []; m_funcs := []; m_exports := [] |} st1 s1 R1) as [E|(T & [E|(m & E & H)])].
  - left. rewrite E. destruct (read_sections heap (S (length s1)) _ s1) as [[m r]|e| |]; reflexivity.
  - right. rewrite E. auto.
  - right. split; [exact T|]. right. rewrite E. eexists. split; [reflexivity|]. intros d' r Er.
    destruct (read_sections heap (S (length s1)) _ s1) as [[m' r']|e| |]; try discriminate. injection Er as <- _.
    rewrite (H m' r' eq_refl). reflexivity.
Qed.

(** ** Any stream: reading ends, and a module means the end was reached *)
Definition sound {A} (d : nat) (ps : sreader A) : Prop := forall st,
  match ps st with
  | Ok (_, st') => st_final st' = st_final st /\ (length (concat (st_pieces st')) + d <= length (concat (st_pieces st)))%nat
  | Err EEOF => st_final st = EEOF
  | Err _ => True
  | Panic => False
  | Diverge => False
  end.
Lemma sound_weaken {A} d d' (ps : sreader A) : (d' <= d)%nat -> sound d ps -> sound d' ps.
Proof. intros L H st. specialize (H st). destruct (ps st) as [[a st']|[]| |]; auto. destruct H. split; [assumption|lia]. Qed.
Lemma sound_bind {A B} d e (ps : sreader A) (fs : A -> sreader B) : sound d ps -> (forall a, sound e (fs a)) -> sound (d + e) (sbind ps fs).
Proof.
  intros Hp Hf st. unfold sbind. specialize (Hp st). destruct (ps st) as [[a st']|[]| |]; auto. destruct Hp as [F L].
  specialize (Hf a st'). destruct (fs a st') as [[b st'']|[]| |]; auto; [|congruence]. destruct Hf. split; [congruence|lia].
Qed.
Lemma sound_bind0 {A B} (ps : sreader A) (fs : A -> sreader B) : sound 0 ps -> (forall a, sound 0 (fs a)) -> sound 0 (sbind ps fs).
Proof. apply (sound_bind 0 0). Qed.
Lemma sound_bind1 {A B} (ps : sreader A) (fs : A -> sreader B) : sound 1 ps -> (forall a, sound 0 (fs a)) -> sound 1 (sbind ps fs).
Proof. apply (sound_bind 1 0). Qed.
Lemma sound_ret {A} (a : A) : sound 0 (sret a).
Proof. intros st. cbn. split; [reflexivity|lia]. Qed.
Lemma sound_err {A} d : sound d (@serr A EOther).
Proof. intros st. exact I. Qed.

Lemma st_read_facts k st bs e st' : st_read k st = (bs, e, st') -> (0 < k)%nat ->
  concat (st_pieces st) = bs ++ concat (st_pieces st') /\ st_final st' = st_final st /\ (length bs <= k)%nat /\
  match e with
  | Some x => x = st_final st
  | None => (st_calls st' < st_calls st)%nat
  end.
Proof.
  intros H K. destruct st as [ps fin tg]. unfold st_read in H. cbn [st_pieces st_final st_together] in *. destruct ps as [|c cs].
  - injection H as <- <- <-. cbn. repeat split. lia.
  - destruct (Nat.leb_spec (length c) k) as [L|L]; injection H as <- <- <-; cbn [st_pieces st_final concat].
    + repeat split; [exact L|]. destruct cs; [destruct tg|]; try reflexivity; unfold st_calls; cbn [st_pieces concat length]; rewrite ?app_length; cbn; lia.
    + repeat split.
      * rewrite app_assoc, firstn_skipn. reflexivity.
      * rewrite firstn_length. lia.
      * unfold st_calls. cbn [st_pieces concat length]. rewrite !app_length, skipn_length. lia.
Qed.
Lemma at_least_facts fuel : forall n got st, (st_calls st < fuel)%nat ->
  match read_at_least fuel n got st with
  | Ok (bs, st') => (length bs = length got + n)%nat /\ st_final st' = st_final st /\ (length (concat (st_pieces st')) + n <= length (concat (st_pieces st)))%nat
  | Err e => e = st_final st
  | _ => False
  end.
Proof.
  induction fuel as [|f IH]; intros n got st Hf; [lia|]. cbn [read_at_least]. destruct (Nat.eqb_spec n 0) as [->|Hn].
  { repeat split; lia. }
  destruct (st_read n st) as [[bs e] st'] eqn:E. apply st_read_facts in E; [|lia]. destruct E as (C & F & L & H).
  apply (f_equal (@length N)) in C. rewrite app_length in C.
  destruct e as [x|].
  - destruct (Nat.eqb_spec (n - length bs) 0); [|exact H]. rewrite app_length. repeat split; [lia|exact F|lia].
  - specialize (IH (n - length bs)%nat (got ++ bs) st' ltac:(lia)). destruct (read_at_least f (n - length bs) (got ++ bs) st') as [[r st'']|x| |]; auto.
    + destruct IH as (I1 & I2 & I3). rewrite app_length in I1. repeat split; [lia|congruence|lia].
    + congruence.
Qed.
Lemma full_facts n st :
  match sfull n st with
  | Ok (bs, st') => length bs = N.to_nat n /\ st_final st' = st_final st /\ (length (concat (st_pieces st')) + N.to_nat n <= length (concat (st_pieces st)))%nat
  | Err e => e = st_final st
  | _ => False
  end.
Proof. exact (at_least_facts (S (st_calls st)) (N.to_nat n) [] st (Nat.lt_succ_diag_r _)). Qed.
Lemma sound_full n : sound 0 (sfull n).
Proof.
  intros st. pose proof (full_facts n st) as H. destruct (sfull n st) as [[bs st']|[]| |]; auto. destruct H as (_ & F & L). split; [exact F|lia].
Qed.
Lemma sound_byte : sound 1 sbyte.
Proof.
  intros st. unfold sbyte, sbind. pose proof (full_facts 1 st) as H. destruct (sfull 1 st) as [[bs st']|[]| |]; auto. destruct H as (Lb & F & L).
  destruct bs as [|b [|]]; try discriminate. cbn. split; [exact F|lia].
Qed.
Lemma sound_uint16 : sound 0 suint16.
Proof.
  intros st. unfold suint16, sbind. pose proof (full_facts 2 st) as H. destruct (sfull 2 st) as [[bs st']|[]| |]; auto. destruct H as (Lb & F & L).
  destruct bs as [|b [|b' [|]]]; try discriminate. cbn. split; [exact F|lia].
Qed.
Lemma leb_facts fuel : forall v sh n st, (st_calls st < fuel)%nat -> v < two32 ->
  match sleb_aux fuel v sh n st with
  | Ok (a, _, st') => a < two32 /\ st_final st' = st_final st /\ (length (concat (st_pieces st')) + 1 <= length (concat (st_pieces st)))%nat
  | Err EEOF => st_final st = EEOF
  | Err _ => True
  | _ => False
  end.
Proof.
  induction fuel as [|f IH]; intros v sh n st Hf Hv; [lia|]. cbn [sleb_aux].
  destruct (st_read 1 st) as [[bs e] st'] eqn:E. apply st_read_facts in E; [|lia]. destruct E as (C & F & L & H).
  destruct bs as [|b bs]; [exact I|]. destruct e as [x|]; [destruct x; auto|].
  apply (f_equal (@length N)) in C. rewrite app_length in C. cbn [length] in *.
  assert (Hv' : N.lor v (leb_group b sh) < two32) by (apply lor_below; [exact Hv|unfold leb_group, u32; apply N.mod_lt; discriminate]).
  destruct (N.land b 128 =? 0).
  - repeat split; [exact Hv'|exact F|lia].
  - specialize (IH (N.lor v (leb_group b sh)) (sh + 7) (n + 1) st' ltac:(lia) Hv').
    destruct (sleb_aux f (N.lor v (leb_group b sh)) (sh + 7) (n + 1) st') as [[[a k] st'']|[]| |]; auto; [|congruence].
    destruct IH as (I1 & I2 & I3). repeat split; [exact I1|congruence|lia].
Qed.
Lemma sleb_facts st :
  match sleb st with
  | Ok (a, st') => a < two32 /\ st_final st' = st_final st /\ (length (concat (st_pieces st')) + 1 <= length (concat (st_pieces st)))%nat
  | Err EEOF => st_final st = EEOF
  | Err _ => True
  | _ => False
  end.
Proof.
  unfold sleb, sleb_decode. pose proof (leb_facts (S (st_calls st)) 0 0 0 st (Nat.lt_succ_diag_r _) ltac:(unfold two32; lia)) as H.
  destruct (sleb_aux (S (st_calls st)) 0 0 0 st) as [[[a k] st']|[]| |]; auto.
Qed.
Lemma sound_leb : sound 1 sleb.
Proof. intros st. pose proof (sleb_facts st) as H. destruct (sleb st) as [[a st']|[]| |]; auto. apply H. Qed.
Lemma sound_leb_bind {B} e (fs : N -> sreader B) : (forall a, a < two32 -> sound e (fs a)) -> sound (1 + e) (sbind sleb fs).
Proof.
  intros Hf st. unfold sbind. pose proof (sleb_facts st) as Hp. destruct (sleb st) as [[a st']|[]| |]; auto. destruct Hp as (V & F & L).
  specialize (Hf a V st'). destruct (fs a st') as [[b st'']|[]| |]; auto; [|congruence]. destruct Hf. split; [congruence|lia].
Qed.
Lemma sound_preamble : sound 0 spreamble.
Proof.
  unfold spreamble. apply sound_bind0; [apply sound_full|]. intros m. destruct (negb _); [apply sound_err|].
  apply sound_bind0; [apply sound_uint16|]. intros v. apply sound_bind0; [apply sound_uint16|]. intros l. apply sound_ret.
Qed.

Section Heap.
Variable heap : N.
Hypothesis Hheap : two32 - 1 <= heap.
Lemma sound_make n : n < two32 -> sound 0 (smake heap n).
Proof. intros L st. unfold smake. replace (n <=? heap) with true by (symmetry; apply N.leb_le; lia). split; [reflexivity|lia]. Qed.
Lemma sound_times {A} (ps : sreader A) n : sound 0 ps -> sound 0 (stimes n ps).
Proof. intros H. induction n; cbn [stimes]; [apply sound_ret|]. apply sound_bind0; [exact H|]. intros a. apply sound_bind0; [exact IHn|]. intros l. apply sound_ret. Qed.
Lemma sound_vec {A} (ps : sreader A) : sound 0 ps -> sound 1 (svec heap ps).
Proof.
  intros H. apply (sound_leb_bind 0). intros n Hn. apply sound_bind0; [apply sound_make; exact Hn|]. intros _. apply sound_times. exact H.
Qed.
Lemma sound_10 {A} (ps : sreader A) : sound 1 ps -> sound 0 ps.
Proof. apply sound_weaken. lia. Qed.
Lemma sound_valtype : sound 1 svaltype.
Proof.
  apply sound_bind1; [apply sound_byte|]. intros b. repeat (destruct (b =? _); [apply sound_ret|]). apply sound_err.
Qed.
Lemma sound_valtypes : sound 1 (svaltypes heap).
Proof. apply sound_vec, sound_10, sound_valtype. Qed.
Lemma sound_type : sound 1 (stype heap).
Proof.
  apply sound_bind1; [apply sound_byte|]. intros b. destruct (negb _); [apply sound_err|].
  apply sound_bind0; [apply sound_10, sound_valtypes|]. intros ps. apply sound_bind0; [apply sound_10, sound_valtypes|]. intros rs. apply sound_ret.
Qed.
Lemma sound_func : sound 1 sfunc.
Proof. apply sound_bind1; [apply sound_leb|]. intros i. apply sound_ret. Qed.
Lemma sound_string : sound 1 (sstring heap).
Proof.
  apply (sound_leb_bind 0). intros n Hn. destruct (n =? 0); [apply sound_ret|]. apply sound_bind0; [apply sound_make; exact Hn|]. intros _. apply sound_full.
Qed.
Lemma sound_export : sound 1 (sexport heap).
Proof.
  apply sound_bind1; [apply sound_string|]. intros nm. apply sound_bind0; [apply sound_10, sound_byte|]. intros k.
  apply sound_bind0; [apply sound_10, sound_leb|]. intros i. destruct (k =? 0); [apply sound_ret|apply sound_err].
Qed.
Lemma sound_instr : sound 1 sinstr.
Proof.
  apply sound_bind1; [apply sound_byte|]. intros op. destruct (op =? 11); [apply sound_ret|]. destruct (op =? 32).
  - apply sound_bind0; [apply sound_10, sound_leb|]. intros i. apply sound_ret.
  - destruct (op =? 106); [apply sound_ret|apply sound_err].
Qed.
Lemma sound_expr_loop f : forall st, (length (concat (st_pieces st)) < f)%nat ->
  match sexpr_loop f st with
  | Ok (_, st') => st_final st' = st_final st /\ (length (concat (st_pieces st')) + 0 <= length (concat (st_pieces st)))%nat
  | Err EEOF => st_final st = EEOF
  | Err _ => True
  | Panic => False
  | Diverge => False
  end.
Proof.
  induction f as [|f IH]; intros st Hf; [lia|]. cbn [sexpr_loop]. unfold sbind at 1. pose proof (sound_instr st) as H.
  destruct (sinstr st) as [[i st']|[]| |]; auto. destruct H as [F L].
  assert (G : match (slet l := sexpr_loop f in sret (i :: l)) st' with
              | Ok (_, st'0) => st_final st'0 = st_final st /\ (length (concat (st_pieces st'0)) + 0 <= length (concat (st_pieces st)))%nat
              | Err EEOF => st_final st = EEOF
              | Err _ => True
              | Panic => False
              | Diverge => False
              end).
  { unfold sbind. specialize (IH st' ltac:(lia)). destruct (sexpr_loop f st') as [[l st'']|[]| |]; auto; [|congruence].
    destruct IH. cbn. split; [congruence|lia]. }
  destruct i; try exact G. cbn. split; [exact F|lia].
Qed.
Lemma sound_expr : sound 0 sexpr.
Proof. intros st. apply sound_expr_loop. lia. Qed.
Lemma sound_code fn : sound 0 (scode heap fn).
Proof.
  apply sound_10. apply sound_bind1; [apply sound_leb|]. intros _. apply sound_bind0; [apply sound_10, sound_valtypes|]. intros ls.
  apply sound_bind0; [apply sound_expr|]. intros b. apply sound_ret.
Qed.
Lemma sound_update n : forall fs, sound 0 (supdate_funcs heap n fs).
Proof.
  induction n; intros fs; cbn [supdate_funcs]; [apply sound_ret|]. destruct fs; [apply sound_err|].
  apply sound_bind0; [apply sound_code|]. intros fn. apply sound_bind0; [apply IHn|]. intros l. apply sound_ret.
Qed.
Lemma sound_section id size m : size < two32 -> sound 0 (ssection heap id size m).
Proof.
  intros Hs. unfold ssection.
  destruct (id =? 1); [apply sound_bind0; [apply sound_10, sound_vec, sound_10, sound_type|intros; apply sound_ret]|].
  destruct (id =? 3); [apply sound_bind0; [apply sound_10, sound_vec, sound_10, sound_func|intros; apply sound_ret]|].
  destruct (id =? 10).
  { apply sound_bind0; [apply sound_10, sound_leb|]. intros n. apply sound_bind0; [apply sound_update|]. intros fs. apply sound_ret. }
  destruct (id =? 7); [apply sound_bind0; [apply sound_10, sound_vec, sound_10, sound_export|intros; apply sound_ret]|].
  apply sound_bind0; [apply sound_make; exact Hs|]. intros _. destruct (size =? 0); [apply sound_ret|].
  apply sound_bind0; [apply sound_full|]. intros bs. apply sound_ret.
Qed.
Lemma header_facts st :
  match sheader st with
  | Ok ((_, size), st') => size < two32 /\ st_final st' = st_final st /\ (length (concat (st_pieces st')) < length (concat (st_pieces st)))%nat
  | Err EEOF => st_final st = EEOF
  | Err _ => True
  | Panic => False
  | Diverge => False
  end.
Proof.
  unfold sheader, sbind. pose proof (sound_byte st) as H. destruct (sbyte st) as [[id st1]|[]| |]; auto. destruct H as [F L].
  pose proof (sleb_facts st1) as H. destruct (sleb st1) as [[n st2]|[]| |]; auto; [|congruence]. cbn. destruct H as (V & F' & L'). repeat split; [exact V|congruence|lia].
Qed.
Lemma sections_facts f : forall m st, (length (concat (st_pieces st)) < f)%nat ->
  match ssections heap f m st with
  | Ok _ => st_final st = EEOF
  | Err EEOF => st_final st = EEOF
  | Err _ => True
  | Panic => False
  | Diverge => False
  end.
Proof.
  induction f as [|f IH]; intros m st Hf; [lia|]. cbn [ssections]. pose proof (header_facts st) as H.
  destruct (sheader st) as [[[id size] st1]|[]| |]; auto. destruct H as (V & F & L).
  pose proof (sound_section id size m V st1) as H. destruct (ssection heap id size m st1) as [[m' st2]|[]| |]; auto; [|congruence].
  destruct H as [F' L']. specialize (IH m' st2 ltac:(lia)). destruct (ssections heap f m' st2) as [m''|[]| |]; auto; congruence.
Qed.
Lemma sread_facts st :
  match sread heap st with
  | Ok d => forall m, d_directive d = DModule m -> st_final st = EEOF
  | Err EEOF => st_final st = EEOF
  | Err _ => True
  | Panic => False
  | Diverge => False
  end.
Proof.
  unfold sread. pose proof (sound_preamble st) as H. destruct (spreamble st) as [[p st1]|[]| |]; auto. destruct H as [F L].
  destruct (p_version p =? component_version); [discriminate|]. destruct (p_version p =? module_version); [|exact I].
  unfold smodule. pose proof (sections_facts (S (length (concat (st_pieces st1)))) {| m_types := []; m_funcs := []; m_exports := [] |} st1 (Nat.lt_succ_diag_r _)) as H.
  destruct (ssections heap _ _ st1) as [m|[]| |]; auto; [|congruence]. intros _ _. congruence.
Qed.
End Heap.

(** ** io.ReadAll *)
Lemma read_all_facts room fuel : forall got st, (st_calls st < fuel)%nat ->
  read_all fuel room got st = match st_final st with EEOF => Ok (got ++ concat (st_pieces st)) | e => Err e end.
Proof.
  induction fuel as [|f IH]; intros got st Hf; [lia|]. cbn [read_all].
  destruct (st_read (S (room f)) st) as [[bs e] st'] eqn:E.
  assert (Hlast : forall x, e = Some x -> concat (st_pieces st') = []).
  { intros x ->. destruct st as [ps fin tg]. unfold st_read in E. cbn [st_pieces st_final st_together] in E. destruct ps as [|c cs].
    - injection E as _ _ <-. reflexivity.
    - destruct (Nat.leb (length c) (S (room f))); [|discriminate]. destruct cs; [|discriminate]. injection E as _ _ <-. reflexivity. }
  apply st_read_facts in E; [|lia]. destruct E as (C & F & L & H). destruct e as [x|].
  - subst x. rewrite C, (Hlast _ eq_refl), app_nil_r. destruct (st_final st); reflexivity.
  - rewrite IH by lia. rewrite F, C, app_assoc. reflexivity.
Qed.
