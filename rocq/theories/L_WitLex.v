(** Proofs about the WIT lexer: where it stops. *)
From Coq Require Import Arith NArith String Ascii Bool List Lia ZArith ZifyBool ZifyNat ZifyN.
From Verif Require Import GoBase M_Text M_Utf S_Utf L_Utf M_WitLex S_WitLex.
Import ListNotations.

Lemma skipn_skipn_add {A} (s : list A) n m : skipn m (skipn n s) = skipn (n + m) s.
Proof.
  revert s. induction n as [|n IH]; intros s; cbn; [reflexivity|].
  destruct s as [|a s]; cbn; [apply skipn_nil|]. apply IH.
Qed.

Lemma firstn_skipn_add {A} (s : list A) n m : firstn (n + m) s = firstn n s ++ firstn m (skipn n s).
Proof.
  revert s. induction n as [|n IH]; intros s; cbn; [reflexivity|].
  destruct s as [|a s]; cbn; [now rewrite firstn_nil|]. now rewrite IH.
Qed.

(** ** Runes *)
Lemma decode_width s : s <> [] -> (1 <= snd (decode_rune s) <= length s)%nat.
Proof.
  unfold decode_rune. destruct s as [|c0 s]; [congruence|]. intros _. cbn [firstn map].
  destruct (N_of_ascii c0 <? 128)%N; [cbn; lia|].
  destruct s as [|c1 s]; [cbn; lia|]. cbn [firstn map]. destruct (lead2 _ && _); [cbn; lia|].
  destruct s as [|c2 s]; [cbn; lia|]. cbn [firstn map]. destruct (lead3 _ && _ && _); [cbn; lia|].
  destruct s as [|c3 s]; [cbn; lia|]. cbn [firstn map]. destruct (lead4 _ && _ && _ && _); cbn; lia.
Qed.

Lemma byte_lt c : (N_of_ascii c < 256)%N.
Proof. apply N_ascii_bounded. Qed.

(** A rune other than U+FFFD is the scalar value its bytes encode. *)
Lemma decode_valid s r k : decode_rune s = (r, k) -> s <> [] -> r <> rune_error ->
  scalar_value r /\ bytes (firstn k s) = sp_utf8 r.
Proof.
  unfold decode_rune, bytes. destruct s as [|c0 s]; [congruence|]. intros H _ Hr. cbn [firstn map] in H.
  pose proof (byte_lt c0) as B0.
  destruct (N.ltb_spec (N_of_ascii c0) 128).
  { inversion H; subst. cbn. split; [left; lia|]. unfold sp_utf8. destruct (N.ltb_spec (N_of_ascii c0) 128); [reflexivity|lia]. }
  destruct s as [|c1 s]; [inversion H; congruence|]. cbn [firstn map] in H. pose proof (byte_lt c1) as B1.
  destruct (lead2 (N_of_ascii c0) && second_ok (N_of_ascii c0) (N_of_ascii c1)) eqn:E2.
  { inversion H; subst. cbn [firstn map]. unfold lead2, second_ok, cont_byte, in_range in E2.
    assert (E : (194 <= N_of_ascii c0 <= 223 /\ 128 <= N_of_ascii c1 <= 191)%N).
    { destruct (N.eqb_spec (N_of_ascii c0) 224), (N.eqb_spec (N_of_ascii c0) 237), (N.eqb_spec (N_of_ascii c0) 240),
        (N.eqb_spec (N_of_ascii c0) 244); lia. }
    set (a := N_of_ascii c0) in *. set (b := N_of_ascii c1) in *. clearbody a b. clear - E.
    assert (Q : (a mod 32 * 64 + b mod 64 = (a - 192) * 64 + (b - 128))%N) by lia. rewrite Q.
    split; [left; lia|]. unfold sp_utf8.
    destruct (N.ltb_spec ((a - 192) * 64 + (b - 128)) 128); [lia|].
    destruct (N.ltb_spec ((a - 192) * 64 + (b - 128)) 2048); [|lia]. repeat f_equal; lia. }
  destruct s as [|c2 s]; [inversion H; congruence|]. cbn [firstn map] in H. pose proof (byte_lt c2) as B2.
  destruct (lead3 (N_of_ascii c0) && second_ok (N_of_ascii c0) (N_of_ascii c1) && cont_byte (N_of_ascii c2)) eqn:E3.
  { inversion H; subst. cbn [firstn map]. unfold lead3, second_ok, cont_byte, in_range in E3.
    set (a := N_of_ascii c0) in *. set (b := N_of_ascii c1) in *. set (c := N_of_ascii c2) in *. clearbody a b c.
    assert (E : (224 <= a <= 239 /\ 128 <= b <= 191 /\ 128 <= c <= 191 /\ (a = 224 -> 160 <= b) /\ (a = 237 -> b <= 159))%N).
    { destruct (N.eqb_spec a 224), (N.eqb_spec a 237), (N.eqb_spec a 240), (N.eqb_spec a 244); lia. }
    clear - E.
    assert (Q : (a mod 16 * 4096 + b mod 64 * 64 + c mod 64 = (a - 224) * 4096 + (b - 128) * 64 + (c - 128))%N) by lia.
    rewrite Q. split; [unfold scalar_value; lia|]. unfold sp_utf8.
    destruct (N.ltb_spec ((a - 224) * 4096 + (b - 128) * 64 + (c - 128)) 128); [lia|].
    destruct (N.ltb_spec ((a - 224) * 4096 + (b - 128) * 64 + (c - 128)) 2048); [lia|].
    destruct (N.ltb_spec ((a - 224) * 4096 + (b - 128) * 64 + (c - 128)) 65536); [|lia]. repeat f_equal; lia. }
  destruct s as [|c3 s]; [inversion H; congruence|]. cbn [firstn map] in H. pose proof (byte_lt c3) as B3.
  destruct (lead4 _ && second_ok _ _ && cont_byte _ && cont_byte _) eqn:E4; [|inversion H; congruence].
  inversion H; subst. cbn [firstn map]. unfold lead4, second_ok, cont_byte, in_range in E4.
  set (a := N_of_ascii c0) in *. set (b := N_of_ascii c1) in *. set (c := N_of_ascii c2) in *. set (d := N_of_ascii c3) in *.
  clearbody a b c d.
  assert (E : (240 <= a <= 244 /\ 128 <= b <= 191 /\ 128 <= c <= 191 /\ 128 <= d <= 191 /\ (a = 240 -> 144 <= b) /\ (a = 244 -> b <= 143))%N).
  { destruct (N.eqb_spec a 224), (N.eqb_spec a 237), (N.eqb_spec a 240), (N.eqb_spec a 244); lia. }
  clear - E.
  assert (Q : (a mod 8 * 262144 + b mod 64 * 4096 + c mod 64 * 64 + d mod 64 =
     (a - 240) * 262144 + (b - 128) * 4096 + (c - 128) * 64 + (d - 128))%N) by lia.
  rewrite Q. split; [unfold scalar_value; lia|]. unfold sp_utf8.
  destruct (N.ltb_spec ((a - 240) * 262144 + (b - 128) * 4096 + (c - 128) * 64 + (d - 128)) 128); [lia|].
  destruct (N.ltb_spec ((a - 240) * 262144 + (b - 128) * 4096 + (c - 128) * 64 + (d - 128)) 2048); [lia|].
  destruct (N.ltb_spec ((a - 240) * 262144 + (b - 128) * 4096 + (c - 128) * 64 + (d - 128)) 65536); [lia|].
  repeat f_equal; lia.
Qed.

Lemma bytes_app a b : bytes (a ++ b) = (bytes a ++ bytes b)%list.
Proof. apply map_app. Qed.
Lemma bytes_length a : length (bytes a) = length a.
Proof. apply map_length. Qed.
Lemma bytes_inj a : forall b, bytes a = bytes b -> a = b.
Proof.
  induction a as [|x a IH]; intros [|y b] H; cbn in H; try discriminate; [reflexivity|].
  inversion H as [[H1 H2]]. f_equal; [|now apply IH].
  rewrite <- (ascii_N_embedding x), <- (ascii_N_embedding y). now f_equal.
Qed.

(** Decoding an encoded scalar value, whatever follows. *)
Lemma decode_encoded w r t : scalar_value r -> bytes w = (sp_utf8 r ++ t)%list ->
  decode_rune w = (r, length (sp_utf8 r)).
Proof.
  intros Hs H. unfold decode_rune.
  assert (F : map N_of_ascii (firstn 4 w) = firstn 4 (sp_utf8 r ++ t)) by (rewrite <- H; unfold bytes; now rewrite firstn_map).
  rewrite F. clear F H w. unfold sp_utf8, scalar_value in *.
  change (2 ^ 6)%N with 64%N. change (2 ^ 12)%N with 4096%N. change (2 ^ 18)%N with 262144%N.
  destruct (N.ltb_spec r 128).
  { cbn [app firstn length]. destruct (N.ltb_spec r 128); [reflexivity|lia]. }
  destruct (N.ltb_spec r 2048).
  { cbn [app firstn length]. destruct (N.ltb_spec (192 + r / 64) 128); [lia|].
    replace (lead2 (192 + r / 64) && second_ok (192 + r / 64) (128 + r mod 64)) with true.
    - replace ((192 + r / 64) mod 32)%N with (r / 64)%N by (apply (N.mod_unique _ _ 6); lia).
      replace ((128 + r mod 64) mod 64)%N with (r mod 64)%N by (apply (N.mod_unique _ _ 2); lia). f_equal. lia.
    - symmetry. unfold lead2, second_ok, cont_byte, in_range.
      destruct (N.eqb_spec (192 + r / 64) 224), (N.eqb_spec (192 + r / 64) 237), (N.eqb_spec (192 + r / 64) 240), (N.eqb_spec (192 + r / 64) 244); lia. }
  destruct (N.ltb_spec r 65536).
  { cbn [app firstn length]. destruct (N.ltb_spec (224 + r / 4096) 128); [lia|].
    replace (lead2 (224 + r / 4096)) with false by (symmetry; unfold lead2, in_range; lia). cbn [andb].
    replace (lead3 (224 + r / 4096) && second_ok (224 + r / 4096) (128 + r / 64 mod 64) && cont_byte (128 + r mod 64)) with true.
    - replace ((224 + r / 4096) mod 16)%N with (r / 4096)%N by (apply (N.mod_unique _ _ 14); lia).
      replace ((128 + r / 64 mod 64) mod 64)%N with (r / 64 mod 64)%N by (apply (N.mod_unique _ _ 2); lia).
      replace ((128 + r mod 64) mod 64)%N with (r mod 64)%N by (apply (N.mod_unique _ _ 2); lia). f_equal. lia.
    - symmetry. unfold lead3, second_ok, cont_byte, in_range.
      destruct (N.eqb_spec (224 + r / 4096) 224), (N.eqb_spec (224 + r / 4096) 237), (N.eqb_spec (224 + r / 4096) 240), (N.eqb_spec (224 + r / 4096) 244); lia. }
  cbn [app firstn length]. destruct (N.ltb_spec (240 + r / 262144) 128); [lia|].
  replace (lead2 (240 + r / 262144)) with false by (symmetry; unfold lead2, in_range; lia). cbn [andb].
  replace (lead3 (240 + r / 262144)) with false by (symmetry; unfold lead3, in_range; lia). cbn [andb].
  replace (lead4 (240 + r / 262144) && second_ok (240 + r / 262144) (128 + r / 4096 mod 64) &&
           cont_byte (128 + r / 64 mod 64) && cont_byte (128 + r mod 64)) with true.
  - replace ((240 + r / 262144) mod 8)%N with (r / 262144)%N by (apply (N.mod_unique _ _ 30); lia).
    replace ((128 + r / 4096 mod 64) mod 64)%N with (r / 4096 mod 64)%N by (apply (N.mod_unique _ _ 2); lia).
    replace ((128 + r / 64 mod 64) mod 64)%N with (r / 64 mod 64)%N by (apply (N.mod_unique _ _ 2); lia).
    replace ((128 + r mod 64) mod 64)%N with (r mod 64)%N by (apply (N.mod_unique _ _ 2); lia). f_equal. lia.
  - symmetry. unfold lead4, second_ok, cont_byte, in_range.
    destruct (N.eqb_spec (240 + r / 262144) 224), (N.eqb_spec (240 + r / 262144) 237), (N.eqb_spec (240 + r / 262144) 240), (N.eqb_spec (240 + r / 262144) 244); lia.
Qed.

(** ASCII bytes are runes of their own and occur in no other rune. *)
Lemma decode_ascii c s : (N_of_ascii c < 128)%N -> decode_rune (c :: s) = (N_of_ascii c, 1%nat).
Proof. intros H. unfold decode_rune. cbn [firstn map]. destruct (N.ltb_spec (N_of_ascii c) 128); [reflexivity|lia]. Qed.

Lemma decode_high c s : (128 <= N_of_ascii c)%N ->
  (128 <= fst (decode_rune (c :: s)))%N /\
  Forall (fun x => 128 <= N_of_ascii x)%N (firstn (snd (decode_rune (c :: s))) (c :: s)).
Proof.
  intros H. unfold decode_rune. cbn [firstn map]. destruct (N.ltb_spec (N_of_ascii c) 128); [lia|].
  assert (E : (128 <= rune_error)%N) by (unfold rune_error; lia).
  destruct s as [|c1 s]; [cbn; auto|]. cbn [firstn map].
  destruct (lead2 (N_of_ascii c) && second_ok (N_of_ascii c) (N_of_ascii c1)) eqn:E2.
  { unfold lead2, second_ok, cont_byte, in_range in E2.
    assert (K : (194 <= N_of_ascii c <= 223 /\ 128 <= N_of_ascii c1)%N).
    { destruct (N.eqb_spec (N_of_ascii c) 224), (N.eqb_spec (N_of_ascii c) 237), (N.eqb_spec (N_of_ascii c) 240), (N.eqb_spec (N_of_ascii c) 244); lia. }
    cbn [fst snd firstn]. split; [lia|]. repeat constructor; lia. }
  destruct s as [|c2 s]; [cbn; auto|]. cbn [firstn map].
  destruct (lead3 (N_of_ascii c) && second_ok (N_of_ascii c) (N_of_ascii c1) && cont_byte (N_of_ascii c2)) eqn:E3.
  { unfold lead3, second_ok, cont_byte, in_range in E3.
    assert (K : (224 <= N_of_ascii c <= 239 /\ 128 <= N_of_ascii c1 <= 191 /\ 128 <= N_of_ascii c2 /\ (N_of_ascii c = 224 -> 160 <= N_of_ascii c1))%N).
    { destruct (N.eqb_spec (N_of_ascii c) 224), (N.eqb_spec (N_of_ascii c) 237), (N.eqb_spec (N_of_ascii c) 240), (N.eqb_spec (N_of_ascii c) 244); lia. }
    cbn [fst snd firstn]. split; [lia|]. repeat constructor; lia. }
  destruct s as [|c3 s]; [cbn; auto|]. cbn [firstn map].
  destruct (lead4 _ && second_ok _ _ && cont_byte _ && cont_byte _) eqn:E4; [|cbn; auto].
  unfold lead4, second_ok, cont_byte, in_range in E4.
  assert (K : (240 <= N_of_ascii c <= 244 /\ 128 <= N_of_ascii c1 <= 191 /\ 128 <= N_of_ascii c2 /\ 128 <= N_of_ascii c3 /\ (N_of_ascii c = 240 -> 144 <= N_of_ascii c1))%N).
  { destruct (N.eqb_spec (N_of_ascii c) 224), (N.eqb_spec (N_of_ascii c) 237), (N.eqb_spec (N_of_ascii c) 240), (N.eqb_spec (N_of_ascii c) 244); lia. }
  cbn [fst snd firstn]. split; [lia|]. repeat constructor; lia.
Qed.

(** ** Reading, as functions of the remaining text *)
Definition rest (l : lexer) : text := skipn (l_position l) (l_input l).
Definition inside (l : lexer) : Prop := (l_position l <= length (l_input l))%nat.
(** The lexer [l] after reading [w]. *)
Definition adv (l : lexer) (w : text) : lexer := set_position l (l_position l + length w).

Lemma rest_nil l : inside l -> (rest l = [] <-> l_position l = length (l_input l)).
Proof.
  unfold inside, rest. intros H. split; intros E.
  - apply (f_equal (@length ascii)) in E. rewrite skipn_length in E. cbn in E. lia.
  - rewrite E. apply skipn_all.
Qed.

Lemma rest_length l : length (rest l) = (length (l_input l) - l_position l)%nat.
Proof. apply skipn_length. Qed.

Lemma adv_rest l w s : rest l = w ++ s -> rest (adv l w) = s.
Proof.
  unfold rest, adv. cbn. intros H. rewrite <- skipn_skipn_add, H, skipn_app, skipn_all, Nat.sub_diag. reflexivity.
Qed.
Lemma adv_inside l w s : inside l -> rest l = w ++ s -> inside (adv l w).
Proof.
  intros I H. apply (f_equal (@length ascii)) in H. rewrite rest_length, app_length in H.
  unfold inside, adv in *. cbn. lia.
Qed.
Lemma adv_nil l : adv l [] = l.
Proof. unfold adv, set_position. cbn. rewrite Nat.add_0_r. now destruct l. Qed.
Lemma adv_adv l v w : adv (adv l v) w = adv l (v ++ w).
Proof. unfold adv, set_position. cbn. rewrite app_length. f_equal. lia. Qed.

Lemma read_rune_end l : inside l -> rest l = [] -> read_rune l = (None, l) /\ peek_rune l = None.
Proof.
  intros I H. apply rest_nil in H; [|assumption]. unfold read_rune, peek_rune. rewrite H, Nat.leb_refl. auto.
Qed.

Lemma read_rune_some l : rest l <> [] ->
  exists w s, rest l = w ++ s /\ w <> [] /\ length w = snd (decode_rune (rest l)) /\
    read_rune l = (Some (fst (decode_rune (rest l))), adv l w) /\ peek_rune l = Some (fst (decode_rune (rest l))).
Proof.
  intros H. pose proof (decode_width _ H) as W.
  assert (L : (length (l_input l) <=? l_position l)%nat = false).
  { apply Nat.leb_gt. destruct (Nat.lt_ge_cases (l_position l) (length (l_input l))) as [?|?]; [assumption|].
    exfalso. apply H. unfold rest. now apply skipn_all2. }
  exists (firstn (snd (decode_rune (rest l))) (rest l)), (skipn (snd (decode_rune (rest l))) (rest l)).
  split; [symmetry; apply firstn_skipn|].
  assert (Lw : length (firstn (snd (decode_rune (rest l))) (rest l)) = snd (decode_rune (rest l))) by (rewrite firstn_length; lia).
  split; [intros E; rewrite E in Lw; cbn in Lw; lia|]. split; [assumption|].
  unfold read_rune, peek_rune. rewrite L. fold (rest l). destruct (decode_rune (rest l)) as [r k] eqn:E.
  cbn [fst snd] in *. split; [|reflexivity]. unfold adv. rewrite Lw. reflexivity.
Qed.

(** Reading runes that satisfy [f] as long as possible *)
Definition first_rune (f : N -> bool) (s : text) : bool :=
  match s with [] => false | _ => f (fst (decode_rune s)) end.
Inductive span (f : N -> bool) : text -> text -> Prop :=
| span_stop s : first_rune f s = false -> span f [] s
| span_go v w s : v <> [] -> length v = snd (decode_rune (v ++ w ++ s)) ->
    f (fst (decode_rune (v ++ w ++ s))) = true -> span f w s -> span f (v ++ w) s.

Lemma eat_if_cases f l : inside l ->
  (eat_if f l = (false, l) /\ first_rune f (rest l) = false) \/
  (exists v s, rest l = v ++ s /\ v <> [] /\ length v = snd (decode_rune (v ++ s)) /\
     f (fst (decode_rune (v ++ s))) = true /\ eat_if f l = (true, adv l v)).
Proof.
  intros I. unfold eat_if. destruct (rest l) as [|c t] eqn:E.
  - destruct (read_rune_end l I E) as [_ ->]. left. auto.
  - destruct (read_rune_some l) as (w & s & Ew & Nw & Lw & R & P); [congruence|].
    rewrite P, R. cbn [snd]. rewrite E in *. destruct (f (fst (decode_rune (c :: t)))) eqn:F.
    + right. exists w, s. rewrite <- Ew. auto.
    + left. split; [reflexivity|]. unfold first_rune. exact F.
Qed.

Lemma eat_while_spec n : forall f l, inside l -> (length (rest l) < n)%nat ->
  exists w s, rest l = w ++ s /\ span f w s /\ eat_while n f l = Some (adv l w).
Proof.
  induction n as [|n IH]; intros f l I H; [lia|]. cbn [eat_while].
  destruct (eat_if_cases f l I) as [[E F]|(v & s & Ev & Nv & Lv & F & E)]; rewrite E.
  - exists [], (rest l). rewrite adv_nil. split; [reflexivity|]. split; [now constructor|reflexivity].
  - pose proof (adv_rest _ _ _ Ev) as Er.
    destruct (IH f (adv l v)) as (w & s' & Ew & Sp & R).
    + now apply (adv_inside _ _ s).
    + rewrite Er. rewrite Ev, app_length in H. destruct v; [congruence|]. cbn in H. lia.
    + rewrite Er in Ew. rewrite Ew in Ev, Lv, F. exists (v ++ w), s'. rewrite Ev, <- app_assoc. split; [reflexivity|].
      split; [now constructor|]. now rewrite R, adv_adv.
Qed.

Lemma rest_le l : (length (rest l) <= length (l_input l))%nat.
Proof. rewrite rest_length. lia. Qed.

Lemma while_token_spec f ty l : inside l ->
  exists w s, rest l = w ++ s /\ span f w s /\ while_token f ty l = make_token (adv l w) (ty (adv l w)).
Proof.
  intros I. unfold while_token. pose proof (rest_le l).
  destruct (eat_while_spec (S (length (l_input l))) f l I) as (w & s & E & Sp & R); [lia|].
  exists w, s. rewrite R. auto.
Qed.

(** ** Block comments *)

(** [deep d w]: after [w] the comment opened [d] times is closed. *)
Inductive deep : nat -> text -> Prop :=
| deep_0 : deep 0 []
| deep_open d w : deep (S (S d)) w -> deep (S d) (txt "/*" ++ w)
| deep_close d w : deep d w -> deep (S d) (txt "*/" ++ w)
| deep_char d c w : ~ starts_with (txt "/*") (c :: w) -> ~ starts_with (txt "*/") (c :: w) ->
    deep (S d) w -> deep (S d) (c :: w).

(** No prefix closes the comment. *)
Definition never (d : nat) (s : text) : Prop := forall w t, s = w ++ t -> ~ deep d w.

Lemma deep_high d w : forall v, Forall (fun x => 128 <= N_of_ascii x)%N v -> deep (S d) w -> deep (S d) (v ++ w).
Proof.
  induction v as [|c v IH]; intros Hv H; [assumption|]. inversion Hv as [|? ? Hc Hv']; subst. cbn. apply deep_char.
  - intros (t & E). inversion E; subst. vm_compute in Hc. congruence.
  - intros (t & E). inversion E; subst. vm_compute in Hc. congruence.
  - now apply IH.
Qed.

Lemma deep_inv d w : deep (S d) w ->
  (exists w', w = txt "/*" ++ w' /\ deep (S (S d)) w') \/
  (exists w', w = txt "*/" ++ w' /\ deep d w') \/
  (exists c w', w = c :: w' /\ ~ starts_with (txt "/*") w /\ ~ starts_with (txt "*/") w /\ deep (S d) w').
Proof.
  intros H. inversion H; subst.
  - left. eauto.
  - right. left. eauto.
  - right. right. exists c, w0. auto.
Qed.

Lemma deep_prefix w : forall d s t, deep d w -> w ++ s = t -> forall w' s', t = w' ++ s' -> deep d w' -> w' = w.
Proof.
  intros d s t H. revert s t. induction H as [|d w H IH|d w H IH|d c w H1 H2 H IH]; intros s t E w' s' E' H'.
  - now inversion H'.
  - subst t. apply deep_inv in H'. destruct H' as [(v & -> & D)|[(v & -> & D)|(c & v & -> & N1 & N2 & D)]].
    + cbn in E'. inversion E'. f_equal. eapply IH; eauto.
    + cbn in E'. discriminate.
    + exfalso. cbn in E'. injection E' as E1 E2. subst c. destruct v as [|c2 v].
      * inversion D.
      * cbn in E2. injection E2 as E3 _. subst c2. apply N1. now exists v.
  - subst t. apply deep_inv in H'. destruct H' as [(v & -> & D)|[(v & -> & D)|(c & v & -> & N1 & N2 & D)]].
    + cbn in E'. discriminate.
    + cbn in E'. inversion E'. f_equal. eapply IH; eauto.
    + exfalso. cbn in E'. injection E' as E1 E2. subst c. destruct v as [|c2 v].
      * inversion D.
      * cbn in E2. injection E2 as E3 _. subst c2. apply N2. now exists v.
  - subst t. apply deep_inv in H'. destruct H' as [(v & -> & D)|[(v & -> & D)|(c' & v & -> & N1 & N2 & D)]].
    + exfalso. cbn in E'. injection E' as E1 E2. subst c. destruct w as [|c2 w]; [inversion H|].
      cbn in E2. injection E2 as E3 _. subst c2. apply H1. now exists w.
    + exfalso. cbn in E'. injection E' as E1 E2. subst c. destruct w as [|c2 w]; [inversion H|].
      cbn in E2. injection E2 as E3 _. subst c2. apply H2. now exists w.
    + cbn in E'. inversion E'; subst c'. f_equal. eapply IH; eauto.
Qed.

Lemma ascii_of_code c d : N_of_ascii c = ch d -> c = d.
Proof. intros H. rewrite <- (ascii_N_embedding c), <- (ascii_N_embedding d). now f_equal. Qed.

Lemma eat_char d l : (ch d < 128)%N -> inside l ->
  (exists s, rest l = d :: s /\ eat (ch d) l = (true, adv l [d])) \/
  (~ starts_with [d] (rest l) /\ eat (ch d) l = (false, l)).
Proof.
  intros Hd I. unfold eat.
  destruct (eat_if_cases (fun p => (p =? ch d)%N) l I) as [[E F]|(v & s & Ev & Nv & Lv & F & E)]; rewrite E.
  - right. split; [|reflexivity]. intros (t & Et). rewrite Et in F. cbn [app first_rune] in F.
    rewrite decode_ascii in F by assumption. cbn in F. now rewrite N.eqb_refl in F.
  - left. apply N.eqb_eq in F. destruct v as [|c v]; [congruence|]. cbn [app] in *.
    destruct (N.lt_ge_cases (N_of_ascii c) 128) as [Hc|Hc].
    + rewrite decode_ascii in F, Lv by assumption. cbn in F, Lv. apply ascii_of_code in F. subst c.
      destruct v; [|discriminate]. exists s. auto.
    + exfalso. destruct (decode_high c (v ++ s) Hc) as [K _]. rewrite F in K. lia.
Qed.

Lemma block_loop_spec n : forall d l, inside l -> (length (rest l) < n)%nat ->
  (exists w s, rest l = w ++ s /\ deep d w /\ block_loop n d l = Some (true, adv l w)) \/
  (never d (rest l) /\ block_loop n d l = Some (false, adv l (rest l))).
Proof.
  induction n as [|n IH]; intros d l I H; [lia|]. cbn [block_loop].
  destruct d as [|d].
  { left. exists [], (rest l). rewrite adv_nil. split; [reflexivity|]. split; [constructor|reflexivity]. }
  destruct (rest l) as [|c t] eqn:Er.
  { destruct (read_rune_end l I Er) as [-> _]. right. rewrite adv_nil. split; [|reflexivity].
    intros w s E D. symmetry in E. apply app_eq_nil in E. destruct E as [-> _]. inversion D. }
  destruct (read_rune_some l) as (v & s & Ev & Nv & Lv & R & _); [congruence|]. rewrite R.
  rewrite Er in *. clear R.
  pose proof (adv_inside l v s I ltac:(congruence)) as I1.
  pose proof (adv_rest l v s ltac:(congruence)) as R1.
  destruct (N.lt_ge_cases (N_of_ascii c) 128) as [Hc|Hc].
  - rewrite decode_ascii in * by assumption. cbn [fst snd] in *.
    destruct v as [|c' v]; [congruence|]. destruct v; [|discriminate]. injection Ev as E1 E2. subst c'. cbn [app] in E2. rewrite <- E2 in R1. clear E2 s.
    cbn in H.
    (* the character alone, and the rest of the comment *)
    assert (Char : ~ starts_with (txt "/*") (c :: t) -> ~ starts_with (txt "*/") (c :: t) ->
      (exists w s, c :: t = w ++ s /\ deep (S d) w /\ block_loop n (S d) (adv l [c]) = Some (true, adv l w)) \/
      (never (S d) (c :: t) /\ block_loop n (S d) (adv l [c]) = Some (false, adv l (c :: t)))).
    { intros N1 N2. destruct (IH (S d) (adv l [c]) I1) as [(w & s & E & D & B)|[Nv' B]]; [rewrite R1; lia| |].
      - left. exists (c :: w), s. rewrite B, adv_adv. rewrite R1 in E. rewrite E in N1, N2 |- *. split; [reflexivity|].
        split; [|reflexivity]. apply deep_char; [| |assumption].
        + intros (x & Ex). apply N1. exists (x ++ s). change (c :: w ++ s) with ((c :: w) ++ s). now rewrite Ex, <- app_assoc.
        + intros (x & Ex). apply N2. exists (x ++ s). change (c :: w ++ s) with ((c :: w) ++ s). now rewrite Ex, <- app_assoc.
      - right. rewrite B, R1, adv_adv. split; [|reflexivity]. intros w s E D. apply deep_inv in D.
        destruct D as [(w' & -> & D)|[(w' & -> & D)|(c' & w' & -> & _ & _ & D)]].
        + apply N1. exists (w' ++ s). now rewrite E, <- app_assoc.
        + apply N2. exists (w' ++ s). now rewrite E, <- app_assoc.
        + inversion E; subst c'. rewrite R1 in Nv'. now apply (Nv' w' s). }
    (* two characters that open or close *)
    assert (Two : forall a b d', c = a -> starts_with [b] t -> 
       (forall w, deep d' w -> deep (S d) (a :: b :: w)) ->
       (forall w, deep (S d) (a :: b :: w) -> deep d' w) -> (forall x, deep (S d) [x] -> False) ->
      (exists w s, c :: t = w ++ s /\ deep (S d) w /\ block_loop n d' (adv (adv l [c]) [b]) = Some (true, adv l w)) \/
      (never (S d) (c :: t) /\ block_loop n d' (adv (adv l [c]) [b]) = Some (false, adv l (c :: t)))).
    { intros a b d' Ea (u & Eu) Hin Hout Hone. subst a. rewrite Eu in R1, H |- *. clear Char Eu Er. cbn [app] in *.
      assert (R2 : rest (adv (adv l [c]) [b]) = u) by (apply adv_rest; now rewrite R1).
      assert (I2 : inside (adv (adv l [c]) [b])) by (apply (adv_inside _ _ u); [assumption|now rewrite R1]).
      destruct (IH d' (adv (adv l [c]) [b]) I2) as [(w & s & E & D & B)|[Nv' B]]; [rewrite R2; cbn in H; lia| |].
      - left. exists (c :: b :: w), s. rewrite B, !adv_adv. rewrite R2 in E. rewrite E. split; [reflexivity|].
        split; [now apply Hin|reflexivity].
      - right. rewrite B, R2, !adv_adv. split; [|reflexivity]. intros w s E D. rewrite R2 in Nv'.
        destruct w as [|x [|y w]]; [inversion D|exfalso; now apply (Hone x)|]. injection E as E1 E2 E3. subst x y.
        apply (Nv' w s E3). now apply Hout. }
    assert (One : forall x, deep (S d) [x] -> False).
    { intros x D. apply deep_inv in D. destruct D as [(w' & E & D)|[(w' & E & D)|(c' & w' & E & _ & _ & D)]]; try discriminate.
      inversion E; subst. inversion D. }
    destruct (N.eqb_spec (N_of_ascii c) (ch "/")) as [Es|Es]; [apply ascii_of_code in Es; subst c|].
    + destruct (eat_char "*" (adv l ["/"%char]) ltac:(reflexivity) I1) as [(u & Eu & Ee)|[Nu Ee]]; rewrite Ee.
      * apply (Two "/"%char "*"%char (S (S d))); auto.
        -- rewrite R1 in Eu. now exists u.
        -- intros w D. now apply (deep_open d w).
        -- intros w D. apply deep_inv in D. destruct D as [(w' & E & D)|[(w' & E & D)|(c' & w' & E & N1 & _)]].
           ++ cbn in E. inversion E; now subst.
           ++ discriminate.
           ++ exfalso. apply N1. now exists w.
      * rewrite R1 in Nu. apply Char.
        -- intros (u & Eu). inversion Eu; subst. apply Nu. now exists u.
        -- intros (u & Eu). discriminate.
    + destruct (N.eqb_spec (N_of_ascii c) (ch "*")) as [Et|Et]; [apply ascii_of_code in Et; subst c|].
      * destruct (eat_char "/" (adv l ["*"%char]) ltac:(reflexivity) I1) as [(u & Eu & Ee)|[Nu Ee]]; rewrite Ee.
        -- apply (Two "*"%char "/"%char d); auto.
           ++ rewrite R1 in Eu. now exists u.
           ++ intros w D. now apply (deep_close d w).
           ++ intros w D. apply deep_inv in D. destruct D as [(w' & E & D)|[(w' & E & D)|(c' & w' & E & _ & N1 & _)]].
              ** discriminate.
              ** cbn in E. inversion E; now subst.
              ** exfalso. apply N1. now exists w.
        -- rewrite R1 in Nu. apply Char.
           ++ intros (u & Eu). discriminate.
           ++ intros (u & Eu). inversion Eu; subst. apply Nu. now exists u.
      * apply Char; intros (u & Eu); inversion Eu; subst; [apply Es|apply Et]; reflexivity.
  - (* a rune outside ASCII *)
    destruct (decode_high c t Hc) as [Hr Hv].
    replace (firstn (snd (decode_rune (c :: t))) (c :: t)) with v in Hv.
    2:{ rewrite <- Lv, Ev, firstn_app, firstn_all, Nat.sub_diag. cbn. symmetry. apply app_nil_r. }
    destruct (N.eqb_spec (fst (decode_rune (c :: t))) (ch "/")) as [K|_]; [rewrite K in Hr; vm_compute in Hr; congruence|].
    destruct (N.eqb_spec (fst (decode_rune (c :: t))) (ch "*")) as [K|_]; [rewrite K in Hr; vm_compute in Hr; congruence|].
    assert (Ls : (length s < n)%nat).
    { apply (f_equal (@length ascii)) in Ev. rewrite app_length in Ev. destruct v; [congruence|]. cbn in Ev, H. lia. }
    destruct (IH (S d) (adv l v) I1) as [(w & s' & E & D & B)|[Nv' B]]; [rewrite R1; lia| |].
    + left. exists (v ++ w), s'. rewrite B, adv_adv, Ev. rewrite R1 in E. rewrite E, app_assoc. split; [reflexivity|].
      split; [now apply deep_high|reflexivity].
    + right. rewrite B, R1, adv_adv, Ev. split; [|reflexivity]. rewrite R1 in Nv'. clear - Nv' Hv.
      induction v as [|x v IH]; [exact Nv'|]. inversion Hv as [|? ? Hx Hv']; subst.
      intros w u E D. apply deep_inv in D. destruct D as [(w' & -> & D)|[(w' & -> & D)|(c' & w' & -> & _ & _ & D)]].
      * inversion E; subst. vm_compute in Hx. congruence.
      * inversion E; subst. vm_compute in Hx. congruence.
      * inversion E; subst. now apply (IH Hv' w' u).
Qed.
