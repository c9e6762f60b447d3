(** Proofs about the binary reader. *)
From Coq Require Import Arith NArith List Bool Lia ZifyNat ZifyN ZifyBool.
From Verif Require Import GoBase M_Leb128 S_Leb128 L_Leb128 M_Api M_Binary S_Binary.
Import ListNotations.
Open Scope N_scope.
Open Scope go_scope.
Open Scope reader_scope.

(** ** A reader that reads [x] from exactly the bytes [bs] *)
Definition reads {A} (p : reader A) (x : A) (bs : list N) : Prop :=
  forall r, p (bs ++ r) = Ok (x, r).

Lemma rbind_ok {A B} (p : reader A) (f : A -> reader B) s a r :
  p s = Ok (a, r) -> rbind p f s = f a r.
Proof. intros H. unfold rbind, obind. now rewrite H. Qed.

Lemma reads_bind {A B} (p : reader A) (f : A -> reader B) x bs cs y :
  reads p x bs -> reads (f x) y cs -> reads (rbind p f) y (bs ++ cs).
Proof. intros H K r. rewrite <- app_assoc. rewrite (rbind_ok p f _ x (cs ++ r)); auto. Qed.

Lemma reads_ret {A} (x : A) : reads (rret x) x [].
Proof. intros r. reflexivity. Qed.

Lemma reads_map {A B} (p : reader A) (g : A -> B) x bs :
  reads p x bs -> reads (rlet a := p in rret (g a)) (g x) bs.
Proof. intros H r. now rewrite (rbind_ok p _ _ x r) by auto. Qed.

Lemma reads_byte b : reads read_byte b [b].
Proof. intros r. reflexivity. Qed.

Lemma reads_leb n bs : u32_bytes n bs -> reads read_leb n bs.
Proof.
  intros (F & V & L & _) r. unfold read_leb.
  destruct (decode_value bs r F) as (_ & E & _). rewrite E. cbn [obind].
  rewrite V, N.mod_small by assumption. reflexivity.
Qed.

Lemma reads_make heap n : n <= heap -> reads (make heap n) tt [].
Proof. intros H r. unfold make. cbn. destruct (N.leb_spec n heap); [reflexivity|lia]. Qed.

Lemma reads_full bs n : n = N.of_nat (length bs) -> reads (read_full n) bs bs.
Proof.
  intros -> r. unfold read_full. rewrite app_length.
  destruct (N.leb_spec (N.of_nat (length bs)) (N.of_nat (length bs + length r))); [|lia].
  rewrite Nat2N.id, firstn_app, skipn_app, Nat.sub_diag, firstn_all, skipn_all.
  cbn. now rewrite app_nil_r.
Qed.

Lemma reads_times {A} (p : reader A) xs parts :
  Forall2 (reads p) xs parts -> reads (read_times (length xs) p) xs (concat parts).
Proof.
  induction 1 as [|x bs xs parts H _ IH]; [apply reads_ret|].
  cbn [length read_times concat]. apply (reads_bind _ _ x); [assumption|].
  now apply (reads_map _ (fun l => x :: l)).
Qed.

Lemma Forall2_weaken {A B} (P Q : A -> B -> Prop) xs ys :
  (forall x y, P x y -> Q x y) -> Forall2 P xs ys -> Forall2 Q xs ys.
Proof. intros H. induction 1; constructor; auto. Qed.

Section heap.
Variable heap : N.
Hypothesis Hheap : 2 ^ 32 - 1 <= heap.

Lemma reads_vec {A} (p : reader A) (elem : A -> list N -> Prop) xs bs :
  (forall x b, elem x b -> reads p x b) ->
  vec_bytes elem xs bs -> reads (read_vec heap p) xs bs.
Proof.
  intros He (n & parts & Hn & Hp & ->). unfold read_vec.
  apply (reads_bind _ _ (N.of_nat (length xs))); [now apply reads_leb|].
  change (concat parts) with ([] ++ concat parts).
  apply (reads_bind _ _ tt).
  - apply reads_make. destruct Hn as (_ & _ & L & _). lia.
  - rewrite Nat2N.id. apply reads_times. eapply Forall2_weaken; eauto.
Qed.

Lemma reads_valtype t bs : valtype_bytes t bs -> reads read_valtype t bs.
Proof. intros [] r; reflexivity. Qed.

Lemma reads_valtypes ts bs : vec_bytes valtype_bytes ts bs -> reads (read_valtypes heap) ts bs.
Proof. apply reads_vec. apply reads_valtype. Qed.

Lemma reads_type t bs : functype_bytes t bs -> reads (read_type heap) t bs.
Proof.
  intros (ps & rs & Hp & Hr & ->). unfold read_type.
  change (0x60 :: ps ++ rs) with ([0x60] ++ (ps ++ rs)).
  apply (reads_bind _ _ 0x60); [apply reads_byte|]. cbn.
  apply (reads_bind _ _ (ft_params t)); [now apply reads_valtypes|].
  destruct t as [a b]. cbn in *.
  apply (reads_map _ (fun rs => {| ft_params := a; ft_returns := rs |})). now apply reads_valtypes.
Qed.

Lemma reads_func i bs : u32_bytes i bs ->
  reads read_func {| f_type := i; f_locals := []; f_body := None |} bs.
Proof.
  intros H. apply (reads_map _ (fun i => {| f_type := i; f_locals := []; f_body := None |})).
  now apply reads_leb.
Qed.

Lemma concat_bytes xs parts : Forall2 byte_bytes xs parts -> concat parts = xs.
Proof.
  induction 1 as [|x p xs ps [_ ->] _ IH]; [reflexivity|]. cbn. now rewrite IH.
Qed.

Lemma reads_string nm bs : name_bytes nm bs -> reads (read_string heap) nm bs.
Proof.
  intros (n & parts & Hn & Hp & ->). unfold read_string.
  apply (reads_bind _ _ (N.of_nat (length nm))); [now apply reads_leb|].
  rewrite (concat_bytes _ _ Hp).
  destruct (N.eqb_spec (N.of_nat (length nm)) 0) as [E|E].
  - destruct nm; [apply reads_ret|cbn in E; lia].
  - apply (reads_bind _ _ tt [] nm).
    + apply reads_make. destruct Hn as (_ & _ & L & _). lia.
    + now apply reads_full.
Qed.

Lemma reads_export e bs : export_bytes e bs -> reads (read_export heap) e bs.
Proof.
  intros (nm & ix & Hn & Hi & ->). unfold read_export.
  apply (reads_bind _ _ (ex_name e)); [now apply reads_string|].
  change (0x00 :: ix) with ([0x00] ++ ix).
  apply (reads_bind _ _ 0); [apply reads_byte|].
  destruct e as [a b]. cbn in *.
  apply (reads_map _ (fun i => {| ex_name := a; ex_func := i |})). now apply reads_leb.
Qed.

Lemma reads_instr i bs : instr_bytes i bs -> reads read_instr i bs /\ i <> IEnd.
Proof.
  intros [j b H|]; (split; [|discriminate]).
  - unfold read_instr. change (0x20 :: b) with ([0x20] ++ b).
    apply (reads_bind _ _ 0x20); [apply reads_byte|]. cbn.
    apply (reads_map _ ILocalGet). now apply reads_leb.
  - intros r. reflexivity.
Qed.

Lemma reads_expr_loop is parts : Forall2 instr_bytes is parts -> forall f, (length is < f)%nat ->
  reads (read_expr_loop f) (is ++ [IEnd]) (concat parts ++ [0x0b]).
Proof.
  induction 1 as [|i b is parts H _ IH]; intros f Hf; (destruct f as [|f]; [cbn in Hf; lia|]).
  - intros r. reflexivity.
  - cbn [concat app length read_expr_loop] in *. destruct (reads_instr _ _ H) as [Hr Hne].
    rewrite <- app_assoc. apply (reads_bind _ _ i); [assumption|].
    destruct i; [congruence| |]; apply (reads_map _ (fun l => _ :: l)); apply IH; lia.
Qed.

Lemma instr_parts_length is parts : Forall2 instr_bytes is parts ->
  (length is <= length (concat parts))%nat.
Proof.
  induction 1 as [|i b is parts H _ IH]; [cbn; lia|].
  cbn. rewrite app_length. destruct H; cbn; lia.
Qed.

Lemma reads_expr is bs : expr_bytes is bs -> reads read_expr (is ++ [IEnd]) bs.
Proof.
  intros (parts & Hp & ->) r. unfold read_expr. apply reads_expr_loop; [assumption|].
  apply instr_parts_length in Hp. rewrite !app_length. lia.
Qed.

Lemma reads_code f fn bs : code_bytes f bs -> wf_locals f = [] -> f_type fn = wf_type f ->
  reads (read_code heap fn) (api_func f) bs.
Proof.
  intros (ls & ex & sz & Hl & He & Hs & ->) E T. unfold read_code.
  apply (reads_bind _ _ (N.of_nat (length (ls ++ ex)))); [now apply reads_leb|].
  apply (reads_bind _ _ []).
  - rewrite E in Hl. apply reads_valtypes. destruct Hl as (n & parts & Hn & Hp & ->).
    inversion Hp; subst. exists n, []. repeat split; auto; try apply Hn.
  - unfold api_func. rewrite E, <- T. cbn.
    apply (reads_map _ (fun b => {| f_type := f_type fn; f_locals := []; f_body := Some b |})).
    now apply reads_expr.
Qed.

Lemma reads_update fs parts : Forall2 code_bytes fs parts -> forall fns,
  Forall (fun f => wf_locals f = []) fs ->
  map f_type fns = map wf_type fs ->
  reads (update_funcs heap (length fs) fns) (map api_func fs) (concat parts).
Proof.
  induction 1 as [|f b fs parts H _ IH]; intros fns Hl Ht.
  - destruct fns; [|discriminate]. apply reads_ret.
  - destruct fns as [|fn fns]; [discriminate|]. cbn in *. inversion Hl; subst. inversion Ht.
    apply (reads_bind _ _ (api_func f)); [now apply reads_code|].
    apply (reads_map _ (fun l => api_func f :: l)). now apply IH.
Qed.

(** ** Sections *)
Lemma reads_header id sz n : u32_bytes n sz -> reads read_header (id, n) (id :: sz).
Proof.
  intros H. unfold read_header. change (id :: sz) with ([id] ++ sz).
  apply (reads_bind _ _ id); [apply reads_byte|].
  apply (reads_map _ (fun s => (id, s))). now apply reads_leb.
Qed.

End heap.

(** ** Every reader returns or fails, and never gives back bytes *)
Definition shrinks {A} (d : nat) (p : reader A) : Prop :=
  forall s, (exists a r, p s = Ok (a, r) /\ (length r + d <= length s)%nat) \/ (exists e, p s = Err e).

Lemma shrinks_weaken {A} d d' (p : reader A) : (d' <= d)%nat -> shrinks d p -> shrinks d' p.
Proof.
  intros H Hp s. destruct (Hp s) as [(a & r & E & L)|E]; [left|now right].
  exists a, r. split; [assumption|lia].
Qed.

Lemma shrinks_bind {A B} d e (p : reader A) (f : A -> reader B) :
  shrinks d p -> (forall a, shrinks e (f a)) -> shrinks (d + e) (rbind p f).
Proof.
  intros Hp Hf s. unfold rbind, obind. destruct (Hp s) as [(a & r & E & L)|[x E]]; rewrite E.
  - destruct (Hf a r) as [(b & r' & E' & L')|[x E']]; rewrite E'.
    + left. exists b, r'. split; [reflexivity|lia].
    + right. now exists x.
  - right. now exists x.
Qed.

Lemma shrinks_bind0 {A B} (p : reader A) (f : A -> reader B) :
  shrinks 0 p -> (forall a, shrinks 0 (f a)) -> shrinks 0 (rbind p f).
Proof. apply (shrinks_bind 0 0). Qed.

Lemma shrinks_bind1 {A B} (p : reader A) (f : A -> reader B) :
  shrinks 1 p -> (forall a, shrinks 0 (f a)) -> shrinks 1 (rbind p f).
Proof. apply (shrinks_bind 1 0). Qed.

Lemma shrinks_ret {A} (a : A) : shrinks 0 (rret a).
Proof. intros s. left. exists a, s. split; [reflexivity|lia]. Qed.

Lemma shrinks_err {A} d e : shrinks d (@rerr A e).
Proof. intros s. right. now exists e. Qed.

Lemma shrinks_byte : shrinks 1 read_byte.
Proof. intros [|b s]; [right; now exists EEOF|left; exists b, s; split; [reflexivity|cbn; lia]]. Qed.

Lemma shrinks_leb_aux s : forall v sh n,
  (exists a k r, leb_decode_reader_aux v sh n s = Ok (a, k, r) /\ (length r + 1 <= length s)%nat) \/
  leb_decode_reader_aux v sh n s = Err EOther.
Proof.
  induction s as [|b s IH]; intros v sh n; cbn [leb_decode_reader_aux]; [now right|].
  destruct (_ =? 0).
  - left. eexists _, _, s. split; [reflexivity|cbn; lia].
  - destruct (IH (N.lor v (leb_group b sh)) (sh + 7) (n + 1)) as [(a & k & r & E & L)|E]; [left|now right].
    exists a, k, r. split; [assumption|cbn; lia].
Qed.

Lemma shrinks_leb : shrinks 1 read_leb.
Proof.
  intros s. unfold read_leb, leb_decode_reader.
  destruct (shrinks_leb_aux s 0 0 0) as [(a & k & r & E & L)|E]; rewrite E; cbn.
  - left. now exists a, r.
  - right. now exists EOther.
Qed.

Lemma shrinks_full n : shrinks 0 (read_full n).
Proof.
  intros s. unfold read_full. destruct (_ <=? _); [left|right; now exists EEOF].
  eexists _, _. split; [reflexivity|]. rewrite skipn_length. lia.
Qed.

(** leb128 values are below 2^32 *)
Lemma lor_below v w : v < two32 -> w < two32 -> N.lor v w < two32.
Proof.
  intros Hv Hw. change two32 with (2 ^ 32) in *.
  rewrite <- (N.mod_small v (2^32)) by assumption. rewrite <- (N.mod_small w (2^32)) by assumption.
  pose proof (u32_lor v w) as E. unfold u32 in E. change two32 with (2^32) in E. rewrite E.
  apply N.mod_lt. discriminate.
Qed.

Lemma leb_below s : forall v sh n a k r, v < two32 ->
  leb_decode_reader_aux v sh n s = Ok (a, k, r) -> a < two32.
Proof.
  induction s as [|b s IH]; intros v sh n a k r Hv; cbn [leb_decode_reader_aux]; [discriminate|].
  assert (Hg : N.lor v (leb_group b sh) < two32).
  { apply lor_below; [assumption|]. unfold leb_group, u32. apply N.mod_lt. discriminate. }
  destruct (_ =? 0).
  - intros E. now inversion E; subst.
  - intros E. now apply IH in E.
Qed.

Lemma read_leb_below s a r : read_leb s = Ok (a, r) -> a < two32.
Proof.
  unfold read_leb, leb_decode_reader. destruct (leb_decode_reader_aux 0 0 0 s) as [[[v k] s']|e| |] eqn:E; cbn; try discriminate.
  intros H. inversion H; subst. eapply leb_below; [|exact E]. reflexivity.
Qed.

Lemma shrinks_leb_bind {B} e (f : N -> reader B) :
  (forall n, n < two32 -> shrinks e (f n)) -> shrinks (S e) (rbind read_leb f).
Proof.
  intros Hf s. unfold rbind, obind. destruct (shrinks_leb s) as [(a & r & E & L)|[x E]]; rewrite E.
  - pose proof (read_leb_below _ _ _ E) as B0.
    destruct (Hf a B0 r) as [(b & r' & E' & L')|[x E']]; rewrite E'.
    + left. exists b, r'. split; [reflexivity|lia].
    + right. now exists x.
  - right. now exists x.
Qed.

Lemma shrinks_times {A} (p : reader A) n : shrinks 0 p -> shrinks 0 (read_times n p).
Proof.
  intros Hp. induction n as [|n IH]; [apply shrinks_ret|].
  cbn [read_times]. apply shrinks_bind0; [assumption|]. intros a.
  apply shrinks_bind0; [assumption|]. intros l. apply shrinks_ret.
Qed.

Lemma shrinks_1_0 {A} (p : reader A) : shrinks 1 p -> shrinks 0 p.
Proof. apply shrinks_weaken. lia. Qed.

Section total.
Variable heap : N.
Hypothesis Hheap : 2 ^ 32 - 1 <= heap.

Lemma shrinks_make n : n < two32 -> shrinks 0 (make heap n).
Proof.
  intros H s. unfold make. change two32 with (2^32) in H.
  destruct (N.leb_spec n heap); [|lia]. left. exists tt, s. split; [reflexivity|lia].
Qed.

Lemma shrinks_vec {A} (p : reader A) : shrinks 0 p -> shrinks 1 (read_vec heap p).
Proof.
  intros Hp. apply shrinks_leb_bind. intros n Hn. apply shrinks_bind0; [now apply shrinks_make|].
  intros _. now apply shrinks_times.
Qed.

Lemma shrinks_valtype : shrinks 1 read_valtype.
Proof.
  unfold read_valtype. apply shrinks_bind1; [apply shrinks_byte|]. intros b.
  repeat (destruct (b =? _); [apply shrinks_ret|]). apply shrinks_err.
Qed.

Lemma shrinks_valtypes : shrinks 1 (read_valtypes heap).
Proof. apply shrinks_vec, shrinks_1_0, shrinks_valtype. Qed.

Lemma shrinks_type : shrinks 1 (read_type heap).
Proof.
  unfold read_type. apply shrinks_bind1; [apply shrinks_byte|]. intros b.
  destruct (negb _); [apply shrinks_err|].
  apply shrinks_bind0; [apply shrinks_1_0, shrinks_valtypes|]. intros ps.
  apply shrinks_bind0; [apply shrinks_1_0, shrinks_valtypes|]. intros rs. apply shrinks_ret.
Qed.

Lemma shrinks_func : shrinks 1 read_func.
Proof. apply shrinks_leb_bind. intros. apply shrinks_ret. Qed.

Lemma shrinks_string : shrinks 1 (read_string heap).
Proof.
  apply shrinks_leb_bind. intros n Hn. destruct (n =? 0); [apply shrinks_ret|].
  apply shrinks_bind0; [now apply shrinks_make|]. intros _. apply shrinks_full.
Qed.

Lemma shrinks_export : shrinks 1 (read_export heap).
Proof.
  apply shrinks_bind1; [apply shrinks_string|]. intros nm.
  apply shrinks_bind0; [apply shrinks_1_0, shrinks_byte|]. intros k.
  apply shrinks_bind0; [apply shrinks_1_0, shrinks_leb|]. intros i.
  destruct (k =? 0); [apply shrinks_ret|apply shrinks_err].
Qed.

Lemma shrinks_instr : shrinks 1 read_instr.
Proof.
  apply shrinks_bind1; [apply shrinks_byte|]. intros b.
  destruct (b =? 11); [apply shrinks_ret|].
  destruct (b =? 32).
  { apply shrinks_bind0; [apply shrinks_1_0, shrinks_leb|]. intros i. apply shrinks_ret. }
  destruct (b =? 106); [apply shrinks_ret|apply shrinks_err].
Qed.

(** The loop of ReadExpression ends: every instruction takes a byte. *)
Lemma expr_loop_total f : forall s, (length s < f)%nat ->
  (exists a r, read_expr_loop f s = Ok (a, r) /\ (length r <= length s)%nat) \/
  (exists e, read_expr_loop f s = Err e).
Proof.
  induction f as [|f IH]; intros s Hs; [lia|]. cbn [read_expr_loop]. unfold rbind, obind.
  destruct (shrinks_instr s) as [(a & r & E & L)|[x E]]; rewrite E; [|right; now exists x].
  destruct a.
  1: { left. eexists _, _. split; [reflexivity|lia]. }
  all: unfold rbind, obind; destruct (IH r ltac:(lia)) as [(l & r' & E' & L')|[x E']]; rewrite E';
    [left; eexists _, _; split; [reflexivity|lia]|right; now exists x].
Qed.

Lemma read_expr_total : shrinks 0 read_expr.
Proof.
  intros s. unfold read_expr.
  destruct (expr_loop_total (S (length s)) s ltac:(lia)) as [(a & r & E & L)|E]; [left|now right].
  exists a, r. split; [assumption|lia].
Qed.

Lemma shrinks_code fn : shrinks 0 (read_code heap fn).
Proof.
  apply shrinks_bind0; [apply shrinks_1_0, shrinks_leb|]. intros _.
  apply shrinks_bind0; [apply shrinks_1_0, shrinks_valtypes|]. intros l.
  apply shrinks_bind0; [apply read_expr_total|]. intros b. apply shrinks_ret.
Qed.

Lemma shrinks_update n : forall fs, shrinks 0 (update_funcs heap n fs).
Proof.
  induction n as [|n IH]; intros fs; [apply shrinks_ret|].
  destruct fs as [|fn fs]; cbn [update_funcs]; [apply shrinks_err|].
  apply shrinks_bind0; [apply shrinks_code|]. intros fn'.
  apply shrinks_bind0; [apply IH|]. intros l. apply shrinks_ret.
Qed.

Lemma shrinks_section id size m : size < two32 -> shrinks 0 (read_section heap id size m).
Proof.
  intros Hs. unfold read_section.
  destruct (id =? 1).
  { apply shrinks_bind0; [|intros; apply shrinks_ret].
    apply shrinks_1_0, shrinks_vec, shrinks_1_0, shrinks_type. }
  destruct (id =? 3).
  { apply shrinks_bind0; [|intros; apply shrinks_ret].
    apply shrinks_1_0, shrinks_vec, shrinks_1_0, shrinks_func. }
  destruct (id =? 10).
  { apply shrinks_bind0; [apply shrinks_1_0, shrinks_leb|]. intros n.
    apply shrinks_bind0; [apply shrinks_update|]. intros; apply shrinks_ret. }
  destruct (id =? 7).
  { apply shrinks_bind0; [|intros; apply shrinks_ret].
    apply shrinks_1_0, shrinks_vec, shrinks_1_0, shrinks_export. }
  apply shrinks_bind0; [now apply shrinks_make|]. intros _.
  destruct (size =? 0); [apply shrinks_ret|].
  apply shrinks_bind0; [apply shrinks_full|]. intros; apply shrinks_ret.
Qed.

Lemma shrinks_header : shrinks 1 read_header.
Proof.
  apply shrinks_bind1; [apply shrinks_byte|]. intros b.
  apply shrinks_bind0; [apply shrinks_1_0, shrinks_leb|]. intros; apply shrinks_ret.
Qed.

Lemma header_size s id size r : read_header s = Ok (id, size, r) -> size < two32.
Proof.
  unfold read_header, rbind, obind. destruct s as [|b s]; cbn; [discriminate|].
  destruct (read_leb s) as [[v s']|e| |] eqn:E; try discriminate.
  intros H. inversion H; subst. eapply read_leb_below; eassumption.
Qed.

Lemma header_eof s : read_header s = Err EEOF <-> s = [].
Proof.
  split; [|intros ->; reflexivity].
  destruct s as [|b s]; [reflexivity|]. unfold read_header, rbind, obind. cbn.
  unfold read_leb, leb_decode_reader.
  destruct (shrinks_leb_aux s 0 0 0) as [(a & k & r & E & L)|E]; rewrite E; discriminate.
Qed.

Lemma sections_total f : forall m s, (length s < f)%nat ->
  (exists a, read_sections heap f m s = Ok (a, [])) \/ (exists e, read_sections heap f m s = Err e).
Proof.
  induction f as [|f IH]; intros m s Hs; [lia|]. cbn [read_sections].
  destruct (shrinks_header s) as [([id size] & r & E & L)|[x E]]; rewrite E.
  - destruct (shrinks_section id size m (header_size _ _ _ _ E) r) as [(m' & r' & E' & L')|[x E']];
      rewrite E'; cbn [obind]; [apply IH; lia|right; now exists x].
  - destruct x; try (right; eexists; reflexivity).
    apply header_eof in E. subst. left. now exists m.
Qed.

(** The fuel does not matter as long as there is enough. *)
Lemma sections_fuel f : forall g m s, (length s < f)%nat -> (length s < g)%nat ->
  read_sections heap f m s = read_sections heap g m s.
Proof.
  induction f as [|f IH]; intros g m s Hf Hg; [lia|]. destruct g as [|g]; [lia|].
  cbn [read_sections].
  destruct (shrinks_header s) as [([id size] & r & E & L)|[x E]]; rewrite E; [|reflexivity].
  destruct (shrinks_section id size m (header_size _ _ _ _ E) r) as [(m' & r' & E' & L')|[x E']];
    rewrite E'; cbn [obind]; [apply IH; lia|reflexivity].
Qed.

Lemma module_total s :
  (exists m, read_module heap s = Ok (m, [])) \/ (exists e, read_module heap s = Err e).
Proof. apply sections_total. lia. Qed.

End total.

(** ** Truncation: a reader that succeeded on [c] fails on every proper
    prefix of [c] *)
Definition cuts {A} (p : reader A) (c : list N) : Prop :=
  forall q t, c = q ++ t -> t <> [] -> exists e, p q = Err e.

Definition exact {A} (p : reader A) : Prop :=
  forall s a r, p s = Ok (a, r) -> exists c, s = c ++ r /\ reads p a c /\ cuts p c.

Lemma app_split {A} (a b q t : list A) : a ++ b = q ++ t ->
  (exists u, u <> [] /\ a = q ++ u /\ t = u ++ b) \/ (exists u, q = a ++ u /\ b = u ++ t).
Proof.
  revert q. induction a as [|x a IH]; intros q E; cbn in E.
  - right. now exists q.
  - destruct q as [|y q]; cbn in E.
    + left. exists (x :: a). now repeat split.
    + inversion E; subst. destruct (IH q H1) as [(u & Hn & -> & ->)|(u & -> & ->)].
      * left. now exists u.
      * right. now exists u.
Qed.

Lemma cuts_bind {A B} (p : reader A) (f : A -> reader B) x c d :
  reads p x c -> cuts p c -> cuts (f x) d -> cuts (rbind p f) (c ++ d).
Proof.
  intros Hr Hc Hd q t E Ht. destruct (app_split _ _ _ _ E) as [(u & Hu & E1 & E2)|(u & E1 & E2)].
  - destruct (Hc q u E1 Hu) as [e He]. exists e. unfold rbind, obind. now rewrite He.
  - destruct (Hd u t E2 Ht) as [e He]. exists e. subst q. rewrite (rbind_ok p f _ x u) by apply Hr.
    assumption.
Qed.

Lemma exact_bind {A B} (p : reader A) (f : A -> reader B) :
  exact p -> (forall a, exact (f a)) -> exact (rbind p f).
Proof.
  intros Hp Hf s b r H. unfold rbind, obind in H.
  destruct (p s) as [[a s']|e| |] eqn:E; try discriminate.
  destruct (Hp _ _ _ E) as (c & -> & Rc & Cc).
  destruct (Hf a _ _ _ H) as (d & -> & Rd & Cd).
  exists (c ++ d). rewrite app_assoc. split; [reflexivity|split].
  - now apply (reads_bind p f a).
  - now apply (cuts_bind p f a).
Qed.

Lemma cuts_nil {A} (p : reader A) : cuts p [].
Proof. intros q t E Ht. destruct q; destruct t; try discriminate. congruence. Qed.

Lemma exact_ret {A} (a : A) : exact (rret a).
Proof.
  intros s b r H. inversion H; subst. exists []. split; [reflexivity|split; [apply reads_ret|apply cuts_nil]].
Qed.

Lemma exact_err {A} e : exact (@rerr A e).
Proof. intros s a r H. discriminate. Qed.

Lemma exact_byte : exact read_byte.
Proof.
  intros [|b s] a r H; [discriminate|]. inversion H; subst. exists [a]. split; [reflexivity|split; [apply reads_byte|]].
  intros [|x q] t E Ht; [now exists EEOF|]. inversion E as [[E1 E2]].
  destruct q; [|discriminate]. destruct t; [congruence|discriminate].
Qed.

Lemma exact_leb_aux s : forall v sh n a k r, leb_decode_reader_aux v sh n s = Ok (a, k, r) ->
  exists c, s = c ++ r /\ (forall r', leb_decode_reader_aux v sh n (c ++ r') = Ok (a, k, r')) /\
    (forall q t, c = q ++ t -> t <> [] -> leb_decode_reader_aux v sh n q = Err EOther).
Proof.
  induction s as [|b s IH]; intros v sh n a k r; cbn [leb_decode_reader_aux]; [discriminate|].
  destruct (N.land b 128 =? 0) eqn:Eb.
  - intros H. inversion H; subst. exists [b]. split; [reflexivity|split].
    + intros r'. cbn [app leb_decode_reader_aux]. now rewrite Eb.
    + intros [|x q] t E Ht; [reflexivity|]. inversion E as [[E1 E2]].
      destruct q; [|discriminate]. destruct t; [congruence|discriminate].
  - intros H. destruct (IH _ _ _ _ _ _ H) as (c & -> & Hr & Hc).
    exists (b :: c). split; [reflexivity|split].
    + intros r'. cbn [app leb_decode_reader_aux]. rewrite Eb. apply Hr.
    + intros [|x q] t E Ht; [reflexivity|]. inversion E as [[E1 E2]]. subst x.
      cbn [leb_decode_reader_aux]. rewrite Eb. now apply (Hc q t).
Qed.

Lemma exact_leb : exact read_leb.
Proof.
  intros s a r. unfold read_leb, leb_decode_reader.
  destruct (leb_decode_reader_aux 0 0 0 s) as [[[v k] s']|e| |] eqn:E; cbn; try discriminate.
  intros H. inversion H; subst. destruct (exact_leb_aux _ _ _ _ _ _ _ E) as (c & -> & Hr & Hc).
  exists c. split; [reflexivity|split].
  - intros r'. unfold read_leb, leb_decode_reader. now rewrite Hr.
  - intros q t Eq Ht. exists EOther. unfold read_leb, leb_decode_reader. now rewrite (Hc q t).
Qed.

Lemma exact_make heap n : exact (make heap n).
Proof.
  intros s a r H. exists []. unfold make in H. destruct (n <=? heap) eqn:E; [|discriminate].
  inversion H; subst. split; [reflexivity|split; [|apply cuts_nil]].
  intros r'. unfold make. cbn. now rewrite E.
Qed.

Lemma exact_full n : exact (read_full n).
Proof.
  intros s a r H. unfold read_full in H. destruct (N.leb_spec n (N.of_nat (length s))) as [L|L]; [|discriminate].
  inversion H; subst. exists (firstn (N.to_nat n) s).
  assert (Hl : length (firstn (N.to_nat n) s) = N.to_nat n) by (rewrite firstn_length; lia).
  split; [now rewrite firstn_skipn|]. split.
  - apply reads_full. lia.
  - intros q t E Ht. exists EEOF. unfold read_full.
    rewrite E, app_length in Hl. destruct t; [congruence|]. cbn in Hl.
    destruct (N.leb_spec n (N.of_nat (length q))); [lia|reflexivity].
Qed.

Lemma exact_times {A} (p : reader A) n : exact p -> exact (read_times n p).
Proof.
  intros Hp. induction n as [|n IH]; [apply exact_ret|]. cbn [read_times].
  apply exact_bind; [assumption|]. intros a. apply exact_bind; [assumption|]. intros; apply exact_ret.
Qed.

Lemma exact_vec {A} heap (p : reader A) : exact p -> exact (read_vec heap p).
Proof.
  intros Hp. apply exact_bind; [apply exact_leb|]. intros n.
  apply exact_bind; [apply exact_make|]. intros _. now apply exact_times.
Qed.

Lemma exact_valtype : exact read_valtype.
Proof.
  apply exact_bind; [apply exact_byte|]. intros b.
  repeat (destruct (b =? _); [apply exact_ret|]). apply exact_err.
Qed.

Lemma exact_type heap : exact (read_type heap).
Proof.
  apply exact_bind; [apply exact_byte|]. intros b. destruct (negb _); [apply exact_err|].
  apply exact_bind; [apply exact_vec, exact_valtype|]. intros ps.
  apply exact_bind; [apply exact_vec, exact_valtype|]. intros; apply exact_ret.
Qed.

Lemma exact_func : exact read_func.
Proof. apply exact_bind; [apply exact_leb|]. intros; apply exact_ret. Qed.

Lemma exact_string heap : exact (read_string heap).
Proof.
  apply exact_bind; [apply exact_leb|]. intros n. destruct (n =? 0); [apply exact_ret|].
  apply exact_bind; [apply exact_make|]. intros _. apply exact_full.
Qed.

Lemma exact_export heap : exact (read_export heap).
Proof.
  apply exact_bind; [apply exact_string|]. intros nm.
  apply exact_bind; [apply exact_byte|]. intros k.
  apply exact_bind; [apply exact_leb|]. intros i.
  destruct (k =? 0); [apply exact_ret|apply exact_err].
Qed.

Lemma exact_instr : exact read_instr.
Proof.
  apply exact_bind; [apply exact_byte|]. intros b.
  destruct (b =? 11); [apply exact_ret|].
  destruct (b =? 32); [apply exact_bind; [apply exact_leb|intros; apply exact_ret]|].
  destruct (b =? 106); [apply exact_ret|apply exact_err].
Qed.

Lemma exact_expr_loop f : exact (read_expr_loop f).
Proof.
  induction f as [|f IH]; [intros s a r H; discriminate|]. cbn [read_expr_loop].
  apply exact_bind; [apply exact_instr|]. intros [].
  - apply exact_ret.
  - apply exact_bind; [assumption|]. intros; apply exact_ret.
  - apply exact_bind; [assumption|]. intros; apply exact_ret.
Qed.

Lemma expr_fuel f : forall g s, (length s < f)%nat -> (length s < g)%nat ->
  read_expr_loop f s = read_expr_loop g s.
Proof.
  induction f as [|f IH]; intros g s Hf Hg; [lia|]. destruct g as [|g]; [lia|].
  cbn [read_expr_loop]. unfold rbind, obind.
  destruct (shrinks_instr s) as [(a & r & E & L)|[x E]]; rewrite E; [|reflexivity].
  destruct a; [reflexivity| |]; rewrite (IH g r) by lia; reflexivity.
Qed.

Lemma exact_expr : exact read_expr.
Proof.
  intros s a r H. unfold read_expr in H.
  destruct (exact_expr_loop _ _ _ _ H) as (c & -> & Hr & Hc). exists c. split; [reflexivity|split].
  - intros r'. unfold read_expr. pose proof (Hr r') as E1.
    rewrite app_length in Hr.
    (* enough fuel for both inputs *)
    set (f := S (length c + length r + length r')).
    assert (E2 : read_expr_loop f (c ++ r) = Ok (a, r)).
    { rewrite <- H. apply expr_fuel; unfold f; rewrite !app_length; lia. }
    destruct (exact_expr_loop _ _ _ _ E2) as (c' & Ec & Hr' & _).
    apply app_inv_tail in Ec. subst c'.
    rewrite <- (Hr' r'). apply expr_fuel; unfold f; rewrite ?app_length; lia.
  - intros q t E Ht. destruct (Hc q t E Ht) as [e He]. exists e. rewrite <- He.
    unfold read_expr. apply expr_fuel; [lia|]. rewrite app_length, E, app_length. lia.
Qed.

Lemma exact_code heap fn : exact (read_code heap fn).
Proof.
  apply exact_bind; [apply exact_leb|]. intros _.
  apply exact_bind; [apply exact_vec, exact_valtype|]. intros l.
  apply exact_bind; [apply exact_expr|]. intros; apply exact_ret.
Qed.

Lemma exact_update heap n : forall fs, exact (update_funcs heap n fs).
Proof.
  induction n as [|n IH]; intros fs; [apply exact_ret|].
  destruct fs as [|fn fs]; cbn [update_funcs]; [apply exact_err|].
  apply exact_bind; [apply exact_code|]. intros fn'.
  apply exact_bind; [apply IH|]. intros; apply exact_ret.
Qed.

Lemma exact_section heap id size m : exact (read_section heap id size m).
Proof.
  unfold read_section.
  destruct (id =? 1); [apply exact_bind; [apply exact_vec, exact_type|intros; apply exact_ret]|].
  destruct (id =? 3); [apply exact_bind; [apply exact_vec, exact_func|intros; apply exact_ret]|].
  destruct (id =? 10).
  { apply exact_bind; [apply exact_leb|]. intros n. apply exact_bind; [apply exact_update|].
    intros; apply exact_ret. }
  destruct (id =? 7); [apply exact_bind; [apply exact_vec, exact_export|intros; apply exact_ret]|].
  apply exact_bind; [apply exact_make|]. intros _. destruct (size =? 0); [apply exact_ret|].
  apply exact_bind; [apply exact_full|]. intros; apply exact_ret.
Qed.

Lemma exact_header : exact read_header.
Proof.
  apply exact_bind; [apply exact_byte|]. intros b.
  apply exact_bind; [apply exact_leb|]. intros; apply exact_ret.
Qed.

Lemma exact_uint16 : exact read_uint16.
Proof.
  apply exact_bind; [apply exact_full|]. intros [|lo [|hi [|]]]; try apply exact_err. apply exact_ret.
Qed.

Lemma exact_preamble : exact read_preamble.
Proof.
  apply exact_bind; [apply exact_full|]. intros m. destruct (negb _); [apply exact_err|].
  apply exact_bind; [apply exact_uint16|]. intros v.
  apply exact_bind; [apply exact_uint16|]. intros l. apply exact_ret.
Qed.

(** The whole of one section: header and contents. *)
Definition one_section (heap : N) (m : module) : reader module :=
  rlet (id, size) := read_header in read_section heap id size m.

Lemma exact_one heap m : exact (one_section heap m).
Proof. apply exact_bind; [apply exact_header|]. intros [id size]. apply exact_section. Qed.

Section cut.
Variable heap : N.
Hypothesis Hheap : 2 ^ 32 - 1 <= heap.

Lemma sections_step f m s : s <> [] -> (length s < f)%nat ->
  read_sections heap f m s =
  match one_section heap m s with
  | Ok (m', s') => read_sections heap f m' s'
  | Err e => Err e
  | Panic => Panic
  | Diverge => Diverge
  end.
Proof.
  intros Hs Hf. destruct f as [|f]; [lia|].
  change (read_sections heap (S f) m s) with
    (match read_header s with
      | Err EEOF => Ok (m, s)
      | Ok (id, size, s1) =>
          olet (m', s2) := read_section heap id size m s1 in
          read_sections heap f m' s2
      | Err e => Err e
      | Panic => Panic
      | Diverge => Diverge
      end).
  unfold one_section, rbind, obind.
  destruct (shrinks_header s) as [([id size] & r & E & L)|[x E]].
  - rewrite E.
    destruct (shrinks_section heap Hheap id size m (header_size _ _ _ _ E) r) as [(m' & r' & E' & L')|[x E']];
      rewrite E'; cbn [obind]; [|reflexivity]. apply (sections_fuel _ Hheap); lia.
  - rewrite E. destruct x; try reflexivity. apply header_eof in E. contradiction.
Qed.

End cut.

(** ** Reading back a whole module *)
Section module.
Variable heap : N.
Hypothesis Hheap : 2 ^ 32 - 1 <= heap.

(** The sections [secs] take the module read so far from [m] to [m']. *)
Inductive chain : module -> list (list N) -> module -> Prop :=
| chain_nil m : chain m [] m
| chain_cons m s m1 secs m' :
    is_section s -> reads (one_section heap m) m1 s -> chain m1 secs m' -> chain m (s :: secs) m'.

Lemma chain_app m s m1 s' m2 : chain m s m1 -> chain m1 s' m2 -> chain m (s ++ s') m2.
Proof. induction 1; cbn; [auto|]. intros. eapply chain_cons; eauto. Qed.

Definition takes (m : module) (s : list N) (m' : module) : Prop :=
  exists secs, s = concat secs /\ chain m secs m'.

Lemma takes_nil m : takes m [] m.
Proof. exists []. split; [reflexivity|constructor]. Qed.

Lemma takes_app m s m' s' m'' : takes m s m' -> takes m' s' m'' -> takes m (s ++ s') m''.
Proof.
  intros (a & -> & Ha) (b & -> & Hb). exists (a ++ b). rewrite concat_app.
  split; [reflexivity|]. eapply chain_app; eauto.
Qed.

Lemma takes_section m id payload s m' :
  section_bytes id payload s ->
  reads (read_section heap id (N.of_nat (length payload)) m) m' payload ->
  takes m s m'.
Proof.
  intros Hs H. exists [s]. cbn. rewrite app_nil_r. split; [reflexivity|].
  eapply chain_cons; [exists id, payload; exact Hs| |constructor].
  destruct Hs as (sz & Hz & ->). unfold one_section.
  change (id :: sz ++ payload) with ((id :: sz) ++ payload).
  apply (reads_bind _ _ (id, N.of_nat (length payload))); [now apply reads_header|assumption].
Qed.

Lemma takes_other m s : other_bytes s -> takes m s m.
Proof.
  induction 1 as [|id payload s bs (H1 & H2 & H3 & H4 & H5) Hs _ IH]; [apply takes_nil|].
  eapply takes_app; [|exact IH]. eapply takes_section; [exact Hs|].
  unfold read_section.
  destruct (N.eqb_spec id 1); [lia|]. destruct (N.eqb_spec id 3); [lia|].
  destruct (N.eqb_spec id 10); [lia|]. destruct (N.eqb_spec id 7); [lia|].
  apply (reads_bind _ _ tt [] payload).
  { apply reads_make. destruct Hs as (sz & (_ & _ & L & _) & _). lia. }
  destruct (N.eqb_spec (N.of_nat (length payload)) 0) as [E|E].
  { destruct payload; [apply reads_ret|cbn in E; lia]. }
  apply (reads_map _ (fun _ => m)) with (x := payload). now apply reads_full.
Qed.

Lemma takes_vec {A} id (elem : A -> list N -> Prop) (xs : list A) s m m' :
  vec_section id elem xs s ->
  (xs = [] -> m = m') ->
  (forall n payload, vec_bytes elem xs payload -> reads (read_section heap id n m) m' payload) ->
  takes m s m'.
Proof.
  intros [[-> ->]|(payload & Hv & Hs)] H1 H2.
  - rewrite <- H1 by reflexivity. apply takes_nil.
  - eapply takes_section; eauto.
Qed.

Lemma map_nil {A B} (f : A -> B) l : map f l = [] -> l = [].
Proof. destruct l; [reflexivity|discriminate]. Qed.

(** The functions before their code is read. *)
Definition bare_func (f : wfunc) : func := {| f_type := wf_type f; f_locals := []; f_body := None |}.
Definition bare_module (m : wmodule) : module :=
  {| m_types := wm_types m; m_funcs := map bare_func (wm_funcs m); m_exports := wm_exports m |}.

Lemma takes_front m o0 ts o1 fs o2 es o3 :
  other_bytes o0 -> other_bytes o1 -> other_bytes o2 -> other_bytes o3 ->
  vec_section 1 functype_bytes (wm_types m) ts ->
  vec_section 3 u32_bytes (map wf_type (wm_funcs m)) fs ->
  vec_section 7 export_bytes (wm_exports m) es ->
  takes {| m_types := []; m_funcs := []; m_exports := [] |}
        (o0 ++ ts ++ o1 ++ fs ++ o2 ++ es ++ o3) (bare_module m).
Proof.
  intros O0 O1 O2 O3 Ht Hf He.
  set (bare := map bare_func (wm_funcs m)).
  set (m1 := {| m_types := wm_types m; m_funcs := []; m_exports := [] |}).
  set (m2 := {| m_types := wm_types m; m_funcs := bare; m_exports := [] |}).
  eapply takes_app; [now apply takes_other|].
  eapply takes_app with (m' := m1).
  { eapply takes_vec; [exact Ht| |].
    - intros E. unfold m1. now rewrite E.
    - intros n p Hp. unfold read_section. cbn.
      apply (reads_map _ (fun ts => {| m_types := ts; m_funcs := []; m_exports := [] |})).
      unfold read_types. eapply reads_vec; [assumption| |exact Hp]. intros; now apply reads_type. }
  eapply takes_app; [now apply takes_other|].
  eapply takes_app with (m' := m2).
  { eapply takes_vec; [exact Hf| |].
    - intros E. apply map_nil in E. unfold m1, m2, bare. now rewrite E.
    - intros n p Hp. unfold read_section. cbn.
      apply (reads_map _ (fun fs => {| m_types := wm_types m; m_funcs := fs; m_exports := [] |})).
      assert (Hb : vec_bytes (fun f b => f_locals f = [] /\ f_body f = None /\ u32_bytes (f_type f) b) bare p).
      { destruct Hp as (c & parts & Hn & Hp & ->). exists c, parts.
        unfold bare. rewrite map_length in *. repeat split; try apply Hn.
        clear - Hp. revert parts Hp. induction (wm_funcs m) as [|f l IH]; intros parts Hp; inversion Hp; subst;
          constructor; cbn; auto. }
      unfold read_funcs. eapply reads_vec; [assumption| |exact Hb].
      intros [i l b] bs (E1 & E2 & E3). cbn in *. subst. now apply reads_func. }
  eapply takes_app; [now apply takes_other|].
  eapply takes_app; [|now apply takes_other].
  eapply takes_vec; [exact He| |].
  - intros E. unfold m2, bare_module. now rewrite E.
  - intros n p Hp. unfold read_section. cbn.
    apply (reads_map _ (fun es => {| m_types := wm_types m; m_funcs := bare; m_exports := es |})).
    unfold read_exports. eapply reads_vec; [assumption| |exact Hp]. intros; now apply reads_export.
Qed.

Lemma bare_types l : map f_type (map bare_func l) = map wf_type l.
Proof. rewrite map_map. reflexivity. Qed.

Lemma takes_code m cs : no_locals m -> vec_section 10 code_bytes (wm_funcs m) cs ->
  takes (bare_module m) cs (api_module m).
Proof.
  intros Hl Hc. eapply takes_vec; [exact Hc| |].
  - intros E. unfold bare_module, api_module. now rewrite E.
  - intros n p (c & parts & Hn & Hp & ->). unfold read_section. cbn.
    apply (reads_bind _ _ (N.of_nat (length (wm_funcs m)))); [now apply reads_leb|].
    rewrite Nat2N.id.
    apply (reads_map _ (fun fs => {| m_types := wm_types m; m_funcs := fs; m_exports := wm_exports m |})).
    apply reads_update; auto. apply bare_types.
Qed.

Lemma takes_module m o0 ts o1 fs o2 es o3 cs o4 :
  no_locals m ->
  other_bytes o0 -> other_bytes o1 -> other_bytes o2 -> other_bytes o3 -> other_bytes o4 ->
  vec_section 1 functype_bytes (wm_types m) ts ->
  vec_section 3 u32_bytes (map wf_type (wm_funcs m)) fs ->
  vec_section 7 export_bytes (wm_exports m) es ->
  vec_section 10 code_bytes (wm_funcs m) cs ->
  takes {| m_types := []; m_funcs := []; m_exports := [] |}
        (o0 ++ ts ++ o1 ++ fs ++ o2 ++ es ++ o3 ++ cs ++ o4) (api_module m).
Proof.
  intros Hl O0 O1 O2 O3 O4 Ht Hf He Hc.
  replace (o0 ++ ts ++ o1 ++ fs ++ o2 ++ es ++ o3 ++ cs ++ o4)
    with ((o0 ++ ts ++ o1 ++ fs ++ o2 ++ es ++ o3) ++ cs ++ o4) by (now rewrite <- !app_assoc).
  eapply takes_app with (m' := bare_module m); [now apply takes_front|].
  eapply takes_app; [now apply takes_code|now apply takes_other].
Qed.

(** *** Functions with local declarations *)
Definition fails {A} (p : reader A) (bs : list N) : Prop :=
  forall r, exists e, p (bs ++ r) = Err e.

Lemma fails_left {A B} (p : reader A) (f : A -> reader B) bs cs :
  fails p bs -> fails (rbind p f) (bs ++ cs).
Proof.
  intros H r. destruct (H (cs ++ r)) as [e E]. exists e. rewrite <- app_assoc.
  unfold rbind, obind. now rewrite E.
Qed.

Lemma fails_right {A B} (p : reader A) (f : A -> reader B) x bs cs :
  reads p x bs -> fails (f x) cs -> fails (rbind p f) (bs ++ cs).
Proof.
  intros H K r. destruct (K r) as [e E]. exists e. rewrite <- app_assoc.
  rewrite (rbind_ok p f _ x (cs ++ r)); auto.
Qed.

Lemma valtype_fails n bs : u32_bytes n bs -> ~ 124 <= n <= 127 -> fails read_valtype bs.
Proof.
  intros (F & V & _) Hn r. exists EOther. unfold read_valtype, rbind, obind.
  assert (exists b bs', bs = b :: bs' /\ ~ 124 <= b <= 127) as (b & bs' & -> & Hb).
  { destruct F as [b Hb|b bs Hb F'].
    - exists b, []. split; [reflexivity|]. cbn in V. unfold last_byte in Hb.
      rewrite N.mod_small in V by assumption. lia.
    - exists b, bs. split; [reflexivity|]. unfold more_byte in Hb. lia. }
  cbn.
  destruct (N.eqb_spec b 127); [lia|]. destruct (N.eqb_spec b 126); [lia|].
  destruct (N.eqb_spec b 125); [lia|]. destruct (N.eqb_spec b 124); [lia|]. reflexivity.
Qed.

Lemma valtypes_fail l ls : vec_bytes locals_bytes l ls ->
  (exists d l', l = d :: l' /\ ~ 124 <= fst d <= 127) -> fails (read_valtypes heap) ls.
Proof.
  intros (c & parts & Hn & Hp & ->) (d & l' & -> & Hd).
  unfold read_valtypes, read_vec. apply (fails_right _ _ _ _ _ (reads_leb _ _ Hn)).
  apply (fails_right _ _ tt [] (concat parts)).
  { apply reads_make. destruct Hn as (_ & _ & L & _). lia. }
  rewrite Nat2N.id. cbn [length read_times]. inversion Hp as [|x y xs ys Hd' _]; subst.
  cbn [concat]. apply fails_left. destruct Hd' as (n & t & Hn' & _ & ->).
  pose proof (valtype_fails _ _ Hn' Hd) as Hf.
  intros r. destruct (Hf (t ++ r)) as [e E]. exists e. now rewrite <- app_assoc.
Qed.

Lemma fails_app {A} (p : reader A) bs cs : fails p bs -> fails p (bs ++ cs).
Proof. intros H r. destruct (H (cs ++ r)) as [e E]. exists e. now rewrite <- app_assoc. Qed.

Lemma code_fails f fn bs : code_bytes f bs ->
  (exists d l', wf_locals f = d :: l' /\ ~ 124 <= fst d <= 127) -> fails (read_code heap fn) bs.
Proof.
  intros (ls & ex & sz & Hl & _ & Hs & ->) H. unfold read_code.
  apply (fails_right _ _ _ _ _ (reads_leb _ _ Hs)). apply fails_left.
  now apply (valtypes_fail _ _ Hl).
Qed.

Definition odd_locals (f : wfunc) : Prop :=
  forall d l', wf_locals f = d :: l' -> ~ 124 <= fst d <= 127.

Lemma update_fails fs parts : Forall2 code_bytes fs parts -> forall fns,
  length fns = length fs -> map f_type fns = map wf_type fs ->
  Exists (fun f => wf_locals f <> []) fs -> Forall odd_locals fs ->
  fails (update_funcs heap (length fs) fns) (concat parts).
Proof.
  induction 1 as [|f b fs parts H _ IH]; intros fns Hlen Ht He Ho; [inversion He|].
  destruct fns as [|fn fns]; [discriminate|]. cbn in *. inversion Ht. inversion Ho; subst.
  destruct (wf_locals f) as [|d l'] eqn:El.
  - apply (fails_right _ _ (api_func f)); [now apply reads_code|].
    rewrite <- (app_nil_r (concat parts)). apply fails_left. apply IH; auto.
    inversion He; subst; [congruence|assumption].
  - apply fails_left. eapply code_fails; [exact H|]. exists d, l'. split; [exact El|].
    match goal with K : odd_locals f |- _ => exact (K d l' El) end.
Qed.

Lemma code_section_fails m cs : vec_section 10 code_bytes (wm_funcs m) cs ->
  Exists (fun f => wf_locals f <> []) (wm_funcs m) -> Forall odd_locals (wm_funcs m) ->
  fails (one_section heap (bare_module m)) cs.
Proof.
  intros [[E _]|(payload & Hv & (sz & Hz & ->))] He Ho.
  { rewrite E in He. inversion He. }
  unfold one_section. change (10 :: sz ++ payload) with ((10 :: sz) ++ payload).
  apply (fails_right _ _ _ _ _ (reads_header 10 sz _ Hz)). unfold read_section. cbn.
  destruct Hv as (c & parts & Hn & Hp & ->). unfold update_funcs_with_code.
  apply (fails_right _ _ _ _ _ (reads_leb _ _ Hn)). rewrite Nat2N.id.
  rewrite <- (app_nil_r (concat parts)). apply fails_left. apply update_fails; auto.
  - cbn. now rewrite map_length.
  - apply bare_types.
Qed.

Lemma one_section_nonempty m m' s : reads (one_section heap m) m' s -> s <> [].
Proof. intros H ->. specialize (H []). discriminate H. Qed.

Lemma chain_reads m secs m' : chain m secs m' -> forall f, (length (concat secs) < f)%nat ->
  read_sections heap f m (concat secs) = Ok (m', []).
Proof.
  induction 1 as [m|m s m1 secs m' _ H _ IH]; intros f Hf.
  - destruct f; [cbn in Hf; lia|]. reflexivity.
  - pose proof (one_section_nonempty _ _ _ H) as Hn. cbn [concat] in *.
    rewrite (sections_step heap Hheap).
    + rewrite (H (concat secs)). apply IH. rewrite app_length in Hf. lia.
    + destruct s; [congruence|discriminate].
    + assumption.
Qed.

Lemma reads_cuts {A} (p : reader A) a c : exact p -> reads p a c -> cuts p c.
Proof.
  intros He H. pose proof (H []) as E. rewrite app_nil_r in E.
  destruct (He _ _ _ E) as (d & -> & _ & Hc). now rewrite app_nil_r.
Qed.

Lemma chain_prefix m secs m' k : chain m secs m' -> exists mk, chain m (firstn k secs) mk.
Proof.
  intros H. revert k. induction H as [m|m s m1 secs m' Hs H _ IH]; intros k.
  - rewrite firstn_nil. exists m. constructor.
  - destruct k as [|k]; [exists m; constructor|]. destruct (IH k) as [mk Hk].
    exists mk. cbn. eapply chain_cons; eauto.
Qed.

Lemma chain_cut m secs m' : chain m secs m' -> forall f p t,
  (length (concat secs) < f)%nat -> concat secs = p ++ t ->
  (exists k, p = concat (firstn k secs)) \/ (exists e, read_sections heap f m p = Err e).
Proof.
  induction 1 as [m|m s m1 secs m' _ H _ IH]; intros f p t Hf E.
  - left. exists O. destruct p; [reflexivity|discriminate].
  - pose proof (one_section_nonempty _ _ _ H) as Hn. cbn [concat] in *.
    destruct (app_split _ _ _ _ E) as [(u & Hu & E2 & _)|(u & E2 & E3)].
    + destruct p as [|x p]; [left; now exists O|]. right.
      destruct (reads_cuts _ _ _ (exact_one heap m) H _ _ E2 Hu) as [e He]. exists e.
      rewrite (sections_step heap Hheap); [now rewrite He|discriminate|].
      rewrite E2, !app_length in Hf. lia.
    + rewrite E3, !app_length in Hf.
      destruct (IH f u t ltac:(rewrite E3, app_length; lia) E3) as [[k Hk]|[e He]].
      * left. exists (S k). cbn. now rewrite E2, Hk.
      * right. exists e. rewrite E2. rewrite (sections_step heap Hheap).
        -- now rewrite (H u).
        -- destruct s; [congruence|discriminate].
        -- rewrite app_length. lia.
Qed.

Lemma takes_then_fails m s m' t : takes m s m' -> fails (one_section heap m') t -> t <> [] ->
  forall f r, (length (s ++ t ++ r) < f)%nat -> exists e, read_sections heap f m (s ++ t ++ r) = Err e.
Proof.
  intros (secs & -> & H) Hf Ht f r. induction H as [m|m s m1 secs m' _ H _ IH]; intros L.
  - cbn [concat app] in *. destruct (Hf r) as [e E]. exists e.
    rewrite (sections_step heap Hheap); [now rewrite E|destruct t; [congruence|discriminate]|assumption].
  - pose proof (one_section_nonempty _ _ _ H) as Hn. cbn [concat] in *. rewrite <- app_assoc in *.
    rewrite (sections_step heap Hheap); [|destruct s; [congruence|discriminate]|assumption].
    rewrite (H (concat secs ++ t ++ r)). apply IH; [assumption|]. rewrite app_length in L. lia.
Qed.

End module.

