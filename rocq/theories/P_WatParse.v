(** Properties C43, C44 and C46, and the WAT part of C45: the WAT parser. *)
From Coq Require Import Arith NArith ZArith String Ascii Bool List Lia.
From Verif Require Import GoBase M_Text M_WatLex S_WatLex L_WatLex L_WatTokens L_WatNum P_WatLex.
From Verif Require Import M_ParseBase M_Strconv M_WatAst M_WatParse S_WatParse S_WatPrint.
From Verif Require Import L_ParseBase L_ParseTotal L_WatSim L_WatTotal L_WatLit L_WatSound L_WatComplete L_WatBridge L_WatPrint.
Import ListNotations.
Open Scope nat_scope.

(** Every file that is cut into tokens ends with an error or the end of the
    file, so a parser over the lexer does what it does over the list of the
    tokens. *)
Definition ended {A} (o : outcome A) : Prop := (exists a, o = Ok a) \/ (exists e, o = Err e).

Lemma new_rest swap input : rest_of (new_lexer swap input) = input.
Proof. reflexivity. Qed.

Lemma short_enough ts r input : input = text_of ts ++ r -> cut ts r -> length (significant ts) <= length input.
Proof.
  intros -> H. pose proof (cut_length ts r H). pose proof (significant_length ts). rewrite app_length. lia.
Qed.

Section Means.
Context {A : Type}.
Variable swap : bool.
Variable input : text.
Variable G : spelling A.
Variable p : parser lexer A.
Variable q : parser (stream toktype) A.
Variable k : nat.
Hypothesis Hsim : sim W_R p q.
Hypothesis Hsound : sound G q.
Hypothesis Hrun : forall w x rest e, G w x -> Forall valid w -> length (w ++ rest) <= length input ->
  q (w ++ rest, e) = (Ok x, (rest, e)).
Hypothesis Htotal : T fine (S (length input)) k q.
Notation l0 := (new_lexer swap input).

Lemma text_ends : (forall l l', p l <> (Panic, l')) -> ended (fst (p l0)).
Proof.
  intros NP. destruct (reads_some (length input) l0 (new_aligned swap input)) as
    (ts & r & e & E & C & H & Fe & _); [rewrite new_rest; lia|]. rewrite new_rest in E.
  assert (HR : W_R l0 (significant ts, e)) by (split; [left; apply new_aligned|exact H]).
  pose proof (Hsim _ _ HR) as S. pose proof (short_enough ts r input E C) as Hl.
  pose proof (Htotal (significant ts) e Fe (proj2 (Nat.lt_succ_r _ _) Hl)) as T.
  unfold ended. destruct (p l0) as [[d|x| |] l'] eqn:P; cbn [fst]; eauto.
  - exfalso. now apply NP in P.
  - exfalso. destruct (q _) as [[| | |] ?]; cbn in S, T; tauto.
Qed.

Lemma text_means x : fst (p l0) = Ok x <->
  exists ts r, input = text_of ts ++ r /\ cut ts r /\ G (significant ts) x.
Proof.
  split.
  - intros P.
    destruct (reads_some (length input) l0 (new_aligned swap input)) as
      (ts & r & e & E & C & H & Fe & _); [rewrite new_rest; lia|]. rewrite new_rest in E.
    assert (HR : W_R l0 (significant ts, e)) by (split; [left; apply new_aligned|exact H]).
    pose proof (Hsim _ _ HR) as S.
    destruct (p l0) as [o l'] eqn:P'. cbn [fst] in P. subst o.
    destruct (q (significant ts, e)) as [[d'|y| |] s'] eqn:M; cbn in S; try contradiction. destruct S as [<- _].
    destruct (Hsound _ _ _ _ (significant_valid ts r C) Fe M) as (w & rest & Ew & _ & _ & Gw).
    destruct (significant_split w ts rest Ew) as (a & b & -> & Ha & Hb).
    exists a, (text_of b ++ r). rewrite text_of_app, <- app_assoc in E. split; [exact E|].
    apply cut_app in C. split; [apply C|]. now rewrite Ha.
  - intros (ts & r & E & C & Gw).
    destruct (reads_text ts l0 r (new_aligned swap input) E C) as (l1 & A1 & R1 & H).
    destruct (reads_some (length r) l1 A1) as (ts2 & r2 & e & E2 & C2 & H2 & Fe & _); [rewrite R1; lia|].
    rewrite R1 in E2. specialize (H _ _ H2).
    assert (HR : W_R l0 (significant ts ++ significant ts2, e)) by (split; [left; apply new_aligned|exact H]).
    pose proof (Hsim _ _ HR) as S.
    assert (C' : cut (ts ++ ts2) r2) by (apply cut_app; split; [rewrite <- E2|]; assumption).
    assert (E' : input = text_of (ts ++ ts2) ++ r2) by (rewrite text_of_app, <- app_assoc, <- E2; exact E).
    pose proof (short_enough _ _ input E' C') as Hf. rewrite significant_app in Hf.
    rewrite (Hrun _ _ _ e Gw (significant_valid ts r C) Hf) in S.
    destruct (p l0) as [[d'|y| |] l']; cbn in S; try contradiction. destruct S as [-> _]. reflexivity.
Qed.

(** A file of whole tokens, with nothing after them *)
Lemma tokens_mean ts x : input = text_of ts -> cut ts [] ->
  (fst (p l0) = Ok x <-> exists w rest, significant ts = w ++ rest /\ G w x).
Proof.
  intros E C.
  assert (E' : rest_of l0 = text_of ts ++ []) by (rewrite app_nil_r; exact E).
  destruct (reads_text ts l0 [] (new_aligned swap input) E' C) as (l1 & A1 & R1 & H).
  assert (HR : W_R l0 (significant ts, Ends [])).
  { split; [left; apply new_aligned|]. rewrite <- (app_nil_r (significant ts)). apply H.
    apply (spent_reads EndOfStream next skipped view _ done_next). auto. }
  pose proof (Hsim _ _ HR) as S.
  pose proof (short_enough ts [] input ltac:(rewrite app_nil_r; exact E) C) as Hl.
  split.
  - intros P. destruct (p l0) as [o l'] eqn:P'. cbn [fst] in P. subst o.
    destruct (q (significant ts, Ends [])) as [[d'|y| |] s'] eqn:M; cbn in S; try contradiction. destruct S as [<- _].
    destruct (Hsound _ _ _ _ (significant_valid ts [] C) (or_introl eq_refl : fine (Ends [])) M) as (w & rest & Ew & _ & _ & Gw). eauto.
  - intros (w & rest & Ew & Gw). pose proof (significant_valid ts [] C) as V. rewrite Ew in *.
    apply Forall_app in V. rewrite (Hrun _ _ _ _ Gw (proj1 V) Hl) in S.
    destruct (p l0) as [[d'|y| |] l']; cbn in S; try contradiction. destruct S as [-> _]. reflexivity.
Qed.
End Means.

Lemma handled_no_panic {L A} (p : parser L A) l l' : handled p l <> (Panic, l').
Proof. unfold handled. destruct (p l) as [[| | |] ?]; discriminate. Qed.

Section Parse.
(** strconv.ParseFloat(s, 32), as bits; any function *)
Variable pf : text -> option N.
Notation F := (model_floats pf).
Notation mch := (machine EndOfStream).

Definition accepts (swap : bool) (input : text) (d : directive) : Prop := fst (parse pf (new_lexer swap input)) = Ok d.

Lemma fuel swap input : S (rounds (new_lexer swap input)) = 3 + length input.
Proof. reflexivity. Qed.

Lemma sim_parse n : sim W_R (parse_directive wat_source pf n) (parse_directive mch pf n).
Proof. apply sim_directive; [apply wat_next_sim|apply wat_peek_sim]. Qed.

Lemma run_parse w x rest e n : a_directive F w x -> Forall valid w -> length (w ++ rest) <= n ->
  parse_directive mch pf (3 + n) (w ++ rest, e) = (Ok x, (rest, e)).
Proof. intros. apply directive_run; [assumption|assumption|lia]. Qed.

(** ** C45, WAT: parsing any text ends, with a tree or an error *)

Theorem wat_parse_ends : forall swap input, ended (fst (parse pf (new_lexer swap input))).
Proof.
  intros swap input. unfold parse. rewrite fuel.
  apply (text_ends swap input _ _ 1 (sim_parse _) (T_directive pf (3 + length input) (S (length input)) ltac:(lia))).
  intros l l'. apply handled_no_panic.
Qed.

(** ** C44: what is accepted, and as which tree *)

(** A file is accepted as [d] exactly if it begins with a text that, cut into
    tokens and with whitespace and comments left out, spells [d]. *)
Theorem wat_parse_means : forall swap input d,
  fst (parse pf (new_lexer swap input)) = Ok d <->
  exists ts r, input = text_of ts ++ r /\ cut ts r /\ a_directive F (significant ts) d.
Proof.
  intros swap input d. unfold parse. rewrite fuel.
  apply (text_means swap input _ _ _ (sim_parse _) (sound_directive pf _)).
  intros w x rest e. apply run_parse.
Qed.

(** One spelling has one tree. *)
Theorem wat_spelling_unambiguous : forall ts d d', Forall valid ts ->
  a_directive F ts d -> a_directive F ts d' -> d = d'.
Proof.
  intros ts d d' V H H'.
  pose proof (directive_run pf (S (length (ts ++ []))) ts d [] Fails H V ltac:(lia)) as R.
  pose proof (directive_run pf (S (length (ts ++ []))) ts d' [] Fails H' V ltac:(lia)) as R'. congruence.
Qed.

(** Whitespace and comments do not matter: files with the same tokens
    otherwise are accepted alike, as the same tree. *)
Theorem layout_is_irrelevant : forall swap swap' ts ts' d, cut ts [] -> cut ts' [] -> significant ts = significant ts' ->
  (accepts swap (text_of ts) d <-> accepts swap' (text_of ts') d).
Proof.
  intros swap swap' ts ts' d C C' E. unfold accepts, parse. rewrite !fuel.
  rewrite (tokens_mean swap (text_of ts) _ _ _ (sim_parse _) (sound_directive pf _)
    (fun w x rest e => run_parse w x rest e _) ts d eq_refl C).
  rewrite (tokens_mean swap' (text_of ts') _ _ _ (sim_parse _) (sound_directive pf _)
    (fun w x rest e => run_parse w x rest e _) ts' d eq_refl C').
  rewrite E. reflexivity.
Qed.

(** Every module that can be written parses back, whatever follows it. *)
Theorem module_parses_back : forall swap f32 f64 m r, good_module f32 f64 F m ->
  accepts swap (spaced (print_module f32 f64 m) ++ r) (DModule m).
Proof.
  intros swap f32 f64 m r H. apply module_spells in H. destruct H as [G V].
  apply wat_parse_means. exists (blanks (print_module f32 f64 m)), r. rewrite blanks_text, blanks_significant by exact V.
  split; [reflexivity|]. split; [|exact G].
  unfold print_module, parens in *. change (lp :: ?a ++ [rp]) with ((lp :: a) ++ [rp]) in *.
  apply cut_blanks. apply Forall_app in V. apply V.
Qed.

(** ** C43: instructions *)

(** Over a stream of tokens: an instruction that can be written is read back,
    and exactly its tokens are taken, if a word or a closing parenthesis
    follows (an opening one would begin an operand). *)
Theorem instruction_parses_back : forall f32 f64 i rest e n,
  good_instr f32 f64 F i -> stop rest -> length (print_instr f32 f64 i ++ rest) < n ->
  parse_instruction mch pf n (print_instr f32 f64 i ++ rest, e) = (Ok i, (rest, e)).
Proof.
  intros f32 f64 i rest e n H Hs Hl. apply instruction_run; [now apply instr_spells| |exact Hs|exact Hl].
  apply instr_valid in H. eapply Forall_impl; [|exact H]. intros t [Ht _]. exact Ht.
Qed.

Definition only_func (is : list instr) : directive :=
  DModule {| md_funcs := [{| f_id := None; f_locals := []; f_exports := []; f_params := []; f_results := []; f_instrs := is |}];
             md_memories := []; md_types := []; md_tables := []; md_globals := [] |}.

(** Over a file: the instructions of a function, one after the other. *)
Theorem instructions_parse_back : forall swap f32 f64 is r, Forall (good_instr f32 f64 F) is ->
  accepts swap (spaced ([lp; (TModule, txt "module"); lp; kw "func"] ++ flat_map (print_instr f32 f64) is ++ [rp; rp]) ++ r)
    (only_func is).
Proof.
  intros swap f32 f64 is r H. apply wat_parse_means.
  set (ts := [lp; (TModule, txt "module"); lp; kw "func"] ++ flat_map (print_instr f32 f64) is ++ [rp; rp]).
  assert (V : Forall solid ts).
  { unfold ts. repeat (apply Forall_cons || (apply Forall_app; split));
      try (split; reflexivity); try constructor; try (apply kw_valid; vm_compute; reflexivity).
    apply flat_valid. intros i Hi. apply (instr_valid f32 f64 F). rewrite Forall_forall in H. now apply H. }
  exists (blanks ts), r. rewrite blanks_text, blanks_significant by exact V.
  split; [reflexivity|]. split.
  - unfold ts in *. change [rp; rp] with ([rp] ++ [rp]) in *. rewrite !app_assoc in *. apply cut_blanks.
    apply Forall_app in V. apply V.
  - unfold ts. cbn [app].
    pose proof (a_function F [] None [] [] (flat_map (print_instr f32 f64) is) is no_id (many_nil _)) as X.
    cbn [app flat_map] in X.
    assert (M : many (instruction F) (flat_map (print_instr f32 f64) is) is).
    { clear -H. induction is as [|i is IH]; cbn [flat_map]; [constructor|]. inversion H; subst.
      constructor; [now apply instr_spells|auto]. }
    specialize (X M).
    pose proof (d_module F (lp :: (kw "func" :: flat_map (print_instr f32 f64) is) ++ [rp]) [SecFunc
      {| f_id := None; f_locals := []; f_exports := []; f_params := []; f_results := []; f_instrs := is |}]) as D.
    cbn [app] in D. change [rp; rp] with ([rp] ++ [rp]). rewrite app_assoc. apply D. clear D.
    rewrite <- (app_nil_r (flat_map (print_instr f32 f64) is ++ [rp])).
    apply (many_cons (paren (a_section F)) (lp :: (kw "func" :: flat_map (print_instr f32 f64) is) ++ [rp]) []); constructor.
    now constructor.
Qed.

(** Some instructions are accepted and forgotten. *)
Definition one_word (s : string) : text := txt "(module (func (" ++ txt s ++ txt ")))".

Theorem forgotten_instructions : forall swap s, In s forgotten -> accepts swap (one_word s) (only_func [INil]).
Proof.
  intros swap s H. unfold accepts. cbn [forgotten In] in H.
  repeat (destruct H as [<-|H]; [destruct swap; vm_compute; reflexivity|]). contradiction.
Qed.

Theorem different_instructions_differ_refuted :
  ~ (forall swap s1 s2 d, accepts swap (one_word s1) d -> accepts swap (one_word s2) d -> s1 = s2).
Proof.
  intros H. specialize (H false "i32.and" "i32.or" (only_func [INil]))%string.
  discriminate H; apply forgotten_instructions; cbn; tauto.
Qed.

(** ** Files of the WebAssembly text format that are rejected *)
Definition rejected (input : text) : Prop := forall swap d, ~ accepts swap input d.

Ltac rejects := intros swap d; unfold accepts; destruct swap; vm_compute; discriminate.

Theorem block_end_rejected : rejected (txt "(module (func block end))").
Proof. rejects. Qed.
Theorem nop_rejected : rejected (txt "(module (func nop))").
Proof. rejects. Qed.
Theorem named_module_rejected : rejected (txt "(module $m)").
Proof. rejects. Qed.
Theorem export_field_rejected :
  rejected (txt "(module (func) (export " ++ [quote] ++ txt "f" ++ [quote] ++ txt " (func 0)))").
Proof. rejects. Qed.
Theorem indexed_type_use_rejected : rejected (txt "(module (func (type 0)))").
Proof. rejects. Qed.
Theorem load_offset_rejected : rejected (txt "(module (func (i32.load offset=4 (i32.const 0))))").
Proof. rejects. Qed.
Theorem two_locals_rejected : rejected (txt "(module (func (local i32 i32)))").
Proof. rejects. Qed.

(** Files that are accepted although they are not modules. *)
Theorem trailing_text_rejected_refuted :
  ~ (forall swap input r d d', accepts swap input d -> accepts swap (input ++ r) d' -> Forall space r).
Proof.
  intros H. specialize (H false (txt "(module)") (txt ")(") (DModule (module_of [])) (DModule (module_of []))).
  assert (X : Forall space (txt ")(")) by (apply H; vm_compute; reflexivity).
  inversion X as [|? ? Hc _]; subst. cbn in Hc. unfold code in Hc. cbn in Hc. intuition discriminate.
Qed.

Theorem imports_kept_refuted :
  ~ (forall swap m f m' f' d, ~ In quote m -> ~ In quote f -> ~ In quote m' -> ~ In quote f' ->
      accepts swap (txt "(module (func (import " ++ [quote] ++ m ++ [quote] ++ [quote] ++ f ++ [quote] ++ txt ")))") d ->
      accepts swap (txt "(module (func (import " ++ [quote] ++ m' ++ [quote] ++ [quote] ++ f' ++ [quote] ++ txt ")))") d ->
      m = m' /\ f = f').
Proof.
  intros H. destruct (H false (txt "a") (txt "b") (txt "a") (txt "c") (only_func [])) as [_ X];
    try (cbn; intuition discriminate); vm_compute; reflexivity.
Qed.

Theorem unknown_reference_types_rejected_refuted :
  ~ (forall swap w d, accepts swap (txt "(module (table 1 " ++ w ++ txt "))") d -> w = txt "funcref" \/ w = txt "externref").
Proof.
  intros H. destruct (H false (txt "i32") (DModule {| md_funcs := []; md_memories := []; md_types := [];
    md_tables := [{| tb_id := None; tb_limits := {| lim_min := 1; lim_max := None |}; tb_ref := None; tb_elems := [] |}];
    md_globals := [] |})) as [X|X]; [vm_compute; reflexivity|discriminate X|discriminate X].
Qed.

(** ** C46: integer literals *)

Lemma int32_ready (input : text) : forall w (x : Z) rest e, single (fun t z => exists w, t = (TInteger, w) /\ i32_literal w z) w x ->
  Forall valid w -> length (w ++ rest) <= length input -> parse_int32 mch (w ++ rest, e) = (Ok x, (rest, e)).
Proof.
  intros w x rest e G V _. destruct G as [t z (v & -> & H)]. inversion V; subst. now apply int32_run.
Qed.
Lemma int64_ready (input : text) : forall w (x : Z) rest e, single (fun t z => exists w, t = (TInteger, w) /\ i64_literal w z) w x ->
  Forall valid w -> length (w ++ rest) <= length input -> parse_int64 mch (w ++ rest, e) = (Ok x, (rest, e)).
Proof.
  intros w x rest e G V _. destruct G as [t z (v & -> & H)]. inversion V; subst. now apply int64_run.
Qed.

(** ParseInt32 reads the literal that the file begins with, apart from
    whitespace and comments: its value modulo 2^32, as an int32, if it is in
    range; in all other cases it gives an error. *)
Theorem int32_means : forall swap input z, fst (ParseInt32 (new_lexer swap input)) = Ok z <->
  exists ts r w, input = text_of ts ++ r /\ cut ts r /\ significant ts = [(TInteger, w)] /\ i32_literal w z.
Proof.
  intros swap input z. unfold ParseInt32.
  rewrite (text_means swap input _ _ _ (sim_int32 _ W_R wat_next_sim) sound_int32 (int32_ready input)).
  split.
  - intros (ts & r & E & C & G). inversion G as [t z' (w & -> & H) E1 E2]; subst. exists ts, r, w. auto.
  - intros (ts & r & w & E & C & S & H). exists ts, r. rewrite S. split; [exact E|]. split; [exact C|].
    constructor. eauto.
Qed.

Theorem int64_means : forall swap input z, fst (ParseInt64 (new_lexer swap input)) = Ok z <->
  exists ts r w, input = text_of ts ++ r /\ cut ts r /\ significant ts = [(TInteger, w)] /\ i64_literal w z.
Proof.
  intros swap input z. unfold ParseInt64.
  rewrite (text_means swap input _ _ _ (sim_int64 _ W_R wat_next_sim) sound_int64 (int64_ready input)).
  split.
  - intros (ts & r & E & C & G). inversion G as [t z' (w & -> & H) E1 E2]; subst. exists ts, r, w. auto.
  - intros (ts & r & w & E & C & S & H). exists ts, r. rewrite S. split; [exact E|]. split; [exact C|].
    constructor. eauto.
Qed.

Theorem int_parsing_ends : forall swap input,
  ended (fst (ParseInt32 (new_lexer swap input))) /\ ended (fst (ParseInt64 (new_lexer swap input))).
Proof.
  intros swap input. split.
  - apply (text_ends swap input _ _ 1 (sim_int32 _ W_R wat_next_sim) (T_int32 _)). intros l l'. apply handled_no_panic.
  - apply (text_ends swap input _ _ 1 (sim_int64 _ W_R wat_next_sim) (T_int64 _)). intros l l'. apply handled_no_panic.
Qed.

(** Literals as the WebAssembly text format (6.3.1) has them: decimal or
    hexadecimal digits. *)
Inductive wasm_unsigned : text -> N -> Prop :=
| wasm_decimal w : wasm_num dec_digit w -> wasm_unsigned w (value 10 w)
| wasm_hexadecimal w : wasm_num hex_digit w -> wasm_unsigned (txt "0x" ++ w) (value 16 w).

(** Alone in a file, a literal without leading zeros is read right if it has
    no plus sign and is in the range of i32. *)
Lemma lone_int (A : Type) w (r : text) : token_text TInteger w -> cut [(TInteger, w)] [].
Proof. intros H. cbn. auto. Qed.

Theorem i32_literal_value : forall swap w n, wasm_unsigned w n -> token_text TInteger w ->
  (forall c v, w = "0"%char :: c :: v -> c = "x"%char) -> (n < 2 ^ 32)%N ->
  (exists z, fst (ParseInt32 (new_lexer swap w)) = Ok z /\ wrap 32 n z) /\
  fst (ParseInt64 (new_lexer swap w)) = Ok (Z.of_N n).
Proof.
  intros swap w n H V Z B.
  assert (U : unsigned_literal w n).
  { destruct H as [w H|w H].
    - destruct w as [|c w]; [inversion H|]. destruct (ascii_dec c "0") as [->|Nc]; [|now constructor].
      destruct w as [|d w]; [apply lit_zero|]. rewrite (Z d w eq_refl) in H. exfalso.
      inversion H as [|? ? ? H'|]; subst. apply wasm_num_first in H'. destruct H' as (c & r & E & Hc).
      injection E as <- _. unfold dec_digit in Hc. cbn in Hc. lia.
    - now constructor. }
  split.
  - exists (int32_of n). pose proof (int32_of_wrap n B) as W. split; [|exact W].
    apply int32_means. exists [(TInteger, w)], [], w. cbn [text_of map concat snd]. rewrite !app_nil_r.
    split; [reflexivity|]. split; [now apply (lone_int nat)|]. split; [reflexivity|]. now apply i32_unsigned with n.
  - apply int64_means. exists [(TInteger, w)], [], w. cbn [text_of map concat snd]. rewrite !app_nil_r.
    split; [reflexivity|]. split; [now apply (lone_int nat)|]. split; [reflexivity|]. now constructor.
Qed.

Theorem i32_negative_value : forall swap w n, wasm_unsigned w n -> token_text TInteger w ->
  (forall c v, w = "0"%char :: c :: v -> c = "x"%char) -> (forall c v, w = c :: v -> c <> "-"%char /\ c <> "+"%char) ->
  (n <= 2 ^ 31)%N ->
  fst (ParseInt32 (new_lexer swap ("-"%char :: w))) = Ok (- Z.of_N n)%Z.
Proof.
  intros swap w n H V Z Sg B.
  assert (U : unsigned_literal w n).
  { destruct H as [w H|w H].
    - destruct w as [|c w]; [inversion H|]. destruct (ascii_dec c "0") as [->|Nc]; [|now constructor].
      destruct w as [|d w]; [apply lit_zero|]. rewrite (Z d w eq_refl) in H. exfalso.
      inversion H as [|? ? ? H'|]; subst. apply wasm_num_first in H'. destruct H' as (c & r & E & Hc).
      injection E as <- _. unfold dec_digit in Hc. cbn in Hc. lia.
    - now constructor. }
  assert (V' : token_text TInteger ("-"%char :: w)).
  { destruct V as (s & d & Hs & D). destruct (unsigned_first _ _ U) as (c & r & Ec & Hc).
    assert (s = []) as ->.
    { destruct Hs as [->|[->| ->]]; [reflexivity|exfalso..];
        (destruct D as [[D _]|[D _]]; rewrite Ec in D; injection D as -> _; destruct (Sg _ _ Ec); congruence). }
    exists (txt "-"), d. split; [now right; right|]. cbn [app] in D. destruct D as [[-> D]|[-> D]]; auto. }
  apply int32_means. exists [(TInteger, "-"%char :: w)], [], ("-"%char :: w). cbn [text_of map concat snd]. rewrite !app_nil_r.
  split; [reflexivity|]. split; [now apply (lone_int nat)|]. split; [reflexivity|]. now constructor.
Qed.

Ltac decimals := repeat first [apply wasm_one | apply wasm_more]; unfold dec_digit; cbn; lia.

(** Literals of i64 outside the range of i32 are rejected. *)
Theorem i64_range_refuted :
  ~ (forall swap w n, wasm_unsigned w n -> token_text TInteger w -> (n < 2 ^ 64)%N ->
      exists z, fst (ParseInt64 (new_lexer swap w)) = Ok z).
Proof.
  intros H. destruct (H false (txt "4294967296") 4294967296%N) as [z Hz].
  - change 4294967296%N with (value 10 (txt "4294967296")). constructor.
    decimals.
  - apply (classify_text Reserved (txt "4294967296") PWord); vm_compute; reflexivity.
  - reflexivity.
  - vm_compute in Hz. discriminate.
Qed.

(** With a leading zero decimal digits are read in base 8. *)
Theorem leading_zeros_refuted :
  ~ (forall swap w n z, wasm_unsigned w n -> token_text TInteger w -> (n < 2 ^ 31)%N ->
      fst (ParseInt32 (new_lexer swap w)) = Ok z -> z = Z.of_N n).
Proof.
  intros H. specialize (H false (txt "010") 10%N 8%Z). discriminate H.
  - change 10%N with (value 10 (txt "010")). constructor.
    decimals.
  - apply (classify_text Reserved (txt "010") PWord); vm_compute; reflexivity.
  - reflexivity.
  - vm_compute. reflexivity.
Qed.

Theorem plus_sign_refuted :
  ~ (forall swap w n, wasm_unsigned w n -> (n < 2 ^ 31)%N -> token_text TInteger ("+"%char :: w) ->
      fst (ParseInt32 (new_lexer swap ("+"%char :: w))) = Ok (Z.of_N n)).
Proof.
  intros H. specialize (H false (txt "5") 5%N). discriminate H.
  - change 5%N with (value 10 (txt "5")). constructor. constructor. unfold dec_digit; cbn; lia.
  - reflexivity.
  - apply (classify_text Reserved (txt "+5") PWord); vm_compute; reflexivity.
Qed.

(** A negative index is read as a large one. *)
Theorem negative_index_rejected_refuted :
  ~ (forall swap w d, accepts swap (txt "(module (func (br -" ++ w ++ txt ")))") d -> False).
Proof.
  intros H. apply (H false (txt "1") (only_func [IIndexed Br (RawIndex 4294967295)])). vm_compute. reflexivity.
Qed.

(** ** C56: float literals *)

Lemma float32_ready (input : text) : forall w (x : N) rest e,
  single (fun t z => exists w, t = (TFloat, w) /\ f32_float F w z) w x ->
  Forall valid w -> length (w ++ rest) <= length input -> parse_float32 mch pf (w ++ rest, e) = (Ok x, (rest, e)).
Proof.
  intros w x rest e G V _. destruct G as [t z (v & -> & H)]. inversion V; subst. now apply float32_run.
Qed.
Lemma float64_ready (input : text) : forall w (x : N) rest e,
  single (fun t b => exists w b', t = (TFloat, w) /\ pf w = Some b' /\ b = widen b') w x ->
  Forall valid w -> length (w ++ rest) <= length input -> parse_float64 mch pf (w ++ rest, e) = (Ok x, (rest, e)).
Proof.
  intros w x rest e G V _. destruct G as [t z (v & b & -> & H & ->)]. inversion V; subst. now apply float64_run.
Qed.

Theorem float32_means : forall swap input b, fst (ParseFloat32 pf (new_lexer swap input)) = Ok b <->
  exists ts r w, input = text_of ts ++ r /\ cut ts r /\ significant ts = [(TFloat, w)] /\ f32_float F w b.
Proof.
  intros swap input z. unfold ParseFloat32.
  rewrite (text_means swap input _ _ _ (sim_float32 _ W_R pf wat_next_sim) (sound_float32 pf) (float32_ready input)).
  split.
  - intros (ts & r & E & C & G). inversion G as [t z' (w & -> & H) E1 E2]; subst. exists ts, r, w. auto.
  - intros (ts & r & w & E & C & S & H). exists ts, r. rewrite S. split; [exact E|]. split; [exact C|].
    constructor. eauto.
Qed.

(** Floats of f64 are read with the precision of f32. *)
Theorem float64_means : forall swap input b, fst (ParseFloat64 pf (new_lexer swap input)) = Ok b <->
  exists ts r w b', input = text_of ts ++ r /\ cut ts r /\ significant ts = [(TFloat, w)] /\ pf w = Some b' /\ b = widen b'.
Proof.
  intros swap input z. unfold ParseFloat64.
  rewrite (text_means swap input _ _ _ (sim_float64 _ W_R pf wat_next_sim) (sound_float64 pf) (float64_ready input)).
  split.
  - intros (ts & r & E & C & G). inversion G as [t z' (w & b & -> & H & ->) E1 E2]; subst. exists ts, r, w, b. auto.
  - intros (ts & r & w & b & E & C & S & H & ->). exists ts, r. rewrite S. split; [exact E|]. split; [exact C|].
    constructor. eauto.
Qed.

Theorem float_parsing_ends : forall swap input,
  ended (fst (ParseFloat32 pf (new_lexer swap input))) /\ ended (fst (ParseFloat64 pf (new_lexer swap input))).
Proof.
  intros swap input. split.
  - apply (text_ends swap input _ _ 1 (sim_float32 _ W_R pf wat_next_sim) (T_float32 pf _)). intros l l'. apply handled_no_panic.
  - apply (text_ends swap input _ _ 1 (sim_float64 _ W_R pf wat_next_sim) (T_float64 pf _)). intros l l'. apply handled_no_panic.
Qed.

Lemma lor_high a n k : (n < 2 ^ k)%N -> N.lor (N.shiftl a k) n = (a * 2 ^ k + n)%N.
Proof.
  intros H. rewrite N.shiftl_mul_pow2. symmetry. rewrite N.add_nocarry_lxor.
  - apply N.bits_inj. intros i. rewrite N.lxor_spec, N.lor_spec.
    destruct (N.lt_ge_cases i k) as [Hi|Hi].
    + rewrite N.mul_pow2_bits_low by exact Hi. now destruct (N.testbit n i).
    + replace (N.testbit n i) with false; [now destruct (N.testbit _ i)|].
      symmetry. destruct (N.eq_dec n 0) as [->|Hn]; [apply N.bits_0|]. apply N.bits_above_log2.
      apply N.log2_lt_pow2 in H; lia.
  - apply N.bits_inj. intros i. rewrite N.land_spec, N.bits_0.
    destruct (N.lt_ge_cases i k) as [Hi|Hi].
    + rewrite N.mul_pow2_bits_low by exact Hi. reflexivity.
    + replace (N.testbit n i) with false; [now destruct (N.testbit _ i)|].
      symmetry. destruct (N.eq_dec n 0) as [->|Hn]; [apply N.bits_0|]. apply N.bits_above_log2.
      apply N.log2_lt_pow2 in H; lia.
Qed.

Lemma hex_id c : hex_digit c -> id_char c.
Proof.
  intros H. apply id_char_ok. apply hex_digitb_spec in H.
  pose proof (check_chars (fun c => implb (hex_digitb c) (is_id_char c)) ltac:(vm_compute; reflexivity) c) as X.
  cbv beta in X. rewrite H in X. exact X.
Qed.

(** NaNs of IEEE 754 binary32: exponent all ones, fraction not zero *)
Definition is_nan32 (b : N) : Prop := (b / 2 ^ 23 mod 2 ^ 8 = 255 /\ b mod 2 ^ 23 <> 0)%N.

Theorem nan_is_nan_refuted :
  ~ (forall swap w b, (exists s, opt_sign s /\ w = s ++ txt "nan") ->
      fst (ParseFloat32 pf (new_lexer swap w)) = Ok b -> is_nan32 b).
Proof.
  intros H. destruct (H false (txt "nan") 0x7F800000%N) as [_ X].
  - exists []. split; [now left|reflexivity].
  - vm_compute. reflexivity.
  - apply X. reflexivity.
Qed.

(** A payload of a binary32 NaN is kept. *)
Theorem nan_payload_kept : forall swap (neg : bool) w n,
  wasm_num hex_digit w -> n = value 16 w -> (0 < n < 2 ^ 23)%N ->
  fst (ParseFloat32 pf (new_lexer swap ((if neg then txt "-" else []) ++ txt "nan:0x" ++ w))) =
    Ok ((if neg then 2 ^ 31 else 0) + 255 * 2 ^ 23 + n)%N.
Proof.
  intros swap neg w n H En B.
  assert (Hw : digits hex_digit w).
  { pose proof (wasm_num_chars hex_digit w H) as Hc. destruct (wasm_num_first _ _ H) as (c & r & -> & Hd).
    exists c, r. split; [reflexivity|]. split; [exact Hd|]. now inversion Hc. }
  set (s := if neg then txt "-" else []).
  assert (Hs : opt_sign s) by (unfold s, opt_sign; destruct neg; auto).
  assert (Ids : Forall id_char (s ++ txt "nan:0x" ++ w)).
  { apply Forall_app; split; [unfold s; destruct neg; repeat constructor; apply id_char_ok; reflexivity|].
    apply Forall_app; split; [repeat constructor; apply id_char_ok; reflexivity|].
    eapply Forall_impl; [|apply (wasm_num_chars hex_digit); exact H].
    intros c [Hc| ->]; [|apply id_char_ok; reflexivity]. now apply hex_id. }
  assert (V : token_text TFloat (s ++ txt "nan:0x" ++ w)).
  { split; [split; [split; [|exact Ids]|]|].
    - unfold s. destruct neg; discriminate.
    - intros (b & E & _). unfold s in E. destruct neg; discriminate E.
    - destruct Hw as (c & r & -> & Hc & _). exists s, (txt "nan:0x" ++ c :: r). split; [exact Hs|].
      split; [reflexivity|]. right. left. exists c, r. auto. }
  apply float32_means. exists [(TFloat, s ++ txt "nan:0x" ++ w)], [], (s ++ txt "nan:0x" ++ w).
  cbn [text_of map concat snd]. rewrite !app_nil_r.
  split; [reflexivity|]. split; [cbn; split; [exact V|auto]|]. split; [reflexivity|].
  assert (U : unsigned_literal (txt "0x" ++ w) n) by (rewrite En; now constructor).
  unfold s. destruct neg.
  - replace (2 ^ 31 + 255 * 2 ^ 23 + n)%N with (N.lor n 0xFF800000).
    + apply (f32_neg_payload F (txt "0x" ++ w) n U). lia.
    + rewrite N.lor_comm. change 0xFF800000%N with (N.shiftl 511 23). rewrite lor_high by lia. reflexivity.
  - replace (0 + 255 * 2 ^ 23 + n)%N with (N.lor n 0x7F800000).
    + apply (f32_payload F (txt "0x" ++ w) n U). lia.
    + rewrite N.lor_comm. change 0x7F800000%N with (N.shiftl 255 23). rewrite lor_high by lia. reflexivity.
Qed.
End Parse.

(** ** Cases that meet the hypotheses *)

(** A factorial function with a branch, a memory, a table and a global *)
Definition sample : module := {|
  md_types := [{| td_id := Some (txt "$t"); td_func := {| ft_params := [{| p_id := None; p_types := [TI32; TF64] |}]; ft_results := [[TI32]] |} |}];
  md_funcs := [{| f_id := Some (txt "$fac"); f_locals := [TI64; TI32]; f_exports := [txt "fac"];
    f_params := [{| p_id := Some (txt "$n"); p_types := [TI32] |}]; f_results := [[TI32]];
    f_instrs := [IIf None [[TI32]] [IFolded (IPlain I32Eqz) [IIndexed LocalGet (IDIndex (txt "$n"))]]
      [II32Const 1]
      (Some [IFolded (IPlain I32Mul) [IIndexed LocalGet (RawIndex 0);
        IFolded (IIndexed Call (IDIndex (txt "$fac"))) [IFolded (IPlain I32Sub) [IIndexed LocalGet (RawIndex 0); II32Const (-1)]]]])] |}];
  md_tables := [{| tb_id := None; tb_limits := {| lim_min := 0; lim_max := Some 4294967295%N |}; tb_ref := Some ExternRef; tb_elems := [txt "$fac"] |}];
  md_memories := [{| m_id := Some (txt "$m"); m_limits := {| lim_min := 1; lim_max := None |} |}];
  md_globals := [{| g_id := None; g_mutable := true; g_type := TI64; g_instrs := [II64Const (-5)] |}] |}.

Example sample_good pf f : good_module f f (model_floats pf) sample.
Proof.
  unfold good_module, sample; cbn [md_types md_funcs md_tables md_memories md_globals].
  repeat match goal with
  | |- Forall _ _ => constructor
  | |- _ /\ _ => split
  | |- True => exact I
  | |- good_func _ _ _ _ => unfold good_func
  | |- good_limits _ => unfold good_limits
  | |- good_results _ => unfold good_results
  | |- id_text _ => eexists; split; [reflexivity|]; split; [discriminate|]; repeat constructor; apply id_char_ok; reflexivity
  | |- _ => progress cbn -[N.lt N.pow Z.le Z.lt Z.pow id_text txt]
  end; try discriminate; try lia.
  intros H. repeat (destruct H as [H|H]; [discriminate|]). exact H.
Qed.

Example sample_parses pf : fst (parse pf (new_lexer false (spaced (print_module (fun _ => lp) (fun _ => lp) sample)))) = Ok (DModule sample).
Proof. vm_compute. reflexivity. Qed.

(** Two layouts of one file *)
Example two_layouts : let ts := [lp; (TModule, txt "module"); rp] in
  cut ts [] /\ cut (blanks ts) [] /\ significant ts = significant (blanks ts) /\ text_of ts <> text_of (blanks ts).
Proof.
  cbn zeta. split; [|split; [|split]].
  - cbn. split; [reflexivity|]. split; [intros H; discriminate H|]. split; [reflexivity|].
    split; [|auto]. intros H. apply id_char_ok in H. discriminate H.
  - apply (cut_blanks [lp; (TModule, txt "module")]). repeat constructor.
  - reflexivity.
  - discriminate.
Qed.

(** 0x1_f *)
Example a_literal : wasm_unsigned (txt "0x1_f") 31 /\ token_text TInteger (txt "0x1_f") /\ (31 < 2 ^ 32)%N /\
  (forall c v, txt "0x1_f" = "0"%char :: c :: v -> c = "x"%char).
Proof.
  assert (D : hex_digit "1" /\ hex_digit "f") by (split; apply hex_digitb_spec; reflexivity).
  split; [|split; [|split; [reflexivity|]]].
  - apply (wasm_hexadecimal (txt "1_f")). apply wasm_sep; [apply D|]. apply wasm_one. apply D.
  - exists [], (txt "1_f"). split; [now left|]. right. split; [reflexivity|].
      exists "1"%char, (txt "_f"). split; [reflexivity|]. split; [apply D|].
    constructor; [now right|constructor; [left; apply D|constructor]].
  - intros c v E. now injection E as <-.
Qed.

(** nan:0x40_0000 *)
Example a_payload : wasm_num hex_digit (txt "40_0000") /\ value 16 (txt "40_0000") = (2 ^ 22)%N.
Proof.
  assert (D : hex_digit "4" /\ hex_digit "0") by (split; apply hex_digitb_spec; reflexivity).
  split; [|reflexivity]. destruct D. cbn. repeat (apply wasm_sep || apply wasm_one || apply wasm_more); assumption.
Qed.

Print Assumptions wat_parse_ends.
Print Assumptions wat_parse_means.
Print Assumptions wat_spelling_unambiguous.
Print Assumptions layout_is_irrelevant.
Print Assumptions module_parses_back.
Print Assumptions instruction_parses_back.
Print Assumptions instructions_parse_back.
Print Assumptions forgotten_instructions.
Print Assumptions different_instructions_differ_refuted.
Print Assumptions block_end_rejected.
Print Assumptions nop_rejected.
Print Assumptions named_module_rejected.
Print Assumptions export_field_rejected.
Print Assumptions indexed_type_use_rejected.
Print Assumptions load_offset_rejected.
Print Assumptions two_locals_rejected.
Print Assumptions trailing_text_rejected_refuted.
Print Assumptions imports_kept_refuted.
Print Assumptions unknown_reference_types_rejected_refuted.
Print Assumptions int32_means.
Print Assumptions int64_means.
Print Assumptions int_parsing_ends.
Print Assumptions i32_literal_value.
Print Assumptions i32_negative_value.
Print Assumptions i64_range_refuted.
Print Assumptions leading_zeros_refuted.
Print Assumptions plus_sign_refuted.
Print Assumptions negative_index_rejected_refuted.
Print Assumptions float32_means.
Print Assumptions float64_means.
Print Assumptions float_parsing_ends.
Print Assumptions nan_is_nan_refuted.
Print Assumptions nan_payload_kept.
