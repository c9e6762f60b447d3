(** Property C88: whatever the WAT and WAST parsers accept can be written down
    again, and which trees they produce. *)
From Coq Require Import Arith NArith ZArith DecimalN String Ascii Bool List Lia.
From Verif Require Import GoBase M_Text M_WatLex M_Strconv M_WatAst S_WatLex M_ParseBase M_WatParse M_WastParse L_WatTokens L_WatNum L_WatLit L_WatSound L_WatPrint L_WatReprint.
From Verif Require Import S_Float P_WatParse P_WastParse P_Float S_WatParse S_WatPrint S_WastParse S_WastPrint.
Import ListNotations.

Section Reprint.
(** strconv.ParseFloat(s, 32), as bits; any function *)
Variable pf : text -> option N.
Notation F := (model_floats pf).

(** The text of a directive *)
Definition print_file (f32 f64 : N -> tk) (d : directive) : text :=
  match d with DModule m => spaced (print_module f32 f64 m) | DComponent => txt "( component )" end.
(** The directives that can be written *)
Definition good_file (f32 f64 : N -> tk) (d : directive) : Prop :=
  match d with DModule m => good_module f32 f64 F m | DComponent => True end.

Lemma good_file_accepted swap f32 f64 d r : good_file f32 f64 d -> accepts pf swap (print_file f32 f64 d ++ r) d.
Proof.
  destruct d as [m|]; cbn [good_file print_file]; intros H; [now apply module_parses_back|].
  apply wat_parse_means. exists (blanks [lp; (TComponent, txt "component"); rp]), r.
  split; [reflexivity|]. split; [|constructor].
  apply (cut_blanks [lp; (TComponent, txt "component")]). repeat constructor.
Qed.

Lemma significant_ok ts : Forall valid ts -> Forall valid (significant ts).
Proof. intros H. apply incl_Forall with ts; [apply incl_filter | exact H]. Qed.
Lemma cut_ok ts r : cut ts r -> Forall valid ts.
Proof. induction ts as [|[k w] ts IH]; intros H; [constructor|]. destruct H as (H1 & _ & H3). constructor; [exact H1|now apply IH]. Qed.

(** Any valid tokens: the floats they stand for can be written with them. *)
Lemma own_tokens ts : Forall valid ts -> exists f32 f64,
  (forall t b, In t ts -> f32_const F t b -> good_const (f32_const F) (f32 b) b) /\
  (forall t b, In t ts -> f64_const F t b -> good_const (f64_const F) (f64 b) b) /\
  good_const (f64_const F) (f64 0%N) 0%N.
Proof.
  intros V. set (z := (TInteger, txt "0") : tk).
  assert (Vz : valid z) by (apply (natural_valid 0)).
  assert (Gz : f64_const F z 0%N).
  { apply (f64_of_int F (txt "0") 0). apply (i64_unsigned _ 0%N); [constructor|reflexivity]. }
  exists (write_from (read32_tk pf) ts), (write_from (read64_tk pf) (z :: ts)). split; [|split].
  - apply write_from_good; [intros; now apply read32_ok|exact V].
  - intros t b Hi. apply write_from_good; [intros; now apply read64_ok|now constructor|now right].
  - apply write_from_good with z; [intros; now apply read64_ok|now constructor|now left|exact Gz].
Qed.

Lemma file_ok f32 f64 w d (ok : tk -> Prop) : (forall t, ok t -> valid t) ->
  (forall t b, ok t -> f32_const F t b -> good_const (f32_const F) (f32 b) b) ->
  (forall t b, ok t -> f64_const F t b -> good_const (f64_const F) (f64 b) b) ->
  a_directive F w d -> Forall ok w -> good_file f32 f64 d.
Proof. destruct d as [m|]; [|intros; exact I]. cbn [good_file]. intros. now apply directive_ok with (ok := ok) (w := w). Qed.

(** ** Accepted files *)

(** However floats are written, as long as each float that a token can stand
    for is written as some token that stands for it: the tree of an accepted
    file, printed, is accepted as that tree, whatever follows it. *)
Definition writes (G : tk -> N -> Prop) (f : N -> tk) : Prop :=
  forall t b, token_text (fst t) (snd t) -> G t b -> good_const G (f b) b.
Theorem wat_accepted_reprints : forall swap swap' input d f32 f64 r, writes (f32_const F) f32 -> writes (f64_const F) f64 ->
  accepts pf swap input d -> accepts pf swap' (print_file f32 f64 d ++ r) d.
Proof.
  intros swap swap' input d f32 f64 r H32 H64 H. apply wat_parse_means in H. destruct H as (ts & r' & _ & C & G).
  apply good_file_accepted. apply (file_ok f32 f64 (significant ts) d valid); auto. now apply significant_ok, (cut_ok ts r').
Qed.

(** The floats of a file can be written with its own tokens, and those of two
    files with the tokens of both; so no way to write all floats is needed.
    The files mean the same exactly if they print alike. *)
Theorem wat_same_file_same_print : forall swap swap' input input' d d', accepts pf swap input d -> accepts pf swap' input' d' ->
  exists f32 f64, (forall sw r, accepts pf sw (print_file f32 f64 d ++ r) d) /\ (forall sw r, accepts pf sw (print_file f32 f64 d' ++ r) d') /\
    (d = d' <-> print_file f32 f64 d = print_file f32 f64 d').
Proof.
  intros swap swap' input input' d d' H H'. apply wat_parse_means in H, H'.
  destruct H as (ts & r & _ & C & G), H' as (ts' & r' & _ & C' & G').
  apply cut_ok in C, C'. apply significant_ok in C, C'.
  destruct (own_tokens (significant ts ++ significant ts')) as (f32 & f64 & H32 & H64 & _); [now apply Forall_app|].
  set (ok := fun t => In t (significant ts ++ significant ts')) in *.
  assert (V : forall t, ok t -> valid t).
  { intros t Ht. assert (X : Forall valid (significant ts ++ significant ts')) by now apply Forall_app. rewrite Forall_forall in X. now apply X. }
  assert (X : forall sw r, accepts pf sw (print_file f32 f64 d ++ r) d).
  { intros sw r0. apply good_file_accepted. apply (file_ok f32 f64 (significant ts) d ok); auto.
    apply Forall_forall. intros t Ht. apply in_or_app. now left. }
  assert (Y : forall sw r, accepts pf sw (print_file f32 f64 d' ++ r) d').
  { intros sw r0. apply good_file_accepted. apply (file_ok f32 f64 (significant ts') d' ok); auto.
    apply Forall_forall. intros t Ht. apply in_or_app. now right. }
  exists f32, f64. split; [exact X|]. split; [exact Y|]. split; [now intros ->|]. intros E.
  specialize (X swap []). specialize (Y swap []). rewrite E in X. unfold accepts in X, Y. congruence.
Qed.

(** The trees that the parser produces are those that can be written. *)
Theorem wat_trees : forall swap d, (exists input, accepts pf swap input d) <-> exists f32 f64, good_file f32 f64 d.
Proof.
  intros swap d. split.
  - intros (input & H). apply wat_parse_means in H. destruct H as (ts & r & _ & C & G).
    apply cut_ok in C. apply significant_ok in C. destruct (own_tokens _ C) as (f32 & f64 & H32 & H64 & _).
    exists f32, f64. apply (file_ok f32 f64 (significant ts) d (fun t => In t (significant ts))); auto.
    + rewrite Forall_forall in C. exact C.
    + now apply Forall_forall.
  - intros (f32 & f64 & H). exists (print_file f32 f64 d ++ []). now apply good_file_accepted.
Qed.

(** ** Scripts *)
Theorem wast_scripts : forall swap ds,
  (exists input, ParseWast pf swap input = Ok ds) <-> exists f32 f64, Forall (good_wdirective f32 f64 F) ds.
Proof.
  intros swap ds. split.
  - intros (input & H). apply wast_parse_means in H. destruct H as (ts & r & _ & C & _ & G).
    apply cut_ok in C. apply significant_ok in C. destruct (own_tokens _ C) as (f32 & f64 & H32 & H64 & Hz).
    exists f32, f64. apply (script_ok f32 f64 F (fun t => In t (significant ts))) with (w := significant ts); auto.
    + rewrite Forall_forall in C. exact C.
    + now apply Forall_forall.
  - intros (f32 & f64 & H). exists (spaced (print_script f32 f64 ds)). now apply script_parses_back.
Qed.
Theorem wast_accepted_reprints : forall swap swap' input ds f32 f64, writes (f32_const F) f32 -> writes (f64_const F) f64 ->
  ParseWast pf swap input = Ok ds -> ParseWast pf swap' (spaced (print_script f32 f64 ds)) = Ok ds.
Proof.
  intros swap swap' input ds f32 f64 H32 H64 H. apply wast_parse_means in H. destruct H as (ts & r & _ & C & _ & G).
  apply cut_ok in C. apply significant_ok in C. apply script_parses_back.
  apply (script_ok f32 f64 F valid) with (w := significant ts); auto.
  apply (H64 (TInteger, txt "0")); [apply (natural_valid 0)|].
  apply (f64_of_int F (txt "0") 0). apply (i64_unsigned _ 0%N); [constructor|reflexivity].
Qed.
Theorem wast_same_script_same_print : forall swap swap' input input' ds ds',
  ParseWast pf swap input = Ok ds -> ParseWast pf swap' input' = Ok ds' ->
  exists f32 f64, (forall sw, ParseWast pf sw (spaced (print_script f32 f64 ds)) = Ok ds) /\
    (forall sw, ParseWast pf sw (spaced (print_script f32 f64 ds')) = Ok ds') /\
    (ds = ds' <-> spaced (print_script f32 f64 ds) = spaced (print_script f32 f64 ds')).
Proof.
  intros swap swap' input input' d d' H H'. apply wast_parse_means in H, H'.
  destruct H as (ts & r & _ & C & _ & G), H' as (ts' & r' & _ & C' & _ & G').
  apply cut_ok in C, C'. apply significant_ok in C, C'.
  destruct (own_tokens (significant ts ++ significant ts')) as (f32 & f64 & H32 & H64 & Hz); [now apply Forall_app|].
  set (ok := fun t => In t (significant ts ++ significant ts')) in *.
  assert (V : forall t, ok t -> valid t).
  { intros t Ht. assert (X : Forall valid (significant ts ++ significant ts')) by now apply Forall_app. rewrite Forall_forall in X. now apply X. }
  assert (X : forall sw, ParseWast pf sw (spaced (print_script f32 f64 d)) = Ok d).
  { intros sw. apply script_parses_back. apply (script_ok f32 f64 F ok) with (w := significant ts); auto.
    apply Forall_forall. intros t Ht. apply in_or_app. now left. }
  assert (Y : forall sw, ParseWast pf sw (spaced (print_script f32 f64 d')) = Ok d').
  { intros sw. apply script_parses_back. apply (script_ok f32 f64 F ok) with (w := significant ts'); auto.
    apply Forall_forall. intros t Ht. apply in_or_app. now right. }
  exists f32, f64. split; [exact X|]. split; [exact Y|]. split; [now intros ->|]. intros E.
  specialize (X swap). specialize (Y swap). rewrite E in X. congruence.
Qed.
End Reprint.

(** A file with a forgotten instruction, an import, an unknown element type,
    an octal number, a negative limit, sections out of order and text behind it *)
Definition odd_module : text :=
  txt "(module (memory -1) (func (result i32) (import " ++ [quote] ++ txt "a" ++ [quote; quote] ++ txt "b" ++ [quote] ++
  txt ") (local i64) (i32.and (i32.const 010)) f32.const 0x10) (type) (table anything)) ((".
Definition odd_tree : directive :=
  DModule {| md_funcs := [{| f_id := None; f_locals := [TI64]; f_exports := []; f_params := []; f_results := [[TI32]];
      f_instrs := [IFolded INil [II32Const 8]; IF32Const 0x41800000%N] |}];
    md_memories := [{| m_id := None; m_limits := {| lim_min := 4294967295%N; lim_max := None |} |}];
    md_types := [{| td_id := None; td_func := {| ft_params := []; ft_results := [] |} |}];
    md_tables := [{| tb_id := None; tb_limits := {| lim_min := 0; lim_max := None |}; tb_ref := None; tb_elems := [] |}];
    md_globals := [] |}.
Example odd_module_accepted : forall pf, accepts pf false odd_module odd_tree.
Proof. intros pf. vm_compute. reflexivity. Qed.
Example odd_module_printed : forall f64, print_file (fun _ => (TInteger, txt "0x10")) f64 odd_tree =
  txt "( module ( type ( func ) ) ( func ( result i32 ) ( local i64 ) ( i32.eq ( i32.const 8 ) ) ( f32.const 0x10 ) ) ( table 0 anyref ) ( memory 4294967295 ) )".
Proof. intros f64. vm_compute. reflexivity. Qed.
Example odd_module_reprints : forall pf f64, accepts pf false (print_file (fun _ => (TInteger, txt "0x10")) f64 odd_tree) odd_tree.
Proof. intros pf f64. vm_compute. reflexivity. Qed.
Definition odd_script : text :=
  txt "(assert_return (nothing) (f64.const) (ref.extern) (assert_trap (other)" ++ [quote] ++ txt "x" ++ [quote] ++ txt ")".
Example odd_script_accepted : forall pf, ParseWast pf false odd_script = Ok [DReturn None [CF64 0]; DTrap None (txt "x")].
Proof. intros pf. vm_compute. reflexivity. Qed.
Example odd_script_reprints : forall pf f32, ParseWast pf false
  (spaced (print_script f32 (fun _ => (TInteger, txt "0")) [DReturn None [CF64 0]; DTrap None (txt "x")])) =
  Ok [DReturn None [CF64 0]; DTrap None (txt "x")].
Proof. intros pf f32. vm_compute. reflexivity. Qed.

(** There are ways to write all floats that can be read, for instance if
    ParseFloat takes the digits between 0x and the dot for the bits. *)
Definition range (n : N) : list N := map N.of_nat (seq 0 (N.to_nat n)).
Lemma in_range n c : In c (range n) <-> (c < n)%N.
Proof.
  unfold range. rewrite in_map_iff. split.
  - intros (x & <- & H). apply in_seq in H. lia.
  - intros H. exists (N.to_nat c). split; [apply N2Nat.id|]. apply in_seq. lia.
Qed.
#[global] Opaque range.
Definition bits_tk (b : N) : tk := (TFloat, txt "0x" ++ digits_of (N.to_uint b) ++ txt ".").
Definition read_upto (n : N) (w : text) : option N := find (fun b => text_eqb (snd (bits_tk b)) w) (range n).
Definition read_bits : text -> option N := read_upto (2 ^ 32).
Lemma bits_valid b : valid (bits_tk b).
Proof.
  assert (X : float_text (snd (bits_tk b))).
  2:{ split; [|exact X]. split; [split; [discriminate|]|intros (c & E & _); discriminate].
      change (txt "0x" ++ digits_of (N.to_uint b) ++ txt ".") with ("0"%char :: "x"%char :: digits_of (N.to_uint b) ++ txt ".").
      repeat (apply Forall_cons; [apply id_char_ok; reflexivity|]). apply Forall_app. split; [|repeat constructor; apply id_char_ok; reflexivity].
      eapply Forall_impl; [|apply digits_dec]. intros c Hc. apply hex_digit_id. left. now left. }
  exists [], (txt "0x" ++ digits_of (N.to_uint b) ++ txt "."). split; [now left|]. split; [reflexivity|]. right. right.
  exists (digits_of (N.to_uint b)), (txt "."). split; [reflexivity|]. split; [|split; [|now left]].
  - destruct (words_digits _ (dec_words b)) as (c & w & -> & Hc & Hw). exists c, w. split; [reflexivity|]. split; [now left|].
    eapply Forall_impl; [|exact Hw]. intros x [Hx|Hx]; [left; now left|now right].
  - cbn. intros [H|H]; [|discriminate]. unfold hex_digit, dec_digit in H. cbn in H. lia.
Qed.
Lemma read_upto_ok n w b : read_upto n w = Some b <-> w = snd (bits_tk b) /\ (b < n)%N.
Proof.
  unfold read_upto. split.
  - intros H. apply find_some in H. destruct H as [H1 H2]. apply in_range in H1. apply text_eqb_eq in H2. auto.
  - intros [-> H]. destruct (find _ _) as [c|] eqn:E.
    + apply find_some in E. destruct E as [_ E]. apply text_eqb_eq in E. cbn [bits_tk snd] in E.
      apply app_inv_head, app_inv_tail in E. f_equal.
      rewrite <- (DecimalN.Unsigned.of_to c), <- (DecimalN.Unsigned.of_to b), <- !value_digits. now f_equal.
    + pose proof (find_none _ _ E b (proj2 (in_range _ _) H)) as X. cbn beta in X.
      rewrite (proj2 (text_eqb_eq _ _) eq_refl) in X. discriminate.
Qed.
Lemma read_bits_ok w b : read_bits w = Some b <-> w = snd (bits_tk b) /\ (b < 2 ^ 32)%N.
Proof. apply read_upto_ok. Qed.
#[global] Opaque read_bits.
Example writes32 : writes (f32_const (model_floats read_bits)) bits_tk.
Proof.
  intros t b V H. split; [apply bits_valid|]. constructor. constructor; [intros (r & [E|E]); discriminate|].
  apply read_bits_ok. split; [reflexivity|]. change (token_text (fst t) (snd t)) with (valid t) in V. destruct H as [w b H|w z H].
  - destruct H as [w b _ H| | |s w _ _|w n _ H|w n _ H]; try reflexivity.
    + now apply read_bits_ok in H.
    + now apply lor_bound.
    + now apply lor_bound.
  - destruct (f32_const_nearest read_bits w _ (f32_of_int (model_floats read_bits) w z H)) as (z' & _ & P & _). exact P.
Qed.
Definition tokens_upto (n m : N) : list tk := map bits_tk (range n) ++ map (fun n => integer (Z.of_N n - 2 ^ 31)) (range m).
Definition tokens64 : list tk := tokens_upto (2 ^ 32) (2 ^ 33).
Lemma tokens_valid n m : Forall valid (tokens_upto n m).
Proof.
  apply Forall_forall. intros t H. unfold tokens_upto in H. apply in_app_or in H.
  destruct H as [H|H]; apply in_map_iff in H; destruct H as (x & <- & _); [apply bits_valid|apply integer_valid].
Qed.
Lemma tokens_bits n m b : (b < n)%N -> In (bits_tk b) (tokens_upto n m).
Proof. intros H. unfold tokens_upto. apply in_or_app. left. apply in_map. now apply in_range. Qed.
Lemma tokens_int n m z : (- 2 ^ 31 <= z < Z.of_N m - 2 ^ 31)%Z -> In (integer z) (tokens_upto n m).
Proof.
  intros H. unfold tokens_upto. apply in_or_app. right. apply in_map_iff. exists (Z.to_N (z + 2 ^ 31)).
  split; [f_equal; lia|]. apply in_range. lia.
Qed.
Lemma tokens64_bits b : (b < 2 ^ 32)%N -> In (bits_tk b) tokens64.
Proof. exact (tokens_bits (2 ^ 32) (2 ^ 33) b). Qed.
Lemma tokens64_int z : (- 2 ^ 31 <= z < 2 ^ 32)%Z -> In (integer z) tokens64.
Proof. intros H. apply (tokens_int (2 ^ 32) (2 ^ 33) z). lia. Qed.
Lemma tokens64_valid : Forall valid tokens64.
Proof. exact (tokens_valid (2 ^ 32) (2 ^ 33)). Qed.
#[global] Opaque tokens64.
Example writes64 : writes (f64_const (model_floats read_bits)) (write_from (read64_tk read_bits) tokens64).
Proof.
  assert (W := write_from_good (f64_const (model_floats read_bits)) (read64_tk read_bits) tokens64
    (fun t b V => read64_ok read_bits t b V) tokens64_valid).
  intros t b V H. destruct H as [w b H|w z H].
  - apply (W (TFloat, w)); [|now constructor]. apply read_bits_ok in H. destruct H as [-> H]. exact (tokens64_bits b H).
  - pose proof (i64_bounds w z H) as B. apply (W (integer z)).
    + exact (tokens64_int z B).
    + rewrite integer_tk. apply (f64_of_int (model_floats read_bits)). now apply integer_i64.
Qed.
Example odd_module_rewritten :
  accepts read_bits true (print_file bits_tk (write_from (read64_tk read_bits) tokens64) odd_tree ++ txt "..") odd_tree.
Proof. exact (wat_accepted_reprints read_bits false true odd_module odd_tree _ _ _ writes32 writes64 (odd_module_accepted read_bits)). Qed.

Print Assumptions wat_accepted_reprints.
Print Assumptions wat_same_file_same_print.
Print Assumptions wat_trees.
Print Assumptions wast_scripts.
Print Assumptions wast_accepted_reprints.
Print Assumptions wast_same_script_same_print.
