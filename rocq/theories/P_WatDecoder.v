(** Properties C61 and C62: the WAT decoder and the exported string parser. *)
From Coq Require Import Arith NArith ZArith String Ascii Bool List Lia.
From Verif Require Import GoBase M_Text M_WatLex S_WatLex L_WatLex L_WatTokens L_WatNum P_WatLex.
From Verif Require Import M_ParseBase M_Strconv M_Api M_WatAst M_WatParse M_WatDecoder S_WatParse S_WatPrint.
From Verif Require Import L_ParseBase L_ParseTotal L_WatSim L_WatTotal L_WatLit L_WatSound L_WatComplete L_WatBridge L_WatPrint P_WatParse.
Import ListNotations.
Open Scope nat_scope.

Section Decoder.
Variable pf : text -> option N.
Notation F := (model_floats pf).
Notation mch := (machine EndOfStream).

(** ** C61 *)

(** Decoding succeeds exactly on the files that begin with a module or a
    component, ends on every file, and fails when reading the file fails. *)
Theorem decode_accepts : forall swap input,
  ended (decode pf swap (Ok input)) /\
  ((exists x, decode pf swap (Ok input) = Ok x) <->
   exists ts r d, input = text_of ts ++ r /\ cut ts r /\ a_directive F (significant ts) d) /\
  forall e, decode pf swap (Err e) = Err e.
Proof.
  intros swap input. pose proof (wat_parse_ends pf swap input) as He. pose proof (wat_parse_means pf swap input) as Hm.
  unfold decode. destruct (fst (parse pf (new_lexer swap input))) as [d|e| |] eqn:E.
  - split; [left; eexists; reflexivity|]. split; [|reflexivity]. split; [|eauto]. intros _.
    destruct (proj1 (Hm d) eq_refl) as (ts & r & H). exists ts, r, d. exact H.
  - split; [right; eexists; reflexivity|]. split; [|reflexivity]. split; [intros [x X]; discriminate|].
    intros (ts & r & d & H). pose proof (proj2 (Hm d) (ex_intro _ ts (ex_intro _ r H))). discriminate.
  - destruct He as [[? X]|[? X]]; discriminate.
  - destruct He as [[? X]|[? X]]; discriminate.
Qed.

(** The decoded module has the functions of the file: refuted. It has none,
    whatever the file says. *)
Theorem decoded_module_empty : forall swap input m, decode pf swap (Ok input) = Ok (GotModule m) ->
  m_types m = [] /\ m_funcs m = [] /\ m_exports m = [].
Proof.
  intros swap input m H. unfold decode in H.
  destruct (fst (parse pf (new_lexer swap input))) as [[d|]| | |]; try discriminate. injection H as <-. auto.
Qed.

Theorem decoded_functions_kept_refuted :
  ~ (forall swap input ast m, fst (parse pf (new_lexer swap input)) = Ok (M_WatAst.DModule ast) ->
       decode pf swap (Ok input) = Ok (GotModule m) -> List.length (m_funcs m) = List.length (md_funcs ast)).
Proof.
  intros H. specialize (H false (txt "(module (func) (func))")).
  destruct (fst (parse pf (new_lexer false (txt "(module (func) (func))")))) as [[a|]| | |] eqn:E.
  2-5: vm_compute in E; discriminate.
  specialize (H a {| m_types := []; m_funcs := []; m_exports := [] |} eq_refl).
  assert (X : @List.length M_Api.func [] = List.length (md_funcs a)).
  { apply H. unfold decode. rewrite E. reflexivity. }
  vm_compute in E. injection E as <-. discriminate X.
Qed.

(** A component is decoded, without an error, as no component. *)
Theorem decoded_component_refuted : decode pf false (Ok (txt "(component)")) = Ok GotNilComponent.
Proof. vm_compute. reflexivity. Qed.

Example decode_accepts_applies :
  decode pf false (Ok (txt "(module (func) (func))")) = Ok (GotModule {| m_types := []; m_funcs := []; m_exports := [] |}) /\
  (exists e, decode pf false (Ok (txt "(module (func)")) = Err e).
Proof. split; [vm_compute; reflexivity|]. eexists. vm_compute. reflexivity. Qed.

(** ** C62 *)

(** ParseString reads the string literal that the file begins with, apart from
    whitespace and comments, without its quotes. *)
Theorem string_means : forall swap input w, fst (ParseString (new_lexer swap input)) = Ok w <->
  exists ts r, input = text_of ts ++ r /\ cut ts r /\ significant ts = [(TString, [quote] ++ w ++ [quote])] /\ ~ In quote w.
Proof.
  intros swap input w. unfold ParseString.
  rewrite (text_means swap input _ _ _ (sim_string _ W_R wat_next_sim) sound_string
    (fun w x rest e H _ _ => string_run w x rest e H)).
  split.
  - intros (ts & r & E & C & G). inversion G as [v Hv E1 E2]; subst. exists ts, r. auto.
  - intros (ts & r & E & C & S & H). exists ts, r. rewrite S. split; [exact E|]. split; [exact C|]. constructor. exact H.
Qed.

(** It never runs forever. *)
Theorem string_parsing_terminates : forall swap input, fst (ParseString (new_lexer swap input)) <> Diverge.
Proof.
  intros swap input H.
  destruct (reads_some (length input) (new_lexer swap input) (new_aligned swap input)) as
    (ts & r & e & E & C & Hr & Fe & _); [rewrite new_rest; lia|]. rewrite new_rest in E.
  assert (HR : W_R (new_lexer swap input) (significant ts, e)) by (split; [left; apply new_aligned|exact Hr]).
  pose proof (sim_string _ W_R wat_next_sim _ _ HR) as S. pose proof (short_enough ts r input E C) as Hl.
  pose proof (T_string _ (significant ts) e Fe (proj2 (Nat.lt_succ_r _ _) Hl)) as T.
  unfold ParseString in H. destruct (parse_string wat_source _) as [[d|x| |] l']; try discriminate.
  destruct (parse_string mch _) as [[| | |] ?]; cbn in S, T; tauto.
Qed.

(** On a file that begins with no token it does not give an error but crashes,
    unlike the other exported parsers. *)
Theorem string_parsing_ends_refuted :
  ~ (forall swap input, ended (fst (ParseString (new_lexer swap input)))).
Proof.
  intros H. destruct (H false (txt "{")) as [[a X]|[e X]]; vm_compute in X; discriminate.
Qed.

Example string_means_applies : fst (ParseString (new_lexer false (txt " " ++ [quote] ++ txt "a b" ++ [quote]))) = Ok (txt "a b").
Proof. vm_compute. reflexivity. Qed.
End Decoder.

Print Assumptions decode_accepts.
Print Assumptions decoded_module_empty.
Print Assumptions decoded_functions_kept_refuted.
Print Assumptions decoded_component_refuted.
Print Assumptions string_means.
Print Assumptions string_parsing_terminates.
Print Assumptions string_parsing_ends_refuted.
