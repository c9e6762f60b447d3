(** Property C87: whatever the WIT parser accepts can be written down again. *)
From Coq Require Import Arith NArith ZArith String Ascii Bool List Lia.
From Verif Require Import GoBase M_Text S_Utf M_WitLex S_WitLex L_WitLex L_WitToks L_WitHist P_WitLex.
From Verif Require Import M_ParseBase M_WitAst M_WitParse S_WitParse S_WitPrint L_WitBridge L_WitPrint L_WitReprint P_WitParse.
Import ListNotations.
Open Scope nat_scope.

Lemma spaced_texts ts ts' : map snd ts = map snd ts' -> spaced ts = spaced ts'.
Proof.
  unfold spaced. intros H. f_equal. rewrite <- !(map_map snd (fun x => x ++ txt " ")). now f_equal.
Qed.

(** The syntax tree of an accepted text, printed, is accepted as that tree:
    without any condition on the text or on the names, types and numbers in it. *)
Theorem wit_accepted_reprints : forall U input a, good_tables U ->
  Parse U input = Ok a -> Parse U (spaced (print_ast a)) = Ok a.
Proof.
  intros U input a HU P. apply wit_parse_means in P; [|exact HU]. destruct P as (ts & _ & C & G).
  assert (S : Forall (solid U) (significant ts)).
  { pose proof (significant_valid U _ (separated_valid U _ C)) as V. rewrite Forall_forall in *. intros t Ht. split; [now apply V|].
    apply filter_In in Ht. destruct Ht as [_ Ht]. now apply negb_true_iff in Ht. }
  destruct (re_file U a _ G S) as (us & T & G' & S'). rewrite <- (spaced_texts _ _ T).
  apply wit_parse_means; [exact HU|]. exists (blanks us). rewrite blanks_text, (blanks_significant U) by exact S'.
  split; [reflexivity|]. split; [now apply blanks_separated | exact G'].
Qed.

(** Two accepted texts mean the same file exactly if they print alike. *)
Theorem wit_same_file_same_print : forall U input input' a a', good_tables U ->
  Parse U input = Ok a -> Parse U input' = Ok a' -> (a = a' <-> spaced (print_ast a) = spaced (print_ast a')).
Proof.
  intros U input input' a a' HU P P'. split; [congruence|]. intros E.
  apply wit_accepted_reprints in P, P'; try exact HU. congruence.
Qed.

(** Formatting: parse, then print *)
Definition reformat (U : tables) (input : text) : option text :=
  match Parse U input with Ok a => Some (spaced (print_ast a)) | _ => None end.

(** A formatted text has the meaning of the text it was made from, and
    formatting it again changes nothing. *)
Theorem wit_reformat_stable : forall U input output, good_tables U ->
  reformat U input = Some output -> Parse U output = Parse U input /\ reformat U output = Some output.
Proof.
  unfold reformat. intros U input output HU H. destruct (Parse U input) as [a| | |] eqn:P; try discriminate. inversion H; subst output.
  rewrite (wit_accepted_reprints U input a HU P). auto.
Qed.

(** Not only trees that were built with care: here the namespace is a number,
    a version is written in octal, a keyword is the name of a type, and commas,
    semicolons and a brace are left over. *)
Definition odd_text : text :=
  txt "package 7:demo@010.0.0; } ; // odd" ++ [newline] ++
  txt "interface i { resource r {} type t = interface; f: func(a: tuple<u8,>,) -> (); } ,".
Definition odd_file : ast :=
  {| as_package := Some {| pk_namespace := txt "7"; pk_name := txt "demo";
       pk_version := Some {| v_major := 8; v_minor := 0; v_patch := 0; v_pre := []; v_build := [] |} |};
     as_items := [ANothing; ANothing; AInterface {| if_name := txt "i"; if_items :=
       [IResource (txt "r") []; IType (txt "t") (TyId (txt "interface"));
        IFunc {| fi_id := txt "f"; fi_type := {| ft_params := [{| pa_id := txt "a"; pa_type := TyTuple [TyId (txt "u8")] |}];
          ft_results := {| rl_named := []; rl_anonymous := None |} |} |}] |}; ANothing] |}.
Example odd_text_accepted : Parse latin odd_text = Ok odd_file.
Proof. vm_compute. reflexivity. Qed.
Example odd_text_printed : spaced (print_ast odd_file) =
  txt "package 7 : demo @ 8 . 0 . 0 ; ; ; interface i { resource r ; type t = interface ; f : func ( a : tuple < u8 > ) ; } ; ".
Proof. vm_compute. reflexivity. Qed.
Example odd_text_reprints : reformat latin (spaced (print_ast odd_file)) = Some (spaced (print_ast odd_file)).
Proof.
  apply (wit_reformat_stable latin odd_text); [apply latin_good|]. unfold reformat. now rewrite odd_text_accepted.
Qed.

Print Assumptions wit_accepted_reprints.
Print Assumptions wit_same_file_same_print.
Print Assumptions wit_reformat_stable.
