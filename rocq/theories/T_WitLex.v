(** The repository's own unit tests of the WIT lexer, run on the model; see
    T_Wat.v. *)
From Coq Require Import Arith NArith String Ascii Bool List.
From Verif Require Import GoBase M_Text M_WitLex.
Import ListNotations.
Open Scope nat_scope.
Local Open Scope string_scope.

(** wit/lex/lexer_test.go:11-93. The tables of unicode are not used. *)
Definition first (U : tables) (s : text) : outcome (toktype * text) :=
  match next U (new_lexer s) with (Ok t, _) => Ok (t_type t, t_capture t) | _ => Err EOther end.
Fixpoint take (U : tables) (n : nat) (l : lexer) : list (toktype * text) :=
  match n with
  | O => []
  | S n' => match next U l with (Ok t, l') => (t_type t, t_capture t) :: take U n' l' | _ => [] end
  end.
Definition blank : text := map ascii_of_N [12; 9; 32; 13; 10]%N.
Definition variant := txt "variant option { none, some(ty), }".
Example unit : forall U, Forall (fun c => first U (fst c) = Ok (snd c, fst c)) [
  (txt "// this is a comment line", LineComment); (txt "/* this is a comment block */", BlockComment); (blank, Whitespace);
  (txt "variant", KVariant); (txt "{", OpenBrace); (txt "}", CloseBrace)].
Proof. intros U. repeat constructor. Qed.
Example sequence : forall U, take U 16 (new_lexer variant) = map (fun p => (snd p, txt (fst p))) [
  ("variant", KVariant); (" ", Whitespace); ("option", KOption); (" ", Whitespace); ("{", OpenBrace); (" ", Whitespace); ("none", Id);
  (",", Comma); (" ", Whitespace); ("some", Id); ("(", OpenParen); ("ty", Id); (")", CloseParen); (",", Comma); (" ", Whitespace);
  ("}", CloseBrace)].
Proof. intros U. vm_compute. reflexivity. Qed.
Example peek_test : forall U,
  let (a, l1) := peek U (new_lexer variant) in
  let (b, l2) := next U l1 in
  let (c, _) := peek U l2 in
  match a, b, c with
  | Ok a, Ok b, Ok c => t_type a = KVariant /\ t_type b = KVariant /\ t_capture b = txt "variant" /\ t_type c = Whitespace /\ t_capture c = txt " "
  | _, _, _ => False
  end.
Proof. intros U. vm_compute. repeat split. Qed.
