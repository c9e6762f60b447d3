(** Specification of where the errors of a WIT file are: the tokens before
    the place, and which sequences of tokens begin a file. *)
From Coq Require Import Arith NArith String Ascii List.
From Verif Require Import GoBase M_Text M_WitLex M_WitParse S_WitLex S_WitParse.
Import ListNotations.

(** The text of [ts], followed by [rest], has the tokens [ts], each as long
    as it can be. *)
Fixpoint cuts (U : tables) (ts : list tk) (rest : text) : Prop :=
  match ts with
  | [] => True
  | (ty, w) :: ts' => token_text U ty w /\ separate U ty w (text_of ts' ++ rest) /\ cuts U ts' rest
  end.

(** Parse accepts a file that consists of these tokens, with whitespace and
    comments. *)
Definition acceptable (U : tables) (w : list tk) : Prop :=
  exists input ts a, Parse U input = Ok a /\ input = text_of ts /\ separated U ts /\ significant ts = w.

(** The tokens end inside a path with a package, after use or include:
    use a : b / . *)
Definition in_package_path (w : list tk) : Prop :=
  exists before u i c after, w = before ++ u :: i :: c :: after /\
  (fst u = KUse \/ fst u = KInclude) /\ (fst i = Id \/ fst i = ExplicitId) /\ fst c = Colon /\
  (after = [] \/ exists p, (fst p = Id \/ fst p = ExplicitId) /\
   (after = [p] \/ exists s, after = [p; s] /\ fst s = Slash)).
