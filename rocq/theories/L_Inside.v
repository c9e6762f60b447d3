(** Loading looks only at bytes inside the memory. *)
From Coq Require Import NArith.
From Verif Require Import GoBase M_Types M_State M_Load S_Layout S_Values S_Memory S_Format S_Inside S_Looks L_Access L_Mem L_Layout L_Looks.
Open Scope N_scope.

Lemma inside_all : forall cx t a sz p s1 s2, sp_layout t = Some (a, sz) -> wf_type t -> good s1 -> good s2 ->
  same_inside (s_mem s1) (s_mem s2) -> s_world s1 = s_world s2 -> (a | p) -> p + sz <= len s1 ->
  addressable (cx_enc cx) (s_mem s1) t p -> twin (load cx t p) s1 s2.
Proof.
  intros cx t a sz p s1 s2 Hl Hwf G1 G2 [L B] W Hd Hp Had.
  apply (looks_all cx t a sz p s1 s2 Hl Hwf (mkRel _ _ G1 G2 L W) Hd Hp Had). intros b Hb _. apply B, Hb.
Qed.
