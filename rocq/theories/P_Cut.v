(** Property theorems about parts of lists (C98). *)
From Coq Require Import NArith ZArith String Bool Lia ZifyBool ZifyNat ZifyN List.
From Verif Require Import GoBase M_Types M_Layout S_Layout L_Layout M_State M_Utf M_Load M_Flat
  S_Utf S_Values S_Memory S_Flat L_Access L_Mem L_Cut P_Memory P_Format P_Inside.
Import ListNotations.
Open Scope N_scope.
Open Scope go_scope.

(** ** C98 *)

(** A guest passes a list as an address and a number of elements. What is lifted
    from the address of a list of [n1 + n2] elements inside memory is what is
    lifted from the first [n1] elements, followed by what is lifted after that
    from the other [n2]; handles change hands in this order too. One succeeds if
    and only if the other does. *)
Theorem list_cut_in_two : forall cx t a sz p n1 n2 s v s',
  sp_layout t = Some (a, sz) -> wf_type (TList t) -> wf_mem (s_mem s) ->
  (a | p) -> p + (n1 + n2) * sz <= m_len (s_mem s) ->
  lift_flat cx (TList t) (IBase [CU32 p; CU32 (n1 + n2)] 0) s = (Ok (v, IBase [CU32 p; CU32 (n1 + n2)] 2), s') <->
  exists l1 l2 s1, v = VList (l1 ++ l2) /\ N.of_nat (List.length l1) = n1 /\ N.of_nat (List.length l2) = n2 /\
    lift_flat cx (TList t) (IBase [CU32 p; CU32 n1] 0) s = (Ok (VList l1, IBase [CU32 p; CU32 n1] 2), s1) /\
    lift_flat cx (TList t) (IBase [CU32 (p + n1 * sz); CU32 n2] 0) s1
    = (Ok (VList l2, IBase [CU32 (p + n1 * sz); CU32 n2] 2), s').
Proof.
  intros cx t a sz p n1 n2 s v s' Hl Hwf W Hd Hb. rewrite lift_range, (range_split cx t a sz) by assumption. split.
  - intros (_ & l1 & l2 & s1 & Hv & H1 & H2 & E1 & E2). exists l1, l2, s1.
    split; [exact Hv|]. split; [exact H1|]. split; [exact H2|]. split; apply lift_range; auto.
  - intros (l1 & l2 & s1 & Hv & H1 & H2 & E1 & E2). apply lift_range in E1, E2. split; [reflexivity|].
    exists l1, l2, s1. split; [exact Hv|]. split; [exact H1|]. split; [exact H2|]. split; [apply E1|apply E2].
Qed.
Print Assumptions list_cut_in_two.

(** A list of one element is that element. *)
Theorem list_of_one : forall cx t a sz p s v s',
  sp_layout t = Some (a, sz) -> wf_type (TList t) -> wf_mem (s_mem s) ->
  (a | p) -> p + sz <= m_len (s_mem s) ->
  lift_flat cx (TList t) (IBase [CU32 p; CU32 1] 0) s = (Ok (VList [v], IBase [CU32 p; CU32 1] 2), s') <->
  load cx t p s = (Ok v, s').
Proof.
  intros cx t a sz p s v s' Hl Hwf W Hd Hb. rewrite lift_range, (range_one cx t a sz) by assumption. tauto.
Qed.
Print Assumptions list_of_one.

(** A list without elements is empty, whatever the elements would be, as long as
    its address is aligned and inside memory or at its end. *)
Theorem list_of_none : forall cx t a sz p s,
  sp_layout t = Some (a, sz) -> wf_type (TList t) -> wf_mem (s_mem s) -> (a | p) -> p <= m_len (s_mem s) ->
  lift_flat cx (TList t) (IBase [CU32 p; CU32 0] 0) s = (Ok (VList [], IBase [CU32 p; CU32 0] 2), s).
Proof.
  intros cx t a sz p s Hl Hwf W Hd Hb. apply lift_range. split; [reflexivity|].
  rewrite (range_run cx t a sz) by (assumption || lia). reflexivity.
Qed.
Print Assumptions list_of_none.

(** It makes no difference whether a list is passed by core values or lies in
    memory: a place that holds address and number loads as the list. *)
Theorem list_in_memory : forall cx t q s v s',
  wf_mem (s_mem s) -> q + 8 <= m_len (s_mem s) ->
  let p := number (s_mem s) q 4 in
  let n := number (s_mem s) (q + 4) 4 in
  load cx (TList t) q s = (Ok v, s') <->
  lift_flat cx (TList t) (IBase [CU32 p; CU32 n] 0) s = (Ok (v, IBase [CU32 p; CU32 n] 2), s').
Proof. intros cx t q s v s' W Hq p n. rewrite load_range, lift_range by assumption. subst p n. tauto. Qed.
Print Assumptions list_in_memory.

(** So the elements of a list are what is loaded from their places, one after
    the other. *)
Theorem list_first_and_rest : forall cx t a sz p n s v s',
  sp_layout t = Some (a, sz) -> wf_type (TList t) -> wf_mem (s_mem s) ->
  (a | p) -> p + (1 + n) * sz <= m_len (s_mem s) ->
  lift_flat cx (TList t) (IBase [CU32 p; CU32 (1 + n)] 0) s = (Ok (v, IBase [CU32 p; CU32 (1 + n)] 2), s') <->
  exists x l s1, v = VList (x :: l) /\ N.of_nat (List.length l) = n /\
    load cx t p s = (Ok x, s1) /\
    lift_flat cx (TList t) (IBase [CU32 (p + sz); CU32 n] 0) s1 = (Ok (VList l, IBase [CU32 (p + sz); CU32 n] 2), s').
Proof.
  intros cx t a sz p n s v s' Hl Hwf W Hd Hb. rewrite (list_cut_in_two cx t a sz) by assumption. rewrite N.mul_1_l. split.
  - intros (l1 & l & s1 & -> & H1 & H2 & E1 & E2). destruct l1 as [|x [|y l1]]; cbn [List.length] in H1; try lia.
    exists x, l, s1. split; [reflexivity|]. split; [exact H2|]. split; [|exact E2].
    apply (list_of_one cx t a sz) in E1; try assumption. lia.
  - intros (x & l & s1 & -> & H2 & E1 & E2). exists [x], l, s1. split; [reflexivity|]. split; [reflexivity|]. split; [exact H2|].
    split; [|exact E2]. apply (list_of_one cx t a sz); try assumption. lia.
Qed.
Print Assumptions list_first_and_rest.

(** The hypotheses can be met, by a list of texts that is cut after the first
    of three. *)
Definition cut_bytes : list N :=
  [24; 0; 0; 0; 1; 0; 0; 0;  25; 0; 0; 0; 2; 0; 0; 0;  27; 0; 0; 0; 0; 0; 0; 0;  0x61; 0x62; 0x63].
Definition cut_state : state := mkState (mkMem cut_bytes 27) [] ins_world.
Example list_cut_applies :
  sp_layout TString = Some (4, 8) /\ wf_type (TList TString) /\ wf_mem (s_mem cut_state) /\
  (4 | 0) /\ 0 + (1 + 2) * 8 <= m_len (s_mem cut_state) /\
  fst (lift_flat (bump_ctx EncUtf8) (TList TString) (IBase [CU32 0; CU32 3] 0) cut_state)
  = Ok (VList [VStr [0x61]; VStr [0x62; 0x63]; VStr []], IBase [CU32 0; CU32 3] 2) /\
  fst (lift_flat (bump_ctx EncUtf8) (TList TString) (IBase [CU32 8; CU32 2] 0) cut_state)
  = Ok (VList [VStr [0x62; 0x63]; VStr []], IBase [CU32 8; CU32 2] 2) /\
  load (bump_ctx EncUtf8) TString 0 cut_state = (Ok (VStr [0x61]), cut_state).
Proof.
  split; [reflexivity|]. split; [split; [exact I|exists 4, 8; split; reflexivity]|].
  split; [split; [cbn; lia|split; [reflexivity|repeat constructor]]|]. split; [exists 0; reflexivity|].
  split; [cbn; lia|]. repeat split; vm_compute; reflexivity.
Qed.
Example list_in_memory_applies :
  0 + 8 <= m_len (s_mem (ins_state [])) /\ number (s_mem (ins_state [])) 0 4 = 16 /\ number (s_mem (ins_state [])) 4 4 = 1 /\
  fst (load (bump_ctx EncUtf8) (TList (TOwn (mkRType 3 None false))) 0 (ins_state [])) = Ok (VList [VU32 42]).
Proof. split; [cbn; lia|]. repeat split; vm_compute; reflexivity. Qed.
