(** Property theorems about which bytes Store writes (C89). *)
From Coq Require Import NArith ZArith List String Bool Lia ZifyBool ZifyNat ZifyN.
From Verif Require Import GoBase M_Types M_Layout S_Layout L_Layout M_State M_Utf M_Load M_Store
  S_Utf S_Values S_Memory S_Access S_Looks S_Own L_Access L_Mem L_Frame L_Own L_OwnSame P_Memory.
Import ListNotations.
Open Scope N_scope.
Open Scope go_scope.

(** ** C89 *)

(** Of all bytes in use, a Store changes only those that the value occupies: the
    padding between and behind fields, and the room that cases not chosen would
    have needed, keep what they held. This is so whether or not it succeeds. *)
Theorem store_keeps_rest : forall cx init t a sz v p s o s',
  correct_allocator cx init ->
  sp_layout t = Some (a, sz) -> lists_fit t v ->
  wf_mem (s_mem s) -> p + sz <= m_len (s_mem s) ->
  store cx t v p s = (o, s') ->
  forall b, owned init (s_hist s) b -> ~ own_bytes t v p b -> byte (s_mem s') b = byte (s_mem s) b.
Proof.
  intros cx init t a sz v p s o s' Hc Hl Hf Hm Hb E.
  assert (Hp : p + sz < two32) by (destruct Hm as (_ & Hm & _); unfold two32; lia).
  apply (st_frame _ _ _ _ (own_ok_all cx init t Hc a sz v p Hl Hf Hp s o s' Hm Hb E)).
Qed.
Print Assumptions store_keeps_rest.

(** These bytes are all in the value's place. *)
Theorem own_bytes_in_place : forall t a sz v p b,
  sp_layout t = Some (a, sz) -> own_bytes t v p b -> within p sz b.
Proof. exact own_inside_all. Qed.
Print Assumptions own_bytes_in_place.

(** And all of them are written: for a type without texts and lists, what they
    hold after a successful Store does not depend on what they held before, nor
    on anything else in memory. Whether Store succeeds does not either. *)
Theorem own_bytes_settled : forall cx init t a sz v p s1 s2 o1 o2 s1' s2',
  correct_allocator cx init ->
  sp_layout t = Some (a, sz) -> wf_type t -> inline t -> lists_fit t v ->
  wf_mem (s_mem s1) -> p + sz <= m_len (s_mem s1) -> (forall b, within p sz b -> owned init (s_hist s1) b) ->
  wf_mem (s_mem s2) -> p + sz <= m_len (s_mem s2) -> (forall b, within p sz b -> owned init (s_hist s2) b) ->
  store cx t v p s1 = (o1, s1') -> store cx t v p s2 = (o2, s2') ->
  o1 = o2 /\ (o1 = Ok tt -> forall b, own_bytes t v p b -> byte (s_mem s1') b = byte (s_mem s2') b).
Proof.
  intros cx init t a sz v p s1 s2 o1 o2 s1' s2' Hc Hl Hwf Hi Hf M1 L1 O1 M2 L2 O2 E1 E2.
  assert (Hp : p + sz < two32) by (destruct M1 as (_ & Hm & _); unfold two32; lia).
  exact (same_ok_all cx init t Hc a sz v p Hl Hwf Hi Hf Hp _ _ _ _ _ _ (conj M1 (conj L1 O1)) (conj M2 (conj L2 O2)) E1 E2).
Qed.
Print Assumptions own_bytes_settled.

(** The hypotheses can be met: of the 32 bytes of this place 5 are the value's. *)
Definition own_type : valtype :=
  TRecord [("a", TU8); ("v", TVariant [mkCase "x" (Some TU64) None; mkCase "y" (Some TU16) None]); ("f", TFlags ["p"; "q"])]%string.
Definition own_val : any :=
  VMap [("a", VU8 7); ("v", VMap [("y", VU16 0x1234)]); ("f", VMap [("p", VBool false); ("q", VBool true)])]%string.
Definition own_state (e : N) : state := mkState (mkMem (repeat e 200) 200) [] demo_world.

Example store_keeps_rest_applies :
  correct_allocator (bump_ctx EncUtf8) (fun b => b < 64) /\
  sp_layout own_type = Some (8, 32) /\ lists_fit own_type own_val /\
  (forall e, e < 256 -> wf_mem (s_mem (own_state e))) /\ 8 + 32 <= m_len (s_mem (own_state 0xEE)) /\
  (forall b, within 8 32 b -> owned (fun b => b < 64) (s_hist (own_state 0xEE)) b) /\
  wf_type own_type /\ inline own_type /\
  (forall b, own_bytes own_type own_val 8 b <-> In b [8; 16; 24; 25; 32]) /\
  fst (store (bump_ctx EncUtf8) own_type own_val 8 (own_state 0xEE)) = Ok tt /\
  map (byte (s_mem (snd (store (bump_ctx EncUtf8) own_type own_val 8 (own_state 0xEE))))) (map N.of_nat (seq 8 32)) =
    [7; 0xEE; 0xEE; 0xEE; 0xEE; 0xEE; 0xEE; 0xEE;  1; 0xEE; 0xEE; 0xEE; 0xEE; 0xEE; 0xEE; 0xEE;
     0x34; 0x12; 0xEE; 0xEE; 0xEE; 0xEE; 0xEE; 0xEE;  2; 0xEE; 0xEE; 0xEE; 0xEE; 0xEE; 0xEE; 0xEE].
Proof.
  split; [apply bump_correct|]. split; [reflexivity|]. split.
  { cbn. intros m E. injection E as <-. repeat constructor.
    intros x Ex. injection Ex as <-. intros key p i c E. injection E as <- <-. intros _ Hn.
    destruct i as [|[|i]]; cbn in Hn; [injection Hn as <-; exact I..|destruct i; discriminate]. }
  split.
  { intros e He. split; [reflexivity|]. split; [reflexivity|]. apply Forall_forall. intros x Hx.
    apply repeat_spec in Hx. subst. exact He. }
  split; [cbn; lia|]. split; [intros b [_ Hb]; left; lia|]. split.
  { cbn [wf_type own_type map fst snd]. split; [repeat constructor; cbn; intuition discriminate|].
    cbn [all fold_right map snd wf_type c_type]. split; [exact I|]. split; [|split; [|exact I]].
    - split; [|repeat split]. split; [repeat constructor; cbn; intuition discriminate|].
      repeat constructor; cbn; intuition discriminate.
    - split; [repeat constructor; cbn; intuition discriminate|cbn; lia]. }
  split; [cbn; auto|]. split; [|split; vm_compute; reflexivity].
  intros b. split.
  - intros (m & ls & f & o & Em & El & Hin & Hb). injection Em as <-. cbn in El. injection El as <-.
    cbn in Hin. destruct Hin as [E|[E|[E|[]]]]; injection E as <- <-; cbn in Hb.
    + change (8 + up_to 1 0) with 8 in Hb. unfold within in Hb. cbn. lia.
    + match type of Hb with context [8 + ?x] => change (8 + x) with 16 in Hb end. destruct Hb as (d & key & x & i & Hd & Ev & Hs & Hb). cbn in Hd. injection Hd as <-. injection Ev as <- <-.
      destruct Hb as [Hb|(ls & c & q & El & Hc & Hq & Hb)]; [unfold within in Hb; cbn; lia|].
      cbn in El. injection El as <-. cbn in Hs.
      assert (i = 1%nat) as ->.
      { eapply (L_Labels.selects_fun ["x"; "y"]%string "y"%string); [repeat constructor; cbn; intuition discriminate|exact Hs|].
        exists [], "y"%string, []. repeat split; try constructor; try exact I; try (constructor; cbn; intuition discriminate). }
      injection Hc as <-. injection Hq as <-. cbn in Hb.
      match type of Hb with within ?x _ _ => change x with 24 in Hb end. unfold within in Hb. cbn. lia.
    + match type of Hb with within ?x _ _ => change x with 32 in Hb end. unfold within in Hb. cbn. lia.
  - intros Hb. cbn [own_bytes own_type].
    assert (V : forall b, (within 16 1 b \/ within 24 2 b) ->
      var_own [mkCase "x"%string (Some (Some (8, 8), own_bytes TU64)) None; mkCase "y"%string (Some (Some (2, 2), own_bytes TU16)) None]
        (VMap [("y"%string, VU16 0x1234)]) 16 b).
    { intros b0 H. exists 1, "y"%string, (VU16 0x1234), 1%nat. split; [reflexivity|]. split; [reflexivity|]. split.
      - exists [], "y"%string, []. repeat split; try constructor; try exact I; try (constructor; cbn; intuition discriminate).
      - destruct H as [H|H]; [left; exact H|right]. eexists _, _, _. split; [reflexivity|]. split; [reflexivity|]. split; [reflexivity|exact H]. }
    eexists _, [(1, 1); (8, 16); (1, 1)].
    cbn in Hb. destruct Hb as [<-|[<-|[<-|[<-|[<-|[]]]]]].
    + eexists _, 0. split; [reflexivity|]. split; [reflexivity|]. split; [left; reflexivity|cbn; unfold within; lia].
    + eexists _, 8. split; [reflexivity|]. split; [reflexivity|]. split; [right; left; reflexivity|apply V; left; unfold within; lia].
    + eexists _, 8. split; [reflexivity|]. split; [reflexivity|]. split; [right; left; reflexivity|apply V; right; unfold within; lia].
    + eexists _, 8. split; [reflexivity|]. split; [reflexivity|]. split; [right; left; reflexivity|apply V; right; unfold within; lia].
    + eexists _, 24. split; [reflexivity|]. split; [reflexivity|]. split; [right; right; left; reflexivity|split; vm_compute; [discriminate|reflexivity]].
Qed.

(** The place as a whole is not settled by the value: the same value stored at
    the same place can leave different bytes there, those of whatever was there
    before. *)
Theorem whole_place_settled_refuted : exists cx init t a sz v p s1 s2 s1' s2' b,
  correct_allocator cx init /\ sp_layout t = Some (a, sz) /\ wf_type t /\ inline t /\ has_type (cx_enc cx) t v /\
  wf_mem (s_mem s1) /\ p + sz <= m_len (s_mem s1) /\ wf_mem (s_mem s2) /\ p + sz <= m_len (s_mem s2) /\
  store cx t v p s1 = (Ok tt, s1') /\ store cx t v p s2 = (Ok tt, s2') /\
  within p sz b /\ byte (s_mem s1') b <> byte (s_mem s2') b.
Proof.
  exists (bump_ctx EncUtf8), (fun b => b < 64), (TTuple [TU8; TU16]), 2, 4, (VMap [("0", VU8 1); ("1", VU16 2)]%string), 8.
  exists (own_state 3), (own_state 4).
  exists (snd (store (bump_ctx EncUtf8) (TTuple [TU8; TU16]) (VMap [("0", VU8 1); ("1", VU16 2)]%string) 8 (own_state 3))).
  exists (snd (store (bump_ctx EncUtf8) (TTuple [TU8; TU16]) (VMap [("0", VU8 1); ("1", VU16 2)]%string) 8 (own_state 4))), 9.
  split; [apply bump_correct|]. split; [reflexivity|]. split; [cbn; auto|]. split; [cbn; auto|]. split.
  { cbn. eexists. split; [reflexivity|]. repeat constructor; eexists; split; try reflexivity; eexists; split; try reflexivity; cbn; lia. }
  destruct store_keeps_rest_applies as (_ & _ & _ & W & _).
  split; [apply W; lia|]. split; [cbn; lia|]. split; [apply W; lia|]. split; [cbn; lia|].
  split; [vm_compute; reflexivity|]. split; [vm_compute; reflexivity|]. split; [unfold within; lia|]. vm_compute. discriminate.
Qed.
Print Assumptions whole_place_settled_refuted.
