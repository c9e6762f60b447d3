(** Property theorems about which bytes a value depends on (C73). *)
From Coq Require Import NArith ZArith List String Bool Lia ZifyBool ZifyNat ZifyN.
From Verif Require Import GoBase M_Types M_Layout S_Layout L_Layout M_State M_Utf M_Load M_Flat
  S_Utf S_Values S_Memory S_Access S_Flat S_Format S_FlatFormat S_Inside S_Looks L_Access L_Mem L_Frame L_RoundTrip L_StoreLoad L_Lifted L_Flat L_Format L_FlatFormat
  L_Looks L_FlatLooks P_Memory P_Format P_Inside.
Import ListNotations.
Open Scope N_scope.
Open Scope go_scope.

(** ** C73 *)

(** Loading a value from an aligned place inside memory depends only on the
    bytes the value is made of. If another memory of the same length has these
    bytes, then the load returns the same there, with a value or an error, and
    does the same to handles. *)
Theorem load_depends_on_parts : forall cx t a sz p s1 s2,
  sp_layout t = Some (a, sz) -> wf_type t ->
  wf_mem (s_mem s1) -> wf_mem (s_mem s2) -> s_world s1 = s_world s2 ->
  (a | p) -> p + sz <= m_len (s_mem s1) -> addressable (cx_enc cx) (s_mem s1) t p ->
  same_at (s_mem s1) (s_mem s2) (part_of (cx_enc cx) (s_mem s1) t p) ->
  exists o w, returned o /\
    load cx t p s1 = (o, with_world s1 w) /\ load cx t p s2 = (o, with_world s2 w).
Proof.
  intros cx t a sz p s1 s2 Hl Hwf W1 W2 Ew Hd Hp Had [L B].
  apply (looks_all cx t a sz p s1 s2 Hl Hwf (mkRel _ _ W1 W2 L Ew) Hd Hp Had). exact B.
Qed.
Print Assumptions load_depends_on_parts.

(** The same for a value lifted from core values: only what its texts and lists
    are made of matters, and nothing at all if it has none. Afterwards the next
    core values are those that follow it. *)
Theorem lift_depends_on_parts : forall cx t pre cs post s1 s2,
  flattens t (kinds cs) -> Forall (fun c => core_bits c < 2 ^ core_width (cval_kind c)) cs -> wf_type t ->
  wf_mem (s_mem s1) -> wf_mem (s_mem s2) -> s_world s1 = s_world s2 ->
  flat_addressable (cx_enc cx) (s_mem s1) t cs ->
  same_at (s_mem s1) (s_mem s2) (flat_part_of (cx_enc cx) (s_mem s1) t cs) ->
  let vals := (pre ++ cs ++ post)%list in
  exists o w, returned o /\
    (forall x, o = Ok x -> snd x = IBase vals (List.length pre + List.length cs)) /\
    lift_flat cx t (IBase vals (List.length pre)) s1 = (o, with_world s1 w) /\
    lift_flat cx t (IBase vals (List.length pre)) s2 = (o, with_world s2 w).
Proof.
  intros cx t pre cs post s1 s2 Hk Hok Hwf W1 W2 Ew Had [L B] vals.
  assert (Hok' : Forall cval_ok cs) by (eapply Forall_impl; [|exact Hok]; intros [] X; exact X).
  apply (flat_looks_all cx t cs _ _ s1 s2 (flatten_complete _ _ Hk) Hwf (mkRel _ _ W1 W2 L Ew) Hok' Had (yields_base cs pre post)).
  exact B.
Qed.
Print Assumptions lift_depends_on_parts.

(** The hypotheses can be met. Of these 40 bytes a third are the value: the
    rest, marked 0xEE or 0xDD, is padding, the payloads of the cases that were
    not chosen, and what lies elsewhere. *)
Definition looks_type : valtype :=
  TRecord [("a", TU8); ("v", TVariant [mkCase "x" (Some TU64) None; mkCase "y" (Some TU8) None]);
           ("s", TString)]%string.
Definition looks_bytes (e : N) : list N :=
  [7; e; e; e; e; e; e; e;  1; e; e; e; e; e; e; e;  9; e; e; e; e; e; e; e;
   33; 0; 0; 0;  2; 0; 0; 0;  e; 0x68; 0x69; e; e; e; e; e].
Definition looks_state (e : N) : state := mkState (mkMem (looks_bytes e) 40) [] demo_world.

Ltac where_is H b :=
  match type of H with among ?q ?n b =>
    let v := eval vm_compute in q in let k := eval vm_compute in n in
    change (among v k b) in H; let H1 := fresh in let H2 := fresh in destruct H as [H1 H2]
  end.

Lemma two_cases : forall (a b : string) x y, bar_free a -> bar_free b -> a <> b ->
  wf_cases [mkCase a (Some x : option valtype) None; mkCase b (Some y) None].
Proof.
  intros a b x y Ha Hb Hab. split; [|split].
  - cbn. constructor; [cbn; intuition congruence|]. constructor; [cbn; tauto|constructor].
  - repeat constructor; assumption.
  - apply Forall_cons; [apply re_stop; reflexivity|]. apply Forall_cons; [apply re_stop; reflexivity|apply Forall_nil].
Qed.

Example load_depends_on_parts_applies :
  sp_layout looks_type = Some (8, 32) /\ wf_type looks_type /\
  wf_mem (s_mem (looks_state 0xEE)) /\ wf_mem (s_mem (looks_state 0xDD)) /\
  addressable EncUtf8 (s_mem (looks_state 0xEE)) looks_type 0 /\
  same_at (s_mem (looks_state 0xEE)) (s_mem (looks_state 0xDD)) (part_of EncUtf8 (s_mem (looks_state 0xEE)) looks_type 0) /\
  load (bump_ctx EncUtf8) looks_type 0 (looks_state 0xDD) =
    (Ok (VMap [("a", VU8 7); ("v", VMap [("y", VU8 9)]); ("s", VStr [0x68; 0x69])]%string), looks_state 0xDD).
Proof.
  split; [reflexivity|]. split.
  { cbn [wf_type looks_type map fst snd]. split; [repeat constructor; cbn; intuition discriminate|].
    cbn [all fold_right]. split; [exact I|]. split; [|split; exact I].
    split; [|split; [exact I|split; exact I]]. apply two_cases; cbn; try discriminate; repeat split; discriminate. }
  split; [split; [reflexivity|split; [reflexivity|repeat constructor]]|].
  split; [split; [reflexivity|split; [reflexivity|repeat constructor]]|].
  split.
  { intros ls E. injection E as <-. constructor; [exact I|]. constructor.
    - cbn. intros d ls c Ed El En. vm_compute in Ed, El. injection Ed as <-. injection El as <-. vm_compute in En. injection En as <-. exact I.
    - constructor; [|constructor]. split; [right; reflexivity|]. intros c n E. vm_compute in E. injection E as <- <-. reflexivity. }
  split; [|vm_compute; reflexivity]. split; [reflexivity|].
  intros b Hb (ls & f & o & E & Hin & Hp). vm_compute in E. injection E as <-. cbn in Hin.
  destruct Hin as [X|[X|[X|[]]]]; injection X as <- <-; cbn [snd] in Hp.
  - where_is Hp b. assert (b = 0) as -> by lia. reflexivity.
  - destruct Hp as (d & Ed & Hp). vm_compute in Ed. injection Ed as <-. destruct Hp as [Hp|Hp].
    + where_is Hp b. assert (b = 8) as -> by lia. reflexivity.
    + destruct Hp as (ls & c & q & El & En & Eq & Hp). vm_compute in El. injection El as <-.
      match type of En with nth_error _ ?i = _ => let v := eval vm_compute in i in change i with v in En end.
      cbn [nth_error map map_case option_map] in En. injection En as <-.
      cbn in Eq. injection Eq as <-. cbn [snd] in Hp. where_is Hp b.
      assert (b = 16) as -> by lia. reflexivity.
  - destruct Hp as [Hp|Hp].
    + where_is Hp b. assert (b = 24 \/ b = 25 \/ b = 26 \/ b = 27 \/ b = 28 \/ b = 29 \/ b = 30 \/ b = 31) as X by lia.
      repeat (destruct X as [-> | X]; [reflexivity|]). subst b. reflexivity.
    + destruct Hp as (c & n & Et & Hp). vm_compute in Et. injection Et as <- <-. where_is Hp b.
      assert (b = 33 \/ b = 34) as [-> | ->] by lia; reflexivity.
Qed.

(** Core values: the text and the list matter, where the unused words point
    does not. *)
Definition lift_cores : list cval := [CU32 0; CU32 33; CU32 2].
Definition lift_type : valtype := TVariant [mkCase "s" (Some TString) None; mkCase "n" (Some TU8) None]%string.
Example lift_depends_on_parts_applies :
  flattens lift_type (kinds lift_cores) /\ Forall (fun c => core_bits c < 2 ^ core_width (cval_kind c)) lift_cores /\
  wf_type lift_type /\ flat_addressable EncUtf8 (s_mem (looks_state 0xEE)) lift_type lift_cores /\
  same_at (s_mem (looks_state 0xEE)) (s_mem (looks_state 0xDD)) (flat_part_of EncUtf8 (s_mem (looks_state 0xEE)) lift_type lift_cores) /\
  fst (lift_flat (bump_ctx EncUtf8) lift_type (IBase lift_cores 0) (looks_state 0xDD)) =
    Ok (VMap [("s", VStr [0x68; 0x69])]%string, IBase lift_cores 3).
Proof.
  split; [apply flattens_iff; reflexivity|]. split; [repeat constructor|].
  split; [split; [|split; [exact I|split; exact I]]; apply two_cases; cbn; try discriminate; repeat split; discriminate|].
  assert (P : forall i (rest : list cval) ps, lift_cores = CU32 (N.of_nat i) :: rest ->
    Forall2 (conveys False) (firstn (List.length ps) rest) ps -> i = 0%nat /\ rest = [CU32 33; CU32 2]).
  { intros i rest ps E _. injection E as E <-. split; [lia|reflexivity]. }
  split.
  { cbn [flat_addressable lift_type]. intros i rest c q ps E En Eq Hk HF. destruct (P i rest ps E HF) as [-> ->].
    cbn in En. injection En as <-. cbn in Eq. injection Eq as <-. cbn [snd flat_addressable]. intros st w ->.
    cbn in HF. inversion HF as [|? ? ? ? [X _] HF1]; subst. inversion HF1 as [|? ? ? ? [Y _] _]; subst.
    vm_compute in X, Y. subst st w. split; [right; reflexivity|]. intros c n Et. injection Et as <- <-. reflexivity. }
  split; [|vm_compute; reflexivity]. split; [reflexivity|].
  intros b Hb (i & rest & c & q & ps & E & En & Eq & Hk & HF & Hp). destruct (P i rest ps E HF) as [-> ->].
  cbn in En. injection En as <-. cbn in Eq. injection Eq as <-. cbn [snd flat_part_of] in Hp. destruct Hp as (st & w & -> & c & n & Et & Hp).
  cbn in HF. inversion HF as [|? ? ? ? [X _] HF1]; subst. inversion HF1 as [|? ? ? ? [Y _] _]; subst.
  vm_compute in X, Y. subst st w. injection Et as <- <-. where_is Hp b.
  assert (b = 33 \/ b = 34) as [-> | ->] by lia; reflexivity.
Qed.

(** In particular what lies between the fields of a record without texts and
    lists does not matter: any one byte of memory that is in no field may be
    changed. *)
Theorem padding_ignored : forall cx fs a sz ls p b s1 s2,
  sp_layout (TRecord fs) = Some (a, sz) -> wf_type (TRecord fs) -> inline (TRecord fs) ->
  all_some (map (fun f => sp_layout (snd f)) fs) = Some ls ->
  (forall o l, In (o, l) (combine (field_offsets 0 ls) ls) -> ~ among (p + o) (snd l) b) ->
  wf_mem (s_mem s1) -> wf_mem (s_mem s2) -> s_world s1 = s_world s2 ->
  same_at (s_mem s1) (s_mem s2) (fun i => i <> b) ->
  (a | p) -> p + sz <= m_len (s_mem s1) ->
  exists o w, returned o /\
    load cx (TRecord fs) p s1 = (o, with_world s1 w) /\ load cx (TRecord fs) p s2 = (o, with_world s2 w).
Proof.
  intros cx fs a sz ls p b s1 s2 Hl Hwf Hi El Hno W1 W2 Ew [L B] Hd Hp.
  apply (load_depends_on_parts cx (TRecord fs) a sz); try assumption; [apply inline_addressable, Hi|].
  split; [exact L|]. intros i Hlt Hpart. apply B; [exact Hlt|]. intros ->.
  destruct (inline_record_parts (cx_enc cx) (s_mem s1) fs ls p b) as (o & l & Hin & Ha); try assumption.
  - apply Forall_forall. intros f _ a' sz' p' b'. apply inline_parts.
  - apply (Hno o l Hin Ha).
Qed.
Print Assumptions padding_ignored.

Definition pad_type : list (string * valtype) := [("a", TU8); ("b", TU32)]%string.
Example padding_ignored_applies :
  sp_layout (TRecord pad_type) = Some (4, 8) /\ inline (TRecord pad_type) /\
  all_some (map (fun f => sp_layout (snd f)) pad_type) = Some [(1, 1); (4, 4)] /\
  (forall o l, In (o, l) (combine (field_offsets 0 [(1, 1); (4, 4)]) [(1, 1); (4, 4)]) -> ~ among (8 + o) (snd l) 10) /\
  fst (load (bump_ctx EncUtf8) (TRecord pad_type) 8 (looks_state 0xEE)) =
    fst (load (bump_ctx EncUtf8) (TRecord pad_type) 8
      (mkState (mkMem (firstn 10 (looks_bytes 0xEE) ++ [1] ++ skipn 11 (looks_bytes 0xEE)) 40) [] demo_world)).
Proof.
  split; [reflexivity|]. split; [repeat split|]. split; [reflexivity|]. split; [|vm_compute; reflexivity].
  intros o l Hin H. cbn in Hin. destruct Hin as [E|[E|[]]]; injection E as <- <-; where_is H 10; lia.
Qed.

(** A value without texts and lists is made of the bytes in its own place only:
    it does not depend on the rest of memory. *)
Theorem inline_value_in_place : forall cx t a sz p s1 s2,
  sp_layout t = Some (a, sz) -> wf_type t -> inline t ->
  wf_mem (s_mem s1) -> wf_mem (s_mem s2) -> s_world s1 = s_world s2 ->
  (a | p) -> p + sz <= m_len (s_mem s1) ->
  same_at (s_mem s1) (s_mem s2) (fun b => p <= b < p + sz) ->
  exists o w, returned o /\
    load cx t p s1 = (o, with_world s1 w) /\ load cx t p s2 = (o, with_world s2 w).
Proof.
  intros cx t a sz p s1 s2 Hl Hwf Hi W1 W2 Ew Hd Hp [L B].
  apply (load_depends_on_parts cx t a sz); try assumption; [apply inline_addressable, Hi|].
  split; [exact L|]. intros b Hb Hpart. apply B; [exact Hb|]. apply (inline_parts _ _ _ _ _ _ _ Hl Hi Hpart).
Qed.
Print Assumptions inline_value_in_place.

(** ... and not even on the world, unless it has handles; the hypotheses are
    met by the record above in two memories that share eight bytes. *)
Example inline_value_in_place_applies :
  inline (TRecord pad_type) /\
  same_at (s_mem (looks_state 0xEE)) (mkMem (repeat 5 8 ++ [1; 0xEE; 0xEE; 0xEE; 0xEE; 0xEE; 0xEE; 0xEE] ++ repeat 6 24) 40) (fun b => 8 <= b < 8 + 8) /\
  fst (load (bump_ctx EncUtf8) (TRecord pad_type) 8 (looks_state 0xEE)) = Ok (VMap [("a", VU8 1); ("b", VU32 0xEEEEEEEE)]%string).
Proof.
  split; [repeat split|]. split; [|vm_compute; reflexivity]. split; [reflexivity|]. intros b Hb [H1 H2].
  assert (b = 8 \/ b = 9 \/ b = 10 \/ b = 11 \/ b = 12 \/ b = 13 \/ b = 14 \/ b = 15) as X by lia.
  repeat (destruct X as [-> | X]; [reflexivity|]). subst b. reflexivity.
Qed.

(** Every byte of an unsigned integer matters: change one and another number is
    loaded. *)
Theorem integer_bytes_matter : forall cx t a sz p s1 s2 b,
  (t = TU8 \/ t = TU16 \/ t = TU32 \/ t = TU64) -> sp_layout t = Some (a, sz) ->
  wf_mem (s_mem s1) -> wf_mem (s_mem s2) -> m_len (s_mem s1) = m_len (s_mem s2) -> p + sz <= m_len (s_mem s1) ->
  p <= b < p + sz -> byte (s_mem s1) b <> byte (s_mem s2) b ->
  fst (load cx t p s1) <> fst (load cx t p s2).
Proof.
  intros cx t a sz p s1 s2 b Ht Hl W1 W2 L Hp Hb Hne.
  assert (X : forall n m1 m2 q c, wf_mem m1 -> wf_mem m2 -> q <= c < q + N.of_nat n -> number m1 q n = number m2 q n -> byte m1 c = byte m2 c).
  { clear. induction n as [|n IH]; intros m1 m2 q c W1 W2 Hc E; [lia|]. cbn [number] in E.
    pose proof (byte_lt m1 q W1). pose proof (byte_lt m2 q W2).
    assert (E1 : byte m1 q = byte m2 q /\ number m1 (q + 1) n = number m2 (q + 1) n).
    { split; lia. }
    destruct E1 as [E1 E2]. destruct (N.eq_dec c q) as [->|]; [exact E1|]. apply (IH m1 m2 (q + 1) c W1 W2); [lia|exact E2]. }
  assert (Y : forall k, sz = k -> number (s_mem s1) p (N.to_nat k) <> number (s_mem s2) p (N.to_nat k)).
  { intros k <- E. apply Hne. apply (X (N.to_nat sz) _ _ p b W1 W2); [lia|exact E]. }
  assert (Z : forall k, sz = k -> load_uint k p s1 = (Ok (number (s_mem s1) p (N.to_nat k)), s1) /\ load_uint k p s2 = (Ok (number (s_mem s2) p (N.to_nat k)), s2)).
  { intros k <-. split; apply number_load; try assumption. unfold len. lia. }
  destruct Ht as [-> | [-> | [-> | ->]]]; injection Hl as <- <-;
    specialize (Y _ eq_refl); destruct (Z _ eq_refl) as [Z1 Z2]; cbn [load load_int]; unfold bind; rewrite Z1, Z2; cbn [fst ret];
    intros E; injection E as E; contradiction.
Qed.
Print Assumptions integer_bytes_matter.

Example integer_bytes_matter_applies :
  byte (s_mem (looks_state 0xEE)) 15 <> byte (s_mem (looks_state 0xDD)) 15 /\
  fst (load (bump_ctx EncUtf8) TU64 8 (looks_state 0xEE)) = Ok (VU64 0xEEEEEEEEEEEEEE01) /\
  fst (load (bump_ctx EncUtf8) TU64 8 (looks_state 0xDD)) = Ok (VU64 0xDDDDDDDDDDDDDD01).
Proof. split; [discriminate|]. split; vm_compute; reflexivity. Qed.

(** That is not so for other types: many bytes are one bool, and many patterns
    one NaN. *)
Theorem every_byte_matters_refuted : exists cx p s1 s2 s3 s4,
  wf_mem (s_mem s1) /\ wf_mem (s_mem s2) /\ wf_mem (s_mem s3) /\ wf_mem (s_mem s4) /\
  byte (s_mem s1) p <> byte (s_mem s2) p /\ fst (load cx TBool p s1) = Ok (VBool true) /\ fst (load cx TBool p s2) = Ok (VBool true) /\
  byte (s_mem s3) p <> byte (s_mem s4) p /\ fst (load cx TF32 p s3) = fst (load cx TF32 p s4).
Proof.
  exists (bump_ctx EncUtf8), 0, (mkState (mkMem [1] 1) [] demo_world), (mkState (mkMem [2] 1) [] demo_world),
    (mkState (mkMem [1; 0; 0xC0; 0x7F] 4) [] demo_world), (mkState (mkMem [2; 0; 0xC0; 0x7F] 4) [] demo_world).
  do 4 (split; [split; [reflexivity|split; [reflexivity|repeat constructor]]|]).
  split; [discriminate|]. split; [vm_compute; reflexivity|]. split; [vm_compute; reflexivity|].
  split; [discriminate|]. vm_compute. reflexivity.
Qed.
Print Assumptions every_byte_matters_refuted.
