(** Loading and lifting produce only proper values and leave memory alone. *)
From Coq Require Import NArith ZArith List String Ascii Bool Lia ZifyBool ZifyNat ZifyN.
From Verif Require Import GoBase M_Types M_Layout S_Layout L_Layout M_State M_Utf M_Load M_Store M_Flat
  S_Utf S_Values S_Memory S_Access L_Access L_Variant L_Labels L_Despecialize L_Mem L_Utf L_Flags L_Frame
  L_RoundTrip.
Import ListNotations.
Open Scope N_scope.
Open Scope go_scope.

(** [m] leaves memory and the allocator alone and returns only [P]. *)
Definition gives {A} (m : M A) (P : A -> Prop) : Prop := forall s o s',
  wf_mem (s_mem s) -> m s = (o, s') ->
  s_mem s' = s_mem s /\ s_hist s' = s_hist s /\ forall v, o = Ok v -> P v.

Lemma gives_ret : forall {A} (x : A) (P : A -> Prop), P x -> gives (ret x) P.
Proof. intros A x P H s o s' _ E. inversion E; subst. split; [reflexivity|]. split; [reflexivity|]. intros v Ev. inversion Ev; subst. exact H. Qed.

Lemma gives_lift : forall {A} (x : outcome A) (P : A -> Prop), (forall v, x = Ok v -> P v) -> gives (lift_o x) P.
Proof. intros A x P H s o s' _ E. inversion E; subst. auto. Qed.

Lemma gives_bind : forall {A B} (m : M A) (f : A -> M B) P Q,
  gives m P -> (forall x, P x -> gives (f x) Q) -> gives (bind m f) Q.
Proof.
  intros A B m f P Q Hm Hf s o s' Hs E. unfold bind in E.
  destruct (m s) as [[x|e| | ] s1] eqn:E1;
    destruct (Hm _ _ _ Hs E1) as (M1 & H1 & P1).
  - destruct (Hf x (P1 x eq_refl) s1 o s') as (M2 & H2 & P2); [rewrite M1; assumption|assumption|].
    rewrite M2, H2. auto.
  - inversion E; subst. repeat split; try assumption; discriminate.
  - inversion E; subst. repeat split; try assumption; discriminate.
  - inversion E; subst. repeat split; try assumption; discriminate.
Qed.

Lemma gives_mono : forall {A} (m : M A) (P Q : A -> Prop), gives m P -> (forall x, P x -> Q x) -> gives m Q.
Proof. intros A m P Q H I s o s' Hs E. destruct (H _ _ _ Hs E) as (? & ? & ?). auto. Qed.

Lemma gives_get_mem : gives get_mem wf_mem.
Proof.
  intros s o s' Hs E. inversion E; subst. split; [reflexivity|]. split; [reflexivity|].
  intros v Ev. inversion Ev; subst. assumption.
Qed.

Lemma gives_get_world : gives get_world (fun _ => True).
Proof. intros s o s' Hs E. inversion E; subst. auto. Qed.

Lemma gives_put_world : forall w, gives (put_world w) (fun _ => True).
Proof. intros w s o s' Hs E. inversion E; subst. auto. Qed.

Lemma gives_any : forall {A} (x : outcome A), gives (lift_o x) (fun _ => True).
Proof. intros. apply gives_lift. auto. Qed.

(** ** Numbers *)
Lemma mem_slice_bytes : forall m lo hi bs, wf_mem m -> mem_slice m lo hi = Ok bs ->
  lo <= hi /\ bs = slice m lo (hi - lo) /\ Forall (fun b => b < 256) bs /\ List.length bs = N.to_nat (hi - lo).
Proof.
  intros m lo hi bs Hm H. unfold mem_slice in H.
  destruct (N.leb_spec lo hi), (N.leb_spec hi (mem_cap m)); cbn [andb] in H; try discriminate.
  inversion H; subst. split; [assumption|]. split; [reflexivity|]. split.
  - change (Forall (fun b => b < 256) (slice m lo (hi - lo))). apply slice_bytes. assumption.
  - rewrite firstn_length, skipn_length. unfold mem_cap in *. lia.
Qed.

Lemma gives_uint : forall n p, n < two32 -> gives (load_uint n p) (fun x => x < 256 ^ n).
Proof.
  intros n p Hn. eapply gives_bind; [apply gives_get_mem|]. intros m Hm.
  eapply (gives_bind _ _ (fun bs => Forall (fun b => b < 256) bs /\ N.of_nat (List.length bs) <= n)).
  - apply gives_lift. intros bs E. destruct (mem_slice_bytes _ _ _ _ Hm E) as (Hle & _ & Hb & Hl).
    split; [assumption|]. rewrite Hl. unfold add32 in *. unfold two32 in *. lia.
  - intros bs [Hb Hl]. apply gives_ret. pose proof (le_decode_lt bs Hb) as H.
    eapply N.lt_le_trans; [exact H|]. apply N.pow_le_mono_r; lia.
Qed.

Lemma to_signed_range : forall m n, 0 < m -> N.even m = true ->
  (- Z.of_N (m / 2) <= to_signed m n < Z.of_N (m / 2))%Z.
Proof.
  intros m n Hm He. apply N.even_spec in He. destruct He as [h ->].
  replace (2 * h / 2) with h by (rewrite N.mul_comm, N.div_mul; lia).
  unfold to_signed. pose proof (N.mod_lt n (2 * h)).
  destruct (N.ltb_spec (2 * (n mod (2 * h))) (2 * h)); lia.
Qed.

Lemma gives_int : forall t p, gives (load_int t p) (lifted t).
Proof.
  intros t p. destruct t; try (apply gives_lift; discriminate);
    (eapply gives_bind; [apply gives_uint; reflexivity|]); intros n Hn; apply gives_ret; eexists; (split; [reflexivity|]);
    try exact Hn; unfold signed_range.
  - apply (to_signed_range two8 n); reflexivity.
  - apply (to_signed_range two16 n); reflexivity.
  - apply (to_signed_range two32 n); reflexivity.
  - apply (to_signed_range two64 n); reflexivity.
Qed.

Lemma gives_u32 : forall p, gives (load_u32 p) (fun n => n < 2 ^ 32).
Proof.
  intros p. eapply gives_bind; [apply (gives_int TU32)|]. intros v (n & -> & Hn). apply gives_ret. assumption.
Qed.
Lemma gives_u64 : forall p, gives (load_u64 p) (fun n => n < 2 ^ 64).
Proof.
  intros p. eapply gives_bind; [apply (gives_int TU64)|]. intros v (n & -> & Hn). apply gives_ret. assumption.
Qed.

Lemma canonical32 : forall b, b < 2 ^ 32 ->
  canonicalize32 b < 2 ^ 32 /\ (nan32 (canonicalize32 b) -> canonicalize32 b = 0x7fc00000).
Proof.
  intros b H. destruct (canonical32_same b H) as [_ Hlt]. split; [exact Hlt|].
  unfold canonicalize32 in *. destruct (is_nan32 b) eqn:E; [reflexivity|].
  intros [H1 H2]. exfalso. unfold is_nan32 in E. change (2 ^ 23) with 8388608 in *. change (2 ^ 8 - 1) with 255 in H1. change (2 ^ 8) with 256 in H1.
  rewrite H1 in E. destruct (N.eqb_spec (b mod 8388608) 0); [contradiction|discriminate].
Qed.
Lemma canonical64 : forall b, b < 2 ^ 64 ->
  canonicalize64 b < 2 ^ 64 /\ (nan64 (canonicalize64 b) -> canonicalize64 b = 0x7ff8000000000000).
Proof.
  intros b H. destruct (canonical64_same b H) as [_ Hlt]. split; [exact Hlt|].
  unfold canonicalize64 in *. destruct (is_nan64 b) eqn:E; [reflexivity|].
  intros [H1 H2]. exfalso. unfold is_nan64 in E. change (2 ^ 52) with 4503599627370496 in *. change (2 ^ 11 - 1) with 2047 in H1. change (2 ^ 11) with 2048 in H1.
  rewrite H1 in E. destruct (N.eqb_spec (b mod 4503599627370496) 0); [contradiction|discriminate].
Qed.

Lemma rune_scalar : forall n r, u32_to_rune n = Ok r -> scalar_value n /\ r = Z.of_N n.
Proof.
  intros n r H. unfold u32_to_rune in H.
  destruct (N.leb_spec 1114112 n); [discriminate|].
  destruct (N.leb_spec 55296 n), (N.leb_spec n 57343); cbn [andb] in H; try discriminate;
    (split; [unfold scalar_value; lia|]); inversion H; unfold to_signed, two32; rewrite N.mod_small by lia;
    (destruct (N.ltb_spec (2 * n) 4294967296); [reflexivity|lia]).
Qed.

(** ** Text *)
Lemma scalarb_value : forall r, scalarb r = true -> scalar_value r.
Proof. intros r H. unfold scalarb, scalar_value in *. lia. Qed.

Lemma units_runes_scalar : forall n us, (List.length us <= n)%nat -> Forall (fun u => u < 65536) us ->
  Forall scalar_value (units_runes us).
Proof.
  assert (R : scalar_value rune_error) by (unfold scalar_value, rune_error; lia).
  induction n as [|n IH]; intros us Hl H; [destruct us; [constructor|cbn in Hl; lia]|].
  destruct us as [|u us]; [constructor|]. inversion H; subst. cbn [units_runes]. cbn in Hl.
  unfold is_surrogate, in_range at 1.
  destruct (N.leb_spec 55296 u), (N.leb_spec u 57343); cbn [andb].
  2,3,4: (constructor; [unfold scalar_value; lia|apply IH; [lia|assumption]]).
  destruct us as [|v us]; [apply Forall_cons; [exact R|apply Forall_nil]|].
  inversion H3; subst. unfold in_range.
  destruct (N.leb_spec 56320 v), (N.leb_spec v 57343); cbn [andb].
  2,3,4: (constructor; [exact R|apply IH; [cbn in *; lia|constructor; assumption]]).
  constructor; [|apply IH; [cbn in *; lia|assumption]].
  destruct (N.leb_spec 55296 u), (N.leb_spec u 56319); cbn [andb]; try exact R.
  unfold scalar_value. lia.
Qed.

Lemma bytes_units_lt : forall n big bs, (List.length bs <= n)%nat -> Forall (fun b => b < 256) bs ->
  Forall (fun u => u < 65536) (fst (bytes_units big bs)).
Proof.
  induction n as [|n IH]; intros big bs Hl H; [destruct bs; [constructor|cbn in Hl; lia]|].
  destruct bs as [|a [|b bs]]; [constructor|constructor|]. inversion H; subst. inversion H3; subst.
  cbn [bytes_units]. specialize (IH big bs). cbn in Hl. destruct (bytes_units big bs) as [us odd].
  cbn [fst] in *. constructor; [destruct big; lia|]. apply IH; [lia|assumption].
Qed.

Lemma decode_text : forall c bs s, Forall (fun b => b < 256) bs -> decode_string c bs = Ok s ->
  exists cs, s = utf8_text cs /\ Forall scalar_value cs.
Proof.
  intros c bs s Hb H.
  assert (X : forall rs, Forall scalar_value rs -> s = utf8_encode rs -> exists cs, s = utf8_text cs /\ Forall scalar_value cs).
  { intros rs Hr ->. exists rs. split; [apply utf8_encode_spec; assumption|assumption]. }
  destruct c; cbn in H; inversion H; subst.
  - apply X with (utf8_runes bs); [|reflexivity].
    eapply Forall_impl; [|apply utf8_runes_scalar]. apply scalarb_value.
  - apply X with (utf16_decode big bs); [|reflexivity]. unfold utf16_decode.
    pose proof (bytes_units_lt _ big bs (le_n _) Hb) as Hu.
    destruct (bytes_units big bs) as [us odd]. cbn [fst] in Hu. apply Forall_app. split.
    + eapply units_runes_scalar; [apply le_n|assumption].
    + destruct odd; [apply Forall_cons; [unfold scalar_value, rune_error; lia|apply Forall_nil]|apply Forall_nil].
  - apply X with bs; [|reflexivity]. eapply Forall_impl; [|exact Hb]. intros r Hr. cbn beta in Hr. left. lia.
Qed.

Lemma gives_check_aligned : forall e p a, gives (check_aligned e p a) (fun _ => True).
Proof.
  intros e p a. eapply gives_bind; [apply gives_any|]. intros x _. destruct (p =? x); [apply gives_ret; exact I|apply gives_any].
Qed.
Lemma gives_check_bounds : forall e p a, gives (check_bounds e p a) (fun _ => True).
Proof.
  intros e p a. eapply gives_bind; [apply gives_get_mem|]. intros m _.
  destruct (mem_len32 m <? add32 p a); [apply gives_any|apply gives_ret; exact I].
Qed.

Lemma gives_text : forall cx p n, gives (load_string_from_range cx p n) (lifted TString).
Proof.
  intros cx p n. unfold load_string_from_range. eapply gives_bind; [apply gives_any|]. intros c _.
  eapply gives_bind; [apply gives_check_aligned|]. intros _ _.
  eapply gives_bind; [apply gives_check_bounds|]. intros _ _.
  eapply gives_bind; [apply gives_get_mem|]. intros m Hm.
  eapply (gives_bind _ _ (Forall (fun b => b < 256))).
  { apply gives_lift. intros bs E. apply (mem_slice_bytes _ _ _ _ Hm E). }
  intros bs Hb. eapply (gives_bind _ _ (fun s => exists cs, s = utf8_text cs /\ Forall scalar_value cs)).
  { apply gives_lift. intros s E. eapply decode_text; eassumption. }
  intros s (cs & -> & Hcs). apply gives_ret. exists cs. auto.
Qed.

(** ** Lists *)
Lemma gives_elems : forall n ld p sz i P, (forall q, gives (ld q) P) -> gives (load_elems n ld p sz i) (Forall P).
Proof.
  induction n as [|n IH]; intros ld p sz i P H; cbn [load_elems]; [apply gives_ret; constructor|].
  eapply gives_bind; [apply H|]. intros v Hv. eapply gives_bind; [apply IH; exact H|]. intros vs Hvs.
  apply gives_ret. constructor; assumption.
Qed.

Lemma gives_list : forall al sz ld p n P, (forall q, gives (ld q) P) ->
  gives (load_list_from_range al sz ld p n) (fun v => exists l, v = VList l /\ Forall P l).
Proof.
  intros al sz ld p n P H. unfold load_list_from_range. eapply gives_bind; [apply gives_any|]. intros a _.
  eapply gives_bind; [apply gives_check_aligned|]. intros _ _.
  eapply gives_bind; [apply gives_any|]. intros s _.
  eapply gives_bind; [apply gives_check_bounds|]. intros _ _.
  eapply gives_bind; [apply gives_elems; exact H|]. intros vs Hvs. apply gives_ret. eauto.
Qed.

(** ** Maps built field by field *)
Definition built (acc : list (string * any)) (fs : list (string * (any -> Prop))) (m : list (string * any)) : Prop :=
  Forall (fun f => exists x, map_get m (fst f) = Some x /\ snd f x) fs /\
  forall l, ~ In l (map fst fs) -> map_get m l = map_get acc l.

Lemma built_nil : forall acc, built acc [] acc.
Proof. intros. split; [constructor|reflexivity]. Qed.

Lemma built_cons : forall acc l (P : any -> Prop) v fs m, ~ In l (map fst fs) -> P v ->
  built (map_set acc l v) fs m -> built acc ((l, P) :: fs) m.
Proof.
  intros acc l P v fs m Hl Hv [H1 H2]. split.
  - constructor; [|assumption]. cbn [fst snd]. exists v. split; [|assumption].
    rewrite H2 by assumption. rewrite map_get_set, String.eqb_refl. reflexivity.
  - intros k Hk. cbn [map fst In] in Hk. rewrite H2 by tauto. rewrite map_get_set.
    destruct (String.eqb_spec k l); [subst; tauto|reflexivity].
Qed.

Lemma built_exactly : forall fs m, built [] fs m -> rec_exactly fs (VMap m).
Proof.
  intros fs m [H1 H2]. exists m. split; [reflexivity|]. split; [assumption|].
  intros l Hl. destruct (in_dec string_dec l (map fst fs)); [assumption|]. rewrite H2 in Hl by assumption. cbn in Hl. congruence.
Qed.

Lemma gives_fields : forall (fs : list (string * comp (N -> M any))) (Ps : list (string * (any -> Prop))) p acc,
  Forall2 (fun f P => fst f = fst P /\ forall q, gives (q_op (snd f) q) (snd P)) fs Ps ->
  NoDup (map fst Ps) -> gives (load_fields fs p acc) (built acc Ps).
Proof.
  intros fs Ps p acc H. revert p acc. induction H as [|[l q] [l' P] fs Ps [E Hq] H IH]; intros p acc Hn; cbn [load_fields].
  - apply gives_ret. apply built_nil.
  - cbn in E; subst l'. cbn [map fst] in Hn. inversion Hn; subst.
    eapply gives_bind; [apply gives_any|]. intros a _. eapply gives_bind; [apply gives_any|]. intros p' _.
    eapply gives_bind; [apply Hq|]. intros v Hv. eapply gives_bind; [apply gives_any|]. intros s _.
    eapply gives_mono; [apply IH; assumption|]. intros m Hm. eapply built_cons; eassumption.
Qed.

(** ** Variants *)
Lemma map_case_label : forall {A B} (f : A -> B) cs, map c_label (map (map_case f) cs) = map c_label cs.
Proof. intros. rewrite map_map. reflexivity. Qed.

Lemma wf_cases_map : forall {A B} (f : A -> B) (cs : list (caseOf A)), Forall (fun c => bar_free (c_label c)) cs ->
  Forall (fun c => bar_free (c_label c)) (map (map_case f) cs).
Proof. intros A B f cs H. apply Forall_map. exact H. Qed.

Lemma var_has_case : forall {A} (f : A -> any -> Prop) (cs : list (caseOf A)) i c label v,
  nth_error cs i = Some c -> selects (map c_label cs) label i ->
  match c_type c with Some x => f x v | None => v = VNil end ->
  var_has (map (map_case f) cs) (VMap [(label, v)]).
Proof.
  intros A f cs i c label v Hi Hs Hv. exists label, v, i, (map_case f c).
  split; [reflexivity|]. rewrite map_case_label. split; [assumption|].
  split; [rewrite nth_error_map, Hi; reflexivity|]. cbn. destruct (c_type c); assumption.
Qed.

Lemma gives_variant : forall {A} (mk : A -> comp (N -> M any)) (f : A -> any -> Prop) (cs : list (caseOf A)) p,
  Forall (fun c => bar_free (c_label c)) cs ->
  Forall (fun c => opt_all (fun x => forall q, gives (q_op (mk x) q) (f x)) (c_type c)) cs ->
  gives (load_variant (map (map_case mk) cs) p) (var_has (map (map_case f) cs)).
Proof.
  intros A mk f cs p Hb H. unfold load_variant.
  eapply gives_bind; [apply gives_any|]. intros dt _.
  eapply gives_bind; [apply gives_int|]. intros iv _.
  eapply gives_bind; [apply gives_any|]. intros i _.
  match goal with |- gives (if ?b then _ else _) _ => destruct b end; [apply gives_lift; discriminate|].
  rewrite nth_error_map. destruct (nth_error cs (N.to_nat i)) as [c|] eqn:Ei; [|apply gives_lift; discriminate].
  cbn [option_map]. cbn zeta.
  eapply gives_bind; [apply gives_any|]. intros a _.
  eapply gives_bind; [apply gives_any|]. intros p' _.
  eapply (gives_bind _ _ (fun label => selects (map c_label cs) label (N.to_nat i))).
  { apply gives_lift. intros l E. rewrite <- (map_case_label mk). eapply case_label_selects; [| |exact E].
    - apply wf_cases_map. assumption.
    - rewrite nth_error_map, Ei. reflexivity. }
  intros label Hl.
  eapply (gives_bind _ _ (fun v => match c_type c with Some x => f x v | None => v = VNil end)).
  - cbn [map_case c_type]. rewrite Forall_forall in H. specialize (H c (nth_error_In _ _ Ei)).
    destruct (c_type c); [apply H|apply gives_ret; reflexivity].
  - intros v Hv. apply gives_ret. eapply var_has_case; eassumption.
Qed.

(** ** Flags *)
Lemma unpack_built : forall ls i acc, NoDup ls ->
  built acc (map (fun l => (l, fun x => exists b, x = VBool b)) ls) (unpack_flags i ls acc).
Proof.
  induction ls as [|l ls IH]; intros i acc Hn; cbn [map unpack_flags]; [apply built_nil|].
  inversion Hn; subst. eapply built_cons; [|eauto|apply IH; assumption].
  rewrite map_map. cbn [fst]. rewrite map_id. assumption.
Qed.

(** ** Handles *)
Lemma gives_handle_get : forall inst rt i, gives (handle_get inst rt i) (fun _ => True).
Proof.
  intros. eapply gives_bind; [apply gives_get_world|]. intros w _.
  eapply gives_bind; [apply gives_put_world|]. intros _ _. apply gives_any.
Qed.
Lemma gives_handle_remove : forall inst rt i, gives (handle_remove inst rt i) (fun _ => True).
Proof.
  intros. eapply gives_bind; [apply gives_handle_get|]. intros id _.
  eapply gives_bind; [apply gives_get_world|]. intros w _.
  cbn zeta. destruct (h_lend (elem_at w id) =? 0)%Z; [|apply gives_any].
  eapply gives_bind; [apply gives_put_world|]. intros _ _. apply gives_ret. exact I.
Qed.
Lemma gives_lift_own : forall cx i rt, gives (lift_own cx i rt) (fun _ => True).
Proof.
  intros. eapply gives_bind; [apply gives_handle_remove|]. intros id _.
  eapply gives_bind; [apply gives_get_world|]. intros w _. apply gives_ret. exact I.
Qed.
Lemma gives_lift_borrow : forall cx i rt, gives (lift_borrow cx i rt) (fun _ => True).
Proof.
  intros. eapply gives_bind; [apply gives_handle_get|]. intros id _.
  eapply (gives_bind _ _ (fun _ => True)).
  { eapply gives_bind; [apply gives_get_world|]. intros w _. cbn zeta.
    destruct (nth_error _ _); apply gives_put_world. }
  intros _ _. eapply gives_bind; [apply gives_get_world|]. intros w _. apply gives_ret. exact I.
Qed.

Lemma lifted_despecialize : forall t v, lifted (despecialize t) v <-> lifted t v.
Proof.
  destruct t; intros v; try reflexivity; cbn [despecialize lifted].
  - rewrite (map_itoa_fields lifted). reflexivity.
  - rewrite map_enum_cases. reflexivity.
  - rewrite map_itoa_cases. reflexivity.
Qed.

Lemma Forall2_maps : forall {A B C} (f : A -> B) (g : A -> C) (R : B -> C -> Prop) l,
  Forall (fun x => R (f x) (g x)) l -> Forall2 R (map f l) (map g l).
Proof. intros A B C f g R l H. induction H; cbn; constructor; auto. Qed.

Lemma load_gives : forall cx t, wf_type t -> forall p, gives (load cx t p) (lifted t).
Proof.
  intros cx t. induction t using valtype_ind'; intros Hwf p; cbn [load];
    try apply gives_int.
  - eapply gives_bind; [apply (gives_int TU8)|]. intros v (n & -> & _). apply gives_ret. cbn. eauto.
  - eapply gives_bind; [apply gives_u32|]. intros n Hn. apply gives_ret. destruct (canonical32 n Hn). cbn [lifted]. eauto.
  - eapply gives_bind; [apply gives_u64|]. intros n Hn. apply gives_ret. destruct (canonical64 n Hn). cbn [lifted]. eauto.
  - eapply gives_bind; [apply (gives_int TU32)|]. intros v (n & -> & Hn).
    eapply (gives_bind _ _ (fun r => scalar_value n /\ r = Z.of_N n)); [apply gives_lift; intros r; apply rune_scalar|].
    intros r [Hs ->]. apply gives_ret. exists n. auto.
  - eapply gives_bind; [apply gives_u32|]. intros b _. eapply gives_bind; [apply gives_u32|]. intros n _. apply gives_text.
  - eapply gives_bind; [apply gives_u32|]. intros b _. eapply gives_bind; [apply gives_u32|]. intros n _.
    apply gives_list. apply IHt. apply Hwf.
  - destruct Hwf as [Hn Hw]. apply all_Forall in Hw. cbn [lifted].
    eapply gives_bind; [|intros m Hm; apply gives_ret; apply built_exactly; exact Hm].
    apply gives_fields; [|rewrite map_map; exact Hn].
    apply Forall2_maps. rewrite Forall_forall in *. intros f Hf. cbn [fst snd q_op]. split; [reflexivity|].
    apply H; [assumption|]. apply Hw. assumption.
  - destruct Hwf as [(Hn & Hb & Hr) Hw]. apply all_Forall in Hw. cbn [lifted]. apply gives_variant; [assumption|].
    rewrite Forall_forall in *. intros c Hc. specialize (H c Hc). specialize (Hw c Hc). cbn beta in Hw.
    destruct (c_type c); cbn in *; auto.
  - unfold load_flags. eapply gives_bind; [apply gives_any|]. intros sz _.
    eapply (gives_bind _ _ (fun _ => True)).
    { unfold load_int_with_size. destruct (sz =? 0); [apply gives_ret; exact I|].
      repeat (match goal with |- gives (if ?b then _ else _) _ => destruct b end);
        first [eapply gives_mono; [apply gives_int|auto] | apply gives_any]. }
    intros v _. apply gives_ret. apply built_exactly. apply unpack_built. apply Hwf.
  - eapply gives_bind; [apply gives_u32|]. intros i _. eapply gives_bind; [apply gives_lift_own|]. intros r0 _. apply gives_ret. cbn. eauto.
  - eapply gives_bind; [apply gives_u32|]. intros i _. eapply gives_bind; [apply gives_lift_borrow|]. intros r0 _. apply gives_ret. cbn. eauto.
  - apply gives_lift. discriminate.
  - rewrite <- load_despecialize. eapply gives_mono; [apply IHt; apply wf_despecialize; assumption|].
    intros v. apply lifted_despecialize.
Qed.

(** ** Lifting *)

(** Core values are numbers of their width. *)
Definition cval_ok (c : cval) : Prop :=
  match c with CU32 n | CF32 n => n < 2 ^ 32 | CU64 n | CF64 n => n < 2 ^ 64 end.
Fixpoint iter_ok (it : iter) : Prop :=
  match it with IBase vals _ => Forall cval_ok vals | ICoerce inner _ => iter_ok inner end.
Definition any_ok (v : any) : Prop :=
  match v with VU32 n | VF32 n => n < 2 ^ 32 | VU64 n | VF64 n => n < 2 ^ 64 | _ => True end.

Lemma u32_lt' : forall n, u32 n < 2 ^ 32.
Proof. intros. unfold u32. change (2 ^ 32) with two32. apply N.mod_lt. discriminate. Qed.

Lemma iter_next_ok : forall it k x it', iter_ok it -> iter_next it k = Ok (x, it') -> any_ok x /\ iter_ok it'.
Proof.
  induction it as [vals i|inner IH flat]; intros k x it' Hok E; cbn [iter_next] in E.
  - destruct vals as [|v0 vals]; [discriminate|]. destruct (nth_error (v0 :: vals) i) as [v|] eqn:Ei; [|discriminate].
    destruct (kind_eqb (cval_kind v) k); [|discriminate]. inversion E; subst. split; [|assumption].
    cbn in Hok. rewrite Forall_forall in Hok. specialize (Hok v (nth_error_In _ _ Ei)). destruct v; exact Hok.
  - destruct flat as [|have flat]; [discriminate|].
    destruct (iter_next inner have) as [[y inner']| | | ] eqn:En; try discriminate. cbn [obind] in E.
    destruct (IH _ _ _ Hok En) as [Hy Hi].
    destruct (coerce_out have k y) as [z| | | ] eqn:Ec; try discriminate. cbn [obind] in E. inversion E; subst.
    split; [|assumption].
    destruct have, k; cbn in Ec; try (inversion Ec; subst; exact Hy); destruct y; try discriminate; inversion Ec; subst;
      cbn; first [exact Hy | apply u32_lt'].
Qed.

(** The lifter [m] leaves memory alone and returns only [P]. *)
Definition lifts {A} (m : LM A) (P : A -> Prop) : Prop :=
  forall it, iter_ok it -> gives (m it) (fun r => P (fst r) /\ iter_ok (snd r)).

Lemma gives_next : forall it k, iter_ok it ->
  gives (lift_o (iter_next it k)) (fun r => any_ok (fst r) /\ iter_ok (snd r)).
Proof. intros it k H. apply gives_lift. intros [x it'] E. eapply iter_next_ok; eassumption. Qed.

Lemma lifts_u32 : lifts next_u32 (fun n => n < 2 ^ 32).
Proof.
  intros it H. eapply gives_bind; [apply gives_next; exact H|]. intros [x it'] [Hx Hi]. cbn [fst snd] in *.
  destruct x; try (apply gives_lift; discriminate). apply gives_ret. auto.
Qed.
Lemma lifts_u64 : lifts next_u64 (fun n => n < 2 ^ 64).
Proof.
  intros it H. eapply gives_bind; [apply gives_next; exact H|]. intros [x it'] [Hx Hi]. cbn [fst snd] in *.
  destruct x; try (apply gives_lift; discriminate). apply gives_ret. auto.
Qed.
Lemma lifts_f32 : lifts next_f32 (fun n => n < 2 ^ 32).
Proof.
  intros it H. eapply gives_bind; [apply gives_next; exact H|]. intros [x it'] [Hx Hi]. cbn [fst snd] in *.
  destruct x; try (apply gives_lift; discriminate). apply gives_ret. auto.
Qed.
Lemma lifts_f64 : lifts next_f64 (fun n => n < 2 ^ 64).
Proof.
  intros it H. eapply gives_bind; [apply gives_next; exact H|]. intros [x it'] [Hx Hi]. cbn [fst snd] in *.
  destruct x; try (apply gives_lift; discriminate). apply gives_ret. auto.
Qed.

Lemma lifts_map : forall {A} (f : N -> A) m P (Q : A -> Prop), lifts m P -> (forall n, P n -> Q (f n)) -> lifts (lmap f m) Q.
Proof.
  intros A f m P Q H HQ it Hi. eapply gives_bind; [apply H; exact Hi|]. intros [n it'] [Hn Hi']. cbn [fst snd] in *.
  apply gives_ret. cbn. auto.
Qed.

Lemma lifts_fields : forall (fs : list (string * LM any)) (Ps : list (string * (any -> Prop))) acc,
  Forall2 (fun f P => fst f = fst P /\ lifts (snd f) (snd P)) fs Ps ->
  NoDup (map fst Ps) -> lifts (lift_fields fs acc) (built acc Ps).
Proof.
  intros fs Ps acc H. revert acc. induction H as [|[l f] [l' P] fs Ps [E Hq] H IH]; intros acc Hn it Hi; cbn [lift_fields].
  - apply gives_ret. split; [apply built_nil|exact Hi].
  - cbn in E; subst l'. cbn [map fst] in Hn. inversion Hn; subst.
    eapply gives_bind; [apply Hq; exact Hi|]. intros [v it'] [Hv Hi']. cbn [fst snd] in *.
    eapply gives_mono; [apply IH; assumption|]. intros [m it''] [Hm Hi'']. cbn [fst snd] in *.
    split; [eapply built_cons; eassumption|assumption].
Qed.

Lemma skip_flat_ok : forall ks it it', iter_ok it -> skip_flat ks it = Ok it' -> iter_ok it'.
Proof.
  induction ks as [|k ks IH]; intros it it' Hi E; cbn [skip_flat] in E; [inversion E; subst; assumption|].
  destruct (iter_next it k) as [[x i2]| | | ] eqn:En; try discriminate. cbn [obind] in E.
  eapply IH; [|exact E]. eapply iter_next_ok; eassumption.
Qed.

Lemma lifts_variant : forall {A} flat (mk : A -> LM any) (f : A -> any -> Prop) (cs : list (caseOf A)),
  Forall (fun c => bar_free (c_label c)) cs ->
  Forall (fun c => opt_all (fun x => lifts (mk x) (f x)) (c_type c)) cs ->
  lifts (lift_flat_variant flat (map (map_case mk) cs)) (var_has (map (map_case f) cs)).
Proof.
  intros A flat mk f cs Hb H it Hi. unfold lift_flat_variant.
  eapply gives_bind; [apply gives_any|]. intros [|first rest] _; [apply gives_lift; discriminate|].
  destruct (negb (kind_eqb first KU32)); [apply gives_lift; discriminate|].
  eapply gives_bind; [apply lifts_u32; exact Hi|]. intros [i it1] [_ Hi1]. cbn [snd] in Hi1.
  match goal with |- gives (if ?b then _ else _) _ => destruct b end; [apply gives_lift; discriminate|].
  rewrite nth_error_map. destruct (nth_error cs (N.to_nat i)) as [c|] eqn:Ei; [|apply gives_lift; discriminate].
  cbn [option_map]. rewrite Forall_forall in H. specialize (H c (nth_error_In _ _ Ei)).
  assert (L : gives (lift_o (case_label (map_case mk c) (map (map_case mk) cs))) (fun label => selects (map c_label cs) label (N.to_nat i))).
  { apply gives_lift. intros l E. rewrite <- (map_case_label mk). eapply case_label_selects; [| |exact E].
    - apply wf_cases_map. assumption.
    - rewrite nth_error_map, Ei. reflexivity. }
  cbn [c_type map_case] in *. destruct (c_type c) as [x|] eqn:Et; cbn [opt_all] in H.
  - eapply gives_bind; [apply H; exact Hi1|]. intros [v cit] [Hv Hc]. cbn [fst snd] in *.
    destruct cit as [|it2 rest2]; [apply gives_lift; discriminate|].
    eapply (gives_bind _ _ iter_ok); [apply gives_lift; intros it3; apply skip_flat_ok; exact Hc|]. intros it3 Hi3.
    eapply gives_bind; [exact L|]. intros label Hl. apply gives_ret. split; [|assumption]. cbn [fst].
    eapply var_has_case; [eassumption|eassumption|]. rewrite Et. assumption.
  - eapply (gives_bind _ _ iter_ok); [apply gives_lift; intros it3; apply skip_flat_ok; exact Hi1|]. intros it3 Hi3.
    eapply gives_bind; [exact L|]. intros label Hl. apply gives_ret. split; [|assumption]. cbn [fst].
    eapply var_has_case; [eassumption|eassumption|]. rewrite Et. reflexivity.
Qed.

Lemma lifts_flag_words : forall n shift acc, lifts (lift_flag_words n shift acc) (fun _ => True).
Proof.
  induction n as [|n IH]; intros shift acc it Hi; cbn [lift_flag_words]; [apply gives_ret; auto|].
  eapply gives_bind; [apply lifts_u32; exact Hi|]. intros [w it1] [_ Hi1]. apply IH. exact Hi1.
Qed.

Lemma lifts_handle : forall f, (forall i, gives (f i) (fun _ => True)) -> lifts (lift_flat_handle f) (fun v => exists n, v = VU32 n).
Proof.
  intros f Hf it Hi. eapply gives_bind; [apply gives_next; exact Hi|]. intros [x it1] [_ Hi1]. cbn [snd] in Hi1.
  destruct x; try (apply gives_lift; discriminate). eapply gives_bind; [apply Hf|]. intros r _. apply gives_ret. cbn. eauto.
Qed.

Lemma lift_gives : forall cx t, wf_type t -> lifts (lift_flat cx t) (lifted t).
Proof.
  intros cx t. induction t using valtype_ind'; intros Hwf; cbn [lift_flat].
  - eapply lifts_map; [apply lifts_u32|]. cbn. eauto.
  - eapply lifts_map; [apply lifts_u32|]. intros n _. exists (u8 n). split; [reflexivity|]. apply N.mod_lt. discriminate.
  - eapply lifts_map; [apply lifts_u32|]. intros n _. exists (u16 n). split; [reflexivity|]. apply N.mod_lt. discriminate.
  - eapply lifts_map; [apply lifts_u32|]. cbn. eauto.
  - eapply lifts_map; [apply lifts_u64|]. cbn. eauto.
  - eapply lifts_map; [apply lifts_u32|]. intros n _. eexists. split; [reflexivity|]. apply (to_signed_range two8 n); reflexivity.
  - eapply lifts_map; [apply lifts_u32|]. intros n _. eexists. split; [reflexivity|]. apply (to_signed_range two16 n); reflexivity.
  - eapply lifts_map; [apply lifts_u32|]. intros n _. eexists. split; [reflexivity|]. apply (to_signed_range two32 n); reflexivity.
  - eapply lifts_map; [apply lifts_u64|]. intros n _. eexists. split; [reflexivity|]. apply (to_signed_range two64 n); reflexivity.
  - eapply lifts_map; [apply lifts_f32|]. intros n Hn. destruct (canonical32 n Hn). cbn [lifted]. eauto.
  - eapply lifts_map; [apply lifts_f64|]. intros n Hn. destruct (canonical64 n Hn). cbn [lifted]. eauto.
  - intros it Hi. eapply gives_bind; [apply lifts_u32; exact Hi|]. intros [n it1] [_ Hi1]. cbn [snd] in Hi1.
    eapply (gives_bind _ _ (fun r => scalar_value n /\ r = Z.of_N n)); [apply gives_lift; intros r; apply rune_scalar|].
    intros r [Hs ->]. apply gives_ret. split; [exists n; auto|assumption].
  - intros it Hi. eapply gives_bind; [apply lifts_u32; exact Hi|]. intros [b it1] [_ Hi1]. cbn [snd] in Hi1.
    eapply gives_bind; [apply lifts_u32; exact Hi1|]. intros [n it2] [_ Hi2]. cbn [snd] in Hi2.
    eapply gives_bind; [apply gives_text|]. intros v Hv. apply gives_ret. auto.
  - intros it Hi. eapply gives_bind; [apply lifts_u32; exact Hi|]. intros [b it1] [_ Hi1]. cbn [snd] in Hi1.
    eapply gives_bind; [apply lifts_u32; exact Hi1|]. intros [n it2] [_ Hi2]. cbn [snd] in Hi2.
    eapply gives_bind; [apply gives_list; apply load_gives; apply Hwf|]. intros v Hv. apply gives_ret. auto.
  - destruct Hwf as [Hn Hw]. apply all_Forall in Hw. intros it Hi. cbn [lifted].
    eapply gives_bind; [apply (lifts_fields _ (map (fun f => (fst f, lifted (snd f))) fs)); [|rewrite map_map; exact Hn|exact Hi]
      |intros [m it1] [Hm Hi1]; apply gives_ret; split; [apply built_exactly; exact Hm|exact Hi1]].
    apply Forall2_maps. rewrite Forall_forall in *. intros f Hf. cbn [fst snd]. split; [reflexivity|].
    apply H; [assumption|]. apply Hw. assumption.
  - destruct Hwf as [(Hn & Hb & Hr) Hw]. apply all_Forall in Hw. cbn [lifted]. apply lifts_variant; [assumption|].
    rewrite Forall_forall in *. intros c Hc. specialize (H c Hc). specialize (Hw c Hc). cbn beta in Hw.
    destruct (c_type c); cbn in *; auto.
  - intros it Hi. eapply gives_bind; [apply lifts_flag_words; exact Hi|]. intros [w it1] [_ Hi1].
    apply gives_ret. split; [apply built_exactly; apply unpack_built; apply Hwf|exact Hi1].
  - apply lifts_handle. intros. apply gives_lift_own.
  - apply lifts_handle. intros. apply gives_lift_borrow.
  - intros it Hi. apply gives_lift. discriminate.
  - rewrite <- lift_flat_despecialize. intros it Hi.
    eapply gives_mono; [exact (IHt (wf_despecialize _ Hwf) it Hi)|].
    cbn beta. intros [v it'] [Hv Hi']. split; [apply lifted_despecialize; exact Hv|exact Hi'].
Qed.
