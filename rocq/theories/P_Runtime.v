(** Property C47: module instantiation. *)
From Coq Require Import Arith NArith List Bool Lia ZifyNat ZifyN FinFun.
From Verif Require Import GoBase M_Api M_Runtime.
Import ListNotations.
Open Scope N_scope.

(** The function an address stands for. *)
Definition at_addr (st : store) (a : N) : option func := nth_error (st_funcs st) (N.to_nat a).

(** The addresses [n, n+1, ..., n+k-1]. *)
Definition addresses (n k : nat) : list N := map N.of_nat (seq n k).

Lemma add_funcs_spec fs : forall st addrs,
  N.of_nat (length (st_funcs st) + length fs) <= 2 ^ 32 ->
  add_funcs st addrs fs =
  ({| st_funcs := st_funcs st ++ fs |}, addrs ++ addresses (length (st_funcs st)) (length fs)).
Proof.
  induction fs as [|fn fs IH]; intros st addrs H; cbn [add_funcs].
  - unfold addresses. cbn. rewrite !app_nil_r. now destruct st.
  - cbn in H. rewrite IH; cbn [st_funcs]; [|rewrite app_length; cbn; lia].
    rewrite app_length. cbn [length]. rewrite <- !app_assoc. cbn [app].
    unfold addresses. cbn [seq map]. rewrite Nat.add_1_r. f_equal. f_equal. f_equal.
    unfold u32. apply N.mod_small. change two32 with (2 ^ 32). lia.
Qed.

(** Instantiating a module appends its functions to the store in order and
    gives the instance precisely their addresses. *)
Theorem instance_gets_its_functions st m st' i :
  N.of_nat (length (st_funcs st) + length (m_funcs m)) <= 2 ^ 32 ->
  new_module_instance st m = (st', i) ->
  st_funcs st' = st_funcs st ++ m_funcs m /\
  mi_addrs i = addresses (length (st_funcs st)) (length (m_funcs m)) /\
  map (at_addr st') (mi_addrs i) = map Some (m_funcs m).
Proof.
  intros H. unfold new_module_instance. rewrite add_funcs_spec by assumption.
  intros E. inversion E; subst. cbn. split; [reflexivity|]. split; [reflexivity|].
  unfold addresses, at_addr. cbn. rewrite map_map.
  generalize (st_funcs st) as l. intros l.
  rewrite <- (map_ext (fun k => nth_error (l ++ m_funcs m) k)).
  2: { intros k. now rewrite Nat2N.id. }
  induction (m_funcs m) as [|fn fs IH] in l |- *; [reflexivity|].
  cbn [length seq map]. f_equal.
  - rewrite nth_error_app2 by lia. now rewrite Nat.sub_diag.
  - replace (l ++ fn :: fs) with ((l ++ [fn]) ++ fs) by (now rewrite <- app_assoc).
    replace (S (length l)) with (length (l ++ [fn])) by (rewrite app_length; cbn; lia). apply IH.
Qed.
Print Assumptions instance_gets_its_functions.

(** Functions allocated before keep their address. *)
Theorem instantiation_keeps_functions st m st' i a f :
  N.of_nat (length (st_funcs st) + length (m_funcs m)) <= 2 ^ 32 ->
  new_module_instance st m = (st', i) ->
  at_addr st a = Some f -> at_addr st' a = Some f /\ ~ In a (mi_addrs i).
Proof.
  intros H E Hf. destruct (instance_gets_its_functions _ _ _ _ H E) as (E1 & E2 & _).
  unfold at_addr in *. assert (L : (N.to_nat a < length (st_funcs st))%nat).
  { apply nth_error_Some. now rewrite Hf. }
  split.
  - rewrite E1, nth_error_app1 by assumption. assumption.
  - rewrite E2. unfold addresses. rewrite in_map_iff. intros (k & Ek & Hk). apply in_seq in Hk. lia.
Qed.
Print Assumptions instantiation_keeps_functions.

(** Any number of instantiations in one store: every instance still finds
    exactly its own functions, and no two instances share an address. *)
Fixpoint instantiate_all (st : store) (ms : list module) : store * list module_instance :=
  match ms with
  | [] => (st, [])
  | m :: ms' =>
      let (st1, i) := new_module_instance st m in
      let (st2, is) := instantiate_all st1 ms' in
      (st2, i :: is)
  end.

Definition total_funcs (ms : list module) : nat := length (concat (map m_funcs ms)).

Theorem instances_keep_their_functions ms : forall st st' is,
  N.of_nat (length (st_funcs st) + total_funcs ms) <= 2 ^ 32 ->
  instantiate_all st ms = (st', is) ->
  st_funcs st' = st_funcs st ++ concat (map m_funcs ms) /\
  Forall2 (fun m i => map (at_addr st') (mi_addrs i) = map Some (m_funcs m)) ms is /\
  concat (map mi_addrs is) = addresses (length (st_funcs st)) (total_funcs ms) /\
  NoDup (concat (map mi_addrs is)).
Proof.
  induction ms as [|m ms IH]; intros st st' is H E; cbn in E.
  - inversion E; subst. cbn. rewrite app_nil_r. repeat split; constructor.
  - destruct (new_module_instance st m) as [st1 i] eqn:E1.
    destruct (instantiate_all st1 ms) as [st2 is'] eqn:E2. inversion E; subst. clear E.
    unfold total_funcs in *. cbn [map concat] in *. rewrite app_length in H.
    assert (L0 : N.of_nat (length (st_funcs st) + length (m_funcs m)) <= 2 ^ 32) by lia.
    destruct (instance_gets_its_functions _ _ _ _ L0 E1) as (A1 & A2 & A3).
    assert (L : length (st_funcs st1) = (length (st_funcs st) + length (m_funcs m))%nat) by (rewrite A1, app_length; lia).
    assert (L' : N.of_nat (length (st_funcs st1) + length (concat (map m_funcs ms))) <= 2 ^ 32) by lia.
    destruct (IH st1 st' is' L' E2) as (B1 & B2 & B3 & B4).
    assert (C : mi_addrs i ++ concat (map mi_addrs is') =
                addresses (length (st_funcs st)) (length (m_funcs m) + length (concat (map m_funcs ms)))).
    { rewrite A2, B3, L. unfold addresses. now rewrite seq_app, map_app. }
    split; [now rewrite B1, A1, <- app_assoc|]. split.
    + constructor; [|assumption]. rewrite <- A3. apply map_ext_in. intros a Ha.
      unfold at_addr. rewrite B1. apply nth_error_app1.
      rewrite A2 in Ha. unfold addresses in Ha. apply in_map_iff in Ha. destruct Ha as (k & <- & Hk).
      apply in_seq in Hk. rewrite Nat2N.id. lia.
    + split; [rewrite C, app_length; reflexivity|].
      rewrite C. unfold addresses. apply Injective_map_NoDup; [intros x y; apply Nat2N.inj|apply seq_NoDup].
Qed.
Print Assumptions instances_keep_their_functions.

Definition fn (t : N) : func := {| f_type := t; f_locals := []; f_body := None |}.
Definition two : module := {| m_types := []; m_funcs := [fn 0; fn 1]; m_exports := [] |}.
Definition one : module := {| m_types := []; m_funcs := [fn 2]; m_exports := [{| ex_name := [97]; ex_func := 0 |}] |}.
Example instances_met :
  N.of_nat (length (st_funcs {| st_funcs := [fn 9] |}) + total_funcs [two; one; two]) <= 2 ^ 32 /\
  instantiate_all {| st_funcs := [fn 9] |} [two; one; two] =
    ({| st_funcs := [fn 9; fn 0; fn 1; fn 2; fn 0; fn 1] |},
     [{| mi_addrs := [1; 2]; mi_exports := [] |}; {| mi_addrs := [3]; mi_exports := [] |};
      {| mi_addrs := [4; 5]; mi_exports := [] |}]).
Proof. split; [cbn; lia|reflexivity]. Qed.

(** GetExport returns the first export with the name, if there is one. *)
Theorem get_export_first m name e :
  get_export m name = Some e <->
  exists before after, mi_exports m = before ++ e :: after /\ ei_name e = name /\
    Forall (fun x => ei_name x <> name) before.
Proof.
  unfold get_export. generalize (mi_exports m) as es. intros es.
  induction es as [|x es IH]; cbn.
  - split; [discriminate|]. intros (b & a & E & _). destruct b; discriminate.
  - unfold name_eqb. destruct (list_eq_dec N.eq_dec (ei_name x) name) as [Hx|Hx].
    + split.
      * intros E. inversion E; subst. exists [], es. repeat split. constructor.
      * intros (b & a & E & Hn & Hb). destruct b as [|y b]; [now inversion E|].
        inversion E; subst. inversion Hb; subst. contradiction.
    + rewrite IH. split.
      * intros (b & a & E & Hn & Hb). exists (x :: b), a. subst es. repeat split; [assumption|].
        now constructor.
      * intros (b & a & E & Hn & Hb). destruct b as [|y b].
        { inversion E; subst. contradiction. }
        inversion E; subst. inversion Hb; subst. now exists b, a.
Qed.
Print Assumptions get_export_first.

Theorem get_export_absent m name :
  get_export m name = None <-> Forall (fun x => ei_name x <> name) (mi_exports m).
Proof.
  unfold get_export. induction (mi_exports m) as [|x es IH]; cbn; [split; auto|].
  unfold name_eqb. destruct (list_eq_dec N.eq_dec (ei_name x) name) as [Hx|Hx].
  - split; [discriminate|]. intros H. inversion H. contradiction.
  - rewrite IH. split; [now constructor|]. intros H. now inversion H.
Qed.
Print Assumptions get_export_absent.
Example get_export_met :
  let m := {| mi_addrs := [4; 5]; mi_exports := [{| ei_name := [98]; ei_value := 5 |}; {| ei_name := [97]; ei_value := 4 |};
                                                 {| ei_name := [97]; ei_value := 5 |}] |} in
  get_export m [97] = Some {| ei_name := [97]; ei_value := 4 |} /\ get_export m [99] = None.
Proof. split; reflexivity. Qed.

(** Instantiation does not fill the exports, so no export of a module can be
    found in its instances. *)
Theorem exports_reachable_refuted :
  forall st m st' i name, new_module_instance st m = (st', i) -> get_export i name = None.
Proof.
  intros st m st' i name. unfold new_module_instance. destruct (add_funcs st [] (m_funcs m)).
  intros E. inversion E; subst. reflexivity.
Qed.
Print Assumptions exports_reachable_refuted.
Example exports_met : m_exports one <> [] /\ exists r, new_module_instance {| st_funcs := [] |} one = r.
Proof. split; [discriminate|eexists; reflexivity]. Qed.
