(** Property C66: reading from an io.Reader that delivers its input in pieces
    or fails. *)
From Coq Require Import Arith Ascii NArith List Bool Lia ZifyNat ZifyN.
From Verif Require Import GoBase M_Leb128 S_Leb128 L_Leb128 P_Leb128 M_Api M_Binary S_Binary L_Binary P_Binary.
From Verif Require Import M_Text M_WatDecoder M_Stream L_Stream.
Import ListNotations.
Open Scope N_scope.

(** What a stream delivers altogether. *)
Definition delivered (st : stream) : list N := concat (st_pieces st).
(** A reader that reads at least one byte with every call until the input is
    used up, then says io.EOF; or says io.EOF together with the last bytes. *)
Definition plain (st : stream) : Prop :=
  Forall (fun c => c <> []) (st_pieces st) /\ st_final st = EEOF /\ st_together st = false.
Definition plain_together (st : stream) : Prop :=
  Forall (fun c => c <> []) (st_pieces st) /\ st_final st = EEOF /\ st_together st = true.

(** However the input is cut into pieces, the binary reader gives what it
    gives for the whole input. *)
Theorem pieces_do_not_matter : forall heap st, plain st ->
  sread heap st = match read heap (delivered st) with Ok (d, _) => Ok d | Err e => Err e | Panic => Panic | Diverge => Diverge end.
Proof.
  intros heap st (H1 & H2 & H3). destruct (sread_carried false heap st (delivered st)) as [E|[E _]]; [repeat split; auto|exact E|discriminate].
Qed.
(** In particular modules are read back (C34). *)
Theorem module_read_back_in_pieces : forall heap m st, enough heap -> plain st -> module_bytes m (delivered st) -> no_locals m ->
  sread heap st = Ok (module_doc 0 (api_module m)).
Proof. intros heap m st Hh Hp Hm Hl. rewrite pieces_do_not_matter by exact Hp. rewrite (module_read_back heap m _ Hh Hm Hl). reflexivity. Qed.
(** Numbers too (C03). *)
Theorem leb_in_pieces : forall st bs rest, plain st -> delivered st = bs ++ rest -> leb_form bs ->
  exists st', sleb_decode st = Ok (leb_value bs mod 2 ^ 32, N.of_nat (length bs), st') /\ plain st' /\ delivered st' = rest.
Proof.
  intros st bs rest (H1 & H2 & H3) E Hb. unfold sleb_decode.
  destruct (leb_carried false (S (st_calls st)) 0 0 0 st (delivered st)) as [[F _]|H]; [repeat split; auto|lia|discriminate|].
  destruct (leb128_decode_value bs rest Hb) as (_ & D & _). unfold leb_decode_reader in D. rewrite E, D in H.
  destruct H as (st' & -> & (C1 & C2 & C3 & C4)). exists st'. repeat split; auto.
Qed.

(** A reader that gives single bytes, one that gives runs of three. *)
Fixpoint chop (k : nat) (fuel : nat) (bs : list N) : list (list N) :=
  match fuel with
  | O => []
  | S f => match bs with [] => [] | _ => firstn k bs :: chop k f (skipn k bs) end
  end.
Definition pieces_of (k : nat) (bs : list N) : list (list N) := chop k (length bs) bs.
Example pieces_do_not_matter_applies :
  let st1 := mkStream (pieces_of 1 sample_bytes) EEOF false in
  let st3 := mkStream (pieces_of 3 sample_bytes) EEOF false in
  plain st1 /\ plain st3 /\ length (st_pieces st3) = 18%nat /\ delivered st3 = sample_bytes /\
  sread (2 ^ 32) st1 = Ok (module_doc 0 (api_module sample)) /\ sread (2 ^ 32) st3 = Ok (module_doc 0 (api_module sample)).
Proof. cbv zeta. repeat split; try (vm_compute; reflexivity); vm_compute; repeat constructor; discriminate. Qed.
Example leb_in_pieces_applies :
  let st := mkStream [[128; 129]; [1; 7]] EEOF false in
  plain st /\ leb_form [128; 129; 1] /\ sleb_decode st = Ok (16512, 3, mkStream [[7]] EEOF false).
Proof. cbv zeta. split; [repeat split; repeat constructor; discriminate|]. split; [apply leb128_decode_value_ex|reflexivity]. Qed.

(** A reader may say io.EOF together with the last bytes. Then no input is
    misread: one that has a meaning is given that meaning or refused. *)
Theorem never_misread : forall heap st d r, plain_together st -> read heap (delivered st) = Ok (d, r) ->
  sread heap st = Ok d \/ sread heap st = Err EEOF.
Proof.
  intros heap st d r (H1 & H2 & H3) E. destruct (sread_carried true heap st (delivered st)) as [H|(_ & [H|(d' & H & U)])]; [repeat split; auto|..].
  - left. rewrite H, E. reflexivity.
  - right. exact H.
  - left. rewrite H. rewrite (U _ _ E). reflexivity.
Qed.
Example never_misread_applies :
  let st := mkStream (pieces_of 3 sample_bytes) EEOF true in
  plain_together st /\ read (2 ^ 32) (delivered st) = Ok (module_doc 0 (api_module sample), []) /\
  sread (2 ^ 32) st = Ok (module_doc 0 (api_module sample)).
Proof. cbv zeta. repeat split; try (vm_compute; reflexivity); vm_compute; repeat constructor; discriminate. Qed.

(** Some are refused: a module whose last section is the export section ends
    in a number, whose last byte leb128.DecodeReader drops when io.EOF comes
    with it. *)
Definition exports_last : list N :=
  header ++ [1; 4; 1; 0x60; 0; 0] ++ [3; 2; 1; 0] ++ [10; 4; 1; 2; 0; 0x0b] ++ [7; 5; 1; 1; 97; 0; 0].
Theorem end_with_last_bytes_refuted :
  exists st d, plain_together st /\ read (2 ^ 32) (delivered st) = Ok (d, []) /\ sread (2 ^ 32) st = Err EEOF.
Proof.
  exists (mkStream [exports_last] EEOF true). eexists. split; [repeat split; repeat constructor; discriminate|].
  split; vm_compute; reflexivity.
Qed.
(** And an input that is cut off after a section's header is accepted. *)
Theorem cut_off_input_refused_refuted :
  exists st d e, plain_together st /\ read (2 ^ 32) (delivered st) = Err e /\ sread (2 ^ 32) st = Ok d.
Proof.
  exists (mkStream [header; [1; 4]] EEOF true). eexists _, _. split; [repeat split; repeat constructor; discriminate|].
  split; vm_compute; reflexivity.
Qed.
(** A reader may also return no bytes and no error; leb128.DecodeReader takes
    that for the end. *)
Theorem empty_reads_refuted :
  exists st d, st_final st = EEOF /\ st_together st = false /\ read (2 ^ 32) (delivered st) = Ok (d, []) /\
    In [] (st_pieces st) /\ sread (2 ^ 32) st = Err EOther.
Proof.
  exists (mkStream [header ++ [1]; []; [4; 1; 0x60; 0; 0]] EEOF false). eexists. do 2 (split; [reflexivity|]). split; [vm_compute; reflexivity|].
  split; [right; left; reflexivity|]. vm_compute. reflexivity.
Qed.

(** Whatever the reader does, reading comes to an end without a panic. *)
Theorem stream_read_total : forall heap st, enough heap -> (exists d, sread heap st = Ok d) \/ (exists e, sread heap st = Err e).
Proof.
  intros heap st Hh. pose proof (sread_facts heap Hh st) as H. destruct (sread heap st) as [d|e| |]; [left; eauto|right; eauto|destruct H..].
Qed.
(** A module is only returned when the reader said io.EOF: when it fails with
    another error, so does Read, and not with io.EOF. *)
Theorem failing_reader_reported : forall heap st, enough heap -> st_final st <> EEOF ->
  (exists p, sread heap st = Ok {| d_preamble := p; d_directive := DComponent |}) \/ (exists e, sread heap st = Err e /\ e <> EEOF).
Proof.
  intros heap st Hh Hf. pose proof (sread_facts heap Hh st) as H. destruct (sread heap st) as [[p [m|]]|e| |]; try (destruct H; fail).
  - destruct Hf. eapply H. reflexivity.
  - left. exists p. reflexivity.
  - right. exists e. split; [reflexivity|]. intros ->. contradiction.
Qed.
Example failing_reader_reported_applies :
  let st := mkStream [sample_bytes] EOther false in
  delivered st = sample_bytes /\ st_final st <> EEOF /\ sread (2 ^ 32) st = Err EOther.
Proof. cbv zeta. repeat split; try discriminate; vm_compute; reflexivity. Qed.
(** The reader's own error is not always the one reported. *)
Theorem own_error_reported_refuted :
  exists st, st_final st = ENotExist /\ sread (2 ^ 32) st = Err EOther /\ exists d, read (2 ^ 32) (delivered st ++ [0]) = Ok (d, []).
Proof. exists (mkStream [header ++ [0]] ENotExist false). repeat split; try (vm_compute; reflexivity). eexists. vm_compute. reflexivity. Qed.

(** Decoding WAT sees only the contents, however they arrive, also with empty
    reads and io.EOF together with the last bytes; a failing reader's own
    error is reported. *)
Theorem wat_pieces_do_not_matter : forall pf swap room st,
  sdecode pf swap room st = match st_final st with EEOF => decode pf swap (Ok (map ascii_of_N (delivered st))) | e => Err e end.
Proof.
  intros pf swap room st. unfold sdecode. rewrite read_all_facts by lia. destruct (st_final st); reflexivity.
Qed.
Example wat_pieces_applies :
  let st := mkStream [[40; 109]; []; [111; 100; 117; 108; 101; 41]] EEOF true in
  sdecode (fun _ => None) false (fun n => n) st = Ok (GotModule {| m_types := []; m_funcs := []; m_exports := [] |}).
Proof. vm_compute. reflexivity. Qed.

Print Assumptions pieces_do_not_matter.
Print Assumptions module_read_back_in_pieces.
Print Assumptions leb_in_pieces.
Print Assumptions never_misread.
Print Assumptions end_with_last_bytes_refuted.
Print Assumptions cut_off_input_refused_refuted.
Print Assumptions empty_reads_refuted.
Print Assumptions stream_read_total.
Print Assumptions failing_reader_reported.
Print Assumptions own_error_reported_refuted.
Print Assumptions wat_pieces_do_not_matter.
