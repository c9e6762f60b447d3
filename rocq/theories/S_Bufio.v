(** Specification for C79: buffered writers and readers. *)
From Coq Require Import Arith NArith List Bool.
From Verif Require Import GoBase S_Leb128 M_Stream M_Bufio.
Import ListNotations.
Open Scope N_scope.

(** Everything that was written: what the io.Writer has, then what waits *)
Definition written (w : bufwriter) : list N := bw_taken w ++ bw_buf w.
(** A writer as NewWriterSize and the calls before leave it *)
Definition writer_ok (w : bufwriter) : Prop := (0 < bw_size w)%nat /\ (length (bw_buf w) <= bw_size w)%nat.
(** An io.Writer takes no more than it is given. *)
Definition fair (to : sink) : Prop := forall k p, (fst (to k p) <= length p)%nat.
(** One that takes everything *)
Definition takes_all (to : sink) : Prop := forall k p, to k p = (length p, None).
(** Its errors: its own, or that it took too little without saying so. *)
Definition error_of (to : sink) (e : goerr) : Prop :=
  exists k p n err, to k p = (n, err) /\ (err = Some e \/ err = None /\ (n < length p)%nat /\ e = EOther).
(** The shortest LEB128 form of a number *)
Definition shortest (v : N) (bs : list N) : Prop :=
  leb_form bs /\ leb_value bs = v /\ forall bs', leb_form bs' -> leb_value bs' = v -> (length bs <= length bs')%nat.
(** One value after the other; stops at the first error. *)
Fixpoint encode_all (to : sink) (vs : list N) (w : bufwriter) : outcome (list N) * bufwriter :=
  match vs with
  | [] => (Ok [], w)
  | v :: vs =>
      match Encode to v w with
      | (Ok n, w) => match encode_all to vs w with (Ok ns, w) => (Ok (n :: ns), w) | x => x end
      | (Err e, w) => (Err e, w)
      | (Panic, w) => (Panic, w)
      | (Diverge, w) => (Diverge, w)
      end
  end.

(** Everything that is still to be read *)
Definition unread (r : bufreader) : list N := br_buf r ++ concat (st_pieces (br_from r)).
(** The io.Reader does not give nothing, without an error, a hundred times in
    a row. *)
Definition patient (st : stream) : Prop :=
  forall a b c, st_pieces st = a ++ b ++ c -> Forall (fun p => p = []) b -> (length b < 100)%nat.
(** A reader as NewReaderSize and the calls before leave it *)
Definition reader_ok (r : bufreader) : Prop :=
  (0 < br_size r)%nat /\ patient (br_from r) /\
  (br_err r = None \/ br_err r = Some (st_final (br_from r)) /\ st_pieces (br_from r) = []).
Fixpoint decode_all (n : nat) (r : bufreader) : outcome (list (N * N)) * bufreader :=
  match n with
  | O => (Ok [], r)
  | S n =>
      match Decode r with
      | (Ok v, r) => match decode_all n r with (Ok vs, r) => (Ok (v :: vs), r) | x => x end
      | (Err e, r) => (Err e, r)
      | (Panic, r) => (Panic, r)
      | (Diverge, r) => (Diverge, r)
      end
  end.
