(** Specification of a Bolt v1 server, written from the public description of the
    protocol and independent of the driver: a state machine that answers each
    request in order.  What queries do is a parameter. *)
From Coq Require Import ZArith List Bool.
From Verif Require Import GoPrims Value Errors Session.
Import ListNotations.

(** How the stream of records of a query ends: with summary metadata or a failure. *)
Inductive stream_end := Ends (m : md) | Breaks (m : md).
(** What running a query does: it is refused, or it produces a header (the metadata
    of the SUCCESS that answers RUN) and a stream of records. *)
Inductive outcome := RunFails (m : md) | Runs (h : md) (recs : list (list goval)) (fin : stream_end).

(** Ready for a query; a result is waiting to be pulled or discarded; a failure is
    waiting to be acknowledged. *)
Inductive sstate := Ready | Streaming (recs : list (list goval)) (fin : stream_end) | Failed.

Definition final (e : stream_end) : goval := match e with Ends m => VSuccess m | Breaks m => VFailure m end.
Definition after_stream (e : stream_end) : sstate := match e with Ends _ => Ready | Breaks _ => Failed end.
(** a message that is not allowed in the current state *)
Definition violation : goval := VFailure [].

Section Server.
Context {DB : Type}.
(** the effect and the outcome of a query *)
Variable exec : DB -> str -> md -> DB * outcome.

(** One request: new state and the responses. *)
Definition serve (db : DB) (st : sstate) (v : goval) : DB * sstate * list goval :=
  match v, st with
  | VReset, _ => (db, Ready, [VSuccess []])
  | VAckFailure, Failed => (db, Ready, [VSuccess []])
  | VRun _ _, Failed | VPullAll, Failed | VDiscardAll, Failed => (db, Failed, [VIgnored])
  | VRun q ps, Ready =>
      match exec db q ps with
      | (db', RunFails m) => (db', Failed, [VFailure m])
      | (db', Runs h recs fin) => (db', Streaming recs fin, [VSuccess h])
      end
  | VPullAll, Streaming recs fin => (db, after_stream fin, map VRecord recs ++ [final fin])
  | VDiscardAll, Streaming _ fin => (db, after_stream fin, [final fin])
  | _, _ => (db, Failed, [violation])
  end.

(** The network between driver and server: the database, the state of the server
    and the responses the driver has not read yet.  The server handles a request
    as soon as it is sent; because requests and responses keep their order, handling
    it later would not change what the driver reads.  Reading when no response is
    left runs into the read timeout.  [sendable v]: the encoder accepts [v]; a
    refused message sends nothing (see C18 for when that holds). *)
Record bnet := { b_db : DB; b_st : sstate; b_q : list goval }.
Variable sendable : goval -> bool.
Definition bolt : netops bnet :=
  {| n_send := fun n _ v =>
       if sendable v then
         let '(db, st, rs) := serve (b_db n) (b_st n) v in
         ({| b_db := db; b_st := st; b_q := b_q n ++ rs |}, SOk)
       else (n, SRejected);
     n_recv := fun n =>
       match b_q n with
       | [] => (n, RNet)
       | v :: q => ({| b_db := b_db n; b_st := b_st n; b_q := q |}, RMsg v)
       end;
     n_close := fun n => (n, false);
     n_shake := fun n => (n, (false, None)) |}.
End Server.
Arguments bnet : clear implicits.
