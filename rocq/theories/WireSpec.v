(** Specification of a Bolt v1 server at the level of bytes, written from the public
    description of the protocol and independent of the driver: it answers the
    handshake, cuts the bytes it receives into messages, parses them with a parser for
    the whole PackStream format and answers them with the state machine of
    ServerSpec.v.  How it serialises its answers and how they are cut into segments on
    the way is left open. *)
From Coq Require Import ZArith List Bool.
From Verif Require Import GoPrims Value PackSpec PackProofs ServerSpec Decoder Errors Misc Session SessionNet.
Import ListNotations.
Open Scope Z_scope.

(** The first message in [b], if it is complete, and the bytes after it. *)
Fixpoint unframe (f : nat) (acc b : bytes) : option (bytes * bytes) :=
  match f with
  | O => None
  | S f' =>
      match prd 2 b with
      | None => None
      | Some (h, r) =>
          if be_value h =? 0 then Some (acc, r)
          else match prd (be_value h) r with
               | None => None
               | Some (c, r') => unframe f' (acc ++ c) r'
               end
      end
  end.
Definition first_message (b : bytes) : option (bytes * bytes) := unframe (length b) [] b.
(** The PackStream value that makes up a whole message. *)
Definition parse (msg : bytes) : option pval :=
  match pdec (S (2 * length msg)) msg with Some (p, []) => Some p | _ => None end.

(** Requests *)
Inductive request := QInit | QRun (q : str) (ps : list (str * pval)) | QPull | QDiscard | QAck | QReset | QUnknown.
Definition request_of (p : pval) : request :=
  match p with
  | PStruct sig [PStr q; PMap ps] => if sig =? 0x10 then QRun q ps else if sig =? 0x01 then QInit else QUnknown
  | PStruct sig [] =>
      if sig =? 0x3F then QPull else if sig =? 0x2F then QDiscard
      else if sig =? 0x0E then QAck else if sig =? 0x0F then QReset else QUnknown
  | _ => QUnknown
  end.

Section WireServer.
Context {DB : Type}.
(** the effect and the outcome of a query with parameters *)
Variable pexec : DB -> str -> list (str * pval) -> DB * outcome.

Definition answer (db : DB) (st : sstate) (r : request) : DB * sstate * list goval :=
  match r, st with
  | QReset, _ => (db, Ready, [VSuccess []])
  | QAck, Failed => (db, Ready, [VSuccess []])
  | QRun _ _, Failed | QPull, Failed | QDiscard, Failed => (db, Failed, [VIgnored])
  | QRun q ps, Ready =>
      match pexec db q ps with
      | (db', RunFails m) => (db', Failed, [VFailure m])
      | (db', Runs h recs fin) => (db', Streaming recs fin, [VSuccess h])
      end
  | QPull, Streaming recs fin => (db, after_stream fin, map VRecord recs ++ [final fin])
  | QDiscard, Streaming _ fin => (db, after_stream fin, [final fin])
  | _, _ => (db, Failed, [violation])
  end.

(** What the server waits for: the 20 bytes of the handshake, INIT, or requests. *)
Inductive phase := Hello | Auth | Up.
(** [y_in]: received and not yet used; [y_out]: sent and not yet read by the client;
    [y_n]: number of messages sent. *)
Record srv := { y_phase : phase; y_db : DB; y_st : sstate; y_in : bytes; y_out : bytes; y_n : nat }.

(** The serialisation of the [n]-th answer. *)
Variable ser : nat -> goval -> bytes.
Fixpoint sers (n : nat) (vs : list goval) : bytes :=
  match vs with [] => [] | v :: vs' => ser n v ++ sers (S n) vs' end.

Definition handle (s : srv) (msg rest : bytes) : srv :=
  let r := match parse msg with Some p => request_of p | None => QUnknown end in
  match y_phase s, r with
  | Auth, QInit => {| y_phase := Up; y_db := y_db s; y_st := Ready; y_in := rest;
                      y_out := y_out s ++ sers (y_n s) [VSuccess []]; y_n := S (y_n s) |}
  | Auth, _ => {| y_phase := Auth; y_db := y_db s; y_st := y_st s; y_in := rest;
                  y_out := y_out s ++ sers (y_n s) [violation]; y_n := S (y_n s) |}
  | _, _ =>
      let '(db, st, vs) := answer (y_db s) (y_st s) r in
      {| y_phase := y_phase s; y_db := db; y_st := st; y_in := rest;
         y_out := y_out s ++ sers (y_n s) vs; y_n := y_n s + length vs |}
  end.
(** The version the server picks: 1, if it is among the four that are offered. *)
Definition offers (b : bytes) : bool :=
  let at_ i := ztake 4 (zdrop (4 * i) b) in
  str_eqb (at_ 0) [0x60; 0x60; 0xB0; 0x17] &&
  existsb (fun i => str_eqb (at_ i) [0; 0; 0; 1]) [1; 2; 3; 4].
(** Use what has been received as far as possible. *)
Fixpoint digest (f : nat) (s : srv) : srv :=
  match f with
  | O => s
  | S f' =>
      match y_phase s with
      | Hello =>
          match prd 20 (y_in s) with
          | None => s
          | Some (h, rest) =>
              digest f' {| y_phase := Auth; y_db := y_db s; y_st := y_st s; y_in := rest;
                           y_out := y_out s ++ (if offers h then [0; 0; 0; 1] else [0; 0; 0; 0]); y_n := y_n s |}
          end
      | _ =>
          match first_message (y_in s) with
          | None => s
          | Some (msg, rest) => digest f' (handle s msg rest)
          end
      end
  end.
Definition received (s : srv) (b : bytes) : srv :=
  let s' := {| y_phase := y_phase s; y_db := y_db s; y_st := y_st s; y_in := y_in s ++ b; y_out := y_out s; y_n := y_n s |} in
  digest (length (y_in s')) s'.

(** The stream between client and server: no write fails; what was sent is read in the
    segments [cut] says, after that reading runs into the read timeout. *)
Variable cut : nat -> bytes -> list bytes.
Definition stream : transport srv :=
  {| t_put := fun s b => (received s b, {| wc_n := zlen b; wc_err := false |});
     t_in := fun s => map RData (cut (y_n s) (y_out s)) ++ [RFail];
     t_left := fun s r => {| y_phase := y_phase s; y_db := y_db s; y_st := y_st s; y_in := y_in s; y_out := rbytes r; y_n := y_n s |};
     t_close := fun s => (s, false) |}.
End WireServer.
Arguments srv : clear implicits.
Arguments Build_srv {DB}.

(** The messages a server may send: those of ServerSpec with values that exist in Bolt,
    in sizes below the signed limits. *)
Definition answers_ok (v : goval) : Prop := decodable v /\ wt v /\ exists b, PS_half (denote v) b.
Definition outcome_ok (o : outcome) : Prop :=
  match o with
  | RunFails m => answers_ok (VFailure m)
  | Runs h recs fin => answers_ok (VSuccess h) /\ Forall (fun r => answers_ok (VRecord r)) recs /\ answers_ok (final fin)
  end.
(** [ser] writes messages in one of the ways the format allows. *)
Definition ser_ok (ser : nat -> goval -> bytes) : Prop :=
  forall n v, answers_ok v -> exists b, PS_half (denote v) b /\ Frame b (ser n v).
(** [cut] changes no byte and makes no empty segment. *)
Definition cut_ok (cut : nat -> bytes -> list bytes) : Prop :=
  forall n b, concat (cut n b) = b /\ ~ In [] (cut n b).
