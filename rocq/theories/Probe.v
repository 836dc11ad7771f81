(** driver.go:144-156 connectionNilOrClosed: the check of OpenPool, on sockets as package net implements them.
    The pool machine (Pool.v) leaves the outcome of the check open. *)
From Coq Require Import ZArith List Bool.
From Verif Require Import GoPrims Value Encoder Decoder Errors Misc Session.
Import ListNotations.
Open Scope Z_scope.

(** [k_shut]: closed by this process; [k_in]: what is left to read, with the end of the stream or an error when
    the other side has closed or reset the connection; [k_deadline]: the read deadline, in nanoseconds. *)
Record socket := { k_shut : bool; k_in : reader; k_deadline : Z }.
(** net.Conn.Read at time [now] with a buffer of [n] bytes (internal/poll.FD.Read, and tls.Conn.Read after its
    handshake): a closed socket is an error; a buffer of no bytes is filled at once, without looking at the
    deadline or the stream; then the deadline, then the stream. *)
Definition sock_read (now n : Z) (k : socket) : bytes * option gerr * socket :=
  if k_shut k then ([], Some (EOther 1), k)
  else if n =? 0 then ([], None, k)
  else if k_deadline k <=? now then ([], Some (EOther 2), k)
  else let '(b, e, r) := read_once n (k_in k) in (b, e, {| k_shut := false; k_in := r; k_deadline := k_deadline k |}).
Definition set_deadline (d : Z) (k : socket) : socket := {| k_shut := k_shut k; k_in := k_in k; k_deadline := d |}.
(** driver.go:144-156 *)
Definition connection_nil_or_closed (now : Z) (o : option socket) : bool * option socket :=
  match o with
  | None => (true, None)
  | Some k =>
      let k1 := set_deadline now k in
      let '(_, e, k2) := sock_read now 0 k1 in
      (match e with Some _ => true | None => false end, Some k2)
  end.
(** conn.go:320-337 Read, without connErr *)
Definition conn_read (now timeout n : Z) (k : socket) : bytes * option gerr * socket :=
  let '(b, e, k') := sock_read now n (set_deadline (now + timeout) k) in
  (b, match e with None => None | Some EEOF => Some EEOF | Some _ => Some EBadConn end, k').
(** driver.go:131-138: a connection out of the pool; [dial]: what initialize makes *)
Definition take (now : Z) (o : option socket) (dial : option socket) : option socket * bool :=
  let '(bad, o') := connection_nil_or_closed now o in if bad then (dial, true) else (o', false).

(** A server that has shut down its side: what is written is accepted, there is nothing to read any more. *)
Definition halfshut {N} : netops N :=
  {| n_send := fun n _ _ => (n, SOk); n_recv := fun n => (n, RDec None (ewrap FDec 45 EEOF)); n_close := fun n => (n, false); n_shake := fun n => (n, (false, None)) |}.
(** driver.go:176-195 reclaim, for one place: the copy of the connection that the next user gets (statements and
    rows of earlier users are not reachable from it), or None for a new connection *)
Definition handed_on {N} (w : world N) : option (world N) :=
  match c_reclaims (w_conn w) with
  | [false] => if c_closed (w_conn w) then None
               else Some (Build_world {| c_closed := false; c_err := c_err (w_conn w); c_tx := c_tx (w_conn w); c_stmt := c_stmt (w_conn w);
                                         c_pooled := true; c_cs := c_cs (w_conn w); c_reclaims := [] |} [] [] [] (w_net w))
  | _ => None
  end.
(** Users of one place, one after the other; each makes some calls and closes.  What each sees, and the
    connection that is left; None when a user gets a new one. *)
Fixpoint users {N} (ops : netops N) (mk : bool) (f : nat) (calls : list (list op)) (w : world N) : option (list (list out) * world N) :=
  match calls with
  | [] => Some ([], w)
  | os :: calls' =>
      let '(l, r, w1) := run ops mk f (os ++ [CClose]) w in
      match r, handed_on w1 with
      | Ok tt, Some w2 => option_map (fun x => (l :: fst x, snd x)) (users ops mk f calls' w2)
      | _, _ => None
      end
  end.
