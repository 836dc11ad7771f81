(** Deadlines.  conn.go:320-357: before every Read and Write the deadline is set to the
    current time plus the timeout of the connection.  In Go a call whose deadline has
    passed fails at once, even if it would not have to wait (package net, Conn). *)
From Coq Require Import ZArith List Bool.
From Verif Require Import GoPrims Value Encoder Decoder Errors Misc Session SessionNet.
Import ListNotations.
Open Scope Z_scope.

(** A connection with a timeout (in nanoseconds): without patience nothing is read or
    written (conn.go:321, 341, 331, 352). *)
Definition deadlined {T} (timeout : Z) (io : transport T) : transport T :=
  if timeout <=? 0 then
    {| t_put := fun t _ => (t, {| wc_n := 0; wc_err := true |});
       t_in := fun _ => [RFail];
       t_left := fun t _ => t;
       t_close := t_close io |}
  else io.

(** Segments and the times at which they reach the client. *)
Definition inbox := list (Z * bytes).
(** What the reads of one call return, made one after the other from time [now] on, and
    when; nothing after the first one that runs into its deadline.  The time taken by the
    client's own work is not counted. *)
Fixpoint arrive (timeout now : Z) (i : inbox) : list (rev * Z) :=
  if timeout <=? 0 then [(RFail, now)]
  else
    match i with
    | [] => []
    | (a, b) :: i' =>
        if a <=? now + timeout then (RData b, Z.max now a) :: arrive timeout (Z.max now a) i'
        else [(RFail, now + timeout)]
    end.
