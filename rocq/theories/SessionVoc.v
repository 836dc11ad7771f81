(** Words used to state the session properties. *)
From Coq Require Import ZArith List Bool.
From Verif Require Import GoPrims Value Errors Misc Session.
Import ListNotations.
Open Scope Z_scope.

(** ** Vocabulary *)
(** A call that asks for new work: prepare, query, exec, begin. *)
Definition conn_work (o : op) : bool :=
  match o with
  | CPrepare _ | CPreparePipeline _ | CBegin | CExec _ _ | CExecPipeline _ _ | CQuery _ _ | CQueryAll _ _
  | CQueryPipeline _ _ | CExecSql _ _ | CQuerySql _ _ => true
  | _ => false
  end.
Definition stmt_work (i : nat) (o : op) : Prop :=
  match o with
  | SExec s _ | SExecPipeline s _ | SQuery s _ | SQueryPipeline s _ | SExecSql s _ | SQuerySql s _ => s = i
  | _ => False
  end.
Definition rows_work (i : nat) (o : op) : Prop :=
  match o with RNext r | RAll r | RNextPipeline r | RNextSql r _ => r = i | _ => False end.
Definition tx_work (i : nat) (o : op) : Prop :=
  match o with TCommit t | TRollback t => t = i | _ => False end.
(** database/sql arguments are encoded maps; decoding them must not panic *)
Definition args_ok (mk : bool) (o : op) : Prop :=
  match o with
  | CQuerySql _ args | CExecSql _ args | SExecSql _ args | SQuerySql _ args => driver_args mk args <> APanic
  | _ => True
  end.
(** The handle the call is made on was handed out by an earlier call. *)
Definition known {N} (w : world N) (o : op) : Prop :=
  match o with
  | SExec s _ | SExecPipeline s _ | SQuery s _ | SQueryPipeline s _ | SClose s | SExecSql s _ | SQuerySql s _ => (s < length (w_stmts w))%nat
  | RNext r | RAll r | RNextPipeline r | RNextSql r _ | RClose r | RMeta r => (r < length (w_rows w))%nat
  | TCommit t | TRollback t => (t < length (w_txs w))%nat
  | _ => True
  end.
(** The call returned an error that satisfies [P], and no value with it. *)
Definition only_error (P : gerr -> Prop) (r : out) : Prop :=
  match r with
  | OErr (Some e) | OHandle None (Some e) | OResult None (Some e) | OResults None (Some e) | ONext None None (Some e)
  | OAll [] None (Some e) | OQueryAll None None None (Some e) | OPipe None None None (Some e) | OCells [] (Some e) => P e
  | _ => False
  end.
(** an error made by the driver itself: not io.EOF, not driver.ErrBadConn, not a FAILURE of the server *)
Definition driver_error (e : gerr) : Prop := exists f l, innermost e = EDrv f l None.
(** an error whose root is the FAILURE of the server with this metadata *)
Definition failure_error (m : list (str * goval)) (e : gerr) : Prop := innermost e = EFailMsg m.
Definition refused : out -> Prop := only_error driver_error.
Definition failed_with (m : list (str * goval)) : out -> Prop := only_error (failure_error m).
(** The statement / row set / transaction has been handed out and is closed. *)
Definition stmt_is (cl : bool) {N} (w : world N) (i : nat) : Prop := exists s, nth_error (w_stmts w) i = Some s /\ s_closed s = cl.
Definition rows_closed {N} (w : world N) (i : nat) : Prop := exists s, nth_error (w_rows w) i = Some s /\ r_closed s = true.
Definition tx_closed {N} (w : world N) (i : nat) : Prop := exists s, nth_error (w_txs w) i = Some s /\ t_closed s = true.
(** Rows that are still open although their statement is closed. *)
Definition lost {N} (w : world N) (r : nat) : Prop :=
  exists x, nth_error (w_rows w) r = Some x /\ r_closed x = false /\ stmt_is true w (r_stmt x).
(** The driver itself closed the connection during the call, or gave it back to the pool. *)
Definition dropped {N} (w w' : world N) : Prop :=
  c_closed (w_conn w) = false /\ c_closed (w_conn w') = true \/ (length (c_reclaims (w_conn w)) < length (c_reclaims (w_conn w')))%nat.
(** A history in which every call is made on a handle handed out before, with arguments whose
    decoding does not panic. *)
Fixpoint legal {N} (ops : netops N) (mk : bool) (f : nat) (os : list op) (w : world N) : Prop :=
  match os with
  | [] => True
  | o :: os' => known w o /\ args_ok mk o /\ match step ops mk f o w with (Ok _, w') => legal ops mk f os' w' | _ => True end
  end.
