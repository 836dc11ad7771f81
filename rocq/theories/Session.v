(** Model of conn.go, stmt.go, rows.go and tx.go: one connection, used by one
    goroutine (the objects are documented as not thread safe, conn.go:32-34).

    The network is a parameter: any type of states with an operation that sends
    one message through the encoder, one that decodes one message, and one that
    closes the socket.  SessionNet.v instantiates it with the byte level codec
    model, ServerSpec.v with a Bolt v1 server.

    Go functions are computations [M A]: they take and return the world (the
    heap of driver objects and the network) and end normally, in a panic or out
    of fuel.  Fuel bounds the loops that read responses and the nesting of
    Conn.Close; running out of fuel is a separate outcome. *)
From Coq Require Import ZArith List Bool.
From Verif Require Import GoPrims Value Errors Misc.
Import ListNotations.
Open Scope Z_scope.

Notation md := (list (str * goval)).

(** Result of encoding.NewEncoder(c, cs).Encode(v): complete, refused by the
    encoder (possibly after some chunks were written), or a failed write. *)
Inductive sres := SOk | SRejected | SIOErr.
(** Result of encoding.NewDecoder(c).Decode(): a value; an error that is not a
    failed read, with the partial value that comes with it (decoder.go returns
    e.g. SuccessMessage{} and io.EOF on a success message cut short); a read that
    failed with an error other than io.EOF; a panic in the decoder. *)
Inductive rres := RMsg (v : goval) | RDec (partial : option goval) (e : gerr) | RNet | RCrash.

Record netops (N : Type) := {
  n_send : N -> Z -> goval -> N * sres;
  n_recv : N -> N * rres;
  n_close : N -> N * bool;                                   (* true: closing failed *)
  n_shake : N -> N * (bool * option gerr)                    (* handShake: connErr set?, error *)
}.
Arguments n_send {N}. Arguments n_recv {N}. Arguments n_close {N}. Arguments n_shake {N}.

(** conn.go:65-85; [c_pooled] is poolDriver != nil, [c_reclaims] lists the
    calls to reclaim, each with whether connErr was set; the other fields do not change
    during a session. *)
Record conn := { c_closed : bool; c_err : bool; c_tx : option nat; c_stmt : option nat;
                 c_pooled : bool; c_cs : Z; c_reclaims : list bool }.
(** stmt.go:40-46; [s_conn] is conn != nil; a nil list of queries is []. *)
Record stmt := { s_queries : list str; s_query : str; s_conn : bool; s_closed : bool; s_rows : option nat }.
(** rows.go:55-63 *)
Record rows := { r_md : md; r_stmt : nat; r_closed : bool; r_consumed : bool; r_finished : bool;
                 r_pidx : Z; r_closeStmt : bool }.
(** tx.go:17-20; conn is always the connection *)
Record tx := { t_closed : bool }.

Record world (N : Type) := { w_conn : conn; w_stmts : list stmt; w_rows : list rows; w_txs : list tx; w_net : N }.
Arguments w_conn {N}. Arguments w_stmts {N}. Arguments w_rows {N}. Arguments w_txs {N}. Arguments w_net {N}.
Arguments Build_world {N}.

Inductive outc (A : Type) := Ok (a : A) | Panic | NoFuel.
Arguments Ok {A}. Arguments Panic {A}. Arguments NoFuel {A}.

Fixpoint upd {A} (i : nat) (x : A) (l : list A) : list A :=
  match i, l with
  | _, [] => []
  | O, _ :: l' => x :: l'
  | S i', y :: l' => y :: upd i' x l'
  end.

(** tx.go:39, 74 and conn.go:519 *)
Definition s_begin : str := [66; 69; 71; 73; 78].
Definition s_commit : str := [67; 79; 77; 77; 73; 84].
Definition s_rollback : str := [82; 79; 76; 76; 66; 65; 67; 75].

Definition M {N : Type} (A : Type) : Type := world N -> outc A * world N.
Section Session.
Context {N : Type} (ops : netops N).
Notation W := (world N).
Notation M := (M (N := N)).
Definition ret {A} (a : A) : M A := fun w => (Ok a, w).
Definition panic {A} : M A := fun w => (Panic, w).
Definition nofuel {A} : M A := fun w => (NoFuel, w).
Definition bind {A B} (m : M A) (k : A -> M B) : M B := fun w =>
  match m w with
  | (Ok a, w') => k a w'
  | (Panic, w') => (Panic, w')
  | (NoFuel, w') => (NoFuel, w')
  end.
Notation "x <- m ;; k" := (bind m (fun x => k)) (at level 61, m at next level, right associativity).
Notation "' p <- m ;; k" := (bind m (fun x => match x with p => k end)) (at level 61, p pattern, m at next level, right associativity).
Notation "m ;; k" := (bind m (fun _ => k)) (at level 61, right associativity).

(** [defer d] around [m]: also runs when [m] panics. *)
Definition with_defer {A B} (m : M A) (d : M B) : M A := fun w =>
  match m w with
  | (Ok a, w') => match d w' with (Ok _, w'') => (Ok a, w'') | (Panic, w'') => (Panic, w'') | (NoFuel, w'') => (NoFuel, w'') end
  | (Panic, w') => match d w' with (NoFuel, w'') => (NoFuel, w'') | (_, w'') => (Panic, w'') end
  | (NoFuel, w') => (NoFuel, snd (d w'))          (* artificial; keeps the invariants *)
  end.

(** ** The heap *)
Definition getc : M conn := fun w => (Ok (w_conn w), w).
Definition setc (c : conn) : M unit := fun w =>
  (Ok tt, Build_world c (w_stmts w) (w_rows w) (w_txs w) (w_net w)).
Definition gets (i : nat) : M stmt := fun w => match nth_error (w_stmts w) i with Some s => (Ok s, w) | None => (Panic, w) end.
Definition sets (i : nat) (s : stmt) : M unit := fun w =>
  (Ok tt, Build_world (w_conn w) (upd i s (w_stmts w)) (w_rows w) (w_txs w) (w_net w)).
Definition news (s : stmt) : M nat := fun w =>
  (Ok (length (w_stmts w)), Build_world (w_conn w) (w_stmts w ++ [s]) (w_rows w) (w_txs w) (w_net w)).
Definition getr (i : nat) : M rows := fun w => match nth_error (w_rows w) i with Some s => (Ok s, w) | None => (Panic, w) end.
Definition setr (i : nat) (r : rows) : M unit := fun w =>
  (Ok tt, Build_world (w_conn w) (w_stmts w) (upd i r (w_rows w)) (w_txs w) (w_net w)).
Definition newr (r : rows) : M nat := fun w =>
  (Ok (length (w_rows w)), Build_world (w_conn w) (w_stmts w) (w_rows w ++ [r]) (w_txs w) (w_net w)).
Definition gett (i : nat) : M tx := fun w => match nth_error (w_txs w) i with Some s => (Ok s, w) | None => (Panic, w) end.
Definition sett (i : nat) (t : tx) : M unit := fun w =>
  (Ok tt, Build_world (w_conn w) (w_stmts w) (w_rows w) (upd i t (w_txs w)) (w_net w)).
Definition newt (t : tx) : M nat := fun w =>
  (Ok (length (w_txs w)), Build_world (w_conn w) (w_stmts w) (w_rows w) (w_txs w ++ [t]) (w_net w)).
Definition setn (n : N) : M unit := fun w =>
  (Ok tt, Build_world (w_conn w) (w_stmts w) (w_rows w) (w_txs w) n).
Definition getn : M N := fun w => (Ok (w_net w), w).

(** Single field updates. *)
Definition c_set_err (c : conn) : conn :=
  {| c_closed := c_closed c; c_err := true; c_tx := c_tx c; c_stmt := c_stmt c; c_pooled := c_pooled c; c_cs := c_cs c; c_reclaims := c_reclaims c |}.
Definition c_set_closed (c : conn) : conn :=
  {| c_closed := true; c_err := c_err c; c_tx := c_tx c; c_stmt := c_stmt c; c_pooled := c_pooled c; c_cs := c_cs c; c_reclaims := c_reclaims c |}.
Definition c_set_stmt (o : option nat) (c : conn) : conn :=
  {| c_closed := c_closed c; c_err := c_err c; c_tx := c_tx c; c_stmt := o; c_pooled := c_pooled c; c_cs := c_cs c; c_reclaims := c_reclaims c |}.
Definition c_set_tx (o : option nat) (c : conn) : conn :=
  {| c_closed := c_closed c; c_err := c_err c; c_tx := o; c_stmt := c_stmt c; c_pooled := c_pooled c; c_cs := c_cs c; c_reclaims := c_reclaims c |}.
Definition c_set_cs (z : Z) (c : conn) : conn :=
  {| c_closed := c_closed c; c_err := c_err c; c_tx := c_tx c; c_stmt := c_stmt c; c_pooled := c_pooled c; c_cs := z; c_reclaims := c_reclaims c |}.
Definition c_reclaimed (c : conn) : conn :=
  {| c_closed := c_closed c; c_err := c_err c; c_tx := c_tx c; c_stmt := c_stmt c; c_pooled := c_pooled c; c_cs := c_cs c; c_reclaims := c_reclaims c ++ [c_err c] |}.
Definition s_set_closed (s : stmt) : stmt :=
  {| s_queries := s_queries s; s_query := s_query s; s_conn := false; s_closed := true; s_rows := s_rows s |}.
Definition s_set_rows (o : option nat) (s : stmt) : stmt :=
  {| s_queries := s_queries s; s_query := s_query s; s_conn := s_conn s; s_closed := s_closed s; s_rows := o |}.
Definition r_set_closed (r : rows) : rows :=
  {| r_md := r_md r; r_stmt := r_stmt r; r_closed := true; r_consumed := r_consumed r; r_finished := r_finished r;
     r_pidx := r_pidx r; r_closeStmt := r_closeStmt r |}.
Definition r_set_consumed (r : rows) : rows :=
  {| r_md := r_md r; r_stmt := r_stmt r; r_closed := r_closed r; r_consumed := true; r_finished := r_finished r;
     r_pidx := r_pidx r; r_closeStmt := r_closeStmt r |}.
Definition r_set_finished (r : rows) : rows :=
  {| r_md := r_md r; r_stmt := r_stmt r; r_closed := r_closed r; r_consumed := r_consumed r; r_finished := true;
     r_pidx := r_pidx r; r_closeStmt := r_closeStmt r |}.
Definition r_set_closeStmt (r : rows) : rows :=
  {| r_md := r_md r; r_stmt := r_stmt r; r_closed := r_closed r; r_consumed := r_consumed r; r_finished := r_finished r;
     r_pidx := r_pidx r; r_closeStmt := true |}.
Definition modc (f : conn -> conn) : M unit := c <- getc ;; setc (f c).
Definition mods (i : nat) (f : stmt -> stmt) : M unit := s <- gets i ;; sets i (f s).
Definition modr (i : nat) (f : rows -> rows) : M unit := r <- getr i ;; setr i (f r).

(** A method call on s.conn: panics when it is nil (stmt.go:70). *)
Definition need_conn (sid : nat) : M unit := s <- gets sid ;; if s_conn s then ret tt else panic.

(** ** Messages *)
(** encoding.NewEncoder(c, c.chunkSize).Encode(v) *)
Definition encode_msg (v : goval) : M (option gerr) :=
  c <- getc ;; n <- getn ;;
  let '(n', r) := n_send ops n (c_cs c) v in
  setn n' ;;
  match r with
  | SOk => ret None
  | SRejected => ret (Some (enew FEnc 0))
  | SIOErr => modc c_set_err ;; ret (Some (ewrap FEnc 1 EBadConn))        (* conn.go:340-357 *)
  end.

(** encoding.NewDecoder(c).Decode() *)
Definition decode_msg : M (option goval * option gerr) :=
  n <- getn ;;
  let '(n', r) := n_recv ops n in
  setn n' ;;
  match r with
  | RMsg v => ret (Some v, None)
  | RDec pv e => ret (pv, Some e)
  | RNet => modc c_set_err ;; ret (None, Some (ewrap FDec 45 EBadConn))   (* conn.go:320-337 *)
  | RCrash => panic
  end.

Section Inner.
(** [lf]: fuel for the loops; [cls]: Conn.Close. *)
Variable lf : nat.
Variable cls : M (option gerr).

(** conn.go:445-471, the loop of reset *)
Fixpoint reset_loop (f : nat) : M (option gerr) :=
  match f with
  | O => nofuel
  | S f' =>
      '(v, e) <- decode_msg ;;
      match e with
      | Some e => ret (Some (ewrap FConn 448 e))
      | None =>
          match v with
          | Some VIgnored => reset_loop f'
          | Some (VSuccess _) => ret None
          | Some (VFailure m) => cls ;; ret (Some (ewrap FConn 464 (EFailMsg m)))
          | _ => modc c_set_err ;; cls ;; ret (Some EBadConn)
          end
      end
  end.
(** conn.go:436-472 reset *)
Definition reset : M (option gerr) :=
  e <- encode_msg VReset ;;
  match e with
  | Some e => ret (Some (ewrap FConn 442 e))
  | None => reset_loop lf
  end.
(** conn.go:411-433, the loop of ackFailure *)
Fixpoint ack_loop (f : nat) : M (option gerr) :=
  match f with
  | O => nofuel
  | S f' =>
      '(v, e) <- decode_msg ;;
      match e with
      | Some e => ret (Some (ewrap FConn 414 e))
      | None =>
          match v with
          | Some VIgnored => ack_loop f'
          | Some (VSuccess _) => ret None
          | Some (VFailure _) => reset
          | _ => modc c_set_err ;; cls ;; ret (Some EBadConn)
          end
      end
  end.
(** conn.go:402-434 ackFailure *)
Definition ack_failure : M (option gerr) :=
  e <- encode_msg VAckFailure ;;
  match e with
  | Some e => ret (Some (ewrap FConn 408 e))
  | None => ack_loop lf
  end.
(** conn.go:551-573 consume *)
Definition consume : M (option goval * option gerr) :=
  '(v, e) <- decode_msg ;;
  match e with
  | Some e => ret (v, Some e)
  | None =>
      match v with
      | Some (VFailure m) =>
          e <- ack_failure ;;
          match e with
          | Some e => ret (None, Some e)
          | None => ret (Some (VFailure m), Some (ewrap FConn 569 (EFailMsg m)))
          end
      | _ => ret (v, None)
      end
  end.
(** conn.go:575-592 consumeAll; the collected responses are dropped by every
    caller, so only the last response is returned *)
Fixpoint consume_all_loop (f : nat) : M (option goval * option gerr) :=
  match f with
  | O => nofuel
  | S f' =>
      '(v, e) <- consume ;;
      match e with
      | Some e => ret (v, Some e)
      | None =>
          match v with
          | Some (VSuccess m) => ret (Some (VSuccess m), None)
          | _ => consume_all_loop f'
          end
      end
  end.
Definition consume_all : M (option goval * option gerr) := consume_all_loop lf.
(** conn.go:594-611 consumeAllMultiple; make panics on a negative length *)
Fixpoint consume_all_n (n : nat) : M (option gerr) :=
  match n with
  | O => ret None
  | S n' =>
      '(_, e) <- consume_all ;;
      match e with
      | Some e => ret (Some e)
      | None => consume_all_n n'
      end
  end.
Definition consume_all_multiple (mult : Z) : M (option gerr) :=
  if mult <? 0 then panic else consume_all_n (Z.to_nat mult).

(** conn.go:624-632 sendRun *)
Definition send_run (q : str) (ps : md) : M (option gerr) :=
  e <- encode_msg (VRun q ps) ;;
  match e with Some e => ret (Some (ewrap FConn 628 e)) | None => ret None end.
(** conn.go:634-640 sendRunConsume *)
Definition send_run_consume (q : str) (ps : md) : M (option goval * option gerr) :=
  e <- send_run q ps ;;
  match e with Some e => ret (None, Some e) | None => consume end.
(** conn.go:642-652 sendPullAll *)
Definition send_pull_all : M (option gerr) :=
  e <- encode_msg VPullAll ;;
  match e with Some e => ret (Some (ewrap FConn 648 e)) | None => ret None end.
(** conn.go:662-669 sendRunPullAll *)
Definition send_run_pull_all (q : str) (ps : md) : M (option gerr) :=
  e <- send_run q ps ;;
  match e with Some e => ret (Some e) | None => send_pull_all end.
(** conn.go:671-678 sendRunPullAllConsumeRun *)
Definition send_run_pull_all_consume_run (q : str) (ps : md) : M (option goval * option gerr) :=
  e <- send_run_pull_all q ps ;;
  match e with Some e => ret (None, Some e) | None => consume end.
(** conn.go:680-693 sendRunPullAllConsumeSingle *)
Definition send_run_pull_all_consume_single (q : str) (ps : md) : M (option goval * option goval * option gerr) :=
  e <- send_run_pull_all q ps ;;
  match e with
  | Some e => ret (None, None, Some e)
  | None =>
      '(run, e) <- consume ;;
      match e with
      | Some e => ret (run, None, Some e)
      | None => '(pull, e) <- consume ;; ret (run, pull, e)
      end
  end.
(** conn.go:695-708 sendRunPullAllConsumeAll *)
Definition send_run_pull_all_consume_all (q : str) (ps : md) : M (option goval * option goval * option gerr) :=
  e <- send_run_pull_all q ps ;;
  match e with
  | Some e => ret (None, None, Some e)
  | None =>
      '(run, e) <- consume ;;
      match e with
      | Some e => ret (run, None, Some e)
      | None => '(pull, e) <- consume_all ;; ret (run, pull, e)
      end
  end.
(** conn.go:710-728 sendDiscardAll, sendDiscardAllConsume *)
Definition send_discard_all_consume : M (option goval * option gerr) :=
  e <- encode_msg VDiscardAll ;;
  match e with Some e => ret (None, Some (ewrap FConn 716 e)) | None => consume end.

(** ** rows.go:121-170 Close and stmt.go:57-72 Close *)
(** rows.go:126-164, for rows not yet closed *)
Definition rows_close_body (rid : nat) : M (option gerr) :=
  r <- getr rid ;;
  e <- (if negb (r_consumed r) then
          need_conn (r_stmt r) ;;
          '(v, e) <- send_discard_all_consume ;;
          match e with
          | Some e => ret (Some (ewrap FRows 130 e))
          | None => match v with Some (VSuccess _) => ret None | _ => ret (Some (enew FRows 137)) end
          end
        else if negb (r_finished r) then
          s <- gets (r_stmt r) ;;
          need_conn (r_stmt r) ;;
          e <- consume_all_multiple (if zlen (s_queries s) =? 0 then 1 else (zlen (s_queries s) - r_pidx r) * 2 - 1) ;;
          match e with Some e => ret (Some (ewrap FRows 159 e)) | None => ret None end
        else ret None) ;;
  match e with
  | Some e => ret (Some e)
  | None => modr rid r_set_closed ;; mods (r_stmt r) (s_set_rows None) ;; ret None
  end.
Definition stmt_close (sid : nat) : M (option gerr) :=
  s <- gets sid ;;
  if s_closed s then ret None
  else
    e <- match s_rows s with
         | None => ret None
         | Some rid =>
             r <- getr rid ;;
             if r_closeStmt r then ret None
             else if r_closed r then ret None
             else rows_close_body rid
         end ;;
    match e with
    | Some e => ret (Some e)
    | None => need_conn sid ;; modc (c_set_stmt None) ;; mods sid s_set_closed ;; ret None
    end.
Definition rows_close (rid : nat) : M (option gerr) :=
  r <- getr rid ;;
  if r_closed r then ret None
  else
    e <- rows_close_body rid ;;
    match e with
    | Some e => ret (Some e)
    | None => if r_closeStmt r then stmt_close (r_stmt r) else ret None
    end.

(** ** tx.go:29-61 Commit, 64-96 Rollback; [l] are the source lines of the errors *)
Definition tx_finish (q : str) (l1 l2 l3 l4 l5 : Z) (tid : nat) : M (option gerr) :=
  t <- gett tid ;;
  if t_closed t then ret (Some (enew FTx l1))
  else
    c <- getc ;;
    e <- match c_stmt c with None => ret None | Some sid => stmt_close sid end ;;
    match e with
    | Some e => ret (Some (ewrap FTx l2 e))
    | None =>
        '(run, pull, e) <- send_run_pull_all_consume_single q [] ;;
        match e with
        | Some e => ret (Some (ewrap FTx l3 e))
        | None =>
            match run with
            | Some (VSuccess _) =>
                match pull with
                | Some (VSuccess _) =>
                    modc (c_set_tx None) ;; sett tid {| t_closed := true |} ;; ret None
                | _ => ret (Some (enew FTx l5))
                end
            | _ => ret (Some (enew FTx l4))
            end
        end
    end.
Definition commit : nat -> M (option gerr) := tx_finish s_commit 31 35 41 46 53.
Definition rollback : nat -> M (option gerr) := tx_finish s_rollback 66 70 76 81 88.

(** ** conn.go:361-400 Close *)
Definition close_body : M (option gerr) :=
  c <- getc ;;
  if c_closed c then ret None
  else
    e <- match c_stmt c with None => ret None | Some sid => stmt_close sid end ;;
    match e with
    | Some e => ret (Some e)
    | None =>
        c <- getc ;;
        e <- match c_tx c with None => ret None | Some tid => rollback tid end ;;
        match e with
        | Some e => ret (Some (ewrap FConn 375 e))
        | None =>
            c <- getc ;;
            if c_pooled c then modc c_reclaimed ;; ret None               (* driver.go:176-195 *)
            else
              n <- getn ;;
              let '(n', failed) := n_close ops n in
              setn n' ;; modc c_set_closed ;;
              if failed then modc c_set_err ;; ret (Some EBadConn) else ret None
        end
    end.

(** ** conn.go:292-316, the part of initialize after dialling *)
Definition initialize (user password : str) : M (option gerr) :=
  n <- getn ;;
  let '(n', (bad, e)) := n_shake ops n in
  setn n' ;; (if bad then modc c_set_err else ret tt) ;;
  match e with
  | Some e => cls ;; ret (Some e)
  | None =>
      e <- encode_msg (init_message client_id user password) ;;
      '(v, e) <- match e with
                 | Some e => ret (None, Some (ewrap FConn 618 e))
                 | None => consume
                 end ;;
      match e with
      | Some e => cls ;; ret (Some e)
      | None =>
          match v with
          | Some (VSuccess _) => ret None
          | _ => modc c_set_err ;; cls ;; ret (Some EBadConn)
          end
      end
  end.

(** ** conn.go:480-505 PrepareNeo, PreparePipeline *)
Definition new_stmt (q : str) : stmt := {| s_queries := []; s_query := q; s_conn := true; s_closed := false; s_rows := None |}.
Definition new_pipe_stmt (qs : list str) : stmt := {| s_queries := qs; s_query := []; s_conn := true; s_closed := false; s_rows := None |}.
(** the two checks that open almost every Conn method *)
Definition guard_open {A} (l1 l2 : Z) (bad : gerr -> A) (k : M A) : M A :=
  c <- getc ;;
  match c_stmt c with
  | Some _ => ret (bad (enew FConn l1))
  | None => if c_closed c then ret (bad (enew FConn l2)) else k
  end.
Definition prepare (q : str) : M (option nat * option gerr) :=
  guard_open 498 501 (fun e => (None, Some e))
    (sid <- news (new_stmt q) ;; modc (c_set_stmt (Some sid)) ;; ret (Some sid, None)).
Definition prepare_pipeline (qs : list str) : M (option nat * option gerr) :=
  guard_open 487 490 (fun e => (None, Some e))
    (sid <- news (new_pipe_stmt qs) ;; modc (c_set_stmt (Some sid)) ;; ret (Some sid, None)).

(** ** conn.go:508-539 Begin *)
Definition begin_tx : M (option nat * option gerr) :=
  c <- getc ;;
  match c_tx c with
  | Some _ => ret (None, Some (enew FConn 510))
  | None =>
      guard_open 513 516 (fun e => (None, Some e))
        ('(run, pull, e) <- send_run_pull_all_consume_single s_begin [] ;;
         match e with
         | Some e => ret (None, Some (ewrap FConn 521 e))
         | None =>
             match run with
             | Some (VSuccess _) =>
                 match pull with
                 | Some (VSuccess _) => tid <- newt {| t_closed := false |} ;; ret (Some tid, None)
                 | _ => ret (None, Some (enew FConn 533))
                 end
             | _ => ret (None, Some (enew FConn 526))
             end
         end)
  end.

(** conn.go:542-544 SetChunkSize *)
Definition set_chunk_size (z : Z) : M unit := modc (c_set_cs z).

(** ** stmt.go:91-120 ExecNeo *)
Definition stmt_exec (sid : nat) (ps : md) : M (option md * option gerr) :=
  s <- gets sid ;;
  if s_closed s then ret (None, Some (enew FStmt 93))
  else match s_rows s with
  | Some _ => ret (None, Some (enew FStmt 96))
  | None =>
      need_conn sid ;;
      '(run, pull, e) <- send_run_pull_all_consume_all (s_query s) ps ;;
      match e with
      | Some e => ret (None, Some e)
      | None =>
          match run with
          | Some (VSuccess _) =>
              match pull with
              | Some (VSuccess m) => ret (Some m, None)
              | _ => ret (None, Some (enew FStmt 114))
              end
          | _ => ret (None, Some (enew FStmt 106))
          end
      end
  end.

(** stmt.go:134-139 and 222-227: send all queries of a pipeline; [l] is the line
    of the wrapping.  The lengths have been compared before. *)
Fixpoint send_queries (l : Z) (qs : list str) (pss : list md) : M (option gerr) :=
  match qs, pss with
  | q :: qs', ps :: pss' =>
      e <- send_run_pull_all q ps ;;
      match e with
      | Some e => ret (Some (ewrap FStmt l e))
      | None => send_queries l qs' pss'
      end
  | _, _ => ret None
  end.
(** stmt.go:144-167 *)
Fixpoint exec_results (qs : list str) : M (list md * option gerr) :=
  match qs with
  | [] => ret ([], None)
  | _ :: qs' =>
      '(run, e) <- consume ;;
      match e with
      | Some e => ret ([], Some (ewrap FStmt 147 e))
      | None =>
          match run with
          | Some (VSuccess _) =>
              '(pull, e) <- consume_all ;;
              match e with
              | Some e => ret ([], Some (ewrap FStmt 157 e))
              | None =>
                  match pull with
                  | Some (VSuccess m) =>
                      '(ms, e) <- exec_results qs' ;;
                      match e with Some e => ret ([], Some e) | None => ret (m :: ms, None) end
                  | _ => ret ([], Some (enew FStmt 162))
                  end
              end
          | _ => ret ([], Some (enew FStmt 152))
          end
      end
  end.
(** stmt.go:122-170 ExecPipeline *)
Definition stmt_exec_pipeline (sid : nat) (pss : list md) : M (option (list md) * option gerr) :=
  s <- gets sid ;;
  if s_closed s then ret (None, Some (enew FStmt 124))
  else match s_rows s with
  | Some _ => ret (None, Some (enew FStmt 127))
  | None =>
      if negb (zlen pss =? zlen (s_queries s)) then ret (None, Some (enew FStmt 131))
      else
        (match s_queries s with [] => ret tt | _ => need_conn sid end) ;;
        e <- send_queries 137 (s_queries s) pss ;;
        match e with
        | Some e => ret (None, Some e)
        | None =>
            '(ms, e) <- exec_results (s_queries s) ;;
            match e with Some e => ret (None, Some e) | None => ret (Some ms, None) end
        end
  end.

(** rows.go:65-84 *)
Definition new_rows (sid : nat) (m : md) : rows :=
  {| r_md := m; r_stmt := sid; r_closed := false; r_consumed := false; r_finished := false; r_pidx := 0; r_closeStmt := false |}.
Definition new_query_rows (sid : nat) (m : md) : rows :=
  {| r_md := m; r_stmt := sid; r_closed := false; r_consumed := true; r_finished := false; r_pidx := 0; r_closeStmt := true |}.
Definition new_pipeline_rows (sid : nat) (m : md) (i : Z) : rows :=
  {| r_md := m; r_stmt := sid; r_closed := false; r_consumed := true; r_finished := false; r_pidx := i; r_closeStmt := false |}.

(** ** stmt.go:187-208 queryNeo *)
Definition stmt_query (sid : nat) (ps : md) : M (option nat * option gerr) :=
  s <- gets sid ;;
  if s_closed s then ret (None, Some (enew FStmt 189))
  else match s_rows s with
  | Some _ => ret (None, Some (enew FStmt 192))
  | None =>
      need_conn sid ;;
      '(v, e) <- send_run_consume (s_query s) ps ;;
      match e with
      | Some e => ret (None, Some e)
      | None =>
          match v with
          | Some (VSuccess m) =>
              rid <- newr (new_rows sid m) ;; mods sid (s_set_rows (Some rid)) ;; ret (Some rid, None)
          | _ => ret (None, Some (enew FStmt 202))
          end
      end
  end.
(** stmt.go:210-243 QueryPipeline *)
Definition stmt_query_pipeline (sid : nat) (pss : list md) : M (option nat * option gerr) :=
  s <- gets sid ;;
  if s_closed s then ret (None, Some (enew FStmt 212))
  else match s_rows s with
  | Some _ => ret (None, Some (enew FStmt 215))
  | None =>
      if negb (zlen pss =? zlen (s_queries s)) then ret (None, Some (enew FStmt 219))
      else
        need_conn sid ;;
        e <- send_queries 225 (s_queries s) pss ;;
        match e with
        | Some e => ret (None, Some e)
        | None =>
            '(v, e) <- consume ;;
            match e with
            | Some e => ret (None, Some (ewrap FStmt 233 e))
            | None =>
                match v with
                | Some (VSuccess m) =>
                    rid <- newr (new_pipeline_rows sid m 0) ;; mods sid (s_set_rows (Some rid)) ;; ret (Some rid, None)
                | _ => ret (None, Some (enew FStmt 238))
                end
            end
        end
  end.

(** ** conn.go:772-796 queryNeo.  c.statement may have become nil (conn.go:460 via
    stmt.go:69), then c.statement.Close() panics. *)
Definition close_cur_stmt : M unit :=
  c <- getc ;;
  match c_stmt c with None => panic | Some sid => stmt_close sid ;; ret tt end.
Definition query_neo (q : str) (ps : md) : M (option nat * option gerr) :=
  guard_open 774 777 (fun e => (None, Some e))
    (sid <- news (new_stmt q) ;; modc (c_set_stmt (Some sid)) ;;
     '(v, e) <- send_run_pull_all_consume_run q ps ;;
     match e with
     | Some e => close_cur_stmt ;; ret (None, Some e)
     | None =>
         match v with
         | Some (VSuccess m) =>
             c <- getc ;;
             match c_stmt c with
             | None => panic
             | Some sid' => rid <- newr (new_query_rows sid' m) ;; mods sid' (s_set_rows (Some rid)) ;; ret (Some rid, None)
             end
         | _ => close_cur_stmt ;; ret (None, Some (enew FConn 791))
         end
     end).

(** ** conn.go:798-816 QueryPipeline *)
Definition query_pipeline (qs : list str) (pss : list md) : M (option nat * option gerr) :=
  guard_open 800 803 (fun e => (None, Some e))
    (sid <- news (new_pipe_stmt qs) ;; modc (c_set_stmt (Some sid)) ;;
     '(r, e) <- stmt_query_pipeline sid pss ;;
     match e with
     | Some e => ret (None, Some e)
     | None =>
         match r with
         | Some rid => modr rid r_set_closeStmt ;; ret (Some rid, None)
         | None => panic
         end
     end).

(** ** conn.go:835-861 ExecNeo, ExecPipeline *)
Definition exec_neo (q : str) (ps : md) : M (option md * option gerr) :=
  guard_open 837 840 (fun e => (None, Some e))
    (sid <- news (new_stmt q) ;; with_defer (stmt_exec sid ps) (stmt_close sid)).
Definition exec_pipeline (qs : list str) (pss : list md) : M (option (list md) * option gerr) :=
  guard_open 851 854 (fun e => (None, Some e))
    (sid <- news (new_pipe_stmt qs) ;; with_defer (stmt_exec_pipeline sid pss) (stmt_close sid)).

(** ** rows.go:201-230 NextNeo *)
Definition next_neo (rid : nat) : M (option (list goval) * option md * option gerr) :=
  r <- getr rid ;;
  if r_closed r then ret (None, None, Some (enew FRows 203))
  else
    e <- (if negb (r_consumed r) then
            modr rid r_set_consumed ;;
            need_conn (r_stmt r) ;;
            e <- send_pull_all ;;
            match e with
            | Some e => modr rid r_set_finished ;; ret (Some e)
            | None => ret None
            end
          else ret None) ;;
    match e with
    | Some e => ret (None, None, Some e)
    | None =>
        need_conn (r_stmt r) ;;
        '(v, e) <- consume ;;
        match e with
        | Some e => ret (None, None, Some e)
        | None =>
            match v with
            | Some (VSuccess m) => modr rid r_set_finished ;; ret (None, Some m, Some EEOF)
            | Some (VRecord fs) => ret (Some fs, None, None)
            | _ => ret (None, None, Some (enew FRows 228))
            end
        end
    end.
(** rows.go:232-244 All *)
Fixpoint all_loop (f : nat) (rid : nat) (acc : list (list goval)) : M (list (list goval) * option md * option gerr) :=
  match f with
  | O => nofuel
  | S f' =>
      '(row, m, e) <- next_neo rid ;;
      match e with
      | Some EEOF => ret (acc, m, None)
      | Some e => ret (acc, m, Some e)
      | None =>
          match row with
          | None => ret (acc, m, None)
          | Some row => all_loop f' rid (acc ++ [row])
          end
      end
  end.
Definition all_rows (rid : nat) : M (list (list goval) * option md * option gerr) := all_loop lf rid [].

(** conn.go:761-770 QueryNeoAll *)
Definition query_neo_all (q : str) (ps : md) : M (option (list (list goval)) * option md * option md * option gerr) :=
  '(r, e) <- query_neo q ps ;;
  match e with
  | Some e => ret (None, None, None, Some e)
  | None =>
      match r with
      | None => panic
      | Some rid =>
          with_defer ('(data, m, e) <- all_rows rid ;; r <- getr rid ;; ret (Some data, Some (r_md r), m, e)) (rows_close rid)
      end
  end.

(** rows.go:250-289 NextPipeline *)
Definition next_pipeline (rid : nat) : M (option (list goval) * option md * option nat * option gerr) :=
  r <- getr rid ;;
  if r_closed r then ret (None, None, None, Some (enew FRows 252))
  else
    need_conn (r_stmt r) ;;
    '(v, e) <- consume ;;
    match e with
    | Some e => ret (None, None, None, Some e)
    | None =>
        match v with
        | Some (VSuccess _) =>
            s <- gets (r_stmt r) ;;
            if r_pidx r =? zlen (s_queries s) - 1 then
              modr rid r_set_finished ;; ret (None, None, None, None)
            else
              need_conn (r_stmt r) ;;
              '(v, e) <- consume ;;
              match (match e with Some EEOF => None | _ => e end) with
              | Some e => ret (None, None, None, Some (ewrap FRows 271 e))
              | None =>
                  match v with
                  | Some (VSuccess m) =>
                      rid' <- newr {| r_md := m; r_stmt := r_stmt r; r_closed := false; r_consumed := true; r_finished := false;
                                      r_pidx := r_pidx r + 1; r_closeStmt := r_closeStmt r |} ;;
                      mods (r_stmt r) (s_set_rows (Some rid')) ;;
                      ret (None, Some m, Some rid', None)
                  | _ => ret (None, None, None, Some (enew FRows 276))
                  end
              end
        | Some (VRecord fs) => ret (Some fs, None, None, None)
        | _ => ret (None, None, None, Some (enew FRows 287))
        end
    end.

(** ** The database/sql interface *)
Variable mk : bool.                     (* how make treats huge sizes, see Decoder.v *)
(** driverArgsToMap followed by a call (stmt.go:82-88, 174-180; conn.go:749-755) *)
Definition with_args {A} (bad : gerr -> A) (args : list darg) (k : md -> M A) : M A :=
  match driver_args mk args with
  | AOk ps => k ps
  | AErr => ret (bad (enew FUtil 38))
  | APanic => panic
  end.
Definition stmt_exec_sql (sid : nat) (args : list darg) : M (option md * option gerr) :=
  with_args (fun e => (None, Some e)) args (stmt_exec sid).
Definition stmt_query_sql (sid : nat) (args : list darg) : M (option nat * option gerr) :=
  with_args (fun e => (None, Some e)) args (stmt_query sid).
(** conn.go:820-832 Exec *)
Definition exec_sql (q : str) (args : list darg) : M (option md * option gerr) :=
  guard_open 822 825 (fun e => (None, Some e))
    (sid <- news (new_stmt q) ;; with_defer (stmt_exec_sql sid args) (stmt_close sid)).
(** conn.go:749-755 Query *)
Definition query_sql (q : str) (args : list darg) : M (option nat * option gerr) :=
  with_args (fun e => (None, Some e)) args (query_neo q).
(** rows.go:173-196 Next with a destination of [n] cells *)
Definition next_sql (rid : nat) (n : Z) : M (list dval * option gerr) :=
  '(row, m, e) <- next_neo rid ;;
  match e with
  | Some e => ret ([], Some e)
  | None =>
      match fill n (match row with Some r => r | None => [] end) with
      | (ds, NDone) => ret (ds, None)
      | (ds, NErr) => ret (ds, Some (enew FRows 184))
      | (_, NPanic) => panic
      end
  end.

(** ** API calls.  Handles are the numbers of the objects, in order of creation. *)
Inductive op :=
| CPrepare (q : str) | CPreparePipeline (qs : list str) | CBegin | CSetChunkSize (z : Z) | CClose
| CExec (q : str) (ps : md) | CExecPipeline (qs : list str) (pss : list md)
| CQuery (q : str) (ps : md) | CQueryAll (q : str) (ps : md) | CQueryPipeline (qs : list str) (pss : list md)
| CExecSql (q : str) (args : list darg) | CQuerySql (q : str) (args : list darg)
| SExec (s : nat) (ps : md) | SExecPipeline (s : nat) (pss : list md)
| SQuery (s : nat) (ps : md) | SQueryPipeline (s : nat) (pss : list md) | SClose (s : nat)
| SExecSql (s : nat) (args : list darg) | SQuerySql (s : nat) (args : list darg)
| RNext (r : nat) | RAll (r : nat) | RNextPipeline (r : nat) | RNextSql (r : nat) (n : Z) | RClose (r : nat)
| RMeta (r : nat)                                          (* Metadata; Columns is a function of it, see Misc.v *)
| TCommit (t : nat) | TRollback (t : nat).

(** What a call returns, as the Go tuple. *)
Inductive out :=
| OErr (e : option gerr) | OUnit
| OHandle (h : option nat) (e : option gerr)              (* Stmt, Tx, Rows *)
| OResult (m : option md) (e : option gerr)
| OResults (ms : option (list md)) (e : option gerr)
| ONext (row : option (list goval)) (m : option md) (e : option gerr)
| OAll (data : list (list goval)) (m : option md) (e : option gerr)
| OQueryAll (data : option (list (list goval))) (m m' : option md) (e : option gerr)
| OPipe (row : option (list goval)) (m : option md) (r : option nat) (e : option gerr)
| OCells (ds : list dval) (e : option gerr)
| OMeta (m : md).

Definition step_body (o : op) : M out :=
  match o with
  | CPrepare q => '(h, e) <- prepare q ;; ret (OHandle h e)
  | CPreparePipeline qs => '(h, e) <- prepare_pipeline qs ;; ret (OHandle h e)
  | CBegin => '(h, e) <- begin_tx ;; ret (OHandle h e)
  | CSetChunkSize z => set_chunk_size z ;; ret OUnit
  | CClose => e <- cls ;; ret (OErr e)
  | CExec q ps => '(m, e) <- exec_neo q ps ;; ret (OResult m e)
  | CExecPipeline qs pss => '(m, e) <- exec_pipeline qs pss ;; ret (OResults m e)
  | CQuery q ps => '(h, e) <- query_neo q ps ;; ret (OHandle h e)
  | CQueryAll q ps => '(d, m, m', e) <- query_neo_all q ps ;; ret (OQueryAll d m m' e)
  | CQueryPipeline qs pss => '(h, e) <- query_pipeline qs pss ;; ret (OHandle h e)
  | CExecSql q args => '(m, e) <- exec_sql q args ;; ret (OResult m e)
  | CQuerySql q args => '(h, e) <- query_sql q args ;; ret (OHandle h e)
  | SExec s ps => '(m, e) <- stmt_exec s ps ;; ret (OResult m e)
  | SExecPipeline s pss => '(m, e) <- stmt_exec_pipeline s pss ;; ret (OResults m e)
  | SQuery s ps => '(h, e) <- stmt_query s ps ;; ret (OHandle h e)
  | SQueryPipeline s pss => '(h, e) <- stmt_query_pipeline s pss ;; ret (OHandle h e)
  | SClose s => e <- stmt_close s ;; ret (OErr e)
  | SExecSql s args => '(m, e) <- stmt_exec_sql s args ;; ret (OResult m e)
  | SQuerySql s args => '(h, e) <- stmt_query_sql s args ;; ret (OHandle h e)
  | RNext r => '(row, m, e) <- next_neo r ;; ret (ONext row m e)
  | RAll r => '(d, m, e) <- all_rows r ;; ret (OAll d m e)
  | RNextPipeline r => '(row, m, h, e) <- next_pipeline r ;; ret (OPipe row m h e)
  | RNextSql r n => '(ds, e) <- next_sql r n ;; ret (OCells ds e)
  | RClose r => e <- rows_close r ;; ret (OErr e)
  | RMeta r => x <- getr r ;; ret (OMeta (r_md x))                         (* rows.go:116-118 *)
  | TCommit t => e <- commit t ;; ret (OErr e)
  | TRollback t => e <- rollback t ;; ret (OErr e)
  end.
End Inner.

(** Conn.Close with fuel for its nesting and for the loops inside. *)
Fixpoint close (f : nat) : M (option gerr) :=
  match f with
  | O => nofuel
  | S f' => close_body f' (close f')
  end.

Definition step (mk : bool) (f : nat) (o : op) : M out := step_body f (close f) mk o.

(** A history: the results of the calls up to the first panic (or lack of fuel). *)
Fixpoint run (mk : bool) (f : nat) (os : list op) (w : W) : list out * outc unit * W :=
  match os with
  | [] => ([], Ok tt, w)
  | o :: os' =>
      match step mk f o w with
      | (Ok a, w') => let '(l, r, w'') := run mk f os' w' in (a :: l, r, w'')
      | (Panic, w') => ([], Panic, w')
      | (NoFuel, w') => ([], NoFuel, w')
      end
  end.

(** The world after opening a connection (createBoltConn, initialize succeeded). *)
Definition fresh (pooled : bool) (n : N) : W :=
  Build_world {| c_closed := false; c_err := false; c_tx := None; c_stmt := None; c_pooled := pooled; c_cs := 65535; c_reclaims := [] |}
    [] [] [] n.
End Session.

Notation "x <- m ;; k" := (bind m (fun x => k)) (at level 61, m at next level, right associativity).
Notation "' p <- m ;; k" := (bind m (fun x => match x with p => k end)) (at level 61, p pattern, m at next level, right associativity).
Notation "m ;; k" := (bind m (fun _ => k)) (at level 61, right associativity).
