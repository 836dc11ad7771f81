(** What a client may expect of the driver when the server follows Bolt v1: an
    abstract machine without messages, queues or protocol states.  It knows the
    database, what is open, and for an open row set what is left of its stream.

    [expect st o] is the result of the call [o] in state [st]; [None] means that
    the machine promises nothing (for instance reading past the end of the rows,
    see C32, or using handles that do not exist). *)
From Coq Require Import ZArith List Bool.
From Verif Require Import GoPrims Value Errors Misc Session SessionVoc ServerSpec.
Import ListNotations.
Open Scope Z_scope.

(** ** Results *)
Inductive sout :=
| ANil                                                     (* only a nil error *)
| AUnit
| AHandle                                                 (* a new statement, row set or transaction *)
| AResult (m : md)                                        (* the summary of a query *)
| AResults (ms : list md)                                 (* the summaries of a pipeline *)
| ARow (fs : list goval) | AEnd (m : md)                  (* NextNeo: a record; io.EOF with the summary *)
| AAll (recs : list (list goval)) (m : md)                (* All: the records and the summary *)
| AAllFailed (recs : list (list goval)) (m : md)          (* All: the records before the FAILURE m *)
| AQueryAll (recs : list (list goval)) (h m : md)
| AQueryAllFailed (recs : list (list goval)) (h m : md)
| APipeRow (fs : list goval) | APipeNext (h : md) | APipeEnd
| ACells (ds : list dval) | ACellsBad | ACellsEnd         (* sql Next *)
| AMeta (m : md)
| AFailed (m : md)                                        (* the FAILURE m of the server, nothing else *)
| ARefused.                                               (* an error of the driver itself, nothing else *)

Definition conforms (a : sout) (r : out) : Prop :=
  match a with
  | ANil => r = OErr None
  | AUnit => r = OUnit
  | AHandle => exists h, r = OHandle (Some h) None
  | AResult m => r = OResult (Some m) None
  | AResults ms => r = OResults (Some ms) None
  | ARow fs => r = ONext (Some fs) None None
  | AEnd m => r = ONext None (Some m) (Some EEOF)
  | AAll recs m => r = OAll recs (Some m) None
  | AAllFailed recs m => exists e, r = OAll recs None (Some e) /\ failure_error m e
  | AQueryAll recs h m => r = OQueryAll (Some recs) (Some h) (Some m) None
  | AQueryAllFailed recs h m => exists e, r = OQueryAll (Some recs) (Some h) None (Some e) /\ failure_error m e
  | APipeRow fs => r = OPipe (Some fs) None None None
  | APipeNext h => exists x, r = OPipe None (Some h) (Some x) None
  | APipeEnd => r = OPipe None None None None
  | ACells ds => r = OCells ds None
  | ACellsBad => exists ds e, r = OCells ds (Some e) /\ driver_error e
  | ACellsEnd => r = OCells [] (Some EEOF)
  | AMeta m => r = OMeta m
  | AFailed m => failed_with m r
  | ARefused => refused r
  end.
(** the object a call returned *)
Definition handle_of (r : out) : nat :=
  match r with OHandle (Some h) _ | OPipe _ _ (Some h) _ => h | _ => 0%nat end.

(** ** States *)
Inductive kind := One (q : str) | Many (qs : list str).
(** What is left of a row set: of a single query; of a pipeline, with the outcomes of
    the queries after the current one (None: not run because an earlier one failed);
    nothing, because its end has been reported. *)
Inductive source :=
| Single (recs : list (list goval)) (fin : stream_end)
| Pipe (recs : list (list goval)) (fin : stream_end) (rest : list (option outcome))
| Done.
Inductive phase :=
| PIdle                                                   (* nothing open *)
| PStmt (s : nat) (k : kind)                              (* a prepared statement *)
| PRows (owner : option (nat * kind)) (r : nat) (h : md) (x : source)
                                                          (* a row set of a prepared statement, or of Conn.Query... *)
| PLost (closable : bool)                                 (* only refuses work; closable: the connection can be closed *)
| PClosed.
(** [sp_ds], [sp_dr], [sp_dt]: closed statements, row sets, transactions *)
Record sst (DB : Type) := { sp_db : DB; sp_phase : phase; sp_tx : option nat; sp_ds : list nat; sp_dr : list nat; sp_dt : list nat }.
Arguments sp_db {DB}. Arguments sp_phase {DB}. Arguments sp_tx {DB}. Arguments sp_ds {DB}. Arguments sp_dr {DB}. Arguments sp_dt {DB}.
Arguments Build_sst {DB}.

Definition fails (o : outcome) : option md :=
  match o with RunFails m | Runs _ _ (Breaks m) => Some m | Runs _ _ (Ends _) => None end.
(** the first failure of a pipeline *)
Fixpoint first_failure (l : list (option outcome)) : option md :=
  match l with
  | [] => None
  | Some o :: l' => match fails o with Some m => Some m | None => first_failure l' end
  | None :: l' => first_failure l'
  end.
Fixpoint summaries (l : list (option outcome)) : list md :=
  match l with
  | Some (Runs _ _ (Ends m)) :: l' => m :: summaries l'
  | _ :: l' => summaries l'
  | [] => []
  end.
(** the failure met when the rest of a row set is read, if any *)
Definition drain (x : source) : option md :=
  match x with
  | Single recs fin => fails (Runs [] recs fin)
  | Pipe recs fin rest => first_failure (Some (Runs [] recs fin) :: rest)
  | Done => None
  end.

Section Spec.
Context {DB : Type}.
Variable exec : DB -> str -> md -> DB * outcome.
Variable sendable : goval -> bool.
Variable mk : bool.
Variable pooled : bool.
Notation sst := (sst DB).

Definition to (ph : phase) (st : sst) : sst := Build_sst (sp_db st) ph (sp_tx st) (sp_ds st) (sp_dr st) (sp_dt st).
Definition with_db (db : DB) (st : sst) : sst := Build_sst db (sp_phase st) (sp_tx st) (sp_ds st) (sp_dr st) (sp_dt st).
Definition with_tx (t : option nat) (st : sst) : sst := Build_sst (sp_db st) (sp_phase st) t (sp_ds st) (sp_dr st) (sp_dt st).
Definition bury_s (s : nat) (st : sst) : sst := Build_sst (sp_db st) (sp_phase st) (sp_tx st) (s :: sp_ds st) (sp_dr st) (sp_dt st).
Definition bury_r (r : nat) (st : sst) : sst := Build_sst (sp_db st) (sp_phase st) (sp_tx st) (sp_ds st) (r :: sp_dr st) (sp_dt st).
Definition bury_t (t : nat) (st : sst) : sst := Build_sst (sp_db st) (sp_phase st) (sp_tx st) (sp_ds st) (sp_dr st) (t :: sp_dt st).

(** result, and the next state as a function of the object returned *)
Definition res : Type := option (sout * (nat -> sst)).
Definition says (a : sout) (st : sst) : res := Some (a, fun _ => st).

(** run a query to its end and keep only the summary *)
Definition run_exec (q : str) (ps : md) (st : sst) : res :=
  if sendable (VRun q ps) then
    match exec (sp_db st) q ps with
    | (db, RunFails m) | (db, Runs _ _ (Breaks m)) => says (AFailed m) (with_db db st)
    | (db, Runs _ _ (Ends m)) => says (AResult m) (with_db db st)
    end
  else says ARefused st.

(** queries in order; after the first failure nothing is run *)
Fixpoint run_pipe (db : DB) (l : list (str * md)) : DB * list (option outcome) :=
  match l with
  | [] => (db, [])
  | (q, ps) :: l' =>
      let '(db', o) := exec db q ps in
      match fails o with
      | Some _ => (db', Some o :: map (fun _ => None) l')
      | None => let '(db'', os) := run_pipe db' l' in (db'', Some o :: os)
      end
  end.
Definition all_sendable (l : list (str * md)) : bool := forallb (fun x => sendable (VRun (fst x) (snd x))) l.
Definition none_sendable (l : list (str * md)) : bool := match l with x :: _ => negb (sendable (VRun (fst x) (snd x))) | [] => false end.
Definition run_exec_pipe (qs : list str) (pss : list md) (st : sst) : res :=
  if negb (length pss =? length qs)%nat then says ARefused st
  else
    let l := combine qs pss in
    if all_sendable l then
      let '(db, os) := run_pipe (sp_db st) l in
      match first_failure os with
      | Some m => says (AFailed m) (with_db db st)
      | None => says (AResults (summaries os)) (with_db db st)
      end
    else if none_sendable l then says ARefused st else None.

(** open a row set for a query; [bad] is the state to be in when that fails *)
Definition run_query (owner : option (nat * kind)) (q : str) (ps : md) (st : sst) : res :=
  if sendable (VRun q ps) then
    match exec (sp_db st) q ps with
    | (db, RunFails m) => says (AFailed m) (with_db db st)
    | (db, Runs h recs fin) => Some (AHandle, fun r => to (PRows owner r h (Single recs fin)) (with_db db st))
    end
  else says ARefused st.
Definition run_query_pipe (owner : option (nat * kind)) (bad : phase) (qs : list str) (pss : list md) (st : sst) : res :=
  if negb (length pss =? length qs)%nat then says ARefused (to bad st)
  else
    let l := combine qs pss in
    match l with
    | [] => None
    | _ :: _ =>
        if all_sendable l then
          match run_pipe (sp_db st) l with
          | (db, Some (RunFails m) :: _) => says (AFailed m) (to bad (with_db db st))
          | (db, Some (Runs h recs fin) :: rest) => Some (AHandle, fun r => to (PRows owner r h (Pipe recs fin rest)) (with_db db st))
          | _ => None
          end
        else if none_sendable l then says ARefused (to bad st) else None
    end.

(** BEGIN, COMMIT, ROLLBACK: nothing is promised if they return records *)
Definition control (q : str) (st : sst) (fine : sst -> res) : res :=
  match exec (sp_db st) q [] with
  | (db, RunFails m) | (db, Runs _ [] (Breaks m)) => says (AFailed m) (with_db db st)
  | (db, Runs _ [] (Ends _)) => fine (with_db db st)
  | _ => None
  end.

(** after a FAILURE while reading rows or closing them *)
Definition lost (owner : option (nat * kind)) : phase := PLost (match owner with None => true | Some _ => false end).

(** close whatever is open on the connection, as Commit, Rollback and Close do *)
Definition close_open (st : sst) (k : sst -> res) : res :=
  match sp_phase st with
  | PIdle => k st
  | PStmt s _ => k (to PIdle (bury_s s st))
  | PRows (Some (s, _)) r _ x =>
      match drain x with
      | None => k (to PIdle (bury_s s (bury_r r st)))
      | Some m => says (AFailed m) (to (PLost false) st)
      end
  | PLost true => k (to PIdle st)
  | _ => None
  end.

Definition conn_op (o : op) (st : sst) : res :=
  match sp_phase st with
  | PClosed => if pooled then None else says ARefused st
  | PStmt _ _ | PRows _ _ _ _ | PLost _ => says ARefused st
  | PIdle =>
      match o with
      | CPrepare q => Some (AHandle, fun s => to (PStmt s (One q)) st)
      | CPreparePipeline qs => Some (AHandle, fun s => to (PStmt s (Many qs)) st)
      | CBegin =>
          match sp_tx st with
          | Some _ => control s_begin st (fun _ => None)
          | None => control s_begin st (fun st' => Some (AHandle, fun t => with_tx (Some t) st'))
          end
      | CExec q ps => run_exec q ps st
      | CExecPipeline qs pss => run_exec_pipe qs pss st
      | CQuery q ps => run_query None q ps st
      | CQueryPipeline qs pss => run_query_pipe None (PLost true) qs pss st
      | CQueryAll q ps =>
          if sendable (VRun q ps) then
            match exec (sp_db st) q ps with
            | (db, RunFails m) => says (AFailed m) (with_db db st)
            | (db, Runs h recs (Ends m)) => says (AQueryAll recs h m) (with_db db st)
            | (db, Runs h recs (Breaks m)) => says (AQueryAllFailed recs h m) (to (PLost true) (with_db db st))
            end
          else says ARefused st
      | _ => None
      end
  end.

Definition stmt_op (s : nat) (o : op) (st : sst) : res :=
  if existsb (Nat.eqb s) (sp_ds st) then
    match o with SClose _ => says ANil st | _ => says ARefused st end
  else
    match sp_phase st with
    | PStmt s' k =>
        if (s =? s')%nat then
          match o, k with
          | SExec _ ps, One q => run_exec q ps st
          | SExecPipeline _ pss, Many qs => run_exec_pipe qs pss st
          | SQuery _ ps, One q => run_query (Some (s, k)) q ps st
          | SQueryPipeline _ pss, Many qs => run_query_pipe (Some (s, k)) (PStmt s k) qs pss st
          | SClose _, _ => says ANil (to PIdle (bury_s s st))
          | _, _ => None
          end
        else None
    | PRows (Some (s', k)) r h x =>
        if (s =? s')%nat then
          match o with
          | SClose _ => close_open st (says ANil)
          | _ => says ARefused st
          end
        else None
    | _ => None
    end.

Definition rows_op (r : nat) (o : op) (st : sst) : res :=
  if existsb (Nat.eqb r) (sp_dr st) then
    match o with RClose _ => says ANil st | RMeta _ => None | _ => says ARefused st end
  else
    match sp_phase st with
    | PRows owner r' h x =>
        if (r =? r')%nat then
          match o, x with
          | RMeta _, _ => says (AMeta h) st
          | RNext _, Single (fs :: recs) fin => says (ARow fs) (to (PRows owner r h (Single recs fin)) st)
          | RNext _, Single [] (Ends m) => says (AEnd m) (to (PRows owner r h Done) st)
          | RNext _, Single [] (Breaks m) => says (AFailed m) (to (lost owner) st)
          | RNextSql _ n, Single (fs :: recs) fin =>
              match fill n fs with
              | (ds, NDone) => says (ACells ds) (to (PRows owner r h (Single recs fin)) st)
              | (ds, NErr) => says ACellsBad (to (PRows owner r h (Single recs fin)) st)
              | (_, NPanic) => None
              end
          | RNextSql _ _, Single [] (Ends m) => says ACellsEnd (to (PRows owner r h Done) st)
          | RNextSql _ _, Single [] (Breaks m) => says (AFailed m) (to (lost owner) st)
          | RAll _, Single recs (Ends m) => says (AAll recs m) (to (PRows owner r h Done) st)
          | RAll _, Single recs (Breaks m) => says (AAllFailed recs m) (to (lost owner) st)
          | RNextPipeline _, Pipe (fs :: recs) fin rest => says (APipeRow fs) (to (PRows owner r h (Pipe recs fin rest)) st)
          | RNextPipeline _, Pipe [] (Breaks m) _ => says (AFailed m) (to (lost owner) st)
          | RNextPipeline _, Pipe [] (Ends _) [] => says APipeEnd (to (PRows owner r h Done) st)
          | RNextPipeline _, Pipe [] (Ends _) (Some (RunFails m) :: _) => says (AFailed m) (to (lost owner) st)
          | RNextPipeline _, Pipe [] (Ends _) (Some (Runs h' recs fin) :: rest) =>
              Some (APipeNext h', fun r' => to (PRows owner r' h' (Pipe recs fin rest)) st)
          | RClose _, _ =>
              match drain x with
              | None => says ANil (to (match owner with None => PIdle | Some (s, k) => PStmt s k end) (bury_r r st))
              | Some m => says (AFailed m) (to (lost owner) st)
              end
          | _, _ => None
          end
        else None
    | _ => None
    end.

Definition tx_op (t : nat) (q : str) (st : sst) : res :=
  if existsb (Nat.eqb t) (sp_dt st) then says ARefused st
  else
    match sp_tx st with
    | Some t' =>
        if (t =? t')%nat then
          match sp_phase st with
          | PClosed => None
          | _ => close_open st (fun st' => control q st' (fun st'' => says ANil (with_tx None (bury_t t st''))))
          end
        else None
    | None => None
    end.

Definition close_op (st : sst) : res :=
  match sp_phase st with
  | PClosed => if pooled then None else says ANil st
  | _ =>
      if pooled && match sp_tx st with Some _ => true | None => false end then None
      else
        match sp_phase st with
        | PRows None _ _ x => if pooled then match x with Done => says ANil (to PClosed st) | _ => None end else says ANil (to PClosed st)
        | _ => close_open st (fun st' => says ANil (to PClosed st'))
        end
  end.

Definition expect (st : sst) (o : op) : res :=
  match o with
  | CSetChunkSize _ => says AUnit st
  | CClose => close_op st
  | CExecSql q args => match driver_args mk args with AOk ps => conn_op (CExec q ps) st | AErr => says ARefused st | APanic => None end
  | CQuerySql q args => match driver_args mk args with AOk ps => conn_op (CQuery q ps) st | AErr => says ARefused st | APanic => None end
  | SExecSql s args => match driver_args mk args with AOk ps => stmt_op s (SExec s ps) st | AErr => says ARefused st | APanic => None end
  | SQuerySql s args => match driver_args mk args with AOk ps => stmt_op s (SQuery s ps) st | AErr => says ARefused st | APanic => None end
  | CPrepare _ | CPreparePipeline _ | CBegin | CExec _ _ | CExecPipeline _ _ | CQuery _ _ | CQueryAll _ _ | CQueryPipeline _ _ => conn_op o st
  | SExec s _ | SExecPipeline s _ | SQuery s _ | SQueryPipeline s _ | SClose s => stmt_op s o st
  | RNext r | RAll r | RNextPipeline r | RNextSql r _ | RClose r | RMeta r => rows_op r o st
  | TCommit t => tx_op t s_commit st
  | TRollback t => tx_op t s_rollback st
  end.

(** A history follows the machine as long as the machine promises anything. *)
Fixpoint follows (st : sst) (os : list op) (rs : list out) : Prop :=
  match os with
  | [] => True
  | o :: os' =>
      match expect st o with
      | None => True
      | Some (a, k) =>
          match rs with
          | [] => False
          | r :: rs' => conforms a r /\ follows (k (handle_of r)) os' rs'
          end
      end
  end.
Definition start (db : DB) : sst := Build_sst db PIdle None [] [] [].
End Spec.
