(** Conformance of the server specification with the recorded Neo4j 3.4.6 server.

    For each recorded session: the requests of the driver (from the model, whose bytes are
    the recorded ones by Conform.v) are given to [serve] of ServerSpec.v, with the outcomes
    of the queries taken from the recording; the responses are the recorded ones.  So the
    recorded server behaves like the specified one: which requests are answered, by how
    many messages, what is ignored after a failure and what ends that. *)
From Coq Require Import ZArith List Bool.
From Verif Require Import GoPrims Value Encoder Decoder Errors Misc Session SessionNet SessionTrace ServerSpec Recordings Conform.
Import ListNotations.
Open Scope Z_scope.

(** The requests after INIT. *)
Definition requests (t : tape) (os : list op) : list goval :=
  let n := logged net in
  match initialize n fuel (close n fuel) [] [] (fresh false (t, [])) with
  | (Ok None, w) =>
      match run n true fuel os w with
      | (_, _, w') => tl (flat_map (fun e => match e with Sent v SOk => [v] | _ => [] end) (snd (w_net w')))
      end
  | _ => []
  end.
(** The responses after those to the handshake and INIT. *)
Fixpoint messages (n : nat) (r : reader) : list goval :=
  match n with
  | O => []
  | S n' =>
      match read_msg r with
      | FOk b r' => match decode true b with DOk v _ => v :: messages n' r' | _ => [] end
      | _ => []
      end
  end.
Definition responses (t : tape) : list goval :=
  tl (messages 60 (map RData (tl (flat_map (fun e : bool * bytes => if fst e then [] else [snd e]) t)))).

(** The outcomes of the queries, as far as the responses tell. *)
Fixpoint split_stream (rs : list goval) : list (list goval) * stream_end * list goval :=
  match rs with
  | VRecord l :: rs' => let '(ls, e, rest) := split_stream rs' in (l :: ls, e, rest)
  | VSuccess m :: rs' => ([], Ends m, rs')
  | VFailure m :: rs' => ([], Breaks m, rs')
  | _ => ([], Ends [], [])
  end.
Fixpoint outcomes (st : sstate) (qs rs : list goval) (pending : option md) : list outcome :=
  match qs with
  | [] => match pending with Some h => [Runs h [] (Ends [])] | None => [] end
  | VRun _ _ :: qs' =>
      match st, rs with
      | ServerSpec.Failed, _ :: rs' => outcomes st qs' rs' None
      | _, VFailure m :: rs' => RunFails m :: outcomes ServerSpec.Failed qs' rs' None
      | _, VSuccess h :: rs' => outcomes (Streaming [] (Ends [])) qs' rs' (Some h)
      | _, _ => [Runs [] [] (Ends [])]
      end
  | (VPullAll | VDiscardAll) :: qs' =>
      match st, pending with
      | Streaming _ _, Some h => let '(ls, e, rest) := split_stream rs in Runs h ls e :: outcomes (after_stream e) qs' rest None
      | _, _ => outcomes st qs' (tl rs) None
      end
  | _ :: qs' => outcomes Ready qs' (tl rs) None
  end.
Definition pop_outcome (db : list outcome) (_ : str) (_ : md) : list outcome * outcome :=
  match db with x :: db' => (db', x) | [] => ([], RunFails []) end.
Fixpoint serve_all (db : list outcome) (st : sstate) (qs : list goval) : list goval :=
  match qs with
  | [] => []
  | q :: qs' => let '(db', st', rs) := serve pop_outcome db st q in rs ++ serve_all db' st' qs'
  end.
(** The served responses of which the recorded ones are the beginning, and the rest. *)
Definition served (t : tape) (os : list op) : list goval :=
  serve_all (outcomes Ready (requests t os) (responses t) None) Ready (requests t os).

(** The requests are those of the whole session: *)
Example requests_of_Failure : length (requests rec_TestBoltStmt_Failure ops_TestBoltStmt_Failure) = 10%nat /\ length (responses rec_TestBoltStmt_Failure) = 14%nat.
Proof. vm_compute. split; reflexivity. Qed.

Example server_TestBoltConn_Close : served rec_TestBoltConn_Close ops_TestBoltConn_Close = responses rec_TestBoltConn_Close.
Proof. vm_compute. reflexivity. Qed.
Example server_TestBoltConn_SelectOne : served rec_TestBoltConn_SelectOne ops_TestBoltConn_SelectOne = responses rec_TestBoltConn_SelectOne.
Proof. vm_compute. reflexivity. Qed.
Example server_TestBoltConn_SelectAll : served rec_TestBoltConn_SelectAll ops_TestBoltConn_SelectAll = responses rec_TestBoltConn_SelectAll.
Proof. vm_compute. reflexivity. Qed.
Example server_TestBoltConn_Ignored : served rec_TestBoltConn_Ignored ops_TestBoltConn_Ignored = responses rec_TestBoltConn_Ignored.
Proof. vm_compute. reflexivity. Qed.
Example server_TestBoltConn_IgnoredPipeline : served rec_TestBoltConn_IgnoredPipeline ops_TestBoltConn_IgnoredPipeline = responses rec_TestBoltConn_IgnoredPipeline.
Proof. vm_compute. reflexivity. Qed.
Example server_TestBoltConn_FailureMessageError : served rec_TestBoltConn_FailureMessageError ops_TestBoltConn_FailureMessageError = responses rec_TestBoltConn_FailureMessageError.
Proof. vm_compute. reflexivity. Qed.
(** The last PULL_ALL was sent but its answer never read: the rows of Conn.QueryNeo are not closed with the connection. *)
Example server_TestBoltConn_CloseStatementOnError : exists rest, served rec_TestBoltConn_CloseStatementOnError ops_TestBoltConn_CloseStatementOnError = responses rec_TestBoltConn_CloseStatementOnError ++ [rest].
Proof. vm_compute. eexists. reflexivity. Qed.
Example server_TestBoltStmt_SelectOne : served rec_TestBoltStmt_SelectOne ops_TestBoltStmt_SelectOne = responses rec_TestBoltStmt_SelectOne.
Proof. vm_compute. reflexivity. Qed.
Example server_TestBoltStmt_SelectMany : served rec_TestBoltStmt_SelectMany ops_TestBoltStmt_SelectMany = responses rec_TestBoltStmt_SelectMany.
Proof. vm_compute. reflexivity. Qed.
Example server_TestBoltStmt_InvalidArgs : served rec_TestBoltStmt_InvalidArgs ops_TestBoltStmt_InvalidArgs = responses rec_TestBoltStmt_InvalidArgs.
Proof. vm_compute. reflexivity. Qed.
Example server_TestBoltStmt_ExecNeo : served rec_TestBoltStmt_ExecNeo ops_TestBoltStmt_ExecNeo = responses rec_TestBoltStmt_ExecNeo.
Proof. vm_compute. reflexivity. Qed.
Example server_TestBoltStmt_CreateArgs : served rec_TestBoltStmt_CreateArgs ops_TestBoltStmt_CreateArgs = responses rec_TestBoltStmt_CreateArgs.
Proof. vm_compute. reflexivity. Qed.
Example server_TestBoltStmt_Discard : served rec_TestBoltStmt_Discard ops_TestBoltStmt_Discard = responses rec_TestBoltStmt_Discard.
Proof. vm_compute. reflexivity. Qed.
Example server_TestBoltStmt_Failure : served rec_TestBoltStmt_Failure ops_TestBoltStmt_Failure = responses rec_TestBoltStmt_Failure.
Proof. vm_compute. reflexivity. Qed.
Example server_TestBoltStmt_MixedObjects : served rec_TestBoltStmt_MixedObjects ops_TestBoltStmt_MixedObjects = responses rec_TestBoltStmt_MixedObjects.
Proof. vm_compute. reflexivity. Qed.
Example server_TestBoltStmt_Path : served rec_TestBoltStmt_Path ops_TestBoltStmt_Path = responses rec_TestBoltStmt_Path.
Proof. vm_compute. reflexivity. Qed.
Example server_TestBoltStmt_SingleRel : served rec_TestBoltStmt_SingleRel ops_TestBoltStmt_SingleRel = responses rec_TestBoltStmt_SingleRel.
Proof. vm_compute. reflexivity. Qed.
Example server_TestBoltStmt_SingleNode : served rec_TestBoltStmt_SingleNode ops_TestBoltStmt_SingleNode = responses rec_TestBoltStmt_SingleNode.
Proof. vm_compute. reflexivity. Qed.
Example server_TestBoltStmt_SelectIntLimits : served rec_TestBoltStmt_SelectIntLimits ops_TestBoltStmt_SelectIntLimits = responses rec_TestBoltStmt_SelectIntLimits.
Proof. vm_compute. reflexivity. Qed.
Example server_TestBoltStmt_ManyChunks : served rec_TestBoltStmt_ManyChunks ops_TestBoltStmt_ManyChunks = responses rec_TestBoltStmt_ManyChunks.
Proof. vm_compute. reflexivity. Qed.
Example server_TestBoltStmt_PipelineExec : served rec_TestBoltStmt_PipelineExec ops_TestBoltStmt_PipelineExec = responses rec_TestBoltStmt_PipelineExec.
Proof. vm_compute. reflexivity. Qed.
Example server_TestBoltStmt_PipelineQuery : served rec_TestBoltStmt_PipelineQuery ops_TestBoltStmt_PipelineQuery = responses rec_TestBoltStmt_PipelineQuery.
Proof. vm_compute. reflexivity. Qed.
Example server_TestBoltStmt_PipelineQueryCloseBeginning : served rec_TestBoltStmt_PipelineQueryCloseBeginning ops_TestBoltStmt_PipelineQueryCloseBeginning = responses rec_TestBoltStmt_PipelineQueryCloseBeginning.
Proof. vm_compute. reflexivity. Qed.
Example server_TestBoltStmt_PipelineQueryCloseMiddle : served rec_TestBoltStmt_PipelineQueryCloseMiddle ops_TestBoltStmt_PipelineQueryCloseMiddle = responses rec_TestBoltStmt_PipelineQueryCloseMiddle.
Proof. vm_compute. reflexivity. Qed.
Example server_TestBoltTx_Commit : served rec_TestBoltTx_Commit ops_TestBoltTx_Commit = responses rec_TestBoltTx_Commit.
Proof. vm_compute. reflexivity. Qed.
Example server_TestBoltTx_Rollback : served rec_TestBoltTx_Rollback ops_TestBoltTx_Rollback = responses rec_TestBoltTx_Rollback.
Proof. vm_compute. reflexivity. Qed.
Example server_TestBoltConn_ExecNeo : served rec_TestBoltConn_ExecNeo ops_TestBoltConn_ExecNeo = responses rec_TestBoltConn_ExecNeo.
Proof. vm_compute. reflexivity. Qed.
Example server_TestBoltConn_PipelineExec : served rec_TestBoltConn_PipelineExec ops_TestBoltConn_PipelineExec = responses rec_TestBoltConn_PipelineExec.
Proof. vm_compute. reflexivity. Qed.
Example server_TestBoltConn_PipelineQuery : served rec_TestBoltConn_PipelineQuery ops_TestBoltConn_PipelineQuery = responses rec_TestBoltConn_PipelineQuery.
Proof. vm_compute. reflexivity. Qed.
