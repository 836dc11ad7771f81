(** Session properties against a server that follows Bolt v1 (ServerSpec.v), and what
    the driver sends on any network.  [exec] says what queries do to the database and
    what they answer; [sendable] which messages the encoder accepts; both are arbitrary. *)
From Coq Require Import ZArith List Bool Lia.
From Verif Require Import GoPrims Value Errors Misc Session SessionVoc SessionGen SessionFuel ServerSpec SessionSpec SessionBolt SessionRefine SessionUse SessionLimits SessionSim SessionTrace.
Import ListNotations.
Open Scope Z_scope.

(** A small database for the examples: a counter.  Query 1 increments it and answers with
    two records, 2 fails at once, 3 fails after one record, 4 answers with no records;
    COMMIT fails when the counter is 7. *)
Definition hdr : md := [([102], VNil)].
Definition bad (z : Z) : md := [([99], VInt KInt64 z)].
Definition toy (n : Z) (q : str) (ps : md) : Z * outcome :=
  match q with
  | [1] => (n + 1, Runs hdr [[VInt KInt64 n]; [VInt KInt64 (n + 1)]] (Ends (bad n)))
  | [2] => (n, RunFails (bad 2))
  | [3] => (n, Runs hdr [[VInt KInt64 n]] (Breaks (bad 3)))
  | [4] => (n, Runs hdr [] (Ends (bad 4)))
  | _ => (n, Runs [] [] (if (n =? 7) && (nth 0 q 0 =? 67) then Breaks (bad 7) else Ends []))
  end.
Definition fine (v : goval) : bool := match v with VRun _ [([0], _)] => false | _ => true end.
Lemma fine_controls : controls fine. Proof. repeat split. Qed.
Definition conn0 (n : Z) : world (bnet Z) := fresh false (Build_bnet n Ready []).
Lemma quiet0 : forall n, quiet (conn0 n) n. Proof. intros n. repeat split. Qed.

Section Bolt.
Context {DB : Type}.
Variable exec : DB -> str -> md -> DB * outcome.
Variable sendable : goval -> bool.
Variable mk : bool.
Hypothesis Hctl : controls sendable.
Notation net := (bolt exec sendable).
Notation W := (world (bnet DB)).
Notation calls := (calls exec sendable mk).
Notation does := (does exec sendable mk).
Notation asks := (@asks DB).
Notation asks_pipe := (@asks_pipe DB).

Lemma does_calls : forall o w r w', does o w r w' -> calls w [o] [r] w'.
Proof. intros. apply (calls_one exec sendable mk). assumption. Qed.
Lemma calls2 : forall w os rs w1 o r w2, calls w os rs w1 -> does o w1 r w2 -> calls w (os ++ [o]) (rs ++ [r]) w2.
Proof. intros. eapply (calls_app exec sendable mk); eauto using does_calls. Qed.

(** ** C21, second part: the metadata of the FAILURE is the root of the error *)
Definition root_failure (r : out) (m : md) : Prop := only_error (fun e => innermost e = EFailMsg m) r.
Theorem C21_calls : forall w db o db' m, quiet w db -> request_fails exec sendable db o db' m ->
  exists r w', calls w [o] [r] w' /\ root_failure r m.
Proof. intros w db o db' m Hq Hf. destruct (failed_request exec sendable mk Hctl w db o db' m Hq Hf) as (r & w' & H1 & H2 & _). exists r, w'. split; assumption. Qed.
Theorem C21_stmt_calls : forall w db s k o db' m, prepared w db s k -> stmt_request_fails exec sendable db s k o db' m ->
  exists r w', calls w [o] [r] w' /\ root_failure r m.
Proof. intros w db s k o db' m Hq Hf. destruct (failed_stmt_request exec sendable mk Hctl w db s k o db' m Hq Hf) as (r & w' & H1 & H2 & _). exists r, w'. split; assumption. Qed.
Theorem C21_tx_calls : forall w db o t q db' oc m, quiet w db -> nth_error (w_txs w) t = Some {| t_closed := false |} -> tx_query o t = Some q ->
  exec db q [] = (db', oc) -> oc = RunFails m \/ (exists h, oc = Runs h [] (Breaks m)) ->
  exists r w', calls w [o] [r] w' /\ root_failure r m.
Proof.
  intros w db o t q db' oc m Hq Ht Ho Hx Hm. destruct (tx_call exec sendable mk Hctl w db o t q db' oc Hq Ht Ho Hx) as (r & w' & H1 & _ & H3).
  - destruct Hm as [->|(h & ->)]; exact I.
  - exists r, w'. split; [exact H1|]. destruct Hm as [->|(h & ->)]; apply H3.
Qed.
Theorem C21_rows : forall w db o q ps back db' h recs m, asks w db o q ps back -> sendable (VRun q ps) = true -> exec db q ps = (db', Runs h recs (Breaks m)) ->
  exists r w' last, calls w (o :: RMeta r :: repeat (RNext r) (length recs) ++ [RNext r]) (OHandle (Some r) None :: OMeta h :: map row_out recs ++ [last]) w' /\
    root_failure last m.
Proof. intros w db o q ps back db' h recs m Ha Hs Hx. destruct (read_all exec sendable mk Hctl w db o q ps back db' h recs (Breaks m) Ha Hs Hx) as (r & w' & last & H1 & H2). exists r, w', last. split; assumption. Qed.

(** ** C28 *)
(** SessionSpec.v answers every request in isolation: no messages, no queues; [follows]
    compares each result with what that machine expects. *)
Theorem C28_own_answers : forall pooled db os, exists f0, forall f, (f0 <= f)%nat ->
  follows exec sendable mk pooled (start db) os (fst (fst (run net mk f os (fresh pooled (Build_bnet db Ready []))))).
Proof. intros pooled db os. apply refine_run; [exact Hctl|]. apply Rel_start. Qed.

(** ** C29 *)
Theorem C29_connection_usable : forall w db o db' m, quiet w db -> request_fails exec sendable db o db' m ->
  exists r w', calls w [o] [r] w' /\ failed_with m r /\ w_net w' = Build_bnet db' Ready [] /\
    match o with CQueryPipeline _ _ => True | _ => quiet w' db' end.
Proof. exact (failed_request exec sendable mk Hctl). Qed.
Theorem C29_statement_usable : forall w db s k o db' m, prepared w db s k -> stmt_request_fails exec sendable db s k o db' m ->
  exists r w', calls w [o] [r] w' /\ failed_with m r /\ prepared w' db' s k.
Proof. exact (failed_stmt_request exec sendable mk Hctl). Qed.
Theorem C29_transaction : forall w db o t q db' oc, quiet w db -> nth_error (w_txs w) t = Some {| t_closed := false |} -> tx_query o t = Some q ->
  exec db q [] = (db', oc) -> (match oc with Runs _ (_ :: _) _ => False | _ => True end) ->
  exists r w', calls w [o] [r] w' /\ quiet w' db' /\
    match fails oc with
    | Some m => failed_with m r /\ nth_error (w_txs w') t = Some {| t_closed := false |}
    | None => r = OErr None /\ tx_closed w' t
    end.
Proof. exact (tx_call exec sendable mk Hctl). Qed.
(** the exception: Conn.QueryPipeline leaves its statement on the connection *)
Theorem C29_query_pipeline_needs_close : forall w db qs pss db' m o, quiet w db -> request_fails exec sendable db (CQueryPipeline qs pss) db' m ->
  conn_work o = true -> args_ok mk o ->
  exists r r2 w', calls w [CQueryPipeline qs pss; o] [r; r2] w' /\ failed_with m r /\ refused r2.
Proof.
  intros w db qs pss db' m o Hq (Hl & Hs & q & ps & l & El & Hx) Ho Ha.
  pose proof (fun a k => step_at exec sendable mk Hctl _ _ _ (CQueryPipeline qs pss) a k (quiet_rel w db Hq)) as Hst. edestruct Hst as (x & w1 & Hd & Hr & HR); clear Hst.
  { cbn [expect conn_op at_rest sp_phase]. unfold run_query_pipe. rewrite Hl, Nat.eqb_refl. cbn [negb]. rewrite Hs. rewrite El. cbn [run_pipe at_rest sp_db]. rewrite Hx. cbn [fails]. reflexivity. }
  cbn in Hr. destruct HR as (Htx & _ & _ & _ & _ & _ & HP). cbn [sp_phase to] in HP. destruct HP as (_ & _ & s & Hst & _).
  destruct (conn_refused exec sendable mk w1 o) as (r2 & Hd2 & Hr2); auto. { left. congruence. }
  exists x, r2, w1. split; [|split; assumption]. eapply (calls_cons exec sendable mk); [exact Hd|]. apply does_calls; exact Hd2.
Qed.

(** ** C30 *)
(** Reading rows until the server reports a failure, then closing: the close waits for an
    answer that is not coming (here: until the read times out with ErrBadConn). *)
Lemma read_then_fail : forall w db o q ps back db' h recs m, asks w db o q ps back -> sendable (VRun q ps) = true -> exec db q ps = (db', Runs h recs (Breaks m)) ->
  exists r w' last, calls w (o :: repeat (RNext r) (length recs) ++ [RNext r]) (OHandle (Some r) None :: map row_out recs ++ [last]) w' /\ failed_with m last /\ stuck w' db' (owner_of o q) r /\
    c_pooled (w_conn w') = c_pooled (w_conn w).
Proof.
  intros w db o q ps back db' h recs m Ha Hs Hx. destruct (asks_owner exec sendable mk Hctl _ _ _ _ _ _ Ha) as (_ & Hop). destruct (Hop _ _ _ _ Hs Hx) as (r & w1 & Hd & HR).
  rewrite <- (app_nil_r recs) in HR. destruct (read_some exec sendable mk Hctl _ _ _ _ _ _ _ _ _ HR) as (w2 & Hc & HR2). destruct (fail_next exec sendable mk Hctl _ _ _ _ _ _ _ HR2) as (w3 & Hd3 & Hk).
  exists r, w3. eexists. split; [|split; [|split; [exact Hk|]]].
  - eapply (calls_cons exec sendable mk); [exact Hd|]. eapply calls2; [exact Hc|exact Hd3].
  - reflexivity.
  - destruct HR2 as (_ & Hp & _). pose proof (does_mono exec sendable mk _ _ _ _ Hd3) as ((_ & _ & Hm) & _). congruence.
Qed.
Theorem C30_rows_refuted : forall w db o q ps back db' h recs m, asks w db o q ps back -> sendable (VRun q ps) = true -> exec db q ps = (db', Runs h recs (Breaks m)) ->
  exists r w' last e, calls w (o :: (repeat (RNext r) (length recs) ++ [RNext r]) ++ [RClose r]) (OHandle (Some r) None :: (map row_out recs ++ [last]) ++ [OErr (Some e)]) w' /\
    failed_with m last /\ innermost e = EBadConn.
Proof.
  intros w db o q ps back db' h recs m Ha Hs Hx. destruct (read_then_fail _ _ _ _ _ _ _ _ _ _ Ha Hs Hx) as (r & w1 & last & Hc & Hf & Hk & _).
  destruct (stuck_rows_close exec sendable mk w1 db' _ r Hk) as (e & w2 & Hd & He & _). exists r, w2, last, e. split; [|split; assumption].
  exact (calls2 _ _ _ _ _ _ _ Hc Hd).
Qed.
Theorem C30_statement_refuted : forall w db s q ps db' h recs m, prepared w db s (One q) -> sendable (VRun q ps) = true -> exec db q ps = (db', Runs h recs (Breaks m)) ->
  exists r w1 w2 last e1 e2,
    calls w (SQuery s ps :: (repeat (RNext r) (length recs) ++ [RNext r]) ++ [SClose s]) (OHandle (Some r) None :: (map row_out recs ++ [last]) ++ [OErr (Some e1)]) w1 /\
    calls w (SQuery s ps :: (repeat (RNext r) (length recs) ++ [RNext r]) ++ [CClose]) (OHandle (Some r) None :: (map row_out recs ++ [last]) ++ [OErr (Some e2)]) w2 /\
    failed_with m last /\ innermost e1 = EBadConn /\ innermost e2 = EBadConn /\ c_closed (w_conn w2) = false.
Proof.
  intros w db s q ps db' h recs m Hp Hs Hx. destruct (read_then_fail _ _ _ _ _ _ _ _ _ _ (asks_stmt w db s q ps Hp) Hs Hx) as (r & w1 & last & Hc & Hf & Hk & _). cbn [owner_of] in Hk.
  destruct (stuck_stmt_close exec sendable mk _ _ _ _ _ Hk) as (e1 & w2 & Hd2 & He1). destruct (stuck_conn_close exec sendable mk _ _ _ _ _ Hk) as (e2 & w3 & Hd3 & He2 & Hc3).
  exists r, w2, w3, last, e1, e2. split; [exact (calls2 _ _ _ _ _ _ _ Hc Hd2)|]. split; [exact (calls2 _ _ _ _ _ _ _ Hc Hd3)|]. auto.
Qed.
(** the same for the rows of a pipeline, at any query *)
Theorem C30_pipeline_refuted : forall w db o l1 q ps l2 back rs1 db1 db2 h recs m, asks_pipe w db o (l1 ++ (q, ps) :: l2) back ->
  all_sendable sendable (l1 ++ (q, ps) :: l2) = true -> in_order exec db l1 rs1 db1 -> exec db1 q ps = (db2, Runs h recs (Breaks m)) ->
  exists hs r w' last e, length hs = length l1 /\
    calls w ((o :: pipe_calls (hs ++ [r]) (rs1 ++ [(h, recs, m)])) ++ [RNextPipeline r] ++ [RClose r])
            ((OHandle (hd_error (hs ++ [r])) None :: pipe_outs (hs ++ [r]) (rs1 ++ [(h, recs, m)])) ++ [last] ++ [OErr (Some e)]) w' /\
    failed_with m last /\ innermost e = EBadConn.
Proof.
  intros w db o l1 q ps l2 back rs1 db1 db2 h recs m Ha Hs Ho Hx. rewrite <- (app_nil_r recs) in Hx.
  destruct (pipeline_prefix exec sendable mk Hctl w db o l1 q ps l2 back rs1 db1 db2 h recs [] (Breaks m) m Ha Hs Ho Hx) as (ow & db' & tail & hs & r & w1 & _ & Hl & _ & Hc & HR).
  destruct (fail_next_pipe exec sendable mk Hctl _ _ _ _ _ _ m _ _ _ HR eq_refl (or_introl eq_refl)) as (w2 & e2 & Hd2 & He2 & Hk).
  destruct (stuck_rows_close exec sendable mk w2 db' ow r Hk) as (e & w3 & Hd & He & _).
  exists hs, r, w3. eexists. exists e. split; [rewrite Hl; exact (in_order_length _ _ _ _ _ Ho)|]. split; [|split; [|exact He]].
  - eapply (calls_app exec sendable mk); [exact Hc|]. eapply (calls_app exec sendable mk); [apply does_calls; exact Hd2|apply does_calls; exact Hd].
  - exact He2.
Qed.
(** The connection itself can be closed if the rows came from Conn.QueryNeo. *)
Theorem C30_partial : forall w db q ps db' h recs m, quiet w db -> c_pooled (w_conn w) = false -> sendable (VRun q ps) = true -> exec db q ps = (db', Runs h recs (Breaks m)) ->
  exists r w' last, calls w (CQuery q ps :: (repeat (RNext r) (length recs) ++ [RNext r]) ++ [CClose]) (OHandle (Some r) None :: (map row_out recs ++ [last]) ++ [OErr None]) w' /\
    failed_with m last /\ c_closed (w_conn w') = true.
Proof.
  intros w db q ps db' h recs m Hq Hp Hs Hx. destruct (read_then_fail _ _ _ _ _ _ _ _ _ _ (asks_conn w db q ps Hq) Hs Hx) as (r & w1 & last & Hc & Hf & Hk & Hpw). cbn [owner_of] in Hk.
  destruct (stuck_conn_close_ok exec sendable mk _ _ _ Hk) as (w2 & Hd2 & He); [congruence|]. exists r, w2, last. split; [exact (calls2 _ _ _ _ _ _ _ Hc Hd2)|auto].
Qed.

(** ** C31 *)
Theorem C31_rows_in_order : forall w db o q ps back db' h recs fin, asks w db o q ps back -> sendable (VRun q ps) = true -> exec db q ps = (db', Runs h recs fin) ->
  exists r w' last, calls w (o :: RMeta r :: repeat (RNext r) (length recs) ++ [RNext r]) (OHandle (Some r) None :: OMeta h :: map row_out recs ++ [last]) w' /\
    match fin with Ends m => last = ONext None (Some m) (Some EEOF) | Breaks m => failed_with m last end.
Proof. exact (read_all exec sendable mk Hctl). Qed.
Theorem C31_all : forall w db o q ps back db' h recs1 recs2 m, asks w db o q ps back -> sendable (VRun q ps) = true -> exec db q ps = (db', Runs h (recs1 ++ recs2) (Ends m)) ->
  exists r w', calls w (o :: repeat (RNext r) (length recs1) ++ [RAll r; RClose r]) (OHandle (Some r) None :: map row_out recs1 ++ [OAll recs2 (Some m) None; OErr None]) w' /\ back w' db'.
Proof. exact (read_by_all exec sendable mk Hctl). Qed.
Theorem C31_sql : forall w db o q ps back db' h recs n m dss, asks w db o q ps back -> sendable (VRun q ps) = true -> exec db q ps = (db', Runs h recs (Ends m)) ->
  map (fill n) recs = map (fun ds => (ds, NDone)) dss ->
  exists r w', calls w (o :: repeat (RNextSql r n) (length recs) ++ [RNextSql r n]) (OHandle (Some r) None :: map (fun ds => OCells ds None) dss ++ [OCells [] (Some EEOF)]) w'.
Proof. exact (read_sql exec sendable mk Hctl). Qed.
Theorem C31_query_all : forall w db q ps db' h recs m, quiet w db -> sendable (VRun q ps) = true -> exec db q ps = (db', Runs h recs (Ends m)) ->
  exists w', calls w [CQueryAll q ps] [OQueryAll (Some recs) (Some h) (Some m) None] w' /\ quiet w' db'.
Proof. exact (query_all exec sendable mk Hctl). Qed.

(** ** C32 *)
Lemma read_to_end : forall w db o q ps back db' h recs m, asks w db o q ps back -> sendable (VRun q ps) = true -> exec db q ps = (db', Runs h recs (Ends m)) ->
  exists r w', calls w (o :: repeat (RNext r) (length recs) ++ [RNext r]) (OHandle (Some r) None :: map row_out recs ++ [ONext None (Some m) (Some EEOF)]) w' /\
    Rel (c_pooled (w_conn w)) w' (at_rest db' (PRows (owner_of o q) r h Done) None).
Proof.
  intros w db o q ps back db' h recs m Ha Hs Hx. destruct (asks_owner exec sendable mk Hctl _ _ _ _ _ _ Ha) as (_ & Hop). destruct (Hop _ _ _ _ Hs Hx) as (r & w1 & Hd & HR).
  rewrite <- (app_nil_r recs) in HR. destruct (read_some exec sendable mk Hctl _ _ _ _ _ _ _ _ _ HR) as (w2 & Hc & HR2).
  pose proof (fun a k => step_at exec sendable mk Hctl _ _ _ (RNext r) a k HR2) as Hst. edestruct Hst as (x & w3 & Hd3 & Hx3 & HR3); clear Hst.
  { cbn [expect rows_op at_rest sp_dr sp_phase existsb]. rewrite Nat.eqb_refl. reflexivity. }
  cbn in Hx3. subst x. exists r, w3. split; [|exact HR3]. eapply (calls_cons exec sendable mk); [exact Hd|]. eapply calls2; [exact Hc|exact Hd3].
Qed.
(** After the end every further read waits for a message. *)
Theorem C32_refuted : forall w db o q ps back db' h recs m (again : nat -> op), asks w db o q ps back -> sendable (VRun q ps) = true -> exec db q ps = (db', Runs h recs (Ends m)) ->
  (forall r, rows_work r (again r)) ->
  exists r w' res, calls w (o :: (repeat (RNext r) (length recs) ++ [RNext r]) ++ [again r])
    (OHandle (Some r) None :: (map row_out recs ++ [ONext None (Some m) (Some EEOF)]) ++ [res]) w' /\ timed_out res.
Proof.
  intros w db o q ps back db' h recs m again Ha Hs Hx Hw. destruct (read_to_end _ _ _ _ _ _ _ _ _ _ Ha Hs Hx) as (r & w1 & Hc & HR).
  destruct (past_end exec sendable mk _ _ _ _ _ _ (again r) HR (Hw r)) as (res & w2 & Hd & Ht & _). exists r, w2, res. split; [|exact Ht].
  exact (calls2 _ _ _ _ _ _ _ Hc Hd).
Qed.
(** The first read past the last record reports the end, and closing afterwards waits for nothing. *)
Theorem C32_partial : forall w db o q ps back db' h recs m, asks w db o q ps back -> sendable (VRun q ps) = true -> exec db q ps = (db', Runs h recs (Ends m)) ->
  exists r w', calls w (o :: (repeat (RNext r) (length recs) ++ [RNext r]) ++ [RClose r])
    (OHandle (Some r) None :: (map row_out recs ++ [ONext None (Some m) (Some EEOF)]) ++ [OErr None]) w' /\ back w' db'.
Proof.
  intros w db o q ps back db' h recs m Ha Hs Hx. destruct (read_to_end _ _ _ _ _ _ _ _ _ _ Ha Hs Hx) as (r & w1 & Hc & HR).
  destruct (close_rows exec sendable mk Hctl _ _ _ _ _ _ _ HR) as (res & w2 & Hd & E). cbn [drain] in E. destruct E as (-> & E). exists r, w2. split; [exact (calls2 _ _ _ _ _ _ _ Hc Hd)|].
  destruct (asks_owner exec sendable mk Hctl _ _ _ _ _ _ Ha) as (-> & _). exact E.
Qed.

(** ** C33 *)
Theorem C33_exec_pipeline : forall w db o l back rs db', asks_exec_pipe w db o l back -> all_sendable sendable l = true -> in_order exec db l rs db' ->
  exists w', calls w [o] [OResults (Some (map snd rs)) None] w' /\ back w' db' /\ length (map snd rs) = length l.
Proof.
  intros w db o l back rs db' Ha Hs Ho. destruct (exec_pipeline_results exec sendable mk Hctl w db o l back rs db' Ha Hs Ho) as (w' & H1 & H2). exists w'. split; [exact H1|]. split; [exact H2|].
  rewrite map_length. exact (in_order_length _ _ _ _ _ Ho).
Qed.
Theorem C33_query_pipeline : forall w db o l1 q ps l2 back rs1 db1 db2 h recs1 recs2 fin, asks_pipe w db o (l1 ++ (q, ps) :: l2) back ->
  all_sendable sendable (l1 ++ (q, ps) :: l2) = true -> in_order exec db l1 rs1 db1 -> exec db1 q ps = (db2, Runs h (recs1 ++ recs2) fin) ->
  exists hs r w', length hs = length l1 /\
    calls w (o :: pipe_calls (hs ++ [r]) (rs1 ++ [(h, recs1, [])])) (OHandle (hd_error (hs ++ [r])) None :: pipe_outs (hs ++ [r]) (rs1 ++ [(h, recs1, [])])) w'.
Proof.
  intros w db o l1 q ps l2 back rs1 db1 db2 h recs1 recs2 fin Ha Hs Ho Hx.
  destruct (pipeline_prefix exec sendable mk Hctl w db o l1 q ps l2 back rs1 db1 db2 h recs1 recs2 fin [] Ha Hs Ho Hx) as (ow & db' & tail & hs & r & w1 & _ & Hl & _ & Hc & _).
  exists hs, r, w1. split; [rewrite Hl; exact (in_order_length _ _ _ _ _ Ho)|exact Hc].
Qed.

(** ** C34 *)
(** After the last record of the last query: no row, no metadata, no next rows, no error. *)
Theorem C34_refuted : forall w db o l back rs db', asks_pipe w db o l back -> all_sendable sendable l = true -> l <> [] -> in_order exec db l rs db' ->
  exists hs r w', length (hs ++ [r]) = length l /\
    calls w (o :: pipe_calls (hs ++ [r]) rs ++ [RNextPipeline r; RClose r])
            (OHandle (hd_error (hs ++ [r])) None :: pipe_outs (hs ++ [r]) rs ++ [OPipe None None None None; OErr None]) w' /\
    back w' db'.
Proof. exact (pipeline_read exec sendable mk Hctl). Qed.
(** That result can be told from all others: before the end no read returns four nils. *)
Theorem C34_partial : forall hs (rs : list result), length hs = length rs -> ~ In (OPipe None None None None) (pipe_outs hs rs).
Proof.
  induction hs as [|r hs IH]; intros [|[[h recs] m] rs] Hl; try discriminate; cbn [pipe_outs]; [intros []|]. intros [H|H]; [discriminate|].
  apply in_app_or in H. destruct H as [H|H].
  - apply in_map_iff in H. destruct H as (fs & H & _). discriminate.
  - destruct rs as [|[[h' recs'] m'] rs]; [destruct H|]. destruct H as [H|H]; [discriminate|]. revert H. apply IH. cbn in *. lia.
Qed.

(** ** C35 *)
Theorem C35_close_early : forall w db o q ps back db' h recs1 recs2 m, asks w db o q ps back -> sendable (VRun q ps) = true -> exec db q ps = (db', Runs h (recs1 ++ recs2) (Ends m)) ->
  exists r w', calls w (o :: repeat (RNext r) (length recs1) ++ [RClose r]) (OHandle (Some r) None :: map row_out recs1 ++ [OErr None]) w' /\ back w' db'.
Proof. exact (close_early exec sendable mk Hctl). Qed.
Theorem C35_pipeline_close_early : forall w db o l1 q ps l2 back rs1 db1 h recs1 recs2 m rs2 db2 db', asks_pipe w db o (l1 ++ (q, ps) :: l2) back ->
  all_sendable sendable (l1 ++ (q, ps) :: l2) = true -> in_order exec db l1 rs1 db1 -> exec db1 q ps = (db2, Runs h (recs1 ++ recs2) (Ends m)) -> in_order exec db2 l2 rs2 db' ->
  exists hs r w', length hs = length l1 /\
    calls w (o :: pipe_calls (hs ++ [r]) (rs1 ++ [(h, recs1, m)]) ++ [RClose r])
            (OHandle (hd_error (hs ++ [r])) None :: pipe_outs (hs ++ [r]) (rs1 ++ [(h, recs1, m)]) ++ [OErr None]) w' /\
    back w' db'.
Proof. exact (pipeline_close_early exec sendable mk Hctl). Qed.

(** ** C36 *)
Theorem C36_refuted_swapped_answer : forall w db qs1 pss1 q0 ps0 qs2 pss2 h recs m rs db1 q ps, quiet w db -> length pss1 = length qs1 -> length pss2 = length qs2 ->
  all_sendable sendable (combine qs1 pss1) = true -> sendable (VRun q0 ps0) = false -> in_order exec db (combine qs1 pss1) ((h, recs, m) :: rs) db1 ->
  sendable (VRun q ps) = true ->
  exists r w', calls w [CExecPipeline (qs1 ++ q0 :: qs2) (pss1 ++ ps0 :: pss2); CExec q ps] [r; OResult (Some m) None] w' /\ refused r.
Proof. exact (poisoned exec sendable mk Hctl). Qed.
Theorem C36_refuted_pipeline : forall w db qs pss o, quiet w db -> bad_params sendable qs pss -> conn_work o = true -> args_ok mk o ->
  exists r r2 w', calls w [CQueryPipeline qs pss; o] [r; r2] w' /\ refused r /\ refused r2 /\ w_net w' = Build_bnet db Ready [].
Proof. exact (refused_pipe_call exec sendable mk Hctl). Qed.
Theorem C36_connection_partial : forall w db o, quiet w db -> bad_call sendable mk o -> exists r w', calls w [o] [r] w' /\ refused r /\ quiet w' db.
Proof. exact (refused_call exec sendable mk Hctl). Qed.
Theorem C36_statement_partial : forall w db s k o, prepared w db s k -> bad_stmt_call sendable mk s k o -> exists r w', calls w [o] [r] w' /\ refused r /\ prepared w' db s k.
Proof. exact (refused_stmt_call exec sendable mk Hctl). Qed.

(** ** C37 *)
(** Commit returns nil although the server answered COMMIT with a failure. *)
Theorem C37_refuted : forall w db db1 q ps db2 h mq fin_op qt db3 hc fin, quiet w db -> begin_works exec db db1 -> sendable (VRun q ps) = true ->
  exec db1 q ps = (db2, Runs h [] (Ends mq)) -> fin_op = TCommit /\ qt = s_commit \/ fin_op = TRollback /\ qt = s_rollback -> exec db2 qt [] = (db3, Runs hc [] fin) ->
  exists t r w', calls w [CBegin; CQuery q ps; fin_op t] [OHandle (Some t) None; OHandle (Some r) None; OErr None] w' /\ tx_closed w' t /\
    w_net w' = Build_bnet db3 (after_stream fin) [final fin].
Proof. exact (stale_finish exec sendable mk Hctl). Qed.
(** With nothing else open the result is what the server did. *)
Theorem C37_quiet_partial : forall w db o t q db' oc, quiet w db -> nth_error (w_txs w) t = Some {| t_closed := false |} -> tx_query o t = Some q ->
  exec db q [] = (db', oc) -> (match oc with Runs _ (_ :: _) _ => False | _ => True end) ->
  exists r w', calls w [o] [r] w' /\ quiet w' db' /\
    (r = OErr None <-> fails oc = None) /\ (forall m, fails oc = Some m -> failed_with m r) /\
    (fails oc = None -> tx_closed w' t).
Proof.
  intros w db o t q db' oc Hq Ht Ho Hx Hn. destruct (tx_call exec sendable mk Hctl w db o t q db' oc Hq Ht Ho Hx Hn) as (r & w' & H1 & H2 & H3). exists r, w'.
  split; [exact H1|]. split; [exact H2|]. destruct (fails oc) as [m|].
  - destruct H3 as (H3 & _). split; [split; [intros ->; destruct H3|discriminate]|]. split; [intros m' E; congruence|discriminate].
  - destruct H3 as (-> & H3). split; [split; auto|]. split; [discriminate|auto].
Qed.

(** ** C38 *)
Theorem C38_refuted_second_begin : forall w db db1 db2, quiet w db -> begin_works exec db db1 -> begin_works exec db1 db2 ->
  exists t1 t2 w', calls w [CBegin; CBegin] [OHandle (Some t1) None; OHandle (Some t2) None] w'.
Proof.
  intros w db db1 db2 Hq H1 H2. destruct (begin_call exec sendable mk Hctl w db db1 Hq H1) as (t1 & w1 & Hd1 & Hq1 & _).
  destruct (begin_call exec sendable mk Hctl w1 db1 db2 Hq1 H2) as (t2 & w2 & Hd2 & _). exists t1, t2, w2.
  eapply (calls_cons exec sendable mk); [exact Hd1|]. apply does_calls. exact Hd2.
Qed.
(** Begin hands out a transaction exactly when the server accepts BEGIN, whether or not another one is open:
    that there is at most one is left to the server. *)
Theorem C38_server_partial : forall w db db' oc, quiet w db -> exec db s_begin [] = (db', oc) -> (match oc with Runs _ (_ :: _) _ => False | _ => True end) ->
  exists r w', calls w [CBegin] [r] w' /\ quiet w' db' /\
    match fails oc with
    | Some m => failed_with m r
    | None => exists t, r = OHandle (Some t) None /\ nth_error (w_txs w') t = Some {| t_closed := false |}
    end.
Proof.
  intros w db db' oc Hq Hx Hn. destruct oc as [m|h [|? ?] [m|m]]; try contradiction; cbn [fails].
  2: { destruct (begin_call exec sendable mk Hctl w db db' Hq) as (t & w' & Hd & Hq' & Ht); [exists h, m; exact Hx|].
       exists (OHandle (Some t) None), w'. split; [apply does_calls; exact Hd|]. eauto. }
  all: destruct (failed_request exec sendable mk Hctl w db CBegin db' m Hq) as (r & w' & Hd & Hf & _ & Hq'); [cbn [request_fails]; eauto|]; exists r, w'; auto.
Qed.
(** Close after Begin: the server has seen BEGIN and nothing after it. *)
Theorem C38_refuted_close : forall w db db1, quiet w db -> begin_works exec db db1 ->
  exists t w', calls w [CBegin; CClose] [OHandle (Some t) None; OErr None] w' /\ w_net w' = Build_bnet db1 Ready [] /\
    nth_error (w_txs w') t = Some {| t_closed := false |}.
Proof.
  intros w db db1 Hq H1. destruct (begin_call exec sendable mk Hctl w db db1 Hq H1) as (t1 & w1 & Hd1 & Hq1 & Ht).
  destruct (quiet_close exec sendable mk w1 db1 Hq1) as (w2 & Hd2 & Hn & Htx & _). exists t1, w2.
  split; [|split; [exact Hn|congruence]]. eapply (calls_cons exec sendable mk); [exact Hd1|]. apply does_calls. exact Hd2.
Qed.
End Bolt.
Print Assumptions C21_calls.
Print Assumptions C21_stmt_calls.
Print Assumptions C21_tx_calls.
Print Assumptions C21_rows.
Print Assumptions C28_own_answers.
Print Assumptions C29_connection_usable.
Print Assumptions C29_statement_usable.
Print Assumptions C29_transaction.
Print Assumptions C29_query_pipeline_needs_close.
Print Assumptions C30_rows_refuted.
Print Assumptions C30_statement_refuted.
Print Assumptions C30_pipeline_refuted.
Print Assumptions C30_partial.
Print Assumptions C31_rows_in_order.
Print Assumptions C31_all.
Print Assumptions C31_sql.
Print Assumptions C31_query_all.
Print Assumptions C32_refuted.
Print Assumptions C32_partial.
Print Assumptions C33_exec_pipeline.
Print Assumptions C33_query_pipeline.
Print Assumptions C34_refuted.
Print Assumptions C34_partial.
Print Assumptions C35_close_early.
Print Assumptions C35_pipeline_close_early.
Print Assumptions C36_refuted_swapped_answer.
Print Assumptions C36_refuted_pipeline.
Print Assumptions C36_connection_partial.
Print Assumptions C36_statement_partial.
Print Assumptions C37_refuted.
Print Assumptions C37_quiet_partial.
Print Assumptions C38_refuted_second_begin.
Print Assumptions C38_refuted_close.
Print Assumptions C38_server_partial.

(** ** Examples *)
Notation ex_run os n := (run (bolt toy fine) true 20 os (conn0 n)).
Lemma in_order_toy : in_order toy 5 [([1], []); ([4], []); ([1], [])] [(hdr, [[VInt KInt64 5]; [VInt KInt64 6]], bad 5); (hdr, [], bad 4); (hdr, [[VInt KInt64 6]; [VInt KInt64 7]], bad 6)] 7.
Proof. repeat (econstructor; [reflexivity|]). constructor. Qed.
Example ex_C21 : request_fails toy fine 0 (CExecPipeline [[1]; [3]; [1]] [[]; []; []]) 1 (bad 3) /\ request_fails toy fine 0 (CQuery [2] []) 0 (bad 2).
Proof.
  split; [|repeat split]. repeat split. exists [([1], [])], [3], [], [([1], [])]. do 3 eexists. split; [reflexivity|]. split; [econstructor; [reflexivity|constructor]|].
  split; [reflexivity|]. reflexivity.
Qed.
Example ex_C21_run : match ex_run [CExecPipeline [[1]; [3]; [1]] [[]; []; []]; CExec [1] []; CQuery [2] []; CBegin; TCommit 0] 6 with
  (l, r, _) => l = [OResults None (Some (ewrap FStmt 157 (ewrap FConn 569 (EFailMsg (bad 3))))); OResult (Some (bad 7)) None; OHandle None (Some (ewrap FConn 569 (EFailMsg (bad 2)))); OHandle (Some 0%nat) None; OErr None] end.
Proof. vm_compute. reflexivity. Qed.
Example ex_C21_tx : match ex_run [CBegin; TCommit 0; TRollback 0; TRollback 0] 7 with
  (l, r, _) => exists e1 e2, l = [OHandle (Some 0%nat) None; OErr (Some e1); OErr None; OErr (Some e2)] /\ innermost e1 = EFailMsg (bad 7) /\ driver_error e2 end.
Proof. vm_compute. do 2 eexists. split; [reflexivity|]. split; [reflexivity|]. do 2 eexists. reflexivity. Qed.
(** C28: a history with statements, rows, pipelines, failures and a transaction, all of it promised by the machine *)
Definition ex_history : list op :=
  [CPrepare [1]; SExec 0 []; SQuery 0 []; RNext 0; CExec [1] []; RClose 0; SClose 0; CBegin; CExecPipeline [[1]; [1]] [[]; []];
   CQueryPipeline [[1]; [3]] [[]; []]; RNextPipeline 1; RNextPipeline 1; RNextPipeline 1; RNextPipeline 2; RNextPipeline 2; TCommit 0; CExec [2] []; CQueryAll [1] []; CClose].
Fixpoint promised (st : sst Z) (os : list op) (rs : list out) : nat :=
  match os, rs with
  | o :: os', r :: rs' => match expect toy fine true false st o with Some (_, k) => S (promised (k (handle_of r)) os' rs') | None => O end
  | _, _ => O
  end.
Example ex_C28 : promised (start 0) ex_history (fst (fst (ex_run ex_history 0))) = length ex_history.
Proof. vm_compute. reflexivity. Qed.
Example ex_C29 : quiet (conn0 0) 0 /\ request_fails toy fine 0 (CQueryPipeline [[2]; [1]] [[]; []]) 0 (bad 2) /\
  (exists w, calls toy fine true (conn0 0) [CPrepare [2]] [OHandle (Some 0%nat) None] w /\ prepared w 0 0 (One [2])) /\ stmt_request_fails toy fine 0 0 (One [2]) (SQuery 0 []) 0 (bad 2).
Proof.
  split; [apply quiet0|]. split; [repeat split; do 3 eexists; split; reflexivity|]. split; [|repeat split].
  eexists. split; [exists 1%nat; intros f Hf; destruct f as [|f]; [lia|]; reflexivity|]. repeat split.
Qed.
Example ex_C30 : exists l e, fst (fst (ex_run [CQuery [3] []; RNext 0; RNext 0; RClose 0; CClose] 0)) =
  [OHandle (Some 0%nat) None; ONext (Some l) None None; ONext None None (Some (ewrap FConn 569 (EFailMsg (bad 3)))); OErr (Some e); OErr None] /\ innermost e = EBadConn.
Proof. vm_compute. do 2 eexists. split; reflexivity. Qed.
Example ex_C31 : asks (conn0 5) 5 (CQuery [1] []) [1] [] quiet /\ toy 5 [1] [] = (6, Runs hdr [[VInt KInt64 5]; [VInt KInt64 6]] (Ends (bad 5))) /\ fine (VRun [1] []) = true /\
  exists dss, map (fill 1) [[VInt KInt64 5]; [VInt KInt64 6]] = map (fun ds => (ds, NDone)) dss.
Proof. split; [constructor; apply quiet0|]. split; [reflexivity|]. split; [reflexivity|]. exists [[DVInt 5]; [DVInt 6]]. vm_compute. reflexivity. Qed.
Example ex_C32 : exists e, fst (fst (ex_run [CQuery [4] []; RNext 0; RNext 0] 0)) = [OHandle (Some 0%nat) None; ONext None (Some (bad 4)) (Some EEOF); ONext None None (Some e)] /\ innermost e = EBadConn.
Proof. vm_compute. eexists. split; reflexivity. Qed.
Example ex_C33 : fst (fst (ex_run [CExecPipeline [[1]; [4]; [1]] [[]; []; []]] 5)) = [OResults (Some [bad 5; bad 4; bad 6]) None] /\
  asks_pipe (conn0 5) 5 (CQueryPipeline [[1]; [4]; [1]] [[]; []; []]) [([1], []); ([4], []); ([1], [])] quiet /\ all_sendable fine [([1], []); ([4], []); ([1], [])] = true.
Proof. split; [vm_compute; reflexivity|]. split; [apply (asksp_conn (conn0 5) 5 [[1]; [4]; [1]] [[]; []; []]); [apply quiet0|reflexivity]|reflexivity]. Qed.
Example ex_C34 : fst (fst (ex_run [CQueryPipeline [[4]; [1]] [[]; []]; RNextPipeline 0; RNextPipeline 1; RNextPipeline 1; RNextPipeline 1] 0)) =
  [OHandle (Some 0%nat) None; OPipe None (Some hdr) (Some 1%nat) None; OPipe (Some [VInt KInt64 0]) None None None; OPipe (Some [VInt KInt64 1]) None None None; OPipe None None None None].
Proof. vm_compute. reflexivity. Qed.
Example ex_C35 : match ex_run [CQueryPipeline [[1]; [1]; [1]] [[]; []; []]; RNextPipeline 0; RClose 0; CExec [4] []] 0 with
  (l, _, w) => skipn 2 l = [OErr None; OResult (Some (bad 4)) None] /\ w_net w = Build_bnet 3 Ready [] end.
Proof. vm_compute. split; reflexivity. Qed.
(** parameters with the key 0 cannot be sent in the example *)
Example ex_C36 : let os := [CExecPipeline [[1]; [1]] [[]; [([0], VNil)]]; CExec [4] []] in
  (exists e, fst (fst (ex_run os 9)) = [OResults None (Some e); OResult (Some (bad 9)) None] /\ driver_error e) /\
  bad_call fine true (CExec [1] [([0], VNil)]) /\ bad_params fine [[1]] [[]; []].
Proof. split; [vm_compute; eexists; split; [reflexivity|do 2 eexists; reflexivity]|]. split; [reflexivity|]. left. discriminate. Qed.
Example ex_C37 : match ex_run [CBegin; CQuery [4] []; TCommit 0] 7 with
  (l, _, w) => l = [OHandle (Some 0%nat) None; OHandle (Some 0%nat) None; OErr None] /\ w_net w = Build_bnet 7 Failed [VFailure (bad 7)] end.
Proof. vm_compute. split; reflexivity. Qed.
Example ex_C38 : begin_works toy 7 7 /\ fst (fst (ex_run [CBegin; CBegin; CClose] 7)) = [OHandle (Some 0%nat) None; OHandle (Some 1%nat) None; OErr None].
Proof. split; [do 2 eexists; reflexivity|vm_compute; reflexivity]. Qed.
(** a database that keeps one transaction *)
Definition single (open : bool) (q : str) (ps : md) : bool * outcome :=
  match q with
  | [66; 69; 71; 73; 78] => if open then (true, RunFails (bad 1)) else (true, Runs [] [] (Ends []))
  | [67; 79; 77; 77; 73; 84] => (false, Runs [] [] (Ends []))
  | _ => (open, Runs [] [] (Ends []))
  end.
Example ex_C38_server : match run (bolt single fine) true 20 [CBegin; CBegin; TCommit 0; CBegin] (fresh false (Build_bnet false Ready [])) with
  (l, _, w) => exists e, l = [OHandle (Some 0%nat) None; OHandle None (Some e); OErr None; OHandle (Some 1%nat) None] /\ failed_with (bad 1) (OHandle None (Some e)) end.
Proof. vm_compute. eexists. split; [reflexivity|]. repeat eexists. Qed.

(** ** What is sent, on any network *)
Section AnyNet.
Context {N : Type} (ops : netops N).
Notation net := (logged ops).
(** The network with a log behaves like the network itself. *)
Theorem C56_log_is_faithful : forall mk f o w,
  step ops mk f o (unlogged w) = (fst (step net mk f o w), unlogged (snd (step net mk f o w))).
Proof. exact (log_only ops). Qed.
Lemma reach_notx : forall mk f os w, c_tx (w_conn w) = None -> c_tx (w_conn (snd (run net mk f os w))) = None.
Proof.
  intros mk f. induction os as [|o os IH]; intros w Hw; cbn [run]; [exact Hw|]. destruct (step_asks ops mk f o w Hw) as (H & _). destruct (step net mk f o w) as [[a| |] w1]; cbn [fst snd] in *; auto.
  specialize (IH w1 H). destruct (run net mk f os w1) as [[l r] w2]. exact IH.
Qed.
(** The queries sent by the last call of a history are a prefix of those it asks for. *)
Theorem C56_only_what_was_asked : forall mk f os p n o,
  let w := snd (run net mk f os (fresh p (n, []))) in
  exists tr rest, log (snd (step net mk f o w)) = log w ++ tr /\ asked mk w o = runs tr ++ rest.
Proof. intros mk f os p n o w. apply (step_asks ops mk f o w). apply reach_notx. reflexivity. Qed.

(** Commit and Rollback: after whatever closing the open statement takes (no query), one
    query is sent and the two messages read after it are SUCCESS. *)
Theorem C37_sends_partial : forall mk f os p n q o t w',
  let w := snd (run net mk f os (fresh p (n, []))) in
  o = TCommit t /\ q = s_commit \/ o = TRollback t /\ q = s_rollback ->
  step net mk f o w = (Ok (OErr None), w') ->
  exists tr m1 m2, log w' = log w ++ tr ++ [Sent (VRun q []) SOk; Sent VPullAll SOk; Got (RMsg (VSuccess m1)); Got (RMsg (VSuccess m2))] /\ runs tr = [].
Proof. intros mk f os p n q o t w' w Ho H. eapply (finish_sends ops); eauto. apply reach_notx. reflexivity. Qed.
(** No history records a transaction, and no Close ever sends ROLLBACK. *)
Theorem C38_refuted_never_rolled_back : forall mk f os p n,
  let w := snd (run net mk f os (fresh p (n, []))) in
  c_tx (w_conn w) = None /\ exists tr, log (snd (step net mk f CClose w)) = log w ++ tr /\ runs tr = [].
Proof.
  intros mk f os p n w. assert (Hw : c_tx (w_conn w) = None) by (apply reach_notx; reflexivity). split; [exact Hw|].
  destruct (step_asks ops mk f CClose w Hw) as (_ & tr & rest & H1 & H2). exists tr. split; [exact H1|]. cbn in H2. destruct (runs tr); [reflexivity|discriminate].
Qed.
End AnyNet.
Print Assumptions C56_log_is_faithful.
Print Assumptions C56_only_what_was_asked.
Print Assumptions C37_sends_partial.
Print Assumptions C38_refuted_never_rolled_back.
Example ex_C56 : match run (logged (bolt toy fine)) true 20 [CPrepare [1]; SExec 0 []; SClose 0; CBegin; TCommit 0] (fresh false (Build_bnet 0 Ready [], [])) with
  (_, _, w) => runs (log w) = [([1], []); (s_begin, []); (s_commit, [])] /\ length (log w) = 14%nat end.
Proof. vm_compute. split; reflexivity. Qed.
