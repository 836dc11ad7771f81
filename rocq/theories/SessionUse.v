(** What the refinement means for clients: short histories from any quiet connection. *)
From Coq Require Import ZArith List Bool Lia.
From Verif Require Import GoPrims PrimLemmas Value Errors Misc Session SessionVoc SessionGen SessionFuel ServerSpec SessionSpec SessionBolt SessionRefine.
Import ListNotations.
Open Scope Z_scope.

Section Use.
Context {DB : Type}.
Variable exec : DB -> str -> md -> DB * outcome.
Variable sendable : goval -> bool.
Variable mk : bool.
Notation net := (bolt exec sendable).
Notation W := (world (bnet DB)).
Notation B := Build_bnet.

(** The connection is open, nothing is open on it, the server is ready and no response is unread. *)
Definition quiet (w : W) (db : DB) : Prop :=
  c_closed (w_conn w) = false /\ c_stmt (w_conn w) = None /\ c_tx (w_conn w) = None /\ w_net w = B db Ready [].
(** The statement [s], prepared for one query or a pipeline, is open without rows; otherwise as before. *)
Definition prepared (w : W) (db : DB) (s : nat) (k : kind) : Prop :=
  c_closed (w_conn w) = false /\ c_stmt (w_conn w) = Some s /\ c_tx (w_conn w) = None /\ w_net w = B db Ready [] /\
  nth_error (w_stmts w) s = Some match k with One q => new_stmt q | Many qs => new_pipe_stmt qs end.
(** The calls [os] return [rs] and lead from [w] to [w']. *)
Definition calls (w : W) (os : list op) (rs : list out) (w' : W) : Prop :=
  exists f0, forall f, (f0 <= f)%nat -> run net mk f os w = (rs, Ok tt, w').

Hypothesis Hctl : controls sendable.

Lemma calls_nil : forall w, calls w [] [] w.
Proof. intros w. exists O. reflexivity. Qed.
Lemma calls_cons : forall o w r w' os rs w'', does exec sendable mk o w r w' -> calls w' os rs w'' -> calls w (o :: os) (r :: rs) w''.
Proof.
  intros o w r w' os rs w'' (f1 & H1) (f2 & H2). exists (Nat.max f1 f2). intros f Hf. cbn [run].
  rewrite (step_fuel net mk f1 f o w r w') by (auto; lia). rewrite H2 by lia. reflexivity.
Qed.
Lemma calls_one : forall o w r w', does exec sendable mk o w r w' -> calls w [o] [r] w'.
Proof. intros. eapply calls_cons; eauto using calls_nil. Qed.
Lemma calls_app : forall os1 rs1 w w1 os2 rs2 w2, calls w os1 rs1 w1 -> calls w1 os2 rs2 w2 -> calls w (os1 ++ os2) (rs1 ++ rs2) w2.
Proof.
  intros os1 rs1 w w1 os2 rs2 w2 (f1 & H1) (f2 & H2). exists (Nat.max f1 f2). intros f Hf. specialize (H1 f ltac:(lia)). specialize (H2 f ltac:(lia)).
  revert rs1 w w1 H1 H2. induction os1 as [|o os1 IH]; intros rs1 w w1 H1 H2; cbn [run app] in *.
  - injection H1 as <- <-. exact H2.
  - destruct (step net mk f o w) as [[a| |] w']; try discriminate. destruct (run net mk f os1 w') as [[l r] w3] eqn:E. injection H1 as <- -> ->.
    rewrite (IH l w' w1 E H2). reflexivity.
Qed.

Definition at_rest (db : DB) (ph : phase) (t : option nat) : sst DB := Build_sst db ph t [] [] [].
Lemma quiet_rel : forall w db, quiet w db -> Rel (c_pooled (w_conn w)) w (at_rest db PIdle None).
Proof. intros w db (H1 & H2 & H3 & H4). split; [exact H3|]. split; [reflexivity|]. do 3 (split; [intros ? []|]). split; [discriminate|]. repeat split; auto. Qed.
Lemma quiet_rel_tx : forall w db t, quiet w db -> nth_error (w_txs w) t = Some {| t_closed := false |} -> Rel (c_pooled (w_conn w)) w (at_rest db PIdle (Some t)).
Proof. intros w db t (H1 & H2 & H3 & H4) Ht. split; [exact H3|]. split; [reflexivity|]. do 3 (split; [intros ? []|]). split; [|repeat split; auto]. intros t' E. cbn in E. congruence. Qed.
Lemma rel_quiet : forall p w st, Rel p w st -> sp_phase st = PIdle -> quiet w (sp_db st).
Proof. intros p w st (H1 & _ & _ & _ & _ & _ & H) E. rewrite E in H. destruct H as (Ha & Hb & Hc). repeat split; auto. Qed.
Lemma open_new : forall k, match k with One q => new_stmt q | Many qs => new_pipe_stmt qs end = open_stmt k None.
Proof. intros []; reflexivity. Qed.
Lemma prepared_rel : forall w db s k, prepared w db s k -> Rel (c_pooled (w_conn w)) w (at_rest db (PStmt s k) None).
Proof.
  intros w db s k (H1 & H2 & H3 & H4 & H5). rewrite open_new in H5. split; [exact H3|]. split; [reflexivity|]. do 3 (split; [intros ? []|]). split; [discriminate|]. cbn. auto.
Qed.
Lemma rel_prepared : forall p w st s k, Rel p w st -> sp_phase st = PStmt s k -> prepared w (sp_db st) s k.
Proof. intros p w st s k (H1 & _ & _ & _ & _ & _ & H) E. rewrite E in H. destruct H as (Ha & Hb & Hc & Hd). repeat split; auto. rewrite open_new. auto. Qed.

(** ** Pipelines *)
(** The queries [l], run in this order from [db], all succeed with the results
    [(header, records, summary)] and lead to [db']. *)
Definition result : Type := md * list (list goval) * md.
Inductive in_order : DB -> list (str * md) -> list result -> DB -> Prop :=
| in_order_nil : forall db, in_order db [] [] db
| in_order_cons : forall db q ps db1 h recs m l rs db', exec db q ps = (db1, Runs h recs (Ends m)) -> in_order db1 l rs db' ->
    in_order db ((q, ps) :: l) ((h, recs, m) :: rs) db'.
(** The queries [l], run in this order from [db] until one fails, stop with the failure [m] and lead to [db']. *)
Definition pipeline_fails (db : DB) (l : list (str * md)) (db' : DB) (m : md) : Prop :=
  exists l1 q ps l2 rs db1 out, l = l1 ++ (q, ps) :: l2 /\ in_order db l1 rs db1 /\ exec db1 q ps = (db', out) /\ fails out = Some m.

Definition went (r : result) : option outcome := let '(h, recs, m) := r in Some (Runs h recs (Ends m)).
Lemma in_order_run : forall db l1 rs db1 l2, in_order db l1 rs db1 ->
  run_pipe exec db (l1 ++ l2) = (let '(db', os) := run_pipe exec db1 l2 in (db', map went rs ++ os)).
Proof.
  intros db l1 rs db1 l2 H. induction H as [db|db q ps db1 h recs m l rs db' Hx _ IH].
  - cbn [app map]. destruct (run_pipe exec db l2). reflexivity.
  - cbn [app run_pipe]. rewrite Hx. cbn [fails]. rewrite IH. destruct (run_pipe exec db' l2). reflexivity.
Qed.
Lemma in_order_ok : forall db l rs db', in_order db l rs db' -> run_pipe exec db l = (db', map went rs).
Proof. intros. rewrite <- (app_nil_r l). erewrite in_order_run by eassumption. cbn. now rewrite app_nil_r. Qed.
Lemma went_failure : forall rs os, first_failure (map went rs ++ os) = first_failure os.
Proof. induction rs as [|[[h recs] m] rs IH]; intros os; cbn; auto. Qed.
Lemma went_summaries : forall rs, summaries (map went rs) = map snd rs.
Proof. induction rs as [|[[h recs] m] rs IH]; cbn; congruence. Qed.
Lemma in_order_length : forall db l rs db', in_order db l rs db' -> length rs = length l.
Proof. intros db l rs db' H. induction H; cbn; congruence. Qed.
Lemma pipeline_fails_run : forall db l db' m, pipeline_fails db l db' m -> exists os, run_pipe exec db l = (db', os) /\ first_failure os = Some m.
Proof.
  intros db l db' m (l1 & q & ps & l2 & rs & db1 & out & -> & Ho & Hx & Hf). erewrite in_order_run by eassumption. cbn [run_pipe]. rewrite Hx, Hf.
  eexists. split; [reflexivity|]. rewrite went_failure. cbn [first_failure]. now rewrite Hf.
Qed.

(** ** Failures *)
(** [request_fails db o db' m]: the request made by the call [o] on a connection is
    answered with the failure [m]. *)
Definition request_fails (db : DB) (o : op) (db' : DB) (m : md) : Prop :=
  match o with
  | CExec q ps => sendable (VRun q ps) = true /\ exists out, exec db q ps = (db', out) /\ fails out = Some m
  | CQuery q ps => sendable (VRun q ps) = true /\ exec db q ps = (db', RunFails m)
  | CQueryAll q ps => sendable (VRun q ps) = true /\ exec db q ps = (db', RunFails m)
  | CExecPipeline qs pss => length pss = length qs /\ all_sendable sendable (combine qs pss) = true /\
      pipeline_fails db (combine qs pss) db' m
  | CQueryPipeline qs pss => length pss = length qs /\ all_sendable sendable (combine qs pss) = true /\
      exists q ps l, combine qs pss = (q, ps) :: l /\ exec db q ps = (db', RunFails m)
  | CBegin => exec db s_begin [] = (db', RunFails m) \/ exists h, exec db s_begin [] = (db', Runs h [] (Breaks m))
  | _ => False
  end.
Theorem failed_request : forall w db o db' m, quiet w db -> request_fails db o db' m ->
  exists r w', calls w [o] [r] w' /\ failed_with m r /\ w_net w' = B db' Ready [] /\
    match o with CQueryPipeline _ _ => True | _ => quiet w' db' end.
Proof.
  intros w db o db' m Hq Hf. pose proof (quiet_rel w db Hq) as HR.
  assert (Hgo : forall st', expect exec sendable mk (c_pooled (w_conn w)) (at_rest db PIdle None) o = Some (AFailed m, fun _ => st') ->
    (forall w', Rel (c_pooled (w_conn w)) w' st' -> w_net w' = B db' Ready [] /\ match o with CQueryPipeline _ _ => True | _ => quiet w' db' end) ->
    exists r w', calls w [o] [r] w' /\ failed_with m r /\ w_net w' = B db' Ready [] /\ match o with CQueryPipeline _ _ => True | _ => quiet w' db' end).
  { intros st' E H. destruct (refine_step exec sendable mk _ Hctl w _ o _ _ HR E) as (r & w' & Hd & Hc & HR'). exists r, w'.
    split; [now apply calls_one|]. split; [exact Hc|]. exact (H w' HR'). }
  assert (Hidle : forall st' w', sp_phase st' = PIdle -> sp_db st' = db' -> Rel (c_pooled (w_conn w)) w' st' -> w_net w' = B db' Ready [] /\ quiet w' db').
  { intros st' w' E1 E2 HR'. pose proof (rel_quiet _ _ _ HR' E1) as Hqt. rewrite E2 in Hqt. split; [apply Hqt|exact Hqt]. }
  destruct o; try contradiction; cbn [request_fails] in Hf.
  - destruct Hf as [Hf|(h & Hf)]; eapply Hgo with (st' := with_db db' (at_rest db PIdle None));
      try (intros w' HR'; eapply Hidle; [| |exact HR']; reflexivity); cbn [expect conn_op at_rest sp_phase sp_tx]; unfold control; cbn [at_rest sp_db]; rewrite Hf; reflexivity.
  - destruct Hf as (Hs & out & Hx & Hff). eapply Hgo with (st' := with_db db' (at_rest db PIdle None)); [|intros w' HR'; eapply Hidle; [| |exact HR']; reflexivity].
    cbn [expect conn_op at_rest sp_phase]. unfold run_exec. rewrite Hs. cbn [at_rest sp_db]. rewrite Hx. destruct out as [m'|h recs [m'|m']]; try discriminate Hff; injection Hff as ->; reflexivity.
  - destruct Hf as (Hl & Hs & Hpf). destruct (pipeline_fails_run _ _ _ _ Hpf) as (os & Hx & Hff). eapply Hgo with (st' := with_db db' (at_rest db PIdle None)); [|intros w' HR'; eapply Hidle; [| |exact HR']; reflexivity].
    cbn [expect conn_op at_rest sp_phase]. unfold run_exec_pipe. rewrite Hl, Nat.eqb_refl. cbn [negb]. rewrite Hs. cbn [at_rest sp_db]. rewrite Hx, Hff. reflexivity.
  - destruct Hf as (Hs & Hx). eapply Hgo with (st' := with_db db' (at_rest db PIdle None)); [|intros w' HR'; eapply Hidle; [| |exact HR']; reflexivity].
    cbn [expect conn_op at_rest sp_phase]. unfold run_query. rewrite Hs. cbn [at_rest sp_db]. rewrite Hx. reflexivity.
  - destruct Hf as (Hs & Hx). eapply Hgo with (st' := with_db db' (at_rest db PIdle None)); [|intros w' HR'; eapply Hidle; [| |exact HR']; reflexivity].
    cbn [expect conn_op at_rest sp_phase]. rewrite Hs. cbn [at_rest sp_db]. rewrite Hx. reflexivity.
  - destruct Hf as (Hl & Hs & q0 & ps0 & l0 & Hc0 & Hx). eapply Hgo with (st' := to (PLost true) (with_db db' (at_rest db PIdle None))).
    + cbn [expect conn_op at_rest sp_phase]. unfold run_query_pipe. rewrite Hl, Nat.eqb_refl. cbn [negb]. rewrite Hc0. rewrite Hc0 in Hs.
      rewrite Hs. cbn [at_rest sp_db run_pipe]. rewrite Hx. reflexivity.
    + intros w' (_ & _ & _ & _ & _ & _ & _ & _ & s & _ & HR'). destruct (HR' eq_refl) as (k & ro & _ & _ & E). split; [exact E|exact I].
Qed.
(** the same on a prepared statement *)
Definition stmt_request_fails (db : DB) (s : nat) (k : kind) (o : op) (db' : DB) (m : md) : Prop :=
  match o, k with
  | SExec s' ps, One q => s' = s /\ request_fails db (CExec q ps) db' m
  | SQuery s' ps, One q => s' = s /\ request_fails db (CQuery q ps) db' m
  | SExecPipeline s' pss, Many qs => s' = s /\ request_fails db (CExecPipeline qs pss) db' m
  | SQueryPipeline s' pss, Many qs => s' = s /\ request_fails db (CQueryPipeline qs pss) db' m
  | _, _ => False
  end.
Theorem failed_stmt_request : forall w db s k o db' m, prepared w db s k -> stmt_request_fails db s k o db' m ->
  exists r w', calls w [o] [r] w' /\ failed_with m r /\ prepared w' db' s k.
Proof.
  intros w db s k o db' m Hq Hf. pose proof (prepared_rel w db s k Hq) as HR.
  assert (Hgo : forall st', expect exec sendable mk (c_pooled (w_conn w)) (at_rest db (PStmt s k) None) o = Some (AFailed m, fun _ => st') ->
    sp_phase st' = PStmt s k -> sp_db st' = db' -> exists r w', calls w [o] [r] w' /\ failed_with m r /\ prepared w' db' s k).
  { intros st' E E1 E2. destruct (refine_step exec sendable mk _ Hctl w _ o _ _ HR E) as (r & w' & Hd & Hc & HR'). exists r, w'.
    split; [now apply calls_one|]. split; [exact Hc|]. rewrite <- E2. eapply rel_prepared; eauto. }
  destruct k as [kq|kqs], o; try contradiction; cbn [stmt_request_fails request_fails] in Hf; destruct Hf as (-> & Hf).
  - destruct Hf as (Hs & out & Hx & Hff). eapply Hgo with (st' := with_db db' (at_rest db (PStmt s (One kq)) None)); try reflexivity.
    cbn [expect stmt_op at_rest sp_ds sp_phase existsb]. rewrite Nat.eqb_refl. unfold run_exec. rewrite Hs. cbn [at_rest sp_db]. rewrite Hx.
    destruct out as [m'|h recs [m'|m']]; try discriminate Hff; injection Hff as ->; reflexivity.
  - destruct Hf as (Hs & Hx). eapply Hgo with (st' := with_db db' (at_rest db (PStmt s (One kq)) None)); try reflexivity.
    cbn [expect stmt_op at_rest sp_ds sp_phase existsb]. rewrite Nat.eqb_refl. unfold run_query. rewrite Hs. cbn [at_rest sp_db]. rewrite Hx. reflexivity.
  - destruct Hf as (Hl & Hs & Hpf). destruct (pipeline_fails_run _ _ _ _ Hpf) as (os & Hx & Hff). eapply Hgo with (st' := with_db db' (at_rest db (PStmt s (Many kqs)) None)); try reflexivity.
    cbn [expect stmt_op at_rest sp_ds sp_phase existsb]. rewrite Nat.eqb_refl. unfold run_exec_pipe. rewrite Hl, Nat.eqb_refl. cbn [negb]. rewrite Hs. cbn [at_rest sp_db]. rewrite Hx, Hff. reflexivity.
  - destruct Hf as (Hl & Hs & q0 & ps0 & l0 & Hc0 & Hx). eapply Hgo with (st' := to (PStmt s (Many kqs)) (with_db db' (at_rest db (PStmt s (Many kqs)) None))); try reflexivity.
    cbn [expect stmt_op at_rest sp_ds sp_phase existsb]. rewrite Nat.eqb_refl. unfold run_query_pipe. rewrite Hl, Nat.eqb_refl. cbn [negb]. rewrite Hc0. rewrite Hc0 in Hs.
    rewrite Hs. cbn [at_rest sp_db run_pipe]. rewrite Hx. reflexivity.
Qed.
(** COMMIT and ROLLBACK *)
Definition tx_query (o : op) (t : nat) : option str :=
  match o with
  | TCommit t' => if (t' =? t)%nat then Some s_commit else None
  | TRollback t' => if (t' =? t)%nat then Some s_rollback else None
  | _ => None
  end.
Theorem tx_call : forall w db o t q db' oc, quiet w db -> nth_error (w_txs w) t = Some {| t_closed := false |} -> tx_query o t = Some q ->
  exec db q [] = (db', oc) -> (match oc with Runs _ (_ :: _) _ => False | _ => True end) ->
  exists r w', calls w [o] [r] w' /\ quiet w' db' /\
    match fails oc with
    | Some m => failed_with m r /\ nth_error (w_txs w') t = Some {| t_closed := false |}
    | None => r = OErr None /\ tx_closed w' t
    end.
Proof.
  intros w db o t q db' oc Hq Ht Ho Hx Hn. pose proof (quiet_rel_tx w db t Hq Ht) as HR.
  assert (E : expect exec sendable mk (c_pooled (w_conn w)) (at_rest db PIdle (Some t)) o =
     match fails oc with
     | Some m => Some (AFailed m, fun _ => with_db db' (at_rest db PIdle (Some t)))
     | None => Some (ANil, fun _ => with_tx None (bury_t t (with_db db' (at_rest db PIdle (Some t)))))
     end).
  { destruct o; try discriminate Ho; cbn in Ho; (destruct (Nat.eqb_spec t0 t) as [->|]; [|discriminate]); injection Ho as <-;
    cbn [expect]; unfold tx_op, close_open, control; cbn [at_rest sp_dt sp_tx sp_phase sp_db existsb]; rewrite Nat.eqb_refl, Hx; destruct oc as [m|h [|? ?] [m|m]]; try contradiction; reflexivity. }
  destruct (fails oc) as [m|]; destruct (refine_step exec sendable mk _ Hctl w _ o _ _ HR E) as (r & w' & Hd & Hc & HR'); exists r, w'; (split; [now apply calls_one|]).
  - split; [exact (rel_quiet _ _ _ HR' eq_refl)|]. split; [exact Hc|]. destruct HR' as (_ & _ & _ & _ & _ & HR' & _). apply HR'. reflexivity.
  - split; [exact (rel_quiet _ _ _ HR' eq_refl)|]. split; [exact Hc|]. destruct HR' as (_ & _ & _ & _ & HR' & _). apply HR'. left. reflexivity.
Qed.

(** ** Queries and their rows *)
(** [asks w db o q ps back]: the call [o], made on a quiet connection or an open prepared
    statement, is a query; [back] is the situation after its rows have been closed. *)
Inductive asks (w : W) (db : DB) : op -> str -> md -> (W -> DB -> Prop) -> Prop :=
| asks_conn : forall q ps, quiet w db -> asks w db (CQuery q ps) q ps quiet
| asks_stmt : forall s q ps, prepared w db s (One q) -> asks w db (SQuery s ps) q ps (fun w' db' => prepared w' db' s (One q)).
(** the same for pipelines *)
Inductive asks_pipe (w : W) (db : DB) : op -> list (str * md) -> (W -> DB -> Prop) -> Prop :=
| asksp_conn : forall qs pss, quiet w db -> length pss = length qs -> asks_pipe w db (CQueryPipeline qs pss) (combine qs pss) quiet
| asksp_stmt : forall s qs pss, prepared w db s (Many qs) -> length pss = length qs ->
    asks_pipe w db (SQueryPipeline s pss) (combine qs pss) (fun w' db' => prepared w' db' s (Many qs)).

Definition row_out (fs : list goval) : out := ONext (Some fs) None None.

Definition back_of (ow : option (nat * kind)) : W -> DB -> Prop :=
  match ow with None => quiet | Some (s, k) => fun w' db' => prepared w' db' s k end.
Definition home (ow : option (nat * kind)) : phase := match ow with None => PIdle | Some (s, k) => PStmt s k end.

Lemma step_at : forall p w st o a k, Rel p w st -> expect exec sendable mk p st o = Some (a, k) ->
  exists r w', does exec sendable mk o w r w' /\ conforms a r /\ Rel p w' (k (handle_of r)).
Proof. intros. eapply refine_step; eauto. Qed.

(** the statement a query belongs to *)
Definition owner_of (o : op) (q : str) : option (nat * kind) := match o with SQuery s _ => Some (s, One q) | _ => None end.
Lemma asks_owner : forall w db o q ps back, asks w db o q ps back -> back = back_of (owner_of o q) /\
  forall db' h recs fin, sendable (VRun q ps) = true -> exec db q ps = (db', Runs h recs fin) ->
  exists r w', does exec sendable mk o w (OHandle (Some r) None) w' /\ Rel (c_pooled (w_conn w)) w' (at_rest db' (PRows (owner_of o q) r h (Single recs fin)) None).
Proof.
  intros w db o q ps back H. destruct H as [q ps Hq|s q ps Hq].
  - split; [reflexivity|]. intros db' h recs fin Hs Hx.
    pose proof (fun a k => step_at _ _ _ (CQuery q ps) a k (quiet_rel _ _ Hq)) as Hst; edestruct Hst as (r & w' & Hd & Hx1 & HR); clear Hst.
    { cbn [expect conn_op at_rest sp_phase]. unfold run_query. rewrite Hs. cbn [at_rest sp_db]. rewrite Hx. reflexivity. }
    destruct Hx1 as (x & ->). exists x, w'. split; [exact Hd|exact HR].
  - split; [reflexivity|]. intros db' h recs fin Hs Hx.
    pose proof (fun a k => step_at _ _ _ (SQuery s ps) a k (prepared_rel _ _ _ _ Hq)) as Hst; edestruct Hst as (r & w' & Hd & Hx1 & HR); clear Hst.
    { cbn [expect stmt_op at_rest sp_ds sp_phase existsb]. rewrite Nat.eqb_refl. unfold run_query. rewrite Hs. cbn [at_rest sp_db]. rewrite Hx. reflexivity. }
    destruct Hx1 as (x & ->). exists x, w'. split; [exact Hd|exact HR].
Qed.
Lemma asks_opens : forall w db o q ps back, asks w db o q ps back -> exists ow, back = back_of ow /\
  forall db' h recs fin, sendable (VRun q ps) = true -> exec db q ps = (db', Runs h recs fin) ->
  exists r w', does exec sendable mk o w (OHandle (Some r) None) w' /\ Rel (c_pooled (w_conn w)) w' (at_rest db' (PRows ow r h (Single recs fin)) None).
Proof. intros w db o q ps back H. destruct (asks_owner _ _ _ _ _ _ H) as (H1 & H2). eauto. Qed.

Lemma read_some : forall p ow r h fin recs2 db recs1 w, Rel p w (at_rest db (PRows ow r h (Single (recs1 ++ recs2) fin)) None) ->
  exists w', calls w (repeat (RNext r) (length recs1)) (map row_out recs1) w' /\ Rel p w' (at_rest db (PRows ow r h (Single recs2 fin)) None).
Proof.
  intros p ow r h fin recs2 db. induction recs1 as [|fs recs1 IH]; intros w HR.
  - exists w. split; [apply calls_nil|exact HR].
  - pose proof (fun a k => step_at _ _ _ (RNext r) a k HR) as Hst; edestruct Hst as (x & w1 & Hd & Hx & HR1); clear Hst.
    { cbn [expect rows_op at_rest sp_dr sp_phase existsb app]. rewrite Nat.eqb_refl. reflexivity. }
    cbn in Hx. subst x. destruct (IH w1 HR1) as (w2 & Hc & HR2). exists w2. split; [|exact HR2]. cbn [length repeat map]. eapply calls_cons; eauto.
Qed.

(** all records, then what ends the stream *)
Theorem read_all : forall w db o q ps back db' h recs fin, asks w db o q ps back -> sendable (VRun q ps) = true -> exec db q ps = (db', Runs h recs fin) ->
  exists r w' last, calls w (o :: RMeta r :: repeat (RNext r) (length recs) ++ [RNext r]) (OHandle (Some r) None :: OMeta h :: map row_out recs ++ [last]) w' /\
    match fin with Ends m => last = ONext None (Some m) (Some EEOF) | Breaks m => failed_with m last end.
Proof.
  intros w db o q ps back db' h recs fin Ha Hs Hx. destruct (asks_opens _ _ _ _ _ _ Ha) as (ow & -> & H). destruct (H _ _ _ _ Hs Hx) as (r & w1 & Hd & HR).
  pose proof (fun a k => step_at _ _ _ (RMeta r) a k HR) as Hst; edestruct Hst as (x & w2 & Hd2 & Hx2 & HR2); clear Hst.
  { cbn [expect rows_op at_rest sp_dr sp_phase existsb]. rewrite Nat.eqb_refl. reflexivity. }
  cbn in Hx2. subst x. rewrite <- (app_nil_r recs) in HR2 at 1. destruct (read_some _ _ _ _ _ _ _ _ _ HR2) as (w3 & Hc & HR3).
  assert (Hl : exists a k, expect exec sendable mk (c_pooled (w_conn w)) (at_rest db' (PRows ow r h (Single [] fin)) None) (RNext r) = Some (a, k) /\
     a = match fin with Ends m => AEnd m | Breaks m => AFailed m end).
  { cbn [expect rows_op at_rest sp_dr sp_phase existsb]. rewrite Nat.eqb_refl. destruct fin; do 2 eexists; split; reflexivity. }
  destruct Hl as (a & k & He & Hl). destruct (step_at _ _ _ _ _ _ HR3 He) as (x & w4 & Hd4 & Hx4 & _).
  exists r, w4, x. split.
  - eapply calls_cons; [exact Hd|]. eapply calls_cons; [exact Hd2|]. eapply calls_app; [exact Hc|]. now apply calls_one.
  - subst a. destruct fin; exact Hx4.
Qed.
(** All *)
Theorem read_by_all : forall w db o q ps back db' h recs1 recs2 m, asks w db o q ps back -> sendable (VRun q ps) = true -> exec db q ps = (db', Runs h (recs1 ++ recs2) (Ends m)) ->
  exists r w', calls w (o :: repeat (RNext r) (length recs1) ++ [RAll r; RClose r]) (OHandle (Some r) None :: map row_out recs1 ++ [OAll recs2 (Some m) None; OErr None]) w' /\ back w' db'.
Proof.
  intros w db o q ps back db' h recs1 recs2 m Ha Hs Hx. destruct (asks_opens _ _ _ _ _ _ Ha) as (ow & -> & H). destruct (H _ _ _ _ Hs Hx) as (r & w1 & Hd & HR).
  destruct (read_some _ _ _ _ _ _ _ _ _ HR) as (w2 & Hc & HR2).
  pose proof (fun a k => step_at _ _ _ (RAll r) a k HR2) as Hst; edestruct Hst as (x & w3 & Hd3 & Hx3 & HR3); clear Hst.
  { cbn [expect rows_op at_rest sp_dr sp_phase existsb]. rewrite Nat.eqb_refl. reflexivity. }
  cbn in Hx3. subst x.
  pose proof (fun a k => step_at _ _ _ (RClose r) a k HR3) as Hst; edestruct Hst as (x & w4 & Hd4 & Hx4 & HR4); clear Hst.
  { cbn [expect rows_op at_rest sp_dr sp_phase existsb to]. rewrite Nat.eqb_refl. reflexivity. }
  cbn in Hx4. subst x. exists r, w4. split.
  - eapply calls_cons; [exact Hd|]. eapply calls_app; [exact Hc|]. eapply calls_cons; [exact Hd3|]. now apply calls_one.
  - destruct ow as [[s k]|]; [exact (rel_prepared _ _ _ _ _ HR4 eq_refl)|exact (rel_quiet _ _ _ HR4 eq_refl)].
Qed.
(** database/sql Next; every record fits the destination *)
Theorem read_sql : forall w db o q ps back db' h recs n m dss, asks w db o q ps back -> sendable (VRun q ps) = true -> exec db q ps = (db', Runs h recs (Ends m)) ->
  map (fill n) recs = map (fun ds => (ds, NDone)) dss ->
  exists r w', calls w (o :: repeat (RNextSql r n) (length recs) ++ [RNextSql r n]) (OHandle (Some r) None :: map (fun ds => OCells ds None) dss ++ [OCells [] (Some EEOF)]) w'.
Proof.
  intros w db o q ps back db' h recs n m dss Ha Hs Hx Hf. destruct (asks_opens _ _ _ _ _ _ Ha) as (ow & -> & H). destruct (H _ _ _ _ Hs Hx) as (r & w1 & Hd & HR).
  assert (Hr : exists w2, calls w1 (repeat (RNextSql r n) (length recs)) (map (fun ds => OCells ds None) dss) w2 /\ Rel (c_pooled (w_conn w)) w2 (at_rest db' (PRows ow r h (Single [] (Ends m))) None)).
  { clear Hd Hx. revert dss Hf w1 HR. induction recs as [|fs recs IH]; intros [|ds dss] Hf w1 HR; try discriminate Hf.
    - exists w1. split; [apply calls_nil|exact HR].
    - cbn in Hf. injection Hf as Hf1 Hf2. pose proof (fun a k => step_at _ _ _ (RNextSql r n) a k HR) as Hst; edestruct Hst as (x & w2 & Hd2 & Hx2 & HR2); clear Hst.
      { cbn [expect rows_op at_rest sp_dr sp_phase existsb]. rewrite Nat.eqb_refl, Hf1. reflexivity. }
      cbn in Hx2. subst x. destruct (IH dss Hf2 w2 HR2) as (w3 & Hc & HR3). exists w3. split; [|exact HR3]. cbn [length repeat map]. eapply calls_cons; eauto. }
  destruct Hr as (w2 & Hc & HR2). pose proof (fun a k => step_at _ _ _ (RNextSql r n) a k HR2) as Hst; edestruct Hst as (x & w3 & Hd3 & Hx3 & HR3); clear Hst.
  { cbn [expect rows_op at_rest sp_dr sp_phase existsb]. rewrite Nat.eqb_refl. reflexivity. }
  cbn in Hx3. subst x. exists r, w3. eapply calls_cons; [exact Hd|]. eapply calls_app; [exact Hc|]. now apply calls_one.
Qed.
(** QueryNeoAll *)
Theorem query_all : forall w db q ps db' h recs m, quiet w db -> sendable (VRun q ps) = true -> exec db q ps = (db', Runs h recs (Ends m)) ->
  exists w', calls w [CQueryAll q ps] [OQueryAll (Some recs) (Some h) (Some m) None] w' /\ quiet w' db'.
Proof.
  intros w db q ps db' h recs m Hq Hs Hx. pose proof (fun a k => step_at _ _ _ (CQueryAll q ps) a k (quiet_rel _ _ Hq)) as Hst; edestruct Hst as (x & w1 & Hd & Hx1 & HR); clear Hst.
  { cbn [expect conn_op at_rest sp_phase]. rewrite Hs. cbn [at_rest sp_db]. rewrite Hx. reflexivity. }
  cbn in Hx1. subst x. exists w1. split; [now apply calls_one|]. exact (rel_quiet _ _ _ HR eq_refl).
Qed.

(** ** Closing rows *)
Lemma close_rows : forall p w db ow r h x, Rel p w (at_rest db (PRows ow r h x) None) ->
  exists res w', does exec sendable mk (RClose r) w res w' /\
    match drain x with
    | None => res = OErr None /\ back_of ow w' db
    | Some m => failed_with m res /\ Rel p w' (at_rest db (lost ow) None)
    end.
Proof.
  intros p w db ow r h x HR. destruct (drain x) as [m|] eqn:E.
  - pose proof (fun a k => step_at _ _ _ (RClose r) a k HR) as Hst; edestruct Hst as (y & w1 & Hd & Hx & HR1); clear Hst.
    { cbn [expect rows_op at_rest sp_dr sp_phase existsb]. rewrite Nat.eqb_refl, E. destruct x as [[|]?|[|][] [|[[]|]]|]; reflexivity. }
    exists y, w1. split; [exact Hd|]. split; [exact Hx|exact HR1].
  - pose proof (fun a k => step_at _ _ _ (RClose r) a k HR) as Hst; edestruct Hst as (y & w1 & Hd & Hx & HR1); clear Hst.
    { cbn [expect rows_op at_rest sp_dr sp_phase existsb]. rewrite Nat.eqb_refl, E. destruct x as [[|]?|[|][] [|[[]|]]|]; reflexivity. }
    exists y, w1. split; [exact Hd|]. split; [exact Hx|].
    destruct ow as [[s k]|]; [exact (rel_prepared _ _ _ _ _ HR1 eq_refl)|exact (rel_quiet _ _ _ HR1 eq_refl)].
Qed.
Theorem close_early : forall w db o q ps back db' h recs1 recs2 m, asks w db o q ps back -> sendable (VRun q ps) = true -> exec db q ps = (db', Runs h (recs1 ++ recs2) (Ends m)) ->
  exists r w', calls w (o :: repeat (RNext r) (length recs1) ++ [RClose r]) (OHandle (Some r) None :: map row_out recs1 ++ [OErr None]) w' /\ back w' db'.
Proof.
  intros w db o q ps back db' h recs1 recs2 m Ha Hs Hx. destruct (asks_opens _ _ _ _ _ _ Ha) as (ow & -> & H). destruct (H _ _ _ _ Hs Hx) as (r & w1 & Hd & HR).
  destruct (read_some _ _ _ _ _ _ _ _ _ HR) as (w2 & Hc & HR2). destruct (close_rows _ _ _ _ _ _ _ HR2) as (x & w3 & Hd3 & Hx3). cbn in Hx3. destruct Hx3 as (-> & Hb).
  exists r, w3. split; [|exact Hb]. eapply calls_cons; [exact Hd|]. eapply calls_app; [exact Hc|]. now apply calls_one.
Qed.

(** ** Reading pipelines *)
Definition pipe_out (fs : list goval) : out := OPipe (Some fs) None None None.
(** Read the results [rs] in order with the row sets [hs]: ask for the metadata, read
    all records and, if this is not the last result, go on to the next one. *)
Fixpoint pipe_calls (hs : list nat) (rs : list result) : list op :=
  match hs, rs with
  | r :: hs', (h, recs, m) :: rs' =>
      RMeta r :: repeat (RNextPipeline r) (length recs) ++
      match rs' with [] => [] | _ :: _ => RNextPipeline r :: pipe_calls hs' rs' end
  | _, _ => []
  end.
Fixpoint pipe_outs (hs : list nat) (rs : list result) : list out :=
  match hs, rs with
  | r :: hs', (h, recs, m) :: rs' =>
      OMeta h :: map pipe_out recs ++
      match rs' with [] => [] | (h', _, _) :: _ => OPipe None (Some h') (hd_error hs') None :: pipe_outs hs' rs' end
  | _, _ => []
  end.
Lemma read_pipe_some : forall p ow r h fin rest recs2 db recs1 w, Rel p w (at_rest db (PRows ow r h (Pipe (recs1 ++ recs2) fin rest)) None) ->
  exists w', calls w (repeat (RNextPipeline r) (length recs1)) (map pipe_out recs1) w' /\ Rel p w' (at_rest db (PRows ow r h (Pipe recs2 fin rest)) None).
Proof.
  intros p ow r h fin rest recs2 db. induction recs1 as [|fs recs1 IH]; intros w HR.
  - exists w. split; [apply calls_nil|exact HR].
  - pose proof (fun a k => step_at _ _ _ (RNextPipeline r) a k HR) as Hst; edestruct Hst as (x & w1 & Hd & Hx & HR1); clear Hst.
    { cbn [expect rows_op at_rest sp_dr sp_phase existsb app]. rewrite Nat.eqb_refl. reflexivity. }
    cbn in Hx. subst x. destruct (IH w1 HR1) as (w2 & Hc & HR2). exists w2. split; [|exact HR2]. cbn [length repeat map]. eapply calls_cons; eauto.
Qed.
(** the state of a row set whose remaining outcomes are [os] *)
Definition pipe_phase (ow : option (nat * kind)) (r : nat) (os : list (option outcome)) : phase :=
  match os with
  | Some (Runs h recs fin) :: rest => PRows ow r h (Pipe recs fin rest)
  | _ => PIdle
  end.
Lemma read_pipe : forall p ow h recs1 recs2 fin tail db m rs1 r w,
  Rel p w (at_rest db (pipe_phase ow r (map went rs1 ++ Some (Runs h (recs1 ++ recs2) fin) :: tail)) None) ->
  exists hs r' w', length hs = length rs1 /\ hd_error (hs ++ [r']) = Some r /\
    calls w (pipe_calls (hs ++ [r']) (rs1 ++ [(h, recs1, m)])) (pipe_outs (hs ++ [r']) (rs1 ++ [(h, recs1, m)])) w' /\
    Rel p w' (at_rest db (PRows ow r' h (Pipe recs2 fin tail)) None).
Proof.
  intros p ow h recs1 recs2 fin tail db m. induction rs1 as [|[[h0 recs0] m0] rs1 IH]; intros r w HR.
  - cbn [map app pipe_phase] in HR. pose proof (fun a k => step_at _ _ _ (RMeta r) a k HR) as Hst; edestruct Hst as (x & w1 & Hd & Hx & HR1); clear Hst.
    { cbn [expect rows_op at_rest sp_dr sp_phase existsb]. rewrite Nat.eqb_refl. reflexivity. }
    cbn in Hx. subst x. destruct (read_pipe_some _ _ _ _ _ _ _ _ _ _ HR1) as (w2 & Hc & HR2).
    exists [], r, w2. cbn [app length hd_error pipe_calls pipe_outs]. rewrite !app_nil_r. repeat (split; [reflexivity|]). split; [|exact HR2]. eapply calls_cons; eauto.
  - cbn [map app pipe_phase went] in HR. pose proof (fun a k => step_at _ _ _ (RMeta r) a k HR) as Hst; edestruct Hst as (x & w1 & Hd & Hx & HR1); clear Hst.
    { cbn [expect rows_op at_rest sp_dr sp_phase existsb]. rewrite Nat.eqb_refl. reflexivity. }
    cbn in Hx. subst x. change (Rel p w1 (at_rest db (PRows ow r h0 (Pipe recs0 (Ends m0) (map went rs1 ++ Some (Runs h (recs1 ++ recs2) fin) :: tail))) None)) in HR1.
    rewrite <- (app_nil_r recs0) in HR1. destruct (read_pipe_some _ _ _ _ _ _ _ _ _ _ HR1) as (w2 & Hc & HR2).
    assert (Hnext : exists h1 recs fin1 rest, map went rs1 ++ Some (Runs h (recs1 ++ recs2) fin) :: tail = Some (Runs h1 recs fin1) :: rest /\
       match rs1 ++ [(h, recs1, m)] with (h', _, _) :: _ => h' = h1 | [] => False end).
    { destruct rs1 as [|[[h1 recs1'] m1] rs1]; do 4 eexists; split; reflexivity. }
    destruct Hnext as (h1 & recs & fin1 & rest & En & Eh). rewrite En in HR2, IH.
    pose proof (fun a k => step_at _ _ _ (RNextPipeline r) a k HR2) as Hst; edestruct Hst as (x & w3 & Hd3 & Hx3 & HR3); clear Hst.
    { cbn [expect rows_op at_rest sp_dr sp_phase existsb]. rewrite Nat.eqb_refl. reflexivity. }
    cbn in Hx3. destruct Hx3 as (r1 & ->). destruct (IH r1 w3 HR3) as (hs & r' & w4 & Hl & Hh & Hc4 & HR4).
    exists (r :: hs), r', w4. split; [cbn; congruence|]. split; [reflexivity|]. split; [|exact HR4].
    cbn [app pipe_calls pipe_outs]. destruct (rs1 ++ [(h, recs1, m)]) as [|[[h' recs'] m'] l] eqn:El; [contradiction|]. subst h'.
    rewrite Hh. eapply calls_cons; [exact Hd|]. eapply calls_app; [exact Hc|]. eapply calls_cons; [exact Hd3|exact Hc4].
Qed.
Lemma asks_pipe_opens : forall w db o l back, asks_pipe w db o l back -> all_sendable sendable l = true ->
  exists ow, back = back_of ow /\
  forall db' h recs fin rest, run_pipe exec db l = (db', Some (Runs h recs fin) :: rest) ->
  exists r w', does exec sendable mk o w (OHandle (Some r) None) w' /\ Rel (c_pooled (w_conn w)) w' (at_rest db' (PRows ow r h (Pipe recs fin rest)) None).
Proof.
  intros w db o l back H Hs. destruct H as [qs pss Hq Hl|s qs pss Hq Hl].
  - exists None. split; [reflexivity|]. intros db' h recs fin rest Hx.
    pose proof (fun a k => step_at _ _ _ (CQueryPipeline qs pss) a k (quiet_rel _ _ Hq)) as Hst; edestruct Hst as (r & w' & Hd & Hx1 & HR); clear Hst.
    { cbn [expect conn_op at_rest sp_phase]. unfold run_query_pipe. rewrite Hl, Nat.eqb_refl. cbn [negb]. destruct (combine qs pss) as [|x l]; [discriminate|].
      rewrite Hs. cbn [at_rest sp_db]. rewrite Hx. reflexivity. }
    destruct Hx1 as (x & ->). exists x, w'. split; [exact Hd|exact HR].
  - exists (Some (s, Many qs)). split; [reflexivity|]. intros db' h recs fin rest Hx.
    pose proof (fun a k => step_at _ _ _ (SQueryPipeline s pss) a k (prepared_rel _ _ _ _ Hq)) as Hst; edestruct Hst as (r & w' & Hd & Hx1 & HR); clear Hst.
    { cbn [expect stmt_op at_rest sp_ds sp_phase existsb]. rewrite Nat.eqb_refl. unfold run_query_pipe. rewrite Hl, Nat.eqb_refl. cbn [negb].
      destruct (combine qs pss) as [|x l]; [discriminate|]. rewrite Hs. cbn [at_rest sp_db]. rewrite Hx. reflexivity. }
    destruct Hx1 as (x & ->). exists x, w'. split; [exact Hd|exact HR].
Qed.
(** Up to any record of any query: the answers are those of the queries, in order. *)
Lemma pipeline_prefix : forall w db o l1 q ps l2 back rs1 db1 db2 h recs1 recs2 fin m, asks_pipe w db o (l1 ++ (q, ps) :: l2) back ->
  all_sendable sendable (l1 ++ (q, ps) :: l2) = true -> in_order db l1 rs1 db1 -> exec db1 q ps = (db2, Runs h (recs1 ++ recs2) fin) ->
  exists ow db' tail hs r w', back = back_of ow /\ length hs = length rs1 /\
    run_pipe exec db (l1 ++ (q, ps) :: l2) = (db', map went rs1 ++ Some (Runs h (recs1 ++ recs2) fin) :: tail) /\
    calls w (o :: pipe_calls (hs ++ [r]) (rs1 ++ [(h, recs1, m)])) (OHandle (hd_error (hs ++ [r])) None :: pipe_outs (hs ++ [r]) (rs1 ++ [(h, recs1, m)])) w' /\
    Rel (c_pooled (w_conn w)) w' (at_rest db' (PRows ow r h (Pipe recs2 fin tail)) None).
Proof.
  intros w db o l1 q ps l2 back rs1 db1 db2 h recs1 recs2 fin m Ha Hs Ho Hx. destruct (asks_pipe_opens _ _ _ _ _ Ha Hs) as (ow & -> & H).
  assert (Er : exists db' tail, run_pipe exec db (l1 ++ (q, ps) :: l2) = (db', map went rs1 ++ Some (Runs h (recs1 ++ recs2) fin) :: tail)).
  { erewrite in_order_run by eassumption. cbn [run_pipe]. rewrite Hx. destruct (fails (Runs h (recs1 ++ recs2) fin)).
    - do 2 eexists. reflexivity.
    - destruct (run_pipe exec db2 l2) as [db3 os]. do 2 eexists. reflexivity. }
  destruct Er as (db' & tail & Er).
  assert (Hnext : exists h1 recs fin1 rest, map went rs1 ++ Some (Runs h (recs1 ++ recs2) fin) :: tail = Some (Runs h1 recs fin1) :: rest).
  { destruct rs1 as [|[[h1 recs1'] m1] rs1]; do 4 eexists; reflexivity. }
  destruct Hnext as (h1 & recs & fin1 & rest & En). destruct (H db' h1 recs fin1 rest ltac:(now rewrite Er, En)) as (r & w1 & Hd & HR).
  destruct (read_pipe (c_pooled (w_conn w)) ow h recs1 recs2 fin tail db' m rs1 r w1) as (hs & r' & w2 & Hl & Hh & Hc & HR2).
  { rewrite En. exact HR. }
  exists ow, db', tail, hs, r', w2. split; [reflexivity|]. split; [exact Hl|]. split; [exact Er|]. split; [|exact HR2].
  rewrite Hh. eapply calls_cons; [exact Hd|exact Hc].
Qed.
(** all results of a pipeline without failures *)
Theorem pipeline_read : forall w db o l back rs db', asks_pipe w db o l back -> all_sendable sendable l = true -> l <> [] -> in_order db l rs db' ->
  exists hs r w', length (hs ++ [r]) = length l /\
    calls w (o :: pipe_calls (hs ++ [r]) rs ++ [RNextPipeline r; RClose r])
            (OHandle (hd_error (hs ++ [r])) None :: pipe_outs (hs ++ [r]) rs ++ [OPipe None None None None; OErr None]) w' /\
    back w' db'.
Proof.
  intros w db o l back rs db' Ha Hs Hl Ho.
  assert (Hsplit : exists l1 q ps rs1 db1 h recs m, l = l1 ++ [(q, ps)] /\ rs = rs1 ++ [(h, recs, m)] /\ in_order db l1 rs1 db1 /\ exec db1 q ps = (db', Runs h recs (Ends m))).
  { clear Ha Hs. induction Ho as [db|db q ps db1 h recs m l rs db' Hx Ho IH]; [contradiction|]. destruct l as [|x l].
    - inversion Ho; subst. exists [], q, ps, [], db, h, recs, m. repeat split; auto. constructor.
    - destruct IH as (l1 & q' & ps' & rs1 & db2 & h' & recs' & m' & E1 & E2 & Ho' & Hx'); [discriminate|]. rewrite E1, E2.
      exists ((q, ps) :: l1), q', ps', ((h, recs, m) :: rs1), db2, h', recs', m'. repeat split; auto. econstructor; eauto. }
  destruct Hsplit as (l1 & q & ps & rs1 & db1 & h & recs & m & -> & -> & Ho1 & Hx). rewrite <- (app_nil_r recs) in Hx.
  destruct (pipeline_prefix _ _ _ _ _ _ _ _ _ _ _ _ _ _ _ m Ha Hs Ho1 Hx) as (ow & db2 & tail & hs & r & w1 & -> & Hlen & Hr & Hc & HR).
  assert (E : db2 = db' /\ tail = []).
  { erewrite in_order_run in Hr by eassumption. cbn [run_pipe] in Hr. rewrite Hx in Hr. cbn [fails] in Hr. injection Hr as E1 E2. apply app_inv_head in E2. injection E2 as E2. auto. }
  destruct E as (-> & ->).
  pose proof (fun a k => step_at _ _ _ (RNextPipeline r) a k HR) as Hst; edestruct Hst as (x & w2 & Hd2 & Hx2 & HR2); clear Hst.
  { cbn [expect rows_op at_rest sp_dr sp_phase existsb]. rewrite Nat.eqb_refl. reflexivity. }
  cbn in Hx2. subst x. destruct (close_rows _ _ _ _ _ _ _ HR2) as (x & w3 & Hd3 & Hx3). cbn in Hx3. destruct Hx3 as (-> & Hb).
  exists hs, r, w3. split; [rewrite !app_length; cbn; rewrite Hlen; f_equal; eapply in_order_length; eauto|]. split; [|exact Hb].
  exact (calls_app _ _ _ _ _ _ _ Hc (calls_cons _ _ _ _ _ _ _ Hd2 (calls_one _ _ _ _ Hd3))).
Qed.
(** closing at any point of a pipeline without failures *)
Theorem pipeline_close_early : forall w db o l1 q ps l2 back rs1 db1 h recs1 recs2 m rs2 db2 db', asks_pipe w db o (l1 ++ (q, ps) :: l2) back ->
  all_sendable sendable (l1 ++ (q, ps) :: l2) = true -> in_order db l1 rs1 db1 -> exec db1 q ps = (db2, Runs h (recs1 ++ recs2) (Ends m)) -> in_order db2 l2 rs2 db' ->
  exists hs r w', length hs = length l1 /\
    calls w (o :: pipe_calls (hs ++ [r]) (rs1 ++ [(h, recs1, m)]) ++ [RClose r])
            (OHandle (hd_error (hs ++ [r])) None :: pipe_outs (hs ++ [r]) (rs1 ++ [(h, recs1, m)]) ++ [OErr None]) w' /\
    back w' db'.
Proof.
  intros w db o l1 q ps l2 back rs1 db1 h recs1 recs2 m rs2 db2 db' Ha Hs Ho Hx Ho2.
  destruct (pipeline_prefix _ _ _ _ _ _ _ _ _ _ _ _ _ _ _ m Ha Hs Ho Hx) as (ow & db3 & tail & hs & r & w1 & -> & Hlen & Hr & Hc & HR).
  assert (E : db3 = db' /\ tail = map went rs2).
  { erewrite in_order_run in Hr by eassumption. cbn [run_pipe] in Hr. rewrite Hx in Hr. cbn [fails] in Hr. rewrite (in_order_ok _ _ _ _ Ho2) in Hr.
    injection Hr as E1 E2. apply app_inv_head in E2. injection E2 as E2. auto. }
  destruct E as (-> & ->). destruct (close_rows _ _ _ _ _ _ _ HR) as (x & w3 & Hd3 & Hx3).
  replace (drain (Pipe recs2 (Ends m) (map went rs2))) with (@None md) in Hx3; cycle 1.
  { cbn [drain first_failure fails]. rewrite <- (app_nil_r (map went rs2)), went_failure. reflexivity. }
  destruct Hx3 as (-> & Hb). exists hs, r, w3. split; [rewrite Hlen; eapply in_order_length; eauto|]. split; [|exact Hb].
  exact (calls_app _ _ _ _ _ _ _ Hc (calls_one _ _ _ _ Hd3)).
Qed.
(** ExecPipeline *)
Definition asks_exec_pipe (w : W) (db : DB) (o : op) (l : list (str * md)) (back : W -> DB -> Prop) : Prop :=
  match o with
  | CExecPipeline qs pss => quiet w db /\ length pss = length qs /\ l = combine qs pss /\ back = quiet
  | SExecPipeline s pss => exists qs, prepared w db s (Many qs) /\ length pss = length qs /\ l = combine qs pss /\ back = (fun w' db' => prepared w' db' s (Many qs))
  | _ => False
  end.
Theorem exec_pipeline_results : forall w db o l back rs db', asks_exec_pipe w db o l back -> all_sendable sendable l = true -> in_order db l rs db' ->
  exists w', calls w [o] [OResults (Some (map snd rs)) None] w' /\ back w' db'.
Proof.
  intros w db o l back rs db' Ha Hs Ho. pose proof (in_order_ok _ _ _ _ Ho) as Hr.
  assert (Hff : first_failure (map went rs) = None) by (rewrite <- (app_nil_r (map went rs)), went_failure; reflexivity).
  destruct o; try contradiction; cbn [asks_exec_pipe] in Ha.
  - destruct Ha as (Hq & Hl & -> & ->). pose proof (fun a k => step_at _ _ _ (CExecPipeline qs pss) a k (quiet_rel _ _ Hq)) as Hst; edestruct Hst as (x & w' & Hd & Hx & HR); clear Hst.
    { cbn [expect conn_op at_rest sp_phase]. unfold run_exec_pipe. rewrite Hl, Nat.eqb_refl. cbn [negb]. rewrite Hs. cbn [at_rest sp_db]. rewrite Hr, Hff. reflexivity. }
    cbn in Hx. subst x. rewrite went_summaries in Hd. exists w'. split; [now apply calls_one|]. exact (rel_quiet _ _ _ HR eq_refl).
  - destruct Ha as (qs & Hq & Hl & -> & ->). pose proof (fun a k => step_at _ _ _ (SExecPipeline s pss) a k (prepared_rel _ _ _ _ Hq)) as Hst; edestruct Hst as (x & w' & Hd & Hx & HR); clear Hst.
    { cbn [expect stmt_op at_rest sp_ds sp_phase existsb]. rewrite Nat.eqb_refl. unfold run_exec_pipe. rewrite Hl, Nat.eqb_refl. cbn [negb]. rewrite Hs. cbn [at_rest sp_db]. rewrite Hr, Hff. reflexivity. }
    cbn in Hx. subst x. rewrite went_summaries in Hd. exists w'. split; [now apply calls_one|]. exact (rel_prepared _ _ _ _ _ HR eq_refl).
Qed.
End Use.
