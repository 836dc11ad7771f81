(** Where the driver falls short of what clients may expect, against a server that
    follows Bolt: general families of histories. *)
From Coq Require Import ZArith List Bool Lia.
From Verif Require Import GoPrims PrimLemmas Value Errors Misc Session SessionVoc SessionGen SessionFuel ServerSpec SessionSpec SessionBolt SessionRefine SessionUse.
Import ListNotations.
Open Scope Z_scope.

(** The call waited for a response that never came and gave up with driver.ErrBadConn. *)
Definition timed_out : out -> Prop := only_error (fun e => innermost e = EBadConn).

Section Limits.
Context {DB : Type}.
Variable exec : DB -> str -> md -> DB * outcome.
Variable sendable : goval -> bool.
Variable mk : bool.
Notation net := (bolt exec sendable).
Notation W := (world (bnet DB)).
Notation B := Build_bnet.
Notation does := (does exec sendable mk).
Notation calls := (calls exec sendable mk).
Hypothesis Hctl : controls sendable.

(** ** Closing after a failed read *)
(** the row set [r] has reported a failure and nothing is left to read *)
Definition stuck (w : W) (db : DB) (ow : option (nat * kind)) (r : nat) : Prop :=
  c_closed (w_conn w) = false /\ c_tx (w_conn w) = None /\
  exists s k row, c_stmt (w_conn w) = Some s /\ nth_error (w_stmts w) s = Some (open_stmt k (Some r)) /\ nth_error (w_rows w) r = Some row /\
    r_stmt row = s /\ r_closed row = false /\ r_consumed row = true /\ r_finished row = false /\
    match ow with None => r_closeStmt row = true | Some o => o = (s, k) /\ r_closeStmt row = false end /\
    (queries k = [] \/ r_pidx row < zlen (queries k)) /\ w_net w = B db Ready [].

Lemma fail_next : forall p w db ow r h m, Rel p w (at_rest db (PRows ow r h (Single [] (Breaks m))) None) ->
  exists w', does (RNext r) w (ONext None None (Some (ewrap FConn 569 (EFailMsg m)))) w' /\ stuck w' db ow r.
Proof.
  intros p w db ow r h m (Ht & _ & _ & _ & _ & _ & Hcl & s & kk & row & s0 & q & Hcs & Es & Er & Hrs & Hrc & Hrm & Hown & Hfd & Hn).
  destruct w as [c ss rs ts n]. cbn [w_conn w_net w_stmts w_rows w_txs at_rest sp_db] in *. subst n.
  pose proof (next_single exec sendable Hctl 2 (close net 2) c ss rs ts r row s _ [] (Breaks m) s0 q db Er Hrs Hrc Es eq_refl Hfd (le_n _)) as Hx. cbv iota in Hx.
  eexists. split.
  - exists 2%nat. unfold step. cbn [step_body]. erewrite bind_ok by exact Hx. reflexivity.
  - split; [exact Hcl|]. split; [exact Ht|]. exists s, kk, (r_set_consumed row). cbn [w_conn w_net w_stmts w_rows w_txs].
    do 8 (split; [solve [exact Hcs|exact Es|eapply nth_upd_same; eauto|exact Hrs|exact Hrc|reflexivity|inversion Hfd; subst; cbn; auto|destruct ow; exact Hown]|]).
    split; [|reflexivity]. left. inversion Hfd; subst; auto.
Qed.
Lemma fail_next_pipe : forall p w db ow r h m recs fin rest, Rel p w (at_rest db (PRows ow r h (Pipe recs fin rest)) None) ->
  recs = [] -> (fin = Breaks m \/ exists m' rest', fin = Ends m' /\ rest = Some (RunFails m) :: rest') ->
  exists w' e, does (RNextPipeline r) w (OPipe None None None (Some e)) w' /\ failure_error m e /\ stuck w' db ow r.
Proof.
  intros p w db ow r h m recs fin rest (Ht & _ & _ & _ & _ & _ & Hcl & s & kk & row & s0 & q & Hcs & Es & Er & Hrs & Hrc & Hrm & Hown & Hfd & Hn) -> H.
  destruct w as [c ss rs ts n]. cbn [w_conn w_net w_stmts w_rows w_txs at_rest sp_db] in *. subst n.
  assert (Hk : stuck (Build_world c ss rs ts (B db Ready [])) db ow r).
  { split; [exact Hcl|]. split; [exact Ht|]. exists s, kk, row. cbn [w_conn w_net w_stmts w_rows w_txs].
    do 8 (split; [solve [exact Hcs|exact Es|exact Er|exact Hrs|exact Hrc|inversion Hfd; subst; cbn; auto|destruct ow; exact Hown]|]).
    split; [|reflexivity]. right. inversion Hfd; subst. pose proof (zlen_nonneg rest). lia. }
  set (f := S (length (answers [] fin ++ replies rest))).
  destruct H as [->|(m' & rest' & -> & ->)].
  - pose proof (next_pipe_fail exec sendable Hctl f (close net f) c ss rs ts r row s _ m rest s0 q db Er Hrs Hrc Es eq_refl Hfd (le_n _)) as Hx.
    eexists. eexists. split; [exists f; unfold step; cbn [step_body]; erewrite bind_ok by exact Hx; reflexivity|]. split; [reflexivity|exact Hk].
  - destruct (next_pipe_next exec sendable Hctl f (close net f) c ss rs ts r row s _ m' (RunFails m) rest' s0 q db Er Hrs Hrc Es eq_refl Hfd (le_n _)) as (e & Hx & He).
    eexists. exists e. split; [exists f; unfold step; cbn [step_body]; erewrite bind_ok by exact Hx; reflexivity|]. split; [exact He|exact Hk].
Qed.
Lemma fail_all : forall p w db ow r h recs m, Rel p w (at_rest db (PRows ow r h (Single recs (Breaks m))) None) ->
  exists w', does (RAll r) w (OAll recs None (Some (ewrap FConn 569 (EFailMsg m)))) w' /\ stuck w' db ow r.
Proof.
  intros p w db ow r h recs m (Ht & _ & _ & _ & _ & _ & Hcl & s & kk & row & s0 & q & Hcs & Es & Er & Hrs & Hrc & Hrm & Hown & Hfd & Hn).
  destruct w as [c ss rs ts n]. cbn [w_conn w_net w_stmts w_rows w_txs at_rest sp_db] in *. subst n.
  set (f := (2 + length recs)%nat).
  assert (Hf : (1 < f)%nat) by (subst f; lia). assert (Hl : (length recs < f)%nat) by (subst f; lia).
  pose proof (all_single exec sendable Hctl f (close net f) c ss ts r s _ recs (Breaks m) db f rs row s0 q [] Er Hrs Hrc Es eq_refl Hfd Hf Hl) as Hx. cbn [app] in Hx.
  eexists. split.
  - exists f. unfold step. cbn [step_body]. unfold all_rows. erewrite bind_ok by exact Hx. reflexivity.
  - split; [exact Hcl|]. split; [exact Ht|]. exists s, kk, (r_set_consumed row). cbn [w_conn w_net w_stmts w_rows w_txs].
    do 8 (split; [solve [exact Hcs|exact Es|eapply nth_upd_same; eauto|exact Hrs|exact Hrc|reflexivity|inversion Hfd; subst; cbn; auto|destruct ow; exact Hown]|]).
    split; [|reflexivity]. left. inversion Hfd; subst; auto.
Qed.

Lemma stuck_body : forall f c ss rs ts db ow r, stuck (Build_world c ss rs ts (B db Ready [])) db ow r ->
  exists e, rows_close_body net (S f) (close net (S f)) r (Build_world c ss rs ts (B db Ready [])) = (Ok (Some e), Build_world (c_set_err c) ss rs ts (B db Ready [])) /\ innermost e = EBadConn.
Proof.
  intros f c ss rs ts db ow r (_ & _ & s & k & row & _ & Es & Er & Hs & Hc & H1 & H2 & _ & Hi & _). cbn [w_conn w_net w_stmts w_rows w_txs] in *.
  exists (ewrap FRows 159 (ewrap FDec 45 EBadConn)). split; [|reflexivity]. unfold rows_close_body. erewrite bind_getr by exact Er. rewrite H1, H2. cbn [negb].
  assert (E : forall n, 1 <= n -> consume_all_multiple net (S f) (close net (S f)) n (Build_world c ss rs ts (B db Ready [])) = (Ok (Some (ewrap FDec 45 EBadConn)), Build_world (c_set_err c) ss rs ts (B db Ready []))).
  { intros n Hn. unfold consume_all_multiple. replace (n <? 0) with false by lia. destruct (Z.to_nat n) as [|n'] eqn:En; [lia|]. reflexivity. }
  assert (Hn : 1 <= (if zlen (s_queries (open_stmt k (Some r))) =? 0 then 1 else (zlen (s_queries (open_stmt k (Some r))) - r_pidx row) * 2 - 1)).
  { cbn [open_stmt s_queries]. destruct Hi as [->|Hi]; [cbn; lia|]. destruct (zlen (queries k) =? 0); lia. }
  erewrite bind_ok by (rewrite Hs; erewrite bind_gets by exact Es; erewrite bind_need; [|exact Es|reflexivity]; erewrite bind_ok by (apply E; exact Hn); reflexivity).
  reflexivity.
Qed.
Lemma stuck_rows_close : forall w db ow r, stuck w db ow r -> exists e w', does (RClose r) w (OErr (Some e)) w' /\ innermost e = EBadConn /\ stuck w' db ow r /\ c_err (w_conn w') = true.
Proof.
  intros w db ow r H. destruct w as [c ss rs ts n]. assert (n = B db Ready []) by (destruct H as (_ & _ & ? & ? & ? & H); apply H). subst n.
  destruct (stuck_body 0 c ss rs ts db ow r H) as (e & He & Hin). exists e. eexists. split.
  - exists 1%nat. unfold step. cbn [step_body]. pose proof H as (_ & _ & s & k & row & _ & Es & Er & Hs & Hc & _). cbn [w_conn w_net w_stmts w_rows w_txs] in *.
    erewrite bind_ok by (unfold rows_close; erewrite bind_getr by exact Er; rewrite Hc; erewrite bind_ok by exact He; reflexivity). reflexivity.
  - split; [exact Hin|]. split; [|reflexivity]. destruct H as (H1 & H2 & s & k & row & H). split; [exact H1|]. split; [exact H2|]. exists s, k, row. exact H.
Qed.
Lemma stuck_stmt : forall f c ss rs ts db s k r, stuck (Build_world c ss rs ts (B db Ready [])) db (Some (s, k)) r ->
  exists e, stmt_close net (S f) (close net (S f)) s (Build_world c ss rs ts (B db Ready [])) = (Ok (Some e), Build_world (c_set_err c) ss rs ts (B db Ready [])) /\ innermost e = EBadConn.
Proof.
  intros f c ss rs ts db s k r H. destruct (stuck_body f c ss rs ts db _ r H) as (e & He & Hin).
  destruct H as (_ & _ & s' & k' & row & _ & Es & Er & Hs & Hc & _ & _ & (Ek & Hcs) & _). injection Ek as <- <-. cbn [w_conn w_net w_stmts w_rows w_txs] in *.
  exists e. split; [|exact Hin]. unfold stmt_close. erewrite bind_gets by exact Es. cbn [open_stmt s_closed s_rows].
  erewrite bind_ok by (erewrite bind_getr by exact Er; rewrite Hcs, Hc; exact He). reflexivity.
Qed.
Lemma stuck_stmt_close : forall w db s k r, stuck w db (Some (s, k)) r -> exists e w', does (SClose s) w (OErr (Some e)) w' /\ innermost e = EBadConn.
Proof.
  intros w db s k r H. destruct w as [c ss rs ts n]. assert (n = B db Ready []) by (destruct H as (_ & _ & ? & ? & ? & H); apply H). subst n.
  destruct (stuck_stmt 0 c ss rs ts db s k r H) as (e & He & Hin). exists e. eexists. split; [|exact Hin].
  exists 1%nat. unfold step. cbn [step_body]. erewrite bind_ok by exact He. reflexivity.
Qed.
Lemma stuck_conn_close : forall w db s k r, stuck w db (Some (s, k)) r -> exists e w', does CClose w (OErr (Some e)) w' /\ innermost e = EBadConn /\ c_closed (w_conn w') = false.
Proof.
  intros w db s k r H. destruct w as [c ss rs ts n]. assert (n = B db Ready []) by (destruct H as (_ & _ & ? & ? & ? & H); apply H). subst n.
  destruct (stuck_stmt 0 c ss rs ts db s k r H) as (e & He & Hin). exists e. eexists. split; [|split; [exact Hin|]].
  - exists 2%nat. unfold step. cbn [step_body]. destruct H as (Hcl & Ht & s' & k' & row & Hst & _ & _ & _ & _ & _ & _ & (Ek & _) & _). injection Ek as <- <-. cbn [w_conn w_net w_stmts w_rows w_txs] in *.
    erewrite bind_ok; [reflexivity|]. change (close net 2) with (close_body net 1 (close net 1)). unfold close_body. rewrite bind_getc. cbn [w_conn]. rewrite Hcl, Hst. erewrite bind_ok by exact He. reflexivity.
  - destruct H as (Hcl & _). exact Hcl.
Qed.
Lemma stuck_conn_close_ok : forall w db r, stuck w db None r -> c_pooled (w_conn w) = false -> exists w', does CClose w (OErr None) w' /\ c_closed (w_conn w') = true.
Proof.
  intros w db r H Hp. destruct w as [c ss rs ts n]. destruct H as (Hcl & Ht & s & k & row & Hst & Es & Er & Hs & Hc & _ & _ & Hcs & _ & Hn). cbn [w_conn w_net w_stmts w_rows w_txs] in *. subst n.
  assert (He : stmt_close net 1 (close net 1) s (Build_world c ss rs ts (B db Ready [])) = (Ok None, Build_world (c_set_stmt None c) (upd s (s_set_closed (open_stmt k (Some r))) ss) rs ts (B db Ready []))).
  { apply stmt_close_plain; [exact Es|]. exists row. auto. }
  eexists. split.
  - exists 2%nat. unfold step. cbn [step_body]. erewrite bind_ok; [reflexivity|]. change (close net 2) with (close_body net 1 (close net 1)). unfold close_body. rewrite bind_getc. cbn [w_conn]. rewrite Hcl, Hst.
    erewrite bind_ok by exact He. cbv iota. rewrite bind_getc. cbn [w_conn c_set_stmt c_tx]. rewrite Ht. erewrite bind_ok by reflexivity. cbv iota. rewrite bind_getc. cbn [w_conn c_set_stmt c_pooled]. rewrite Hp. reflexivity.
  - reflexivity.
Qed.

(** ** Reading past the end *)
Lemma past_end : forall p w db ow r h o, Rel p w (at_rest db (PRows ow r h Done) None) -> rows_work r o ->
  exists res w', does o w res w' /\ timed_out res /\ c_err (w_conn w') = true.
Proof.
  intros p w db ow r h o (Ht & _ & _ & _ & _ & _ & Hcl & s & kk & row & s0 & q & Hcs & Es & Er & Hrs & Hrc & Hrm & Hown & Hfd & Hn) Ho.
  destruct w as [c ss rs ts n]. cbn [w_conn w_net w_stmts w_rows w_txs at_rest sp_db] in *. subst n.
  assert (Hq : q = [] /\ r_consumed row = true) by (inversion Hfd; subst; auto). destruct Hq as (-> & Hcons).
  assert (Hx : next_neo net 1 (close net 1) r (Build_world c ss rs ts (B db s0 [])) = (Ok (None, None, Some (ewrap FDec 45 EBadConn)), Build_world (c_set_err c) ss rs ts (B db s0 []))).
  { unfold next_neo. erewrite bind_getr by exact Er. rewrite Hrc, Hcons. cbn [negb]. erewrite bind_ok by reflexivity. cbv iota. rewrite Hrs. erewrite bind_need; [|exact Es|reflexivity].
    erewrite bind_ok by apply consume_empty. reflexivity. }
  destruct o; try contradiction; cbn in Ho; subst.
  - do 2 eexists. split; [exists 1%nat; unfold step; cbn [step_body]; erewrite bind_ok by exact Hx; reflexivity|]. split; reflexivity.
  - do 2 eexists. split; [exists 1%nat; unfold step; cbn [step_body]; erewrite bind_ok by (unfold all_rows; cbn [all_loop]; erewrite bind_ok by exact Hx; reflexivity); reflexivity|]. split; reflexivity.
  - do 2 eexists. split; [exists 1%nat; unfold step; cbn [step_body]; erewrite bind_ok by
      (unfold next_pipeline; erewrite bind_getr by exact Er; rewrite Hrc; erewrite bind_need; [|exact Es|reflexivity]; erewrite bind_ok by apply consume_empty; reflexivity); reflexivity|]. split; reflexivity.
  - do 2 eexists. split; [exists 1%nat; unfold step; cbn [step_body]; erewrite bind_ok by (unfold next_sql; erewrite bind_ok by exact Hx; reflexivity); reflexivity|]. split; reflexivity.
Qed.

(** ** Refused arguments *)
(** the call has arguments that cannot be sent: the wrong number of parameter maps, or
    parameters the encoder refuses (in a pipeline: those of the first query) *)
Definition bad_params (qs : list str) (pss : list md) : Prop :=
  length pss <> length qs \/ exists q qs' ps pss', qs = q :: qs' /\ pss = ps :: pss' /\ length pss' = length qs' /\ sendable (VRun q ps) = false.
Definition bad_args (args : list darg) (q : str) : Prop :=
  match driver_args mk args with AErr => True | AOk ps => sendable (VRun q ps) = false | APanic => False end.
Definition bad_call (o : op) : Prop :=
  match o with
  | CExec q ps | CQuery q ps | CQueryAll q ps => sendable (VRun q ps) = false
  | CExecPipeline qs pss => bad_params qs pss
  | CExecSql q args | CQuerySql q args => bad_args args q
  | _ => False
  end.
Definition bad_stmt_call (s : nat) (k : kind) (o : op) : Prop :=
  match o, k with
  | SExec s' ps, One q | SQuery s' ps, One q => s' = s /\ sendable (VRun q ps) = false
  | SExecPipeline s' pss, Many qs | SQueryPipeline s' pss, Many qs => s' = s /\ bad_params qs pss
  | SExecSql s' args, One q | SQuerySql s' args, One q => s' = s /\ bad_args args q
  | _, _ => False
  end.
Lemma bad_params_spec : forall qs pss, bad_params qs pss -> length pss <> length qs \/ length pss = length qs /\ none_sendable sendable (combine qs pss) = true /\ all_sendable sendable (combine qs pss) = false /\ combine qs pss <> [].
Proof.
  intros qs pss [H|(q & qs' & ps & pss' & -> & -> & Hl & H)]; [auto|]. right. cbn. rewrite H, Hl. split; [reflexivity|]. split; [reflexivity|]. split; [reflexivity|discriminate].
Qed.
Lemma refused_call : forall w db o, quiet w db -> bad_call o -> exists r w', calls w [o] [r] w' /\ refused r /\ quiet w' db.
Proof.
  intros w db o Hq Hb.
  assert (Hgo : expect exec sendable mk (c_pooled (w_conn w)) (at_rest db PIdle None) o = says ARefused (at_rest db PIdle None) -> exists r w', calls w [o] [r] w' /\ refused r /\ quiet w' db).
  { intros E. destruct (step_at exec sendable mk Hctl _ _ _ _ _ _ (quiet_rel w db Hq) E) as (r & w' & Hd & Hr & HR). exists r, w'. split; [now apply calls_one|]. split; [exact Hr|].
    exact (rel_quiet _ _ _ HR eq_refl). }
  apply Hgo. destruct o; try contradiction; cbn [bad_call] in Hb; unfold expect.
  - unfold conn_op, run_exec. cbn [at_rest sp_phase]. now rewrite Hb.
  - unfold conn_op, run_exec_pipe. cbn [at_rest sp_phase]. destruct (bad_params_spec _ _ Hb) as [Hl|(Hl & H1 & H2 & _)].
    + apply Nat.eqb_neq in Hl. rewrite Hl. reflexivity.
    + rewrite Hl, Nat.eqb_refl. cbn [negb]. rewrite H2, H1. reflexivity.
  - unfold conn_op, run_query. cbn [at_rest sp_phase]. now rewrite Hb.
  - unfold conn_op. cbn [at_rest sp_phase]. now rewrite Hb.
  - unfold bad_args in Hb. destruct (driver_args mk args); try contradiction; [|reflexivity]. unfold conn_op, run_exec. cbn [at_rest sp_phase]. now rewrite Hb.
  - unfold bad_args in Hb. destruct (driver_args mk args); try contradiction; [|reflexivity]. unfold conn_op, run_query. cbn [at_rest sp_phase]. now rewrite Hb.
Qed.
Lemma refused_stmt_call : forall w db s k o, prepared w db s k -> bad_stmt_call s k o -> exists r w', calls w [o] [r] w' /\ refused r /\ prepared w' db s k.
Proof.
  intros w db s k o Hq Hb.
  assert (Hgo : expect exec sendable mk (c_pooled (w_conn w)) (at_rest db (PStmt s k) None) o = says ARefused (at_rest db (PStmt s k) None) -> exists r w', calls w [o] [r] w' /\ refused r /\ prepared w' db s k).
  { intros E. destruct (step_at exec sendable mk Hctl _ _ _ _ _ _ (prepared_rel w db s k Hq) E) as (r & w' & Hd & Hr & HR). exists r, w'. split; [now apply calls_one|]. split; [exact Hr|].
    exact (rel_prepared _ _ _ _ _ HR eq_refl). }
  apply Hgo. destruct k as [kq|kqs], o; try contradiction; cbn [bad_stmt_call] in Hb; destruct Hb as (-> & Hb); unfold expect.
  - unfold stmt_op, run_exec. cbn [at_rest sp_ds sp_phase existsb]. now rewrite Nat.eqb_refl, Hb.
  - unfold stmt_op, run_query. cbn [at_rest sp_ds sp_phase existsb]. now rewrite Nat.eqb_refl, Hb.
  - unfold bad_args in Hb. destruct (driver_args mk args); try contradiction; [|reflexivity]. unfold stmt_op, run_exec. cbn [at_rest sp_ds sp_phase existsb]. now rewrite Nat.eqb_refl, Hb.
  - unfold bad_args in Hb. destruct (driver_args mk args); try contradiction; [|reflexivity]. unfold stmt_op, run_query. cbn [at_rest sp_ds sp_phase existsb]. now rewrite Nat.eqb_refl, Hb.
  - unfold stmt_op, run_exec_pipe. cbn [at_rest sp_ds sp_phase existsb]. rewrite Nat.eqb_refl. destruct (bad_params_spec _ _ Hb) as [Hl|(Hl & H1 & H2 & _)].
    + apply Nat.eqb_neq in Hl. rewrite Hl. reflexivity.
    + rewrite Hl, Nat.eqb_refl. cbn [negb]. rewrite H2, H1. reflexivity.
  - unfold stmt_op, run_query_pipe. cbn [at_rest sp_ds sp_phase existsb]. rewrite Nat.eqb_refl. destruct (bad_params_spec _ _ Hb) as [Hl|(Hl & H1 & H2 & H3)].
    + apply Nat.eqb_neq in Hl. rewrite Hl. reflexivity.
    + rewrite Hl, Nat.eqb_refl. cbn [negb]. destruct (combine kqs pss) as [|x l]; [contradiction|]. rewrite H2, H1. reflexivity.
Qed.
(** Conn.QueryPipeline refuses too, but afterwards the connection refuses everything. *)
Lemma refused_pipe_call : forall w db qs pss o, quiet w db -> bad_params qs pss -> conn_work o = true -> args_ok mk o ->
  exists r r2 w', calls w [CQueryPipeline qs pss; o] [r; r2] w' /\ refused r /\ refused r2 /\ w_net w' = B db Ready [].
Proof.
  intros w db qs pss o Hq Hb Ho Ha.
  assert (E : expect exec sendable mk (c_pooled (w_conn w)) (at_rest db PIdle None) (CQueryPipeline qs pss) = says ARefused (to (PLost true) (at_rest db PIdle None))).
  { unfold expect, conn_op, run_query_pipe. cbn [at_rest sp_phase]. destruct (bad_params_spec _ _ Hb) as [Hl|(Hl & H1 & H2 & H3)].
    + apply Nat.eqb_neq in Hl. rewrite Hl. reflexivity.
    + rewrite Hl, Nat.eqb_refl. cbn [negb]. destruct (combine qs pss) as [|x l]; [contradiction|]. rewrite H2, H1. reflexivity. }
  destruct (step_at exec sendable mk Hctl _ _ _ _ _ _ (quiet_rel w db Hq) E) as (r & w1 & Hd & Hr & HR).
  assert (Hw : w_net w1 = B db Ready [] /\ c_stmt (w_conn w1) <> None /\ c_tx (w_conn w1) = None).
  { destruct HR as (Ht & _ & _ & _ & _ & _ & _ & _ & s & Hs & H). destruct (H eq_refl) as (_ & _ & _ & _ & Hn). repeat split; auto. cbn in Hs. congruence. }
  destruct Hw as (Hn & Hs & Ht). destruct (conn_refused exec sendable mk w1 o (or_introl Hs) Ho Ha Ht) as (r2 & Hd2 & Hr2).
  exists r, r2, w1. split; [eapply calls_cons; [exact Hd|now apply calls_one]|]. auto.
Qed.

(** an unsendable parameter map after the first query *)
Lemma send_queries_app : forall l qs1 pss1 qs2 pss2 w, length pss1 = length qs1 ->
  send_queries net l (qs1 ++ qs2) (pss1 ++ pss2) w = bind (send_queries net l qs1 pss1) (fun e => match e with Some e => ret (Some e) | None => send_queries net l qs2 pss2 end) w.
Proof.
  intros l. induction qs1 as [|q qs1 IH]; intros [|ps pss1] qs2 pss2 w Hl; try discriminate Hl; [reflexivity|].
  cbn [app send_queries]. unfold bind. destruct (send_run_pull_all net q ps w) as [[[e|]| |] w1]; try reflexivity.
  rewrite IH by (cbn in Hl; lia). reflexivity.
Qed.
Lemma poisoned : forall w db qs1 pss1 q0 ps0 qs2 pss2 h recs m rs db1 q ps, quiet w db -> length pss1 = length qs1 -> length pss2 = length qs2 ->
  all_sendable sendable (combine qs1 pss1) = true -> sendable (VRun q0 ps0) = false -> in_order exec db (combine qs1 pss1) ((h, recs, m) :: rs) db1 ->
  sendable (VRun q ps) = true ->
  exists r w', calls w [CExecPipeline (qs1 ++ q0 :: qs2) (pss1 ++ ps0 :: pss2); CExec q ps] [r; OResult (Some m) None] w' /\ refused r.
Proof.
  intros w db qs1 pss1 q0 ps0 qs2 pss2 h recs m rs db1 q ps (Hcl & Hst & Htx & Hn) Hl1 Hl2 Hs Hbad Ho Hqs. destruct w as [c ss rws ts n]. cbn [w_conn w_net w_stmts w_rows w_txs] in *. subst n.
  set (qs := qs1 ++ q0 :: qs2). set (pss := pss1 ++ ps0 :: pss2). set (os := map went ((h, recs, m) :: rs)).
  assert (Hid : idle c) by (split; auto).
  assert (E1 : forall f, stmt_exec_pipeline net f (close net f) (length ss) pss (Build_world c (ss ++ [new_pipe_stmt qs]) rws ts (B db Ready [])) =
    (Ok (None, Some (ewrap FStmt 137 (ewrap FConn 628 (enew FEnc 0)))), Build_world c (ss ++ [new_pipe_stmt qs]) rws ts (B db1 Ready (replies os)))).
  { intros f. unfold stmt_exec_pipeline. erewrite bind_gets by (apply nth_app_new). cbn [new_pipe_stmt s_closed s_rows s_queries].
    replace (negb (zlen pss =? zlen qs)) with false; cycle 1.
    { rewrite zlen_eqb. subst qs pss. rewrite !app_length. cbn [length]. rewrite Hl1, Hl2, Nat.eqb_refl. reflexivity. }
    assert (Hne : exists q' l', qs = q' :: l') by (subst qs; destruct qs1; do 2 eexists; reflexivity). destruct Hne as (q' & l' & Hne). rewrite Hne at 1. erewrite bind_need; [|apply nth_app_new|reflexivity].
    subst qs pss. erewrite bind_ok; [|rewrite send_queries_app by exact Hl1;
      destruct (send_queries_ok exec sendable Hctl c (ss ++ [new_pipe_stmt (qs1 ++ q0 :: qs2)]) rws ts 137 qs1 pss1 db [] db1 os Hs (in_order_ok _ _ _ _ _ Ho)) as (Hsq & _);
      erewrite bind_ok by exact Hsq; cbv iota; cbn [send_queries]; erewrite bind_ok by (apply send_run_pull_rej; exact Hbad); reflexivity].
    cbv iota. cbn [app]. unfold end_state. replace (first_failure os) with (@None md); [reflexivity|].
    subst os. rewrite <- (app_nil_r (map went _)), went_failure. reflexivity. }
  set (w1 := used c ss rws ts (new_pipe_stmt qs) (B db1 Ready (replies os))).
  assert (D1 : does (CExecPipeline qs pss) (Build_world c ss rws ts (B db Ready [])) (OResults None (Some (ewrap FStmt 137 (ewrap FConn 628 (enew FEnc 0))))) w1).
  { exists O. unfold step. cbn [step_body]. erewrite bind_ok; [|apply idle_pipe; [exact Hid|apply E1]]. reflexivity. }
  destruct (exec db1 q ps) as [db2 o] eqn:Ex.
  set (f := S (length recs)). set (ss1 := upd (length ss) (s_set_closed (new_pipe_stmt qs)) (ss ++ [new_pipe_stmt qs])).
  assert (E2 : stmt_exec net f (close net f) (length ss1) ps (Build_world (c_set_stmt None c) (ss1 ++ [new_stmt q]) rws ts (B db1 Ready (replies os))) =
    (Ok (Some m, None), Build_world (c_set_stmt None c) (ss1 ++ [new_stmt q]) rws ts (B db2 (end_state [Some o]) (replies (map went rs) ++ reply1 (Some o))))).
  { unfold stmt_exec. erewrite bind_gets by (apply nth_app_new). cbn [new_stmt s_closed s_rows s_query]. erewrite bind_need; [|apply nth_app_new|reflexivity].
    erewrite bind_ok; [|unfold send_run_pull_all_consume_all; erewrite bind_ok by (apply send_run_pull_ok; auto); cbv beta iota; rewrite (served_run_pull _ _ _ _ _ _ _ Ex);
      subst os; cbn [map went replies flat_map reply1 app]; erewrite bind_ok by (apply consume_msg; reflexivity); cbv beta iota;
      rewrite <- app_assoc; unfold consume_all; erewrite bind_ok by (apply consume_all_ok; subst f; lia); reflexivity].
    reflexivity. }
  exists (OResults None (Some (ewrap FStmt 137 (ewrap FConn 628 (enew FEnc 0))))). eexists. split; [|do 2 eexists; reflexivity].
  eapply calls_cons; [exact D1|]. apply calls_one. exists f. unfold step. cbn [step_body].
  erewrite bind_ok; [|unfold exec_neo; rewrite guard_idle by (split; solve [reflexivity|exact Hcl]); unfold w1, used; rewrite bind_news; cbn [w_conn w_stmts w_rows w_txs w_net]; fold ss1;
    eapply with_defer_ok; [exact E2|apply (stmt_close_plain _ _ _ _ _ _ _ _ _ (length ss1) (One q) None); [apply nth_app_new|exact I]]].
  reflexivity.
Qed.

(** ** Transactions *)
Definition begin_works (db db' : DB) : Prop := exists h m, exec db s_begin [] = (db', Runs h [] (Ends m)).
Lemma begin_call : forall w db db', quiet w db -> begin_works db db' ->
  exists t w', does CBegin w (OHandle (Some t) None) w' /\ quiet w' db' /\ nth_error (w_txs w') t = Some {| t_closed := false |}.
Proof.
  intros w db db' Hq (h & m & Hx). pose proof (fun a k => step_at exec sendable mk Hctl _ _ _ CBegin a k (quiet_rel w db Hq)) as Hst. edestruct Hst as (r & w1 & Hd & Hr & HR); clear Hst.
  { cbn [expect conn_op at_rest sp_phase sp_tx]. unfold control. cbn [at_rest sp_db]. rewrite Hx. reflexivity. }
  destruct Hr as (t & ->). exists t, w1. split; [exact Hd|]. split; [exact (rel_quiet _ _ _ HR eq_refl)|]. destruct HR as (_ & _ & _ & _ & _ & HR & _). apply HR. reflexivity.
Qed.
Lemma quiet_close : forall w db, quiet w db -> exists w', does CClose w (OErr None) w' /\ w_net w' = B db Ready [] /\ w_txs w' = w_txs w /\ (c_pooled (w_conn w) = false -> c_closed (w_conn w') = true).
Proof.
  intros w db (Hcl & Hst & Htx & Hn). destruct w as [c ss rs ts n]. cbn [w_conn w_net w_stmts w_rows w_txs] in *. subst n.
  eexists. split.
  - exists 1%nat. unfold step. cbn [step_body]. erewrite bind_ok; [reflexivity|]. apply (close_tail exec sendable (c_pooled c)) with (w1 := Build_world c ss rs ts (B db Ready [])); auto.
    unfold close_stmt_of. rewrite bind_getc. cbn [w_conn]. rewrite Hst. reflexivity.
  - cbn [w_net w_txs w_conn]. split; [reflexivity|]. split; [reflexivity|]. intros ->. reflexivity.
Qed.
(** The rows of a Conn.QueryNeo that returned no records are still open: Commit reads the
    end of their stream as the answer to its own RUN, so it does not see how COMMIT ended. *)
Lemma stale_finish : forall w db db1 q ps db2 h mq fin_op qt db3 hc fin, quiet w db -> begin_works db db1 -> sendable (VRun q ps) = true ->
  exec db1 q ps = (db2, Runs h [] (Ends mq)) -> fin_op = TCommit /\ qt = s_commit \/ fin_op = TRollback /\ qt = s_rollback -> exec db2 qt [] = (db3, Runs hc [] fin) ->
  exists t r w', calls w [CBegin; CQuery q ps; fin_op t] [OHandle (Some t) None; OHandle (Some r) None; OErr None] w' /\ tx_closed w' t /\
    w_net w' = B db3 (after_stream fin) [final fin].
Proof.
  intros w db db1 q ps db2 h mq fin_op qt db3 hc fin Hq Hb Hs Hx Ho Hy.
  destruct (begin_call w db db1 Hq Hb) as (t & w1 & Hd1 & (Hcl & Hst & Htx & Hn) & Ht). destruct w1 as [c ss rs ts n]. cbn [w_conn w_net w_stmts w_rows w_txs] in *. subst n.
  assert (Hsq : sendable (VRun qt []) = true) by (destruct Ho as [(_ & ->)|(_ & ->)]; apply Hctl).
  pose proof (idle_query exec sendable Hctl 2 (close net 2) c ss rs ts q ps db1 db2 _ (conj Hst Hcl) Hx (le_n _) Hs) as Hd2. cbv iota in Hd2. change (answers [] (Ends mq)) with [VSuccess mq] in Hd2. cbn [after_stream] in Hd2.
  set (ss2 := upd _ _ _) in Hd2. set (c2 := with_stmt c (length ss)) in Hd2. set (rs2 := rs ++ _) in Hd2.
  assert (Es2 : nth_error ss2 (length ss) = Some (open_stmt (One q) (Some (length rs)))) by (subst ss2; erewrite nth_upd_same; [reflexivity|apply nth_app_new]).
  assert (Er2 : nth_error rs2 (length rs) = Some (new_query_rows (length ss) h)) by apply nth_app_new.
  set (ss3 := upd (length ss) (s_set_closed (open_stmt (One q) (Some (length rs)))) ss2).
  set (c3 := c_set_tx None (c_set_stmt None c2)).
  assert (Hf : forall l1 l2 l3 l4 l5, tx_finish net 2 (close net 2) qt l1 l2 l3 l4 l5 t (Build_world c2 ss2 rs2 ts (B db2 Ready [VSuccess mq])) =
    (Ok None, Build_world c3 ss3 rs2 (upd t {| t_closed := true |} ts) (B db3 (after_stream fin) [final fin]))).
  { intros. unfold tx_finish. erewrite bind_gett by exact Ht. cbn [t_closed]. rewrite bind_getc. cbn [w_conn c2 with_stmt c_stmt].
    assert (Hcs : stmt_close net 2 (close net 2) (length ss) (Build_world c2 ss2 rs2 ts (B db2 Ready [VSuccess mq])) = (Ok None, Build_world (c_set_stmt None c2) ss3 rs2 ts (B db2 Ready [VSuccess mq]))).
    { apply stmt_close_plain; [exact Es2|]. eexists. split; [exact Er2|]. left. reflexivity. }
    erewrite bind_ok by exact Hcs. cbv iota.
    assert (Hrun : send_run_pull_all_consume_single net 2 (close net 2) qt [] (Build_world (c_set_stmt None c2) ss3 rs2 ts (B db2 Ready [VSuccess mq])) =
      (Ok (Some (VSuccess mq), Some (VSuccess hc), None), Build_world (c_set_stmt None c2) ss3 rs2 ts (B db3 (after_stream fin) [final fin]))).
    { unfold send_run_pull_all_consume_single. erewrite bind_ok by (apply send_run_pull_ok; [exact Hctl|exact Hsq]). cbv iota.
      unfold served. cbn [b_db b_st b_q serve]. rewrite Hy. cbn [b_db b_st b_q serve map app].
      erewrite bind_ok by (apply consume_msg; reflexivity). cbv beta iota. erewrite bind_ok by (apply consume_msg; reflexivity). reflexivity. }
    erewrite bind_ok by exact Hrun. cbv beta iota. rewrite bind_modc, bind_sett. reflexivity. }
  exists t, (length rs). eexists. split; [|split].
  - eapply (calls_cons exec sendable mk); [exact Hd1|]. eapply (calls_cons exec sendable mk); [exists 2%nat; unfold step; cbn [step_body]; erewrite bind_ok by exact Hd2; reflexivity|].
    apply (calls_one exec sendable mk). exists 2%nat. unfold step. destruct Ho as [(-> & ->)|(-> & ->)]; cbn [step_body]; unfold commit, rollback; erewrite bind_ok by apply Hf; reflexivity.
  - exists {| t_closed := true |}. cbn [w_txs]. split; [|reflexivity]. eapply nth_upd_same; eassumption.
  - reflexivity.
Qed.
End Limits.
