(** The driver against the Bolt server refines the abstract machine of SessionSpec.v. *)
From Coq Require Import ZArith List Bool Lia ZifyBool.
From Verif Require Import GoPrims PrimLemmas Value Errors Misc Session SessionVoc SessionGen SessionFuel ServerSpec SessionSpec SessionBolt.
Import ListNotations.
Open Scope Z_scope.

Lemma upd_id : forall A (l : list A) i x, nth_error l i = Some x -> upd i x l = l.
Proof. induction l as [|y l IH]; intros [|i] x H; try discriminate; cbn in *; [congruence|]. now rewrite IH. Qed.
Lemma upd_upd : forall A (l : list A) i x y, upd i x (upd i y l) = upd i x l.
Proof. induction l as [|z l IH]; intros [|i] x y; cbn; auto. now rewrite IH. Qed.
Lemma nth_app_new : forall A (l : list A) x, nth_error (l ++ [x]) (length l) = Some x.
Proof. intros. rewrite nth_error_app2 by lia. now rewrite Nat.sub_diag. Qed.
Lemma nth_app_old : forall A (l : list A) x i y, nth_error l i = Some y -> nth_error (l ++ [x]) i = Some y.
Proof. intros. rewrite nth_error_app1; auto. apply nth_error_Some. congruence. Qed.

Lemma innermost_wrap : forall f l e, innermost (ewrap f l e) = innermost e.
Proof. intros f l [f' l' [e|]| | | |]; reflexivity. Qed.
Lemma failure_wrap : forall m f l e, failure_error m e -> failure_error m (ewrap f l e).
Proof. unfold failure_error. intros. now rewrite innermost_wrap. Qed.
Lemma driver_wrap : forall f l e, driver_error e -> driver_error (ewrap f l e).
Proof. unfold driver_error. intros. now rewrite innermost_wrap. Qed.
Lemma failure_not_eof : forall m e, failure_error m e -> e <> EEOF.
Proof. intros m e H ->. discriminate. Qed.

Section Refine.
Context {DB : Type}.
Variable exec : DB -> str -> md -> DB * outcome.
Variable sendable : goval -> bool.
Variable mk : bool.
Variable pooled : bool.
Notation net := (bolt exec sendable).
Notation W := (world (bnet DB)).
Notation B := Build_bnet.
Hypothesis Hctl : controls sendable.

(** ** Building blocks *)
Section Blocks.
Variables (lf : nat) (cls : M (N := bnet DB) (option gerr)).

(** RUN and PULL_ALL, everything read *)
Lemma run_all : forall c ss rs ts q ps db db' o, sendable (VRun q ps) = true -> exec db q ps = (db', o) -> room lf (reply1 (Some o)) ->
  send_run_pull_all_consume_all net lf cls q ps (Build_world c ss rs ts (B db Ready [])) =
  (Ok match o with
      | RunFails m => (Some (VFailure m), None, Some (ewrap FConn 569 (EFailMsg m)))
      | Runs h recs (Ends m) => (Some (VSuccess h), Some (VSuccess m), None)
      | Runs h recs (Breaks m) => (Some (VSuccess h), Some (VFailure m), Some (ewrap FConn 569 (EFailMsg m)))
      end, Build_world c ss rs ts (B db' Ready [])).
Proof.
  intros c ss rs ts q ps db db' o Hs E Hr. unfold send_run_pull_all_consume_all.
  erewrite bind_ok by (apply send_run_pull_ok; auto). cbv beta iota. rewrite (served_run_pull _ _ _ _ _ _ _ E).
  cbn [app]. unfold room in Hr. destruct o as [m|h recs [m|m]]; unfold end_state; cbn [first_failure fails reply1] in *.
  - erewrite bind_ok; [|apply (consume_fail _ _ Hctl _ _ _ _ _ _ _ m 1); cbn in Hr; lia]. reflexivity.
  - erewrite bind_ok by (apply consume_msg; reflexivity). cbv beta iota.
    cbn in Hr. unfold answers in Hr. rewrite app_length, map_length in Hr.
    erewrite bind_ok; [|unfold consume_all; rewrite <- (app_nil_r (answers recs (Ends m))); apply consume_all_ok; lia]. reflexivity.
  - erewrite bind_ok by (apply consume_msg; reflexivity). cbv beta iota.
    cbn in Hr. unfold answers in Hr. rewrite app_length, map_length in Hr.
    erewrite bind_ok; [|unfold consume_all; rewrite <- (app_nil_r (answers recs (Breaks m))); apply (consume_all_fail _ _ Hctl _ _ _ _ _ _ _ _ m 0); cbn in *; lia].
    reflexivity.
Qed.
(** the same for statements without records *)
Lemma run_single : forall c ss rs ts q db db' o, sendable (VRun q []) = true -> exec db q [] = (db', o) -> (1 < lf)%nat ->
  match o with Runs _ (_ :: _) _ => False | _ => True end ->
  send_run_pull_all_consume_single net lf cls q [] (Build_world c ss rs ts (B db Ready [])) =
  (Ok match o with
      | RunFails m => (Some (VFailure m), None, Some (ewrap FConn 569 (EFailMsg m)))
      | Runs h recs (Ends m) => (Some (VSuccess h), Some (VSuccess m), None)
      | Runs h recs (Breaks m) => (Some (VSuccess h), Some (VFailure m), Some (ewrap FConn 569 (EFailMsg m)))
      end, Build_world c ss rs ts (B db' Ready [])).
Proof.
  intros c ss rs ts q db db' o Hs E Hr Hn. unfold send_run_pull_all_consume_single.
  erewrite bind_ok by (apply send_run_pull_ok; auto). cbv beta iota. rewrite (served_run_pull _ _ _ _ _ _ _ E).
  cbn [app]. destruct o as [m|h [|? ?] [m|m]]; try contradiction; unfold end_state; cbn [first_failure fails reply1 answers map app final] in *.
  - erewrite bind_ok; [|apply (consume_fail _ _ Hctl _ _ _ _ _ _ _ m 1); lia]. reflexivity.
  - erewrite bind_ok by (apply consume_msg; reflexivity). cbv beta iota.
    erewrite bind_ok by (apply consume_msg; reflexivity). reflexivity.
  - erewrite bind_ok by (apply consume_msg; reflexivity). cbv beta iota.
    erewrite bind_ok; [|apply (consume_fail _ _ Hctl _ _ _ _ _ _ _ m 0); lia]. reflexivity.
Qed.

(** an open statement *)
Definition queries (k : kind) : list str := match k with One _ => [] | Many qs => qs end.
Definition query (k : kind) : str := match k with One q => q | Many _ => [] end.
Definition open_stmt (k : kind) (r : option nat) : stmt :=
  {| s_queries := queries k; s_query := query k; s_conn := true; s_closed := false; s_rows := r |}.

Lemma stmt_exec_ok : forall c ss rs ts sid q ps db db' o, nth_error ss sid = Some (open_stmt (One q) None) ->
  sendable (VRun q ps) = true -> exec db q ps = (db', o) -> room lf (reply1 (Some o)) ->
  stmt_exec net lf cls sid ps (Build_world c ss rs ts (B db Ready [])) =
  (Ok match fails o, o with
      | Some m, _ => (None, Some (ewrap FConn 569 (EFailMsg m)))
      | None, Runs h recs (Ends m) => (Some m, None)
      | None, _ => (None, None)
      end, Build_world c ss rs ts (B db' Ready [])).
Proof.
  intros c ss rs ts sid q ps db db' o E Hs Ex Hr. unfold stmt_exec. erewrite bind_gets by exact E. cbn [open_stmt s_closed s_rows query s_query].
  erewrite bind_need; [|exact E|reflexivity]. erewrite bind_ok by (apply run_all; eauto). destruct o as [m|h recs [m|m]]; reflexivity.
Qed.
Lemma stmt_exec_rej : forall c ss rs ts sid q ps n, nth_error ss sid = Some (open_stmt (One q) None) -> sendable (VRun q ps) = false ->
  stmt_exec net lf cls sid ps (Build_world c ss rs ts n) = (Ok (None, Some (ewrap FConn 628 (enew FEnc 0))), Build_world c ss rs ts n).
Proof.
  intros c ss rs ts sid q ps n E Hs. unfold stmt_exec. erewrite bind_gets by exact E. cbn [open_stmt s_closed s_rows query s_query].
  erewrite bind_need; [|exact E|reflexivity]. unfold send_run_pull_all_consume_all.
  erewrite bind_ok; [|erewrite bind_ok by (apply send_run_pull_rej; auto); reflexivity]. reflexivity.
Qed.
Lemma zlen_eqb : forall A C (a : list A) (b : list C), (zlen a =? zlen b) = (length a =? length b)%nat.
Proof. intros. unfold zlen. lia. Qed.
Lemma stmt_exec_pipe_ok : forall c ss rs ts sid qs pss db db' os, nth_error ss sid = Some (open_stmt (Many qs) None) ->
  (length pss = length qs) -> all_sendable sendable (combine qs pss) = true -> run_pipe exec db (combine qs pss) = (db', os) -> room lf (replies os) ->
  match first_failure os with
  | None => stmt_exec_pipeline net lf cls sid pss (Build_world c ss rs ts (B db Ready [])) = (Ok (Some (summaries os), None), Build_world c ss rs ts (B db' Ready []))
  | Some m => exists e, stmt_exec_pipeline net lf cls sid pss (Build_world c ss rs ts (B db Ready [])) = (Ok (None, Some e), Build_world c ss rs ts (B db' Ready [])) /\ failure_error m e
  end.
Proof.
  intros c ss rs ts sid qs pss db db' os E Hl Hs Ex Hr. unfold stmt_exec_pipeline.
  assert (Hneed : forall C (k : unit -> M C), bind (match qs with [] => ret tt | _ => need_conn sid end) k (Build_world c ss rs ts (B db Ready [])) = k tt (Build_world c ss rs ts (B db Ready []))).
  { intros C k. destruct qs; [reflexivity|]. eapply bind_need; [exact E|reflexivity]. }
  destruct (send_queries_ok exec _ Hctl c ss rs ts 137 qs pss db [] db' os Hs Ex) as (H1 & H2 & H3).
  assert (Hlen : length os = length qs) by (rewrite H3, combine_length; lia).
  pose proof (exec_results_ok exec _ Hctl c ss rs ts lf cls qs os db' H2 Hlen Hr) as H4. cbn [app] in H1.
  assert (Hz : negb (zlen pss =? zlen qs) = false) by (rewrite zlen_eqb; lia).
  destruct (first_failure os) as [m|].
  - destruct H4 as (e & H4 & He). exists e. split; auto. erewrite bind_gets by exact E. cbn [open_stmt s_closed s_rows queries s_queries]. rewrite Hz, Hneed.
    erewrite bind_ok by exact H1. cbv beta iota. erewrite bind_ok by exact H4. reflexivity.
  - erewrite bind_gets by exact E. cbn [open_stmt s_closed s_rows queries s_queries]. rewrite Hz, Hneed.
    erewrite bind_ok by exact H1. cbv beta iota. erewrite bind_ok by exact H4. reflexivity.
Qed.

(** *** Closing *)
Lemma stmt_close_plain : forall c ss rs ts n sid k ro, nth_error ss sid = Some (open_stmt k ro) ->
  match ro with None => True | Some r => exists row, nth_error rs r = Some row /\ (r_closeStmt row = true \/ r_closed row = true) end ->
  stmt_close net lf cls sid (Build_world c ss rs ts n) =
  (Ok None, Build_world (c_set_stmt None c) (upd sid (s_set_closed (open_stmt k ro)) ss) rs ts n).
Proof.
  intros c ss rs ts n sid k ro E Hro. unfold stmt_close. erewrite bind_gets by exact E. cbn [open_stmt s_closed s_rows].
  assert (H : (match ro with None => ret None | Some rid => r <- getr rid;; if r_closeStmt r then ret None else if r_closed r then ret None else rows_close_body net lf cls rid end)
     (Build_world c ss rs ts n) = (Ok None, Build_world c ss rs ts n)).
  { destruct ro as [r|]; [|reflexivity]. destruct Hro as (row & Er & Hr). erewrite bind_getr by exact Er.
    destruct (r_closeStmt row); [reflexivity|]. destruct (r_closed row); [reflexivity|]. destruct Hr; discriminate. }
  erewrite bind_ok by exact H. cbv beta iota. erewrite bind_need; [|exact E|reflexivity].
  rewrite bind_modc.
  erewrite bind_mods; [|exact E]. reflexivity.
Qed.

(** what a row set will read: [feeds row queries source server-state unread] *)
Inductive feeds (row : rows) (qs : list str) : source -> sstate -> list goval -> Prop :=
| feeds_unread : forall recs fin, r_consumed row = false -> r_finished row = false -> qs = [] ->
    feeds row qs (Single recs fin) (Streaming recs fin) []
| feeds_single : forall recs fin, r_consumed row = true -> r_finished row = false -> qs = [] ->
    feeds row qs (Single recs fin) (after_stream fin) (answers recs fin)
| feeds_pipe : forall recs fin rest, r_consumed row = true -> r_finished row = false -> 0 <= r_pidx row ->
    zlen qs = r_pidx row + 1 + zlen rest -> ordered (Some (Runs [] recs fin) :: rest) ->
    feeds row qs (Pipe recs fin rest) (end_state (Some (Runs [] recs fin) :: rest)) (answers recs fin ++ replies rest)
| feeds_done : r_consumed row = true -> r_finished row = true -> feeds row qs Done Ready [].

Definition room_src (x : source) : Prop :=
  match x with
  | Single recs fin => room lf (answers recs fin)
  | Pipe recs fin rest => room lf (answers recs fin ++ replies rest)
  | Done => True
  end.

Lemma rows_close_body_ok : forall c ss rs ts rid row sid s x st q db, nth_error rs rid = Some row -> r_stmt row = sid ->
  nth_error ss sid = Some s -> s_conn s = true -> feeds row (s_queries s) x st q -> room_src x ->
  match drain x with
  | None => rows_close_body net lf cls rid (Build_world c ss rs ts (B db st q)) =
      (Ok None, Build_world c (upd sid (s_set_rows None s) ss) (upd rid (r_set_closed row) rs) ts (B db Ready []))
  | Some m => exists e, rows_close_body net lf cls rid (Build_world c ss rs ts (B db st q)) = (Ok (Some e), Build_world c ss rs ts (B db Ready [])) /\ failure_error m e
  end.
Proof.
  intros c ss rs ts rid row sid s x st q db Er Hs Es Hc Hf Hr. unfold rows_close_body.
  assert (Hfin : forall (e : option gerr) (db' : bnet DB), (match e with Some e => ret (Some e) | None => modr rid r_set_closed ;; mods (r_stmt row) (s_set_rows None) ;; ret None end)
     (Build_world c ss rs ts db') = (match e with Some e => (Ok (Some e), Build_world c ss rs ts db')
                        | None => (Ok None, Build_world c (upd sid (s_set_rows None s) ss) (upd rid (r_set_closed row) rs) ts db') end)).
  { intros [e|] db'; [reflexivity|]. rewrite Hs. erewrite bind_modr by exact Er. erewrite bind_mods by exact Es. reflexivity. }
  destruct Hf as [recs fin H1 H2 H3|recs fin H1 H2 H3|recs fin rest H1 H2 H3 H4 H5|H1 H2].
  - (* discard *)
    assert (Hd : send_discard_all_consume net lf cls (Build_world c ss rs ts (B db (Streaming recs fin) [])) =
       (Ok (match fin with Ends m => (Some (VSuccess m), None) | Breaks m => (Some (VFailure m), Some (ewrap FConn 569 (EFailMsg m))) end), Build_world c ss rs ts (B db Ready []))).
    { unfold send_discard_all_consume. erewrite bind_ok by (apply encode_ok; apply Hctl). cbv beta iota. unfold served. cbn [serve b_db b_st b_q app].
      destruct fin as [m|m]; [apply consume_msg; reflexivity|]. apply (consume_fail _ _ Hctl _ _ _ _ _ _ _ m 0).
      cbn in Hr. unfold room, answers in Hr. rewrite app_length in Hr. cbn in Hr. lia. }
    destruct fin as [m|m]; cbn [drain fails].
    + erewrite bind_getr by exact Er. rewrite H1. cbn [negb].
      erewrite bind_ok by (rewrite Hs; erewrite bind_need by eauto; erewrite bind_ok by exact Hd; reflexivity). apply (Hfin None).
    + exists (ewrap FRows 130 (ewrap FConn 569 (EFailMsg m))). split; [|reflexivity]. erewrite bind_getr by exact Er. rewrite H1. cbn [negb].
      erewrite bind_ok by (rewrite Hs; erewrite bind_need by eauto; erewrite bind_ok by exact Hd; reflexivity). apply (Hfin (Some _)).
  - (* one result *)
    pose proof (consume_n_ok exec _ Hctl c ss rs ts lf cls [] recs fin [] db) as Hn.
    assert (Ho : ordered [Some (Runs [] recs fin)]).
    { destruct fin as [m|m]; [constructor; [reflexivity|constructor]|]. apply (ord_fail (Runs [] recs (Breaks m)) m 0 eq_refl). }
    cbn [replies flat_map] in Hn. rewrite app_nil_r in Hn. specialize (Hn Ho Hr).
    assert (Ee : end_state [Some (Runs [] recs fin)] = after_stream fin) by (destruct fin; reflexivity). rewrite Ee in Hn.
    cbn [drain]. cbn [first_failure] in Hn. destruct (fails (Runs [] recs fin)) as [m|].
    + destruct Hn as (e & Hn & He). exists (ewrap FRows 159 e). split; [|now apply failure_wrap].
      erewrite bind_getr by exact Er. rewrite H1, H2. cbn [negb].
      erewrite bind_ok by (rewrite Hs; erewrite bind_gets by exact Es; erewrite bind_need by eauto; rewrite H3; cbn; erewrite bind_ok by exact Hn; reflexivity). apply (Hfin (Some _)).
    + erewrite bind_getr by exact Er. rewrite H1, H2. cbn [negb].
      erewrite bind_ok by (rewrite Hs; erewrite bind_gets by exact Es; erewrite bind_need by eauto; rewrite H3; cbn; erewrite bind_ok by exact Hn; reflexivity). apply (Hfin None).
  - (* pipeline *)
    pose proof (consume_n_ok exec _ Hctl c ss rs ts lf cls rest recs fin [] db H5 Hr) as Hn.
    assert (Hq : (if zlen (s_queries s) =? 0 then 1 else (zlen (s_queries s) - r_pidx row) * 2 - 1) = Z.of_nat (1 + 2 * length rest)).
    { unfold zlen in H4 |- *. match goal with |- context [if ?b then _ else _] => destruct b eqn:E0 end; lia. }
    assert (Hm : forall w : W, consume_all_multiple net lf cls (Z.of_nat (1 + 2 * length rest)) w = consume_all_n net lf cls (1 + 2 * length rest) w).
    { intros w. unfold consume_all_multiple. replace (Z.of_nat (1 + 2 * length rest) <? 0) with false by lia. now rewrite Nat2Z.id. }
    cbn [drain]. destruct (first_failure (Some (Runs [] recs fin) :: rest)) as [m|].
    + destruct Hn as (e & Hn & He). exists (ewrap FRows 159 e). split; [|now apply failure_wrap].
      erewrite bind_getr by exact Er. rewrite H1, H2. cbn [negb].
      erewrite bind_ok by (rewrite Hs; erewrite bind_gets by exact Es; erewrite bind_need by eauto; rewrite Hq; erewrite bind_ok by (rewrite Hm; exact Hn); reflexivity). apply (Hfin (Some _)).
    + erewrite bind_getr by exact Er. rewrite H1, H2. cbn [negb].
      erewrite bind_ok by (rewrite Hs; erewrite bind_gets by exact Es; erewrite bind_need by eauto; rewrite Hq; erewrite bind_ok by (rewrite Hm; exact Hn); reflexivity). apply (Hfin None).
  - erewrite bind_getr by exact Er. rewrite H1, H2. cbn [negb drain]. erewrite bind_ok by reflexivity. apply (Hfin None).
Qed.

(** closing a statement with a row set of its own *)
Lemma stmt_close_rows : forall c ss rs ts sid k rid row x st q db, nth_error ss sid = Some (open_stmt k (Some rid)) ->
  nth_error rs rid = Some row -> r_stmt row = sid -> r_closeStmt row = false -> r_closed row = false ->
  feeds row (queries k) x st q -> room_src x ->
  match drain x with
  | None => stmt_close net lf cls sid (Build_world c ss rs ts (B db st q)) =
      (Ok None, Build_world (c_set_stmt None c) (upd sid (s_set_closed (open_stmt k None)) ss) (upd rid (r_set_closed row) rs) ts (B db Ready []))
  | Some m => exists e, stmt_close net lf cls sid (Build_world c ss rs ts (B db st q)) = (Ok (Some e), Build_world c ss rs ts (B db Ready [])) /\ failure_error m e
  end.
Proof.
  intros c ss rs ts sid k rid row x st q db Es Er Hs Ho Hc Hf Hr.
  pose proof (rows_close_body_ok c ss rs ts rid row sid _ x st q db Er Hs Es eq_refl Hf Hr) as H.
  destruct (drain x) as [m|].
  - destruct H as (e & H & He). exists e. split; auto. unfold stmt_close. erewrite bind_gets by exact Es. cbn [open_stmt s_closed s_rows].
    erewrite bind_ok by (erewrite bind_getr by exact Er; rewrite Ho, Hc; exact H). reflexivity.
  - unfold stmt_close. erewrite bind_gets by exact Es. cbn [open_stmt s_closed s_rows].
    erewrite bind_ok by (erewrite bind_getr by exact Er; rewrite Ho, Hc; exact H). cbv beta iota.
    assert (E1 : nth_error (upd sid (open_stmt k None) ss) sid = Some (open_stmt k None)) by (eapply nth_upd_same; eauto).
    change (s_set_rows None (open_stmt k (Some rid))) with (open_stmt k None).
    erewrite bind_need; [|exact E1|reflexivity]. rewrite bind_modc. erewrite bind_mods by exact E1. cbn [w_conn w_stmts w_rows w_txs w_net].
    rewrite upd_upd. reflexivity.
Qed.

(** *** Reading rows *)
Lemma next_single : forall c ss rs ts rid row sid s recs fin st q db, nth_error rs rid = Some row -> r_stmt row = sid -> r_closed row = false ->
  nth_error ss sid = Some s -> s_conn s = true -> feeds row (s_queries s) (Single recs fin) st q -> (1 < lf)%nat ->
  next_neo net lf cls rid (Build_world c ss rs ts (B db st q)) =
  match recs, fin with
  | fs :: recs', _ => (Ok (Some fs, None, None), Build_world c ss (upd rid (r_set_consumed row) rs) ts (B db (after_stream fin) (answers recs' fin)))
  | [], Ends m => (Ok (None, Some m, Some EEOF), Build_world c ss (upd rid (r_set_finished (r_set_consumed row)) rs) ts (B db Ready []))
  | [], Breaks m => (Ok (None, None, Some (ewrap FConn 569 (EFailMsg m))), Build_world c ss (upd rid (r_set_consumed row) rs) ts (B db Ready []))
  end.
Proof.
  intros c ss rs ts rid row sid s recs fin st q db Er Hs Hc Es Hk Hf Hl. unfold next_neo. erewrite bind_getr by exact Er. rewrite Hc.
  assert (E1 : nth_error (upd rid (r_set_consumed row) rs) rid = Some (r_set_consumed row)) by (eapply nth_upd_same; eauto).
  match goal with |- bind ?m _ _ = _ => 
    assert (H : m (Build_world c ss rs ts (B db st q)) = (Ok None, Build_world c ss (upd rid (r_set_consumed row) rs) ts (B db (after_stream fin) (answers recs fin)))) end.
  { inversion Hf; subst.
    - rewrite H1. cbn [negb]. erewrite bind_modr by exact Er. erewrite bind_need; [|exact Es|exact Hk].
      erewrite bind_ok by (apply send_pull_ok; exact Hctl). cbv beta iota. unfold served. cbn [serve b_db b_st b_q app]. reflexivity.
    - rewrite H1. cbn [negb]. unfold ret. replace (r_set_consumed row) with row by (destruct row; cbn in *; subst; reflexivity). now rewrite upd_id. }
  erewrite bind_ok by exact H. cbv beta iota. rewrite Hs. erewrite bind_need; [|exact Es|exact Hk].
  destruct recs as [|fs recs]; [destruct fin as [m|m]|]; cbn [answers map app final after_stream].
  - erewrite bind_ok by (apply consume_msg; reflexivity). cbv beta iota. erewrite bind_modr by exact E1. cbn [w_conn w_stmts w_rows w_txs w_net].
    rewrite upd_upd. reflexivity.
  - erewrite bind_ok by (apply (consume_fail _ _ Hctl _ _ _ _ _ _ _ m 0); lia). reflexivity.
  - erewrite bind_ok by (apply consume_msg; reflexivity). reflexivity.
Qed.
Lemma feeds_next : forall row qs fs recs fin st q, feeds row qs (Single (fs :: recs) fin) st q ->
  feeds (r_set_consumed row) qs (Single recs fin) (after_stream fin) (answers recs fin).
Proof. intros row qs fs recs fin st q H. inversion H; subst; apply feeds_single; auto. Qed.
Lemma r_set_consumed_idem : forall row, r_set_consumed (r_set_consumed row) = r_set_consumed row.
Proof. reflexivity. Qed.

Lemma all_single : forall c ss ts rid sid s recs fin db f rs row st q acc, nth_error rs rid = Some row -> r_stmt row = sid -> r_closed row = false ->
  nth_error ss sid = Some s -> s_conn s = true -> feeds row (s_queries s) (Single recs fin) st q -> (1 < lf)%nat -> (length recs < f)%nat ->
  all_loop net lf cls f rid acc (Build_world c ss rs ts (B db st q)) =
  match fin with
  | Ends m => (Ok (acc ++ recs, Some m, None), Build_world c ss (upd rid (r_set_finished (r_set_consumed row)) rs) ts (B db Ready []))
  | Breaks m => (Ok (acc ++ recs, None, Some (ewrap FConn 569 (EFailMsg m))), Build_world c ss (upd rid (r_set_consumed row) rs) ts (B db Ready []))
  end.
Proof.
  intros c ss ts rid sid s recs fin db. induction recs as [|fs recs IH]; intros [|f] rs row st q acc Er Hs Hc Es Hk Hf Hl Hlen; cbn in Hlen; try lia;
    cbn [all_loop].
  - destruct fin as [m|m].
    + erewrite bind_ok by (rewrite (next_single _ _ _ _ _ _ _ _ _ _ _ _ _ Er Hs Hc Es Hk Hf Hl); reflexivity). now rewrite app_nil_r.
    + erewrite bind_ok by (rewrite (next_single _ _ _ _ _ _ _ _ _ _ _ _ _ Er Hs Hc Es Hk Hf Hl); reflexivity). now rewrite app_nil_r.
  - erewrite bind_ok by (rewrite (next_single _ _ _ _ _ _ _ _ _ _ _ _ _ Er Hs Hc Es Hk Hf Hl); reflexivity). cbv beta iota.
    assert (E1 : nth_error (upd rid (r_set_consumed row) rs) rid = Some (r_set_consumed row)) by (eapply nth_upd_same; eauto).
    rewrite (IH f _ (r_set_consumed row) _ _ (acc ++ [fs]) E1 Hs Hc Es Hk (feeds_next _ _ _ _ _ _ _ Hf) Hl) by lia.
    rewrite r_set_consumed_idem, !upd_upd, <- app_assoc. reflexivity.
Qed.

Lemma next_pipe_row : forall c ss rs ts rid row sid s fs recs fin rest st q db, nth_error rs rid = Some row -> r_stmt row = sid -> r_closed row = false ->
  nth_error ss sid = Some s -> s_conn s = true -> feeds row (s_queries s) (Pipe (fs :: recs) fin rest) st q ->
  next_pipeline net lf cls rid (Build_world c ss rs ts (B db st q)) =
  (Ok (Some fs, None, None, None), Build_world c ss rs ts (B db st (answers recs fin ++ replies rest))) /\
  feeds row (s_queries s) (Pipe recs fin rest) st (answers recs fin ++ replies rest).
Proof.
  intros c ss rs ts rid row sid s fs recs fin rest st q db Er Hs Hc Es Hk Hf. inversion Hf; subst. split.
  - unfold next_pipeline. erewrite bind_getr by exact Er. rewrite Hc. erewrite bind_need; [|exact Es|exact Hk].
    cbn [answers map app]. erewrite bind_ok by (apply consume_msg; reflexivity). reflexivity.
  - replace (end_state (Some (Runs [] (fs :: recs) fin) :: rest)) with (end_state (Some (Runs [] recs fin) :: rest)) by (destruct fin; reflexivity).
    apply feeds_pipe; auto. inversion H8; subst; [constructor; auto|]. eapply ord_fail; eauto.
Qed.
Lemma next_pipe_fail : forall c ss rs ts rid row sid s m rest st q db, nth_error rs rid = Some row -> r_stmt row = sid -> r_closed row = false ->
  nth_error ss sid = Some s -> s_conn s = true -> feeds row (s_queries s) (Pipe [] (Breaks m) rest) st q -> room lf (answers [] (Breaks m) ++ replies rest) ->
  next_pipeline net lf cls rid (Build_world c ss rs ts (B db st q)) =
  (Ok (None, None, None, Some (ewrap FConn 569 (EFailMsg m))), Build_world c ss rs ts (B db Ready [])).
Proof.
  intros c ss rs ts rid row sid s m rest st q db Er Hs Hc Es Hk Hf Hr. inversion Hf; subst.
  unfold next_pipeline. erewrite bind_getr by exact Er. rewrite Hc. erewrite bind_need; [|exact Es|exact Hk].
  inversion H8; subst; try discriminate. rewrite replies_repeat in *. unfold room in Hr. rewrite app_length, repeat_length in Hr.
  cbn [answers map app final end_state first_failure fails] in *. erewrite bind_ok by (apply (consume_fail _ _ Hctl); cbn in *; lia). reflexivity.
Qed.
Lemma next_pipe_end : forall c ss rs ts rid row sid s m st q db, nth_error rs rid = Some row -> r_stmt row = sid -> r_closed row = false ->
  nth_error ss sid = Some s -> s_conn s = true -> feeds row (s_queries s) (Pipe [] (Ends m) []) st q ->
  next_pipeline net lf cls rid (Build_world c ss rs ts (B db st q)) =
  (Ok (None, None, None, None), Build_world c ss (upd rid (r_set_finished row) rs) ts (B db Ready [])).
Proof.
  intros c ss rs ts rid row sid s m st q db Er Hs Hc Es Hk Hf. inversion Hf; subst.
  unfold next_pipeline. erewrite bind_getr by exact Er. rewrite Hc. erewrite bind_need; [|exact Es|exact Hk].
  cbn [answers map app final replies flat_map end_state first_failure fails]. erewrite bind_ok by (apply consume_msg; reflexivity). cbv beta iota.
  erewrite bind_gets by exact Es. replace (r_pidx row =? zlen (s_queries s) - 1) with true by (change (zlen (@nil (option outcome))) with 0 in *; lia).
  erewrite bind_modr by exact Er. reflexivity.
Qed.
Lemma next_pipe_next : forall c ss rs ts rid row sid s m o rest st q db, nth_error rs rid = Some row -> r_stmt row = sid -> r_closed row = false ->
  nth_error ss sid = Some s -> s_conn s = true -> feeds row (s_queries s) (Pipe [] (Ends m) (Some o :: rest)) st q ->
  room lf (answers [] (Ends m) ++ replies (Some o :: rest)) ->
  match o with
  | RunFails m => exists e, next_pipeline net lf cls rid (Build_world c ss rs ts (B db st q)) =
      (Ok (None, None, None, Some e), Build_world c ss rs ts (B db Ready [])) /\ failure_error m e
  | Runs h recs fin => 
      let row' := {| r_md := h; r_stmt := sid; r_closed := false; r_consumed := true; r_finished := false;
                     r_pidx := r_pidx row + 1; r_closeStmt := r_closeStmt row |} in
      next_pipeline net lf cls rid (Build_world c ss rs ts (B db st q)) =
      (Ok (None, Some h, Some (length rs), None), Build_world c (upd sid (s_set_rows (Some (length rs)) s) ss) (rs ++ [row']) ts (B db st (answers recs fin ++ replies rest))) /\
      feeds row' (s_queries s) (Pipe recs fin rest) st (answers recs fin ++ replies rest)
  end.
Proof.
  intros c ss rs ts rid row sid s m o rest st q db Er Hs Hc Es Hk Hf Hr. inversion Hf; subst.
  assert (Hz : (r_pidx row =? zlen (s_queries s) - 1) = false) by (rewrite zlen_cons in *; pose proof (zlen_nonneg rest); lia).
  assert (Ho : ordered (Some o :: rest)) by (inversion H8; subst; [auto|discriminate]).
  assert (Ee : end_state (Some (Runs [] [] (Ends m)) :: Some o :: rest) = end_state (Some o :: rest)) by reflexivity.
  rewrite Ee. unfold room in Hr. rewrite app_length in Hr. cbn [replies flat_map] in Hr. fold (replies rest) in Hr. rewrite app_length in Hr.
  destruct o as [m'|h recs fin].
  - inversion Ho; subst; [discriminate|]. exists (ewrap FRows 271 (ewrap FConn 569 (EFailMsg m'))). split; [|reflexivity].
    unfold next_pipeline. erewrite bind_getr by exact Er. rewrite Hc. erewrite bind_need; [|exact Es|exact Hk].
    cbn [answers map app final]. erewrite bind_ok by (apply consume_msg; reflexivity). cbv beta iota.
    erewrite bind_gets by exact Es. rewrite Hz. erewrite bind_need; [|exact Es|exact Hk].
    cbn [replies flat_map]. fold (replies (repeat None n)). rewrite replies_repeat in *. rewrite repeat_length in Hr.
    cbn [reply1 app]. erewrite bind_ok by (apply (consume_fail _ _ Hctl _ _ _ _ _ _ _ m' (S (2 * n))); cbn in *; lia). reflexivity.
  - cbv zeta. split.
    + unfold next_pipeline. erewrite bind_getr by exact Er. rewrite Hc. erewrite bind_need; [|exact Es|exact Hk].
      cbn [answers map app final]. erewrite bind_ok by (apply consume_msg; reflexivity). cbv beta iota.
      erewrite bind_gets by exact Es. rewrite Hz. erewrite bind_need; [|exact Es|exact Hk].
      cbn [replies flat_map reply1 app]. erewrite bind_ok by (apply consume_msg; reflexivity). cbv beta iota.
      rewrite bind_newr. erewrite bind_mods by exact Es. reflexivity.
    + assert (E2 : end_state (Some (Runs h recs fin) :: rest) = end_state (Some (Runs [] recs fin) :: rest)) by (destruct fin; reflexivity).
      rewrite E2. apply feeds_pipe; auto; cbn; try lia.
      * rewrite zlen_cons in *. lia.
      * inversion Ho; subst; [constructor; auto|]. eapply ord_fail; eauto.
Qed.
End Blocks.

(** ** The relation between the world and the abstract state *)
Definition phase_rel (w : W) (db : DB) (ph : phase) : Prop :=
  match ph with
  | PIdle => c_closed (w_conn w) = false /\ c_stmt (w_conn w) = None /\ w_net w = B db Ready []
  | PStmt s k => c_closed (w_conn w) = false /\ c_stmt (w_conn w) = Some s /\ nth_error (w_stmts w) s = Some (open_stmt k None) /\ w_net w = B db Ready []
  | PRows owner r h x => c_closed (w_conn w) = false /\ exists s k row st q, c_stmt (w_conn w) = Some s /\
      nth_error (w_stmts w) s = Some (open_stmt k (Some r)) /\ nth_error (w_rows w) r = Some row /\ r_stmt row = s /\ r_closed row = false /\ r_md row = h /\
      match owner with None => r_closeStmt row = true | Some o => o = (s, k) /\ r_closeStmt row = false end /\
      feeds row (queries k) x st q /\ w_net w = B db st q
  | PLost b => c_closed (w_conn w) = false /\ b_db (w_net w) = db /\ exists s, c_stmt (w_conn w) = Some s /\
      (b = true -> exists k ro, nth_error (w_stmts w) s = Some (open_stmt k ro) /\
         match ro with None => True | Some r => exists row, nth_error (w_rows w) r = Some row /\ r_closeStmt row = true end /\ w_net w = B db Ready [])
  | PClosed => b_db (w_net w) = db /\ (pooled = false -> c_closed (w_conn w) = true) /\ (pooled = true -> c_closed (w_conn w) = false /\ c_stmt (w_conn w) = None /\ w_net w = B db Ready [])
  end.
Definition Rel (w : W) (st : sst DB) : Prop :=
  c_tx (w_conn w) = None /\ c_pooled (w_conn w) = pooled /\
  (forall i, In i (sp_ds st) -> stmt_is true w i) /\ (forall i, In i (sp_dr st) -> rows_closed w i) /\ (forall i, In i (sp_dt st) -> tx_closed w i) /\
  (forall t, sp_tx st = Some t -> nth_error (w_txs w) t = Some {| t_closed := false |}) /\
  phase_rel w (sp_db st) (sp_phase st).

Definition does (o : op) (w : W) (r : out) (w' : W) : Prop := exists f, step net mk f o w = (Ok r, w').

Lemma does_mono : forall o w r w', does o w r w' -> mono w w'.
Proof. intros o w r w' (f0 & H). pose proof (mono_step net mk f0 o w) as Hm. now rewrite H in Hm. Qed.
Lemma mono_stmt : forall (w w' : W) i, mono w w' -> stmt_is true w i -> stmt_is true w' i.
Proof. intros w w' i (_ & H & _) (s & E & Hs). destruct (H i s E) as (s' & E' & _ & _ & Hc & _). exists s'. auto. Qed.
Lemma mono_rows : forall (w w' : W) i, mono w w' -> rows_closed w i -> rows_closed w' i.
Proof. intros w w' i (_ & _ & H & _) (s & E & Hs). destruct (H i s E) as (s' & E' & _ & _ & _ & Hc & _). exists s'. auto. Qed.
Lemma mono_txs : forall (w w' : W) i, mono w w' -> tx_closed w i -> tx_closed w' i.
Proof. intros w w' i (_ & _ & _ & H) (s & E & Hs). destruct (H i s E) as (s' & E' & Hc). exists s'. auto. Qed.

Lemma Rel_next : forall w st w' st', Rel w st -> mono w w' -> c_tx (w_conn w') = None -> w_txs w' = w_txs w -> sp_tx st' = sp_tx st ->
  (forall i, In i (sp_ds st') -> In i (sp_ds st) \/ stmt_is true w' i) ->
  (forall i, In i (sp_dr st') -> In i (sp_dr st) \/ rows_closed w' i) ->
  sp_dt st' = sp_dt st -> phase_rel w' (sp_db st') (sp_phase st') -> Rel w' st'.
Proof.
  intros w st w' st' (H1 & H2 & H3 & H4 & H5 & H6 & _) Hm Htx Hts E1 Hs Hr E2 Hp.
  split; [exact Htx|]. split; [destruct Hm as ((_ & _ & Hm) & _); congruence|].
  split; [intros i Hi; destruct (Hs i Hi); eauto using mono_stmt|].
  split; [intros i Hi; destruct (Hr i Hi); eauto using mono_rows|].
  split; [intros i Hi; rewrite E2 in Hi; eauto using mono_txs|].
  split; [intros t Ht; rewrite Hts; apply H6; congruence|exact Hp].
Qed.
Lemma with_defer_ok : forall A C (m : M (N := bnet DB) A) (d : M (N := bnet DB) C) w a w1 b w2,
  m w = (Ok a, w1) -> d w1 = (Ok b, w2) -> with_defer m d w = (Ok a, w2).
Proof. intros. unfold with_defer. now rewrite H, H0. Qed.
Lemma existsb_in : forall i l, existsb (Nat.eqb i) l = true -> In i l.
Proof. intros i l H. apply existsb_exists in H. destruct H as (x & H1 & H2). apply Nat.eqb_eq in H2. now subst. Qed.

Lemma conn_refused : forall w o, (c_stmt (w_conn w) <> None \/ c_closed (w_conn w) = true) -> conn_work o = true -> args_ok mk o -> c_tx (w_conn w) = None ->
  exists r, does o w r w /\ refused r.
Proof.
  intros w o H Ho Ha Ht. destruct o; try discriminate Ho; cbn in Ha;
    cbv beta iota delta [does step step_body prepare prepare_pipeline begin_tx exec_neo exec_pipeline query_neo_all query_neo
      query_pipeline exec_sql query_sql with_args guard_open bind getc ret]; rewrite ?Ht;
    try (destruct (driver_args mk args); [| |congruence]);
    (destruct (c_stmt (w_conn w)); [|destruct H as [H|H]; [contradiction|rewrite ?H]]);
    eexists; (split; [exists O; reflexivity|do 2 eexists; reflexivity]).
Qed.

(** ** Calls on the connection *)
Definition idle (c : conn) : Prop := c_stmt c = None /\ c_closed c = false.
Lemma guard_idle : forall A l1 l2 (bad : gerr -> A) (k : M (N := bnet DB) A) w, idle (w_conn w) -> guard_open l1 l2 bad k w = k w.
Proof. intros A l1 l2 bad k w (H1 & H2). unfold guard_open. rewrite bind_getc, H1, H2. reflexivity. Qed.
(** the world after a temporary statement has come and gone *)
Definition used (c : conn) ss rs ts (s : stmt) (n : bnet DB) : W :=
  Build_world (c_set_stmt None c) (upd (length ss) (s_set_closed s) (ss ++ [s])) rs ts n.

Lemma idle_exec : forall lf cls c ss rs ts q ps db db' o, idle c -> exec db q ps = (db', o) -> room lf (reply1 (Some o)) -> sendable (VRun q ps) = true ->
  exec_neo net lf cls q ps (Build_world c ss rs ts (B db Ready [])) =
  (Ok match fails o, o with
      | Some m, _ => (None, Some (ewrap FConn 569 (EFailMsg m)))
      | None, Runs h recs (Ends m) => (Some m, None)
      | None, _ => (None, None)
      end, used c ss rs ts (new_stmt q) (B db' Ready [])).
Proof.
  intros lf cls c ss rs ts q ps db db' o Hi Ex Hr Hs. unfold exec_neo. rewrite guard_idle by exact Hi. rewrite bind_news.
  cbn [w_conn w_stmts w_rows w_txs w_net].
  eapply with_defer_ok.
  - apply (stmt_exec_ok lf cls c _ rs ts (length ss) q ps db db' o); auto. apply nth_app_new.
  - apply (stmt_close_plain lf cls c _ rs ts _ (length ss) (One q) None); [apply nth_app_new|exact I].
Qed.
Lemma idle_exec_rej : forall lf cls c ss rs ts q ps n, idle c -> sendable (VRun q ps) = false ->
  exec_neo net lf cls q ps (Build_world c ss rs ts n) = (Ok (None, Some (ewrap FConn 628 (enew FEnc 0))), used c ss rs ts (new_stmt q) n).
Proof.
  intros lf cls c ss rs ts q ps n Hi Hs. unfold exec_neo. rewrite guard_idle by exact Hi. rewrite bind_news.
  cbn [w_conn w_stmts w_rows w_txs w_net]. eapply with_defer_ok.
  - apply (stmt_exec_rej lf cls c _ rs ts (length ss) q ps n); auto. apply nth_app_new.
  - apply (stmt_close_plain lf cls c _ rs ts _ (length ss) (One q) None); [apply nth_app_new|exact I].
Qed.
Lemma used_phase : forall c ss rs ts s db, idle c -> phase_rel (used c ss rs ts s (B db Ready [])) db PIdle.
Proof. intros c ss rs ts s db (H1 & H2). repeat split; auto. Qed.

(** a pipeline refused because of its arguments *)
Lemma stmt_exec_pipe_rej : forall lf cls c ss rs ts sid qs pss n, nth_error ss sid = Some (open_stmt (Many qs) None) ->
  (length pss <> length qs \/ length pss = length qs /\ none_sendable sendable (combine qs pss) = true) ->
  exists e, stmt_exec_pipeline net lf cls sid pss (Build_world c ss rs ts n) = (Ok (None, Some e), Build_world c ss rs ts n) /\ driver_error e.
Proof.
  intros lf cls c ss rs ts sid qs pss n E [H|(Hl & H)].
  - exists (enew FStmt 131). split; [|do 2 eexists; reflexivity]. unfold stmt_exec_pipeline. erewrite bind_gets by exact E. cbn [open_stmt s_closed s_rows s_queries queries].
    replace (negb (zlen pss =? zlen qs)) with true by (rewrite zlen_eqb; lia). reflexivity.
  - exists (ewrap FStmt 137 (ewrap FConn 628 (enew FEnc 0))). split; [|do 2 eexists; reflexivity]. unfold stmt_exec_pipeline. erewrite bind_gets by exact E. cbn [open_stmt s_closed s_rows s_queries queries].
    replace (negb (zlen pss =? zlen qs)) with false by (rewrite zlen_eqb; lia).
    destruct qs as [|q qs]; [discriminate|]. destruct pss as [|ps pss]; [discriminate|]. cbn in H. apply negb_true_iff in H.
    erewrite bind_need; [|exact E|reflexivity]. cbn [send_queries].
    erewrite bind_ok by (erewrite bind_ok by (apply send_run_pull_rej; auto); reflexivity). reflexivity.
Qed.
Lemma idle_pipe : forall lf cls c ss rs ts qs pss n x n1, idle c ->
  stmt_exec_pipeline net lf cls (length ss) pss (Build_world c (ss ++ [new_pipe_stmt qs]) rs ts n) = (Ok x, Build_world c (ss ++ [new_pipe_stmt qs]) rs ts n1) ->
  exec_pipeline net lf cls qs pss (Build_world c ss rs ts n) = (Ok x, used c ss rs ts (new_pipe_stmt qs) n1).
Proof.
  intros lf cls c ss rs ts qs pss n x n1 Hi H. unfold exec_pipeline. rewrite guard_idle by exact Hi. rewrite bind_news.
  cbn [w_conn w_stmts w_rows w_txs w_net]. eapply with_defer_ok; [exact H|].
  apply (stmt_close_plain lf cls c _ rs ts _ (length ss) (Many qs) None); [apply nth_app_new|exact I].
Qed.

(** Conn.QueryNeo *)
Definition with_stmt (c : conn) (i : nat) : conn := c_set_stmt (Some i) c.
Lemma close_cur : forall lf cls c ss rs ts n sid k, nth_error ss sid = Some (open_stmt k None) -> c_stmt c = Some sid ->
  close_cur_stmt net lf cls (Build_world c ss rs ts n) = (Ok tt, Build_world (c_set_stmt None c) (upd sid (s_set_closed (open_stmt k None)) ss) rs ts n).
Proof.
  intros lf cls c ss rs ts n sid k E H. unfold close_cur_stmt. rewrite bind_getc. cbn [w_conn]. rewrite H.
  erewrite bind_ok by (apply (stmt_close_plain lf cls c ss rs ts n sid k None); [exact E|exact I]). reflexivity.
Qed.
Lemma idle_query : forall lf cls c ss rs ts q ps db db' o, idle c -> exec db q ps = (db', o) -> (1 < lf)%nat -> sendable (VRun q ps) = true ->
  query_neo net lf cls q ps (Build_world c ss rs ts (B db Ready [])) =
  match o with
  | RunFails m => (Ok (None, Some (ewrap FConn 569 (EFailMsg m))), used (with_stmt c (length ss)) ss rs ts (new_stmt q) (B db' Ready []))
  | Runs h recs fin => (Ok (Some (length rs), None),
      Build_world (with_stmt c (length ss)) (upd (length ss) (open_stmt (One q) (Some (length rs))) (ss ++ [new_stmt q])) (rs ++ [new_query_rows (length ss) h]) ts
        (B db' (after_stream fin) (answers recs fin)))
  end.
Proof.
  intros lf cls c ss rs ts q ps db db' o Hi Ex Hl Hs. unfold query_neo. rewrite guard_idle by exact Hi. rewrite bind_news, bind_modc.
  cbn [w_conn w_stmts w_rows w_txs w_net]. unfold send_run_pull_all_consume_run.
  assert (E : forall ro, nth_error (ss ++ [new_stmt q]) (length ss) = Some (open_stmt (One q) None) /\ ro = ro :> option nat) by (split; [apply nth_app_new|reflexivity]).
  destruct (E None) as (E1 & _).
  destruct o as [m|h recs fin].
  - erewrite bind_ok; cycle 1.
    { erewrite bind_ok by (apply send_run_pull_ok; auto). cbv beta iota. rewrite (served_run_pull _ _ _ _ _ _ _ Ex).
      apply (consume_fail _ _ Hctl _ _ _ _ _ _ _ m 1); lia. }
    cbv beta iota. erewrite bind_ok by (apply (close_cur lf cls _ _ _ _ _ (length ss) (One q)); [exact E1|reflexivity]). reflexivity.
  - erewrite bind_ok; cycle 1.
    { erewrite bind_ok by (apply send_run_pull_ok; auto). cbv beta iota. rewrite (served_run_pull _ _ _ _ _ _ _ Ex).
      cbn [app reply1]. apply consume_msg; reflexivity. }
    cbv beta iota. rewrite bind_getc. cbn [w_conn c_set_stmt c_stmt]. rewrite bind_newr. erewrite bind_mods by exact E1.
    unfold ret. cbn [w_conn w_stmts w_rows w_txs w_net]. replace (end_state [Some (Runs h recs fin)]) with (after_stream fin) by (destruct fin; reflexivity).
    reflexivity.
Qed.
Lemma idle_query_rej : forall lf cls c ss rs ts q ps n, idle c -> sendable (VRun q ps) = false ->
  query_neo net lf cls q ps (Build_world c ss rs ts n) = (Ok (None, Some (ewrap FConn 628 (enew FEnc 0))), used (with_stmt c (length ss)) ss rs ts (new_stmt q) n).
Proof.
  intros lf cls c ss rs ts q ps n Hi Hs. unfold query_neo. rewrite guard_idle by exact Hi. rewrite bind_news, bind_modc.
  cbn [w_conn w_stmts w_rows w_txs w_net]. unfold send_run_pull_all_consume_run.
  erewrite bind_ok by (erewrite bind_ok by (apply send_run_pull_rej; auto); reflexivity). cbv beta iota.
  erewrite bind_ok by (apply (close_cur lf cls _ _ _ _ _ (length ss) (One q)); [apply nth_app_new|reflexivity]). reflexivity.
Qed.

(** rows.Close *)
Lemma rows_close_ok : forall lf cls c ss rs ts sid k rid row x st q db, nth_error ss sid = Some (open_stmt k (Some rid)) ->
  nth_error rs rid = Some row -> r_stmt row = sid -> r_closed row = false -> feeds row (queries k) x st q -> room_src lf x ->
  match drain x with
  | None => rows_close net lf cls rid (Build_world c ss rs ts (B db st q)) =
      (Ok None, if r_closeStmt row then Build_world (c_set_stmt None c) (upd sid (s_set_closed (open_stmt k None)) ss) (upd rid (r_set_closed row) rs) ts (B db Ready [])
                else Build_world c (upd sid (open_stmt k None) ss) (upd rid (r_set_closed row) rs) ts (B db Ready []))
  | Some m => exists e, rows_close net lf cls rid (Build_world c ss rs ts (B db st q)) = (Ok (Some e), Build_world c ss rs ts (B db Ready [])) /\ failure_error m e
  end.
Proof.
  intros lf cls c ss rs ts sid k rid row x st q db Es Er Hs Hc Hf Hr.
  pose proof (rows_close_body_ok lf cls c ss rs ts rid row sid _ x st q db Er Hs Es eq_refl Hf Hr) as H.
  destruct (drain x) as [m|].
  - destruct H as (e & H & He). exists e. split; auto. unfold rows_close. erewrite bind_getr by exact Er. rewrite Hc.
    erewrite bind_ok by exact H. reflexivity.
  - unfold rows_close. erewrite bind_getr by exact Er. rewrite Hc. erewrite bind_ok by exact H. cbv beta iota.
    change (s_set_rows None (open_stmt k (Some rid))) with (open_stmt k None).
    destruct (r_closeStmt row); [|reflexivity]. rewrite Hs.
    rewrite (stmt_close_plain lf cls c _ _ ts _ sid k None); [now rewrite upd_upd|eapply nth_upd_same; eauto|exact I].
Qed.

(** Stmt.QueryPipeline *)
Lemma query_pipe_ok : forall lf cls c ss rs ts sid qs pss db db' o rest, nth_error ss sid = Some (open_stmt (Many qs) None) ->
  length pss = length qs -> qs <> [] -> all_sendable sendable (combine qs pss) = true -> run_pipe exec db (combine qs pss) = (db', Some o :: rest) ->
  room lf (replies (Some o :: rest)) ->
  match o with
  | RunFails m => exists e, stmt_query_pipeline net lf cls sid pss (Build_world c ss rs ts (B db Ready [])) = (Ok (None, Some e), Build_world c ss rs ts (B db' Ready [])) /\ failure_error m e
  | Runs h recs fin =>
      exists st, stmt_query_pipeline net lf cls sid pss (Build_world c ss rs ts (B db Ready [])) =
        (Ok (Some (length rs), None), Build_world c (upd sid (open_stmt (Many qs) (Some (length rs))) ss) (rs ++ [new_pipeline_rows sid h 0]) ts (B db' st (answers recs fin ++ replies rest))) /\
      forall row, r_consumed row = true -> r_finished row = false -> r_pidx row = 0 -> feeds row qs (Pipe recs fin rest) st (answers recs fin ++ replies rest)
  end.
Proof.
  intros lf cls c ss rs ts sid qs pss db db' o rest E Hl Hq Hs Ex Hr.
  destruct (send_queries_ok exec _ Hctl c ss rs ts 225 qs pss db [] db' _ Hs Ex) as (H1 & H2 & H3). cbn [app] in H1.
  assert (Hz : negb (zlen pss =? zlen qs) = false) by (rewrite zlen_eqb; lia).
  destruct o as [m|h recs fin].
  - exists (ewrap FStmt 233 (ewrap FConn 569 (EFailMsg m))). split; [|reflexivity].
    inversion H2; subst; [discriminate|]. unfold stmt_query_pipeline. erewrite bind_gets by exact E. cbn [open_stmt s_closed s_rows s_queries queries]. rewrite Hz.
    erewrite bind_need; [|exact E|reflexivity]. erewrite bind_ok by exact H1. cbv beta iota.
    unfold room in Hr. cbn [replies flat_map] in Hr |- *. fold (replies (repeat None n)) in Hr |- *. rewrite replies_repeat in *.
    rewrite app_length, repeat_length in Hr. cbn [reply1 app].
    erewrite bind_ok by (apply (consume_fail _ _ Hctl _ _ _ _ _ _ _ m (S (2 * n))); cbn in Hr; lia). reflexivity.
  - exists (end_state (Some (Runs h recs fin) :: rest)). split.
    + unfold stmt_query_pipeline. erewrite bind_gets by exact E. cbn [open_stmt s_closed s_rows s_queries queries]. rewrite Hz.
      erewrite bind_need; [|exact E|reflexivity]. erewrite bind_ok by exact H1. cbv beta iota.
      cbn [replies flat_map reply1 app]. erewrite bind_ok by (apply consume_msg; reflexivity). cbv beta iota.
      rewrite bind_newr. erewrite bind_mods by exact E. reflexivity.
    + intros row Hc Hf Hp. replace (end_state (Some (Runs h recs fin) :: rest)) with (end_state (Some (Runs [] recs fin) :: rest)) by (destruct fin; reflexivity).
      apply feeds_pipe; auto; try lia.
      * rewrite combine_length in H3. unfold zlen. cbn in H3. lia.
      * inversion H2; subst; [constructor; auto|]. eapply ord_fail; eauto.
Qed.
Lemma query_pipe_rej : forall lf cls c ss rs ts sid qs pss n, nth_error ss sid = Some (open_stmt (Many qs) None) ->
  (length pss <> length qs \/ length pss = length qs /\ none_sendable sendable (combine qs pss) = true) ->
  exists e, stmt_query_pipeline net lf cls sid pss (Build_world c ss rs ts n) = (Ok (None, Some e), Build_world c ss rs ts n) /\ driver_error e.
Proof.
  intros lf cls c ss rs ts sid qs pss n E [H|(Hl & H)].
  - exists (enew FStmt 219). split; [|do 2 eexists; reflexivity]. unfold stmt_query_pipeline. erewrite bind_gets by exact E. cbn [open_stmt s_closed s_rows s_queries queries].
    replace (negb (zlen pss =? zlen qs)) with true by (rewrite zlen_eqb; lia). reflexivity.
  - exists (ewrap FStmt 225 (ewrap FConn 628 (enew FEnc 0))). split; [|do 2 eexists; reflexivity]. unfold stmt_query_pipeline. erewrite bind_gets by exact E. cbn [open_stmt s_closed s_rows s_queries queries].
    replace (negb (zlen pss =? zlen qs)) with false by (rewrite zlen_eqb; lia).
    destruct qs as [|q qs]; [discriminate|]. destruct pss as [|ps pss]; [discriminate|]. cbn in H. apply negb_true_iff in H.
    erewrite bind_need; [|exact E|reflexivity]. cbn [send_queries].
    erewrite bind_ok by (erewrite bind_ok by (apply send_run_pull_rej; auto); reflexivity). reflexivity.
Qed.

(** ** Every call *)
(** [Good w o a k]: the call [o] does in [w] what the machine says *)
Definition Good (w : W) (o : op) (a : sout) (k : nat -> sst DB) : Prop :=
  exists r w', does o w r w' /\ conforms a r /\ Rel w' (k (handle_of r)).

Lemma good : forall w st o a k f r w', Rel w st -> step net mk f o w = (Ok r, w') -> conforms a r ->
  c_tx (w_conn w') = None -> w_txs w' = w_txs w -> sp_tx (k (handle_of r)) = sp_tx st ->
  (forall i, In i (sp_ds (k (handle_of r))) -> In i (sp_ds st) \/ stmt_is true w' i) ->
  (forall i, In i (sp_dr (k (handle_of r))) -> In i (sp_dr st) \/ rows_closed w' i) ->
  sp_dt (k (handle_of r)) = sp_dt st -> phase_rel w' (sp_db (k (handle_of r))) (sp_phase (k (handle_of r))) -> Good w o a k.
Proof.
  intros w st o a k f r w' HR E Hc H1 H2 H3 H4 H5 H6 H7. exists r, w'. split; [exists f; exact E|]. split; [exact Hc|].
  eapply Rel_next; eauto. eapply does_mono. exists f. exact E.
Qed.
Lemma good_refused : forall w st o, Rel w st -> (exists r, does o w r w /\ refused r) -> Good w o ARefused (fun _ => st).
Proof. intros w st o HR (r & Hd & Hr). exists r, w. auto. Qed.

Lemma Rel_idle : forall w st, Rel w st -> sp_phase st = PIdle -> idle (w_conn w) /\ w_net w = B (sp_db st) Ready [] /\ c_tx (w_conn w) = None.
Proof. intros w st (H1 & _ & _ & _ & _ & _ & H) E. rewrite E in H. destruct H as (Ha & Hb & Hc). split; [split; auto|auto]. Qed.

Ltac stp := unfold step; cbn [step_body].
Ltac start_idle :=
  match goal with HR : Rel ?w ?st, Hp : sp_phase ?st = PIdle |- _ =>
    destruct (Rel_idle w st HR Hp) as (Hi & Hn & Ht); destruct w as [c ss rs ts n]; cbn [w_conn w_net] in *; subst n end.

Lemma prepare_ok : forall w st q, Rel w st -> sp_phase st = PIdle -> Good w (CPrepare q) AHandle (fun s => to (PStmt s (One q)) st).
Proof.
  intros w st q HR Hp. start_idle. eapply (good _ st _ _ _ O (OHandle (Some (length ss)) None)); [eassumption| | | | | | | | |];
    [stp; unfold prepare; erewrite bind_ok by (rewrite guard_idle by exact Hi; reflexivity); reflexivity|..]; cbn; eauto.
  destruct Hi. repeat split; auto. apply nth_app_new.
Qed.
Lemma prepare_pipe_ok : forall w st qs, Rel w st -> sp_phase st = PIdle -> Good w (CPreparePipeline qs) AHandle (fun s => to (PStmt s (Many qs)) st).
Proof.
  intros w st qs HR Hp. start_idle. eapply (good _ st _ _ _ O (OHandle (Some (length ss)) None)); [eassumption| | | | | | | | |];
    [stp; unfold prepare_pipeline; erewrite bind_ok by (rewrite guard_idle by exact Hi; reflexivity); reflexivity|..]; cbn; eauto.
  destruct Hi. repeat split; auto. apply nth_app_new.
Qed.

Lemma exec_ok : forall w st q ps a k, Rel w st -> sp_phase st = PIdle -> run_exec exec sendable q ps st = Some (a, k) -> Good w (CExec q ps) a k.
Proof.
  intros w st q ps a k HR Hp H. start_idle. unfold run_exec in H. destruct (sendable (VRun q ps)) eqn:Es.
  - destruct (exec (sp_db st) q ps) as [db' o] eqn:Ex.
    assert (Hd : step net mk (S (length (reply1 (Some o)))) (CExec q ps) (Build_world c ss rs ts (B (sp_db st) Ready [])) =
      (Ok (OResult (match fails o with Some _ => None | None => match o with Runs _ _ (Ends m) => Some m | _ => None end end) (match fails o with Some m => Some (ewrap FConn 569 (EFailMsg m)) | None => None end)), used c ss rs ts (new_stmt q) (B db' Ready []))).
    { stp. erewrite bind_ok by (apply idle_exec; eauto; unfold room; lia). destruct o as [m|h recs [m|m]]; reflexivity. }
    eapply good; [eassumption|exact Hd|..]; destruct o as [m|h recs [m|m]]; injection H as <- <-; cbn; auto; try reflexivity; rewrite Hp; apply (used_phase c ss rs ts); auto.
  - injection H as <- <-. eapply (good _ _ _ _ _ O); [eassumption|stp; erewrite bind_ok by (apply idle_exec_rej; auto); reflexivity|..]; cbn; auto.
    + do 2 eexists; reflexivity.
    + rewrite Hp. apply (used_phase c ss rs ts); auto.
Qed.

Lemma exec_pipe_ok : forall w st qs pss a k, Rel w st -> sp_phase st = PIdle -> run_exec_pipe exec sendable qs pss st = Some (a, k) -> Good w (CExecPipeline qs pss) a k.
Proof.
  intros w st qs pss a k HR Hp H. start_idle.
  assert (En : nth_error (ss ++ [new_pipe_stmt qs]) (length ss) = Some (open_stmt (Many qs) None)) by apply nth_app_new.
  assert (Hrej : (length pss <> length qs \/ length pss = length qs /\ none_sendable sendable (combine qs pss) = true) ->
    Good (Build_world c ss rs ts (B (sp_db st) Ready [])) (CExecPipeline qs pss) ARefused (fun _ => st)).
  { intros Hx. destruct (stmt_exec_pipe_rej 0 (close net 0) c _ rs ts _ qs pss (B (sp_db st) Ready []) En Hx) as (e & He & Hde).
    eapply (good _ _ _ _ _ O); [eassumption|stp; erewrite bind_ok by (apply idle_pipe; [exact Hi|exact He]); reflexivity|..]; cbn; auto.
    rewrite Hp. apply (used_phase c ss rs ts); auto. }
  unfold run_exec_pipe in H. destruct (length pss =? length qs)%nat eqn:El; cbn [negb] in H; [|injection H as <- <-; apply Hrej; left; lia].
  apply Nat.eqb_eq in El.
  destruct (all_sendable sendable (combine qs pss)) eqn:Es.
  - destruct (run_pipe exec (sp_db st) (combine qs pss)) as [db' os] eqn:Ex. set (f := S (length (replies os))).
    pose proof (stmt_exec_pipe_ok f (close net f) c _ rs ts (length ss) qs pss (sp_db st) db' os En El Es Ex (le_n _)) as Hx.
    destruct (first_failure os) as [m|] eqn:Ef; injection H as <- <-.
    + destruct Hx as (e & Hx & He).
      eapply (good _ _ _ _ _ f); [eassumption|stp; erewrite bind_ok by (apply idle_pipe; [exact Hi|exact Hx]); reflexivity|..]; cbn; auto.
      rewrite Hp. apply (used_phase c ss rs ts); auto.
    + eapply (good _ _ _ _ _ f); [eassumption|stp; erewrite bind_ok by (apply idle_pipe; [exact Hi|exact Hx]); reflexivity|..]; cbn; auto.
      rewrite Hp. apply (used_phase c ss rs ts); auto.
  - destruct (none_sendable sendable (combine qs pss)) eqn:En'; [|discriminate]. injection H as <- <-. apply Hrej; auto.
Qed.

Lemma query_ok : forall w st q ps a k, Rel w st -> sp_phase st = PIdle -> run_query exec sendable None q ps st = Some (a, k) -> Good w (CQuery q ps) a k.
Proof.
  intros w st q ps a k HR Hp H. start_idle. destruct Hi as (Hi1 & Hi2). unfold run_query in H. destruct (sendable (VRun q ps)) eqn:Es.
  - destruct (exec (sp_db st) q ps) as [db' o] eqn:Ex.
    pose proof (idle_query 2 (close net 2) c ss rs ts q ps (sp_db st) db' o (conj Hi1 Hi2) Ex (le_n _) Es) as Hq.
    destruct o as [m|h recs fin]; injection H as <- <-;
      (eapply (good _ _ _ _ _ 2%nat); [eassumption|stp; erewrite bind_ok by exact Hq; reflexivity|..]); cbn; auto; try reflexivity.
    + rewrite Hp. repeat split; auto.
    + eauto.
    + split; [exact Hi2|]. exists (length ss), (One q), (new_query_rows (length ss) h), (after_stream fin), (answers recs fin).
      repeat split; auto; try apply nth_app_new.
      * eapply nth_upd_same. apply nth_app_new.
      * apply feeds_single; reflexivity.
  - injection H as <- <-. eapply (good _ _ _ _ _ O); [eassumption|stp; erewrite bind_ok by (apply idle_query_rej; auto; split; auto); reflexivity|..]; cbn; auto.
    + do 2 eexists; reflexivity.
    + rewrite Hp. repeat split; auto.
Qed.

(** reading when no response is left *)
Lemma consume_empty : forall lf cls c ss rs ts db s, consume net lf cls (Build_world c ss rs ts (B db s [])) =
  (Ok (None, Some (ewrap FDec 45 EBadConn)), Build_world (c_set_err c) ss rs ts (B db s [])).
Proof. reflexivity. Qed.
Lemma rows_close_waits : forall lf cls c ss rs ts rid row sid s db st, nth_error rs rid = Some row -> r_stmt row = sid -> nth_error ss sid = Some s -> s_conn s = true ->
  r_consumed row = true -> r_finished row = false -> s_queries s = [] -> (0 < lf)%nat ->
  rows_close_body net lf cls rid (Build_world c ss rs ts (B db st [])) = (Ok (Some (ewrap FRows 159 (ewrap FDec 45 EBadConn))), Build_world (c_set_err c) ss rs ts (B db st [])).
Proof.
  intros lf cls c ss rs ts rid row sid s db st Er Hs Es Hc H1 H2 H3 Hl. unfold rows_close_body. erewrite bind_getr by exact Er. rewrite H1, H2. cbn [negb].
  destruct lf as [|lf]; [lia|].
  assert (E : consume_all_multiple net (S lf) cls 1 (Build_world c ss rs ts (B db st [])) = (Ok (Some (ewrap FDec 45 EBadConn)), Build_world (c_set_err c) ss rs ts (B db st []))).
  { reflexivity. }
  erewrite bind_ok by (rewrite Hs; erewrite bind_gets by exact Es; erewrite bind_need; [|exact Es|exact Hc]; rewrite H3; cbn [zlen length Z.of_nat Z.eqb]; erewrite bind_ok by exact E; reflexivity).
  reflexivity.
Qed.

Lemma query_all_ok : forall w st q ps a k, Rel w st -> sp_phase st = PIdle -> conn_op exec sendable pooled (CQueryAll q ps) st = Some (a, k) -> Good w (CQueryAll q ps) a k.
Proof.
  intros w st q ps a k HR Hp H. start_idle. destruct Hi as (Hi1 & Hi2). unfold conn_op in H. rewrite Hp in H. destruct (sendable (VRun q ps)) eqn:Es.
  - destruct (exec (sp_db st) q ps) as [db' o] eqn:Ex. set (f := match o with RunFails _ => 2%nat | Runs _ recs _ => (2 + length recs)%nat end).
    assert (Hf : (1 < f)%nat) by (subst f; destruct o; lia).
    pose proof (idle_query f (close net f) c ss rs ts q ps (sp_db st) db' o (conj Hi1 Hi2) Ex Hf Es) as Hq.
    destruct o as [m|h recs fin].
    + injection H as <- <-.
      eapply (good _ _ _ _ _ f); [eassumption|stp; unfold query_neo_all; erewrite bind_ok by (erewrite bind_ok by exact Hq; reflexivity); reflexivity|..]; cbn; auto; try reflexivity.
      rewrite Hp. repeat split; auto.
    + set (row := new_query_rows (length ss) h).
      set (ss1 := upd (length ss) (open_stmt (One q) (Some (length rs))) (ss ++ [new_stmt q])).
      assert (E1 : nth_error (rs ++ [row]) (length rs) = Some row) by apply nth_app_new.
      assert (E2 : nth_error ss1 (length ss) = Some (open_stmt (One q) (Some (length rs)))) by (eapply nth_upd_same; apply nth_app_new).
      assert (Hfd : feeds row [] (Single recs fin) (after_stream fin) (answers recs fin)) by (apply feeds_single; reflexivity).
      assert (Hl : (length recs < f)%nat) by (subst f; lia).
      pose proof (all_single f (close net f) (with_stmt c (length ss)) ss1 ts (length rs) (length ss) _ recs fin db' f _ row _ _ [] E1 eq_refl eq_refl E2 eq_refl Hfd Hf Hl) as Ha.
      cbn [app] in Ha.
      destruct fin as [m|m]; injection H as <- <-.
      * set (row2 := r_set_finished (r_set_consumed row)) in *.
        assert (E3 : nth_error (upd (length rs) row2 (rs ++ [row])) (length rs) = Some row2) by (eapply nth_upd_same; eauto).
        pose proof (rows_close_ok f (close net f) (with_stmt c (length ss)) ss1 _ ts (length ss) (One q) (length rs) row2 Done Ready [] db' E2 E3 eq_refl eq_refl (feeds_done row2 [] eq_refl eq_refl) I) as Hc.
        cbn [drain] in Hc. cbv beta iota delta [row2 row new_query_rows r_set_finished r_set_consumed r_closeStmt] in Hc. 
        eapply (good _ _ _ _ _ f); [eassumption| |..].
        { stp. unfold query_neo_all. erewrite bind_ok; [|erewrite bind_ok by exact Hq; cbv beta iota; eapply with_defer_ok; [erewrite bind_ok by exact Ha; cbv beta iota; erewrite bind_getr by exact E3; reflexivity|exact Hc]].
          reflexivity. }
        all: cbn; auto. rewrite Hp. repeat split; auto.
      * set (row2 := r_set_consumed row) in *.
        assert (E3 : nth_error (upd (length rs) row2 (rs ++ [row])) (length rs) = Some row2) by (eapply nth_upd_same; eauto).
        assert (Hc : exists e, rows_close net f (close net f) (length rs) (Build_world (with_stmt c (length ss)) ss1 (upd (length rs) row2 (rs ++ [row])) ts (B db' Ready [])) =
          (Ok (Some e), Build_world (c_set_err (with_stmt c (length ss))) ss1 (upd (length rs) row2 (rs ++ [row])) ts (B db' Ready []))).
        { eexists. unfold rows_close. erewrite bind_getr by exact E3. cbn [r_closed row2 r_set_consumed row new_query_rows].
          erewrite bind_ok by (eapply rows_close_waits; [exact E3|reflexivity|exact E2|reflexivity|reflexivity|reflexivity|reflexivity|lia]). reflexivity. }
        destruct Hc as (e & Hc).
        eapply (good _ _ _ _ _ f); [eassumption| |..].
        { stp. unfold query_neo_all. erewrite bind_ok; [|erewrite bind_ok by exact Hq; cbv beta iota; eapply with_defer_ok; [erewrite bind_ok by exact Ha; cbv beta iota; erewrite bind_getr by exact E3; reflexivity|exact Hc]].
          reflexivity. }
        all: cbn; auto.
        -- eexists. split; reflexivity.
        -- split; [exact Hi2|]. split; [reflexivity|]. exists (length ss). split; [reflexivity|]. intros _. exists (One q), (Some (length rs)). split; [exact E2|]. split; [|reflexivity].
           exists row2. split; [exact E3|reflexivity].
  - injection H as <- <-. eapply (good _ _ _ _ _ O); [eassumption|stp; unfold query_neo_all; erewrite bind_ok by (erewrite bind_ok by (apply idle_query_rej; auto; split; auto); reflexivity); reflexivity|..]; cbn; auto.
    + do 2 eexists; reflexivity.
    + rewrite Hp. repeat split; auto.
Qed.

Lemma query_pipe_conn : forall lf cls c ss rs ts qs pss n, idle c ->
  query_pipeline net lf cls qs pss (Build_world c ss rs ts n) =
  ('(r, e) <- stmt_query_pipeline net lf cls (length ss) pss ;;
   match e with Some e => ret (None, Some e) | None => match r with Some rid => modr rid r_set_closeStmt ;; ret (Some rid, None) | None => panic end end)
  (Build_world (with_stmt c (length ss)) (ss ++ [new_pipe_stmt qs]) rs ts n).
Proof. intros. unfold query_pipeline. rewrite guard_idle by assumption. rewrite bind_news, bind_modc. reflexivity. Qed.

Lemma run_pipe_shape : forall l db db' os, run_pipe exec db l = (db', os) -> l <> [] -> exists o rest, os = Some o :: rest.
Proof.
  intros [|[q ps] l] db db' os H Hl; [contradiction|]. cbn in H. destruct (exec db q ps) as [db1 o]. destruct (fails o).
  - injection H as <- <-. eauto.
  - destruct (run_pipe exec db1 l). injection H as <- <-. eauto.
Qed.
Lemma conn_query_pipe_ok : forall w st qs pss a k, Rel w st -> sp_phase st = PIdle -> run_query_pipe exec sendable None (PLost true) qs pss st = Some (a, k) -> Good w (CQueryPipeline qs pss) a k.
Proof.
  intros w st qs pss a k HR Hp H. start_idle. destruct Hi as (Hi1 & Hi2).
  assert (En : nth_error (ss ++ [new_pipe_stmt qs]) (length ss) = Some (open_stmt (Many qs) None)) by apply nth_app_new.
  assert (Hlost : forall db', phase_rel (Build_world (with_stmt c (length ss)) (ss ++ [new_pipe_stmt qs]) rs ts (B db' Ready [])) db' (PLost true)).
  { intros db'. split; [exact Hi2|]. split; [reflexivity|]. exists (length ss). split; [reflexivity|]. intros _. exists (Many qs), None. split; [exact En|]. split; [exact I|reflexivity]. }
  assert (Hrej : (length pss <> length qs \/ length pss = length qs /\ none_sendable sendable (combine qs pss) = true) ->
    Good (Build_world c ss rs ts (B (sp_db st) Ready [])) (CQueryPipeline qs pss) ARefused (fun _ => to (PLost true) st)).
  { intros Hx. destruct (query_pipe_rej 0 (close net 0) (with_stmt c (length ss)) _ rs ts _ qs pss (B (sp_db st) Ready []) En Hx) as (e & He & Hde).
    eapply (good _ _ _ _ _ O); [eassumption|stp; erewrite bind_ok by (rewrite query_pipe_conn by (split; auto); erewrite bind_ok by exact He; reflexivity); reflexivity|..]; cbn; auto.
    apply Hlost. }
  unfold run_query_pipe in H. destruct (length pss =? length qs)%nat eqn:El; cbn [negb] in H; [|injection H as <- <-; apply Hrej; left; lia].
  apply Nat.eqb_eq in El.
  destruct (combine qs pss) as [|x l] eqn:Ec; [discriminate|]. rewrite <- Ec in *.
  assert (Hq : qs <> []) by (destruct qs; [discriminate|congruence]).
  destruct (all_sendable sendable (combine qs pss)) eqn:Es.
  - destruct (run_pipe exec (sp_db st) (combine qs pss)) as [db' os] eqn:Ex. 
    destruct (run_pipe_shape _ _ _ _ Ex) as (o & rest & ->); [congruence|]. set (f := S (length (replies (Some o :: rest)))).
    pose proof (query_pipe_ok f (close net f) (with_stmt c (length ss)) _ rs ts (length ss) qs pss (sp_db st) db' o rest En El Hq Es Ex (le_n _)) as Hx.
    destruct o as [m|h recs fin]; injection H as <- <-.
    + destruct Hx as (e & Hx & He).
      eapply (good _ _ _ _ _ f); [eassumption|stp; erewrite bind_ok by (rewrite query_pipe_conn by (split; auto); erewrite bind_ok by exact Hx; reflexivity); reflexivity|..]; cbn; auto.
      apply Hlost.
    + destruct Hx as (s' & Hx & Hf). set (row := new_pipeline_rows (length ss) h 0) in *.
      assert (E1 : nth_error (rs ++ [row]) (length rs) = Some row) by apply nth_app_new.
      eapply (good _ _ _ _ _ f); [eassumption|stp; erewrite bind_ok by (rewrite query_pipe_conn by (split; auto); erewrite bind_ok by exact Hx; cbv beta iota; erewrite bind_modr by exact E1; reflexivity); reflexivity|..]; cbn; eauto.
      split; [exact Hi2|]. exists (length ss), (Many qs), (r_set_closeStmt row), s', (answers recs fin ++ replies rest).
      split; [reflexivity|]. split; [eapply nth_upd_same; eauto|]. split; [eapply nth_upd_same; eauto|].
      repeat (split; [reflexivity|]). split; [apply Hf; reflexivity|reflexivity].
  - destruct (none_sendable sendable (combine qs pss)) eqn:En'; [|discriminate]. injection H as <- <-. apply Hrej; auto.
Qed.

(** BEGIN *)
Lemma begin_ok : forall w st a k, Rel w st -> sp_phase st = PIdle -> conn_op exec sendable pooled CBegin st = Some (a, k) -> Good w CBegin a k.
Proof.
  intros w st a k HR Hp H. start_idle. unfold conn_op in H. rewrite Hp in H.
  assert (H0 : control exec s_begin st (fun st' => match sp_tx st with None => Some (AHandle, fun t => with_tx (Some t) st') | Some _ => None end) = Some (a, k)) by (destruct (sp_tx st); exact H).
  clear H. rename H0 into H. unfold control in H. destruct (exec (sp_db st) s_begin []) as [db' o] eqn:Ex.
  assert (Hb : sendable (VRun s_begin []) = true) by apply Hctl.
  assert (Hn : match o with Runs _ (_ :: _) _ => False | _ => True end) by (destruct o as [|h [|? ?] [|]]; auto; discriminate).
  pose proof (run_single 2 (close net 2) c ss rs ts s_begin (sp_db st) db' o Hb Ex (le_n _) Hn) as Hr.
  assert (Hs : forall r w', (begin_tx net 2 (close net 2)) (Build_world c ss rs ts (B (sp_db st) Ready [])) = (Ok r, w') ->
     step net mk 2 CBegin (Build_world c ss rs ts (B (sp_db st) Ready [])) = (Ok (OHandle (fst r) (snd r)), w')).
  { intros [h e] w' E. stp. erewrite bind_ok by exact E. reflexivity. }
  assert (Hbg : (begin_tx net 2 (close net 2)) (Build_world c ss rs ts (B (sp_db st) Ready [])) =
    match o with
    | Runs _ _ (Ends _) => (Ok (Some (length ts), None), Build_world c ss rs (ts ++ [{| t_closed := false |}]) (B db' Ready []))
    | RunFails m | Runs _ _ (Breaks m) => (Ok (None, Some (ewrap FConn 521 (ewrap FConn 569 (EFailMsg m)))), Build_world c ss rs ts (B db' Ready []))
    end).
  { unfold begin_tx. rewrite bind_getc. cbn [w_conn]. rewrite Ht, guard_idle by exact Hi. erewrite bind_ok by exact Hr. destruct o as [m|h recs [m|m]]; reflexivity. }
  destruct Hi as (Hi1 & Hi2). assert (HR' := HR). destruct HR' as (R1 & R2 & R3 & R4 & R5 & R6 & R7).
  destruct o as [m|h [|? ?] [m|m]]; try contradiction; try (injection H as <- <-).
  - eapply good; [eassumption|apply Hs; exact Hbg|..]; cbn; auto. { reflexivity. } rewrite Hp. repeat split; auto.
  - destruct (sp_tx st); [discriminate|]. injection H as <- <-. eexists. eexists. split; [exists 2%nat; apply Hs; exact Hbg|]. split; [eexists; reflexivity|]. cbn [handle_of fst].
    assert (Hm : mono (Build_world c ss rs ts (B (sp_db st) Ready [])) (Build_world c ss rs (ts ++ [{| t_closed := false |}]) (B db' Ready []))).
    { eapply does_mono. exists 2%nat. apply Hs; exact Hbg. }
    split; [exact R1|]. split; [exact R2|]. split; [intros i Hi; eauto using mono_stmt|]. split; [intros i Hi; eauto using mono_rows|]. split; [intros i Hi; eauto using mono_txs|].
    split; [|cbn; rewrite Hp; repeat split; auto]. intros t Et. cbn in Et. injection Et as <-. apply nth_app_new.
  - eapply good; [eassumption|apply Hs; exact Hbg|..]; cbn; auto. { reflexivity. } rewrite Hp. repeat split; auto.
Qed.

Lemma conn_op_ok : forall w st o a k, Rel w st -> conn_work o = true -> args_ok mk o -> conn_op exec sendable pooled o st = Some (a, k) -> Good w o a k.
Proof.
  intros w st o a k HR Ho Ha H.
  assert (Href : (c_stmt (w_conn w) <> None \/ c_closed (w_conn w) = true) -> Good w o ARefused (fun _ => st)).
  { intros H1. apply good_refused; auto. apply conn_refused; auto. apply HR. }
  assert (HR' := HR). destruct HR' as (R1 & R2 & R3 & R4 & R5 & R6 & R7).
  assert (Hop := H). destruct (sp_phase st) as [|s kk|ow r h x|b|] eqn:Hp; unfold conn_op in H; rewrite Hp in H.
  - destruct o; try discriminate.
    + injection H as <- <-. apply prepare_ok; auto.
    + injection H as <- <-. apply prepare_pipe_ok; auto.
    + eapply begin_ok; eauto.
    + eapply exec_ok; eauto.
    + eapply exec_pipe_ok; eauto.
    + eapply query_ok; eauto.
    + eapply query_all_ok; eauto.
    + eapply conn_query_pipe_ok; eauto.
  - injection H as <- <-. apply Href. left. destruct R7 as (_ & R7 & _). congruence.
  - injection H as <- <-. apply Href. left. destruct R7 as (_ & s & kk & row & s' & q' & R7 & _). congruence.
  - injection H as <- <-. apply Href. left. destruct R7 as (_ & _ & s & R7 & _). congruence.
  - destruct pooled eqn:Epl; [discriminate|]. injection H as <- <-. apply Href. right. apply R7. exact Epl.
Qed.

(** ** Calls on a statement *)
Lemma stmt_query_ok : forall lf cls c ss rs ts sid q ps db db' o, nth_error ss sid = Some (open_stmt (One q) None) ->
  sendable (VRun q ps) = true -> exec db q ps = (db', o) -> (1 < lf)%nat ->
  stmt_query net lf cls sid ps (Build_world c ss rs ts (B db Ready [])) =
  match o with
  | RunFails m => (Ok (None, Some (ewrap FConn 569 (EFailMsg m))), Build_world c ss rs ts (B db' Ready []))
  | Runs h recs fin => (Ok (Some (length rs), None),
      Build_world c (upd sid (open_stmt (One q) (Some (length rs))) ss) (rs ++ [new_rows sid h]) ts (B db' (Streaming recs fin) []))
  end.
Proof.
  intros lf cls c ss rs ts sid q ps db db' o E Hs Ex Hl. unfold stmt_query. erewrite bind_gets by exact E. cbn [open_stmt s_closed s_rows query s_query].
  erewrite bind_need; [|exact E|reflexivity]. unfold send_run_consume.
  assert (Hv : served exec (B db Ready []) (VRun q ps) = match o with RunFails m => B db' Failed [VFailure m] | Runs h recs fin => B db' (Streaming recs fin) [VSuccess h] end).
  { unfold served. cbn [serve b_db b_st b_q]. rewrite Ex. destruct o; reflexivity. }
  destruct o as [m|h recs fin].
  - erewrite bind_ok by (erewrite bind_ok by (apply send_run_ok; auto); cbv beta iota; rewrite Hv; apply (consume_fail _ _ Hctl _ _ _ _ _ _ _ m 0); lia). reflexivity.
  - erewrite bind_ok by (erewrite bind_ok by (apply send_run_ok; auto); cbv beta iota; rewrite Hv; apply consume_msg; reflexivity). cbv beta iota.
    rewrite bind_newr. erewrite bind_mods by exact E. reflexivity.
Qed.
Lemma stmt_query_rej : forall lf cls c ss rs ts sid q ps n, nth_error ss sid = Some (open_stmt (One q) None) -> sendable (VRun q ps) = false ->
  stmt_query net lf cls sid ps (Build_world c ss rs ts n) = (Ok (None, Some (ewrap FConn 628 (enew FEnc 0))), Build_world c ss rs ts n).
Proof.
  intros lf cls c ss rs ts sid q ps n E Hs. unfold stmt_query. erewrite bind_gets by exact E. cbn [open_stmt s_closed s_rows query s_query].
  erewrite bind_need; [|exact E|reflexivity]. unfold send_run_consume. erewrite bind_ok by (erewrite bind_ok by (apply send_run_rej; auto); reflexivity). reflexivity.
Qed.

Ltac start_stmt :=
  match goal with HR : Rel ?w ?st, Hp : sp_phase ?st = PStmt ?s ?k |- _ =>
    let R := fresh "R" in
    assert (R := HR); destruct R as (Ht & _ & _ & _ & _ & _ & R); rewrite Hp in R; destruct R as (Hcl & Hcs & Es & Hn);
    destruct w as [c ss rs ts n]; cbn [w_conn w_net w_stmts] in *; subst n end.

Lemma s_exec_ok : forall w st s q ps a k, Rel w st -> sp_phase st = PStmt s (One q) -> run_exec exec sendable q ps st = Some (a, k) -> Good w (SExec s ps) a k.
Proof.
  intros w st s q ps a k HR Hp H. start_stmt. unfold run_exec in H. destruct (sendable (VRun q ps)) eqn:Esd.
  - destruct (exec (sp_db st) q ps) as [db' o] eqn:Ex. set (f := S (length (reply1 (Some o)))).
    pose proof (stmt_exec_ok f (close net f) c ss rs ts s q ps (sp_db st) db' o Es Esd Ex (le_n _)) as Hx.
    destruct o as [m|h recs [m|m]]; cbn [fails] in Hx; injection H as <- <-;
      (eapply (good _ _ _ _ _ f); [eassumption|stp; erewrite bind_ok by exact Hx; reflexivity|..]); cbn; auto; try reflexivity; rewrite Hp; cbn; auto.
  - injection H as <- <-. eapply (good _ _ _ _ _ O); [eassumption|stp; erewrite bind_ok by (apply stmt_exec_rej with (q := q); auto); reflexivity|..]; cbn; auto.
    + do 2 eexists; reflexivity.
    + rewrite Hp. cbn. auto.
Qed.
Lemma s_exec_pipe_ok : forall w st s qs pss a k, Rel w st -> sp_phase st = PStmt s (Many qs) -> run_exec_pipe exec sendable qs pss st = Some (a, k) -> Good w (SExecPipeline s pss) a k.
Proof.
  intros w st s qs pss a k HR Hp H. start_stmt.
  assert (Hrej : (length pss <> length qs \/ length pss = length qs /\ none_sendable sendable (combine qs pss) = true) ->
    Good (Build_world c ss rs ts (B (sp_db st) Ready [])) (SExecPipeline s pss) ARefused (fun _ => st)).
  { intros Hx. destruct (stmt_exec_pipe_rej 0 (close net 0) c _ rs ts _ qs pss (B (sp_db st) Ready []) Es Hx) as (e & He & Hde).
    eapply (good _ _ _ _ _ O); [eassumption|stp; erewrite bind_ok by exact He; reflexivity|..]; cbn; auto. rewrite Hp. cbn. auto. }
  unfold run_exec_pipe in H. destruct (length pss =? length qs)%nat eqn:El; cbn [negb] in H; [|injection H as <- <-; apply Hrej; left; lia].
  apply Nat.eqb_eq in El.
  destruct (all_sendable sendable (combine qs pss)) eqn:Esd.
  - destruct (run_pipe exec (sp_db st) (combine qs pss)) as [db' os] eqn:Ex. set (f := S (length (replies os))).
    pose proof (stmt_exec_pipe_ok f (close net f) c _ rs ts s qs pss (sp_db st) db' os Es El Esd Ex (le_n _)) as Hx.
    destruct (first_failure os) as [m|] eqn:Ef; injection H as <- <-.
    + destruct Hx as (e & Hx & He).
      eapply (good _ _ _ _ _ f); [eassumption|stp; erewrite bind_ok by exact Hx; reflexivity|..]; cbn; auto. rewrite Hp. cbn. auto.
    + eapply (good _ _ _ _ _ f); [eassumption|stp; erewrite bind_ok by exact Hx; reflexivity|..]; cbn; auto. rewrite Hp. cbn. auto.
  - destruct (none_sendable sendable (combine qs pss)) eqn:En'; [|discriminate]. injection H as <- <-. apply Hrej; auto.
Qed.
Lemma s_query_ok : forall w st s q ps a k, Rel w st -> sp_phase st = PStmt s (One q) -> run_query exec sendable (Some (s, One q)) q ps st = Some (a, k) -> Good w (SQuery s ps) a k.
Proof.
  intros w st s q ps a k HR Hp H. start_stmt. unfold run_query in H. destruct (sendable (VRun q ps)) eqn:Esd.
  - destruct (exec (sp_db st) q ps) as [db' o] eqn:Ex.
    pose proof (stmt_query_ok 2 (close net 2) c ss rs ts s q ps (sp_db st) db' o Es Esd Ex (le_n _)) as Hx.
    destruct o as [m|h recs fin]; injection H as <- <-;
      (eapply (good _ _ _ _ _ 2%nat); [eassumption|stp; erewrite bind_ok by exact Hx; reflexivity|..]); cbn; eauto; try reflexivity.
    + rewrite Hp; cbn; auto.
    + split; [exact Hcl|]. exists s, (One q), (new_rows s h), (Streaming recs fin), [].
      split; [exact Hcs|]. split; [eapply nth_upd_same; eauto|]. split; [apply nth_app_new|].
      repeat (split; [reflexivity|]). split; [split; reflexivity|]. split; [apply feeds_unread; reflexivity|reflexivity].
  - injection H as <- <-. eapply (good _ _ _ _ _ O); [eassumption|stp; erewrite bind_ok by (apply stmt_query_rej with (q := q); auto); reflexivity|..]; cbn; auto.
    + do 2 eexists; reflexivity.
    + rewrite Hp. cbn. auto.
Qed.
Lemma s_query_pipe_ok : forall w st s qs pss a k, Rel w st -> sp_phase st = PStmt s (Many qs) ->
  run_query_pipe exec sendable (Some (s, Many qs)) (PStmt s (Many qs)) qs pss st = Some (a, k) -> Good w (SQueryPipeline s pss) a k.
Proof.
  intros w st s qs pss a k HR Hp H. start_stmt.
  assert (Hrej : (length pss <> length qs \/ length pss = length qs /\ none_sendable sendable (combine qs pss) = true) ->
    Good (Build_world c ss rs ts (B (sp_db st) Ready [])) (SQueryPipeline s pss) ARefused (fun _ => to (PStmt s (Many qs)) st)).
  { intros Hx. destruct (query_pipe_rej 0 (close net 0) c _ rs ts _ qs pss (B (sp_db st) Ready []) Es Hx) as (e & He & Hde).
    eapply (good _ _ _ _ _ O); [eassumption|stp; erewrite bind_ok by exact He; reflexivity|..]; cbn; auto. }
  unfold run_query_pipe in H. destruct (length pss =? length qs)%nat eqn:El; cbn [negb] in H; [|injection H as <- <-; apply Hrej; left; lia].
  apply Nat.eqb_eq in El.
  destruct (combine qs pss) as [|x l] eqn:Ec; [discriminate|]. rewrite <- Ec in *.
  assert (Hq : qs <> []) by (destruct qs; [discriminate|congruence]).
  destruct (all_sendable sendable (combine qs pss)) eqn:Esd.
  - destruct (run_pipe exec (sp_db st) (combine qs pss)) as [db' os] eqn:Ex. 
    destruct (run_pipe_shape _ _ _ _ Ex) as (o & rest & ->); [congruence|]. set (f := S (length (replies (Some o :: rest)))).
    pose proof (query_pipe_ok f (close net f) c _ rs ts s qs pss (sp_db st) db' o rest Es El Hq Esd Ex (le_n _)) as Hx.
    destruct o as [m|h recs fin]; injection H as <- <-.
    + destruct Hx as (e & Hx & He).
      eapply (good _ _ _ _ _ f); [eassumption|stp; erewrite bind_ok by exact Hx; reflexivity|..]; cbn; auto.
    + destruct Hx as (s' & Hx & Hf). set (row := new_pipeline_rows s h 0) in *.
      eapply (good _ _ _ _ _ f); [eassumption|stp; erewrite bind_ok by exact Hx; reflexivity|..]; cbn; eauto.
      split; [exact Hcl|]. exists s, (Many qs), row, s', (answers recs fin ++ replies rest).
      split; [exact Hcs|]. split; [eapply nth_upd_same; eauto|]. split; [apply nth_app_new|].
      repeat (split; [reflexivity|]). split; [split; reflexivity|]. split; [apply Hf; reflexivity|reflexivity].
  - destruct (none_sendable sendable (combine qs pss)) eqn:En'; [|discriminate]. injection H as <- <-. apply Hrej; auto.
Qed.

(** closing whatever is open *)
Definition close_stmt_of (lf : nat) (cls : M (N := bnet DB) (option gerr)) : M (N := bnet DB) (option gerr) :=
  c <- getc ;; match c_stmt c with None => ret None | Some sid => stmt_close net lf cls sid end.
Definition src_fuel (x : source) : nat :=
  match x with Single recs fin => S (length (answers recs fin)) | Pipe recs fin rest => S (length (answers recs fin ++ replies rest)) | Done => O end.
Lemma room_src_fuel : forall lf x, (src_fuel x <= lf)%nat -> room_src lf x.
Proof. intros lf [recs fin|recs fin rest|] H; cbn in *; unfold room; auto. Qed.
Definition phase_fuel (ph : phase) : nat := match ph with PRows _ _ _ x => src_fuel x | _ => O end.

Lemma close_first : forall w st k0 a k, Rel w st -> close_open st k0 = Some (a, k) ->
  forall lf cls, Pres mono cls -> (phase_fuel (sp_phase st) <= lf)%nat ->
  exists e w', close_stmt_of lf cls w = (Ok e, w') /\ w_txs w' = w_txs w /\ c_closed (w_conn w') = false /\ mono w w' /\
    (match sp_phase st with PStmt s _ | PRows (Some (s, _)) _ _ _ => c_stmt (w_conn w) = Some s | _ => True end) /\
    match e with
    | Some e => exists m, a = AFailed m /\ failure_error m e /\ k = (fun _ => to (PLost false) st) /\ Rel w' (to (PLost false) st)
    | None => exists st', k0 st' = Some (a, k) /\ Rel w' st' /\ sp_phase st' = PIdle /\ sp_tx st' = sp_tx st /\ sp_dt st' = sp_dt st
    end.
Proof.
  intros w st k0 a k HR H lf cls Hm Hf.
  assert (Hmono : Pres mono (close_stmt_of lf cls)).
  { unfold close_stmt_of. intros w0. rewrite bind_getc. destruct (c_stmt (w_conn w0)); [now apply mono_stmt_close|apply mono_refl]. }
  specialize (Hmono w).
  assert (R := HR). destruct R as (Ht & Hpl & _ & _ & _ & _ & R). destruct w as [c ss rs ts n].
  unfold close_stmt_of in *. rewrite bind_getc in *. cbn [w_conn w_stmts w_rows w_txs w_net] in *.
  unfold close_open in H. destruct (sp_phase st) as [|s kk|ow r h x|b|] eqn:Hp.
  - destruct R as (R1 & R2 & R3). cbn [w_conn w_stmts w_rows w_txs w_net] in *. rewrite R2 in *. exists None. eexists. split; [reflexivity|]. split; [reflexivity|]. split; [exact R1|]. split; [apply mono_refl|]. split; [exact I|].
    exists st. auto.
  - destruct R as (R1 & R2 & R3 & R4). cbn [w_conn w_stmts w_rows w_txs w_net] in *. subst n. rewrite R2 in *.
    pose proof (stmt_close_plain lf cls c ss rs ts (B (sp_db st) Ready []) s kk None R3 I) as Hx. rewrite Hx in Hmono. cbn [snd] in Hmono.
    exists None. eexists. split; [exact Hx|]. split; [reflexivity|]. split; [exact R1|]. split; [exact Hmono|]. split; [reflexivity|].
    eexists. split; [exact H|]. split; [|auto].
    eapply Rel_next; [exact HR|exact Hmono|exact Ht|reflexivity|reflexivity| | |reflexivity|]; cbn; auto.
    intros i [<-|Hi]; auto. right. eexists. split; [eapply nth_upd_same; eauto|reflexivity].
  - destruct ow as [[s kk]|]; [|discriminate]. destruct R as (R1 & s' & kk' & row & s0 & q & R2 & R3 & R4 & R5 & R6 & R7 & (R8 & R9) & R10 & R11).
    cbn [w_conn w_stmts w_rows w_txs w_net] in *. injection R8 as <- <-. subst n. rewrite R2 in *.
    pose proof (stmt_close_rows lf cls c ss rs ts s kk r row x s0 q (sp_db st) R3 R4 R5 R9 R6 R10 (room_src_fuel _ _ Hf)) as Hx.
    destruct (drain x) as [m|].
    + destruct Hx as (e & Hx & He). injection H as <- <-. rewrite Hx in Hmono. cbn [snd] in Hmono. exists (Some e). eexists. split; [exact Hx|]. split; [reflexivity|]. split; [exact R1|]. split; [exact Hmono|]. split; [reflexivity|].
      exists m. split; [reflexivity|]. split; [exact He|]. split; [reflexivity|].
      eapply Rel_next; [exact HR|exact Hmono|exact Ht|reflexivity|reflexivity| | |reflexivity|]; cbn; auto.
      split; [exact R1|]. split; [reflexivity|]. exists s. split; [exact R2|discriminate].
    + rewrite Hx in Hmono. cbn [snd] in Hmono. exists None. eexists. split; [exact Hx|]. split; [reflexivity|]. split; [exact R1|]. split; [exact Hmono|]. split; [reflexivity|].
      eexists. split; [exact H|]. split; [|auto].
      eapply Rel_next; [exact HR|exact Hmono|exact Ht|reflexivity|reflexivity| | |reflexivity|]; cbn; auto.
      * intros i [<-|Hi]; auto. right. eexists. split; [eapply nth_upd_same; eauto|reflexivity].
      * intros i [<-|Hi]; auto. right. eexists. split; [eapply nth_upd_same; eauto|reflexivity].
  - destruct b; [|discriminate]. destruct R as (R1 & _ & s & R2 & R3). destruct (R3 eq_refl) as (kk & ro & R4 & R5 & R6). cbn [w_conn w_stmts w_rows w_txs w_net] in *. subst n. rewrite R2 in *.
    assert (Hro : match ro with None => True | Some r => exists row, nth_error rs r = Some row /\ (r_closeStmt row = true \/ r_closed row = true) end).
    { destruct ro; auto. destruct R5 as (row & ? & ?). eauto. }
    pose proof (stmt_close_plain lf cls c ss rs ts (B (sp_db st) Ready []) s kk ro R4 Hro) as Hx. rewrite Hx in Hmono. cbn [snd] in Hmono.
    exists None. eexists. split; [exact Hx|]. split; [reflexivity|]. split; [exact R1|]. split; [exact Hmono|]. split; [exact I|].
    eexists. split; [exact H|]. split; [|auto].
    eapply Rel_next; [exact HR|exact Hmono|exact Ht|reflexivity|reflexivity| | |reflexivity|]; cbn; auto.
  - discriminate.
Qed.

Lemma mono_close : forall f, Pres mono (close net f).
Proof. induction f as [|f IH]; [intros w; apply mono_refl|]. cbn [close]. now apply mono_close_body. Qed.

Lemma s_close_ok : forall w st s a k, Rel w st -> (match sp_phase st with PStmt s' _ | PRows (Some (s', _)) _ _ _ => s = s' | _ => False end) ->
  close_open st (says ANil) = Some (a, k) -> Good w (SClose s) a k.
Proof.
  intros w st s a k HR Hp H. set (f := phase_fuel (sp_phase st)).
  destruct (close_first w st _ a k HR H f (close net f) (mono_close f) (le_n _)) as (e & w' & E & Et & Ec & Hm & Hs & He).
  assert (E' : stmt_close net f (close net f) s w = (Ok e, w')).
  { unfold close_stmt_of in E. rewrite bind_getc in E. destruct (sp_phase st) as [|s' kk|[[s' kk]|] r h x|b|]; try contradiction; subst s'; rewrite Hs in E; exact E. }
  exists (OErr e), w'. split; [exists f; stp; erewrite bind_ok by exact E'; reflexivity|].
  destruct e as [e|].
  - destruct He as (m & -> & He & -> & HR'). split; [exact He|exact HR'].
  - destruct He as (st' & E2 & HR' & _). injection E2 as <- <-. split; [reflexivity|exact HR'].
Qed.

Lemma stmt_refused : forall w o s x, nth_error (w_stmts w) s = Some x -> (s_closed x = true \/ exists r, s_rows x = Some r) ->
  (match o with SExec s' _ | SExecPipeline s' _ | SQuery s' _ | SQueryPipeline s' _ => s' = s | _ => False end) ->
  exists r, does o w r w /\ refused r.
Proof.
  intros w o s x E Hx Ho. assert (Hx' : s_closed x = true \/ s_closed x = false /\ exists r, s_rows x = Some r) by (destruct (s_closed x); [auto|destruct Hx; [discriminate|auto]]).
  destruct o; try contradiction; subst; destruct Hx' as [Hc|(Hc & r & Hr)]; eexists;
    (split; [exists O; stp; unfold stmt_exec, stmt_exec_pipeline, stmt_query, stmt_query_pipeline;
             erewrite bind_ok by (erewrite bind_gets by exact E; rewrite ?Hc; rewrite ?Hr; reflexivity); reflexivity|do 2 eexists; reflexivity]).
Qed.

Lemma stmt_op_ok : forall w st o s a k, Rel w st ->
  (match o with SExec s' _ | SExecPipeline s' _ | SQuery s' _ | SQueryPipeline s' _ | SClose s' => s' = s | _ => False end) ->
  stmt_op exec sendable s o st = Some (a, k) -> Good w o a k.
Proof.
  intros w st o s a k HR Ho H. unfold stmt_op in H. assert (R := HR). destruct R as (R1 & R2 & R3 & R4 & R5 & R6 & R).
  destruct (existsb (Nat.eqb s) (sp_ds st)) eqn:Ed.
  - apply existsb_in in Ed. destruct (R3 s Ed) as (x & E & Hx).
    assert (Href : (match o with SExec s' _ | SExecPipeline s' _ | SQuery s' _ | SQueryPipeline s' _ => s' = s | _ => False end) -> Good w o ARefused (fun _ => st)).
    { intros Ho'. apply good_refused; auto. eapply stmt_refused; eauto. }
    destruct o; try contradiction; injection H as <- <-; auto. subst.
    exists (OErr None), w. split; [|split; [reflexivity|exact HR]]. exists O. stp. unfold stmt_close. erewrite bind_ok by (erewrite bind_gets by exact E; rewrite Hx; reflexivity). reflexivity.
  - destruct (sp_phase st) as [|s' kk|[[s' kk]|] r h x|b|] eqn:Hp; try discriminate; destruct (Nat.eqb_spec s s') as [<-|]; try discriminate.
    + destruct o, kk; try contradiction; try discriminate; subst.
      * eapply s_exec_ok; eauto.
      * eapply s_exec_pipe_ok; eauto.
      * eapply s_query_ok; eauto.
      * eapply s_query_pipe_ok; eauto.
      * eapply s_close_ok; eauto; [rewrite Hp; reflexivity|]. unfold close_open. rewrite Hp. exact H.
      * eapply s_close_ok; eauto; [rewrite Hp; reflexivity|]. unfold close_open. rewrite Hp. exact H.
    + assert (Href : (match o with SExec s' _ | SExecPipeline s' _ | SQuery s' _ | SQueryPipeline s' _ => s' = s | _ => False end) -> Good w o ARefused (fun _ => st)).
      { intros Ho'. apply good_refused; auto. destruct R as (_ & s1 & k1 & row & s2 & q & _ & E & _ & _ & _ & _ & (E8 & _) & _).
        injection E8 as <- <-. eapply stmt_refused; eauto. right. eexists. reflexivity. }
      destruct o; try contradiction; subst; try (injection H as <- <-; auto).
      eapply s_close_ok; eauto. rewrite Hp. reflexivity.
Qed.

(** ** Calls on rows *)
Lemma rows_refused : forall w o r x, nth_error (w_rows w) r = Some x -> r_closed x = true ->
  (match o with RNext r' | RAll r' | RNextPipeline r' | RNextSql r' _ => r' = r | _ => False end) -> exists y, does o w y w /\ refused y.
Proof.
  intros w o r x E Hx Ho.
  assert (Hn : forall lf cls, next_neo net lf cls r w = (Ok (None, None, Some (enew FRows 203)), w)).
  { intros. unfold next_neo. erewrite bind_getr by exact E. rewrite Hx. reflexivity. }
  destruct o; try contradiction; subst.
  - exists (ONext None None (Some (enew FRows 203))). split; [|do 2 eexists; reflexivity]. exists O. stp. erewrite bind_ok by apply Hn. reflexivity.
  - exists (OAll [] None (Some (enew FRows 203))). split; [|do 2 eexists; reflexivity]. exists 1%nat. stp. unfold all_rows. cbn [all_loop].
    erewrite bind_ok by (erewrite bind_ok by apply Hn; reflexivity). reflexivity.
  - exists (OPipe None None None (Some (enew FRows 252))). split; [|do 2 eexists; reflexivity]. exists O. stp. unfold next_pipeline.
    erewrite bind_ok by (erewrite bind_getr by exact E; rewrite Hx; reflexivity). reflexivity.
  - exists (OCells [] (Some (enew FRows 203))). split; [|do 2 eexists; reflexivity]. exists O. stp. unfold next_sql.
    erewrite bind_ok by (erewrite bind_ok by apply Hn; reflexivity). reflexivity.
Qed.

(** the next state of a row set [r] that stays open, whatever happened to it *)
Lemma rows_phase : forall w w' db ow r h x row' x' st' q', phase_rel w db (PRows ow r h x) ->
  (forall row, nth_error (w_rows w) r = Some row -> w_rows w' = upd r row' (w_rows w) /\ r_stmt row' = r_stmt row /\ r_closeStmt row' = r_closeStmt row /\ r_closed row' = r_closed row /\ r_md row' = r_md row) ->
  w_conn w' = w_conn w -> w_stmts w' = w_stmts w -> w_net w' = B db st' q' -> (forall qs, feeds row' qs x' st' q' \/ True) ->
  (forall s k, nth_error (w_stmts w) s = Some (open_stmt k (Some r)) -> c_stmt (w_conn w) = Some s -> feeds row' (queries k) x' st' q') ->
  phase_rel w' db (PRows ow r h x').
Proof.
  intros w w' db ow r h x row' x' st' q' (Hc & s & k & row & s0 & q & R2 & R3 & R4 & R5 & R6 & R7 & R8 & R9 & R10) H1 H2 H3 H4 _ H5.
  destruct (H1 row R4) as (E1 & E2 & E3 & E4 & E5). split; [now rewrite H2|]. exists s, k, row', st', q'. rewrite H2, H3.
  split; [exact R2|]. split; [exact R3|]. split; [rewrite E1; eapply nth_upd_same; eauto|]. split; [congruence|]. split; [congruence|]. split; [congruence|].
  split; [rewrite E3; exact R8|]. split; [eapply H5; eauto|exact H4].
Qed.
Lemma rows_lost : forall w w' db ow r h x, phase_rel w db (PRows ow r h x) -> w_conn w' = w_conn w -> w_stmts w' = w_stmts w ->
  (ow = None -> exists row, nth_error (w_rows w') r = Some row /\ r_closeStmt row = true) -> w_net w' = B db Ready [] -> phase_rel w' db (lost ow).
Proof.
  intros w w' db ow r h x (Hc & s & k & row & s0 & q & R2 & R3 & R4 & R5 & R6 & R7 & R8 & R9 & R10) H1 H2 H3 H4.
  split; [now rewrite H1|]. split; [now rewrite H4|]. exists s. rewrite H1, H2. split; [exact R2|]. destruct ow; [discriminate|]. intros _. exists k, (Some r). split; [exact R3|]. split; [|exact H4].
  now apply H3.
Qed.

Lemma feeds_consumed : forall row qs x st q, feeds row qs x st q -> feeds (r_set_consumed row) qs x (match x with Single _ fin => after_stream fin | _ => st end) (match x with Single recs fin => answers recs fin | _ => q end).
Proof. intros row qs x st q H. inversion H; subst; [apply feeds_single|apply feeds_single|eapply feeds_pipe|apply feeds_done]; auto. Qed.

Ltac start_rows :=
  match goal with HR : Rel ?w ?st, Hp : sp_phase ?st = PRows ?ow ?r ?h ?x |- _ =>
    let R := fresh "R" in
    assert (R := HR); destruct R as (Ht & _ & _ & _ & _ & _ & R); rewrite Hp in R; assert (Hph := R);
    destruct R as (Hcl & s & kk & row & s0 & q & Hcs & Es & Er & Hrs & Hrc & Hrm & Hown & Hfd & Hn);
    destruct w as [c ss rs ts n]; cbn [w_conn w_net w_stmts w_rows w_txs] in *; subst n end.
Lemma owned : forall (ow : option (nat * kind)) s kk (row : rows), (match ow with None => r_closeStmt row = true | Some o => o = (s, kk) /\ r_closeStmt row = false end) ->
  ow = None -> r_closeStmt row = true.
Proof. intros ow s kk row H ->. exact H. Qed.

Lemma next_ok : forall w st ow r h recs fin, Rel w st -> sp_phase st = PRows ow r h (Single recs fin) ->
  exists res w', next_neo net 2 (close net 2) r w = (Ok res, w') /\ mono w w' /\
    match recs, fin with
    | fs :: recs', _ => res = (Some fs, None, None) /\ Rel w' (to (PRows ow r h (Single recs' fin)) st)
    | [], Ends m => res = (None, Some m, Some EEOF) /\ Rel w' (to (PRows ow r h Done) st)
    | [], Breaks m => res = (None, None, Some (ewrap FConn 569 (EFailMsg m))) /\ Rel w' (to (lost ow) st)
    end.
Proof.
  intros w st ow r h recs fin HR Hp. start_rows.
  pose proof (next_single 2 (close net 2) c ss rs ts r row s _ recs fin s0 q (sp_db st) Er Hrs Hrc Es eq_refl Hfd (le_n _)) as Hx.
  assert (Hm : mono (Build_world c ss rs ts (B (sp_db st) s0 q)) (snd (next_neo net 2 (close net 2) r (Build_world c ss rs ts (B (sp_db st) s0 q))))).
  { pose proof (mono_step net mk 2 (RNext r) (Build_world c ss rs ts (B (sp_db st) s0 q))) as Hm. unfold step in Hm. cbn [step_body] in Hm.
    destruct recs as [|fs recs]; [destruct fin as [m|m]|]; (erewrite bind_ok in Hm by exact Hx; rewrite Hx; exact Hm). }
  destruct recs as [|fs recs]; [destruct fin as [m|m]|]; rewrite Hx in Hm; cbn [snd] in Hm; (eexists; eexists; split; [exact Hx|]; split; [exact Hm|]; split; [reflexivity|]);
    (eapply Rel_next; [exact HR|exact Hm|exact Ht|reflexivity|reflexivity|auto|auto|reflexivity|]); cbn [to sp_phase sp_db].
  - eapply rows_phase with (row' := r_set_finished (r_set_consumed row)) (st' := Ready) (q' := []); [exact Hph| |reflexivity|reflexivity|reflexivity|auto|].
    + intros row0 E0. cbn [w_rows] in *. assert (row0 = row) by congruence. subst. repeat split; reflexivity.
    + intros s1 k1 _ _. apply feeds_done; reflexivity.
  - eapply rows_lost; [exact Hph|reflexivity|reflexivity| |reflexivity]. intros E0. exists (r_set_consumed row). split; [eapply nth_upd_same; eauto|]. exact (owned _ _ _ _ Hown E0).
  - eapply rows_phase with (row' := r_set_consumed row) (st' := after_stream fin) (q' := answers recs fin); [exact Hph| |reflexivity|reflexivity|reflexivity|auto|].
    + intros row0 E0. cbn [w_rows] in *. assert (row0 = row) by congruence. subst. repeat split; reflexivity.
    + intros s1 k1 E1 E2. cbn [w_stmts w_conn] in *. assert (s1 = s) by congruence. subst s1. rewrite Es in E1. injection E1 as Eq _. rewrite <- Eq.
      eapply feeds_next. exact Hfd.
Qed.
Lemma r_next_ok : forall w st ow r h recs fin a k, Rel w st -> sp_phase st = PRows ow r h (Single recs fin) -> existsb (Nat.eqb r) (sp_dr st) = false ->
  rows_op r (RNext r) st = Some (a, k) -> Good w (RNext r) a k.
Proof.
  intros w st ow r h recs fin a k HR Hp Hd H. unfold rows_op in H. rewrite Hd, Hp, Nat.eqb_refl in H.
  destruct (next_ok w st ow r h recs fin HR Hp) as (res & w' & E & _ & Hres).
  destruct recs as [|fs recs]; [destruct fin as [m|m]|]; destruct Hres as (-> & HR'); injection H as <- <-;
    (eexists; eexists; split; [exists 2%nat; stp; erewrite bind_ok by exact E; reflexivity|]); (split; [reflexivity|exact HR']).
Qed.
Lemma r_next_sql_ok : forall w st ow r h recs fin n a k, Rel w st -> sp_phase st = PRows ow r h (Single recs fin) -> existsb (Nat.eqb r) (sp_dr st) = false ->
  rows_op r (RNextSql r n) st = Some (a, k) -> Good w (RNextSql r n) a k.
Proof.
  intros w st ow r h recs fin n a k HR Hp Hd H. unfold rows_op in H. rewrite Hd, Hp, Nat.eqb_refl in H.
  destruct (next_ok w st ow r h recs fin HR Hp) as (res & w' & E & _ & Hres).
  destruct recs as [|fs recs]; [destruct fin as [m|m]|]; destruct Hres as (-> & HR').
  - injection H as <- <-. eexists; eexists; split; [exists 2%nat; stp; unfold next_sql; erewrite bind_ok by (erewrite bind_ok by exact E; reflexivity); reflexivity|]. split; [reflexivity|exact HR'].
  - injection H as <- <-. eexists; eexists; split; [exists 2%nat; stp; unfold next_sql; erewrite bind_ok by (erewrite bind_ok by exact E; reflexivity); reflexivity|]. split; [reflexivity|exact HR'].
  - destruct (fill n fs) as [ds []] eqn:Ef; [| |discriminate]; injection H as <- <-;
    (eexists; eexists; split; [exists 2%nat; stp; unfold next_sql; erewrite bind_ok by (erewrite bind_ok by exact E; cbv beta iota; rewrite Ef; reflexivity); reflexivity|]).
    + split; [reflexivity|exact HR'].
    + split; [|exact HR']. do 2 eexists. split; [reflexivity|]. do 2 eexists; reflexivity.
Qed.
Lemma r_all_ok : forall w st ow r h recs fin a k, Rel w st -> sp_phase st = PRows ow r h (Single recs fin) -> existsb (Nat.eqb r) (sp_dr st) = false ->
  rows_op r (RAll r) st = Some (a, k) -> Good w (RAll r) a k.
Proof.
  intros w st ow r h recs fin a k HR Hp Hd H. unfold rows_op in H. rewrite Hd, Hp, Nat.eqb_refl in H. start_rows. set (f := (2 + length recs)%nat).
  assert (Hf : (1 < f)%nat) by (subst f; lia). assert (Hl : (length recs < f)%nat) by (subst f; lia).
  pose proof (all_single f (close net f) c ss ts r s _ recs fin (sp_db st) f rs row s0 q [] Er Hrs Hrc Es eq_refl Hfd Hf Hl) as Hx. cbn [app] in Hx.
  destruct fin as [m|m].
  - assert (H' : (a, k) = (AAll recs m, fun _ => to (PRows ow r h Done) st)) by (destruct recs; injection H as <- <-; reflexivity). injection H' as -> ->.
    eapply (good _ _ _ _ _ f); [exact HR|stp; erewrite bind_ok by (unfold all_rows; exact Hx); reflexivity|..]; cbn [to handle_of sp_tx sp_ds sp_dr sp_dt sp_db sp_phase]; auto; try reflexivity.
    eapply rows_phase with (row' := r_set_finished (r_set_consumed row)) (st' := Ready) (q' := []); [exact Hph| |reflexivity|reflexivity|reflexivity|auto|].
    + intros row0 E0. cbn [w_rows] in *. assert (row0 = row) by congruence. subst. repeat split; reflexivity.
    + intros s1 k1 _ _. apply feeds_done; reflexivity.
  - assert (H' : (a, k) = (AAllFailed recs m, fun _ => to (lost ow) st)) by (destruct recs; injection H as <- <-; reflexivity). injection H' as -> ->.
    eapply (good _ _ _ _ _ f); [exact HR|stp; erewrite bind_ok by (unfold all_rows; exact Hx); reflexivity|..]; cbn [to handle_of sp_tx sp_ds sp_dr sp_dt sp_db sp_phase]; auto; try reflexivity.
    + eexists. split; reflexivity.
    + eapply rows_lost; [exact Hph|reflexivity|reflexivity| |reflexivity]. intros E0. exists (r_set_consumed row). split; [eapply nth_upd_same; eauto|]. exact (owned _ _ _ _ Hown E0).
Qed.

Lemma r_next_pipe_ok : forall w st ow r h recs fin rest a k, Rel w st -> sp_phase st = PRows ow r h (Pipe recs fin rest) -> existsb (Nat.eqb r) (sp_dr st) = false ->
  rows_op r (RNextPipeline r) st = Some (a, k) -> Good w (RNextPipeline r) a k.
Proof.
  intros w st ow r h recs fin rest a k HR Hp Hd H. unfold rows_op in H. rewrite Hd, Hp, Nat.eqb_refl in H. start_rows.
  set (f := src_fuel (Pipe recs fin rest)). assert (Hroom : room f (answers recs fin ++ replies rest)) by (apply le_n).
  assert (Hsame : forall x' st' q', feeds row (queries kk) x' st' q' -> phase_rel (Build_world c ss rs ts (B (sp_db st) st' q')) (sp_db st) (PRows ow r h x')).
  { intros x' st' q' Hf'. eapply rows_phase with (row' := row) (st' := st') (q' := q'); [exact Hph| |reflexivity|reflexivity|reflexivity|auto|].
    - intros row0 E0. cbn [w_rows] in *. assert (row0 = row) by congruence. subst. rewrite upd_id by assumption. repeat split; reflexivity.
    - intros s1 k1 E1 E2. cbn [w_stmts w_conn] in *. assert (s1 = s) by congruence. subst s1. rewrite Es in E1. injection E1 as Eq _. rewrite <- Eq. exact Hf'. }
  assert (Hlost : phase_rel (Build_world c ss rs ts (B (sp_db st) Ready [])) (sp_db st) (lost ow)).
  { eapply rows_lost; [exact Hph|reflexivity|reflexivity| |reflexivity]. intros E0. exists row. split; [exact Er|]. exact (owned _ _ _ _ Hown E0). }
  destruct recs as [|fs recs]; [destruct fin as [m|m]; [destruct rest as [|[[m'|h' recs' fin']|] rest]|]|]; try discriminate.
  - injection H as <- <-.
    pose proof (next_pipe_end f (close net f) c ss rs ts r row s _ m s0 q (sp_db st) Er Hrs Hrc Es eq_refl Hfd) as Hx.
    eapply (good _ _ _ _ _ f); [exact HR|stp; erewrite bind_ok by exact Hx; reflexivity|..]; cbn [to handle_of sp_tx sp_ds sp_dr sp_dt sp_db sp_phase]; auto; try reflexivity.
    eapply rows_phase with (row' := r_set_finished row) (st' := Ready) (q' := []); [exact Hph| |reflexivity|reflexivity|reflexivity|auto|].
    + intros row0 E0. cbn [w_rows] in *. assert (row0 = row) by congruence. subst. repeat split; reflexivity.
    + intros s1 k1 _ _. apply feeds_done; [|reflexivity]. inversion Hfd; assumption.
  - injection H as <- <-.
    destruct (next_pipe_next f (close net f) c ss rs ts r row s _ m _ rest s0 q (sp_db st) Er Hrs Hrc Es eq_refl Hfd Hroom) as (e & Hx & He).
    eapply (good _ _ _ _ _ f); [exact HR|stp; erewrite bind_ok by exact Hx; reflexivity|..]; cbn [to handle_of sp_tx sp_ds sp_dr sp_dt sp_db sp_phase]; auto; try reflexivity.
    all: exact Hlost.
  - injection H as <- <-.
    destruct (next_pipe_next f (close net f) c ss rs ts r row s _ m _ rest s0 q (sp_db st) Er Hrs Hrc Es eq_refl Hfd Hroom) as (Hx & Hf').
    eapply (good _ _ _ _ _ f); [exact HR|stp; erewrite bind_ok by exact Hx; reflexivity|..]; cbn [to handle_of sp_tx sp_ds sp_dr sp_dt sp_db sp_phase conforms]; eauto; try reflexivity.
    split; [exact Hcl|]. eexists s, kk, _, s0, _. split; [exact Hcs|]. split; [eapply nth_upd_same; eauto|]. split; [apply nth_app_new|]. cbn [r_stmt r_closed r_md r_closeStmt].
    repeat (split; [reflexivity|]). split; [exact Hown|]. split; [exact Hf'|reflexivity].
  - injection H as <- <-.
    pose proof (next_pipe_fail f (close net f) c ss rs ts r row s _ m rest s0 q (sp_db st) Er Hrs Hrc Es eq_refl Hfd Hroom) as Hx.
    eapply (good _ _ _ _ _ f); [exact HR|stp; erewrite bind_ok by exact Hx; reflexivity|..]; cbn [to handle_of sp_tx sp_ds sp_dr sp_dt sp_db sp_phase]; auto; try reflexivity.
    all: exact Hlost.
  - injection H as <- <-.
    destruct (next_pipe_row f (close net f) c ss rs ts r row s _ fs recs fin rest s0 q (sp_db st) Er Hrs Hrc Es eq_refl Hfd) as (Hx & Hf').
    eapply (good _ _ _ _ _ f); [exact HR|stp; erewrite bind_ok by exact Hx; reflexivity|..]; cbn [to handle_of sp_tx sp_ds sp_dr sp_dt sp_db sp_phase]; auto; try reflexivity.
    all: apply Hsame; exact Hf'.
Qed.

Lemma r_close_ok : forall w st ow r h x a k, Rel w st -> sp_phase st = PRows ow r h x -> existsb (Nat.eqb r) (sp_dr st) = false ->
  rows_op r (RClose r) st = Some (a, k) -> Good w (RClose r) a k.
Proof.
  intros w st ow r h x a k HR Hp Hd H. unfold rows_op in H. rewrite Hd, Hp, Nat.eqb_refl in H. start_rows. set (f := src_fuel x).
  assert (H' : (match drain x with None => says ANil (to (match ow with None => PIdle | Some (s, k) => PStmt s k end) (bury_r r st)) | Some m => says (AFailed m) (to (lost ow) st) end) = Some (a, k)).
  { destruct x as [[|? ?] [?|?]|[|? ?] [?|?] [|[[|]|] ?]|]; exact H. }
  clear H. pose proof (rows_close_ok f (close net f) c ss rs ts s kk r row x s0 q (sp_db st) Es Er Hrs Hrc Hfd (room_src_fuel _ _ (le_n _))) as Hx.
  destruct (drain x) as [m|]; injection H' as <- <-.
  - destruct Hx as (e & Hx & He).
    eapply (good _ _ _ _ _ f); [exact HR|stp; erewrite bind_ok by exact Hx; reflexivity|..]; cbn [to handle_of sp_tx sp_ds sp_dr sp_dt sp_db sp_phase]; auto; try reflexivity.
    eapply rows_lost; [exact Hph|reflexivity|reflexivity| |reflexivity]. intros E0. exists row. split; [exact Er|]. exact (owned _ _ _ _ Hown E0).
  - destruct ow as [[s1 k1]|].
    + destruct Hown as (Ho1 & Ho2). injection Ho1 as <- <-. rewrite Ho2 in Hx.
      eapply (good _ _ _ _ _ f); [exact HR|stp; erewrite bind_ok by exact Hx; reflexivity|..]; cbn; auto; try reflexivity.
      * intros i [<-|Hi]; auto. right. eexists. split; [eapply nth_upd_same; eauto|reflexivity].
      * split; [exact Hcl|]. split; [exact Hcs|]. split; [eapply nth_upd_same; eauto|reflexivity].
    + rewrite Hown in Hx.
      eapply (good _ _ _ _ _ f); [exact HR|stp; erewrite bind_ok by exact Hx; reflexivity|..]; cbn; auto; try reflexivity.
      intros i [<-|Hi]; auto. right. eexists. split; [eapply nth_upd_same; eauto|reflexivity].
Qed.

Lemma rows_op_ok : forall w st o r a k, Rel w st ->
  (match o with RNext r' | RAll r' | RNextPipeline r' | RNextSql r' _ | RClose r' | RMeta r' => r' = r | _ => False end) ->
  rows_op r o st = Some (a, k) -> Good w o a k.
Proof.
  intros w st o r a k HR Ho H. assert (Hop := H). unfold rows_op in H. assert (R := HR). destruct R as (R1 & R2 & R3 & R4 & R5 & R6 & R).
  destruct (existsb (Nat.eqb r) (sp_dr st)) eqn:Ed.
  - apply existsb_in in Ed. destruct (R4 r Ed) as (x & E & Hx).
    assert (Href : (match o with RNext r' | RAll r' | RNextPipeline r' | RNextSql r' _ => r' = r | _ => False end) -> Good w o ARefused (fun _ => st)).
    { intros Ho'. apply good_refused; auto. eapply rows_refused; eauto. }
    destruct o; try contradiction; try discriminate; injection H as <- <-; auto. subst.
    exists (OErr None), w. split; [|split; [reflexivity|exact HR]]. exists O. stp. unfold rows_close. erewrite bind_ok by (erewrite bind_getr by exact E; rewrite Hx; reflexivity). reflexivity.
  - destruct (sp_phase st) as [|s' kk|ow r' h x|b|] eqn:Hp; try discriminate; destruct (Nat.eqb_spec r r') as [<-|]; try discriminate.
    destruct o; try contradiction; subst.
    + destruct x; try discriminate. eapply r_next_ok; eauto.
    + destruct x; try discriminate. eapply r_all_ok; eauto.
    + destruct x; try discriminate. eapply r_next_pipe_ok; eauto.
    + destruct x; try discriminate. eapply r_next_sql_ok; eauto.
    + eapply r_close_ok; eauto.
    + injection H as <- <-. destruct R as (_ & s & k1 & row & s2 & q & _ & _ & E & _ & _ & Hm & _). exists (OMeta h), w.
      split; [|split; [reflexivity|exact HR]]. exists O. stp. erewrite bind_getr by exact E. rewrite Hm. reflexivity.
Qed.

(** ** Transactions *)
Lemma Rel_tx : forall c ss rs ts n st t, Rel (Build_world c ss rs ts n) st -> sp_tx st = Some t -> sp_phase st = PIdle ->
  Rel (Build_world (c_set_tx None c) ss rs (upd t {| t_closed := true |} ts) n) (with_tx None (bury_t t st)).
Proof.
  intros c ss rs ts n st t (R1 & R2 & R3 & R4 & R5 & R6 & R) Et Hp.
  split; [reflexivity|]. split; [exact R2|]. split; [exact R3|]. split; [exact R4|]. specialize (R6 t Et). cbn [w_txs] in R6. split; [|split].
  - cbn. intros i [<-|Hi]; [eexists; split; [eapply nth_upd_same; eauto|reflexivity]|]. destruct (R5 i Hi) as (x & E & Hx). cbn [w_txs] in E.
    destruct (Nat.eq_dec t i) as [->|Hne]; [eexists; split; [eapply nth_upd_same; eauto|reflexivity]|]. exists x. split; [|exact Hx]. cbn [w_txs]. rewrite nth_upd_other; auto.
  - discriminate.
  - cbn. rewrite Hp in *. exact R.
Qed.
Lemma tx_op_ok : forall w st o t q l1 l2 l3 l4 l5 a k, Rel w st -> sendable (VRun q []) = true ->
  (forall f w0 r w', tx_finish net f (close net f) q l1 l2 l3 l4 l5 t w0 = (Ok r, w') -> step net mk f o w0 = (Ok (OErr r), w')) ->
  tx_op exec t q st = Some (a, k) -> Good w o a k.
Proof.
  intros w st o t q l1 l2 l3 l4 l5 a k HR Hsd Hstep H. unfold tx_op in H. assert (R := HR). destruct R as (R1 & R2 & R3 & R4 & R5 & R6 & R).
  destruct (existsb (Nat.eqb t) (sp_dt st)) eqn:Ed.
  - apply existsb_in in Ed. destruct (R5 t Ed) as (x & E & Hx). injection H as <- <-.
    exists (OErr (Some (enew FTx l1))), w. split; [|split; [do 2 eexists; reflexivity|exact HR]]. exists O. apply Hstep.
    unfold tx_finish. erewrite bind_gett by exact E. rewrite Hx. reflexivity.
  - destruct (sp_tx st) as [t'|] eqn:Et; [|discriminate]. destruct (Nat.eqb_spec t t') as [<-|]; [|discriminate].
    assert (H' : close_open st (fun st' => control exec q st' (fun st'' => says ANil (with_tx None (bury_t t st'')))) = Some (a, k)) by (destruct (sp_phase st); [exact H..|discriminate]).
    clear H. set (f := (2 + phase_fuel (sp_phase st))%nat).
    destruct (close_first w st _ a k HR H' f (close net f) (mono_close f) ltac:(subst f; lia)) as (e & w' & E & Etx & Ec & Hm & _ & He).
    unfold close_stmt_of in E. rewrite bind_getc in E.
    specialize (R6 t eq_refl).
    assert (Hgo : tx_finish net f (close net f) q l1 l2 l3 l4 l5 t w = 
      match e with
      | Some e => ret (Some (ewrap FTx l2 e))
      | None => '(run, pull, e) <- send_run_pull_all_consume_single net f (close net f) q [] ;;
        match e with
        | Some e => ret (Some (ewrap FTx l3 e))
        | None =>
            match run with
            | Some (VSuccess _) =>
                match pull with
                | Some (VSuccess _) => modc (c_set_tx None) ;; sett t {| t_closed := true |} ;; ret None
                | _ => ret (Some (enew FTx l5))
                end
            | _ => ret (Some (enew FTx l4))
            end
        end
      end w').
    { unfold tx_finish. erewrite bind_gett by exact R6. cbn [t_closed]. rewrite bind_getc. erewrite bind_ok by exact E. reflexivity. }
    destruct e as [e|].
    + destruct He as (m & -> & He & -> & HR'). eexists. exists w'. split; [exists f; apply Hstep; exact Hgo|]. split; [apply failure_wrap; exact He|exact HR'].
    + destruct He as (st' & E2 & HR' & Hp' & Et' & Edt). destruct (Rel_idle w' st' HR' Hp') as (Hi & Hn & Ht). destruct w' as [c ss rs ts n]. cbn [w_conn w_net w_txs] in *. subst n.
      unfold control in E2. destruct (exec (sp_db st') q []) as [db' oc] eqn:Ex.
      assert (Hnr : match oc with Runs _ (_ :: _) _ => False | _ => True end) by (destruct oc as [|h [|? ?] [|]]; auto; discriminate).
      pose proof (run_single f (close net f) c ss rs ts q (sp_db st') db' oc Hsd Ex ltac:(subst f; lia) Hnr) as Hr.
      erewrite bind_ok in Hgo by exact Hr.
      assert (HRdb : Rel (Build_world c ss rs ts (B db' Ready [])) (with_db db' st')).
      { destruct HR' as (Q1 & Q2 & Q3 & Q4 & Q5 & Q6 & Q7). repeat (split; [assumption|]). cbn. rewrite Hp' in *. destruct Q7 as (Q7 & Q8 & _). repeat split; auto. }
      destruct oc as [m|h [|? ?] [m|m]]; try contradiction; injection E2 as <- <-.
      * eexists. eexists. split; [exists f; apply Hstep; exact Hgo|]. split; [reflexivity|exact HRdb].
      * cbv beta iota in Hgo. rewrite bind_modc in Hgo. cbn [w_conn w_stmts w_rows w_txs w_net] in Hgo.
        eexists. eexists. split; [exists f; apply Hstep; exact Hgo|]. split; [reflexivity|].
        apply (Rel_tx c ss rs ts (B db' Ready []) (with_db db' st') t HRdb); [cbn; congruence|exact Hp'].
      * eexists. eexists. split; [exists f; apply Hstep; exact Hgo|]. split; [reflexivity|exact HRdb].
Qed.

(** ** Closing the connection *)
Lemma close_tail : forall f w, c_closed (w_conn w) = false -> c_tx (w_conn w) = None -> c_pooled (w_conn w) = pooled ->
  forall w1, close_stmt_of f (close net f) w = (Ok None, w1) -> c_tx (w_conn w1) = None -> c_pooled (w_conn w1) = pooled ->
  close net (S f) w = (Ok None, Build_world (if pooled then c_reclaimed (w_conn w1) else c_set_closed (w_conn w1)) (w_stmts w1) (w_rows w1) (w_txs w1) (w_net w1)).
Proof.
  intros f w Hc Ht Hp w1 E Ht1 Hp1. cbn [close]. unfold close_body. rewrite bind_getc, Hc. unfold close_stmt_of in E. rewrite bind_getc in E.
  erewrite bind_ok by exact E. cbv beta iota. rewrite bind_getc, Ht1. erewrite bind_ok by reflexivity. cbv beta iota. rewrite bind_getc, Hp1.
  destruct pooled; [rewrite bind_modc; reflexivity|]. reflexivity.
Qed.
Lemma close_op_ok : forall w st a k, Rel w st -> close_op pooled st = Some (a, k) -> Good w CClose a k.
Proof.
  intros w st a k HR H. unfold close_op in H. assert (R := HR). destruct R as (R1 & R2 & R3 & R4 & R5 & R6 & R).
  assert (Hend : forall f w1 st', c_closed (w_conn w) = false -> close_stmt_of f (close net f) w = (Ok None, w1) -> Rel w1 st' -> sp_phase st' = PIdle -> Good w CClose ANil (fun _ => to PClosed st')).
  { intros f w1 st' Hc E HR' Hpi. assert (Q := HR'). destruct Q as (Q1 & Q2 & Q3 & Q4 & Q5 & Q6 & Q).
    pose proof (close_tail f w Hc R1 R2 w1 E Q1 Q2) as Hcl.
    exists (OErr None). eexists. split; [exists (S f); stp; erewrite bind_ok by exact Hcl; reflexivity|]. split; [reflexivity|]. cbn [handle_of].
    split; [cbn; destruct pooled; exact Q1|]. split; [cbn; destruct pooled; exact Q2|]. split; [exact Q3|]. split; [exact Q4|]. split; [exact Q5|]. split; [exact Q6|].
    rewrite Hpi in Q. cbn. split; [destruct Q as (_ & _ & ->); reflexivity|]. split; [intros ->; reflexivity|]. intros ->. exact Q. }
  assert (Hopen : close_open st (fun st' => says ANil (to PClosed st')) = Some (a, k) -> c_closed (w_conn w) = false -> Good w CClose a k).
  { intros H' Hc. set (f := phase_fuel (sp_phase st)).
    destruct (close_first w st _ a k HR H' f (close net f) (mono_close f) (le_n _)) as (e & w' & E & Etx & Ec & Hm & _ & He).
    destruct e as [e|].
    - destruct He as (m & -> & He & -> & HR'). exists (OErr (Some e)), w'. split; [|split; [exact He|exact HR']]. exists (S f). stp.
      cbn [close]. unfold close_body. erewrite bind_ok; [reflexivity|]. rewrite bind_getc, Hc. unfold close_stmt_of in E. rewrite bind_getc in E. erewrite bind_ok by exact E. reflexivity.
    - destruct He as (st' & E2 & HR' & Hp' & Et' & _). injection E2 as <- <-. eapply Hend; eauto. }
  destruct (sp_phase st) as [|s kk|ow r h x|b|] eqn:Hp.
  - destruct (pooled && _) in H; [discriminate|]. apply Hopen; auto. apply R.
  - destruct (pooled && _) in H; [discriminate|]. apply Hopen; auto. apply R.
  - destruct (pooled && _) in H; [discriminate|]. destruct ow as [[s kk]|]; [apply Hopen; auto; apply R|].
    destruct R as (Hc & s & kk & row & s0 & q & Q1 & Q2 & Q3 & Q4 & Q5 & Q6 & Q7 & Q8 & Q9).
    assert (E : close_stmt_of 0 (close net 0) w = (Ok None, Build_world (c_set_stmt None (w_conn w)) (upd s (s_set_closed (open_stmt kk (Some r))) (w_stmts w)) (w_rows w) (w_txs w) (w_net w))).
    { unfold close_stmt_of. rewrite bind_getc, Q1. destruct w as [c ss rs ts n]. apply stmt_close_plain; [exact Q2|]. exists row. auto. }
    assert (Hm : mono w (Build_world (c_set_stmt None (w_conn w)) (upd s (s_set_closed (open_stmt kk (Some r))) (w_stmts w)) (w_rows w) (w_txs w) (w_net w))).
    { assert (Hp0 : Pres mono (close_stmt_of 0 (close net 0))).
      { unfold close_stmt_of. intros w0. rewrite bind_getc. destruct (c_stmt (w_conn w0)); [apply mono_stmt_close, mono_close|apply mono_refl]. }
      specialize (Hp0 w). rewrite E in Hp0. exact Hp0. }
    assert (HR' : pooled = false \/ x = Done -> Rel (Build_world (c_set_stmt None (w_conn w)) (upd s (s_set_closed (open_stmt kk (Some r))) (w_stmts w)) (w_rows w) (w_txs w) (w_net w)) (to (PLost false) st) \/ True) by auto.
    clear HR'.
    assert (Hg : (pooled = true -> x = Done) -> Good w CClose ANil (fun _ => to PClosed st)).
    { intros Hd. pose proof (close_tail 0 w Hc R1 R2 _ E R1 R2) as Hcl.
      exists (OErr None). eexists. split; [exists 1%nat; stp; erewrite bind_ok by exact Hcl; reflexivity|]. split; [reflexivity|]. cbn [handle_of].
      eapply Rel_next; [exact HR|eapply mono_trans; [exact Hm|]| | | | | | |]; cbn; auto.
      - pose proof (mono_step net mk 1 CClose w) as Hms. unfold step in Hms. cbn [step_body] in Hms. erewrite bind_ok in Hms by exact Hcl. cbn [snd ret] in Hms.
        apply (mono_conn (Build_world (c_set_stmt None (w_conn w)) (upd s (s_set_closed (open_stmt kk (Some r))) (w_stmts w)) (w_rows w) (w_txs w) (w_net w))).
        destruct pooled; unfold conn_mono; cbn; intuition auto.
      - destruct pooled; exact R1.
      - split; [rewrite Q9; reflexivity|]. split; [intros ->; reflexivity|]. intros Hpt. rewrite (Hd Hpt) in Q8. rewrite Hpt. cbn. inversion Q8; subst. auto. }
    destruct pooled; [destruct x; try discriminate|]; injection H as <- <-; apply Hg; auto; discriminate.
  - destruct (pooled && _) in H; [discriminate|]. apply Hopen; auto. apply R.
  - destruct pooled eqn:Epl; [discriminate|]. injection H as <- <-. exists (OErr None), w. split; [|split; [reflexivity|exact HR]].
    exists 1%nat. stp. cbn [close]. unfold close_body. erewrite bind_ok; [reflexivity|]. rewrite bind_getc. rewrite (proj1 (proj2 R) Epl). reflexivity.
Qed.

(** ** All together *)
Lemma good_same : forall w o o' a k, (forall f, step net mk f o' w = step net mk f o w) -> Good w o a k -> Good w o' a k.
Proof. intros w o o' a k H (r & w' & (f & E) & Hc & HR). exists r, w'. split; [exists f; now rewrite H|auto]. Qed.
Lemma refine_step : forall w st o a k, Rel w st -> expect exec sendable mk pooled st o = Some (a, k) -> Good w o a k.
Proof.
  intros w st o a k HR H. destruct o; cbn [expect] in H.
  - eapply conn_op_ok; eauto; try reflexivity; try exact I.
  - eapply conn_op_ok; eauto; try reflexivity; try exact I.
  - eapply conn_op_ok; eauto; try reflexivity; try exact I.
  - injection H as <- <-. destruct w as [c ss rs ts n]. assert (R := HR). destruct R as (R1 & R2 & R3 & R4 & R5 & R6 & R).
    eapply (good _ _ _ _ _ O); [exact HR|stp; reflexivity|..]; cbn; auto.
    all: destruct (sp_phase st) as [|s kk|ow r h x|b|]; exact R.
  - now apply close_op_ok with (st := st).
  - eapply conn_op_ok; eauto; try reflexivity; try exact I.
  - eapply conn_op_ok; eauto; try reflexivity; try exact I.
  - eapply conn_op_ok; eauto; try reflexivity; try exact I.
  - eapply conn_op_ok; eauto; try reflexivity; try exact I.
  - eapply conn_op_ok; eauto; try reflexivity; try exact I.
  - (* Exec *)
    assert (HR' := HR). destruct HR' as (R1 & R2 & R3 & R4 & R5 & R6 & R).
    assert (Href : (c_stmt (w_conn w) <> None \/ c_closed (w_conn w) = true) -> driver_args mk args <> APanic -> Good w (CExecSql q args) ARefused (fun _ => st)).
    { intros H1 H2. apply good_refused; auto. apply conn_refused; auto. }
    destruct (driver_args mk args) as [ps| |] eqn:Ea; [| |discriminate].
    + assert (H' := H). unfold conn_op in H'. destruct (sp_phase st) as [|s kk|ow r h x|b|] eqn:Hp.
      * eapply (good_same w (CExec q ps)); [|eapply conn_op_ok; eauto; try reflexivity; try exact I]. destruct (Rel_idle w st HR Hp) as (Hi & _ & _).
        intros f. stp. unfold exec_sql, exec_neo, bind. rewrite !guard_idle by exact Hi. unfold stmt_exec_sql, with_args. rewrite Ea. reflexivity.
      * injection H' as <- <-. apply Href; [left|discriminate]. destruct R as (_ & R & _). congruence.
      * injection H' as <- <-. apply Href; [left|discriminate]. destruct R as (_ & s & kk & row & s' & q' & R & _). congruence.
      * injection H' as <- <-. apply Href; [left|discriminate]. destruct R as (_ & _ & s & R & _). congruence.
      * destruct pooled eqn:Epl; [discriminate|]. injection H' as <- <-. apply Href; [right|discriminate]. apply R. exact Epl.
    + injection H as <- <-.
      destruct (c_stmt (w_conn w)) as [s|] eqn:Ecs; [apply Href; [left; congruence|discriminate]|].
      destruct (c_closed (w_conn w)) eqn:Ecc; [apply Href; [right; congruence|discriminate]|].
      destruct w as [c ss rs ts n]. cbn [w_conn] in *.
      assert (E : exec_sql net 0 (close net 0) mk q args (Build_world c ss rs ts n) = (Ok (None, Some (enew FUtil 38)), used c ss rs ts (new_stmt q) n)).
      { unfold exec_sql. rewrite guard_idle by (split; auto). rewrite bind_news. cbn [w_conn w_stmts w_rows w_txs w_net]. eapply with_defer_ok.
        - unfold stmt_exec_sql, with_args. rewrite Ea. reflexivity.
        - apply (stmt_close_plain 0 (close net 0) c _ rs ts _ (length ss) (One q) None); [apply nth_app_new|exact I]. }
      eapply (good _ _ _ _ _ O); [exact HR|stp; erewrite bind_ok by exact E; reflexivity|..]; cbn; auto.
      * do 2 eexists; reflexivity.
      * destruct (sp_phase st) as [|s kk|ow r h x|b|] eqn:Hp; cbn in R |- *.
        -- intuition auto.
        -- destruct R as (_ & R & _). congruence.
        -- destruct R as (_ & s & kk & row & s' & q' & R & _). congruence.
        -- destruct R as (_ & _ & s & R & _). congruence.
        -- destruct R as (Rd & Ra & Rb). split; [exact Rd|]. split; [intros Hpf; specialize (Ra Hpf); congruence|intros Hpt; destruct (Rb Hpt) as (_ & _ & Rn); auto].
  - (* Query *)
    destruct (driver_args mk args) as [ps| |] eqn:Ea; [| |discriminate].
    + eapply (good_same w (CQuery q ps)); [|eapply conn_op_ok; eauto; try reflexivity; try exact I].
      intros f. stp. unfold query_sql, with_args. rewrite Ea. reflexivity.
    + injection H as <- <-. eapply (good _ _ _ _ _ O); [exact HR|stp; unfold query_sql, with_args; rewrite Ea; reflexivity|..]; cbn; auto; [do 2 eexists; reflexivity|apply HR|apply HR].
  - eapply stmt_op_ok; eauto; reflexivity.
  - eapply stmt_op_ok; eauto; reflexivity.
  - eapply stmt_op_ok; eauto; reflexivity.
  - eapply stmt_op_ok; eauto; reflexivity.
  - eapply stmt_op_ok; eauto; reflexivity.
  - destruct (driver_args mk args) as [ps| |] eqn:Ea; [| |discriminate].
    + eapply (good_same w (SExec s ps)); [|eapply stmt_op_ok; eauto; reflexivity].
      intros f. stp. unfold stmt_exec_sql, with_args. rewrite Ea. reflexivity.
    + injection H as <- <-. eapply (good _ _ _ _ _ O); [exact HR|stp; unfold stmt_exec_sql, with_args; rewrite Ea; reflexivity|..]; cbn; auto; [do 2 eexists; reflexivity|apply HR|apply HR].
  - destruct (driver_args mk args) as [ps| |] eqn:Ea; [| |discriminate].
    + eapply (good_same w (SQuery s ps)); [|eapply stmt_op_ok; eauto; reflexivity].
      intros f. stp. unfold stmt_query_sql, with_args. rewrite Ea. reflexivity.
    + injection H as <- <-. eapply (good _ _ _ _ _ O); [exact HR|stp; unfold stmt_query_sql, with_args; rewrite Ea; reflexivity|..]; cbn; auto; [do 2 eexists; reflexivity|apply HR|apply HR].
  - eapply rows_op_ok; eauto; reflexivity.
  - eapply rows_op_ok; eauto; reflexivity.
  - eapply rows_op_ok; eauto; reflexivity.
  - eapply rows_op_ok; eauto; reflexivity.
  - eapply rows_op_ok; eauto; reflexivity.
  - eapply rows_op_ok; eauto; reflexivity.
  - eapply (tx_op_ok w st _ t s_commit); eauto; [apply Hctl|]. intros f w0 r w' E. stp. erewrite bind_ok by exact E. reflexivity.
  - eapply (tx_op_ok w st _ t s_rollback); eauto; [apply Hctl|]. intros f w0 r w' E. stp. erewrite bind_ok by exact E. reflexivity.
Qed.

(** every history follows the machine *)
Theorem refine_run : forall os w st, Rel w st -> exists f0, forall f, (f0 <= f)%nat -> follows exec sendable mk pooled st os (fst (fst (run net mk f os w))).
Proof.
  induction os as [|o os IH]; intros w st HR; [exists O; intros; exact I|]. cbn [follows run].
  destruct (expect exec sendable mk pooled st o) as [[a k]|] eqn:E; [|exists O; intros; exact I].
  destruct (refine_step w st o a k HR E) as (r & w' & (f1 & Hs) & Hc & HR').
  destruct (IH w' _ HR') as (f2 & H2). exists (Nat.max f1 f2). intros f Hf.
  rewrite (step_fuel net mk f1 f o w r w') by (auto; lia). specialize (H2 f ltac:(lia)).
  destruct (run net mk f os w') as [[l x] w2]. cbn [fst] in *. auto.
Qed.
Lemma Rel_start : forall db, Rel (fresh pooled (B db Ready [])) (start db).
Proof. intros db. split; [reflexivity|]. split; [reflexivity|]. do 3 (split; [intros ? []|]). split; [discriminate|]. repeat split. Qed.

End Refine.
