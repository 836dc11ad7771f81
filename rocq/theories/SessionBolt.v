(** The session model run against the Bolt server of ServerSpec.v: how the functions
    that send and read messages behave, step by step. *)
From Coq Require Import ZArith List Bool Lia ZifyBool.
From Verif Require Import GoPrims PrimLemmas Value Errors Misc Session SessionVoc SessionGen ServerSpec SessionSpec.
Import ListNotations.
Open Scope Z_scope.

Lemma bind_ok : forall N A B (m : M A) (k : A -> M B) (w w' : world N) a, m w = (Ok a, w') -> bind m k w = k a w'.
Proof. intros. unfold bind. now rewrite H. Qed.
Lemma bind_gets : forall N B (k : stmt -> M B) (w : world N) i s, nth_error (w_stmts w) i = Some s -> bind (gets i) k w = k s w.
Proof. intros. unfold bind, gets. now rewrite H. Qed.
Lemma bind_getr : forall N B (k : rows -> M B) (w : world N) i s, nth_error (w_rows w) i = Some s -> bind (getr i) k w = k s w.
Proof. intros. unfold bind, getr. now rewrite H. Qed.
Lemma bind_gett : forall N B (k : tx -> M B) (w : world N) i s, nth_error (w_txs w) i = Some s -> bind (gett i) k w = k s w.
Proof. intros. unfold bind, gett. now rewrite H. Qed.
Lemma bind_need : forall N B (k : unit -> M B) (w : world N) i s, nth_error (w_stmts w) i = Some s -> s_conn s = true ->
  bind (need_conn i) k w = k tt w.
Proof. intros. unfold bind, need_conn, bind, gets. rewrite H, H0. reflexivity. Qed.
Lemma bind_mods : forall N B (k : unit -> M B) (w : world N) i f s, nth_error (w_stmts w) i = Some s ->
  bind (mods i f) k w = k tt (Build_world (w_conn w) (upd i (f s) (w_stmts w)) (w_rows w) (w_txs w) (w_net w)).
Proof. intros. unfold bind, mods, bind, gets, sets. now rewrite H. Qed.
Lemma bind_modr : forall N B (k : unit -> M B) (w : world N) i f s, nth_error (w_rows w) i = Some s ->
  bind (modr i f) k w = k tt (Build_world (w_conn w) (w_stmts w) (upd i (f s) (w_rows w)) (w_txs w) (w_net w)).
Proof. intros. unfold bind, modr, bind, getr, setr. now rewrite H. Qed.
Lemma bind_modc : forall N B (k : unit -> M B) (w : world N) f,
  bind (modc f) k w = k tt (Build_world (f (w_conn w)) (w_stmts w) (w_rows w) (w_txs w) (w_net w)).
Proof. reflexivity. Qed.
Lemma bind_getc : forall N B (k : conn -> M B) (w : world N), bind getc k w = k (w_conn w) w.
Proof. reflexivity. Qed.
Lemma bind_news : forall N B (k : nat -> M B) (w : world N) s,
  bind (news s) k w = k (length (w_stmts w)) (Build_world (w_conn w) (w_stmts w ++ [s]) (w_rows w) (w_txs w) (w_net w)).
Proof. reflexivity. Qed.
Lemma bind_newr : forall N B (k : nat -> M B) (w : world N) s,
  bind (newr s) k w = k (length (w_rows w)) (Build_world (w_conn w) (w_stmts w) (w_rows w ++ [s]) (w_txs w) (w_net w)).
Proof. reflexivity. Qed.
Lemma bind_newt : forall N B (k : nat -> M B) (w : world N) s,
  bind (newt s) k w = k (length (w_txs w)) (Build_world (w_conn w) (w_stmts w) (w_rows w) (w_txs w ++ [s]) (w_net w)).
Proof. reflexivity. Qed.
Lemma bind_sett : forall N B (k : unit -> M B) (w : world N) i s,
  bind (sett i s) k w = k tt (Build_world (w_conn w) (w_stmts w) (w_rows w) (upd i s (w_txs w)) (w_net w)).
Proof. reflexivity. Qed.

(** the responses to RUN and PULL_ALL for each query of a pipeline *)
Definition answers (recs : list (list goval)) (fin : stream_end) : list goval := map VRecord recs ++ [final fin].
Definition reply1 (x : option outcome) : list goval :=
  match x with
  | None => [VIgnored; VIgnored]
  | Some (RunFails m) => [VFailure m; VIgnored]
  | Some (Runs h recs fin) => VSuccess h :: answers recs fin
  end.
Definition replies (l : list (option outcome)) : list goval := flat_map reply1 l.
Definition end_state (l : list (option outcome)) : sstate := match first_failure l with Some _ => Failed | None => Ready end.
(** everything after a failure is not run *)
Inductive ordered : list (option outcome) -> Prop :=
| ord_nil : ordered []
| ord_ok : forall o l, fails o = None -> ordered l -> ordered (Some o :: l)
| ord_fail : forall o m n, fails o = Some m -> ordered (Some o :: repeat None n).

Lemma first_failure_repeat : forall n, first_failure (repeat None n) = None.
Proof. induction n; cbn; auto. Qed.
Lemma replies_repeat : forall n, replies (repeat None n) = repeat VIgnored (2 * n).
Proof. induction n; [reflexivity|]. cbn [repeat replies flat_map reply1]. unfold replies in IHn. rewrite IHn. replace (2 * S n)%nat with (S (S (2 * n))) by lia. reflexivity. Qed.
Lemma map_none_repeat : forall A (l : list A), map (fun _ => @None outcome) l = repeat None (length l).
Proof. induction l; cbn; congruence. Qed.

Section Bolt.
Context {DB : Type}.
Variable exec : DB -> str -> md -> DB * outcome.
Variable sendable : goval -> bool.
Notation net := (bolt exec sendable).
Notation W := (world (bnet DB)).
Notation B := Build_bnet.

(** the messages without user data can be sent *)
Definition controls : Prop := sendable VPullAll = true /\ sendable VDiscardAll = true /\ sendable VAckFailure = true /\ sendable VReset = true /\
  sendable (VRun s_begin []) = true /\ sendable (VRun s_commit []) = true /\ sendable (VRun s_rollback []) = true.
Hypothesis Hctl : controls.

Definition served (n : bnet DB) (v : goval) : bnet DB :=
  let '(db, st, rs) := serve exec (b_db n) (b_st n) v in B db st (b_q n ++ rs).

Section World.
Variables (c : conn) (ss : list stmt) (rs : list rows) (ts : list tx).
Notation w n := (Build_world c ss rs ts n).

Lemma encode_ok : forall v n, sendable v = true -> encode_msg net v (w n) = (Ok None, w (served n v)).
Proof.
  intros v n H. unfold encode_msg, bind, getc, getn, setn. cbn. rewrite H. unfold served.
  destruct (serve exec (b_db n) (b_st n) v) as [[db st] l]. reflexivity.
Qed.
Lemma encode_rej : forall v n, sendable v = false -> encode_msg net v (w n) = (Ok (Some (enew FEnc 0)), w n).
Proof. intros v n H. unfold encode_msg, bind, getc, getn, setn. cbn. rewrite H. reflexivity. Qed.
Lemma decode_ok : forall db st v q, decode_msg net (w (B db st (v :: q))) = (Ok (Some v, None), w (B db st q)).
Proof. reflexivity. Qed.

Definition is_failure (v : goval) : bool := match v with VFailure _ => true | _ => false end.
Lemma consume_msg : forall lf cls db st v q, is_failure v = false ->
  consume net lf cls (w (B db st (v :: q))) = (Ok (Some v, None), w (B db st q)).
Proof. intros lf cls db st v q H. unfold consume. erewrite bind_ok by apply decode_ok. destruct v; try reflexivity. discriminate H. Qed.

Lemma ack_ignored : forall lf cls db k f, (k < f)%nat ->
  ack_loop net lf cls f (w (B db Ready (repeat VIgnored k ++ [VSuccess []]))) = (Ok None, w (B db Ready [])).
Proof.
  intros lf cls db. induction k as [|k IH]; intros [|f] Hf; try lia; cbn [repeat app ack_loop]; erewrite bind_ok by apply decode_ok; [reflexivity|].
  apply IH. lia.
Qed.
(** a failure followed by what the server ignored: the server is ready again and
    nothing is left to read *)
Lemma consume_fail : forall lf cls db m k, (k < lf)%nat ->
  consume net lf cls (w (B db Failed (VFailure m :: repeat VIgnored k))) =
  (Ok (Some (VFailure m), Some (ewrap FConn 569 (EFailMsg m))), w (B db Ready [])).
Proof.
  intros lf cls db m k Hk. unfold consume. erewrite bind_ok by apply decode_ok. cbv beta iota.
  unfold ack_failure. destruct Hctl as (_ & _ & Ha & _).
  assert (E : (e <- encode_msg net VAckFailure ;; match e with Some e0 => ret (Some (ewrap FConn 408 e0)) | None => ack_loop net lf cls lf end)
     (w (B db Failed (repeat VIgnored k))) = (Ok None, w (B db Ready []))).
  { erewrite bind_ok by (apply encode_ok; exact Ha). cbv beta iota. unfold served. cbn [serve b_db b_st b_q]. now apply ack_ignored. }
  erewrite bind_ok by exact E. reflexivity.
Qed.

Lemma consume_all_ok : forall lf cls db st recs m q f, (length recs < f)%nat ->
  consume_all_loop net lf cls f (w (B db st (answers recs (Ends m) ++ q))) = (Ok (Some (VSuccess m), None), w (B db st q)).
Proof.
  intros lf cls db st recs m q. unfold answers. induction recs as [|x recs IH]; intros [|f] Hf; cbn in Hf; try lia;
    cbn [map app consume_all_loop final]; erewrite bind_ok by (apply consume_msg; reflexivity); [reflexivity|].
  cbv beta iota. apply IH. lia.
Qed.
Lemma consume_all_fail : forall lf cls db recs m k f, (length recs < f)%nat -> (k < lf)%nat ->
  consume_all_loop net lf cls f (w (B db Failed (answers recs (Breaks m) ++ repeat VIgnored k))) =
  (Ok (Some (VFailure m), Some (ewrap FConn 569 (EFailMsg m))), w (B db Ready [])).
Proof.
  intros lf cls db recs m k. unfold answers. induction recs as [|x recs IH]; intros [|f] Hf Hk; cbn in Hf; try lia;
    cbn [map app consume_all_loop final].
  - erewrite bind_ok by (apply consume_fail; lia). reflexivity.
  - erewrite bind_ok by (apply consume_msg; reflexivity). cbv beta iota. apply IH; lia.
Qed.

(** what RUN and PULL_ALL put in the queue *)
Lemma served_run_pull : forall db q ps q0 db' o, exec db q ps = (db', o) ->
  served (served (B db Ready q0) (VRun q ps)) VPullAll = B db' (end_state [Some o]) (q0 ++ reply1 (Some o)).
Proof.
  intros db q ps q0 db' o E. unfold served at 2. cbn [serve b_db b_st b_q]. rewrite E.
  destruct o as [m|h recs fin]; unfold served; cbn [serve b_db b_st b_q]; rewrite <- app_assoc; [reflexivity|].
  destruct fin; reflexivity.
Qed.
Lemma served_run_pull_failed : forall db q ps q0,
  served (served (B db Failed q0) (VRun q ps)) VPullAll = B db Failed (q0 ++ [VIgnored; VIgnored]).
Proof. intros. unfold served. cbn [serve b_db b_st b_q]. now rewrite <- app_assoc. Qed.

Lemma send_run_ok : forall q ps n, sendable (VRun q ps) = true -> send_run net q ps (w n) = (Ok None, w (served n (VRun q ps))).
Proof. intros. unfold send_run. erewrite bind_ok by (apply encode_ok; auto). reflexivity. Qed.
Lemma send_run_rej : forall q ps n, sendable (VRun q ps) = false ->
  send_run net q ps (w n) = (Ok (Some (ewrap FConn 628 (enew FEnc 0))), w n).
Proof. intros. unfold send_run. erewrite bind_ok by (apply encode_rej; auto). reflexivity. Qed.
Lemma send_pull_ok : forall n, send_pull_all net (w n) = (Ok None, w (served n VPullAll)).
Proof. intros. unfold send_pull_all. erewrite bind_ok by (apply encode_ok; apply Hctl). reflexivity. Qed.
Lemma send_run_pull_ok : forall q ps n, sendable (VRun q ps) = true ->
  send_run_pull_all net q ps (w n) = (Ok None, w (served (served n (VRun q ps)) VPullAll)).
Proof. intros. unfold send_run_pull_all. erewrite bind_ok by (apply send_run_ok; auto). cbv beta iota. apply send_pull_ok. Qed.
Lemma send_run_pull_rej : forall q ps n, sendable (VRun q ps) = false ->
  send_run_pull_all net q ps (w n) = (Ok (Some (ewrap FConn 628 (enew FEnc 0))), w n).
Proof. intros. unfold send_run_pull_all. erewrite bind_ok by (apply send_run_rej; auto). reflexivity. Qed.

(** *** Pipelines *)
Lemma send_queries_failed : forall l qs pss db q0, all_sendable sendable (combine qs pss) = true ->
  send_queries net l qs pss (w (B db Failed q0)) = (Ok None, w (B db Failed (q0 ++ replies (map (fun _ => None) (combine qs pss))))).
Proof.
  intros l. induction qs as [|q qs IH]; intros [|ps pss] db q0 H; cbn [combine map replies flat_map send_queries]; rewrite ?app_nil_r; try reflexivity.
  cbn in H. apply andb_prop in H. destruct H as (H1 & H2).
  erewrite bind_ok by (apply send_run_pull_ok; auto). cbv beta iota. rewrite served_run_pull_failed, IH by auto.
  now rewrite <- app_assoc.
Qed.
Lemma send_queries_ok : forall l qs pss db q0 db' os, all_sendable sendable (combine qs pss) = true -> run_pipe exec db (combine qs pss) = (db', os) ->
  send_queries net l qs pss (w (B db Ready q0)) = (Ok None, w (B db' (end_state os) (q0 ++ replies os))) /\ ordered os /\ length os = length (combine qs pss).
Proof.
  intros l. induction qs as [|q qs IH]; intros [|ps pss] db q0 db' os H E; cbn [combine run_pipe] in E;
    try (injection E as <- <-; cbn; rewrite app_nil_r; (split; [reflexivity|split; [constructor|reflexivity]])).
  cbn in H. apply andb_prop in H. destruct H as (H1 & H2). cbn [send_queries].
  destruct (exec db q ps) as [db1 o] eqn:Eo. destruct (fails o) as [m|] eqn:Ef.
  - injection E as <- <-. split; [|split; [rewrite map_none_repeat; eapply ord_fail; eauto|cbn; rewrite map_length; reflexivity]].
    erewrite bind_ok by (apply send_run_pull_ok; auto). cbv beta iota. rewrite (served_run_pull _ _ _ _ _ _ Eo).
    unfold end_state. cbn [first_failure]. rewrite Ef. rewrite send_queries_failed by auto.
    cbn [replies flat_map]. now rewrite <- app_assoc.
  - destruct (run_pipe exec db1 (combine qs pss)) as [db2 os'] eqn:Er. injection E as <- <-.
    destruct (IH pss db1 (q0 ++ reply1 (Some o)) db2 os' H2 Er) as (IH1 & IH2 & IH3).
    split; [|split; [constructor; auto|cbn; congruence]].
    erewrite bind_ok by (apply send_run_pull_ok; auto). cbv beta iota. rewrite (served_run_pull _ _ _ _ _ _ Eo).
    unfold end_state at 1. cbn [first_failure]. rewrite Ef. rewrite IH1.
    unfold end_state. cbn [first_failure replies flat_map]. rewrite Ef. now rewrite <- app_assoc.
Qed.

(** total number of messages, a bound for the loops *)
Definition room (lf : nat) (l : list goval) : Prop := (length l < lf)%nat.

Lemma exec_results_ok : forall lf cls qs os db, ordered os -> length os = length qs -> room lf (replies os) ->
  match first_failure os with
  | None => exec_results net lf cls qs (w (B db (end_state os) (replies os))) = (Ok (summaries os, None), w (B db Ready []))
  | Some m => exists e, exec_results net lf cls qs (w (B db (end_state os) (replies os))) = (Ok ([], Some e), w (B db Ready [])) /\ failure_error m e
  end.
Proof.
  intros lf cls. unfold room. induction qs as [|q qs IH]; intros os db Ho Hl Hr.
  - destruct os; [|discriminate]. reflexivity.
  - destruct Ho as [|o l Hf Ho|o m n Hf]; [discriminate| |].
    + injection Hl as Hl. destruct o as [|h recs [m|m]]; try discriminate. cbn [first_failure fails] in *.
      assert (Hr' : (length (replies l) < lf)%nat /\ (length recs < lf)%nat).
      { cbn in Hr. unfold answers in Hr. rewrite !app_length, map_length in Hr. unfold replies. lia. }
      destruct Hr' as (Hr1 & Hr2). specialize (IH l db Ho Hl Hr1).
      assert (Es : end_state (Some (Runs h recs (Ends m)) :: l) = end_state l) by reflexivity.
      rewrite Es. cbn [replies flat_map reply1 app]. fold replies. cbn [exec_results].
      destruct (first_failure l) as [m'|] eqn:Ef.
      * destruct IH as (e & IH & He). exists e. split; auto.
        erewrite bind_ok by (apply consume_msg; reflexivity). cbv beta iota.
        erewrite bind_ok by (unfold consume_all; apply consume_all_ok; auto). cbv beta iota.
        erewrite bind_ok by exact IH. reflexivity.
      * erewrite bind_ok by (apply consume_msg; reflexivity). cbv beta iota.
        erewrite bind_ok by (unfold consume_all; apply consume_all_ok; auto). cbv beta iota.
        erewrite bind_ok by exact IH. reflexivity.
    + cbn [first_failure]. rewrite Hf. unfold end_state. cbn [first_failure]. rewrite Hf. cbn [replies flat_map] in Hr |- *. fold (replies (repeat None n)) in Hr |- *.
      rewrite replies_repeat in Hr |- *. destruct o as [m'|h recs [m'|m']]; try discriminate; injection Hf as ->; cbn [reply1 exec_results].
      * eexists. split; [erewrite bind_ok; [|apply (consume_fail lf cls db m (S (2 * n)))]; [reflexivity|]|reflexivity].
        cbn in Hr. rewrite repeat_length in Hr. lia.
      * exists (ewrap FStmt 157 (ewrap FConn 569 (EFailMsg m))). cbn [app]. split; [|reflexivity].
        erewrite bind_ok by (apply consume_msg; reflexivity). cbv beta iota.
        erewrite bind_ok; [|unfold consume_all; apply consume_all_fail]; [reflexivity| |];
        cbn in Hr; unfold answers in Hr; rewrite !app_length, map_length, repeat_length in Hr; lia.
Qed.

(** consumeAllMultiple over the responses of a pipeline, the first RUN being answered already *)
Lemma consume_n_ok : forall lf cls rest recs fin h db, ordered (Some (Runs h recs fin) :: rest) -> room lf (answers recs fin ++ replies rest) ->
  match first_failure (Some (Runs h recs fin) :: rest) with
  | None => consume_all_n net lf cls (1 + 2 * length rest) (w (B db (end_state (Some (Runs h recs fin) :: rest)) (answers recs fin ++ replies rest))) = (Ok None, w (B db Ready []))
  | Some m => exists e, consume_all_n net lf cls (1 + 2 * length rest) (w (B db (end_state (Some (Runs h recs fin) :: rest)) (answers recs fin ++ replies rest))) =
                  (Ok (Some e), w (B db Ready [])) /\ failure_error m e
  end.
Proof.
  intros lf cls. unfold room. induction rest as [|x rest IH]; intros recs fin h db Ho Hr.
  - destruct fin as [m|m]; cbn [first_failure fails].
    + cbn [Nat.mul Nat.add length consume_all_n]. erewrite bind_ok; [|unfold consume_all; apply consume_all_ok]; [reflexivity|].
      rewrite app_length in Hr. unfold answers in Hr. rewrite app_length, map_length in Hr. lia.
    + exists (ewrap FConn 569 (EFailMsg m)). split; [|reflexivity]. cbn [Nat.mul Nat.add length consume_all_n].
      erewrite bind_ok; [|unfold consume_all; apply (consume_all_fail lf cls db recs m 0)]; [reflexivity| |];
      rewrite app_length in Hr; unfold answers in Hr; rewrite app_length, map_length in Hr; cbn in *; lia.
  - rewrite app_length in Hr. unfold answers in Hr at 1. rewrite app_length, map_length in Hr. cbn [length] in Hr.
    inversion Ho as [|o l Hf Ho' E1|o m n Hf E1]; subst.
    + destruct fin as [m|m]; try discriminate Hf. cbn [length]. replace (1 + 2 * S (length rest))%nat with (S (S (1 + 2 * length rest))) by lia. remember (1 + 2 * length rest)%nat as g eqn:Eg.
      assert (E : end_state (Some (Runs h recs (Ends m)) :: x :: rest) = end_state (x :: rest)) by reflexivity. rewrite E.
      change (first_failure (Some (Runs h recs (Ends m)) :: x :: rest)) with (first_failure (x :: rest)).
      inversion Ho' as [|o l Hf' Ho'' E1|o m' n Hf' E1]; subst.
      * destruct o as [|h' recs' [m'|m']]; try discriminate Hf'.
        specialize (IH recs' (Ends m') h' db (ord_ok (Runs h' recs' (Ends m')) rest eq_refl Ho'')).
        assert (Hr' : (length (answers recs' (Ends m') ++ replies rest) < lf)%nat).
        { cbn [replies flat_map reply1] in Hr. rewrite !app_length in Hr |- *. cbn [length] in Hr. unfold replies. lia. }
        specialize (IH Hr').
        cbn [replies flat_map reply1 app] in *. fold replies.
        destruct (first_failure (Some (Runs h' recs' (Ends m')) :: rest)) as [mf|].
        -- destruct IH as (e & IH & He). exists e. split; [|exact He].
           cbn [consume_all_n]. erewrite bind_ok; [|unfold consume_all; apply consume_all_ok; lia].
           cbv beta iota. erewrite bind_ok; [|unfold consume_all; apply (consume_all_ok lf cls db _ [] h'); cbn; lia]. exact IH.
        -- cbn [consume_all_n]. erewrite bind_ok; [|unfold consume_all; apply consume_all_ok; lia].
           cbv beta iota. erewrite bind_ok; [|unfold consume_all; apply (consume_all_ok lf cls db _ [] h'); cbn; lia]. exact IH.
      * cbn [first_failure]. rewrite Hf'. unfold end_state. cbn [first_failure]. rewrite Hf'. cbn [replies flat_map] in *. fold (replies (repeat None n)) in *.
        rewrite replies_repeat in *. destruct o as [m1|h' recs' [m1|m1]]; try discriminate Hf'; injection Hf' as ->; cbn [reply1 app] in *.
        -- exists (ewrap FConn 569 (EFailMsg m')). split; [|reflexivity]. cbn [consume_all_n]. erewrite bind_ok; [|unfold consume_all; apply consume_all_ok; lia].
           cbv beta iota. erewrite bind_ok; [|unfold consume_all; apply (consume_all_fail lf cls db [] m' (S (2 * n))); cbn in *; rewrite ?repeat_length in *; lia].
           reflexivity.
        -- exists (ewrap FConn 569 (EFailMsg m')). split; [|reflexivity]. cbn [consume_all_n]. erewrite bind_ok; [|unfold consume_all; apply consume_all_ok; lia].
           cbv beta iota. erewrite bind_ok; [|unfold consume_all; apply (consume_all_ok lf cls db _ [] h'); cbn; lia].
           cbv beta iota. replace (1 + 2 * length (repeat (@None outcome) n))%nat with (S (2 * length (repeat (@None outcome) n))) by lia. cbn [consume_all_n].
           erewrite bind_ok; [|unfold consume_all; apply consume_all_fail]; [reflexivity| |];
           cbn [length] in Hr; rewrite app_length, repeat_length in Hr; unfold answers in Hr; rewrite app_length, map_length in Hr; lia.
    + destruct fin as [m'|m']; try discriminate Hf. injection Hf as ->. cbn [first_failure fails]. unfold end_state. cbn [first_failure fails].
      destruct n as [|n]; [discriminate|]. match goal with H : repeat None (S n) = _ |- _ => cbn [repeat] in H; injection H as <- <- end.
      change (None :: repeat None n) with (repeat (@None outcome) (S n)) in *. rewrite replies_repeat in *.
      exists (ewrap FConn 569 (EFailMsg m)). split; [|reflexivity]. replace (1 + 2 * length (repeat (@None outcome) (S n)))%nat with (S (2 * length (repeat (@None outcome) (S n)))) by lia. cbn [consume_all_n].
      rewrite repeat_length in Hr.
      erewrite bind_ok; [|unfold consume_all; apply consume_all_fail; lia]. reflexivity.
Qed.
End World.
End Bolt.
