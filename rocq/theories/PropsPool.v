(** The connection pool: C41 to C47 and C57.  [reach P s]: the pool can get into the state
    [s] by steps of any number of goroutines, all of which satisfy [P] (Pool.v, PoolInv.v). *)
From Coq Require Import ZArith List Bool Arith Lia.
From Verif Require Import GoPrims Value Errors Misc Session SessionVoc SessionGen SessionFuel ServerSpec SessionSpec SessionBolt SessionRefine SessionUse SessionLimits
  Pool PoolInv PoolMore PoolLink PoolLive PropsSession PropsBolt.
Import ListNotations.
Open Scope nat_scope.

(** ** C41 *)
(** Careful callers and a server that does not make initialize put the connection back twice:
    never more than the pool's size in use and in the pool. *)
Theorem C41_partial_bound : forall s, reach orderly s -> length (p_out s) + length (p_chan s) <= p_max s.
Proof. intros s R. pose proof (i_max _ (Inv_reach _ R)) as Hm. unfold toks, kept in Hm. rewrite !app_length in Hm. lia. Qed.
Print Assumptions C41_partial_bound.
(** Returning a connection finds room in the channel. *)
Theorem C41_partial_no_blocking : forall s t os, reach orderly s -> nth_error (p_pcs s) t = Some (CPut os) \/ nth_error (p_pcs s) t = Some (OPut os) ->
  exists s', pstep s (ASend t) = Some s'.
Proof.
  intros s t os R E. pose proof (i_max _ (Inv_reach _ R)) as Hm. pose proof (n_put _ (InvN_reach _ _ R) t) as (Hn1 & Hn2).
  destruct os as [|o os]; [destruct E; contradiction|].
  assert (L : length (p_chan s) < p_max s).
  { unfold toks, kept in Hm. rewrite !app_length in Hm. assert (X : In o (flat_map mid (p_pcs s))).
    { apply in_flat_map. destruct E as [E|E]; (eexists; split; [eapply nth_error_In; exact E|left; reflexivity]). }
    destruct (flat_map mid (p_pcs s)); [contradiction|]. cbn [length] in Hm. lia. }
  cbn [pstep]. apply Nat.ltb_lt in L. rewrite L. destruct E as [E|E]; rewrite E; eexists; reflexivity.
Qed.
Print Assumptions C41_partial_no_blocking.
(** The pool machine covers what the connections do: initialize puts the connection back not
    at all when it succeeds, once or twice when it fails after dialling; a call puts it back with
    connErr as errs_ok allows. *)
Theorem C41_initialize : forall N (ops : netops N) f user pw n e w', initialize ops f (close ops f) user pw (fresh true n) = (Ok e, w') ->
  match e with
  | None => c_reclaims (w_conn w') = []
  | Some _ => length (c_reclaims (w_conn w')) = 1 \/ length (c_reclaims (w_conn w')) = 2
  end.
Proof. intros. eapply initialize_matches; eauto. Qed.
Print Assumptions C41_initialize.
Theorem C41_calls : forall N (ops : netops N) mk f o w r w', step ops mk f o w = (r, w') ->
  exists es, c_reclaims (w_conn w') = c_reclaims (w_conn w) ++ es /\ (c_pooled (w_conn w) = false -> es = []) /\
    errs_ok (c_err (w_conn w)) (met_of (c_err (w_conn w)) (c_err (w_conn w'))) es = true /\
    c_err (w_conn w') = match met_of (c_err (w_conn w)) (c_err (w_conn w')) with MErr => true | _ => c_err (w_conn w) end.
Proof. intros. eapply call_matches; eauto. Qed.
Print Assumptions C41_calls.
(** Twice happens: the server refuses INIT and answers ACK_FAILURE with something other
    than SUCCESS, FAILURE or IGNORED, or with FAILURE and so RESET. *)
Theorem C41_refuted_initialize_twice : forall f user pw m m1 m2 fs l,
  (exists e w', initialize script (S (S f)) (close script (S (S f))) user pw (fresh true (RMsg (VFailure m) :: RMsg (VRecord fs) :: l)) = (Ok (Some e), w') /\
     c_reclaims (w_conn w') = [true; true]) /\
  (exists e w', initialize script (S (S f)) (close script (S (S f))) user pw (fresh true (RMsg (VFailure m) :: RMsg (VFailure m1) :: RMsg (VFailure m2) :: l)) = (Ok (Some e), w') /\
     c_reclaims (w_conn w') = [false; false]).
Proof. intros. split; do 2 eexists; (split; [lazy; reflexivity|lazy; reflexivity]). Qed.
Print Assumptions C41_refuted_initialize_twice.
(** Then the pool never does anything again, whatever its size and whatever happens later:
    every OpenPool and Close waits for ever. *)
Definition jam (e1 e2 : bool) : list action := [AOpen 0; ALock 0; ARecv 0; AInit 0 false (IHalf [e1; e2]); ASend 0].
Lemma jam_runs : forall q h pcs e1 e2, (forall c, In c pcs -> c = Idle) ->
  let s0 := Pool (S (length q)) None false (0 :: q) [] (blank :: h) [] (Idle :: pcs) [] [] [] in
  all_runs careful s0 (jam e1 e2) = true /\ exists s, pruns s0 (jam e1 e2) = Some s /\ jammed s 0 /\ p_out s = [] /\ p_log s = [].
Proof.
  intros q h pcs e1 e2 Hp s0. set (ob := Obj (Some 0) false false true).
  set (hp := snd (put_back ob [e1; e2] (ob :: h))). set (l := S (length h)).
  set (s4 := Pool (S (length q)) (Some 0) false q [] hp [Netc false false false] (OPut [l; length ((ob :: h) ++ [reclaimed (o_with_err e1 ob)])] :: pcs) [] [] []).
  set (s5 := Pool (S (length q)) (Some 0) false (q ++ [l]) [] hp [Netc false false false] (OPut [length ((ob :: h) ++ [reclaimed (o_with_err e1 ob)])] :: pcs) [] [] []).
  assert (R4 : pruns s0 (removelast (jam e1 e2)) = Some s4) by reflexivity.
  assert (R5 : pruns s4 [ASend 0] = Some s5).
  { cbn [pruns pstep]. replace (length (p_chan s4) <? p_max s4) with true by (symmetry; apply Nat.ltb_lt; cbn; lia). reflexivity. }
  assert (J : jam e1 e2 = removelast (jam e1 e2) ++ [ASend 0]) by reflexivity. split.
  - rewrite J. apply all_runs_app; [reflexivity|]. rewrite R4. cbn [all_runs careful andb]. destruct (pstep s4 (ASend 0)); reflexivity.
  - exists s5. rewrite J, pruns_app, R4. split; [exact R5|]. repeat split.
    + eexists. reflexivity.
    + cbn. rewrite app_length. cbn. lia.
    + intros [|t'] c E; cbn in E; auto. right. apply nth_error_In, Hp in E. subst c. reflexivity.
Qed.
Theorem C41_refuted : forall max n e1 e2, exists l s, all_runs careful (new_pool (S max) (S n)) l = true /\ pruns (new_pool (S max) (S n)) l = Some s /\
  In (AInit 0 false (IHalf [e1; e2])) l /\ p_out s = [] /\ p_log s = [] /\
  forall l' s', pruns s l' = Some s' -> p_log s' = [] /\ exists os, nth_error (p_pcs s') 0 = Some (OPut os).
Proof.
  intros max n e1 e2. pose proof (jam_runs (seq 1 max) (repeat blank max) (repeat Idle n) e1 e2 (repeat_spec n Idle)) as (A & s & R & J & Ho & Hl).
  rewrite seq_length in A, R. exists (jam e1 e2), s. split; [exact A|]. split; [exact R|]. split; [cbn; auto|]. split; [exact Ho|]. split; [exact Hl|].
  intros l' s' R'. destruct (jammed_forever _ _ _ _ J R') as ((_ & X & _) & Y). split; [congruence|exact X].
Qed.
Print Assumptions C41_refuted.
(** Closing twice: the second Close of the only connection waits for ever if nobody else takes
    a connection. *)
Theorem C41_refuted_double_close : exists l s, pruns (new_pool 1 1) l = Some s /\ all_runs (fun _ a => polite a) (new_pool 1 1) l = true /\
  nth_error (p_pcs s) 0 = Some (CPut [2]) /\ forall a, pstep s a = None.
Proof.
  exists (open1 ++ [ACall 0 0 MNothing [false]; ASend 0; ACall 0 0 MNothing [false]]). eexists. split; [vm_compute; reflexivity|]. split; [vm_compute; reflexivity|]. split; [reflexivity|].
  intros a. match goal with |- pstep ?s a = None => destruct (pstep s a) as [s2|] eqn:T; [|reflexivity] end. exfalso. apply pstep_inv in T.
  inversion T; subst; cbn in *; try lia; match goal with E : nth_error [_] ?t = Some _ |- _ => destruct t as [|[|?]]; cbn in E; discriminate end.
Qed.
Print Assumptions C41_refuted_double_close.

(** ** C42 *)
Theorem C42_partial : forall s x y obx oby n, reach orderly s -> In x (p_out s) -> In y (p_out s) ->
  nth_error (p_heap s) x = Some obx -> nth_error (p_heap s) y = Some oby -> o_net obx = Some n -> o_net oby = Some n -> x = y.
Proof.
  intros s x y obx oby n R Hx Hy Ex Ey Nx Ny. apply cn_in in Hx. apply cn_in in Hy. eapply (i_excl _ (Inv_reach _ R) x y); eauto; unfold O; lia.
Qed.
Print Assumptions C42_partial.
(** each is in use once *)
Theorem C42_partial_once : forall s, reach orderly s -> NoDup (p_out s).
Proof. intros s R. apply (NoDup_count_occ Nat.eq_dec). intros x. pose proof (i_one _ (Inv_reach _ R) x). unfold O, cn in H. lia. Qed.
Print Assumptions C42_partial_once.
(** Closing one connection twice: the next two users share its network connection. *)
Theorem C42_refuted : exists l s x y n, pruns (new_pool 2 1) l = Some s /\ all_runs (fun _ a => polite a) (new_pool 2 1) l = true /\
  In x (p_out s) /\ In y (p_out s) /\ x <> y /\
  option_map o_net (nth_error (p_heap s) x) = Some (Some n) /\ option_map o_net (nth_error (p_heap s) y) = Some (Some n).
Proof.
  exists (open1 ++ open1 ++ [ACall 0 0 MNothing [false]; ASend 0; ACall 0 0 MNothing [false]; ASend 0] ++ open1 ++ open1).
  eexists. exists 2, 3, 0. split; [vm_compute; reflexivity|]. split; [vm_compute; reflexivity|]. cbn. repeat split; auto; discriminate.
Qed.
Print Assumptions C42_refuted.

(** ** C43 *)
(** On every network: Close of a pooled connection with nothing open changes nothing about it
    (except that a copy is in the pool now). *)
Theorem C43_refuted_any_network : forall N (ops : netops N) mk f w, c_pooled (w_conn w) = true -> c_closed (w_conn w) = false -> c_stmt (w_conn w) = None -> c_tx (w_conn w) = None ->
  step ops mk (S f) CClose w = (Ok (OErr None), Build_world (c_reclaimed (w_conn w)) (w_stmts w) (w_rows w) (w_txs w) (w_net w)).
Proof.
  intros N ops mk f w H1 H2 H3 H4. unfold step. cbn [step_body close]. unfold close_body, bind, getc, ret. rewrite H2, H3, H4, H1. reflexivity.
Qed.
Print Assumptions C43_refuted_any_network.
(** Connections without a pool (and those the pool's Close has closed) do refuse: [closes a
    connection] and whatever happens then, every operation returns an error and sends nothing. *)
Theorem C43_partial : forall N (ops : netops N) mk f os n w1 mk' f' os' o,
  let w0 := snd (run ops mk f os (fresh false n)) in
  step ops mk f CClose w0 = (Ok (OErr None), w1) ->
  let w := snd (run ops mk' f' os' w1) in
  args_ok mk' o -> conn_work o = true \/ (exists i, stmt_is true w i /\ stmt_work i o) ->
  exists r, step ops mk' f' o w = (Ok r, w) /\ refused r.
Proof. intros. eapply C26_closed_refuses; eauto. Qed.
Print Assumptions C43_partial.
Section Bolt.
Context {DB : Type}.
Variable exec : DB -> str -> md -> DB * outcome.
Variable sendable : goval -> bool.
Variable mk : bool.
Hypothesis Hctl : controls sendable.
Notation calls := (calls exec sendable mk).
Notation does := (does exec sendable mk).
Notation run1 := (calls_one exec sendable mk).

(** With a server: queries on the closed connection are run as before. *)
Theorem C43_refuted : forall w db q ps db' h recs m, quiet w db -> c_pooled (w_conn w) = true -> sendable (VRun q ps) = true -> exec db q ps = (db', Runs h recs (Ends m)) ->
  exists w', calls w [CClose; CExec q ps] [OErr None; OResult (Some m) None] w' /\ w_net w' = Build_bnet db' Ready [].
Proof.
  intros w db q ps db' h recs m Hq Hp Hs Hx. assert (Q := Hq). destruct Q as (Q1 & Q2 & Q3 & Q4).
  set (w1 := Build_world (c_reclaimed (w_conn w)) (w_stmts w) (w_rows w) (w_txs w) (w_net w)).
  assert (Hd : does CClose w (OErr None) w1) by (exists 1; apply C43_refuted_any_network; auto).
  assert (Hq1 : quiet w1 db) by (repeat split; auto).
  pose proof (fun a k => step_at exec sendable mk Hctl _ _ _ (CExec q ps) a k (quiet_rel w1 db Hq1)) as Hst. edestruct Hst as (r & w2 & Hd2 & Hr & HR); clear Hst.
  { cbn [expect conn_op at_rest sp_phase]. unfold run_exec. rewrite Hs. cbn [at_rest sp_db]. rewrite Hx. reflexivity. }
  cbn in Hr. subst r. exists w2. split.
  - eapply (calls_cons exec sendable mk); [exact Hd|]. apply run1. exact Hd2.
  - destruct (rel_quiet _ _ _ HR eq_refl) as (_ & _ & _ & X). exact X.
Qed.

(** ** C46 *)
(** The state of the abstract machine (SessionSpec.v) after a history with its results. *)
Fixpoint machine (pooled : bool) (st : sst DB) (os : list op) (rs : list out) : option (sst DB) :=
  match os, rs with
  | [], [] => Some st
  | o :: os, r :: rs => match expect exec sendable mk pooled st o with Some (_, k) => machine pooled (k (handle_of r)) os rs | None => None end
  | _, _ => None
  end.
Lemma machine_rel : forall pooled os rs w st st' w', Rel pooled w st -> calls w os rs w' -> machine pooled st os rs = Some st' -> Rel pooled w' st'.
Proof.
  intros pooled. induction os as [|o os IH]; intros rs w st st' w' HR (f0 & Hc) Hm.
  - specialize (Hc f0 (le_n _)). cbn in Hc. injection Hc as <- <-. cbn in Hm. injection Hm as <-. exact HR.
  - destruct rs as [|r rs]; [discriminate|]. cbn [machine] in Hm. destruct (expect exec sendable mk pooled st o) as [[a k]|] eqn:E; [|discriminate].
    destruct (refine_step exec sendable mk pooled Hctl w st o a k HR E) as (r1 & w1 & (f1 & Hs) & _ & HR1).
    assert (Hrun : forall f, Nat.max f0 f1 <= f -> run (bolt exec sendable) mk f os w1 = (rs, Ok tt, w') /\ r1 = r).
    { intros f Hf. specialize (Hc f ltac:(lia)). cbn [run] in Hc. rewrite (step_fuel _ mk f1 f o w r1 w1) in Hc by (auto; lia).
      destruct (run (bolt exec sendable) mk f os w1) as [[l x] w2]. injection Hc as <- <- -> ->. auto. }
    destruct (Hrun _ (le_n _)) as (_ & ->). apply (IH rs w1 (k (handle_of r))); auto. exists (Nat.max f0 f1). intros f Hf. apply Hrun. exact Hf.
Qed.
(** Whatever the history of a pooled connection: when the machine promises that Close returns
    nil (rows of QueryNeo were read or closed, transactions were finished), the connection that
    goes back is quiet: nothing unread, no statement, no transaction. *)
Theorem C46_partial : forall w db os rs w1 st k, quiet w db -> c_pooled (w_conn w) = true -> calls w os rs w1 ->
  machine true (at_rest db PIdle None) os rs = Some st -> expect exec sendable mk true st CClose = Some (ANil, k) ->
  sp_tx st = None /\ exists w2, calls w1 [CClose] [OErr None] w2 /\ quiet w2 (sp_db (k 0)).
Proof.
  intros w db os rs w1 st k Hq Hp Hc Hm He. pose proof (quiet_rel w db Hq) as HR. rewrite Hp in HR. pose proof (machine_rel true os rs w _ st w1 HR Hc Hm) as HR1.
  assert (Hk : sp_tx st = None /\ forall i, sp_phase (k i) = PClosed /\ k i = k 0).
  { cbn [expect] in He. unfold close_op, close_open, says in He. destruct (sp_phase st) as [|s kk|[[s kk]|] r h x|[]|]; try discriminate; destruct (sp_tx st); try discriminate.
    - injection He as <-. auto. - injection He as <-. auto. - destruct (drain x); [discriminate|]. injection He as <-. auto. - destruct x; try discriminate; injection He as <-; auto. - injection He as <-. auto. }
  destruct Hk as (Ht & Hk). split; [exact Ht|].
  destruct (refine_step exec sendable mk true Hctl w1 st CClose ANil k HR1 He) as (r & w2 & Hd & Hr & HR2). cbn in Hr. subst r.
  exists w2. split; [apply run1; exact Hd|]. cbn [handle_of] in HR2. destruct HR2 as (X1 & _ & _ & _ & _ & _ & X).
  match type of X with phase_rel _ _ _ (sp_phase (k ?i)) => destruct (Hk i) as (Y1 & Y2) end. rewrite Y1 in X. destruct X as (_ & _ & X). destruct (X eq_refl) as (X2 & X3 & X4).
  repeat split; auto.
Qed.
(** Rows of QueryNeo left open: Close returns nil, all the answers of the query are left for
    the next user. *)
Theorem C46_refuted_rows : forall w db q ps db' h recs fin, quiet w db -> c_pooled (w_conn w) = true -> sendable (VRun q ps) = true -> exec db q ps = (db', Runs h recs fin) ->
  exists r w', calls w [CQuery q ps; CClose] [OHandle (Some r) None; OErr None] w' /\
    c_closed (w_conn w') = false /\ c_stmt (w_conn w') = None /\ w_net w' = Build_bnet db' (after_stream fin) (answers recs fin) /\ b_q (w_net w') <> [].
Proof.
  intros w db q ps db' h recs fin (H1 & H2 & H3 & H4) Hp Hs Hx. destruct w as [c ss rs ts n]. cbn [w_conn w_net] in *. subst n.
  assert (Hi : idle c) by (split; auto).
  pose proof (fun lf cls Hl => idle_query exec sendable Hctl lf cls c ss rs ts q ps db db' _ Hi Hx Hl Hs) as Hqn.
  exists (length rs). eexists. split.
  - eapply (calls_cons exec sendable mk).
    + exists 2. unfold step. cbn [step_body]. erewrite bind_ok by (apply Hqn; lia). reflexivity.
    + apply run1. exists 1. unfold step. cbn [step_body close]. erewrite bind_ok; [reflexivity|].
      unfold close_body. rewrite bind_getc. cbn [w_conn with_stmt c_set_stmt c_closed c_stmt]. rewrite H1.
      erewrite bind_ok. 2:{ apply (stmt_close_plain exec sendable 0 (close (bolt exec sendable) 0)) with (k := One q) (ro := Some (length rs)).
        - eapply nth_upd_same. apply nth_app_new.
        - eexists. split; [apply nth_app_new|left; reflexivity]. }
      cbv beta iota. rewrite bind_getc. cbn [w_conn c_set_stmt with_stmt c_tx]. rewrite H3. erewrite bind_ok by reflexivity. cbv beta iota. rewrite bind_getc. cbn [w_conn c_set_stmt with_stmt c_pooled]. rewrite Hp. rewrite bind_modc. reflexivity.
  - cbn. split; [exact H1|]. split; [reflexivity|]. split; [reflexivity|]. destruct recs; discriminate.
Qed.
(** A transaction left open: the next user works inside it. *)
Theorem C46_refuted_transaction : forall w db db1, quiet w db -> c_pooled (w_conn w) = true -> begin_works exec db db1 ->
  exists t w', calls w [CBegin; CClose] [OHandle (Some t) None; OErr None] w' /\ quiet w' db1 /\ nth_error (w_txs w') t = Some {| t_closed := false |}.
Proof.
  intros w db db1 Hq Hp Hb. destruct (begin_call exec sendable mk Hctl w db db1 Hq Hb) as (t & w1 & Hd & Hq1 & Ht).
  assert (Hp1 : c_pooled (w_conn w1) = true). { pose proof (does_mono exec sendable mk _ _ _ _ Hd) as ((_ & _ & X) & _). congruence. }
  destruct Hq1 as (Q1 & Q2 & Q3 & Q4). exists t. eexists. split; [|split].
  - eapply (calls_cons exec sendable mk); [exact Hd|]. apply run1. exists 1. apply C43_refuted_any_network; auto.
  - repeat split; auto.
  - exact Ht.
Qed.
End Bolt.
Print Assumptions C43_refuted.
Print Assumptions C46_partial.
Print Assumptions C46_refuted_rows.
Print Assumptions C46_refuted_transaction.

(** ** C44 *)
Lemma log_handed : forall P s, reach P s -> forall t x, In (Got t x) (p_log s) -> In x (p_handed s).
Proof.
  intros P s R. induction R as [max n|s a s' R IH _ T]; [intros t x []|]. intros t x X. apply pstep_inv in T.
  destruct T; cbn in *; eauto; apply in_app_or in X; destruct X as [X|[X|[]]]; try discriminate X; eauto. injection X as <- <-. auto.
Qed.
(** When initialize fails after dialling only with connErr set (as for every failure to write
    or read, conn.go:330-377), every connection OpenPool has returned has a network connection
    on which INIT succeeded. *)
Theorem C44_partial : forall s t x, reach (fun _ a => marked a) s -> In (Got t x) (p_log s) ->
  exists ob n, nth_error (p_heap s) x = Some ob /\ o_net ob = Some n /\ ready_net s n.
Proof.
  intros s t x R Hg. pose proof (log_handed _ _ R _ _ Hg) as Hh. apply cn_in in Hh. pose proof (InvB_reach _ _ R) as IB.
  assert (Hx : x < length (p_heap s)) by (apply (b_in _ IB); unfold PoolInv.H; lia).
  destruct (nth_error (p_heap s) x) as [ob|] eqn:E; [|apply nth_error_None in E; lia].
  destruct (o_net ob) as [n|] eqn:En; [|exfalso; eapply (n_net _ (InvN_reach _ _ R) x ob); eauto; unfold PoolInv.H; lia].
  exists ob, n. split; [reflexivity|]. split; [exact En|]. eapply (InvR_reach _ R x); eauto. unfold S', PoolInv.H. lia.
Qed.
Print Assumptions C44_partial.
(** The server refuses INIT and acknowledges ACK_FAILURE (what Bolt prescribes): initialize
    returns the error and puts the connection back with connErr unset ... *)
Theorem C44_refuted_initialize : forall f user pw m m1 l,
  exists e w', initialize script (S (S f)) (close script (S (S f))) user pw (fresh true (RMsg (VFailure m) :: RMsg (VSuccess m1) :: l)) = (Ok (Some e), w') /\
    c_reclaims (w_conn w') = [false] /\ c_closed (w_conn w') = false.
Proof. intros. do 2 eexists. split; [lazy; reflexivity|]. split; lazy; reflexivity. Qed.
Print Assumptions C44_refuted_initialize.
(** ... and the next OpenPool returns that connection without initialising it. *)
Theorem C44_refuted : exists l s, pruns (new_pool 1 1) ([AOpen 0; ALock 0; ARecv 0; AInit 0 false (IHalf [false]); ASend 0; ARet 0] ++ l) = Some s /\
  all_runs flawless (new_pool 1 1) ([AOpen 0; ALock 0; ARecv 0; AInit 0 false (IHalf [false]); ASend 0; ARet 0] ++ l) = true /\
  p_log s = [Refused 0; Got 0 1] /\ nth_error (p_heap s) 1 = Some (Obj (Some 0) false false true) /\ p_nets s = [Netc false false false].
Proof.
  exists [AOpen 0; ALock 0; ARecv 0; AInit 0 false IReady; ARet 0]. eexists. split; [vm_compute; reflexivity|]. split; [vm_compute; reflexivity|]. repeat split.
Qed.
Print Assumptions C44_refuted.

(** ** C45 *)
(** Once Close has returned (with or without an error) no OpenPool returns a connection ... *)
Theorem C45_partial_closed : forall P s t ok l s', reach P s -> In (PoolClosed t ok) (p_log s) -> pruns s l = Some s' ->
  exists es, p_log s' = p_log s ++ es /\ forall t o, ~ In (Got t o) es.
Proof.
  intros P s t ok l s' R Hc Hr. eapply closed_runs_log; [eapply InvL_reach; exact R| |exact Hr]. exact (proj1 (log_ok_reach _ _ R) _ _ Hc).
Qed.
Print Assumptions C45_partial_closed.
(** ... and each returns an error as soon as it has the lock. *)
Theorem C45_partial_refuses : forall P s t ok u, reach P s -> In (PoolClosed t ok) (p_log s) -> nth_error (p_pcs s) u = Some OWait -> p_lock s = None ->
  exists s', pruns s [ALock u; ARet u] = Some s' /\ p_log s' = p_log s ++ [Refused u].
Proof.
  intros P s t ok u R Hc Hu Hl. pose proof (proj1 (log_ok_reach _ _ R) _ _ Hc) as Cl. cbn [pruns pstep]. rewrite Hu, Hl, Cl. cbn [pstep with_lock with_pc p_pcs].
  erewrite nth_upd_same by exact Hu. eexists. split; reflexivity.
Qed.
Print Assumptions C45_partial_refuses.
(** Close, once it gets the lock, is never held up: whatever closing a connection does, the
    next step of its loop is possible ... *)
Theorem C45_partial_never_held_up : forall P s t os r, reach P s -> nth_error (p_pcs s) t = Some (PLoop os) -> exists s', pstep s (AShut t r) = Some s'.
Proof.
  intros P s t os r R E. cbn [pstep]. rewrite E. destruct os as [|o os]; [eexists; reflexivity|].
  pose proof (InvB_reach _ _ R) as IB. pose proof (b_loop _ IB _ _ E o (or_introl eq_refl)) as Ho. pose proof (b_refs _ IB _ Ho) as Hg.
  assert (Hx : o < length (p_heap s)) by (apply (b_in _ IB); lia).
  destruct (nth_error (p_heap s) o) as [ob|] eqn:Eo; [|apply nth_error_None in Eo; lia]. destruct (o_closed ob); [eexists; reflexivity|]. destruct r; eexists; reflexivity.
Qed.
Print Assumptions C45_partial_never_held_up.
(** ... and if nothing fails Close returns nil. *)
Theorem C45_partial_returns : forall P s t, reach P s -> nth_error (p_pcs s) t = Some PWait -> p_lock s = None ->
  exists l s', pruns s l = Some s' /\ In (PoolClosed t true) (p_log s') /\ forall a, In a l -> a = ALock t \/ a = AShut t ShOk \/ a = ARet t.
Proof.
  intros P s t R E Hl. pose proof (InvB_reach _ _ R) as IB. set (s1 := with_lock (Some t) (with_pc t (PLoop (p_refs s)) s)).
  assert (E1 : pstep s (ALock t) = Some s1) by (cbn [pstep]; rewrite E, Hl; reflexivity).
  destruct (loop_runs (p_refs s) s1 t) as (s' & R' & L').
  { unfold s1. cbn. eapply nth_upd_same; eauto. }
  { intros o Ho. unfold s1. cbn. apply (b_in _ IB). pose proof (b_refs _ IB _ Ho). lia. }
  exists (ALock t :: repeat (AShut t ShOk) (S (length (p_refs s))) ++ [ARet t]), s'. cbn [pruns]. rewrite E1. split; [exact R'|]. split; [exact L'|].
  intros a [<-|Ha]; [auto|]. apply in_app_or in Ha. destruct Ha as [Ha|[<-|[]]]; [|auto]. apply repeat_spec in Ha. auto.
Qed.
Print Assumptions C45_partial_returns.
(** For every pool size: one goroutine has taken all connections and calls Close, another has
    called OpenPool before: both wait for ever, nothing else can happen. *)
Theorem C45_refuted : forall max, exists l s, all_runs flawless (new_pool max 2) l = true /\ pruns (new_pool max 2) l = Some s /\
  p_pcs s = [PWait; ORecv] /\ forall a, pstep s a = None.
Proof. exact standstill. Qed.
Print Assumptions C45_refuted.
(** With more goroutines: while an OpenPool waits for a connection no OpenPool and no Close returns
    until somebody gives a connection back. *)
Theorem C45_refuted_while_waiting : forall s t l s', starved s t -> forallb (fun a => negb (returns a)) l = true -> pruns s l = Some s' -> p_log s' = p_log s.
Proof. intros s t l s' St Hl Hr. eapply starved_on; eauto. Qed.
Print Assumptions C45_refuted_while_waiting.

(** ** C47 *)
(** Careful callers, no end of stream, and network errors met before the connection is given
    back: no connection in the pool, on its way to it or about to be returned by OpenPool has a network
    connection on which a network error occurred ... *)
Theorem C47_partial : forall s x ob n, reach flawless s -> In x (p_chan s) \/ (exists t, nth_error (p_pcs s) t = Some (OGive x)) ->
  nth_error (p_heap s) x = Some ob -> o_net ob = Some n -> ~ broken_net s n.
Proof.
  intros s x ob n R Hx Eo En Hb. assert (RO : reach orderly s). { eapply reach_weaken; [|exact R]. intros s0 a0 X. now apply andb_prop in X. }
  assert (Hk : K s x + G s x > 0).
  { destruct Hx as [Hx|(t & Hx)].
    - apply cn_in in Hx. unfold K, kept. rewrite cn_app. lia.
    - assert (X : In x (gives s)) by (apply in_flat_map; eexists; split; [eapply nth_error_In; exact Hx|left; reflexivity]). apply cn_in in X. unfold G. lia. }
  destruct (InvW_reach _ R x ob n) as (X & _); auto; [unfold sum; lia|]. pose proof (i_one _ (Inv_reach _ RO) x). lia.
Qed.
Print Assumptions C47_partial.
(** ... and a call that meets a network error and then gives its connection back puts a
    new one, not connected, in its place. *)
Theorem C47_partial_replaced : forall s t x ob s', nth_error (p_heap s) x = Some ob -> o_closed ob = false -> o_pool ob = true ->
  pstep s (ACall t x MErr [true]) = Some s' -> exists i, nth_error (p_pcs s') t = Some (CPut [i]) /\ nth_error (p_heap s') i = Some blank.
Proof.
  intros s t x ob s' Eo Ec Ep T. cbn [pstep] in T. destruct (nth_error (p_pcs s) t) as [[]|] eqn:Et; try discriminate. rewrite Eo in T.
  destruct (existsb (Nat.eqb x) (p_handed s)); [|discriminate]. cbn [andb] in T. destruct (errs_ok (o_err ob) MErr [true]); [|discriminate]. rewrite Ec, Ep in T.
  cbn [put_back] in T. injection T as <-. cbn. exists (length (upd x (o_with_err true ob) (p_heap s))). split; [eapply nth_upd_same; eauto|].
  rewrite nth_error_app2, Nat.sub_diag by auto. cbn. reflexivity.
Qed.
Print Assumptions C47_partial_replaced.
(** The end of the stream leaves connErr unset (conn.go:330-333): the connection is given back
    as it is ... *)
Theorem C47_refuted_end_of_stream : forall mk f q l,
  exists e w', run script mk (S (S (S f))) [CExec q []; CClose] (fresh true (RDec None (EDrv FDec 45 (Some EEOF)) :: l)) = ([OResult None (Some e); OErr None], Ok tt, w') /\
    innermost e = EEOF /\ c_reclaims (w_conn w') = [false].
Proof. intros. do 2 eexists. split; [lazy; reflexivity|]. split; lazy; reflexivity. Qed.
Print Assumptions C47_refuted_end_of_stream.
(** ... and the next OpenPool, if its read of no bytes finds nothing wrong (it never does on a
    TCP connection), returns the dead connection. *)
Theorem C47_refuted : exists l s, pruns (new_pool 1 1) l = Some s /\ all_runs orderly (new_pool 1 1) l = true /\
  In (ACall 0 0 MEof [false]) l /\ p_log s = [Got 0 0; Got 0 1] /\ p_out s = [1] /\ nth_error (p_heap s) 1 = Some (Obj (Some 0) false false true) /\ p_nets s = [Netc true false true].
Proof.
  exists (open1 ++ [ACall 0 0 MEof [false]; ASend 0] ++ open1). eexists. split; [vm_compute; reflexivity|]. split; [vm_compute; reflexivity|]. split; [cbn; tauto|]. repeat split.
Qed.
Print Assumptions C47_refuted.

(** ** C57 *)
(** When Close has returned nil every network connection on which INIT succeeded is closed. *)
Theorem C57_partial : forall P s t n c, reach P s -> In (PoolClosed t true) (p_log s) -> nth_error (p_nets s) n = Some c -> n_ready c = true -> n_shut c = true.
Proof.
  intros P s t n c R Hc En Er. pose proof (InvS_reach _ _ R) as IS. destruct (s_ref _ IS n c En Er) as (r & ob & Hr & Eo & Eon).
  pose proof (s_done _ IS (or_intror (ex_intro _ t Hc)) r ob Hr Eo) as Ec. destruct (s_shut _ IS r ob n Hr Eo Ec Eon) as (c' & En' & Es). congruence.
Qed.
Print Assumptions C57_partial.
(** A connection on which INIT failed stays open. *)
Theorem C57_refuted : forall e, exists l s, pruns (new_pool 1 1) l = Some s /\ all_runs flawless (new_pool 1 1) l = true /\
  In (AInit 0 false (IHalf [e])) l /\ In (PoolClosed 0 true) (p_log s) /\ p_nets s = [Netc false false false].
Proof.
  intros e. exists [AOpen 0; ALock 0; ARecv 0; AInit 0 false (IHalf [e]); ASend 0; ARet 0; APool 0; ALock 0; AShut 0 ShOk; ARet 0].
  destruct e; eexists; (split; [vm_compute; reflexivity|]); (split; [vm_compute; reflexivity|]); cbn; tauto.
Qed.
Print Assumptions C57_refuted.
(** When closing one connection fails, those after it stay open (Close returns an error; the
    pool is closed; a second Close goes on). *)
Theorem C57_refuted_first_error : forall r, r = ShStmt \/ r = ShNet -> exists l s, pruns (new_pool 2 1) l = Some s /\ all_runs flawless (new_pool 2 1) l = true /\
  p_log s = [Got 0 0; Got 0 1; PoolClosed 0 false] /\ p_closed s = true /\ option_map n_shut (nth_error (p_nets s) 1) = Some false.
Proof.
  intros r Hr. exists (open1 ++ open1 ++ [APool 0; ALock 0; AShut 0 r; ARet 0]).
  destruct Hr as [-> | ->]; eexists; (split; [vm_compute; reflexivity|]); (split; [vm_compute; reflexivity|]); repeat split.
Qed.
Print Assumptions C57_refuted_first_error.

(** ** Examples *)
Notation after max n l := (match pruns (new_pool max n) l with Some s => s | None => new_pool 0 0 end).
Lemma reach_after : forall P max n l, match pruns (new_pool max n) l with Some _ => all_runs P (new_pool max n) l = true | None => False end -> reach P (after max n l).
Proof. intros P max n l X. destruct (pruns (new_pool max n) l) eqn:E; [|contradiction]. eapply pruns_reach; eauto. apply R_new. Qed.
(** two taken, one given back, a second one being given back after a network error *)
Definition ex_pool := after 3 2 (open1 ++ open1 ++ [ACall 0 0 MNothing [false]; ASend 0; ACall 1 1 MErr [true]]).
Example ex_C41 : reach flawless ex_pool /\ p_out ex_pool = [] /\ p_chan ex_pool = [2; 3] /\ nth_error (p_pcs ex_pool) 1 = Some (CPut [4]).
Proof. split; [apply reach_after; vm_compute; reflexivity|]. vm_compute. auto. Qed.
Example ex_C41_bound : let s := after 2 2 (open1 ++ open1) in reach orderly s /\ p_out s = [1; 0] /\ p_chan s = [].
Proof. split; [apply reach_after; vm_compute; reflexivity|]. vm_compute. auto. Qed.
Example ex_C42 : let s := after 2 2 (open1 ++ open1 ++ [ACall 0 0 MNothing [false]; ASend 0] ++ open1) in reach orderly s /\ p_out s = [2; 1] /\
  map o_net (p_heap s) = [Some 0; Some 1; Some 0].
Proof. split; [apply reach_after; vm_compute; reflexivity|]. vm_compute. auto. Qed.
Definition pconn0 (n : Z) : world (bnet Z) := fresh true (Build_bnet n Ready []).
Lemma pquiet0 : forall n, quiet (pconn0 n) n. Proof. intros n. repeat split. Qed.
Notation pex_run os n := (run (bolt toy fine) true 20 os (pconn0 n)).
(** used after Close *)
Example ex_C43 : fst (fst (pex_run [CClose; CExec [1%Z] []; CClose] 5%Z)) = [OErr None; OResult (Some (bad 5)) None; OErr None] /\ quiet (pconn0 5) 5%Z.
Proof. split; [vm_compute; reflexivity|apply pquiet0]. Qed.
(** the first attempt fails with an error on the network, the second one succeeds *)
Example ex_C44 : let s := after 1 1 ([AOpen 0; ALock 0; ARecv 0; AInit 0 false (IHalf [true]); ASend 0; ARet 0] ++ open1) in
  reach (fun _ a => marked a) s /\ p_log s = [Refused 0; Got 0 1] /\ map n_ready (p_nets s) = [false; true].
Proof. split; [apply reach_after; vm_compute; reflexivity|]. vm_compute. auto. Qed.
Example ex_C45 : let s := after 2 3 (open1 ++ [APool 2; ALock 2; AShut 2 ShOk; AShut 2 ShOk; ARet 2; AOpen 1]) in
  reach anyhow s /\ p_log s = [Got 0 0; PoolClosed 2 true] /\ nth_error (p_pcs s) 1 = Some OWait /\ p_lock s = None.
Proof. split; [apply reach_after; vm_compute; reflexivity|]. vm_compute. auto. Qed.
Example ex_C45_starved : let s := after 1 3 (open1 ++ [AOpen 1; ALock 1; APool 2; AOpen 0]) in reach flawless s /\ starved s 1 /\ nth_error (p_pcs s) 2 = Some PWait.
Proof.
  split; [apply reach_after; vm_compute; reflexivity|]. split; [|reflexivity]. repeat split. intros [|[|[|t']]] c E; vm_compute in E; try (injection E as <-; auto); destruct t'; discriminate.
Qed.
(** history: a query read to the end, a transaction finished; the machine promises nil for Close *)
Example ex_C46 : let os := [CQuery [1%Z] []; RNext 0; RClose 0; CBegin; CExec [1%Z] []; TCommit 0] in
  match machine toy fine true true (at_rest 0%Z PIdle None) os (fst (fst (pex_run os 0%Z))) with
  | Some st => expect toy fine true true st CClose = Some (ANil, fun _ => to PClosed st) /\ sp_phase st = PIdle
  | None => False
  end.
Proof. vm_compute. split; reflexivity. Qed.
(** rows left open: the next user of the connection gets the answers of somebody else's query *)
Example ex_C46_wrong_answers : let os := [CQuery [1%Z] []; CClose; CExec [4%Z] []] in
  nth 2 (fst (fst (pex_run os 5%Z))) (OErr None) <> nth 0 (fst (fst (pex_run [CExec [4%Z] []] 5%Z))) (OErr None).
Proof. vm_compute. intros X. discriminate X. Qed.
Example ex_C46_begin : begin_works toy 5%Z 5%Z. Proof. repeat split; do 2 eexists; reflexivity. Qed.
Example ex_C47 : let s := after 2 1 (open1 ++ [ACall 0 0 MErr [true]; ASend 0] ++ open1 ++ open1) in
  reach flawless s /\ p_log s = [Got 0 0; Got 0 1; Got 0 2] /\ map n_broken (p_nets s) = [true; false; false] /\ map o_net (p_heap s) = [Some 0; Some 1; Some 2].
Proof. split; [apply reach_after; vm_compute; reflexivity|]. vm_compute. auto. Qed.
Example ex_C57 : let s := after 2 2 (open1 ++ open1 ++ [ACall 0 0 MNothing [false]; ASend 0; APool 1; ALock 1; AShut 1 ShOk; AShut 1 ShOk; AShut 1 ShOk; ARet 1]) in
  reach anyhow s /\ In (PoolClosed 1 true) (p_log s) /\ p_nets s = [Netc true true false; Netc true true false].
Proof. split; [apply reach_after; vm_compute; reflexivity|]. vm_compute. auto. Qed.
