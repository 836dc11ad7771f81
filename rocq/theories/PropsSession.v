(** Session properties that hold for every network and server behaviour.
    A history is a list of API calls run on a freshly opened connection; the
    network type, its operations and its initial state are arbitrary. *)
From Coq Require Import ZArith List Bool Lia.
From Verif Require Import GoPrims Value Errors Misc Session SessionVoc SessionGen SessionErr SessionTerm.
Import ListNotations.
Open Scope Z_scope.

(** A scripted network for the examples: every send succeeds, the reads follow the list. *)
Definition script : netops (list rres) :=
  {| n_send := fun n _ _ => (n, SOk);
     n_recv := fun n => match n with [] => ([], RNet) | r :: n' => (n', r) end;
     n_close := fun n => (n, false);
     n_shake := fun n => (n, (false, None)) |}.
Definition succ (m : md) : rres := RMsg (VSuccess m).

Ltac unfolds := cbv beta iota delta [step step_body prepare prepare_pipeline begin_tx exec_neo exec_pipeline query_neo_all query_neo
      query_pipeline exec_sql query_sql with_args query_neo guard_open bind getc stmt_exec_sql stmt_query_sql stmt_exec stmt_exec_pipeline
      stmt_query stmt_query_pipeline stmt_close rows_close next_neo next_pipeline next_sql all_rows commit rollback tx_finish ret gets getr gett].
Section AnyNet.
Context {N : Type} (ops : netops N).
Notation reach mk f os p n := (snd (run ops mk f os (fresh p n))).

(** ** C25 *)
Theorem C25_one_statement : forall mk f os p n i j,
  stmt_is false (reach mk f os p n) i -> stmt_is false (reach mk f os p n) j -> i = j.
Proof.
  intros mk f os p n i j Hi Hj. destruct (Inv_run ops mk f os (fresh p n) (Inv_fresh p n)) as (A & _).
  destruct (A i Hi) as [H1|H1]; [|discriminate]. destruct (A j Hj) as [H2|H2]; [|discriminate]. congruence.
Qed.

Theorem C25_refused : forall mk f os p n i o,
  let w := reach mk f os p n in
  stmt_is false w i -> conn_work o = true -> args_ok mk o ->
  exists r, step ops mk f o w = (Ok r, w) /\ refused r.
Proof.
  intros mk f os p n i o w Hi Ho Ha. destruct (Inv_run ops mk f os (fresh p n) (Inv_fresh p n)) as (A & _).
  destruct (A i Hi) as [H1|H1]; [|discriminate]. fold w in H1.
  destruct o; try discriminate Ho; cbn in Ha; unfolds;
    try (destruct (c_tx (w_conn w))); try (destruct (driver_args mk args); [| |congruence]);
    rewrite ?H1; eexists; (split; [reflexivity|do 2 eexists; reflexivity]).
Qed.

(** A statement with a current row set refuses everything that would start another one. *)
Theorem C25_one_row_set : forall mk f (w : world N) i s r o,
  nth_error (w_stmts w) i = Some s -> s_rows s = Some r -> stmt_work i o -> args_ok mk o ->
  exists r, step ops mk f o w = (Ok r, w) /\ refused r.
Proof.
  intros mk f w i s r o E Hr Ho Ha. destruct o; cbn in Ho, Ha; try contradiction; subst; unfolds;
    try (destruct (driver_args mk args); [| |congruence]); rewrite ?E; cbn; rewrite ?Hr; destruct (s_closed s);
    eexists; (split; [reflexivity|do 2 eexists; reflexivity]).
Qed.

(** ** C26 *)
Lemma close_closes : forall f (w w' : world N), c_pooled (w_conn w) = false -> close ops f w = (Ok None, w') -> c_closed (w_conn w') = true.
Proof.
  intros [|f] w w' Hp H; [discriminate H|]. cbn [close] in H. unfold close_body in H.
  apply bind_inv in H. destruct H as (c & w1 & H1 & H). injection H1 as <- <-.
  destruct (c_closed (w_conn w)) eqn:Ec. { injection H as <-. exact Ec. }
  apply bind_inv in H. destruct H as (e & w1 & H1 & H).
  assert (M1 : mono w w1).
  { destruct (c_stmt (w_conn w)).
    - assert (Hm := mono_stmt_close ops f (close ops f) n).
      specialize (Hm (Pres_close _ ops mono (@mono_refl N) (mono_close_body ops) f) w). rewrite H1 in Hm. exact Hm.
    - injection H1 as <- <-. apply mono_refl. }
  destruct e as [e|]; [discriminate H|].
  apply bind_inv in H. destruct H as (c & w2 & H2 & H). injection H2 as <- <-.
  apply bind_inv in H. destruct H as (e & w2 & H2 & H).
  assert (M2 : mono w1 w2).
  { destruct (c_tx (w_conn w1)).
    - assert (Hm : Pres mono (rollback ops f (close ops f) n)).
      { apply mono_rollback. apply (Pres_close _ ops mono (@mono_refl N) (mono_close_body ops)). }
      specialize (Hm w1). rewrite H2 in Hm. exact Hm.
    - injection H2 as <- <-. apply mono_refl. }
  destruct e as [e|]; [discriminate H|].
  apply bind_inv in H. destruct H as (c & w3 & H3 & H). injection H3 as <- <-.
  assert (Hp2 : c_pooled (w_conn w2) = false).
  { destruct M1 as ((_ & _ & P1) & _). destruct M2 as ((_ & _ & P2) & _). congruence. }
  rewrite Hp2 in H. unfold bind, getn, setn, modc, getc, setc in H. cbn in H.
  destruct (n_close ops (w_net w2)) as [n' []]; cbn in H; [discriminate H|]. injection H as <-. reflexivity.
Qed.

Theorem C26_closed_refuses : forall mk f os n w1 mk' f' os' o,
  let w0 := reach mk f os false n in
  step ops mk f CClose w0 = (Ok (OErr None), w1) ->
  let w := snd (run ops mk' f' os' w1) in
  args_ok mk' o -> conn_work o = true \/ (exists i, stmt_is true w i /\ stmt_work i o) ->
  exists r, step ops mk' f' o w = (Ok r, w) /\ refused r.
Proof.
  intros mk f os n w1 mk' f' os' o w0 H w Ha Ho.
  assert (Hc : c_closed (w_conn w) = true).
  { cbn in H. apply bind_inv in H. destruct H as (e & w2 & H1 & H2). injection H2 as -> ->.
    assert (Hp : c_pooled (w_conn w0) = false).
    { destruct (mono_run ops mk f os (fresh false n)) as ((_ & _ & P) & _). exact P. }
    pose proof (close_closes f w0 w1 Hp H1) as Hc. destruct (mono_run ops mk' f' os' w1) as ((P & _) & _). auto. }
  destruct Ho as [Ho|(i & (s & E & Hs) & Ho)].
  - destruct o; try discriminate Ho; cbn in Ha; unfolds;
      try (destruct (c_tx (w_conn w))); try (destruct (driver_args mk' args); [| |congruence]);
      try (destruct (c_stmt (w_conn w))); rewrite ?Hc; eexists; (split; [reflexivity|do 2 eexists; reflexivity]).
  - destruct o; cbn in Ho, Ha; try contradiction; subst; unfolds;
    try (destruct (driver_args mk' args); [| |congruence]); rewrite ?E; cbn; rewrite ?Hs;
    eexists; (split; [reflexivity|do 2 eexists; reflexivity]).
Qed.

(** All statements of the connection are closed with it, and closing again does nothing. *)
Theorem C26_closes_statements : forall mk f os n w1 mk' f' os' i s,
  step ops mk f CClose (reach mk f os false n) = (Ok (OErr None), w1) ->
  nth_error (w_stmts (snd (run ops mk' f' os' w1))) i = Some s -> s_closed s = true.
Proof.
  intros mk f os n w1 mk' f' os' i s H E. remember (reach mk f os false n) as w0 eqn:E0.
  assert (Hp : c_pooled (w_conn w0) = false).
  { subst w0. destruct (mono_run ops mk f os (fresh false n)) as ((_ & _ & P) & _). exact P. }
  assert (K1 : KInv None w1).
  { pose proof (K_step ops mk f CClose w0) as Hk. rewrite H in Hk. apply Hk. subst w0. apply K_run, K_fresh. }
  cbn in H. apply bind_inv in H. destruct H as (e & w2 & H1 & H2). injection H2 as -> ->.
  pose proof (close_closes f w0 w1 Hp H1) as Hc.
  destruct (K_run ops mk' f' os' w1 K1) as (Hi & Hk). destruct (mono_run ops mk' f' os' w1) as ((P & _) & _).
  specialize (Hk (P Hc)). destruct (s_closed s) eqn:Es; auto. destruct Hi as (A & _).
  destruct (A i) as [Ha|Ha]; [exists s; auto|congruence|discriminate].
Qed.
Theorem C26_close_again : forall mk f os n w1 mk' f' os',
  step ops mk f CClose (reach mk f os false n) = (Ok (OErr None), w1) ->
  let w := snd (run ops mk' f' os' w1) in
  step ops mk' (S f') CClose w = (Ok (OErr None), w).
Proof.
  intros mk f os n w1 mk' f' os' H w.
  assert (Hc : c_closed (w_conn w) = true).
  { assert (Hp : c_pooled (w_conn (reach mk f os false n)) = false).
    { destruct (mono_run ops mk f os (fresh false n)) as ((_ & _ & P) & _). exact P. }
    cbn in H. apply bind_inv in H. destruct H as (e & w2 & H1 & H2). injection H2 as -> ->.
    pose proof (close_closes f _ w1 Hp H1) as Hc. destruct (mono_run ops mk' f' os' w1) as ((P & _) & _). auto. }
  unfold step, step_body. cbn [close]. unfold close_body, bind, getc. rewrite Hc. reflexivity.
Qed.

(** ** C27.  [w] is any state whatsoever. *)
Theorem C27_statement : forall mk f (w : world N) i o, stmt_is true w i -> stmt_work i o -> args_ok mk o ->
  exists r, step ops mk f o w = (Ok r, w) /\ refused r.
Proof.
  intros mk f w i o (s & E & Hs) Ho Ha. destruct o; cbn in Ho, Ha; try contradiction; subst; unfolds;
    try (destruct (driver_args mk args); [| |congruence]); rewrite ?E; cbn; rewrite ?Hs;
    eexists; (split; [reflexivity|do 2 eexists; reflexivity]).
Qed.
Theorem C27_rows : forall mk f (w : world N) i o, rows_closed w i -> rows_work i o ->
  exists r, step ops mk (S f) o w = (Ok r, w) /\ refused r.
Proof.
  intros mk f w i o (s & E & Hs) Ho. destruct o; cbn in Ho; try contradiction; subst; unfolds; cbn [all_loop]; unfolds;
    rewrite ?E; cbn; rewrite ?Hs; eexists; (split; [reflexivity|do 2 eexists; reflexivity]).
Qed.
Theorem C27_transaction : forall mk f (w : world N) i o, tx_closed w i -> tx_work i o ->
  exists r, step ops mk f o w = (Ok r, w) /\ refused r.
Proof.
  intros mk f w i o (s & E & Hs) Ho. destruct o; cbn in Ho; try contradiction; subst; unfolds;
    rewrite ?E; cbn; rewrite ?Hs; eexists; (split; [reflexivity|do 2 eexists; reflexivity]).
Qed.
Theorem C27_close_again : forall mk f (w : world N) i,
  (stmt_is true w i -> step ops mk f (SClose i) w = (Ok (OErr None), w)) /\
  (rows_closed w i -> step ops mk f (RClose i) w = (Ok (OErr None), w)).
Proof. intros mk f w i. split; intros (s & E & Hs); unfolds; rewrite E; cbn; rewrite Hs; reflexivity. Qed.
Theorem C27_permanent : forall mk f os (w : world N) i,
  let w' := snd (run ops mk f os w) in
  (stmt_is true w i -> stmt_is true w' i) /\ (rows_closed w i -> rows_closed w' i) /\ (tx_closed w i -> tx_closed w' i).
Proof.
  intros mk f os w i w'. destruct (mono_run ops mk f os w) as (_ & A & B & C). fold w' in A, B, C.
  split; [|split]; intros (s & E & Hs).
  - destruct (A _ _ E) as (s' & E' & _ & _ & H & _). exists s'. auto.
  - destruct (B _ _ E) as (s' & E' & _ & _ & _ & H & _). exists s'. auto.
  - destruct (C _ _ E) as (s' & E' & H). exists s'. auto.
Qed.
(** Close, Commit and Rollback returning nil do close the object. *)
Theorem C27_closes : forall mk f (w w' : world N) i,
  (step ops mk f (SClose i) w = (Ok (OErr None), w') -> stmt_is true w' i) /\
  (step ops mk f (RClose i) w = (Ok (OErr None), w') -> rows_closed w' i) /\
  (step ops mk f (TCommit i) w = (Ok (OErr None), w') -> tx_closed w' i) /\
  (step ops mk f (TRollback i) w = (Ok (OErr None), w') -> tx_closed w' i).
Proof.
  intros mk f w w' i.
  assert (Hm : Pres mono (close ops f)) by (apply (Pres_close _ ops mono (@mono_refl N) (mono_close_body ops))).
  assert (Hsc : forall j (w w' : world N), stmt_close ops f (close ops f) j w = (Ok None, w') -> stmt_is true w' j).
  { intros j u u' H. pose proof (stmt_close_post _ _ _ _ _ _ _ H) as (_ & Hno). pose proof (mono_stmt_close ops f (close ops f) j Hm u) as (_ & A & _).
    rewrite H in A. cbn in A. unfold stmt_close, bind, gets in H. destruct (nth_error (w_stmts u) j) as [s|] eqn:E; [|discriminate].
    destruct (A _ _ E) as (s' & E' & _). exists s'. split; auto. destruct (s_closed s') eqn:Ec; auto. exfalso. apply Hno. exists s'; auto. }
  split; [|split].
  - intros H. cbn in H. apply bind_inv in H. destruct H as (e & w1 & H & H'). injection H' as -> ->. eauto.
  - intros H. cbn in H. apply bind_inv in H. destruct H as (e & w1 & H & H'). injection H' as -> ->.
    unfold rows_close in H. apply bind_inv in H. destruct H as (r & w1 & H1 & H).
    unfold getr in H1. destruct (nth_error (w_rows w) i) as [r0|] eqn:E; [|discriminate]. injection H1 as <- <-.
    destruct (r_closed r0) eqn:Er. { injection H as <-. exists r0; auto. }
    apply bind_inv in H. destruct H as (e & w1 & H1 & H). destruct e as [e|]; [discriminate|].
    assert (Hc : rows_closed w1 i).
    { unfold rows_close_body in H1. apply bind_inv in H1. destruct H1 as (r & w2 & H2 & H1).
      apply bind_inv in H1. destruct H1 as (e & w3 & H3 & H1). destruct e as [e|]; [discriminate|].
      apply bind_inv in H1. destruct H1 as (u & w4 & H4 & H1).
      unfold modr, bind, getr, setr in H4. destruct (nth_error (w_rows w3) i) as [r3|] eqn:E3; [|discriminate]. injection H4 as <- <-.
      apply bind_inv in H1. destruct H1 as (u' & w5 & H5 & H1). injection H1 as <-.
      unfold mods, bind, gets, sets in H5. cbn in H5. destruct (nth_error (w_stmts w3) (r_stmt r)); [|discriminate]. injection H5 as <- <-.
      exists (r_set_closed r3). split; auto. cbn. eapply nth_upd_same; eauto. }
    destruct (r_closeStmt r0); [|injection H as <-; exact Hc].
    pose proof (mono_stmt_close ops f (close ops f) (r_stmt r0) Hm w1) as (_ & _ & B & _). rewrite H in B. cbn in B.
    destruct Hc as (r' & E' & Hr'). destruct (B _ _ E') as (r'' & E'' & _ & _ & _ & H' & _). exists r''. auto.
  - assert (Ht : forall q l1 l2 l3 l4 l5, tx_finish ops f (close ops f) q l1 l2 l3 l4 l5 i w = (Ok None, w') -> tx_closed w' i).
    { intros q l1 l2 l3 l4 l5 H. unfold tx_finish in H. apply bind_inv in H. destruct H as (t & w1 & H1 & H).
      unfold gett in H1. destruct (nth_error (w_txs w) i) as [t0|] eqn:E; [|discriminate]. injection H1 as <- <-.
      destruct (t_closed t0); [discriminate|].
      apply bind_inv in H. destruct H as (c & w1 & H1 & H). injection H1 as <- <-.
      apply bind_inv in H. destruct H as (e & w1 & H1 & H). destruct e as [e|]; [discriminate|].
      apply bind_inv in H. destruct H as ([[run pull] e] & w2 & H2 & H). destruct e as [e|]; [discriminate|].
      destruct run as [[]|]; try discriminate. destruct pull as [[]|]; try discriminate.
      apply bind_inv in H. destruct H as (u & w3 & H3 & H). injection H3 as <- <-.
      apply bind_inv in H. destruct H as (u & w4 & H4 & H). injection H4 as <- <-. injection H as <-.
      assert (Hk : exists t, nth_error (w_txs w2) i = Some t).
      { assert (M1 : mono w w1).
        { destruct (c_stmt (w_conn w)); [|injection H1 as <-; apply mono_refl].
          pose proof (mono_stmt_close ops f (close ops f) n Hm w) as Hx. rewrite H1 in Hx. exact Hx. }
        assert (M2 : mono w1 w2).
        { pose proof (mono_consume_single ops f (close ops f) q [] Hm w1) as Hx. rewrite H2 in Hx. exact Hx. }
        destruct (mono_trans _ _ _ _ M1 M2) as (_ & _ & _ & C). destruct (C _ _ E) as (t' & E' & _). eauto. }
      destruct Hk as (t & Et). eexists. split; [cbn; eapply nth_upd_same; eauto|reflexivity]. }
    split; intros H; cbn in H; apply bind_inv in H; destruct H as (e & w1 & H & H'); injection H' as -> ->; eapply Ht; exact H.
Qed.
End AnyNet.
Print Assumptions C25_one_statement.
Print Assumptions C25_refused.
Print Assumptions C25_one_row_set.
Print Assumptions C26_closed_refuses.
Print Assumptions C26_closes_statements.
Print Assumptions C26_close_again.
Print Assumptions C27_statement.
Print Assumptions C27_rows.
Print Assumptions C27_transaction.
Print Assumptions C27_close_again.
Print Assumptions C27_permanent.
Print Assumptions C27_closes.

(** ** The hypotheses are met in concrete runs *)
(** a statement is prepared, executed, queried and closed, then a second one is opened *)
Definition ex_script : list rres :=
  [succ []; succ [([116], VInt KInt64 1)]; succ [([102], VSlice [])]; RMsg (VRecord [VInt KInt64 7]); succ []].
Definition ex_ops : list op :=
  [CPrepare [81]; CPrepare [82]; SExec 0 []; SQuery 0 []; SExec 0 []; RNext 0; RClose 0; RClose 0; SClose 0; CPrepare [83]].
Example ex_run : fst (run script true 20 ex_ops (fresh false ex_script)) =
  ([OHandle (Some 0%nat) None; OHandle None (Some (enew FConn 498)); OResult (Some [([116], VInt KInt64 1)]) None;
    OHandle (Some 0%nat) None; OResult None (Some (enew FStmt 96)); ONext (Some [VInt KInt64 7]) None None;
    OErr None; OErr None; OErr None; OHandle (Some 1%nat) None], Ok tt).
Proof. vm_compute. reflexivity. Qed.
Example ex_C25 : stmt_is false (snd (run script true 20 ex_ops (fresh false ex_script))) 1 /\
  stmt_is true (snd (run script true 20 ex_ops (fresh false ex_script))) 0 /\ rows_closed (snd (run script true 20 ex_ops (fresh false ex_script))) 0.
Proof. vm_compute. repeat split; eexists; split; reflexivity. Qed.
Example ex_C26 : exists w1, step script true 20 CClose (snd (run script true 20 ex_ops (fresh false ex_script))) = (Ok (OErr None), w1) /\
  conn_work (CExec [84] []) = true /\ stmt_is true (snd (run script true 20 [] w1)) 1.
Proof. eexists. split; [vm_compute; reflexivity|]. split; [reflexivity|]. eexists; split; reflexivity. Qed.
Definition ex_tx := snd (run script true 20 [CBegin; TCommit 0] (fresh false [succ []; succ []; succ []; succ []])).
Example ex_C27_tx : tx_closed ex_tx 0 /\ fst (run script true 20 [CBegin; TCommit 0; TRollback 0] (fresh false [succ []; succ []; succ []; succ []])) =
  ([OHandle (Some 0%nat) None; OErr None; OErr (Some (enew FTx 66))], Ok tt).
Proof. split; [eexists; split; reflexivity|vm_compute; reflexivity]. Qed.

(** ** C39.  [watch ops] is the network [ops] together with a flag that says whether
    any operation has reported a network error so far (SessionErr.v). *)
Definition net_error {N} (w : world (N * bool)) : Prop := snd (w_net w) = true.
(** A network error during a call marks the connection as bad, and every call but
    QueryNeoAll returns an error whose innermost error is driver.ErrBadConn, or the
    FAILURE message that made the driver close the session in the first place. *)
Theorem C39_network_errors_partial : forall N (ops : netops N) mk f o w r w',
  ~ net_error w -> step (watch ops) mk f o w = (Ok r, w') -> net_error w' ->
  c_err (w_conn w') = true /\
  ((forall q ps, o <> CQueryAll q ps) -> exists e, out_err r = Some e /\ (innermost e = EBadConn \/ exists m, innermost e = EFailMsg m)).
Proof.
  intros N ops mk f o w r w' H1 E H2. unfold net_error in *. split.
  - pose proof (marked_step ops mk f o w) as Hm. rewrite E in Hm. apply Hm; auto.
  - intros Ho. refine (watch_step ops mk f o Ho w r w' _ E H2).
    destruct (snd (w_net w)); congruence.
Qed.
Print Assumptions C39_network_errors_partial.
Example ex_C39 : exists r w', step (watch script) true 20 (CExec [81] []) (fresh false ([succ []], false)) = (Ok r, w') /\
  net_error w' /\ out_err r = Some (ewrap FDec 45 EBadConn).
Proof. do 2 eexists. split; [vm_compute; reflexivity|]. split; reflexivity. Qed.

(** The server closing the stream in the middle of a call is not treated like
    that: the innermost error is io.EOF and the connection is not marked. *)
Definition eof_read : rres := RDec None (ewrap FDec 45 EEOF).
Theorem C39_refuted_eof : forall p f q ps,
  exists w', step script true f (CExec q ps) (fresh p [eof_read]) = (Ok (OResult None (Some (ewrap FDec 45 EEOF))), w') /\
             innermost (ewrap FDec 45 EEOF) = EEOF /\ c_err (w_conn w') = false.
Proof. intros. eexists. split; [reflexivity|]. split; reflexivity. Qed.
Print Assumptions C39_refuted_eof.
(** QueryNeoAll can lose a network error altogether: when the record stream ends in
    a message cut short, All takes the decoder's io.EOF for the end of the data and
    the error of the deferred Close is dropped. *)
Theorem C39_refuted_query_all : forall q ps m,
  exists w', step (watch script) true 20 (CQueryAll q ps) (fresh false ([succ m; RDec None EEOF], false)) =
               (Ok (OQueryAll (Some []) (Some m) None None), w') /\ net_error w'.
Proof. intros. eexists. split; [vm_compute; reflexivity|reflexivity]. Qed.
Print Assumptions C39_refuted_query_all.

(** ** C40 *)
(** Every call ends if the server sends finitely many messages ([mu] bounds those
    still to come), whatever they are, and enough fuel is what that bound says. *)
Theorem C40_finite_server_partial : forall N (ops : netops N) (mu : N -> nat),
  (forall n cs v n' r, n_send ops n cs v = (n', r) -> (mu n' <= mu n)%nat) ->
  (forall n n' v, n_recv ops n = (n', RMsg v) -> (mu n' < mu n)%nat) ->
  (forall n n' r, n_recv ops n = (n', r) -> (mu n' <= mu n)%nat) ->
  (forall n n' b, n_close ops n = (n', b) -> (mu n' <= mu n)%nat) ->
  forall mk f o w, (S (mu (w_net w)) < f)%nat -> fst (step ops mk f o w) <> NoFuel.
Proof.
  intros N ops mu H1 H2 H3 H4 mk f o w Hf.
  apply (TT_step ops mu H1 H2 H3 H4 mk f o (mu (w_net w)) Hf w). lia.
Qed.
Print Assumptions C40_finite_server_partial.
(** the scripted network of the examples is such a server *)
Example ex_C40 : forall mk f o p l, (S (length l) < f)%nat -> fst (step script mk f o (fresh p l)) <> NoFuel.
Proof.
  intros mk f o p l Hf. apply (C40_finite_server_partial _ script (@length rres)); auto.
  - intros n cs v n' r E. injection E as <- <-. lia.
  - intros [|x n] n' v E; cbn in E; [discriminate|]. injection E as -> ->. cbn. lia.
  - intros [|x n] n' v E; cbn in E; injection E as <- <-; cbn; lia.
  - intros n n' b E. injection E as <- <-. lia.
Qed.

(** A server that runs the first query and then answers everything with FAILURE:
    Close never returns, whatever the fuel. *)
Definition angry : netops bool :=
  {| n_send := fun (n : bool) _ _ => (n, SOk);
     n_recv := fun n : bool => (true, RMsg (if n then VFailure [] else VSuccess []));
     n_close := fun n => (n, false);
     n_shake := fun n => (n, (false, None)) |}.
Definition angry_world : world bool := snd (run angry true 9 [CPrepare [81]; SQuery 0 []] (fresh false false)).
Lemma angry_close : forall f, fst (close angry f angry_world) = NoFuel.
Proof.
  induction f as [|f IH]; [reflexivity|]. cbn [close].
  assert (H : forall lf cls, fst (cls angry_world) = NoFuel -> fst (close_body angry lf cls angry_world) = NoFuel).
  { clear. intros [|lf] cls H; [reflexivity|]. unfold angry_world in *. vm_compute in H |- *.
    destruct (cls _) as [[a| |] w]; cbn in *; congruence. }
  apply H. exact IH.
Qed.
Theorem C40_refuted : forall mk f, fst (step angry mk f CClose angry_world) = NoFuel.
Proof.
  intros mk f. unfold step, step_body, bind. pose proof (angry_close f) as H. destruct (close angry f angry_world) as [[a| |] w]; cbn in *; congruence.
Qed.
Print Assumptions C40_refuted.
Example ex_angry : fst (run angry true 9 [CPrepare [81]; SQuery 0 []] (fresh false false)) =
  ([OHandle (Some 0%nat) None; OHandle (Some 0%nat) None], Ok tt).
Proof. reflexivity. Qed.

(** ** C54 *)
(** NextNeo reports the end of the data only after a SUCCESS message, whose metadata
    it returns, or after a message on which the decoder itself failed with io.EOF. *)
Theorem C54_end_partial : forall N (ops : netops N) mk f rid w row m w',
  step ops mk f (RNext rid) w = (Ok (ONext row m (Some EEOF)), w') ->
  row = None /\ exists n0,
  (exists md, n_recv ops n0 = (w_net w', RMsg (VSuccess md)) /\ m = Some md) \/
  (exists pv, n_recv ops n0 = (w_net w', RDec pv EEOF) /\ m = None).
Proof.
  intros N ops mk f rid w row m w' H. cbn in H. apply bind_inv in H. destruct H as ([[row0 m0] e0] & w1 & H & H'). injection H' as -> -> -> ->.
  unfold next_neo in H. apply bind_inv in H. destruct H as (r & w1 & _ & H).
  destruct (r_closed r); [discriminate|].
  apply bind_inv in H. destruct H as (e & w2 & H2 & H). destruct e as [e|].
  { injection H as <- <- -> ->. exfalso. destruct (r_consumed r); [discriminate|]. cbn [negb] in H2.
    apply bind_inv in H2. destruct H2 as (u & w3 & _ & H2). apply bind_inv in H2. destruct H2 as (u' & w4 & _ & H2).
    apply bind_inv in H2. destruct H2 as (e & w5 & H5 & H2). unfold send_pull_all in H5.
    apply bind_inv in H5. destruct H5 as (e1 & w6 & _ & H5). destruct e1; injection H5 as <- <-; [|discriminate H2].
    apply bind_inv in H2. destruct H2 as (x & w7 & _ & H2). discriminate. }
  apply bind_inv in H. destruct H as (u & w3 & _ & H).
  apply bind_inv in H. destruct H as ([v e] & w4 & H4 & H).
  unfold consume in H4. apply bind_inv in H4. destruct H4 as ([v1 e1] & w5 & H5 & H4).
  unfold decode_msg, bind, getn, setn in H5. destruct (n_recv ops (w_net w3)) as [n' rr] eqn:Er.
  assert (Hack : forall lf cls lf' (wa wb : world N), ack_loop ops lf cls lf' wa = (Ok (Some EEOF), wb) -> False).
  { intros lf cls. induction lf' as [|lf' IH]; intros wa wb Ha; [discriminate|]. cbn [ack_loop] in Ha.
    apply bind_inv in Ha. destruct Ha as ([va ea] & wc & _ & Ha). destruct ea; [discriminate|].
    destruct va as [va|]; [destruct va|]; try discriminate; try (now eapply IH; eauto);
      try (apply bind_inv in Ha; destruct Ha as (x1 & wx & _ & Ha); apply bind_inv in Ha; destruct Ha as (x2 & wy & _ & Ha); discriminate).
    unfold reset in Ha. apply bind_inv in Ha. destruct Ha as (ea & wd & _ & Ha). destruct ea; [discriminate|].
    clear IH. revert Ha. generalize lf at 1 as g. intros g. revert wd. induction g as [|g IH]; intros wd Ha; [discriminate|]. cbn [reset_loop] in Ha.
    apply bind_inv in Ha. destruct Ha as ([vb eb] & we & _ & Ha). destruct eb; [discriminate|].
    destruct vb as [vb|]; [destruct vb|]; try discriminate; try (now eapply IH; eauto);
      try (apply bind_inv in Ha; destruct Ha as (x1 & wx & _ & Ha)); try discriminate;
      try (apply bind_inv in Ha; destruct Ha as (x2 & wy & _ & Ha)); try discriminate. }
  destruct rr as [vm|pv er| |]; cbn in H5; try discriminate; injection H5 as <- <- <-.
  - destruct vm; try (injection H4 as <- <- <-; cbn in H; discriminate H).
    + injection H4 as <- <- <-. cbn in H. apply bind_inv in H. destruct H as (u' & w6 & H6 & H). injection H as <- <- <-.
      split; auto. exists (w_net w3). left. eexists. split; [|reflexivity]. rewrite Er.
      unfold modr, bind, getr, setr in H6. cbn in H6. destruct (nth_error _ _); [|discriminate]. injection H6 as _ <-. reflexivity.
    + apply bind_inv in H4. destruct H4 as (e1 & w6 & H6 & H4).
      destruct e1; injection H4 as <- <- <-; cbn in H; [|discriminate H]. injection H as <- <- -> ->.
      exfalso. unfold ack_failure in H6. apply bind_inv in H6. destruct H6 as (e2 & w7 & _ & H6). destruct e2; [discriminate H6|]. eapply Hack; eauto.
  - injection H4 as <- <- <-. cbn in H. injection H as <- <- -> <-. split; auto. exists (w_net w3). right. exists pv. auto.
  - injection H4 as <- <- <-. cbn in H. discriminate H.
Qed.
Print Assumptions C54_end_partial.
Example ex_C54 : exists w', step script true 9 (RNext 0) (snd (run script true 9 [CQuery [81] []] (fresh false [succ []; succ [([116], VInt KInt64 1)]]))) =
  (Ok (ONext None (Some [([116], VInt KInt64 1)]) (Some EEOF)), w').
Proof. eexists. reflexivity. Qed.
(** In the second case no SUCCESS was sent: any number of records followed by a
    message on which the decoder fails with io.EOF (such as a record whose last
    field is cut short, C54_refuted_bytes) passes for a complete result. *)
Theorem C54_refuted : forall q ps m fss,
  let l := succ m :: map (fun fs => RMsg (VRecord fs)) fss ++ [RDec None EEOF] in
  exists w0 w', step script true (S (length fss)) (CQuery q ps) (fresh false l) = (Ok (OHandle (Some 0%nat) None), w0) /\
    step script true (S (length fss)) (RAll 0) w0 = (Ok (OAll fss None None), w').
Proof.
  intros q ps m fss l. subst l.
  set (c := {| c_closed := false; c_err := false; c_tx := None; c_stmt := Some 0%nat; c_pooled := false; c_cs := 65535; c_reclaims := [] |}).
  set (s := {| s_queries := []; s_query := q; s_conn := true; s_closed := false; s_rows := Some 0%nat |}).
  assert (H : forall g cls fss acc f, (length fss < f)%nat -> exists w',
     all_loop script g cls f 0 acc (Build_world c [s] [new_query_rows 0 m] [] (map (fun fs => RMsg (VRecord fs)) fss ++ [RDec None EEOF]))
      = (Ok (acc ++ fss, None, None), w')).
  { intros g cls l. induction l as [|x l IH]; intros acc f Hf; (destruct f as [|f]; [cbn in Hf; lia|]).
    - eexists. cbn. rewrite app_nil_r. reflexivity.
    - cbn in Hf. destruct (IH (acc ++ [x]) f) as [w' Hw]; [lia|]. exists w'. rewrite <- app_assoc in Hw. cbn [app] in Hw. rewrite <- Hw. reflexivity. }
  exists (Build_world c [s] [new_query_rows 0 m] [] (map (fun fs => RMsg (VRecord fs)) fss ++ [RDec None EEOF])).
  destruct (H (S (length fss)) (close script (S (length fss))) fss [] (S (length fss))) as [w' Hw]; [lia|].
  exists w'. split; [reflexivity|]. cbn [step step_body]. unfold step, step_body, all_rows, bind. rewrite Hw. reflexivity.
Qed.
Print Assumptions C54_refuted.
