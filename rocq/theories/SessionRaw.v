(** When a call returns driver.ErrBadConn itself (not wrapped in another error), for every network.
    [fl] is any observation of the network that stays true once it is true, and is
    true after a FAILURE message has been received ([refusals] below adds one to any network). *)
From Coq Require Import ZArith List Bool Lia.
From Verif Require Import GoPrims Value Errors Misc Session SessionGen SessionErr.
Import ListNotations.
Open Scope Z_scope.

Definition refusals {N} (ops : netops N) : netops (N * bool) :=
  {| n_send := fun n cs v => let '(n', r) := n_send ops (fst n) cs v in (n', snd n, r);
     n_recv := fun n => let '(n', r) := n_recv ops (fst n) in (n', match r with RMsg (VFailure _) => true | _ => snd n end, r);
     n_close := fun n => let '(n', b) := n_close ops (fst n) in (n', snd n, b);
     n_shake := fun n => let '(n', r) := n_shake ops (fst n) in (n', snd n, r) |}.

Section Raw.
Context {N : Type} (ops : netops N) (fl : N -> bool).
Hypothesis Hsend : forall n cs v, fl n = true -> fl (fst (n_send ops n cs v)) = true.
Hypothesis Hrecv : forall n, fl n = true -> fl (fst (n_recv ops n)) = true.
Hypothesis Hclose : forall n, fl n = true -> fl (fst (n_close ops n)) = true.
Hypothesis Hfail : forall n n' m, n_recv ops n = (n', RMsg (VFailure m)) -> fl n' = true.
Hypothesis Hdec : forall n n' p e, n_recv ops n = (n', RDec p e) -> e <> EBadConn.
Notation W := (world N).
Notation flw w := (fl (w_net w)).

Definition MO {A} (m : M (N := N) A) : Prop := forall w a w', m w = (Ok a, w') -> flw w = true -> flw w' = true.
Definition RB {A} (ef : A -> option gerr) (m : M (N := N) A) : Prop :=
  forall w a w', m w = (Ok a, w') -> (flw w = true -> flw w' = true) /\ (ef a = Some EBadConn -> flw w' = true).

Lemma RB_MO : forall A (ef : A -> option gerr) m, RB ef m -> MO m.
Proof. intros A ef m H w a w' E. exact (proj1 (H w a w' E)). Qed.
Lemma MO_bind : forall A B (m : M A) (k : A -> M B), MO m -> (forall a, MO (k a)) -> MO (bind m k).
Proof. intros A B m k Hm Hk w b w' E H. apply bind_inv in E. destruct E as (a & w1 & E1 & E2). eapply Hk; eauto. Qed.
Lemma RB_bind : forall A B (ef : A -> option gerr) (eg : B -> option gerr) m k,
  RB ef m -> (forall a, ef a <> Some EBadConn -> RB eg (k a)) -> (forall a, ef a = Some EBadConn -> MO (k a)) -> RB eg (bind m k).
Proof.
  intros A B ef eg m k Hm Hk Hb w b w' E. apply bind_inv in E. destruct E as (a & w1 & E1 & E2).
  destruct (Hm _ _ _ E1) as (H1 & H2).
  assert (D : ef a = Some EBadConn \/ ef a <> Some EBadConn) by (destruct (ef a) as [[]|]; (left; reflexivity) || (right; discriminate)).
  destruct D as [D|D].
  - pose proof (Hb a D _ _ _ E2 (H2 D)) as H. auto.
  - destruct (Hk a D _ _ _ E2). auto.
Qed.
Lemma RB_bind0 : forall A B (eg : B -> option gerr) (m : M A) (k : A -> M B), MO m -> (forall a, RB eg (k a)) -> RB eg (bind m k).
Proof.
  intros A B eg m k Hm Hk w b w' E. apply bind_inv in E. destruct E as (a & w1 & E1 & E2).
  destruct (Hk a _ _ _ E2) as (H1 & H2). pose proof (Hm _ _ _ E1). auto.
Qed.
Lemma MO_net : forall A (m : M A), (forall w, w_net (snd (m w)) = w_net w) -> MO m.
Proof. intros A m H w b w' E. specialize (H w). rewrite E in H. cbn in H. congruence. Qed.
Lemma MO_ret : forall A (a : A), MO (ret a). Proof. intros. apply MO_net. reflexivity. Qed.
Lemma MO_panic : forall A, MO (A := A) panic. Proof. intros A w b w' E. discriminate. Qed.
Lemma MO_nofuel : forall A, MO (A := A) nofuel. Proof. intros A w b w' E. discriminate. Qed.
Lemma RB_ret : forall A (eg : A -> option gerr) a, eg a <> Some EBadConn -> RB eg (ret a).
Proof. intros A eg a H w b w' E. injection E as <- <-. tauto. Qed.
Lemma RB_panic : forall A (eg : A -> option gerr), RB eg panic. Proof. intros A eg w b w' E. discriminate. Qed.
Lemma RB_nofuel : forall A (eg : A -> option gerr), RB eg nofuel. Proof. intros A eg w b w' E. discriminate. Qed.
Lemma MO_gets : forall i, MO (gets i). Proof. intros. apply MO_net. intros w. unfold gets. destruct (nth_error _ _); reflexivity. Qed.
Lemma MO_getr : forall i, MO (getr i). Proof. intros. apply MO_net. intros w. unfold getr. destruct (nth_error _ _); reflexivity. Qed.
Lemma MO_gett : forall i, MO (gett i). Proof. intros. apply MO_net. intros w. unfold gett. destruct (nth_error _ _); reflexivity. Qed.
Lemma MO_mods : forall i f, MO (mods i f).
Proof. intros. apply MO_net. intros w. unfold mods, bind, gets, sets. destruct (nth_error _ _); reflexivity. Qed.
Lemma MO_modr : forall i f, MO (modr i f).
Proof. intros. apply MO_net. intros w. unfold modr, bind, getr, setr. destruct (nth_error _ _); reflexivity. Qed.
Lemma MO_need : forall i, MO (need_conn i).
Proof. intros. apply MO_net. intros w. unfold need_conn, bind, gets. destruct (nth_error _ _); cbn; auto. destruct (s_conn _); reflexivity. Qed.

Lemma RB_enc : forall v, RB (fun e => e) (encode_msg ops v).
Proof.
  intros v w a w' E. unfold encode_msg, bind, getc, getn, setn in E. pose proof (Hsend (w_net w) (c_cs (w_conn w)) v) as H.
  destruct (n_send ops (w_net w) (c_cs (w_conn w)) v) as [n' r] eqn:Es. cbn in E.
  destruct r; cbn in E; injection E as <- <-; (split; [exact H|discriminate]).
Qed.
Notation ef2 := (fun x : option goval * option gerr => snd x).
Lemma RB_dec : RB ef2 (decode_msg ops).
Proof.
  intros w a w' E. unfold decode_msg, bind, getc, getn, setn in E. pose proof (Hrecv (w_net w)) as H.
  destruct (n_recv ops (w_net w)) as [n' r] eqn:Es. cbn in E.
  destruct r; cbn in E; try discriminate; injection E as <- <-; (split; [exact H|try discriminate]).
  cbn. intros Hx. injection Hx as ->. apply Hdec in Es. congruence.
Qed.
Lemma dec_failure : forall (w w' : W) m e, decode_msg ops w = (Ok (Some (VFailure m), e), w') -> e = None -> flw w' = true.
Proof.
  intros w w' m e E He. unfold decode_msg, bind, getc, getn, setn in E.
  destruct (n_recv ops (w_net w)) as [n' r] eqn:Es. cbn in E.
  destruct r; cbn in E; try discriminate; injection E as -> <- <-; try discriminate. exact (Hfail _ _ _ Es).
Qed.

Local Hint Resolve MO_gets MO_getr MO_gett MO_mods MO_modr MO_need MO_ret MO_panic MO_nofuel : mo.
Local Hint Extern 3 (MO _) => (eapply RB_MO; solve [eauto with rb]) : mo.
Ltac mo1 :=
  cbv beta iota;
  lazymatch goal with
  | |- MO (bind _ _) => apply MO_bind; [|intro]
  | |- MO (match ?x with _ => _ end) => destruct x
  | |- MO _ => first [solve [eauto with mo] | solve [apply MO_net; intros; reflexivity]]
  end.
Ltac mo := repeat mo1.
Ltac nbad := cbn [snd fst]; solve [assumption | discriminate | congruence].
Ltac rb1 :=
  cbv beta iota;
  lazymatch goal with
  | |- RB _ (ret _) => apply RB_ret; nbad
  | |- RB _ panic => apply RB_panic
  | |- RB _ nofuel => apply RB_nofuel
  | |- RB _ (match ?x with _ => _ end) => destruct x
  | |- RB _ (let '(_, _) := ?x in _) => destruct x
  | |- RB _ (bind _ _) =>
      first [ eapply RB_bind; [solve [eauto with rb]
                              |let a := fresh "a" in intros a ?; repeat match type of a with (_ * _)%type => let b := fresh "b" in destruct a as [a b] end; cbn [fst snd] in *
                              |let a := fresh "a" in intros a ?; repeat match type of a with (_ * _)%type => let b := fresh "b" in destruct a as [a b] end; cbn [fst snd] in *; subst; solve [mo]]
            | apply RB_bind0; [solve [mo]|intro] ]
  | |- RB _ _ => first [solve [eauto with rb]]
  end.
Ltac rb := repeat rb1.
Local Hint Resolve RB_enc RB_dec : rb.

Section Inner.
Variable lf : nat.
Variable cls : M (N := N) (option gerr).
Notation ef0 := (fun x : option gerr => x).
Hypothesis Hcls : MO cls.
Local Hint Resolve Hcls : mo.
Lemma MO_enc : forall v, MO (encode_msg ops v). Proof. intros. eapply RB_MO, RB_enc. Qed.
Lemma MO_dec : MO (decode_msg ops). Proof. eapply RB_MO, RB_dec. Qed.
Local Hint Resolve MO_enc MO_dec : mo.
Lemma MO_reset_loop : forall f, MO (reset_loop ops cls f).
Proof. induction f as [|f IH]; cbn [reset_loop]; mo. Qed.
Local Hint Resolve MO_reset_loop : mo.
Lemma MO_reset : MO (reset ops lf cls).
Proof. unfold reset. mo. Qed.
Local Hint Resolve MO_reset : mo.
Lemma MO_ack_loop : forall f, MO (ack_loop ops lf cls f).
Proof. induction f as [|f IH]; cbn [ack_loop]; mo. Qed.
Local Hint Resolve MO_ack_loop : mo.
Lemma MO_ack : MO (ack_failure ops lf cls).
Proof. unfold ack_failure. mo. Qed.
Local Hint Resolve MO_ack : mo.
Lemma RB_consume : RB ef2 (consume ops lf cls).
Proof.
  assert (Hm : MO (consume ops lf cls)) by (unfold consume; mo).
  intros w a w' E. split; [exact (Hm _ _ _ E)|]. intros Ha. unfold consume in E.
  apply bind_inv in E. destruct E as ([v e] & w1 & E1 & E2). destruct e as [e|].
  - injection E2 as <- <-. exact (proj2 (RB_dec _ _ _ E1) Ha).
  - destruct v as [v|]; [destruct v|]; try (injection E2 as <- <-; discriminate Ha).
    apply dec_failure in E1; [|reflexivity].
    eapply (MO_bind _ _ (ack_failure ops lf cls)); [apply MO_ack| |exact E2|exact E1]. intros [e|]; apply MO_ret.
Qed.
Local Hint Resolve RB_consume : rb.
Lemma RB_consume_all : RB ef2 (consume_all ops lf cls).
Proof. unfold consume_all. generalize lf at 2 as f. induction f as [|f IH]; cbn [consume_all_loop]; rb. Qed.
Local Hint Resolve RB_consume_all : rb.
Lemma RB_consume_n : forall n, RB ef0 (consume_all_n ops lf cls n).
Proof. induction n as [|n IH]; cbn [consume_all_n]; rb. Qed.
Local Hint Resolve RB_consume_n : rb.
Lemma RB_consume_multiple : forall n, RB ef0 (consume_all_multiple ops lf cls n).
Proof. intros. unfold consume_all_multiple. rb. Qed.
Local Hint Resolve RB_consume_multiple : rb.
Lemma RB_send_run : forall q ps, RB ef0 (send_run ops q ps).
Proof. intros. unfold send_run. rb. Qed.
Lemma RB_send_pull : RB ef0 (send_pull_all ops).
Proof. unfold send_pull_all. rb. Qed.
Local Hint Resolve RB_send_run RB_send_pull : rb.
Lemma RB_send_run_pull : forall q ps, RB ef0 (send_run_pull_all ops q ps).
Proof. intros. unfold send_run_pull_all. rb. Qed.
Local Hint Resolve RB_send_run_pull : rb.
Lemma RB_send_run_consume : forall q ps, RB ef2 (send_run_consume ops lf cls q ps).
Proof. intros. unfold send_run_consume. rb. Qed.
Lemma RB_consume_run : forall q ps, RB ef2 (send_run_pull_all_consume_run ops lf cls q ps).
Proof. intros. unfold send_run_pull_all_consume_run. rb. Qed.
Lemma RB_consume_single : forall q ps, RB (fun x => snd x) (send_run_pull_all_consume_single ops lf cls q ps).
Proof. intros. unfold send_run_pull_all_consume_single. rb. Qed.
Lemma RB_run_consume_all : forall q ps, RB (fun x => snd x) (send_run_pull_all_consume_all ops lf cls q ps).
Proof. intros. unfold send_run_pull_all_consume_all. rb. Qed.
Lemma RB_discard : RB ef2 (send_discard_all_consume ops lf cls).
Proof. intros. unfold send_discard_all_consume. rb. Qed.
Local Hint Resolve RB_send_run_consume RB_consume_run RB_consume_single RB_run_consume_all RB_discard : rb.
Lemma RB_rows_close_body : forall rid, RB ef0 (rows_close_body ops lf cls rid).
Proof. intros. unfold rows_close_body. apply RB_bind0; [mo|intros r]. eapply RB_bind with (ef := ef0); [|intros [e|] ?; rb|intros; subst; mo]. rb. Qed.
Local Hint Resolve RB_rows_close_body : rb.
Lemma RB_stmt_close : forall sid, RB ef0 (stmt_close ops lf cls sid).
Proof.
  intros. unfold stmt_close. apply RB_bind0; [mo|intros s]. destruct (s_closed s); [rb|].
  eapply RB_bind with (ef := ef0); [|intros [e|] ?; rb|intros; subst; mo]. rb.
Qed.
Local Hint Resolve RB_stmt_close : rb.
Lemma RB_rows_close : forall rid, RB ef0 (rows_close ops lf cls rid).
Proof. intros. unfold rows_close. rb. Qed.
Lemma RB_tx_finish : forall q l1 l2 l3 l4 l5 tid, RB ef0 (tx_finish ops lf cls q l1 l2 l3 l4 l5 tid).
Proof.
  intros. unfold tx_finish. apply RB_bind0; [mo|intros t]. destruct (t_closed t); [rb|].
  apply RB_bind0; [mo|intros c]. eapply RB_bind with (ef := ef0); [|intros [e|] ?; rb|intros; subst; mo]. rb.
Qed.
Lemma MO_netclose : forall A (g : bool -> M (N := N) A), (forall b, MO (g b)) ->
  MO (n <- getn ;; let '(n', failed) := n_close ops n in setn n' ;; g failed).
Proof.
  intros A g Hg w a w' E H. apply bind_inv in E. destruct E as (n & w1 & E1 & E). injection E1 as <- <-.
  pose proof (Hclose (w_net w) H) as Hc. destruct (n_close ops (w_net w)) as [n' b]. cbn in Hc.
  apply bind_inv in E. destruct E as (u & w1 & E1 & E). injection E1 as <- <-. exact (Hg _ _ _ _ E Hc).
Qed.
Lemma MO_close_body : MO (close_body ops lf cls).
Proof.
  pose proof (fun q a b c d e t => RB_MO _ _ _ (RB_tx_finish q a b c d e t)) as Htx.
  unfold close_body, rollback. apply MO_bind; [mo|intros c]. destruct (c_closed c); [mo|].
  apply MO_bind; [mo|intros [e|]]; [mo|]. apply MO_bind; [mo|intros c2].
  apply MO_bind; [destruct (c_tx c2); [apply Htx|mo]|intros [e|]]; [mo|]. apply MO_bind; [mo|intros c3].
  destruct (c_pooled c3); [mo|].
  apply (MO_netclose _ (fun failed => modc c_set_closed ;; if failed then modc c_set_err ;; ret (Some EBadConn) else ret None)).
  intros b. mo.
Qed.
Notation efr := (fun x => snd x).
Lemma RB_begin : RB efr (begin_tx ops lf cls).
Proof. unfold begin_tx, guard_open. rb. Qed.
Lemma RB_stmt_exec : forall sid ps, RB efr (stmt_exec ops lf cls sid ps).
Proof. intros. unfold stmt_exec. rb. Qed.
Lemma RB_send_queries : forall l qs pss, RB ef0 (send_queries ops l qs pss).
Proof. intros l qs. induction qs as [|q qs IH]; intros [|ps pss]; cbn [send_queries]; rb. Qed.
Lemma RB_exec_results : forall qs, RB efr (exec_results ops lf cls qs).
Proof. induction qs as [|q qs IH]; cbn [exec_results]; rb. Qed.
Local Hint Resolve RB_send_queries RB_exec_results : rb.
Lemma RB_stmt_exec_pipeline : forall sid pss, RB efr (stmt_exec_pipeline ops lf cls sid pss).
Proof. intros. unfold stmt_exec_pipeline. rb. Qed.
Lemma RB_stmt_query : forall sid ps, RB efr (stmt_query ops lf cls sid ps).
Proof. intros. unfold stmt_query. rb. Qed.
Lemma RB_stmt_query_pipeline : forall sid ps, RB efr (stmt_query_pipeline ops lf cls sid ps).
Proof. intros. unfold stmt_query_pipeline. rb. Qed.
Local Hint Resolve RB_stmt_exec RB_stmt_exec_pipeline RB_stmt_query RB_stmt_query_pipeline : rb.
Lemma RB_query_pipeline : forall qs ps, RB efr (query_pipeline ops lf cls qs ps).
Proof. intros. unfold query_pipeline, guard_open. rb. Qed.
Lemma RB_next_neo : forall rid, RB efr (next_neo ops lf cls rid).
Proof.
  intros. unfold next_neo. apply RB_bind0; [mo|intros r]. destruct (r_closed r); [rb|].
  eapply RB_bind with (ef := ef0); [rb|intros [e|] ?; rb|intros; subst; mo].
Qed.
Local Hint Resolve RB_next_neo : rb.
Lemma RB_all_rows : forall rid, RB efr (all_rows ops lf cls rid).
Proof.
  intros. unfold all_rows. generalize (@nil (list goval)) as acc. generalize lf at 2 as f.
  induction f as [|f IH]; intros acc; cbn [all_loop]; rb.
Qed.
Local Hint Resolve RB_all_rows RB_rows_close : rb.
Lemma RB_next_pipeline : forall rid, RB efr (next_pipeline ops lf cls rid).
Proof. intros. unfold next_pipeline. rb. Qed.
Lemma RB_next_sql : forall rid n, RB efr (next_sql ops lf cls rid n).
Proof. intros. unfold next_sql. rb. Qed.
Lemma RB_defer : forall A B (ef : A -> option gerr) (m : M A) (d : M B), RB ef m -> MO d -> RB ef (with_defer m d).
Proof.
  intros A B ef m d Hm Hd w a w' E. unfold with_defer in E. destruct (m w) as [[b| |] w1] eqn:E1.
  - destruct (d w1) as [[c| |] w2] eqn:E2; try discriminate. injection E as <- <-.
    destruct (Hm _ _ _ E1) as (H1 & H2). pose proof (Hd _ _ _ E2). auto.
  - destruct (d w1) as [[c| |] w2]; discriminate.
  - discriminate.
Qed.
Lemma MO_stmt_close : forall sid, MO (stmt_close ops lf cls sid). Proof. intros. eapply RB_MO, RB_stmt_close. Qed.
Local Hint Resolve RB_defer : rb.
Local Hint Resolve MO_stmt_close : rb mo.
Lemma RB_exec_neo : forall q ps, RB efr (exec_neo ops lf cls q ps).
Proof. intros. unfold exec_neo, guard_open. rb. Qed.
Lemma RB_exec_pipeline : forall q ps, RB efr (exec_pipeline ops lf cls q ps).
Proof. intros. unfold exec_pipeline, guard_open. rb. Qed.
Lemma RB_exec_sql : forall mk q ps, RB efr (exec_sql ops lf cls mk q ps).
Proof.
  intros. unfold exec_sql, guard_open. apply RB_bind0; [mo|intros c]. destruct (c_stmt c); [rb|]. destruct (c_closed c); [rb|].
  apply RB_bind0; [mo|intros sid]. apply RB_defer; [|mo]. unfold stmt_exec_sql, with_args. rb.
Qed.
Lemma RB_query_neo : forall q ps, RB efr (query_neo ops lf cls q ps).
Proof. intros. unfold query_neo, guard_open, close_cur_stmt. rb. Qed.
Local Hint Resolve RB_query_neo : rb.
Lemma RB_query_all : forall q ps, RB efr (query_neo_all ops lf cls q ps).
Proof.
  intros. unfold query_neo_all. eapply RB_bind; [apply RB_query_neo|intros [h e] He|intros [h e] He]; cbn [snd] in He; [|subst e; mo].
  destruct e; [rb|]. destruct h; [|rb]. apply RB_defer; [rb|]. eapply RB_MO, RB_rows_close.
Qed.
End Inner.
Lemma MO_close : forall f, MO (close ops f).
Proof. induction f as [|f IH]; cbn [close]; [apply MO_nofuel|]. apply MO_close_body; auto. Qed.

Theorem RB_step : forall mk f o, o <> CClose -> RB out_err (step ops mk f o).
Proof.
  intros mk f o Ho. pose proof (MO_close f) as Hc.
  assert (Hm : forall A (ef : A -> option gerr) m g, RB ef m -> (forall a, exists r, g a = ret r /\ out_err r = ef a) -> RB out_err (bind m g)).
  { intros A ef m g H Hg. eapply RB_bind; [exact H|..].
    - intros a Ha. destruct (Hg a) as (r & -> & Hr). apply RB_ret. congruence.
    - intros a _. destruct (Hg a) as (r & -> & _). apply MO_ret. }
  destruct o; unfold step; cbn [step_body]; try (exfalso; apply Ho; reflexivity);
    try first [ eapply (Hm _ (fun x => snd x)); [|intros a; repeat match goal with x : (_ * _)%type |- _ => destruct x end; eexists; split; reflexivity]
          | eapply (Hm _ (fun x => x)); [|intros a; eexists; split; reflexivity] ];
  eauto using RB_begin, RB_exec_neo, RB_exec_pipeline, RB_query_neo, RB_query_pipeline, RB_exec_sql, RB_stmt_exec, RB_stmt_exec_pipeline,
    RB_stmt_query, RB_stmt_query_pipeline, RB_stmt_close, RB_next_neo, RB_all_rows, RB_next_pipeline, RB_next_sql, RB_rows_close, RB_query_all.
  - unfold prepare, guard_open. rb.
  - unfold prepare_pipeline, guard_open. rb.
  - unfold set_chunk_size. rb.
  - unfold query_sql, with_args. destruct (driver_args mk args); [apply RB_query_neo; auto|rb|rb].
  - unfold stmt_exec_sql, with_args. destruct (driver_args mk args); [apply RB_stmt_exec; auto|rb|rb].
  - unfold stmt_query_sql, with_args. destruct (driver_args mk args); [apply RB_stmt_query; auto|rb|rb].
  - rb.
  - apply RB_tx_finish; auto.
  - apply RB_tx_finish; auto.
Qed.
End Raw.

(** ** Servers that answer ACK_FAILURE as they should.  [I] holds between the calls, [J] when a
    FAILURE has been read and not yet acknowledged, [K] when the acknowledgement has been
    sent and its answer has not been read. *)
Definition request (v : goval) : Prop := match v with VRun _ _ | VPullAll | VDiscardAll => True | _ => False end.
Section Never.
Context {N : Type} (ops : netops N) (I J K : N -> Prop).
Hypothesis Hsend : forall n cs v, request v -> I n -> I (fst (n_send ops n cs v)).
Hypothesis Hrecv : forall n n' r, I n -> n_recv ops n = (n', r) ->
  match r with RMsg (VFailure _) => J n' | RDec _ e => I n' /\ e <> EBadConn | _ => I n' end.
Hypothesis Hack : forall n cs n' r, J n -> n_send ops n cs VAckFailure = (n', r) -> match r with SOk => K n' | _ => I n' end.
Hypothesis Hanswer : forall n n' r, K n -> n_recv ops n = (n', r) ->
  match r with RMsg VIgnored => K n' | RMsg (VSuccess _) => I n' | RMsg _ => False | RDec _ e => I n' /\ e <> EBadConn | _ => I n' end.
Hypothesis Hclose : forall n, I n -> I (fst (n_close ops n)).
Notation W := (world N).

Definition IV {A} (ef : A -> option gerr) (m : M (N := N) A) : Prop :=
  forall w a w', I (w_net w) -> m w = (Ok a, w') -> I (w_net w') /\ ef a <> Some EBadConn.
Definition IV0 {A} (m : M (N := N) A) : Prop := forall w a w', I (w_net w) -> m w = (Ok a, w') -> I (w_net w').
Lemma IV_IV0 : forall A (ef : A -> option gerr) m, IV ef m -> IV0 m.
Proof. intros A ef m H w a w' Hi E. exact (proj1 (H w a w' Hi E)). Qed.
Lemma IV_bind : forall A B (ef : A -> option gerr) (eg : B -> option gerr) m k,
  IV ef m -> (forall a, ef a <> Some EBadConn -> IV eg (k a)) -> IV eg (bind m k).
Proof.
  intros A B ef eg m k Hm Hk w b w' Hi E. apply bind_inv in E. destruct E as (a & w1 & E1 & E2).
  destruct (Hm _ _ _ Hi E1) as (H1 & H2). exact (Hk a H2 _ _ _ H1 E2).
Qed.
Lemma IV_bind0 : forall A B (eg : B -> option gerr) (m : M A) (k : A -> M B), IV0 m -> (forall a, IV eg (k a)) -> IV eg (bind m k).
Proof.
  intros A B eg m k Hm Hk w b w' Hi E. apply bind_inv in E. destruct E as (a & w1 & E1 & E2).
  exact (Hk a _ _ _ (Hm _ _ _ Hi E1) E2).
Qed.
Lemma IV0_net : forall A (m : M A), (forall w, w_net (snd (m w)) = w_net w) -> IV0 m.
Proof. intros A m H w b w' Hi E. specialize (H w). rewrite E in H. cbn in H. congruence. Qed.
Lemma IV0_bind : forall A B (m : M A) (k : A -> M B), IV0 m -> (forall a, IV0 (k a)) -> IV0 (bind m k).
Proof. intros A B m k Hm Hk w b w' Hi E. apply bind_inv in E. destruct E as (a & w1 & E1 & E2). exact (Hk a _ _ _ (Hm _ _ _ Hi E1) E2). Qed.
Lemma IV0_ret : forall A (a : A), IV0 (ret a). Proof. intros. apply IV0_net. reflexivity. Qed.
Lemma IV0_panic : forall A, IV0 (A := A) panic. Proof. intros A w b w' _ E. discriminate. Qed.
Lemma IV0_nofuel : forall A, IV0 (A := A) nofuel. Proof. intros A w b w' _ E. discriminate. Qed.
Lemma IV_ret : forall A (eg : A -> option gerr) a, eg a <> Some EBadConn -> IV eg (ret a).
Proof. intros A eg a H w b w' Hi E. injection E as <- <-. tauto. Qed.
Lemma IV_panic : forall A (eg : A -> option gerr), IV eg panic. Proof. intros A eg w b w' _ E. discriminate. Qed.
Lemma IV_nofuel : forall A (eg : A -> option gerr), IV eg nofuel. Proof. intros A eg w b w' _ E. discriminate. Qed.
Lemma IV0_gets : forall i, IV0 (gets i). Proof. intros. apply IV0_net. intros w. unfold gets. destruct (nth_error _ _); reflexivity. Qed.
Lemma IV0_getr : forall i, IV0 (getr i). Proof. intros. apply IV0_net. intros w. unfold getr. destruct (nth_error _ _); reflexivity. Qed.
Lemma IV0_gett : forall i, IV0 (gett i). Proof. intros. apply IV0_net. intros w. unfold gett. destruct (nth_error _ _); reflexivity. Qed.
Lemma IV0_mods : forall i f, IV0 (mods i f).
Proof. intros. apply IV0_net. intros w. unfold mods, bind, gets, sets. destruct (nth_error _ _); reflexivity. Qed.
Lemma IV0_modr : forall i f, IV0 (modr i f).
Proof. intros. apply IV0_net. intros w. unfold modr, bind, getr, setr. destruct (nth_error _ _); reflexivity. Qed.
Lemma IV0_need : forall i, IV0 (need_conn i).
Proof. intros. apply IV0_net. intros w. unfold need_conn, bind, gets. destruct (nth_error _ _); cbn; auto. destruct (s_conn _); reflexivity. Qed.
Lemma IV_enc : forall v, request v -> IV (fun e => e) (encode_msg ops v).
Proof.
  intros v V w a w' Hi E. unfold encode_msg, bind, getc, getn, setn in E. pose proof (Hsend (w_net w) (c_cs (w_conn w)) v V Hi) as H.
  destruct (n_send ops (w_net w) (c_cs (w_conn w)) v) as [n' r] eqn:Es. cbn in E.
  destruct r; cbn in E; injection E as <- <-; (split; [exact H|discriminate]).
Qed.
Lemma IV_run : forall q ps, IV (fun e => e) (encode_msg ops (VRun q ps)). Proof. intros. apply IV_enc; exact Logic.I. Qed.
Lemma IV_pull : IV (fun e => e) (encode_msg ops VPullAll). Proof. apply IV_enc; exact Logic.I. Qed.
Lemma IV_disc : IV (fun e => e) (encode_msg ops VDiscardAll). Proof. apply IV_enc; exact Logic.I. Qed.
Notation ef2 := (fun x : option goval * option gerr => snd x).

Local Hint Resolve IV0_gets IV0_getr IV0_gett IV0_mods IV0_modr IV0_need IV0_ret IV0_panic IV0_nofuel : mo.
Local Hint Extern 3 (IV0 _) => (eapply IV_IV0; solve [eauto with rb]) : mo.
Ltac mo1 :=
  cbv beta iota;
  lazymatch goal with
  | |- IV0 (bind _ _) => apply IV0_bind; [|intro]
  | |- IV0 (match ?x with _ => _ end) => destruct x
  | |- IV0 _ => first [solve [eauto with mo] | solve [apply IV0_net; intros; reflexivity]]
  end.
Ltac mo := repeat mo1.
Ltac nbad := cbn [snd fst]; solve [assumption | discriminate | congruence].
Ltac rb1 :=
  cbv beta iota;
  lazymatch goal with
  | |- IV _ (ret _) => apply IV_ret; nbad
  | |- IV _ panic => apply IV_panic
  | |- IV _ nofuel => apply IV_nofuel
  | |- IV _ (match ?x with _ => _ end) => destruct x
  | |- IV _ (let '(_, _) := ?x in _) => destruct x
  | |- IV _ (bind _ _) =>
      first [ eapply IV_bind; [solve [eauto with rb]
                              |let a := fresh "a" in intros a ?; repeat match type of a with (_ * _)%type => let b := fresh "b" in destruct a as [a b] end; cbn [fst snd] in *]
            | apply IV_bind0; [solve [mo]|intro] ]
  | |- IV _ _ => first [solve [eauto with rb]]
  end.
Ltac rb := repeat rb1.
Local Hint Resolve IV_run IV_pull IV_disc : rb.

Section Inner.
Variable lf : nat.
Variable cls : M (N := N) (option gerr).
Notation ef0 := (fun x : option gerr => x).
Hypothesis Hcls : IV0 cls.
Local Hint Resolve Hcls : mo.
Lemma ack_loop_never : forall f w a w', K (w_net w) -> ack_loop ops lf cls f w = (Ok a, w') -> I (w_net w') /\ a <> Some EBadConn.
Proof.
  induction f as [|f IH]; intros w a w' Hk E; cbn [ack_loop] in E; [discriminate|].
  apply bind_inv in E. destruct E as ([v e] & w1 & E1 & E2). unfold decode_msg, bind, getc, getn, setn in E1.
  destruct (n_recv ops (w_net w)) as [n' r] eqn:Es. cbn in E1. pose proof (Hanswer _ _ _ Hk Es) as H.
  destruct r as [x|p e'| |]; cbn in E1; try discriminate; injection E1 as <- <- <-.
  - destruct x; try contradiction; cbv beta iota in E2.
    + injection E2 as <- <-. split; [exact H|discriminate].
    + eapply IH; [|exact E2]. exact H.
  - injection E2 as <- <-. split; [apply H|discriminate].
  - injection E2 as <- <-. split; [apply H|discriminate].
Qed.
Lemma IV_consume : IV ef2 (consume ops lf cls).
Proof.
  intros w a w' Hi E. unfold consume in E. apply bind_inv in E. destruct E as ([v e] & w1 & E1 & E2). unfold decode_msg, bind, getc, getn, setn in E1.
  destruct (n_recv ops (w_net w)) as [n' r] eqn:Es. cbn in E1. pose proof (Hrecv _ _ _ Hi Es) as H.
  destruct r as [x|p e'| |]; cbn in E1; try discriminate; injection E1 as <- <- <-.
  - destruct x; try (injection E2 as <- <-; split; [exact H|discriminate]).
    cbv beta iota in E2. apply bind_inv in E2. destruct E2 as (e & w2 & E2 & E3).
    assert (X : I (w_net w2) /\ e <> Some EBadConn).
    { unfold ack_failure in E2. apply bind_inv in E2. destruct E2 as (e1 & w3 & E2 & E4). unfold encode_msg, bind, getc, getn, setn in E2.
      cbn [w_net w_conn] in E2. destruct (n_send ops n' (c_cs (w_conn w)) VAckFailure) as [n2 r2] eqn:Es2. cbn in E2.
      pose proof (Hack _ _ _ _ H Es2) as H2.
      destruct r2; cbn in E2; injection E2 as <- <-.
      - eapply ack_loop_never; [|exact E4]. exact H2.
      - injection E4 as <- <-. split; [exact H2|discriminate].
      - injection E4 as <- <-. split; [exact H2|discriminate]. }
    destruct e as [e|]; injection E3 as <- <-; [exact X|]. split; [apply X|discriminate].
  - injection E2 as <- <-. split; [apply H|]. cbn. intros X. injection X as ->. now apply (proj2 H).
  - injection E2 as <- <-. split; [exact H|discriminate].
Qed.
Local Hint Resolve IV_consume : rb.
Lemma IV_consume_all : IV ef2 (consume_all ops lf cls).
Proof. unfold consume_all. generalize lf at 2 as f. induction f as [|f IH]; cbn [consume_all_loop]; rb. Qed.
Local Hint Resolve IV_consume_all : rb.
Lemma IV_consume_n : forall n, IV ef0 (consume_all_n ops lf cls n).
Proof. induction n as [|n IH]; cbn [consume_all_n]; rb. Qed.
Local Hint Resolve IV_consume_n : rb.
Lemma IV_consume_multiple : forall n, IV ef0 (consume_all_multiple ops lf cls n).
Proof. intros. unfold consume_all_multiple. rb. Qed.
Local Hint Resolve IV_consume_multiple : rb.
Lemma IV_send_run : forall q ps, IV ef0 (send_run ops q ps).
Proof. intros. unfold send_run. rb. Qed.
Lemma IV_send_pull : IV ef0 (send_pull_all ops).
Proof. unfold send_pull_all. rb. Qed.
Local Hint Resolve IV_send_run IV_send_pull : rb.
Lemma IV_send_run_pull : forall q ps, IV ef0 (send_run_pull_all ops q ps).
Proof. intros. unfold send_run_pull_all. rb. Qed.
Local Hint Resolve IV_send_run_pull : rb.
Lemma IV_send_run_consume : forall q ps, IV ef2 (send_run_consume ops lf cls q ps).
Proof. intros. unfold send_run_consume. rb. Qed.
Lemma IV_consume_run : forall q ps, IV ef2 (send_run_pull_all_consume_run ops lf cls q ps).
Proof. intros. unfold send_run_pull_all_consume_run. rb. Qed.
Lemma IV_consume_single : forall q ps, IV (fun x => snd x) (send_run_pull_all_consume_single ops lf cls q ps).
Proof. intros. unfold send_run_pull_all_consume_single. rb. Qed.
Lemma IV_run_consume_all : forall q ps, IV (fun x => snd x) (send_run_pull_all_consume_all ops lf cls q ps).
Proof. intros. unfold send_run_pull_all_consume_all. rb. Qed.
Lemma IV_discard : IV ef2 (send_discard_all_consume ops lf cls).
Proof. intros. unfold send_discard_all_consume. rb. Qed.
Local Hint Resolve IV_send_run_consume IV_consume_run IV_consume_single IV_run_consume_all IV_discard : rb.
Lemma IV_rows_close_body : forall rid, IV ef0 (rows_close_body ops lf cls rid).
Proof. intros. unfold rows_close_body. apply IV_bind0; [mo|intros r]. eapply IV_bind with (ef := ef0); [|intros [e|] ?; rb]. rb. Qed.
Local Hint Resolve IV_rows_close_body : rb.
Lemma IV_stmt_close : forall sid, IV ef0 (stmt_close ops lf cls sid).
Proof.
  intros. unfold stmt_close. apply IV_bind0; [mo|intros s]. destruct (s_closed s); [rb|].
  eapply IV_bind with (ef := ef0); [|intros [e|] ?; rb]. rb.
Qed.
Local Hint Resolve IV_stmt_close : rb.
Lemma IV_rows_close : forall rid, IV ef0 (rows_close ops lf cls rid).
Proof. intros. unfold rows_close. rb. Qed.
Lemma IV_tx_finish : forall q l1 l2 l3 l4 l5 tid, IV ef0 (tx_finish ops lf cls q l1 l2 l3 l4 l5 tid).
Proof.
  intros. unfold tx_finish. apply IV_bind0; [mo|intros t]. destruct (t_closed t); [rb|].
  apply IV_bind0; [mo|intros c]. eapply IV_bind with (ef := ef0); [|intros [e|] ?; rb]. rb.
Qed.
Lemma IV0_netclose : forall A (g : bool -> M (N := N) A), (forall b, IV0 (g b)) ->
  IV0 (n <- getn ;; let '(n', failed) := n_close ops n in setn n' ;; g failed).
Proof.
  intros A g Hg w a w' H E. apply bind_inv in E. destruct E as (n & w1 & E1 & E). injection E1 as <- <-.
  pose proof (Hclose (w_net w) H) as Hc. destruct (n_close ops (w_net w)) as [n' b]. cbn in Hc.
  apply bind_inv in E. destruct E as (u & w1 & E1 & E). injection E1 as <- <-. exact (Hg b (Build_world (w_conn w) (w_stmts w) (w_rows w) (w_txs w) n') _ _ Hc E).
Qed.
Lemma IV0_close_body : IV0 (close_body ops lf cls).
Proof.
  pose proof (fun q a b c d e t => IV_IV0 _ _ _ (IV_tx_finish q a b c d e t)) as Htx.
  unfold close_body, rollback. apply IV0_bind; [mo|intros c]. destruct (c_closed c); [mo|].
  apply IV0_bind; [mo|intros [e|]]; [mo|]. apply IV0_bind; [mo|intros c2].
  apply IV0_bind; [destruct (c_tx c2); [apply Htx|mo]|intros [e|]]; [mo|]. apply IV0_bind; [mo|intros c3].
  destruct (c_pooled c3); [mo|].
  apply (IV0_netclose _ (fun failed => modc c_set_closed ;; if failed then modc c_set_err ;; ret (Some EBadConn) else ret None)).
  intros b. mo.
Qed.
Notation efr := (fun x => snd x).
Lemma IV_begin : IV efr (begin_tx ops lf cls).
Proof. unfold begin_tx, guard_open. rb. Qed.
Lemma IV_stmt_exec : forall sid ps, IV efr (stmt_exec ops lf cls sid ps).
Proof. intros. unfold stmt_exec. rb. Qed.
Lemma IV_send_queries : forall l qs pss, IV ef0 (send_queries ops l qs pss).
Proof. intros l qs. induction qs as [|q qs IH]; intros [|ps pss]; cbn [send_queries]; rb. Qed.
Lemma IV_exec_results : forall qs, IV efr (exec_results ops lf cls qs).
Proof. induction qs as [|q qs IH]; cbn [exec_results]; rb. Qed.
Local Hint Resolve IV_send_queries IV_exec_results : rb.
Lemma IV_stmt_exec_pipeline : forall sid pss, IV efr (stmt_exec_pipeline ops lf cls sid pss).
Proof. intros. unfold stmt_exec_pipeline. rb. Qed.
Lemma IV_stmt_query : forall sid ps, IV efr (stmt_query ops lf cls sid ps).
Proof. intros. unfold stmt_query. rb. Qed.
Lemma IV_stmt_query_pipeline : forall sid ps, IV efr (stmt_query_pipeline ops lf cls sid ps).
Proof. intros. unfold stmt_query_pipeline. rb. Qed.
Local Hint Resolve IV_stmt_exec IV_stmt_exec_pipeline IV_stmt_query IV_stmt_query_pipeline : rb.
Lemma IV_query_pipeline : forall qs ps, IV efr (query_pipeline ops lf cls qs ps).
Proof. intros. unfold query_pipeline, guard_open. rb. Qed.
Lemma IV_next_neo : forall rid, IV efr (next_neo ops lf cls rid).
Proof.
  intros. unfold next_neo. apply IV_bind0; [mo|intros r]. destruct (r_closed r); [rb|].
  eapply IV_bind with (ef := ef0); [rb|intros [e|] ?; rb].
Qed.
Local Hint Resolve IV_next_neo : rb.
Lemma IV_all_rows : forall rid, IV efr (all_rows ops lf cls rid).
Proof.
  intros. unfold all_rows. generalize (@nil (list goval)) as acc. generalize lf at 2 as f.
  induction f as [|f IH]; intros acc; cbn [all_loop]; rb.
Qed.
Local Hint Resolve IV_all_rows IV_rows_close : rb.
Lemma IV_next_pipeline : forall rid, IV efr (next_pipeline ops lf cls rid).
Proof. intros. unfold next_pipeline. rb. Qed.
Lemma IV_next_sql : forall rid n, IV efr (next_sql ops lf cls rid n).
Proof. intros. unfold next_sql. rb. Qed.
Lemma IV_defer : forall A B (ef : A -> option gerr) (m : M A) (d : M B), IV ef m -> IV0 d -> IV ef (with_defer m d).
Proof.
  intros A B ef m d Hm Hd w a w' Hi E. unfold with_defer in E. destruct (m w) as [[b| |] w1] eqn:E1.
  - destruct (d w1) as [[c| |] w2] eqn:E2; try discriminate. injection E as <- <-.
    destruct (Hm _ _ _ Hi E1) as (H1 & H2). pose proof (Hd _ _ _ H1 E2). auto.
  - destruct (d w1) as [[c| |] w2]; discriminate.
  - discriminate.
Qed.
Lemma IV0_stmt_close : forall sid, IV0 (stmt_close ops lf cls sid). Proof. intros. eapply IV_IV0, IV_stmt_close. Qed.
Local Hint Resolve IV_defer : rb.
Local Hint Resolve IV0_stmt_close : rb mo.
Lemma IV_exec_neo : forall q ps, IV efr (exec_neo ops lf cls q ps).
Proof. intros. unfold exec_neo, guard_open. rb. Qed.
Lemma IV_exec_pipeline : forall q ps, IV efr (exec_pipeline ops lf cls q ps).
Proof. intros. unfold exec_pipeline, guard_open. rb. Qed.
Lemma IV_exec_sql : forall mk q ps, IV efr (exec_sql ops lf cls mk q ps).
Proof.
  intros. unfold exec_sql, guard_open. apply IV_bind0; [mo|intros c]. destruct (c_stmt c); [rb|]. destruct (c_closed c); [rb|].
  apply IV_bind0; [mo|intros sid]. apply IV_defer; [|mo]. unfold stmt_exec_sql, with_args. rb.
Qed.
Lemma IV_query_neo : forall q ps, IV efr (query_neo ops lf cls q ps).
Proof. intros. unfold query_neo, guard_open, close_cur_stmt. rb. Qed.
Local Hint Resolve IV_query_neo : rb.
Lemma IV_query_all : forall q ps, IV efr (query_neo_all ops lf cls q ps).
Proof.
  intros. unfold query_neo_all. eapply IV_bind; [apply IV_query_neo|intros [h e] He]; cbn [snd] in He.
  destruct e; [rb|]. destruct h; [|rb]. apply IV_defer; [rb|]. eapply IV_IV0, IV_rows_close.
Qed.
End Inner.
Lemma IV0_close : forall f, IV0 (close ops f).
Proof. induction f as [|f IH]; cbn [close]; [apply IV0_nofuel|]. apply IV0_close_body; auto. Qed.

Theorem IV_step : forall mk f o, o <> CClose -> IV out_err (step ops mk f o).
Proof.
  intros mk f o Ho. pose proof (IV0_close f) as Hc.
  assert (Hm : forall A (ef : A -> option gerr) m g, IV ef m -> (forall a, exists r, g a = ret r /\ out_err r = ef a) -> IV out_err (bind m g)).
  { intros A ef m g H Hg. eapply IV_bind; [exact H|..].
    intros a Ha. destruct (Hg a) as (r & -> & Hr). apply IV_ret. congruence. }
  destruct o; unfold step; cbn [step_body]; try (exfalso; apply Ho; reflexivity);
    try first [ eapply (Hm _ (fun x => snd x)); [|intros a; repeat match goal with x : (_ * _)%type |- _ => destruct x end; eexists; split; reflexivity]
          | eapply (Hm _ (fun x => x)); [|intros a; eexists; split; reflexivity] ];
  eauto using IV_begin, IV_exec_neo, IV_exec_pipeline, IV_query_neo, IV_query_pipeline, IV_exec_sql, IV_stmt_exec, IV_stmt_exec_pipeline,
    IV_stmt_query, IV_stmt_query_pipeline, IV_stmt_close, IV_next_neo, IV_all_rows, IV_next_pipeline, IV_next_sql, IV_rows_close, IV_query_all.
  - unfold prepare, guard_open. rb.
  - unfold prepare_pipeline, guard_open. rb.
  - unfold set_chunk_size. rb.
  - unfold query_sql, with_args. destruct (driver_args mk args); [apply IV_query_neo; auto|rb|rb].
  - unfold stmt_exec_sql, with_args. destruct (driver_args mk args); [apply IV_stmt_exec; auto|rb|rb].
  - unfold stmt_query_sql, with_args. destruct (driver_args mk args); [apply IV_stmt_query; auto|rb|rb].
  - rb.
  - apply IV_tx_finish; auto.
  - apply IV_tx_finish; auto.
Qed.
End Never.
