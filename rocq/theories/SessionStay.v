(** The session model again, for networks that answer ACK_FAILURE as they should ([SessionRaw],
    Section Never): every call but Close leaves the connection as open as it was, and calls
    reclaim as often as before, which is not at all. *)
From Coq Require Import ZArith List Bool Lia.
From Verif Require Import GoPrims Value Errors Misc Session SessionGen SessionRaw.
Import ListNotations.
Open Scope Z_scope.

(** conn.go:65-85: the fields [closed], [poolDriver] and the calls of reclaim (driver.go:176-195) *)
Definition stays (c c' : conn) : Prop := c_closed c' = c_closed c /\ c_pooled c' = c_pooled c /\ c_reclaims c' = c_reclaims c.
Lemma stays_refl : forall c, stays c c. Proof. repeat split. Qed.
Lemma stays_trans : forall a b c, stays a b -> stays b c -> stays a c.
Proof. intros a b c (A1 & A2 & A3) (B1 & B2 & B3). repeat split; congruence. Qed.

Section Stay.
Context {N : Type} (ops : netops N) (I J K : N -> Prop).
Hypothesis Hsend : forall n cs v, request v -> I n -> I (fst (n_send ops n cs v)).
Hypothesis Hrecv : forall n n' r, I n -> n_recv ops n = (n', r) ->
  match r with RMsg (VFailure _) => J n' | _ => I n' end.
Hypothesis Hack : forall n cs n' r, J n -> n_send ops n cs VAckFailure = (n', r) -> match r with SOk => K n' | _ => I n' end.
Hypothesis Hanswer : forall n n' r, K n -> n_recv ops n = (n', r) ->
  match r with RMsg VIgnored => K n' | RMsg (VSuccess _) => I n' | RMsg _ => False | _ => I n' end.
Hypothesis HK : forall n, K n -> I n.
Definition SR (w w' : world N) : Prop := I (w_net w) -> I (w_net w') /\ stays (w_conn w) (w_conn w').
Lemma SR_refl : forall w, SR w w. Proof. intros w H. split; [exact H|apply stays_refl]. Qed.
Lemma SR_trans : forall a b c, SR a b -> SR b c -> SR a c.
Proof. intros a b c H1 H2 H. destruct (H1 H) as (A & B). destruct (H2 A) as (C & D). split; [exact C|]. eapply stays_trans; eauto. Qed.
Let Rr := SR_refl.
Let Rt := SR_trans.
Lemma st_conn : forall w w', w_net w' = w_net w -> stays (w_conn w) (w_conn w') -> SR w w'.
Proof. intros w w' E H Hi. rewrite E. auto. Qed.
Ltac st := apply st_conn; [reflexivity|repeat split].
Lemma st_err : Pres SR (modc (N := N) c_set_err). Proof. intros w. st. Qed.
Lemma st_cs : forall z, Pres SR (modc (N := N) (c_set_cs z)). Proof. intros z w. st. Qed.
Lemma st_stmt : forall o, Pres SR (modc (N := N) (c_set_stmt o)). Proof. intros o w. st. Qed.
Lemma st_tx : forall o, Pres SR (modc (N := N) (c_set_tx o)). Proof. intros o w. st. Qed.
Lemma st_mods : forall i f, Pres SR (mods (N := N) i f).
Proof. intros i f w. unfold mods, bind, gets, sets. destruct (nth_error _ _); st. Qed.
Lemma st_modr : forall i f, Pres SR (modr (N := N) i f).
Proof. intros i f w. unfold modr, bind, getr, setr. destruct (nth_error _ _); st. Qed.
Lemma st_sett : forall i t, Pres SR (sett (N := N) i t). Proof. intros i t w. st. Qed.
Lemma st_newr : forall r, Pres SR (newr (N := N) r). Proof. intros r w. st. Qed.
Lemma st_newt : forall r, Pres SR (newt (N := N) r). Proof. intros r w. st. Qed.
Lemma st_news : forall r, Pres SR (news (N := N) r). Proof. intros r w. st. Qed.
Lemma st_enc : forall v, request v -> Pres SR (encode_msg ops v).
Proof.
  intros v V w Hi. unfold encode_msg, bind, getc, getn, setn. pose proof (Hsend (w_net w) (c_cs (w_conn w)) v V Hi) as H.
  destruct (n_send ops (w_net w) (c_cs (w_conn w)) v) as [n' r]. cbn in H |- *.
  destruct r; cbn; (split; [exact H|repeat split]).
Qed.
Lemma st_run : forall q ps, Pres SR (encode_msg ops (VRun q ps)). Proof. intros. apply st_enc; exact Logic.I. Qed.
Lemma st_pull : Pres SR (encode_msg ops VPullAll). Proof. apply st_enc; exact Logic.I. Qed.
Lemma st_disc : Pres SR (encode_msg ops VDiscardAll). Proof. apply st_enc; exact Logic.I. Qed.
Hint Resolve st_err st_cs st_stmt st_tx st_mods st_modr st_sett st_newr st_newt st_news st_run st_pull st_disc : core.
Ltac pr := repeat first [pres_step | solve [auto]].

Section Inner.
Variable lf : nat.
Variable cls : M (N := N) (option gerr).
(** In [K] the loop of ackFailure only sees IGNORED and SUCCESS, so it neither resets nor closes. *)
Lemma ack_loop_stays : forall f w, K (w_net w) -> I (w_net (snd (ack_loop ops lf cls f w))) /\ stays (w_conn w) (w_conn (snd (ack_loop ops lf cls f w))).
Proof.
  induction f as [|f IH]; intros w Hk; cbn [ack_loop]; [split; [apply HK; exact Hk|apply stays_refl]|].
  unfold bind at 1, decode_msg, bind, getc, getn, setn.
  destruct (n_recv ops (w_net w)) as [n' r] eqn:Es. cbn. pose proof (Hanswer _ _ _ Hk Es) as H.
  destruct r as [x|p e'| |]; cbn; try (split; [exact H|repeat split]).
  destruct x; try contradiction; cbn; try (split; [exact H|repeat split]).
  apply (IH (Build_world (w_conn w) (w_stmts w) (w_rows w) (w_txs w) n')). exact H.
Qed.
Lemma ack_stays : forall w, J (w_net w) -> I (w_net (snd (ack_failure ops lf cls w))) /\ stays (w_conn w) (w_conn (snd (ack_failure ops lf cls w))).
Proof.
  intros w Hj. unfold ack_failure. unfold bind at 1, encode_msg, bind, getc, getn, setn.
  destruct (n_send ops (w_net w) (c_cs (w_conn w)) VAckFailure) as [n2 r2] eqn:Es2. cbn. pose proof (Hack _ _ _ _ Hj Es2) as H2.
  destruct r2; cbn; try (split; [exact H2|repeat split]).
  apply (ack_loop_stays lf (Build_world (w_conn w) (w_stmts w) (w_rows w) (w_txs w) n2)). exact H2.
Qed.
Lemma st_consume : Pres SR (consume ops lf cls).
Proof.
  intros w Hi. unfold consume. unfold bind at 1, decode_msg, bind, getc, getn, setn.
  destruct (n_recv ops (w_net w)) as [n' r] eqn:Es. cbn. pose proof (Hrecv _ _ _ Hi Es) as H.
  destruct r as [x|p e'| |]; cbn; try (split; [exact H|repeat split]).
  destruct x; cbn; try (split; [exact H|repeat split]).
  pose proof (ack_stays (Build_world (w_conn w) (w_stmts w) (w_rows w) (w_txs w) n') H) as G.
  cbn in G. destruct (ack_failure ops lf cls _) as [[[e|]| |] w2]; cbn in *; exact G.
Qed.
Hint Resolve st_consume : core.
Lemma st_consume_all : Pres SR (consume_all ops lf cls).
Proof. unfold consume_all. generalize lf at 2 as f. induction f as [|f IH]; cbn [consume_all_loop]; pr. Qed.
Hint Resolve st_consume_all : core.
Lemma st_consume_n : forall n, Pres SR (consume_all_n ops lf cls n).
Proof. induction n as [|n IH]; cbn [consume_all_n]; pr. Qed.
Hint Resolve st_consume_n : core.
Lemma st_consume_multiple : forall z, Pres SR (consume_all_multiple ops lf cls z).
Proof. intros z. unfold consume_all_multiple. pr. Qed.
Lemma st_send_run : forall q ps, Pres SR (send_run ops q ps).
Proof. intros. unfold send_run. pr. Qed.
Lemma st_send_pull : Pres SR (send_pull_all ops).
Proof. unfold send_pull_all. pr. Qed.
Hint Resolve st_consume_multiple st_send_run st_send_pull : core.
Lemma st_send_run_pull : forall q ps, Pres SR (send_run_pull_all ops q ps).
Proof. intros. unfold send_run_pull_all. pr. Qed.
Lemma st_send_run_consume : forall q ps, Pres SR (send_run_consume ops lf cls q ps).
Proof. intros. unfold send_run_consume. pr. Qed.
Hint Resolve st_send_run_pull st_send_run_consume : core.
Lemma st_consume_run : forall q ps, Pres SR (send_run_pull_all_consume_run ops lf cls q ps).
Proof. intros. unfold send_run_pull_all_consume_run. pr. Qed.
Lemma st_consume_single : forall q ps, Pres SR (send_run_pull_all_consume_single ops lf cls q ps).
Proof. intros. unfold send_run_pull_all_consume_single. pr. Qed.
Lemma st_run_consume_all : forall q ps, Pres SR (send_run_pull_all_consume_all ops lf cls q ps).
Proof. intros. unfold send_run_pull_all_consume_all. pr. Qed.
Lemma st_discard : Pres SR (send_discard_all_consume ops lf cls).
Proof. unfold send_discard_all_consume. pr. Qed.
Hint Resolve st_consume_run st_consume_single st_run_consume_all st_discard : core.
Lemma st_rows_close_body : forall rid, Pres SR (rows_close_body ops lf cls rid).
Proof. intros. unfold rows_close_body. pr. Qed.
Hint Resolve st_rows_close_body : core.
Lemma st_stmt_close : forall sid, Pres SR (stmt_close ops lf cls sid).
Proof. intros. unfold stmt_close. pr. Qed.
Hint Resolve st_stmt_close : core.
Lemma st_rows_close : forall rid, Pres SR (rows_close ops lf cls rid).
Proof. intros. unfold rows_close. pr. Qed.
Lemma st_tx_finish : forall q l1 l2 l3 l4 l5 tid, Pres SR (tx_finish ops lf cls q l1 l2 l3 l4 l5 tid).
Proof. intros. unfold tx_finish. pr. Qed.
Lemma st_stmt_exec : forall sid ps, Pres SR (stmt_exec ops lf cls sid ps).
Proof. intros. unfold stmt_exec. pr. Qed.
Lemma st_send_queries : forall l qs pss, Pres SR (send_queries ops l qs pss).
Proof. intros l qs. induction qs as [|q qs IH]; intros [|ps pss]; cbn [send_queries]; pr. Qed.
Lemma st_exec_results : forall qs, Pres SR (exec_results ops lf cls qs).
Proof. induction qs as [|q qs IH]; cbn [exec_results]; pr. Qed.
Hint Resolve st_rows_close st_tx_finish st_stmt_exec st_send_queries st_exec_results : core.
Lemma st_stmt_exec_pipeline : forall sid pss, Pres SR (stmt_exec_pipeline ops lf cls sid pss).
Proof. intros. unfold stmt_exec_pipeline. pr. Qed.
Lemma st_stmt_query : forall sid ps, Pres SR (stmt_query ops lf cls sid ps).
Proof. intros. unfold stmt_query. pr. Qed.
Lemma st_stmt_query_pipeline : forall sid pss, Pres SR (stmt_query_pipeline ops lf cls sid pss).
Proof. intros. unfold stmt_query_pipeline. pr. Qed.
Lemma st_close_cur : Pres SR (close_cur_stmt ops lf cls).
Proof. unfold close_cur_stmt. pr. Qed.
Lemma st_next_neo : forall rid, Pres SR (next_neo ops lf cls rid).
Proof. intros. unfold next_neo. pr. Qed.
Hint Resolve st_stmt_exec_pipeline st_stmt_query st_stmt_query_pipeline st_close_cur st_next_neo : core.
Lemma st_all_rows : forall rid, Pres SR (all_rows ops lf cls rid).
Proof.
  intros. unfold all_rows. generalize (@nil (list goval)) as acc.
  generalize lf at 2 as f. induction f as [|f IH]; intros acc; cbn [all_loop]; pr.
Qed.
Lemma st_next_pipeline : forall rid, Pres SR (next_pipeline ops lf cls rid).
Proof. intros. unfold next_pipeline. pr. Qed.
Lemma st_next_sql : forall rid n, Pres SR (next_sql ops lf cls rid n).
Proof. intros. unfold next_sql. pr. Qed.
Lemma st_begin : Pres SR (begin_tx ops lf cls).
Proof. unfold begin_tx, guard_open. pr. Qed.
Lemma st_prepare : forall q, Pres SR (prepare q).
Proof. intros. unfold prepare, guard_open. pr. Qed.
Lemma st_prepare_pipeline : forall q, Pres SR (prepare_pipeline q).
Proof. intros. unfold prepare_pipeline, guard_open. pr. Qed.
Lemma st_query_neo : forall q ps, Pres SR (query_neo ops lf cls q ps).
Proof. intros. unfold query_neo, guard_open. pr. Qed.
Lemma st_query_pipeline : forall q ps, Pres SR (query_pipeline ops lf cls q ps).
Proof. intros. unfold query_pipeline, guard_open. pr. Qed.
Hint Resolve st_all_rows st_query_neo : core.
Lemma st_query_neo_all : forall q ps, Pres SR (query_neo_all ops lf cls q ps).
Proof. intros. unfold query_neo_all. pr. Qed.
Lemma st_exec_neo : forall q ps, Pres SR (exec_neo ops lf cls q ps).
Proof. intros. unfold exec_neo, guard_open. pr. Qed.
Lemma st_exec_pipeline : forall q ps, Pres SR (exec_pipeline ops lf cls q ps).
Proof. intros. unfold exec_pipeline, guard_open. pr. Qed.
Lemma st_exec_sql : forall mk q args, Pres SR (exec_sql ops lf cls mk q args).
Proof. intros. unfold exec_sql, guard_open, stmt_exec_sql, with_args. pr. Qed.
End Inner.

Theorem st_step : forall mk f o, o <> CClose -> Pres SR (step ops mk f o).
Proof.
  intros mk f o Ho. unfold step. destruct o; try contradiction; cbn [step_body];
    unfold query_sql, stmt_exec_sql, stmt_query_sql, with_args, set_chunk_size, commit, rollback;
    pr; auto using st_prepare, st_prepare_pipeline, st_begin, st_exec_neo, st_exec_pipeline, st_exec_sql, st_query_neo, st_query_pipeline,
      st_query_neo_all, st_stmt_exec, st_stmt_exec_pipeline, st_stmt_query, st_stmt_query_pipeline, st_stmt_close, st_next_neo, st_all_rows,
      st_next_pipeline, st_next_sql, st_rows_close, st_tx_finish.
Qed.
(** Close (conn.go:361-400) ends in one of three ways: it stops before it is done, having closed
    nothing; it hands the connection to the pool; it closes the socket. *)
Definition gave_up (w w1 w' : world N) (r : outc (option gerr)) : Prop :=
  w' = w1 /\ (r = Ok None -> c_closed (w_conn w) = true).
Definition put_back_once (w w1 w' : world N) (r : outc (option gerr)) : Prop :=
  c_closed (w_conn w) = false /\ c_pooled (w_conn w) = true /\ r = Ok None /\ w_net w' = w_net w1 /\ w_conn w' = c_reclaimed (w_conn w1).
Definition closed_once (w w1 w' : world N) (r : outc (option gerr)) : Prop :=
  c_closed (w_conn w) = false /\ c_pooled (w_conn w) = false /\ w_net w' = fst (n_close ops (w_net w1)) /\
  c_closed (w_conn w') = true /\ c_pooled (w_conn w') = c_pooled (w_conn w1) /\ c_reclaims (w_conn w') = c_reclaims (w_conn w1) /\
  r = Ok (if snd (n_close ops (w_net w1)) then Some EBadConn else None).
Lemma SR_run : forall A (m : M (N := N) A) w r w', Pres SR m -> I (w_net w) -> m w = (r, w') -> I (w_net w') /\ stays (w_conn w) (w_conn w').
Proof. intros A m w r w' H Hi E. specialize (H w Hi). rewrite E in H. exact H. Qed.
Theorem close_shape : forall f w r w', I (w_net w) -> close ops f w = (r, w') ->
  exists w1, I (w_net w1) /\ stays (w_conn w) (w_conn w1) /\ (gave_up w w1 w' r \/ put_back_once w w1 w' r \/ closed_once w w1 w' r).
Proof.
  intros [|f] w r w' Hi E; cbn [close] in E.
  { injection E as <- <-. exists w. split; [exact Hi|]. split; [apply stays_refl|]. left. split; [reflexivity|discriminate]. }
  unfold close_body in E. unfold bind at 1, getc in E. destruct (c_closed (w_conn w)) eqn:Hc.
  { injection E as <- <-. exists w. split; [exact Hi|]. split; [apply stays_refl|]. left. split; auto. }
  unfold bind at 1 in E.
  match type of E with context [match ?m w with _ => _ end] => remember m as m1 eqn:Em; destruct (m1 w) as [r1 w1] eqn:E1 end.
  assert (P1 : Pres SR m1) by (subst m1; destruct (c_stmt (w_conn w)); [apply st_stmt_close|intros x; apply SR_refl]).
  destruct (SR_run _ _ _ _ _ P1 Hi E1) as (Hi1 & S1). clear P1 Em.
  assert (G : r1 <> Ok None -> exists r', r' <> Ok None /\ (r, w') = (r', w1)).
  { intros Hr. destruct r1 as [[e|]| |]; [|contradiction|..]; cbn in E; rewrite <- E; eexists; (split; [|reflexivity]); discriminate. }
  destruct r1 as [[e|]| |].
  1,3,4: destruct G as (r' & Hr & Er); [discriminate|]; injection Er as -> ->; exists w1; (split; [exact Hi1|]); (split; [exact S1|]); left; split; [reflexivity|contradiction].
  clear G. cbv beta iota in E. unfold bind at 1, getc in E. unfold bind at 1 in E.
  match type of E with context [match ?m w1 with _ => _ end] => remember m as m2 eqn:Em; destruct (m2 w1) as [r2 w2] eqn:E2 end.
  assert (P2 : Pres SR m2) by (subst m2; destruct (c_tx (w_conn w1)); [apply st_tx_finish|intros x; apply SR_refl]).
  destruct (SR_run _ _ _ _ _ P2 Hi1 E2) as (Hi2 & S2). clear P2 Em. pose proof (stays_trans _ _ _ S1 S2) as S. exists w2. split; [exact Hi2|]. split; [exact S|].
  destruct r2 as [[e|]| |]; cbn in E; try (injection E as <- <-; left; split; [reflexivity|discriminate]).
  destruct S as (A1 & A2 & A3). destruct (c_pooled (w_conn w2)) eqn:Hp; cbn in E.
  - injection E as <- <-. right; left. repeat split; auto.
  - right; right. unfold closed_once. rewrite Hc. destruct (n_close ops (w_net w2)) as [n' b]. cbn in E.
    destruct b; cbn in E; injection E as <- <-; cbn; repeat split; auto; congruence.
Qed.
End Stay.
