(** Facts about the session model that hold for every network. *)
From Coq Require Import ZArith List Bool Lia.
From Verif Require Import GoPrims Value Errors Misc Session.
Import ListNotations.
Open Scope Z_scope.

Lemma nth_upd_same : forall A (l : list A) i x y, nth_error l i = Some y -> nth_error (upd i x l) i = Some x.
Proof. induction l as [|a l IH]; intros [|i] x y H; cbn in *; try discriminate; eauto. Qed.
Lemma nth_upd_other : forall A (l : list A) i j x, i <> j -> nth_error (upd i x l) j = nth_error l j.
Proof.
  induction l as [|a l IH]; intros [|i] [|j] x H; cbn in *; auto; try contradiction.
Qed.
Lemma length_upd : forall A (l : list A) i x, length (upd i x l) = length l.
Proof. induction l as [|a l IH]; intros [|i] x; cbn; auto. Qed.

Section Gen.
Context {N : Type} (ops : netops N).
Notation W := (world N).

(** [Pres R m]: whatever way [m] ends, the world it leaves is related to the one it found. *)
Definition Pres (R : W -> W -> Prop) {A} (m : M A) : Prop := forall w, R w (snd (m w)).

Section Rules.
Variable R : W -> W -> Prop.
Hypothesis Rrefl : forall w, R w w.
Hypothesis Rtrans : forall w1 w2 w3, R w1 w2 -> R w2 w3 -> R w1 w3.

Lemma Pres_ret : forall A (a : A), Pres R (ret a).
Proof. intros A a w; apply Rrefl. Qed.
Lemma Pres_panic : forall A, Pres R (panic (A := A)).
Proof. intros A w; apply Rrefl. Qed.
Lemma Pres_nofuel : forall A, Pres R (nofuel (A := A)).
Proof. intros A w; apply Rrefl. Qed.
Lemma Pres_bind : forall A B (m : M A) (k : A -> M B), Pres R m -> (forall a, Pres R (k a)) -> Pres R (bind m k).
Proof.
  intros A B m k Hm Hk w. unfold bind. specialize (Hm w). destruct (m w) as [[a| |] w'] eqn:E; cbn in *; auto.
  eapply Rtrans; [exact Hm | apply Hk].
Qed.
Lemma Pres_defer : forall A B (m : M A) (d : M B), Pres R m -> Pres R d -> Pres R (with_defer m d).
Proof.
  intros A B m d Hm Hd w. unfold with_defer. specialize (Hm w). destruct (m w) as [[a| |] w'] eqn:E; cbn in *; auto.
  - specialize (Hd w'). destruct (d w') as [[b| |] w''] eqn:E'; cbn in *; eauto.
  - specialize (Hd w'). destruct (d w') as [[b| |] w''] eqn:E'; cbn in *; eauto.
  - specialize (Hd w'). destruct (d w') as [[b| |] w''] eqn:E'; cbn in *; eauto.
Qed.
Lemma Pres_getc : Pres R getc. Proof. intros w; apply Rrefl. Qed.
Lemma Pres_getn : Pres R getn. Proof. intros w; apply Rrefl. Qed.
Lemma Pres_gets : forall i, Pres R (gets i).
Proof. intros i w. unfold gets. destruct (nth_error _ _); apply Rrefl. Qed.
Lemma Pres_getr : forall i, Pres R (getr i).
Proof. intros i w. unfold getr. destruct (nth_error _ _); apply Rrefl. Qed.
Lemma Pres_gett : forall i, Pres R (gett i).
Proof. intros i w. unfold gett. destruct (nth_error _ _); apply Rrefl. Qed.
Lemma Pres_need : forall i, Pres R (need_conn i).
Proof.
  intros i. apply Pres_bind; [apply Pres_gets|]. intros s. destruct (s_conn s); [apply Pres_ret|apply Pres_panic].
Qed.
End Rules.
End Gen.

Ltac pres_step :=
  match goal with
  | |- Pres _ (ret _) => apply Pres_ret; [assumption]
  | |- Pres _ panic => apply Pres_panic; assumption
  | |- Pres _ nofuel => apply Pres_nofuel; assumption
  | |- Pres _ getc => apply Pres_getc; assumption
  | |- Pres _ getn => apply Pres_getn; assumption
  | |- Pres _ (gets _) => apply Pres_gets; assumption
  | |- Pres _ (getr _) => apply Pres_getr; assumption
  | |- Pres _ (gett _) => apply Pres_gett; assumption
  | |- Pres _ (need_conn _) => apply Pres_need; assumption
  | H : Pres _ ?m |- Pres _ ?m => exact H
  | H : forall x, Pres _ (?m x) |- Pres _ (?m _) => apply H
  | H : forall x y, Pres _ (?m x y) |- Pres _ (?m _ _) => apply H
  | H : forall x y z, Pres _ (?m x y z) |- Pres _ (?m _ _ _) => apply H
  | |- Pres _ (modr _ _) => solve [auto]
  | |- Pres _ (mods _ _) => solve [auto]
  | |- Pres _ (sett _ _) => solve [auto]
  | |- Pres _ (with_defer _ _) => apply Pres_defer; [assumption| |]
  | |- Pres _ (match ?x with _ => _ end) => destruct x
  | |- Pres _ (bind _ _) => apply Pres_bind; [assumption| |intro]
  | |- Pres _ (let '(_, _) := ?x in _) => destruct x
  end.
Ltac pres := repeat pres_step.

(** The general shape: a relation kept by every primitive the session uses is kept
    by every call. *)
Section Lift.
Context {N : Type} (ops : netops N).
Variable R : world N -> world N -> Prop.
Hypothesis Rrefl : forall w, R w w.
Hypothesis Rtrans : forall w1 w2 w3, R w1 w2 -> R w2 w3 -> R w1 w3.
Hypothesis Renc : forall v, Pres R (encode_msg ops v).
Hypothesis Rdec : Pres R (decode_msg ops).
Definition net_close : M (N := N) (option gerr) :=
  n <- getn ;;
  let '(n', failed) := n_close ops n in
  setn n' ;; modc c_set_closed ;;
  if failed then modc c_set_err ;; ret (Some EBadConn) else ret None.
Hypothesis Rclo : Pres R net_close.
Hypothesis Rerr : Pres R (modc c_set_err).
Hypothesis Rcs : forall z, Pres R (modc (c_set_cs z)).
Hypothesis Rrecl : Pres R (modc c_reclaimed).
Hypothesis Rnotx : Pres R (modc (c_set_tx None)).
Hypothesis Rsett : forall i, Pres R (sett i {| t_closed := true |}).
Hypothesis Rmods0 : forall i, Pres R (mods i (s_set_rows None)).
Hypothesis Rmodr1 : forall i, Pres R (modr i r_set_closed).
Hypothesis Rmodr2 : forall i, Pres R (modr i r_set_consumed).
Hypothesis Rmodr3 : forall i, Pres R (modr i r_set_finished).
Hypothesis Rmodr4 : forall i, Pres R (modr i r_set_closeStmt).
Hypothesis Rnewr : forall r, Pres R (newr r).
Hypothesis Rnewt : forall t, Pres R (newt t).
Definition stmt_drop sid : M (N := N) (option gerr) := need_conn sid ;; modc (c_set_stmt None) ;; mods sid s_set_closed ;; ret None.
Hypothesis Rdrop : forall sid, Pres R (stmt_drop sid).

Variable lf : nat.
Variable cls : M (N := N) (option gerr).
Hypothesis Rcls : Pres R cls.


Lemma Pres_reset_loop : forall f, Pres R (reset_loop ops cls f).
Proof. induction f as [|f IH]; cbn [reset_loop]; pres. Qed.
Lemma Pres_reset : Pres R (reset ops lf cls).
Proof. pose proof Pres_reset_loop. unfold reset. pres. Qed.
Lemma Pres_ack_loop : forall f, Pres R (ack_loop ops lf cls f).
Proof. pose proof Pres_reset. induction f as [|f IH]; cbn [ack_loop]; pres. Qed.
Lemma Pres_ack : Pres R (ack_failure ops lf cls).
Proof. pose proof Pres_ack_loop. unfold ack_failure. pres. Qed.
Lemma Pres_consume : Pres R (consume ops lf cls).
Proof. pose proof Pres_ack. unfold consume. pres. Qed.
Lemma Pres_consume_all : Pres R (consume_all ops lf cls).
Proof.
  pose proof Pres_consume. unfold consume_all. generalize lf at 2 as f.
  induction f as [|f IH]; cbn [consume_all_loop]; pres.
Qed.
Lemma Pres_consume_n : forall n, Pres R (consume_all_n ops lf cls n).
Proof. pose proof Pres_consume_all. induction n as [|n IH]; cbn [consume_all_n]; pres. Qed.
Lemma Pres_consume_multiple : forall z, Pres R (consume_all_multiple ops lf cls z).
Proof. pose proof Pres_consume_n. intros z. unfold consume_all_multiple. pres. Qed.
Lemma Pres_send_run : forall q ps, Pres R (send_run ops q ps).
Proof. intros. unfold send_run. pres. Qed.
Lemma Pres_send_pull : Pres R (send_pull_all ops).
Proof. unfold send_pull_all. pres. Qed.
Lemma Pres_send_run_pull : forall q ps, Pres R (send_run_pull_all ops q ps).
Proof. pose proof Pres_send_run; pose proof Pres_send_pull. intros. unfold send_run_pull_all. pres. Qed.
Lemma Pres_send_run_consume : forall q ps, Pres R (send_run_consume ops lf cls q ps).
Proof. pose proof Pres_send_run; pose proof Pres_consume. intros. unfold send_run_consume. pres. Qed.
Lemma Pres_consume_run : forall q ps, Pres R (send_run_pull_all_consume_run ops lf cls q ps).
Proof. pose proof Pres_send_run_pull; pose proof Pres_consume. intros. unfold send_run_pull_all_consume_run. pres. Qed.
Lemma Pres_consume_single : forall q ps, Pres R (send_run_pull_all_consume_single ops lf cls q ps).
Proof. pose proof Pres_send_run_pull; pose proof Pres_consume. intros. unfold send_run_pull_all_consume_single. pres. Qed.
Lemma Pres_run_consume_all : forall q ps, Pres R (send_run_pull_all_consume_all ops lf cls q ps).
Proof. pose proof Pres_send_run_pull; pose proof Pres_consume; pose proof Pres_consume_all. intros. unfold send_run_pull_all_consume_all. pres. Qed.
Lemma Pres_discard : Pres R (send_discard_all_consume ops lf cls).
Proof. pose proof Pres_consume. unfold send_discard_all_consume. pres. Qed.
Lemma Pres_rows_close_body : forall rid, Pres R (rows_close_body ops lf cls rid).
Proof. pose proof Pres_discard; pose proof Pres_consume_multiple. intros. unfold rows_close_body. pres. Qed.
Lemma Pres_stmt_close : forall sid, Pres R (stmt_close ops lf cls sid).
Proof.
  pose proof Pres_rows_close_body. intros. unfold stmt_close. fold (stmt_drop sid). pres.
Qed.
Lemma Pres_rows_close : forall rid, Pres R (rows_close ops lf cls rid).
Proof. pose proof Pres_rows_close_body; pose proof Pres_stmt_close. intros. unfold rows_close. pres. Qed.
Lemma Pres_tx_finish : forall q l1 l2 l3 l4 l5 tid, Pres R (tx_finish ops lf cls q l1 l2 l3 l4 l5 tid).
Proof. pose proof Pres_stmt_close; pose proof Pres_consume_single. intros. unfold tx_finish. pres. Qed.
Lemma Pres_commit : forall tid, Pres R (commit ops lf cls tid).
Proof. intros. apply Pres_tx_finish. Qed.
Lemma Pres_rollback : forall tid, Pres R (rollback ops lf cls tid).
Proof. intros. apply Pres_tx_finish. Qed.
Lemma Pres_close_body : Pres R (close_body ops lf cls).
Proof.
  pose proof Pres_stmt_close; pose proof Pres_rollback. unfold close_body. fold net_close. pres.
Qed.
Lemma Pres_stmt_exec : forall sid ps, Pres R (stmt_exec ops lf cls sid ps).
Proof. pose proof Pres_run_consume_all. intros. unfold stmt_exec. pres. Qed.
Lemma Pres_send_queries : forall l qs pss, Pres R (send_queries ops l qs pss).
Proof.
  pose proof Pres_send_run_pull. intros l qs. induction qs as [|q qs IH]; intros [|ps pss]; cbn [send_queries]; pres.
Qed.
Lemma Pres_exec_results : forall qs, Pres R (exec_results ops lf cls qs).
Proof.
  pose proof Pres_consume; pose proof Pres_consume_all. induction qs as [|q qs IH]; cbn [exec_results]; pres.
Qed.
Lemma Pres_stmt_exec_pipeline : forall sid pss, Pres R (stmt_exec_pipeline ops lf cls sid pss).
Proof.
  pose proof Pres_send_queries; pose proof Pres_exec_results. intros. unfold stmt_exec_pipeline. pres.
Qed.
Hypothesis Rmods1 : forall i o, Pres R (mods i (s_set_rows (Some o))).
Lemma Pres_stmt_query : forall sid ps, Pres R (stmt_query ops lf cls sid ps).
Proof. pose proof Pres_send_run_consume. intros. unfold stmt_query. pres. Qed.
Lemma Pres_stmt_query_pipeline : forall sid pss, Pres R (stmt_query_pipeline ops lf cls sid pss).
Proof. pose proof Pres_send_queries; pose proof Pres_consume. intros. unfold stmt_query_pipeline. pres. Qed.
Lemma Pres_close_cur : Pres R (close_cur_stmt ops lf cls).
Proof. pose proof Pres_stmt_close. unfold close_cur_stmt. pres. Qed.
Lemma Pres_next_neo : forall rid, Pres R (next_neo ops lf cls rid).
Proof. pose proof Pres_send_pull; pose proof Pres_consume. intros. unfold next_neo. pres. Qed.
Lemma Pres_all_rows : forall rid, Pres R (all_rows ops lf cls rid).
Proof.
  pose proof Pres_next_neo. intros. unfold all_rows. generalize (@nil (list goval)) as acc.
  generalize lf at 2 as f. induction f as [|f IH]; intros acc; cbn [all_loop]; pres.
Qed.
Lemma Pres_next_pipeline : forall rid, Pres R (next_pipeline ops lf cls rid).
Proof. pose proof Pres_consume. intros. unfold next_pipeline. pres. Qed.
Lemma Pres_next_sql : forall rid n, Pres R (next_sql ops lf cls rid n).
Proof. pose proof Pres_next_neo. intros. unfold next_sql. pres. Qed.
Lemma Pres_begin : Pres R (begin_tx ops lf cls).
Proof. pose proof Pres_consume_single. unfold begin_tx, guard_open. pres. Qed.

(** the calls that create statements; [Rmake]: the statement becomes the current
    one; [Rtemp1-3]: the statement is seen by the call itself only *)
Hypothesis Rmake : forall A l1 l2 (bad : gerr -> A) s k, s_closed s = false -> s_conn s = true ->
  (forall sid, Pres R (k sid)) ->
  Pres R (guard_open l1 l2 bad (sid <- news s ;; modc (c_set_stmt (Some sid)) ;; k sid)).
Hypothesis Rtemp1 : forall q ps, Pres R (exec_neo ops lf cls q ps).
Hypothesis Rtemp2 : forall q ps, Pres R (exec_pipeline ops lf cls q ps).
Hypothesis Rtemp3 : forall mk q args, Pres R (exec_sql ops lf cls mk q args).

Lemma Pres_prepare : forall q, Pres R (prepare q).
Proof. intros. unfold prepare. apply (Rmake _ _ _ _ (new_stmt q)); try reflexivity. intros; pres. Qed.
Lemma Pres_prepare_pipeline : forall q, Pres R (prepare_pipeline q).
Proof. intros. unfold prepare_pipeline. apply (Rmake _ _ _ _ (new_pipe_stmt q)); try reflexivity. intros; pres. Qed.
Lemma Pres_query_neo : forall q ps, Pres R (query_neo ops lf cls q ps).
Proof.
  pose proof Pres_consume_run; pose proof Pres_close_cur. intros. unfold query_neo.
  apply (Rmake _ _ _ _ (new_stmt q) (fun _ => _)); try reflexivity. intros; pres.
Qed.
Lemma Pres_query_pipeline : forall q ps, Pres R (query_pipeline ops lf cls q ps).
Proof.
  pose proof Pres_stmt_query_pipeline. intros. unfold query_pipeline.
  apply (Rmake _ _ _ _ (new_pipe_stmt q)); try reflexivity. intros; pres.
Qed.
Lemma Pres_query_neo_all : forall q ps, Pres R (query_neo_all ops lf cls q ps).
Proof.
  pose proof Pres_query_neo; pose proof Pres_rows_close; pose proof Pres_all_rows. intros. unfold query_neo_all. pres.
Qed.
Lemma Pres_step_body : forall mk o, Pres R (step_body ops lf cls mk o).
Proof.
  pose proof Pres_prepare; pose proof Pres_prepare_pipeline; pose proof Pres_begin;  pose proof Pres_query_neo; pose proof Pres_query_neo_all; pose proof Pres_query_pipeline;
  pose proof Pres_stmt_exec; pose proof Pres_stmt_exec_pipeline; pose proof Pres_stmt_query;
  pose proof Pres_stmt_query_pipeline; pose proof Pres_stmt_close; pose proof Pres_next_neo; pose proof Pres_all_rows;
  pose proof Pres_next_pipeline; pose proof Pres_next_sql; pose proof Pres_rows_close; pose proof Pres_commit; pose proof Pres_rollback.
  intros mk o. destruct o; cbn [step_body]; unfold query_sql, stmt_exec_sql, stmt_query_sql, with_args, set_chunk_size; pres; auto.
Qed.
End Lift.

Lemma Pres_close : forall N (ops : netops N) (R : world N -> world N -> Prop), (forall w, R w w) ->
  (forall lf cls, Pres R cls -> Pres R (close_body ops lf cls)) -> forall f, Pres R (close ops f).
Proof. intros N ops R Hr H f. induction f as [|f IH]; cbn [close]; [apply Pres_nofuel; auto|]. apply H; exact IH. Qed.

(** ** Objects once closed stay closed, and nothing disappears *)
Definition keeps {A} (P : A -> A -> Prop) (l l' : list A) : Prop :=
  forall i x, nth_error l i = Some x -> exists x', nth_error l' i = Some x' /\ P x x'.
Definition conn_mono (c c' : conn) : Prop :=
  (c_closed c = true -> c_closed c' = true) /\ (c_err c = true -> c_err c' = true) /\ c_pooled c' = c_pooled c.
Definition stmt_mono (s s' : stmt) : Prop :=
  s_queries s' = s_queries s /\ s_query s' = s_query s /\ (s_closed s = true -> s_closed s' = true) /\ (s_conn s = false -> s_conn s' = false).
Definition rows_mono (r r' : rows) : Prop :=
  r_md r' = r_md r /\ r_stmt r' = r_stmt r /\ r_pidx r' = r_pidx r /\
  (r_closed r = true -> r_closed r' = true) /\ (r_consumed r = true -> r_consumed r' = true) /\ (r_finished r = true -> r_finished r' = true).
Definition tx_mono (t t' : tx) : Prop := t_closed t = true -> t_closed t' = true.
Definition mono {N} (w w' : world N) : Prop :=
  conn_mono (w_conn w) (w_conn w') /\ keeps stmt_mono (w_stmts w) (w_stmts w') /\
  keeps rows_mono (w_rows w) (w_rows w') /\ keeps tx_mono (w_txs w) (w_txs w').

Lemma keeps_refl : forall A (P : A -> A -> Prop) l, (forall x, P x x) -> keeps P l l.
Proof. intros A P l H i x E; exists x; auto. Qed.
Lemma keeps_trans : forall A (P : A -> A -> Prop) l1 l2 l3, (forall x y z, P x y -> P y z -> P x z) ->
  keeps P l1 l2 -> keeps P l2 l3 -> keeps P l1 l3.
Proof.
  intros A P l1 l2 l3 H H1 H2 i x E. destruct (H1 i x E) as (y & E' & Hy). destruct (H2 i y E') as (z & E'' & Hz).
  exists z; split; eauto.
Qed.
Lemma keeps_upd : forall A (P : A -> A -> Prop) l i x y, (forall z, P z z) -> nth_error l i = Some x -> P x y -> keeps P l (upd i y l).
Proof.
  intros A P l i x y Hr E Hp j z Ej. destruct (Nat.eq_dec i j) as [->|Hn].
  - exists y. rewrite E in Ej. injection Ej as ->. split; auto. eapply nth_upd_same; eauto.
  - exists z. rewrite nth_upd_other by auto. auto.
Qed.
Lemma keeps_app : forall A (P : A -> A -> Prop) l m, (forall z, P z z) -> keeps P l (l ++ m).
Proof.
  intros A P l m Hr i x E. exists x. split; auto. rewrite nth_error_app1; auto. apply nth_error_Some. congruence.
Qed.

Lemma conn_mono_refl : forall c, conn_mono c c. Proof. unfold conn_mono; auto. Qed.
Lemma stmt_mono_refl : forall c, stmt_mono c c. Proof. unfold stmt_mono; auto. Qed.
Lemma rows_mono_refl : forall c, rows_mono c c. Proof. unfold rows_mono; repeat split; auto. Qed.
Lemma tx_mono_refl : forall c, tx_mono c c. Proof. unfold tx_mono; auto. Qed.
Lemma mono_refl : forall N (w : world N), mono w w.
Proof.
  intros N w. split; [apply conn_mono_refl|]. split; [apply keeps_refl, stmt_mono_refl|].
  split; [apply keeps_refl, rows_mono_refl|apply keeps_refl, tx_mono_refl].
Qed.
Lemma mono_trans : forall N (w1 w2 w3 : world N), mono w1 w2 -> mono w2 w3 -> mono w1 w3.
Proof.
  intros N w1 w2 w3 (A1 & B1 & C1 & D1) (A2 & B2 & C2 & D2). split.
  { unfold conn_mono in *. intuition congruence. }
  split. { eapply keeps_trans; eauto. unfold stmt_mono. intuition congruence. }
  split. { eapply keeps_trans; eauto. unfold rows_mono. intuition congruence. }
  eapply keeps_trans; eauto. unfold tx_mono. auto.
Qed.

Section Mono.
Context {N : Type} (ops : netops N).
Let Rr := @mono_refl N.
Let Rt := @mono_trans N.
Lemma mono_conn : forall (w : world N) c, conn_mono (w_conn w) c -> mono w (Build_world c (w_stmts w) (w_rows w) (w_txs w) (w_net w)).
Proof. intros. destruct (Rr w) as (A & B & C & D). split; [|split; [|split]]; auto. Qed.
Lemma mono_modc : forall f, (forall c, conn_mono c (f c)) -> Pres mono (modc (N := N) f).
Proof. intros f H w. cbn. apply mono_conn, H. Qed.
Lemma mono_mods : forall i f, (forall c, stmt_mono c (f c)) -> Pres mono (mods (N := N) i f).
Proof.
  intros i f H w. unfold mods, bind, gets, sets. destruct (nth_error (w_stmts w) i) as [s|] eqn:E; cbn; [|apply Rr].
  destruct (Rr w) as (A & B & C & D). split; [|split; [|split]]; auto. cbn. eapply keeps_upd; eauto using stmt_mono_refl.
Qed.
Lemma mono_modr : forall i f, (forall c, rows_mono c (f c)) -> Pres mono (modr (N := N) i f).
Proof.
  intros i f H w. unfold modr, bind, getr, setr. destruct (nth_error (w_rows w) i) as [s|] eqn:E; cbn; [|apply Rr].
  destruct (Rr w) as (A & B & C & D). split; [|split; [|split]]; auto. cbn. eapply keeps_upd; eauto using rows_mono_refl.
Qed.
Lemma mono_sett : forall i, Pres mono (sett (N := N) i {| t_closed := true |}).
Proof.
  intros i w. cbn. destruct (Rr w) as (A & B & C & D). split; [|split; [|split]]; auto. cbn.
  intros j x E. destruct (Nat.eq_dec i j) as [->|Hn].
  - eexists. split; [eapply nth_upd_same; eauto|]. unfold tx_mono; auto.
  - exists x. rewrite nth_upd_other by auto. unfold tx_mono; auto.
Qed.
Lemma mono_newr : forall r, Pres mono (newr (N := N) r).
Proof.
  intros r w. cbn. destruct (Rr w) as (A & B & C & D). split; [|split; [|split]]; auto. cbn. apply keeps_app, rows_mono_refl.
Qed.
Lemma mono_newt : forall r, Pres mono (newt (N := N) r).
Proof.
  intros r w. cbn. destruct (Rr w) as (A & B & C & D). split; [|split; [|split]]; auto. cbn. apply keeps_app, tx_mono_refl.
Qed.
Lemma mono_news : forall r, Pres mono (news (N := N) r).
Proof.
  intros r w. cbn. destruct (Rr w) as (A & B & C & D). split; [|split; [|split]]; auto. cbn. apply keeps_app, stmt_mono_refl.
Qed.
Lemma mono_setn : forall n, Pres mono (setn (N := N) n).
Proof. intros n w. cbn. destruct (Rr w) as (A & B & C & D). split; [|split; [|split]]; auto. Qed.
Local Hint Resolve mono_newr mono_newt mono_news mono_setn mono_sett : core.
Ltac cm := apply mono_modc; intros; unfold conn_mono; cbn; intuition auto.
Ltac sm := apply mono_mods; intros; unfold stmt_mono; cbn; intuition auto.
Ltac rm := apply mono_modr; intros; unfold rows_mono; cbn; intuition auto.

Lemma mono_enc : forall v, Pres mono (encode_msg ops v).
Proof. intros. unfold encode_msg. pres; auto; cm. Qed.
Lemma mono_dec : Pres mono (decode_msg ops).
Proof. intros. unfold decode_msg. pres; auto; cm. Qed.
Lemma mono_close_body : forall lf cls, Pres mono cls -> Pres mono (close_body ops lf cls).
Proof.
  intros. apply Pres_close_body; auto using mono_enc, mono_dec; intros; try cm; try sm; try rm.
  - unfold net_close. pres; auto; cm.
  - unfold stmt_drop. pres; try cm; try sm.
Qed.
Lemma mono_stmt_close : forall lf cls i, Pres mono cls -> Pres mono (stmt_close ops lf cls i).
Proof.
  intros. apply Pres_stmt_close; auto using mono_enc, mono_dec; intros; try cm; try sm; try rm.
  unfold stmt_drop. pres; try cm; try sm.
Qed.
Lemma mono_rollback : forall lf cls i, Pres mono cls -> Pres mono (rollback ops lf cls i).
Proof.
  intros. apply Pres_rollback; auto using mono_enc, mono_dec; intros; try cm; try sm; try rm.
  unfold stmt_drop. pres; try cm; try sm.
Qed.
Lemma mono_consume_single : forall lf cls q ps, Pres mono cls -> Pres mono (send_run_pull_all_consume_single ops lf cls q ps).
Proof. intros. apply Pres_consume_single; auto using mono_enc, mono_dec; intros; try cm. Qed.
Lemma mono_stmt_exec : forall lf cls i ps, Pres mono cls -> Pres mono (stmt_exec ops lf cls i ps).
Proof. intros. apply Pres_stmt_exec; auto using mono_enc, mono_dec; intros; try cm. Qed.
Lemma mono_stmt_exec_pipeline : forall lf cls i ps, Pres mono cls -> Pres mono (stmt_exec_pipeline ops lf cls i ps).
Proof. intros. apply Pres_stmt_exec_pipeline; auto using mono_enc, mono_dec; intros; try cm. Qed.
Lemma mono_step : forall mk f o, Pres mono (step ops mk f o).
Proof.
  intros. assert (Hc : Pres mono (close ops f)) by (apply Pres_close; auto using mono_close_body).
  apply Pres_step_body; auto using mono_enc, mono_dec; intros; try cm; try sm; try rm.
  - unfold stmt_drop. pres; try cm; try sm.
  - unfold guard_open. pres; auto; try cm.
  - unfold exec_neo, guard_open. pres; auto using mono_stmt_close, mono_stmt_exec.
  - unfold exec_pipeline, guard_open. pres; auto using mono_stmt_close, mono_stmt_exec_pipeline.
  - unfold exec_sql, guard_open, stmt_exec_sql, with_args. pres; auto using mono_stmt_close, mono_stmt_exec.
Qed.
Lemma mono_run : forall mk f os (w : world N), mono w (snd (run ops mk f os w)).
Proof.
  intros mk f os. induction os as [|o os IH]; intros w; cbn [run]; [apply Rr|].
  pose proof (mono_step mk f o w) as H. destruct (step ops mk f o w) as [[a| |] w'] eqn:E; cbn in *; auto.
  specialize (IH w'). destruct (run ops mk f os w') as [[l r] w'']. cbn in *. eapply Rt; eauto.
Qed.
End Mono.

(** ** At most one open statement.  [t] is a statement that a call in progress
    created for itself (conn.go:828, 843, 857) and that is not c.statement. *)
Definition open_at {N} (w : world N) (i : nat) : Prop := exists s, nth_error (w_stmts w) i = Some s /\ s_closed s = false.
Definition Inv {N} (t : option nat) (w : world N) : Prop :=
  (forall i, open_at w i -> c_stmt (w_conn w) = Some i \/ t = Some i) /\
  (forall i s, nth_error (w_stmts w) i = Some s -> s_conn s = negb (s_closed s)) /\
  (t <> None -> c_stmt (w_conn w) = None) /\
  (forall i, c_stmt (w_conn w) = Some i -> open_at w i).

Section Inv.
Context {N : Type} (ops : netops N).
Notation RJ t := (fun w w' : world N => Inv t w -> Inv t w').
Let Rr t : forall w : world N, RJ t w w. Proof. cbn; auto. Qed.
Let Rt t : forall w1 w2 w3 : world N, RJ t w1 w2 -> RJ t w2 w3 -> RJ t w1 w3. Proof. cbn; auto. Qed.

(** The invariant only looks at the statements' flags and at c.statement. *)
Lemma Inv_ext : forall t (w w' : world N), c_stmt (w_conn w') = c_stmt (w_conn w) ->
  (forall i, option_map (fun s => (s_closed s, s_conn s)) (nth_error (w_stmts w') i) =
             option_map (fun s => (s_closed s, s_conn s)) (nth_error (w_stmts w) i)) ->
  Inv t w -> Inv t w'.
Proof.
  intros t w w' Hc Hs (A & B & C & D).
  assert (Ho : forall i, open_at w' i <-> open_at w i).
  { intros i. specialize (Hs i). unfold open_at. split; intros (s & E & H); rewrite E in Hs; cbn in Hs.
    - destruct (nth_error (w_stmts w) i) as [s'|]; cbn in Hs; [|discriminate]. exists s'. injection Hs as H1 H2. split; congruence.
    - destruct (nth_error (w_stmts w') i) as [s'|]; cbn in Hs; [|discriminate]. exists s'. injection Hs as H1 H2. split; congruence. }
  split; [|split; [|split]].
  - intros i Hi. rewrite Hc. apply A. apply Ho; auto.
  - intros i s E. specialize (Hs i). rewrite E in Hs. cbn in Hs. destruct (nth_error (w_stmts w) i) as [s'|] eqn:E'; cbn in Hs; [|discriminate].
    injection Hs as H1 H2. rewrite H1, H2. eapply B; eauto.
  - rewrite Hc; auto.
  - intros i Hi. apply Ho. apply D. congruence.
Qed.
Lemma Inv_modc : forall t f, (forall c, c_stmt (f c) = c_stmt c) -> Pres (RJ t) (modc (N := N) f).
Proof. intros t f H w. cbn. apply Inv_ext; cbn; auto. Qed.
Lemma Inv_setn : forall t n, Pres (RJ t) (setn (N := N) n).
Proof. intros t n w. cbn. apply Inv_ext; cbn; auto. Qed.
Lemma Inv_sett : forall t i x, Pres (RJ t) (sett (N := N) i x).
Proof. intros t i x w. cbn. apply Inv_ext; cbn; auto. Qed.
Lemma Inv_newt : forall t x, Pres (RJ t) (newt (N := N) x).
Proof. intros t x w. cbn. apply Inv_ext; cbn; auto. Qed.
Lemma Inv_newr : forall t x, Pres (RJ t) (newr (N := N) x).
Proof. intros t x w. cbn. apply Inv_ext; cbn; auto. Qed.
Lemma Inv_modr : forall t i f, Pres (RJ t) (modr (N := N) i f).
Proof. intros t i f w. unfold modr, bind, getr, setr. destruct (nth_error _ _); cbn; auto. Qed.
Lemma Inv_mods : forall t i o, Pres (RJ t) (mods (N := N) i (s_set_rows o)).
Proof.
  intros t i o w. unfold mods, bind, gets, sets. destruct (nth_error _ _) as [s|] eqn:E; cbn; auto.
  apply Inv_ext; cbn; auto. intros j. destruct (Nat.eq_dec i j) as [->|Hn].
  - erewrite nth_upd_same by eauto. rewrite E. reflexivity.
  - rewrite nth_upd_other by auto. reflexivity.
Qed.
Local Hint Resolve Inv_setn Inv_sett Inv_newt Inv_newr Inv_modr Inv_mods : core.
Ltac im := apply Inv_modc; reflexivity.
Lemma Inv_enc : forall t v, Pres (RJ t) (encode_msg ops v).
Proof. intros. pose proof (Rr t); pose proof (Rt t). unfold encode_msg. pres; auto; im. Qed.
Lemma Inv_dec : forall t, Pres (RJ t) (decode_msg ops).
Proof. intros. pose proof (Rr t); pose proof (Rt t). unfold decode_msg. pres; auto; im. Qed.
Lemma Inv_netclose : forall t, Pres (RJ t) (net_close ops).
Proof. intros. pose proof (Rr t); pose proof (Rt t). unfold net_close. pres; auto; im. Qed.

Lemma open_upd_closed : forall (w : world N) i s c j, nth_error (w_stmts w) i = Some s ->
  open_at (Build_world c (upd i (s_set_closed s) (w_stmts w)) (w_rows w) (w_txs w) (w_net w)) j -> open_at w j /\ i <> j.
Proof.
  intros w i s c j E (s' & E' & H). cbn in E'. destruct (Nat.eq_dec i j) as [->|Hn].
  - erewrite nth_upd_same in E' by eauto. injection E' as <-. discriminate H.
  - rewrite nth_upd_other in E' by auto. split; auto. exists s'; auto.
Qed.
Lemma Inv_drop : forall t sid, Pres (RJ t) (stmt_drop (N := N) sid).
Proof.
  intros t sid w. unfold stmt_drop, need_conn, mods, bind, gets, sets, modc, getc, setc, ret, panic.
  destruct (nth_error (w_stmts w) sid) as [s|] eqn:E; cbn; auto.
  destruct (s_conn s) eqn:Es; cbn; auto. rewrite E. cbn. intros (A & B & C & D).
  assert (Hs : open_at w sid).
  { exists s. split; auto. specialize (B _ _ E). rewrite Es in B. destruct (s_closed s); auto; discriminate. }
  split; [|split; [|split]]; cbn.
  - intros i Hi. apply (open_upd_closed w) in Hi; auto. destruct Hi as (Hi & Hn).
    destruct (A _ Hi) as [H|H]; auto. destruct (A _ Hs) as [H'|H']; [congruence|].
    rewrite C in H by congruence. discriminate.
  - intros i s' E'. destruct (Nat.eq_dec sid i) as [->|Hn].
    + erewrite nth_upd_same in E' by eauto. injection E' as <-. reflexivity.
    + rewrite nth_upd_other in E' by auto. eauto.
  - auto.
  - discriminate.
Qed.
Lemma Inv_close_body : forall t lf cls, Pres (RJ t) cls -> Pres (RJ t) (close_body ops lf cls).
Proof.
  intros. pose proof (Rr t); pose proof (Rt t). apply Pres_close_body; auto using Inv_enc, Inv_dec, Inv_netclose, Inv_drop; try im.
Qed.
Lemma Inv_close : forall t f, Pres (RJ t) (close ops f).
Proof. intros. apply Pres_close; auto using Inv_close_body. Qed.
Lemma Inv_stmt_close : forall t lf cls sid, Pres (RJ t) cls -> Pres (RJ t) (stmt_close ops lf cls sid).
Proof.
  intros. pose proof (Rr t); pose proof (Rt t). apply Pres_stmt_close; auto using Inv_enc, Inv_dec, Inv_netclose, Inv_drop; try im.
Qed.

Lemma open_news : forall c (w : world N) s j,
  open_at (Build_world c (w_stmts w ++ [s]) (w_rows w) (w_txs w) (w_net w)) j <-> open_at w j \/ (j = length (w_stmts w) /\ s_closed s = false).
Proof.
  intros c w s j. unfold open_at; cbn. split.
  - intros (s' & E & H). destruct (Nat.lt_ge_cases j (length (w_stmts w))) as [Hl|Hl].
    + rewrite nth_error_app1 in E by auto. left; eauto.
    + rewrite nth_error_app2 in E by auto. right. destruct (j - length (w_stmts w))%nat eqn:Ej; cbn in E.
      * injection E as <-. split; auto. lia.
      * destruct n; discriminate.
  - intros [(s' & E & H)|[-> H]].
    + exists s'. split; auto. rewrite nth_error_app1; auto. apply nth_error_Some; congruence.
    + exists s. split; auto. rewrite nth_error_app2 by lia. rewrite Nat.sub_diag. reflexivity.
Qed.
Lemma nth_news : forall A (l : list A) s i x, nth_error (l ++ [s]) i = Some x -> nth_error l i = Some x \/ (x = s /\ i = length l).
Proof.
  intros A l s i x E. destruct (Nat.lt_ge_cases i (length l)) as [Hl|Hl].
  - rewrite nth_error_app1 in E by auto. auto.
  - rewrite nth_error_app2 in E by auto. destruct (i - length l)%nat eqn:Ej; cbn in E; [injection E as <-; right; split; auto; lia|].
    destruct n; discriminate.
Qed.
Lemma Inv_make : forall A l1 l2 (bad : gerr -> A) s k, s_closed s = false -> s_conn s = true ->
  (forall sid, Pres (RJ None) (k sid)) ->
  Pres (RJ None) (guard_open (N := N) l1 l2 bad (sid <- news s ;; modc (c_set_stmt (Some sid)) ;; k sid)).
Proof.
  intros A l1 l2 bad s k Hs Hc Hk w. unfold guard_open, bind, getc, ret.
  destruct (c_stmt (w_conn w)) as [i|] eqn:E; cbn; auto.
  destruct (c_closed (w_conn w)); cbn; auto. intros (A1 & B & C & D). apply Hk.
  split; [|split; [|split]]; cbn.
  - intros i Hi. apply open_news in Hi. destruct Hi as [Hi|[-> _]]; auto. apply A1 in Hi. destruct Hi; congruence.
  - intros i x Ex. apply nth_news in Ex. destruct Ex as [Ex|[-> ->]]; eauto. rewrite Hs, Hc. reflexivity.
  - congruence.
  - intros i Hi. apply open_news. right. split; congruence.
Qed.
(** a statement with no rows always closes *)
Lemma stmt_close_norows : forall lf cls sid (w : world N) s, nth_error (w_stmts w) sid = Some s -> s_conn s = negb (s_closed s) ->
  s_rows s = None -> exists w', stmt_close ops lf cls sid w = (Ok None, w') /\ ~ open_at w' sid.
Proof.
  intros lf cls sid w s E Hc Hr. unfold stmt_close, bind, gets. rewrite E. destruct (s_closed s) eqn:Ec.
  - exists w. split; [reflexivity|]. intros (s' & E' & H). congruence.
  - rewrite Hr. cbv beta iota delta [ret need_conn mods modc getc setc bind gets]. rewrite E. rewrite Hc. cbn. rewrite E. eexists; split; [reflexivity|].
    intros (s' & E' & H). cbn in E'. erewrite nth_upd_same in E' by eauto. injection E' as <-. discriminate.
Qed.
(** while a statement is executed it acquires no rows *)
Definition norows sid (w w' : world N) : Prop :=
  (exists s, nth_error (w_stmts w) sid = Some s /\ s_rows s = None) -> (exists s, nth_error (w_stmts w') sid = Some s /\ s_rows s = None).
Lemma norows_same : forall sid (w w' : world N), w_stmts w' = w_stmts w -> norows sid w w'.
Proof. intros sid w w' H. unfold norows. rewrite H. auto. Qed.
Lemma norows_mods : forall sid i f, (forall s, s_rows s = None -> s_rows (f s) = None) -> Pres (norows sid) (mods i f).
Proof.
  intros sid i f Hf w. unfold mods, bind, gets, sets. destruct (nth_error (w_stmts w) i) as [s|] eqn:E; cbn; [|unfold norows; auto].
  intros (s' & E' & H). cbn. destruct (Nat.eq_dec i sid) as [->|Hn].
  - erewrite nth_upd_same by eauto. eexists; split; eauto. apply Hf. congruence.
  - rewrite nth_upd_other by auto. eauto.
Qed.
Lemma norows_keep : forall sid A (m : M (N := N) A), (forall w, w_stmts (snd (m w)) = w_stmts w) -> Pres (norows sid) m.
Proof. intros sid A m H w. apply norows_same, H. Qed.
Lemma norows_modr : forall sid i f, Pres (norows sid) (modr i f).
Proof. intros. apply norows_keep. intros w. unfold modr, bind, getr, setr. destruct (nth_error _ _); reflexivity. Qed.
Lemma norows_modc : forall sid f, Pres (norows sid) (modc f).
Proof. intros. apply norows_keep. intros w. reflexivity. Qed.
Lemma norows_enc : forall sid v, Pres (norows sid) (encode_msg ops v).
Proof.
  intros. apply norows_keep. intros w. unfold encode_msg, bind, getc, getn, setn. cbn. destruct (n_send _ _ _ _) as [n' [| |]]; reflexivity.
Qed.
Lemma norows_dec : forall sid, Pres (norows sid) (decode_msg ops).
Proof.
  intros. apply norows_keep. intros w. unfold decode_msg, bind, getc, getn, setn. cbn. destruct (n_recv _ _) as [n' [| | |]]; reflexivity.
Qed.
Lemma norows_netclose : forall sid, Pres (norows sid) (net_close ops).
Proof.
  intros. apply norows_keep. intros w. unfold net_close, bind, getc, getn, setn. cbn. destruct (n_close _ _) as [n' []]; reflexivity.
Qed.
Local Hint Resolve norows_modr norows_modc norows_enc norows_dec norows_netclose : core.
Section NoRows.
Variable sid : nat.
Let Nr : forall w, norows sid w w. Proof. unfold norows; auto. Qed.
Let Nt : forall w1 w2 w3, norows sid w1 w2 -> norows sid w2 w3 -> norows sid w1 w3. Proof. unfold norows; auto. Qed.
Ltac nr := auto; try (apply norows_keep; intros; reflexivity); try (apply norows_mods; auto).
Lemma norows_drop : forall i, Pres (norows sid) (stmt_drop i).
Proof. intros. unfold stmt_drop. pres; nr. Qed.
Lemma norows_close_body : forall lf cls, Pres (norows sid) cls -> Pres (norows sid) (close_body ops lf cls).
Proof. intros. apply Pres_close_body; nr. intros; apply norows_mods; auto. apply norows_drop. Qed.
Lemma norows_close : forall f, Pres (norows sid) (close ops f).
Proof. intros. apply Pres_close; auto using norows_close_body. Qed.
Lemma norows_stmt_exec : forall lf cls i ps, Pres (norows sid) cls -> Pres (norows sid) (stmt_exec ops lf cls i ps).
Proof. intros. apply Pres_stmt_exec; nr. Qed.
Lemma norows_stmt_exec_pipeline : forall lf cls i ps, Pres (norows sid) cls -> Pres (norows sid) (stmt_exec_pipeline ops lf cls i ps).
Proof. intros. apply Pres_stmt_exec_pipeline; nr. Qed.
End NoRows.

Lemma Inv_temp : forall A lf cls l1 l2 (bad : gerr -> A) s k, s_closed s = false -> s_conn s = true -> s_rows s = None ->
  (forall t, Pres (RJ t) cls) -> (forall t sid, Pres (RJ t) (k sid)) -> (forall sid, Pres (norows sid) (k sid)) ->
  Pres (RJ None) (guard_open (N := N) l1 l2 bad (sid <- news s ;; with_defer (k sid) (stmt_close ops lf cls sid))).
Proof.
  intros A lf cls l1 l2 bad s k Hs Hc Hr Hcls Hk Hn w. unfold guard_open, bind, getc, ret, news.
  destruct (c_stmt (w_conn w)) as [i|] eqn:E; [cbn; auto|].
  destruct (c_closed (w_conn w)); [cbn; auto|]. intros (A1 & B & C & D).
  remember (Build_world (w_conn w) (w_stmts w ++ [s]) (w_rows w) (w_txs w) (w_net w)) as w1 eqn:E1.
  remember (length (w_stmts w)) as sid eqn:Esid.
  assert (H1 : Inv (Some sid) w1).
  { subst w1 sid. split; [|split; [|split]]; cbn.
    - intros i Hi. apply open_news in Hi. destruct Hi as [Hi|[-> _]]; auto. apply A1 in Hi. destruct Hi; congruence.
    - intros i x Ex. apply nth_news in Ex. destruct Ex as [Ex|[-> ->]]; eauto. rewrite Hs, Hc. reflexivity.
    - auto.
    - congruence. }
  assert (H2 : exists s0, nth_error (w_stmts w1) sid = Some s0 /\ s_rows s0 = None).
  { subst w1 sid. exists s. split; auto. cbn. rewrite nth_error_app2 by lia. rewrite Nat.sub_diag. reflexivity. }
  pose proof (Hk (Some sid) sid w1 H1) as H3. pose proof (Hn sid w1 H2) as H4.
  assert (Hfin : forall w2, Inv (Some sid) w2 -> (exists s0, nth_error (w_stmts w2) sid = Some s0 /\ s_rows s0 = None) ->
     exists w3, stmt_close ops lf cls sid w2 = (Ok None, w3) /\ Inv None w3).
  { intros w2 H5 (s0 & E0 & Hr0). destruct (stmt_close_norows lf cls sid w2 s0 E0) as (w3 & E3 & Hno); auto.
    { apply H5 in E0; auto. }
    exists w3. split; auto. pose proof (Inv_stmt_close (Some sid) lf cls sid (Hcls (Some sid)) w2 H5) as H6. rewrite E3 in H6. cbn in H6.
    destruct H6 as (P1 & P2 & P3 & P4). split; [|split; [|split]]; auto.
    - intros i Hi. destruct (P1 i Hi) as [H|H]; auto. injection H as <-. contradiction.
  }
  unfold with_defer. destruct (k sid w1) as [[a| |] w2]; cbn in H3, H4; destruct (Hfin w2 H3 H4) as (w3 & E3 & H5); rewrite E3; exact H5.
Qed.

Lemma Inv_stmt_exec : forall f t i ps, Pres (RJ t) (stmt_exec ops f (close ops f) i ps).
Proof. intros f t i ps. pose proof (Rr t); pose proof (Rt t). apply Pres_stmt_exec; auto using Inv_enc, Inv_dec, Inv_close; try im. Qed.
Lemma Inv_stmt_exec_pipeline : forall f t i ps, Pres (RJ t) (stmt_exec_pipeline ops f (close ops f) i ps).
Proof. intros f t i ps. pose proof (Rr t); pose proof (Rt t). apply Pres_stmt_exec_pipeline; auto using Inv_enc, Inv_dec, Inv_close; try im. Qed.
Lemma Inv_exec_neo : forall f q ps, Pres (RJ None) (exec_neo ops f (close ops f) q ps).
Proof.
  intros. apply (Inv_temp _ _ _ _ _ _ (new_stmt q)); auto using Inv_stmt_exec. { intros; apply Inv_close. }
  intros. apply norows_stmt_exec, norows_close.
Qed.
Lemma Inv_exec_pipeline : forall f q ps, Pres (RJ None) (exec_pipeline ops f (close ops f) q ps).
Proof.
  intros. apply (Inv_temp _ _ _ _ _ _ (new_pipe_stmt q)); auto using Inv_stmt_exec_pipeline. { intros; apply Inv_close. }
  intros. apply norows_stmt_exec_pipeline, norows_close.
Qed.
Lemma Inv_exec_sql : forall f mk q ps, Pres (RJ None) (exec_sql ops f (close ops f) mk q ps).
Proof.
  intros. apply (Inv_temp _ _ _ _ _ _ (new_stmt q)); auto; unfold stmt_exec_sql, with_args; intros.
  + apply Inv_close.
  + pose proof (Rr t); pose proof (Rt t). pres. apply Inv_stmt_exec.
  + destruct (driver_args mk ps); [apply norows_stmt_exec, norows_close|..]; intros w; apply norows_same; reflexivity.
Qed.
Theorem Inv_step : forall mk f o, Pres (RJ None) (step ops mk f o).
Proof.
  intros. pose proof (Rr None) as Hr; pose proof (Rt None) as Ht. pose proof (fun t => Inv_close t f) as Hc.
  apply Pres_step_body; auto using Inv_enc, Inv_dec, Inv_netclose, Inv_drop, Inv_exec_neo, Inv_exec_pipeline, Inv_exec_sql; try im; intros.
  apply Inv_make; auto.
Qed.
Lemma Inv_run : forall mk f os (w : world N), Inv None w -> Inv None (snd (run ops mk f os w)).
Proof.
  intros mk f os. induction os as [|o os IH]; intros w Hw; cbn [run]; auto.
  pose proof (Inv_step mk f o w Hw) as H. destruct (step ops mk f o w) as [[a| |] w'] eqn:E; cbn in *; auto.
  specialize (IH w' H). destruct (run ops mk f os w') as [[l r] w'']. exact IH.
Qed.
Lemma Inv_fresh : forall p n, Inv None (fresh p n : world N).
Proof.
  intros. split; [|split; [|split]]; cbn; try congruence.
  - intros i (s & E & _). destruct i; discriminate.
  - intros i s E. destruct i; discriminate.
Qed.
End Inv.

(** ** c.statement stays nil inside calls that do not create statements *)
Definition NoS {N} (w w' : world N) : Prop := c_stmt (w_conn w) = None -> c_stmt (w_conn w') = None.
Section NoS.
Context {N : Type} (ops : netops N).
Let Rr : forall w : world N, NoS w w. Proof. unfold NoS; auto. Qed.
Let Rt : forall w1 w2 w3 : world N, NoS w1 w2 -> NoS w2 w3 -> NoS w1 w3. Proof. unfold NoS; auto. Qed.
Lemma NoS_modc : forall f, (forall c, c_stmt c = None -> c_stmt (f c) = None) -> Pres NoS (modc (N := N) f).
Proof. intros f H w. cbn. unfold NoS. cbn. apply H. Qed.
Lemma NoS_same : forall A (m : M (N := N) A), (forall w, w_conn (snd (m w)) = w_conn w) -> Pres NoS m.
Proof. intros A m H w. unfold NoS. rewrite H. auto. Qed.
Lemma NoS_modr : forall i f, Pres NoS (modr (N := N) i f).
Proof. intros. apply NoS_same. intros w. unfold modr, bind, getr, setr. destruct (nth_error _ _); reflexivity. Qed.
Lemma NoS_mods : forall i f, Pres NoS (mods (N := N) i f).
Proof. intros. apply NoS_same. intros w. unfold mods, bind, gets, sets. destruct (nth_error _ _); reflexivity. Qed.
Ltac ns := auto using NoS_modr, NoS_mods; try (apply NoS_modc; auto); try (apply NoS_same; reflexivity).
Lemma NoS_enc : forall v, Pres NoS (encode_msg ops v).
Proof. intros. unfold encode_msg. pres; ns. Qed.
Lemma NoS_dec : Pres NoS (decode_msg ops).
Proof. unfold decode_msg. pres; ns. Qed.
Lemma NoS_netclose : Pres NoS (net_close ops).
Proof. unfold net_close. pres; ns. Qed.
Lemma NoS_drop : forall sid, Pres NoS (stmt_drop (N := N) sid).
Proof. intros. unfold stmt_drop. pres; ns. Qed.
Lemma NoS_close_body : forall lf cls, Pres NoS cls -> Pres NoS (close_body ops lf cls).
Proof. intros. apply Pres_close_body; auto using NoS_enc, NoS_dec, NoS_netclose, NoS_drop; intros; ns. Qed.
Lemma NoS_close : forall f, Pres NoS (close ops f).
Proof. intros. apply Pres_close; auto using NoS_close_body. Qed.
Lemma NoS_rollback : forall lf cls i, Pres NoS cls -> Pres NoS (rollback ops lf cls i).
Proof. intros. apply Pres_rollback; auto using NoS_enc, NoS_dec, NoS_netclose, NoS_drop; intros; ns. Qed.
Lemma NoS_stmt_close : forall lf cls i, Pres NoS cls -> Pres NoS (stmt_close ops lf cls i).
Proof. intros. apply Pres_stmt_close; auto using NoS_enc, NoS_dec, NoS_netclose, NoS_drop; intros; ns. Qed.
End NoS.

Lemma bind_inv : forall N A B (m : M A) (k : A -> M B) (w w' : world N) b, bind m k w = (Ok b, w') ->
  exists a w1, m w = (Ok a, w1) /\ k a w1 = (Ok b, w').
Proof. intros N A B m k w w' b H. unfold bind in H. destruct (m w) as [[a| |] w1] eqn:E; try discriminate. eauto. Qed.
(** closing an open statement successfully clears c.statement and closes it *)
Lemma stmt_close_post : forall N (ops : netops N) lf cls sid (w w' : world N), stmt_close ops lf cls sid w = (Ok None, w') ->
  (open_at w sid -> c_stmt (w_conn w') = None) /\ ~ open_at w' sid.
Proof.
  intros N ops lf cls sid w w' H. unfold stmt_close in H. apply bind_inv in H. destruct H as (s & w1 & H1 & H).
  unfold gets in H1. destruct (nth_error (w_stmts w) sid) as [s0|] eqn:E; [|discriminate]. injection H1 as <- <-.
  destruct (s_closed s0) eqn:Ec.
  { injection H as <-. split; intros (s' & E' & H'); congruence. }
  apply bind_inv in H. destruct H as (e & w1 & _ & H). destruct e; [discriminate|].
  apply bind_inv in H. destruct H as (u & w2 & H2 & H). destruct u.
  assert (w2 = w1).
  { unfold need_conn, bind, gets in H2. destruct (nth_error (w_stmts w1) sid); [|discriminate]. destruct (s_conn _); [|discriminate]. injection H2; auto. }
  subst w2. apply bind_inv in H. destruct H as (u & w3 & H3 & H). injection H3 as <- <-.
  apply bind_inv in H. destruct H as (u & w4 & H4 & H). injection H as <-.
  unfold mods, bind, gets, sets in H4. cbn in H4. destruct (nth_error (w_stmts w1) sid) eqn:E1; [|discriminate]. injection H4 as <- <-. cbn.
  split; auto. intros (s' & E' & H'). cbn in E'. erewrite nth_upd_same in E' by eauto. injection E' as <-. discriminate.
Qed.

(** ** A closed connection has no statement *)
Definition KInv {N} (t : option nat) (w : world N) : Prop := Inv t w /\ (c_closed (w_conn w) = true -> c_stmt (w_conn w) = None).
Section KInv.
Context {N : Type} (ops : netops N).
Notation RK t := (fun w w' : world N => KInv t w -> KInv t w').
Let Rr t : forall w : world N, RK t w w. Proof. cbn; auto. Qed.
Let Rt t : forall w1 w2 w3 : world N, RK t w1 w2 -> RK t w2 w3 -> RK t w1 w3. Proof. cbn; auto. Qed.
(** enough: the connection's fields c_closed and c_stmt unchanged *)
Lemma K_of : forall t A (m : M (N := N) A), Pres (fun w w' => Inv t w -> Inv t w') m ->
  (forall w, c_closed (w_conn (snd (m w))) = c_closed (w_conn w) /\ c_stmt (w_conn (snd (m w))) = c_stmt (w_conn w)) -> Pres (RK t) m.
Proof. intros t A m Hi H w (H1 & H2). destruct (H w) as (Ha & Hb). split; [apply Hi; auto|]. rewrite Ha, Hb. auto. Qed.
Lemma K_enc : forall t v, Pres (RK t) (encode_msg ops v).
Proof.
  intros. apply K_of; [apply Inv_enc|]. intros w. unfold encode_msg, bind, getc, getn, setn. cbn. destruct (n_send _ _ _ _) as [n' [| |]]; split; reflexivity.
Qed.
Lemma K_dec : forall t, Pres (RK t) (decode_msg ops).
Proof.
  intros. apply K_of; [apply Inv_dec|]. intros w. unfold decode_msg, bind, getc, getn, setn. cbn. destruct (n_recv _ _) as [n' [| | |]]; split; reflexivity.
Qed.
Lemma K_modc : forall t f, (forall c, c_stmt (f c) = c_stmt c /\ c_closed (f c) = c_closed c) -> Pres (RK t) (modc (N := N) f).
Proof. intros t f H. apply K_of. { apply Inv_modc. apply H. } intros w. cbn. destruct (H (w_conn w)). auto. Qed.
Lemma K_modr : forall t i f, Pres (RK t) (modr (N := N) i f).
Proof. intros. apply K_of; [apply Inv_modr|]. intros w. unfold modr, bind, getr, setr. destruct (nth_error _ _); split; reflexivity. Qed.
Lemma K_mods : forall t i o, Pres (RK t) (mods (N := N) i (s_set_rows o)).
Proof. intros. apply K_of; [apply Inv_mods|]. intros w. unfold mods, bind, gets, sets. destruct (nth_error _ _); split; reflexivity. Qed.
Lemma K_drop : forall t sid, Pres (RK t) (stmt_drop (N := N) sid).
Proof.
  intros t sid w (H1 & H2). split; [apply Inv_drop; auto|].
  unfold stmt_drop, need_conn, mods, bind, gets, sets, modc, getc, setc, ret, panic in *.
  destruct (nth_error (w_stmts w) sid) as [s|] eqn:E; cbn in *; auto.
  destruct (s_conn s) eqn:Es; cbn in *; auto. rewrite E. reflexivity.
Qed.
Ltac ks := auto using K_enc, K_dec, K_modr, K_mods, K_drop;
  try (apply K_modc; auto); try (apply K_of; [solve [auto using Inv_setn, Inv_sett, Inv_newt, Inv_newr]|split; reflexivity]).
Lemma K_stmt_close : forall t lf cls i, Pres (RK t) cls -> Pres (RK t) (stmt_close ops lf cls i).
Proof. intros. pose proof (Rr t); pose proof (Rt t). apply Pres_stmt_close; intros; ks. Qed.
Lemma K_rollback : forall t lf cls i, Pres (RK t) cls -> Pres (RK t) (rollback ops lf cls i).
Proof. intros. pose proof (Rr t); pose proof (Rt t). apply Pres_rollback; intros; ks. Qed.
Lemma K_close_body : forall t lf cls, Pres (RK t) cls -> Pres NoS cls -> Pres (RK t) (close_body ops lf cls).
Proof.
  intros t lf cls Hk Hs w Hw. unfold close_body. unfold bind at 1, getc at 1.
  destruct (c_closed (w_conn w)) eqn:Ec; [exact Hw|].
  set (m1 := match c_stmt (w_conn w) with None => _ | Some sid => _ end).
  assert (H1 : KInv t (snd (m1 w)) /\ (forall w', m1 w = (Ok None, w') -> c_stmt (w_conn w') = None)).
  { unfold m1. destruct (c_stmt (w_conn w)) as [sid|] eqn:Es.
    - split; [apply K_stmt_close; auto|]. intros w' E. apply stmt_close_post in E. apply E. apply Hw. exact Es.
    - split; [exact Hw|]. intros w' E. injection E as <-. exact Es. }
  destruct H1 as (H1 & H1'). unfold bind at 1. destruct (m1 w) as [[[e|]| |] w1] eqn:E1; cbn in H1; try exact H1. clear m1 E1.
  specialize (H1' w1 eq_refl). unfold bind at 1, getc at 1.
  set (m2 := match c_tx (w_conn w1) with None => _ | Some tid => _ end).
  assert (H2 : KInv t (snd (m2 w1)) /\ c_stmt (w_conn (snd (m2 w1))) = None).
  { unfold m2. destruct (c_tx (w_conn w1)) as [tid|]; [|split; auto]. split; [apply K_rollback; auto|].
    pose proof (NoS_rollback ops lf cls tid Hs w1) as Hn. apply Hn. exact H1'. }
  destruct H2 as (H2 & H2'). unfold bind at 1. destruct (m2 w1) as [[[e|]| |] w2] eqn:E2; cbn in H2, H2'; try exact H2. clear m2 E2.
  unfold bind at 1, getc at 1. destruct (c_pooled (w_conn w2)); [exact H2|].
  unfold bind, getn, setn, modc, getc, setc, ret. cbn. destruct (n_close ops (w_net w2)) as [n' []]; cbn; (split; [|auto]);
    apply (Inv_ext t w2); auto; apply H2.
Qed.
Lemma K_close : forall t f, Pres (RK t) (close ops f).
Proof.
  intros t f. induction f as [|f IH]; cbn [close]; [apply Pres_nofuel; auto|]. apply K_close_body; auto using NoS_close.
Qed.
Lemma K_make : forall A l1 l2 (bad : gerr -> A) s k, s_closed s = false -> s_conn s = true ->
  (forall sid, Pres (RK None) (k sid)) ->
  Pres (RK None) (guard_open (N := N) l1 l2 bad (sid <- news s ;; modc (c_set_stmt (Some sid)) ;; k sid)).
Proof.
  intros A l1 l2 bad s k Hs Hc Hk w Hw. 
  pose proof (Inv_make _ l1 l2 (fun _ : gerr => tt) s (fun _ => ret tt) Hs Hc (fun _ w H => H) w (proj1 Hw)) as Hi.
  revert Hi. unfold guard_open, bind, getc, ret.
  destruct (c_stmt (w_conn w)) as [i|] eqn:E; cbn; auto.
  destruct (c_closed (w_conn w)) eqn:Ec; cbn; auto. intros Hi. apply Hk. split; auto. cbn. congruence.
Qed.
(** the calls with a statement of their own: c.statement stays nil throughout *)
Lemma K_temp : forall A l1 l2 (bad : gerr -> A) m, Pres (fun w w' => Inv None w -> Inv None w') (guard_open l1 l2 bad m) ->
  Pres NoS m -> Pres (RK None) (guard_open (N := N) l1 l2 bad m).
Proof.
  intros A l1 l2 bad m Hi Hn w Hw. specialize (Hi w (proj1 Hw)). revert Hi. unfold guard_open, bind, getc, ret.
  destruct (c_stmt (w_conn w)) as [i|] eqn:E; cbn; auto.
  destruct (c_closed (w_conn w)) eqn:Ec; cbn; auto. intros Hi. split; auto. intros _. apply Hn. exact E.
Qed.
Theorem K_step : forall mk f o, Pres (RK None) (step ops mk f o).
Proof.
  intros. pose proof (Rr None) as Hr; pose proof (Rt None) as Ht. pose proof (fun t => K_close t f) as Hc. pose proof (NoS_close ops f) as Hn.
  assert (Hnr : forall w : world N, NoS w w) by (unfold NoS; auto).
  assert (Hnt : forall w1 w2 w3 : world N, NoS w1 w2 -> NoS w2 w3 -> NoS w1 w3) by (unfold NoS; auto).
  assert (Hne : Pres NoS (modc (N := N) c_set_err)) by (apply NoS_modc; auto).
  assert (Hnw : forall s, Pres NoS (news (N := N) s)) by (intros; apply NoS_same; reflexivity).
  assert (Hnx : forall i ps, Pres NoS (stmt_exec ops f (close ops f) i ps)).
  { intros. apply Pres_stmt_exec; auto using NoS_enc, NoS_dec. }
  assert (Hny : forall i ps, Pres NoS (stmt_exec_pipeline ops f (close ops f) i ps)).
  { intros. apply Pres_stmt_exec_pipeline; auto using NoS_enc, NoS_dec. }
  assert (Hnc : forall i, Pres NoS (stmt_close ops f (close ops f) i)) by (intros; apply NoS_stmt_close; auto).
  apply Pres_step_body; auto using K_make; intros; ks.
  - apply K_temp; [apply Inv_exec_neo|]. pres; auto.
  - apply K_temp; [apply Inv_exec_pipeline|]. pres; auto.
  - apply K_temp; [apply Inv_exec_sql|]. unfold stmt_exec_sql, with_args. pres; auto.
Qed.
Lemma K_run : forall mk f os (w : world N), KInv None w -> KInv None (snd (run ops mk f os w)).
Proof.
  intros mk f os. induction os as [|o os IH]; intros w Hw; cbn [run]; auto.
  pose proof (K_step mk f o w Hw) as H. destruct (step ops mk f o w) as [[a| |] w'] eqn:E; cbn in *; auto.
  specialize (IH w' H). destruct (run ops mk f os w') as [[l r] w'']. exact IH.
Qed.
Lemma K_fresh : forall p n, KInv None (fresh p n : world N).
Proof. intros. split; [apply Inv_fresh|]. discriminate. Qed.
End KInv.
