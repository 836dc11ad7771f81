(** The fuel of Session.v does not matter: a call that ends with some fuel ends in the
    same way with more. *)
From Coq Require Import ZArith List Bool Lia.
From Verif Require Import GoPrims Value Errors Misc Session.
Import ListNotations.

Section Fuel.
Context {N : Type} (ops : netops N).
Notation W := (world N).
Definition Le {A} (m m' : M (N := N) A) : Prop := forall w, fst (m w) <> NoFuel -> m' w = m w.

Lemma Le_refl : forall A (m : M (N := N) A), Le m m.
Proof. intros A m w _. reflexivity. Qed.
Lemma Le_nofuel : forall A (m : M (N := N) A), Le nofuel m.
Proof. intros A m w H. now contradiction H. Qed.
Lemma Le_bind : forall A C (m m' : M (N := N) A) (k k' : A -> M (N := N) C), Le m m' -> (forall a, Le (k a) (k' a)) -> Le (bind m k) (bind m' k').
Proof.
  intros A C m m' k k' Hm Hk w H. unfold bind in *. specialize (Hm w).
  destruct (m w) as [[a| |] w1] eqn:E; cbn in H.
  - rewrite Hm by (cbn; discriminate). apply Hk. exact H.
  - rewrite Hm by (cbn; discriminate). reflexivity.
  - now contradiction H.
Qed.
Lemma Le_defer : forall A C (m m' : M (N := N) A) (d d' : M (N := N) C), Le m m' -> Le d d' -> Le (with_defer m d) (with_defer m' d').
Proof.
  intros A C m m' d d' Hm Hd w H. unfold with_defer in *. specialize (Hm w).
  destruct (m w) as [[a| |] w1] eqn:E; cbn in H.
  - rewrite Hm by (cbn; discriminate). rewrite Hd; [reflexivity|]. intros Hn. destruct (d w1) as [[b| |] w2]; cbn in *; congruence.
  - rewrite Hm by (cbn; discriminate). rewrite Hd; [reflexivity|]. intros Hn. destruct (d w1) as [[b| |] w2]; cbn in *; congruence.
  - now contradiction H.
Qed.

Section Inner.
Variables (lf lf' : nat) (cls cls' : M (N := N) (option gerr)).
Hypothesis Hlf : (lf <= lf')%nat.
Hypothesis Hcls : Le cls cls'.

Ltac le1 := first
  [ match goal with |- Le ?m ?m => apply Le_refl end
  | match goal with
    | |- Le (bind _ _) (bind _ _) => apply Le_bind; [|intros ?]
    | |- Le (with_defer _ _) (with_defer _ _) => apply Le_defer
    | |- Le (match ?x with _ => _ end) _ => destruct x
    end
  | solve [auto]
  ].
Ltac le := repeat le1.

Lemma Le_reset_loop : forall f f', (f <= f')%nat -> Le (reset_loop ops cls f) (reset_loop ops cls' f').
Proof. induction f as [|f IH]; intros [|f'] H; try lia; try apply Le_nofuel. cbn [reset_loop]. assert (f <= f')%nat by lia. le. Qed.
Lemma Le_reset : Le (reset ops lf cls) (reset ops lf' cls').
Proof. unfold reset. pose proof (Le_reset_loop lf lf' Hlf). le. Qed.
Lemma Le_ack_loop : forall f f', (f <= f')%nat -> Le (ack_loop ops lf cls f) (ack_loop ops lf' cls' f').
Proof. pose proof Le_reset. induction f as [|f IH]; intros [|f'] Hf; try lia; try apply Le_nofuel. cbn [ack_loop]. assert (f <= f')%nat by lia. le. Qed.
Lemma Le_ack : Le (ack_failure ops lf cls) (ack_failure ops lf' cls').
Proof. unfold ack_failure. pose proof (Le_ack_loop lf lf' Hlf). le. Qed.
Lemma Le_consume : Le (consume ops lf cls) (consume ops lf' cls').
Proof. unfold consume. pose proof Le_ack. le. Qed.
Lemma Le_consume_all_loop : forall f f', (f <= f')%nat -> Le (consume_all_loop ops lf cls f) (consume_all_loop ops lf' cls' f').
Proof. pose proof Le_consume. induction f as [|f IH]; intros [|f'] Hf; try lia; try apply Le_nofuel. cbn [consume_all_loop]. assert (f <= f')%nat by lia. le. Qed.
Lemma Le_consume_all : Le (consume_all ops lf cls) (consume_all ops lf' cls').
Proof. apply Le_consume_all_loop. exact Hlf. Qed.
Lemma Le_consume_all_n : forall n, Le (consume_all_n ops lf cls n) (consume_all_n ops lf' cls' n).
Proof. pose proof Le_consume_all. induction n as [|n IH]; cbn [consume_all_n]; le. Qed.
Lemma Le_consume_all_multiple : forall n, Le (consume_all_multiple ops lf cls n) (consume_all_multiple ops lf' cls' n).
Proof. pose proof Le_consume_all_n. intros n. unfold consume_all_multiple. le. Qed.
Lemma Le_send_run_consume : forall q ps, Le (send_run_consume ops lf cls q ps) (send_run_consume ops lf' cls' q ps).
Proof. pose proof Le_consume. intros. unfold send_run_consume. le. Qed.
Lemma Le_run_pull_run : forall q ps, Le (send_run_pull_all_consume_run ops lf cls q ps) (send_run_pull_all_consume_run ops lf' cls' q ps).
Proof. pose proof Le_consume. intros. unfold send_run_pull_all_consume_run. le. Qed.
Lemma Le_run_pull_single : forall q ps, Le (send_run_pull_all_consume_single ops lf cls q ps) (send_run_pull_all_consume_single ops lf' cls' q ps).
Proof. pose proof Le_consume. intros. unfold send_run_pull_all_consume_single. le. Qed.
Lemma Le_run_pull_all : forall q ps, Le (send_run_pull_all_consume_all ops lf cls q ps) (send_run_pull_all_consume_all ops lf' cls' q ps).
Proof. pose proof Le_consume. pose proof Le_consume_all. intros. unfold send_run_pull_all_consume_all. le. Qed.
Lemma Le_discard : Le (send_discard_all_consume ops lf cls) (send_discard_all_consume ops lf' cls').
Proof. pose proof Le_consume. unfold send_discard_all_consume. le. Qed.
Lemma Le_rows_close_body : forall r, Le (rows_close_body ops lf cls r) (rows_close_body ops lf' cls' r).
Proof. pose proof Le_discard. pose proof Le_consume_all_multiple. intros. unfold rows_close_body. le. Qed.
Lemma Le_stmt_close : forall s, Le (stmt_close ops lf cls s) (stmt_close ops lf' cls' s).
Proof. pose proof Le_rows_close_body. intros. unfold stmt_close. le. Qed.
Lemma Le_rows_close : forall s, Le (rows_close ops lf cls s) (rows_close ops lf' cls' s).
Proof. pose proof Le_rows_close_body. pose proof Le_stmt_close. intros. unfold rows_close. le. Qed.
Lemma Le_tx_finish : forall q l1 l2 l3 l4 l5 t, Le (tx_finish ops lf cls q l1 l2 l3 l4 l5 t) (tx_finish ops lf' cls' q l1 l2 l3 l4 l5 t).
Proof. pose proof Le_stmt_close. pose proof Le_run_pull_single. intros. unfold tx_finish. le. Qed.
Lemma Le_close_body : Le (close_body ops lf cls) (close_body ops lf' cls').
Proof. pose proof Le_stmt_close. pose proof Le_tx_finish. unfold close_body, rollback. le. Qed.
Lemma Le_initialize : forall u p, Le (initialize ops lf cls u p) (initialize ops lf' cls' u p).
Proof. pose proof Le_consume. intros. unfold initialize. le. Qed.
Lemma Le_guard : forall A l1 l2 (bad : gerr -> A) k k', Le k k' -> Le (guard_open l1 l2 bad k) (guard_open l1 l2 bad k').
Proof. intros. unfold guard_open. le. Qed.
Lemma Le_begin : Le (begin_tx ops lf cls) (begin_tx ops lf' cls').
Proof. pose proof Le_run_pull_single. unfold begin_tx, guard_open. le. Qed.
Lemma Le_stmt_exec : forall s ps, Le (stmt_exec ops lf cls s ps) (stmt_exec ops lf' cls' s ps).
Proof. pose proof Le_run_pull_all. intros. unfold stmt_exec. le. Qed.
Lemma Le_exec_results : forall qs, Le (exec_results ops lf cls qs) (exec_results ops lf' cls' qs).
Proof. pose proof Le_consume. pose proof Le_consume_all. induction qs as [|q qs IH]; cbn [exec_results]; le. Qed.
Lemma Le_stmt_exec_pipeline : forall s ps, Le (stmt_exec_pipeline ops lf cls s ps) (stmt_exec_pipeline ops lf' cls' s ps).
Proof. pose proof Le_exec_results. intros. unfold stmt_exec_pipeline. le. Qed.
Lemma Le_stmt_query : forall s ps, Le (stmt_query ops lf cls s ps) (stmt_query ops lf' cls' s ps).
Proof. pose proof Le_send_run_consume. intros. unfold stmt_query. le. Qed.
Lemma Le_stmt_query_pipeline : forall s ps, Le (stmt_query_pipeline ops lf cls s ps) (stmt_query_pipeline ops lf' cls' s ps).
Proof. pose proof Le_consume. intros. unfold stmt_query_pipeline. le. Qed.
Lemma Le_close_cur : Le (close_cur_stmt ops lf cls) (close_cur_stmt ops lf' cls').
Proof. pose proof Le_stmt_close. unfold close_cur_stmt. le. Qed.
Lemma Le_query_neo : forall q ps, Le (query_neo ops lf cls q ps) (query_neo ops lf' cls' q ps).
Proof. pose proof Le_close_cur. pose proof Le_run_pull_run. intros. unfold query_neo, guard_open. le. Qed.
Lemma Le_query_pipeline : forall q ps, Le (query_pipeline ops lf cls q ps) (query_pipeline ops lf' cls' q ps).
Proof. pose proof Le_stmt_query_pipeline. intros. unfold query_pipeline, guard_open. le. Qed.
Lemma Le_exec_neo : forall q ps, Le (exec_neo ops lf cls q ps) (exec_neo ops lf' cls' q ps).
Proof. pose proof Le_stmt_exec. pose proof Le_stmt_close. intros. unfold exec_neo, guard_open. le. Qed.
Lemma Le_exec_pipeline : forall q ps, Le (exec_pipeline ops lf cls q ps) (exec_pipeline ops lf' cls' q ps).
Proof. pose proof Le_stmt_exec_pipeline. pose proof Le_stmt_close. intros. unfold exec_pipeline, guard_open. le. Qed.
Lemma Le_next_neo : forall r, Le (next_neo ops lf cls r) (next_neo ops lf' cls' r).
Proof. pose proof Le_consume. intros. unfold next_neo. le. Qed.
Lemma Le_all_loop : forall f f' r acc, (f <= f')%nat -> Le (all_loop ops lf cls f r acc) (all_loop ops lf' cls' f' r acc).
Proof. pose proof Le_next_neo. induction f as [|f IH]; intros [|f'] r acc Hf; try lia; try apply Le_nofuel. cbn [all_loop]. assert (f <= f')%nat by lia. le. Qed.
Lemma Le_all : forall r, Le (all_rows ops lf cls r) (all_rows ops lf' cls' r).
Proof. intros. apply Le_all_loop. exact Hlf. Qed.
Lemma Le_query_neo_all : forall q ps, Le (query_neo_all ops lf cls q ps) (query_neo_all ops lf' cls' q ps).
Proof. pose proof Le_query_neo. pose proof Le_all. pose proof Le_rows_close. intros. unfold query_neo_all. le. Qed.
Lemma Le_next_pipeline : forall r, Le (next_pipeline ops lf cls r) (next_pipeline ops lf' cls' r).
Proof. pose proof Le_consume. intros. unfold next_pipeline. le. Qed.
Lemma Le_step_body : forall mk o, Le (step_body ops lf cls mk o) (step_body ops lf' cls' mk o).
Proof.
  pose proof Le_begin. pose proof Le_exec_neo. pose proof Le_exec_pipeline. pose proof Le_query_neo. pose proof Le_query_neo_all. pose proof Le_query_pipeline.
  pose proof Le_stmt_exec. pose proof Le_stmt_exec_pipeline. pose proof Le_stmt_query. pose proof Le_stmt_query_pipeline. pose proof Le_stmt_close.
  pose proof Le_rows_close. pose proof Le_next_neo. pose proof Le_all. pose proof Le_next_pipeline. pose proof Le_tx_finish.
  intros mk o. destruct o; cbn [step_body]; unfold prepare, prepare_pipeline, exec_sql, query_sql, stmt_exec_sql, stmt_query_sql, with_args, set_chunk_size, next_sql, commit, rollback, guard_open; le.
Qed.
End Inner.

Lemma Le_close : forall f f', (f <= f')%nat -> Le (close ops f) (close ops f').
Proof. induction f as [|f IH]; intros [|f'] H; try lia; try apply Le_nofuel. cbn [close]. apply Le_close_body; [lia|apply IH; lia]. Qed.
Theorem Le_step : forall mk f f' o, (f <= f')%nat -> Le (step ops mk f o) (step ops mk f' o).
Proof. intros mk f f' o H. apply Le_step_body; [exact H|apply Le_close; exact H]. Qed.
Corollary step_fuel : forall mk f f' o w r w', (f <= f')%nat -> step ops mk f o w = (Ok r, w') -> step ops mk f' o w = (Ok r, w').
Proof. intros mk f f' o w r w' H E. rewrite (Le_step mk f f' o H w); rewrite E; [reflexivity|discriminate]. Qed.
Corollary run_fuel : forall mk f f' os w l r w', (f <= f')%nat -> run ops mk f os w = (l, r, w') -> r <> NoFuel -> run ops mk f' os w = (l, r, w').
Proof.
  intros mk f f' os w l r w' H. revert w l r w'. induction os as [|o os IH]; intros w l r w' E Hr; cbn [run] in *; [exact E|].
  pose proof (Le_step mk f f' o H w) as Hs. destruct (step ops mk f o w) as [[a| |] w1].
  - rewrite Hs by (cbn; discriminate). destruct (run ops mk f os w1) as [[l1 r1] w2] eqn:E1. injection E as <- <- <-.
    rewrite (IH _ _ _ _ E1 Hr). reflexivity.
  - rewrite Hs by (cbn; discriminate). exact E.
  - injection E as <- <- <-. now contradiction Hr.
Qed.
End Fuel.
