(** Every call ends if the server sends finitely many messages.  [mu] bounds the
    messages still to come; whatever else the network does is arbitrary. *)
From Coq Require Import ZArith List Bool Lia.
From Verif Require Import GoPrims Value Errors Misc Session SessionGen.
Import ListNotations.
Open Scope Z_scope.

Section Term.
Context {N : Type} (ops : netops N) (mu : N -> nat).
Hypothesis Hsend : forall n cs v n' r, n_send ops n cs v = (n', r) -> (mu n' <= mu n)%nat.
Hypothesis Hmsg : forall n n' v, n_recv ops n = (n', RMsg v) -> (mu n' < mu n)%nat.
Hypothesis Hrecv : forall n n' r, n_recv ops n = (n', r) -> (mu n' <= mu n)%nat.
Hypothesis Hclose : forall n n' b, n_close ops n = (n', b) -> (mu n' <= mu n)%nat.
Notation W := (world N).
Notation muw w := (mu (w_net w)).

(** [TT b m]: from worlds with at most [b] messages to come, [m] ends *)
Definition TT (b : nat) {A} (m : M (N := N) A) : Prop :=
  forall w, (muw w <= b)%nat -> fst (m w) <> NoFuel /\ (muw (snd (m w)) <= muw w)%nat.
(** without an error a message has been read *)
Definition SD {A} (ef : A -> option gerr) (m : M (N := N) A) : Prop :=
  forall w a w', m w = (Ok a, w') -> ef a = None -> (muw w' < muw w)%nat.

Lemma TT_le : forall A (m : M A) b b', (b' <= b)%nat -> TT b m -> TT b' m.
Proof. intros A m b b' H Hm w Hw. apply Hm. lia. Qed.
Lemma TT_bind : forall A B b (m : M A) (k : A -> M B), TT b m -> (forall a, TT b (k a)) -> TT b (bind m k).
Proof.
  intros A B b m k Hm Hk w Hw. destruct (Hm w Hw) as (H1 & H2). unfold bind. destruct (m w) as [[a| |] w1]; cbn in *; [|split; [discriminate|auto]|congruence].
  destruct (Hk a w1 ltac:(lia)) as (H3 & H4). split; auto. lia.
Qed.
Lemma TT_bindS : forall A B b (ef : A -> option gerr) (m : M A) (k : A -> M B), TT b m -> SD ef m ->
  (forall a e, ef a = Some e -> TT b (k a)) -> (forall a b', ef a = None -> b = S b' -> TT b' (k a)) -> TT b (bind m k).
Proof.
  intros A B b ef m k Hm Hs Hk1 Hk2 w Hw. destruct (Hm w Hw) as (H1 & H2). unfold bind. destruct (m w) as [[a| |] w1] eqn:E; cbn in *; [|split; [discriminate|auto]|congruence].
  destruct (ef a) as [e|] eqn:Ee.
  - destruct (Hk1 a e Ee w1 ltac:(lia)) as (H3 & H4). split; auto. lia.
  - specialize (Hs _ _ _ E Ee). destruct b as [|b']; [lia|]. destruct (Hk2 a b' Ee eq_refl w1 ltac:(lia)) as (H3 & H4). split; auto. lia.
Qed.
Lemma TT_defer : forall A B b (m : M A) (d : M B), TT b m -> TT b d -> TT b (with_defer m d).
Proof.
  intros A B b m d Hm Hd w Hw. destruct (Hm w Hw) as (H1 & H2). unfold with_defer. destruct (m w) as [[a| |] w1]; cbn in *; [| |congruence];
    destruct (Hd w1 ltac:(lia)) as (H3 & H4); destruct (d w1) as [[x| |] w2]; cbn in *; split; try lia; congruence.
Qed.
Lemma TT_quiet : forall A b (m : M A), (forall w, fst (m w) <> NoFuel /\ w_net (snd (m w)) = w_net w) -> TT b m.
Proof. intros A b m H w _. destruct (H w) as (H1 & H2). rewrite H2. auto. Qed.
Lemma TT_ret : forall A b (a : A), TT b (ret a).
Proof. intros. apply TT_quiet. split; [discriminate|reflexivity]. Qed.
Lemma TT_panic : forall A b, TT b (panic (A := A)).
Proof. intros. apply TT_quiet. split; [discriminate|reflexivity]. Qed.
Lemma TT_gets : forall b i, TT b (gets i).
Proof. intros. apply TT_quiet. intros w. unfold gets. destruct (nth_error _ _); split; try discriminate; reflexivity. Qed.
Lemma TT_getr : forall b i, TT b (getr i).
Proof. intros. apply TT_quiet. intros w. unfold getr. destruct (nth_error _ _); split; try discriminate; reflexivity. Qed.
Lemma TT_gett : forall b i, TT b (gett i).
Proof. intros. apply TT_quiet. intros w. unfold gett. destruct (nth_error _ _); split; try discriminate; reflexivity. Qed.
Lemma TT_mods : forall b i f, TT b (mods i f).
Proof. intros. apply TT_quiet. intros w. unfold mods, bind, gets, sets. destruct (nth_error _ _); split; try discriminate; reflexivity. Qed.
Lemma TT_modr : forall b i f, TT b (modr i f).
Proof. intros. apply TT_quiet. intros w. unfold modr, bind, getr, setr. destruct (nth_error _ _); split; try discriminate; reflexivity. Qed.
Lemma TT_need : forall b i, TT b (need_conn i).
Proof. intros. apply TT_quiet. intros w. unfold need_conn, bind, gets. destruct (nth_error _ _) as [s|]; [destruct (s_conn s)|]; split; try discriminate; reflexivity. Qed.
Lemma TT_enc : forall b v, TT b (encode_msg ops v).
Proof.
  intros b v w _. unfold encode_msg, bind, getc, getn, setn. destruct (n_send ops (w_net w) (c_cs (w_conn w)) v) as [n' r] eqn:E. cbn.
  apply Hsend in E. destruct r; cbn; split; try discriminate; lia.
Qed.
Lemma TT_dec : forall b, TT b (decode_msg ops).
Proof.
  intros b w _. unfold decode_msg, bind, getc, getn, setn. destruct (n_recv ops (w_net w)) as [n' r] eqn:E. cbn.
  apply Hrecv in E. destruct r; cbn; split; try discriminate; lia.
Qed.
Notation ef2 := (fun x : option goval * option gerr => snd x).
Lemma SD_dec : SD ef2 (decode_msg ops).
Proof.
  intros w a w' H Ha. unfold decode_msg, bind, getc, getn, setn in H. destruct (n_recv ops (w_net w)) as [n' r] eqn:E. cbn in H.
  destruct r; cbn in H; try discriminate; injection H as <- <-; try discriminate Ha. cbn. eapply Hmsg; eauto.
Qed.
Lemma TT_netclose : forall b, TT b (net_close ops).
Proof.
  intros b w _. unfold net_close, bind, getn, setn, modc, getc, setc, ret. destruct (n_close ops (w_net w)) as [n' f] eqn:E. cbn.
  apply Hclose in E. destruct f; cbn; split; try discriminate; lia.
Qed.
Ltac tt1 :=
  cbv beta iota;
  lazymatch goal with
  | |- TT _ (ret _) => apply TT_ret
  | |- TT _ panic => apply TT_panic
  | |- TT _ (match ?x with _ => _ end) => destruct x
  | |- TT _ (bind _ _) => apply TT_bind; [|intro]
  | |- TT _ (with_defer _ _) => apply TT_defer
  | |- TT _ _ => first [solve [eauto with tt] | apply TT_quiet; split; [discriminate|reflexivity]]
  end.
Ltac tt := repeat tt1.
Local Hint Resolve TT_gets TT_getr TT_gett TT_mods TT_modr TT_need TT_enc TT_dec TT_netclose : tt.

Section Inner.
Variable lf : nat.
Variable cls : M (N := N) (option gerr).
Variable B : nat.
Hypothesis HB : (B < lf)%nat.
Hypothesis Hcls : forall b, (b < B)%nat -> TT b cls.

Lemma TT_reset_loop : forall f b, (b <= B)%nat -> (b < f)%nat -> TT b (reset_loop ops cls f).
Proof.
  induction f as [|f IH]; intros b H1 H2; [lia|]. cbn [reset_loop]. apply TT_bindS with (ef := ef2); auto using TT_dec, SD_dec.
  - intros [v e0] e He. cbn in He. subst. tt.
  - intros [v e0] b' He ->. cbn in He. subst. assert (TT b' cls) by (apply Hcls; lia).
    destruct v as [v|]; [destruct v|]; tt. apply IH; lia.
Qed.
Lemma TT_reset : forall b, (b <= B)%nat -> TT b (reset ops lf cls).
Proof. intros b Hb. pose proof (TT_reset_loop lf b Hb ltac:(lia)). unfold reset. tt. Qed.
Lemma TT_ack_loop : forall f b, (b <= B)%nat -> (b < f)%nat -> TT b (ack_loop ops lf cls f).
Proof.
  induction f as [|f IH]; intros b H1 H2; [lia|]. cbn [ack_loop]. apply TT_bindS with (ef := ef2); auto using TT_dec, SD_dec.
  - intros [v e0] e He. cbn in He. subst. tt.
  - intros [v e0] b' He ->. cbn in He. subst. assert (TT b' cls) by (apply Hcls; lia). assert (TT b' (reset ops lf cls)) by (apply TT_reset; lia).
    destruct v as [v|]; [destruct v|]; tt. apply IH; lia.
Qed.
Lemma TT_ack : forall b, (b <= B)%nat -> TT b (ack_failure ops lf cls).
Proof. intros b Hb. pose proof (TT_ack_loop lf b Hb ltac:(lia)). unfold ack_failure. tt. Qed.
Lemma TT_consume : forall b, (b <= B)%nat -> TT b (consume ops lf cls).
Proof. intros b Hb. pose proof (TT_ack b Hb). unfold consume. tt. Qed.
Lemma SD_consume : SD ef2 (consume ops lf cls).
Proof.
  intros w a w' H Ha. unfold consume in H. apply bind_inv in H. destruct H as ([v e] & w1 & H1 & H).
  destruct e as [e|]; [injection H as <- <-; discriminate Ha|].
  pose proof (SD_dec _ _ _ H1 eq_refl) as Hd.
  destruct v as [v|]; [destruct v|]; try (injection H as <- <-; exact Hd).
  apply bind_inv in H. destruct H as (e & w2 & _ & H). destruct e; injection H as <- <-; discriminate Ha.
Qed.
Lemma TT_consume_all : forall b, (b <= B)%nat -> TT b (consume_all ops lf cls).
Proof.
  intros b0 Hb0. unfold consume_all. assert (Hf : (b0 < lf)%nat) by lia. revert b0 Hb0 Hf. generalize lf at 1 3 as f.
  induction f as [|f IH]; intros b Hb Hf; [lia|]. cbn [consume_all_loop]. eapply TT_bindS; [apply TT_consume; auto|apply SD_consume|..].
  - intros [v e0] e He. cbn in He. subst. tt.
  - intros [v e0] b' He ->. cbn in He. subst. destruct v as [v|]; [destruct v|]; tt; apply IH; lia.
Qed.
Lemma TT_consume_n : forall b n, (b <= B)%nat -> TT b (consume_all_n ops lf cls n).
Proof. intros b n Hb. pose proof (TT_consume_all b Hb). induction n as [|n IH]; cbn [consume_all_n]; tt. Qed.
Lemma TT_consume_multiple : forall b z, (b <= B)%nat -> TT b (consume_all_multiple ops lf cls z).
Proof. intros b z Hb. unfold consume_all_multiple. destruct (z <? 0); [tt|]. apply TT_consume_n; auto. Qed.

Let HBB : (B <= B)%nat. Proof. lia. Qed.
Local Hint Resolve HBB TT_consume TT_consume_all TT_consume_multiple : tt.
Lemma TT_send_run : forall q ps, TT B (send_run ops q ps).
Proof. intros. unfold send_run. tt. Qed.
Lemma TT_send_pull : TT B (send_pull_all ops).
Proof. unfold send_pull_all. tt. Qed.
Local Hint Resolve TT_send_run TT_send_pull : tt.
Lemma TT_send_run_pull : forall q ps, TT B (send_run_pull_all ops q ps).
Proof. intros. unfold send_run_pull_all. tt. Qed.
Local Hint Resolve TT_send_run_pull : tt.
Lemma TT_rows_close_body : forall rid, TT B (rows_close_body ops lf cls rid).
Proof. intros. unfold rows_close_body, send_discard_all_consume. tt. Qed.
Local Hint Resolve TT_rows_close_body : tt.
Lemma TT_stmt_close : forall sid, TT B (stmt_close ops lf cls sid).
Proof. intros. unfold stmt_close. tt. Qed.
Local Hint Resolve TT_stmt_close : tt.
Lemma TT_rows_close : forall sid, TT B (rows_close ops lf cls sid).
Proof. intros. unfold rows_close. tt. Qed.
Lemma TT_tx_finish : forall q l1 l2 l3 l4 l5 tid, TT B (tx_finish ops lf cls q l1 l2 l3 l4 l5 tid).
Proof. intros. unfold tx_finish, send_run_pull_all_consume_single. tt. Qed.
Lemma TT_close_body : TT B (close_body ops lf cls).
Proof. pose proof TT_tx_finish as Htx. unfold close_body, rollback. fold (net_close ops). tt. Qed.
Lemma TT_begin : TT B (begin_tx ops lf cls).
Proof. unfold begin_tx, guard_open, send_run_pull_all_consume_single. tt. Qed.
Lemma TT_stmt_exec : forall sid ps, TT B (stmt_exec ops lf cls sid ps).
Proof. intros. unfold stmt_exec, send_run_pull_all_consume_all. tt. Qed.
Lemma TT_send_queries : forall l qs pss, TT B (send_queries ops l qs pss).
Proof. intros l qs. induction qs as [|q qs IH]; intros [|ps pss]; cbn [send_queries]; tt. Qed.
Lemma TT_exec_results : forall qs, TT B (exec_results ops lf cls qs).
Proof. induction qs as [|q qs IH]; cbn [exec_results]; tt. Qed.
Local Hint Resolve TT_send_queries TT_exec_results TT_stmt_exec : tt.
Lemma TT_stmt_exec_pipeline : forall sid pss, TT B (stmt_exec_pipeline ops lf cls sid pss).
Proof. intros. unfold stmt_exec_pipeline. tt. Qed.
Lemma TT_stmt_query : forall sid ps, TT B (stmt_query ops lf cls sid ps).
Proof. intros. unfold stmt_query, send_run_consume. tt. Qed.
Lemma TT_stmt_query_pipeline : forall sid ps, TT B (stmt_query_pipeline ops lf cls sid ps).
Proof. intros. unfold stmt_query_pipeline. tt. Qed.
Local Hint Resolve TT_stmt_query_pipeline TT_stmt_exec_pipeline TT_stmt_query TT_rows_close : tt.
Lemma TT_query_pipeline : forall qs ps, TT B (query_pipeline ops lf cls qs ps).
Proof. intros. unfold query_pipeline, guard_open. tt. Qed.
Lemma TT_query_neo : forall qs ps, TT B (query_neo ops lf cls qs ps).
Proof. intros. unfold query_neo, guard_open, send_run_pull_all_consume_run, close_cur_stmt. tt. Qed.
Lemma TT_exec_neo : forall qs ps, TT B (exec_neo ops lf cls qs ps).
Proof. intros. unfold exec_neo, guard_open. tt. Qed.
Lemma TT_exec_pipeline : forall qs ps, TT B (exec_pipeline ops lf cls qs ps).
Proof. intros. unfold exec_pipeline, guard_open. tt. Qed.
Lemma TT_next_neo : forall b rid, (b <= B)%nat -> TT b (next_neo ops lf cls rid).
Proof. intros b rid Hb. pose proof (TT_consume b Hb). unfold next_neo, send_pull_all. tt. Qed.
Notation efr := (fun x => snd x).
Lemma muw_le : forall A b (m : M A) w a w', TT b m -> (muw w <= b)%nat -> m w = (Ok a, w') -> (muw w' <= muw w)%nat.
Proof. intros A b m w a w' H Hw E. destruct (H w Hw) as (_ & H2). rewrite E in H2. exact H2. Qed.
Lemma SD_next_neo : forall rid w a w', next_neo ops lf cls rid w = (Ok a, w') -> snd a = None -> (muw w' < muw w)%nat.
Proof.
  intros rid w a w' H Ha. unfold next_neo in H. apply bind_inv in H. destruct H as (r & w1 & H1 & H).
  assert (w1 = w). { unfold getr in H1. destruct (nth_error _ _); [|discriminate]. injection H1; auto. } subst w1.
  destruct (r_closed r); [injection H as <- <-; discriminate Ha|].
  apply bind_inv in H. destruct H as (e & w2 & H2 & H).
  assert (L2 : (muw w2 <= muw w)%nat).
  { eapply (muw_le _ (muw w)); [|apply Nat.le_refl|exact H2]. unfold send_pull_all. tt. }
  destruct e as [e|]; [injection H as <- <-; discriminate Ha|].
  apply bind_inv in H. destruct H as (u & w3 & H3 & H).
  assert (L3 : (muw w3 <= muw w2)%nat).
  { eapply (muw_le _ (muw w2)); [|apply Nat.le_refl|exact H3]. tt. }
  apply bind_inv in H. destruct H as ([v e] & w4 & H4 & H).
  destruct e as [e|]; [injection H as <- <-; discriminate Ha|].
  pose proof (SD_consume _ _ _ H4 eq_refl) as L4.
  destruct v as [v|]; [destruct v|]; try (injection H as <- <-; discriminate Ha).
  - injection H as <- <-. lia.
  - apply bind_inv in H. destruct H as (x & w5 & _ & H). injection H as <- <-; discriminate Ha.
Qed.
Lemma TT_all_rows : forall rid, TT B (all_rows ops lf cls rid).
Proof.
  intros rid. unfold all_rows. generalize (@nil (list goval)) as acc.
  assert (Hf : (B < lf)%nat) by lia. assert (Hb : (B <= B)%nat) by lia. revert Hf Hb. generalize B at 1 2 4 as b. generalize lf at 1 3 as f.
  induction f as [|f IH]; intros b Hf Hb acc; [lia|]. cbn [all_loop]. eapply TT_bindS; [apply TT_next_neo; auto|exact (SD_next_neo rid)|..].
  - intros [[row m] e0] e He. cbn in He. subst. destruct e; tt.
  - intros [[row m] e0] b' He ->. cbn in He. subst. destruct row; [|tt]. apply IH; lia.
Qed.
Lemma TT_next_pipeline : forall rid, TT B (next_pipeline ops lf cls rid).
Proof. intros. unfold next_pipeline. tt. Qed.
Local Hint Resolve TT_next_neo TT_all_rows TT_query_neo : tt.
Lemma TT_query_neo_all : forall q ps, TT B (query_neo_all ops lf cls q ps).
Proof. intros. unfold query_neo_all. tt. Qed.
Lemma TT_next_sql : forall rid n, TT B (next_sql ops lf cls rid n).
Proof. intros. unfold next_sql. tt. Qed.
Local Hint Resolve TT_query_neo_all TT_next_sql TT_next_pipeline TT_exec_neo TT_exec_pipeline TT_query_pipeline TT_begin TT_tx_finish : tt.
Hypothesis HclsB : TT B cls.
Lemma TT_step_body : forall mk o, TT B (step_body ops lf cls mk o).
Proof.
  intros mk o. destruct o; cbn [step_body];
    unfold prepare, prepare_pipeline, set_chunk_size, exec_sql, query_sql, stmt_exec_sql, stmt_query_sql, with_args, commit, rollback, guard_open; tt.
Qed.
End Inner.

Lemma TT_close : forall f b, (S b < f)%nat -> TT b (close ops f).
Proof.
  induction f as [|f IH]; intros b Hb; [lia|]. cbn [close]. apply TT_close_body; [lia|]. intros b' Hb'. apply IH. lia.
Qed.
Theorem TT_step : forall mk f o b, (S b < f)%nat -> TT b (step ops mk f o).
Proof.
  intros mk f o b Hf. apply TT_step_body; [lia| |apply TT_close; lia]. intros b' Hb'. apply TT_close; lia.
Qed.
End Term.
