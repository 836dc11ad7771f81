(** Two networks that behave in the same way give the same results in every call. *)
From Coq Require Import ZArith List Bool Lia.
From Verif Require Import GoPrims Value Errors Misc Session.
Import ListNotations.

(** ** Simulation
    [RN] relates the states of two networks whose operations give equal results in related
    states, unless the first network notices a [Bad] event (which it never forgets). *)
Section Sim.
Context {N N' : Type} (ops : netops N) (ops' : netops N').
Variable RN : N -> N' -> Prop.
Variable Bad : N -> Prop.
Hypothesis Bsend : forall n cs v, Bad n -> Bad (fst (n_send ops n cs v)).
Hypothesis Brecv : forall n, Bad n -> Bad (fst (n_recv ops n)).
Hypothesis Bclose : forall n, Bad n -> Bad (fst (n_close ops n)).
Hypothesis Bshake : forall n, Bad n -> Bad (fst (n_shake ops n)).
Hypothesis Hsend : forall n n' cs v, RN n n' -> Bad (fst (n_send ops n cs v)) \/
  snd (n_send ops n cs v) = snd (n_send ops' n' cs v) /\ RN (fst (n_send ops n cs v)) (fst (n_send ops' n' cs v)).
Hypothesis Hrecv : forall n n', RN n n' -> Bad (fst (n_recv ops n)) \/
  snd (n_recv ops n) = snd (n_recv ops' n') /\ RN (fst (n_recv ops n)) (fst (n_recv ops' n')).
Hypothesis Hclose : forall n n', RN n n' -> Bad (fst (n_close ops n)) \/
  snd (n_close ops n) = snd (n_close ops' n') /\ RN (fst (n_close ops n)) (fst (n_close ops' n')).
Hypothesis Hshake : forall n n', RN n n' -> Bad (fst (n_shake ops n)) \/
  snd (n_shake ops n) = snd (n_shake ops' n') /\ RN (fst (n_shake ops n)) (fst (n_shake ops' n')).

(** the same client objects, related networks *)
Definition RW (w : world N) (w' : world N') : Prop :=
  w_conn w = w_conn w' /\ w_stmts w = w_stmts w' /\ w_rows w = w_rows w' /\ w_txs w = w_txs w' /\ RN (w_net w) (w_net w').
Definition Sim {A} (m : M (N := N) A) (m' : M (N := N') A) : Prop :=
  (forall w, Bad (w_net w) -> Bad (w_net (snd (m w)))) /\
  (forall w w', RW w w' -> Bad (w_net (snd (m w))) \/ fst (m w) = fst (m' w') /\ RW (snd (m w)) (snd (m' w'))).

Ltac prim := split; [intros ? ?; cbn; auto|intros [? ? ? ? ?] [? ? ? ? ?] (? & ? & ? & ? & ?); cbn in *; subst; right; repeat split; auto].
Lemma Sim_ret : forall A (a : A), Sim (ret a) (ret a). Proof. intros; prim. Qed.
Lemma Sim_panic : forall A, Sim (panic (A := A)) panic. Proof. intros; prim. Qed.
Lemma Sim_nofuel : forall A, Sim (nofuel (A := A)) nofuel. Proof. intros; prim. Qed.
Lemma Sim_getc : Sim getc getc. Proof. prim. Qed.
Lemma Sim_gets : forall i, Sim (gets i) (gets i).
Proof. intros i. split; [intros w H; unfold gets; destruct (nth_error _ _); exact H|]. intros w w' H. pose proof H as (H1 & H2 & H3 & H4 & H5). right. unfold gets. rewrite H2. destruct (nth_error _ _); split; auto. Qed.
Lemma Sim_getr : forall i, Sim (getr i) (getr i).
Proof. intros i. split; [intros w H; unfold getr; destruct (nth_error _ _); exact H|]. intros w w' H. pose proof H as (H1 & H2 & H3 & H4 & H5). right. unfold getr. rewrite H3. destruct (nth_error _ _); split; auto. Qed.
Lemma Sim_gett : forall i, Sim (gett i) (gett i).
Proof. intros i. split; [intros w H; unfold gett; destruct (nth_error _ _); exact H|]. intros w w' H. pose proof H as (H1 & H2 & H3 & H4 & H5). right. unfold gett. rewrite H4. destruct (nth_error _ _); split; auto. Qed.
Lemma Sim_setc : forall c, Sim (setc c) (setc c). Proof. intros; prim. Qed.
Lemma Sim_sets : forall i s, Sim (sets i s) (sets i s). Proof. intros; prim. Qed.
Lemma Sim_setr : forall i s, Sim (setr i s) (setr i s). Proof. intros; prim. Qed.
Lemma Sim_sett : forall i s, Sim (sett i s) (sett i s). Proof. intros; prim. Qed.
Lemma Sim_news : forall s, Sim (news s) (news s). Proof. intros; prim. Qed.
Lemma Sim_newr : forall s, Sim (newr s) (newr s). Proof. intros; prim. Qed.
Lemma Sim_newt : forall s, Sim (newt s) (newt s). Proof. intros; prim. Qed.
Lemma Sim_bind : forall A C (m : M A) (m' : M A) (k : A -> M C) (k' : A -> M C), Sim m m' -> (forall a, Sim (k a) (k' a)) -> Sim (bind m k) (bind m' k').
Proof.
  intros A C m m' k k' (Hb & Hm) Hk. split.
  - intros w H. unfold bind. specialize (Hb w H). destruct (m w) as [[a| |] w1]; cbn [snd] in *; auto. apply (Hk a). exact Hb.
  - intros w w' H. unfold bind. destruct (Hm w w' H) as [Hx|(E & HR)].
    + left. destruct (m w) as [[a| |] w1]; cbn [snd] in *; auto. apply (Hk a). exact Hx.
    + destruct (m w) as [[a| |] w1], (m' w') as [r1 w1']; cbn [fst snd] in *; subst r1; cbn [fst snd]; auto. apply (Hk a). exact HR.
Qed.
Lemma Sim_defer : forall A C (m : M A) (m' : M A) (d : M C) (d' : M C), Sim m m' -> Sim d d' -> Sim (with_defer m d) (with_defer m' d').
Proof.
  intros A C m m' d d' (Hb & Hm) (Hc & Hd). split.
  - intros w H. unfold with_defer. specialize (Hb w H). destruct (m w) as [[a| |] w1]; cbn [snd] in *; specialize (Hc w1 Hb); destruct (d w1) as [[b| |] w2]; exact Hc.
  - intros w w' H. unfold with_defer. destruct (Hm w w' H) as [Hx|(E & HR)].
    + left. destruct (m w) as [[a| |] w1]; cbn [snd] in *; specialize (Hc w1 Hx); destruct (d w1) as [[b| |] w2]; exact Hc.
    + destruct (m w) as [o w1], (m' w') as [o1 w1']; cbn [fst snd] in *; subst o1. specialize (Hd w1 w1' HR).
      destruct o as [a| |]; destruct (d w1) as [[b| |] w2]; destruct (d' w1') as [o2 w2']; cbn [fst snd] in *; (destruct Hd as [Hx|(<- & HR2)]; [left; exact Hx|right; cbn; auto]).
Qed.
Lemma Sim_modc : forall f, Sim (modc f) (modc f). Proof. intros. apply Sim_bind; auto using Sim_getc, Sim_setc. Qed.
Lemma Sim_mods : forall i f, Sim (mods i f) (mods i f). Proof. intros. apply Sim_bind; auto using Sim_gets, Sim_sets. Qed.
Lemma Sim_modr : forall i f, Sim (modr i f) (modr i f). Proof. intros. apply Sim_bind; auto using Sim_getr, Sim_setr. Qed.
Lemma Sim_need : forall i, Sim (need_conn i) (need_conn i).
Proof. intros. apply Sim_bind; [apply Sim_gets|]. intros s. destruct (s_conn s); [apply Sim_ret|apply Sim_panic]. Qed.
Lemma Sim_encode : forall v, Sim (encode_msg ops v) (encode_msg ops' v).
Proof.
  intros v. split.
  - intros w H. unfold encode_msg, bind, getc, getn, setn, modc, setc, ret. cbn. pose proof (Bsend _ (c_cs (w_conn w)) v H) as Hb. destruct (n_send ops _ _ _) as [n' []]; exact Hb.
  - intros [c s r t n] [c' s' r' t' n'] (H1 & H2 & H3 & H4 & H5). cbn in H1, H2, H3, H4, H5. subst.
    unfold encode_msg, bind, getc, getn, setn, modc, setc, ret. cbn. pose proof (Hsend n n' (c_cs c') v H5) as Hb.
    destruct (n_send ops n _ _) as [n1 x], (n_send ops' n' _ _) as [n1' x']. cbn in Hb. destruct Hb as [Hb|(<- & HR)]; [left; destruct x; exact Hb|right]. destruct x; cbn; repeat split; auto.
Qed.
Lemma Sim_decode : Sim (decode_msg ops) (decode_msg ops').
Proof.
  split.
  - intros w H. unfold decode_msg, bind, getc, getn, setn, modc, setc, ret, panic. cbn. pose proof (Brecv _ H) as Hb. destruct (n_recv ops _) as [n' []]; exact Hb.
  - intros [c s r t n] [c' s' r' t' n'] (H1 & H2 & H3 & H4 & H5). cbn in H1, H2, H3, H4, H5. subst.
    unfold decode_msg, bind, getc, getn, setn, modc, setc, ret, panic. cbn. pose proof (Hrecv n n' H5) as Hb.
    destruct (n_recv ops n) as [n1 x], (n_recv ops' n') as [n1' x']. cbn in Hb. destruct Hb as [Hb|(<- & HR)]; [left; destruct x; exact Hb|right]. destruct x; cbn; repeat split; auto.
Qed.
(** conn.go:378-398 and 292-296 *)
Lemma Sim_netclose : forall A (k k' : bool -> M A), (forall b, Sim (k b) (k' b)) ->
  Sim (n <- getn ;; let '(n', b) := n_close ops n in setn n' ;; k b) (n <- getn ;; let '(n', b) := n_close ops' n in setn n' ;; k' b).
Proof.
  intros A k k' Hk. split.
  - intros w H. unfold bind, getn, setn. pose proof (Bclose _ H) as Hb. destruct (n_close ops (w_net w)) as [n1 b]. apply (Hk b). exact Hb.
  - intros [c s r t n] [c' s' r' t' n'] (H1 & H2 & H3 & H4 & H5). cbn in H1, H2, H3, H4, H5. subst. unfold bind, getn, setn. cbn [w_net]. pose proof (Hclose n n' H5) as Hb.
    destruct (n_close ops n) as [n1 x], (n_close ops' n') as [n1' x']. cbn in Hb. destruct Hb as [Hb|(<- & HR)]; [left; apply (Hk x); exact Hb|]. apply (Hk x). repeat split; auto.
Qed.
Lemma Sim_netshake : forall A (k k' : bool -> option gerr -> M A), (forall b e, Sim (k b e) (k' b e)) ->
  Sim (n <- getn ;; let '(n', (b, e)) := n_shake ops n in setn n' ;; k b e) (n <- getn ;; let '(n', (b, e)) := n_shake ops' n in setn n' ;; k' b e).
Proof.
  intros A k k' Hk. split.
  - intros w H. unfold bind, getn, setn. pose proof (Bshake _ H) as Hb. destruct (n_shake ops (w_net w)) as [n1 [b e]]. apply (Hk b e). exact Hb.
  - intros [c s r t n] [c' s' r' t' n'] (H1 & H2 & H3 & H4 & H5). cbn in H1, H2, H3, H4, H5. subst. unfold bind, getn, setn. cbn [w_net]. pose proof (Hshake n n' H5) as Hb.
    destruct (n_shake ops n) as [n1 [x e]], (n_shake ops' n') as [n1' [x' e']]. cbn in Hb. destruct Hb as [Hb|(Ex & HR)]; [left; apply (Hk x e); exact Hb|]. injection Ex as -> ->. apply (Hk x' e'). repeat split; auto.
Qed.

Section Inner.
Variables (lf : nat) (cls : M (N := N) (option gerr)) (cls' : M (N := N') (option gerr)).
Hypothesis Hcls : Sim cls cls'.

Ltac sim1 := match goal with
  | |- Sim (ret _) (ret _) => apply Sim_ret
  | |- Sim panic panic => apply Sim_panic
  | |- Sim nofuel nofuel => apply Sim_nofuel
  | |- Sim getc getc => apply Sim_getc
  | |- Sim (gets _) _ => apply Sim_gets
  | |- Sim (getr _) _ => apply Sim_getr
  | |- Sim (gett _) _ => apply Sim_gett
  | |- Sim (sett _ _) _ => apply Sim_sett
  | |- Sim (news _) _ => apply Sim_news
  | |- Sim (newr _) _ => apply Sim_newr
  | |- Sim (newt _) _ => apply Sim_newt
  | |- Sim (modc _) _ => apply Sim_modc
  | |- Sim (mods _ _) _ => apply Sim_mods
  | |- Sim (modr _ _) _ => apply Sim_modr
  | |- Sim (need_conn _) _ => apply Sim_need
  | |- Sim (encode_msg _ _) _ => apply Sim_encode
  | |- Sim (decode_msg _) _ => apply Sim_decode
  | |- Sim (with_defer _ _) (with_defer _ _) => apply Sim_defer
  | |- Sim (bind getn _) (bind getn _) => first [apply Sim_netclose; intro | apply Sim_netshake; intros ? ?]
  | |- Sim (bind _ _) (bind _ _) => apply Sim_bind; [|intros ?]
  | |- Sim (match ?x with _ => _ end) _ => destruct x
  | |- Sim _ _ => solve [auto]
  end.
Ltac sim := repeat sim1.

Lemma Sim_send_run : forall q ps, Sim (send_run ops q ps) (send_run ops' q ps).
Proof. intros. unfold send_run. sim. Qed.
Lemma Sim_send_pull : Sim (send_pull_all ops) (send_pull_all ops').
Proof. unfold send_pull_all. sim. Qed.
Lemma Sim_run_pull : forall q ps, Sim (send_run_pull_all ops q ps) (send_run_pull_all ops' q ps).
Proof. pose proof Sim_send_run. pose proof Sim_send_pull. intros. unfold send_run_pull_all. sim. Qed.
Lemma Sim_send_queries : forall l qs pss, Sim (send_queries ops l qs pss) (send_queries ops' l qs pss).
Proof. pose proof Sim_run_pull. intros l. induction qs as [|q qs IH]; intros [|ps pss]; cbn [send_queries]; sim. Qed.
Lemma Sim_reset_loop : forall f, Sim (reset_loop ops cls f) (reset_loop ops' cls' f).
Proof. pose proof Sim_send_run; pose proof Sim_send_pull; pose proof Sim_run_pull; pose proof Sim_send_queries. induction f as [|f IH]; cbn [reset_loop]; sim. Qed.
Lemma Sim_reset : Sim (reset ops lf cls) (reset ops' lf cls').
Proof. pose proof Sim_send_run; pose proof Sim_send_pull; pose proof Sim_run_pull; pose proof Sim_send_queries. unfold reset. pose proof Sim_reset_loop. sim. Qed.
Lemma Sim_ack_loop : forall f, Sim (ack_loop ops lf cls f) (ack_loop ops' lf cls' f).
Proof. pose proof Sim_send_run; pose proof Sim_send_pull; pose proof Sim_run_pull; pose proof Sim_send_queries. pose proof Sim_reset. induction f as [|f IH]; cbn [ack_loop]; sim. Qed.
Lemma Sim_ack : Sim (ack_failure ops lf cls) (ack_failure ops' lf cls').
Proof. pose proof Sim_send_run; pose proof Sim_send_pull; pose proof Sim_run_pull; pose proof Sim_send_queries. unfold ack_failure. pose proof Sim_ack_loop. sim. Qed.
Lemma Sim_consume : Sim (consume ops lf cls) (consume ops' lf cls').
Proof. pose proof Sim_send_run; pose proof Sim_send_pull; pose proof Sim_run_pull; pose proof Sim_send_queries. unfold consume. pose proof Sim_ack. sim. Qed.
Lemma Sim_consume_all_loop : forall f, Sim (consume_all_loop ops lf cls f) (consume_all_loop ops' lf cls' f).
Proof. pose proof Sim_send_run; pose proof Sim_send_pull; pose proof Sim_run_pull; pose proof Sim_send_queries. pose proof Sim_consume. induction f as [|f IH]; cbn [consume_all_loop]; sim. Qed.
Lemma Sim_consume_all : Sim (consume_all ops lf cls) (consume_all ops' lf cls').
Proof. apply Sim_consume_all_loop. Qed.
Lemma Sim_consume_all_n : forall n, Sim (consume_all_n ops lf cls n) (consume_all_n ops' lf cls' n).
Proof. pose proof Sim_send_run; pose proof Sim_send_pull; pose proof Sim_run_pull; pose proof Sim_send_queries. pose proof Sim_consume_all. induction n as [|n IH]; cbn [consume_all_n]; sim. Qed.
Lemma Sim_consume_all_multiple : forall n, Sim (consume_all_multiple ops lf cls n) (consume_all_multiple ops' lf cls' n).
Proof. pose proof Sim_send_run; pose proof Sim_send_pull; pose proof Sim_run_pull; pose proof Sim_send_queries. pose proof Sim_consume_all_n. intros n. unfold consume_all_multiple. sim. Qed.
Lemma Sim_send_run_consume : forall q ps, Sim (send_run_consume ops lf cls q ps) (send_run_consume ops' lf cls' q ps).
Proof. pose proof Sim_send_run; pose proof Sim_send_pull; pose proof Sim_run_pull; pose proof Sim_send_queries. pose proof Sim_consume. intros. unfold send_run_consume. sim. Qed.
Lemma Sim_run_pull_run : forall q ps, Sim (send_run_pull_all_consume_run ops lf cls q ps) (send_run_pull_all_consume_run ops' lf cls' q ps).
Proof. pose proof Sim_send_run; pose proof Sim_send_pull; pose proof Sim_run_pull; pose proof Sim_send_queries. pose proof Sim_consume. intros. unfold send_run_pull_all_consume_run. sim. Qed.
Lemma Sim_run_pull_single : forall q ps, Sim (send_run_pull_all_consume_single ops lf cls q ps) (send_run_pull_all_consume_single ops' lf cls' q ps).
Proof. pose proof Sim_send_run; pose proof Sim_send_pull; pose proof Sim_run_pull; pose proof Sim_send_queries. pose proof Sim_consume. intros. unfold send_run_pull_all_consume_single. sim. Qed.
Lemma Sim_run_pull_all : forall q ps, Sim (send_run_pull_all_consume_all ops lf cls q ps) (send_run_pull_all_consume_all ops' lf cls' q ps).
Proof. pose proof Sim_send_run; pose proof Sim_send_pull; pose proof Sim_run_pull; pose proof Sim_send_queries. pose proof Sim_consume. pose proof Sim_consume_all. intros. unfold send_run_pull_all_consume_all. sim. Qed.
Lemma Sim_discard : Sim (send_discard_all_consume ops lf cls) (send_discard_all_consume ops' lf cls').
Proof. pose proof Sim_send_run; pose proof Sim_send_pull; pose proof Sim_run_pull; pose proof Sim_send_queries. pose proof Sim_consume. unfold send_discard_all_consume. sim. Qed.
Lemma Sim_rows_close_body : forall r, Sim (rows_close_body ops lf cls r) (rows_close_body ops' lf cls' r).
Proof. pose proof Sim_send_run; pose proof Sim_send_pull; pose proof Sim_run_pull; pose proof Sim_send_queries. pose proof Sim_discard. pose proof Sim_consume_all_multiple. intros. unfold rows_close_body. sim. Qed.
Lemma Sim_stmt_close : forall s, Sim (stmt_close ops lf cls s) (stmt_close ops' lf cls' s).
Proof. pose proof Sim_send_run; pose proof Sim_send_pull; pose proof Sim_run_pull; pose proof Sim_send_queries. pose proof Sim_rows_close_body. intros. unfold stmt_close. sim. Qed.
Lemma Sim_rows_close : forall s, Sim (rows_close ops lf cls s) (rows_close ops' lf cls' s).
Proof. pose proof Sim_send_run; pose proof Sim_send_pull; pose proof Sim_run_pull; pose proof Sim_send_queries. pose proof Sim_rows_close_body. pose proof Sim_stmt_close. intros. unfold rows_close. sim. Qed.
Lemma Sim_tx_finish : forall q l1 l2 l3 l4 l5 t, Sim (tx_finish ops lf cls q l1 l2 l3 l4 l5 t) (tx_finish ops' lf cls' q l1 l2 l3 l4 l5 t).
Proof. pose proof Sim_send_run; pose proof Sim_send_pull; pose proof Sim_run_pull; pose proof Sim_send_queries. pose proof Sim_stmt_close. pose proof Sim_run_pull_single. intros. unfold tx_finish. sim. Qed.
Lemma Sim_close_body : Sim (close_body ops lf cls) (close_body ops' lf cls').
Proof. pose proof Sim_send_run; pose proof Sim_send_pull; pose proof Sim_run_pull; pose proof Sim_send_queries. pose proof Sim_stmt_close. pose proof Sim_tx_finish. unfold close_body, rollback. sim. Qed.
Lemma Sim_initialize : forall u p, Sim (initialize ops lf cls u p) (initialize ops' lf cls' u p).
Proof. pose proof Sim_send_run; pose proof Sim_send_pull; pose proof Sim_run_pull; pose proof Sim_send_queries. pose proof Sim_consume. intros. unfold initialize. sim. Qed.
Lemma Sim_begin : Sim (begin_tx ops lf cls) (begin_tx ops' lf cls').
Proof. pose proof Sim_send_run; pose proof Sim_send_pull; pose proof Sim_run_pull; pose proof Sim_send_queries. pose proof Sim_run_pull_single. unfold begin_tx, guard_open. sim. Qed.
Lemma Sim_stmt_exec : forall s ps, Sim (stmt_exec ops lf cls s ps) (stmt_exec ops' lf cls' s ps).
Proof. pose proof Sim_send_run; pose proof Sim_send_pull; pose proof Sim_run_pull; pose proof Sim_send_queries. pose proof Sim_run_pull_all. intros. unfold stmt_exec. sim. Qed.
Lemma Sim_exec_results : forall qs, Sim (exec_results ops lf cls qs) (exec_results ops' lf cls' qs).
Proof. pose proof Sim_send_run; pose proof Sim_send_pull; pose proof Sim_run_pull; pose proof Sim_send_queries. pose proof Sim_consume. pose proof Sim_consume_all. induction qs as [|q qs IH]; cbn [exec_results]; sim. Qed.
Lemma Sim_stmt_exec_pipeline : forall s ps, Sim (stmt_exec_pipeline ops lf cls s ps) (stmt_exec_pipeline ops' lf cls' s ps).
Proof. pose proof Sim_send_run; pose proof Sim_send_pull; pose proof Sim_run_pull; pose proof Sim_send_queries. pose proof Sim_exec_results. intros. unfold stmt_exec_pipeline. sim. Qed.
Lemma Sim_stmt_query : forall s ps, Sim (stmt_query ops lf cls s ps) (stmt_query ops' lf cls' s ps).
Proof. pose proof Sim_send_run; pose proof Sim_send_pull; pose proof Sim_run_pull; pose proof Sim_send_queries. pose proof Sim_send_run_consume. intros. unfold stmt_query. sim. Qed.
Lemma Sim_stmt_query_pipeline : forall s ps, Sim (stmt_query_pipeline ops lf cls s ps) (stmt_query_pipeline ops' lf cls' s ps).
Proof. pose proof Sim_send_run; pose proof Sim_send_pull; pose proof Sim_run_pull; pose proof Sim_send_queries. pose proof Sim_consume. intros. unfold stmt_query_pipeline. sim. Qed.
Lemma Sim_close_cur : Sim (close_cur_stmt ops lf cls) (close_cur_stmt ops' lf cls').
Proof. pose proof Sim_send_run; pose proof Sim_send_pull; pose proof Sim_run_pull; pose proof Sim_send_queries. pose proof Sim_stmt_close. unfold close_cur_stmt. sim. Qed.
Lemma Sim_query_neo : forall q ps, Sim (query_neo ops lf cls q ps) (query_neo ops' lf cls' q ps).
Proof. pose proof Sim_send_run; pose proof Sim_send_pull; pose proof Sim_run_pull; pose proof Sim_send_queries. pose proof Sim_close_cur. pose proof Sim_run_pull_run. intros. unfold query_neo, guard_open. sim. Qed.
Lemma Sim_query_pipeline : forall q ps, Sim (query_pipeline ops lf cls q ps) (query_pipeline ops' lf cls' q ps).
Proof. pose proof Sim_send_run; pose proof Sim_send_pull; pose proof Sim_run_pull; pose proof Sim_send_queries. pose proof Sim_stmt_query_pipeline. intros. unfold query_pipeline, guard_open. sim. Qed.
Lemma Sim_exec_neo : forall q ps, Sim (exec_neo ops lf cls q ps) (exec_neo ops' lf cls' q ps).
Proof. pose proof Sim_send_run; pose proof Sim_send_pull; pose proof Sim_run_pull; pose proof Sim_send_queries. pose proof Sim_stmt_exec. pose proof Sim_stmt_close. intros. unfold exec_neo, guard_open. sim. Qed.
Lemma Sim_exec_pipeline : forall q ps, Sim (exec_pipeline ops lf cls q ps) (exec_pipeline ops' lf cls' q ps).
Proof. pose proof Sim_send_run; pose proof Sim_send_pull; pose proof Sim_run_pull; pose proof Sim_send_queries. pose proof Sim_stmt_exec_pipeline. pose proof Sim_stmt_close. intros. unfold exec_pipeline, guard_open. sim. Qed.
Lemma Sim_next_neo : forall r, Sim (next_neo ops lf cls r) (next_neo ops' lf cls' r).
Proof. pose proof Sim_send_run; pose proof Sim_send_pull; pose proof Sim_run_pull; pose proof Sim_send_queries. pose proof Sim_consume. intros. unfold next_neo. sim. Qed.
Lemma Sim_all_loop : forall f r acc, Sim (all_loop ops lf cls f r acc) (all_loop ops' lf cls' f r acc).
Proof. pose proof Sim_send_run; pose proof Sim_send_pull; pose proof Sim_run_pull; pose proof Sim_send_queries. pose proof Sim_next_neo. induction f as [|f IH]; intros r acc; cbn [all_loop]; sim. Qed.
Lemma Sim_all : forall r, Sim (all_rows ops lf cls r) (all_rows ops' lf cls' r).
Proof. pose proof Sim_send_run; pose proof Sim_send_pull; pose proof Sim_run_pull; pose proof Sim_send_queries. intros. apply Sim_all_loop. Qed.
Lemma Sim_query_neo_all : forall q ps, Sim (query_neo_all ops lf cls q ps) (query_neo_all ops' lf cls' q ps).
Proof. pose proof Sim_send_run; pose proof Sim_send_pull; pose proof Sim_run_pull; pose proof Sim_send_queries. pose proof Sim_query_neo. pose proof Sim_all. pose proof Sim_rows_close. intros. unfold query_neo_all. sim. Qed.
Lemma Sim_next_pipeline : forall r, Sim (next_pipeline ops lf cls r) (next_pipeline ops' lf cls' r).
Proof. pose proof Sim_send_run; pose proof Sim_send_pull; pose proof Sim_run_pull; pose proof Sim_send_queries. pose proof Sim_consume. intros. unfold next_pipeline. sim. Qed.
Lemma Sim_step_body : forall mk o, Sim (step_body ops lf cls mk o) (step_body ops' lf cls' mk o).
Proof.
  pose proof Sim_send_run; pose proof Sim_send_pull; pose proof Sim_run_pull; pose proof Sim_send_queries. pose proof Sim_begin. pose proof Sim_exec_neo. pose proof Sim_exec_pipeline. pose proof Sim_query_neo. pose proof Sim_query_neo_all. pose proof Sim_query_pipeline.
  pose proof Sim_stmt_exec. pose proof Sim_stmt_exec_pipeline. pose proof Sim_stmt_query. pose proof Sim_stmt_query_pipeline. pose proof Sim_stmt_close.
  pose proof Sim_rows_close. pose proof Sim_next_neo. pose proof Sim_all. pose proof Sim_next_pipeline. pose proof Sim_tx_finish.
  intros mk o. destruct o; cbn [step_body]; unfold prepare, prepare_pipeline, exec_sql, query_sql, stmt_exec_sql, stmt_query_sql, with_args, set_chunk_size, next_sql, commit, rollback, guard_open; sim.
Qed.
End Inner.

Lemma Sim_close : forall f, Sim (close ops f) (close ops' f).
Proof. induction f as [|f IH]; cbn [close]; [apply Sim_nofuel|]. apply Sim_close_body. exact IH. Qed.
Theorem Sim_step : forall mk f o, Sim (step ops mk f o) (step ops' mk f o).
Proof. intros. apply Sim_step_body. apply Sim_close. Qed.
Theorem Sim_open : forall f u p, Sim (initialize ops f (close ops f) u p) (initialize ops' f (close ops' f) u p).
Proof. intros. apply Sim_initialize. apply Sim_close. Qed.
End Sim.
