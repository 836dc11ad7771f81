(** Recovery from a failure in another way: a server that refuses ACK_FAILURE but accepts RESET
    is, to the user of the connection, the same as one that accepts ACK_FAILURE. *)
From Coq Require Import ZArith List Bool Lia.
From Verif Require Import GoPrims Value Errors Misc Session SessionGen SessionRaw ServerSpec SessionBolt.
Import ListNotations.

(** ** Simulation of everything that sends requests and consumes responses, if the two networks agree on that *)
Section Sim.
Context {N N' : Type} (ops : netops N) (ops' : netops N').
Variable RN : N -> N' -> Prop.
(** the same client objects, related networks *)
Definition RW (w : world N) (w' : world N') : Prop :=
  w_conn w = w_conn w' /\ w_stmts w = w_stmts w' /\ w_rows w = w_rows w' /\ w_txs w = w_txs w' /\ RN (w_net w) (w_net w').
Definition Sim {A} (m : M (N := N) A) (m' : M (N := N') A) : Prop :=
  forall w w', RW w w' -> fst (m w) = fst (m' w') /\ (fst (m w) <> NoFuel -> RW (snd (m w)) (snd (m' w'))).
Hypothesis Hclose : forall n n', RN n n' ->
  snd (n_close ops n) = snd (n_close ops' n') /\ RN (fst (n_close ops n)) (fst (n_close ops' n')).

Ltac prim := intros [? ? ? ? ?] [? ? ? ? ?] (? & ? & ? & ? & ?); cbn in *; subst; repeat split; auto.
Lemma Sim_ret : forall A (a : A), Sim (ret a) (ret a). Proof. intros; prim. Qed.
Lemma Sim_panic : forall A, Sim (panic (A := A)) panic. Proof. intros; prim. Qed.
Lemma Sim_nofuel : forall A, Sim (nofuel (A := A)) nofuel. Proof. intros; prim. Qed.
Lemma Sim_getc : Sim getc getc. Proof. prim. Qed.
Lemma Sim_gets : forall i, Sim (gets i) (gets i).
Proof. intros i. intros w w' H. pose proof H as (H1 & H2 & H3 & H4 & H5). unfold gets. rewrite H2. destruct (nth_error _ _); split; auto. Qed.
Lemma Sim_getr : forall i, Sim (getr i) (getr i).
Proof. intros i. intros w w' H. pose proof H as (H1 & H2 & H3 & H4 & H5). unfold getr. rewrite H3. destruct (nth_error _ _); split; auto. Qed.
Lemma Sim_gett : forall i, Sim (gett i) (gett i).
Proof. intros i. intros w w' H. pose proof H as (H1 & H2 & H3 & H4 & H5). unfold gett. rewrite H4. destruct (nth_error _ _); split; auto. Qed.
Lemma Sim_setc : forall c, Sim (setc c) (setc c). Proof. intros; prim. Qed.
Lemma Sim_sets : forall i s, Sim (sets i s) (sets i s). Proof. intros; prim. Qed.
Lemma Sim_setr : forall i s, Sim (setr i s) (setr i s). Proof. intros; prim. Qed.
Lemma Sim_sett : forall i s, Sim (sett i s) (sett i s). Proof. intros; prim. Qed.
Lemma Sim_news : forall s, Sim (news s) (news s). Proof. intros; prim. Qed.
Lemma Sim_newr : forall s, Sim (newr s) (newr s). Proof. intros; prim. Qed.
Lemma Sim_newt : forall s, Sim (newt s) (newt s). Proof. intros; prim. Qed.
Lemma Sim_bind : forall A C (m : M A) (m' : M A) (k : A -> M C) (k' : A -> M C), Sim m m' -> (forall a, Sim (k a) (k' a)) -> Sim (bind m k) (bind m' k').
Proof.
  intros A C m m' k k' Hm Hk w w' H. unfold bind. destruct (Hm w w' H) as (E & HR).
  destruct (m w) as [[a| |] w1], (m' w') as [r1 w1']; cbn [fst snd] in *; subst r1; cbn [fst snd].
  - apply (Hk a). apply HR. discriminate.
  - split; auto. intros _. apply HR. discriminate.
  - split; [reflexivity|intros X; contradiction X; reflexivity].
Qed.
Lemma Sim_defer : forall A C (m : M A) (m' : M A) (d : M C) (d' : M C), Sim m m' -> Sim d d' -> Sim (with_defer m d) (with_defer m' d').
Proof.
  intros A C m m' d d' Hm Hd w w' H. unfold with_defer. destruct (Hm w w' H) as (E & HR).
  destruct (m w) as [o w1], (m' w') as [o1 w1']; cbn [fst snd] in *; subst o1.
  destruct o as [a| |]; [..|cbn; split; auto; intros X; contradiction X; reflexivity]; (specialize (Hd w1 w1' (HR ltac:(discriminate)));
    destruct (d w1) as [[b| |] w2]; destruct (d' w1') as [o2 w2']; cbn [fst snd] in *; destruct Hd as (<- & HR2); cbn;
    (split; [reflexivity|intros X; first [contradiction X; reflexivity|apply HR2; discriminate]])).
Qed.
Lemma Sim_modc : forall f, Sim (modc f) (modc f). Proof. intros. apply Sim_bind; auto using Sim_getc, Sim_setc. Qed.
Lemma Sim_mods : forall i f, Sim (mods i f) (mods i f). Proof. intros. apply Sim_bind; auto using Sim_gets, Sim_sets. Qed.
Lemma Sim_modr : forall i f, Sim (modr i f) (modr i f). Proof. intros. apply Sim_bind; auto using Sim_getr, Sim_setr. Qed.
Lemma Sim_need : forall i, Sim (need_conn i) (need_conn i).
Proof. intros. apply Sim_bind; [apply Sim_gets|]. intros s. destruct (s_conn s); [apply Sim_ret|apply Sim_panic]. Qed.
Lemma Sim_netclose : forall A (k k' : bool -> M A), (forall b, Sim (k b) (k' b)) ->
  Sim (n <- getn ;; let '(n', b) := n_close ops n in setn n' ;; k b) (n <- getn ;; let '(n', b) := n_close ops' n in setn n' ;; k' b).
Proof.
  intros A k k' Hk [c s r t n] [c' s' r' t' n'] (H1 & H2 & H3 & H4 & H5). cbn in H1, H2, H3, H4, H5. subst. unfold bind, getn, setn. cbn [w_net]. pose proof (Hclose n n' H5) as Hb.
  destruct (n_close ops n) as [n1 x], (n_close ops' n') as [n1' x']. cbn in Hb. destruct Hb as (<- & HR). apply (Hk x). repeat split; auto.
Qed.
Definition Requests : Prop := forall v, request v -> Sim (encode_msg ops v) (encode_msg ops' v).
Section Inner.
Variables (lf : nat) (cls : M (N := N) (option gerr)) (cls' : M (N := N') (option gerr)).
Hypothesis Hcls : Sim cls cls'.
Hypothesis Hreq : Requests.
Hypothesis Hcons : Sim (consume ops lf cls) (consume ops' lf cls').

Ltac sim1 := match goal with
  | |- Sim (ret _) (ret _) => apply Sim_ret
  | |- Sim panic panic => apply Sim_panic
  | |- Sim nofuel nofuel => apply Sim_nofuel
  | |- Sim getc getc => apply Sim_getc
  | |- Sim (gets _) _ => apply Sim_gets
  | |- Sim (getr _) _ => apply Sim_getr
  | |- Sim (gett _) _ => apply Sim_gett
  | |- Sim (sett _ _) _ => apply Sim_sett
  | |- Sim (news _) _ => apply Sim_news
  | |- Sim (newr _) _ => apply Sim_newr
  | |- Sim (newt _) _ => apply Sim_newt
  | |- Sim (modc _) _ => apply Sim_modc
  | |- Sim (mods _ _) _ => apply Sim_mods
  | |- Sim (modr _ _) _ => apply Sim_modr
  | |- Sim (need_conn _) _ => apply Sim_need
  | |- Sim (encode_msg _ _) _ => apply Hreq; exact I
  | |- Sim (with_defer _ _) (with_defer _ _) => apply Sim_defer
  | |- Sim (bind getn _) (bind getn _) => apply Sim_netclose; intro
  | |- Sim (bind _ _) (bind _ _) => apply Sim_bind; [|intros ?]
  | |- Sim (match ?x with _ => _ end) _ => destruct x
  | |- Sim _ _ => solve [auto]
  end.
Ltac sim := repeat sim1.

Lemma Sim_send_run : forall q ps, Sim (send_run ops q ps) (send_run ops' q ps).
Proof. intros. unfold send_run. sim. Qed.
Lemma Sim_send_pull : Sim (send_pull_all ops) (send_pull_all ops').
Proof. unfold send_pull_all. sim. Qed.
Lemma Sim_run_pull : forall q ps, Sim (send_run_pull_all ops q ps) (send_run_pull_all ops' q ps).
Proof. pose proof Sim_send_run. pose proof Sim_send_pull. intros. unfold send_run_pull_all. sim. Qed.
Lemma Sim_send_queries : forall l qs pss, Sim (send_queries ops l qs pss) (send_queries ops' l qs pss).
Proof. pose proof Sim_run_pull. intros l. induction qs as [|q qs IH]; intros [|ps pss]; cbn [send_queries]; sim. Qed.
Lemma Sim_consume_all_loop : forall f, Sim (consume_all_loop ops lf cls f) (consume_all_loop ops' lf cls' f).
Proof. pose proof Sim_send_run; pose proof Sim_send_pull; pose proof Sim_run_pull; pose proof Sim_send_queries. induction f as [|f IH]; cbn [consume_all_loop]; sim. Qed.
Lemma Sim_consume_all : Sim (consume_all ops lf cls) (consume_all ops' lf cls').
Proof. apply Sim_consume_all_loop. Qed.
Lemma Sim_consume_all_n : forall n, Sim (consume_all_n ops lf cls n) (consume_all_n ops' lf cls' n).
Proof. pose proof Sim_send_run; pose proof Sim_send_pull; pose proof Sim_run_pull; pose proof Sim_send_queries. pose proof Sim_consume_all. induction n as [|n IH]; cbn [consume_all_n]; sim. Qed.
Lemma Sim_consume_all_multiple : forall n, Sim (consume_all_multiple ops lf cls n) (consume_all_multiple ops' lf cls' n).
Proof. pose proof Sim_send_run; pose proof Sim_send_pull; pose proof Sim_run_pull; pose proof Sim_send_queries. pose proof Sim_consume_all_n. intros n. unfold consume_all_multiple. sim. Qed.
Lemma Sim_send_run_consume : forall q ps, Sim (send_run_consume ops lf cls q ps) (send_run_consume ops' lf cls' q ps).
Proof. pose proof Sim_send_run; pose proof Sim_send_pull; pose proof Sim_run_pull; pose proof Sim_send_queries. intros. unfold send_run_consume. sim. Qed.
Lemma Sim_run_pull_run : forall q ps, Sim (send_run_pull_all_consume_run ops lf cls q ps) (send_run_pull_all_consume_run ops' lf cls' q ps).
Proof. pose proof Sim_send_run; pose proof Sim_send_pull; pose proof Sim_run_pull; pose proof Sim_send_queries. intros. unfold send_run_pull_all_consume_run. sim. Qed.
Lemma Sim_run_pull_single : forall q ps, Sim (send_run_pull_all_consume_single ops lf cls q ps) (send_run_pull_all_consume_single ops' lf cls' q ps).
Proof. pose proof Sim_send_run; pose proof Sim_send_pull; pose proof Sim_run_pull; pose proof Sim_send_queries. intros. unfold send_run_pull_all_consume_single. sim. Qed.
Lemma Sim_run_pull_all : forall q ps, Sim (send_run_pull_all_consume_all ops lf cls q ps) (send_run_pull_all_consume_all ops' lf cls' q ps).
Proof. pose proof Sim_send_run; pose proof Sim_send_pull; pose proof Sim_run_pull; pose proof Sim_send_queries. pose proof Sim_consume_all. intros. unfold send_run_pull_all_consume_all. sim. Qed.
Lemma Sim_discard : Sim (send_discard_all_consume ops lf cls) (send_discard_all_consume ops' lf cls').
Proof. pose proof Sim_send_run; pose proof Sim_send_pull; pose proof Sim_run_pull; pose proof Sim_send_queries. unfold send_discard_all_consume. sim. Qed.
Lemma Sim_rows_close_body : forall r, Sim (rows_close_body ops lf cls r) (rows_close_body ops' lf cls' r).
Proof. pose proof Sim_send_run; pose proof Sim_send_pull; pose proof Sim_run_pull; pose proof Sim_send_queries. pose proof Sim_discard. pose proof Sim_consume_all_multiple. intros. unfold rows_close_body. sim. Qed.
Lemma Sim_stmt_close : forall s, Sim (stmt_close ops lf cls s) (stmt_close ops' lf cls' s).
Proof. pose proof Sim_send_run; pose proof Sim_send_pull; pose proof Sim_run_pull; pose proof Sim_send_queries. pose proof Sim_rows_close_body. intros. unfold stmt_close. sim. Qed.
Lemma Sim_rows_close : forall s, Sim (rows_close ops lf cls s) (rows_close ops' lf cls' s).
Proof. pose proof Sim_send_run; pose proof Sim_send_pull; pose proof Sim_run_pull; pose proof Sim_send_queries. pose proof Sim_rows_close_body. pose proof Sim_stmt_close. intros. unfold rows_close. sim. Qed.
Lemma Sim_tx_finish : forall q l1 l2 l3 l4 l5 t, Sim (tx_finish ops lf cls q l1 l2 l3 l4 l5 t) (tx_finish ops' lf cls' q l1 l2 l3 l4 l5 t).
Proof. pose proof Sim_send_run; pose proof Sim_send_pull; pose proof Sim_run_pull; pose proof Sim_send_queries. pose proof Sim_stmt_close. pose proof Sim_run_pull_single. intros. unfold tx_finish. sim. Qed.
Lemma Sim_close_body : Sim (close_body ops lf cls) (close_body ops' lf cls').
Proof. pose proof Sim_send_run; pose proof Sim_send_pull; pose proof Sim_run_pull; pose proof Sim_send_queries. pose proof Sim_stmt_close. pose proof Sim_tx_finish. unfold close_body, rollback. sim. Qed.
Lemma Sim_begin : Sim (begin_tx ops lf cls) (begin_tx ops' lf cls').
Proof. pose proof Sim_send_run; pose proof Sim_send_pull; pose proof Sim_run_pull; pose proof Sim_send_queries. pose proof Sim_run_pull_single. unfold begin_tx, guard_open. sim. Qed.
Lemma Sim_stmt_exec : forall s ps, Sim (stmt_exec ops lf cls s ps) (stmt_exec ops' lf cls' s ps).
Proof. pose proof Sim_send_run; pose proof Sim_send_pull; pose proof Sim_run_pull; pose proof Sim_send_queries. pose proof Sim_run_pull_all. intros. unfold stmt_exec. sim. Qed.
Lemma Sim_exec_results : forall qs, Sim (exec_results ops lf cls qs) (exec_results ops' lf cls' qs).
Proof. pose proof Sim_send_run; pose proof Sim_send_pull; pose proof Sim_run_pull; pose proof Sim_send_queries. pose proof Sim_consume_all. induction qs as [|q qs IH]; cbn [exec_results]; sim. Qed.
Lemma Sim_stmt_exec_pipeline : forall s ps, Sim (stmt_exec_pipeline ops lf cls s ps) (stmt_exec_pipeline ops' lf cls' s ps).
Proof. pose proof Sim_send_run; pose proof Sim_send_pull; pose proof Sim_run_pull; pose proof Sim_send_queries. pose proof Sim_exec_results. intros. unfold stmt_exec_pipeline. sim. Qed.
Lemma Sim_stmt_query : forall s ps, Sim (stmt_query ops lf cls s ps) (stmt_query ops' lf cls' s ps).
Proof. pose proof Sim_send_run; pose proof Sim_send_pull; pose proof Sim_run_pull; pose proof Sim_send_queries. pose proof Sim_send_run_consume. intros. unfold stmt_query. sim. Qed.
Lemma Sim_stmt_query_pipeline : forall s ps, Sim (stmt_query_pipeline ops lf cls s ps) (stmt_query_pipeline ops' lf cls' s ps).
Proof. pose proof Sim_send_run; pose proof Sim_send_pull; pose proof Sim_run_pull; pose proof Sim_send_queries. intros. unfold stmt_query_pipeline. sim. Qed.
Lemma Sim_close_cur : Sim (close_cur_stmt ops lf cls) (close_cur_stmt ops' lf cls').
Proof. pose proof Sim_send_run; pose proof Sim_send_pull; pose proof Sim_run_pull; pose proof Sim_send_queries. pose proof Sim_stmt_close. unfold close_cur_stmt. sim. Qed.
Lemma Sim_query_neo : forall q ps, Sim (query_neo ops lf cls q ps) (query_neo ops' lf cls' q ps).
Proof. pose proof Sim_send_run; pose proof Sim_send_pull; pose proof Sim_run_pull; pose proof Sim_send_queries. pose proof Sim_close_cur. pose proof Sim_run_pull_run. intros. unfold query_neo, guard_open. sim. Qed.
Lemma Sim_query_pipeline : forall q ps, Sim (query_pipeline ops lf cls q ps) (query_pipeline ops' lf cls' q ps).
Proof. pose proof Sim_send_run; pose proof Sim_send_pull; pose proof Sim_run_pull; pose proof Sim_send_queries. pose proof Sim_stmt_query_pipeline. intros. unfold query_pipeline, guard_open. sim. Qed.
Lemma Sim_exec_neo : forall q ps, Sim (exec_neo ops lf cls q ps) (exec_neo ops' lf cls' q ps).
Proof. pose proof Sim_send_run; pose proof Sim_send_pull; pose proof Sim_run_pull; pose proof Sim_send_queries. pose proof Sim_stmt_exec. pose proof Sim_stmt_close. intros. unfold exec_neo, guard_open. sim. Qed.
Lemma Sim_exec_pipeline : forall q ps, Sim (exec_pipeline ops lf cls q ps) (exec_pipeline ops' lf cls' q ps).
Proof. pose proof Sim_send_run; pose proof Sim_send_pull; pose proof Sim_run_pull; pose proof Sim_send_queries. pose proof Sim_stmt_exec_pipeline. pose proof Sim_stmt_close. intros. unfold exec_pipeline, guard_open. sim. Qed.
Lemma Sim_next_neo : forall r, Sim (next_neo ops lf cls r) (next_neo ops' lf cls' r).
Proof. pose proof Sim_send_run; pose proof Sim_send_pull; pose proof Sim_run_pull; pose proof Sim_send_queries. intros. unfold next_neo. sim. Qed.
Lemma Sim_all_loop : forall f r acc, Sim (all_loop ops lf cls f r acc) (all_loop ops' lf cls' f r acc).
Proof. pose proof Sim_send_run; pose proof Sim_send_pull; pose proof Sim_run_pull; pose proof Sim_send_queries. pose proof Sim_next_neo. induction f as [|f IH]; intros r acc; cbn [all_loop]; sim. Qed.
Lemma Sim_all : forall r, Sim (all_rows ops lf cls r) (all_rows ops' lf cls' r).
Proof. pose proof Sim_send_run; pose proof Sim_send_pull; pose proof Sim_run_pull; pose proof Sim_send_queries. intros. apply Sim_all_loop. Qed.
Lemma Sim_query_neo_all : forall q ps, Sim (query_neo_all ops lf cls q ps) (query_neo_all ops' lf cls' q ps).
Proof. pose proof Sim_send_run; pose proof Sim_send_pull; pose proof Sim_run_pull; pose proof Sim_send_queries. pose proof Sim_query_neo. pose proof Sim_all. pose proof Sim_rows_close. intros. unfold query_neo_all. sim. Qed.
Lemma Sim_next_pipeline : forall r, Sim (next_pipeline ops lf cls r) (next_pipeline ops' lf cls' r).
Proof. pose proof Sim_send_run; pose proof Sim_send_pull; pose proof Sim_run_pull; pose proof Sim_send_queries. intros. unfold next_pipeline. sim. Qed.
Lemma Sim_step_body : forall mk o, Sim (step_body ops lf cls mk o) (step_body ops' lf cls' mk o).
Proof.
  pose proof Sim_send_run; pose proof Sim_send_pull; pose proof Sim_run_pull; pose proof Sim_send_queries. pose proof Sim_begin. pose proof Sim_exec_neo. pose proof Sim_exec_pipeline. pose proof Sim_query_neo. pose proof Sim_query_neo_all. pose proof Sim_query_pipeline.
  pose proof Sim_stmt_exec. pose proof Sim_stmt_exec_pipeline. pose proof Sim_stmt_query. pose proof Sim_stmt_query_pipeline. pose proof Sim_stmt_close.
  pose proof Sim_rows_close. pose proof Sim_next_neo. pose proof Sim_all. pose proof Sim_next_pipeline. pose proof Sim_tx_finish.
  intros mk o. destruct o; cbn [step_body]; unfold prepare, prepare_pipeline, exec_sql, query_sql, stmt_exec_sql, stmt_query_sql, with_args, set_chunk_size, next_sql, commit, rollback, guard_open; sim.
Qed.
End Inner.

End Sim.

(** ** The server.  [mood] says what happens to the next failures: [Obliging] the acknowledgement is
    accepted; [Stubborn m k] it is refused with FAILURE [m], and the RESET after that is answered
    with [k] times IGNORED and then SUCCESS. *)
Inductive mood := Obliging | Stubborn (m : md) (k : nat).
Section Stubborn.
Context {DB : Type}.
Variable exec : DB -> str -> md -> DB * outcome.
Variable sendable : goval -> bool.
Record snet := { sn_moods : list mood; sn_wait : nat; sn_net : bnet DB }.
Definition stubborn : netops snet :=
  {| n_send := fun n _ v =>
       if sendable v then
         let b := sn_net n in
         match v, b_st b, sn_moods n with
         | VAckFailure, Failed, Stubborn m k :: l =>
             ({| sn_moods := l; sn_wait := k; sn_net := {| b_db := b_db b; b_st := Failed; b_q := b_q b ++ [VFailure m] |} |}, SOk)
         | VReset, _, _ =>
             ({| sn_moods := sn_moods n; sn_wait := 0; sn_net := {| b_db := b_db b; b_st := Ready; b_q := b_q b ++ repeat VIgnored (sn_wait n) ++ [VSuccess []] |} |}, SOk)
         | _, _, _ =>
             let '(db, st, rs) := serve exec (b_db b) (b_st b) v in
             ({| sn_moods := match v with VAckFailure => tl (sn_moods n) | _ => sn_moods n end; sn_wait := sn_wait n;
                 sn_net := {| b_db := db; b_st := st; b_q := b_q b ++ rs |} |}, SOk)
         end
       else (n, SRejected);
     n_recv := fun n =>
       match b_q (sn_net n) with
       | [] => (n, RNet)
       | v :: q => ({| sn_moods := sn_moods n; sn_wait := sn_wait n; sn_net := {| b_db := b_db (sn_net n); b_st := b_st (sn_net n); b_q := q |} |}, RMsg v)
       end;
     n_close := fun n => (n, false);
     n_shake := fun n => (n, (false, None)) |}.

Hypothesis Hreset : sendable VReset = true.
Variable b : nat.                    (* a bound on the answers to one RESET *)
Definition patient (x : mood) : Prop := match x with Obliging => True | Stubborn _ k => (k < b)%nat end.
Definition calm (v : goval) : Prop := match v with VFailure _ => False | _ => True end.
Definition after_failure (st : sstate) (q : list goval) : Prop := st = Failed /\ Forall (fun v => v = VIgnored) q.
Definition inv_q (st : sstate) (q : list goval) : Prop :=
  Forall calm q \/ exists q1 m q2, q = q1 ++ VFailure m :: q2 /\ Forall calm q1 /\ after_failure st q2.
Definition RS (n : snet) (n' : bnet DB) : Prop :=
  sn_net n = n' /\ Forall patient (sn_moods n) /\ inv_q (b_st n') (b_q n').

Lemma ignored_calm : forall q, Forall (fun v => v = VIgnored) q -> Forall calm q.
Proof. intros q H. eapply Forall_impl; [|exact H]. intros v ->. exact I. Qed.
Lemma records_calm : forall recs, Forall calm (map VRecord recs).
Proof. induction recs; cbn; constructor; auto. exact I. Qed.
Lemma serve_inv : forall db st q v db' st' rs, request v -> inv_q st q -> serve exec db st v = (db', st', rs) -> inv_q st' (q ++ rs).
Proof.
  intros db st q v db' st' rs V [C|(q1 & m & q2 & -> & C & -> & Q)] E.
  - assert (T : forall l, Forall calm l -> inv_q st' (q ++ l)) by (intros l Hl; left; apply Forall_app; auto).
    assert (F : forall l m, st' = Failed -> Forall calm l -> inv_q st' (q ++ l ++ [VFailure m])).
    { intros l m -> Hl. right. exists (q ++ l), m, []. rewrite <- app_assoc. repeat split; auto. apply Forall_app; auto. }
    assert (D : forall recs fin, st' = after_stream fin -> inv_q st' (q ++ map VRecord recs ++ [final fin])).
    { intros recs [m|m] Hs; cbn in *; [apply T|apply F; auto using records_calm]. apply Forall_app. split; [apply records_calm|repeat constructor]. }
    destruct v; try contradiction V; destruct st; cbn in E;
      try (injection E as <- <- <-; first [apply T; repeat constructor; fail | apply (F []); auto; fail | apply D; auto; fail | apply (D []); auto; fail]).
    match type of E with context [exec ?a ?b ?c] => destruct (exec a b c) as [db1 [m|h recs fin]] end; injection E as <- <- <-; [apply (F []); auto|apply T; repeat constructor].
  - assert (G : st' = Failed /\ rs = [VIgnored]) by (destruct v; try contradiction V; cbn in E; injection E as <- <- <-; auto).
    destruct G as (-> & ->). right. exists q1, m, (q2 ++ [VIgnored]). rewrite <- app_assoc. repeat split; auto. apply Forall_app. auto.
Qed.
Lemma inv_tail : forall st v q, inv_q st (v :: q) -> match v with VFailure _ => after_failure st q | _ => inv_q st q end.
Proof.
  intros st v q [C|(q1 & m & q2 & E & C & A)].
  - inversion C as [|? ? C1 C2]; subst. destruct v; try (left; exact C2). contradiction.
  - destruct q1 as [|v1 q1]; injection E as -> ->; [exact A|]. inversion C as [|? ? C1 C2]; subst.
    assert (X : inv_q st (q1 ++ VFailure m :: q2)) by (right; exists q1, m, q2; auto). destruct v1; try exact X. contradiction.
Qed.
Notation net' := (bolt exec sendable).
Lemma RS_requests : Requests stubborn net' RS.
Proof.
  intros v V [c s r t [l k n]] [c' s' r' t' n'] (H1 & H2 & H3 & H4 & (H5 & H6 & H7)). cbn in H1, H2, H3, H4, H5, H6, H7. subst.
  unfold encode_msg, bind, getc, getn, setn. cbn.
  destruct (sendable v); [|cbn; repeat split; auto].
  destruct (serve exec (b_db n') (b_st n') v) as [[db st] rs] eqn:E. pose proof (serve_inv _ _ _ _ _ _ _ V H7 E) as G.
  destruct v; try contradiction V; cbn; repeat split; auto.
Qed.
Section Loops.
Variables (c : conn) (ss : list stmt) (rs : list rows) (ts : list tx).
Lemma reset_loop_stubborn : forall cls k f ms w0 db st, (k < f)%nat ->
  reset_loop stubborn cls f (Build_world c ss rs ts {| sn_moods := ms; sn_wait := w0; sn_net := {| b_db := db; b_st := st; b_q := repeat VIgnored k ++ [VSuccess []] |} |}) =
    (Ok None, Build_world c ss rs ts {| sn_moods := ms; sn_wait := w0; sn_net := {| b_db := db; b_st := st; b_q := [] |} |}).
Proof.
  intros cls. induction k as [|k IH]; intros f ms w0 db st Hf; (destruct f as [|f]; [lia|]); cbn [reset_loop repeat app].
  - erewrite bind_ok by reflexivity. reflexivity.
  - erewrite bind_ok by reflexivity. cbv beta iota. apply IH. lia.
Qed.
(** both servers, from the acknowledgement on *)
Lemma ack_both : forall lf cls cls' m k q f ms db, Forall (fun v => v = VIgnored) q -> (k < lf)%nat ->
  let r := ack_loop stubborn lf cls f (Build_world c ss rs ts {| sn_moods := ms; sn_wait := k; sn_net := {| b_db := db; b_st := Failed; b_q := q ++ [VFailure m] |} |}) in
  let r' := ack_loop net' lf cls' f (Build_world c ss rs ts {| b_db := db; b_st := Ready; b_q := q ++ [VSuccess []] |}) in
  fst r = NoFuel /\ fst r' = NoFuel \/
  r = (Ok None, Build_world c ss rs ts {| sn_moods := ms; sn_wait := 0; sn_net := {| b_db := db; b_st := Ready; b_q := [] |} |}) /\
  r' = (Ok None, Build_world c ss rs ts {| b_db := db; b_st := Ready; b_q := [] |}).
Proof.
  intros lf cls cls' m k. induction q as [|v q IH]; intros f ms db Q Hk; (destruct f as [|f]; cbn [ack_loop]; [left; auto|]).
  - right. erewrite bind_ok by reflexivity. cbv beta iota.
    split; [|erewrite bind_ok by reflexivity; reflexivity].
    unfold reset. erewrite bind_ok; [|unfold encode_msg, bind, getc, getn, setn, ret; cbn; rewrite Hreset; reflexivity]. cbv beta iota.
    cbn [w_conn w_stmts w_rows w_txs]. rewrite reset_loop_stubborn by exact Hk. reflexivity.
  - inversion Q as [|? ? -> Q']; subst. cbn [app]. erewrite bind_ok by reflexivity. erewrite bind_ok by reflexivity. cbv beta iota.
    apply IH; auto.
Qed.
Lemma ack_bolt : forall lf cls cls' q f ms k db, Forall (fun v => v = VIgnored) q ->
  let r := ack_loop stubborn lf cls f (Build_world c ss rs ts {| sn_moods := ms; sn_wait := k; sn_net := {| b_db := db; b_st := Ready; b_q := q ++ [VSuccess []] |} |}) in
  let r' := ack_loop net' lf cls' f (Build_world c ss rs ts {| b_db := db; b_st := Ready; b_q := q ++ [VSuccess []] |}) in
  fst r = NoFuel /\ fst r' = NoFuel \/
  r = (Ok None, Build_world c ss rs ts {| sn_moods := ms; sn_wait := k; sn_net := {| b_db := db; b_st := Ready; b_q := [] |} |}) /\
  r' = (Ok None, Build_world c ss rs ts {| b_db := db; b_st := Ready; b_q := [] |}).
Proof.
  intros lf cls cls'. induction q as [|v q IH]; intros f ms k db Q; (destruct f as [|f]; cbn [ack_loop]; [left; auto|]).
  - right. split; (erewrite bind_ok by reflexivity; reflexivity).
  - inversion Q as [|? ? -> Q']; subst. cbn [app]. erewrite bind_ok by reflexivity. erewrite bind_ok by reflexivity. cbv beta iota.
    apply IH; auto.
Qed.
End Loops.
Lemma RS_consume : forall lf cls cls', (b <= lf)%nat -> Sim RS (consume stubborn lf cls) (consume net' lf cls').
Proof.
  intros lf cls cls' Hb [c s r t [l k n]] [c' s' r' t' n'] (H1 & H2 & H3 & H4 & (H5 & H6 & H7)). cbn in H1, H2, H3, H4, H5, H6, H7. subst.
  destruct n' as [db st q]. cbn [b_st b_q] in H7. unfold consume. destruct q as [|v q].
  { cbn. repeat split; auto. }
  assert (T : forall x, inv_q st q -> RW RS (Build_world c' s' r' t' {| sn_moods := l; sn_wait := x; sn_net := {| b_db := db; b_st := st; b_q := q |} |})
            (Build_world c' s' r' t' {| b_db := db; b_st := st; b_q := q |})) by (intros; repeat split; auto).
  apply inv_tail in H7. erewrite bind_ok by reflexivity. erewrite bind_ok by reflexivity. cbv beta iota.
  cbn [w_conn w_stmts w_rows w_txs w_net sn_moods sn_wait sn_net b_db b_st].
  destruct v; try (cbn; split; [reflexivity|intros _; apply T; exact H7]).
  destruct H7 as (-> & Q).
  destruct (sendable VAckFailure) eqn:Sa.
  - assert (Done : forall ms x, Forall patient ms -> RW RS (Build_world c' s' r' t' {| sn_moods := ms; sn_wait := x; sn_net := {| b_db := db; b_st := Ready; b_q := [] |} |})
              (Build_world c' s' r' t' {| b_db := db; b_st := Ready; b_q := [] |})).
    { intros ms x Hm. repeat split; auto. left. constructor. }
    assert (G : forall (r1 : outc (option gerr) * world snet) (r2 : outc (option gerr) * world (bnet DB)) ms x, Forall patient ms ->
      fst r1 = NoFuel /\ fst r2 = NoFuel \/
      r1 = (Ok None, Build_world c' s' r' t' {| sn_moods := ms; sn_wait := x; sn_net := {| b_db := db; b_st := Ready; b_q := [] |} |}) /\
      r2 = (Ok None, Build_world c' s' r' t' {| b_db := db; b_st := Ready; b_q := [] |}) ->
      let k1 := fun (e : option gerr) => match e with Some e => ret (None, Some e) | None => ret (Some (VFailure md), Some (ewrap FConn 569 (EFailMsg md))) end in
      let x1 := match r1 with (Ok a, w) => k1 a w | (Panic, w) => (Panic, w) | (NoFuel, w) => (NoFuel, w) end in
      let k2 := fun (e : option gerr) => match e with Some e => ret (None, Some e) | None => ret (Some (VFailure md), Some (ewrap FConn 569 (EFailMsg md))) end in
      let x2 := match r2 with (Ok a, w) => k2 a w | (Panic, w) => (Panic, w) | (NoFuel, w) => (NoFuel, w) end in
      fst x1 = fst x2 /\ (fst x1 <> NoFuel -> RW RS (snd x1) (snd x2))).
    { intros [[a1| |] w1] [[a2| |] w2] ms x Hm [(X1 & X2)|(X1 & X2)]; try discriminate; cbn; [|split; [reflexivity|intros X; contradiction X; reflexivity]].
      injection X1 as -> ->. injection X2 as -> ->. cbn. split; auto. }
    assert (E' : encode_msg net' VAckFailure (Build_world c' s' r' t' {| b_db := db; b_st := Failed; b_q := q |}) =
      (Ok None, Build_world c' s' r' t' {| b_db := db; b_st := Ready; b_q := q ++ [VSuccess []] |})).
    { unfold encode_msg, bind, getc, getn, setn, ret. cbn. rewrite Sa. reflexivity. }
    destruct l as [|[|m0 k0] l].
    + assert (E : encode_msg stubborn VAckFailure (Build_world c' s' r' t' {| sn_moods := []; sn_wait := k; sn_net := {| b_db := db; b_st := Failed; b_q := q |} |}) =
        (Ok None, Build_world c' s' r' t' {| sn_moods := []; sn_wait := k; sn_net := {| b_db := db; b_st := Ready; b_q := q ++ [VSuccess []] |} |})).
      { unfold encode_msg, bind, getc, getn, setn, ret. cbn. rewrite Sa. reflexivity. }
      unfold bind. unfold ack_failure. rewrite (bind_ok _ _ _ _ _ _ _ _ E), (bind_ok _ _ _ _ _ _ _ _ E'). eapply G; [|apply ack_bolt; exact Q]. constructor.
    + assert (E : encode_msg stubborn VAckFailure (Build_world c' s' r' t' {| sn_moods := Obliging :: l; sn_wait := k; sn_net := {| b_db := db; b_st := Failed; b_q := q |} |}) =
        (Ok None, Build_world c' s' r' t' {| sn_moods := l; sn_wait := k; sn_net := {| b_db := db; b_st := Ready; b_q := q ++ [VSuccess []] |} |})).
      { unfold encode_msg, bind, getc, getn, setn, ret. cbn. rewrite Sa. reflexivity. }
      unfold bind. unfold ack_failure. rewrite (bind_ok _ _ _ _ _ _ _ _ E), (bind_ok _ _ _ _ _ _ _ _ E'). eapply G; [|apply ack_bolt; exact Q]. inversion H6; auto.
    + assert (E : encode_msg stubborn VAckFailure (Build_world c' s' r' t' {| sn_moods := Stubborn m0 k0 :: l; sn_wait := k; sn_net := {| b_db := db; b_st := Failed; b_q := q |} |}) =
        (Ok None, Build_world c' s' r' t' {| sn_moods := l; sn_wait := k0; sn_net := {| b_db := db; b_st := Failed; b_q := q ++ [VFailure m0] |} |})).
      { unfold encode_msg, bind, getc, getn, setn, ret. cbn. rewrite Sa. reflexivity. }
      inversion H6 as [|? ? P1 P2]; subst. cbn in P1.
      unfold bind. unfold ack_failure. rewrite (bind_ok _ _ _ _ _ _ _ _ E), (bind_ok _ _ _ _ _ _ _ _ E'). eapply G; [|apply ack_both; [exact Q|lia]]. auto.
  - unfold ack_failure, encode_msg, bind, getc, getn, setn, ret. cbn. rewrite Sa. cbn. repeat split; auto. left. apply ignored_calm. exact Q.
Qed.
Lemma RS_close : forall n n', RS n n' -> snd (n_close stubborn n) = snd (n_close net' n') /\ RS (fst (n_close stubborn n)) (fst (n_close net' n')).
Proof. intros n n' H. split; auto. Qed.
Lemma RS_step : forall mk f o, (b < f)%nat -> Sim RS (step stubborn mk f o) (step net' mk f o).
Proof.
  intros mk f o Hf. unfold step. apply Sim_step_body; [|exact RS_requests|apply RS_consume; lia].
  destruct f as [|f]; [lia|]. cbn [close]. apply Sim_close_body; [exact RS_close|exact RS_requests|apply RS_consume; lia].
Qed.
End Stubborn.
