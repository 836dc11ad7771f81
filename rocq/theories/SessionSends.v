(** Which messages a history can send: requests without arguments and RUN with a query
    and parameters given in some call, in chunks of a size in force at that time; and two
    networks that behave alike for these messages give the same results. *)
From Coq Require Import ZArith List Bool Lia.
From Verif Require Import GoPrims Value Errors Misc Session.
Import ListNotations.
Open Scope Z_scope.

Section Sends.
Context {N N' : Type} (ops : netops N) (ops' : netops N').
Notation W := (world N).
Notation W' := (world N').
(** the chunk sizes, queries and parameters that occur *)
Variables (CS : Z -> Prop) (Q : str -> Prop) (P : md -> Prop).
(** the transaction statements that occur *)
Variable T : str -> Prop.
Definition may_send (v : goval) : Prop :=
  match v with
  | VPullAll | VDiscardAll | VAckFailure | VReset => True
  | VRun q ps => (Q q \/ q = []) /\ P ps \/ T q /\ ps = []
  | _ => False
  end.
(** how the two networks are related *)
Variable RN : N -> N' -> Prop.
Hypothesis Hsend : forall n n' cs v, RN n n' -> CS cs -> may_send v ->
  snd (n_send ops n cs v) = snd (n_send ops' n' cs v) /\ RN (fst (n_send ops n cs v)) (fst (n_send ops' n' cs v)).
Hypothesis Hrecv : forall n n', RN n n' -> snd (n_recv ops n) = snd (n_recv ops' n') /\ RN (fst (n_recv ops n)) (fst (n_recv ops' n')).
Hypothesis Hclose : forall n n', RN n n' -> snd (n_close ops n) = snd (n_close ops' n') /\ RN (fst (n_close ops n)) (fst (n_close ops' n')).
Definition stmt_known (s : stmt) : Prop := (Q (s_query s) \/ s_query s = []) /\ Forall Q (s_queries s).
Definition Alike (w : W) (w' : W') : Prop :=
  (CS (c_cs (w_conn w)) /\ c_tx (w_conn w) = None) /\ Forall stmt_known (w_stmts w) /\
  w_conn w = w_conn w' /\ w_stmts w = w_stmts w' /\ w_rows w = w_rows w' /\ w_txs w = w_txs w' /\ RN (w_net w) (w_net w').
Definition Keeps {A} (m : M (N := N) A) (m' : M (N := N') A) : Prop :=
  forall w w', Alike w w' -> fst (m w) = fst (m' w') /\ Alike (snd (m w)) (snd (m' w')).

Ltac alike := intros [? ? ? ? ?] [? ? ? ? ?] ((? & ?) & ? & ? & ? & ? & ? & ?); cbn in *; subst; repeat split; auto.
Lemma K_ret A (a : A) : Keeps (ret a) (ret a). Proof. alike. Qed.
Lemma K_panic A : Keeps (panic (A := A)) panic. Proof. alike. Qed.
Lemma K_nofuel A : Keeps (nofuel (A := A)) nofuel. Proof. alike. Qed.
Lemma K_getc : Keeps getc getc. Proof. alike. Qed.
Lemma K_getr i : Keeps (getr i) (getr i).
Proof. intros w w' H. pose proof H as (_ & _ & _ & _ & E & _). unfold getr. rewrite E. destruct (nth_error _ _); auto. Qed.
Lemma K_gets i : Keeps (gets i) (gets i).
Proof. intros w w' H. pose proof H as (_ & _ & _ & E & _). unfold gets. rewrite E. destruct (nth_error _ _); auto. Qed.
Lemma K_gett i : Keeps (gett i) (gett i).
Proof. intros w w' H. pose proof H as (_ & _ & _ & _ & _ & E & _). unfold gett. rewrite E. destruct (nth_error _ _); auto. Qed.
Lemma K_sett i t : Keeps (sett i t) (sett i t). Proof. alike. Qed.
Lemma K_setr i t : Keeps (setr i t) (setr i t). Proof. alike. Qed.
Lemma K_newr r : Keeps (newr r) (newr r). Proof. alike. Qed.
Lemma K_newt r : Keeps (newt r) (newt r). Proof. alike. Qed.
Lemma K_news s : stmt_known s -> Keeps (news s) (news s).
Proof. intros Hs. alike. apply Forall_app. auto. Qed.
Lemma K_bind A B (m : M A) (m' : M A) (k : A -> M B) (k' : A -> M B) : Keeps m m' -> (forall a, Keeps (k a) (k' a)) -> Keeps (bind m k) (bind m' k').
Proof.
  intros Hm Hk w w' H. unfold bind. destruct (Hm w w' H) as (E & H1). destruct (m w) as [o w1], (m' w') as [o' w1']. cbn [fst snd] in *. subst o'.
  destruct o as [a| |]; auto. apply Hk. exact H1.
Qed.
Lemma nth_Forall A (R : A -> Prop) l : Forall R l -> forall i x, nth_error l i = Some x -> R x.
Proof. intros H i x E. rewrite Forall_forall in H. apply H. eapply nth_error_In. exact E. Qed.
Lemma K_gets_bind B i (k : stmt -> M B) k' : (forall s, stmt_known s -> Keeps (k s) (k' s)) -> Keeps (bind (gets i) k) (bind (gets i) k').
Proof.
  intros Hk w w' H. pose proof H as (_ & Hs & _ & E & _). unfold bind, gets. rewrite <- E. destruct (nth_error (w_stmts w) i) as [s|] eqn:En; [|auto].
  apply Hk; [|exact H]. exact (nth_Forall _ _ _ Hs _ _ En).
Qed.
Lemma K_defer A B (m : M A) m' (d : M B) d' : Keeps m m' -> Keeps d d' -> Keeps (with_defer m d) (with_defer m' d').
Proof.
  intros Hm Hd w w' H. unfold with_defer. destruct (Hm w w' H) as (E & H1). destruct (m w) as [o w1], (m' w') as [o' w1']. cbn [fst snd] in *. subst o'.
  destruct (Hd w1 w1' H1) as (E & H2). destruct o as [a| |]; destruct (d w1) as [p w2], (d' w1') as [p' w2']; cbn [fst snd] in *; subst p'; destruct p; auto.
Qed.
Lemma K_modc f : (forall c, c_cs (f c) = c_cs c /\ (c_tx c = None -> c_tx (f c) = None)) -> Keeps (modc f) (modc f).
Proof.
  intros Hf [? ? ? ? ?] [? ? ? ? ?] ((? & ?) & ? & ? & ? & ? & ? & ?). cbn in *. subst. repeat split; auto; cbn.
  - now rewrite (proj1 (Hf _)).
  - now apply (proj2 (Hf _)).
Qed.
Lemma K_getc_bind B (k : conn -> M B) k' : (forall c, c_tx c = None -> Keeps (k c) (k' c)) -> Keeps (bind getc k) (bind getc k').
Proof.
  intros Hk w w' H. pose proof H as ((_ & Ht) & _ & E & _). unfold bind, getc. rewrite <- E. apply Hk; [exact Ht|exact H].
Qed.
Lemma K_chunk z : CS z -> Keeps (modc (c_set_cs z)) (modc (c_set_cs z)).
Proof. intros Hz. alike. Qed.
Lemma upd_Forall A (R : A -> Prop) : forall l i x, Forall R l -> R x -> Forall R (upd i x l).
Proof. induction l as [|a l IH]; intros [|i] x H Hx; inversion H; subst; constructor; auto. Qed.
Lemma K_mods i f : (forall s, s_query (f s) = s_query s /\ s_queries (f s) = s_queries s) -> Keeps (mods i f) (mods i f).
Proof.
  intros Hf. unfold mods. apply K_gets_bind. intros s Hs. alike. apply upd_Forall; auto. unfold stmt_known. destruct (Hf s) as (-> & ->). exact Hs.
Qed.
Lemma K_modr i f : Keeps (modr i f) (modr i f).
Proof. unfold modr. apply K_bind; [apply K_getr|]. intros r. apply K_setr. Qed.
Lemma K_need i : Keeps (need_conn i) (need_conn i).
Proof. apply K_bind; [apply K_gets|]. intros s. destruct (s_conn s); [apply K_ret|apply K_panic]. Qed.
Lemma K_send v : may_send v -> Keeps (encode_msg ops v) (encode_msg ops' v).
Proof.
  intros Hv [c s r t n] [c' s' r' t' n'] ((H0 & Ht) & H1 & H2 & H3 & H4 & H5 & H6). cbn in Ht, H0, H1, H2, H3, H4, H5, H6. subst.
  unfold encode_msg, bind, getc, getn, setn, modc, setc, ret. cbn. destruct (Hsend n n' (c_cs c') v H6 H0 Hv) as (E & HR).
  destruct (n_send ops n _ _) as [n1 x], (n_send ops' n' _ _) as [n1' x']. cbn in E, HR. subst x'. destruct x; cbn; repeat split; auto.
Qed.
Lemma K_recv : Keeps (decode_msg ops) (decode_msg ops').
Proof.
  intros [c s r t n] [c' s' r' t' n'] ((H0 & Ht) & H1 & H2 & H3 & H4 & H5 & H6). cbn in Ht, H0, H1, H2, H3, H4, H5, H6. subst.
  unfold decode_msg, bind, getc, getn, setn, modc, setc, ret, panic. cbn. destruct (Hrecv n n' H6) as (E & HR).
  destruct (n_recv ops n) as [n1 x], (n_recv ops' n') as [n1' x']. cbn in E, HR. subst x'. destruct x; cbn; repeat split; auto.
Qed.
Lemma K_netclose A (k k' : bool -> M A) : (forall b, Keeps (k b) (k' b)) ->
  Keeps (n <- getn ;; let '(n', b) := n_close ops n in setn n' ;; k b) (n <- getn ;; let '(n', b) := n_close ops' n in setn n' ;; k' b).
Proof.
  intros Hk [c s r t n] [c' s' r' t' n'] ((H0 & Ht) & H1 & H2 & H3 & H4 & H5 & H6). cbn in Ht, H0, H1, H2, H3, H4, H5, H6. subst. unfold bind, getn, setn. cbn [w_net].
  destruct (Hclose n n' H6) as (E & HR). destruct (n_close ops n) as [n1 x], (n_close ops' n') as [n1' x']. cbn in E, HR. subst x'. apply Hk. repeat split; auto.
Qed.

Section Inner.
Variables (lf : nat) (cls : M (N := N) (option gerr)) (cls' : M (N := N') (option gerr)).
Hypothesis Kcls : Keeps cls cls'.

Ltac k1 := match goal with
  | |- Keeps (ret _) _ => apply K_ret
  | |- Keeps panic _ => apply K_panic
  | |- Keeps nofuel _ => apply K_nofuel
  | |- Keeps getc _ => apply K_getc
  | |- Keeps (gets _) _ => apply K_gets
  | |- Keeps (getr _) _ => apply K_getr
  | |- Keeps (gett _) _ => apply K_gett
  | |- Keeps (sett _ _) _ => apply K_sett
  | |- Keeps (news _) _ => apply K_news; try assumption
  | |- Keeps (newr _) _ => apply K_newr
  | |- Keeps (newt _) _ => apply K_newt
  | |- Keeps (modc (c_set_cs _)) _ => apply K_chunk; assumption
  | |- Keeps (modc _) _ => apply K_modc; intro; split; [reflexivity|auto; fail]
  | |- Keeps (mods _ _) _ => apply K_mods; intro; split; reflexivity
  | |- Keeps (modr _ _) _ => apply K_modr
  | |- Keeps (need_conn _) _ => apply K_need
  | |- Keeps (encode_msg _ _) _ => apply K_send; try exact I; try assumption
  | |- Keeps (decode_msg _) _ => apply K_recv
  | |- Keeps (with_defer _ _) _ => apply K_defer
  | |- Keeps (bind getn _) _ => apply K_netclose; intro
  | |- Keeps (bind getc _) _ => let E := fresh in apply K_getc_bind; intros ? E; rewrite ?E
  | |- Keeps (bind (gets _) _) _ => apply K_gets_bind; intros ? ?
  | |- Keeps (bind _ _) _ => apply K_bind; [|intros ?]
  | |- Keeps (match ?x with _ => _ end) _ => destruct x
  | |- Keeps _ _ => solve [auto]
  end.
Ltac keep := repeat k1.

Lemma K_send_run q ps : may_send (VRun q ps) -> Keeps (send_run ops q ps) (send_run ops' q ps). Proof. intros. unfold send_run. keep. Qed.
Lemma K_send_pull : Keeps (send_pull_all ops) (send_pull_all ops'). Proof. unfold send_pull_all. keep. Qed.
Lemma K_run_pull q ps : may_send (VRun q ps) -> Keeps (send_run_pull_all ops q ps) (send_run_pull_all ops' q ps).
Proof. intros. pose proof (K_send_run q ps H). pose proof K_send_pull. unfold send_run_pull_all. keep. Qed.
Lemma K_send_queries l : forall qs pss, (forall q ps, In (q, ps) (combine qs pss) -> may_send (VRun q ps)) -> Keeps (send_queries ops l qs pss) (send_queries ops' l qs pss).
Proof.
  induction qs as [|q qs IH]; intros [|ps pss] H; cbn [send_queries]; try apply K_ret. apply K_bind; [apply K_run_pull; apply H; left; reflexivity|].
  intros [e|]; [apply K_ret|]. apply IH. intros. apply H. right. assumption.
Qed.
Lemma K_reset_loop f : Keeps (reset_loop ops cls f) (reset_loop ops' cls' f). Proof. induction f as [|f IH]; cbn [reset_loop]; keep. Qed.
Lemma K_reset : Keeps (reset ops lf cls) (reset ops' lf cls'). Proof. pose proof (K_reset_loop lf). unfold reset. keep. Qed.
Lemma K_ack_loop f : Keeps (ack_loop ops lf cls f) (ack_loop ops' lf cls' f). Proof. pose proof K_reset. induction f as [|f IH]; cbn [ack_loop]; keep. Qed.
Lemma K_ack : Keeps (ack_failure ops lf cls) (ack_failure ops' lf cls'). Proof. pose proof (K_ack_loop lf). unfold ack_failure. keep. Qed.
Lemma K_consume : Keeps (consume ops lf cls) (consume ops' lf cls'). Proof. pose proof K_ack. unfold consume. keep. Qed.
Lemma K_consume_all_loop f : Keeps (consume_all_loop ops lf cls f) (consume_all_loop ops' lf cls' f).
Proof. pose proof K_consume. induction f as [|f IH]; cbn [consume_all_loop]; keep. Qed.
Lemma K_consume_all : Keeps (consume_all ops lf cls) (consume_all ops' lf cls').
Proof. apply K_consume_all_loop. Qed.
Lemma K_consume_n n : Keeps (consume_all_n ops lf cls n) (consume_all_n ops' lf cls' n). Proof. pose proof K_consume_all. induction n as [|n IH]; cbn [consume_all_n]; keep. Qed.
Lemma K_consume_multiple z : Keeps (consume_all_multiple ops lf cls z) (consume_all_multiple ops' lf cls' z).
Proof. pose proof (fun n => K_consume_n n) as H. unfold consume_all_multiple. keep. Qed.
Lemma K_run_consume q ps : may_send (VRun q ps) -> Keeps (send_run_consume ops lf cls q ps) (send_run_consume ops' lf cls' q ps).
Proof. intros. pose proof (K_send_run q ps H). pose proof K_consume. unfold send_run_consume. keep. Qed.
Lemma K_rpr q ps : may_send (VRun q ps) -> Keeps (send_run_pull_all_consume_run ops lf cls q ps) (send_run_pull_all_consume_run ops' lf cls' q ps).
Proof. intros. pose proof (K_run_pull q ps H). pose proof K_consume. unfold send_run_pull_all_consume_run. keep. Qed.
Lemma K_rps q ps : may_send (VRun q ps) -> Keeps (send_run_pull_all_consume_single ops lf cls q ps) (send_run_pull_all_consume_single ops' lf cls' q ps).
Proof. intros. pose proof (K_run_pull q ps H). pose proof K_consume. unfold send_run_pull_all_consume_single. keep. Qed.
Lemma K_rpa q ps : may_send (VRun q ps) -> Keeps (send_run_pull_all_consume_all ops lf cls q ps) (send_run_pull_all_consume_all ops' lf cls' q ps).
Proof. intros. pose proof (K_run_pull q ps H). pose proof K_consume. pose proof K_consume_all. unfold send_run_pull_all_consume_all. keep. Qed.
Lemma K_discard : Keeps (send_discard_all_consume ops lf cls) (send_discard_all_consume ops' lf cls').
Proof. pose proof K_consume. unfold send_discard_all_consume. keep. Qed.
Lemma K_rows_body r : Keeps (rows_close_body ops lf cls r) (rows_close_body ops' lf cls' r).
Proof. pose proof K_discard. pose proof K_consume_multiple. unfold rows_close_body. keep. Qed.
Lemma K_stmt_close s : Keeps (stmt_close ops lf cls s) (stmt_close ops' lf cls' s).
Proof. pose proof K_rows_body. unfold stmt_close. keep. Qed.
Lemma K_rows_close r : Keeps (rows_close ops lf cls r) (rows_close ops' lf cls' r).
Proof. pose proof K_rows_body. pose proof K_stmt_close. unfold rows_close. keep. Qed.
Lemma K_tx_finish q l1 l2 l3 l4 l5 t : may_send (VRun q []) -> Keeps (tx_finish ops lf cls q l1 l2 l3 l4 l5 t) (tx_finish ops' lf cls' q l1 l2 l3 l4 l5 t).
Proof. intros. pose proof K_stmt_close. pose proof (K_rps q [] H). unfold tx_finish. keep. Qed.
Lemma K_close_body : Keeps (close_body ops lf cls) (close_body ops' lf cls').
Proof.
  pose proof K_stmt_close. unfold close_body. keep.
Qed.
Lemma may_word q : T q -> may_send (VRun q []). Proof. intros H. right. auto. Qed.
Lemma K_begin : T s_begin -> Keeps (begin_tx ops lf cls) (begin_tx ops' lf cls').
Proof. intros Hw. pose proof (K_rps s_begin [] (may_word _ Hw)). unfold begin_tx, guard_open. keep. Qed.
Lemma known_run s ps : stmt_known s -> P ps -> may_send (VRun (s_query s) ps). Proof. intros (H & _) Hp. left. auto. Qed.
Lemma known_runs s pss : stmt_known s -> Forall P pss -> forall q ps, In (q, ps) (combine (s_queries s) pss) -> may_send (VRun q ps).
Proof.
  intros (_ & H) Hp q ps Hi. rewrite Forall_forall in H, Hp. left. split; [left; apply H; eapply in_combine_l; exact Hi|]. apply Hp. eapply in_combine_r. exact Hi.
Qed.
Lemma K_stmt_exec s ps : P ps -> Keeps (stmt_exec ops lf cls s ps) (stmt_exec ops' lf cls' s ps).
Proof.
  intros Hp. unfold stmt_exec. apply K_gets_bind. intros x Hx. pose proof (K_rpa _ _ (known_run x ps Hx Hp)). keep.
Qed.
Lemma K_exec_results qs : Keeps (exec_results ops lf cls qs) (exec_results ops' lf cls' qs).
Proof. pose proof K_consume. pose proof K_consume_all. induction qs as [|q qs IH]; cbn [exec_results]; keep. Qed.
Lemma K_stmt_exec_pipeline s pss : Forall P pss -> Keeps (stmt_exec_pipeline ops lf cls s pss) (stmt_exec_pipeline ops' lf cls' s pss).
Proof.
  intros Hp. unfold stmt_exec_pipeline. apply K_gets_bind. intros x Hx. pose proof (K_exec_results (s_queries x)). pose proof (fun l => K_send_queries l _ _ (known_runs x pss Hx Hp)). keep.
Qed.
Lemma K_stmt_query s ps : P ps -> Keeps (stmt_query ops lf cls s ps) (stmt_query ops' lf cls' s ps).
Proof. intros Hp. unfold stmt_query. apply K_gets_bind. intros x Hx. pose proof (K_run_consume _ _ (known_run x ps Hx Hp)). keep. Qed.
Lemma K_stmt_query_pipeline s pss : Forall P pss -> Keeps (stmt_query_pipeline ops lf cls s pss) (stmt_query_pipeline ops' lf cls' s pss).
Proof.
  intros Hp. unfold stmt_query_pipeline. apply K_gets_bind. intros x Hx. pose proof K_consume. pose proof (fun l => K_send_queries l _ _ (known_runs x pss Hx Hp)). keep.
Qed.
Lemma K_close_cur : Keeps (close_cur_stmt ops lf cls) (close_cur_stmt ops' lf cls'). Proof. pose proof K_stmt_close. unfold close_cur_stmt. keep. Qed.
Lemma known_new q : Q q -> stmt_known (new_stmt q). Proof. intros H. split; [left; exact H|constructor]. Qed.
Lemma known_pipe qs : Forall Q qs -> stmt_known (new_pipe_stmt qs). Proof. intros H. split; [right; reflexivity|exact H]. Qed.
Lemma K_query_neo q ps : Q q -> P ps -> Keeps (query_neo ops lf cls q ps) (query_neo ops' lf cls' q ps).
Proof.
  intros Hq Hp. pose proof (known_new q Hq). pose proof K_close_cur. assert (Hm : may_send (VRun q ps)) by (left; auto). pose proof (K_rpr q ps Hm). unfold query_neo, guard_open. keep.
Qed.
Lemma K_query_pipeline qs pss : Forall Q qs -> Forall P pss -> Keeps (query_pipeline ops lf cls qs pss) (query_pipeline ops' lf cls' qs pss).
Proof. intros Hq Hp. pose proof (known_pipe qs Hq). pose proof (fun s => K_stmt_query_pipeline s pss Hp). unfold query_pipeline, guard_open. keep. Qed.
Lemma K_exec_neo q ps : Q q -> P ps -> Keeps (exec_neo ops lf cls q ps) (exec_neo ops' lf cls' q ps).
Proof. intros Hq Hp. pose proof (known_new q Hq). pose proof K_stmt_close. pose proof (fun s => K_stmt_exec s ps Hp). unfold exec_neo, guard_open. keep. Qed.
Lemma K_exec_pipeline qs pss : Forall Q qs -> Forall P pss -> Keeps (exec_pipeline ops lf cls qs pss) (exec_pipeline ops' lf cls' qs pss).
Proof. intros Hq Hp. pose proof (known_pipe qs Hq). pose proof K_stmt_close. pose proof (fun s => K_stmt_exec_pipeline s pss Hp). unfold exec_pipeline, guard_open. keep. Qed.
Lemma K_next r : Keeps (next_neo ops lf cls r) (next_neo ops' lf cls' r). Proof. pose proof K_send_pull. pose proof K_consume. unfold next_neo. keep. Qed.
Lemma K_all_loop r : forall f acc, Keeps (all_loop ops lf cls f r acc) (all_loop ops' lf cls' f r acc).
Proof. pose proof K_next. induction f as [|f IH]; intros acc; cbn [all_loop]; keep. Qed.
Lemma K_all r : Keeps (all_rows ops lf cls r) (all_rows ops' lf cls' r).
Proof. apply K_all_loop. Qed.
Lemma K_query_all q ps : Q q -> P ps -> Keeps (query_neo_all ops lf cls q ps) (query_neo_all ops' lf cls' q ps).
Proof. intros Hq Hp. pose proof (K_query_neo q ps Hq Hp). pose proof K_all. pose proof K_rows_close. unfold query_neo_all. keep. Qed.
Lemma K_next_pipeline r : Keeps (next_pipeline ops lf cls r) (next_pipeline ops' lf cls' r). Proof. pose proof K_consume. unfold next_pipeline. keep. Qed.
Lemma K_next_sql r n : Keeps (next_sql ops lf cls r n) (next_sql ops' lf cls' r n). Proof. pose proof K_next. unfold next_sql. keep. Qed.

(** The chunk size, queries and parameters of a call. *)
Definition op_chunk (o : op) : Prop := match o with CSetChunkSize z => CS z | _ => True end.
Definition op_queries (o : op) : Prop :=
  match o with
  | CPrepare q | CExec q _ | CQuery q _ | CQueryAll q _ | CExecSql q _ | CQuerySql q _ => Q q
  | CPreparePipeline qs | CExecPipeline qs _ | CQueryPipeline qs _ => Forall Q qs
  | _ => True
  end.
Definition op_params (mk : bool) (o : op) : Prop :=
  match o with
  | CExec _ ps | CQuery _ ps | CQueryAll _ ps | SExec _ ps | SQuery _ ps => P ps
  | CExecPipeline _ pss | CQueryPipeline _ pss | SExecPipeline _ pss | SQueryPipeline _ pss => Forall P pss
  | CExecSql _ args | CQuerySql _ args | SExecSql _ args | SQuerySql _ args => match driver_args mk args with AOk ps => P ps | _ => True end
  | _ => True
  end.
Definition op_words (o : op) : Prop :=
  match o with CBegin => T s_begin | TCommit _ => T s_commit | TRollback _ => T s_rollback | _ => True end.
Lemma K_step mk o : op_words o -> op_chunk o -> op_queries o -> op_params mk o -> Keeps (step_body ops lf cls mk o) (step_body ops' lf cls' mk o).
Proof.
  intros Hw H1 H2 H3. pose proof K_stmt_close. pose proof K_rows_close. pose proof K_next. pose proof K_all. pose proof K_next_pipeline. pose proof K_next_sql. pose proof K_begin.
  pose proof (fun q l1 l2 l3 l4 l5 t H => K_tx_finish q l1 l2 l3 l4 l5 t (may_word q H)).
  destruct o; cbn [op_words op_chunk op_queries op_params step_body] in *; (apply K_bind; [|intros ?; keep]);
    try solve [auto using K_exec_neo, K_exec_pipeline, K_query_neo, K_query_all, K_query_pipeline, K_stmt_exec, K_stmt_exec_pipeline, K_stmt_query, K_stmt_query_pipeline].
  - pose proof (known_new q H2). unfold prepare, guard_open. keep.
  - pose proof (known_pipe qs H2). unfold prepare_pipeline, guard_open. keep.
  - unfold set_chunk_size. keep.
  - pose proof (known_new q H2). unfold exec_sql, guard_open, stmt_exec_sql, with_args. destruct (driver_args mk args) as [ps| |]; [pose proof (fun s => K_stmt_exec s ps H3)| |]; keep.
  - unfold query_sql, with_args. destruct (driver_args mk args) as [ps| |]; [apply K_query_neo; auto| |]; keep.
  - unfold stmt_exec_sql, with_args. destruct (driver_args mk args) as [ps| |]; [apply K_stmt_exec; auto| |]; keep.
  - unfold stmt_query_sql, with_args. destruct (driver_args mk args) as [ps| |]; [apply K_stmt_query; auto| |]; keep.
  - apply K_getr.
  - unfold commit. auto.
  - unfold rollback. auto.
Qed.
End Inner.
Lemma K_close f : Keeps (close ops f) (close ops' f).
Proof. induction f as [|f IH]; cbn [close]; [apply K_nofuel|]. apply K_close_body. exact IH. Qed.
Definition op_within (mk : bool) (o : op) : Prop := op_words o /\ op_chunk o /\ op_queries o /\ op_params mk o.
Theorem run_alike mk f : forall os w w', Forall (op_within mk) os -> Alike w w' ->
  fst (run ops mk f os w) = fst (run ops' mk f os w') /\ Alike (snd (run ops mk f os w)) (snd (run ops' mk f os w')).
Proof.
  induction os as [|o os IH]; intros w w' Ho H; [auto|]. inversion Ho as [|? ? (H0 & H1 & H2 & H3) Ho']; subst. cbn [run].
  destruct (K_step f _ _ (K_close f) mk o H0 H1 H2 H3 w w' H) as (E & Hs). fold (step ops mk f o) in *. fold (step ops' mk f o) in *.
  destruct (step ops mk f o w) as [x w1], (step ops' mk f o w') as [x' w1']. cbn [fst snd] in *. subst x'. destruct x as [a| |]; auto.
  destruct (IH w1 w1' Ho' Hs) as (E2 & H4). destruct (run ops mk f os w1) as [[l r] w2], (run ops' mk f os w1') as [[l' r'] w2']. cbn [fst snd] in *. injection E2 as -> ->. auto.
Qed.
End Sends.
