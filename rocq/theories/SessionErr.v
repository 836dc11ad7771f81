(** How network errors surface, for every network.  [fl] is any observation of the
    network that can only become true when an operation reports a network error
    ([watch] below turns any network into one with such an observation). *)
From Coq Require Import ZArith List Bool Lia.
From Verif Require Import GoPrims Value Errors Misc Session SessionGen.
Import ListNotations.
Open Scope Z_scope.

Definition watch {N} (ops : netops N) : netops (N * bool) :=
  {| n_send := fun n cs v => let '(n', r) := n_send ops (fst n) cs v in (n', match r with SIOErr => true | _ => snd n end, r);
     n_recv := fun n => let '(n', r) := n_recv ops (fst n) in (n', match r with RNet => true | _ => snd n end, r);
     n_close := fun n => let '(n', b) := n_close ops (fst n) in (n', b || snd n, b);
     n_shake := fun n => let '(n', r) := n_shake ops (fst n) in (n', snd n, r) |}.

Section Err.
Context {N : Type} (ops : netops N) (fl : N -> bool).
(** [bad]: what is to be shown of the error of the call.  The flag goes up only with an
    operation that reports a network error or an error that is bad by itself. *)
Variable bad : gerr -> Prop.
Hypothesis bad_wrap : forall f l e, bad e -> bad (ewrap f l e).
Hypothesis bad_bc : bad EBadConn.
Hypothesis bad_fail : forall m, bad (EFailMsg m).
Local Hint Resolve bad_wrap bad_bc bad_fail : core.
Hypothesis Hsend : forall n cs v n' r, n_send ops n cs v = (n', r) -> fl n' = fl n \/ r = SIOErr \/ r = SRejected /\ bad (enew FEnc 0).
Hypothesis Hrecv : forall n n' r, n_recv ops n = (n', r) -> fl n' = fl n \/ r = RNet \/ exists pv e, r = RDec pv e /\ bad e.
Hypothesis Hclose : forall n n', n_close ops n = (n', false) -> fl n' = fl n.
Notation W := (world N).
Notation flw w := (fl (w_net w)).

Definition NE {A} (ef : A -> option gerr) (m : M (N := N) A) : Prop :=
  forall w a w', flw w = false -> m w = (Ok a, w') -> flw w' = true -> exists e, ef a = Some e /\ bad e.
Definition NE0 {A} (m : M (N := N) A) : Prop := forall w a w', m w = (Ok a, w') -> flw w' = flw w.
Definition NB {A} (ef : A -> option gerr) (m : M (N := N) A) : Prop :=
  forall w a w', m w = (Ok a, w') -> exists e, ef a = Some e /\ bad e.

Lemma NE_of_NB : forall A (ef : A -> option gerr) m, NB ef m -> NE ef m.
Proof. intros A ef m H w a w' _ E _. eauto. Qed.
Lemma NE_of_NE0 : forall A (ef : A -> option gerr) m, NE0 m -> NE ef m.
Proof. intros A ef m H w a w' H1 E H2. rewrite (H _ _ _ E) in H2. congruence. Qed.
Lemma NE_bind : forall A B (ef : A -> option gerr) (eg : B -> option gerr) m k,
  NE ef m -> (forall a, NE eg (k a)) -> (forall a e, ef a = Some e -> bad e -> NB eg (k a)) -> NE eg (bind m k).
Proof.
  intros A B ef eg m k Hm Hk Hb w b w' H1 E H2. apply bind_inv in E. destruct E as (a & w1 & E1 & E2).
  destruct (flw w1) eqn:F.
  - destruct (Hm _ _ _ H1 E1 F) as (e & He & Hbe). eapply Hb; eauto.
  - exact (Hk a w1 b w' F E2 H2).
Qed.
Lemma NE_bind0 : forall A B (eg : B -> option gerr) (m : M A) (k : A -> M B), NE0 m -> (forall a, NE eg (k a)) -> NE eg (bind m k).
Proof.
  intros A B eg m k Hm Hk w b w' H1 E H2. apply bind_inv in E. destruct E as (a & w1 & E1 & E2).
  refine (Hk a w1 b w' _ E2 H2). rewrite (Hm _ _ _ E1). exact H1.
Qed.
Lemma NB_bind : forall A B (eg : B -> option gerr) (m : M A) (k : A -> M B), (forall a, NB eg (k a)) -> NB eg (bind m k).
Proof. intros A B eg m k Hk w b w' E. apply bind_inv in E. destruct E as (a & w1 & E1 & E2). eapply Hk; eauto. Qed.
Lemma NB_ret : forall A (eg : A -> option gerr) a e, eg a = Some e -> bad e -> NB eg (ret a).
Proof. intros A eg a e H1 H2 w b w' E. injection E as <- <-. eauto. Qed.
Lemma NE0_ret : forall A (a : A), NE0 (ret a). Proof. intros A a w b w' E. injection E as <- <-. reflexivity. Qed.
Lemma NE0_panic : forall A, NE0 (A := A) panic. Proof. intros A w b w' E. discriminate. Qed.
Lemma NE0_nofuel : forall A, NE0 (A := A) nofuel. Proof. intros A w b w' E. discriminate. Qed.
Lemma NE0_bind : forall A B (m : M A) (k : A -> M B), NE0 m -> (forall a, NE0 (k a)) -> NE0 (bind m k).
Proof.
  intros A B m k Hm Hk w b w' E. apply bind_inv in E. destruct E as (a & w1 & E1 & E2).
  rewrite (Hk _ _ _ _ E2). eapply Hm; eauto.
Qed.
Lemma NE0_net : forall A (m : M A), (forall w, w_net (snd (m w)) = w_net w) -> NE0 m.
Proof. intros A m H w b w' E. specialize (H w). rewrite E in H. cbn in H. congruence. Qed.
Lemma NE0_gets : forall i, NE0 (gets i). Proof. intros. apply NE0_net. intros w. unfold gets. destruct (nth_error _ _); reflexivity. Qed.
Lemma NE0_getr : forall i, NE0 (getr i). Proof. intros. apply NE0_net. intros w. unfold getr. destruct (nth_error _ _); reflexivity. Qed.
Lemma NE0_gett : forall i, NE0 (gett i). Proof. intros. apply NE0_net. intros w. unfold gett. destruct (nth_error _ _); reflexivity. Qed.
Lemma NE0_mods : forall i f, NE0 (mods i f).
Proof. intros. apply NE0_net. intros w. unfold mods, bind, gets, sets. destruct (nth_error _ _); reflexivity. Qed.
Lemma NE0_modr : forall i f, NE0 (modr i f).
Proof. intros. apply NE0_net. intros w. unfold modr, bind, getr, setr. destruct (nth_error _ _); reflexivity. Qed.
Lemma NE0_need : forall i, NE0 (need_conn i).
Proof. intros. apply NE0_net. intros w. unfold need_conn, bind, gets. destruct (nth_error _ _); cbn; auto. destruct (s_conn _); reflexivity. Qed.
Lemma NE0_triv : forall A (m : M A), (forall w, w_net (snd (m w)) = w_net w) -> NE0 m.
Proof. exact NE0_net. Qed.

Lemma NE_enc : forall v, NE (fun e => e) (encode_msg ops v).
Proof.
  intros v w a w' H1 E H2. unfold encode_msg, bind, getc, getn, setn in E.
  destruct (n_send ops (w_net w) (c_cs (w_conn w)) v) as [n' r] eqn:Es. cbn in E.
  destruct (Hsend _ _ _ _ _ Es) as [Hs|[Hs|(Hs & Hb)]].
  - destruct r; cbn in E; injection E as <- <-; cbn in H2; congruence.
  - subst r. cbn in E. injection E as <- <-. eexists; split; [reflexivity|]. auto.
  - subst r. cbn in E. injection E as <- <-. eexists; split; [reflexivity|]. auto.
Qed.
Notation ef2 := (fun x : option goval * option gerr => snd x).
Lemma NE_dec : NE ef2 (decode_msg ops).
Proof.
  intros w a w' H1 E H2. unfold decode_msg, bind, getc, getn, setn in E.
  destruct (n_recv ops (w_net w)) as [n' r] eqn:Es. cbn in E.
  destruct (Hrecv _ _ _ Es) as [Hs|[Hs|(pv & e & Hs & Hb)]].
  - destruct r; cbn in E; try discriminate; injection E as <- <-; cbn in H2; congruence.
  - subst r. cbn in E. injection E as <- <-. eexists; split; [reflexivity|]. auto.
  - subst r. cbn in E. injection E as <- <-. eexists; split; [reflexivity|]. auto.
Qed.

Local Hint Resolve NE0_gets NE0_getr NE0_gett NE0_mods NE0_modr NE0_need NE0_ret : ne0.
Ltac ne0 := first [solve [auto with ne0] | apply NE0_triv; intros; reflexivity].
Ltac nb := cbv beta iota;
  lazymatch goal with
  | |- NB _ (ret _) => eapply NB_ret; [reflexivity|solve [auto 10]]
  | |- NB _ (bind _ _) => apply NB_bind; intro; nb
  | |- NB _ (match ?x with _ => _ end) => destruct x; nb
  end.
Ltac nbi :=
  let a := fresh "a" in let e := fresh "e" in let He := fresh "He" in let Hb := fresh "Hb" in
  intros a e He Hb;
  repeat match type of a with (_ * _)%type => let b := fresh "b" in destruct a as [a b] end;
  cbn [fst snd] in He; subst; solve [nb].
Ltac ne1 :=
  cbv beta iota;
  lazymatch goal with
  | |- NE _ (ret _) => apply NE_of_NE0, NE0_ret
  | |- NE _ panic => apply NE_of_NE0, NE0_panic
  | |- NE _ nofuel => apply NE_of_NE0, NE0_nofuel
  | |- NE _ (match ?x with _ => _ end) => destruct x
  | |- NE _ (let '(_, _) := ?x in _) => destruct x
  | |- NE _ (bind _ _) =>
      first [ eapply NE_bind; [solve [eauto with ne]|intro|nbi]
            | apply NE_bind0; [ne0|intro]
            | apply NE_of_NB; nb ]
  | |- NE _ _ => first [solve [eauto with ne] | apply NE_of_NB; solve [nb] | apply NE_of_NE0; ne0]
  end.
Ltac ne := repeat ne1.
Local Hint Resolve NE_enc NE_dec : ne.

Section Inner.
Variable lf : nat.
Variable cls : M (N := N) (option gerr).
Notation ef0 := (fun x : option gerr => x).
Hypothesis Hcls : NE ef0 cls.
Local Hint Resolve Hcls : ne.
Lemma NE_reset_loop : forall f, NE ef0 (reset_loop ops cls f).
Proof. induction f as [|f IH]; cbn [reset_loop]; ne. Qed.
Local Hint Resolve NE_reset_loop : ne.
Lemma NE_reset : NE ef0 (reset ops lf cls).
Proof. unfold reset. ne. Qed.
Local Hint Resolve NE_reset : ne.
Lemma NE_ack_loop : forall f, NE ef0 (ack_loop ops lf cls f).
Proof. induction f as [|f IH]; cbn [ack_loop]; ne. Qed.
Local Hint Resolve NE_ack_loop : ne.
Lemma NE_ack : NE ef0 (ack_failure ops lf cls).
Proof. unfold ack_failure. ne. Qed.
Local Hint Resolve NE_ack : ne.
Lemma NE_consume : NE ef2 (consume ops lf cls).
Proof. unfold consume. ne. Qed.
Local Hint Resolve NE_consume : ne.
Lemma NE_consume_all : NE ef2 (consume_all ops lf cls).
Proof. unfold consume_all. generalize lf at 2 as f. induction f as [|f IH]; cbn [consume_all_loop]; ne. Qed.
Local Hint Resolve NE_consume_all : ne.
Lemma NE_consume_n : forall n, NE ef0 (consume_all_n ops lf cls n).
Proof. induction n as [|n IH]; cbn [consume_all_n]; ne. Qed.
Local Hint Resolve NE_consume_n : ne.
Lemma NE_consume_multiple : forall n, NE ef0 (consume_all_multiple ops lf cls n).
Proof. intros. unfold consume_all_multiple. ne. Qed.
Local Hint Resolve NE_consume_multiple : ne.
Lemma NE_send_run : forall q ps, NE ef0 (send_run ops q ps).
Proof. intros. unfold send_run. ne. Qed.
Lemma NE_send_pull : NE ef0 (send_pull_all ops).
Proof. unfold send_pull_all. ne. Qed.
Local Hint Resolve NE_send_run NE_send_pull : ne.
Lemma NE_send_run_pull : forall q ps, NE ef0 (send_run_pull_all ops q ps).
Proof. intros. unfold send_run_pull_all. ne. Qed.
Local Hint Resolve NE_send_run_pull : ne.
Lemma NE_send_run_consume : forall q ps, NE ef2 (send_run_consume ops lf cls q ps).
Proof. intros. unfold send_run_consume. ne. Qed.
Lemma NE_consume_run : forall q ps, NE ef2 (send_run_pull_all_consume_run ops lf cls q ps).
Proof. intros. unfold send_run_pull_all_consume_run. ne. Qed.
Lemma NE_consume_single : forall q ps, NE (fun x => snd x) (send_run_pull_all_consume_single ops lf cls q ps).
Proof. intros. unfold send_run_pull_all_consume_single. ne. Qed.
Lemma NE_run_consume_all : forall q ps, NE (fun x => snd x) (send_run_pull_all_consume_all ops lf cls q ps).
Proof. intros. unfold send_run_pull_all_consume_all. ne. Qed.
Lemma NE_discard : NE ef2 (send_discard_all_consume ops lf cls).
Proof. intros. unfold send_discard_all_consume. ne. Qed.
Local Hint Resolve NE_send_run_consume NE_consume_run NE_consume_single NE_run_consume_all NE_discard : ne.
Lemma NE_rows_close_body : forall rid, NE ef0 (rows_close_body ops lf cls rid).
Proof. intros. unfold rows_close_body. apply NE_bind0; [ne0|intros r]. eapply NE_bind with (ef := ef0); [|intro; ne|nbi]. ne. Qed.
Local Hint Resolve NE_rows_close_body : ne.
Lemma NE_stmt_close : forall sid, NE ef0 (stmt_close ops lf cls sid).
Proof.
  intros. unfold stmt_close. apply NE_bind0; [ne0|intros s]. destruct (s_closed s); [ne|]. 
  eapply NE_bind with (ef := ef0); [|intro; ne|nbi]. ne.
Qed.
Local Hint Resolve NE_stmt_close : ne.
Lemma NE_rows_close : forall rid, NE ef0 (rows_close ops lf cls rid).
Proof. intros. unfold rows_close. ne. Qed.
Lemma NE_tx_finish : forall q l1 l2 l3 l4 l5 tid, NE ef0 (tx_finish ops lf cls q l1 l2 l3 l4 l5 tid).
Proof.
  intros. unfold tx_finish. apply NE_bind0; [ne0|intros t]. destruct (t_closed t); [ne|].
  apply NE_bind0; [ne0|intros c]. eapply NE_bind with (ef := ef0); [|intro; ne|nbi]. ne.
Qed.
Lemma NE_close_body : NE ef0 (close_body ops lf cls).
Proof.
  pose proof NE_tx_finish as Htx.
  unfold close_body. apply NE_bind0; [ne0|intros c]. destruct (c_closed c); [ne|].
  eapply NE_bind with (ef := ef0); [ne| |nbi]. intros [e|]; [ne|].
  apply NE_bind0; [ne0|intros c2]. eapply NE_bind with (ef := ef0); [| |nbi].
  - destruct (c_tx c2); [apply Htx|ne].
  - intros [e|]; [ne|]. apply NE_bind0; [ne0|intros c3]. destruct (c_pooled c3); [ne|].
    intros w a w' H1 E H2. unfold bind, getn, setn, modc, getc, setc, ret in E. cbn in E.
    destruct (n_close ops (w_net w)) as [n' failed] eqn:En. destruct failed; cbn in E; injection E as <- <-; cbn in H2.
    + eauto.
    + rewrite (Hclose _ _ En) in H2. congruence.
Qed.
Notation efr := (fun x => snd x).
Lemma NE_begin : NE efr (begin_tx ops lf cls).
Proof. unfold begin_tx, guard_open. ne. Qed.
Lemma NE_stmt_exec : forall sid ps, NE efr (stmt_exec ops lf cls sid ps).
Proof. intros. unfold stmt_exec. ne. Qed.
Lemma NE_send_queries : forall l qs pss, NE ef0 (send_queries ops l qs pss).
Proof. intros l qs. induction qs as [|q qs IH]; intros [|ps pss]; cbn [send_queries]; ne. Qed.
Lemma NE_exec_results : forall qs, NE efr (exec_results ops lf cls qs).
Proof. induction qs as [|q qs IH]; cbn [exec_results]; ne. Qed.
Local Hint Resolve NE_send_queries NE_exec_results : ne.
Lemma NE_stmt_exec_pipeline : forall sid pss, NE efr (stmt_exec_pipeline ops lf cls sid pss).
Proof.
  intros. unfold stmt_exec_pipeline. apply NE_bind0; [ne0|intros s]. destruct (s_closed s); [ne|]. destruct (s_rows s); [ne|].
  destruct (negb _); [ne|]. apply NE_bind0; [destruct (s_queries s); ne0|intro]. ne.
Qed.
Lemma NE_stmt_query : forall sid ps, NE efr (stmt_query ops lf cls sid ps).
Proof. intros. unfold stmt_query. ne. Qed.
Lemma NE_stmt_query_pipeline : forall sid ps, NE efr (stmt_query_pipeline ops lf cls sid ps).
Proof. intros. unfold stmt_query_pipeline. ne. Qed.
Local Hint Resolve NE_stmt_query_pipeline : ne.
Lemma NE_query_pipeline : forall qs ps, NE efr (query_pipeline ops lf cls qs ps).
Proof. intros. unfold query_pipeline, guard_open. ne. Qed.
Lemma NE_next_neo : forall rid, NE efr (next_neo ops lf cls rid).
Proof.
  intros. unfold next_neo. apply NE_bind0; [ne0|intros r]. destruct (r_closed r); [ne|].
  eapply NE_bind with (ef := ef0); [ne|intro; ne|nbi].
Qed.
Local Hint Resolve NE_next_neo : ne.
Lemma NE_all_rows : forall rid, ~ bad EEOF -> NE efr (all_rows ops lf cls rid).
Proof.
  intros rid bad_eof. unfold all_rows. generalize (@nil (list goval)) as acc. generalize lf at 2 as f.
  induction f as [|f IH]; intros acc; cbn [all_loop]; [ne|].
  eapply NE_bind; [apply NE_next_neo|intro; ne|].
  intros [[row m] e0] e He Hb. cbn in He. subst e0. destruct e; try nb. now apply bad_eof in Hb.
Qed.
Lemma NE_next_pipeline : forall rid, ~ bad EEOF -> NE efr (next_pipeline ops lf cls rid).
Proof.
  intros rid bad_eof. unfold next_pipeline. ne.
  eapply NE_bind; [apply NE_consume|intro; ne|].
  intros [v e0] e He Hb. cbn in He. subst e0. destruct e; try nb. now apply bad_eof in Hb.
Qed.
Lemma NE_next_sql : forall rid n, NE efr (next_sql ops lf cls rid n).
Proof. intros. unfold next_sql. ne. Qed.

(** a statement without rows closes without using the network *)
Lemma stmt_close_quiet : forall sid (w w' : W) s a, nth_error (w_stmts w) sid = Some s -> s_rows s = None ->
  stmt_close ops lf cls sid w = (Ok a, w') -> w_net w' = w_net w.
Proof.
  intros sid w w' s a E Hr H. unfold stmt_close in H. apply bind_inv in H. destruct H as (s0 & w1 & H1 & H).
  unfold gets in H1. rewrite E in H1. injection H1 as <- <-. destruct (s_closed s); [injection H as <- <-; reflexivity|].
  rewrite Hr in H. cbv beta iota delta [ret need_conn mods modc getc setc bind gets] in H. rewrite E in H. destruct (s_conn s); [|discriminate].
  cbn in H. rewrite E in H. injection H as <- <-. reflexivity.
Qed.
Hypothesis Hcls_rows : forall sid, Pres (norows sid) cls.
Lemma NE_temp : forall A (ef : A -> option gerr) s k, s_rows s = None -> (forall sid, NE ef (k sid)) -> (forall sid, Pres (norows sid) (k sid)) ->
  NE ef (sid <- news s ;; with_defer (k sid) (stmt_close ops lf cls sid)).
Proof.
  intros A ef s k Hs Hk Hn. intros w a w' H1 E H2. apply bind_inv in E. destruct E as (sid & w1 & E1 & E2). injection E1 as <- <-.
  unfold with_defer in E2. set (w1 := Build_world _ _ _ _ _) in E2.
  assert (H3 : exists s0, nth_error (w_stmts w1) (length (w_stmts w)) = Some s0 /\ s_rows s0 = None).
  { exists s. split; auto. cbn. rewrite nth_error_app2 by lia. rewrite Nat.sub_diag. reflexivity. }
  apply (Hn (length (w_stmts w)) w1) in H3.
  destruct (k (length (w_stmts w)) w1) as [[b| |] w2] eqn:Ek; cbn in H3.
  - destruct (stmt_close ops lf cls (length (w_stmts w)) w2) as [[c| |] w3] eqn:Ec; try discriminate. injection E2 as <- <-.
    destruct H3 as (s0 & E0 & Hr0). rewrite (stmt_close_quiet _ _ _ _ _ E0 Hr0 Ec) in H2.
    exact (Hk _ w1 _ _ H1 Ek H2).
  - destruct (stmt_close ops lf cls (length (w_stmts w)) w2) as [[c| |] w3] eqn:Ec; discriminate.
  - discriminate.
Qed.
Lemma NE_exec_neo : forall q ps, NE efr (exec_neo ops lf cls q ps).
Proof.
  intros. unfold exec_neo, guard_open. apply NE_bind0; [ne0|intros c]. destruct (c_stmt c); [ne|]. destruct (c_closed c); [ne|].
  apply NE_temp; auto using NE_stmt_exec. intros. apply norows_stmt_exec; auto.
Qed.
Lemma NE_exec_pipeline : forall q ps, NE efr (exec_pipeline ops lf cls q ps).
Proof.
  intros. unfold exec_pipeline, guard_open. apply NE_bind0; [ne0|intros c]. destruct (c_stmt c); [ne|]. destruct (c_closed c); [ne|].
  apply NE_temp; auto using NE_stmt_exec_pipeline. intros. apply norows_stmt_exec_pipeline; auto.
Qed.
Lemma NE_exec_sql : forall mk q ps, NE efr (exec_sql ops lf cls mk q ps).
Proof.
  intros. unfold exec_sql, guard_open. apply NE_bind0; [ne0|intros c]. destruct (c_stmt c); [ne|]. destruct (c_closed c); [ne|].
  apply NE_temp; auto; unfold stmt_exec_sql, with_args; intros.
  - destruct (driver_args mk ps); [apply NE_stmt_exec|ne|ne].
  - destruct (driver_args mk ps); [apply norows_stmt_exec; auto|..]; intros w; apply norows_same; reflexivity.
Qed.
(** c.statement is kept or cleared *)
Definition CS (w w' : W) : Prop := c_stmt (w_conn w') = c_stmt (w_conn w) \/ c_stmt (w_conn w') = None.
Hypothesis Hcls_cs : Pres CS cls.
Lemma CS_refl : forall w, CS w w. Proof. unfold CS; auto. Qed.
Lemma CS_trans : forall w1 w2 w3, CS w1 w2 -> CS w2 w3 -> CS w1 w3.
Proof. unfold CS. intros w1 w2 w3 [H|H] [H'|H']; rewrite ?H', ?H; auto. Qed.
Lemma CS_enc : forall v, Pres CS (encode_msg ops v).
Proof. intros v w. left. unfold encode_msg, bind, getc, getn, setn. cbn. destruct (n_send _ _ _ _) as [n' [| |]]; reflexivity. Qed.
Lemma CS_dec : Pres CS (decode_msg ops).
Proof. intros w. left. unfold decode_msg, bind, getc, getn, setn. cbn. destruct (n_recv _ _) as [n' [| | |]]; reflexivity. Qed.
Lemma NE_query_neo : forall q ps, NE efr (query_neo ops lf cls q ps).
Proof.
  intros. unfold query_neo, guard_open. apply NE_bind0; [ne0|intros c]. destruct (c_stmt c); [ne|]. destruct (c_closed c); [ne|].
  intros w a w' H1 E H2. apply bind_inv in E. destruct E as (sid & w1 & E1 & E). injection E1 as <- <-.
  apply bind_inv in E. destruct E as (u & w1 & E1 & E). injection E1 as <- <-. cbn in E.
  set (w1 := Build_world _ _ _ _ _) in E.
  assert (H3 : exists s0, nth_error (w_stmts w1) (length (w_stmts w)) = Some s0 /\ s_rows s0 = None).
  { exists (new_stmt q). split; auto. cbn. rewrite nth_error_app2 by lia. rewrite Nat.sub_diag. reflexivity. }
  apply bind_inv in E. destruct E as ([v e] & w2 & E2 & E).
  assert (H4 : exists s0, nth_error (w_stmts w2) (length (w_stmts w)) = Some s0 /\ s_rows s0 = None).
  { assert (Hx : Pres (norows (length (w_stmts w))) (send_run_pull_all_consume_run ops lf cls q ps)).
    { apply Pres_consume_run; auto using norows_enc, norows_dec; [unfold norows; auto|unfold norows; auto|].
      apply norows_keep. reflexivity. }
    specialize (Hx w1 H3). rewrite E2 in Hx. exact Hx. }
  assert (H5 : c_stmt (w_conn w2) = Some (length (w_stmts w)) \/ c_stmt (w_conn w2) = None).
  { assert (Hx : Pres CS (send_run_pull_all_consume_run ops lf cls q ps)).
    { apply Pres_consume_run; auto using CS_enc, CS_dec, CS_refl; [exact CS_trans|]. intros x. left. reflexivity. }
    specialize (Hx w1). rewrite E2 in Hx. exact Hx. }
  assert (Hfin : forall e', (close_cur_stmt ops lf cls ;; ret (None, Some e')) w2 = (Ok a, w') -> flw w2 = true -> bad e' -> exists e0, snd a = Some e0 /\ bad e0).
  { intros e' Hc _ Hb. apply bind_inv in Hc. destruct Hc as (x & w3 & _ & Hc). injection Hc as <- <-. cbn. eauto. }
  assert (Hnet : forall e', (close_cur_stmt ops lf cls ;; ret (@None nat, Some e')) w2 = (Ok a, w') -> w_net w' = w_net w2).
  { intros e' Hc. apply bind_inv in Hc. destruct Hc as (x & w3 & Hc & Hr). injection Hr as <- <-.
    unfold close_cur_stmt in Hc. apply bind_inv in Hc. destruct Hc as (c' & w4 & Hg & Hc). injection Hg as <- <-.
    destruct H5 as [H5|H5]; rewrite H5 in Hc; [|discriminate].
    apply bind_inv in Hc. destruct Hc as (r & w4 & Hc & Hr). injection Hr as <- <-.
    destruct H4 as (s0 & E0 & Hr0). exact (stmt_close_quiet _ _ _ _ _ E0 Hr0 Hc). }
  destruct (flw w2) eqn:F.
  - destruct (NE_consume_run q ps w1 _ _ H1 E2 F) as (e0 & He0 & Hb0). cbn in He0. subst e. eapply Hfin; eauto.
  - exfalso. destruct e as [e|]; [apply Hnet in E; congruence|].
    destruct v as [v|]; [|apply Hnet in E; congruence]. destruct v; try (apply Hnet in E; congruence).
    apply bind_inv in E. destruct E as (c' & w3 & Hg & E). injection Hg as <- <-.
    destruct (c_stmt (w_conn w2)); [|discriminate].
    apply bind_inv in E. destruct E as (rid & w3 & Hg & E). injection Hg as <- <-.
    apply bind_inv in E. destruct E as (u' & w3 & Hg & E). injection E as <- <-.
    apply NE0_mods in Hg. cbn in Hg. congruence.
Qed.
End Inner.

Lemma NE_close : forall f, NE (fun x => x) (close ops f).
Proof. induction f as [|f IH]; cbn [close]; [apply NE_of_NE0, NE0_nofuel|]. apply NE_close_body; auto. Qed.
Lemma CS_close : forall f, Pres CS (close ops f).
Proof.
  intros f. assert (Hm : forall g : conn -> conn, (forall c, c_stmt (g c) = c_stmt c) -> Pres CS (modc (N := N) g)).
  { intros g H w. left. cbn. apply H. }
  assert (Hs : forall A (m : M (N := N) A), (forall w, w_conn (snd (m w)) = w_conn w) -> Pres CS m).
  { intros A m H w. left. rewrite H. reflexivity. }
  assert (Hmr : forall i g, Pres CS (modr (N := N) i g)).
  { intros. apply Hs. intros w. unfold modr, bind, getr, setr. destruct (nth_error _ _); reflexivity. }
  assert (Hms : forall i g, Pres CS (mods (N := N) i g)).
  { intros. apply Hs. intros w. unfold mods, bind, gets, sets. destruct (nth_error _ _); reflexivity. }
  assert (Hno : Pres CS (modc (N := N) (c_set_stmt None))) by (intros w; right; reflexivity).
  pose proof CS_refl as Rr. pose proof CS_trans as Rt.
  apply Pres_close; auto. intros lf cls Hc. apply Pres_close_body; auto using CS_enc, CS_dec.
  - unfold net_close. pres; auto; try (apply Hs; reflexivity).
  - intros sid. unfold stmt_drop. pres.
Qed.

Definition out_err (r : out) : option gerr :=
  match r with
  | OErr e | OHandle _ e | OResult _ e | OResults _ e | ONext _ _ e | OAll _ _ e | OQueryAll _ _ _ e | OPipe _ _ _ e | OCells _ e => e
  | OUnit | OMeta _ => None
  end.
(** All, QueryNeoAll and NextPipeline take a bare io.EOF for the end of the data. *)
Definition eof_ok (o : op) : Prop := match o with RAll _ | CQueryAll _ _ | RNextPipeline _ => True | _ => False end.
Theorem NE_step : forall mk f o, (forall q ps, o <> CQueryAll q ps) -> ~ bad EEOF \/ ~ eof_ok o -> NE out_err (step ops mk f o).
Proof.
  intros mk f o Ho Heof. pose proof (NE_close f) as Hc. pose proof (fun sid => norows_close ops sid f) as Hn. pose proof (CS_close f) as Hcs.
  assert (Hm : forall A (ef : A -> option gerr) m g, NE ef m -> (forall a, exists r, g a = ret r /\ out_err r = ef a) -> NE out_err (bind m g)).
  { intros A ef m g H Hg. eapply NE_bind; [exact H|..].
    - intros a. destruct (Hg a) as (r & -> & _). apply NE_of_NE0, NE0_ret.
    - intros a e He Hb. destruct (Hg a) as (r & -> & Hr). eapply NB_ret; eauto. congruence. }
  destruct o; unfold step; cbn [step_body]; try (exfalso; eapply Ho; reflexivity);
    try first [ eapply (Hm _ (fun x => snd x)); [|intros a; repeat match goal with x : (_ * _)%type |- _ => destruct x end; eexists; split; reflexivity]
          | eapply (Hm _ (fun x => x)); [|intros a; eexists; split; reflexivity] ];
  eauto using NE_begin, NE_exec_neo, NE_exec_pipeline, NE_query_neo, NE_query_pipeline, NE_exec_sql, NE_stmt_exec, NE_stmt_exec_pipeline,
    NE_stmt_query, NE_stmt_query_pipeline, NE_stmt_close, NE_next_neo, NE_all_rows, NE_next_pipeline, NE_next_sql, NE_rows_close.
  - unfold prepare, guard_open. ne.
  - unfold prepare_pipeline, guard_open. ne.
  - unfold set_chunk_size. ne.
  - unfold query_sql, with_args. destruct (driver_args mk args); [apply NE_query_neo; auto|ne|ne].
  - unfold stmt_exec_sql, with_args. destruct (driver_args mk args); [apply NE_stmt_exec; auto|ne|ne].
  - unfold stmt_query_sql, with_args. destruct (driver_args mk args); [apply NE_stmt_query; auto|ne|ne].
  - apply NE_all_rows; auto. destruct Heof as [H|H]; [exact H|exfalso; now apply H].
  - apply NE_next_pipeline; auto. destruct Heof as [H|H]; [exact H|exfalso; now apply H].
  - ne.
  - apply NE_tx_finish; auto.
  - apply NE_tx_finish; auto.
Qed.
End Err.

(** the innermost error is driver.ErrBadConn, or a FAILURE the server sent *)
Definition bad (e : gerr) : Prop := innermost e = EBadConn \/ exists m, innermost e = EFailMsg m.
Lemma bad_wrap : forall f l e, bad e -> bad (ewrap f l e).
Proof. intros f l e H. unfold bad in *. destruct e; exact H. Qed.
Lemma bad_bc : bad EBadConn. Proof. left; reflexivity. Qed.
Lemma bad_fail : forall m, bad (EFailMsg m). Proof. right; exists m; reflexivity. Qed.
Lemma bad_eof : ~ bad EEOF. Proof. intros [H|[m H]]; discriminate. Qed.

(** ** The observation of [watch] is such an observation, and it agrees with the mark on the connection *)
Section Watch.
Context {N : Type} (ops : netops N).
Lemma watch_send : forall n cs v n' r, n_send (watch ops) n cs v = (n', r) -> r <> SIOErr -> snd n' = snd n.
Proof. intros [n b] cs v n' r H Hr. cbn in H. destruct (n_send ops n cs v) as [n1 r1]. injection H as <- <-. destruct r1; cbn; congruence. Qed.
Lemma watch_recv : forall n n' r, n_recv (watch ops) n = (n', r) -> r <> RNet -> snd n' = snd n.
Proof. intros [n b] n' r H Hr. cbn in H. destruct (n_recv ops n) as [n1 r1]. injection H as <- <-. destruct r1; cbn; congruence. Qed.
Lemma watch_close : forall n n', n_close (watch ops) n = (n', false) -> snd n' = snd n.
Proof. intros [n b] n' H. cbn in H. destruct (n_close ops n) as [n1 r1]. injection H as <- ->. reflexivity. Qed.

Theorem watch_step : forall mk f o, (forall q ps, o <> CQueryAll q ps) -> NE snd bad out_err (step (watch ops) mk f o).
Proof.
  intros mk f o Ho. apply NE_step; auto using bad_wrap, bad_bc, bad_fail, bad_eof, watch_close.
  - intros n cs v n' r H. pose proof (watch_send n cs v n' r H). destruct r; auto; left; apply H0; discriminate.
  - intros n n' r H. pose proof (watch_recv n n' r H). destruct r; auto; left; apply H0; discriminate.
Qed.

Definition marked (w w' : world (N * bool)) : Prop :=
  (snd (w_net w) = true -> c_err (w_conn w) = true) -> (snd (w_net w') = true -> c_err (w_conn w') = true).
Let Rr : forall w, marked w w. Proof. unfold marked; auto. Qed.
Let Rt : forall w1 w2 w3, marked w1 w2 -> marked w2 w3 -> marked w1 w3. Proof. unfold marked; auto. Qed.
Lemma marked_modc : forall f, (forall c, c_err c = true -> c_err (f c) = true) -> Pres marked (modc f).
Proof. intros f H w. unfold marked. cbn. auto. Qed.
Lemma marked_same : forall A (m : M A), (forall w, w_net (snd (m w)) = w_net w /\ w_conn (snd (m w)) = w_conn w) -> Pres marked m.
Proof. intros A m H w. destruct (H w) as (H1 & H2). unfold marked. rewrite H1, H2. auto. Qed.
Lemma marked_modr : forall i f, Pres marked (modr i f).
Proof. intros. apply marked_same. intros w. unfold modr, bind, getr, setr. destruct (nth_error _ _); split; reflexivity. Qed.
Lemma marked_mods : forall i f, Pres marked (mods i f).
Proof. intros. apply marked_same. intros w. unfold mods, bind, gets, sets. destruct (nth_error _ _); split; reflexivity. Qed.
Lemma marked_enc : forall v, Pres marked (encode_msg (watch ops) v).
Proof.
  intros v w. unfold marked, encode_msg, bind, getc, getn, setn. cbn.
  destruct (n_send ops _ _ _) as [n' r]; destruct r; cbn; auto.
Qed.
Lemma marked_dec : Pres marked (decode_msg (watch ops)).
Proof.
  intros w. unfold marked, decode_msg, bind, getc, getn, setn. cbn.
  destruct (n_recv ops _) as [n' r]; destruct r; cbn; auto.
Qed.
Lemma marked_netclose : Pres marked (net_close (watch ops)).
Proof.
  intros w. unfold marked, net_close, bind, getc, getn, setn. cbn.
  destruct (n_close ops _) as [n' r]; destruct r; cbn; auto.
Qed.
Ltac mk := auto using marked_modr, marked_mods, marked_enc, marked_dec, marked_netclose; try (apply marked_modc; auto); try (apply marked_same; split; reflexivity).
Lemma marked_drop : forall sid, Pres marked (stmt_drop sid).
Proof. intros. unfold stmt_drop. pres; mk. Qed.
Lemma marked_close : forall f, Pres marked (close (watch ops) f).
Proof. intros. apply Pres_close; auto. intros. apply Pres_close_body; try exact Rr; try exact Rt; intros; mk. apply marked_drop. Qed.
Theorem marked_step : forall mk f o, Pres marked (step (watch ops) mk f o).
Proof.
  intros mk f o. pose proof (marked_close f) as Hc.
  assert (Hsc : forall i, Pres marked (stmt_close (watch ops) f (close (watch ops) f) i)).
  { intros. apply Pres_stmt_close; try exact Rr; try exact Rt; intros; mk. apply marked_drop. }
  assert (Hx : forall i ps, Pres marked (stmt_exec (watch ops) f (close (watch ops) f) i ps)).
  { intros. apply Pres_stmt_exec; try exact Rr; try exact Rt; intros; mk. }
  assert (Hy : forall i ps, Pres marked (stmt_exec_pipeline (watch ops) f (close (watch ops) f) i ps)).
  { intros. apply Pres_stmt_exec_pipeline; try exact Rr; try exact Rt; intros; mk. }
  assert (Hn : forall s, Pres marked (news s)) by (intros; mk).
  apply Pres_step_body; try exact Rr; try exact Rt; auto; intros; mk.
  - apply marked_drop.
  - unfold guard_open. pres; mk.
  - unfold exec_neo, guard_open. pres; mk.
  - unfold exec_pipeline, guard_open. pres; mk.
  - unfold exec_sql, guard_open, stmt_exec_sql, with_args. pres; mk.
Qed.
End Watch.
