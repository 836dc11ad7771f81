(** The value the decoder returns beside an error is not looked at, with one exception:
    a SUCCESS message beside a bare io.EOF, in NextPipeline (rows.go:270-276). *)
From Coq Require Import ZArith List Bool Lia.
From Verif Require Import GoPrims Value Errors Misc Session.
Import ListNotations.

(** What is left of the value beside the error [e]. *)
Definition seen (e : gerr) (v : option goval) : option goval :=
  match e, v with EEOF, Some (VSuccess m) => Some (VSuccess m) | _, _ => None end.
(** The network [ops] with a decoder that returns no more than that. *)
Definition blind {N} (ops : netops N) : netops N :=
  {| n_send := n_send ops;
     n_recv := fun n => let '(n', r) := n_recv ops n in (n', match r with RDec v e => RDec (seen e v) e | _ => r end);
     n_close := n_close ops; n_shake := n_shake ops |}.

Section Blind.
Context {N : Type} (ops : netops N).
Notation ops' := (blind ops).
Definition Bl {A} (R : A -> A -> Prop) (m m' : M (N := N) A) : Prop := forall w,
  snd (m w) = snd (m' w) /\
  match fst (m w), fst (m' w) with Ok a, Ok b => R a b | Panic, Panic => True | NoFuel, NoFuel => True | _, _ => False end.
(** the same error; the same value if there is none, what is seen of it if there is one *)
Definition same (a b : option goval * option gerr) : Prop :=
  snd a = snd b /\ match snd a with None => fst a = fst b | Some e => seen e (fst a) = seen e (fst b) end.
(** the same error; the same values if there is none *)
Definition same3 (a b : option goval * option goval * option gerr) : Prop :=
  snd a = snd b /\ (snd a = None -> a = b).
Notation BlE := (Bl eq).
Lemma Bl_refl : forall A (m : M (N := N) A), BlE m m.
Proof. intros A m w. split; [reflexivity|]. destruct (fst (m w)); auto. Qed.
Lemma Bl_bind : forall A C (R : A -> A -> Prop) (S : C -> C -> Prop) (m m' : M A) (k k' : A -> M C),
  Bl R m m' -> (forall a b, R a b -> Bl S (k a) (k' b)) -> Bl S (bind m k) (bind m' k').
Proof.
  intros A C R S m m' k k' Hm Hk w. unfold bind. destruct (Hm w) as (E & H). destruct (m w) as [o w1], (m' w) as [o' w1']. cbn [fst snd] in *. subst w1'.
  destruct o, o'; try contradiction; [apply (Hk _ _ H)|split; auto|split; auto].
Qed.
Lemma Bl_defer : forall A C (m m' : M A) (d d' : M C), BlE m m' -> BlE d d' -> BlE (with_defer m d) (with_defer m' d').
Proof.
  intros A C m m' d d' Hm Hd w. unfold with_defer. destruct (Hm w) as (E & H). destruct (m w) as [o w1], (m' w) as [o' w1']. cbn [fst snd] in *. subst w1'.
  destruct (Hd w1) as (E2 & H2). destruct (d w1) as [p w2], (d' w1) as [p' w2']. cbn [fst snd] in *. subst w2'.
  destruct o, o'; try contradiction; destruct p, p'; try contradiction; cbn; auto.
Qed.
Lemma Bl_ret : forall A (R : A -> A -> Prop) a b, R a b -> Bl R (ret a) (ret b).
Proof. intros. split; auto. Qed.
Lemma Bl_encode : forall v, BlE (encode_msg ops v) (encode_msg ops' v).
Proof. intros. apply Bl_refl. Qed.
Lemma Bl_decode : Bl same (decode_msg ops) (decode_msg ops').
Proof.
  intros w. unfold decode_msg, bind, getn, setn, modc, getc, setc, ret, panic. cbn. destruct (n_recv ops (w_net w)) as [n' []]; cbn; split; auto; unfold same; cbn; auto.
  split; [reflexivity|]. destruct e; try reflexivity. now destruct partial as [[]|].
Qed.

Section Inner.
Variables (lf : nat) (cls cls' : M (N := N) (option gerr)).
Hypothesis Hcls : BlE cls cls'.

Ltac rel H := lazymatch type of H with
  | _ = _ => subst
  | same ?a ?b => destruct a as [? [?|]], b as [? [?|]]; let E := fresh "E" in destruct H as (E & ?); cbn [fst snd] in *; try discriminate E; try (injection E as ->); try clear E; subst
  | same3 ?a ?b => destruct a as [[? ?] [?|]], b as [[? ?] [?|]]; let E := fresh "E" in destruct H as (E & ?); cbn [fst snd] in *; try discriminate E; try (injection E as ->); try clear E;
      try match goal with K : None = None -> _ |- _ => specialize (K eq_refl); injection K as -> -> end
  end.
Ltac sim1 := cbv beta iota; match goal with
  | |- Bl _ (ret ?a) (ret ?a) => apply Bl_ret; solve [reflexivity | split; auto | split; reflexivity]
  | |- Bl same (ret _) (ret _) => apply Bl_ret; solve [split; auto]
  | |- Bl same3 (ret _) (ret _) => apply Bl_ret; solve [split; [reflexivity|discriminate]]
  | |- Bl _ panic panic => intros ?; split; exact I || reflexivity
  | |- Bl _ nofuel nofuel => intros ?; split; exact I || reflexivity
  | |- Bl eq (with_defer _ _) (with_defer _ _) => apply Bl_defer
  | |- Bl _ (bind getn _) (bind getn _) => eapply Bl_bind; [apply Bl_refl|]; intros ? ? <-; cbn [n_close n_shake blind]
  | |- Bl _ (let '(_, _) := ?x in _) _ => destruct x
  | |- Bl _ (bind _ _) (bind _ _) => eapply Bl_bind; [solve [eauto using Bl_refl with sim]|]; let H := fresh "R" in intros ? ? H; rel H
  | |- Bl _ (bind (A := (option goval * option gerr)%type) _ _) (bind _ _) => eapply Bl_bind with (R := same); [|let H := fresh "R" in intros ? ? H; rel H]
  | |- Bl _ (bind _ _) (bind _ _) => eapply Bl_bind with (R := eq); [|intros ? ? <-]
  | |- Bl _ (match match ?x with _ => _ end with _ => _ end) _ => destruct x
  | |- Bl _ (match ?x with _ => _ end) _ => destruct x
  | |- Bl eq ?m ?m => apply Bl_refl
  | |- Bl _ _ _ => solve [eauto with sim]
  end.
Ltac sim := repeat sim1.
Local Hint Resolve Bl_encode Bl_decode Hcls : sim.
Lemma Bl_send_run : forall q ps, Bl eq (send_run ops q ps) (send_run ops' q ps).
Proof. intros. unfold send_run. sim. Qed.
Local Hint Resolve Bl_send_run : sim.
Lemma Bl_send_pull : Bl eq (send_pull_all ops) (send_pull_all ops').
Proof. unfold send_pull_all. sim. Qed.
Local Hint Resolve Bl_send_pull : sim.
Lemma Bl_run_pull : forall q ps, Bl eq (send_run_pull_all ops q ps) (send_run_pull_all ops' q ps).
Proof. intros. unfold send_run_pull_all. sim. Qed.
Local Hint Resolve Bl_run_pull : sim.
Lemma Bl_send_queries : forall l qs pss, Bl eq (send_queries ops l qs pss) (send_queries ops' l qs pss).
Proof. intros l. induction qs as [|q qs IH]; intros [|ps pss]; cbn [send_queries]; sim. Qed.
Local Hint Resolve Bl_send_queries : sim.
Lemma Bl_reset_loop : forall f, Bl eq (reset_loop ops cls f) (reset_loop ops' cls' f).
Proof. induction f as [|f IH]; cbn [reset_loop]; sim. Qed.
Local Hint Resolve Bl_reset_loop : sim.
Lemma Bl_reset : Bl eq (reset ops lf cls) (reset ops' lf cls').
Proof. unfold reset. sim. Qed.
Local Hint Resolve Bl_reset : sim.
Lemma Bl_ack_loop : forall f, Bl eq (ack_loop ops lf cls f) (ack_loop ops' lf cls' f).
Proof. induction f as [|f IH]; cbn [ack_loop]; sim. Qed.
Local Hint Resolve Bl_ack_loop : sim.
Lemma Bl_ack : Bl eq (ack_failure ops lf cls) (ack_failure ops' lf cls').
Proof. unfold ack_failure. sim. Qed.
Local Hint Resolve Bl_ack : sim.
Lemma Bl_consume : Bl same (consume ops lf cls) (consume ops' lf cls').
Proof. unfold consume. sim. Qed.
Local Hint Resolve Bl_consume : sim.
Lemma Bl_consume_all_loop : forall f, Bl same (consume_all_loop ops lf cls f) (consume_all_loop ops' lf cls' f).
Proof. induction f as [|f IH]; cbn [consume_all_loop]; sim. Qed.
Local Hint Resolve Bl_consume_all_loop : sim.
Lemma Bl_consume_all : Bl same (consume_all ops lf cls) (consume_all ops' lf cls').
Proof. apply Bl_consume_all_loop. Qed.
Local Hint Resolve Bl_consume_all : sim.
Lemma Bl_consume_all_n : forall n, Bl eq (consume_all_n ops lf cls n) (consume_all_n ops' lf cls' n).
Proof. induction n as [|n IH]; cbn [consume_all_n]; sim. Qed.
Local Hint Resolve Bl_consume_all_n : sim.
Lemma Bl_consume_all_multiple : forall n, Bl eq (consume_all_multiple ops lf cls n) (consume_all_multiple ops' lf cls' n).
Proof. intros n. unfold consume_all_multiple. sim. Qed.
Local Hint Resolve Bl_consume_all_multiple : sim.
Lemma Bl_send_run_consume : forall q ps, Bl same (send_run_consume ops lf cls q ps) (send_run_consume ops' lf cls' q ps).
Proof. intros. unfold send_run_consume. sim. Qed.
Local Hint Resolve Bl_send_run_consume : sim.
Lemma Bl_run_pull_run : forall q ps, Bl same (send_run_pull_all_consume_run ops lf cls q ps) (send_run_pull_all_consume_run ops' lf cls' q ps).
Proof. intros. unfold send_run_pull_all_consume_run. sim. Qed.
Local Hint Resolve Bl_run_pull_run : sim.
Lemma Bl_run_pull_single : forall q ps, Bl same3 (send_run_pull_all_consume_single ops lf cls q ps) (send_run_pull_all_consume_single ops' lf cls' q ps).
Proof. intros. unfold send_run_pull_all_consume_single. sim. Qed.
Local Hint Resolve Bl_run_pull_single : sim.
Lemma Bl_run_pull_all : forall q ps, Bl same3 (send_run_pull_all_consume_all ops lf cls q ps) (send_run_pull_all_consume_all ops' lf cls' q ps).
Proof. intros. unfold send_run_pull_all_consume_all. sim. Qed.
Local Hint Resolve Bl_run_pull_all : sim.
Lemma Bl_discard : Bl same (send_discard_all_consume ops lf cls) (send_discard_all_consume ops' lf cls').
Proof. unfold send_discard_all_consume. sim. Qed.
Local Hint Resolve Bl_discard : sim.
Lemma Bl_rows_close_body : forall r, Bl eq (rows_close_body ops lf cls r) (rows_close_body ops' lf cls' r).
Proof. intros. unfold rows_close_body. sim. Qed.
Local Hint Resolve Bl_rows_close_body : sim.
Lemma Bl_stmt_close : forall s, Bl eq (stmt_close ops lf cls s) (stmt_close ops' lf cls' s).
Proof. intros. unfold stmt_close. sim. Qed.
Local Hint Resolve Bl_stmt_close : sim.
Lemma Bl_rows_close : forall s, Bl eq (rows_close ops lf cls s) (rows_close ops' lf cls' s).
Proof. intros. unfold rows_close. sim. Qed.
Local Hint Resolve Bl_rows_close : sim.
Lemma Bl_tx_finish : forall q l1 l2 l3 l4 l5 t, Bl eq (tx_finish ops lf cls q l1 l2 l3 l4 l5 t) (tx_finish ops' lf cls' q l1 l2 l3 l4 l5 t).
Proof. intros. unfold tx_finish. sim. Qed.
Local Hint Resolve Bl_tx_finish : sim.
Lemma Bl_close_body : Bl eq (close_body ops lf cls) (close_body ops' lf cls').
Proof. unfold close_body, rollback. sim. Qed.
Local Hint Resolve Bl_close_body : sim.
Lemma Bl_initialize : forall u p, Bl eq (initialize ops lf cls u p) (initialize ops' lf cls' u p).
Proof. intros. unfold initialize. sim. Qed.
Local Hint Resolve Bl_initialize : sim.
Lemma Bl_begin : Bl eq (begin_tx ops lf cls) (begin_tx ops' lf cls').
Proof. unfold begin_tx, guard_open. sim. Qed.
Local Hint Resolve Bl_begin : sim.
Lemma Bl_stmt_exec : forall s ps, Bl eq (stmt_exec ops lf cls s ps) (stmt_exec ops' lf cls' s ps).
Proof. intros. unfold stmt_exec. sim. Qed.
Local Hint Resolve Bl_stmt_exec : sim.
Lemma Bl_exec_results : forall qs, Bl eq (exec_results ops lf cls qs) (exec_results ops' lf cls' qs).
Proof. induction qs as [|q qs IH]; cbn [exec_results]; sim. Qed.
Local Hint Resolve Bl_exec_results : sim.
Lemma Bl_stmt_exec_pipeline : forall s ps, Bl eq (stmt_exec_pipeline ops lf cls s ps) (stmt_exec_pipeline ops' lf cls' s ps).
Proof. intros. unfold stmt_exec_pipeline. sim. Qed.
Local Hint Resolve Bl_stmt_exec_pipeline : sim.
Lemma Bl_stmt_query : forall s ps, Bl eq (stmt_query ops lf cls s ps) (stmt_query ops' lf cls' s ps).
Proof. intros. unfold stmt_query. sim. Qed.
Local Hint Resolve Bl_stmt_query : sim.
Lemma Bl_stmt_query_pipeline : forall s ps, Bl eq (stmt_query_pipeline ops lf cls s ps) (stmt_query_pipeline ops' lf cls' s ps).
Proof. intros. unfold stmt_query_pipeline. sim. Qed.
Local Hint Resolve Bl_stmt_query_pipeline : sim.
Lemma Bl_close_cur : Bl eq (close_cur_stmt ops lf cls) (close_cur_stmt ops' lf cls').
Proof. unfold close_cur_stmt. sim. Qed.
Local Hint Resolve Bl_close_cur : sim.
Lemma Bl_query_neo : forall q ps, Bl eq (query_neo ops lf cls q ps) (query_neo ops' lf cls' q ps).
Proof. intros. unfold query_neo, guard_open. sim. Qed.
Local Hint Resolve Bl_query_neo : sim.
Lemma Bl_query_pipeline : forall q ps, Bl eq (query_pipeline ops lf cls q ps) (query_pipeline ops' lf cls' q ps).
Proof. intros. unfold query_pipeline, guard_open. sim. Qed.
Local Hint Resolve Bl_query_pipeline : sim.
Lemma Bl_exec_neo : forall q ps, Bl eq (exec_neo ops lf cls q ps) (exec_neo ops' lf cls' q ps).
Proof. intros. unfold exec_neo, guard_open. sim. Qed.
Local Hint Resolve Bl_exec_neo : sim.
Lemma Bl_exec_pipeline : forall q ps, Bl eq (exec_pipeline ops lf cls q ps) (exec_pipeline ops' lf cls' q ps).
Proof. intros. unfold exec_pipeline, guard_open. sim. Qed.
Local Hint Resolve Bl_exec_pipeline : sim.
Lemma Bl_next_neo : forall r, Bl eq (next_neo ops lf cls r) (next_neo ops' lf cls' r).
Proof. intros. unfold next_neo. sim. Qed.
Local Hint Resolve Bl_next_neo : sim.
Lemma Bl_all_loop : forall f r acc, Bl eq (all_loop ops lf cls f r acc) (all_loop ops' lf cls' f r acc).
Proof. induction f as [|f IH]; intros r acc; cbn [all_loop]; sim. Qed.
Local Hint Resolve Bl_all_loop : sim.
Lemma Bl_all : forall r, Bl eq (all_rows ops lf cls r) (all_rows ops' lf cls' r).
Proof. intros. apply Bl_all_loop. Qed.
Local Hint Resolve Bl_all : sim.
Lemma Bl_query_neo_all : forall q ps, Bl eq (query_neo_all ops lf cls q ps) (query_neo_all ops' lf cls' q ps).
Proof. intros. unfold query_neo_all. sim. Qed.
Local Hint Resolve Bl_query_neo_all : sim.
Lemma Bl_next_pipeline : forall r, Bl eq (next_pipeline ops lf cls r) (next_pipeline ops' lf cls' r).
Proof. intros. unfold next_pipeline. sim.
  all: match goal with H : seen _ _ = seen _ ?o |- _ => destruct o as [[]|]; cbn in H; try discriminate H; try (injection H as ->); apply Bl_refl end.
Qed.
Local Hint Resolve Bl_next_pipeline : sim.
Lemma Bl_step_body : forall mk o, Bl eq (step_body ops lf cls mk o) (step_body ops' lf cls' mk o).
Proof.
  intros mk o. destruct o; cbn [step_body]; unfold prepare, prepare_pipeline, exec_sql, query_sql, stmt_exec_sql, stmt_query_sql, with_args, set_chunk_size, next_sql, commit, rollback, guard_open; sim.
Qed.
Local Hint Resolve Bl_step_body : sim.
End Inner.

Lemma Bl_close : forall f, Bl eq (close ops f) (close ops' f).
Proof. induction f as [|f IH]; cbn [close]; [apply Bl_refl|]. apply Bl_close_body. exact IH. Qed.
Local Hint Resolve Bl_close : sim.
Theorem Bl_step : forall mk f o, Bl eq (step ops mk f o) (step ops' mk f o).
Proof. intros. apply Bl_step_body. apply Bl_close. Qed.
Theorem Bl_open : forall f u p, Bl eq (initialize ops f (close ops f) u p) (initialize ops' f (close ops' f) u p).
Proof. intros. apply Bl_initialize. apply Bl_close. Qed.
(** Every call does the same whether or not the values beside errors can be seen. *)
Theorem step_blind : forall mk f o w, step ops mk f o w = step ops' mk f o w.
Proof.
  intros mk f o w. destruct (Bl_step mk f o w) as (E & H). destruct (step ops mk f o w) as [r w1], (step ops' mk f o w) as [r' w1']. cbn [fst snd] in *. subst.
  destruct r, r'; try contradiction; subst; reflexivity.
Qed.
Theorem run_blind : forall mk f os w, run ops mk f os w = run ops' mk f os w.
Proof.
  intros mk f os. induction os as [|o os IH]; intros w; cbn [run]; [reflexivity|]. rewrite <- step_blind. destruct (step ops mk f o w) as [[r| |] w1]; auto. now rewrite IH.
Qed.
Theorem open_blind : forall f u p w, initialize ops f (close ops f) u p w = initialize ops' f (close ops' f) u p w.
Proof.
  intros f u p w. destruct (Bl_open f u p w) as (E & H). destruct (initialize ops f (close ops f) u p w) as [r w1], (initialize ops' f (close ops' f) u p w) as [r' w1']. cbn [fst snd] in *. subst.
  destruct r, r'; try contradiction; subst; reflexivity.
Qed.
End Blind.
