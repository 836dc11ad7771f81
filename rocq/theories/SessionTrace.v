(** What the driver sends, for every network: the network with a log of its operations. *)
From Coq Require Import ZArith List Bool Lia.
From Verif Require Import GoPrims PrimLemmas Value Errors Misc Session SessionVoc SessionGen SessionBolt SessionSim.
Import ListNotations.
Open Scope Z_scope.

(** Everything that happens between the driver and the network, in order. *)
Inductive event := Sent (v : goval) (r : sres) | Got (r : rres) | Shut (failed : bool) | Shaken.
Definition logged {N} (ops : netops N) : netops (N * list event) :=
  {| n_send := fun n cs v => let '(n', r) := n_send ops (fst n) cs v in (n', snd n ++ [Sent v r], r);
     n_recv := fun n => let '(n', r) := n_recv ops (fst n) in (n', snd n ++ [Got r], r);
     n_close := fun n => let '(n', b) := n_close ops (fst n) in (n', snd n ++ [Shut b], b);
     n_shake := fun n => let '(n', r) := n_shake ops (fst n) in (n', snd n ++ [Shaken], r) |}.
Definition log {N} (w : world (N * list event)) : list event := snd (w_net w).
(** the queries handed to the encoder *)
Fixpoint runs (tr : list event) : list (str * md) :=
  match tr with
  | Sent (VRun q ps) _ :: tr' => (q, ps) :: runs tr'
  | _ :: tr' => runs tr'
  | [] => []
  end.
Lemma runs_app : forall a b, runs (a ++ b) = runs a ++ runs b.
Proof. intros a b'. induction a as [|[v r| | |] a IH]; cbn; try destruct v; rewrite ?IH; reflexivity. Qed.

Section Trace.
Context {N : Type} (ops : netops N).
Notation net := (logged ops).
Notation W := (world (N * list event)).

(** [Does P m]: while no transaction is recorded (it never is, C38), the queries [m]
    sends satisfy [P]. *)
Definition Does (P : list (str * md) -> Prop) {A} (m : M (N := N * list event) A) : Prop := forall w, c_tx (w_conn w) = None ->
  c_tx (w_conn (snd (m w))) = None /\ exists tr, log (snd (m w)) = log w ++ tr /\ P (runs tr).
Definition nothing (l : list (str * md)) : Prop := l = [].

Lemma Does_weak : forall (P Q : list (str * md) -> Prop) A (m : M A), Does P m -> (forall l, P l -> Q l) -> Does Q m.
Proof. intros P Q A m H HQ w Hw. destruct (H w Hw) as (H1 & tr & H2 & H3). eauto. Qed.
Lemma Does_bind : forall (P Q R : list (str * md) -> Prop) A B (m : M A) (k : A -> M B), Does P m -> (forall a, Does Q (k a)) ->
  (forall l, P l -> R l) -> (forall l1 l2, P l1 -> Q l2 -> R (l1 ++ l2)) -> Does R (bind m k).
Proof.
  intros P Q R A B m k Hm Hk H1 H2 w Hw. unfold bind. destruct (Hm w Hw) as (Hw1 & tr & Ht & Hp). destruct (m w) as [[a| |] w1]; cbn [fst snd] in *; [|eauto|eauto].
  destruct (Hk a w1 Hw1) as (Hw2 & tr2 & Ht2 & Hp2). split; [exact Hw2|]. exists (tr ++ tr2). rewrite Ht2, Ht, app_assoc, runs_app. split; auto.
Qed.
Notation Quiet := (Does nothing).
Lemma Quiet_bind : forall A B (m : M A) (k : A -> M B), Quiet m -> (forall a, Quiet (k a)) -> Quiet (bind m k).
Proof. intros. eapply Does_bind; eauto. unfold nothing. intros ? ? -> ->. reflexivity. Qed.
Lemma Quiet_then : forall (P : list (str * md) -> Prop) A B (m : M A) (k : A -> M B), P [] -> Quiet m -> (forall a, Does P (k a)) -> Does P (bind m k).
Proof. intros. eapply Does_bind; eauto. all: unfold nothing. intros ? ->. auto. intros ? ? -> ?. auto. Qed.
Lemma then_Quiet : forall (P : list (str * md) -> Prop) A B (m : M A) (k : A -> M B), Does P m -> (forall a, Quiet (k a)) -> Does P (bind m k).
Proof. intros. eapply Does_bind; eauto. unfold nothing. intros ? ? ? ->. rewrite app_nil_r. auto. Qed.
Lemma Quiet_same : forall A (m : M A), (forall w, c_tx (w_conn w) = None -> c_tx (w_conn (snd (m w))) = None /\ w_net (snd (m w)) = w_net w) -> Quiet m.
Proof. intros A m H w Hw. destruct (H w Hw) as (H1 & H2). split; [exact H1|]. exists []. unfold log. rewrite H2, app_nil_r. split; reflexivity. Qed.
Lemma Quiet_ret : forall A (a : A), Quiet (ret a). Proof. intros. apply Quiet_same. auto. Qed.
Lemma Quiet_panic : forall A, Quiet (panic (A := A)). Proof. intros. apply Quiet_same. auto. Qed.
Lemma Quiet_nofuel : forall A, Quiet (nofuel (A := A)). Proof. intros. apply Quiet_same. auto. Qed.
Lemma Quiet_getc : Quiet getc. Proof. apply Quiet_same. auto. Qed.
Lemma Quiet_gets : forall i, Quiet (gets i). Proof. intros. apply Quiet_same. intros. unfold gets. destruct (nth_error _ _); auto. Qed.
Lemma Quiet_getr : forall i, Quiet (getr i). Proof. intros. apply Quiet_same. intros. unfold getr. destruct (nth_error _ _); auto. Qed.
Lemma Quiet_gett : forall i, Quiet (gett i). Proof. intros. apply Quiet_same. intros. unfold gett. destruct (nth_error _ _); auto. Qed.
Lemma Quiet_sett : forall i t, Quiet (sett i t). Proof. intros. apply Quiet_same. auto. Qed.
Lemma Quiet_sets : forall i t, Quiet (sets i t). Proof. intros. apply Quiet_same. auto. Qed.
Lemma Quiet_setr : forall i t, Quiet (setr i t). Proof. intros. apply Quiet_same. auto. Qed.
Lemma Quiet_news : forall t, Quiet (news t). Proof. intros. apply Quiet_same. auto. Qed.
Lemma Quiet_newr : forall t, Quiet (newr t). Proof. intros. apply Quiet_same. auto. Qed.
Lemma Quiet_newt : forall t, Quiet (newt t). Proof. intros. apply Quiet_same. auto. Qed.
Lemma Quiet_modc : forall f, (forall c, c_tx c = None -> c_tx (f c) = None) -> Quiet (modc f). Proof. intros f H. apply Quiet_same. intros w Hw. cbn. auto. Qed.
Lemma Quiet_mods : forall i f, Quiet (mods i f).
Proof. intros. unfold mods. apply Quiet_bind; auto using Quiet_gets, Quiet_sets. Qed.
Lemma Quiet_modr : forall i f, Quiet (modr i f).
Proof. intros. unfold modr. apply Quiet_bind; auto using Quiet_getr, Quiet_setr. Qed.
Lemma Quiet_need : forall i, Quiet (need_conn i).
Proof. intros. unfold need_conn. apply Quiet_bind; [apply Quiet_gets|]. intros s. destruct (s_conn s); [apply Quiet_ret|apply Quiet_panic]. Qed.
Lemma Quiet_send : forall v, (forall q ps, v <> VRun q ps) -> Quiet (encode_msg net v).
Proof.
  intros v Hv w Hw. unfold encode_msg, bind, getc, getn, setn, modc, setc, log. cbn.
  destruct (n_send ops (fst (w_net w)) (c_cs (w_conn w)) v) as [n' r] eqn:E. cbn.
  assert (Hr : runs [Sent v r] = []) by (destruct v; try reflexivity; exfalso; eapply Hv; reflexivity).
  destruct r; cbn; (split; [exact Hw|]); eexists; (split; [reflexivity|exact Hr]).
Qed.
Lemma Does_run : forall q ps, Does (eq [(q, ps)]) (encode_msg net (VRun q ps)).
Proof.
  intros q ps w Hw. unfold encode_msg, bind, getc, getn, setn, modc, setc, log. cbn.
  destruct (n_send ops (fst (w_net w)) (c_cs (w_conn w)) (VRun q ps)) as [n' r] eqn:E. cbn.
  destruct r; cbn; (split; [exact Hw|]); eexists; (split; [reflexivity|reflexivity]).
Qed.
Lemma Quiet_recv : Quiet (decode_msg net).
Proof.
  intros w Hw. unfold decode_msg, bind, getc, getn, setn, modc, setc, log, panic, ret. cbn. destruct (n_recv ops (fst (w_net w))) as [n' r]. cbn.
  destruct r; cbn; (split; [exact Hw|]); eexists; (split; [reflexivity|reflexivity]).
Qed.
Lemma Quiet_defer : forall (P : list (str * md) -> Prop) A B (m : M A) (d : M B), Does P m -> Quiet d -> Does P (with_defer m d).
Proof.
  intros P A B m d Hm Hd w Hw. unfold with_defer. destruct (Hm w Hw) as (Hw1 & tr & Ht & Hp).
  destruct (m w) as [[a| |] w1]; cbn [fst snd] in *; destruct (Hd w1 Hw1) as (Hw2 & tr2 & Ht2 & Hp2); destruct (d w1) as [[b| |] w2]; cbn [fst snd] in *;
    (split; [exact Hw2|]); exists (tr ++ tr2); rewrite Ht2, Ht, app_assoc, runs_app, Hp2, app_nil_r; auto.
Qed.

Ltac quiet_step :=
  match goal with
  | H : Quiet ?m |- Does nothing ?m => exact H
  | H : forall x, Does nothing (?m x) |- Does nothing (?m _) => apply H
  | H : forall x y, Does nothing (?m x y) |- Does nothing (?m _ _) => apply H
  | |- Does nothing (ret _) => apply Quiet_ret
  | |- Does nothing panic => apply Quiet_panic
  | |- Does nothing nofuel => apply Quiet_nofuel
  | |- Does nothing getc => apply Quiet_getc
  | |- Does nothing (gets _) => apply Quiet_gets
  | |- Does nothing (getr _) => apply Quiet_getr
  | |- Does nothing (gett _) => apply Quiet_gett
  | |- Does nothing (sett _ _) => apply Quiet_sett
  | |- Does nothing (news _) => apply Quiet_news
  | |- Does nothing (newr _) => apply Quiet_newr
  | |- Does nothing (newt _) => apply Quiet_newt
  | |- Does nothing (need_conn _) => apply Quiet_need
  | |- Does nothing (mods _ _) => apply Quiet_mods
  | |- Does nothing (modr _ _) => apply Quiet_modr
  | |- Does nothing (modc _) => apply Quiet_modc; auto
  | |- Does nothing (decode_msg _) => apply Quiet_recv
  | |- Does nothing (encode_msg _ _) => apply Quiet_send; discriminate
  | |- Does nothing (with_defer _ _) => apply Quiet_defer
  | |- Does nothing (match ?x with _ => _ end) => destruct x
  | |- Does nothing (bind _ _) => apply Quiet_bind; [|intro]
  end.
Ltac quietly := repeat quiet_step.
(** with one sender of queries inside *)
Ltac does_step :=
  match goal with
  | H : Does ?P ?m |- Does ?P ?m => exact H
  | |- Does _ (match ?x with _ => _ end) => destruct x
  | |- Does ?P (bind _ _) => first [apply Quiet_then; [reflexivity|solve [quietly]|intro] | apply then_Quiet; [|solve [intro; quietly]]]
  | |- Does _ _ => solve [eapply Does_weak; [quietly|intros ? ->; reflexivity]]
  end.

Section Inner.
Variable lf : nat.
Variable cls : M (N := N * list event) (option gerr).
Hypothesis Qcls : Quiet cls.
Lemma Q_reset_loop : forall f, Quiet (reset_loop net cls f).
Proof. induction f as [|f IH]; cbn [reset_loop]; quietly. Qed.
Lemma Q_reset : Quiet (reset net lf cls).
Proof. pose proof Q_reset_loop. unfold reset. quietly. Qed.
Lemma Q_ack_loop : forall f, Quiet (ack_loop net lf cls f).
Proof. pose proof Q_reset. induction f as [|f IH]; cbn [ack_loop]; quietly. Qed.
Lemma Q_ack : Quiet (ack_failure net lf cls).
Proof. pose proof Q_ack_loop. unfold ack_failure. quietly. Qed.
Lemma Q_consume : Quiet (consume net lf cls).
Proof. pose proof Q_ack. unfold consume. quietly. Qed.
Lemma Q_consume_all : Quiet (consume_all net lf cls).
Proof. pose proof Q_consume. unfold consume_all. generalize lf at 2 as f. induction f as [|f IH]; cbn [consume_all_loop]; quietly. Qed.
Lemma Q_consume_n : forall n, Quiet (consume_all_n net lf cls n).
Proof. pose proof Q_consume_all. induction n as [|n IH]; cbn [consume_all_n]; quietly. Qed.
Lemma Q_consume_multiple : forall z, Quiet (consume_all_multiple net lf cls z).
Proof. pose proof Q_consume_n. intros. unfold consume_all_multiple. quietly. Qed.
Lemma Q_send_pull : Quiet (send_pull_all net).
Proof. unfold send_pull_all. quietly. Qed.
Lemma Q_discard : Quiet (send_discard_all_consume net lf cls).
Proof. pose proof Q_consume. unfold send_discard_all_consume. quietly. Qed.
Lemma Q_rows_close_body : forall rid, Quiet (rows_close_body net lf cls rid).
Proof. pose proof Q_discard; pose proof Q_consume_multiple. intros. unfold rows_close_body. quietly. Qed.
Lemma Q_stmt_close : forall sid, Quiet (stmt_close net lf cls sid).
Proof. pose proof Q_rows_close_body. intros. unfold stmt_close. quietly. Qed.
Lemma Q_rows_close : forall rid, Quiet (rows_close net lf cls rid).
Proof. pose proof Q_rows_close_body; pose proof Q_stmt_close. intros. unfold rows_close. quietly. Qed.
Lemma Q_close_body : Quiet (close_body net lf cls).
Proof.
  pose proof Q_stmt_close as Hs. unfold close_body. apply Quiet_bind; [quietly|]. intros c0. destruct (c_closed c0); [quietly|].
  apply Quiet_bind; [quietly|]. intros [e|]; [quietly|].
  intros w Hw. rewrite bind_getc, Hw.
  match goal with |- context [snd (?m w)] => assert (H : Quiet m) end.
  { apply Quiet_bind; [quietly|]. intros [e|]; [quietly|]. apply Quiet_bind; [quietly|]. intros c. destruct (c_pooled c); [quietly|].
    intros w1 Hw1. unfold bind, getn, setn, modc, getc, setc, ret, log. cbn. destruct (n_close ops (fst (w_net w1))) as [n' []]; cbn; (split; [exact Hw1|]); eexists; split; reflexivity. }
  exact (H w Hw).
Qed.
Lemma Q_close_cur : Quiet (close_cur_stmt net lf cls).
Proof. pose proof Q_stmt_close. unfold close_cur_stmt. quietly. Qed.
Lemma Q_next_neo : forall rid, Quiet (next_neo net lf cls rid).
Proof. pose proof Q_send_pull; pose proof Q_consume. intros. unfold next_neo. quietly. Qed.
Lemma Q_all_rows : forall rid, Quiet (all_rows net lf cls rid).
Proof.
  pose proof Q_next_neo. intros. unfold all_rows. generalize (@nil (list goval)) as acc. generalize lf at 2 as f.
  induction f as [|f IH]; intros acc; cbn [all_loop]; quietly.
Qed.
Lemma Q_next_pipeline : forall rid, Quiet (next_pipeline net lf cls rid).
Proof. pose proof Q_consume. intros. unfold next_pipeline. quietly. Qed.
Lemma Q_next_sql : forall rid n, Quiet (next_sql net lf cls rid n).
Proof. pose proof Q_next_neo. intros. unfold next_sql. quietly. Qed.

(** at most these queries, in this order *)
Definition upto (l : list (str * md)) (l' : list (str * md)) : Prop := exists l2, l = l' ++ l2.
Lemma upto_nil : forall l, upto l []. Proof. intros l. exists l. reflexivity. Qed.
Lemma D_weak : forall l A (m : M A), Quiet m -> Does (upto l) m.
Proof. intros. eapply Does_weak; eauto. intros ? ->. apply upto_nil. Qed.
Lemma D_then : forall l A B (m : M A) (k : A -> M B), Does (upto l) m -> (forall a, Quiet (k a)) -> Does (upto l) (bind m k).
Proof. intros. now apply then_Quiet. Qed.
Lemma then_D : forall l A B (m : M A) (k : A -> M B), Quiet m -> (forall a, Does (upto l) (k a)) -> Does (upto l) (bind m k).
Proof. intros. apply Quiet_then; auto using upto_nil. Qed.
Lemma D_run_pull : forall q ps l, Does (upto ((q, ps) :: l)) (send_run_pull_all net q ps).
Proof.
  pose proof Q_send_pull. intros. unfold send_run_pull_all, send_run. apply D_then; [|intro; quietly]. apply D_then; [|intro; quietly].
  eapply Does_weak; [apply Does_run|]. intros ? <-. exists l. reflexivity.
Qed.
Lemma D_stmt_exec : forall sid ps w s, nth_error (w_stmts w) sid = Some s -> c_tx (w_conn w) = None ->
  exists tr, log (snd (stmt_exec net lf cls sid ps w)) = log w ++ tr /\ upto [(s_query s, ps)] (runs tr) /\ c_tx (w_conn (snd (stmt_exec net lf cls sid ps w))) = None.
Proof.
  pose proof Q_consume; pose proof Q_consume_all. intros sid ps w s Es Hw. unfold stmt_exec. rewrite (bind_gets _ _ _ _ _ _ Es).
  match goal with |- context [snd (?m w)] => assert (Hm : Does (upto [(s_query s, ps)]) m) end.
  { destruct (s_closed s); [apply D_weak; quietly|]. destruct (s_rows s); [apply D_weak; quietly|]. apply then_D; [quietly|]. intros _.
    apply D_then; [|intro; quietly]. unfold send_run_pull_all_consume_all. apply D_then; [apply D_run_pull|intro; quietly]. }
  destruct (Hm w Hw) as (H1 & tr & H2 & H3). eauto.
Qed.
Lemma D_send_queries : forall l qs pss, Does (upto (combine qs pss)) (send_queries net l qs pss).
Proof.
  intros l. induction qs as [|q qs IH]; intros [|ps pss]; cbn [send_queries combine]; try solve [apply D_weak; quietly].
  intros w Hw. pose proof Q_send_pull as Hp.
  set (m1 := send_run_pull_all net q ps).
  assert (H1 : Does (eq [(q, ps)]) m1).
  { subst m1. unfold send_run_pull_all, send_run. apply then_Quiet; [|intro; quietly]. apply then_Quiet; [|intro; quietly]. apply Does_run. }
  destruct (H1 w Hw) as (Hw1 & tr & Ht & Hr). unfold bind. destruct (m1 w) as [[[e|]| |] w1]; cbn [fst snd] in *.
  - split; [exact Hw1|]. exists tr. split; [exact Ht|]. rewrite <- Hr. exists (combine qs pss). reflexivity.
  - destruct (IH pss w1 Hw1) as (Hw2 & tr2 & Ht2 & (l2 & Hr2)). split; [exact Hw2|]. exists (tr ++ tr2). rewrite Ht2, Ht, app_assoc, runs_app, <- Hr. split; [reflexivity|].
    exists l2. rewrite Hr2 at 1. reflexivity.
  - split; [exact Hw1|]. exists tr. split; [exact Ht|]. rewrite <- Hr. exists (combine qs pss). reflexivity.
  - split; [exact Hw1|]. exists tr. split; [exact Ht|]. rewrite <- Hr. exists (combine qs pss). reflexivity.
Qed.
Lemma Q_exec_results : forall qs, Quiet (exec_results net lf cls qs).
Proof. pose proof Q_consume; pose proof Q_consume_all. induction qs as [|q qs IH]; cbn [exec_results]; quietly. Qed.
(** a computation that first looks at one statement *)
Definition Does_at (w : W) (P : list (str * md) -> Prop) {A} (m : M (N := N * list event) A) : Prop :=
  c_tx (w_conn (snd (m w))) = None /\ exists tr, log (snd (m w)) = log w ++ tr /\ P (runs tr).
Lemma at_gets : forall w (P : list (str * md) -> Prop) A sid s (k : stmt -> M A), nth_error (w_stmts w) sid = Some s -> c_tx (w_conn w) = None -> Does P (k s) -> Does_at w P (bind (gets sid) k).
Proof. intros w P A sid s k Es Hw H. unfold Does_at. rewrite (bind_gets _ _ _ _ _ _ Es). exact (H w Hw). Qed.
Lemma at_none : forall w (P : list (str * md) -> Prop) A sid (k : stmt -> M A), nth_error (w_stmts w) sid = None -> c_tx (w_conn w) = None -> P [] -> Does_at w P (bind (gets sid) k).
Proof. intros w P A sid k Es Hw H. unfold Does_at, bind, gets. rewrite Es. cbn. split; [exact Hw|]. exists []. rewrite app_nil_r. auto. Qed.
Lemma at_bind : forall w (P : list (str * md) -> Prop) A B (m : M A) (k : A -> M B), Does_at w P m -> (forall a, Quiet (k a)) -> Does_at w P (bind m k).
Proof.
  intros w P A B m k (Ha & tr & Ht & Hr) Hk. unfold Does_at, bind. destruct (m w) as [[a| |] w1]; cbn [fst snd] in *; try (split; [exact Ha|]; exists tr; split; [exact Ht|exact Hr]).
  destruct (Hk a w1 Ha) as (Hb & tr2 & Ht2 & Hr2). split; [exact Hb|]. exists (tr ++ tr2). rewrite Ht2, Ht, app_assoc, runs_app, Hr2, app_nil_r. auto.
Qed.
Lemma A_stmt_exec : forall sid ps w s, nth_error (w_stmts w) sid = Some s -> c_tx (w_conn w) = None -> Does_at w (upto [(s_query s, ps)]) (stmt_exec net lf cls sid ps).
Proof. intros sid ps w s Es Hw. destruct (D_stmt_exec sid ps w s Es Hw) as (tr & H1 & H2 & H3). split; eauto. Qed.
Lemma A_stmt_exec_pipeline : forall sid pss w s, nth_error (w_stmts w) sid = Some s -> c_tx (w_conn w) = None ->
  Does_at w (upto (combine (s_queries s) pss)) (stmt_exec_pipeline net lf cls sid pss).
Proof.
  pose proof Q_exec_results. intros sid pss w s Es Hw. unfold stmt_exec_pipeline. eapply at_gets; eauto.
  destruct (s_closed s); [apply D_weak; quietly|]. destruct (s_rows s); [apply D_weak; quietly|]. destruct (negb _); [apply D_weak; quietly|].
  apply then_D; [quietly|]. intros _. apply D_then; [apply D_send_queries|intro; quietly].
Qed.
Lemma A_stmt_query : forall sid ps w s, nth_error (w_stmts w) sid = Some s -> c_tx (w_conn w) = None -> Does_at w (upto [(s_query s, ps)]) (stmt_query net lf cls sid ps).
Proof.
  pose proof Q_consume. intros sid ps w s Es Hw. unfold stmt_query. eapply at_gets; eauto.
  destruct (s_closed s); [apply D_weak; quietly|]. destruct (s_rows s); [apply D_weak; quietly|]. 
  apply then_D; [quietly|]. intros _. apply D_then; [|intro; quietly]. unfold send_run_consume, send_run. apply D_then; [|intro; quietly]. apply D_then; [|intro; quietly].
  eapply Does_weak; [apply Does_run|]. intros ? <-. exists []. reflexivity.
Qed.
Lemma A_stmt_query_pipeline : forall sid pss w s, nth_error (w_stmts w) sid = Some s -> c_tx (w_conn w) = None ->
  Does_at w (upto (combine (s_queries s) pss)) (stmt_query_pipeline net lf cls sid pss).
Proof.
  pose proof Q_consume. intros sid pss w s Es Hw. unfold stmt_query_pipeline. eapply at_gets; eauto.
  destruct (s_closed s); [apply D_weak; quietly|]. destruct (s_rows s); [apply D_weak; quietly|]. destruct (negb _); [apply D_weak; quietly|].
  apply then_D; [quietly|]. intros _. apply D_then; [apply D_send_queries|intro; quietly].
Qed.
Lemma D_query_neo : forall q ps, Does (upto [(q, ps)]) (query_neo net lf cls q ps).
Proof.
  pose proof Q_consume; pose proof Q_close_cur. intros. unfold query_neo, guard_open. apply then_D; [quietly|]. intros c. destruct (c_stmt c); [apply D_weak; quietly|].
  destruct (c_closed c); [apply D_weak; quietly|]. apply then_D; [quietly|]. intros sid. apply then_D; [quietly|]. intros _.
  apply D_then; [|intro; quietly]. unfold send_run_pull_all_consume_run. apply D_then; [apply D_run_pull|intro; quietly].
Qed.
Lemma D_query_pipeline : forall qs pss, Does (upto (combine qs pss)) (query_pipeline net lf cls qs pss).
Proof.
  intros. unfold query_pipeline, guard_open. apply then_D; [quietly|]. intros c. destruct (c_stmt c); [apply D_weak; quietly|].
  destruct (c_closed c); [apply D_weak; quietly|].
  intros w Hw. rewrite bind_news, bind_modc. cbn [w_conn w_stmts w_rows w_txs w_net].
  set (w1 := Build_world (c_set_stmt _ _) _ _ _ _).
  assert (Hw1 : c_tx (w_conn w1) = None) by exact Hw.
  assert (Es : nth_error (w_stmts w1) (length (w_stmts w)) = Some (new_pipe_stmt qs)) by (cbn; rewrite nth_error_app2, Nat.sub_diag by lia; reflexivity).
  pose proof (A_stmt_query_pipeline _ pss w1 _ Es Hw1) as H. cbn [s_queries new_pipe_stmt] in H.
  refine (at_bind w1 _ _ _ _ _ H _). intros [r e]. quietly.
Qed.
Lemma D_temp : forall A B s l (m : nat -> M A) (d : nat -> M B),
  (forall w sid, nth_error (w_stmts w) sid = Some s -> c_tx (w_conn w) = None -> Does_at w (upto l) (m sid)) -> (forall sid, Quiet (d sid)) ->
  Does (upto l) (bind (news s) (fun sid => with_defer (m sid) (d sid))).
Proof.
  intros A B s l m d Hm Hd w Hw. rewrite bind_news. cbn [w_conn w_stmts w_rows w_txs w_net]. set (w1 := Build_world _ _ _ _ _). set (sid := length (w_stmts w)).
  assert (Es : nth_error (w_stmts w1) sid = Some s) by (cbn; subst sid; rewrite nth_error_app2, Nat.sub_diag by lia; reflexivity).
  destruct (Hm w1 sid Es Hw) as (Ha & tr & Ht & Hr). unfold with_defer.
  destruct (m sid w1) as [[a| |] w2]; cbn [fst snd] in *; destruct (Hd sid w2 Ha) as (Hb & tr2 & Ht2 & Hr2); destruct (d sid w2) as [[b| |] w3]; cbn [fst snd] in *;
    (split; [exact Hb|]); exists (tr ++ tr2); rewrite Ht2, Ht, app_assoc, runs_app, Hr2, app_nil_r; (split; [reflexivity|exact Hr]).
Qed.
Lemma D_exec_neo : forall q ps, Does (upto [(q, ps)]) (exec_neo net lf cls q ps).
Proof.
  pose proof Q_stmt_close. intros. unfold exec_neo, guard_open. apply then_D; [quietly|]. intros c. destruct (c_stmt c); [apply D_weak; quietly|].
  destruct (c_closed c); [apply D_weak; quietly|]. apply D_temp; auto. intros w sid Es Hw. exact (A_stmt_exec sid ps w _ Es Hw).
Qed.
Lemma D_exec_pipeline : forall qs pss, Does (upto (combine qs pss)) (exec_pipeline net lf cls qs pss).
Proof.
  pose proof Q_stmt_close. intros. unfold exec_pipeline, guard_open. apply then_D; [quietly|]. intros c. destruct (c_stmt c); [apply D_weak; quietly|].
  destruct (c_closed c); [apply D_weak; quietly|]. apply D_temp; auto. intros w sid Es Hw. exact (A_stmt_exec_pipeline sid pss w _ Es Hw).
Qed.
Definition args_of (mk : bool) (args : list darg) (q : str) : list (str * md) := match driver_args mk args with AOk ps => [(q, ps)] | _ => [] end.
Lemma D_exec_sql : forall mk q args, Does (upto (args_of mk args q)) (exec_sql net lf cls mk q args).
Proof.
  pose proof Q_stmt_close. intros. unfold exec_sql, guard_open. apply then_D; [quietly|]. intros c. destruct (c_stmt c); [apply D_weak; quietly|].
  destruct (c_closed c); [apply D_weak; quietly|]. apply D_temp; auto. intros w sid Es Hw. unfold stmt_exec_sql, with_args, args_of. destruct (driver_args mk args).
  - exact (A_stmt_exec sid _ w _ Es Hw).
  - split; [exact Hw|]. exists []. rewrite app_nil_r. split; [reflexivity|apply upto_nil].
  - split; [exact Hw|]. exists []. rewrite app_nil_r. split; [reflexivity|apply upto_nil].
Qed.
Lemma D_begin : Does (upto [(s_begin, [])]) (begin_tx net lf cls).
Proof.
  pose proof Q_consume. unfold begin_tx, guard_open. apply then_D; [quietly|]. intros c0. destruct (c_tx c0); [apply D_weak; quietly|].
  apply then_D; [quietly|]. intros c. destruct (c_stmt c); [apply D_weak; quietly|]. destruct (c_closed c); [apply D_weak; quietly|].
  apply D_then; [|intro; quietly]. unfold send_run_pull_all_consume_single. apply D_then; [apply D_run_pull|intro; quietly].
Qed.
Lemma D_tx_finish : forall q l1 l2 l3 l4 l5 tid, Does (upto [(q, [])]) (tx_finish net lf cls q l1 l2 l3 l4 l5 tid).
Proof.
  pose proof Q_stmt_close; pose proof Q_consume. intros. unfold tx_finish. apply then_D; [quietly|]. intros t. destruct (t_closed t); [apply D_weak; quietly|].
  apply then_D; [quietly|]. intros c. apply then_D; [quietly|]. intros [e|]; [apply D_weak; quietly|].
  apply D_then; [|intro; quietly]. unfold send_run_pull_all_consume_single. apply D_then; [apply D_run_pull|intro; quietly].
Qed.
Lemma D_query_neo_all : forall q ps, Does (upto [(q, ps)]) (query_neo_all net lf cls q ps).
Proof.
  pose proof Q_all_rows; pose proof Q_rows_close. intros. unfold query_neo_all. apply D_then; [apply D_query_neo|]. intros a. quietly.
Qed.

(** The queries a call asks for. *)
Definition asked (mk : bool) (w : W) (o : op) : list (str * md) :=
  match o with
  | CExec q ps | CQuery q ps | CQueryAll q ps => [(q, ps)]
  | CExecPipeline qs pss | CQueryPipeline qs pss => combine qs pss
  | CExecSql q args | CQuerySql q args => args_of mk args q
  | SExec s ps | SQuery s ps => match nth_error (w_stmts w) s with Some x => [(s_query x, ps)] | None => [] end
  | SExecPipeline s pss | SQueryPipeline s pss => match nth_error (w_stmts w) s with Some x => combine (s_queries x) pss | None => [] end
  | SExecSql s args | SQuerySql s args => match nth_error (w_stmts w) s with Some x => args_of mk args (s_query x) | None => [] end
  | CBegin => [(s_begin, [])]
  | TCommit _ => [(s_commit, [])]
  | TRollback _ => [(s_rollback, [])]
  | _ => []
  end.
Lemma at_D : forall w (P : list (str * md) -> Prop) A (m : M A), c_tx (w_conn w) = None -> Does P m -> Does_at w P m.
Proof. intros w P A m Hw H. exact (H w Hw). Qed.
Lemma asked_step : forall mk w o, c_tx (w_conn w) = None -> Does_at w (upto (asked mk w o)) (step_body net lf cls mk o).
Proof.
  pose proof Q_stmt_close; pose proof Q_rows_close; pose proof Q_next_neo; pose proof Q_all_rows; pose proof Q_next_pipeline; pose proof Q_next_sql.
  intros mk w o Hw. destruct o; cbn [step_body asked];
    try (apply at_D; [exact Hw|]; apply D_weak; unfold prepare, prepare_pipeline, guard_open, set_chunk_size; solve [quietly]);
    (apply at_bind; [|intro; quietly]);
    try (apply at_D; [exact Hw|]; solve [apply D_begin|apply D_exec_neo|apply D_exec_pipeline|apply D_query_neo|apply D_query_neo_all|apply D_query_pipeline|apply D_exec_sql|apply D_tx_finish]).
  - apply at_D; [exact Hw|]. unfold query_sql, with_args, args_of. destruct (driver_args mk args); [apply D_query_neo|apply D_weak; quietly|apply D_weak; quietly].
  - destruct (nth_error (w_stmts w) s) as [x|] eqn:E; [exact (A_stmt_exec s ps w x E Hw)|]. apply at_none; auto using upto_nil.
  - destruct (nth_error (w_stmts w) s) as [x|] eqn:E; [exact (A_stmt_exec_pipeline s pss w x E Hw)|]. apply at_none; auto using upto_nil.
  - destruct (nth_error (w_stmts w) s) as [x|] eqn:E; [exact (A_stmt_query s ps w x E Hw)|]. apply at_none; auto using upto_nil.
  - destruct (nth_error (w_stmts w) s) as [x|] eqn:E; [exact (A_stmt_query_pipeline s pss w x E Hw)|]. apply at_none; auto using upto_nil.
  - unfold stmt_exec_sql, with_args, args_of. destruct (driver_args mk args) as [ps| |]; [|apply at_D; [exact Hw|]; apply D_weak; quietly|apply at_D; [exact Hw|]; apply D_weak; quietly].
    destruct (nth_error (w_stmts w) s) as [x|] eqn:E; [exact (A_stmt_exec s _ w x E Hw)|]. apply at_none; auto using upto_nil.
  - unfold stmt_query_sql, with_args, args_of. destruct (driver_args mk args) as [ps| |]; [|apply at_D; [exact Hw|]; apply D_weak; quietly|apply at_D; [exact Hw|]; apply D_weak; quietly].
    destruct (nth_error (w_stmts w) s) as [x|] eqn:E; [exact (A_stmt_query s _ w x E Hw)|]. apply at_none; auto using upto_nil.
Qed.
End Inner.
Lemma Q_close : forall f, Quiet (close net f).
Proof. induction f as [|f IH]; cbn [close]; [apply Quiet_nofuel|]. apply Q_close_body; exact IH. Qed.
(** Every call sends a prefix of what it asks for; a transaction is never recorded. *)
Theorem step_asks : forall mk f o w, c_tx (w_conn w) = None ->
  let w' := snd (step net mk f o w) in
  c_tx (w_conn w') = None /\ exists tr rest, log w' = log w ++ tr /\ asked mk w o = runs tr ++ rest.
Proof. intros mk f o w Hw. destruct (asked_step f (close net f) (Q_close f) mk w o Hw) as (H1 & tr & H2 & rest & H3). split; [exact H1|]. exists tr, rest. split; [exact H2|exact H3]. Qed.

(** ** A transaction that ends without an error *)
Lemma sent_ok : forall v w w', encode_msg net v w = (Ok None, w') -> log w' = log w ++ [Sent v SOk] /\ w_conn w' = w_conn w.
Proof.
  intros v w w' H. unfold encode_msg, bind, getc, getn, setn, modc, setc, ret in H. cbn in H. unfold log.
  destruct (n_send ops _ _ _) as [n' []]; inversion H; subst; split; reflexivity.
Qed.
Lemma consume_ok : forall lf cls w w' v, consume net lf cls w = (Ok (v, None), w') -> exists x, v = Some x /\ log w' = log w ++ [Got (RMsg x)] /\ w_conn w' = w_conn w.
Proof.
  intros lf cls w w' v H. unfold consume in H. unfold bind at 1 in H. unfold decode_msg, bind at 1, getn, setn in H. cbn in H.
  unfold log. destruct (n_recv ops (fst (w_net w))) as [n' r]. cbn in H.
  destruct r as [x| | |]; cbn in H.
  - assert (Hx : (exists m, x = VFailure m) \/ (ret (Some x, None) : M (N := N * list event) _) (Build_world (w_conn w) (w_stmts w) (w_rows w) (w_txs w) (n', snd (w_net w) ++ [Got (RMsg x)])) = (Ok (v, None), w'))
      by (destruct x; try (right; exact H); left; eauto).
    destruct Hx as [(m & ->)|Hx].
    + exfalso. unfold bind in H. destruct (ack_failure _ _ _ _) as [[[e|]| |] w2]; discriminate.
    + inversion Hx. subst. cbn. exists x. auto.
  - discriminate.
  - discriminate.
  - discriminate.
Qed.
Lemma run_pull_ok : forall q ps w w', send_run_pull_all net q ps w = (Ok None, w') ->
  log w' = log w ++ [Sent (VRun q ps) SOk; Sent VPullAll SOk] /\ w_conn w' = w_conn w.
Proof.
  intros q ps w w' H. unfold send_run_pull_all, send_run, send_pull_all, bind in H.
  destruct (encode_msg net (VRun q ps) w) as [[[e|]| |] w1] eqn:E1; try discriminate. unfold ret in H.
  destruct (encode_msg net VPullAll w1) as [[[e|]| |] w2] eqn:E2; try discriminate. inversion H; subst.
  destruct (sent_ok _ _ _ E1) as (G1 & H1'). destruct (sent_ok _ _ _ E2) as (G2 & H2'). rewrite G2, G1, <- app_assoc. split; [reflexivity|congruence].
Qed.
Theorem tx_finish_sends : forall lf cls q l1 l2 l3 l4 l5 t w w', Does nothing cls -> c_tx (w_conn w) = None ->
  tx_finish net lf cls q l1 l2 l3 l4 l5 t w = (Ok None, w') ->
  exists tr m1 m2, log w' = log w ++ tr ++ [Sent (VRun q []) SOk; Sent VPullAll SOk; Got (RMsg (VSuccess m1)); Got (RMsg (VSuccess m2))] /\
    runs tr = [] /\ (exists t0, nth_error (w_txs w) t = Some t0 /\ t_closed t0 = false) /\ (exists l, w_txs w' = upd t {| t_closed := true |} l).
Proof.
  intros lf cls q l1 l2 l3 l4 l5 t w w' Hc Hw H. pose proof (Q_stmt_close lf cls Hc) as Hs. unfold tx_finish in H.
  destruct (nth_error (w_txs w) t) as [t0|] eqn:Et; [|unfold bind, gett in H; rewrite Et in H; discriminate].
  rewrite (bind_gett _ _ _ _ _ _ Et) in H. destruct (t_closed t0) eqn:Et0; [discriminate|]. rewrite bind_getc in H. unfold bind at 1 in H.
  set (m := match c_stmt (w_conn w) with None => _ | Some _ => _ end) in H. assert (Hm : Does nothing m) by (subst m; destruct (c_stmt (w_conn w)); [apply Hs|apply Quiet_ret]).
  destruct (Hm w Hw) as (Hw1 & tr & Htr & Hrn). destruct (m w) as [[[e|]| |] w1]; try discriminate. cbn [snd] in *.
  unfold send_run_pull_all_consume_single in H. unfold bind at 1 2 in H.
  destruct (send_run_pull_all net q [] w1) as [[[e|]| |] w2] eqn:E2; try discriminate.
  unfold bind at 1 in H. destruct (consume net lf cls w2) as [[[v [e|]]| |] w3] eqn:E3; try discriminate.
  unfold bind at 1 in H. destruct (consume net lf cls w3) as [[[v' e4]| |] w4] eqn:E4; try discriminate. cbn in H. destruct e4 as [e4|]; [discriminate|].
  destruct (run_pull_ok _ _ _ _ E2) as (L2 & _). destruct (consume_ok _ _ _ _ _ E3) as (x & -> & L3 & _). destruct (consume_ok _ _ _ _ _ E4) as (x' & -> & L4 & _).
  destruct x; try discriminate. destruct x'; try discriminate. inversion H; subst.
  exists tr. eexists _, _. split; [|split; [exact Hrn|split; [exists t0; auto|]]].
  - unfold log in *. cbn. rewrite L4, L3, L2, Htr, <- !app_assoc. reflexivity.
  - eexists. reflexivity.
Qed.
Theorem finish_sends : forall mk f q o t w w', o = TCommit t /\ q = s_commit \/ o = TRollback t /\ q = s_rollback ->
  c_tx (w_conn w) = None -> step net mk f o w = (Ok (OErr None), w') ->
  (exists tr m1 m2, log w' = log w ++ tr ++ [Sent (VRun q []) SOk; Sent VPullAll SOk; Got (RMsg (VSuccess m1)); Got (RMsg (VSuccess m2))] /\ runs tr = []).
Proof.
  intros mk f q o t w w' Ho Hw H. unfold step in H.
  assert (H' : exists l1 l2 l3 l4 l5, tx_finish net f (close net f) q l1 l2 l3 l4 l5 t w = (Ok None, w')).
  { destruct Ho as [(-> & ->)|(-> & ->)]; cbn [step_body] in H; unfold commit, rollback in H; unfold bind at 1 in H;
      (destruct (tx_finish _ _ _ _ _ _ _ _ _ _ w) as [[e| |] w1] eqn:E; try discriminate; cbn in H; inversion H; subst; eauto 6). }
  destruct H' as (l1 & l2 & l3 & l4 & l5 & H'). destruct (tx_finish_sends _ _ _ _ _ _ _ _ _ _ _ (Q_close f) Hw H') as (tr & m1 & m2 & H1 & H2 & _). eauto.
Qed.

(** ** The log changes nothing *)
Definition unlogged (w : W) : world N := Build_world (w_conn w) (w_stmts w) (w_rows w) (w_txs w) (fst (w_net w)).
Theorem log_only : forall mk f o w,
  step ops mk f o (unlogged w) = (fst (step net mk f o w), unlogged (snd (step net mk f o w))).
Proof.
  intros mk f o w.
  destruct (Sim_step net ops (fun n n' => fst n = n') (fun _ => False)) with (mk := mk) (f := f) (o := o) as (_ & H); try contradiction.
  - intros [n l] n' cs v <-. right. cbn. destruct (n_send ops n cs v). auto.
  - intros [n l] n' <-. right. cbn. destruct (n_recv ops n). auto.
  - intros [n l] n' <-. right. cbn. destruct (n_close ops n). auto.
  - destruct (H w (unlogged w)) as [[]|(H1 & H2)]; [repeat split|]. destruct (step ops mk f o (unlogged w)) as [r w']. cbn in *. subst r.
    destruct H2 as (E1 & E2 & E3 & E4 & E5). destruct w'. cbn in *. subst. reflexivity.
Qed.
End Trace.
