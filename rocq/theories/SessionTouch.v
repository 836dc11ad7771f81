(** What the driver does with a socket it has closed: the only calls that still use it are Commit and
    Rollback. *)
From Coq Require Import ZArith List Bool Lia.
From Verif Require Import GoPrims Value Errors Misc Session SessionGen.
Import ListNotations.
Open Scope Z_scope.

(** The network with a note whether the socket has been closed, and how often it was written to or read from
    after that. *)
Definition touch {N} (n : N * (bool * nat)) : bool * nat := (fst (snd n), if fst (snd n) then S (snd (snd n)) else snd (snd n)).
Definition watched {N} (ops : netops N) : netops (N * (bool * nat)) :=
  {| n_send := fun n cs v => let '(n', r) := n_send ops (fst n) cs v in ((n', touch n), r);
     n_recv := fun n => let '(n', r) := n_recv ops (fst n) in ((n', touch n), r);
     n_close := fun n => let '(n', r) := n_close ops (fst n) in ((n', (true, snd (snd n))), r);
     n_shake := fun n => let '(n', r) := n_shake ops (fst n) in ((n', touch n), r) |}.

Section Touch.
Context {N : Type} (ops0 : netops N).
Let ops := watched ops0.
Notation W := (world (N * (bool * nat))).
Notation M := (M (N := N * (bool * nat))).
Definition cons (w : W) : Prop := fst (snd (w_net w)) = c_closed (w_conn w).
Definition touches (w : W) : nat := snd (snd (w_net w)).
Definition quiet (w w' : W) : Prop := cons w -> cons w' /\ touches w' = touches w.
Lemma quiet_refl : forall w, quiet w w. Proof. unfold quiet; auto. Qed.
Lemma quiet_trans : forall a b c, quiet a b -> quiet b c -> quiet a c.
Proof. intros a b c H1 H2 H. destruct (H1 H) as (A & B). destruct (H2 A) as (C & D). split; [assumption|congruence]. Qed.
Lemma quiet_same : forall w w', c_closed (w_conn w') = c_closed (w_conn w) -> w_net w' = w_net w -> quiet w w'.
Proof. intros w w' E1 E2. unfold quiet, cons, touches. rewrite E1, E2. auto. Qed.
Ltac qs := apply quiet_same; reflexivity.

(** ** From an open connection *)
Definition Q {A} (m : M A) (P : A -> Prop) : Prop := forall w, c_closed (w_conn w) = false -> cons w ->
  quiet w (snd (m w)) /\ match m w with (Ok a, w') => P a -> c_closed (w_conn w') = false | _ => True end.
Definition never {A} (m : M A) (P : A -> Prop) : Prop := forall w, match m w with (Ok a, _) => ~ P a | _ => True end.
Lemma Q_bind : forall A B (m : M A) (k : A -> M B) P P', Q m P ->
  (forall a, (P a /\ Q (k a) P') \/ (Pres quiet (k a) /\ never (k a) P')) -> Q (bind m k) P'.
Proof.
  intros A B m k P P' Hm Hk w Hc Hs. unfold bind. specialize (Hm w Hc Hs). destruct (m w) as [[a| |] w']; cbn in Hm; [|tauto|tauto].
  destruct Hm as (H1 & H2). destruct (Hk a) as [(Pa & Ha)|(Ha & Hn)].
  - destruct (Ha w' (H2 Pa)) as (H3 & H4); [now apply H1|]. split; [eapply quiet_trans; eauto|exact H4].
  - split; [eapply quiet_trans; [exact H1|apply Ha]|]. specialize (Hn w'). destruct (k a w') as [[b| |] w'']; auto. intros Pb. now apply Hn in Pb.
Qed.
Lemma Q_quiet : forall A (m : M A) w, Q m (fun _ => False) -> c_closed (w_conn w) = false -> quiet w (snd (m w)).
Proof. intros A m w H Hc Hs. now apply (H w Hc Hs). Qed.
Lemma Q_seq : forall A B (m : M A) (k : A -> M B) P', Q m (fun _ => True) -> (forall a, Q (k a) P') -> Q (bind m k) P'.
Proof. intros. eapply (Q_bind _ _ _ _ (fun _ => True)); [assumption|]. intros a. left. auto. Qed.
Lemma Q_weaken : forall A (m : M A) (P P' : A -> Prop), Q m P -> (forall a, P' a -> P a) -> Q m P'.
Proof. intros A m P P' H HP w Hc Hs. destruct (H w Hc Hs) as (A1 & A2). split; [exact A1|]. destruct (m w) as [[a| |] w']; auto. Qed.
Lemma Q_T : forall A (m : M A) P, Q m (fun _ => True) -> Q m P.
Proof. intros. eapply Q_weaken; [eassumption|]. exact (fun _ _ => I). Qed.
(** an operation that does not touch the network nor c.closed *)
Definition local {A} (m : M A) : Prop := forall w, w_net (snd (m w)) = w_net w /\ c_closed (w_conn (snd (m w))) = c_closed (w_conn w).
Lemma local_Q : forall A (m : M A) P, local m -> Q m P.
Proof. intros A m P H w Hc Hs. destruct (H w) as (H1 & H2). split; [now apply quiet_same|]. destruct (m w) as [[a| |] w']; auto. cbn in H2. congruence. Qed.
Lemma local_quiet : forall A (m : M A), local m -> Pres quiet m.
Proof. intros A m H w. destruct (H w). now apply quiet_same. Qed.
Lemma local_bind : forall A B (m : M A) (k : A -> M B), local m -> (forall a, local (k a)) -> local (bind m k).
Proof.
  intros A B m k Hm Hk w. unfold bind. specialize (Hm w). destruct (m w) as [[a| |] w']; auto. cbn in Hm. destruct Hm as [E1 E2].
  destruct (Hk a w') as [E3 E4]. split; congruence.
Qed.
Lemma lo_ret : forall A (a : A), local (ret a). Proof. now split. Qed.
Lemma lo_panic : forall A, local (panic (A := A)). Proof. now split. Qed.
Lemma lo_nofuel : forall A, local (nofuel (A := A)). Proof. now split. Qed.
Lemma lo_getc : local getc. Proof. now split. Qed.
Lemma lo_gets : forall i, local (gets i). Proof. intros i w. unfold gets. destruct (nth_error _ _); now split. Qed.
Lemma lo_getr : forall i, local (getr i). Proof. intros i w. unfold getr. destruct (nth_error _ _); now split. Qed.
Lemma lo_gett : forall i, local (gett i). Proof. intros i w. unfold gett. destruct (nth_error _ _); now split. Qed.
Lemma lo_sets : forall i x, local (sets i x). Proof. now split. Qed.
Lemma lo_setr : forall i x, local (setr i x). Proof. now split. Qed.
Lemma lo_sett : forall i x, local (sett i x). Proof. now split. Qed.
Lemma lo_news : forall x, local (news x). Proof. now split. Qed.
Lemma lo_newr : forall x, local (newr x). Proof. now split. Qed.
Lemma lo_newt : forall x, local (newt x). Proof. now split. Qed.
Lemma lo_modc : forall f, (forall c, c_closed (f c) = c_closed c) -> local (modc f). Proof. intros f H w. split; cbn; auto. Qed.
Hint Resolve lo_ret lo_panic lo_nofuel lo_getc lo_gets lo_getr lo_gett lo_sets lo_setr lo_sett lo_news lo_newr lo_newt : core.
Ltac lo := repeat first [solve [auto] | apply lo_modc; reflexivity | apply local_bind; [|intro] | match goal with |- local (match ?x with _ => _ end) => destruct x end].
Lemma lo_need : forall i, local (need_conn i). Proof. intros. unfold need_conn. lo. Qed.
Lemma lo_mods : forall i f, local (mods i f). Proof. intros. unfold mods. lo. Qed.
Lemma lo_modr : forall i f, local (modr i f). Proof. intros. unfold modr. lo. Qed.
Hint Resolve lo_need lo_mods lo_modr : core.
Lemma Q_ret : forall A (a : A) P, Q (ret a) P. Proof. intros. apply local_Q. auto. Qed.
Lemma q_ret : forall A (a : A), Pres quiet (ret a). Proof. intros. apply local_quiet. auto. Qed.
Lemma q_bind : forall A B (m : M A) (k : A -> M B), Pres quiet m -> (forall a, Pres quiet (k a)) -> Pres quiet (bind m k).
Proof. intros. apply Pres_bind; auto. apply quiet_trans. Qed.
Lemma never_ret : forall A (a : A) (P : A -> Prop), ~ P a -> never (ret a) P. Proof. intros A a P H w. exact H. Qed.
Lemma never_bind : forall A B (m : M A) (k : A -> M B) P, (forall a, never (k a) P) -> never (bind m k) P.
Proof. intros A B m k P H w. unfold bind. destruct (m w) as [[a| |] w']; auto. exact (H a w'). Qed.
Lemma Q_enc : forall v, Q (encode_msg ops v) (fun _ => True).
Proof.
  intros v w Hc Hs. unfold encode_msg, bind, getc, getn, setn. cbn. unfold cons in Hs. rewrite Hc in Hs. unfold touch.
  destruct (n_send ops0 _ _ _) as [n r]. rewrite Hs. destruct r; (split; [intros _; split; cbn; auto; unfold cons; cbn; congruence|cbn; auto]).
Qed.
Lemma Q_dec : Q (decode_msg ops) (fun _ => True).
Proof.
  intros w Hc Hs. unfold decode_msg, bind, getc, getn, setn. cbn. unfold cons in Hs. rewrite Hc in Hs. unfold touch.
  destruct (n_recv ops0 _) as [n r]. rewrite Hs. destruct r; (split; [intros _; split; cbn; auto; unfold cons; cbn; congruence|cbn; auto]).
Qed.

Section Inner.
Variable lf : nat.
Variable cls : M (option gerr).
Hypothesis Hcls : Pres quiet cls.
Notation none := (fun e : option gerr => e = None).
Notation ok2 := (fun p : option goval * option gerr => snd p = None).
Notation ok3 := (fun p : option goval * option goval * option gerr => snd p = None).
Ltac nv := first [apply never_ret; discriminate | apply never_bind; intro; nv].
Ltac qt := repeat first [assumption | apply q_ret | apply local_quiet; solve [lo] | apply q_bind; [|intro]].
(** the error branch *)
Ltac bad := right; split; [qt|nv].
Lemma Q_cls_err0 : forall A (a : A) (P : A -> Prop), ~ P a -> Q (cls ;; ret a) P.
Proof.
  intros A a P H. eapply (Q_bind _ _ _ _ (fun _ => False)).
  - intros w _ _. split; [apply Hcls|]. destruct (cls w) as [[x| |] w']; auto. intros [].
  - intros x. right. split; [apply q_ret|now apply never_ret].
Qed.
Lemma Q_cls_err : forall A (a : A) (P : A -> Prop), ~ P a -> Q (modc c_set_err ;; cls ;; ret a) P.
Proof. intros A a P H. apply Q_seq; [apply local_Q; lo|]. intros _. now apply Q_cls_err0. Qed.
Lemma Q_reset_loop : forall f, Q (reset_loop ops cls f) none.
Proof.
  induction f as [|f IH]; cbn [reset_loop]; [apply local_Q; auto|]. apply Q_seq; [apply Q_dec|]. intros [v [e|]]; [apply Q_ret|].
  destruct v as [[]|]; try exact IH; try apply Q_ret; first [apply Q_cls_err; discriminate | apply Q_cls_err0; discriminate].
Qed.
Lemma Q_reset : Q (reset ops lf cls) none.
Proof. unfold reset. apply Q_seq; [apply Q_enc|]. intros [e|]; [apply Q_ret|apply Q_reset_loop]. Qed.
Lemma Q_ack_loop : forall f, Q (ack_loop ops lf cls f) none.
Proof.
  induction f as [|f IH]; cbn [ack_loop]; [apply local_Q; auto|]. apply Q_seq; [apply Q_dec|]. intros [v [e|]]; [apply Q_ret|].
  destruct v as [[]|]; try exact IH; try apply Q_ret; try apply Q_reset; first [apply Q_cls_err; discriminate | apply Q_cls_err0; discriminate].
Qed.
Lemma Q_ack : Q (ack_failure ops lf cls) none.
Proof. unfold ack_failure. apply Q_seq; [apply Q_enc|]. intros [e|]; [apply Q_ret|apply Q_ack_loop]. Qed.
Lemma Q_consume : Q (consume ops lf cls) ok2.
Proof.
  unfold consume. apply Q_seq; [apply Q_dec|]. intros [v [e|]]; [apply Q_ret|].
  destruct v as [[]|]; try apply Q_ret. eapply (Q_bind _ _ _ _ (fun _ => False)); [eapply Q_weaken; [apply Q_ack|tauto]|].
  intros [e|]; bad.
Qed.
Ltac both H := eapply Q_bind; [apply H|]; cbn; intros [? [?|]]; [bad|left; split; [reflexivity|]].
Lemma Q_consume_all : Q (consume_all ops lf cls) ok2.
Proof.
  unfold consume_all. generalize lf at 2 as f. induction f as [|f IH]; cbn [consume_all_loop]; [apply local_Q; auto|].
  both Q_consume. destruct o as [[]|]; try exact IH. apply Q_ret.
Qed.
Lemma Q_consume_n : forall n, Q (consume_all_n ops lf cls n) none.
Proof. induction n as [|n IH]; cbn [consume_all_n]; [apply Q_ret|]. both Q_consume_all. exact IH. Qed.
Lemma Q_multiple : forall z, Q (consume_all_multiple ops lf cls z) none.
Proof. intros z. unfold consume_all_multiple. destruct (_ <? _); [apply local_Q; auto|apply Q_consume_n]. Qed.
Lemma Q_send_run : forall q ps, Q (send_run ops q ps) (fun _ => True).
Proof. intros. unfold send_run. apply Q_seq; [apply Q_enc|]. intros [e|]; apply Q_ret. Qed.
Lemma Q_send_pull : Q (send_pull_all ops) (fun _ => True).
Proof. unfold send_pull_all. apply Q_seq; [apply Q_enc|]. intros [e|]; apply Q_ret. Qed.
Lemma Q_send_run_pull : forall q ps, Q (send_run_pull_all ops q ps) (fun _ => True).
Proof. intros. unfold send_run_pull_all. apply Q_seq; [apply Q_send_run|]. intros [e|]; [apply Q_ret|apply Q_send_pull]. Qed.
Lemma Q_single : forall q ps, Q (send_run_pull_all_consume_single ops lf cls q ps) ok3.
Proof.
  intros. unfold send_run_pull_all_consume_single. apply Q_seq; [apply Q_send_run_pull|]. intros [e|]; [apply Q_ret|].
  both Q_consume. both Q_consume. apply Q_ret.
Qed.
Lemma Q_all3 : forall q ps, Q (send_run_pull_all_consume_all ops lf cls q ps) ok3.
Proof.
  intros. unfold send_run_pull_all_consume_all. apply Q_seq; [apply Q_send_run_pull|]. intros [e|]; [apply Q_ret|].
  both Q_consume. both Q_consume_all. apply Q_ret.
Qed.
Lemma Q_run_consume : forall q ps, Q (send_run_consume ops lf cls q ps) ok2.
Proof. intros. unfold send_run_consume. apply Q_seq; [apply Q_send_run|]. intros [e|]; [apply Q_ret|apply Q_consume]. Qed.
Lemma Q_consume_run : forall q ps, Q (send_run_pull_all_consume_run ops lf cls q ps) ok2.
Proof. intros. unfold send_run_pull_all_consume_run. apply Q_seq; [apply Q_send_run_pull|]. intros [e|]; [apply Q_ret|apply Q_consume]. Qed.
Lemma Q_discard : Q (send_discard_all_consume ops lf cls) ok2.
Proof. unfold send_discard_all_consume. apply Q_seq; [apply Q_enc|]. intros [e|]; [apply Q_ret|apply Q_consume]. Qed.
Ltac q1 := apply Q_seq; [apply local_Q; solve [lo]|intro].
Lemma Q_rows_close_body : forall rid, Q (rows_close_body ops lf cls rid) none.
Proof.
  intros. unfold rows_close_body. q1.
  apply (Q_bind _ _ _ _ none).
  - destruct (negb (r_consumed a)); [|destruct (negb (r_finished a))].
    + q1. both Q_discard. destruct o as [[]|]; apply Q_ret.
    + q1. q1. eapply Q_bind; [apply Q_multiple|]. intros [e|]; [bad|left; split; [reflexivity|apply Q_ret]].
    + apply Q_ret.
  - intros [e|]; [bad|left; split; [reflexivity|]]. apply local_Q; lo.
Qed.
Lemma Q_stmt_close : forall sid, Q (stmt_close ops lf cls sid) none.
Proof.
  intros. unfold stmt_close. q1. destruct (s_closed a); [apply Q_ret|].
  apply (Q_bind _ _ _ _ none).
  - destruct (s_rows a) as [rid|]; [|apply Q_ret]. q1.
    destruct (r_closeStmt a0); [apply Q_ret|]. destruct (r_closed a0); [apply Q_ret|]. apply Q_rows_close_body.
  - intros [e|]; [bad|left; split; [reflexivity|]]. apply local_Q; lo.
Qed.
Lemma Q_rows_close : forall rid, Q (rows_close ops lf cls rid) none.
Proof.
  intros. unfold rows_close. q1. destruct (r_closed a); [apply Q_ret|].
  eapply Q_bind; [apply Q_rows_close_body|]. intros [e|]; [bad|left; split; [reflexivity|]].
  destruct (r_closeStmt a); [apply Q_stmt_close|apply Q_ret].
Qed.
Lemma Q_tx_finish : forall s l1 l2 l3 l4 l5 tid, Q (tx_finish ops lf cls s l1 l2 l3 l4 l5 tid) none.
Proof.
  intros. unfold tx_finish. q1. destruct (t_closed a); [apply Q_ret|]. q1.
  apply (Q_bind _ _ _ _ none); [destruct (c_stmt a0); [apply Q_stmt_close|apply Q_ret]|].
  intros [e|]; [bad|left; split; [reflexivity|]].
  eapply Q_bind; [apply Q_single|]. cbn. intros [[run pull] [e|]]; [bad|left; split; [reflexivity|]].
  destruct run as [[]|]; try apply Q_ret. destruct pull as [[]|]; apply local_Q; lo.
Qed.
Lemma quiet_close_body : Pres quiet (close_body ops lf cls).
Proof.
  intros w. unfold close_body. unfold bind at 1, getc. destruct (c_closed (w_conn w)) eqn:Ec; [apply quiet_refl|].
  apply Q_quiet; [|exact Ec].
  eapply (Q_bind _ _ _ _ none); [destruct (c_stmt (w_conn w)); [apply Q_stmt_close|apply Q_ret]|].
  intros [e|]; [right; split; [qt|apply never_ret; tauto]|left; split; [reflexivity|]]. q1.
  eapply (Q_bind _ _ _ _ none); [destruct (c_tx a); [apply Q_tx_finish|apply Q_ret]|].
  intros [e|]; [right; split; [qt|apply never_ret; tauto]|left; split; [reflexivity|]]. q1.
  destruct (c_pooled a0); [apply local_Q; lo|].
  intros w1 _ Hs. unfold bind, getn, setn. cbn. destruct (n_close ops0 _) as [n []]; cbn; (split; [|tauto]); intros _; split; reflexivity.
Qed.
End Inner.
Lemma quiet_close : forall f, Pres quiet (close ops f).
Proof. intros f. apply Pres_close; [apply quiet_refl|]. intros g cls. apply quiet_close_body. Qed.

(** ** The calls, on an open connection *)
Section Calls.
Variable f : nat.
Let cls := close ops f.
Let Hcls : Pres quiet cls := quiet_close f.
Notation none := (fun e : option gerr => e = None).
Notation any := (fun _ => False).
Ltac qt := repeat first [assumption | apply q_ret | apply local_quiet; solve [lo] | apply q_bind; [|intro]].
Ltac q1 := apply Q_seq; [apply local_Q; solve [lo]|intro].
Ltac fin := first [apply Q_ret | apply local_Q; solve [lo]].
(** what follows an error *)
Ltac bad := right; split; [qt|first [apply never_ret; first [discriminate | tauto] | intros ?w; cbn; tauto]].
Ltac good := left; split; [reflexivity|].
Lemma Q_send_queries : forall l qs pss, Q (send_queries ops l qs pss) (fun _ => True).
Proof.
  intros l qs. induction qs as [|q qs IH]; intros [|ps pss]; cbn [send_queries]; try fin.
  apply Q_seq; [apply Q_send_run_pull|]. intros [e|]; [fin|apply IH].
Qed.
Lemma Q_exec_results : forall qs, Q (exec_results ops f cls qs) (fun p => snd p = None).
Proof.
  induction qs as [|q qs IH]; cbn [exec_results]; [fin|].
  eapply Q_bind; [apply Q_consume, Hcls|]. cbn. intros [v [e|]]; [bad|good]. destruct v as [[]|]; try fin.
  eapply Q_bind; [apply Q_consume_all, Hcls|]. cbn. intros [v [e|]]; [bad|good]. destruct v as [[]|]; try fin.
  eapply Q_bind; [apply IH|]. cbn. intros [v [e|]]; [bad|good]. fin.
Qed.
Lemma Q_stmt_exec : forall sid ps, Q (stmt_exec ops f cls sid ps) any.
Proof.
  intros. unfold stmt_exec. q1. destruct (s_closed a); [fin|]. destruct (s_rows a); [fin|]. q1.
  eapply Q_bind; [apply Q_all3, Hcls|]. cbn. intros [[r pl] [e|]]; [bad|good]. destruct r as [[]|]; fin.
Qed.
Lemma Q_stmt_exec_pipeline : forall sid pss, Q (stmt_exec_pipeline ops f cls sid pss) any.
Proof.
  intros. unfold stmt_exec_pipeline. q1. destruct (s_closed a); [fin|]. destruct (s_rows a); [fin|]. destruct (negb _); [fin|].
  apply Q_seq; [apply local_Q; lo|]. intros _. apply Q_seq; [apply Q_send_queries|]. intros [e|]; [fin|].
  eapply Q_bind; [apply Q_exec_results|]. cbn. intros [ms [e|]]; [bad|good]. fin.
Qed.
Lemma Q_stmt_query : forall sid ps, Q (stmt_query ops f cls sid ps) (fun p => snd p = None).
Proof.
  intros. unfold stmt_query. q1. destruct (s_closed a); [fin|]. destruct (s_rows a); [fin|]. q1.
  eapply Q_bind; [apply Q_run_consume, Hcls|]. cbn. intros [v [e|]]; [bad|good]. destruct v as [[]|]; fin.
Qed.
Lemma Q_stmt_query_pipeline : forall sid pss, Q (stmt_query_pipeline ops f cls sid pss) (fun p => snd p = None).
Proof.
  intros. unfold stmt_query_pipeline. q1. destruct (s_closed a); [fin|]. destruct (s_rows a); [fin|]. destruct (negb _); [fin|]. q1.
  apply Q_seq; [apply Q_send_queries|]. intros [e|]; [fin|].
  eapply Q_bind; [apply Q_consume, Hcls|]. cbn. intros [v [e|]]; [bad|good]. destruct v as [[]|]; fin.
Qed.
Lemma Q_begin : Q (begin_tx ops f cls) any.
Proof.
  unfold begin_tx, guard_open. q1. destruct (c_tx a); [fin|]. q1. destruct (c_stmt a0); [fin|]. destruct (c_closed a0); [fin|].
  eapply Q_bind; [apply Q_single, Hcls|]. cbn. intros [[r pl] [e|]]; [bad|good]. destruct r as [[]|]; fin.
Qed.
Lemma Q_next_neo : forall rid, Q (next_neo ops f cls rid) (fun p => snd p = None).
Proof.
  intros. unfold next_neo. q1. destruct (r_closed a); [fin|]. apply Q_seq.
  - destruct (negb _); [|fin]. q1. q1. apply Q_seq; [apply Q_send_pull|]. intros [e|]; fin.
  - intros [e|]; [fin|]. q1. eapply Q_bind; [apply Q_consume, Hcls|]. cbn. intros [v [e|]]; [bad|good]. destruct v as [[]|]; fin.
Qed.
Lemma Q_all : forall rid, Q (all_rows ops f cls rid) (fun p => False).
Proof.
  intros rid. unfold all_rows. generalize (@nil (list goval)) as acc. generalize f at 2 as g. induction g as [|g IH]; intros acc; cbn [all_loop]; [fin|].
  eapply Q_bind; [apply Q_next_neo|]. cbn. intros [[row m] [e|]].
  - right. destruct e; (split; [qt|intros ?; cbn; tauto]).
  - left. split; [reflexivity|]. destruct row; [apply IH|fin].
Qed.
Lemma Q_next_pipeline : forall rid, Q (next_pipeline ops f cls rid) any.
Proof.
  intros. unfold next_pipeline. q1. destruct (r_closed a); [fin|]. q1.
  eapply Q_bind; [apply Q_consume, Hcls|]. cbn. intros [v [e|]]; [bad|good]. destruct v as [[]|]; try fin.
  q1. destruct (_ =? _); [fin|]. q1.
  eapply Q_bind; [apply Q_consume, Hcls|]. cbn. intros [v [e|]]; [|good; destruct v as [[]|]; fin].
  right. split.
  - destruct e; cbn; try apply q_ret. destruct v as [[]|]; apply local_quiet; lo.
  - intros x. destruct e; cbn; try tauto. destruct v as [[]|]; cbn; try tauto.
    match goal with |- match ?x with _ => _ end => destruct x as [[| |] ?]; tauto end.
Qed.
End Calls.

(** ** On a closed one *)
Definition dead (w : W) : Prop := c_closed (w_conn w) = true /\ forall i s, nth_error (w_stmts w) i = Some s -> s_closed s = true /\ s_conn s = false.
Lemma KInv_dead : forall w, KInv None w -> c_closed (w_conn w) = true -> dead w.
Proof.
  intros w ((A & B & _ & _) & K) Hc. split; [assumption|]. intros i s E. specialize (K Hc).
  assert (C : s_closed s = true).
  { destruct (s_closed s) eqn:Es; [reflexivity|]. destruct (A i) as [H|H]; [exists s; auto|congruence|discriminate]. }
  split; [assumption|]. rewrite (B i s E), C. reflexivity.
Qed.
Definition D {A} (m : M A) : Prop := forall w, dead w -> quiet w (snd (m w)).
Lemma D_local : forall A (m : M A), local m -> D m. Proof. intros A m H w _. now apply local_quiet. Qed.
Lemma dead_need : forall i w, dead w -> need_conn i w = (Panic, w).
Proof.
  intros i w H. unfold need_conn, bind, gets. destruct (nth_error (w_stmts w) i) as [s|] eqn:E; [|reflexivity].
  destruct H as [_ H]. destruct (H i s E) as [_ ->]. reflexivity.
Qed.
Lemma D_need : forall A i (k : unit -> M A), D (bind (need_conn i) k).
Proof. intros A i k w H. unfold bind. rewrite dead_need by assumption. apply quiet_refl. Qed.
Lemma D_gets : forall A i (k : stmt -> M A), (forall s, s_closed s = true -> D (k s)) -> D (bind (gets i) k).
Proof.
  intros A i k H w Hw. unfold bind, gets. destruct (nth_error (w_stmts w) i) as [s|] eqn:E; [|apply quiet_refl].
  apply H; [|exact Hw]. now apply (proj2 Hw) in E.
Qed.
Lemma D_getr : forall A i (k : rows -> M A), (forall r, D (k r)) -> D (bind (getr i) k).
Proof. intros A i k H w Hw. unfold bind, getr. destruct (nth_error (w_rows w) i) as [s|]; [|apply quiet_refl]. now apply H. Qed.
Lemma D_guard : forall A l1 l2 (b : gerr -> A) k, D (guard_open l1 l2 b k).
Proof. intros A l1 l2 b k w [Hc _]. unfold guard_open, bind, getc. destruct (c_stmt (w_conn w)); [apply quiet_refl|]. rewrite Hc. apply quiet_refl. Qed.
Section Dead.
Variable f : nat.
Let cls := close ops f.
Lemma D_stmt_exec : forall sid ps, D (stmt_exec ops f cls sid ps).
Proof. intros. apply D_gets. intros s ->. apply D_local; auto. Qed.
Lemma D_stmt_exec_pipeline : forall sid ps, D (stmt_exec_pipeline ops f cls sid ps).
Proof. intros. apply D_gets. intros s ->. apply D_local; auto. Qed.
Lemma D_stmt_query : forall sid ps, D (stmt_query ops f cls sid ps).
Proof. intros. apply D_gets. intros s ->. apply D_local; auto. Qed.
Lemma D_stmt_query_pipeline : forall sid ps, D (stmt_query_pipeline ops f cls sid ps).
Proof. intros. apply D_gets. intros s ->. apply D_local; auto. Qed.
Lemma D_stmt_close : forall sid, D (stmt_close ops f cls sid).
Proof. intros. apply D_gets. intros s ->. apply D_local; auto. Qed.
Lemma modr_stmts : forall i g w, w_stmts (snd (modr i g w : outc unit * W)) = w_stmts w.
Proof. intros. unfold modr, bind, getr, setr. destruct (nth_error _ _); reflexivity. Qed.
(** rows on a dead connection: nothing happens, or nil is dereferenced *)
Lemma dead_next : forall rid w, dead w -> (exists e, next_neo ops f cls rid w = (Ok (None, None, Some e), w)) \/
  (exists w', next_neo ops f cls rid w = (Panic, w') /\ quiet w w' /\ dead w').
Proof.
  intros rid w Hw. destruct (next_neo ops f cls rid w) as [x w'] eqn:E. unfold next_neo in E. unfold bind at 1, getr in E.
  destruct (nth_error (w_rows w) rid) as [r|] eqn:Er; [|injection E as <- <-; right; exists w; split; [reflexivity|split; [apply quiet_refl|assumption]]].
  destruct (r_closed r); [injection E as <- <-; left; eexists; reflexivity|]. right. destruct (negb (r_consumed r)).
  - unfold bind at 1 2 in E. unfold modr at 1 in E. unfold bind at 1, getr in E. rewrite Er in E. unfold setr at 1 in E. unfold bind at 1 in E.
    match type of E with context [need_conn _ ?x] => set (w1 := x) in E end.
    assert (H1 : dead w1) by exact Hw. rewrite dead_need in E by assumption. injection E as <- <-. exists w1. split; [reflexivity|]. split; [qs|assumption].
  - unfold bind at 1, ret at 1 in E. cbv beta iota in E. unfold bind at 1 in E. rewrite dead_need in E by assumption. injection E as <- <-.
    exists w. split; [reflexivity|split; [apply quiet_refl|assumption]].
Qed.
Lemma D_next_neo : forall rid, D (next_neo ops f cls rid).
Proof. intros rid w Hw. destruct (dead_next rid w Hw) as [[e ->]|(w' & -> & H & _)]; [apply quiet_refl|exact H]. Qed.
Lemma D_all : forall rid, D (all_rows ops f cls rid).
Proof.
  intros rid w Hw. unfold all_rows. generalize (@nil (list goval)) as acc. generalize f at 2 as g. intros [|g] acc; cbn [all_loop]; [apply quiet_refl|].
  unfold bind at 1. destruct (dead_next rid w Hw) as [[e ->]|(w' & -> & H & _)]; [|exact H]. destruct e; apply quiet_refl.
Qed.
Lemma D_next_pipeline : forall rid, D (next_pipeline ops f cls rid).
Proof. intros. apply D_getr. intros r. destruct (r_closed r); [apply D_local; auto|apply D_need]. Qed.
Lemma D_rows_close : forall rid, D (rows_close ops f cls rid).
Proof.
  intros rid. apply D_getr. intros r. destruct (r_closed r); [apply D_local; auto|].
  intros w Hw. unfold bind at 1.
  assert (X : forall x w', rows_close_body ops f cls rid w = (x, w') -> quiet w w' /\ (forall e, x = Ok e -> dead w')).
  { intros x w' E. unfold rows_close_body in E. unfold bind at 1, getr in E.
    destruct (nth_error (w_rows w) rid) as [r1|]; [|injection E as <- <-; split; [apply quiet_refl|discriminate]].
    destruct (negb (r_consumed r1)).
    { unfold bind at 1 2 in E. rewrite dead_need in E by assumption. injection E as <- <-. split; [apply quiet_refl|discriminate]. }
    destruct (negb (r_finished r1)).
    { unfold bind at 1 2 in E. unfold gets in E. destruct (nth_error (w_stmts w) (r_stmt r1)); [|injection E as <- <-; split; [apply quiet_refl|discriminate]].
      unfold bind at 1 in E. rewrite dead_need in E by assumption. injection E as <- <-. split; [apply quiet_refl|discriminate]. }
    unfold bind at 1, ret at 1 in E. cbv beta iota in E. split.
    { match type of E with ?m w = _ => assert (L : local m) by lo; pose proof (local_quiet _ _ L w) as H; rewrite E in H; exact H end. }
    intros e ->.
    apply bind_inv in E. destruct E as (u & w1 & E1 & E). apply bind_inv in E. destruct E as (u2 & w2 & E2 & E). injection E as <- <-.
    pose proof (modr_stmts rid r_set_closed w) as S1. pose proof (lo_modr rid r_set_closed w) as [_ C1]. rewrite E1 in S1, C1. cbn in S1, C1.
    pose proof (lo_mods (r_stmt r1) (s_set_rows None) w1) as [_ C2]. rewrite E2 in C2. cbn in C2.
    destruct Hw as [Hc Hd]. split; [congruence|]. intros i s Es.
    unfold mods, bind, gets, sets in E2. destruct (nth_error (w_stmts w1) (r_stmt r1)) as [s1|] eqn:E3; [|discriminate]. injection E2 as <- <-.
    cbn in Es. rewrite S1 in *. destruct (Nat.eq_dec (r_stmt r1) i) as [Heq|Hn].
    - rewrite Heq in E3, Es. erewrite nth_upd_same in Es by eauto. injection Es as <-. exact (Hd _ _ E3).
    - rewrite nth_upd_other in Es by assumption. eauto. }
  destruct (rows_close_body ops f cls rid w) as [[e| |] w1]; destruct (X _ _ eq_refl) as [X1 X2]; try exact X1.
  specialize (X2 e eq_refl). destruct e; [exact X1|]. destruct (r_closeStmt r); [|exact X1]. eapply quiet_trans; [exact X1|]. now apply D_stmt_close.
Qed.
End Dead.

(** ** Any call but Commit and Rollback *)
Section Step.
Variable f : nat.
Variable mk : bool.
Let cls := close ops f.
Let Hcls : Pres quiet cls := quiet_close f.
(** either way *)
Lemma both_ways : forall A (m : M A), Q m (fun _ => False) -> D m -> forall w, KInv None w -> quiet w (snd (m w)).
Proof.
  intros A m HQ HD w K. destruct (c_closed (w_conn w)) eqn:E; [|now apply Q_quiet].
  apply HD. now apply KInv_dead.
Qed.
(** deferring *)
Lemma quiet_defer : forall A B (m : M A) (d : M B) w, quiet w (snd (m w)) -> quiet (snd (m w)) (snd (d (snd (m w)))) -> quiet w (snd (with_defer m d w)).
Proof.
  intros A B m d w H1 H2. unfold with_defer. destruct (m w) as [[a| |] w1]; cbn in *; destruct (d w1) as [[b| |] w2]; cbn in *; eapply quiet_trans; eauto.
Qed.
Lemma quiet_temp : forall A l1 l2 (b : gerr -> A) s k, s_closed s = false -> s_conn s = true -> s_rows s = None ->
  (forall sid, Q (k sid) (fun _ => False)) -> (forall t sid, Pres (fun w w' => Inv t w -> Inv t w') (k sid)) -> (forall sid, Pres (norows sid) (k sid)) ->
  forall w, KInv None w -> quiet w (snd (guard_open (N := N * (bool * nat)) l1 l2 b (sid <- news s ;; with_defer (k sid) (stmt_close ops f cls sid)) w)).
Proof.
  intros A l1 l2 b s k Hs Hc Hr HQ HI HN w K. unfold guard_open. unfold bind at 1, getc.
  destruct (c_stmt (w_conn w)) as [i|] eqn:Ei; [apply quiet_refl|]. destruct (c_closed (w_conn w)) eqn:Ec; [apply quiet_refl|].
  unfold bind at 1, news. cbv beta iota.
  match goal with |- context [with_defer _ _ ?x] => set (w1 := x) end. set (sid := length (w_stmts w)).
  assert (C1 : c_closed (w_conn w1) = false) by exact Ec.
  assert (I1 : Inv (Some sid) w1).
  { destruct K as ((A1 & B & C & D0) & _). split; [|split; [|split]]; cbn.
    - intros i Hi. apply open_news in Hi. destruct Hi as [Hi|[-> _]]; auto. apply A1 in Hi. destruct Hi; congruence.
    - intros i x Ex. apply nth_news in Ex. destruct Ex as [Ex|[-> ->]]; eauto. rewrite Hs, Hc. reflexivity.
    - auto.
    - congruence. }
  assert (N1 : exists s0, nth_error (w_stmts w1) sid = Some s0 /\ s_rows s0 = None).
  { exists s. split; auto. cbn. unfold sid. rewrite nth_error_app2 by lia. rewrite Nat.sub_diag. reflexivity. }
  eapply quiet_trans; [apply (quiet_same w w1); reflexivity|].
  apply (HI (Some sid) sid) in I1. apply HN in N1. apply quiet_defer; [now apply Q_quiet|].
  destruct N1 as (s0 & E0 & R0). unfold stmt_close, bind at 1, gets. rewrite E0. destruct (s_closed s0); [apply quiet_refl|]. rewrite R0.
  apply local_quiet; lo.
Qed.
Lemma quiet_query_neo : forall q ps w, KInv None w -> quiet w (snd (query_neo ops f cls q ps w)).
Proof.
  intros q ps w K. unfold query_neo, guard_open. unfold bind at 1, getc.
  destruct (c_stmt (w_conn w)) as [i|] eqn:Ei; [apply quiet_refl|]. destruct (c_closed (w_conn w)) eqn:Ec; [apply quiet_refl|].
  unfold bind at 1, news. cbv beta iota. unfold bind at 1. unfold modc at 1. unfold bind at 1, getc at 1, setc at 1. cbv beta iota. cbn [w_conn w_stmts w_rows w_txs w_net].
  match goal with |- context [bind _ _ ?x] => set (w1 := x) end.
  assert (K1 : KInv None w1).
  { pose proof (K_make (N := N * (bool * nat)) unit 0 0 (fun _ : gerr => tt) (new_stmt q) (fun _ => ret tt) eq_refl eq_refl (fun _ w H => H) w K) as X.
    unfold guard_open, bind, getc, news, modc in X. rewrite Ei, Ec in X. exact X. }
  assert (C1 : c_closed (w_conn w1) = false) by exact Ec.
  eapply quiet_trans; [apply (quiet_same w w1); reflexivity|]. clearbody w1. clear K Ei Ec w.
  pose proof (Q_consume_run f cls Hcls q ps w1 C1) as HQ.
  assert (K2 : KInv None (snd (send_run_pull_all_consume_run ops f cls q ps w1))).
  { assert (P : Pres (fun w w' : W => KInv None w -> KInv None w') (send_run_pull_all_consume_run ops f cls q ps)).
    { apply Pres_consume_run; auto using K_enc, K_dec, K_close. apply K_modc. now split. apply K_close. }
    now apply P. }
  unfold bind at 1. destruct (send_run_pull_all_consume_run ops f cls q ps w1) as [[[v e]| |] w2]; cbn in K2; [|now intros Hs; apply HQ|now intros Hs; apply HQ].
  assert (H2 : quiet w1 w2) by (intros Hs; now apply HQ).
  assert (CC : forall A (a : A), quiet w2 (snd ((close_cur_stmt ops f cls ;; ret a) w2))).
  { intros A a. destruct (c_closed (w_conn w2)) eqn:Ec.
    - unfold close_cur_stmt, bind at 1 2, getc. rewrite (proj2 K2 Ec). apply quiet_refl.
    - apply Q_quiet; [|assumption]. eapply (Q_bind _ _ _ _ (fun _ => False)).
      + unfold close_cur_stmt. apply Q_seq; [apply local_Q; auto|]. intros c. destruct (c_stmt c); [|apply local_Q; auto].
        eapply Q_bind; [apply Q_stmt_close, Hcls|]. intros x. right. split; [apply q_ret|]. intros w. cbn. tauto.
      + intros x. right. split; [apply q_ret|]. intros w. cbn. tauto. }
  eapply quiet_trans; [exact H2|]. destruct e as [e|]; [apply CC|]. destruct v as [[]|]; try apply CC. apply local_quiet; lo.
Qed.
Lemma K_query_neo : forall q ps, Pres (fun w w' : W => KInv None w -> KInv None w') (query_neo ops f cls q ps).
Proof.
  intros q ps w K. pose proof (K_step ops mk f (CQuery q ps) w K) as H. unfold step, step_body, bind in H. fold cls in H.
  destruct (query_neo ops f cls q ps w) as [[[h e]| |] w1]; exact H.
Qed.
Lemma K_all : forall rid, Pres (fun w w' : W => KInv None w -> KInv None w') (all_rows ops f cls rid).
Proof.
  intros rid w K. pose proof (K_step ops mk f (RAll rid) w K) as H. unfold step, step_body, bind in H. fold cls in H.
  destruct (all_rows ops f cls rid w) as [[[[h m] e]| |] w1]; exact H.
Qed.
Lemma quiet_query_all : forall q ps w, KInv None w -> quiet w (snd (query_neo_all ops f cls q ps w)).
Proof.
  intros q ps w K. unfold query_neo_all. unfold bind at 1. pose proof (quiet_query_neo q ps w K) as H1. pose proof (K_query_neo q ps w K) as K1.
  destruct (query_neo ops f cls q ps w) as [[[h e]| |] w1]; cbn in H1, K1; try exact H1. destruct e; [exact H1|]. destruct h as [rid|]; [|exact H1].
  eapply quiet_trans; [exact H1|].
  pose proof (both_ways _ _ (Q_all f rid) (D_all f rid) w1 K1) as H2. pose proof (K_all rid w1 K1) as K2. fold cls in H2.
  assert (X : exists r w2, ('(data, m, e) <- all_rows ops f cls rid ;; r <- getr rid ;; ret (Some data, Some (r_md r), m, e)) w1 = (r, w2) /\ KInv None w2 /\ quiet w1 w2).
  { unfold bind at 1. destruct (all_rows ops f cls rid w1) as [[[[d m] e]| |] w2]; cbn in H2, K2; try (eexists; eexists; split; [reflexivity|auto]; fail).
    unfold bind, getr. destruct (nth_error _ _); (eexists; eexists; split; [reflexivity|auto]). }
  destruct X as (r & w2 & E & K3 & H3). apply quiet_defer; rewrite E; cbn; [exact H3|].
  apply both_ways; [|apply D_rows_close|assumption]. eapply Q_weaken; [apply Q_rows_close, Hcls|tauto].
Qed.
Lemma quiet_query_pipeline : forall qs pss w, KInv None w -> quiet w (snd (query_pipeline ops f cls qs pss w)).
Proof.
  intros qs pss. apply both_ways; [|apply D_guard]. unfold query_pipeline, guard_open.
  apply Q_seq; [apply local_Q; auto|]. intros c. destruct (c_stmt c); [apply Q_ret|]. destruct (c_closed c); [apply Q_ret|].
  apply Q_seq; [apply local_Q; auto|]. intros sid. apply Q_seq; [apply local_Q; lo|]. intros _.
  eapply Q_bind; [apply Q_stmt_query_pipeline|]. cbn. intros [r [e|]]; [right; split; [apply q_ret|intros w; cbn; tauto]|left; split; [reflexivity|]].
  apply local_Q; lo.
Qed.
Lemma quiet_out : forall A (m : M A) (g : A -> out) w, quiet w (snd (m w)) -> quiet w (snd ((a <- m ;; ret (g a)) w)).
Proof. intros A m g w H. unfold bind. destruct (m w) as [[a| |] w1]; exact H. Qed.
(** Commit or Rollback of a transaction that is still open, on a connection that is not. *)
Definition late (o : op) (w : W) : Prop := c_closed (w_conn w) = true /\
  exists t, (o = TCommit t \/ o = TRollback t) /\ nth_error (w_txs w) t = Some {| t_closed := false |}.
Lemma quiet_tx : forall q l1 l2 l3 l4 l5 t w, ~ (c_closed (w_conn w) = true /\ nth_error (w_txs w) t = Some {| t_closed := false |}) ->
  quiet w (snd (tx_finish ops f cls q l1 l2 l3 l4 l5 t w)).
Proof.
  intros q l1 l2 l3 l4 l5 t w H. destruct (c_closed (w_conn w)) eqn:Ec.
  - unfold tx_finish, bind at 1, gett. destruct (nth_error (w_txs w) t) as [[[]]|] eqn:E; try apply quiet_refl. exfalso. apply H. now split.
  - apply Q_quiet; [|assumption]. eapply Q_weaken; [apply Q_tx_finish, Hcls|tauto].
Qed.
Theorem quiet_step : forall o w, ~ late o w -> KInv None w -> quiet w (snd (step ops mk f o w)).
Proof.
  intros o w Ho K. unfold step. fold cls.
  assert (G : forall A (m : M A) (g : A -> M out), (forall a, local (g a)) -> quiet w (snd (m w)) -> quiet w (snd (bind m g w))).
  { intros A m g Hg H. unfold bind. destruct (m w) as [[a| |] w1]; try exact H. eapply quiet_trans; [exact H|]. now apply local_quiet. }
  assert (HW : forall A (m : M A) P, Q m P -> D m -> quiet w (snd (m w))).
  { intros A m P H1 H2. apply both_ways; auto. eapply Q_weaken; [exact H1|tauto]. }
  assert (HA : forall T (b : gerr -> T) args k, (forall ps, quiet w (snd (k ps w))) -> quiet w (snd (with_args mk b args k w))).
  { intros T b args k Hk. unfold with_args. destruct (driver_args mk args); [apply Hk|apply quiet_refl..]. }
  assert (HI : forall t, Pres (fun w w' : W => Inv t w -> Inv t w') cls) by (intros; apply Inv_close).
  assert (E1 : forall t sid ps, Pres (fun w w' : W => Inv t w -> Inv t w') (stmt_exec ops f cls sid ps)) by (intros; apply Inv_stmt_exec).
  assert (E2 : forall t sid ps, Pres (fun w w' : W => Inv t w -> Inv t w') (stmt_exec_pipeline ops f cls sid ps)) by (intros; apply Inv_stmt_exec_pipeline).
  assert (E3 : forall i sid ps, Pres (norows i) (stmt_exec ops f cls sid ps)) by (intros; apply norows_stmt_exec, norows_close).
  assert (E4 : forall i sid ps, Pres (norows i) (stmt_exec_pipeline ops f cls sid ps)) by (intros; apply norows_stmt_exec_pipeline, norows_close).
  destruct o; cbn [step_body]; (apply G; [intros; lo|]).
  - unfold prepare. apply (HW _ _ (fun _ => False)); [apply local_Q; unfold guard_open; lo|apply D_guard].
  - unfold prepare_pipeline. apply (HW _ _ (fun _ => False)); [apply local_Q; unfold guard_open; lo|apply D_guard].
  - eapply HW; [apply Q_begin|]. intros x Hx. unfold begin_tx, bind at 1, getc. destruct (c_tx (w_conn x)); [apply quiet_refl|now apply D_guard].
  - apply local_quiet. unfold set_chunk_size. lo.
  - apply Hcls.
  - apply (quiet_temp _ _ _ _ (new_stmt q)); auto. intros. apply Q_stmt_exec.
  - apply (quiet_temp _ _ _ _ (new_pipe_stmt qs)); auto. intros. apply Q_stmt_exec_pipeline.
  - now apply quiet_query_neo.
  - now apply quiet_query_all.
  - now apply quiet_query_pipeline.
  - apply (quiet_temp _ _ _ _ (new_stmt q)); auto; unfold stmt_exec_sql, with_args; intros; destruct (driver_args mk args); auto;
      try (apply local_Q; solve [auto]); try (intros x; cbn; solve [auto]); [apply Q_stmt_exec|intros x H; exact H|intros x H; exact H].
  - unfold query_sql. apply HA. intros ps. now apply quiet_query_neo.
  - eapply HW; [apply Q_stmt_exec|apply D_stmt_exec].
  - eapply HW; [apply Q_stmt_exec_pipeline|apply D_stmt_exec_pipeline].
  - eapply HW; [apply Q_stmt_query|apply D_stmt_query].
  - eapply HW; [apply Q_stmt_query_pipeline|apply D_stmt_query_pipeline].
  - eapply HW; [apply Q_stmt_close, Hcls|apply D_stmt_close].
  - unfold stmt_exec_sql. apply HA. intros ps. eapply HW; [apply Q_stmt_exec|apply D_stmt_exec].
  - unfold stmt_query_sql. apply HA. intros ps. eapply HW; [apply Q_stmt_query|apply D_stmt_query].
  - eapply HW; [apply Q_next_neo|apply D_next_neo].
  - eapply HW; [apply Q_all|apply D_all].
  - eapply HW; [apply Q_next_pipeline|apply D_next_pipeline].
  - unfold next_sql. assert (HN : quiet w (snd (next_neo ops f cls r w))) by (eapply HW; [apply Q_next_neo|apply D_next_neo]).
    unfold bind. destruct (next_neo ops f cls r w) as [[[[row m] e]| |] w1]; try exact HN. cbn in HN. destruct e; [exact HN|].
    destruct (fill _ _) as [ds []]; exact HN.
  - eapply HW; [apply Q_rows_close, Hcls|apply D_rows_close].
  - apply local_quiet. auto.
  - apply quiet_tx. intros [H1 H2]. apply Ho. split; [assumption|]. exists t. auto.
  - apply quiet_tx. intros [H1 H2]. apply Ho. split; [assumption|]. exists t. auto.
Qed.
(** And those calls do use it. *)
Definition up (w w' : W) : Prop := (touches w <= touches w')%nat.
Lemma up_refl : forall w, up w w. Proof. unfold up; auto. Qed.
Lemma up_trans : forall a b c, up a b -> up b c -> up a c. Proof. unfold up; lia. Qed.
Lemma up_same : forall A (m : M A), (forall w, w_net (snd (m w)) = w_net w) -> Pres up m.
Proof. intros A m H w. unfold up, touches. rewrite H. auto. Qed.
Lemma up_enc : forall v, Pres up (encode_msg ops v).
Proof.
  intros v w. unfold encode_msg, bind, getc, getn, setn. cbn. destruct (n_send ops0 _ _ _) as [n r]. unfold up, touches, touch.
  destruct r; cbn; destruct (fst (snd (w_net w))); auto.
Qed.
Lemma up_dec : Pres up (decode_msg ops).
Proof.
  intros w. unfold decode_msg, bind, getc, getn, setn. cbn. destruct (n_recv ops0 _) as [n r]. unfold up, touches, touch.
  destruct r; cbn; destruct (fst (snd (w_net w))); auto.
Qed.
Lemma up_netclose : Pres up (net_close ops).
Proof. intros w. unfold net_close, bind, getn, setn. cbn. destruct (n_close ops0 _) as [n []]; unfold up; auto. Qed.
Lemma local_up : forall A (m : M A), local m -> Pres up m. Proof. intros A m H. apply up_same. intros w. apply H. Qed.
Let Ur := up_refl.
Let Ut := up_trans.
Lemma up_close : Pres up cls.
Proof.
  unfold cls. apply Pres_close; auto. intros g c Hc. apply Pres_close_body; auto using up_enc, up_dec, up_netclose; intros; apply local_up; unfold stmt_drop; lo.
Qed.
Theorem late_touches : forall o w, late o w -> KInv None w -> cons w -> (touches w < touches (snd (step ops mk f o w)))%nat.
Proof.
  intros o w (Hc & t & Ho & Et) K Hs.
  assert (X : forall q l1 l2 l3 l4 l5, (touches w < touches (snd (tx_finish ops f cls q l1 l2 l3 l4 l5 t w)))%nat).
  { intros. unfold tx_finish. unfold bind at 1, gett. rewrite Et. cbn [t_closed]. unfold bind at 1, getc. rewrite (proj2 K Hc).
    unfold bind at 1, ret at 1. cbv beta iota. unfold send_run_pull_all_consume_single, send_run_pull_all, send_run.
    assert (HE : (touches w < touches (snd (encode_msg ops (VRun q []) w)))%nat).
    { unfold encode_msg, bind, getc, getn, setn. cbn. destruct (n_send ops0 _ _ _) as [n r]. unfold touches, touch. unfold cons in Hs. rewrite Hs, Hc. destruct r; cbn; lia. }
    assert (B : forall A B (m : M A) (k : A -> M B), (touches w < touches (snd (m w)))%nat -> (forall a, Pres up (k a)) -> (touches w < touches (snd (bind m k w)))%nat).
    { intros A B m k H1 H2. unfold bind. destruct (m w) as [[a| |] w1]; try exact H1. cbn in H1. specialize (H2 a w1). unfold up in H2. lia. }
    pose proof up_close as Hcl. pose proof up_enc as Hen. pose proof up_dec as Hde.
    assert (Hcons : Pres up (consume ops f cls)) by (apply Pres_consume; auto; apply local_up; lo).
    apply B; [|intros [[r pl] e]; apply local_up; lo].
    apply B; [|intros [e|]; unfold send_pull_all; pres].
    apply B; [|intros [e|]; unfold send_pull_all; pres].
    apply B; [exact HE|intros [e|]; pres]. }
  unfold step. fold cls. destruct Ho as [-> | ->]; cbn [step_body]; unfold commit, rollback.
  - specialize (X s_commit 31 35 41 46 53). unfold bind. destruct (tx_finish ops f cls s_commit 31 35 41 46 53 t w) as [[e| |] w1]; exact X.
  - specialize (X s_rollback 66 70 76 81 88). unfold bind. destruct (tx_finish ops f cls s_rollback 66 70 76 81 88 t w) as [[e| |] w1]; exact X.
Qed.
(** [cons] always holds. *)
Definition CK (w w' : W) : Prop := cons w -> cons w'.
Lemma cons_step : forall o, Pres CK (step ops mk f o).
Proof.
  assert (Cr : forall w, CK w w) by (unfold CK; auto). assert (Ct : forall a b c, CK a b -> CK b c -> CK a c) by (unfold CK; auto).
  assert (Cl : forall A (m : M A), local m -> Pres CK m).
  { intros A m H w. destruct (H w) as [E1 E2]. unfold CK, cons. rewrite E1, E2. auto. }
  assert (Ce : forall v, Pres CK (encode_msg ops v)).
  { intros v w. unfold encode_msg, bind, getc, getn, setn. cbn. destruct (n_send ops0 _ _ _) as [n r]. destruct r; unfold CK, cons; cbn; auto. }
  assert (Cd : Pres CK (decode_msg ops)).
  { intros w. unfold decode_msg, bind, getc, getn, setn. cbn. destruct (n_recv ops0 _) as [n r]. destruct r; unfold CK, cons; cbn; auto. }
  assert (Cc : Pres CK (net_close ops)).
  { intros w. unfold net_close, bind, getn, setn. cbn. destruct (n_close ops0 _) as [n []]; unfold CK, cons; cbn; auto. }
  assert (Cdr : forall i, Pres CK (stmt_drop i)) by (intros; apply Cl; unfold stmt_drop; lo).
  assert (Ccl : Pres CK cls).
  { unfold cls. apply Pres_close; auto. intros g c Hc. apply Pres_close_body; auto; intros; apply Cl; lo. }
  assert (Csc : forall i, Pres CK (stmt_close ops f cls i)) by (intros; apply Pres_stmt_close; auto; intros; apply Cl; lo).
  assert (Cse : forall i ps, Pres CK (stmt_exec ops f cls i ps)) by (intros; apply Pres_stmt_exec; auto; intros; apply Cl; lo).
  assert (Csp : forall i ps, Pres CK (stmt_exec_pipeline ops f cls i ps)) by (intros; apply Pres_stmt_exec_pipeline; auto; intros; apply Cl; lo).
  assert (Cn : forall s, Pres CK (news s)) by (intros; apply Cl; auto).
  intros o. unfold step. fold cls. apply Pres_step_body; auto; intros; try (apply Cl; solve [lo]).
  - unfold guard_open. pres; auto; apply Cl; lo.
  - unfold exec_neo, guard_open. pres; auto.
  - unfold exec_pipeline, guard_open. pres; auto.
  - unfold exec_sql, guard_open, stmt_exec_sql, with_args. pres; auto.
Qed.
End Step.
End Touch.
