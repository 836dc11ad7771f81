(** What database/sql sees: it repeats a statement on another connection, and drops the
    connection, if and only if the driver returns driver.ErrBadConn itself. *)
From Coq Require Import ZArith List Bool Lia.
From Verif Require Import GoPrims Value Errors Decoder Misc Session SessionNet SessionGen SessionErr SessionRaw ServerSpec SessionSpec PropsSession.
Import ListNotations.
Open Scope Z_scope.

(** * C66 *)
(** [refusals ops] is the network [ops] with a flag that says whether a FAILURE has been received. *)
Definition refused {N} (w : world (N * bool)) : Prop := snd (w_net w) = true.
(** network errors are not reported as decoding errors *)
Definition honest {N} (ops : netops N) : Prop := forall n n' p e, n_recv ops n = (n', RDec p e) -> e <> EBadConn.

Theorem C66_retry_is_safe : forall N (ops : netops N) mk f o w r w', honest ops -> o <> CClose ->
  step (refusals ops) mk f o w = (Ok r, w') -> out_err r = Some EBadConn -> refused w'.
Proof.
  intros N ops mk f o w r w' Hh Ho E Hr.
  refine (proj2 (RB_step (refusals ops) snd _ _ _ _ _ mk f o Ho w r w' E) Hr).
  - intros [n b] cs v H. cbn in *. destruct (n_send ops n cs v); exact H.
  - intros [n b] H. cbn in *. destruct (n_recv ops n) as [n' [[]| | |]]; cbn; auto.
  - intros [n b] H. cbn in *. destruct (n_close ops n); exact H.
  - intros [n b] n' m H. cbn in H. destruct (n_recv ops n) as [n1 r1]. injection H as <- ->. reflexivity.
  - intros [n b] n' p e H. cbn in H. destruct (n_recv ops n) as [n1 r1] eqn:En. injection H as <- ->. exact (Hh _ _ _ _ En).
Qed.
Print Assumptions C66_retry_is_safe.
(** Connections over bytes are of that kind. *)
Theorem C66_bytes_honest : forall T (io : transport T) mk, honest (bytenet io mk).
Proof.
  intros T io mk n n' p e H. cbn in H. unfold recv in H.
  destruct (read_msg (t_in io n)) as [msg rest|e0 rest|].
  - destruct (decode mk msg) as [v r|e0| |]; try discriminate. injection H as <- <- <-. destruct e0 as [[]| | | | | | | |]; discriminate.
  - destruct e0 as [[]| | | | | | | |]; try discriminate; injection H as <- <- <-; discriminate.
  - discriminate.
Qed.
Print Assumptions C66_bytes_honest.
(** database/sql: Exec, Query and Prepare are tried on one connection after the other
    while the error is driver.ErrBadConn (sql.go, three attempts at most). *)
Fixpoint attempts {N} (ops : netops N) (mk : bool) (f : nat) (o : op) (ws : list (world N)) : list (outc out * world N) :=
  match ws with
  | [] => []
  | w :: ws' =>
      let x := step ops mk f o w in
      x :: match fst x with
           | Ok r => match out_err r with Some EBadConn => attempts ops mk f o ws' | _ => [] end
           | _ => []
           end
  end.
Theorem C66_attempts : forall N (ops : netops N) mk f o ws, honest ops -> o <> CClose ->
  forall i x, nth_error (attempts (refusals ops) mk f o ws) i = Some x -> (S i < length (attempts (refusals ops) mk f o ws))%nat -> refused (snd x).
Proof.
  intros N ops mk f o ws Hh Ho. induction ws as [|w ws IH]; intros i x Hi Hl; cbn [attempts] in *; [destruct i; discriminate|].
  destruct (step (refusals ops) mk f o w) as [[r| |] w'] eqn:E; cbn [fst] in *; try (cbn in Hl; lia).
  destruct (out_err r) as [[]|] eqn:Er; try (cbn in Hl; lia).
  destruct i as [|i].
  - injection Hi as <-. exact (C66_retry_is_safe _ _ _ _ _ _ _ _ Hh Ho E Er).
  - cbn [nth_error length] in Hi, Hl. exact (IH i x Hi ltac:(lia)).
Qed.
Print Assumptions C66_attempts.
(** The hypotheses can be met: a server that answers ACK_FAILURE with a record. *)
Example C66_example : exists r w', step (refusals script) true 20 (CExecSql [81] []) (fresh false ([RMsg (VFailure []); RMsg (VRecord [])], false)) = (Ok r, w') /\
  out_err r = Some EBadConn /\ refused w'.
Proof. do 2 eexists. split; [vm_compute; reflexivity|]. split; reflexivity. Qed.
Example C66_honest_example : honest (bytenet (T := unit) {| t_put := fun t _ => (t, {| wc_n := 0; wc_err := true |}); t_in := fun _ => []; t_left := fun t _ => t; t_close := fun t => (t, true) |} true).
Proof. apply C66_bytes_honest. Qed.

(** * C67 *)
(** Whatever the network, a call during which the network fails and no FAILURE arrives does
    not return driver.ErrBadConn. *)
Definition net_failed {N} (w : world (N * bool * bool)) : Prop := snd (w_net w) = true.
Definition server_refused {N} (w : world (N * bool * bool)) : Prop := snd (fst (w_net w)) = true.
Theorem C67_refuted : forall N (ops : netops N) mk f o w r w', honest ops -> o <> CClose -> (forall q ps, o <> CQueryAll q ps) ->
  ~ net_failed w -> step (watch (refusals ops)) mk f o w = (Ok r, w') -> net_failed w' -> ~ server_refused w' ->
  exists e, out_err r = Some e /\ e <> EBadConn.
Proof.
  intros N ops mk f o w r w' Hh Ho Hq H1 E H2 H3.
  destruct (watch_step (refusals ops) mk f o Hq w r w') as (e & He & _); auto.
  { unfold net_failed in H1. destruct (snd (w_net w)); congruence. }
  exists e. split; auto. intros ->. apply H3.
  refine (proj2 (RB_step (watch (refusals ops)) (fun n => snd (fst n)) _ _ _ _ _ mk f o Ho w r w' E) He).
  - intros [[n b] b'] cs v H. cbn in *. destruct (n_send ops n cs v); exact H.
  - intros [[n b] b'] H. cbn in *. destruct (n_recv ops n) as [n' [[]| | |]]; cbn; auto.
  - intros [[n b] b'] H. cbn in *. destruct (n_close ops n); exact H.
  - intros [[n b] b'] n' m H. cbn in H. destruct (n_recv ops n) as [n1 r1]. injection H as <- ->. reflexivity.
  - intros [[n b] b'] n' p e H. cbn in H. destruct (n_recv ops n) as [n1 r1] eqn:En. injection H as <- ->. exact (Hh _ _ _ _ En).
Qed.
Print Assumptions C67_refuted.
Example C67_example : exists r w', step (watch (refusals script)) true 20 (CExecSql [81] []) (fresh false ([succ []], false, false)) = (Ok r, w') /\
  net_failed w' /\ ~ server_refused w' /\ out_err r = Some (ewrap FDec 45 EBadConn).
Proof. do 2 eexists. split; [vm_compute; reflexivity|]. split; [reflexivity|]. split; [discriminate|reflexivity]. Qed.

(** ** With a Bolt server it never does, whatever goes wrong on the way.
    [faulty ops]: the network [ops] with an arbitrary list of faults, one entry per operation.
    A write fails with the message lost or delivered; a read times out or reports the end of
    the stream; closing fails. *)
Inductive fault := Good | Lost | Late.
Definition next_fault {N} (n : list fault * N) : fault * list fault := match fst n with [] => (Good, []) | x :: l => (x, l) end.
Definition faulty {N} (ops : netops N) : netops (list fault * N) :=
  {| n_send := fun n cs v => let '(x, l) := next_fault n in let '(n', r) := n_send ops (snd n) cs v in
       match x with Good => ((l, n'), r) | Lost => ((l, snd n), SIOErr) | Late => ((l, n'), SIOErr) end;
     n_recv := fun n => let '(x, l) := next_fault n in
       match x with
       | Good => let '(n', r) := n_recv ops (snd n) in ((l, n'), r)
       | Lost => ((l, snd n), RNet)
       | Late => ((l, snd n), eof_read)
       end;
     n_close := fun n => let '(x, l) := next_fault n in let '(n', b) := n_close ops (snd n) in
       match x with Good => ((l, n'), b) | _ => ((l, n'), true) end;
     n_shake := fun n => let '(n', r) := n_shake ops (snd n) in ((fst n, n'), r) |}.

Section Bolt.
Context {DB : Type}.
Variable exec : DB -> str -> md -> DB * outcome.
Variable sendable : goval -> bool.
Notation net := (faulty (bolt exec sendable)).
Definition calm (v : goval) : Prop := match v with VFailure _ => False | _ => True end.
Definition after_failure (st : sstate) (q : list goval) : Prop := st = Failed /\ Forall (fun v => v = VIgnored) q.
Definition inv_q (st : sstate) (q : list goval) : Prop :=
  Forall calm q \/ exists q1 m q2, q = q1 ++ VFailure m :: q2 /\ Forall calm q1 /\ after_failure st q2.
Definition inv_i (n : list fault * bnet DB) : Prop := inv_q (b_st (snd n)) (b_q (snd n)).
Definition inv_j (n : list fault * bnet DB) : Prop := after_failure (b_st (snd n)) (b_q (snd n)).
Definition inv_k (n : list fault * bnet DB) : Prop := exists q m, b_q (snd n) = q ++ [VSuccess m] /\ Forall (fun v => v = VIgnored) q.
Lemma ignored_calm : forall q, Forall (fun v => v = VIgnored) q -> Forall calm q.
Proof. intros q H. eapply Forall_impl; [|exact H]. intros v ->. exact I. Qed.
Lemma records_calm : forall recs, Forall calm (map VRecord recs).
Proof. induction recs; cbn; constructor; auto. exact I. Qed.
Lemma serve_inv : forall db st q v db' st' rs, request v -> inv_q st q -> serve exec db st v = (db', st', rs) -> inv_q st' (q ++ rs).
Proof.
  intros db st q v db' st' rs V [C|(q1 & m & q2 & -> & C & -> & Q)] E.
  - assert (T : forall l, Forall calm l -> inv_q st' (q ++ l)) by (intros l Hl; left; apply Forall_app; auto).
    assert (F : forall l m, st' = Failed -> Forall calm l -> inv_q st' (q ++ l ++ [VFailure m])).
    { intros l m -> Hl. right. exists (q ++ l), m, []. rewrite <- app_assoc. repeat split; auto. apply Forall_app; auto. }
    assert (D : forall recs fin, st' = after_stream fin -> inv_q st' (q ++ map VRecord recs ++ [final fin])).
    { intros recs [m|m] Hs; cbn in *; [apply T|apply F; auto using records_calm]. apply Forall_app. split; [apply records_calm|repeat constructor]. }
    destruct v; try contradiction V; destruct st; cbn in E;
      try (injection E as <- <- <-; first [apply T; repeat constructor; fail | apply (F []); auto; fail | apply D; auto; fail | apply (D []); auto; fail]).
    match type of E with context [exec ?a ?b ?c] => destruct (exec a b c) as [db1 [m|h recs fin]] end; injection E as <- <- <-; [apply (F []); auto|apply T; repeat constructor].
  - assert (G : st' = Failed /\ rs = [VIgnored]) by (destruct v; try contradiction V; cbn in E; injection E as <- <- <-; auto).
    destruct G as (-> & ->). right. exists q1, m, (q2 ++ [VIgnored]). rewrite <- app_assoc. repeat split; auto. apply Forall_app. auto.
Qed.
Lemma faulty_send : forall n cs v, request v -> inv_i n -> inv_i (fst (n_send net n cs v)).
Proof.
  intros [l [db st q]] cs v V H. unfold inv_i in *. cbn in *. destruct (next_fault _) as [x l'].
  destruct (sendable v); [|destruct x; exact H]. destruct (serve exec db st v) as [[db' st'] rs] eqn:E.
  destruct x; cbn; auto; eapply serve_inv; eauto.
Qed.
Lemma inv_tail : forall st v q, inv_q st (v :: q) -> match v with VFailure _ => after_failure st q | _ => inv_q st q end.
Proof.
  intros st v q [C|(q1 & m & q2 & E & C & A)].
  - inversion C as [|? ? C1 C2]; subst. destruct v; try (left; exact C2). contradiction.
  - destruct q1 as [|v1 q1]; injection E as -> ->; [exact A|]. inversion C as [|? ? C1 C2]; subst.
    assert (X : inv_q st (q1 ++ VFailure m :: q2)) by (right; exists q1, m, q2; auto). destruct v1; try exact X. contradiction.
Qed.
Lemma faulty_recv : forall n n' r, inv_i n -> n_recv net n = (n', r) ->
  match r with RMsg (VFailure _) => inv_j n' | RDec _ e => inv_i n' /\ e <> EBadConn | _ => inv_i n' end.
Proof.
  intros [l [db st q]] n' r H E. unfold inv_i, inv_j in *. cbn in *. destruct (next_fault _) as [x l'].
  destruct x; [|injection E as <- <-; exact H|injection E as <- <-; split; [exact H|discriminate]].
  destruct q as [|v q]; injection E as <- <-; cbn; [exact H|]. apply inv_tail in H. destruct v; exact H.
Qed.
Lemma faulty_ack : forall n cs n' r, inv_j n -> n_send net n cs VAckFailure = (n', r) -> match r with SOk => inv_k n' | _ => inv_i n' end.
Proof.
  intros [l [db st q]] cs n' r (Hs & Hq) E. unfold inv_i, inv_k. cbn in *. subst st. destruct (next_fault _) as [x l'].
  assert (C : inv_q Failed q) by (left; apply ignored_calm; auto).
  assert (C' : inv_q Ready (q ++ [VSuccess []])) by (left; apply Forall_app; split; [now apply ignored_calm|repeat constructor]).
  destruct (sendable VAckFailure), x; cbn in E; injection E as <- <-; cbn; auto.
  exists q, []. auto.
Qed.
Lemma faulty_answer : forall n n' r, inv_k n -> n_recv net n = (n', r) ->
  match r with RMsg VIgnored => inv_k n' | RMsg (VSuccess _) => inv_i n' | RMsg _ => False | RDec _ e => inv_i n' /\ e <> EBadConn | _ => inv_i n' end.
Proof.
  intros [l [db st q]] n' r (q0 & m & Hq & Hi) E. unfold inv_i, inv_k in *. cbn in *. subst q. destruct (next_fault _) as [x l'].
  assert (C : inv_q st (q0 ++ [VSuccess m])) by (left; apply Forall_app; split; [now apply ignored_calm|repeat constructor]).
  destruct x; [|injection E as <- <-; exact C|injection E as <- <-; split; [exact C|discriminate]].
  destruct q0 as [|v q0]; cbn in E; injection E as <- <-; cbn; [left; constructor|].
  inversion Hi; subst. exists q0, m. auto.
Qed.
Lemma faulty_close : forall n, inv_i n -> inv_i (fst (n_close net n)).
Proof. intros [l n] H. unfold inv_i in *. cbn in *. destruct (next_fault _) as [x l']. destruct x; exact H. Qed.

(** No call of any history returns driver.ErrBadConn itself, except Close. *)
Theorem C67_never_refuted : forall mk f os pooled faults db outs r w' i o x,
  run net mk f os (fresh pooled (faults, {| b_db := db; b_st := Ready; b_q := [] |})) = (outs, r, w') ->
  nth_error os i = Some o -> o <> CClose -> nth_error outs i = Some x -> out_err x <> Some EBadConn.
Proof.
  intros mk f os pooled faults db outs r w' i o x E Ho Hc Hx.
  assert (G : forall os w outs r w' i, inv_i (w_net w) -> run net mk f os w = (outs, r, w') -> nth_error os i = Some o -> nth_error outs i = Some x -> out_err x <> Some EBadConn).
  2: { eapply G; [|exact E|exact Ho|exact Hx]. left. constructor. }
  clear os pooled faults db outs r w' i E Ho Hx.
  pose proof (IV_step net inv_i inv_j inv_k faulty_send faulty_recv faulty_ack faulty_answer faulty_close mk f) as S.
  pose proof (IV0_close net inv_i inv_j inv_k faulty_send faulty_recv faulty_ack faulty_answer faulty_close f) as SC.
  induction os as [|o1 os IH]; intros w outs r w' i Hi E Ho Hx; [destruct i; discriminate|]. cbn [run] in E.
  destruct (step net mk f o1 w) as [[a| |] w1] eqn:E1.
  - destruct (run net mk f os w1) as [[l r1] w2] eqn:E2. injection E as <- <- <-.
    destruct i as [|i].
    + injection Ho as ->. injection Hx as ->. exact (proj2 (S o Hc w x w1 Hi E1)).
    + refine (IH w1 l r1 w2 i _ E2 Ho Hx).
      assert (D : o1 = CClose \/ o1 <> CClose) by (destruct o1; (left; reflexivity) || (right; discriminate)).
      destruct D as [->|D]; [|exact (proj1 (S o1 D w a w1 Hi E1))].
      unfold step, step_body in E1. apply bind_inv in E1. destruct E1 as (e & w3 & E1 & E3). injection E3 as <- <-. exact (SC _ _ _ Hi E1).
  - injection E as <- <- <-. destruct i; discriminate.
  - injection E as <- <- <-. destruct i; discriminate.
Qed.
End Bolt.
Print Assumptions C67_never_refuted.
(** Faults in the middle of a FAILURE and its acknowledgement: every read and write can fail. *)
Definition ex_exec (n : nat) (q : str) (ps : md) : nat * outcome := (S n, RunFails []).
Example C67_never_example :
  fst (run (faulty (bolt ex_exec (fun _ => true))) true 20 [CExecSql [81] []; CExecSql [82] []; CExecSql [83] []]
    (fresh false ([Good; Good; Good; Late; Good; Good; Late; Good; Good; Lost], {| b_db := O; b_st := Ready; b_q := [] |}))) =
  ([OResult None (Some (ewrap FConn 408 (ewrap FEnc 1 EBadConn))); OResult None (Some (ewrap FDec 45 EEOF)); OResult None (Some (ewrap FDec 45 EBadConn))], Ok tt).
Proof. vm_compute. reflexivity. Qed.

(** What does hold (C39): such an error is wrapped around driver.ErrBadConn, or around the
    FAILURE that made the driver close the session, and the connection is marked. *)
Theorem C67_wrapped_partial : forall N (ops : netops N) mk f o w r w', (forall q ps, o <> CQueryAll q ps) ->
  ~ net_error w -> step (watch ops) mk f o w = (Ok r, w') -> net_error w' ->
  c_err (w_conn w') = true /\ exists e, out_err r = Some e /\ (innermost e = EBadConn \/ exists m, innermost e = EFailMsg m).
Proof.
  intros N ops mk f o w r w' Hq H1 E H2. destruct (C39_network_errors_partial _ _ _ _ _ _ _ _ H1 E H2) as (A & B). auto.
Qed.
Print Assumptions C67_wrapped_partial.
