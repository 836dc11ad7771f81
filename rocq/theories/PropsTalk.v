(** C90: every FAILURE is acknowledged, once and before anything else is sent, and RESET is only sent when
    the acknowledgement is refused; on every network, from opening on. *)
From Coq Require Import ZArith List Bool Lia.
From Verif Require Import GoPrims Value Errors Misc Session SessionSim SessionTalk PropsSession.
Import ListNotations.
Open Scope Z_scope.

Notation failure m := (Got (RMsg (VFailure m))).
Notation ignored := (Got (RMsg VIgnored)).

(** The rules, without reference to moods. *)
Record rules (l : list event) : Prop := {
  (* ACK_FAILURE only right after a FAILURE *)
  ru_ack : forall l1 r l2, l = l1 ++ Sent VAckFailure r :: l2 -> exists l0 m, l1 = l0 ++ [failure m];
  (* RESET only right after the FAILURE that answers an ACK_FAILURE *)
  ru_reset : forall l1 r l2, l = l1 ++ Sent VReset r :: l2 -> exists l0 k m, l1 = l0 ++ Sent VAckFailure SOk :: repeat ignored k ++ [failure m];
  (* a FAILURE is answered at once with ACK_FAILURE; with RESET, if it is the answer to ACK_FAILURE; not at all, if it is the answer to RESET *)
  ru_failure : forall l1 m l2, l = l1 ++ failure m :: l2 ->
    (exists r l3, l2 = Sent VAckFailure r :: l3) \/
    (exists l0 k r l3, l1 = l0 ++ Sent VAckFailure SOk :: repeat ignored k /\ l2 = Sent VReset r :: l3) \/
    (exists l0 k, l1 = l0 ++ Sent VReset SOk :: repeat ignored k);
  (* nothing is sent before the answer to ACK_FAILURE or RESET has been read *)
  ru_wait : forall l1 v l2, v = VAckFailure \/ v = VReset -> l = l1 ++ Sent v SOk :: l2 -> exists k r l3, l2 = repeat ignored k ++ Got r :: l3 /\ r <> RMsg VIgnored }.

Lemma talks_mid : forall l1 e l2 s s', talks s (l1 ++ e :: l2) = Some s' -> exists s1 s2, talks s l1 = Some s1 /\ talk s1 e = Some s2 /\ talks s2 l2 = Some s'.
Proof.
  intros l1 e l2 s s' H. rewrite talks_app in H. destruct (talks s l1) as [s1|]; [|discriminate]. cbn in H. destruct (talk s1 e) as [s2|] eqn:E; [|discriminate].
  exists s1, s2. auto.
Qed.
Lemma talks_last : forall l s, talks Calm l = Some s -> s <> Calm -> exists l0 e s0, l = l0 ++ [e] /\ talks Calm l0 = Some s0 /\ talk s0 e = Some s.
Proof.
  intros l s H Hs. destruct (@exists_last _ l) as (l0 & e & ->). { intros ->. cbn in H. congruence. }
  apply talks_mid in H. destruct H as (s1 & s2 & H1 & H2 & H3). cbn in H3. injection H3 as ->. exists l0, e, s1. auto.
Qed.
(** the events that lead into each mood *)
Ltac told e H := destruct e as [v r|[v|p er| |]]; try (destruct v); try (destruct r); try discriminate H.
Lemma into_owed : forall l, talks Calm l = Some Owed -> exists l0 m, l = l0 ++ [failure m].
Proof.
  intros l H. apply talks_last in H; [|discriminate]. destruct H as (l0 & e & s0 & -> & _ & H). destruct s0; told e H; try discriminate. eauto.
Qed.
Lemma into_waiting : forall l s v, (s = Acking /\ v = VAckFailure \/ s = Resetting /\ v = VReset) -> talks Calm l = Some s -> exists l0 k, l = l0 ++ Sent v SOk :: repeat ignored k.
Proof.
  intros l s v Hs. induction l as [|e l IH] using rev_ind; intros H; [destruct Hs as [(-> & _)|(-> & _)]; discriminate|].
  apply talks_mid in H. destruct H as (s1 & s2 & H1 & H2 & H3). cbn in H3. injection H3 as ->.
  destruct Hs as [(-> & ->)|(-> & ->)]; destruct s1; told e H2; try (exists l, 0%nat; reflexivity);
    (destruct (IH H1) as (l0 & k & ->); exists l0, (S k); rewrite <- app_assoc; cbn [app]; rewrite <- (repeat_cons k); reflexivity).
Qed.
Lemma into_refused : forall l, talks Calm l = Some Refused -> exists l0 k m, l = l0 ++ Sent VAckFailure SOk :: repeat ignored k ++ [failure m].
Proof.
  intros l H. apply talks_last in H; [|discriminate]. destruct H as (l0 & e & s0 & -> & H0 & H). destruct s0; told e H; try discriminate.
  apply (into_waiting _ _ VAckFailure) in H0; [|auto]. destruct H0 as (l1 & k & ->). exists l1, k. eexists. rewrite <- app_assoc. reflexivity.
Qed.
Lemma out_waiting : forall l s, s = Acking \/ s = Resetting -> talks s l = Some Calm -> exists k r l3, l = repeat ignored k ++ Got r :: l3 /\ r <> RMsg VIgnored.
Proof.
  intros l s Hs. induction l as [|e l IH]; intros H; [destruct Hs as [->| ->]; discriminate|]. cbn in H.
  assert (He : e = ignored \/ exists r, e = Got r /\ r <> RMsg VIgnored).
  { destruct e as [v r|r]; [destruct Hs as [->| ->]; discriminate|]. destruct r as [v|p er| |]; try (right; eexists; split; [reflexivity|discriminate]).
    destruct v; try (right; eexists; split; [reflexivity|discriminate]). auto. }
  destruct He as [->|(r & -> & Hr)].
  - destruct Hs as [->| ->]; cbn [talk] in H; (destruct (IH H) as (k & r & l3 & -> & Hr); exists (S k), r, l3; split; [reflexivity|exact Hr]).
  - exists 0%nat, r, l. auto.
Qed.
Lemma calm_rules : forall l, talks Calm l = Some Calm -> rules l.
Proof.
  intros l Hl. constructor.
  - intros l1 r l2 ->. apply talks_mid in Hl. destruct Hl as (s1 & s2 & H1 & H2 & _). destruct s1; try discriminate. now apply into_owed.
  - intros l1 r l2 ->. apply talks_mid in Hl. destruct Hl as (s1 & s2 & H1 & H2 & _). destruct s1; try discriminate. now apply into_refused.
  - intros l1 m l2 ->. apply talks_mid in Hl. destruct Hl as (s1 & s2 & H1 & H2 & H3). destruct s1; try discriminate; cbn in H2; injection H2 as <-.
    + left. destruct l2 as [|e l2]; [discriminate|]. cbn in H3. told e H3; eauto.
    + right. left. apply (into_waiting _ _ VAckFailure) in H1; [|auto]. destruct H1 as (l0 & k & ->). destruct l2 as [|e l2]; [discriminate|]. cbn in H3.
      told e H3; exists l0, k; eauto.
    + right. right. apply (into_waiting _ _ VReset) in H1; [|auto]. exact H1.
  - intros l1 v l2 Hv ->. apply talks_mid in Hl. destruct Hl as (s1 & s2 & H1 & H2 & H3).
    apply (out_waiting l2 s2); [|exact H3]. destruct Hv as [->| ->]; destruct s1; try discriminate; cbn in H2; injection H2 as <-; auto.
Qed.

(** Opening a connection and, if that succeeds, a history of calls: the result of opening, the results of the
    calls, how it ended, and the network. *)
Definition whole {N} (ops : netops N) (mk : bool) (f : nat) (user password : str) (os : list op) (pooled : bool) (n : N) : outc (option gerr) * list out * outc unit * N :=
  match initialize ops f (close ops f) user password (fresh pooled n) with
  | (Ok None, w) => let '(l, r, w') := run ops mk f os w in (Ok None, l, r, w_net w')
  | (Ok (Some e), w) => (Ok (Some e), [], Ok tt, w_net w)
  | (Panic, w) => (Panic, [], Panic, w_net w)
  | (NoFuel, w) => (NoFuel, [], NoFuel, w_net w)
  end.

Section Any.
Context {N : Type} (ops : netops N).
Let RN (x : N * list event) (n : N) : Prop := fst x = n.
Let none (x : N * list event) : Prop := False.
Lemma taped_send : forall x n cs v, RN x n -> none (fst (n_send (taped ops) x cs v)) \/
  snd (n_send (taped ops) x cs v) = snd (n_send ops n cs v) /\ RN (fst (n_send (taped ops) x cs v)) (fst (n_send ops n cs v)).
Proof. intros [n l] n' cs v <-. right. unfold RN. cbn. destruct (n_send ops n cs v). auto. Qed.
Lemma taped_recv : forall x n, RN x n -> none (fst (n_recv (taped ops) x)) \/ snd (n_recv (taped ops) x) = snd (n_recv ops n) /\ RN (fst (n_recv (taped ops) x)) (fst (n_recv ops n)).
Proof. intros [n l] n' <-. right. unfold RN. cbn. destruct (n_recv ops n). auto. Qed.
Lemma taped_close : forall x n, RN x n -> none (fst (n_close (taped ops) x)) \/ snd (n_close (taped ops) x) = snd (n_close ops n) /\ RN (fst (n_close (taped ops) x)) (fst (n_close ops n)).
Proof. intros [n l] n' <-. right. unfold RN. cbn. destruct (n_close ops n). auto. Qed.
Lemma taped_shake : forall x n, RN x n -> none (fst (n_shake (taped ops) x)) \/ snd (n_shake (taped ops) x) = snd (n_shake ops n) /\ RN (fst (n_shake (taped ops) x)) (fst (n_shake ops n)).
Proof. intros [n l] n' <-. right. unfold RN. cbn. destruct (n_shake ops n). auto. Qed.
Lemma taped_run : forall mk f os w w', RW RN w w' -> fst (run (taped ops) mk f os w) = fst (run ops mk f os w') /\ RW RN (snd (run (taped ops) mk f os w)) (snd (run ops mk f os w')).
Proof.
  intros mk f. induction os as [|o os IH]; intros w w' H; cbn [run]; [auto|].
  assert (HS : Sim RN none (step (taped ops) mk f o) (step ops mk f o)).
  { apply Sim_step; try (intros; contradiction); auto using taped_send, taped_recv, taped_close. }
  destruct (proj2 HS w w' H) as [[]|(E & H')]. destruct (step (taped ops) mk f o w) as [[a| |] w1], (step ops mk f o w') as [r1 w1']; cbn [fst snd] in *; subst r1; auto.
  specialize (IH w1 w1' H'). destruct (run (taped ops) mk f os w1) as [[l r] w2], (run ops mk f os w1') as [[l' r'] w2']. cbn [fst snd] in *. destruct IH as (E & HW). injection E as -> ->. auto.
Qed.
(** Writing the conversation down changes nothing. *)
Theorem C90_tape_is_faithful : forall mk f user password os pooled n,
  let t := whole (taped ops) mk f user password os pooled (n, []) in let r := whole ops mk f user password os pooled n in
  fst t = fst r /\ fst (snd t) = snd r.
Proof.
  intros mk f user password os pooled n. cbv zeta. unfold whole.
  assert (HS : Sim RN none (initialize (taped ops) f (close (taped ops) f) user password) (initialize ops f (close ops f) user password)).
  { apply Sim_open; try (intros; contradiction); auto using taped_send, taped_recv, taped_close, taped_shake. }
  destruct (proj2 HS (fresh pooled (n, @nil event)) (fresh pooled n)) as [[]|(E & H)]; [repeat split|].
  destruct (initialize (taped ops) f (close (taped ops) f) user password (fresh pooled (n, @nil event))) as [x w], (initialize ops f (close ops f) user password (fresh pooled n)) as [x' w'].
  cbn [fst snd] in *. subst x'. destruct x as [[e|]| |]; cbn [fst snd]; try (split; [reflexivity|apply H]).
  destruct (taped_run mk f os w w' H) as (E & H'). destruct (run (taped ops) mk f os w) as [[l r] w2], (run ops mk f os w') as [[l' r'] w2']. cbn [fst snd] in *.
  injection E as -> ->. split; [reflexivity|apply H'].
Qed.
(** The conversation keeps the rules. *)
Theorem C90_recovery : forall mk f user password os pooled n,
  let '(_, _, r, x) := whole (taped ops) mk f user password os pooled (n, []) in r <> NoFuel -> rules (snd x).
Proof.
  intros mk f user password os pooled n. unfold whole.
  pose proof (D_initialize ops f (close (taped ops) f) (D_close ops f) user password (fresh pooled (n, [])) eq_refl) as H.
  destruct (initialize (taped ops) f (close (taped ops) f) user password (fresh pooled (n, []))) as [[[e|]| |] w]; try (intros _; apply calm_rules, H); try (intros X; now destruct X).
  pose proof (run_talks ops mk f os w H) as H'. destruct (run (taped ops) mk f os w) as [[l [| |]] w']; try (intros _; apply calm_rules, H'). intros X; now destruct X.
Qed.
End Any.
Print Assumptions C90_tape_is_faithful.
Print Assumptions C90_recovery.

(** A server that refuses a query and the acknowledgement, and answers the rest; the whole conversation. *)
Definition refusing : list rres :=
  [RMsg (VSuccess []); RMsg (VFailure [([1], VNil)]); RMsg VIgnored; RMsg (VFailure [([2], VNil)]); RMsg VIgnored; RMsg VIgnored; RMsg (VSuccess []);
   RMsg (VSuccess []); RMsg (VFailure [([3], VNil)]); RMsg (VSuccess [])].
Example C90_example : forall user password,
  let '(o, l, r, x) := whole (taped script) true 9 user password [CExec [7] []; CExec [8] []] false (refusing, []) in
  o = Ok None /\ l = [OResult None (Some (ewrap FConn 569 (EFailMsg [([1], VNil)]))); OResult None (Some (ewrap FConn 569 (EFailMsg [([3], VNil)])))] /\ r = Ok tt /\
  snd x = [Sent (init_message client_id user password) SOk; Got (RMsg (VSuccess []));
           Sent (VRun [7] []) SOk; Sent VPullAll SOk; failure [([1], VNil)]; Sent VAckFailure SOk; ignored; failure [([2], VNil)]; Sent VReset SOk; ignored; ignored; Got (RMsg (VSuccess []));
           Sent (VRun [8] []) SOk; Sent VPullAll SOk; Got (RMsg (VSuccess [])); failure [([3], VNil)]; Sent VAckFailure SOk; Got (RMsg (VSuccess []))].
Proof. intros. vm_compute. repeat split. Qed.
(** Conversations against the rules: a FAILURE passed over, a second RESET, an acknowledgement too much. *)
Example C90_example_rules : ~ rules [failure []; Sent VPullAll SOk] /\ ~ rules [failure []; Sent VAckFailure SOk; failure []; Sent VReset SOk; failure []; Sent VReset SOk; Got (RMsg (VSuccess []))] /\
  ~ rules [failure []; Sent VAckFailure SOk; Got (RMsg (VSuccess [])); Sent VAckFailure SOk; Got (RMsg (VSuccess []))].
Proof.
  split; [|split]; intros H.
  - destruct (ru_failure _ H [] [] _ eq_refl) as [(r & l3 & E)|[(l0 & k & r & l3 & E & _)|(l0 & k & E)]]; [discriminate| |]; destruct l0; discriminate.
  - destruct (ru_reset _ H [failure []; Sent VAckFailure SOk; failure []; Sent VReset SOk; failure []] SOk _ eq_refl) as (l0 & k & m & E).
    repeat (destruct l0 as [|? l0]; cbn in E; [destruct k as [|k]; discriminate E|try discriminate E; injection E; clear E; intros E ?]).
  - destruct (ru_ack _ H [failure []; Sent VAckFailure SOk; Got (RMsg (VSuccess []))] SOk _ eq_refl) as (l0 & m & E).
    repeat (destruct l0 as [|? l0]; cbn in E; [discriminate E|try discriminate E; injection E; clear E; intros E ?]).
Qed.
