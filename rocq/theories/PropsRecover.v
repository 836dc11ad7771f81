(** * C68: recovery by RESET *)
From Coq Require Import ZArith List Bool Lia.
From Verif Require Import GoPrims Value Errors Misc Session SessionGen ServerSpec SessionSpec SessionBolt SessionRefine SessionRecover PropsBolt.
Import ListNotations.

Section Recover.
Context {DB : Type}.
Variable exec : DB -> str -> md -> DB * outcome.
Variable sendable : goval -> bool.
Hypothesis Hreset : sendable VReset = true.

(** [stubborn] (SessionRecover.v) is the server of ServerSpec.v, but it may refuse ACK_FAILURE
    and wants RESET instead, which it may answer after any number of IGNORED messages;
    [moods] says what it does about each failure.  No history of calls can tell it from
    the server that accepts every ACK_FAILURE, and the database ends up the same. *)
Theorem C68_recovers_by_reset : forall mk os pooled moods db k b, Forall (patient b) moods ->
  forall f, (b < f)%nat ->
  let r := run (stubborn exec sendable) mk f os (fresh pooled {| sn_moods := moods; sn_wait := k; sn_net := Build_bnet db Ready [] |}) in
  let r' := run (bolt exec sendable) mk f os (fresh pooled (Build_bnet db Ready [])) in
  fst r = fst r' /\ (snd (fst r) <> NoFuel -> sn_net (w_net (snd r)) = w_net (snd r') /\ w_conn (snd r) = w_conn (snd r')).
Proof.
  intros mk os pooled moods db k b Hm f Hf.
  assert (G : forall os w w', RW (RS b) w w' ->
    let r := run (stubborn exec sendable) mk f os w in let r' := run (bolt exec sendable) mk f os w' in
    fst r = fst r' /\ (snd (fst r) <> NoFuel -> RW (RS b) (snd r) (snd r'))).
  { clear os. induction os as [|o os IH]; intros w w' H; cbn [run]; [split; auto|].
    destruct (RS_step exec sendable Hreset b mk f o Hf w w' H) as (E & R).
    destruct (step (stubborn exec sendable) mk f o w) as [x w1], (step (bolt exec sendable) mk f o w') as [x' w1']. cbn [fst snd] in E, R. subst x'.
    destruct x as [a| |]; cbn; [|split; auto; intros _; apply R; discriminate|split; auto; intros X; contradiction X; reflexivity].
    specialize (IH w1 w1' (R ltac:(discriminate))). cbn zeta in IH.
    destruct (run (stubborn exec sendable) mk f os w1) as [[l y] w2], (run (bolt exec sendable) mk f os w1') as [[l' y'] w2'].
    cbn in *. destruct IH as (E & R2). injection E as <- <-. auto. }
  destruct (G os (fresh pooled {| sn_moods := moods; sn_wait := k; sn_net := Build_bnet db Ready [] |}) (fresh pooled (Build_bnet db Ready []))) as (A & B).
  - repeat split; auto. left. constructor.
  - split; [exact A|]. intros X. destruct (B X) as (H1 & _ & _ & _ & (H2 & _)). auto.
Qed.
(** So every call gets its own answers (C28) from such a server, too. *)
Theorem C68_own_answers : controls sendable -> forall mk pooled db os moods k, exists f0, forall f, (f0 <= f)%nat ->
  follows exec sendable mk pooled (start db) os
    (fst (fst (run (stubborn exec sendable) mk f os (fresh pooled {| sn_moods := moods; sn_wait := k; sn_net := Build_bnet db Ready [] |})))).
Proof.
  intros Hc mk pooled db os moods k. destruct (C28_own_answers exec sendable mk Hc pooled db os) as (f0 & H).
  assert (B : exists b, Forall (patient b) moods).
  { induction moods as [|x l (b & IH)]; [exists O; constructor|]. exists (b + match x with Obliging => 0 | Stubborn _ k => S k end)%nat. constructor.
    - destruct x; cbn; [exact I|lia].
    - eapply Forall_impl; [|exact IH]. intros [|m i]; cbn; lia. }
  destruct B as (b & B). exists (f0 + S b)%nat. intros f Hf.
  destruct (C68_recovers_by_reset mk os pooled moods db k b B f ltac:(lia)) as (E & _). rewrite E. apply H. lia.
Qed.
End Recover.
Print Assumptions C68_recovers_by_reset.
Print Assumptions C68_own_answers.

(** Three failures, the first two not acknowledged; the queries in between run. *)
Example C68_example : exists w',
  run (stubborn toy fine) true 20 [CExec [2] []; CExec [1] []; CExecPipeline [[2]; [1]; [1]] [[]; []; []]; CQueryAll [1] []; CExec [2] []; CExec [1] []]
    (fresh false {| sn_moods := [Stubborn [] 3; Stubborn [] 0]; sn_wait := 0; sn_net := Build_bnet 5%Z Ready [] |}) =
  ([OResult None (Some (ewrap FConn 569 (EFailMsg (bad 2)))); OResult (Some (bad 5)) None;
    OResults None (Some (ewrap FStmt 147 (ewrap FConn 569 (EFailMsg (bad 2)))));
    OQueryAll (Some [[VInt KInt64 6]; [VInt KInt64 7]]) (Some hdr) (Some (bad 6)) None;
    OResult None (Some (ewrap FConn 569 (EFailMsg (bad 2)))); OResult (Some (bad 7)) None], Ok tt, w') /\
  b_db (sn_net (w_net w')) = 8%Z /\ b_q (sn_net (w_net w')) = [] /\ Forall (patient 19) [Stubborn [] 3; Stubborn [] 0].
Proof. eexists. split; [vm_compute; reflexivity|]. split; [reflexivity|]. split; [reflexivity|]. repeat constructor; cbn; lia. Qed.
