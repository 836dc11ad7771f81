(** C86, C87: the socket of a connection: closed once, and what still uses it afterwards. *)
From Coq Require Import ZArith List Bool Lia.
From Verif Require Import GoPrims Value Errors Misc Session SessionGen SessionShut SessionTouch PropsSession PropsPlaces.
Import ListNotations.
Open Scope Z_scope.

(** How often the socket has been closed; [counted ops] is [ops] with that count. *)
Definition closings {N} (w : world (N * nat)) : nat := snd (w_net w).

(** Whatever the server sends, whatever fails, whatever is called: never more than once, and never if
    the connection belongs to a pool. *)
Theorem C86_once : forall N (ops : netops N) mk f os pooled n,
  let w := snd (run (counted ops) mk f os (fresh pooled (n, O))) in
  (closings w <= 1)%nat /\ (pooled = true -> closings w = O).
Proof.
  intros N ops mk f os pooled n w. destruct (SH_run ops mk f os (fresh pooled (n, O))) as (A & B & C & D). fold w in A, B, C, D.
  specialize (A eq_refl). unfold shut in A. unfold closings. rewrite A. split.
  - destruct (c_closed (w_conn w)); lia.
  - intros ->. rewrite D by reflexivity. reflexivity.
Qed.
Print Assumptions C86_once.

(** A Close that returns nil has closed it (or it was closed before). *)
Theorem C86_close_nil : forall N (ops : netops N) mk f os n w',
  step (counted ops) mk f CClose (snd (run (counted ops) mk f os (fresh false (n, O)))) = (Ok (OErr None), w') -> closings w' = 1%nat.
Proof.
  intros N ops mk f os n w' E. set (w := snd (run (counted ops) mk f os (fresh false (n, O)))) in *.
  destruct (SH_run ops mk f os (fresh false (n, O))) as (A & _ & C & _). fold w in A, C. specialize (A eq_refl). cbn in C.
  pose proof (SH_step ops mk f CClose w) as (A2 & _). rewrite E in A2. cbn in A2. specialize (A2 A).
  assert (X : c_closed (w_conn w') = true).
  { apply (close_closes (counted ops) f w w'); [exact C|]. unfold step, step_body, bind in E.
    destruct (close (counted ops) f w) as [[e| |] w1]; try discriminate. injection E as -> <-. reflexivity. }
  unfold shut in A2. unfold closings. rewrite A2, X. reflexivity.
Qed.
Print Assumptions C86_close_nil.

(** An Open that fails after dialling has closed the socket, one that succeeds has not. *)
Theorem C86_open : forall N (ops : netops N) f user pw n e w',
  initialize (counted ops) f (close (counted ops) f) user pw (fresh false (n, O)) = (Ok e, w') ->
  closings w' = match e with Some _ => 1%nat | None => O end.
Proof.
  intros N ops f user pw n e w' E. destruct (shut_init ops f f user pw (fresh false (n, O)) (Ok e) w' (conj eq_refl (conj eq_refl eq_refl)) eq_refl eq_refl E) as [A B].
  unfold closings, shut in *. rewrite A, B. destruct e; reflexivity.
Qed.
Print Assumptions C86_open.

(** A Close that returns an error may not have: with rows of a prepared statement open and the network
    down, Close fails however often it is called and the socket stays open. *)
Theorem C86_leak : forall N (ops : netops N) D mk f k w, down ops D -> D (fst (w_net w)) -> unread false w -> closings w = O ->
  exists rs w', run (counted ops) mk (S (S f)) (repeat CClose k) w = (rs, Ok tt, w') /\ length rs = k /\
    (forall r, In r rs -> exists e, r = OErr (Some e)) /\ closings w' = O.
Proof.
  intros N ops D mk f k w Hd.
  assert (Hd2 : down (counted ops) (fun n => D (fst n))).
  { intros n Hn. destruct (Hd _ Hn) as (A & B & C). cbn. split; [|split].
    - intros cs v. specialize (A cs v). destruct (n_send ops (fst n) cs v). exact A.
    - destruct (n_recv ops (fst n)). exact B.
    - destruct (n_recv ops (fst n)). exact C. }
  revert w. induction k as [|k IH]; intros w Hw Hu H0.
  - exists [], w. repeat split; auto. intros r [].
  - destruct (down_close (counted ops) _ Hd2 false mk f w Hw Hu) as (e & w1 & E & A & B).
    assert (X : closings w1 = O).
    { assert (S0 : shut w) by (destruct Hu as (i & j & s & r & Hc & _); unfold shut; rewrite Hc; exact H0).
      pose proof (SH_step ops mk (S (S f)) CClose w) as (S1 & _). rewrite E in S1. cbn in S1. specialize (S1 S0). unfold shut, closings in *.
      rewrite S1. destruct A as (_ & _ & C). destruct Hu as (i & j & s & r & Hc & _). destruct C as [-> | ->]; cbn; rewrite Hc; reflexivity. }
    destruct (IH w1 B (unread_keeps _ _ _ A Hu) X) as (rs & w2 & E2 & L & F & C).
    exists (OErr (Some e) :: rs), w2. cbn [repeat run]. rewrite E, E2. split; [reflexivity|]. split; [cbn; congruence|]. split.
    + intros r [<-|Hr]; eauto.
    + exact C.
Qed.
Print Assumptions C86_leak.

(** A query the server fails, and an answer to ACK_FAILURE that is neither SUCCESS, FAILURE nor IGNORED: the
    driver closes the socket itself, during the call; Close then does not close it again.  INIT refused: closed once.
    A query whose rows are open when the network goes down: never closed. *)
Example C86_example :
  (exists w, run (counted script) true 9 [CExec [81] []; CClose; CClose] (fresh false ([RMsg (VFailure []); RMsg (VRecord []); succ []], O)) =
     ([OResult None (Some EBadConn); OErr None; OErr None], Ok tt, w) /\ closings w = 1%nat) /\
  (exists e w, initialize (counted script) 9 (close (counted script) 9) [117] [112] (fresh false ([RMsg (VFailure []); succ []], O)) = (Ok (Some e), w) /\ closings w = 1%nat) /\
  (exists w, initialize (counted script) 9 (close (counted script) 9) [117] [112] (fresh false ([succ []], O)) = (Ok None, w) /\ closings w = O) /\
  (exists w, snd (run (counted script) true 9 [CPrepare [81]; SQuery 0 []] (fresh false ([succ []], O))) = w /\
     unread false w /\ down script (fun n => n = []) /\ fst (w_net w) = [] /\ closings w = O).
Proof.
  split; [|split; [|split]].
  - eexists. split; [lazy; reflexivity|reflexivity].
  - eexists. eexists. split; [lazy; reflexivity|reflexivity].
  - eexists. split; [lazy; reflexivity|reflexivity].
  - eexists. split; [lazy; reflexivity|]. split; [|split; [|split; reflexivity]].
    + do 4 eexists. repeat split.
    + intros n ->. repeat split.
Qed.

(** ** C87 *)
(** The calls by which a driver connection uses its socket after it has closed it are the Commit and the Rollback of
    a transaction that was still open; all of those do.  [watched ops] is [ops] with a count of such uses. *)
Theorem C87_partial : forall N (ops : netops N) mk f os pooled n mk' f' o,
  let w := snd (run (watched ops) mk f os (fresh pooled (n, (false, O)))) in
  touches (snd (step (watched ops) mk' f' o w)) <> touches w <->
  (c_closed (w_conn w) = true /\ exists t, (o = TCommit t \/ o = TRollback t) /\ nth_error (w_txs w) t = Some {| t_closed := false |}).
Proof.
  intros N ops mk f os pooled n mk' f' o w.
  assert (K : KInv None w) by (apply K_run, K_fresh).
  assert (C : SessionTouch.cons w).
  { unfold w. assert (X : forall os (x : world (N * (bool * nat))), SessionTouch.cons x -> SessionTouch.cons (snd (run (watched ops) mk f os x))).
    { clear. induction os as [|o os IH]; intros x Hx; cbn [run]; [exact Hx|].
      pose proof (cons_step ops f mk o x Hx) as H. destruct (step (watched ops) mk f o x) as [[a| |] x'] eqn:E; cbn in H; auto.
      specialize (IH x' H). destruct (run (watched ops) mk f os x') as [[l r] x'']. exact IH. }
    apply X. reflexivity. }
  split.
  - intros H. destruct (c_closed (w_conn w)) eqn:Ec.
    + split; [reflexivity|].
      assert (D : forall t, nth_error (w_txs w) t = Some {| t_closed := false |} \/ nth_error (w_txs w) t <> Some {| t_closed := false |}).
      { intros t. destruct (nth_error (w_txs w) t) as [[[]]|]; [right|left|right]; congruence. }
      assert (L : late o w \/ ~ late o w).
      { destruct o; try (right; intros (_ & t0 & [E|E] & _); discriminate).
        - destruct (D t) as [D1|D1]; [left; split; [assumption|exists t; auto]|right; intros (_ & t0 & [E|E] & E2); [injection E as <-; auto|discriminate]].
        - destruct (D t) as [D1|D1]; [left; split; [assumption|exists t; auto]|right; intros (_ & t0 & [E|E] & E2); [discriminate|injection E as <-; auto]]. }
      destruct L as [[_ L]|L]; [exact L|]. exfalso. apply H. now apply (quiet_step ops f' mk' o w L K).
    + exfalso. apply H. apply (quiet_step ops f' mk' o w); auto. intros [X _]. congruence.
  - intros L H. pose proof (late_touches ops f' mk' o w L K C). lia.
Qed.
Print Assumptions C87_partial.
(** Begin, Close, Commit: the connection is closed, and RUN "COMMIT" goes to the closed socket. *)
Theorem C87_refuted : forall m1 m2 l, exists w w',
  run (watched script) true 9 [CBegin; CClose] (fresh false (succ m1 :: succ m2 :: l, (false, O))) = ([OHandle (Some 0%nat) None; OErr None], Ok tt, w) /\
  step (watched script) true 9 (TCommit 0) w = w' /\ touches w = O /\ (touches (snd w') > 0)%nat.
Proof.
  intros m1 m2 l. eexists. eexists. split; [lazy; reflexivity|]. split; [reflexivity|]. split; [reflexivity|].
  match goal with |- (touches (snd (step _ _ _ _ ?w)) > 0)%nat => assert (H : touches (snd (step (watched script) true 9 (TCommit 0) w)) <> touches w) end.
  { match goal with |- touches (snd (step _ _ _ _ ?w)) <> _ =>
      replace w with (snd (run (watched script) true 9 [CBegin; CClose] (fresh false (succ m1 :: succ m2 :: l, (false, O))))) by (lazy; reflexivity) end.
    apply C87_partial. split; [lazy; reflexivity|]. exists 0%nat. split; [left; reflexivity|lazy; reflexivity]. }
  revert H. match goal with |- _ <> ?x -> _ => change x with O end. lia.
Qed.
Print Assumptions C87_refuted.
