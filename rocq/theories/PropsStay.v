(** C82: a connection stays open until its user closes it. *)
From Coq Require Import ZArith List Bool Lia.
From Verif Require Import GoPrims Value Errors Misc Session SessionGen SessionRaw SessionStay ServerSpec PropsSession PropsSql.
Import ListNotations.
Open Scope Z_scope.

(** The specification looks at the network from outside: [tally] counts the times the socket
    is closed and the RESET messages handed to it.  What the pool gets is [c_reclaims]: the calls
    of reclaim (driver.go:176-195). *)
Record seen := { closes : nat; resets : nat }.
Definition nothing_seen : seen := {| closes := 0; resets := 0 |}.
Definition is_reset (v : goval) : bool := match v with VReset => true | _ => false end.
Definition tally {N} (ops : netops N) : netops (N * seen) :=
  {| n_send := fun n cs v => let '(n', r) := n_send ops (fst n) cs v in
       ((n', {| closes := closes (snd n); resets := resets (snd n) + if is_reset v then 1 else 0 |}), r);
     n_recv := fun n => let '(n', r) := n_recv ops (fst n) in ((n', snd n), r);
     n_close := fun n => let '(n', b) := n_close ops (fst n) in ((n', {| closes := S (closes (snd n)); resets := resets (snd n) |}), b);
     n_shake := fun n => let '(n', r) := n_shake ops (fst n) in ((n', snd n), r) |}.

Section Bolt.
Context {DB : Type}.
Variable exec : DB -> str -> md -> DB * outcome.
Variable sendable : goval -> bool.
Notation net := (tally (faulty (bolt exec sendable))).
Definition start_net (faults : list fault) (db : DB) := ((faults, {| b_db := db; b_st := Ready; b_q := [] |}), nothing_seen).

Definition t_i (s : seen) (n : (list fault * bnet DB) * seen) : Prop := inv_i (fst n) /\ snd n = s.
Definition t_j (s : seen) (n : (list fault * bnet DB) * seen) : Prop := inv_j (fst n) /\ snd n = s.
Definition t_k (s : seen) (n : (list fault * bnet DB) * seen) : Prop := inv_k (fst n) /\ snd n = s.
Lemma seen_eta : forall s v, is_reset v = false -> {| closes := closes s; resets := resets s + if is_reset v then 1 else 0 |} = s.
Proof. intros [a b] v ->. cbn. now rewrite Nat.add_0_r. Qed.
Lemma tally_send : forall s n cs v, request v -> t_i s n -> t_i s (fst (n_send net n cs v)).
Proof.
  intros s [n s'] cs v V [H E]. cbn in H, E. subst s'. pose proof (faulty_send exec sendable n cs v V H) as G.
  cbn [tally n_send fst snd] in *. destruct (n_send _ n cs v) as [n' r]. cbn in *. split; [exact G|]. cbn. apply seen_eta. destruct v; try contradiction V; reflexivity.
Qed.
Lemma tally_recv : forall s n n' r, t_i s n -> n_recv net n = (n', r) -> match r with RMsg (VFailure _) => t_j s n' | _ => t_i s n' end.
Proof.
  intros s [n s'] n' r [H E] X. cbn in H, E. subst s'. cbn [tally n_recv fst snd] in X.
  destruct (n_recv _ n) as [n1 r1] eqn:En. injection X as <- <-. pose proof (faulty_recv exec sendable _ _ _ H En) as G.
  destruct r1 as [v|p e| |]; [destruct v| | |]; (split; [|reflexivity]); cbn [fst] in *; try exact G. exact (proj1 G).
Qed.
Lemma tally_ack : forall s n cs n' r, t_j s n -> n_send net n cs VAckFailure = (n', r) -> match r with SOk => t_k s n' | _ => t_i s n' end.
Proof.
  intros s [n s'] cs n' r [H E] X. cbn in H, E. subst s'. cbn [tally n_send fst snd] in X.
  destruct (n_send _ n cs VAckFailure) as [n1 r1] eqn:En. injection X as <- <-. pose proof (faulty_ack exec sendable _ _ _ _ H En) as G.
  destruct r1; (split; [exact G|]); cbn [snd]; apply (seen_eta s VAckFailure); reflexivity.
Qed.
Lemma tally_answer : forall s n n' r, t_k s n -> n_recv net n = (n', r) ->
  match r with RMsg VIgnored => t_k s n' | RMsg (VSuccess _) => t_i s n' | RMsg _ => False | _ => t_i s n' end.
Proof.
  intros s [n s'] n' r [H E] X. cbn in H, E. subst s'. cbn [tally n_recv fst snd] in X.
  destruct (n_recv _ n) as [n1 r1] eqn:En. injection X as <- <-. pose proof (faulty_answer exec sendable _ _ _ H En) as G.
  destruct r1 as [v|p e| |]; [destruct v| | |]; try contradiction G; (split; [|reflexivity]); cbn [fst] in *; try exact G. exact (proj1 G).
Qed.
Lemma k_i : forall s n, t_k s n -> t_i s n.
Proof.
  intros s [[l n] s'] [(q & m & Eq & Hq) E]. split; [|exact E]. cbn in *. unfold inv_i. cbn. rewrite Eq. left.
  apply Forall_app. split; [now apply ignored_calm|repeat constructor].
Qed.
Lemma stay_step : forall mk f o w r w', o <> CClose -> inv_i (fst (w_net w)) -> step net mk f o w = (r, w') ->
  inv_i (fst (w_net w')) /\ snd (w_net w') = snd (w_net w) /\ stays (w_conn w) (w_conn w').
Proof.
  intros mk f o w r w' Ho Hi E. set (s := snd (w_net w)).
  pose proof (st_step net (t_i s) (t_j s) (t_k s) (tally_send s) (tally_recv s) (tally_ack s) (tally_answer s) (k_i s) mk f o Ho w) as H.
  rewrite E in H. destruct (H (conj Hi eq_refl)) as ((A & B) & C). auto.
Qed.

(** Close calls that reported success *)
Definition good_close (o : op) (x : out) : bool := match o, x with CClose, OErr None => true | _, _ => false end.
Fixpoint good_closes (os : list op) (outs : list out) : nat :=
  match os, outs with
  | o :: os', x :: outs' => (if good_close o x then 1 else 0) + good_closes os' outs'
  | _, _ => 0
  end.
Definition ends_with (pooled : bool) (os : list op) (outs : list out) (s : seen) (put_back : list bool) : Prop :=
  resets s = 0%nat /\
  if pooled then closes s = 0%nat /\ length put_back = good_closes os outs
  else put_back = [] /\ (closes s <= 1)%nat /\ (good_closes os outs > 0 -> closes s = 1)%nat /\ (~ In CClose os -> closes s = 0)%nat.

Notation W := (world ((list fault * bnet DB) * seen)).
Definition linked (pooled : bool) (w : W) : Prop :=
  inv_i (fst (w_net w)) /\ resets (snd (w_net w)) = 0%nat /\ c_pooled (w_conn w) = pooled /\
  if pooled then closes (snd (w_net w)) = 0%nat /\ c_closed (w_conn w) = false
  else c_reclaims (w_conn w) = [] /\ closes (snd (w_net w)) = (if c_closed (w_conn w) then 1 else 0)%nat.
Lemma close_link : forall f pooled (w : W) r w', linked pooled w -> close net f w = (r, w') ->
  linked pooled w' /\
  (if pooled then length (c_reclaims (w_conn w')) = length (c_reclaims (w_conn w)) + match r with Ok None => 1 | _ => 0 end
   else (r = Ok None -> closes (snd (w_net w')) = 1) /\ closes (snd (w_net w)) <= closes (snd (w_net w')))%nat.
Proof.
  intros f pooled w r w' (Hi & Hr & Hp & Hl) E. set (s := snd (w_net w)).
  destruct (close_shape net (t_i s) (t_j s) (t_k s) (tally_send s) (tally_recv s) (tally_ack s) (tally_answer s) (k_i s) f w r w' (conj Hi eq_refl) E)
    as (w1 & (Hi1 & Hs) & (S1 & S2 & S3) & [(-> & Hg)|[(Hc & Hp' & -> & En & Ec)|(Hc & Hp' & En & Ec & Ep & Erc & ->)]]).
  - unfold linked. rewrite Hs, S1, S2, S3. subst s. split; [auto|].
    destruct pooled; destruct Hl as (L1 & L2).
    + destruct r as [[e|]| |]; auto with arith. rewrite Hg in L2 by reflexivity. discriminate.
    + split; [|auto]. intros ->. rewrite L2, Hg; auto.
  - rewrite Hp in Hp'. subst pooled. unfold linked. rewrite En, Ec, Hs. subst s. cbn [c_reclaimed c_closed c_pooled c_reclaims]. rewrite S1, S2, S3.
    destruct (c_pooled (w_conn w)); [|discriminate]. split; [auto|]. rewrite app_length. reflexivity.
  - rewrite Hp in Hp'. subst pooled. rewrite Hp' in *. destruct Hl as (L1 & L2). rewrite Hc in L2.
    assert (X : fst (w_net w') = fst (n_close (faulty (bolt exec sendable)) (fst (w_net w1))) /\ snd (w_net w') = {| closes := S (closes (snd (w_net w1))); resets := resets (snd (w_net w1)) |}).
    { rewrite En. cbn [tally n_close]. destruct (n_close _ (fst (w_net w1))). split; reflexivity. }
    destruct X as (X1 & X2). rewrite Hs in X2. subst s.
    unfold linked. rewrite X1, X2, Ec, Ep, Erc, S2, S3. cbn [closes resets]. rewrite L2. repeat split; auto. apply faulty_close. exact Hi1.
Qed.
Lemma links : forall mk f pooled os (w : W) outs r w', linked pooled w -> run net mk f os w = (outs, r, w') ->
  linked pooled w' /\
  (if pooled then length (c_reclaims (w_conn w')) = length (c_reclaims (w_conn w)) + good_closes os outs
   else closes (snd (w_net w)) <= closes (snd (w_net w')) /\ (good_closes os outs > 0 -> closes (snd (w_net w')) = 1) /\
        (~ In CClose os -> closes (snd (w_net w')) = closes (snd (w_net w))))%nat.
Proof.
  intros mk f pooled os. induction os as [|o os IH]; intros w outs r w' HL E; cbn [run] in E.
  { injection E as <- <- <-. split; [exact HL|]. destruct pooled; cbn; [lia|]. repeat split; auto. lia. }
  destruct (step net mk f o w) as [ra w1] eqn:E1.
  assert (S1 : linked pooled w1 /\
    (if pooled then length (c_reclaims (w_conn w1)) = length (c_reclaims (w_conn w)) + match ra with Ok a => if good_close o a then 1 else 0 | _ => 0 end
     else closes (snd (w_net w)) <= closes (snd (w_net w1)) /\ (match ra with Ok a => good_close o a = true -> closes (snd (w_net w1)) = 1 | _ => True end) /\
        (o <> CClose -> closes (snd (w_net w1)) = closes (snd (w_net w))))%nat).
  { assert (D : o = CClose \/ o <> CClose) by (destruct o; (left; reflexivity) || (right; discriminate)).
    destruct D as [->|D].
    - unfold step, step_body in E1. unfold bind at 1 in E1. destruct (close net f w) as [rc wc] eqn:Ec.
      destruct (close_link f pooled w rc wc HL Ec) as (A & B).
      destruct rc as [[e|]| |]; cbn in E1; injection E1 as <- <-; (split; [exact A|]); destruct pooled; cbn; try exact B; (split; [apply B|]); (split; [|congruence]); auto; try discriminate.
      intros _. apply B. reflexivity.
    - destruct HL as (Hi & Hr & Hp & Hl). destruct (stay_step mk f o w ra w1 D Hi E1) as (A & B & C1 & C2 & C3).
      assert (G : forall a, good_close o a = false) by (intros a; destruct o; try reflexivity; contradiction).
      unfold linked. rewrite B, C1, C2, C3. split; [auto|]. destruct pooled.
      + destruct ra; [rewrite G|..]; lia.
      + split; [lia|]. split; [|auto]. destruct ra; auto. rewrite G. discriminate. }
  destruct S1 as (HL1 & S1). destruct ra as [a| |].
  - destruct (run net mk f os w1) as [[l r1] w2] eqn:E2. injection E as <- <- <-. destruct (IH _ _ _ _ HL1 E2) as (HL2 & S2). split; [exact HL2|].
    cbn [good_closes]. destruct pooled; [lia|]. destruct S1 as (A1 & A2 & A3), S2 as (B1 & B2 & B3). split; [lia|]. split.
    + destruct (good_close o a) eqn:Eg; cbn; [|exact B2]. intros _. specialize (A2 eq_refl). destruct HL2 as (_ & _ & _ & _ & H). rewrite H in *. destruct (c_closed (w_conn w2)); lia.
    + intros Hn. rewrite B3, A3; auto. { intros ->. apply Hn. left; reflexivity. } { intros X. apply Hn. right; exact X. }
  - injection E as <- <- <-. split; [exact HL1|]. cbn. destruct pooled; [lia|]. destruct S1 as (A1 & A2 & A3). split; [lia|]. split; [lia|]. intros Hn. apply A3. intros ->. apply Hn. left; reflexivity.
  - injection E as <- <- <-. split; [exact HL1|]. cbn. destruct pooled; [lia|]. destruct S1 as (A1 & A2 & A3). split; [lia|]. split; [lia|]. intros Hn. apply A3. intros ->. apply Hn. left; reflexivity.
Qed.

(** Whatever calls are made, in whatever order, and whatever goes wrong on the network: no RESET is
    sent; an unpooled connection closes its socket at most once, not before Close is called, and
    has closed it when Close has returned nil; a pooled one never closes its socket and is handed to
    the pool once for every Close that returned nil, and by nothing else. *)
Theorem C82_stays_open : forall mk f os pooled faults db outs r w',
  run net mk f os (fresh pooled (start_net faults db)) = (outs, r, w') ->
  ends_with pooled os outs (snd (w_net w')) (c_reclaims (w_conn w')).
Proof.
  intros mk f os pooled faults db outs r w' E.
  assert (L : linked pooled (fresh pooled (start_net faults db))) by (split; [left; constructor|]; destruct pooled; repeat split).
  destruct (links mk f pooled os _ _ _ _ L E) as ((_ & R & _ & H) & S). split; [exact R|]. destruct pooled.
  - split; [apply H|]. exact S.
  - destruct H as (H1 & H2), S as (S1 & S2 & S3). split; [exact H1|]. split; [|split; [exact S2|exact S3]].
    rewrite H2. destruct (c_closed _); auto.
Qed.
(** Call by call: nothing but Close moves the socket, the pool or the connection's open flag. *)
Theorem C82_call : forall mk f os pooled faults db outs w o r w',
  run net mk f os (fresh pooled (start_net faults db)) = (outs, Ok tt, w) -> o <> CClose -> step net mk f o w = (r, w') ->
  snd (w_net w') = snd (w_net w) /\ c_reclaims (w_conn w') = c_reclaims (w_conn w) /\ c_closed (w_conn w') = c_closed (w_conn w).
Proof.
  intros mk f os pooled faults db outs w o r w' E Ho E1.
  assert (L : linked pooled (fresh pooled (start_net faults db))) by (split; [left; constructor|]; destruct pooled; repeat split).
  destruct (links mk f pooled os _ _ _ _ L E) as ((Hi & _) & _). destruct (stay_step mk f o w r w' Ho Hi E1) as (_ & A & B & _ & C). auto.
Qed.
End Bolt.
Print Assumptions C82_stays_open.
Print Assumptions C82_call.

(** A refused query, a network fault during its acknowledgement, a second refused query, then Close
    twice: the socket is closed once; the pooled connection is handed over twice. *)
Definition c82_ops : list op := [CExecSql [81] []; CExecSql [82] []; CClose; CClose].
Definition c82_faults : list fault := [Good; Good; Good; Late].
Example C82_example :
  (let '(outs, r, w) := run (tally (faulty (bolt ex_exec (fun _ => true)))) true 20 c82_ops (fresh false (start_net c82_faults O)) in
   r = Ok tt /\ good_closes c82_ops outs = 2%nat /\ snd (w_net w) = {| closes := 1; resets := 0 |}) /\
  (let '(outs, r, w) := run (tally (faulty (bolt ex_exec (fun _ => true)))) true 20 c82_ops (fresh true (start_net c82_faults O)) in
   r = Ok tt /\ snd (w_net w) = {| closes := 0; resets := 0 |} /\ c_reclaims (w_conn w) = [true; true]).
Proof. vm_compute. auto. Qed.
(** The server matters: one that answers ACK_FAILURE with a RECORD, or with FAILURE and then FAILURE
    again, makes a query send RESET and close the connection. *)
Example C82_server_matters :
  snd (w_net (snd (run (tally script) true 20 [CExecSql [81] []] (fresh false (map RMsg [VFailure []; VRecord []], nothing_seen))))) = {| closes := 1; resets := 0 |} /\
  snd (w_net (snd (run (tally script) true 20 [CExecSql [81] []] (fresh false (map RMsg [VFailure []; VFailure []; VFailure []], nothing_seen))))) = {| closes := 1; resets := 1 |}.
Proof. vm_compute. auto. Qed.
