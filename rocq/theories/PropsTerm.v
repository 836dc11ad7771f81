(** C40, for every network: a call goes on for ever only while messages keep arriving. *)
From Coq Require Import ZArith List Bool Lia.
From Verif Require Import GoPrims Value Errors Misc Session SessionSim SessionVoc PropsSession.
Import ListNotations.
Open Scope Z_scope.

(** A network that notes the messages it delivers. *)
Definition heard {N} (ops : netops N) : netops (N * list goval) :=
  {| n_send := fun n cs v => let '(n', r) := n_send ops (fst n) cs v in ((n', snd n), r);
     n_recv := fun n => let '(n', r) := n_recv ops (fst n) in ((n', match r with RMsg v => snd n ++ [v] | _ => snd n end), r);
     n_close := fun n => let '(n', r) := n_close ops (fst n) in ((n', snd n), r);
     n_shake := fun n => let '(n', r) := n_shake ops (fst n) in ((n', snd n), r) |}.
Definition silent {N} (w : world N) : world (N * list goval) := Build_world (w_conn w) (w_stmts w) (w_rows w) (w_txs w) (w_net w, []).
(** The same, but nothing is delivered after [k] messages. *)
Definition rationed {N} (ops : netops N) (k : nat) : netops (N * list goval) :=
  {| n_send := n_send (heard ops);
     n_recv := fun n => let '(n', r) := n_recv (heard ops) n in
       match r with RMsg _ => if (length (snd n) <? k)%nat then (n', r) else (n, RNet) | _ => (n', r) end;
     n_close := n_close (heard ops);
     n_shake := n_shake (heard ops) |}.

Lemma heard_same : forall N (ops : netops N) mk f o w, fst (step (heard ops) mk f o (silent w)) = fst (step ops mk f o w).
Proof.
  intros N ops mk f o w. assert (S : Sim (fun n n' => fst n = n') (fun _ => False) (step (heard ops) mk f o) (step ops mk f o)).
  { apply Sim_step; try (intros; contradiction).
  - intros n n' cs v <-. right. cbn. destruct (n_send ops (fst n) cs v). auto.
  - intros n n' <-. right. cbn. destruct (n_recv ops (fst n)). auto.
  - intros n n' <-. right. cbn. destruct (n_close ops (fst n)). auto. }
  destruct S as (_ & H). destruct (H (silent w) w) as [[]|(E & _)]; [repeat split|exact E].
Qed.
Lemma heard_enough : forall N (ops : netops N) mk f o w k, (S k < f)%nat -> fst (step (heard ops) mk f o (silent w)) = NoFuel ->
  (k < length (snd (w_net (snd (step (heard ops) mk f o (silent w))))))%nat.
Proof.
  intros N ops mk f o w k Hf E. set (Bad := fun n : N * list goval => (k < length (snd n))%nat).
  assert (Hfin : fst (step (rationed ops k) mk f o (silent w)) <> NoFuel).
  { apply (C40_finite_server_partial _ (rationed ops k) (fun n => k - length (snd n))%nat).
    - intros n cs v n' r. cbn. destruct (n_send ops (fst n) cs v). intros X. injection X as <- <-. cbn. lia.
    - intros n n' v. cbn [n_recv rationed heard]. destruct (n_recv ops (fst n)) as [n1 r]. destruct r; intros X; try discriminate X.
      destruct (length (snd n) <? k)%nat eqn:L; [|discriminate X]. injection X as <- ->. apply Nat.ltb_lt in L. cbn. rewrite app_length. cbn. lia.
    - intros n n' r. cbn [n_recv rationed heard]. destruct (n_recv ops (fst n)) as [n1 r1]. destruct r1; intros X; try (injection X as <- <-; cbn; lia).
      destruct (length (snd n) <? k)%nat; injection X as <- <-; cbn; [rewrite app_length|]; lia.
    - intros n n' b. cbn. destruct (n_close ops (fst n)). intros X. injection X as <- <-. cbn. lia.
    - cbn. lia. }
  assert (S : Sim eq Bad (step (heard ops) mk f o) (step (rationed ops k) mk f o)).
  { apply Sim_step.
  - intros n cs v. unfold Bad. cbn. destruct (n_send ops (fst n) cs v). auto.
  - intros n. unfold Bad. cbn. destruct (n_recv ops (fst n)) as [n1 r]. cbn. destruct r; auto. rewrite app_length. lia.
  - intros n. unfold Bad. cbn. destruct (n_close ops (fst n)). auto.
  - intros n n' cs v <-. right. auto.
  - intros n n' <-. cbn [n_recv rationed heard]. unfold Bad. destruct (n_recv ops (fst n)) as [n1 r]. destruct r; auto.
    destruct (length (snd n) <? k)%nat eqn:L; [right; split; reflexivity|]. cbn [fst snd]. apply Nat.ltb_ge in L. left. rewrite app_length. cbn. lia.
  - intros n n' <-. right. auto. }
  destruct S as (_ & H). destruct (H (silent w) (silent w)) as [X|(X & _)]; [repeat split|exact X|]. rewrite X in E. contradiction.
Qed.
(** A call that has not returned with fuel [f] has received at least [f - 1] messages, on any
    network and in any state.  So a call that never returns receives messages without end:
    no call waits for ever, or computes for ever, without them. *)
Theorem C40_hears_partial : forall N (ops : netops N) mk f o w, fst (step ops mk f o w) = NoFuel ->
  (f <= S (length (snd (w_net (snd (step (heard ops) mk f o (silent w)))))))%nat.
Proof.
  intros N ops mk f o w E. rewrite <- heard_same in E. destruct f as [|[|f]]; try lia.
  pose proof (heard_enough N ops mk (S (S f)) o w f ltac:(lia) E). lia.
Qed.
Print Assumptions C40_hears_partial.
(** The server of C40_refuted: the messages heard with some amount of fuel. *)
Example C40_hears_example : fst (step angry true 7 CClose angry_world) = NoFuel /\
  length (snd (w_net (snd (step (heard angry) true 7 CClose (silent angry_world))))) = 19%nat.
Proof. split; vm_compute; reflexivity. Qed.
