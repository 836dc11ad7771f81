(** What opening a connection says to the server, on every network: the handshake, INIT if the handshake passes, and
    after that nothing but ACK_FAILURE and RESET. *)
From Coq Require Import ZArith List Bool Lia.
From Verif Require Import GoPrims Value Errors Misc Session.
Import ListNotations.
Open Scope Z_scope.

(** The handshake with its error; a message with the chunk size and the outcome; an answer; closing. *)
Inductive happening := Shake (e : option gerr) | Say (cs : Z) (v : goval) (r : sres) | Hear (r : rres) | Shut (failed : bool).
(** A network that keeps the minutes. *)
Definition minuted {N} (ops : netops N) : netops (N * list happening) :=
  {| n_send := fun n cs v => let '(n', r) := n_send ops (fst n) cs v in ((n', snd n ++ [Say cs v r]), r);
     n_recv := fun n => let '(n', r) := n_recv ops (fst n) in ((n', snd n ++ [Hear r]), r);
     n_close := fun n => let '(n', b) := n_close ops (fst n) in ((n', snd n ++ [Shut b]), b);
     n_shake := fun n => let '(n', r) := n_shake ops (fst n) in ((n', snd n ++ [Shake (snd r)]), r) |}.
Definition minutes {N} (w : world (N * list happening)) : list happening := snd (w_net w).

(** Neither the handshake nor any message but those of recovery. *)
Definition recovers (h : happening) : Prop := match h with Shake _ => False | Say _ v _ => v = VAckFailure \/ v = VReset | Hear _ | Shut _ => True end.
Definition shuts (h : happening) : Prop := match h with Shut _ => True | _ => False end.

Section Open.
Context {N : Type} (ops0 : netops N).
Notation ops := (minuted ops0).
Notation W := (world (N * list happening)).
Notation M := (M (N := N * list happening)).
Definition idle (w : W) : Prop := c_stmt (w_conn w) = None /\ c_tx (w_conn w) = None.
Definition Adds (P : happening -> Prop) {A} (m : M A) : Prop := forall w, idle w -> idle (snd (m w)) /\ exists l, minutes (snd (m w)) = minutes w ++ l /\ Forall P l.

Lemma Adds_ret : forall P A (a : A), Adds P (ret a).
Proof. intros P A a w H. split; [exact H|]. exists []. rewrite app_nil_r. auto. Qed.
Lemma Adds_panic : forall P A, Adds P (panic (A := A)).
Proof. intros P A w H. split; [exact H|]. exists []. rewrite app_nil_r. auto. Qed.
Lemma Adds_nofuel : forall P A, Adds P (nofuel (A := A)).
Proof. intros P A w H. split; [exact H|]. exists []. rewrite app_nil_r. auto. Qed.
Lemma Adds_bind : forall P A B (m : M A) (k : A -> M B), Adds P m -> (forall a, Adds P (k a)) -> Adds P (bind m k).
Proof.
  intros P A B m k Hm Hk w H. unfold bind. destruct (Hm w H) as (H1 & l & E & F). destruct (m w) as [[a| |] w1]; cbn [snd] in *; eauto.
  destruct (Hk a w1 H1) as (H2 & l2 & E2 & F2). split; [exact H2|]. exists (l ++ l2). rewrite E2, E, app_assoc. split; [reflexivity|]. now apply Forall_app.
Qed.
Lemma Adds_modc : forall P g, (forall c, c_stmt (g c) = c_stmt c) -> (forall c, c_tx (g c) = c_tx c) -> Adds P (modc g).
Proof.
  intros P g H1 H2 w (S1 & S2). unfold modc, bind, getc, setc. cbn. split; [split; cbn; [now rewrite H1|now rewrite H2]|]. exists []. rewrite app_nil_r. auto.
Qed.
Lemma Adds_encode : forall (P : happening -> Prop) v, (forall cs r, P (Say cs v r)) -> Adds P (encode_msg ops v).
Proof.
  intros P v HP w H. unfold encode_msg, bind, getc, getn, setn. cbn [n_send minuted]. destruct (n_send ops0 (fst (w_net w)) (c_cs (w_conn w)) v) as [n' r] eqn:E.
  destruct r; cbn; (split; [exact H|]); eexists; (split; [reflexivity|]); constructor; auto.
Qed.
Lemma Adds_decode : forall (P : happening -> Prop), (forall r, P (Hear r)) -> Adds P (decode_msg ops).
Proof.
  intros P HP w H. unfold decode_msg, bind, getn, setn. cbn [n_recv minuted]. destruct (n_recv ops0 (fst (w_net w))) as [n' r].
  destruct r; cbn; (split; [exact H|]); eexists; (split; [reflexivity|]); constructor; auto.
Qed.
Ltac adds := first [apply Adds_ret|apply Adds_panic|apply Adds_nofuel|assumption|apply Adds_modc; reflexivity|apply Adds_bind; [|intros]].
Lemma Adds_shut : forall (P : happening -> Prop) f, (forall b, P (Shut b)) -> Adds P (close ops f).
Proof.
  intros P [|f] HP w H; cbn [close]; [now apply Adds_nofuel|]. unfold close_body, bind, getc. destruct (c_closed (w_conn w)); [now apply Adds_ret|].
  destruct H as (H1 & H2). rewrite H1. cbn. rewrite H2. destruct (c_pooled (w_conn w)) eqn:Ep.
  - cbn. rewrite Ep. cbn. split; [split; cbn; assumption|]. exists []. rewrite app_nil_r. auto.
  - cbn. rewrite Ep. cbn. destruct (n_close ops0 (fst (w_net w))) as [n' b]. destruct b; cbn; (split; [split; cbn; assumption|]); eexists; (split; [reflexivity|]); constructor; auto.
Qed.
Section Inner.
Variables (lf : nat) (cls : M (option gerr)).
Hypothesis Hcls : Adds recovers cls.
Lemma Adds_reset_loop : forall f, Adds recovers (reset_loop ops cls f).
Proof.
  induction f as [|f IH]; cbn [reset_loop]; [adds|]. apply Adds_bind; [apply Adds_decode; exact (fun _ => I)|]. intros [v [e|]]; [adds|].
  destruct v as [v|]; [destruct v|]; repeat adds.
Qed.
Lemma Adds_reset : Adds recovers (reset ops lf cls).
Proof. unfold reset. apply Adds_bind; [apply Adds_encode; intros; cbn; auto|]. intros [e|]; [adds|apply Adds_reset_loop]. Qed.
Lemma Adds_ack_loop : forall f, Adds recovers (ack_loop ops lf cls f).
Proof.
  induction f as [|f IH]; cbn [ack_loop]; [adds|]. apply Adds_bind; [apply Adds_decode; exact (fun _ => I)|]. intros [v [e|]]; [adds|].
  destruct v as [v|]; [destruct v|]; try apply Adds_reset; repeat adds.
Qed.
Lemma Adds_ack : Adds recovers (ack_failure ops lf cls).
Proof. unfold ack_failure. apply Adds_bind; [apply Adds_encode; intros; cbn; auto|]. intros [e|]; [adds|apply Adds_ack_loop]. Qed.
Lemma Adds_consume : Adds recovers (consume ops lf cls).
Proof.
  unfold consume. apply Adds_bind; [apply Adds_decode; exact (fun _ => I)|]. intros [v [e|]]; [adds|].
  assert (HF : forall m, Adds recovers (e <- ack_failure ops lf cls ;; match e with Some e => ret (None, Some e) | None => ret (Some (VFailure m), Some (ewrap FConn 569 (EFailMsg m))) end)).
  { intros m. apply Adds_bind; [apply Adds_ack|]. intros [e|]; adds. }
  destruct v as [v|]; [destruct v|]; try apply Adds_ret. apply HF.
Qed.
End Inner.

(** Opening: the minutes of the whole of it. *)
Definition opening (f : nat) (user password : str) (pooled : bool) (n : N) : outc (option gerr) * list happening :=
  let '(r, w) := initialize ops f (close ops f) user password (fresh pooled (n, [])) in (r, minutes w).
Theorem opening_says : forall f user password pooled n, idle (snd (initialize ops f (close ops f) user password (fresh pooled (n, [])))) /\ exists rest,
  snd (opening f user password pooled n) = Shake (snd (snd (n_shake ops0 n))) :: rest /\
  match snd (snd (n_shake ops0 n)) with
  | Some e => Forall shuts rest /\ forall r, fst (opening f user password pooled n) = Ok r -> r = Some e
  | None => exists rest', rest = Say 65535 (init_message client_id user password) (snd (n_send ops0 (fst (n_shake ops0 n)) 65535 (init_message client_id user password))) :: rest' /\ Forall recovers rest'
  end.
Proof.
  intros f user password pooled n. unfold opening. destruct (initialize _ _ _ _ _ _) as [ro wo] eqn:EI. cbn [fst snd].
  unfold initialize, bind at 1, getn at 1 in EI. cbn [n_shake minuted fresh w_net fst snd] in EI.
  destruct (n_shake ops0 n) as [n1 [bad e]] eqn:E. cbn [snd fst app] in *.
  unfold setn at 1, bind at 1 in EI. cbn [w_conn w_stmts w_rows w_txs w_net fresh] in EI.
  set (w0 := Build_world _ [] [] [] (n1, [Shake e])) in EI.
  assert (H0 : exists w1, (if bad then modc c_set_err else ret tt) w0 = (Ok tt, w1) /\ idle w1 /\ w_net w1 = (n1, [Shake e]) /\ c_cs (w_conn w1) = 65535).
  { destruct bad; cbn; eexists; (split; [reflexivity|]); repeat split. }
  destruct H0 as (w1 & E1 & I1 & N1 & C1). unfold bind at 1 in EI. rewrite E1 in EI. destruct e as [e|].
  - pose proof (Adds_shut shuts f (fun _ => I) w1 I1) as (I3 & l & E2 & F2). unfold bind in EI. destruct (close ops f w1) as [[a| |] w2]; cbn [ret snd fst] in *;
      injection EI as <- <-; (split; [exact I3|]); exists l; unfold minutes in *; rewrite N1 in E2; (split; [exact E2|]); (split; [exact F2|]); intros r K; inversion K; reflexivity.
  - unfold bind at 1, encode_msg, bind at 1, getc at 1, bind at 1, getn at 1 in EI. cbn [n_send minuted] in EI. rewrite N1, C1 in EI. cbn [fst snd app] in EI.
    destruct (n_send ops0 n1 65535 (init_message client_id user password)) as [n2 r] eqn:E2. cbn [snd]. set (v := init_message client_id user password) in *.
    enough (G : idle wo /\ exists l, minutes wo = [Shake None; Say 65535 v r] ++ l /\ Forall recovers l) by (destruct G as (GI & l & El & Fl); split; [exact GI|]; eexists; split; [exact El|eauto]).
    change wo with (snd (ro, wo)). rewrite <- EI. clear EI.
    assert (Hc : Adds recovers (close ops f)) by (apply Adds_shut; exact (fun _ => I)).
    match goal with |- _ /\ exists l, minutes (snd (match ?X with _ => _ end)) = _ /\ _ => set (x := X) end.
    assert (HX : exists o w2, x = (Ok o, w2) /\ idle w2 /\ minutes w2 = [Shake None; Say 65535 v r]).
    { unfold x, bind, setn. destruct r; cbn; eexists _, _; (split; [reflexivity|]); (split; [exact I1|]); reflexivity. }
    destruct HX as (o & w2 & -> & I2 & M2).
    match goal with |- _ /\ exists l, minutes (snd (?m w2)) = _ /\ _ => assert (HM : Adds recovers m) end.
    { apply Adds_bind; [destruct o; [adds|apply Adds_consume; exact Hc]|]. intros [u [e'|]]; [repeat adds|]. destruct u as [u|]; [destruct u|]; repeat adds. }
    destruct (HM w2 I2) as (I4 & l & El & Fl). split; [exact I4|]. exists l. rewrite El, M2. auto.
Qed.
End Open.
