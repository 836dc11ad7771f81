(** What the pool machine (Pool.v) takes from its actions is what the session model
    does: how often a call hands the connection back, and with which connErr. *)
From Coq Require Import ZArith List Bool Lia.
From Verif Require Import GoPrims Value Errors Misc Session SessionGen Pool.
Import ListNotations.
Open Scope Z_scope.

(** ** Calls *)
(** [recl c c']: between the two states the connection was handed back once for each of
    [es], with values of connErr between the one before and the one after. *)
Definition recl (c c' : conn) : Prop :=
  (c_err c = true -> c_err c' = true) /\ c_pooled c' = c_pooled c /\
  exists es, c_reclaims c' = c_reclaims c ++ es /\ (c_pooled c = false -> es = []) /\
    forall e, In e es -> (c_err c = true -> e = true) /\ (e = true -> c_err c' = true).
Definition Recl {N} (w w' : world N) : Prop := recl (w_conn w) (w_conn w').
Lemma recl_same : forall c c', (c_err c = true -> c_err c' = true) -> c_pooled c' = c_pooled c -> c_reclaims c' = c_reclaims c -> recl c c'.
Proof. intros c c' H1 H2 H3. split; [exact H1|]. split; [exact H2|]. exists []. rewrite app_nil_r. repeat split; auto; intros e []. Qed.
Lemma Recl_refl : forall N (w : world N), Recl w w. Proof. intros. apply recl_same; auto. Qed.
Lemma Recl_trans : forall N (w1 w2 w3 : world N), Recl w1 w2 -> Recl w2 w3 -> Recl w1 w3.
Proof.
  intros N w1 w2 w3 (A1 & B1 & es1 & C1 & D1 & E1) (A2 & B2 & es2 & C2 & D2 & E2). split; [auto|]. split; [congruence|].
  exists (es1 ++ es2). split; [rewrite C2, C1; now rewrite app_assoc|]. split.
  - intros Hp. rewrite D1, D2 by congruence. reflexivity.
  - intros e He. apply in_app_or in He as [He|He].
    + destruct (E1 e He) as (X & Y). split; auto.
    + destruct (E2 e He) as (X & Y). split; auto.
Qed.

Section Recl.
Context {N : Type} (ops : netops N).
Let Rr := @Recl_refl N.
Let Rt := @Recl_trans N.
Lemma recl_conn : forall (w w' : world N), w_conn w' = w_conn w -> Recl w w'.
Proof. intros w w' E. unfold Recl. rewrite E. apply recl_same; auto. Qed.
Lemma recl_modc : forall f, (forall c, (c_err c = true -> c_err (f c) = true) /\ c_pooled (f c) = c_pooled c /\ c_reclaims (f c) = c_reclaims c) -> Pres Recl (modc (N := N) f).
Proof. intros f H w. cbn. unfold Recl; cbn. destruct (H (w_conn w)) as (A & B & C). apply recl_same; auto. Qed.
Lemma recl_mods : forall i f, Pres Recl (mods (N := N) i f).
Proof. intros i f w. unfold mods, bind, gets, sets. destruct (nth_error _ _); apply recl_conn; reflexivity. Qed.
Lemma recl_modr : forall i f, Pres Recl (modr (N := N) i f).
Proof. intros i f w. unfold modr, bind, getr, setr. destruct (nth_error _ _); apply recl_conn; reflexivity. Qed.
Lemma recl_sett : forall i t, Pres Recl (sett (N := N) i t). Proof. intros i t w. apply recl_conn; reflexivity. Qed.
Lemma recl_newr : forall r, Pres Recl (newr (N := N) r). Proof. intros r w. apply recl_conn; reflexivity. Qed.
Lemma recl_newt : forall r, Pres Recl (newt (N := N) r). Proof. intros r w. apply recl_conn; reflexivity. Qed.
Lemma recl_news : forall r, Pres Recl (news (N := N) r). Proof. intros r w. apply recl_conn; reflexivity. Qed.
Lemma recl_setn : forall r, Pres Recl (setn (N := N) r). Proof. intros r w. apply recl_conn; reflexivity. Qed.
Local Hint Resolve recl_mods recl_modr recl_sett recl_newr recl_newt recl_news recl_setn : core.
Ltac cm := apply recl_modc; intros; cbn; intuition auto.
Lemma recl_enc : forall v, Pres Recl (encode_msg ops v).
Proof. intros. unfold encode_msg. pres; auto; cm. Qed.
Lemma recl_dec : Pres Recl (decode_msg ops).
Proof. intros. unfold decode_msg. pres; auto; cm. Qed.
(** the call of reclaim is only made by pooled connections *)
Lemma recl_close_end : Pres Recl (c <- getc ;; if c_pooled c then modc (N := N) c_reclaimed ;; ret None else net_close ops).
Proof.
  intros w. unfold bind at 1, getc. cbv beta iota. destruct (c_pooled (w_conn w)) eqn:Hp.
  - cbn. split; [auto|]. split; [reflexivity|]. exists [c_err (w_conn w)]. split; [reflexivity|]. split; [intros; congruence|]. intros e [<-|[]]. auto.
  - unfold net_close. revert w Hp. assert (Hq : Pres Recl (n <- getn ;; let '(n', failed) := n_close ops n in setn n' ;; modc c_set_closed ;; (if failed then modc c_set_err ;; ret (Some EBadConn) else ret None))).
    { pres; auto; cm. } intros w _. apply Hq.
Qed.
Lemma recl_stmt_close : forall lf cls i, Pres Recl cls -> Pres Recl (stmt_close ops lf cls i).
Proof.
  intros. apply Pres_stmt_close; auto using recl_enc, recl_dec; intros; try cm.
  unfold stmt_drop. pres; auto; try cm.
Qed.
Lemma recl_rollback : forall lf cls i, Pres Recl cls -> Pres Recl (rollback ops lf cls i).
Proof.
  intros. apply Pres_rollback; auto using recl_enc, recl_dec; intros; try cm.
  unfold stmt_drop. pres; auto; try cm.
Qed.
Lemma recl_close_body : forall lf cls, Pres Recl cls -> Pres Recl (close_body ops lf cls).
Proof.
  intros. pose proof (fun i => recl_stmt_close lf cls i H). pose proof (fun i => recl_rollback lf cls i H). pose proof recl_close_end as Hend. unfold net_close in Hend.
  unfold close_body. apply Pres_bind; [exact Rt|pres|]. intros c. destruct (c_closed c); [pres|].
  apply Pres_bind; [exact Rt|pres|]. intros e. destruct e; [pres|]. apply Pres_bind; [exact Rt|pres|]. intros c'.
  apply Pres_bind; [exact Rt|pres|]. intros e. destruct e; [pres|]. exact Hend.
Qed.
Lemma recl_close : forall f, Pres Recl (close ops f).
Proof. intros f. apply Pres_close; auto using recl_close_body. Qed.
Lemma recl_consume_single : forall lf cls q ps, Pres Recl cls -> Pres Recl (send_run_pull_all_consume_single ops lf cls q ps).
Proof. intros. apply Pres_consume_single; auto using recl_enc, recl_dec; intros; try cm. Qed.
Lemma recl_stmt_exec : forall lf cls i ps, Pres Recl cls -> Pres Recl (stmt_exec ops lf cls i ps).
Proof. intros. apply Pres_stmt_exec; auto using recl_enc, recl_dec; intros; try cm. Qed.
Lemma recl_stmt_exec_pipeline : forall lf cls i ps, Pres Recl cls -> Pres Recl (stmt_exec_pipeline ops lf cls i ps).
Proof. intros. apply Pres_stmt_exec_pipeline; auto using recl_enc, recl_dec; intros; try cm. Qed.
Lemma recl_step : forall mk f o, Pres Recl (step ops mk f o).
Proof.
  intros. pose proof (recl_close f) as Hc.
  apply Pres_step_body; auto using recl_enc, recl_dec; intros; try cm.
  - unfold stmt_drop. pres; auto; try cm.
  - unfold guard_open. pres; auto; try cm.
  - unfold exec_neo, guard_open. pres; auto using recl_stmt_close, recl_stmt_exec.
  - unfold exec_pipeline, guard_open. pres; auto using recl_stmt_close, recl_stmt_exec_pipeline.
  - unfold exec_sql, guard_open, stmt_exec_sql, with_args. pres; auto using recl_stmt_close, recl_stmt_exec.
Qed.
End Recl.

(** What one call does to the pool is an [ACall] of the pool machine: connErr set by the
    call is [MErr], and the values of connErr at the calls of reclaim fit. *)
Definition met_of (before after : bool) : met := if after && negb before then MErr else MNothing.
Theorem call_matches : forall N (ops : netops N) mk f o w r w', step ops mk f o w = (r, w') ->
  exists es, c_reclaims (w_conn w') = c_reclaims (w_conn w) ++ es /\ (c_pooled (w_conn w) = false -> es = []) /\
    errs_ok (c_err (w_conn w)) (met_of (c_err (w_conn w)) (c_err (w_conn w'))) es = true /\
    c_err (w_conn w') = match met_of (c_err (w_conn w)) (c_err (w_conn w')) with MErr => true | _ => c_err (w_conn w) end.
Proof.
  intros N ops mk f o w r w' E. pose proof (recl_step ops mk f o w) as H. rewrite E in H. destruct H as (A & B & es & C & D & F). cbn [snd] in *.
  exists es. split; [exact C|]. split; [exact D|]. unfold met_of. destruct (c_err (w_conn w)) eqn:E1, (c_err (w_conn w')) eqn:E2; cbn.
  - split; [|reflexivity]. apply forallb_forall. intros e He. destruct (F e He) as (X & _). rewrite X by reflexivity. reflexivity.
  - discriminate A. reflexivity.
  - split; [|reflexivity]. apply forallb_forall. reflexivity.
  - split; [|reflexivity]. apply forallb_forall. intros e He. destruct (F e He) as (_ & Y). destruct e; [|reflexivity]. specialize (Y eq_refl). discriminate.
Qed.

(** ** initialize *)
(** A pooled connection with nothing on it. *)
Definition bare (c : conn) : Prop := c_closed c = false /\ c_stmt c = None /\ c_tx c = None /\ c_pooled c = true.
(** [Puts Q m]: on a bare pooled connection, [m] leaves a bare one, handed back [k] times
    where the result and [k] satisfy [Q]. *)
Definition Puts {N A} (Q : A -> list bool -> Prop) (m : M (N := N) A) : Prop := forall w a w', bare (w_conn w) -> m w = (Ok a, w') ->
  bare (w_conn w') /\ (c_err (w_conn w) = true -> c_err (w_conn w') = true) /\ exists es, c_reclaims (w_conn w') = c_reclaims (w_conn w) ++ es /\ Q a es.
Section Init.
Context {N : Type} (ops : netops N).
Lemma Puts_ret : forall A (a : A) (Q : A -> list bool -> Prop), Q a [] -> Puts (N := N) Q (ret a).
Proof. intros A a Q H w b w' Hb E. injection E as <- <-. split; [exact Hb|]. split; [auto|]. exists []. now rewrite app_nil_r. Qed.
Lemma Puts_bind : forall A B (m : M (N := N) A) (k : A -> M B) (Q : A -> list bool -> Prop) (Q' : B -> list bool -> Prop),
  Puts Q m -> (forall a, Puts (fun b es => forall es0, Q a es0 -> Q' b (es0 ++ es)) (k a)) -> Puts Q' (bind m k).
Proof.
  intros A B m k Q Q' Hm Hk w b w' Hb E. unfold bind in E. destruct (m w) as [[a| |] w1] eqn:E1; try discriminate.
  destruct (Hm _ _ _ Hb E1) as (Hb1 & He1 & es1 & C1 & D1). destruct (Hk a _ _ _ Hb1 E) as (Hb2 & He2 & es2 & C2 & D2).
  split; [exact Hb2|]. split; [auto|]. exists (es1 ++ es2). split; [|apply D2; exact D1]. rewrite C2, C1. now rewrite app_assoc.
Qed.
Lemma Puts_weaken : forall A (m : M (N := N) A) (Q Q' : A -> list bool -> Prop), (forall a es, Q a es -> Q' a es) -> Puts Q m -> Puts Q' m.
Proof. intros A m Q Q' H Hm w a w' Hb E. destruct (Hm _ _ _ Hb E) as (X & Y & es & C & D). split; [exact X|]. split; [exact Y|]. exists es. auto. Qed.
Definition nothing {A} (_ : A) (es : list bool) : Prop := es = [].
Lemma Puts_bind0 : forall A B (m : M (N := N) A) (k : A -> M B) (Q' : B -> list bool -> Prop), Puts nothing m -> (forall a, Puts Q' (k a)) -> Puts Q' (bind m k).
Proof. intros A B m k Q' Hm Hk. eapply Puts_bind; [exact Hm|]. intros a. eapply Puts_weaken; [|apply Hk]. intros b es H es0 ->. exact H. Qed.
Lemma Puts_getc : Puts (N := N) nothing getc.
Proof. intros w a w' Hb E. injection E as <- <-. split; [exact Hb|]. split; [auto|]. exists []. now rewrite app_nil_r. Qed.
Lemma Puts_getn : Puts (N := N) nothing getn.
Proof. intros w a w' Hb E. injection E as <- <-. split; [exact Hb|]. split; [auto|]. exists []. now rewrite app_nil_r. Qed.
Lemma Puts_setn : forall n, Puts (N := N) nothing (setn n).
Proof. intros n w a w' Hb E. injection E as <- <-. split; [exact Hb|]. split; [auto|]. exists []. now rewrite app_nil_r. Qed.
Lemma Puts_err : Puts (N := N) nothing (modc c_set_err).
Proof. intros w a w' Hb E. cbn in E. injection E as <- <-. split; [exact Hb|]. split; [auto|]. exists []. now rewrite app_nil_r. Qed.
Lemma Puts_panic : forall A (Q : A -> list bool -> Prop), Puts (N := N) Q panic. Proof. intros A Q w a w' Hb E. discriminate. Qed.
Lemma Puts_nofuel : forall A (Q : A -> list bool -> Prop), Puts (N := N) Q nofuel. Proof. intros A Q w a w' Hb E. discriminate. Qed.
(** Close puts the connection back once. *)
Lemma Puts_close : forall f, Puts (fun e es => e = None /\ length es = 1%nat) (close ops f).
Proof.
  intros [|f] w a w' Hb E; [discriminate|]. destruct Hb as (H1 & H2 & H3 & H4). cbn [close] in E. unfold close_body, bind, getc, ret in E.
  rewrite H1, H2, H3, H4 in E. cbn in E. injection E as <- <-. split; [repeat split; auto|]. split; [auto|]. exists [c_err (w_conn w)]. auto.
Qed.
Lemma Puts_enc : forall v, Puts nothing (encode_msg ops v).
Proof.
  intros v. unfold encode_msg. apply Puts_bind0; [apply Puts_getc|]. intros c. apply Puts_bind0; [apply Puts_getn|]. intros n.
  destruct (n_send ops n (c_cs c) v) as [n' r]. apply Puts_bind0; [apply Puts_setn|]. intros _. destruct r; try (apply Puts_ret; reflexivity).
  apply Puts_bind0; [apply Puts_err|]. intros _. apply Puts_ret; reflexivity.
Qed.
Lemma Puts_dec : Puts nothing (decode_msg ops).
Proof.
  unfold decode_msg. apply Puts_bind0; [apply Puts_getn|]. intros n. destruct (n_recv ops n) as [n' r]. apply Puts_bind0; [apply Puts_setn|]. intros _.
  destruct r; try (apply Puts_ret; reflexivity); [|apply Puts_panic]. apply Puts_bind0; [apply Puts_err|]. intros _. apply Puts_ret; reflexivity.
Qed.
(** at most once, and then with an error *)
Definition once (e : option gerr) (es : list bool) : Prop := es = [] \/ length es = 1%nat /\ e <> None.
Lemma Puts_then_err : forall f e, Puts once (close ops f ;; ret (Some e)).
Proof.
  intros f e. eapply Puts_bind; [apply Puts_close|]. intros a. apply Puts_ret. intros es0 (_ & H). right. rewrite app_nil_r. split; [exact H|discriminate].
Qed.
Lemma Puts_reset_loop : forall f g, Puts once (reset_loop ops (close ops g) f).
Proof.
  induction f as [|f IH]; intros g; cbn [reset_loop]; [apply Puts_nofuel|]. apply Puts_bind0; [apply Puts_dec|]. intros [v [e|]]; [apply Puts_ret; left; reflexivity|].
  destruct v as [[]|]; try apply IH; try apply Puts_then_err; try (apply Puts_ret; left; reflexivity); (apply Puts_bind0; [apply Puts_err|]; intros _; apply Puts_then_err).
Qed.
Lemma Puts_reset : forall lf g, Puts once (reset ops lf (close ops g)).
Proof. intros. unfold reset. apply Puts_bind0; [apply Puts_enc|]. intros [e|]; [apply Puts_ret; left; reflexivity|apply Puts_reset_loop]. Qed.
Lemma Puts_ack_loop : forall lf f g, Puts once (ack_loop ops lf (close ops g) f).
Proof.
  intros lf. induction f as [|f IH]; intros g; cbn [ack_loop]; [apply Puts_nofuel|]. apply Puts_bind0; [apply Puts_dec|]. intros [v [e|]]; [apply Puts_ret; left; reflexivity|].
  destruct v as [[]|]; try apply IH; try apply Puts_reset; try (apply Puts_ret; left; reflexivity); (apply Puts_bind0; [apply Puts_err|]; intros _; apply Puts_then_err).
Qed.
Lemma Puts_ack : forall lf g, Puts once (ack_failure ops lf (close ops g)).
Proof. intros. unfold ack_failure. apply Puts_bind0; [apply Puts_enc|]. intros [e|]; [apply Puts_ret; left; reflexivity|apply Puts_ack_loop]. Qed.
Definition once2 (r : option goval * option gerr) (es : list bool) : Prop := once (snd r) es.
Lemma Puts_consume : forall lf g, Puts once2 (consume ops lf (close ops g)).
Proof.
  intros. unfold consume. apply Puts_bind0; [apply Puts_dec|]. intros [v [e|]]; [apply Puts_ret; left; reflexivity|].
  destruct v as [[]|]; try (apply Puts_ret; left; reflexivity). eapply Puts_bind; [apply Puts_ack|].
  intros [e|]; apply Puts_ret; intros es0 H; rewrite app_nil_r; unfold once2, once in *; cbn; destruct H as [->|(H & He)]; auto; right; split; auto; discriminate.
Qed.
Definition init_puts (e : option gerr) (es : list bool) : Prop :=
  match e with None => es = [] | Some _ => length es = 1%nat \/ length es = 2%nat end.
Lemma Puts_close_err : forall f e es0, length es0 = 0%nat \/ length es0 = 1%nat -> Puts (fun b es => init_puts b (es0 ++ es)) (close ops f ;; ret (Some e)).
Proof.
  intros f e es0 H0. eapply Puts_bind; [apply Puts_close|]. intros a. apply Puts_ret. intros es (_ & H). rewrite app_nil_r. unfold init_puts. rewrite app_length. lia.
Qed.
Lemma Puts_initialize : forall lf g user pw, Puts init_puts (initialize ops lf (close ops g) user pw).
Proof.
  intros. unfold initialize. apply Puts_bind0; [apply Puts_getn|]. intros n. destruct (n_shake ops n) as [n' [bad e]].
  apply Puts_bind0; [apply Puts_setn|]. intros _. apply Puts_bind0; [destruct bad; [apply Puts_err|apply Puts_ret; reflexivity]|]. intros _.
  destruct e as [e|]; [apply (Puts_close_err g e []); cbn; auto|].
  apply Puts_bind0; [apply Puts_enc|]. intros e.
  eapply (Puts_bind _ _ _ _ once2). { destruct e; [apply Puts_ret; left; reflexivity|apply Puts_consume]. }
  intros [v [e'|]].
  - eapply Puts_bind; [apply Puts_close|]. intros a. apply Puts_ret. intros es1 (_ & H1) es0 H0. rewrite app_nil_r. unfold init_puts. rewrite app_length.
    destruct H0 as [->|(H0 & _)]; cbn; lia.
  - assert (Hbad : Puts (fun b es => forall es0, once2 (v, None) es0 -> init_puts b (es0 ++ es)) (modc (N := N) c_set_err ;; close ops g ;; ret (Some EBadConn))).
    { apply Puts_bind0; [apply Puts_err|]. intros _. eapply Puts_bind; [apply Puts_close|]. intros a. apply Puts_ret. intros es1 (_ & H1) es0 H0. rewrite app_nil_r. unfold init_puts. rewrite app_length.
      destruct H0 as [->|(H0 & X)]; cbn; [lia|]. now contradiction X. }
    destruct v as [[]|]; try exact Hbad. apply Puts_ret. intros es0 [->|(_ & X)]; [reflexivity|]. now contradiction X.
Qed.
(** What initialize does to the pool is one of the outcomes [IReady] (nothing put back) and
    [IHalf es] (put back once or twice) of the pool machine. *)
Theorem initialize_matches : forall f user pw n e w', initialize ops f (close ops f) user pw (fresh true n) = (Ok e, w') ->
  match e with
  | None => c_reclaims (w_conn w') = []
  | Some _ => length (c_reclaims (w_conn w')) = 1%nat \/ length (c_reclaims (w_conn w')) = 2%nat
  end.
Proof.
  intros f user pw n e w' E. assert (Hb : bare (w_conn (fresh (N := N) true n))) by (repeat split).
  destruct (Puts_initialize f f user pw _ _ _ Hb E) as (_ & _ & es & C & D). cbn in C. rewrite C. destruct e; exact D.
Qed.
End Init.
