(** How often a connection without a pool closes its socket, whatever the server does.
    Conn.Close is also called from inside the handling of failures (conn.go:428, 462, 468), even
    while another Close is under way; what stops a second closing is that whoever closed returns
    an error. *)
From Coq Require Import ZArith List Bool Lia.
From Verif Require Import GoPrims Value Errors Misc Session SessionGen.
Import ListNotations.
Open Scope Z_scope.

(** The network with a count of the closings of the socket. *)
Definition counted {N} (ops : netops N) : netops (N * nat) :=
  {| n_send := fun n cs v => let '(n', r) := n_send ops (fst n) cs v in ((n', snd n), r);
     n_recv := fun n => let '(n', r) := n_recv ops (fst n) in ((n', snd n), r);
     n_close := fun n => let '(n', r) := n_close ops (fst n) in ((n', S (snd n)), r);
     n_shake := fun n => let '(n', r) := n_shake ops (fst n) in ((n', snd n), r) |}.

Section Shut.
Context {N : Type} (ops0 : netops N).
Let ops := counted ops0.
Notation W := (world (N * nat)).
Notation M := (M (N := N * nat)).

(** ** Whoever closes returns an error *)
Definition okc {A} (m : M A) (P : A -> Prop) : Prop := forall w,
  match m w with (Ok a, w') => P a -> c_closed (w_conn w') = c_closed (w_conn w) | _ => True end.
Definition never {A} (m : M A) (P : A -> Prop) : Prop := forall w, match m w with (Ok a, _) => ~ P a | _ => True end.
Lemma never_okc : forall A (m : M A) P, never m P -> okc m P.
Proof. intros A m P H w. specialize (H w). destruct (m w) as [[a| |] w']; auto. intros Pa. now apply H in Pa. Qed.
Lemma okc_bind : forall A B (m : M A) (k : A -> M B) P Q, okc m P ->
  (forall a, (P a /\ okc (k a) Q) \/ never (k a) Q) -> okc (bind m k) Q.
Proof.
  intros A B m k P Q Hm Hk w. unfold bind. specialize (Hm w). destruct (m w) as [[a| |] w']; auto.
  destruct (Hk a) as [(Pa & Ha)|Ha]; specialize (Ha w'); destruct (k a w') as [[b| |] w'']; auto.
  - intros Qb. cbn in Ha, Hm. rewrite (Ha Qb). auto.
  - intros Qb. now apply Ha in Qb.
Qed.
Lemma never_bind : forall A B (m : M A) (k : A -> M B) Q, (forall a, never (k a) Q) -> never (bind m k) Q.
Proof.
  intros A B m k Q H w. unfold bind. destruct (m w) as [[a| |] w']; auto. exact (H a w').
Qed.
Lemma never_ret : forall A (a : A) P, ~ P a -> never (ret a) P. Proof. intros A a P H w. exact H. Qed.
Lemma okc_ret : forall A (a : A) P, okc (ret a) P. Proof. intros A a P w _. reflexivity. Qed.
Lemma okc_weaken : forall A (m : M A) (P Q : A -> Prop), okc m P -> (forall a, Q a -> P a) -> okc m Q.
Proof. intros A m P Q H HQ w. specialize (H w). destruct (m w) as [[a| |] w']; auto. Qed.
Definition T {A} : A -> Prop := fun _ => True.
Lemma okc_getc : okc getc T. Proof. intros w _. reflexivity. Qed.
Lemma okc_getn : okc getn T. Proof. intros w _. reflexivity. Qed.
Lemma okc_setn : forall n, okc (setn n) T. Proof. intros n w _. reflexivity. Qed.
Lemma okc_gets : forall i, okc (gets i) T. Proof. intros i w. unfold gets. destruct (nth_error _ _); cbn; auto. Qed.
Lemma okc_getr : forall i, okc (getr i) T. Proof. intros i w. unfold getr. destruct (nth_error _ _); cbn; auto. Qed.
Lemma okc_gett : forall i, okc (gett i) T. Proof. intros i w. unfold gett. destruct (nth_error _ _); cbn; auto. Qed.
Lemma okc_sets : forall i x, okc (sets i x) T. Proof. intros i x w _. reflexivity. Qed.
Lemma okc_setr : forall i x, okc (setr i x) T. Proof. intros i x w _. reflexivity. Qed.
Lemma okc_sett : forall i x, okc (sett i x) T. Proof. intros i x w _. reflexivity. Qed.
Lemma okc_panic : forall A P, okc (A := A) panic P. Proof. intros A P w. exact I. Qed.
Lemma okc_nofuel : forall A P, okc (A := A) nofuel P. Proof. intros A P w. exact I. Qed.
Lemma okc_T : forall A (m : M A) P, okc m T -> okc m P. Proof. intros. eapply okc_weaken; eauto. now unfold T. Qed.
Lemma okc_modc : forall f, (forall c, c_closed (f c) = c_closed c) -> okc (modc f) T.
Proof. intros f H w _. cbn. apply H. Qed.
Ltac ok1 := first [apply okc_ret | apply okc_panic | apply okc_nofuel | apply okc_T, okc_getc | apply okc_T, okc_getn | apply okc_T, okc_setn
  | apply okc_T, okc_gets | apply okc_T, okc_getr | apply okc_T, okc_gett | apply okc_T, okc_sets | apply okc_T, okc_setr | apply okc_T, okc_sett
  | apply okc_T, okc_modc; reflexivity].
(** bind where the first part never matters *)
Lemma okc_seq : forall A B (m : M A) (k : A -> M B) Q, okc m T -> (forall a, okc (k a) Q) -> okc (bind m k) Q.
Proof. intros. eapply okc_bind; eauto. intros a. left. split; [exact I|auto]. Qed.
Ltac ok := repeat first [assumption | ok1 | apply okc_seq; [|intro] | match goal with |- okc (match ?x with _ => _ end) _ => destruct x end].
Lemma okc_need : forall i, okc (need_conn i) T. Proof. intros. unfold need_conn. ok. Qed.
Lemma okc_mods : forall i f, okc (mods i f) T. Proof. intros. unfold mods. ok. Qed.
Lemma okc_modr : forall i f, okc (modr i f) T. Proof. intros. unfold modr. ok. Qed.
Lemma okc_enc : forall v, okc (encode_msg ops v) T. Proof. intros. unfold encode_msg. ok. Qed.
Lemma okc_dec : okc (decode_msg ops) T. Proof. unfold decode_msg. ok. Qed.

Section Inner.
Variable lf : nat.
Variable cls : M (option gerr).
Notation none := (fun e : option gerr => e = None).
Notation ok2 := (fun p : option goval * option gerr => snd p = None).
Notation ok3 := (fun p : option goval * option goval * option gerr => snd p = None).
Ltac nv := first [apply never_ret; discriminate | apply never_bind; intro; nv].
Lemma okc_reset_loop : forall f, okc (reset_loop ops cls f) none.
Proof.
  induction f as [|f IH]; cbn [reset_loop]; [ok|]. apply okc_seq; [apply okc_dec|]. intros [v [e|]]; [ok|].
  destruct v as [[]|]; try exact IH; try apply okc_ret; apply never_okc; nv.
Qed.
Lemma okc_reset : okc (reset ops lf cls) none.
Proof. unfold reset. apply okc_seq; [apply okc_enc|]. intros [e|]; [ok|apply okc_reset_loop]. Qed.
Lemma okc_ack_loop : forall f, okc (ack_loop ops lf cls f) none.
Proof.
  induction f as [|f IH]; cbn [ack_loop]; [ok|]. apply okc_seq; [apply okc_dec|]. intros [v [e|]]; [ok|].
  destruct v as [[]|]; try exact IH; try apply okc_ret; try apply okc_reset; apply never_okc; nv.
Qed.
Lemma okc_ack : okc (ack_failure ops lf cls) none.
Proof. unfold ack_failure. apply okc_seq; [apply okc_enc|]. intros [e|]; [ok|apply okc_ack_loop]. Qed.
Lemma okc_consume : okc (consume ops lf cls) ok2.
Proof.
  unfold consume. apply okc_seq; [apply okc_dec|]. intros [v [e|]]; [ok|].
  destruct v as [[]|]; try apply okc_ret. apply never_okc. apply never_bind. intros [e|]; nv.
Qed.
Ltac both H := eapply okc_bind; [apply H|]; intros [? [?|]]; [right; nv|left; split; [reflexivity|]].
Lemma okc_consume_all : okc (consume_all ops lf cls) ok2.
Proof.
  unfold consume_all. generalize lf at 2 as f. induction f as [|f IH]; cbn [consume_all_loop]; [ok|].
  both okc_consume. destruct o as [[]|]; try exact IH. apply okc_ret.
Qed.
Lemma okc_consume_n : forall n, okc (consume_all_n ops lf cls n) none.
Proof. induction n as [|n IH]; cbn [consume_all_n]; [ok|]. both okc_consume_all. exact IH. Qed.
Lemma okc_multiple : forall z, okc (consume_all_multiple ops lf cls z) none.
Proof. intros z. unfold consume_all_multiple. destruct (_ <? _); [ok|apply okc_consume_n]. Qed.
Lemma okc_send_run_pull : forall q ps, okc (send_run_pull_all ops q ps) T.
Proof. intros. unfold send_run_pull_all, send_run, send_pull_all. ok; apply okc_enc. Qed.
Lemma okc_single : forall q ps, okc (send_run_pull_all_consume_single ops lf cls q ps) ok3.
Proof.
  intros. unfold send_run_pull_all_consume_single. apply okc_seq; [apply okc_send_run_pull|]. intros [e|]; [ok|].
  both okc_consume. eapply okc_bind; [apply okc_consume|]. intros [? [?|]]; [right; nv|left; split; [reflexivity|apply okc_ret]].
Qed.
Lemma okc_discard : okc (send_discard_all_consume ops lf cls) ok2.
Proof. unfold send_discard_all_consume. apply okc_seq; [apply okc_enc|]. intros [e|]; [ok|apply okc_consume]. Qed.
Lemma okc_rows_close_body : forall rid, okc (rows_close_body ops lf cls rid) none.
Proof.
  intros. unfold rows_close_body. apply okc_seq; [ok|]. intros r.
  apply (okc_bind _ _ _ _ none).
  - destruct (negb (r_consumed r)); [|destruct (negb (r_finished r))].
    + apply okc_seq; [apply okc_need|]. intros _. both okc_discard. destruct o as [[]|]; apply okc_ret.
    + apply okc_seq; [ok|]. intros s. apply okc_seq; [apply okc_need|]. intros _.
      eapply okc_bind; [apply okc_multiple|]. intros [e|]; [right; nv|left; split; [reflexivity|apply okc_ret]].
    + apply okc_ret.
  - intros [e|]; [right; nv|left; split; [reflexivity|]]. apply okc_seq; [apply okc_modr|]. intros _.
    apply okc_seq; [apply okc_mods|]. intros _. apply okc_ret.
Qed.
Lemma okc_stmt_close : forall sid, okc (stmt_close ops lf cls sid) none.
Proof.
  intros. unfold stmt_close. apply okc_seq; [ok|]. intros s. destruct (s_closed s); [apply okc_ret|].
  apply (okc_bind _ _ _ _ none).
  - destruct (s_rows s) as [rid|]; [|apply okc_ret]. apply okc_seq; [ok|]. intros r.
    destruct (r_closeStmt r); [apply okc_ret|]. destruct (r_closed r); [apply okc_ret|]. apply okc_rows_close_body.
  - intros [e|]; [right; nv|left; split; [reflexivity|]]. apply okc_seq; [apply okc_need|]. intros _.
    apply okc_seq; [ok|]. intros _. apply okc_seq; [apply okc_mods|]. intros _. apply okc_ret.
Qed.
Lemma okc_rollback : forall tid, okc (rollback ops lf cls tid) none.
Proof.
  intros. unfold rollback, tx_finish. apply okc_seq; [ok|]. intros t. destruct (t_closed t); [ok|]. apply okc_seq; [ok|]. intros c.
  apply (okc_bind _ _ _ _ none); [destruct (c_stmt c); [apply okc_stmt_close|apply okc_ret]|].
  intros [e|]; [right; nv|left; split; [reflexivity|]].
  eapply okc_bind; [apply okc_single|]. intros [[run pull] [e|]]; [right; nv|left; split; [reflexivity|]].
  destruct run as [[]|]; try apply okc_ret. destruct pull as [[]|]; try apply okc_ret.
Qed.
End Inner.

(** ** The count *)
Definition shut (w : W) : Prop := snd (w_net w) = (if c_closed (w_conn w) then 1 else 0)%nat.
(** [shut] is kept; nothing reopens; a pooled connection stays one. *)
Definition SH (w w' : W) : Prop := (shut w -> shut w') /\ (c_closed (w_conn w) = true -> c_closed (w_conn w') = true) /\
  c_pooled (w_conn w') = c_pooled (w_conn w) /\ (c_pooled (w_conn w) = true -> c_closed (w_conn w) = false -> c_closed (w_conn w') = false).
Lemma SH_refl : forall w, SH w w. Proof. repeat split; auto. Qed.
Lemma SH_trans : forall a b c, SH a b -> SH b c -> SH a c.
Proof. intros a b c (A1 & A2 & A3 & A4) (B1 & B2 & B3 & B4). repeat split; auto; congruence || (intros; apply B4; [congruence|auto]). Qed.
Lemma SH_same : forall w w', c_closed (w_conn w') = c_closed (w_conn w) -> c_pooled (w_conn w') = c_pooled (w_conn w) ->
  snd (w_net w') = snd (w_net w) -> SH w w'.
Proof. intros w w' E1 E2 E3. unfold SH, shut. rewrite E1, E2, E3. auto. Qed.
Ltac sh := apply SH_same; reflexivity.
Lemma SH_modc : forall f, (forall c, c_closed (f c) = c_closed c /\ c_pooled (f c) = c_pooled c) -> Pres SH (modc f).
Proof. intros f H w. apply SH_same; cbn; try reflexivity; apply H. Qed.
Ltac mc := apply SH_modc; split; reflexivity.
Lemma SH_mods : forall i f, Pres SH (mods i f).
Proof. intros i f w. unfold mods, bind, gets, sets. destruct (nth_error _ _); sh. Qed.
Lemma SH_modr : forall i f, Pres SH (modr i f).
Proof. intros i f w. unfold modr, bind, getr, setr. destruct (nth_error _ _); sh. Qed.
Lemma SH_sett : forall i t, Pres SH (sett i t). Proof. intros i t w. sh. Qed.
Lemma SH_newr : forall r, Pres SH (newr r). Proof. intros r w. sh. Qed.
Lemma SH_newt : forall r, Pres SH (newt r). Proof. intros r w. sh. Qed.
Lemma SH_news : forall r, Pres SH (news r). Proof. intros r w. sh. Qed.
Let Rr := SH_refl.
Let Rt := SH_trans.
Lemma SH_enc : forall v, Pres SH (encode_msg ops v).
Proof.
  intros v w. unfold encode_msg, bind, getc, getn, setn. cbn. destruct (n_send ops0 _ _ _) as [n r]. destruct r; sh.
Qed.
Lemma SH_dec : Pres SH (decode_msg ops).
Proof. intros w. unfold decode_msg, bind, getc, getn, setn. cbn. destruct (n_recv ops0 _) as [n r]. destruct r; sh. Qed.
Hint Resolve SH_refl SH_trans SH_mods SH_modr SH_sett SH_newr SH_newt SH_news SH_enc SH_dec : core.
Lemma SH_drop : forall sid, Pres SH (stmt_drop sid).
Proof. intros. unfold stmt_drop. pres; mc. Qed.
Hint Resolve SH_drop : core.
Lemma SH_stmt_close : forall lf cls sid, Pres SH cls -> Pres SH (stmt_close ops lf cls sid).
Proof. intros. eapply Pres_stmt_close; eauto; intros; try mc. Qed.
Lemma SH_rollback : forall lf cls tid, Pres SH cls -> Pres SH (rollback ops lf cls tid).
Proof. intros. eapply Pres_rollback; eauto; intros; try mc. Qed.
Lemma SH_close_body : forall lf cls, Pres SH cls -> Pres SH (close_body ops lf cls).
Proof.
  intros lf cls Hc w. unfold close_body. unfold bind at 1, getc. destruct (c_closed (w_conn w)) eqn:Ec; [apply SH_refl|].
  unfold bind at 1.
  match goal with |- context [match ?m w with _ => _ end] => remember m as m1 eqn:E1 end.
  assert (P1 : Pres SH m1) by (subst m1; destruct (c_stmt (w_conn w)); [now apply SH_stmt_close|intros x; apply SH_refl]).
  assert (O1 : okc m1 (fun e => e = None)) by (subst m1; destruct (c_stmt (w_conn w)); [apply okc_stmt_close|apply okc_ret]).
  clear E1. specialize (P1 w). specialize (O1 w). destruct (m1 w) as [[[e|]| |] w1]; cbn in P1 |- *; auto.
  specialize (O1 eq_refl). unfold bind at 1, getc.
  match goal with |- context [match ?m w1 with _ => _ end] => remember m as m2 eqn:E2 end.
  assert (P2 : Pres SH m2) by (subst m2; destruct (c_tx (w_conn w1)); [now apply SH_rollback|intros x; apply SH_refl]).
  assert (O2 : okc m2 (fun e => e = None)) by (subst m2; destruct (c_tx (w_conn w1)); [apply okc_rollback|apply okc_ret]).
  clear E2. specialize (P2 w1). specialize (O2 w1). destruct (m2 w1) as [[[e|]| |] w2]; cbn in P2 |- *; try (eapply SH_trans; eassumption).
  specialize (O2 eq_refl). eapply SH_trans; [exact P1|]. eapply SH_trans; [exact P2|].
  assert (E : c_closed (w_conn w2) = false) by congruence.
  unfold bind at 1, getc. destruct (c_pooled (w_conn w2)) eqn:Ep; [sh|].
  unfold bind at 1, getn. cbn. destruct (n_close ops0 (fst (w_net w2))) as [n' b]. cbn.
  assert (G : forall c, c_closed c = true -> c_pooled c = false ->
    SH w2 (Build_world c (w_stmts w2) (w_rows w2) (w_txs w2) (n', S (snd (w_net w2))))).
  { intros c C1 C2. unfold SH, shut. cbn. rewrite C1, C2, E, Ep. split; [intros ->; reflexivity|]. split; [auto|]. split; [auto|discriminate]. }
  destruct b; cbn; apply G; cbn; trivial.
Qed.
Lemma SH_close : forall f, Pres SH (close ops f).
Proof. intros f. apply Pres_close; [apply SH_refl|apply SH_close_body]. Qed.
Lemma SH_step : forall mk f o, Pres SH (step ops mk f o).
Proof.
  intros mk f o. pose proof (SH_close f) as Hc. unfold step.
  apply Pres_step_body; auto; intros; try mc.
  - unfold guard_open. pres; auto; try mc.
  - unfold exec_neo, guard_open. pres; auto; [eapply Pres_stmt_exec; eauto; intros; mc|now apply SH_stmt_close].
  - unfold exec_pipeline, guard_open. pres; auto; [eapply Pres_stmt_exec_pipeline; eauto; intros; mc|now apply SH_stmt_close].
  - unfold exec_sql, guard_open, stmt_exec_sql, with_args. pres; auto; [eapply Pres_stmt_exec; eauto; intros; mc|now apply SH_stmt_close].
Qed.
Lemma SH_run : forall mk f os (w : W), SH w (snd (run ops mk f os w)).
Proof.
  intros mk f os. induction os as [|o os IH]; intros w; cbn [run]; [apply Rr|].
  pose proof (SH_step mk f o w) as H. destruct (step ops mk f o w) as [[a| |] w'] eqn:E; cbn in *; auto.
  specialize (IH w'). destruct (run ops mk f os w') as [[l r] w'']. cbn in *. eapply Rt; eauto.
Qed.
End Shut.

(** ** initialize *)
Section Open.
Context {N : Type} (ops0 : netops N).
Let ops := counted ops0.
Notation W := (world (N * nat)).
(** Closing sets neither the statement nor the transaction of a connection. *)
Definition BR (w w' : W) : Prop := (c_stmt (w_conn w) = None -> c_stmt (w_conn w') = None) /\ (c_tx (w_conn w) = None -> c_tx (w_conn w') = None).
Lemma BR_refl : forall w, BR w w. Proof. split; auto. Qed.
Lemma BR_trans : forall a b c, BR a b -> BR b c -> BR a c. Proof. unfold BR. intros a b c [? ?] [? ?]. auto. Qed.
Lemma BR_same : forall w w', w_conn w' = w_conn w -> BR w w'. Proof. intros w w' E. unfold BR. rewrite E. auto. Qed.
Ltac br := apply BR_same; reflexivity.
Lemma BR_modc : forall f, (forall c, (c_stmt c = None -> c_stmt (f c) = None) /\ (c_tx c = None -> c_tx (f c) = None)) -> Pres BR (modc f).
Proof. intros f H w. split; apply H. Qed.
Ltac bm := apply BR_modc; split; cbn; auto.
Lemma BR_mods : forall i f, Pres BR (mods i f).
Proof. intros i f w. unfold mods, bind, gets, sets. destruct (nth_error _ _); br. Qed.
Lemma BR_modr : forall i f, Pres BR (modr i f).
Proof. intros i f w. unfold modr, bind, getr, setr. destruct (nth_error _ _); br. Qed.
Lemma BR_sett : forall i t, Pres BR (sett i t). Proof. intros i t w. br. Qed.
Lemma BR_enc : forall v, Pres BR (encode_msg ops v).
Proof. intros v w. unfold encode_msg, bind, getc, getn, setn. cbn. destruct (n_send ops0 _ _ _) as [n r]. destruct r; split; cbn; auto. Qed.
Lemma BR_dec : Pres BR (decode_msg ops).
Proof. intros w. unfold decode_msg, bind, getc, getn, setn. cbn. destruct (n_recv ops0 _) as [n r]. destruct r; split; cbn; auto. Qed.
Hint Resolve BR_refl BR_trans BR_mods BR_modr BR_sett BR_enc BR_dec : core.
Let Rr := BR_refl.
Let Rt := BR_trans.
Lemma BR_drop : forall sid, Pres BR (stmt_drop sid).
Proof. intros. unfold stmt_drop. pres; bm. Qed.
Hint Resolve BR_drop : core.
Lemma BR_close : forall f, Pres BR (close ops f).
Proof.
  intros f. apply Pres_close; auto. intros g cls H. apply Pres_close_body; auto; intros; try bm.
  - intros w. cbn. destruct (n_close ops0 _) as [n b]. unfold bind. destruct b; split; cbn; auto.
Qed.
Definition bare (w : W) : Prop := c_stmt (w_conn w) = None /\ c_tx (w_conn w) = None /\ c_pooled (w_conn w) = false.
Lemma bare_keeps : forall w w', SH w w' -> BR w w' -> bare w -> bare w'.
Proof. intros w w' (_ & _ & E & _) [B1 B2] (C1 & C2 & C3). unfold bare. rewrite E. auto. Qed.
(** Closing a connection without statement and transaction closes the socket. *)
Lemma close_bare : forall f w e w', bare w -> close ops f w = (Ok e, w') -> c_closed (w_conn w') = true.
Proof.
  intros [|f] w e w' (B1 & B2 & B3) E; cbn [close] in E; [discriminate|]. unfold close_body, bind, getc in E.
  destruct (c_closed (w_conn w)) eqn:Ec; [cbn in E; injection E as _ <-; exact Ec|]. rewrite B1 in E. cbn in E. rewrite B2 in E. cbn in E. rewrite B3 in E. cbn in E.
  destruct (n_close ops0 _) as [n []]; cbn in E; injection E as <- <-; reflexivity.
Qed.
Lemma SH_consume : forall f cls, Pres SH cls -> Pres SH (consume ops f cls).
Proof. intros. apply Pres_consume; auto; first [apply SH_refl | apply SH_trans | apply SH_enc | apply SH_dec | apply SH_modc; split; reflexivity]. Qed.
Lemma BR_consume : forall f cls, Pres BR cls -> Pres BR (consume ops f cls).
Proof. intros. apply Pres_consume; auto; bm. Qed.
Lemma init_close : forall A f w (a : A) r w', bare w -> shut w -> bind (close ops f) (fun _ => ret a) w = (r, w') ->
  shut w' /\ match r with Ok b => b = a /\ c_closed (w_conn w') = true | _ => True end.
Proof.
  intros A f w a r w' Hb Hs E. unfold bind in E. destruct (SH_close ops0 f w) as (H & _).
  pose proof (close_bare f w) as Hc. fold ops in H. destruct (close ops f w) as [[e| |] w1]; cbn in E, H; injection E as <- <-; split; auto.
  split; [reflexivity|]. eapply Hc; [assumption|reflexivity].
Qed.
Lemma shut_init : forall f g user pw w r w', bare w -> shut w -> c_closed (w_conn w) = false ->
  initialize ops f (close ops g) user pw w = (r, w') ->
  shut w' /\ match r with Ok e => c_closed (w_conn w') = match e with Some _ => true | None => false end | _ => True end.
Proof.
  intros f g user pw w r w' Hb Hs Hc E. unfold initialize in E. unfold bind at 1, getn in E. cbn in E.
  destruct (n_shake ops0 (fst (w_net w))) as [n [bad e]].
  unfold bind at 1, setn in E. cbn in E.
  set (w0 := Build_world (w_conn w) (w_stmts w) (w_rows w) (w_txs w) (n, snd (w_net w))) in E.
  assert (B0 : bare w0 /\ shut w0 /\ c_closed (w_conn w0) = false) by (split; [exact Hb|split; [exact Hs|exact Hc]]).
  clearbody w0. clear Hb Hs Hc w.
  unfold bind at 1 in E.
  assert (B1 : exists w1, (if bad then modc c_set_err else ret tt) w0 = (Ok tt, w1) /\ bare w1 /\ shut w1 /\ c_closed (w_conn w1) = false).
  { destruct bad; eexists; (split; [reflexivity|]); exact B0. }
  destruct B1 as (w1 & E1 & B1 & S1 & C1). rewrite E1 in E. clear B0 E1 w0.
  destruct e as [e|].
  { destruct (init_close _ g w1 (Some e) r w' B1 S1 E) as (Hs & H). split; [exact Hs|]. destruct r as [x| |]; auto. destruct H as (-> & ->). reflexivity. }
  unfold bind at 1 in E.
  match type of E with context [encode_msg ops ?v w1] => pose proof (SH_enc ops0 v w1) as H1; pose proof (BR_enc v w1) as H2; pose proof (okc_enc ops0 v w1) as H3 end.
  fold ops in H1, H3. destruct (encode_msg ops _ w1) as [[e| |] w2]; cbn in H1, H2, H3;
    [|injection E as <- <-; split; [apply H1; assumption|trivial]|injection E as <- <-; split; [apply H1; assumption|trivial]].
  pose proof (bare_keeps _ _ H1 H2 B1) as B2. specialize (H3 I). rewrite C1 in H3. apply H1 in S1. clear H1 H2 B1 C1 w1.
  unfold bind at 1 in E.
  match type of E with context [?m w2] => match m with match _ with _ => _ end => set (m2 := m) in E end end.
  assert (P2 : Pres SH m2) by (subst m2; destruct e; [intros x; apply SH_refl|apply SH_consume, SH_close]).
  assert (P3 : Pres BR m2) by (subst m2; destruct e; [intros x; apply BR_refl|apply BR_consume, BR_close]).
  assert (P4 : okc m2 (fun p => snd p = None)) by (subst m2; destruct e; [apply okc_ret|apply okc_consume]).
  clearbody m2. specialize (P2 w2). specialize (P3 w2). specialize (P4 w2).
  destruct (m2 w2) as [[[v e2]| |] w3]; cbn in P2, P3, P4;
    [|injection E as <- <-; split; [apply P2; assumption|trivial]|injection E as <- <-; split; [apply P2; assumption|trivial]].
  pose proof (bare_keeps _ _ P2 P3 B2) as B3. apply P2 in S1.
  destruct e2 as [e2|].
  { destruct (init_close _ g w3 (Some e2) r w' B3 S1 E) as (Hs & H). split; [exact Hs|]. destruct r as [x| |]; auto. destruct H as (-> & ->). reflexivity. }
  specialize (P4 eq_refl). rewrite H3 in P4.
  assert (Bad : forall r w', (modc c_set_err ;; close ops g ;; ret (Some EBadConn)) w3 = (r, w') -> shut w' /\
    match r with Ok e => c_closed (w_conn w') = match e with Some _ => true | None => false end | _ => True end).
  { clear E r w'. intros r w' E.
    destruct (init_close _ g (snd (modc c_set_err w3)) (Some EBadConn) r w' B3 S1 E) as (Hs & H).
    split; [exact Hs|]. destruct r as [x| |]; auto. destruct H as (-> & ->). reflexivity. }
  destruct v as [[]|]; try (exact (Bad r w' E)). injection E as <- <-. split; assumption.
Qed.
End Open.
