(** The invariant of the system of PoolSystem.v. *)
From Coq Require Import ZArith List Bool Arith Lia.
From Verif Require Import GoPrims Value Errors Misc Session SessionVoc SessionGen SessionFuel SessionSim SessionRaw SessionStay ServerSpec SessionSpec SessionBolt SessionRefine
  Pool PoolInv PoolLink PropsSql PropsSystem PoolSystem.
Import ListNotations.
Open Scope nat_scope.

Section Noisy.
Context {DB : Type}.
Variable exec : DB -> str -> md -> DB * outcome.
Variable sendable : goval -> bool.
Variable mk : bool.
Notation server := (@server DB).
Notation troubled := (@troubled DB).
Notation noisy := (noisy exec sendable).
Notation W := (world troubled).

(** ** Sessions: what a connection does is seen by its own session only *)
Section Sess.
Variable sess : nat -> sstate * list goval.
Variable me : nat.
Definition elsewhere (n : troubled) : Prop := forall j, j <> me -> v_sess (s_srv n) j = sess j.
Definition my_st (n : troubled) : sstate := fst (v_sess (s_srv n) me).
Definition my_q (n : troubled) : list goval := snd (v_sess (s_srv n) me).
Definition q_i (n : troubled) : Prop := inv_q (my_st n) (my_q n) /\ elsewhere n.
Definition q_j (n : troubled) : Prop := after_failure (my_st n) (my_q n) /\ elsewhere n.
Definition q_k (n : troubled) : Prop := (exists q m, my_q n = q ++ [VSuccess m] /\ Forall (fun v => v = VIgnored) q) /\ elsewhere n.
Lemma noisy_send : forall n cs v, request v -> q_i n -> q_i (fst (n_send (noisy me) n cs v)).
Proof.
  intros [[db ss] l h] cs v V (H & E). unfold q_i, my_st, my_q, elsewhere in *. cbn in *. unfold fault_now. cbn.
  destruct (sendable v); [|destruct l as [|[] l]; cbn; auto].
  destruct (serve exec db (fst (ss me)) v) as [[db' st'] rs] eqn:Es. pose proof (serve_inv exec _ _ _ _ _ _ _ V H Es) as G.
  assert (X : inv_q (fst (put ss me (st', snd (ss me) ++ rs) me)) (snd (put ss me (st', snd (ss me) ++ rs) me)) /\
    forall j, j <> me -> put ss me (st', snd (ss me) ++ rs) j = sess j).
  { rewrite put_same. split; [exact G|]. intros j Hj. rewrite put_other by exact Hj. auto. }
  destruct l as [|[] l]; cbn; auto.
Qed.
Lemma noisy_recv : forall n n' r, q_i n -> n_recv (noisy me) n = (n', r) -> match r with RMsg (VFailure _) => q_j n' | _ => q_i n' end.
Proof.
  intros [[db ss] l h] n' r (H & E) X. unfold q_i, q_j, my_st, my_q, elsewhere in *. cbn in *. unfold fault_now in X. cbn in X.
  destruct (ss me) as [st q] eqn:Em. cbn in *.
  assert (A : inv_q (fst (ss me)) (snd (ss me)) /\ forall j, j <> me -> ss j = sess j) by (rewrite Em; auto).
  destruct q as [|v q].
  - destruct l as [|[] l]; injection X as <- <-; cbn; exact A.
  - assert (B : forall j, j <> me -> put ss me (st, q) j = sess j) by (intros j Hj; rewrite put_other by exact Hj; auto).
    pose proof (inv_tail _ _ _ H) as T.
    destruct l as [|[] l]; injection X as <- <-; cbn; try exact A; destruct v; cbn; rewrite put_same; auto.
Qed.
Lemma noisy_ack : forall n cs n' r, q_j n -> n_send (noisy me) n cs VAckFailure = (n', r) -> match r with SOk => q_k n' | _ => q_i n' end.
Proof.
  intros [[db ss] l h] cs n' r ((Hs & Hq) & E) X. unfold q_i, q_k, my_st, my_q, elsewhere in *. cbn in *. unfold fault_now in X. cbn in X.
  assert (A : inv_q (fst (ss me)) (snd (ss me)) /\ forall j, j <> me -> ss j = sess j) by (split; [left; now apply ignored_calm|auto]).
  destruct (ss me) as [st q] eqn:Em. cbn in Hs, Hq, X. subst st. cbn in X.
  assert (B : forall j, j <> me -> put ss me (Ready, q ++ [VSuccess []]) j = sess j) by (intros j Hj; rewrite put_other by exact Hj; auto).
  assert (C : inv_q Ready (q ++ [VSuccess []])) by (left; apply Forall_app; split; [now apply ignored_calm|repeat constructor]).
  destruct (sendable VAckFailure); destruct l as [|[] l]; injection X as <- <-; cbn; rewrite ?put_same, ?Em; cbn; auto.
  - split; [exists q, []; auto|exact B].
  - split; [exists q, []; auto|exact B].
Qed.
Lemma noisy_answer : forall n n' r, q_k n -> n_recv (noisy me) n = (n', r) ->
  match r with RMsg VIgnored => q_k n' | RMsg (VSuccess _) => q_i n' | RMsg _ => False | _ => q_i n' end.
Proof.
  intros [[db ss] l h] n' r ((q0 & m & Hq & Hi) & E) X. unfold q_i, q_k, my_st, my_q, elsewhere in *. cbn in *. unfold fault_now in X. cbn in X.
  assert (A : inv_q (fst (ss me)) (snd (ss me)) /\ forall j, j <> me -> ss j = sess j).
  { split; [left|auto]. rewrite Hq. apply Forall_app; split; [now apply ignored_calm|repeat constructor]. }
  destruct (ss me) as [st q] eqn:Em. cbn in Hq, X. subst q.
  destruct q0 as [|v q0]; cbn in X.
  - assert (B : forall j, j <> me -> put ss me (st, []) j = sess j) by (intros j Hj; rewrite put_other by exact Hj; auto).
    destruct l as [|[] l]; injection X as <- <-; cbn; rewrite ?put_same, ?Em; cbn; auto; (split; [left; constructor|exact B]).
  - inversion Hi as [|? ? Hv Hi']; subst. assert (B : forall j, j <> me -> put ss me (st, q0 ++ [VSuccess m]) j = sess j) by (intros j Hj; rewrite put_other by exact Hj; auto).
    destruct l as [|[] l]; injection X as <- <-; cbn; rewrite ?put_same, ?Em; cbn; auto; (split; [exists q0, m; auto|exact B]).
Qed.
Lemma noisy_ki : forall n, q_k n -> q_i n.
Proof. intros n ((q & m & Hq & Hi) & E). split; [left|exact E]. rewrite Hq. apply Forall_app; split; [now apply ignored_calm|repeat constructor]. Qed.

(** ** When nothing fails, a call is the one of SessionBolt *)
Definition alike (n : troubled) (b : bnet DB) : Prop := same sess me (s_srv n) b.
Lemma sim_noisy : forall f o, Sim alike (fun n => s_hit n = true) (step (noisy me) mk f o) (step (bolt exec sendable) mk f o).
Proof.
  intros f o. apply Sim_step.
  - intros [srv l h] cs v Hh. cbn in *. unfold fault_now. cbn. destruct (sendable v); [destruct (serve _ _ _ _) as [[? ?] ?]|]; destruct l as [|[] l]; cbn; auto.
  - intros [srv l h] Hh. cbn in *. unfold fault_now. cbn. destruct (snd (v_sess srv me)); destruct l as [|[] l]; cbn; auto.
  - intros n Hh. exact Hh.
  - intros [srv l h] b cs v (H1 & H2 & H3). cbn in *. unfold fault_now. cbn. rewrite H2. cbn [fst snd]. rewrite H1.
    destruct (sendable v).
    + destruct (serve exec (b_db b) (b_st b) v) as [[db st] rs]. destruct l as [|[] l]; cbn; auto; right; (split; [reflexivity|]); (split; [reflexivity|]); (split; [apply put_same|]);
        intros j Hj; cbn; rewrite put_other by exact Hj; auto.
    + destruct l as [|[] l]; cbn; auto; right; repeat split; auto.
  - intros [srv l h] b (H1 & H2 & H3). cbn in *. unfold fault_now. cbn. rewrite H2. cbn [fst snd]. destruct (b_q b) as [|v q] eqn:Eq.
    + destruct l as [|[] l]; cbn; auto; right; (split; [reflexivity|]); (split; [exact H1|]); (split; [cbn; congruence|exact H3]).
    + destruct l as [|[] l]; cbn; auto; right; (split; [reflexivity|]); (split; [exact H1|]); (split; [apply put_same|]); intros j Hj; cbn; rewrite put_other by exact Hj; auto.
  - intros n b H. right. split; [reflexivity|exact H].
Qed.
End Sess.

(** ** A failing network sets connErr *)
Definition HE (w w' : W) : Prop := (s_hit (w_net w) = true -> c_err (w_conn w) = true) -> s_hit (w_net w') = true -> c_err (w_conn w') = true.
Section Err.
Variable me : nat.
Notation ops := (noisy me).
Lemma HE_refl : forall w, HE w w. Proof. unfold HE. auto. Qed.
Lemma HE_trans : forall a b c, HE a b -> HE b c -> HE a c. Proof. unfold HE. auto. Qed.
Let Rr := HE_refl.
Let Rt := HE_trans.
Lemma he_conn : forall w w' : W, w_conn w' = w_conn w -> w_net w' = w_net w -> HE w w'.
Proof. intros w w' E1 E2. unfold HE. now rewrite E1, E2. Qed.
Lemma he_modc : forall f, (forall c, c_err c = true -> c_err (f c) = true) -> Pres HE (modc (N := troubled) f).
Proof. intros f H w. unfold HE. cbn. auto. Qed.
Lemma he_mods : forall i f, Pres HE (mods (N := troubled) i f).
Proof. intros i f w. unfold mods, bind, gets, sets. destruct (nth_error _ _); apply he_conn; reflexivity. Qed.
Lemma he_modr : forall i f, Pres HE (modr (N := troubled) i f).
Proof. intros i f w. unfold modr, bind, getr, setr. destruct (nth_error _ _); apply he_conn; reflexivity. Qed.
Lemma he_sett : forall i t, Pres HE (sett (N := troubled) i t). Proof. intros i t w. apply he_conn; reflexivity. Qed.
Lemma he_newr : forall r, Pres HE (newr (N := troubled) r). Proof. intros r w. apply he_conn; reflexivity. Qed.
Lemma he_newt : forall r, Pres HE (newt (N := troubled) r). Proof. intros r w. apply he_conn; reflexivity. Qed.
Lemma he_news : forall r, Pres HE (news (N := troubled) r). Proof. intros r w. apply he_conn; reflexivity. Qed.
Local Hint Resolve he_mods he_modr he_sett he_newr he_newt he_news : core.
Ltac cm := apply he_modc; intros; cbn; auto.
Lemma he_enc : forall v, Pres HE (encode_msg ops v).
Proof.
  intros v [c ss rs ts [srv l h]]. unfold HE, encode_msg, bind, getc, getn, setn, modc, setc. cbn. unfold fault_now. cbn.
  destruct (sendable v); [destruct (serve _ _ _ _) as [[? ?] ?]|]; destruct l as [|[] l]; cbn; auto.
Qed.
Lemma he_dec : Pres HE (decode_msg ops).
Proof.
  intros [c ss rs ts [srv l h]]. unfold HE, decode_msg, bind, getc, getn, setn, modc, setc. cbn. unfold fault_now. cbn.
  destruct (snd (v_sess srv me)); destruct l as [|[] l]; cbn; auto.
Qed.
Lemma he_close_end : Pres HE (c <- getc ;; if c_pooled c then modc (N := troubled) c_reclaimed ;; ret None else net_close ops).
Proof. intros w. unfold HE, net_close, bind, getc, getn, setn, modc, setc, ret. cbn. destruct (c_pooled (w_conn w)); cbn; auto. Qed.
Lemma he_stmt_close : forall lf cls i, Pres HE cls -> Pres HE (stmt_close ops lf cls i).
Proof. intros. apply Pres_stmt_close; auto using he_enc, he_dec; intros; try cm. unfold stmt_drop. pres; auto; try cm. Qed.
Lemma he_rollback : forall lf cls i, Pres HE cls -> Pres HE (rollback ops lf cls i).
Proof. intros. apply Pres_rollback; auto using he_enc, he_dec; intros; try cm. unfold stmt_drop. pres; auto; try cm. Qed.
Lemma he_close_body : forall lf cls, Pres HE cls -> Pres HE (close_body ops lf cls).
Proof.
  intros. pose proof (fun i => he_stmt_close lf cls i H). pose proof (fun i => he_rollback lf cls i H). pose proof he_close_end as Hend. unfold net_close in Hend.
  unfold close_body. apply Pres_bind; [exact Rt|pres|]. intros c. destruct (c_closed c); [pres|].
  apply Pres_bind; [exact Rt|pres|]. intros e. destruct e; [pres|]. apply Pres_bind; [exact Rt|pres|]. intros c'.
  apply Pres_bind; [exact Rt|pres|]. intros e. destruct e; [pres|]. exact Hend.
Qed.
Lemma he_close : forall f, Pres HE (close ops f).
Proof. intros f. apply Pres_close; auto using he_close_body. Qed.
Lemma he_stmt_exec : forall lf cls i ps, Pres HE cls -> Pres HE (stmt_exec ops lf cls i ps).
Proof. intros. apply Pres_stmt_exec; auto using he_enc, he_dec; intros; try cm. Qed.
Lemma he_stmt_exec_pipeline : forall lf cls i ps, Pres HE cls -> Pres HE (stmt_exec_pipeline ops lf cls i ps).
Proof. intros. apply Pres_stmt_exec_pipeline; auto using he_enc, he_dec; intros; try cm. Qed.
Lemma he_step : forall f o, Pres HE (step ops mk f o).
Proof.
  intros. pose proof (he_close f) as Hc.
  apply Pres_step_body; auto using he_enc, he_dec; intros; try cm.
  - unfold stmt_drop. pres; auto; try cm.
  - unfold guard_open. pres; auto; try cm.
  - unfold exec_neo, guard_open. pres; auto using he_stmt_close, he_stmt_exec.
  - unfold exec_pipeline, guard_open. pres; auto using he_stmt_close, he_stmt_exec_pipeline.
  - unfold exec_sql, guard_open, stmt_exec_sql, with_args. pres; auto using he_stmt_close, he_stmt_exec.
Qed.
End Err.

(** ** One call *)
Definition outcome_of (c : op) (x : outc out) (e' : bool) (es : list bool) : Prop :=
  es = [] /\ ended c x = false \/ es = [e'] /\ c = CClose /\ ended c x = true.
Lemma call_facts : forall sess me f c (w : W) x w', q_i sess me (w_net w) -> s_hit (w_net w) = false -> c_closed (w_conn w) = false -> c_pooled (w_conn w) = true ->
  step (noisy me) mk f c w = (x, w') ->
  q_i sess me (w_net w') /\ c_closed (w_conn w') = false /\ c_pooled (w_conn w') = true /\ (c_err (w_conn w) = true -> c_err (w_conn w') = true) /\
  (s_hit (w_net w') = true -> c_err (w_conn w') = true) /\
  exists es, c_reclaims (w_conn w') = c_reclaims (w_conn w) ++ es /\ outcome_of c x (c_err (w_conn w')) es.
Proof.
  intros sess me f c w x w' Hq Hh Hc Hp E.
  assert (He : s_hit (w_net w') = true -> c_err (w_conn w') = true).
  { pose proof (he_step me f c w) as H. rewrite E in H. apply H. congruence. }
  assert (Hm : c_err (w_conn w) = true -> c_err (w_conn w') = true).
  { pose proof (recl_step (noisy me) mk f c w) as H. rewrite E in H. apply H. }
  assert (D : c = CClose \/ c <> CClose) by (destruct c; (left; reflexivity) || (right; discriminate)). destruct D as [->|D].
  - unfold step, step_body in E. unfold bind at 1 in E. destruct (close (noisy me) f w) as [r wc] eqn:Ec.
    destruct (close_shape (noisy me) (q_i sess me) (q_j sess me) (q_k sess me) (noisy_send sess me) (noisy_recv sess me) (noisy_ack sess me) (noisy_answer sess me) (noisy_ki sess me) f w r wc Hq Ec)
      as (w1 & Hq1 & (S1 & S2 & S3) & [(-> & Hg)|[(_ & _ & -> & En & Ecn)|(_ & X & _)]]); [| |congruence].
    + assert (Ew : w' = w1 /\ ended CClose x = false).
      { destruct r as [[e|]| |]; cbn in E; injection E as <- <-; auto. rewrite Hg in Hc by reflexivity. discriminate. }
      destruct Ew as (-> & Ex). rewrite S1, S2, S3. repeat (split; [assumption|]). exists []. rewrite app_nil_r. split; [reflexivity|left; auto].
    + cbn in E. injection E as <- <-. rewrite En in *. rewrite Ecn in *. cbn [c_reclaimed c_closed c_pooled c_reclaims c_err] in *. rewrite S1, S2, S3. rewrite <- S1 in Hc.
      split; [exact Hq1|]. split; [congruence|]. split; [assumption|]. split; [exact Hm|]. split; [exact He|].
      eexists. split; [reflexivity|]. right. auto.
  - pose proof (st_step (noisy me) (q_i sess me) (q_j sess me) (q_k sess me) (noisy_send sess me) (noisy_recv sess me) (noisy_ack sess me) (noisy_answer sess me) (noisy_ki sess me) mk f c D w Hq) as H.
    rewrite E in H. cbn [snd] in H. destruct H as (H1 & S1 & S2 & S3).
    split; [exact H1|]. rewrite S1, S2, S3. repeat (split; [assumption|]). exists []. rewrite app_nil_r. split; [reflexivity|left]. split; [reflexivity|]. destruct c; try reflexivity; contradiction.
Qed.

(** ** The invariant *)
Hypothesis Hctl : controls sendable.
Notation B := Build_bnet.
Definition own_at (d : side) (srv : server) (k : nat) : world (bnet DB) :=
  Build_world (d_conn d) (d_stmts d) (d_rows d) (d_txs d) (B (v_db srv) (fst (v_sess srv k)) (snd (v_sess srv k))).
Definition usable (d : side) (srv : server) (n : nat) (db : DB) (u : use) : Prop :=
  match u with
  | Away => False
  | Wild => True
  | Broken => c_err (d_conn d) = true
  | Run s => Rel true (own_at d srv n) (with_db db s)
  end.
Definition link (ob : obj) (d : side) : Prop :=
  o_err ob = c_err (d_conn d) /\ o_closed ob = false /\ o_pool ob = true /\ c_closed (d_conn d) = false /\ c_pooled (d_conn d) = true.
Definition resting (srv : server) (ob : obj) (d : side) : Prop :=
  c_stmt (d_conn d) = None /\ c_tx (d_conn d) = None /\ forall n, o_net ob = Some n -> v_sess srv n = (Ready, []).
Definition working (srv : server) (db : DB) (ob : obj) (d : side) (u : use) : Prop :=
  exists n, o_net ob = Some n /\ inv_q (fst (v_sess srv n)) (snd (v_sess srv n)) /\ usable d srv n db u.
Definition good (p : pool) (sides : nat -> side) (srv : server) (db : DB) (x : nat) (ob : obj) (u : use) : Prop :=
  link ob (sides x) /\ (K p x + G p x > 0 -> resting srv ob (sides x)) /\ (O p x > 0 -> working srv db ob (sides x) u).
Record ZI (p : pool) (sides : nat -> side) (srv : server) (db : DB) (us : nat -> use) : Prop := {
  z_inv : Inv p;
  z_db : v_db srv = db;
  z_good : forall x ob, sum p x > 0 -> nth_error (p_heap p) x = Some ob -> good p sides srv db x ob (us x);
  z_give : forall x ob, G p x > 0 -> nth_error (p_heap p) x = Some ob -> o_net ob <> None;
  z_away : forall x, O p x = 0 -> us x = Away }.

Lemma usable_db : forall d srv srv' n db db' u, usable d srv n db u -> v_sess srv' n = v_sess srv n -> v_db srv' = db' -> usable d srv' n db' u.
Proof.
  intros d srv srv' n db db' [|s| |] H E <-; cbn in *; auto. apply (Rel_db _ _ _ (v_db srv')) in H. unfold own_at. rewrite E. exact H.
Qed.
Lemma ZI_next : forall p sides srv db us p' sides' srv' db' us', ZI p sides srv db us -> Inv p' -> v_db srv' = db' ->
  (forall x ob, sum p' x > 0 -> nth_error (p_heap p') x = Some ob ->
     (nth_error (p_heap p) x = Some ob /\ us' x = us x /\ sides' x = sides x /\ K p' x + G p' x <= K p x + G p x /\ O p' x <= O p x /\
       (sum p x > 0 -> forall n, o_net ob = Some n -> v_sess srv' n = v_sess srv n)) \/
     good p' sides' srv' db' x ob (us' x)) ->
  (forall x ob, G p' x > 0 -> nth_error (p_heap p') x = Some ob -> o_net ob <> None) ->
  (forall x, O p' x = 0 -> us' x = Away) -> ZI p' sides' srv' db' us'.
Proof.
  intros p sides srv db us p' sides' srv' db' us' [I1 I2 I3 I4 I5] HI Hdb Hg Hv Ha. split; auto.
  intros x ob Hx Ho. destruct (Hg x ob Hx Ho) as [(E1 & E2 & E3 & E4 & E5 & E6)|H]; [|exact H].
  assert (Hs : sum p x > 0) by (unfold sum in *; lia). destruct (I3 x ob Hs E1) as (L & R & Wk). specialize (E6 Hs). unfold good. rewrite E2, E3. split; [exact L|]. split.
  - intros Hk. destruct (R ltac:(lia)) as (R1 & R2 & R3). split; [exact R1|]. split; [exact R2|]. intros n Hn. rewrite E6 by exact Hn. auto.
  - intros Hk. destruct (Wk ltac:(lia)) as (n & W1 & W2 & W3). exists n. split; [exact W1|]. specialize (E6 n W1). rewrite E6. split; [exact W2|]. eapply usable_db; eauto.
Qed.
(** connections only move *)
Lemma ZI_move : forall p sides srv db us p', ZI p sides srv db us -> Inv p' -> p_heap p' = p_heap p ->
  (forall x, K p' x + G p' x <= K p x + G p x) -> (forall x, O p' x = O p x) ->
  (forall x ob, G p' x > 0 -> nth_error (p_heap p) x = Some ob -> G p x > 0 \/ o_net ob <> None) -> ZI p' sides srv db us.
Proof.
  intros p sides srv db us p' HZ HI Hh Hk Ho Hg. pose proof HZ as [I1 I2 I3 I4 I5]. apply (ZI_next p sides srv db us); auto.
  - intros x ob Hx E. left. rewrite Hh in E. repeat split; auto. rewrite Ho. auto.
  - intros x ob Hx E. rewrite Hh in E. destruct (Hg x ob Hx E) as [Y|Y]; eauto.
  - intros x Hx. apply I5. now rewrite <- Ho.
Qed.
(** connection [o] is exchanged for a new one *)
Lemma ZI_swap : forall p sides srv db us p' sides' srv' db' us' o ob ob' nb, ZI p sides srv db us -> Inv p' -> v_db srv' = db' ->
  nth_error (p_heap p) o = Some ob -> sum p o > 0 -> p_heap p' = upd o ob' (p_heap p) ++ [nb] ->
  (forall x, K p' x = (if Nat.eq_dec x (length (p_heap p)) then 1 else 0) + if Nat.eq_dec x o then 0 else K p x) ->
  (forall x, G p' x <= if Nat.eq_dec x o then 0 else G p x) -> (forall x, O p' x = if Nat.eq_dec x o then 0 else O p x) ->
  (forall x, x <> o -> x < length (p_heap p) -> sides' x = sides x /\ us' x = us x) -> us' o = Away -> us' (length (p_heap p)) = Away ->
  (forall n, (forall k, o_net ob = Some k -> n <> k) -> n < length (p_nets p) -> v_sess srv' n = v_sess srv n) ->
  link nb (sides' (length (p_heap p))) -> resting srv' nb (sides' (length (p_heap p))) ->
  (forall x, x > length (p_heap p) -> us' x = Away) ->
  ZI p' sides' srv' db' us'.
Proof.
  intros p sides srv db us p' sides' srv' db' us' o ob ob' nb HZ HI Hdb Eo So Hh HK HG HO Hs Hu1 Hu2 Hn Hl Hr Hu3.
  pose proof HZ as [I1 I2 I3 I4 I5].
  assert (Lo : o < length (p_heap p)) by (apply nth_error_Some; congruence).
  assert (Zero : G p (length (p_heap p)) = 0 /\ O p (length (p_heap p)) = 0).
  { destruct (sum p (length (p_heap p))) eqn:E; [unfold sum in E; lia|]. assert (length (p_heap p) < length (p_heap p)) by (apply (i_in p I1); fold (sum p (length (p_heap p))); lia). lia. }
  assert (D : forall x b, sum p' x > 0 -> nth_error (p_heap p') x = Some b ->
    x = length (p_heap p) /\ b = nb \/ x <> o /\ x < length (p_heap p) /\ nth_error (p_heap p) x = Some b).
  { intros x b Hx E. rewrite Hh in E. unfold sum in Hx. specialize (HK x). specialize (HG x). specialize (HO x). apply hl_app in E. rewrite length_upd in E. destruct E as [[-> ->]|[Lx E]]; auto.
    right. apply (hl_upd _ _ _ _ _ _ Eo) in E. destruct (Nat.eq_dec x (length (p_heap p))); [lia|]. destruct (Nat.eq_dec x o); [lia|]. destruct E as [[? ?]|[N E]]; [congruence|]. auto. }
  apply (ZI_next p sides srv db us); auto.
  - intros x b Hx E. destruct (D x b Hx E) as [(-> & ->)|(Nx & Lx & Ex)].
    + right. split; [exact Hl|]. split; [intros _; exact Hr|]. rewrite HO. destruct (Nat.eq_dec _ o); [lia|]. lia.
    + left. destruct (Hs x Nx Lx) as (Y1 & Y2). specialize (HK x). specialize (HG x). specialize (HO x).
      destruct (Nat.eq_dec x (length (p_heap p))); [lia|]. destruct (Nat.eq_dec x o); [lia|]. repeat split; auto; try lia.
      intros Sx m En. apply Hn; [|eapply (i_nets p I1); eauto]. intros k Ek ->. apply Nx. eapply (i_excl p I1); eauto.
  - intros x b Hx E. destruct (D x b) as [(-> & ->)|(Nx & Lx & Ex)]; auto; [unfold sum; lia| |].
    + specialize (HG (length (p_heap p))). destruct (Nat.eq_dec (length (p_heap p)) o); lia.
    + apply (I4 x b); auto. specialize (HG x). destruct (Nat.eq_dec x o); lia.
  - intros x Hx. rewrite HO in Hx. destruct (Nat.eq_dec x o) as [->|Nx]; [exact Hu1|]. destruct (Nat.lt_trichotomy x (length (p_heap p))) as [L|[->|L]].
    + destruct (Hs x Nx L) as (_ & ->). auto.
    + exact Hu2.
    + apply Hu3. exact L.
Qed.
(** connection [o] changes in place *)
Lemma ZI_upd : forall p sides srv db us p' sides' srv' db' us' o ob ob', ZI p sides srv db us -> Inv p' -> v_db srv' = db' ->
  nth_error (p_heap p) o = Some ob -> sum p o > 0 -> p_heap p' = upd o ob' (p_heap p) ->
  (forall x, x <> o -> K p' x = K p x /\ G p' x = G p x /\ O p' x = O p x /\ sides' x = sides x /\ us' x = us x) ->
  (forall n, (forall k, o_net ob = Some k -> n <> k) -> n < length (p_nets p) -> v_sess srv' n = v_sess srv n) ->
  good p' sides' srv' db' o ob' (us' o) -> (G p' o > 0 -> o_net ob' <> None) -> (O p' o = 0 -> us' o = Away) ->
  ZI p' sides' srv' db' us'.
Proof.
  intros p sides srv db us p' sides' srv' db' us' o ob ob' HZ HI Hdb Eo So Hh Hx Hn Hg Hv Ha.
  pose proof HZ as [I1 I2 I3 I4 I5]. apply (ZI_next p sides srv db us); auto.
  - intros x b Sx E. rewrite Hh in E. apply (hl_upd _ _ _ _ _ _ Eo) in E. destruct E as [(-> & ->)|(Nx & E)]; [right; exact Hg|left].
    destruct (Hx x Nx) as (X1 & X2 & X3 & X4 & X5). repeat split; auto; try lia. intros Sx' m En. apply Hn; [|eapply (i_nets p I1); eauto].
    intros k Ek ->. apply Nx. eapply (i_excl p I1); eauto.
  - intros x b Gx E. rewrite Hh in E. apply (hl_upd _ _ _ _ _ _ Eo) in E. destruct E as [(-> & ->)|(Nx & E)]; [auto|]. destruct (Hx x Nx) as (X1 & X2 & X3 & X4 & X5). apply (I4 x b); auto. lia.
  - intros x Ox. destruct (Nat.eq_dec x o) as [->|Nx]; [auto|]. destruct (Hx x Nx) as (X1 & X2 & X3 & X4 & X5). rewrite X5. apply I5. lia.
Qed.
End Noisy.
