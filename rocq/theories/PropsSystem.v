(** Several connections to one server: each has its own session, the database is common. *)
From Coq Require Import ZArith List Bool Lia.
From Verif Require Import GoPrims Value Errors Misc Session SessionVoc SessionGen SessionFuel SessionSim ServerSpec SessionSpec SessionBolt SessionRefine PropsBolt.
Import ListNotations.
Open Scope Z_scope.

Definition put {A} (f : nat -> A) (i : nat) (a : A) : nat -> A := fun j => if (j =? i)%nat then a else f j.
Lemma put_same : forall A (f : nat -> A) i a, put f i a i = a.
Proof. intros. unfold put. now rewrite Nat.eqb_refl. Qed.
Lemma put_other : forall A (f : nat -> A) i a j, j <> i -> put f i a j = f j.
Proof. intros A f i a j H. unfold put. apply Nat.eqb_neq in H. now rewrite H. Qed.

(** * C72: clients that share a database *)
Section System.
Context {DB : Type}.
Variable exec : DB -> str -> md -> DB * outcome.
Variable sendable : goval -> bool.
(** per client: the mutation switch of driver_args, and whether its connection is pooled *)
Variable mk : bool.
Variable pooled : nat -> bool.

(** The server: one database, and for each connection its protocol state and the
    responses that have not been read. *)
Record server := { v_db : DB; v_sess : nat -> sstate * list goval }.
(** The connection [me] to that server; ServerSpec.bolt with the database outside. *)
Definition shared (me : nat) : netops server :=
  {| n_send := fun n _ v =>
       if sendable v then
         let '(db, st, rs) := serve exec (v_db n) (fst (v_sess n me)) v in
         ({| v_db := db; v_sess := put (v_sess n) me (st, snd (v_sess n me) ++ rs) |}, SOk)
       else (n, SRejected);
     n_recv := fun n =>
       match snd (v_sess n me) with
       | [] => (n, RNet)
       | v :: q => ({| v_db := v_db n; v_sess := put (v_sess n) me (fst (v_sess n me), q) |}, RMsg v)
       end;
     n_close := fun n => (n, false);
     n_shake := fun n => (n, (false, None)) |}.

(** What the driver keeps for a connection and the objects made from it. *)
Record side := { d_conn : conn; d_stmts : list stmt; d_rows : list rows; d_txs : list tx }.
Record sys := { y_server : server; y_sides : nat -> side }.
Definition view (y : sys) (i : nat) : world server :=
  let d := y_sides y i in Build_world (d_conn d) (d_stmts d) (d_rows d) (d_txs d) (y_server y).
Definition back (y : sys) (i : nat) (w : world server) : sys :=
  {| y_server := w_net w; y_sides := put (y_sides y) i (Build_side (w_conn w) (w_stmts w) (w_rows w) (w_txs w)) |}.

(** Client [i] makes the call [o]; it returns or panics. *)
Definition call_on (y : sys) (i : nat) (o : op) (x : outc out) (y' : sys) : Prop :=
  exists f w', step (shared i) mk f o (view y i) = (x, w') /\ x <> NoFuel /\ y' = back y i w'.
(** Calls of the clients in some order; the result of each and the database after it. *)
Inductive happens : sys -> list (nat * op) -> list (outc out * DB) -> sys -> Prop :=
| happens_nil : forall y, happens y [] [] y
| happens_cons : forall y i o x y1 es rs y2, call_on y i o x y1 -> happens y1 es rs y2 ->
    happens y ((i, o) :: es) ((x, v_db (y_server y1)) :: rs) y2.
Definition opened (db : DB) : sys :=
  {| y_server := {| v_db := db; v_sess := fun _ => (Ready, []) |};
     y_sides := fun i => Build_side (w_conn (fresh (pooled i) tt)) [] [] [] |}.

(** ** What the clients may expect
    Every client has the abstract machine of SessionSpec.v for its connection, all with
    the same database.  When a client makes a call for which the machine promises nothing,
    nothing is promised to it any more (None), and its calls may change the database. *)
Fixpoint together (db : DB) (st : nat -> option (sst DB)) (es : list (nat * op)) (rs : list (outc out * DB)) : Prop :=
  match es, rs with
  | (i, o) :: es', (x, db') :: rs' =>
      match st i with
      | None => together db' st es' rs'
      | Some s =>
          match expect exec sendable mk (pooled i) (with_db db s) o with
          | None => together db' (put st i None) es' rs'
          | Some (a, k) =>
              exists r, x = Ok r /\ conforms a r /\ db' = sp_db (k (handle_of r)) /\ together db' (put st i (Some (k (handle_of r)))) es' rs'
          end
      end
  | _, _ => es = [] /\ rs = []
  end.
(** the machines after these calls, and the database *)
Fixpoint states (db : DB) (st : nat -> option (sst DB)) (es : list (nat * op)) (rs : list (outc out * DB)) : DB * (nat -> option (sst DB)) :=
  match es, rs with
  | (i, o) :: es', (x, db') :: rs' =>
      match st i with
      | None => states db' st es' rs'
      | Some s =>
          match expect exec sendable mk (pooled i) (with_db db s) o, x with
          | Some (_, k), Ok r => states db' (put st i (Some (k (handle_of r)))) es' rs'
          | _, _ => states db' (put st i None) es' rs'
          end
      end
  | _, _ => (db, st)
  end.

(** ** Proof *)
Hypothesis Hctl : controls sendable.
Notation B := Build_bnet.
Definition own (y : sys) (i : nat) : world (bnet DB) :=
  let d := y_sides y i in Build_world (d_conn d) (d_stmts d) (d_rows d) (d_txs d)
    (B (v_db (y_server y)) (fst (v_sess (y_server y) i)) (snd (v_sess (y_server y) i))).
Definition same (sess : nat -> sstate * list goval) (me : nat) (n : server) (b : bnet DB) : Prop :=
  v_db n = b_db b /\ v_sess n me = (b_st b, b_q b) /\ forall j, j <> me -> v_sess n j = sess j.

Lemma sim_shared : forall sess me f o, Sim (same sess me) (fun _ => False) (step (shared me) mk f o) (step (bolt exec sendable) mk f o).
Proof.
  intros sess me f o. apply Sim_step; try (intros; contradiction).
  - intros n b cs v (H1 & H2 & H3). right. cbn. destruct (sendable v); [|repeat split; auto]. rewrite H1, H2. cbn [fst snd].
    destruct (serve exec (b_db b) (b_st b) v) as [[db st] rs]. cbn. split; [reflexivity|]. split; [reflexivity|]. split; [apply put_same|].
    intros j Hj. cbn. rewrite put_other by exact Hj. auto.
  - intros n b (H1 & H2 & H3). right. cbn. rewrite H2. cbn [fst snd]. destruct (b_q b) as [|v q] eqn:Eq; cbn; (split; [reflexivity|]).
    + split; [exact H1|]. split; [congruence|exact H3].
    + split; [exact H1|]. split; [apply put_same|]. intros j Hj. cbn. rewrite put_other by exact Hj. auto.
  - intros n b H. right. split; [reflexivity|exact H].
Qed.

(** One call, seen from the client that makes it and from the others. *)
Lemma call_own : forall y i o f, let '(x, w) := step (bolt exec sendable) mk f o (own y i) in
  exists w', step (shared i) mk f o (view y i) = (x, w') /\ own (back y i w') i = w /\ v_db (w_net w') = b_db (w_net w) /\
  forall j, j <> i -> v_sess (w_net w') j = v_sess (y_server y) j.
Proof.
  intros y i o f. destruct (sim_shared (v_sess (y_server y)) i f o) as (_ & H). specialize (H (view y i) (own y i)). cbn beta zeta.
  destruct (step (bolt exec sendable) mk f o (own y i)) as [x w]. destruct (step (shared i) mk f o (view y i)) as [x' w'].
  destruct H as [[]|(H1 & H2)].
  - repeat split; cbn; auto. now destruct (v_sess (y_server y) i).
  - cbn [fst snd] in *. subst x'. destruct H2 as (E1 & E2 & E3 & E4 & E5 & E6 & E7). exists w'. split; [reflexivity|]. split; [|split; [exact E5|exact E7]].
    unfold own, back. cbn. rewrite put_same. cbn. rewrite E1, E2, E3, E4, E5, E6. destruct w as [c ss rs ts [db st q]]. reflexivity.
Qed.
Lemma own_other : forall y i w' j, j <> i -> (forall j, j <> i -> v_sess (w_net w') j = v_sess (y_server y) j) ->
  own (back y i w') j = let w := own y j in Build_world (w_conn w) (w_stmts w) (w_rows w) (w_txs w) (B (v_db (w_net w')) (b_st (w_net w)) (b_q (w_net w))).
Proof. intros y i w' j Hj H. unfold own, back. cbn. rewrite put_other by exact Hj. now rewrite H. Qed.
(** The database may change under a connection. *)
Lemma Rel_db : forall p w (st : sst DB) db, Rel p w st ->
  Rel p (Build_world (w_conn w) (w_stmts w) (w_rows w) (w_txs w) (B db (b_st (w_net w)) (b_q (w_net w)))) (with_db db st).
Proof.
  intros p [c ss rs ts n] st db (H1 & H2 & H3 & H4 & H5 & H6 & H). cbn in *.
  split; [exact H1|]. split; [exact H2|]. split; [exact H3|]. split; [exact H4|]. split; [exact H5|]. split; [exact H6|]. cbn.
  destruct (sp_phase st) as [|s k|ow r h x|b|]; cbn in *.
  - destruct H as (Ha & Hb & ->). auto.
  - destruct H as (Ha & Hb & Hc & ->). auto.
  - destruct H as (Ha & s & k & row & s0 & q & X1 & X2 & X3 & X4 & X5 & X6 & X7 & X8 & ->). split; [exact Ha|]. exists s, k, row, s0, q. auto 10.
  - destruct H as (Ha & Hb & s & Hc & Hd). split; [exact Ha|]. split; [reflexivity|]. exists s. split; [exact Hc|]. intros E. destruct (Hd E) as (k & ro & X1 & X2 & ->).
    exists k, ro. auto.
  - destruct H as (Ha & Hb & Hc). split; [reflexivity|]. split; [exact Hb|]. intros E. destruct (Hc E) as (X1 & X2 & ->). auto.
Qed.

Definition inv (y : sys) (db : DB) (st : nat -> option (sst DB)) : Prop :=
  v_db (y_server y) = db /\ forall i s, st i = Some s -> Rel (pooled i) (own y i) (with_db db s).

Lemma step_eq : forall N (ops : netops N) f f' o w x x' w1 w1', step ops mk f o w = (x, w1) -> step ops mk f' o w = (x', w1') -> x <> NoFuel -> x' <> NoFuel -> x = x' /\ w1 = w1'.
Proof.
  intros N ops f f' o w x x' w1 w1' H H' Hn Hn'. destruct (Nat.le_ge_cases f f') as [Hl|Hl].
  - rewrite (Le_step ops mk f f' o Hl w) in H' by (rewrite H; exact Hn). rewrite H in H'. injection H' as <- <-. auto.
  - rewrite (Le_step ops mk f' f o Hl w) in H by (rewrite H'; exact Hn'). rewrite H' in H. injection H as <- <-. auto.
Qed.
Lemma inv_others : forall y db st i w' t, inv y db st -> (forall j, j <> i -> v_sess (w_net w') j = v_sess (y_server y) j) ->
  (forall s, t = Some s -> Rel (pooled i) (own (back y i w') i) (with_db (v_db (w_net w')) s)) ->
  inv (back y i w') (v_db (w_net w')) (put st i t).
Proof.
  intros y db st i w' t (_ & HI) Hj Ht. split; [reflexivity|]. intros j s. destruct (Nat.eq_dec j i) as [->|Hn].
  - rewrite put_same. apply Ht.
  - rewrite put_other by exact Hn. intros E. rewrite (own_other y i w' j Hn Hj). cbv zeta. specialize (HI j s E).
    apply (Rel_db _ _ _ (v_db (w_net w'))) in HI. exact HI.
Qed.
Lemma own_db : forall y i, b_db (w_net (own y i)) = v_db (y_server y). Proof. reflexivity. Qed.
Lemma rel_b_db : forall p w (st : sst DB), Rel p w st -> b_db (w_net w) = sp_db st.
Proof.
  intros p w st (_ & _ & _ & _ & _ & _ & H). destruct (sp_phase st); cbn in H.
  - destruct H as (_ & _ & ->). reflexivity.
  - destruct H as (_ & _ & _ & ->). reflexivity.
  - destruct H as (_ & s & k & row & s0 & q & _ & _ & _ & _ & _ & _ & _ & _ & ->). reflexivity.
  - apply H.
  - apply H.
Qed.
Lemma with_db_same : forall st : sst DB, with_db (sp_db st) st = st. Proof. now intros []. Qed.

Lemma inv_call : forall y db st i o x y1, inv y db st -> call_on y i o x y1 ->
  match st i with
  | None => inv y1 (v_db (y_server y1)) st
  | Some s =>
      match expect exec sendable mk (pooled i) (with_db db s) o with
      | None => inv y1 (v_db (y_server y1)) (put st i None)
      | Some (a, k) => exists r, x = Ok r /\ conforms a r /\ v_db (y_server y1) = sp_db (k (handle_of r)) /\
          inv y1 (v_db (y_server y1)) (put st i (Some (k (handle_of r))))
      end
  end.
Proof.
  intros y db st i o x y1 HI (f & w' & Hs & Hx & ->). cbn [back y_server].
  pose proof (call_own y i o f) as Ho. destruct (step (bolt exec sendable) mk f o (own y i)) as [x0 w] eqn:Eb.
  destruct Ho as (w0 & H1 & H2 & H3 & H4). rewrite Hs in H1. injection H1 as <- <-.
  destruct (st i) as [s|] eqn:Es.
  - destruct (expect exec sendable mk (pooled i) (with_db db s) o) as [[a k]|] eqn:Ee.
    + destruct (refine_step exec sendable mk (pooled i) Hctl (own y i) _ o a k (proj2 HI i s Es) Ee) as (r & w2 & (f2 & Hd) & Hc & HR).
      destruct (step_eq _ _ _ _ _ _ _ _ _ _ Eb Hd Hx ltac:(discriminate)) as (-> & ->). exists r. split; [reflexivity|]. split; [exact Hc|].
      assert (Hdb : v_db (w_net w') = sp_db (k (handle_of r))) by (rewrite H3; eapply rel_b_db; exact HR). split; [exact Hdb|].
      apply (inv_others y db); auto. intros s' E'. injection E' as <-. rewrite H2, Hdb, with_db_same. exact HR.
    + apply (inv_others y db); auto. discriminate.
  - assert (E : inv (back y i w') (v_db (w_net w')) (put st i None)) by (apply (inv_others y db); auto; discriminate).
    split; [apply E|]. intros j s Ej. apply E. destruct (Nat.eq_dec j i) as [->|Hn]; [congruence|]. now rewrite put_other.
Qed.
Lemma inv_run : forall es y rs y' db st, inv y db st -> happens y es rs y' -> together db st es rs /\ let '(db', st') := states db st es rs in inv y' db' st'.
Proof.
  induction es as [|[i o] es IH]; intros y rs y' db st HI H; inversion H; subst; [cbn; auto|].
  match goal with Hc : call_on _ _ _ _ _ |- _ => pose proof (inv_call _ _ _ _ _ _ _ HI Hc) as Hn end. cbn [together states].
  destruct (st i) as [s|] eqn:Es.
  - destruct (expect exec sendable mk (pooled i) (with_db db s) o) as [[a k]|] eqn:Ee.
    + destruct Hn as (r & -> & Hc & Hdb & Hn). edestruct IH as (IH1 & IH2); [exact Hn|eassumption|]. split; [|exact IH2]. exists r. auto.
    + eapply IH; eauto.
  - eapply IH; eauto.
Qed.
Lemma inv_opened : forall db, inv (opened db) db (fun _ => Some (start db)).
Proof. intros db. split; [reflexivity|]. intros i s H. injection H as <-. exact (Rel_start (pooled i) db). Qed.

(** Clients that each opened a connection to the same server make calls in any order.  A
    client whose own calls are within the machine gets the promised results, over the
    database as everybody's calls have left it, whatever the others have open, however
    their queries fail, and even if they misuse their connections or panic. *)
Theorem C72_system : forall db es rs y, happens (opened db) es rs y -> together db (fun _ => Some (start db)) es rs.
Proof. intros db es rs y H. eapply inv_run; [apply inv_opened|exact H]. Qed.
(** ... and each of its calls returns. *)
Theorem C72_returns : forall db es rs y db' st i s o a k, happens (opened db) es rs y ->
  states db (fun _ => Some (start db)) es rs = (db', st) -> st i = Some s -> expect exec sendable mk (pooled i) (with_db db' s) o = Some (a, k) ->
  exists x y', call_on y i o x y'.
Proof.
  intros db es rs y db' st i s o a k H Hst Hi He. destruct (inv_run es _ rs y db _ (inv_opened db) H) as (_ & HI). rewrite Hst in HI.
  destruct (refine_step exec sendable mk (pooled i) Hctl (own y i) _ o a k (proj2 HI i s Hi) He) as (r & w2 & (f & Hd) & _).
  pose proof (call_own y i o f) as Ho. rewrite Hd in Ho. destruct Ho as (w' & H1 & _). exists (Ok r), (back y i w'), f, w'. split; [exact H1|]. split; [discriminate|reflexivity].
Qed.
End System.
Print Assumptions C72_system.
Print Assumptions C72_returns.

(** The theorems cover other clients' calls between two calls.  Real clients run at the same
    time: the database changes while a call is in progress, before each of its queries.
    [env k] is what the others do before the [k]-th query of this connection. *)
Definition amid {DB} (exec : DB -> str -> md -> DB * outcome) (env : nat -> DB -> DB) (s : DB * nat) (q : str) (ps : md) : (DB * nat) * outcome :=
  let '(db, o) := exec (env (snd s) (fst s)) q ps in ((db, S (snd s)), o).
Theorem C72_amid : forall DB (exec : DB -> str -> md -> DB * outcome) sendable mk pooled env db os, controls sendable ->
  exists f0, forall f, (f0 <= f)%nat ->
  follows (amid exec env) sendable mk pooled (start (db, O)) os
    (fst (fst (run (bolt (amid exec env) sendable) mk f os (fresh pooled (Build_bnet (db, O) Ready []))))).
Proof. intros. apply refine_run; [assumption|]. apply Rel_start. Qed.
Print Assumptions C72_amid.

(** Three clients of the counter (PropsBolt.v).  Client 1 opens rows and stops, client 0 meanwhile
    increments the counter and has a query refused, client 2 uses a row set that it does not have
    and panics, client 1 reads on. *)
Definition sys_calls : list (nat * op) :=
  [(1%nat, CQuery [1] []); (0%nat, CExec [1] []); (0%nat, CExec [2] []); (2%nat, CPrepare [1]); (2%nat, RClose 7); (1%nat, RNext 0);
   (2%nat, SExec 0 []); (1%nat, RNext 0); (1%nat, RNext 0); (1%nat, RClose 0); (1%nat, CExec [1] []); (0%nat, CQueryAll [1] [])].
Example C72_example : exists rs y, happens toy fine false (opened (fun _ => false) 5) sys_calls rs y /\
  map snd rs = [6; 7; 7; 7; 7; 7; 8; 8; 8; 8; 9; 10] /\ nth 4 rs (NoFuel, 0) = (Panic, 7) /\
  map fst (map (fun k => nth k rs (NoFuel, 0)) [1; 5; 7; 8; 9; 10; 11]%nat) =
    [Ok (OResult (Some (bad 6)) None); Ok (ONext (Some [VInt KInt64 5]) None None); Ok (ONext (Some [VInt KInt64 6]) None None);
     Ok (ONext None (Some (bad 5)) (Some EEOF)); Ok (OErr None); Ok (OResult (Some (bad 8)) None);
     Ok (OQueryAll (Some [[VInt KInt64 9]; [VInt KInt64 10]]) (Some hdr) (Some (bad 9)) None)] /\
  let '(db, st) := states toy fine false (fun _ => false) 5 (fun _ => Some (start 5)) sys_calls rs in
  db = 10 /\ st 2%nat = None /\ st 0%nat <> None /\ option_map sp_phase (st 1%nat) = Some PIdle.
Proof.
  do 2 eexists. split.
  - unfold sys_calls.
    repeat (eapply happens_cons; [exists 20%nat; eexists; split; [vm_compute; reflexivity|split; [discriminate|reflexivity]]|]). apply happens_nil.
  - vm_compute. repeat split; discriminate.
Qed.
(** The counter is incremented by others before each query. *)
Example C72_amid_example :
  fst (fst (run (bolt (amid toy (fun k n => n + 10)) fine) false 20 [CExecPipeline [[1]; [1]] [[]; []]; CExec [1] []] (fresh false (Build_bnet (5, O) Ready [])))) =
  [OResults (Some [bad 15; bad 26]) None; OResult (Some (bad 37)) None].
Proof. vm_compute. reflexivity. Qed.
