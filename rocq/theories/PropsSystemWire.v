(** C72 at the level of bytes: several connections to one server, each with its own stream
    of bytes in both directions, and a common database. *)
From Coq Require Import ZArith List Bool Lia.
From Verif Require Import GoPrims Value PackSpec PrimLemmas Encoder CodecIO Errors Misc Decoder Session SessionVoc ServerSpec SessionSpec SessionBolt SessionRefine
  SessionSends SessionNet WireSpec WireBytes SessionWire PropsBolt PropsWire PropsSystem.
Import ListNotations.
Open Scope Z_scope.

Section SystemBytes.
Context {DB : Type}.
(** What queries do and answer; how the server writes its answers to client [i], and how
    they are cut into segments on the way to it. *)
Variable pexec : DB -> str -> list (str * pval) -> DB * outcome.
Variable ser : nat -> nat -> goval -> bytes.
Variable cut : nat -> nat -> bytes -> list bytes.
Variable mk : bool.
Variable pooled : nat -> bool.
Hypothesis Hexec : forall db q ps, outcome_ok (snd (pexec db q ps)).
Hypothesis Hser : forall i, ser_ok (ser i).
Hypothesis Hcut : forall i, cut_ok (cut i).
Notation link i := (bytenet (stream pexec (ser i) (cut i)) mk).

(** One database; per client the server's end of the stream (WireSpec.srv, whose own copy of
    the database is not used) and what the driver keeps. *)
Record bsys := { z_db : DB; z_srv : nat -> srv DB; z_sides : nat -> side }.
Definition over (db : DB) (s : srv DB) : srv DB := Build_srv (y_phase s) db (y_st s) (y_in s) (y_out s) (y_n s).
Definition bview (y : bsys) (i : nat) : world (srv DB) :=
  let d := z_sides y i in Build_world (d_conn d) (d_stmts d) (d_rows d) (d_txs d) (over (z_db y) (z_srv y i)).
Definition bback (y : bsys) (i : nat) (w : world (srv DB)) : bsys :=
  {| z_db := y_db (w_net w); z_srv := put (z_srv y) i (w_net w);
     z_sides := put (z_sides y) i (Build_side (w_conn w) (w_stmts w) (w_rows w) (w_txs w)) |}.
Definition bcall (y : bsys) (i : nat) (o : op) (x : outc out) (y' : bsys) : Prop :=
  exists f w', step (link i) mk f o (bview y i) = (x, w') /\ x <> NoFuel /\ y' = bback y i w'.
Inductive bhappens : bsys -> list (nat * op) -> list (outc out * DB) -> bsys -> Prop :=
| bhappens_nil : forall y, bhappens y [] [] y
| bhappens_cons : forall y i o x y1 es rs y2, bcall y i o x y1 -> bhappens y1 es rs y2 ->
    bhappens y ((i, o) :: es) ((x, z_db y1) :: rs) y2.
(** The connections have been opened (C60_opens_partial), the [i]-th after [n i] messages. *)
Definition bopened (db : DB) (n : nat -> nat) : bsys :=
  {| z_db := db; z_srv := fun i => ready db (n i); z_sides := fun i => Build_side (w_conn (fresh (pooled i) tt)) [] [] [] |}.

(** The calls of client [i], and that their chunk sizes are ones the format has and their
    requests reach the wire whole or not at all (as in C58). *)
Definition calls_of (i : nat) (es : list (nat * op)) : list op := map snd (filter (fun e => (fst e =? i)%nat) es).
Definition fits (os : list op) : Prop :=
  (forall cs, In cs (chunk_sizes os) -> 8 <= cs <= 65535) /\
  (forall cs q ps, In cs (chunk_sizes os) -> In q ([] :: queries os) -> In ps (params mk os) -> crosses cs (VRun q ps)).

(** ** Proof *)
Notation Like os := (Alike (fun z => In z (chunk_sizes os)) (fun q => In q (queries os)) (@RN DB)).
Lemma like_step : forall i os f o w w', fits os -> In o os -> Like os w w' ->
  fst (step (link i) mk f o w) = fst (step (bolt (vexec pexec) takes) mk f o w') /\
  Like os (snd (step (link i) mk f o w)) (snd (step (bolt (vexec pexec) takes) mk f o w')).
Proof.
  intros i os f o w w' (Hcs & Hq) Ho HL. pose proof (within_history mk os) as Hw. rewrite Forall_forall in Hw. specialize (Hw o Ho). destruct Hw as (W0 & W1 & W2 & W3).
  assert (Hs : forall n n' cs v, RN n n' -> In cs (chunk_sizes os) -> may_send (fun q => In q (queries os)) (fun ps => In ps (params mk os)) (fun q => In q (tx_words os)) v ->
    snd (n_send (link i) n cs v) = snd (n_send (bolt (vexec pexec) takes) n' cs v) /\ RN (fst (n_send (link i) n cs v)) (fst (n_send (bolt (vexec pexec) takes) n' cs v))).
  { intros n n' cs v HR Hc Hv. apply (sim_send pexec (ser i) (cut i) mk Hexec (Hser i) n n' cs v HR).
    - destruct v; try contradiction; exact I.
    - apply crosses_travels; [auto|]. destruct v; try contradiction; try (apply control_crosses; cbn; tauto).
      destruct Hv as [([Hv| ->] & Hp)|(Hv & ->)]; [| |apply tx_words_are in Hv; destruct Hv as [->|[->| ->]]]; [apply Hq; auto; right; exact Hv|apply Hq; auto; now left| | |];
        (apply word_crosses; [vm_compute; congruence|repeat constructor; unfold is_byte; lia|apply Hcs; exact Hc]). }
  assert (Hr : forall n n', RN n n' -> snd (n_recv (link i) n) = snd (n_recv (bolt (vexec pexec) takes) n') /\ RN (fst (n_recv (link i) n)) (fst (n_recv (bolt (vexec pexec) takes) n'))).
  { intros n n' HR. now apply sim_recv. }
  apply (K_step _ _ _ _ _ _ _ Hs Hr f _ _ (K_close _ _ _ _ _ _ _ Hs Hr ltac:(auto) f) mk o W0 W1 W2 W3 w w' HL).
Qed.
(** The database may change under a connection. *)
Definition on_db (db : DB) (w : world (bnet DB)) : world (bnet DB) :=
  Build_world (w_conn w) (w_stmts w) (w_rows w) (w_txs w) (Build_bnet db (b_st (w_net w)) (b_q (w_net w))).
Lemma like_db : forall os y i j w w' db, j <> i -> y_db (w_net w') = db -> Like os (bview y j) w -> Like os (bview (bback y i w') j) (on_db db w).
Proof.
  intros os y i j w w' db Hj <- (H1 & H2 & H3 & H4 & H5 & H6 & H7). unfold bview, bback in *. cbn in *. rewrite !put_other by exact Hj.
  do 6 (split; [assumption|]). cbn. destruct H7 as (A & B & C & D & E & F). split; [exact A|]. split; [exact B|]. split; [reflexivity|]. split; [exact D|]. split; [exact E|exact F].
Qed.
Lemma bview_back : forall y i w, bview (bback y i w) i = w.
Proof. intros y i [c ss rs ts [p db st a b n]]. unfold bview, bback. cbn. now rewrite !put_same. Qed.

Definition binv (os : nat -> list op) (y : bsys) (db : DB) (st : nat -> option (sst DB)) : Prop :=
  z_db y = db /\ forall i s, st i = Some s -> exists w, Like (os i) (bview y i) w /\ Rel (pooled i) w (with_db db s).
Lemma binv_others : forall os y db st i w' t, binv os y db st ->
  (forall s, t = Some s -> exists w, Like (os i) w' w /\ Rel (pooled i) w (with_db (y_db (w_net w')) s)) ->
  binv os (bback y i w') (y_db (w_net w')) (put st i t).
Proof.
  intros os y db st i w' t (_ & HI) Ht. split; [reflexivity|]. intros j s. destruct (Nat.eq_dec j i) as [->|Hn].
  - rewrite put_same, bview_back. apply Ht.
  - rewrite put_other by exact Hn. intros E. destruct (HI j s E) as (w & HL & HR). exists (on_db (y_db (w_net w')) w). split; [now apply like_db|].
    apply (Rel_db _ _ _ (y_db (w_net w'))) in HR. exact HR.
Qed.
Lemma takes_controls : controls takes. Proof. repeat split; reflexivity. Qed.
Lemma binv_call : forall os y db st i o x y1, (forall s, st i = Some s -> fits (os i) /\ In o (os i)) -> binv os y db st -> bcall y i o x y1 ->
  match st i with
  | None => binv os y1 (z_db y1) st
  | Some s =>
      match expect (vexec pexec) takes mk (pooled i) (with_db db s) o with
      | None => binv os y1 (z_db y1) (put st i None)
      | Some (a, k) => exists r, x = Ok r /\ conforms a r /\ z_db y1 = sp_db (k (handle_of r)) /\
          binv os y1 (z_db y1) (put st i (Some (k (handle_of r))))
      end
  end.
Proof.
  intros os y db st i o x y1 Hf HI (f & w' & Hs & Hx & ->). cbn [bback z_db].
  destruct (st i) as [s|] eqn:Es.
  - destruct (expect (vexec pexec) takes mk (pooled i) (with_db db s) o) as [[a k]|] eqn:Ee.
    + destruct (Hf s eq_refl) as (Hfit & Hin). destruct (proj2 HI i s Es) as (w & HL & HR).
      destruct (like_step i (os i) f o _ _ Hfit Hin HL) as (E1 & HL1). rewrite Hs in E1, HL1. cbn [fst snd] in E1, HL1.
      destruct (step (bolt (vexec pexec) takes) mk f o w) as [x0 w0] eqn:Eb. cbn [fst snd] in E1, HL1. subst x0.
      destruct (refine_step (vexec pexec) takes mk (pooled i) takes_controls w _ o a k HR Ee) as (r & w2 & (f2 & Hd) & Hc & HR2).
      destruct (step_eq _ _ _ _ _ _ _ _ _ _ _ Eb Hd Hx ltac:(discriminate)) as (-> & ->). exists r. split; [reflexivity|]. split; [exact Hc|].
      assert (Hdb : y_db (w_net w') = sp_db (k (handle_of r))).
      { rewrite <- (rel_b_db _ _ _ HR2). destruct HL1 as (_ & _ & _ & _ & _ & _ & _ & _ & Ed & _). exact Ed. }
      split; [exact Hdb|]. apply (binv_others os y db); auto. intros s' E'. injection E' as <-. exists w2. split; [exact HL1|]. now rewrite Hdb, with_db_same.
    + apply (binv_others os y db); auto. discriminate.
  - assert (E : binv os (bback y i w') (y_db (w_net w')) (put st i None)) by (apply (binv_others os y db); auto; discriminate).
    split; [apply E|]. intros j s Ej. apply E. destruct (Nat.eq_dec j i) as [->|Hn]; [congruence|]. now rewrite put_other.
Qed.
Lemma binv_run : forall os es y rs y' db st, (forall i s, st i = Some s -> fits (os i)) -> (forall i o, In (i, o) es -> In o (os i)) ->
  binv os y db st -> bhappens y es rs y' ->
  together (vexec pexec) takes mk pooled db st es rs /\ let '(db', st') := states (vexec pexec) takes mk pooled db st es rs in
    binv os y' db' st' /\ forall i s, st' i = Some s -> fits (os i).
Proof.
  intros os. induction es as [|[i o] es IH]; intros y rs y' db st Hf Ho HI H; inversion H; subst; [cbn; auto|].
  match goal with Hc : bcall _ _ _ _ _ |- _ => epose proof (binv_call os _ _ _ _ _ _ _ _ HI Hc) as Hn end. cbn [together states].
  assert (Hnone : forall t, (forall s, t = Some s -> exists s', st i = Some s') -> forall j s, put st i t j = Some s -> fits (os j)).
  { intros t Ht j s. destruct (Nat.eq_dec j i) as [->|Hj]; [rewrite put_same|rewrite put_other by exact Hj; apply Hf]. intros E. destruct (Ht s E) as (s' & E'). eapply Hf. exact E'. }
  assert (Ho' : forall j o', In (j, o') es -> In o' (os j)) by (intros; apply Ho; now right).
  destruct (st i) as [s|] eqn:Es.
  - destruct (expect (vexec pexec) takes mk (pooled i) (with_db db s) o) as [[a k]|] eqn:Ee.
    + destruct Hn as (r & -> & Hc & Hdb & Hn). edestruct IH as (IH1 & IH2); [|exact Ho'|exact Hn|eassumption|]. { apply Hnone. eauto. }
      split; [|exact IH2]. exists r. auto.
    + eapply IH; [apply Hnone; discriminate|exact Ho'|exact Hn|eassumption].
  - eapply IH; [exact Hf|exact Ho'|exact Hn|eassumption].
  Unshelve. intros s Es. split; [eapply Hf; exact Es|]. apply Ho. now left.
Qed.
Lemma calls_of_in : forall i o es, In (i, o) es -> In o (calls_of i es).
Proof. intros i o es H. unfold calls_of. apply in_map_iff. exists (i, o). split; [reflexivity|]. apply filter_In. split; [exact H|apply Nat.eqb_refl]. Qed.
(** The machines of the clients whose requests fit; nothing is promised to the others. *)
Definition starts (fit : nat -> bool) (db : DB) : nat -> option (sst DB) := fun i => if fit i then Some (start db) else None.
Lemma binv_opened : forall os fit db n, binv os (bopened db n) db (starts fit db).
Proof.
  intros os fit db n. split; [reflexivity|]. intros i s H. unfold starts in H. destruct (fit i); [|discriminate]. injection H as <-.
  exists (fresh (pooled i) (Build_bnet db Ready [])). split; [|exact (Rel_start (pooled i) db)].
  split; [split; [now left|reflexivity]|]. split; [constructor|]. do 4 (split; [reflexivity|]). apply ready_RN.
Qed.

(** Clients with connections of their own make calls in any order, and what goes over each
    connection is bytes: encoded, cut into chunks and segments, read back and decoded.  Each
    client whose requests fit and whose calls are within the machine gets what is promised,
    whatever bytes the other clients send. *)
Theorem C72_over_bytes : forall fit db n es rs y, (forall i, fit i = true -> fits (calls_of i es)) ->
  bhappens (bopened db n) es rs y -> together (vexec pexec) takes mk pooled db (starts fit db) es rs.
Proof.
  intros fit db n es rs y Hf H. eapply (binv_run (fun i => calls_of i es)); [| |apply binv_opened|exact H].
  - intros i s E. unfold starts in E. destruct (fit i) eqn:Ef; [auto|discriminate].
  - intros i o Hi. now apply calls_of_in.
Qed.
(** ... and each of its calls returns. *)
Theorem C72_over_bytes_returns : forall fit db n es rs y db' st i s o a k, (forall j, fit j = true -> fits (calls_of j ((i, o) :: es))) ->
  bhappens (bopened db n) es rs y -> states (vexec pexec) takes mk pooled db (starts fit db) es rs = (db', st) ->
  st i = Some s -> expect (vexec pexec) takes mk (pooled i) (with_db db' s) o = Some (a, k) -> exists x y', bcall y i o x y'.
Proof.
  intros fit db n es rs y db' st i s o a k Hf H Hst Hi He.
  set (os := fun j => calls_of j ((i, o) :: es)).
  destruct (binv_run os es (bopened db n) rs y db (starts fit db)) as (_ & HI); [| |apply binv_opened|exact H|].
  - intros j t E. unfold starts in E. destruct (fit j) eqn:Ef; [exact (Hf j Ef)|discriminate].
  - intros j o' Hj. apply calls_of_in. now right.
  - rewrite Hst in HI. destruct HI as ((_ & HI) & HF). destruct (HI i s Hi) as (w & HL & HR).
    destruct (refine_step (vexec pexec) takes mk (pooled i) takes_controls w _ o a k HR He) as (r & w2 & (f & Hd) & _).
    destruct (like_step i _ f o _ _ (HF i s Hi) (calls_of_in i o ((i, o) :: es) (or_introl eq_refl)) HL) as (E & _). rewrite Hd in E. cbn [fst] in E.
    destruct (step (link i) mk f o (bview y i)) as [x w'] eqn:Es. cbn [fst] in E. subst x. exists (Ok r), (bback y i w'), f, w'. split; [exact Es|]. split; [discriminate|reflexivity].
Qed.
End SystemBytes.
Print Assumptions C72_over_bytes.
Print Assumptions C72_over_bytes_returns.

(** Three clients of the counter of PropsWire.v.  Client 1 leaves rows open, client 0 changes
    the chunk size and has a query refused, client 2 sets a chunk size of 0, so that
    the server finds no request in what it sends, and then panics. *)
Definition wire_calls : list (nat * op) :=
  [(1%nat, CQuery [1] (ex_ps 7)); (0%nat, CSetChunkSize 8); (0%nat, CExec [1] (ex_ps 5)); (2%nat, CSetChunkSize 0); (2%nat, CExec [1] (ex_ps 1)); (0%nat, CExec [2] []);
   (1%nat, RNext 0); (2%nat, RClose 7); (1%nat, RNext 0); (1%nat, RNext 0); (1%nat, RClose 0); (0%nat, CQueryAll [1] (ex_ps 1))].
Definition wire_fit (i : nat) : bool := negb (i =? 2)%nat.
Definition wire_cut (i : nat) : nat -> bytes -> list bytes := if (i =? 0)%nat then bytewise else late_cut.
Lemma wire_cut_ok : forall i, cut_ok (wire_cut i).
Proof. intros i. unfold wire_cut. destruct (i =? 0)%nat; [apply bytewise_ok|]. exact (proj1 (proj2 (proj2 C60_example))). Qed.
Lemma wire_fits : forall i, wire_fit i = true -> fits false (calls_of i wire_calls).
Proof.
  intros i Hi. unfold wire_fit in Hi. destruct i as [|[|[|i]]]; [| |discriminate|].
  - assert (Hcs : forall cs, In cs (chunk_sizes (calls_of 0 wire_calls)) -> 8 <= cs <= 65535) by (intros cs [<-|[<-|[]]]; lia). split; [exact Hcs|].
    intros cs q ps Hc Hq Hp. specialize (Hcs cs Hc). assert (Hq' : zlen q <= 8 /\ bytes_ok q).
    { cbn in Hq. repeat (destruct Hq as [<-|Hq]; [split; [vm_compute; congruence|repeat constructor; unfold is_byte; lia]|]). contradiction. }
    destruct Hq' as (L & B). cbn in Hp. repeat (destruct Hp as [<-|Hp]; [first [apply word_crosses; try assumption; lia|apply ex_crosses; try assumption; lia]|]). contradiction.
  - assert (Hcs : forall cs, In cs (chunk_sizes (calls_of 1 wire_calls)) -> 8 <= cs <= 65535) by (intros cs [<-|[]]; lia). split; [exact Hcs|].
    intros cs q ps Hc Hq Hp. specialize (Hcs cs Hc). assert (Hq' : zlen q <= 8 /\ bytes_ok q).
    { cbn in Hq. repeat (destruct Hq as [<-|Hq]; [split; [vm_compute; congruence|repeat constructor; unfold is_byte; lia]|]). contradiction. }
    destruct Hq' as (L & B). cbn in Hp. repeat (destruct Hp as [<-|Hp]; [first [apply word_crosses; try assumption; lia|apply ex_crosses; try assumption; lia]|]). contradiction.
  - assert (E : calls_of (S (S (S i))) wire_calls = []) by reflexivity. rewrite E. split; [intros cs [<-|[]]; lia|intros cs q ps _ _ []].
Qed.
Example C72_over_bytes_example :
  (forall db q ps, outcome_ok (snd (ptoy db q ps))) /\ (forall i : nat, ser_ok plain) /\ (forall i, cut_ok (wire_cut i)) /\
  (forall i, wire_fit i = true -> fits false (calls_of i wire_calls)) /\
  exists rs y, bhappens ptoy (fun _ => plain) wire_cut false (bopened (fun _ => false) 0 (fun i => i)) wire_calls rs y /\
  map snd rs = [7; 7; 12; 12; 12; 12; 12; 12; 12; 12; 12; 13] /\ nth 7 rs (NoFuel, 0) = (Panic, 12) /\
  map fst (map (fun k => nth k rs (NoFuel, 0)) [2; 4; 6; 8; 9; 10; 11]%nat) =
    [Ok (OResult (Some []) None); Ok (OResult None (Some (EDrv FConn 464 (Some (EFailMsg []))))); Ok (ONext (Some [VInt KInt64 0]) None None);
     Ok (ONext (Some [VStr [104; 105]]) None None); Ok (ONext None (Some []) (Some EEOF)); Ok (OErr None);
     Ok (OQueryAll (Some [[VInt KInt64 12]; [VStr [104; 105]]]) (Some hdr_b) (Some []) None)] /\
  let '(db, st) := states (vexec ptoy) takes false (fun _ => false) 0 (starts wire_fit 0) wire_calls rs in
  db = 13 /\ st 2%nat = None /\ option_map sp_phase (st 0%nat) = Some PIdle /\ option_map sp_phase (st 1%nat) = Some PIdle.
Proof.
  split; [exact ptoy_ok|]. split; [intros _; exact plain_ok|]. split; [exact wire_cut_ok|]. split; [exact wire_fits|].
  do 2 eexists. split.
  - unfold wire_calls.
    repeat (eapply bhappens_cons; [exists 20%nat; eexists; split; [vm_compute; reflexivity|split; [discriminate|reflexivity]]|]). apply bhappens_nil.
  - vm_compute. repeat split.
Qed.
