(** Property C84: what a caller does with its slices and maps between calls. *)
From Coq Require Import ZArith List Bool Arith Lia.
From Verif Require Import GoPrims Value Errors Misc Session SessionVoc SessionGen ServerSpec SessionSpec SessionBolt SessionUse SessionAlias PropsBolt.
Import ListNotations.
Open Scope nat_scope.

(** ** Programs that write into what they share with the driver
    [Scribble s j q]: element [j] of the slice that statement [s] was prepared with becomes [q] (conn.go:485-494
    PreparePipeline, conn.go:806 QueryPipeline; a slice cannot be made longer or shorter through another variable).
    [Deface r m]: the map that Metadata returned for the rows [r] becomes [m] (rows.go:116-118, 281). *)
Inductive deed := Call (o : op) | Scribble (s j : nat) (q : str) | Deface (r : nat) (m : md).
Definition scribbled (j : nat) (q : str) (s : stmt) : stmt :=
  {| s_queries := upd j q (s_queries s); s_query := s_query s; s_conn := s_conn s; s_closed := s_closed s; s_rows := s_rows s |}.
Definition defaced (m : md) (r : rows) : rows :=
  {| r_md := m; r_stmt := r_stmt r; r_closed := r_closed r; r_consumed := r_consumed r; r_finished := r_finished r;
     r_pidx := r_pidx r; r_closeStmt := r_closeStmt r |}.
Section Live.
Context {N : Type} (ops : netops N).
Variable mk : bool.
Definition scribble (s j : nat) (q : str) (w : world N) : world N :=
  match nth_error (w_stmts w) s with
  | Some x => Build_world (w_conn w) (upd s (scribbled j q x) (w_stmts w)) (w_rows w) (w_txs w) (w_net w)
  | None => w
  end.
Definition deface (r : nat) (m : md) (w : world N) : world N :=
  match nth_error (w_rows w) r with
  | Some x => Build_world (w_conn w) (w_stmts w) (upd r (defaced m x) (w_rows w)) (w_txs w) (w_net w)
  | None => w
  end.
Fixpoint live (f : nat) (ds : list deed) (w : world N) : list out * outc unit * world N :=
  match ds with
  | [] => ([], Ok tt, w)
  | Scribble s j q :: ds' => live f ds' (scribble s j q w)
  | Deface r m :: ds' => live f ds' (deface r m w)
  | Call o :: ds' =>
      match step ops mk f o w with
      | (Ok a, w') => let '(l, r, w'') := live f ds' w' in (a :: l, r, w'')
      | (Panic, w') => ([], Panic, w')
      | (NoFuel, w') => ([], NoFuel, w')
      end
  end.
Fixpoint calls_of (ds : list deed) : list op :=
  match ds with [] => [] | Call o :: ds' => o :: calls_of ds' | _ :: ds' => calls_of ds' end.

(** A caller that does not run a pipeline again after it has written into its slice, nor asks for metadata it has written into.
    [b], [d]: what it has written into. *)
Fixpoint tidy (b d : nat -> bool) (ds : list deed) : Prop :=
  match ds with
  | [] => True
  | Scribble s _ _ :: ds' => tidy (fun i => (i =? s) || b i) d ds'
  | Deface r _ :: ds' => tidy b (fun i => (i =? r) || d i) ds'
  | Call o :: ds' => match o with SExecPipeline s _ | SQueryPipeline s _ => b s = false | RMeta r => d r = false | _ => True end /\ tidy b d ds'
  end.

Lemma RA_same (w : world N) : RA (fun _ => false) (fun _ => false) w w.
Proof. unfold RA. repeat (split; [reflexivity|]). split; [apply each_refl; intros; apply like_s_refl|]. split; [apply each_refl; intros; apply like_r_refl|]. split; discriminate. Qed.
Lemma like_s_weak b s s' : like_s b s s' -> like_s true s s'.
Proof. intros (H1 & H2 & H3 & H4 & H5 & H6). unfold like_s. repeat (split; [assumption|]). discriminate. Qed.
Lemma like_r_weak b s s' : like_r b s s' -> like_r true s s'.
Proof. intros (H1 & H2 & H3 & H4 & H5 & H6 & H7). unfold like_r. repeat (split; [assumption|]). discriminate. Qed.
Lemma RA_scribble b d (w w' : world N) s j q : RA b d w w' -> exists b', RA b' d (scribble s j q w) w' /\ (forall i, b' i = true -> (i =? s) || b i = true).
Proof.
  intros HR. pose proof HR as (H1 & H2 & H3 & H4 & H5 & H6 & H7). unfold scribble. destruct (nth_error (w_stmts w) s) as [x|] eqn:E.
  2: { exists b. split; [exact HR|]. intros i ->. apply orb_true_r. }
  exists (fun i => (i =? s) || b i). split; [|auto]. unfold RA. cbn [w_conn w_txs w_net w_stmts w_rows]. repeat (split; [assumption|]).
  split; [|split; [exact H5|split; [|exact H7]]].
  - destruct H4 as (HL & H4). split; [now rewrite len_upd|]. intros i a a' Ea Ea'. destruct (nth_upd _ _ _ _ _ _ Ea) as [(-> & ->)|(Hn & E1)].
    + rewrite Nat.eqb_refl. cbn [orb]. destruct (H4 _ _ _ E Ea') as (K1 & K2 & K3 & K4 & K5 & K6). unfold like_s. cbn. repeat (split; [assumption|]). rewrite len_upd. split; [assumption|discriminate].
    + destruct (Nat.eqb_spec i s) as [->|_]; [congruence|]. cbn [orb]. eauto.
  - intros i Hi. rewrite len_upd. apply orb_true_iff in Hi as [Hi|Hi]; [|auto]. apply Nat.eqb_eq in Hi as ->. apply nth_error_Some. congruence.
Qed.
Lemma RA_deface b d (w w' : world N) s m : RA b d w w' -> exists d', RA b d' (deface s m w) w' /\ (forall i, d' i = true -> (i =? s) || d i = true).
Proof.
  intros HR. pose proof HR as (H1 & H2 & H3 & H4 & H5 & H6 & H7). unfold deface. destruct (nth_error (w_rows w) s) as [x|] eqn:E.
  2: { exists d. split; [exact HR|]. intros i ->. apply orb_true_r. }
  exists (fun i => (i =? s) || d i). split; [|auto]. unfold RA. cbn [w_conn w_txs w_net w_stmts w_rows]. repeat (split; [assumption|]).
  split; [|split; [exact H6|]].
  - destruct H5 as (HL & H5). split; [now rewrite len_upd|]. intros i a a' Ea Ea'. destruct (nth_upd _ _ _ _ _ _ Ea) as [(-> & ->)|(Hn & E1)].
    + rewrite Nat.eqb_refl. cbn [orb]. destruct (H5 _ _ _ E Ea') as (K1 & K2 & K3 & K4 & K5 & K6 & K7). unfold like_r. cbn. repeat (split; [assumption|]). discriminate.
    + destruct (Nat.eqb_spec i s) as [->|_]; [congruence|]. cbn [orb]. eauto.
  - intros i Hi. rewrite len_upd. apply orb_true_iff in Hi as [Hi|Hi]; [|auto]. apply Nat.eqb_eq in Hi as ->. apply nth_error_Some. congruence.
Qed.
Lemma false_up (b c : bool) : (b = true -> c = true) -> c = false -> b = false.
Proof. destruct b, c; intuition congruence. Qed.
Lemma tidy_same f ds : forall b d b0 d0 w w', tidy b d ds -> RA b0 d0 w w' -> (forall i, b0 i = true -> b i = true) -> (forall i, d0 i = true -> d i = true) ->
  fst (live f ds w) = fst (run ops mk f (calls_of ds) w') /\
  w_net (snd (live f ds w)) = w_net (snd (run ops mk f (calls_of ds) w')) /\ w_conn (snd (live f ds w)) = w_conn (snd (run ops mk f (calls_of ds) w')).
Proof.
  induction ds as [|[o|s j q|r m] ds IH]; intros b d b0 d0 w w' HT HR Hb Hd; cbn [live calls_of run tidy] in *.
  - destruct HR as (? & ? & ? & _). auto.
  - destruct HT as (HB & HT). destruct (Al_step ops b0 d0 mk f o) with (w := w) (w' := w') as (E & HR' & _); [|exact HR|].
    { clear - HB Hb Hd. destruct o; cbn in *; try exact I; (eapply false_up; [|exact HB]); auto. }
    destruct (step ops mk f o w) as [[a| |] w1], (step ops mk f o w') as [x w1']; cbn [fst snd] in E, HR'; subst x; cbn [fst snd].
    + destruct (IH _ _ _ _ _ _ HT HR' Hb Hd) as (F & G). destruct (live f ds w1) as [[l r] w2], (run ops mk f (calls_of ds) w1') as [[l' r'] w2']. cbn [fst snd] in *. injection F as -> ->. auto.
    + destruct HR' as (? & ? & ? & _). auto.
    + destruct HR' as (? & ? & ? & _). auto.
  - destruct (RA_scribble _ _ _ _ s j q HR) as (b' & HR' & Hb'). eapply IH; [exact HT|exact HR'| |exact Hd].
    intros i Hi. apply Hb' in Hi. apply orb_true_iff in Hi as [Hi|Hi]; [now rewrite Hi|]. rewrite (Hb _ Hi). apply orb_true_r.
  - destruct (RA_deface _ _ _ _ r m HR) as (d' & HR' & Hd'). eapply IH; [exact HT|exact HR'|exact Hb|].
    intros i Hi. apply Hd' in Hi. apply orb_true_iff in Hi as [Hi|Hi]; [now rewrite Hi|]. rewrite (Hd _ Hi). apply orb_true_r.
Qed.
(** The strongest true version: everything but running the pipeline again, and Metadata, is unaffected, on any network, in any state. *)
Theorem C84_partial : forall f ds w, tidy (fun _ => false) (fun _ => false) ds ->
  fst (live f ds w) = fst (run ops mk f (calls_of ds) w) /\ w_net (snd (live f ds w)) = w_net (snd (run ops mk f (calls_of ds) w)).
Proof. intros f ds w HT. destruct (tidy_same f ds _ _ _ _ w w HT (RA_same w)) as (H1 & H2 & _); auto. Qed.

(** ** What happens otherwise: the pipeline is the one in the slice at the time it is run. *)
Definition overwrite (s : nat) (qs : list str) : list deed := map (fun jq => Scribble s (fst jq) (snd jq)) (combine (seq 0 (length qs)) qs).
Lemma scribbles f s rest : forall qs' done qs w x, nth_error (w_stmts w) s = Some x -> s_queries x = done ++ qs -> length qs = length qs' ->
  live f (map (fun jq => Scribble s (fst jq) (snd jq)) (combine (seq (length done) (length qs')) qs') ++ rest) w =
  live f rest (Build_world (w_conn w) (upd s {| s_queries := done ++ qs'; s_query := s_query x; s_conn := s_conn x; s_closed := s_closed x; s_rows := s_rows x |} (w_stmts w)) (w_rows w) (w_txs w) (w_net w)).
Proof.
  assert (US : forall A (l : list A) i x, nth_error l i = Some x -> upd i x l = l).
  { intros A l. induction l as [|y l IH]; intros [|i] x E; cbn in *; try discriminate; f_equal; [congruence|auto]. }
  assert (UU : forall A (l : list A) i x y, upd i x (upd i y l) = upd i x l).
  { intros A l. induction l as [|z l IH]; intros [|i] x y; cbn; auto. f_equal. auto. }
  induction qs' as [|q' qs' IH]; intros done [|q qs] w x Hx Hq HL; try discriminate HL; cbn [length seq combine map app live].
  - rewrite <- Hq. destruct w as [c ss rs ts n], x. cbn in *. rewrite US by exact Hx. reflexivity.
  - unfold scribble at 1. rewrite Hx. cbn [fst snd].
    assert (UQ : upd (length done) q' (s_queries x) = (done ++ [q']) ++ qs).
    { rewrite Hq. clear. induction done as [|a done IHd]; cbn; [reflexivity|]. f_equal. exact IHd. }
    replace (S (length done)) with (length (done ++ [q'])) by (rewrite app_length; cbn; lia).
    rewrite (IH (done ++ [q']) qs _ (scribbled (length done) q' x)); [|cbn; eapply nth_upd_same; eauto|exact UQ|now injection HL].
    cbn [w_conn w_stmts w_rows w_txs w_net scribbled s_query s_conn s_closed s_rows]. rewrite UU, <- app_assoc. reflexivity.
Qed.
(** Preparing [qs] and then writing [qs'] into the slice is preparing [qs'], for everything that comes later. *)
Theorem C84_overwritten : forall f qs qs' rest w, length qs = length qs' ->
  live f (Call (CPreparePipeline qs) :: overwrite (length (w_stmts w)) qs' ++ rest) w = live f (Call (CPreparePipeline qs') :: rest) w.
Proof.
  intros f qs qs' rest [c ss rs ts n] HL. cbn [live]. unfold step, step_body, prepare_pipeline, guard_open, bind, getc, ret, news, modc, setc. cbn [w_conn w_stmts w_rows w_txs w_net].
  assert (US : forall x (y : stmt), upd (length ss) x (ss ++ [y]) = ss ++ [x]) by (clear; intros; induction ss; cbn; congruence).
  assert (Out : forall w0 : world N, nth_error (w_stmts w0) (length ss) = None -> live f (overwrite (length ss) qs' ++ rest) w0 = live f rest w0).
  { intros w0 H0. unfold overwrite. generalize (seq 0 (length qs')). clear HL. intros l. revert l. induction qs' as [|q qs1 IH]; intros [|j l]; cbn [combine map app live]; auto.
    unfold scribble. cbn [fst snd]. rewrite H0. apply IH. }
  destruct (c_stmt c) as [sid|]; [rewrite Out; [reflexivity|apply nth_error_None; cbn; lia]|].
  destruct (c_closed c); [rewrite Out; [reflexivity|apply nth_error_None; cbn; lia]|].
  cbv beta iota zeta delta [w_conn w_stmts w_rows w_txs w_net modc bind getc setc ret]. unfold overwrite. change (seq 0 (length qs')) with (seq (length (@nil str)) (length qs')). rewrite (scribbles f (length ss) rest qs' [] qs) with (x := new_pipe_stmt qs); [|cbn; rewrite nth_error_app2 by lia; now rewrite Nat.sub_diag|reflexivity|exact HL].
  cbn [w_conn w_stmts w_rows w_txs w_net app]. rewrite US. reflexivity.
Qed.
(** Metadata is whatever the caller left in the map. *)
Theorem C84_metadata_refuted : forall f r m w, r < length (w_rows w) -> fst (live f [Deface r m; Call (RMeta r)] w) = ([OMeta m], Ok tt).
Proof.
  intros f r m w Hr. cbn [live]. unfold deface. destruct (nth_error (w_rows w) r) as [x|] eqn:E; [|apply nth_error_None in E; lia].
  unfold step, step_body, bind, getr. cbn [w_rows]. rewrite (nth_upd_same _ _ _ _ _ E). reflexivity.
Qed.
End Live.
Print Assumptions C84_metadata_refuted.
Print Assumptions C84_partial.
Print Assumptions C84_overwritten.

Section Refuted.
Context {DB : Type}.
Variable exec : DB -> str -> md -> DB * outcome.
Variable sendable : goval -> bool.
Variable mk : bool.
Hypothesis Hctl : controls sendable.
(** With a server that follows the protocol: prepared with [qs], the pipeline runs [qs'].  Any two pipelines of the
    same length, any database, any such connection. *)
Theorem C84_refuted : forall w db qs qs' pss rs db', quiet w db -> length qs = length qs' -> length pss = length qs' ->
  all_sendable sendable (combine qs' pss) = true -> in_order exec db (combine qs' pss) rs db' ->
  exists f0 w', (forall f, f0 <= f ->
    live (bolt exec sendable) mk f (Call (CPreparePipeline qs) :: overwrite (length (w_stmts w)) qs' ++ [Call (SExecPipeline (length (w_stmts w)) pss)]) w =
    ([OHandle (Some (length (w_stmts w))) None; OResults (Some (map snd rs)) None], Ok tt, w')) /\ b_db (w_net w') = db'.
Proof.
  intros w db qs qs' pss rs db' (Hc & Hs & Ht & Hn) HL HP HS HO.
  set (s := length (w_stmts w)).
  set (w1 := Build_world (c_set_stmt (Some s) (w_conn w)) (w_stmts w ++ [new_pipe_stmt qs']) (w_rows w) (w_txs w) (w_net w)).
  assert (HA : prepared w1 db s (Many qs')).
  { repeat split; try assumption; try exact Hc; try exact Ht. cbn. rewrite nth_error_app2 by (unfold s; lia). unfold s. now rewrite Nat.sub_diag. }
  destruct (C33_exec_pipeline exec sendable mk Hctl w1 db (SExecPipeline s pss) (combine qs' pss) (fun w' db' => prepared w' db' s (Many qs')) rs db') as (w2 & (f0 & H2) & HB & _).
  { exists qs'. auto. } { exact HS. } { exact HO. }
  exists f0, w2. split; [|destruct HB as (_ & _ & _ & -> & _); reflexivity]. intros f Hf. specialize (H2 f Hf). cbn [run] in H2.
  fold s. rewrite (C84_overwritten _ mk f qs qs' [Call (SExecPipeline s pss)] w HL). cbn [live].
  assert (E1 : step (bolt exec sendable) mk f (CPreparePipeline qs') w = (Ok (OHandle (Some s) None), w1)).
  { unfold step, step_body, prepare_pipeline, guard_open, bind, getc, ret, news, modc, setc. rewrite Hs, Hc. reflexivity. }
  rewrite E1. destruct (step (bolt exec sendable) mk f (SExecPipeline s pss) w1) as [[a| |] w3]; try discriminate H2. injection H2 as -> ->. reflexivity.
Qed.
End Refuted.
Print Assumptions C84_refuted.

(** Prepared to run query 4 (which changes nothing), the pipeline increments the counter. *)
Example C84_example :
  let p q := [Call (CPreparePipeline [[4]%Z; [4]%Z])] ++ q ++ [Call (SExecPipeline 0 [[]; []])] in
  fst (fst (live (bolt toy fine) true 30 (p [Scribble 0 1 [1]%Z]) (conn0 5))) = [OHandle (Some 0) None; OResults (Some [bad 4; bad 5]) None] /\
  fst (fst (live (bolt toy fine) true 30 (p []) (conn0 5))) = [OHandle (Some 0) None; OResults (Some [bad 4; bad 4]) None] /\
  b_db (w_net (snd (live (bolt toy fine) true 30 (p [Scribble 0 1 [1]%Z]) (conn0 5)))) = 6%Z /\
  b_db (w_net (snd (live (bolt toy fine) true 30 (p []) (conn0 5)))) = 5%Z.
Proof. vm_compute. repeat split. Qed.
(** A tidy program: the slice is reused while the results are read; and the hypotheses of C84_refuted hold of something. *)
Example C84_tidy :
  let ds := [Call (CPreparePipeline [[1]%Z; [1]%Z]); Call (SQueryPipeline 0 [[]; []]); Scribble 0 0 [2]%Z; Scribble 0 1 [3]%Z; Call (RNextPipeline 0); Deface 0 []; Call (RNextPipeline 0); Call (RClose 0); Call (SClose 0)] in
  tidy (fun _ => false) (fun _ => false) ds /\ snd (fst (live (bolt toy fine) true 30 ds (conn0 5))) = Ok tt /\
  in_order toy 5%Z (combine [[1]%Z] [[]]) [(hdr, [[VInt KInt64 5]; [VInt KInt64 6]], bad 5)] 6%Z.
Proof. split; [cbn; tauto|]. split; [vm_compute; reflexivity|]. cbn [combine]. eapply in_order_cons; [reflexivity|apply in_order_nil]. Qed.
