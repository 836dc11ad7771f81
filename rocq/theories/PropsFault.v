(** Faults on the receiving side: what is reported, what is left to read, and what the
    calls after a read timeout return. *)
From Coq Require Import ZArith List Bool Lia.
From Verif Require Import GoPrims Value PackSpec PrimLemmas Encoder Decoder Framing ReadFaults Errors Misc Session SessionVoc SessionErr SessionGen SessionSim ServerSpec SessionSpec SessionBolt SessionNet.
Import ListNotations.
Open Scope Z_scope.

(** * C17 on a connection *)
(** A transport that keeps a list of its Write calls: the bytes given, and whether it failed. *)
Definition noting {T} (io : transport T) : transport (T * list (bytes * bool)) :=
  {| t_put := fun t p => let '(t', w) := t_put io (fst t) p in ((t', snd t ++ [(p, wc_err w)]), w);
     t_in := fun t => t_in io (fst t);
     t_left := fun t r => (t_left io (fst t) r, snd t);
     t_close := fun t => let '(t', b) := t_close io (fst t) in ((t', snd t), b) |}.
Lemma puts_noted {T} (io : transport T) : forall ps t l t' ok, puts (noting io) (t, l) ps = (t', ok) ->
  exists calls, snd t' = l ++ calls /\
    if ok then calls = map (fun p => (p, false)) ps
    else exists before p after, ps = before ++ p :: after /\ calls = map (fun p => (p, false)) before ++ [(p, true)].
Proof.
  induction ps as [|p ps IH]; cbn [puts noting t_put fst snd map]; intros t l t' ok E.
  - inversion E; subst. exists []. now rewrite app_nil_r.
  - destruct (t_put io t p) as [t1 w]. destruct (wc_err w) eqn:W.
    + inversion E; subst. exists [(p, true)]. split; [reflexivity|]. now exists [], p, ps.
    + apply IH in E as (calls & E1 & E2). exists ((p, false) :: calls). split; [now rewrite E1, <- app_assoc|].
      destruct ok; [now rewrite E2|]. destruct E2 as (b & q & a & -> & ->). now exists (p :: b), q, a.
Qed.
(** Sending a message on a connection: the Write calls carry the complete encoding and all
    of them succeed, or they carry a beginning of it, only the last one failed, and the
    failure is reported. *)
Theorem C17_connection : forall T (io : transport T) mk t l cs v t' x,
  n_send (bytenet (noting io) mk) (t, l) cs v = (t', x) ->
  exists calls, snd t' = l ++ calls /\
  match x with
  | SOk | SRejected => map fst calls = fst (encode cs v) /\ Forall (fun c => snd c = false) calls /\
      (x = SOk <-> snd (encode cs v) = None)
  | SIOErr => exists before p after, calls = map (fun p => (p, false)) before ++ [(p, true)] /\
      fst (encode cs v) = before ++ p :: after
  end.
Proof.
  intros T io mk t l cs v t' x. cbn [n_send bytenet]. destruct (encode cs v) as [outs e]. cbn [fst snd].
  destruct (puts (noting io) (t, l) outs) as [t1 ok] eqn:E. apply puts_noted in E as (calls & E1 & E2). intros X. inversion X; subst t1 x.
  exists calls. split; [exact E1|]. destruct ok.
  - assert (H : map fst calls = outs /\ Forall (fun c => snd c = false) calls).
    { subst calls. rewrite map_map, map_id. split; [reflexivity|]. apply Forall_map, Forall_forall. now cbn. }
    destruct e; (split; [apply H|]; split; [apply H|]); split; congruence.
  - destruct E2 as (b & p & a & -> & ->). now exists b, p, a.
Qed.
Print Assumptions C17_connection.
(** A transport whose third write fails: half of the message is offered, the rest never. *)
Example C17_connection_example : n_send (bytenet (noting {| t_put := fun (t : nat) _ => (S t, {| wc_n := 0; wc_err := Nat.eqb t 2 |});
    t_in := fun _ => []; t_left := fun t _ => t; t_close := fun t => (t, false) |}) false) (O, []) 1 VPullAll =
  ((3%nat, [([0; 1], false); ([0xB0], false); ([0; 1], true)]), SIOErr).
Proof. reflexivity. Qed.

(** * C20 on a connection *)
(** The handshake makes one Write and, when all twenty bytes went out, one Read of four
    bytes.  Nothing is read after a short write, and a short write that is not reported
    as an error passes for a handshake; so does an answer of one to three bytes. *)
Theorem C20_connection_partial : forall T (io : transport T) mk t t1 w, t_put io t handshake_bytes = (t1, w) ->
  exists t' bad e, n_shake (bytenet io mk) t = (t', (bad, e)) /\
  (bad = true <-> wc_err w = true \/ (wc_n w = 20 /\ exists rest, t_in io t1 = RFail :: rest)) /\
  (wc_n w <> 20 -> t' = t1 /\ (e = None <-> wc_err w = false)) /\
  (wc_n w = 20 ->
   match t_in io t1 with
   | [] => t' = t_left io t1 [] /\ e <> None
   | RFail :: r => t' = t_left io t1 r /\ e <> None
   | RData l :: r => t' = t_left io t1 (if zlen l <=? 4 then r else RData (zdrop 4 l) :: r) /\
       (e = None <-> ztake 4 l <> [0; 0; 0; 0])
   end).
Proof.
  intros T io mk t t1 w E. cbn [n_shake bytenet]. rewrite E. unfold handshake. destruct (Z.eqb_spec (wc_n w) 20) as [H|H]; cbn [negb].
  - assert (P : forall b (r' : reader), (let '(e, r) := if negb (zlen b =? 4) then (@None gerr, r') else if str_eqb b [0; 0; 0; 0] then (Some (enew FConn 257), r') else (None, r')
        in (t_left io t1 r, (wc_err w || false, e))) = (t_left io t1 r', (wc_err w || false, if str_eqb b [0; 0; 0; 0] then Some (enew FConn 257) else None))).
    { intros b r'. destruct (str_eqb b [0; 0; 0; 0]) eqn:S; [apply str_eqb_eq in S; now subst b|]. now destruct (negb (zlen b =? 4)). }
    assert (Q : forall b, (if str_eqb b [0; 0; 0; 0] then Some (enew FConn 257) else None) = None <-> b <> [0; 0; 0; 0]).
    { intros b. destruct (str_eqb b [0; 0; 0; 0]) eqn:S; [apply str_eqb_eq in S|apply str_eqb_neq in S]; split; congruence. }
    assert (ZZ : forall (l : bytes) r, wc_err w || false = true <-> wc_err w = true \/ (wc_n w = 20 /\ exists rest, RData l :: r = RFail :: rest)).
    { intros l r. rewrite orb_false_r. split; [tauto|]. intros [K|(_ & rest & K)]; [exact K|discriminate]. }
    destruct (t_in io t1) as [|[l|] r]; cbn [read_once].
    + change (zlen (@nil Z) =? 4) with false. cbn [negb snd fst]. do 3 eexists. split; [reflexivity|]. split; [|split; [congruence|intros _; split; [reflexivity|discriminate]]].
      rewrite orb_false_r. split; [tauto|]. intros [K|(_ & rest & K)]; [exact K|discriminate].
    + destruct (Z.leb_spec (zlen l) 4) as [L|L]; cbn [snd fst]; rewrite P; do 3 eexists; (split; [reflexivity|]); (split; [apply ZZ|]); (split; [congruence|]); intros _; (split; [reflexivity|]).
      * rewrite (ztake_all 4 l) by lia. apply Q.
      * apply Q.
    + change (zlen (@nil Z) =? 4) with false. cbn [negb snd fst]. do 3 eexists. split; [reflexivity|]. split; [|split; [congruence|intros _; split; [reflexivity|discriminate]]].
      rewrite orb_true_r. split; [|reflexivity]. intros _. right. split; [exact H|]. now exists r.
  - do 3 eexists. split; [reflexivity|]. split; [|split; [|congruence]].
    + split; [tauto|]. intros [K|(K & _)]; [exact K|congruence].
    + intros _. split; [reflexivity|]. destruct (wc_err w); split; congruence.
Qed.
Print Assumptions C20_connection_partial.
(** Seven bytes taken without an error: the connection is used although the server has
    not seen a complete handshake; its answer to the first request is read instead. *)
Example C20_connection_example : n_shake (bytenet {| t_put := fun (t : nat) _ => (S t, {| wc_n := 7; wc_err := false |});
    t_in := fun _ => [RData [0; 0; 0; 0]]; t_left := fun t _ => t; t_close := fun t => (t, false) |} false) O = (1%nat, (false, None)).
Proof. reflexivity. Qed.

(** * C61 *)
Lemma unmarshal_frame mk m w : Frame m w -> Forall is_byte w ->
  unmarshal mk w = match decode mk m with DOk v _ => DVal v | DErr e => DFail e | DPanic => DCrash | DFuel => DHang end.
Proof.
  intros F HB. unfold unmarshal, Decode.
  assert (W : w <> []).
  { intros ->. destruct F as (cs & HC & _). apply Chunks_len in HC. unfold zlen in HC. cbn [length] in HC. lia. }
  destruct (read_msg_receives [RData w] m []) as (r2 & E2 & _ & _).
  - constructor; [|constructor]. eexists. split; [reflexivity|exact W].
  - cbn [rbytes]. now rewrite app_nil_r.
  - exists w. cbn [rbytes]. split; [reflexivity|exact F].
  - rewrite E2. destruct (decode mk m); reflexivity.
Qed.
(** Whatever the reads return, Decode has either taken exactly one complete message off
    the stream, and its result is that of Unmarshal on those bytes, or it has taken the
    beginning of one up to a read that failed, returned nothing inside a chunk or met the
    end of the stream; that is the error it reports, and the bytes taken are gone. *)
Theorem C61_read_faults : forall mk r, Forall is_byte (rbytes r) ->
  (exists m w r', Took r w r' /\ Frame m w /\ Decode mk r = (unmarshal mk w, r')) \/
  (exists b l r1 e r', Took r l r1 /\ Unfinished b l /\ Fault b r1 e r' /\ Decode mk r = (DFail e, r')).
Proof.
  intros mk r HB. pose proof (read_msg_took r HB) as H. unfold Decode. destruct (read_msg r) as [m r'|e r'|] eqn:E; [left|right|easy].
  - destruct H as (w & F & T). exists m, w, r'. split; [exact T|]. split; [exact F|].
    pose proof (Took_bytes _ _ _ T) as EB. rewrite EB in HB. apply Forall_app in HB as [HB _].
    rewrite (unmarshal_frame mk m w F HB). destruct (decode mk m); reflexivity.
  - destruct H as (b & l & r1 & T & U & F). now exists b, l, r1, e, r'.
Qed.
Print Assumptions C61_read_faults.
(** A message is never made up from part of one: what was taken before a fault contains
    no complete message. *)
Theorem C61_nothing_made_up : forall b l m rest, Unfinished b l -> ~ Receives l m rest.
Proof. intros b l m rest H. exact (unfinished_no_message b l H m rest). Qed.
Print Assumptions C61_nothing_made_up.
(** On a connection: a failed read is a network error, the end of the stream is an error
    that wraps io.EOF, an empty read inside a chunk an error of its own. *)
Theorem C61_connection : forall mk r, Forall is_byte (rbytes r) ->
  (exists m w r' x, Took r w r' /\ Frame m w /\ recv mk r = (r', x) /\ x <> RNet /\
     match unmarshal mk w with DVal v => x = RMsg v | DFail e => x = RDec (partial_of m) (gerr_of e) | _ => x = RCrash end) \/
  (exists b l r1 r' x, Took r l r1 /\ Unfinished b l /\ recv mk r = (r', x) /\
     (Fault b r1 (DEStream RBad) r' /\ x = RNet \/
      Fault b r1 (DEStream REof) r' /\ x = RDec None (ewrap FDec 45 EEOF) \/
      Fault b r1 DEZeroRead r' /\ x = RDec None (enew FDec 78))).
Proof.
  intros mk r HB. pose proof (read_msg_took r HB) as H. unfold recv. destruct (read_msg r) as [m r'|e r'|] eqn:E; [left|right|easy].
  - destruct H as (w & F & T). pose proof (Took_bytes _ _ _ T) as EB. rewrite EB in HB. apply Forall_app in HB as [HB _].
    pose proof (unmarshal_frame mk m w F HB) as EU.
    destruct (decode mk m) as [v x|e| |]; do 4 eexists; (split; [exact T|]); (split; [exact F|]); (split; [reflexivity|]); rewrite EU; split; congruence.
  - destruct H as (b & l & r1 & T & U & F). exists b, l, r1, r'.
    destruct F; eexists; (split; [exact T|]); (split; [exact U|]); (split; [reflexivity|]).
    + right. left. split; constructor.
    + left. split; constructor.
    + right. right. split; constructor.
Qed.
Print Assumptions C61_connection.

(** the third read of a message fails; the rest is taken for another message *)
Example C61_example :
  let r := [RData [0; 3; 0x82]; RData []; RData [104; 105; 0; 0]] in
  Forall is_byte (rbytes r) /\ Decode true r = (DFail DEZeroRead, [RData [104; 105; 0; 0]]) /\ 
  Decode true [RData [0]; RData []; RData [3; 0x82]; RFail; RData [104; 105; 0; 0]] = (DFail (DEStream RBad), [RData [104; 105; 0; 0]]) /\ 
  Decode true [RData [0]; RData []; RData [3; 0x82]; RData [104; 105; 0]; RData []; RData [0; 7]] = (DVal (VStr [104; 105]), [RData [7]]) /\ 
  Unfinished true [0; 3; 0x82].
Proof.
  cbv zeta. split; [cbn; repeat constructor; unfold is_byte; lia|]. do 3 (split; [vm_compute; reflexivity|]).
  apply (Un_data 3 [0; 3] [0x82]); [|reflexivity]. repeat split; repeat constructor; unfold is_byte; lia.
Qed.

(** * C62 *)
(** [slow ops]: the network [ops], except that the read after the next [k] ones runs into
    the read timeout ([Some k]); the answer it waited for is there for the read after it. *)
Definition slow {N} (ops : netops N) : netops (option nat * N) :=
  {| n_send := fun n cs v => let '(n', r) := n_send ops (snd n) cs v in ((fst n, n'), r);
     n_recv := fun n => match fst n with
                        | Some O => ((None, snd n), RNet)
                        | Some (S k) => let '(n', r) := n_recv ops (snd n) in ((Some k, n'), r)
                        | None => let '(n', r) := n_recv ops (snd n) in ((None, n'), r)
                        end;
     n_close := fun n => let '(n', b) := n_close ops (snd n) in ((fst n, n'), b);
     n_shake := fun n => let '(n', r) := n_shake ops (snd n) in ((fst n, n'), r) |}.

Section Slow.
Context {DB : Type}.
Variable exec : DB -> str -> md -> DB * outcome.
Variable sendable : goval -> bool.
Hypothesis Hpull : sendable VPullAll = true.
Notation net := (slow (bolt exec sendable)).

Notation B := Build_bnet.
Section World.
Variables (c : conn) (ss : list stmt) (rs : list rows) (ts : list tx).
Notation w n := (Build_world c ss rs ts n).
Lemma slow_encode : forall k v n, sendable v = true -> encode_msg net v (w (k, n)) = (Ok None, w (k, served exec n v)).
Proof.
  intros k v n H. unfold encode_msg, bind, getc, getn, setn. cbn. rewrite H. unfold served.
  destruct (serve exec (b_db n) (b_st n) v) as [[db st] l]. reflexivity.
Qed.
Lemma slow_run_pull : forall k q ps n, sendable (VRun q ps) = true ->
  send_run_pull_all net q ps (w (k, n)) = (Ok None, w (k, served exec (served exec n (VRun q ps)) VPullAll)).
Proof.
  intros k q ps n H. unfold send_run_pull_all, send_run, send_pull_all. erewrite bind_ok; [|erewrite bind_ok by (now apply slow_encode); reflexivity].
  cbv beta iota. erewrite bind_ok by (now apply slow_encode). reflexivity.
Qed.
Lemma slow_all : forall lf cls recs m db st q f, (length recs < f)%nat ->
  consume_all_loop net lf cls f (w (None, B db st (answers recs (Ends m) ++ q))) = (Ok (Some (VSuccess m), None), w (None, B db st q)).
Proof.
  unfold answers. induction recs as [|r recs IH]; intros m db st q f Hf; (destruct f as [|f]; [cbn in Hf; lia|]); cbn [map app consume_all_loop].
  - reflexivity.
  - cbn [length] in Hf. rewrite <- (IH m db st q f ltac:(lia)). reflexivity.
Qed.
End World.

Definition idle (c : conn) : Prop := c_closed c = false /\ c_stmt c = None.
Lemma idle_again : forall c, idle c -> idle (c_set_stmt None (c_set_err c)) /\ idle (c_set_stmt None c).
Proof. intros c (A & _). repeat split; exact A. Qed.
Lemma snoc_last : forall A (l : list A) x, nth_error (l ++ [x]) (length l) = Some x.
Proof. intros. rewrite nth_error_app2, Nat.sub_diag by lia. reflexivity. Qed.
(** the Close of the statement an ExecNeo has made *)
Lemma slow_stmt_close : forall lf cls c ss rs ts n q,
  stmt_close net lf cls (length ss) (Build_world c (ss ++ [new_stmt q]) rs ts n) =
    (Ok None, Build_world (c_set_stmt None c) (upd (length ss) (s_set_closed (new_stmt q)) (ss ++ [new_stmt q])) rs ts n).
Proof.
  intros. unfold stmt_close. erewrite bind_gets by apply snoc_last. cbv beta iota. cbn [s_closed s_rows new_stmt].
  erewrite bind_ok by reflexivity. cbv beta iota. unfold need_conn, mods, modc, bind, gets, getc, setc, sets, ret. cbn [w_stmts].
  rewrite snoc_last. cbn [w_stmts s_conn new_stmt w_conn w_rows w_txs w_net]. rewrite snoc_last. reflexivity.
Qed.

(** ExecNeo whose first read times out *)
Lemma slow_exec_fails : forall mk f c ss rs ts db q ps db' o, idle c -> sendable (VRun q ps) = true -> exec db q ps = (db', o) ->
  exists ss', step net mk f (CExec q ps) (Build_world c ss rs ts (Some O, B db Ready [])) =
    (Ok (OResult None (Some (ewrap FDec 45 EBadConn))),
     Build_world (c_set_stmt None (c_set_err c)) ss' rs ts (None, B db' (end_state [Some o]) (reply1 (Some o)))).
Proof.
  intros mk f c ss rs ts db q ps db' o (A1 & A2) Hs E. eexists. unfold step, step_body. rewrite (bind_ok _ _ _ _ _ _ (Build_world (c_set_stmt None (c_set_err c)) (upd (length ss) (s_set_closed (new_stmt q)) (ss ++ [new_stmt q])) rs ts (None, B db' (end_state [Some o]) (reply1 (Some o)))) (None, Some (ewrap FDec 45 EBadConn))); [reflexivity|].
  unfold exec_neo, guard_open. erewrite bind_ok by reflexivity. cbn [w_conn]. rewrite A1, A2.
  erewrite bind_ok by reflexivity. unfold with_defer.
  assert (X : stmt_exec net f (close net f) (length ss) ps (Build_world c (ss ++ [new_stmt q]) rs ts (Some O, B db Ready [])) =
    (Ok (None, Some (ewrap FDec 45 EBadConn)), Build_world (c_set_err c) (ss ++ [new_stmt q]) rs ts (None, B db' (end_state [Some o]) (reply1 (Some o))))).
  { unfold stmt_exec. erewrite bind_gets by apply snoc_last. cbn [s_closed s_rows new_stmt s_query].
    erewrite bind_ok; [|unfold need_conn; erewrite bind_gets by apply snoc_last; reflexivity]. cbv beta iota.
    erewrite bind_ok; [|unfold send_run_pull_all_consume_all; erewrite bind_ok by (now apply slow_run_pull); cbv beta iota;
      rewrite (served_run_pull exec db q ps [] db' o E); cbn [app]; erewrite bind_ok; [|reflexivity]; reflexivity].
    reflexivity. }
  cbn [w_stmts w_conn w_rows w_txs w_net]. rewrite X. rewrite slow_stmt_close. reflexivity.
Qed.
(** ExecNeo with the answer to another query still to be read *)
Lemma slow_exec_stale : forall mk f c ss rs ts db q ps db' o h recs m, idle c -> sendable (VRun q ps) = true -> exec db q ps = (db', o) ->
  (length recs < f)%nat ->
  exists ss', step net mk f (CExec q ps) (Build_world c ss rs ts (None, B db Ready (reply1 (Some (Runs h recs (Ends m)))))) =
    (Ok (OResult (Some m) None), Build_world (c_set_stmt None c) ss' rs ts (None, B db' (end_state [Some o]) (reply1 (Some o)))).
Proof.
  intros mk f c ss rs ts db q ps db' o h recs m (A1 & A2) Hs E Hf. eexists. unfold step, step_body. rewrite (bind_ok _ _ _ _ _ _ (Build_world (c_set_stmt None c) (upd (length ss) (s_set_closed (new_stmt q)) (ss ++ [new_stmt q])) rs ts (None, B db' (end_state [Some o]) (reply1 (Some o)))) (Some m, None)); [reflexivity|].
  unfold exec_neo, guard_open. erewrite bind_ok by reflexivity. cbn [w_conn]. rewrite A1, A2.
  erewrite bind_ok by reflexivity. unfold with_defer.
  assert (X : stmt_exec net f (close net f) (length ss) ps (Build_world c (ss ++ [new_stmt q]) rs ts (None, B db Ready (reply1 (Some (Runs h recs (Ends m)))))) =
    (Ok (Some m, None), Build_world c (ss ++ [new_stmt q]) rs ts (None, B db' (end_state [Some o]) (reply1 (Some o))))).
  { unfold stmt_exec. erewrite bind_gets by apply snoc_last. cbn [s_closed s_rows new_stmt s_query].
    erewrite bind_ok; [|unfold need_conn; erewrite bind_gets by apply snoc_last; reflexivity]. cbv beta iota.
    erewrite bind_ok; [|unfold send_run_pull_all_consume_all; erewrite bind_ok by (now apply slow_run_pull); cbv beta iota;
      rewrite (served_run_pull exec db q ps _ db' o E); cbn [app reply1]; erewrite bind_ok; [|reflexivity]; cbv beta iota;
      unfold consume_all; erewrite bind_ok by (apply slow_all; exact Hf); reflexivity].
    reflexivity. }
  cbn [w_stmts w_conn w_rows w_txs w_net]. rewrite X. rewrite slow_stmt_close. reflexivity.
Qed.

(** ExecNeo of one query times out; ExecNeo of the next returns the answer to the first,
    without an error, although both were run. *)
Theorem C62_refuted : forall mk pooled db q1 ps1 db1 h1 recs1 m1 q2 ps2 db2 h2 recs2 m2,
  sendable (VRun q1 ps1) = true -> sendable (VRun q2 ps2) = true ->
  exec db q1 ps1 = (db1, Runs h1 recs1 (Ends m1)) -> exec db1 q2 ps2 = (db2, Runs h2 recs2 (Ends m2)) ->
  exists f0, forall f, (f0 <= f)%nat -> exists w',
    run net mk f [CExec q1 ps1; CExec q2 ps2] (fresh pooled (Some O, {| b_db := db; b_st := Ready; b_q := [] |})) =
      ([OResult None (Some (ewrap FDec 45 EBadConn)); OResult (Some m1) None], Ok tt, w') /\
    b_db (snd (w_net w')) = db2 /\ c_err (w_conn w') = true /\ c_closed (w_conn w') = false.
Proof.
  intros mk pooled db q1 ps1 db1 h1 recs1 m1 q2 ps2 db2 h2 recs2 m2 S1 S2 E1 E2.
  exists (S (length recs1)). intros f Hf. cbn [run]. unfold fresh.
  match goal with |- context [step net mk f (CExec q1 ps1) (Build_world ?c ?ss ?rs ?ts _)] =>
    destruct (slow_exec_fails mk f c ss rs ts db q1 ps1 _ _ (conj eq_refl eq_refl) S1 E1) as (ss1 & X1) end. rewrite X1.
  match goal with |- context [step net mk f (CExec q2 ps2) (Build_world ?c ?ss ?rs ?ts _)] =>
    destruct (slow_exec_stale mk f c ss rs ts db1 q2 ps2 _ _ h1 recs1 m1 (conj eq_refl eq_refl) S2 E2 Hf) as (ss2 & X2) end.
  unfold end_state in X2 |- *. cbn [first_failure fails] in X2 |- *. rewrite X2.
  eexists. split; [reflexivity|]. repeat split.
Qed.
(** Begin or Commit, nothing read yet or a stale answer to read *)
Lemma slow_single : forall f cls c ss rs ts k db q db' o a b rest, sendable (VRun q []) = true -> exec db q [] = (db', o) ->
  forall q0, q0 ++ reply1 (Some o) = VSuccess a :: VSuccess b :: rest -> k = None \/ k = Some 2%nat ->
  send_run_pull_all_consume_single net f cls q [] (Build_world c ss rs ts (k, B db Ready q0)) =
    (Ok (Some (VSuccess a), Some (VSuccess b), None),
     Build_world c ss rs ts (match k with Some _ => Some O | None => None end, B db' (end_state [Some o]) rest)).
Proof.
  intros f cls c ss rs ts k db q db' o a b rest Hs E q0 E0 Hk. unfold send_run_pull_all_consume_single.
  erewrite bind_ok by (now apply slow_run_pull). cbv beta iota. rewrite (served_run_pull exec db q [] _ db' o E), E0. destruct Hk as [-> | ->]; reflexivity.
Qed.
(** Inside a transaction: the query times out, Commit then takes its answer for its own and
    returns nil although the server refused to commit. *)
Theorem C62_refuted_commit : forall mk pooled db db0 hb mb q ps db1 h m db2 mf,
  sendable (VRun s_begin []) = true -> sendable (VRun q ps) = true -> sendable (VRun s_commit []) = true ->
  exec db s_begin [] = (db0, Runs hb [] (Ends mb)) -> exec db0 q ps = (db1, Runs h [] (Ends m)) ->
  exec db1 s_commit [] = (db2, RunFails mf) ->
  forall f, exists w',
    run net mk f [CBegin; CExec q ps; TCommit 0] (fresh pooled (Some 2%nat, {| b_db := db; b_st := Ready; b_q := [] |})) =
      ([OHandle (Some O) None; OResult None (Some (ewrap FDec 45 EBadConn)); OErr None], Ok tt, w').
Proof.
  intros mk pooled db db0 hb mb q ps db1 h m db2 mf S0 S1 S2 E0 E1 E2 f. cbn [run]. unfold fresh.
  match goal with |- context [step net mk f CBegin (Build_world ?c ?ss ?rs ?ts _)] =>
    pose proof (slow_single f (close net f) c ss rs ts (Some 2%nat) db s_begin _ _ hb mb [] S0 E0 [] eq_refl (or_intror eq_refl)) as X0 end.
  match goal with |- context [step net mk f CBegin ?w] =>
    assert (Y0 : step net mk f CBegin w = (Ok (OHandle (Some O) None), Build_world (w_conn w) [] [] [{| t_closed := false |}] (Some O, B db0 Ready []))) end.
  { unfold step, step_body. erewrite bind_ok; [|unfold begin_tx, guard_open; erewrite bind_ok by reflexivity; cbn [w_conn c_tx]; erewrite bind_ok by reflexivity; cbn [w_conn c_stmt c_closed];
      erewrite bind_ok by exact X0; reflexivity]. reflexivity. }
  rewrite Y0. cbn [w_conn].
  match goal with |- context [step net mk f (CExec q ps) (Build_world ?c ?ss ?rs ?ts _)] =>
    destruct (slow_exec_fails mk f c ss rs ts db0 q ps _ _ (conj eq_refl eq_refl) S1 E1) as (ss1 & X1) end. rewrite X1.
  match goal with |- context [step net mk f (TCommit 0) (Build_world ?c ?ss ?rs ?ts _)] =>
    pose proof (slow_single f (close net f) c ss rs ts None db1 s_commit _ _ h m [VFailure mf; VIgnored] S2 E2 [VSuccess h; VSuccess m] eq_refl (or_introl eq_refl)) as X2 end.
  match goal with |- context [step net mk f (TCommit 0) ?w] => assert (Y2 : exists w', step net mk f (TCommit 0) w = (Ok (OErr None), w')) end.
  { eexists. unfold step, step_body. erewrite bind_ok; [|unfold commit, tx_finish; erewrite bind_ok by reflexivity; cbn [t_closed]; erewrite bind_ok by reflexivity; cbn [w_conn c_stmt c_set_stmt];
    erewrite bind_ok by reflexivity; cbv beta iota; erewrite bind_ok by exact X2; reflexivity]. reflexivity. }
  destruct Y2 as (w' & Y2). exists w'. rewrite Y2. reflexivity.
Qed.
End Slow.
Print Assumptions C62_refuted.
Print Assumptions C62_refuted_commit.

(** What does hold: up to the timeout every call returns what it would have returned on a
    prompt network, the call that runs into it returns an error (C39), and from then on the
    connection carries the mark that makes the pool replace it (C47). *)
Theorem C62_before_partial : forall N (ops : netops N) mk f os p n k,
  let '(l, r, w') := run (slow ops) mk f os (fresh p (Some k, n)) in
  fst (w_net w') <> None -> fst (run ops mk f os (fresh p n)) = (l, r).
Proof.
  intros N ops mk f.
  set (RN := fun (a : option nat * N) (b : N) => snd a = b). set (Bad := fun a : option nat * N => fst a = None).
  assert (ST : forall o, Sim RN Bad (step (slow ops) mk f o) (step ops mk f o)).
  { intros o. apply Sim_step; unfold RN, Bad.
    - intros [a b] cs v; cbn [fst snd]; intros ->; cbn; destruct (n_send ops b cs v); reflexivity.
    - intros [a b]; cbn [fst snd]; intros ->; cbn; destruct (n_recv ops b); reflexivity.
    - intros [a b]; cbn [fst snd]; intros ->; cbn; destruct (n_close ops b); reflexivity.
    - intros [a b] n cs v; cbn [fst snd]; intros <-; cbn. right. destruct (n_send ops b cs v); split; reflexivity.
    - intros [[[|k]|] b] n; cbn [fst snd]; intros <-; cbn; [left; reflexivity| |]; right; destruct (n_recv ops b); split; reflexivity.
    - intros [a b] n; cbn [fst snd]; intros <-; cbn. right. destruct (n_close ops b); split; reflexivity. }
  assert (BR : forall os w, Bad (w_net w) -> Bad (w_net (snd (run (slow ops) mk f os w)))).
  { induction os as [|o os IH]; intros w Hb; [exact Hb|]. cbn [run]. destruct (ST o) as [H _]. specialize (H w Hb).
    destruct (step (slow ops) mk f o w) as [[a| |] w1]; cbn [snd] in *; try exact H. specialize (IH w1 H). destruct (run (slow ops) mk f os w1) as [[l r] w2]. exact IH. }
  assert (G : forall os w w0, RW RN w w0 -> let '(l, r, w') := run (slow ops) mk f os w in ~ Bad (w_net w') -> fst (run ops mk f os w0) = (l, r)).
  { induction os as [|o os IH]; intros w w0 HR; [intros _; reflexivity|]. cbn [run]. destruct (ST o) as [_ H]. specialize (H w w0 HR).
    destruct (step (slow ops) mk f o w) as [[a| |] w1] eqn:E1; destruct (step ops mk f o w0) as [a' w1'] eqn:E2; cbn [fst snd] in H.
    - destruct H as [H|[<- H]].
      + specialize (BR os w1 H). destruct (run (slow ops) mk f os w1) as [[l r] w2]. intros X. now contradiction X.
      + specialize (IH w1 w1' H). destruct (run (slow ops) mk f os w1) as [[l r] w2]. intros X. specialize (IH X).
        destruct (run ops mk f os w1') as [[l' r'] w2']. cbn [fst] in *. congruence.
    - intros X. destruct H as [H|[<- H]]; [now contradiction X|]. reflexivity.
    - intros X. destruct H as [H|[<- H]]; [now contradiction X|]. reflexivity. }
  intros os p n k. specialize (G os (fresh p (Some k, n)) (fresh p n)). apply G. repeat split.
Qed.
Print Assumptions C62_before_partial.
Theorem C62_marked_partial : forall N (ops : netops N) mk f os w, c_err (w_conn w) = true -> c_err (w_conn (snd (run ops mk f os w))) = true.
Proof.
  intros N ops mk f os w H. pose proof (mono_run ops mk f os w) as HM. apply HM. exact H.
Qed.
Print Assumptions C62_marked_partial.
(** the counter of PropsBolt.v without its failures; the hypotheses of both refutations *)
Definition tally (n : Z) (q : str) (ps : md) : Z * outcome :=
  match q with
  | [1] => (n + 1, Runs [] [[VInt KInt64 n]] (Ends [([110], VInt KInt64 n)]))
  | [67; 79; 77; 77; 73; 84] => (0, RunFails [])
  | _ => (n, Runs [] [] (Ends []))
  end.
Example C62_example : exists w',
  run (slow (bolt tally (fun _ => true))) true 9 [CExec [1] []; CExec [1] []; CExec [2] []] (fresh false (Some O, {| b_db := 5; b_st := Ready; b_q := [] |})) =
    ([OResult None (Some (ewrap FDec 45 EBadConn)); OResult (Some [([110], VInt KInt64 5)]) None; OResult (Some [([110], VInt KInt64 6)]) None], Ok tt, w') /\
  b_db (snd (w_net w')) = 7.
Proof. eexists. split; vm_compute; reflexivity. Qed.
Example C62_example_commit : exists w',
  run (slow (bolt tally (fun _ => true))) true 9 [CBegin; CExec [2] []; TCommit 0] (fresh false (Some 2%nat, {| b_db := 5; b_st := Ready; b_q := [] |})) =
    ([OHandle (Some O) None; OResult None (Some (ewrap FDec 45 EBadConn)); OErr None], Ok tt, w') /\ b_db (snd (w_net w')) = 0.
Proof. eexists. split; vm_compute; reflexivity. Qed.
