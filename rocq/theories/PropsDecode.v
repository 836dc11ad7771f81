(** Messages that cannot be decoded, and every other error met during a call. *)
From Coq Require Import ZArith List Bool Lia.
From Coq Require Import ZifyBool.
From Verif Require Import GoPrims Value PackSpec Encoder Decoder Framing Errors Misc Session SessionGen SessionErr SessionSim SessionNet SessionBlind PropsSession.
Import ListNotations.
Open Scope Z_scope.

(** * C71 *)
(** The network [ops] with a flag that says whether a message was refused by the encoder, a
    write, read or Close failed, or a message could not be decoded so far.  With [eof]
    false the cases are left out in which the decoder returns a bare io.EOF. *)
Definition alarm {N} (eof : bool) (ops : netops N) : netops (N * bool) :=
  {| n_send := fun n cs v => let '(n', r) := n_send ops (fst n) cs v in (n', match r with SOk => snd n | _ => true end, r);
     n_recv := fun n => let '(n', r) := n_recv ops (fst n) in
       (n', match r with RNet => true | RDec _ EEOF => eof || snd n | RDec _ _ => true | _ => snd n end, r);
     n_close := fun n => let '(n', b) := n_close ops (fst n) in (n', b || snd n, b);
     n_shake := fun n => let '(n', r) := n_shake ops (fst n) in (n', snd n, r) |}.
Definition alarmed {N} (w : world (N * bool)) : Prop := snd (w_net w) = true.

(** Whatever goes wrong during a call other than QueryNeoAll, except for a bare io.EOF of
    the decoder: the call returns an error, and not one that says the data is at its end. *)
Theorem C71_reported_partial : forall N (ops : netops N) mk f o w r w', (forall q ps, o <> CQueryAll q ps) ->
  ~ alarmed w -> step (alarm false ops) mk f o w = (Ok r, w') -> alarmed w' -> exists e, out_err r = Some e /\ e <> EEOF.
Proof.
  intros N ops mk f o w r w' Ho H1 E H2. unfold alarmed in *.
  refine (NE_step (alarm false ops) snd (fun e => e <> EEOF) _ _ _ _ _ _ mk f o Ho _ w r w' _ E H2); try discriminate; auto.
  - intros [n b] cs v n' x. cbn. destruct (n_send ops n cs v) as [n1 []]; intros X; inversion X; subst; auto. right. right. now split.
  - intros [n b] n' x. cbn. destruct (n_recv ops n) as [n1 [v|p e| |]]; intros X; inversion X; subst; auto.
    destruct e; auto; right; right; do 2 eexists; split; try reflexivity; discriminate.
  - intros [n b] n'. cbn. destruct (n_close ops n) as [n1 b1]. intros X. inversion X; subst. reflexivity.
  - destruct (snd (w_net w)); [now contradiction H1|reflexivity].
Qed.
Print Assumptions C71_reported_partial.
(** Also a bare io.EOF makes the call fail, except for All, QueryNeoAll and NextPipeline. *)
Theorem C71_eof_reported_partial : forall N (ops : netops N) mk f o w r w',
  match o with RAll _ | CQueryAll _ _ | RNextPipeline _ => False | _ => True end ->
  ~ alarmed w -> step (alarm true ops) mk f o w = (Ok r, w') -> alarmed w' -> out_err r <> None.
Proof.
  intros N ops mk f o w r w' Ho H1 E H2. unfold alarmed in *.
  enough (exists e, out_err r = Some e /\ True) as (e & -> & _) by discriminate.
  refine (NE_step (alarm true ops) snd (fun e => True) _ _ _ _ _ _ mk f o _ _ w r w' _ E H2); auto.
  - intros [n b] cs v n' x. cbn. destruct (n_send ops n cs v) as [n1 []]; intros X; inversion X; subst; auto.
  - intros [n b] n' x. cbn. destruct (n_recv ops n) as [n1 [v|p e| |]]; intros X; inversion X; subst; auto.
    right; right; do 2 eexists; split; reflexivity.
  - intros [n b] n'. cbn. destruct (n_close ops n) as [n1 b1]. intros X. inversion X; subst. reflexivity.
  - intros q ps ->. exact Ho.
  - right. destruct o; auto.
  - destruct (snd (w_net w)); [now contradiction H1|reflexivity].
Qed.
Print Assumptions C71_eof_reported_partial.

(** The value beside the error: only SUCCESS beside a bare io.EOF makes a difference. *)
Theorem C71_value_partial : forall N (ops ops' : netops N),
  (forall n cs v, n_send ops' n cs v = n_send ops n cs v) -> (forall n, n_close ops' n = n_close ops n) -> (forall n, n_shake ops' n = n_shake ops n) ->
  (forall n, n_recv ops' n = n_recv ops n \/
     exists n' v v' e, n_recv ops n = (n', RDec v e) /\ n_recv ops' n = (n', RDec v' e) /\
       (e <> EEOF \/ (forall m, v <> Some (VSuccess m)) /\ (forall m, v' <> Some (VSuccess m)))) ->
  forall mk f os w, run ops' mk f os w = run ops mk f os w.
Proof.
  intros N ops ops' Hs Hc Hh Hr mk f os w. rewrite (run_blind ops), (run_blind ops'). revert w.
  assert (H : forall o, Sim eq (fun _ => False) (step (blind ops') mk f o) (step (blind ops) mk f o)).
  { intros o. apply Sim_step; try (intros; contradiction); intros n n' **; subst n'; right; cbn; rewrite ?Hs, ?Hc, ?Hh; auto.
    destruct (Hr n) as [E|(n' & v & v' & e & E & E' & K)]; [now rewrite E|]. rewrite E, E'. cbn. split; [|reflexivity]. f_equal.
    destruct K as [K|(K & K')]; [destruct e; try reflexivity; congruence|].
    destruct e; try reflexivity. destruct v as [[]|], v' as [[]|]; try reflexivity; try (now exfalso; eapply K; reflexivity); now exfalso; eapply K'. }
  induction os as [|o os IH]; intros w; cbn [run]; [reflexivity|].
  destruct (H o) as (_ & X). destruct (X w w) as [[]|(E1 & E2)]; [repeat split|].
  destruct (step (blind ops') mk f o w) as [r1 [c1 s1 q1 t1 n1]], (step (blind ops) mk f o w) as [r2 [c2 s2 q2 t2 n2]]. cbn in E1. destruct E2 as (? & ? & ? & ? & ?). cbn in *. subst.
  destruct r2; auto. now rewrite IH.
Qed.
Print Assumptions C71_value_partial.

(** What the decoder returns beside its error is a SUCCESS message when the message begins
    like one. *)
Definition success_header (m : bytes) : Prop := exists rest,
  (exists b, 0xB0 <= b <= 0xBF /\ m = b :: 0x70 :: rest) \/ (exists n, m = 0xDC :: n :: 0x70 :: rest) \/ (exists n1 n2, m = 0xDD :: n1 :: n2 :: 0x70 :: rest).
Theorem C71_beside_error_partial : forall m x, partial_of m = Some (VSuccess x) <-> x = [] /\ success_header m.
Proof.
  intros m x. split.
  - intros H. assert (K : forall r, match r with [] => None | sig :: _ =>
        if sig =? 0x4E then Some (VNode 0 [] []) else if sig =? 0x52 then Some (VRel 0 0 0 [] []) else if sig =? 0x50 then Some (VPath [] [] [])
        else if sig =? 0x72 then Some (VURel 0 [] []) else if sig =? 0x71 then Some (VRecord []) else if sig =? 0x7F then Some (VFailure [])
        else if sig =? 0x70 then Some (VSuccess []) else None end = Some (VSuccess x) -> x = [] /\ exists rest, r = 0x70 :: rest).
    { intros [|sig r]; [discriminate|].
      repeat match goal with |- (if ?b then _ else _) = _ -> _ => destruct b eqn:? end; intros X; try discriminate X.
      injection X as <-. split; [reflexivity|]. exists r. f_equal. lia. }
    destruct m as [|b r]; [discriminate|]. unfold partial_of in H.
    repeat match type of H with (if ?b then _ else _) = _ => destruct b eqn:? end; try discriminate H.
    + apply K in H as (-> & rest & ->). split; [reflexivity|]. exists rest. left. exists b. split; [lia|reflexivity].
    + apply K in H as (-> & rest & E). split; [reflexivity|]. destruct r as [|n r]; [discriminate|]. cbn in E. subst r. exists rest. right. left. exists n. f_equal. lia.
    + apply K in H as (-> & rest & E). split; [reflexivity|]. destruct r as [|n1 [|n2 r]]; try discriminate. cbn in E. subst r. exists rest. right. right. exists n1, n2. f_equal. lia.
  - intros (-> & rest & [(b & Hb & ->)|[(n & ->)|(n1 & n2 & ->)]]); unfold partial_of; try reflexivity.
    replace ((b =? 0xC8) || (b =? 0xC9) || (b =? 0xCA) || (b =? 0xCB)) with false by lia. replace (b =? 0xC1) with false by lia.
    replace ((0x90 <=? b) && (b <=? 0x9F) || (b =? 0xD4) || (b =? 0xD5) || (b =? 0xD6)) with false by lia.
    replace ((0xA0 <=? b) && (b <=? 0xAF) || (b =? 0xD8) || (b =? 0xD9) || (b =? 0xDA)) with false by lia.
    replace ((0xB0 <=? b) && (b <=? 0xBF)) with true by lia. reflexivity.
Qed.
Print Assumptions C71_beside_error_partial.
(** In NextPipeline it does: the answer to the second query is a SUCCESS message cut short
    inside its metadata; it is taken for an answer without metadata. *)
Definition cut_short : bytes := [0xB1; 0x70; 0xA1; 0x81; 97; 0xC9].
Theorem C71_refuted : forall q1 q2 ps1 ps2 m1 m2,
  recv true [RData ([0; 6] ++ cut_short ++ [0; 0])] = ([], RDec (Some (VSuccess [])) EEOF) /\
  decode true cut_short = DErr DEEof /\
  exists w', run script true 9 [CQueryPipeline [q1; q2] [ps1; ps2]; RNextPipeline 0] (fresh false [succ m1; succ m2; RDec (Some (VSuccess [])) EEOF]) =
    ([OHandle (Some 0%nat) None; OPipe None (Some []) (Some 1%nat) None], Ok tt, w').
Proof. intros. split; [vm_compute; reflexivity|]. split; [vm_compute; reflexivity|]. eexists. vm_compute. reflexivity. Qed.
Print Assumptions C71_refuted.
(** A record beside the io.EOF in the same place is an error. *)
Example C71_example : snd (fst (run (alarm true script) true 9 [CQueryPipeline [[1]; [2]] [[]; []]; RNextPipeline 0] (fresh false ([succ []; succ []; RDec (Some (VRecord [])) EEOF], false)))) = Ok tt /\
  fst (fst (run (alarm true script) true 9 [CQueryPipeline [[1]; [2]] [[]; []]; RNextPipeline 0] (fresh false ([succ []; succ []; RDec (Some (VRecord [])) EEOF], false)))) =
    [OHandle (Some 0%nat) None; OPipe None None None (Some (enew FRows 276))] /\
  exists r w', step (alarm false script) true 9 (CExec [1] []) (fresh false ([succ []; RDec None (enew FDec 244)], false)) = (Ok r, w') /\ alarmed w' /\ out_err r = Some (enew FDec 244).
Proof. vm_compute. repeat split. do 2 eexists. repeat split. Qed.
