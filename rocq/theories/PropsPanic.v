(** Which calls can panic. *)
From Coq Require Import ZArith List Bool Lia.
From Verif Require Import GoPrims Value Errors Misc Session SessionVoc SessionGen SessionPanic PropsSession.
Import ListNotations.
Open Scope Z_scope.

(** ** C55.  False: four families of histories that panic. *)
(** The first three kinds of panic, on [w] with the world [w'] at the panic:
    rows of a statement that is closed; a query during which the driver itself gave up the
    connection; a row scanned into fewer cells than it has. *)
Definition known_panic {N} (ops : netops N) (mk : bool) (f : nat) (w : world N) (o : op) (w' : world N) : Prop :=
  match o with
  | CQuery _ _ | CQueryAll _ _ | CQuerySql _ _ => dropped w w'
  | RNext r | RAll r | RNextPipeline r | RClose r => lost w r
  | RNextSql r n => lost w r \/ exists row m, step ops mk f (RNext r) w = (Ok (ONext (Some row) m None), w') /\ n < zlen row
  | _ => False
  end.
(** On every network on which the decoder does not panic (the fourth kind), a history of
    calls on handles the driver handed out panics only there. *)
Theorem C55_partial : forall N (ops : netops N) mk f os p n, (forall n, snd (n_recv ops n) <> RCrash) -> legal ops mk f os (fresh p n) ->
  forall outs w', run ops mk f os (fresh p n) = (outs, Panic, w') ->
  exists os1 o os2 w, os = os1 ++ o :: os2 /\ run ops mk f os1 (fresh p n) = (outs, Ok tt, w) /\ step ops mk f o w = (Panic, w') /\ known_panic ops mk f w o w'.
Proof.
  intros N ops mk f os p n Hn L outs w' E. pose proof (run_panics ops Hn mk f os _ (WF_fresh p n) L) as X. rewrite E in X. exact X.
Qed.
Print Assumptions C55_partial.
(** The other calls do not panic at all. *)
Theorem C55_others_partial : forall N (ops : netops N) mk f os p n o outs w, (forall n, snd (n_recv ops n) <> RCrash) -> legal ops mk f (os ++ [o]) (fresh p n) ->
  run ops mk f os (fresh p n) = (outs, Ok tt, w) ->
  match o with CQuery _ _ | CQueryAll _ _ | CQuerySql _ _ | RNext _ | RAll _ | RNextPipeline _ | RNextSql _ _ | RClose _ => False | _ => True end ->
  fst (step ops mk f o w) <> Panic.
Proof.
  intros N ops mk f os p n o outs w Hn L E Ho X. 
  assert (H : WF w /\ known w o /\ args_ok mk o).
  { revert L E. generalize (WF_fresh p n). generalize (fresh p n) as w0. revert outs. induction os as [|o1 os IH]; intros outs w0 F L E; cbn in E.
    - injection E as _ <-. destruct L as (A & B & _). auto.
    - destruct L as (A & B & L). pose proof (step_panics ops Hn mk f o1 w0 F A B) as Y. unfold wp in Y.
      destruct (step ops mk f o1 w0) as [[a| |] w1]; try discriminate. destruct (run ops mk f os w1) as [[l r] w2] eqn:E2. injection E as _ -> ->. eapply IH; eauto. }
  destruct H as (F & K & A). pose proof (step_panics ops Hn mk f o w F K A) as Y. unfold wp in Y. destruct (step ops mk f o w) as [[a| |] w1]; try discriminate.
  destruct o; try contradiction; exact Y.
Qed.
Print Assumptions C55_others_partial.
(** Reading lost rows always panics, on any network. *)
Theorem C55_lost_refuted : forall N (ops : netops N) mk f os p n outs w r o, (forall n, snd (n_recv ops n) <> RCrash) -> legal ops mk f os (fresh p n) ->
  run ops mk f os (fresh p n) = (outs, Ok tt, w) -> lost w r -> o = RNext r \/ o = RNextPipeline r \/ (exists k, o = RNextSql r k) ->
  fst (step ops mk f o w) = Panic.
Proof.
  intros N ops mk f os p n outs w r o Hn L E H Ho. pose proof (run_panics ops Hn mk f os _ (WF_fresh p n) L) as F. rewrite E in F.
  destruct (lost_next ops f (close ops f) w r F H) as (w' & Ew). pose proof (lost_pipe ops f (close ops f) w r F H) as Ep.
  destruct Ho as [->|[->|(k & ->)]]; unfold step; cbn [step_body]; unfold next_sql, bind; rewrite ?Ew, ?Ep; reflexivity.
Qed.
Print Assumptions C55_lost_refuted.
(** Rows become lost when the connection is closed before them: for every query and every
    server that accepts it. *)
Theorem C55_closed_refuted : forall mk f q ps m p rest, exists w1 w2,
  run script mk (S (S f)) [CQuery q ps; CClose] (fresh p (succ m :: rest)) = ([OHandle (Some 0%nat) None; OErr None], Ok tt, w1) /\ lost w1 0 /\
  step script mk (S (S f)) (RNext 0) w1 = (Panic, w2).
Proof.
  intros mk f q ps m p rest. destruct p; (do 2 eexists; split; [lazy; reflexivity|]; split; [|lazy; reflexivity]);
  (eexists; split; [reflexivity|]; split; [reflexivity|]; eexists; split; reflexivity).
Qed.
Print Assumptions C55_closed_refuted.
(** A query refused by the server, which then refuses ACK_FAILURE and RESET too. *)
Theorem C55_refused_refuted : forall mk f q ps m1 m2 m3 p rest, exists w',
  step script mk (S (S f)) (CQuery q ps) (fresh p (RMsg (VFailure m1) :: RMsg (VFailure m2) :: RMsg (VFailure m3) :: rest)) = (Panic, w').
Proof. intros mk f q ps m1 m2 m3 p rest. destruct p; eexists; lazy; reflexivity. Qed.
Print Assumptions C55_refused_refuted.
(** The same while QueryNeoAll reads its rows. *)
Theorem C55_all_refuted : forall mk f q ps m m1 m2 m3 p rest, exists w',
  step script mk (S (S f)) (CQueryAll q ps) (fresh p (succ m :: RMsg (VFailure m1) :: RMsg (VFailure m2) :: RMsg (VFailure m3) :: rest)) = (Panic, w').
Proof. intros mk f q ps m m1 m2 m3 p rest. destruct p; eexists; lazy; reflexivity. Qed.
Print Assumptions C55_all_refuted.
(** A record longer than the destination, of values that convert. *)
Theorem C55_scan_refuted : forall mk f q ps m row n p rest, Forall (fun v => convert v <> CErr) row -> 0 <= n < zlen row -> exists w1 w2,
  step script mk (S (S f)) (CQuery q ps) (fresh p (succ m :: RMsg (VRecord row) :: rest)) = (Ok (OHandle (Some 0%nat) None), w1) /\
  step script mk (S (S f)) (RNextSql 0 n) w1 = (Panic, w2).
Proof.
  intros mk f q ps m row n p rest Hr Hn.
  assert (X : exists ds, fill n row = (ds, NPanic)).
  { revert n Hn. induction Hr as [|v row Hv Hr IH]; intros n Hn; cbn [fill]; unfold zlen in *; cbn [length] in *.
    - lia.
    - destruct (convert v); [|congruence]. destruct (Z.leb_spec n 0) as [H0|H0]; [eauto|]. destruct (IH (n - 1)) as (ds & ->); [lia|eauto]. }
  destruct X as (ds & X).
  destruct p; do 2 eexists; (split; [lazy; reflexivity|]); lazy -[fill]; rewrite X; reflexivity.
Qed.
Print Assumptions C55_scan_refuted.
(** A message on which the decoder panics (such as a Node with a string for its identity,
    C09): every call that waits for an answer panics. *)
Theorem C55_decoder_refuted : forall mk f q ps p rest, exists w', step script mk (S f) (CExec q ps) (fresh p (RCrash :: rest)) = (Panic, w').
Proof. intros. destruct p; eexists; lazy; reflexivity. Qed.
Print Assumptions C55_decoder_refuted.

(** ** The hypotheses hold for real histories *)
Definition ex_panic : list op := [CQuery [81] []; RNext 0; CClose; RNext 0].
Definition ex_panic_net : list rres := [succ []; RMsg (VRecord [VInt KInt64 7])].
(** a network without decoder panics *)
Definition tame : netops (list rres) :=
  {| n_send := n_send script;
     n_recv := fun n => match n_recv script n with (n', RCrash) => (n', RNet) | x => x end;
     n_close := n_close script; n_shake := n_shake script |}.
Example ex_tame : forall n, snd (n_recv tame n) <> RCrash.
Proof. intros [|[] n]; cbn; discriminate. Qed.
Example ex_C55 : legal tame true 9 ex_panic (fresh false ex_panic_net) /\ exists w',
  run tame true 9 ex_panic (fresh false ex_panic_net) = ([OHandle (Some 0%nat) None; ONext (Some [VInt KInt64 7]) None None; OErr None], Panic, w').
Proof. split; [|eexists; lazy; reflexivity]. vm_compute. repeat split; auto. Qed.
Example ex_C55_lost : exists w, run tame true 9 [CQuery [81] []; RNext 0; CClose] (fresh false ex_panic_net) = ([OHandle (Some 0%nat) None; ONext (Some [VInt KInt64 7]) None None; OErr None], Ok tt, w) /\ lost w 0.
Proof. eexists. split; [lazy; reflexivity|]. eexists. split; [reflexivity|]. split; [reflexivity|]. eexists. split; reflexivity. Qed.
(** and a history of the other calls, on a server that refuses everything *)
Example ex_C55_others : exists w outs, run tame true 9 [CPrepare [81]; SQuery 0 []; SExec 0 []] (fresh false (repeat (RMsg (VFailure [])) 9)) = (outs, Ok tt, w) /\ length outs = 3%nat.
Proof. do 2 eexists. split; [lazy; reflexivity|reflexivity]. Qed.
Example ex_C55_scan : Forall (fun v => convert v <> CErr) [VInt KInt64 7; VInt KInt64 8] /\ 0 <= 1 < zlen [VInt KInt64 7; VInt KInt64 8].
Proof. split; [repeat constructor; discriminate|cbn; lia]. Qed.
