(** C96: the pool notices that the server has closed a connection, and replaces it. *)
From Coq Require Import ZArith List Bool Lia.
From Verif Require Import GoPrims PrimLemmas Value Encoder Decoder Errors Misc Session Pool Probe.
Import ListNotations.
Open Scope Z_scope.

(** The check of OpenPool sees whether there is a socket that this process has not closed, and nothing else. *)
Theorem C96_sees : forall now o, fst (connection_nil_or_closed now o) = true <-> o = None \/ exists k, o = Some k /\ k_shut k = true.
Proof.
  intros now [k|]; cbn; [|split; auto]. unfold sock_read, set_deadline. cbn [k_shut]. destruct (k_shut k) eqn:E; cbn.
  - split; [eauto|auto].
  - split; [discriminate|]. intros [K|(k' & K & K')]; [discriminate|]. injection K as <-. congruence.
Qed.
Print Assumptions C96_sees.
(** The check does no harm: whatever is read afterwards is what would have been read without it. *)
Theorem C96_harmless : forall now k, k_shut k = false -> exists k', connection_nil_or_closed now (Some k) = (false, Some k') /\
  forall later timeout n, conn_read later timeout n k' = conn_read later timeout n k.
Proof.
  intros now k Hk. unfold connection_nil_or_closed, sock_read, set_deadline. cbn [k_shut]. rewrite Hk. cbn. eexists. split; [reflexivity|].
  intros later timeout n. unfold conn_read, set_deadline. cbn [k_shut k_in]. rewrite Hk. reflexivity.
Qed.
Print Assumptions C96_harmless.
(** A connection that this process has closed is not handed out: true of that part. *)
Theorem C96_partial : forall now o dial k dialled, take now o dial = (Some k, dialled) ->
  (dialled = true /\ dial = Some k) \/ (dialled = false /\ k_shut k = false /\ exists k0, o = Some k0 /\ k_in k0 = k_in k).
Proof.
  intros now o dial k dialled H. unfold take, connection_nil_or_closed in H. destruct o as [k0|]; [|injection H as -> <-; auto].
  unfold sock_read, set_deadline in H. cbn in H. destruct (k_shut k0) eqn:E; cbn in H; [injection H as -> <-; auto|].
  injection H as <- <-. right. cbn. eauto.
Qed.
Print Assumptions C96_partial.
(** Whatever the server has done, closed or reset the connection long ago: OpenPool hands it out, without dialling. *)
Theorem C96_refuted : forall now r d dial, take now (Some {| k_shut := false; k_in := r; k_deadline := d |}) dial = (Some {| k_shut := false; k_in := r; k_deadline := now |}, false).
Proof. reflexivity. Qed.
Print Assumptions C96_refuted.
(** ... in the pool machine, in every state *)
Theorem C96_refuted_pool : forall s t o ob net now k r, nth_error (p_pcs s) t = Some (OHave o) -> nth_error (p_heap s) o = Some ob -> o_net ob = Some net -> k_shut k = false ->
  pstep s (AInit t (fst (connection_nil_or_closed now (Some k))) r) = Some (with_pc t (OGive o) s).
Proof.
  intros s t o ob net now k r Hp Ho Hn Hk. cbn [pstep]. rewrite Hp, Ho, Hn.
  assert (E : fst (connection_nil_or_closed now (Some k)) = false) by (unfold connection_nil_or_closed, sock_read, set_deadline; cbn; rewrite Hk; reflexivity).
  rewrite E. reflexivity.
Qed.
Print Assumptions C96_refuted_pool.

(** And it stays so.  If the server has only shut down its side, every call of every user of this place, however many
    come after each other, fails with the end of the stream, and the next user gets the same connection. *)
Definition simple_call (o : op) : Prop := match o with CExec _ _ | CQuery _ _ | CBegin => True | _ => False end.
Definition eof_error (r : out) : Prop := exists e, (r = OResult None (Some e) \/ r = OHandle None (Some e)) /\ innermost e = EEOF.
Definition returned {N} (cs : Z) (n : N) : world N :=
  Build_world {| c_closed := false; c_err := false; c_tx := None; c_stmt := None; c_pooled := true; c_cs := cs; c_reclaims := [] |} [] [] [] n.
Lemma nth_here : forall A (l : list A) x, nth_error (l ++ [x]) (length l) = Some x.
Proof. induction l; cbn; auto. Qed.
Lemma upd_here : forall A (l : list A) x y, upd (length l) y (l ++ [x]) = l ++ [y].
Proof. induction l; intros; cbn; auto. now rewrite IHl. Qed.
Definition used {N} (cs : Z) (ss : list stmt) (n : N) : world N :=
  Build_world {| c_closed := false; c_err := false; c_tx := None; c_stmt := None; c_pooled := true; c_cs := cs; c_reclaims := [] |} ss [] [] n.
Lemma one_call : forall N mk f o cs ss (n : N), simple_call o -> exists r ss', step halfshut mk (S (S (S f))) o (used cs ss n) = (Ok r, used cs ss' n) /\
  eof_error r.
Proof.
  intros N mk f o cs ss n H. destruct o; try contradiction; unfold step, used; cbn [step_body].
  - do 2 eexists. split; [lazy -[nth_error length app upd]; reflexivity|]. eexists; split; [right; reflexivity|reflexivity].
  - unfold exec_neo, guard_open, with_defer, stmt_exec, stmt_close, need_conn, bind, getc, gets, news, sets, mods, modc, setc, used. cbn.
    repeat (progress (unfold with_defer, stmt_exec, stmt_query, stmt_close, close_cur_stmt, need_conn, bind, getc, gets, news, sets, mods, modc, setc; rewrite ?nth_here, ?upd_here; cbn)). do 2 eexists. split; [reflexivity|]. eexists; split; [left; reflexivity|reflexivity].
  - unfold query_neo, guard_open, with_defer, stmt_query, stmt_close, need_conn, bind, getc, gets, news, sets, mods, modc, setc, used. cbn.
    repeat (progress (unfold with_defer, stmt_exec, stmt_query, stmt_close, close_cur_stmt, need_conn, bind, getc, gets, news, sets, mods, modc, setc; rewrite ?nth_here, ?upd_here; cbn)). do 2 eexists. split; [reflexivity|]. eexists; split; [right; reflexivity|reflexivity].
Qed.

Lemma used_close : forall N mk f cs ss (n : N), step halfshut mk (S f) CClose (used cs ss n) = (Ok (OErr None), Build_world (c_reclaimed (w_conn (used cs ss n))) ss [] [] n).
Proof. reflexivity. Qed.
Lemma one_user : forall N mk f cs (n : N) os, Forall simple_call os -> forall ss, exists l w', run halfshut mk (S (S (S f))) (os ++ [CClose]) (used cs ss n) = (l ++ [OErr None], Ok tt, w') /\
  length l = length os /\ Forall eof_error l /\ handed_on w' = Some (returned cs n).
Proof.
  intros N mk f cs n os H. induction H as [|o os Ho H IH]; intros ss.
  - exists []. eexists. cbn [app run]. rewrite used_close. repeat split. constructor.
  - destruct (one_call N mk f o cs ss n Ho) as (r & ss' & E & Er). destruct (IH ss') as (l & w' & R & L & F & Hw). exists (r :: l), w'.
    cbn [app run]. rewrite E, R. repeat split; [cbn; now f_equal|now constructor|exact Hw].
Qed.
Theorem C96_refuted_for_ever : forall N mk f cs (n : N) calls, Forall (Forall simple_call) calls ->
  exists ls, users halfshut mk (S (S (S f))) calls (returned cs n) = Some (map (fun l => l ++ [OErr None]) ls, returned cs n) /\
    Forall2 (fun l os => length l = length os /\ Forall eof_error l) ls calls.
Proof.
  intros N mk f cs n calls H. induction H as [|os calls Ho H IH]; [exists []; split; constructor|]. destruct IH as (ls & E & F).
  destruct (one_user N mk f cs n os Ho []) as (l & w' & R & L & Fl & Hw). exists (l :: ls). cbn [users]. change (returned cs n) with (used cs [] n) at 1. rewrite R, Hw, E. cbn. split; [reflexivity|].
  constructor; auto.
Qed.
Print Assumptions C96_refuted_for_ever.
Example C96_example : 
  (* closed by the server; reset; closed by this process; never dialled *)
  fst (connection_nil_or_closed 5 (Some {| k_shut := false; k_in := []; k_deadline := 0 |})) = false /\
  fst (connection_nil_or_closed 5 (Some {| k_shut := false; k_in := [RFail]; k_deadline := 0 |})) = false /\
  fst (connection_nil_or_closed 5 (Some {| k_shut := true; k_in := []; k_deadline := 0 |})) = true /\ fst (connection_nil_or_closed 5 None) = true /\
  (* what the user of the first two meets *)
  snd (fst (conn_read 6 60 2 {| k_shut := false; k_in := []; k_deadline := 5 |})) = Some EEOF /\
  snd (fst (conn_read 6 60 2 {| k_shut := false; k_in := [RFail]; k_deadline := 5 |})) = Some EBadConn /\
  option_map (fun x => map (@length out) (fst x)) (users halfshut true 9 [[CExec [97] []; CBegin]; []; [CQuery [98] []]] (returned 65535 tt)) = Some [3; 1; 2]%nat.
Proof. repeat split. Qed.
