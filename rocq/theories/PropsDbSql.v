(** Using the driver through database/sql: one connection, statements that are closed in time, and statements that are not. *)
From Coq Require Import ZArith List Bool Lia.
From Verif Require Import GoPrims Value Errors Misc Session SessionVoc SessionGen SessionFuel ServerSpec SessionSpec SessionBolt SessionRefine SessionUse SqlUse PropsSession PropsBolt.
Import ListNotations.
Open Scope Z_scope.

(** ** C81 *)
(** Every program whose prepared statements are closed before anything else is run gets
    the answers [ideal_all] computes from the database alone, and the connection is
    ready for the next program. *)
Theorem C81_partial : forall DB (exec : DB -> str -> md -> DB * outcome) sendable mk w db us db' l, controls sendable ->
  quiet w db -> ideal_all exec sendable mk db us = Some (db', l) ->
  exists outs w' f0, (forall f, (f0 <= f)%nat -> do_all (bolt exec sendable) mk f us w = (Ok outs, w')) /\ Forall2 conforms l outs /\ quiet w' db'.
Proof.
  intros DB exec sendable mk w db us db' l Hctl Hq Hi.
  destruct (all_ok exec sendable mk Hctl _ us l db db' w (quiet_rel w db Hq) Hi) as (outs & w' & (f0 & Y) & C & R).
  exists outs, w', f0. split; [exact Y|]. split; [exact C|]. exact (rel_quiet _ _ _ R eq_refl).
Qed.
Print Assumptions C81_partial.

(** As stated, for prepared statements that stay open (database/sql keeps them until Stmt.Close):
    while one is open, every other use of the connection fails with an error of the driver, and
    nothing is sent.  The error is not driver.ErrBadConn, so database/sql does not try another
    connection. *)
Definition args_fine (mk : bool) (u : use) : Prop := match u with URun _ args _ => driver_args mk args <> APanic | UPrepared _ _ => True end.
Theorem C81_refuted : forall N (ops : netops N) mk f os p n i u,
  let w := snd (run ops mk f os (fresh p n)) in
  stmt_is false w i -> args_fine mk u ->
  exists r, do_use ops mk f u w = (Ok [r], w) /\ refused r.
Proof.
  intros N ops mk f os p n i u w Hi Ha.
  assert (H : forall o, conn_work o = true -> args_ok mk o -> exists r, step ops mk f o w = (Ok r, w) /\ refused r) by (intros o H1 H2; exact (C25_refused ops mk f os p n i o Hi H1 H2)).
  assert (Hn : forall h, ~ refused (OHandle (Some h) None)) by (intros h Hc; exact Hc).
  destruct u as [q args x|q l]; cbn in Ha.
  - destruct x as [[m k]|]; cbn [do_use start_run].
    + destruct (H (CQuerySql q args) eq_refl Ha) as (r & E & Hr). exists r. split; [|exact Hr]. unfold bind, call. rewrite E.
      destruct r as [e| |[h|] [e|]| | | | | | | |]; try reflexivity. destruct (Hn _ Hr).
    + destruct (H (CExecSql q args) eq_refl Ha) as (r & E & Hr). exists r. split; [|exact Hr]. unfold bind, call. rewrite E. reflexivity.
  - cbn [do_use]. destruct (H (CPrepare q) eq_refl I) as (r & E & Hr). exists r. split; [|exact Hr]. unfold bind, call. rewrite E.
    destruct r as [e| |[h|] [e|]| | | | | | | |]; try reflexivity. destruct (Hn _ Hr).
Qed.
Print Assumptions C81_refuted.
(** and no transaction can be begun *)
Theorem C81_refuted_tx : forall N (ops : netops N) mk f os p n i us c,
  let w := snd (run ops mk f os (fresh p n)) in
  stmt_is false w i -> exists r, do_uses ops mk f (InTx us c) w = (Ok [r], w) /\ refused r.
Proof.
  intros N ops mk f os p n i us c w Hi. destruct (C25_refused ops mk f os p n i CBegin Hi eq_refl I) as (r & E & Hr). fold w in E. exists r. split; [|exact Hr].
  cbn [do_uses]. unfold bind, call. rewrite E. destruct r as [e| |[h|] [e|]| | | | | | | |]; try reflexivity. destruct Hr.
Qed.
Print Assumptions C81_refuted_tx.

(** The counter (PropsBolt.v): a query that is read to its end, one that is not, a prepared statement
    run three times, a failing query, and a transaction. *)
Definition sql_program : list uses :=
  [Plain (URun [1] [] (Some (1, 5%nat))); Plain (URun [1] [] (Some (1, 1%nat))); Plain (UPrepared [1] [([], None); ([], Some (1, 3%nat)); ([AOther], None)]);
   Plain (URun [2] [] None); InTx [URun [1] [] None; UPrepared [1] [([], None)]] true; Plain (URun [1] [] None)].
Example C81_example : ideal_all toy fine false 5 sql_program = Some (12,
  [AHandle; ACells [DVInt 5]; ACells [DVInt 6]; ACellsEnd; ANil; AHandle; ACells [DVInt 6]; ANil;
   AHandle; AResult (bad 7); AHandle; ACells [DVInt 8]; ACells [DVInt 9]; ACellsEnd; ANil; ARefused; ANil;
   AFailed (bad 2); AHandle; AResult (bad 9); AHandle; AResult (bad 10); ANil; ANil; AResult (bad 11)]) /\
  fst (do_uses (bolt toy fine) false 20 (Plain (URun [1] [] (Some (1, 5%nat)))) (conn0 5)) =
    Ok [OHandle (Some 0%nat) None; OCells [DVInt 5] None; OCells [DVInt 6] None; OCells [] (Some EEOF); OErr None].
Proof. split; vm_compute; reflexivity. Qed.
Example C81_refuted_example :
  let '(rs, _, w) := run (bolt toy fine) false 20 [CPrepare [1]; SExecSql 0 []] (fresh false (Build_bnet 5 Ready [])) in
  rs = [OHandle (Some 0%nat) None; OResult (Some (bad 5)) None] /\ stmt_is false w 0 /\
  fst (do_use (bolt toy fine) false 20 (URun [1] [] None) w) = Ok [OResult None (Some (EDrv FConn 822 None))] /\
  option_map snd (ideal_use toy fine false 6 (URun [1] [] None)) = Some [AResult (bad 6)].
Proof. vm_compute. repeat split. eexists. split; reflexivity. Qed.
