(** How database/sql uses one connection of this driver (database/sql.DB with
    SetMaxOpenConns(1), or database/sql.Conn), and what its user may expect.

    The driver registers itself with database/sql (driver.go:197-199); database/sql
    is not part of /repo.  What is modelled of it here is the order of the driver calls:
    DB.Exec, DB.Query with Rows.Next until an error or until the user stops and
    Rows.Close, DB.Prepare with Stmt.Exec and Stmt.Query and Stmt.Close, and DB.Begin
    with Tx.Commit or Tx.Rollback.  Row sets are closed before the next call, as
    database/sql does not hand out a connection with an open row set. *)
From Coq Require Import ZArith List Bool Lia.
From Verif Require Import GoPrims PrimLemmas Value Errors Misc Session SessionVoc SessionGen SessionFuel ServerSpec SessionSpec SessionBolt SessionRefine SessionUse.
Import ListNotations.
Open Scope Z_scope.

(** Read at most [k] rows of [n] columns; [None]: Exec. *)
Definition want : Type := option (Z * nat).
(** One use of the connection outside of transactions. *)
Inductive use :=
| URun (q : str) (args : list darg) (x : want)                    (* DB.Exec, DB.Query *)
| UPrepared (q : str) (runs : list (list darg * want)).           (* DB.Prepare, Stmt.Exec and Stmt.Query, Stmt.Close *)
Inductive uses :=
| Plain (u : use)
| InTx (us : list use) (commit : bool).                           (* DB.Begin, uses, Tx.Commit or Tx.Rollback *)

(** ** The calls database/sql makes *)
Section Calls.
Context {N : Type}.
Variable ops : netops N.
Variable mk : bool.
Variable f : nat.
Notation M := (Session.M (N := N)).
Definition call (o : op) : M out := step ops mk f o.

Fixpoint read_rows (r : nat) (n : Z) (k : nat) : M (list out) :=
  match k with
  | O => ret []
  | S k' =>
      x <- call (RNextSql r n) ;;
      match x with
      | OCells _ None => xs <- read_rows r n k' ;; ret (x :: xs)
      | _ => ret [x]
      end
  end.
Definition start_run (o_exec o_query : op) (x : want) : M (list out) :=
  match x with
  | None => y <- call o_exec ;; ret [y]
  | Some (n, k) =>
      y <- call o_query ;;
      match y with
      | OHandle (Some r) None => ys <- read_rows r n k ;; z <- call (RClose r) ;; ret (y :: ys ++ [z])
      | _ => ret [y]
      end
  end.
Fixpoint run_prepared (s : nat) (l : list (list darg * want)) : M (list out) :=
  match l with
  | [] => ret []
  | (args, x) :: l' => a <- start_run (SExecSql s args) (SQuerySql s args) x ;; b <- run_prepared s l' ;; ret (a ++ b)
  end.
Definition do_use (u : use) : M (list out) :=
  match u with
  | URun q args x => start_run (CExecSql q args) (CQuerySql q args) x
  | UPrepared q l =>
      y <- call (CPrepare q) ;;
      match y with
      | OHandle (Some s) None => ys <- run_prepared s l ;; z <- call (SClose s) ;; ret (y :: ys ++ [z])
      | _ => ret [y]
      end
  end.
Fixpoint do_list (us : list use) : M (list out) :=
  match us with [] => ret [] | u :: us' => a <- do_use u ;; b <- do_list us' ;; ret (a ++ b) end.
Definition do_uses (u : uses) : M (list out) :=
  match u with
  | Plain u => do_use u
  | InTx us c =>
      y <- call CBegin ;;
      match y with
      | OHandle (Some t) None => ys <- do_list us ;; z <- call (if c then TCommit t else TRollback t) ;; ret (y :: ys ++ [z])
      | _ => ret [y]
      end
  end.
Fixpoint do_all (us : list uses) : M (list out) :=
  match us with [] => ret [] | u :: us' => a <- do_uses u ;; b <- do_all us' ;; ret (a ++ b) end.
End Calls.

(** ** What its user may expect: a function of the database alone.
    [None]: nothing is promised — a record that makes Next panic (C49), arguments that
    make the argument conversion panic (C48), records of a query that stop with a
    FAILURE (C30), BEGIN, COMMIT or ROLLBACK with records, a failing COMMIT or ROLLBACK. *)
Section Ideal.
Context {DB : Type}.
Variable exec : DB -> str -> md -> DB * outcome.
Variable sendable : goval -> bool.
Variable mk : bool.
Definition answer : Type := option (DB * list sout).

Fixpoint ideal_rows (n : Z) (k : nat) (recs : list (list goval)) : option (list sout) :=
  match k, recs with
  | O, _ => Some []
  | S _, [] => Some [ACellsEnd]
  | S k', fs :: recs' =>
      match fill n fs with
      | (ds, NDone) => option_map (cons (ACells ds)) (ideal_rows n k' recs')
      | (_, NErr) => Some [ACellsBad]
      | (_, NPanic) => None
      end
  end.
Definition ideal_run (db : DB) (q : str) (args : list darg) (x : want) : answer :=
  match driver_args mk args with
  | APanic => None
  | AErr => Some (db, [ARefused])
  | AOk ps =>
      if sendable (VRun q ps) then
        let '(db', oc) := exec db q ps in
        match x, oc with
        | _, RunFails m | None, Runs _ _ (Breaks m) => Some (db', [AFailed m])
        | None, Runs _ _ (Ends m) => Some (db', [AResult m])
        | Some (n, k), Runs _ recs (Ends _) => option_map (fun l => (db', AHandle :: l ++ [ANil])) (ideal_rows n k recs)
        | Some _, Runs _ _ (Breaks _) => None
        end
      else Some (db, [ARefused])
  end.
Definition and_then (a : answer) (k : DB -> answer) : answer :=
  match a with None => None | Some (db, l) => option_map (fun x => (fst x, l ++ snd x)) (k db) end.
Fixpoint ideal_prepared (db : DB) (q : str) (l : list (list darg * want)) : answer :=
  match l with
  | [] => Some (db, [])
  | (args, x) :: l' => and_then (ideal_run db q args x) (fun db' => ideal_prepared db' q l')
  end.
Definition ideal_use (db : DB) (u : use) : answer :=
  match u with
  | URun q args x => ideal_run db q args x
  | UPrepared q l => option_map (fun x => (fst x, AHandle :: snd x ++ [ANil])) (ideal_prepared db q l)
  end.
Fixpoint ideal_list (db : DB) (us : list use) : answer :=
  match us with [] => Some (db, []) | u :: us' => and_then (ideal_use db u) (fun db' => ideal_list db' us') end.
Definition ideal_uses (db : DB) (u : uses) : answer :=
  match u with
  | Plain u => ideal_use db u
  | InTx us c =>
      match exec db s_begin [] with
      | (db1, RunFails m) | (db1, Runs _ [] (Breaks m)) => Some (db1, [AFailed m])
      | (db1, Runs _ [] (Ends _)) =>
          match ideal_list db1 us with
          | None => None
          | Some (db2, l) =>
              match exec db2 (if c then s_commit else s_rollback) [] with
              | (db3, Runs _ [] (Ends _)) => Some (db3, AHandle :: l ++ [ANil])
              | _ => None
              end
          end
      | _ => None
      end
  end.
Fixpoint ideal_all (db : DB) (us : list uses) : answer :=
  match us with [] => Some (db, []) | u :: us' => and_then (ideal_uses db u) (fun db' => ideal_all db' us') end.
End Ideal.

(** ** The driver keeps to it *)
Section Keeps.
Context {DB : Type}.
Variable exec : DB -> str -> md -> DB * outcome.
Variable sendable : goval -> bool.
Variable mk : bool.
Hypothesis Hctl : controls sendable.
Notation net := (bolt exec sendable).
Notation W := (world (bnet DB)).

(** with enough fuel [m] returns [x] and leads from [w] to [w'] *)
Definition yields {A} (m : nat -> M (N := bnet DB) A) (w : W) (x : A) (w' : W) : Prop :=
  exists f0, forall f, (f0 <= f)%nat -> m f w = (Ok x, w').
Lemma yields_ret : forall A (x : A) w, yields (fun _ => ret x) w x w.
Proof. intros. exists O. reflexivity. Qed.
Lemma yields_call : forall o w r w', does exec sendable mk o w r w' -> yields (fun f => call net mk f o) w r w'.
Proof. intros o w r w' (f0 & H). exists f0. intros f Hf. unfold call. now apply (step_fuel net mk f0 f o w r w'). Qed.
Lemma yields_bind : forall A B (m : nat -> M (N := bnet DB) A) (k : nat -> A -> M B) w x w1 y w2,
  yields m w x w1 -> yields (fun f => k f x) w1 y w2 -> yields (fun f => bind (m f) (k f)) w y w2.
Proof. intros A B m k w x w1 y w2 (f1 & H1) (f2 & H2). exists (Nat.max f1 f2). intros f Hf. unfold bind. rewrite H1 by lia. apply H2. lia. Qed.

Lemma forget : forall p (w : W) st, Rel p w st -> Rel p w (at_rest (sp_db st) (sp_phase st) (sp_tx st)).
Proof. intros p w st (H1 & H2 & _ & _ & _ & H6 & H7). split; [exact H1|]. split; [exact H2|]. do 3 (split; [intros ? []|]). split; [exact H6|exact H7]. Qed.
Lemma one_call : forall p (w : W) st o a k, Rel p w st -> expect exec sendable mk p st o = Some (a, k) ->
  exists r w', yields (fun f => call net mk f o) w r w' /\ conforms a r /\ Rel p w' (at_rest (sp_db (k (handle_of r))) (sp_phase (k (handle_of r))) (sp_tx (k (handle_of r)))).
Proof.
  intros p w st o a k HR E. destruct (step_at exec sendable mk Hctl _ _ _ _ _ _ HR E) as (r & w' & Hd & Hc & HR'). exists r, w'.
  split; [now apply yields_call|]. split; [exact Hc|now apply forget].
Qed.

Lemma rows_ok : forall p ow r h m n k recs l db t w, Rel p w (at_rest db (PRows ow r h (Single recs (Ends m))) t) -> ideal_rows n k recs = Some l ->
  exists outs w' x, yields (fun f => read_rows net mk f r n k) w outs w' /\ Forall2 conforms l outs /\ Rel p w' (at_rest db (PRows ow r h x) t) /\ drain x = None.
Proof.
  intros p ow r h m n. induction k as [|k IH]; intros recs l db t w HR Hi; cbn [ideal_rows] in Hi.
  - injection Hi as <-. exists [], w, (Single recs (Ends m)). split; [apply yields_ret|]. split; [constructor|]. split; [exact HR|reflexivity].
  - destruct recs as [|fs recs].
    + injection Hi as <-. pose proof (fun a k => one_call p w _ (RNextSql r n) a k HR) as Hst; edestruct Hst as (y & w' & Y & C & R); clear Hst.
      { cbn [expect rows_op at_rest sp_dr sp_phase existsb]. rewrite Nat.eqb_refl. reflexivity. }
      cbn in C. subst y. eexists [_], w', Done. split; [|split; [repeat constructor|split; [exact R|reflexivity]]].
      cbn [read_rows]. eapply yields_bind; [exact Y|]. cbv beta iota. apply yields_ret.
    + destruct (fill n fs) as [ds []] eqn:Ef; try discriminate.
      * destruct (ideal_rows n k recs) as [l'|] eqn:El; [|discriminate]. injection Hi as <-.
        pose proof (fun a k => one_call p w _ (RNextSql r n) a k HR) as Hst; edestruct Hst as (y & w1 & Y & C & R); clear Hst.
        { cbn [expect rows_op at_rest sp_dr sp_phase existsb]. rewrite Nat.eqb_refl, Ef. reflexivity. }
        cbn in C. subst y. destruct (IH recs l' db t w1 R El) as (outs & w2 & x & Y2 & C2 & R2 & D2). exists (OCells ds None :: outs), w2, x.
        split; [|split; [constructor; [reflexivity|exact C2]|split; [exact R2|exact D2]]].
        cbn [read_rows]. eapply yields_bind; [exact Y|]. cbv beta iota. eapply yields_bind; [exact Y2|]. apply yields_ret.
      * injection Hi as <-. pose proof (fun a k => one_call p w _ (RNextSql r n) a k HR) as Hst; edestruct Hst as (y & w1 & Y & C & R); clear Hst.
        { cbn [expect rows_op at_rest sp_dr sp_phase existsb]. rewrite Nat.eqb_refl, Ef. reflexivity. }
        pose proof C as C'. cbn in C. destruct C as (ds' & e & -> & _). eexists [_], w1, (Single recs (Ends m)).
        split; [|split; [constructor; [exact C'|constructor]|split; [exact R|reflexivity]]].
        cbn [read_rows]. eapply yields_bind; [exact Y|]. cbv beta iota. apply yields_ret.
Qed.

(** The two places a statement can be run from: the connection itself, or the prepared statement [s]. *)
Definition o_exec (ow : option (nat * kind)) (q : str) (args : list darg) : op := match ow with None => CExecSql q args | Some (s, _) => SExecSql s args end.
Definition o_query (ow : option (nat * kind)) (q : str) (args : list darg) : op := match ow with None => CQuerySql q args | Some (s, _) => SQuerySql s args end.
Definition owns (ow : option (nat * kind)) (q : str) : Prop := match ow with None => True | Some (_, k) => k = One q end.

Lemma run_ok : forall p ow q args x l db db' t w, owns ow q -> Rel p w (at_rest db (home ow) t) -> ideal_run exec sendable mk db q args x = Some (db', l) ->
  exists outs w', yields (fun f => start_run net mk f (o_exec ow q args) (o_query ow q args) x) w outs w' /\ Forall2 conforms l outs /\ Rel p w' (at_rest db' (home ow) t).
Proof.
  intros p ow q args x l db db' t w Ho HR Hi. unfold ideal_run in Hi.
  assert (Ee : expect exec sendable mk p (at_rest db (home ow) t) (o_exec ow q args) =
    match driver_args mk args with AOk ps => run_exec exec sendable q ps (at_rest db (home ow) t) | AErr => says ARefused (at_rest db (home ow) t) | APanic => None end).
  { destruct ow as [[s k]|]; cbn in Ho; subst; cbn [o_exec expect home]; destruct (driver_args mk args); try reflexivity.
    cbn [stmt_op at_rest sp_ds sp_phase existsb]. rewrite Nat.eqb_refl. reflexivity. }
  assert (Eq : expect exec sendable mk p (at_rest db (home ow) t) (o_query ow q args) =
    match driver_args mk args with AOk ps => run_query exec sendable ow q ps (at_rest db (home ow) t) | AErr => says ARefused (at_rest db (home ow) t) | APanic => None end).
  { destruct ow as [[s k]|]; cbn in Ho; subst; cbn [o_query expect home]; destruct (driver_args mk args); try reflexivity.
    cbn [stmt_op at_rest sp_ds sp_phase existsb]. rewrite Nat.eqb_refl. reflexivity. }
  assert (Hone : forall a o db1, expect exec sendable mk p (at_rest db (home ow) t) o = says a (at_rest db1 (home ow) t) ->
    exists y w', yields (fun f => call net mk f o) w y w' /\ conforms a y /\ Rel p w' (at_rest db1 (home ow) t)).
  { intros a o db1 E. unfold says in E. destruct (one_call p w _ o _ _ HR E) as (y & w' & Y & C & R). exists y, w'. auto. }
  assert (Hexec : forall a db1, x = None -> expect exec sendable mk p (at_rest db (home ow) t) (o_exec ow q args) = says a (at_rest db1 (home ow) t) ->
    exists outs w', yields (fun f => start_run net mk f (o_exec ow q args) (o_query ow q args) x) w outs w' /\ Forall2 conforms [a] outs /\ Rel p w' (at_rest db1 (home ow) t)).
  { intros a db1 -> E. destruct (Hone a _ db1 E) as (y & w' & Y & C & R). exists [y], w'. split; [|split; [repeat constructor; exact C|exact R]].
    cbn [start_run]. eapply yields_bind; [exact Y|]. apply yields_ret. }
  assert (Hbad : forall a n k db1, x = Some (n, k) -> (forall h, ~ conforms a (OHandle (Some h) None)) ->
    expect exec sendable mk p (at_rest db (home ow) t) (o_query ow q args) = says a (at_rest db1 (home ow) t) ->
    exists outs w', yields (fun f => start_run net mk f (o_exec ow q args) (o_query ow q args) x) w outs w' /\ Forall2 conforms [a] outs /\ Rel p w' (at_rest db1 (home ow) t)).
  { intros a n k db1 -> Hn E. destruct (Hone a _ db1 E) as (y & w' & Y & C & R). exists [y], w'. split; [|split; [repeat constructor; exact C|exact R]].
    cbn [start_run]. eapply yields_bind; [exact Y|]. destruct y; try apply yields_ret. repeat match goal with |- context [match ?z with Some _ => _ | None => _ end] => destruct z end; try apply yields_ret. exfalso. exact (Hn _ C). }
  assert (Hnr : forall h, ~ conforms ARefused (OHandle (Some h) None)) by (intros h Hc; exact Hc).
  assert (Hnf : forall m h, ~ conforms (AFailed m) (OHandle (Some h) None)) by (intros m h Hc; exact Hc).
  destruct (driver_args mk args) as [ps| |] eqn:Ea; [|injection Hi as <- <-; destruct x as [[n k]|]; eauto|discriminate].
  unfold run_exec in Ee. unfold run_query in Eq. destruct (sendable (VRun q ps)); [|injection Hi as <- <-; destruct x as [[n k]|]; eauto].
  cbn [at_rest sp_db] in Ee, Eq. destruct (exec db q ps) as [db1 [m|h recs [m|m]]] eqn:Ex.
  - destruct x as [[n k]|]; injection Hi as <- <-; eauto.
  - destruct x as [[n k]|]; [|injection Hi as <- <-; eauto].
    destruct (ideal_rows n k recs) as [l'|] eqn:El; [|discriminate]. injection Hi as <- <-.
    destruct (one_call p w _ _ _ _ HR Eq) as (y & w1 & Y & (r & ->) & R).
    destruct (rows_ok p ow r h m n k recs l' db1 t w1 R El) as (outs & w2 & z & Y2 & C2 & R2 & D2).
    pose proof (fun a k => one_call p w2 _ (RClose r) a k R2) as Hst; edestruct Hst as (y & w3 & Y3 & C3 & R3); clear Hst.
    { cbn [expect rows_op at_rest sp_dr sp_phase existsb]. rewrite Nat.eqb_refl, D2. destruct z as [[|]?|[|][] [|[[]|]]|]; reflexivity. }
    exists (OHandle (Some r) None :: outs ++ [y]), w3. split; [|split].
    + cbn [start_run]. eapply yields_bind; [exact Y|]. cbv beta iota. eapply yields_bind; [exact Y2|]. eapply yields_bind; [exact Y3|]. apply yields_ret.
    + constructor; [exists r; reflexivity|]. apply Forall2_app; [exact C2|]. repeat constructor. exact C3.
    + destruct ow as [[s kk]|]; exact R3.
  - destruct x as [[n k]|]; [discriminate|injection Hi as <- <-; eauto].
Qed.

Lemma then_some : forall (a : @answer DB) k db' l, and_then a k = Some (db', l) -> exists db1 l1 l2, a = Some (db1, l1) /\ k db1 = Some (db', l2) /\ l = l1 ++ l2.
Proof.
  intros [[db1 l1]|] k db' l H; [|discriminate]. cbn in H. destruct (k db1) as [[db2 l2]|] eqn:E; [|discriminate]. cbn in H. injection H as <- <-. exists db1, l1, l2. auto.
Qed.
Lemma prepared_ok : forall p s q runs l db db' t w, Rel p w (at_rest db (PStmt s (One q)) t) -> ideal_prepared exec sendable mk db q runs = Some (db', l) ->
  exists outs w', yields (fun f => run_prepared net mk f s runs) w outs w' /\ Forall2 conforms l outs /\ Rel p w' (at_rest db' (PStmt s (One q)) t).
Proof.
  intros p s q. induction runs as [|[args x] runs IH]; intros l db db' t w HR Hi; cbn [ideal_prepared] in Hi.
  - injection Hi as <- <-. exists [], w. split; [apply yields_ret|]. split; [constructor|exact HR].
  - apply then_some in Hi. destruct Hi as (db1 & l1 & l2 & H1 & H2 & ->).
    destruct (run_ok p (Some (s, One q)) q args x l1 db db1 t w eq_refl HR H1) as (o1 & w1 & Y1 & C1 & R1).
    destruct (IH l2 db1 db' t w1 R1 H2) as (o2 & w2 & Y2 & C2 & R2). exists (o1 ++ o2), w2. split; [|split; [now apply Forall2_app|exact R2]].
    cbn [run_prepared]. eapply yields_bind; [exact Y1|]. eapply yields_bind; [exact Y2|]. apply yields_ret.
Qed.
Lemma use_ok : forall p u l db db' t w, Rel p w (at_rest db PIdle t) -> ideal_use exec sendable mk db u = Some (db', l) ->
  exists outs w', yields (fun f => do_use net mk f u) w outs w' /\ Forall2 conforms l outs /\ Rel p w' (at_rest db' PIdle t).
Proof.
  intros p [q args x|q runs] l db db' t w HR Hi; cbn [ideal_use] in Hi.
  - exact (run_ok p None q args x l db db' t w I HR Hi).
  - destruct (ideal_prepared exec sendable mk db q runs) as [[db1 l1]|] eqn:E; [|discriminate]. cbn in Hi. injection Hi as <- <-.
    pose proof (fun a k => one_call p w _ (CPrepare q) a k HR) as Hst; edestruct Hst as (y & w1 & Y & C & R); clear Hst; [reflexivity|]. destruct C as (s & ->). cbn in R.
    destruct (prepared_ok p s q runs l1 db db1 t w1 R E) as (outs & w2 & Y2 & C2 & R2).
    pose proof (fun a k => one_call p w2 _ (SClose s) a k R2) as Hst; edestruct Hst as (y & w3 & Y3 & C3 & R3); clear Hst.
    { cbn [expect stmt_op at_rest sp_ds sp_phase existsb]. rewrite Nat.eqb_refl. reflexivity. }
    exists (OHandle (Some s) None :: outs ++ [y]), w3. split; [|split; [|exact R3]].
    + cbn [do_use]. eapply yields_bind; [exact Y|]. cbv beta iota. eapply yields_bind; [exact Y2|]. eapply yields_bind; [exact Y3|]. apply yields_ret.
    + constructor; [exists s; reflexivity|]. apply Forall2_app; [exact C2|]. repeat constructor. exact C3.
Qed.
Lemma list_ok : forall p us l db db' t w, Rel p w (at_rest db PIdle t) -> ideal_list exec sendable mk db us = Some (db', l) ->
  exists outs w', yields (fun f => do_list net mk f us) w outs w' /\ Forall2 conforms l outs /\ Rel p w' (at_rest db' PIdle t).
Proof.
  intros p. induction us as [|u us IH]; intros l db db' t w HR Hi; cbn [ideal_list] in Hi.
  - injection Hi as <- <-. exists [], w. split; [apply yields_ret|]. split; [constructor|exact HR].
  - apply then_some in Hi. destruct Hi as (db1 & l1 & l2 & H1 & H2 & ->).
    destruct (use_ok p u l1 db db1 t w HR H1) as (o1 & w1 & Y1 & C1 & R1).
    destruct (IH l2 db1 db' t w1 R1 H2) as (o2 & w2 & Y2 & C2 & R2). exists (o1 ++ o2), w2. split; [|split; [now apply Forall2_app|exact R2]].
    cbn [do_list]. eapply yields_bind; [exact Y1|]. eapply yields_bind; [exact Y2|]. apply yields_ret.
Qed.
Lemma uses_ok : forall p u l db db' w, Rel p w (at_rest db PIdle None) -> ideal_uses exec sendable mk db u = Some (db', l) ->
  exists outs w', yields (fun f => do_uses net mk f u) w outs w' /\ Forall2 conforms l outs /\ Rel p w' (at_rest db' PIdle None).
Proof.
  intros p [u|us c] l db db' w HR Hi; cbn [ideal_uses] in Hi.
  - exact (use_ok p u l db db' None w HR Hi).
  - assert (Hfail : forall m db1, expect exec sendable mk p (at_rest db PIdle None) CBegin = says (AFailed m) (at_rest db1 PIdle None) ->
      exists outs w', yields (fun f => do_uses net mk f (InTx us c)) w outs w' /\ Forall2 conforms [AFailed m] outs /\ Rel p w' (at_rest db1 PIdle None)).
    { intros m db1 E. unfold says in E. destruct (one_call p w _ CBegin _ _ HR E) as (y & w' & Y & C & R). exists [y], w'. split; [|split; [repeat constructor; exact C|exact R]].
      cbn [do_uses]. eapply yields_bind; [exact Y|]. destruct y; try apply yields_ret. repeat match goal with |- context [match ?z with Some _ => _ | None => _ end] => destruct z end; try apply yields_ret. exfalso. exact C. }
    cbn [expect conn_op at_rest sp_phase sp_tx] in Hfail. unfold control in Hfail. cbn [at_rest sp_db] in Hfail.
    destruct (exec db s_begin []) as [db1 [m|h [|] [m|m]]] eqn:Eb; try discriminate; try (injection Hi as <- <-; apply Hfail; reflexivity). clear Hfail.
    destruct (ideal_list exec sendable mk db1 us) as [[db2 l1]|] eqn:El; [|discriminate].
    destruct (exec db2 (if c then s_commit else s_rollback) []) as [db3 [m3|h3 [|] [m3|m3]]] eqn:Ec; try discriminate. injection Hi as <- <-.
    pose proof (fun a k => one_call p w _ CBegin a k HR) as Hst; edestruct Hst as (y & w1 & Y & C & R); clear Hst.
    { cbn [expect conn_op at_rest sp_phase sp_tx]. unfold control. cbn [at_rest sp_db]. rewrite Eb. reflexivity. }
    destruct C as (t & ->). cbn in R. destruct (list_ok p us l1 db1 db2 (Some t) w1 R El) as (outs & w2 & Y2 & C2 & R2).
    pose proof (fun a k => one_call p w2 _ (if c then TCommit t else TRollback t) a k R2) as Hst; edestruct Hst as (y & w3 & Y3 & C3 & R3); clear Hst.
    { destruct c; cbn [expect tx_op at_rest sp_dt sp_tx sp_phase existsb]; rewrite Nat.eqb_refl; unfold close_open, control; cbn [at_rest sp_phase sp_db]; rewrite Ec; reflexivity. }
    exists (OHandle (Some t) None :: outs ++ [y]), w3. split; [|split; [|exact R3]].
    + cbn [do_uses]. eapply yields_bind; [exact Y|]. cbv beta iota. eapply yields_bind; [exact Y2|]. eapply yields_bind; [exact Y3|]. apply yields_ret.
    + constructor; [exists t; reflexivity|]. apply Forall2_app; [exact C2|]. repeat constructor. exact C3.
Qed.
Lemma all_ok : forall p us l db db' w, Rel p w (at_rest db PIdle None) -> ideal_all exec sendable mk db us = Some (db', l) ->
  exists outs w', yields (fun f => do_all net mk f us) w outs w' /\ Forall2 conforms l outs /\ Rel p w' (at_rest db' PIdle None).
Proof.
  intros p. induction us as [|u us IH]; intros l db db' w HR Hi; cbn [ideal_all] in Hi.
  - injection Hi as <- <-. exists [], w. split; [apply yields_ret|]. split; [constructor|exact HR].
  - apply then_some in Hi. destruct Hi as (db1 & l1 & l2 & H1 & H2 & ->).
    destruct (uses_ok p u l1 db db1 w HR H1) as (o1 & w1 & Y1 & C1 & R1).
    destruct (IH l2 db1 db' w1 R1 H2) as (o2 & w2 & Y2 & C2 & R2). exists (o1 ++ o2), w2. split; [|split; [now apply Forall2_app|exact R2]].
    cbn [do_all]. eapply yields_bind; [exact Y1|]. eapply yields_bind; [exact Y2|]. apply yields_ret.
Qed.
End Keeps.
