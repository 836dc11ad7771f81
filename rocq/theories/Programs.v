(** The programs of examples/ and of the README, as users of the driver, and what they print on a
    database: the second part is written on the database alone, without driver or server.

    A program is a tree of calls, of printed lines and of endings; it can loop for ever, hence
    coinductive.  A call that panics inside the driver has no continuation.  A panic of the program
    itself ends it; that the deferred conn.Close is still run while it panics is not followed. *)
From Coq Require Import ZArith List Bool String Lia.
From Verif Require Import GoPrims PrimLemmas Value Errors Misc Session SessionVoc SessionGen SessionFuel ServerSpec SessionSpec SessionBolt SessionRefine SessionUse SqlUse PropsNames.
Import ListNotations.
Open Scope list_scope.
Open Scope Z_scope.

Inductive line :=
| LCreated (n : Z)                                        (* "CREATED ROWS: %d\n" *)
| LColumns (fields : list goval)                          (* "COLUMNS: %#v\n" *)
| LFields (n : Z) (bits : Z)                              (* "FIELDS: %d %f\n" *)
| LPath (v : goval) | LNode (v : goval)                   (* "PATH: %#v\n", "NODE: %#v\n" *)
| LResult (m : option md)                                 (* fmt.Println(result) *)
| LDeleted (n : Z).                                       (* "Rows Deleted: %d" *)
Inductive ending := Returned | Crashed.

CoInductive prog :=
| Call (o : op) (k : out -> prog)
| Print (x : line) (p : prog)
| Stop (e : ending).
Notation Crash := (Stop Crashed).

(** The calls a program makes, what they return, what it prints and how it ends. *)
Inductive trace : prog -> list op -> list out -> list line -> ending -> Prop :=
| trace_call : forall o k r os rs ls e, trace (k r) os rs ls e -> trace (Call o k) (o :: os) (r :: rs) ls e
| trace_print : forall x p os rs ls e, trace p os rs ls e -> trace (Print x p) os rs (x :: ls) e
| trace_stop : forall e, trace (Stop e) [] [] [] e.

(** ** The queries *)
Definition q_create : str := text "CREATE (n:NODE {foo: {foo}, bar: {bar}})".
Definition q_get : str := text "MATCH (n:NODE) RETURN n.foo, n.bar".
Definition q_foo : str := text "MATCH (n:NODE) CREATE (n)-[:REL]->(f:FOO)".
Definition q_bar : str := text "MATCH (n:NODE) CREATE (n)-[:REL]->(b:BAR)".
Definition q_baz : str := text "MATCH (n:NODE) CREATE (n)-[:REL]->(z:BAZ)".
Definition q_paths : str := text "MATCH path=(n:NODE)-[:REL]->(m) RETURN path".
Definition q_nodes : str := text "MATCH (n:NODE)-[:REL]->(m) RETURN m".
Definition q_delete : str := text "MATCH (n) DETACH DELETE n".
Definition six : list str := [q_foo; q_bar; q_baz; q_foo; q_bar; q_baz].
Definition no_params : list md := [[]; []; []; []; []; []].
(** map[string]interface{}{"foo": 1, "bar": 2.2}; Go does not say in which order a map is sent.
    4612136378390124954 are the bits of 2.2. *)
Definition foo_bar (swap : bool) : md :=
  if swap then [(text "bar", VF64 4612136378390124954); (text "foo", VInt KInt 1)] else [(text "foo", VInt KInt 1); (text "bar", VF64 4612136378390124954)].

(** ** Pieces *)
(** [n, _ := result.RowsAffected()] *)
Definition affected (m : md) (k : Z -> prog) : prog :=
  match rows_affected m with RAOk n => k n | RAErr => k (-1) | RAPanic => Crash end.
(** [for _, result := range results], slow_n_clean.go:93-96, quick_n_dirty.go:35-38 *)
Fixpoint created (ms : list md) (k : prog) : prog :=
  match ms with [] => k | m :: ms' => affected m (fun n => Print (LCreated n) (created ms' k)) end.
(** [rows.Metadata()["fields"].([]interface{})] and then [data[0].(int64), data[1].(float64)],
    slow_n_clean.go:69-70, quick_n_dirty.go:22-23 *)
Definition show_fields (m : md) (row : option (list goval)) (k : prog) : prog :=
  match mget s_fields m with
  | Some (VSlice l) =>
      Print (LColumns l)
        match row with
        | Some (VInt KInt64 n :: VF64 b :: _) => Print (LFields n b) k
        | _ => Crash
        end
  | _ => Crash
  end.
(** slow_n_clean.go:115-123, README.md:165-173 *)
CoFixpoint show_paths (r : nat) (k : prog) : prog :=
  Call (RNext r) (fun x =>
    match x with
    | ONext row _ None =>
        match row with
        | Some (VPath a b c :: _) => Print (LPath (VPath a b c)) (show_paths r k)
        | _ => Crash
        end
    | ONext _ _ (Some EEOF) => k
    | _ => Crash
    end).
(** quick_n_dirty.go:41-43 *)
Fixpoint show_nodes (rows : list (list goval)) (k : prog) : prog :=
  match rows with
  | [] => k
  | (VNode a b c :: _) :: rows' => Print (LNode (VNode a b c)) (show_nodes rows' k)
  | _ :: _ => Crash
  end.
(** the deferred conn.Close(), slow_n_clean.go:17, quick_n_dirty.go:13 *)
Definition leave : prog := Call CClose (fun _ => Stop Returned).
(** [stmt, err := ...; if err != nil { panic(err) }] *)
Definition handle (o : op) (k : nat -> prog) : prog :=
  Call o (fun x => match x with OHandle (Some h) None => k h | _ => Crash end).

(** ** examples/slow_n_clean/slow_n_clean.go:11-131 main; with [readme]: README.md:86-220 *)
(** lines 127-130; README.md:208-213 cleanUp *)
Definition slow_delete : prog :=
  Call (CExec q_delete []) (fun x =>
    match x with
    | OResult (Some m) _ => Print (LResult (Some m)) (affected m (fun n => Print (LDeleted n) leave))
    | _ => Print (LResult None) Crash                     (* result is nil: RowsAffected panics *)
    end).
(** lines 103-125; README.md:100-102 *)
Definition slow_paths : prog :=
  handle (CPrepare q_paths) (fun s =>
  handle (SQuery s []) (fun r =>
  show_paths r (Call (SClose s) (fun _ => slow_delete)))).
(** lines 76-101; README.md:97-98, 124-148 *)
Definition slow_pipeline : prog :=
  handle (CPreparePipeline six) (fun s =>
  Call (SExecPipeline s no_params) (fun x =>
    match x with
    | OResults (Some ms) None => created ms (Call (SClose s) (fun x => match x with OErr None => slow_paths | _ => Crash end))
    | _ => Crash
    end)).
(** lines 41-72; README.md:93-95, 177-194.  The README passes the io.EOF of the second NextNeo to handleError. *)
Definition slow_get (readme : bool) : prog :=
  handle (CPrepare q_get) (fun s =>
  handle (SQuery s []) (fun r =>
  Call (RNext r) (fun x =>
    match x with
    | ONext data _ None =>
        Call (RNext r) (fun y =>
          let go_on :=
            Call (RMeta r) (fun z => match z with OMeta m => show_fields m data (Call (SClose s) (fun _ => slow_pipeline)) | _ => Crash end) in
          match y with
          | ONext _ _ (Some EEOF) => if readme then Crash else go_on
          | ONext _ _ None => if readme then go_on else Crash
          | _ => Crash
          end)
    | _ => Crash
    end))).
(** lines 21-38; README.md:90-91, 197-206 *)
Definition slow (readme : bool) (ps : md) : prog :=
  handle (CPrepare q_create) (fun s =>
  Call (SExec s ps) (fun x =>
    match x with
    | OResult (Some m) None =>
        match rows_affected m with
        | RAOk n => Print (LCreated n) (Call (SClose s) (fun _ => slow_get readme))
        | _ => Crash
        end
    | _ => Crash
    end)).

(** ** examples/quick_n_dirty/quick_n_dirty.go:10-48 main, README.md:32-70: errors are ignored *)
Definition quick_delete : prog :=
  Call (CExec q_delete []) (fun x =>
    match x with
    | OResult (Some m) _ => affected m (fun n => Print (LDeleted n) leave)
    | _ => Crash
    end).
Definition quick_nodes : prog :=
  Call (CQueryAll q_nodes []) (fun x =>
    match x with
    | OQueryAll (Some data) _ _ _ => show_nodes data quick_delete
    | _ => quick_delete
    end).
Definition quick_pipeline : prog :=
  Call (CExecPipeline six no_params) (fun x =>
    match x with
    | OResults (Some ms) _ => created ms quick_nodes
    | _ => quick_nodes
    end).
Definition quick (ps : md) : prog :=
  Call (CExec q_create ps) (fun x =>
    match x with
    | OResult (Some m) _ => affected m (fun n => Print (LCreated n)
        (Call (CQueryAll q_get []) (fun y =>
          match y with
          | OQueryAll data (Some h) _ _ => show_fields h match data with Some (row :: _) => Some row | _ => None end quick_pipeline
          | _ => Crash
          end)))
    | _ => Crash
    end).

(** ** What they print, on the database *)
Section Ideal.
Context {DB : Type}.
Variable exec : DB -> str -> md -> DB * outcome.
Definition result : Type := list line * ending * DB.
Definition said (x : line) (r : result) : result := let '(l, e, db) := r in (x :: l, e, db).
Definition crash (db : DB) : result := ([], Crashed, db).
(** a query run for its summary *)
Definition summary (db : DB) (q : str) (ps : md) : DB * option md :=
  match exec db q ps with
  | (db', Runs _ _ (Ends m)) => (db', Some m)
  | (db', _) => (db', None)
  end.
(** queries run one after the other until one fails *)
Fixpoint summary_all (db : DB) (qs : list str) : DB * option (list md) :=
  match qs with
  | [] => (db, Some [])
  | q :: qs' =>
      match summary db q [] with
      | (db', None) => (db', None)
      | (db', Some m) => let '(db'', x) := summary_all db' qs' in (db'', option_map (cons m) x)
      end
  end.
(** -1 for statistics that are not a map; no number if one of them is not an integer (C22) *)
Definition count (m : md) : option Z := match rows_affected m with RAOk n => Some n | RAErr => Some (-1) | RAPanic => None end.
Fixpoint ideal_created (db : DB) (ms : list md) (k : result) : result :=
  match ms with
  | [] => k
  | m :: ms' => match count m with Some n => said (LCreated n) (ideal_created db ms' k) | None => crash db end
  end.
Definition ideal_deleted (db : DB) (m : md) : result := match count m with Some n => said (LDeleted n) ([], Returned, db) | None => crash db end.
Definition ideal_fields (db : DB) (h : md) (recs : list (list goval)) (k : result) : result :=
  match mget s_fields h with
  | Some (VSlice l) => said (LColumns l) match recs with (VInt KInt64 n :: VF64 b :: _) :: _ => said (LFields n b) k | _ => crash db end
  | _ => crash db
  end.
Fixpoint ideal_paths (db : DB) (recs : list (list goval)) (k : result) : result :=
  match recs with
  | [] => k
  | (VPath a b c :: _) :: recs' => said (LPath (VPath a b c)) (ideal_paths db recs' k)
  | _ :: _ => crash db
  end.
Fixpoint ideal_nodes (db : DB) (recs : list (list goval)) (k : result) : result :=
  match recs with
  | [] => k
  | (VNode a b c :: _) :: recs' => said (LNode (VNode a b c)) (ideal_nodes db recs' k)
  | _ :: _ => crash db
  end.

Definition ideal_slow_delete (db : DB) : result :=
  match summary db q_delete [] with
  | (db', Some m) => said (LResult (Some m)) (ideal_deleted db' m)
  | (db', None) => said (LResult None) (crash db')
  end.
Definition ideal_slow_paths (db : DB) : result :=
  match exec db q_paths [] with
  | (db', RunFails _) => crash db'
  | (db', Runs _ recs (Ends _)) => ideal_paths db' recs (ideal_slow_delete db')
  | (db', Runs _ recs (Breaks _)) => ideal_paths db' recs (crash db')
  end.
Definition ideal_slow_pipeline (db : DB) : result :=
  match summary_all db six with
  | (db', None) => crash db'
  | (db', Some ms) => ideal_created db' ms (ideal_slow_paths db')
  end.
(** The program wants exactly one record; the README's wants at least two, and that the stream ends well. *)
Definition ideal_slow_get (readme : bool) (db : DB) : result :=
  match exec db q_get [] with
  | (db', Runs h [row] (Ends _)) => if readme then crash db' else ideal_fields db' h [row] (ideal_slow_pipeline db')
  | (db', Runs h (row :: _ :: _) fin) =>
      if readme then ideal_fields db' h [row] (match fin with Ends _ => ideal_slow_pipeline db' | Breaks _ => crash db' end) else crash db'
  | (db', _) => crash db'
  end.
Definition ideal_slow (readme : bool) (ps : md) (db : DB) : result :=
  match summary db q_create ps with
  | (db', None) => crash db'
  | (db', Some m) => match rows_affected m with RAOk n => said (LCreated n) (ideal_slow_get readme db') | _ => crash db' end
  end.

Definition ideal_quick_delete (db : DB) : result :=
  match summary db q_delete [] with
  | (db', Some m) => ideal_deleted db' m
  | (db', None) => crash db'
  end.
(** If the records of a query end with a failure, everything after them is refused: nothing more
    reaches the database. *)
Definition ideal_quick_nodes (db : DB) : result :=
  match exec db q_nodes [] with
  | (db', RunFails _) => ideal_quick_delete db'
  | (db', Runs _ recs (Ends _)) => ideal_nodes db' recs (ideal_quick_delete db')
  | (db', Runs _ recs (Breaks _)) => ideal_nodes db' recs (crash db')
  end.
Definition ideal_quick_pipeline (db : DB) : result :=
  match summary_all db six with
  | (db', None) => ideal_quick_nodes db'
  | (db', Some ms) => ideal_created db' ms (ideal_quick_nodes db')
  end.
Definition ideal_quick (ps : md) (db : DB) : result :=
  match summary db q_create ps with
  | (db', None) => crash db'
  | (db', Some m) =>
      match count m with
      | None => crash db'
      | Some n =>
          said (LCreated n)
            match exec db' q_get [] with
            | (db2, RunFails _) => crash db2
            | (db2, Runs h recs (Ends _)) => ideal_fields db2 h recs (ideal_quick_pipeline db2)
            | (db2, Runs h recs (Breaks _)) => ideal_fields db2 h recs (crash db2)
            end
      end
  end.
End Ideal.

(** ** The programs do what the database says *)
Section Runs.
Context {DB : Type}.
Variable exec : DB -> str -> md -> DB * outcome.
Variable sendable : goval -> bool.
Variable mk : bool.
Hypothesis Hctl : controls sendable.
Notation net := (bolt exec sendable).
Notation W := (world (bnet DB)).

(** the calls the programs make *)
Definition known_queries : list str := [q_create; q_get; q_foo; q_bar; q_baz; q_paths; q_nodes; q_delete].
Definition known_params : list md := [[]; foo_bar false; foo_bar true].
Definition plain_call (o : op) : Prop :=
  match o with
  | CPrepare q => In q known_queries
  | CPreparePipeline qs => incl qs known_queries
  | CExec q ps | CQueryAll q ps => In q known_queries /\ In ps known_params
  | CExecPipeline qs pss => incl qs known_queries /\ incl pss known_params
  | SExec _ ps | SQuery _ ps => In ps known_params
  | SExecPipeline _ pss => incl pss known_params
  | SClose _ | RNext _ | RMeta _ | CClose => True
  | _ => False
  end.
Definition yields (p : prog) (w : W) (r : result) : Prop :=
  exists os rs w', trace p os rs (fst (fst r)) (snd (fst r)) /\ calls exec sendable mk w os rs w' /\ b_db (w_net w') = snd r /\ Forall plain_call os.

Lemma y_call : forall o k (w : W) st a n res, Rel false w st -> expect exec sendable mk false st o = Some (a, n) -> plain_call o ->
  (forall r w', conforms a r -> Rel false w' (at_rest (sp_db (n (handle_of r))) (sp_phase (n (handle_of r))) (sp_tx (n (handle_of r)))) -> yields (k r) w' res) -> yields (Call o k) w res.
Proof.
  intros o k w st a n res HR E Ho Hk. destruct (step_at exec sendable mk Hctl _ _ _ _ _ _ HR E) as (r & w1 & Hd & Hc & HR').
  destruct (Hk r w1 Hc (forget _ _ _ HR')) as (os & rs & w2 & Ht & Hcs & Hdb & Hf). exists (o :: os), (r :: rs), w2.
  split; [now constructor|]. split; [eapply calls_cons; eauto|]. split; [exact Hdb|now constructor].
Qed.
Lemma y_print : forall x p w r, yields p w r -> yields (Print x p) w (said x r).
Proof. intros x p w [[l e] db] (os & rs & w' & Ht & H). exists os, rs, w'. split; [now constructor|exact H]. Qed.
Lemma rel_db : forall (w : W) st, Rel false w st -> b_db (w_net w) = sp_db st.
Proof.
  intros w st (_ & _ & _ & _ & _ & _ & H). destruct (sp_phase st); cbn in H.
  - destruct H as (_ & _ & ->). reflexivity.
  - destruct H as (_ & _ & _ & ->). reflexivity.
  - destruct H as (_ & s & k & row & x' & q & _ & _ & _ & _ & _ & _ & _ & _ & ->). reflexivity.
  - apply H.
  - apply H.
Qed.
Lemma y_stop : forall e (w : W) st, Rel false w st -> yields (Stop e) w ([], e, sp_db st).
Proof. intros e w st HR. exists [], [], w. split; [constructor|]. split; [apply calls_nil|]. split; [exact (rel_db _ _ HR)|constructor]. Qed.
Lemma y_crash : forall (w : W) db ph, Rel false w (at_rest db ph None) -> yields Crash w (crash db).
Proof. intros w db ph HR. exact (y_stop Crashed w _ HR). Qed.

(** all queries of the programs can be sent *)
Hypothesis Hsend : forall q ps, In q known_queries -> In ps known_params -> sendable (VRun q ps) = true.

Ltac known := first [exact I | solve [cbn; unfold incl; cbn; intuition (subst; tauto)] | solve [split; [cbn; tauto|cbn; tauto]] | tauto].
Ltac call HR := eapply y_call; [exact HR| |known|].
Ltac bad C := cbn in C; first [contradiction | match type of C with exists _, _ => destruct C as (? & ? & ?) end]; subst.

Lemma y_leave : forall (w : W) db, Rel false w (at_rest db PIdle None) -> yields leave w ([], Returned, db).
Proof. intros w db HR. call HR; [reflexivity|]. intros r w' C R. exact (y_stop Returned w' _ R). Qed.
Lemma y_affected : forall m k (w : W) db ph f, Rel false w (at_rest db ph None) -> (forall n, yields (k n) w (f n)) ->
  yields (affected m k) w match count m with Some n => f n | None => crash db end.
Proof. intros m k w db ph f HR Hk. unfold affected, count. destruct (rows_affected m); auto. eapply y_crash; eauto. Qed.
Lemma y_created : forall ms k (w : W) db ph r, Rel false w (at_rest db ph None) -> yields k w r -> yields (created ms k) w (ideal_created db ms r).
Proof.
  induction ms as [|m ms IH]; intros k w db ph r HR Hk; cbn [created ideal_created]; [exact Hk|].
  eapply (y_affected m _ w db ph (fun n => said (LCreated n) (ideal_created db ms r)) HR). intros n. apply y_print. eapply IH; eauto.
Qed.
Lemma y_nodes : forall recs k (w : W) db ph r, Rel false w (at_rest db ph None) -> yields k w r -> yields (show_nodes recs k) w (ideal_nodes db recs r).
Proof.
  induction recs as [|row recs IH]; intros k w db ph r HR Hk; cbn [show_nodes ideal_nodes]; [exact Hk|].
  destruct row as [|v row]; [eapply y_crash; eauto|]. destruct v; try (eapply y_crash; eauto). apply y_print. eapply IH; eauto.
Qed.
Lemma y_fields : forall h row k (w : W) db ph r recs, Rel false w (at_rest db ph None) -> yields k w r -> row = match recs with x :: _ => Some x | [] => None end ->
  yields (show_fields h row k) w (ideal_fields db h recs r).
Proof.
  intros h row k w db ph r recs HR Hk ->. unfold show_fields, ideal_fields.
  destruct (mget s_fields h) as [[]|]; try (eapply y_crash; eauto). apply y_print.
  destruct recs as [|[|[] [|[] ?]] ?]; try (eapply y_crash; eauto);
    repeat match goal with k : ikind |- _ => destruct k end; try (eapply y_crash; eauto); now apply y_print.
Qed.
Lemma innermost_eof : forall e m, failure_error m e -> e <> EEOF.
Proof. intros e m H ->. discriminate H. Qed.
Lemma driver_eof : forall e, driver_error e -> e <> EEOF.
Proof. intros e (f & l & H) ->. discriminate H. Qed.

Lemma frob : forall r k, show_paths r k = Call (RNext r) (fun x =>
    match x with
    | ONext row _ None =>
        match row with
        | Some (VPath a b c :: _) => Print (LPath (VPath a b c)) (show_paths r k)
        | _ => Crash
        end
    | ONext _ _ (Some EEOF) => k
    | _ => Crash
    end).
Proof.
  intros r k. set (f := fun p => match p with Call o k => Call o k | Print x p => Print x p | Stop e => Stop e end).
  assert (E : forall p, p = f p) by (intros []; reflexivity). rewrite (E (show_paths r k)) at 1. reflexivity.
Qed.
Ltac rows_now := cbn [expect rows_op at_rest sp_dr sp_phase existsb]; rewrite Nat.eqb_refl.
Ltac stmt_now := cbn [expect stmt_op at_rest sp_ds sp_phase existsb]; rewrite Nat.eqb_refl.
Lemma y_paths : forall s q r h fin recs k (w : W) db res, Rel false w (at_rest db (PRows (Some (s, One q)) r h (Single recs fin)) None) ->
  (forall w' m, fin = Ends m -> Rel false w' (at_rest db (PRows (Some (s, One q)) r h Done) None) -> yields k w' res) ->
  yields (show_paths r k) w (ideal_paths db recs match fin with Ends _ => res | Breaks _ => crash db end).
Proof.
  intros s q r h fin. induction recs as [|row recs IH]; intros k w db res HR Hk; cbn [ideal_paths]; rewrite frob.
  - destruct fin as [m|m].
    + call HR; [rows_now; reflexivity|]. intros x w' C R. cbn in C. subst x. cbv beta iota. eapply Hk; [reflexivity|exact R].
    + call HR; [rows_now; reflexivity|]. intros x w' C R.
      assert (E : match x with ONext _ _ None => False | ONext _ _ (Some EEOF) => False | _ => True end).
      { destruct x as [| | | | |[?|] [?|] [e|]| | | | |]; cbn in C; try exact I; try contradiction. destruct e; try exact I. discriminate C. }
      destruct x as [| | | | |? ? [e|]| | | | |]; try (eapply y_crash; exact R); try contradiction. destruct e; try contradiction; eapply y_crash; exact R.
  - call HR; [rows_now; reflexivity|]. intros x w' C R. cbn in C. subst x. cbv beta iota.
    destruct row as [|v row]; [eapply y_crash; exact R|]. destruct v; try (eapply y_crash; exact R). apply y_print. apply IH; [exact R|exact Hk].
Qed.

(** ** Queries *)
Lemma pipe_all : forall qs db, exists os, run_pipe exec db (combine qs (map (fun _ => []) qs)) = (fst (summary_all exec db qs), os) /\
  snd (summary_all exec db qs) = match first_failure os with Some _ => None | None => Some (summaries os) end.
Proof.
  induction qs as [|q qs IH]; intros db; [exists []; split; reflexivity|]. cbn [combine map run_pipe summary_all]. unfold summary.
  destruct (exec db q []) as [db' [m|h recs [m|m]]]; cbn [fails].
  - eexists. split; reflexivity.
  - destruct (IH db') as (os & E1 & E2). rewrite E1. destruct (summary_all exec db' qs) as [db2 x]. cbn [fst snd] in *. eexists. split; [reflexivity|]. subst x. cbn. destruct (first_failure os); reflexivity.
  - eexists. split; reflexivity.
Qed.
Lemma six_sendable : all_sendable sendable (combine six no_params) = true.
Proof.
  unfold all_sendable. apply forallb_forall. intros [q ps] Hi. cbn [fst snd]. apply Hsend; cbn in Hi; repeat (destruct Hi as [Hi|Hi]; [injection Hi as <- <-; cbn; tauto|]); contradiction.
Qed.
Lemma six_run : forall st, sp_phase st = PIdle \/ True ->
  run_exec_pipe exec sendable six no_params st =
  match summary_all exec (sp_db st) six with
  | (db, Some ms) => says (AResults ms) (with_db db st)
  | (db, None) => match first_failure (snd (run_pipe exec (sp_db st) (combine six no_params))) with Some m => says (AFailed m) (with_db db st) | None => None end
  end.
Proof.
  intros st _. unfold run_exec_pipe. replace (negb _) with false by reflexivity. cbv zeta. rewrite six_sendable.
  destruct (pipe_all six (sp_db st)) as (os & E1 & E2). change (map (fun _ : str => @nil (str * goval)) six) with no_params in E1. rewrite E1. cbn [snd]. destruct (summary_all exec (sp_db st) six) as [db x]. cbn [fst snd] in *. subst x.
  destruct (first_failure os); reflexivity.
Qed.
Lemma six_fails : forall db db', summary_all exec db six = (db', None) -> exists m, first_failure (snd (run_pipe exec db (combine six no_params))) = Some m.
Proof.
  intros db db' E. destruct (pipe_all six db) as (os & E1 & E2). change (map (fun _ : str => @nil (str * goval)) six) with no_params in E1. rewrite E1. cbn [snd]. rewrite E in E2. cbn [snd] in E2.
  destruct (first_failure os); [eauto|discriminate].
Qed.
Lemma one_run : forall st q ps, sendable (VRun q ps) = true ->
  match summary exec (sp_db st) q ps with
  | (db, Some m) => run_exec exec sendable q ps st = says (AResult m) (with_db db st)
  | (db, None) => exists m, run_exec exec sendable q ps st = says (AFailed m) (with_db db st)
  end.
Proof. intros st q ps Hs. unfold run_exec, summary. rewrite Hs. destruct (exec (sp_db st) q ps) as [db' [m|h recs [m|m]]]; eauto. Qed.

(** ** slow *)
Lemma y_handle : forall o k (w : W) st n res, Rel false w st -> expect exec sendable mk false st o = Some (AHandle, n) -> plain_call o ->
  (forall h w', Rel false w' (at_rest (sp_db (n h)) (sp_phase (n h)) (sp_tx (n h))) -> yields (k h) w' res) -> yields (handle o k) w res.
Proof. intros o k w st n res HR E Ho Hk. eapply y_call; [exact HR|exact E|exact Ho|]. intros r w' (h & ->) R. cbv beta iota. now apply Hk. Qed.
Lemma y_no_handle : forall o k (w : W) st a db, Rel false w st -> (exists m, a = AFailed m) \/ a = ARefused -> expect exec sendable mk false st o = says a (with_db db st) -> sp_tx st = None -> plain_call o ->
  yields (handle o k) w (crash db).
Proof.
  intros o k w st a db HR Ha E Ht Ho. eapply y_call; [exact HR|exact E|exact Ho|]. intros r w' C R. cbn in R. rewrite Ht in R.
  destruct r as [| |[h|] [e|]| | | | | | | |]; try (eapply y_crash; exact R). exfalso. destruct Ha as [(m & ->)| ->]; exact C.
Qed.

Lemma y_slow_delete : forall (w : W) db, Rel false w (at_rest db PIdle None) -> yields slow_delete w (ideal_slow_delete exec db).
Proof.
  intros w db HR. unfold ideal_slow_delete. pose proof (one_run (at_rest db PIdle None) q_delete [] ltac:(apply Hsend; cbn; tauto)) as H. cbn [at_rest sp_db] in H.
  destruct (summary exec db q_delete []) as [db' [m|]].
  - call HR; [exact H|]. intros x w' C R. cbn in C. subst x. cbv beta iota. apply y_print. unfold ideal_deleted.
    eapply (y_affected m _ w' db' PIdle (fun n => said (LDeleted n) ([], Returned, db')) R). intros n. apply y_print. now apply y_leave.
  - destruct H as (m & H). call HR; [exact H|]. intros x w' C R.
    destruct x as [| | |[m'|] [e|]| | | | | | |]; try contradiction; apply y_print; eapply y_crash; exact R.
Qed.
Lemma y_slow_paths : forall (w : W) db, Rel false w (at_rest db PIdle None) -> yields slow_paths w (ideal_slow_paths exec db).
Proof.
  intros w db HR. eapply y_handle; [exact HR|reflexivity|known|]. intros s w1 R1. cbn in R1.
  assert (E : expect exec sendable mk false (at_rest db (PStmt s (One q_paths)) None) (SQuery s []) = run_query exec sendable (Some (s, One q_paths)) q_paths [] (at_rest db (PStmt s (One q_paths)) None)) by (stmt_now; reflexivity).
  unfold run_query in E. rewrite Hsend in E by (cbn; tauto). cbn [at_rest sp_db] in E. unfold ideal_slow_paths. destruct (exec db q_paths []) as [db' [m|h recs fin]].
  - eapply y_no_handle; [exact R1|left; eauto|exact E|reflexivity|known].
  - eapply y_handle; [exact R1|exact E|known|]. intros r w2 R2. cbn in R2.
    assert (H : yields (show_paths r (Call (SClose s) (fun _ => slow_delete))) w2 (ideal_paths db' recs match fin with Ends _ => ideal_slow_delete exec db' | Breaks _ => crash db' end)).
    { eapply y_paths; [exact R2|]. intros w3 m _ R3. call R3; [stmt_now; reflexivity|]. intros x w4 C R4. cbn in R4. now apply y_slow_delete. }
    destruct fin; exact H.
Qed.
Lemma y_slow_pipeline : forall (w : W) db, Rel false w (at_rest db PIdle None) -> yields slow_pipeline w (ideal_slow_pipeline exec db).
Proof.
  intros w db HR. eapply y_handle; [exact HR|reflexivity|known|]. intros s w1 R1. cbn in R1. unfold ideal_slow_pipeline.
  assert (E : expect exec sendable mk false (at_rest db (PStmt s (Many six)) None) (SExecPipeline s no_params) = run_exec_pipe exec sendable six no_params (at_rest db (PStmt s (Many six)) None)) by (stmt_now; reflexivity).
  rewrite six_run in E by auto. cbn [at_rest sp_db] in E. destruct (summary_all exec db six) as [db' [ms|]] eqn:Es.
  - call R1; [exact E|]. intros x w2 C R2. cbn in C. subst x. cbv beta iota. cbn in R2. eapply y_created; [exact R2|].
    call R2; [stmt_now; reflexivity|]. intros x w3 C R3. cbn in C. subst x. cbn in R3. now apply y_slow_paths.
  - destruct (six_fails db db' Es) as (m & Em). cbn [at_rest sp_db] in E. rewrite Em in E. call R1; [exact E|]. intros x w2 C R2.
    destruct x as [| | | |[ms|] [e|]| | | | | |]; try contradiction; eapply y_crash; exact R2.
Qed.
Lemma y_slow_get : forall readme (w : W) db, Rel false w (at_rest db PIdle None) -> yields (slow_get readme) w (ideal_slow_get exec readme db).
Proof.
  intros readme w db HR. eapply y_handle; [exact HR|reflexivity|known|]. intros s w1 R1. cbn in R1.
  assert (E : expect exec sendable mk false (at_rest db (PStmt s (One q_get)) None) (SQuery s []) = run_query exec sendable (Some (s, One q_get)) q_get [] (at_rest db (PStmt s (One q_get)) None)) by (stmt_now; reflexivity).
  unfold run_query in E. rewrite Hsend in E by (cbn; tauto). cbn [at_rest sp_db] in E. unfold ideal_slow_get. destruct (exec db q_get []) as [db' [m|h recs fin]].
  { eapply y_no_handle; [exact R1|left; eauto|exact E|reflexivity|known]. }
  eapply y_handle; [exact R1|exact E|known|]. intros r w2 R2. cbn in R2.
  (* a NextNeo that fails is neither a record nor the end *)
  assert (Hf : forall m x, failed_with m x -> match x with ONext _ _ None => False | ONext _ _ (Some EEOF) => False | _ => True end).
  { intros m x C. destruct x as [| | | | |[?|] [?|] [e|]| | | | |]; try exact I; try contradiction. destruct e; try exact I. discriminate C. }
  (* the rest, once the second NextNeo has been accepted *)
  assert (Hgo : forall row x w3, Rel false w3 (at_rest db' (PRows (Some (s, One q_get)) r h x) None) ->
    yields (Call (RMeta r) (fun z => match z with OMeta m => show_fields m (Some row) (Call (SClose s) (fun _ => slow_pipeline)) | _ => Crash end)) w3
      (ideal_fields db' h [row] match drain x with None => ideal_slow_pipeline exec db' | Some _ => crash db' end)).
  { intros row x w3 R3. call R3; [rows_now; destruct x as [[|]?| |]; reflexivity|]. intros z w4 C R4. cbn in C. subst z. cbv beta iota. cbn in R4. eapply y_fields; [exact R4| |reflexivity].
    destruct (drain x) as [m|] eqn:Ed.
    - eapply y_call; [exact R4|stmt_now; unfold close_open; cbn [at_rest sp_phase]; rewrite Ed; reflexivity|exact I|]. intros y w5 _ R5. cbn in R5.
      eapply y_call; [exact R5|reflexivity|known|]. intros y' w6 C R6. cbn in R6. destruct y' as [| |[?|] [e|]| | | | | | | |]; try (eapply y_crash; exact R6); contradiction.
    - eapply y_call; [exact R4|stmt_now; unfold close_open; cbn [at_rest sp_phase]; rewrite Ed; reflexivity|exact I|]. intros y w5 _ R5. cbn in R5. now apply y_slow_pipeline. }
  destruct recs as [|row recs].
  - destruct fin as [m|m]; (call R2; [rows_now; reflexivity|]); intros x w3 C R3.
    + cbn in C. subst x. eapply y_crash; exact R3.
    + apply Hf in C. destruct x as [| | | | |[?|] [?|] [e|]| | | | |]; try contradiction; eapply y_crash; exact R3.
  - assert (H1 : forall res, (forall w3, Rel false w3 (at_rest db' (PRows (Some (s, One q_get)) r h (Single recs fin)) None) ->
        yields (Call (RNext r) (fun y =>
          let go_on := Call (RMeta r) (fun z => match z with OMeta m => show_fields m (Some row) (Call (SClose s) (fun _ => slow_pipeline)) | _ => Crash end) in
          match y with
          | ONext _ _ (Some EEOF) => if readme then Crash else go_on
          | ONext _ _ None => if readme then go_on else Crash
          | _ => Crash
          end)) w3 res) ->
      yields (Call (RNext r) (fun x =>
    match x with
    | ONext data _ None =>
        Call (RNext r) (fun y =>
          let go_on :=
            Call (RMeta r) (fun z => match z with OMeta m => show_fields m data (Call (SClose s) (fun _ => slow_pipeline)) | _ => Crash end) in
          match y with
          | ONext _ _ (Some EEOF) => if readme then Crash else go_on
          | ONext _ _ None => if readme then go_on else Crash
          | _ => Crash
          end)
    | _ => Crash
    end)) w2 res).
    { intros res Hk. call R2; [rows_now; reflexivity|]. intros x w3 C R3. cbn in C. subst x. cbv beta iota. apply Hk. exact R3. }
    destruct recs as [|row' recs].
    + destruct fin as [m|m]; apply H1; intros w3 R3; (call R3; [rows_now; reflexivity|]); intros y w4 C R4.
      * cbn in C. subst y. cbv beta iota zeta. cbn in R4. destruct readme; [eapply y_crash; exact R4|]. exact (Hgo row Done w4 R4).
      * apply Hf in C. cbv zeta. destruct y as [| | | | |[?|] [?|] [e|]| | | | |]; try contradiction; try (eapply y_crash; exact R4); (destruct e; try contradiction; eapply y_crash; exact R4).
    + apply H1. intros w3 R3. call R3; [rows_now; reflexivity|]. intros y w4 C R4. cbn in C. subst y. cbv beta iota zeta. cbn in R4.
      assert (X : yields (if readme then Call (RMeta r) (fun z => match z with OMeta m => show_fields m (Some row) (Call (SClose s) (fun _ => slow_pipeline)) | _ => Crash end) else Crash) w4
        (if readme then ideal_fields db' h [row] match fin with Ends _ => ideal_slow_pipeline exec db' | Breaks _ => crash db' end else crash db')).
      { destruct readme; [|eapply y_crash; exact R4]. destruct fin; exact (Hgo row _ w4 R4). }
      destruct fin; exact X.
Qed.
Lemma y_slow : forall readme swap (w : W) db, Rel false w (at_rest db PIdle None) -> yields (slow readme (foo_bar swap)) w (ideal_slow exec readme (foo_bar swap) db).
Proof.
  intros readme swap w db HR. assert (Hp : In (foo_bar swap) known_params) by (destruct swap; cbn; tauto).
  eapply y_handle; [exact HR|reflexivity|known|]. intros s w1 R1. cbn in R1. unfold ideal_slow.
  pose proof (one_run (at_rest db (PStmt s (One q_create)) None) q_create (foo_bar swap) ltac:(apply Hsend; [cbn; tauto|exact Hp])) as H. cbn [at_rest sp_db] in H.
  destruct (summary exec db q_create (foo_bar swap)) as [db' [m|]].
  - eapply y_call; [exact R1|stmt_now; exact H|exact Hp|]. intros x w2 C R2. cbn in C. subst x. cbv beta iota. destruct (rows_affected m) as [n| |]; try (eapply y_crash; exact R2).
    apply y_print. cbn in R2. call R2; [stmt_now; reflexivity|]. intros y w3 _ R3. cbn in R3. now apply y_slow_get.
  - destruct H as (m & H). eapply y_call; [exact R1|stmt_now; exact H|exact Hp|]. intros x w2 C R2. destruct x as [| | |[?|] [e|]| | | | | | |]; try contradiction; eapply y_crash; exact R2.
Qed.

(** ** quick *)
Lemma y_quick_delete : forall (w : W) db, Rel false w (at_rest db PIdle None) -> yields quick_delete w (ideal_quick_delete exec db).
Proof.
  intros w db HR. unfold ideal_quick_delete. pose proof (one_run (at_rest db PIdle None) q_delete [] ltac:(apply Hsend; cbn; tauto)) as H. cbn [at_rest sp_db] in H.
  destruct (summary exec db q_delete []) as [db' [m|]].
  - call HR; [exact H|]. intros x w' C R. cbn in C. subst x. cbv beta iota. unfold ideal_deleted.
    eapply (y_affected m _ w' db' PIdle (fun n => said (LDeleted n) ([], Returned, db')) R). intros n. apply y_print. now apply y_leave.
  - destruct H as (m & H). call HR; [exact H|]. intros x w' C R. destruct x as [| | |[?|] [e|]| | | | | | |]; try contradiction; eapply y_crash; exact R.
Qed.
(** after a stream that broke off *)
Lemma y_refused_delete : forall (w : W) db, Rel false w (at_rest db (PLost true) None) -> yields quick_delete w (crash db).
Proof.
  intros w db HR. call HR; [reflexivity|]. intros x w' C R. destruct x as [| | |[?|] [e|]| | | | | | |]; try contradiction; eapply y_crash; exact R.
Qed.
Lemma y_refused_nodes : forall (w : W) db, Rel false w (at_rest db (PLost true) None) -> yields quick_nodes w (crash db).
Proof.
  intros w db HR. call HR; [reflexivity|]. intros x w' C R. destruct x as [| | | | | | |[?|] [?|] [?|] [e|]| | |]; try contradiction; now apply y_refused_delete.
Qed.
Lemma y_refused_pipeline : forall (w : W) db, Rel false w (at_rest db (PLost true) None) -> yields quick_pipeline w (crash db).
Proof.
  intros w db HR. call HR; [reflexivity|]. intros x w' C R. destruct x as [| | | |[?|] [e|]| | | | | |]; try contradiction; now apply y_refused_nodes.
Qed.
Lemma y_quick_nodes : forall (w : W) db, Rel false w (at_rest db PIdle None) -> yields quick_nodes w (ideal_quick_nodes exec db).
Proof.
  intros w db HR. unfold ideal_quick_nodes.
  assert (E : expect exec sendable mk false (at_rest db PIdle None) (CQueryAll q_nodes []) =
    match exec db q_nodes [] with
    | (db', RunFails m) => says (AFailed m) (at_rest db' PIdle None)
    | (db', Runs h recs (Ends m)) => says (AQueryAll recs h m) (at_rest db' PIdle None)
    | (db', Runs h recs (Breaks m)) => says (AQueryAllFailed recs h m) (at_rest db' (PLost true) None)
    end).
  { cbn [expect conn_op at_rest sp_phase sp_db]. rewrite Hsend by (cbn; tauto). destruct (exec db q_nodes []) as [? [|? ? []]]; reflexivity. }
  destruct (exec db q_nodes []) as [db' [m|h recs [m|m]]]; (call HR; [exact E|]); intros x w' C R; cbn in R.
  - destruct x as [| | | | | | |[?|] [?|] [?|] [e|]| | |]; try contradiction; now apply y_quick_delete.
  - cbn in C. subst x. cbv beta iota. eapply y_nodes; [exact R|]. now apply y_quick_delete.
  - destruct C as (e & -> & _). cbv beta iota. eapply y_nodes; [exact R|]. now apply y_refused_delete.
Qed.
Lemma y_quick_pipeline : forall (w : W) db, Rel false w (at_rest db PIdle None) -> yields quick_pipeline w (ideal_quick_pipeline exec db).
Proof.
  intros w db HR. unfold ideal_quick_pipeline. pose proof (six_run (at_rest db PIdle None) ltac:(auto)) as E. cbn [at_rest sp_db] in E.
  destruct (summary_all exec db six) as [db' [ms|]] eqn:Es.
  - call HR; [exact E|]. intros x w2 C R2. cbn in C. subst x. cbv beta iota. cbn in R2. eapply y_created; [exact R2|]. now apply y_quick_nodes.
  - destruct (six_fails db db' Es) as (m & Em). rewrite Em in E. call HR; [exact E|]. intros x w2 C R2.
    destruct x as [| | | |[ms|] [e|]| | | | | |]; try contradiction; now apply y_quick_nodes.
Qed.
Lemma y_quick : forall swap (w : W) db, Rel false w (at_rest db PIdle None) -> yields (quick (foo_bar swap)) w (ideal_quick exec (foo_bar swap) db).
Proof.
  intros swap w db HR. assert (Hp : In (foo_bar swap) known_params) by (destruct swap; cbn; tauto). unfold ideal_quick.
  pose proof (one_run (at_rest db PIdle None) q_create (foo_bar swap) ltac:(apply Hsend; [cbn; tauto|exact Hp])) as H. cbn [at_rest sp_db] in H.
  destruct (summary exec db q_create (foo_bar swap)) as [db' [m|]].
  2: { destruct H as (m & H). eapply y_call; [exact HR|exact H|split; [cbn; tauto|exact Hp]|]. intros x w2 C R2. destruct x as [| | |[?|] [e|]| | | | | | |]; try contradiction; eapply y_crash; exact R2. }
  eapply y_call; [exact HR|exact H|split; [cbn; tauto|exact Hp]|]. intros x w2 C R2. cbn in C. subst x. cbv beta iota. cbn in R2.
  eapply (y_affected m _ w2 db' PIdle (fun n => said (LCreated n) _) R2). intros n. apply y_print. clear H.
  assert (E : expect exec sendable mk false (at_rest db' PIdle None) (CQueryAll q_get []) =
    match exec db' q_get [] with
    | (db2, RunFails m) => says (AFailed m) (at_rest db2 PIdle None)
    | (db2, Runs h recs (Ends m)) => says (AQueryAll recs h m) (at_rest db2 PIdle None)
    | (db2, Runs h recs (Breaks m)) => says (AQueryAllFailed recs h m) (at_rest db2 (PLost true) None)
    end).
  { cbn [expect conn_op at_rest sp_phase sp_db]. rewrite Hsend by (cbn; tauto). destruct (exec db' q_get []) as [? [|? ? []]]; reflexivity. }
  destruct (exec db' q_get []) as [db2 [m2|h recs [m2|m2]]]; (call R2; [exact E|]); intros x w3 C R3; cbn in R3.
  - destruct x as [| | | | | | |[?|] [?|] [?|] [e|]| | |]; try contradiction; eapply y_crash; exact R3.
  - cbn in C. subst x. cbv beta iota. eapply y_fields; [exact R3|now apply y_quick_pipeline|destruct recs; reflexivity].
  - destruct C as (e & -> & _). cbv beta iota. eapply y_fields; [exact R3|now apply y_refused_pipeline|destruct recs; reflexivity].
Qed.
End Runs.
