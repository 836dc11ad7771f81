(** C91: the programs of examples/ and of the README print what the database says they print. *)
From Coq Require Import ZArith List Bool String Lia ZifyBool.
From Verif Require Import GoPrims Value PackSpec PrimLemmas Encoder EncoderProofs PackProofs PropsCodec Errors Misc Decoder
  Session SessionVoc SessionFuel ServerSpec SessionSpec SessionBolt SessionRefine SessionUse SqlUse SessionNet WireSpec SessionWire PropsWire PropsNames PropsMisc Programs.
Import ListNotations.
Open Scope list_scope.
Open Scope Z_scope.

Inductive which := Slow | Readme | Quick.
Definition program (x : which) (swap : bool) : prog :=
  match x with Slow => slow false (foo_bar swap) | Readme => slow true (foo_bar swap) | Quick => quick (foo_bar swap) end.
Definition ideal {DB} (exec : DB -> str -> md -> DB * outcome) (x : which) (swap : bool) (db : DB) : list line * ending * DB :=
  match x with
  | Slow => ideal_slow exec false (foo_bar swap) db
  | Readme => ideal_slow exec true (foo_bar swap) db
  | Quick => ideal_quick exec (foo_bar swap) db
  end.

Lemma queries_taken : forall q ps, In q known_queries -> In ps known_params -> takes (VRun q ps) = true.
Proof.
  intros q ps Hq Hp. cbn in Hq, Hp.
  repeat (destruct Hq as [<-|Hq]; [repeat (destruct Hp as [<-|Hp]; [vm_compute; reflexivity|]); contradiction|]). contradiction.
Qed.
Lemma takes_controls : controls takes.
Proof. repeat split; reflexivity. Qed.

Section Bolt.
Context {DB : Type}.
Variable exec : DB -> str -> md -> DB * outcome.
Variable mk : bool.
Notation net := (bolt exec takes).
Lemma fresh_idle : forall db : DB, Rel false (fresh false (Build_bnet db Ready [])) (at_rest db PIdle None).
Proof. intros db. apply (quiet_rel (fresh false (Build_bnet db Ready [])) db). repeat split. Qed.
Lemma program_yields : forall x swap db, yields exec takes mk (program x swap) (fresh false (Build_bnet db Ready [])) (ideal exec x swap db).
Proof.
  intros [] swap db; [apply y_slow|apply y_slow|apply y_quick]; auto using takes_controls, queries_taken, fresh_idle.
Qed.
(** For every database: the program makes calls that all return, prints the lines and ends as the
    database says, and leaves the database so. *)
Theorem C91_programs_partial : forall x swap db, let '(lines, e, db') := ideal exec x swap db in
  exists os rs w', trace (program x swap) os rs lines e /\ calls exec takes mk (fresh false (Build_bnet db Ready [])) os rs w' /\ b_db (w_net w') = db'.
Proof.
  intros x swap db. destruct (program_yields x swap db) as (os & rs & w' & H1 & H2 & H3 & _). destruct (ideal exec x swap db) as [[l e] db']. exists os, rs, w'. auto.
Qed.
End Bolt.

(** Nothing else can happen, to any program, on any network. *)
Theorem C91_unique : forall N (ops : netops N) mk f p os rs ls e w w', trace p os rs ls e -> run ops mk f os w = (rs, Ok tt, w') ->
  forall os2 rs2 ls2 e2 w2, trace p os2 rs2 ls2 e2 -> run ops mk f os2 w = (rs2, Ok tt, w2) -> os2 = os /\ rs2 = rs /\ ls2 = ls /\ e2 = e /\ w2 = w'.
Proof.
  intros N ops mk f p os rs ls e w w' H. revert w w'. induction H as [o k r os rs ls e H IH|x p os rs ls e H IH|e]; intros w w' Hr os2 rs2 ls2 e2 w2 H2 Hr2; inversion H2 as [o' k' r' os' rs' ls' e' Ht|x' p' os' rs' ls' e' Ht|e']; subst.
  - cbn [run] in Hr, Hr2. destruct (step ops mk f o w) as [[a| |] w1]; try discriminate.
    destruct (run ops mk f os w1) as [[l x] w3] eqn:E1. injection Hr as -> -> -> ->. destruct (run ops mk f os' w1) as [[l2 x2] w4] eqn:E2. injection Hr2 as -> -> -> ->.
    destruct (IH _ _ E1 _ _ _ _ _ Ht E2) as (-> & -> & -> & -> & ->). auto.
  - destruct (IH _ _ Hr _ _ _ _ _ Ht Hr2) as (-> & -> & -> & -> & ->). auto.
  - cbn in Hr, Hr2. injection Hr as <-. injection Hr2 as <-. auto.
Qed.

(** ** Over the bytes *)
Lemma sub_params ps : In ps known_params -> forall w, Sub w (VMap ps) -> w = VMap ps \/ w = VInt KInt 1 \/ w = VF64 4612136378390124954.
Proof.
  intros Hp w H. inversion H as [| | |? k x ? Hi Hs|]; subst; auto; [|discriminate].
  assert (Hx : x = VInt KInt 1 \/ x = VF64 4612136378390124954).
  { cbn in Hp. repeat (destruct Hp as [<-|Hp]; [cbn in Hi; repeat (destruct Hi as [Hi|Hi]; [injection Hi as <- <-; auto|]); contradiction|]). contradiction. }
  destruct Hx as [-> | ->]; inversion Hs; subst; auto; discriminate.
Qed.
Lemma known_crosses q ps : zlen q <= 65535 -> bytes_ok q -> In ps known_params -> crosses 65535 (VRun q ps).
Proof.
  intros L B Hp. left.
  assert (HS : forall w, Sub w (VRun q ps) -> w = VRun q ps \/ w = VStr q \/ w = VMap ps \/ w = VInt KInt 1 \/ w = VF64 4612136378390124954).
  { intros w H. inversion H as [|? ? ? Hi|? ? ? Hi|? ? ? ? Hi|? x ? sig fs E Hi Hs]; subst; auto. cbn in E. injection E as <- <-. destruct Hi as [<-|[<-|[]]].
    - inversion Hs; subst; auto. discriminate.
    - apply sub_params in Hs; [|exact Hp]. tauto. }
  assert (W : wt (VRun q ps)).
  { constructor; [exact B|]. cbn in Hp. repeat (destruct Hp as [<-|Hp]; [|]); try contradiction;
      repeat match goal with
      | |- wtm _ => apply wtm_intro | |- NoDup _ => constructor | |- Forall _ (_ :: _) => constructor | |- Forall _ [] => constructor
      | |- wt _ => constructor | |- bytes_ok (fst _) => cbn [fst] | |- bytes_ok _ => repeat constructor | |- is_byte _ => unfold is_byte; cbn; lia
      | |- ~ In _ _ => cbn; intuition discriminate | |- _ = true => reflexivity | |- Forall _ (foo_bar _) => unfold foo_bar | |- NoDup (map fst (foo_bar _)) => unfold foo_bar; cbn [map fst] end. all: lia. }
  assert (Hk : forall k x, In (k, x) ps -> zlen k <= 3).
  { intros k x Hi. cbn in Hp. repeat (destruct Hp as [<-|Hp]; [cbn in Hi; repeat (destruct Hi as [Hi|Hi]; [injection Hi as <- <-; vm_compute; congruence|]); contradiction|]). contradiction. }
  assert (Hn : zlen ps <= 2) by (cbn in Hp; repeat (destruct Hp as [<-|Hp]; [vm_compute; congruence|]); contradiction).
  split; [exact W|split; [|split]].
  - intros x H. destruct (HS _ H) as [E|[E|[E|[E|E]]]]; discriminate.
  - intros w H. destruct (HS _ H) as [->|[->|[->|[->| ->]]]]; try exact I; [exact L|]. intros k x Hi. apply Hk in Hi. lia.
  - apply Accepted_iff. destruct (snd (enc (VRun q ps))) eqn:Ee; [|exact Ee]. exfalso. assert (NA : ~ Accepted (VRun q ps)) by (rewrite Accepted_iff; unfold accepted; congruence).
    apply (C03_rejects_iff _ W) in NA. destruct NA as (w & Hw & Hu). destruct (HS _ Hw) as [->|[->|[->|[->| ->]]]]; cbn in Hu; auto.
    + unfold too_long in Hu. lia.
    + unfold too_long in Hu. destruct Hu as [Hu|(k & x & Hx & Hu)]; [lia|]. apply Hk in Hx. unfold too_long in Hu. lia.
Qed.
Lemma query_short q : In q ([] :: known_queries) -> zlen q <= 65535 /\ bytes_ok q.
Proof.
  intros H. cbn in H. repeat (destruct H as [<-|H]; [split; [vm_compute; congruence|repeat constructor; unfold is_byte; lia]|]). contradiction.
Qed.

Section Bytes.
Context {DB : Type}.
Variable pexec : DB -> str -> list (str * pval) -> DB * outcome.
Variable ser : nat -> goval -> bytes.
Variable cut : nat -> bytes -> list bytes.
Variable mk : bool.
Hypothesis Hexec : forall db q ps, outcome_ok (snd (pexec db q ps)).
Hypothesis Hser : ser_ok ser.
Hypothesis Hcut : cut_ok cut.
Notation bytenet_ := (bytenet (stream pexec ser cut) mk).

Lemma plain_history : forall os, Forall plain_call os ->
  chunk_sizes os = [65535] /\ incl (queries os) known_queries /\ incl (params mk os) known_params.
Proof.
  induction os as [|o os IH]; intros H; [repeat split; intros ? []|]. inversion H as [|? ? Ho H']; subst. destruct (IH H') as (E1 & E2 & E3).
  unfold chunk_sizes in *. injection E1 as E1.
  destruct o; try contradiction; cbn [plain_call] in Ho; cbn [flat_map app queries params]; fold (queries os); fold (params mk os); rewrite ?E1;
    (split; [reflexivity|]); split; intros z Hz; rewrite ?in_app_iff in Hz; cbn [In app] in Hz; intuition (subst; auto).
Qed.
(** Opening the connection and running the program, with any server that answers as Bolt v1 says, however it
    writes its answers and however they are cut on the way (but for the answer to the handshake, C60). *)
Theorem C91_over_bytes_partial : forall x swap db n f user password, short_bytes user -> short_bytes password -> cut n [0; 0; 0; 1] = [[0; 0; 0; 1]] ->
  let '(lines, e, db') := ideal (vexec pexec) x swap db in
  exists w os rs, initialize bytenet_ f (close bytenet_ f) user password (fresh false (listening db n)) = (Ok None, w) /\
    trace (program x swap) os rs lines e /\
    exists f0, forall f', (f0 <= f')%nat -> exists w', run bytenet_ mk f' os w = (rs, Ok tt, w') /\ y_db (w_net w') = db'.
Proof.
  intros x swap db n f user password Hu Hp Hc. destruct (program_yields (vexec pexec) mk x swap db) as (os & rs & w' & H1 & (f0 & H2) & H3 & H4).
  destruct (ideal (vexec pexec) x swap db) as [[l e] db']. cbn [fst snd] in *. exists (fresh false (ready db (S n))), os, rs.
  split; [now apply C60_opens_partial|]. split; [exact H1|]. exists f0. intros f' Hf. specialize (H2 f' Hf). destruct (plain_history os H4) as (E1 & E2 & E3).
  pose proof (C58_over_bytes pexec ser cut mk Hexec Hser Hcut false db (S n) f' os) as H. rewrite E1 in H.
  destruct H as (Ea & _ & Eb); [intros cs [<-|[]]; lia| |].
  - intros cs q ps [<-|[]] Hq Hps. assert (Hq' : In q ([] :: known_queries)) by (destruct Hq as [<-|Hq]; [now left|right; auto]). apply query_short in Hq'. apply known_crosses; [apply Hq'..|auto].
  - rewrite H2 in Ea, Eb. cbn [fst snd] in Ea, Eb. destruct (run bytenet_ mk f' os (fresh false (ready db (S n)))) as [[l2 r2] w2]. cbn [fst snd] in *. injection Ea as -> ->.
    exists w2. split; [reflexivity|]. congruence.
Qed.
End Bytes.

(** ** What the comments in the programs say *)
Section Comments.
Context {DB : Type}.
Variable exec : DB -> str -> md -> DB * outcome.
(** the counters of a summary, which come to [n] altogether *)
Definition changed (n : Z) (m : md) : Prop := exists stats a b c d, mget (text "stats") m = Some (VMap stats) /\
  counter (text "nodes-created") stats a /\ counter (text "relationships-created") stats b /\ counter (text "nodes-deleted") stats c /\ counter (text "relationships-deleted") stats d /\
  a + b + c + d = n /\ - 2 ^ 63 <= n < 2 ^ 63.
Lemma changed_rows : forall n m, changed n m -> rows_affected m = RAOk n.
Proof.
  intros n m (stats & a & b & c & d & E & Ha & Hb & Hc & Hd & Hn & Hr). destruct (C22_rows_affected m) as (_ & H & _). erewrite H by eassumption. f_equal. rewrite Hn.
  apply wraps_id; lia.
Qed.
(** "CREATED ROWS: 1", "COLUMNS: ...", "FIELDS: 1 2.2", "CREATED ROWS: 2 (per each iteration)": the database
    after these queries, and what COLUMNS are. *)
Definition starts_well (ps : md) (db db2 db3 : DB) (cols : list goval) : Prop :=
  exists db1 m h mg ms, summary exec db q_create ps = (db1, Some m) /\ changed 1 m /\
    exec db1 q_get [] = (db2, Runs h [[VInt KInt64 1; VF64 4612136378390124954]] (Ends mg)) /\ mget s_fields h = Some (VSlice cols) /\
    summary_all exec db2 six = (db3, Some ms) /\ List.length ms = 6%nat /\ Forall (changed 2) ms.
(** all records of a query, as many as there are *)
Definition returns (db : DB) (q : str) (vs : list goval) (db' : DB) : Prop := exists h m, exec db q [] = (db', Runs h (map (fun v => [v]) vs) (Ends m)).
Definition is_path (v : goval) : Prop := match v with VPath _ _ _ => True | _ => False end.
Definition is_node (v : goval) : Prop := match v with VNode _ _ _ => True | _ => False end.
(** "Rows Deleted: 13" *)
Definition deletes (db : DB) (m : md) (db' : DB) : Prop := summary exec db q_delete [] = (db', Some m) /\ changed 13 m.

Lemma six_created : forall (db : DB) ms k, List.length ms = 6%nat -> Forall (changed 2) ms -> ideal_created db ms k = fold_right (fun x r => said (DB := DB) x r) k (repeat (LCreated 2) 6).
Proof.
  intros db ms k Hl H. do 6 (destruct ms as [|? ms]; [discriminate|]). destruct ms; [|discriminate].
  repeat match goal with H : Forall _ (_ :: _) |- _ => inversion H; clear H; subst end. cbn [ideal_created repeat fold_right]. unfold count.
  repeat match goal with H : changed 2 _ |- _ => apply changed_rows in H; rewrite H; clear H end. reflexivity.
Qed.
Lemma said_all : forall ls l e (db : DB), fold_right (fun x r => said (DB := DB) x r) (l, e, db) ls = (ls ++ l, e, db).
Proof. induction ls as [|x ls IH]; intros l e db; cbn [fold_right app]; [reflexivity|]. now rewrite IH. Qed.
Lemma paths_said : forall vs (db : DB) k, Forall is_path vs -> ideal_paths db (map (fun v => [v]) vs) k = fold_right (fun x r => said (DB := DB) x r) k (map LPath vs).
Proof. intros vs db k H. induction H as [|v vs Hv _ IH]; cbn [map ideal_paths fold_right]; [reflexivity|]. destruct v; try contradiction. now rewrite IH. Qed.
Lemma nodes_said : forall vs (db : DB) k, Forall is_node vs -> ideal_nodes db (map (fun v => [v]) vs) k = fold_right (fun x r => said (DB := DB) x r) k (map LNode vs).
Proof. intros vs db k H. induction H as [|v vs Hv _ IH]; cbn [map ideal_nodes fold_right]; [reflexivity|]. destruct v; try contradiction. now rewrite IH. Qed.

Definition first_lines (cols : list goval) : list line := [LCreated 1; LColumns cols; LFields 1 4612136378390124954] ++ repeat (LCreated 2) 6.
Theorem C91_slow_comments_partial : forall swap db db2 db3 db4 db5 cols paths m, starts_well (foo_bar swap) db db2 db3 cols ->
  returns db3 q_paths paths db4 -> Forall is_path paths -> deletes db4 m db5 ->
  ideal exec Slow swap db = (first_lines cols ++ map LPath paths ++ [LResult (Some m); LDeleted 13], Returned, db5).
Proof.
  intros swap db db2 db3 db4 db5 cols paths m (db1 & m1 & h & mg & ms & E1 & E2 & E3 & E4 & E5 & El & E6) (h' & m' & E7) Hp (E8 & E9). apply changed_rows in E2, E9.
  cbn [ideal]. unfold ideal_slow. rewrite E1, E2. unfold ideal_slow_get. rewrite E3. unfold ideal_fields. rewrite E4. unfold ideal_slow_pipeline. rewrite E5, six_created by assumption.
  unfold ideal_slow_paths. rewrite E7, paths_said by exact Hp. unfold ideal_slow_delete. rewrite E8. unfold ideal_deleted, count. rewrite E9. cbn [said]. rewrite !said_all. cbn [said]. unfold first_lines. rewrite <- ?app_assoc. reflexivity.
Qed.
Theorem C91_quick_comments_partial : forall swap db db2 db3 db4 db5 cols nodes m, starts_well (foo_bar swap) db db2 db3 cols ->
  returns db3 q_nodes nodes db4 -> Forall is_node nodes -> deletes db4 m db5 ->
  ideal exec Quick swap db = (first_lines cols ++ map LNode nodes ++ [LDeleted 13], Returned, db5).
Proof.
  intros swap db db2 db3 db4 db5 cols nodes m (db1 & m1 & h & mg & ms & E1 & E2 & E3 & E4 & E5 & El & E6) (h' & m' & E7) Hp (E8 & E9). apply changed_rows in E2, E9.
  cbn [ideal]. unfold ideal_quick. rewrite E1. unfold count. rewrite E2, E3. unfold ideal_fields. rewrite E4. unfold ideal_quick_pipeline. rewrite E5, six_created by assumption.
  unfold ideal_quick_nodes. rewrite E7, nodes_said by exact Hp. unfold ideal_quick_delete. rewrite E8. unfold ideal_deleted, count. rewrite E9. cbn [said]. rewrite !said_all. cbn [said]. unfold first_lines. rewrite <- ?app_assoc. reflexivity.
Qed.
(** The README's program stops with a panic wherever the other one succeeds: in fact whenever the query for the
    node returns one node, as its comment says. *)
Theorem C91_refuted : forall swap db db1 m n h row db2 mg, summary exec db q_create (foo_bar swap) = (db1, Some m) -> changed n m ->
  exec db1 q_get [] = (db2, Runs h [row] (Ends mg)) -> ideal exec Readme swap db = ([LCreated n], Crashed, db2).
Proof. intros swap db db1 m n h row db2 mg E1 E2 E3. apply changed_rows in E2. cbn [ideal]. unfold ideal_slow. rewrite E1, E2. unfold ideal_slow_get. rewrite E3. reflexivity. Qed.
(** So it never runs to its end when [Slow] does. *)
Theorem C91_refuted_always : forall swap db, snd (fst (ideal exec Slow swap db)) = Returned -> snd (fst (ideal exec Readme swap db)) = Crashed.
Proof.
  intros swap db. cbn [ideal]. unfold ideal_slow. destruct (summary exec db q_create (foo_bar swap)) as [db1 [m|]]; [|discriminate]. destruct (rows_affected m); try discriminate.
  unfold ideal_slow_get. destruct (exec db1 q_get []) as [db2 [m'|h [|row [|row' recs]] [mg|mg]]]; cbn; try discriminate; auto.
Qed.
End Comments.
Print Assumptions C91_programs_partial.
Print Assumptions C91_unique.
Print Assumptions C91_over_bytes_partial.
Print Assumptions C91_slow_comments_partial.
Print Assumptions C91_quick_comments_partial.
Print Assumptions C91_refuted.
Print Assumptions C91_refuted_always.

(** A graph database as far as the programs can tell: numbers of NODE nodes and of their neighbours. *)
Definition stats (nc rc nd rd : Z) : md :=
  [(text "stats", VMap [(text "nodes-created", VInt KInt64 nc); (text "relationships-created", VInt KInt64 rc); (text "nodes-deleted", VInt KInt64 nd); (text "relationships-deleted", VInt KInt64 rd)])].
Definition cols : list goval := [VStr (text "n.foo"); VStr (text "n.bar")].
Definition a_node (i : nat) : goval := VNode (Z.of_nat i) [text "FOO"] [].
Definition a_path (i : nat) : goval := VPath [a_node 0; a_node i] [VURel (Z.of_nat i) (text "REL") []] [1; 1].
Definition graph_db (db : nat * nat) (q : str) (ps : md) : (nat * nat) * outcome :=
  let '(n, k) := db in
  if str_eqb q q_create then ((S n, k), Runs [] [] (Ends (stats 1 0 0 0)))
  else if str_eqb q q_get then (db, Runs [(text "fields", VSlice cols)] (repeat [VInt KInt64 1; VF64 4612136378390124954] n) (Ends []))
  else if str_eqb q q_paths then (db, Runs [] (map (fun i => [a_path i]) (seq 1 k)) (Ends []))
  else if str_eqb q q_nodes then (db, Runs [] (map (fun i => [a_node i]) (seq 1 k)) (Ends []))
  else if str_eqb q q_delete then ((0%nat, 0%nat), Runs [] [] (Ends (stats 0 0 (Z.of_nat (n + k)) (Z.of_nat k))))
  else ((n, (k + n)%nat), Runs [] [] (Ends (stats (Z.of_nat n) (Z.of_nat n) 0 0))).
(** On an empty database the comments are right, also "Rows Deleted: 13"; the README stops after the first line. *)
Example C91_example :
  ideal graph_db Slow true (0, 0)%nat = (first_lines cols ++ map LPath (map a_path (seq 1 6)) ++ [LResult (Some (stats 0 0 7 6)); LDeleted 13], Returned, (0, 0)%nat) /\
  ideal graph_db Quick false (0, 0)%nat = (first_lines cols ++ map LNode (map a_node (seq 1 6)) ++ [LDeleted 13], Returned, (0, 0)%nat) /\
  ideal graph_db Readme false (0, 0)%nat = ([LCreated 1], Crashed, (1, 0)%nat).
Proof. split; [vm_compute; reflexivity|]. split; vm_compute; reflexivity. Qed.
Lemma stats_changed : forall a b c d n, a + b + c + d = n -> - 2 ^ 63 <= n < 2 ^ 63 -> changed n (stats a b c d).
Proof.
  intros a b c d n E Hr. exists [(text "nodes-created", VInt KInt64 a); (text "relationships-created", VInt KInt64 b); (text "nodes-deleted", VInt KInt64 c); (text "relationships-deleted", VInt KInt64 d)], a, b, c, d.
  split; [reflexivity|]. do 4 (split; [right; reflexivity|]). auto.
Qed.
Example C91_starts_well : starts_well graph_db (foo_bar false) (0, 0)%nat (1, 0)%nat (1, 6)%nat cols /\ returns graph_db (1, 6)%nat q_paths (map a_path (seq 1 6)) (1, 6)%nat /\
  Forall is_path (map a_path (seq 1 6)) /\ deletes graph_db (1, 6)%nat (stats 0 0 7 6) (0, 0)%nat.
Proof.
  split; [|split; [|split; [repeat constructor|split; [vm_compute; reflexivity|apply stats_changed; lia]]]].
  - exists (1, 0)%nat, (stats 1 0 0 0), [(text "fields", VSlice cols)], [], (repeat (stats 1 1 0 0) 6). split; [vm_compute; reflexivity|]. split; [apply stats_changed; lia|].
    split; [vm_compute; reflexivity|]. split; [vm_compute; reflexivity|]. split; [vm_compute; reflexivity|]. split; [reflexivity|]. repeat constructor; apply stats_changed; lia.
  - do 2 eexists. vm_compute. reflexivity.
Qed.
(** With a node left over from before, it is the other way round. *)
Example C91_example_again : snd (fst (ideal graph_db Slow false (1, 0)%nat)) = Crashed /\ snd (fst (ideal graph_db Readme false (1, 0)%nat)) = Returned.
Proof. split; vm_compute; reflexivity. Qed.
