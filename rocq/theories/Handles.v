(** What comes with the error of a failed call: the handles as Go interface values. *)
From Coq Require Import ZArith List Bool Lia.
From Verif Require Import GoPrims Value Errors Misc Session.
Import ListNotations.
Open Scope Z_scope.

(** A Go value of an interface type: nil, or a dynamic type with a pointer, which may be nil.
    Only the first is equal to nil. *)
Inductive iface := INil | IPtr (p : option nat).
Definition is_nil (i : iface) : bool := match i with INil => true | IPtr _ => false end.
(** [return nil, err] or [return x, nil] with x not nil, in a function whose result is of an
    interface type *)
Definition literal (h : option nat) : iface := match h with None => INil | Some h => IPtr (Some h) end.
(** The handle of a call as the caller sees it.  The methods that pass on what a function with
    a pointer as result returned: conn.go:475-482 Prepare and PrepareNeo, 749-759 Query and QueryNeo,
    stmt.go:174-185 Query and QueryNeo (Query returns a literal nil when it cannot read its
    arguments).  The others: conn.go:485-494 PreparePipeline, 508-539 Begin, 798-816 QueryPipeline,
    stmt.go:210-243 QueryPipeline, rows.go:250-289 NextPipeline. *)
Definition handed (mk : bool) (o : op) (a : out) : option iface :=
  match o, a with
  | (CPrepare _ | CQuery _ _ | SQuery _ _), OHandle h _ => Some (IPtr h)
  | (CQuerySql _ args | SQuerySql _ args), OHandle h _ =>
      Some (match driver_args mk args with AErr => literal h | _ => IPtr h end)
  | _, OHandle h _ => Some (literal h)
  | _, OPipe _ _ h _ => Some (literal h)
  | _, _ => None
  end.
(** driver.go:58-65 Open, OpenNeo pass on what newBoltConn (conn.go:97-108) returns. *)
Definition handed_open (e : option gerr) : iface := match e with None => IPtr (Some 0%nat) | Some _ => IPtr None end.
(** driver.go:125-141 OpenPool *)
Definition handed_pool (e : option gerr) : iface := literal (match e with None => Some 0%nat | Some _ => None end).

(** ** Results and errors exclude each other *)
Section Results.
Context {N : Type} (ops : netops N).
Definition Res {A} (P : A -> Prop) (m : M (N := N) A) : Prop := forall w a w', m w = (Ok a, w') -> P a.
Lemma Res_ret {A} (P : A -> Prop) a : P a -> Res P (ret a).
Proof. intros H w x w' E. now injection E as <- _. Qed.
Lemma Res_bind {A B} (P : B -> Prop) (m : M A) (k : A -> M B) : (forall a, Res P (k a)) -> Res P (bind m k).
Proof. intros H w x w' E. unfold bind in E. destruct (m w) as [[a| |] w1]; try discriminate. eapply H; eauto. Qed.
Lemma Res_seq {A B} (Q : A -> Prop) (P : B -> Prop) (m : M A) (k : A -> M B) : Res Q m -> (forall a, Q a -> Res P (k a)) -> Res P (bind m k).
Proof. intros HQ H w x w' E. unfold bind in E. destruct (m w) as [[a| |] w1] eqn:Em; try discriminate. eapply H; eauto. Qed.
Lemma Res_panic {A} (P : A -> Prop) : Res P panic.
Proof. intros w x w' E. discriminate. Qed.
Lemma Res_nofuel {A} (P : A -> Prop) : Res P nofuel.
Proof. intros w x w' E. discriminate. Qed.
Lemma Res_defer {A B} (P : A -> Prop) (m : M A) (d : M B) : Res P m -> Res P (with_defer m d).
Proof.
  intros H w x w' E. unfold with_defer in E. destruct (m w) as [[a| |] w1] eqn:Em.
  - destruct (d w1) as [[b| |] w2]; try discriminate. injection E as <- _. eapply H; eauto.
  - destruct (d w1) as [[b| |] w2]; discriminate.
  - discriminate.
Qed.
Definition either {A} (x : option A * option gerr) : Prop := fst x = None <-> snd x <> None.
Lemma either_bad {A} e : either (@None A, Some e). Proof. split; [discriminate|reflexivity]. Qed.
Lemma either_good {A} (a : A) : either (Some a, None). Proof. split; [discriminate|now intros []]. Qed.
Ltac res := repeat first
  [ apply Res_ret; first [apply either_bad|apply either_good]
  | apply Res_panic | apply Res_nofuel | apply Res_defer
  | apply Res_bind; intros
  | match goal with |- Res _ (match ?x with _ => _ end) => destruct x end ].

Variable lf : nat.
Variable cls : M (N := N) (option gerr).
Variable mk : bool.
Lemma E_guard {A} l1 l2 (k : M (option A * option gerr)) : Res either k -> Res either (guard_open l1 l2 (fun e => (None, Some e)) k).
Proof. intros H. unfold guard_open. res. exact H. Qed.
Lemma E_args {A} args (k : md -> M (option A * option gerr)) : (forall ps, Res either (k ps)) -> Res either (with_args mk (fun e => (None, Some e)) args k).
Proof. intros H. unfold with_args. res. apply H. Qed.
Lemma E_prepare q : Res either (prepare q). Proof. apply E_guard. res. Qed.
Lemma E_prepare_pipeline qs : Res either (prepare_pipeline qs). Proof. apply E_guard. res. Qed.
Lemma E_begin : Res either (begin_tx ops lf cls). Proof. unfold begin_tx. res. Qed.
Lemma E_stmt_exec sid ps : Res either (stmt_exec ops lf cls sid ps). Proof. unfold stmt_exec. res. Qed.
Lemma E_stmt_exec_pipeline sid pss : Res either (stmt_exec_pipeline ops lf cls sid pss). Proof. unfold stmt_exec_pipeline. res. Qed.
Lemma E_stmt_query sid ps : Res either (stmt_query ops lf cls sid ps). Proof. unfold stmt_query. res. Qed.
Lemma E_stmt_query_pipeline sid pss : Res either (stmt_query_pipeline ops lf cls sid pss). Proof. unfold stmt_query_pipeline. res. Qed.
Lemma E_query q ps : Res either (query_neo ops lf cls q ps). Proof. apply E_guard. res. Qed.
Lemma E_query_pipeline qs pss : Res either (query_pipeline ops lf cls qs pss). Proof. apply E_guard. res. Qed.
Lemma E_exec q ps : Res either (exec_neo ops lf cls q ps).
Proof. apply E_guard. apply Res_bind. intros. apply Res_defer, E_stmt_exec. Qed.
Lemma E_exec_pipeline qs pss : Res either (exec_pipeline ops lf cls qs pss).
Proof. apply E_guard. apply Res_bind. intros. apply Res_defer, E_stmt_exec_pipeline. Qed.
End Results.

(** A call that returns a handle or a result: it does exactly when it returns no error. *)
Definition answered (a : out) : Prop :=
  match a with
  | OHandle h e => h = None <-> e <> None
  | OResult m e => m = None <-> e <> None
  | OResults ms e => ms = None <-> e <> None
  | OPipe row m h e => e <> None -> row = None /\ m = None /\ h = None
  | ONext row m e => (row = None <-> e <> None) /\ (m <> None -> e = Some EEOF)
  | _ => True
  end.
Section Steps.
Context {N : Type} (ops : netops N).
Lemma Res_either {A} (m : M (N := N) (option A * option gerr)) (f : option A -> option gerr -> out) :
  Res either m -> (forall h e, (h = None <-> e <> None) -> answered (f h e)) ->
  Res answered ('(h, e) <- m ;; ret (f h e)).
Proof.
  intros H F. eapply Res_seq; [exact H|]. intros [h e] E. apply Res_ret, F, E.
Qed.
Lemma A_next mk f r : Res answered (step ops mk f (RNext r)).
Proof.
  cbn [step step_body]. apply Res_seq with (Q := fun x => answered (ONext (fst (fst x)) (snd (fst x)) (snd x))).
  - unfold next_neo.
    repeat first
      [ apply Res_ret; cbn [fst snd answered]; (repeat split; solve [discriminate|intros _; reflexivity|now intros []])
      | apply Res_bind; intros
      | match goal with |- Res _ (match ?x with _ => _ end) => destruct x end ].
  - intros [[row m] e] H. apply Res_ret, H.
Qed.
Lemma A_pipe mk f r : Res answered (step ops mk f (RNextPipeline r)).
Proof.
  cbn [step step_body]. apply Res_seq with (Q := fun x => answered (OPipe (fst (fst (fst x))) (snd (fst (fst x))) (snd (fst x)) (snd x))).
  - unfold next_pipeline.
    repeat first
      [ apply Res_ret; cbn [fst snd answered]; solve [now intros []|intros _; repeat split; reflexivity]
      | apply Res_bind; intros
      | match goal with |- Res _ (match ?x with _ => _ end) => destruct x end ].
  - intros [[[row m] h] e] H. apply Res_ret, H.
Qed.
Lemma step_answered mk f o : Res answered (step ops mk f o).
Proof.
  destruct o; try apply A_next; try apply A_pipe; cbn [step step_body];
    try (apply Res_either; [|intros; assumption]);
    try (apply Res_bind; intros; try (match goal with |- Res _ (match ?x with _ => _ end) => destruct x as [[[? ?] ?] ?] || destruct x as [[? ?] ?] || destruct x as [? ?] end); apply Res_ret; exact I).
  - apply E_prepare.
  - apply E_prepare_pipeline.
  - apply E_begin.
  - apply E_exec.
  - apply E_exec_pipeline.
  - apply E_query.
  - apply E_query_pipeline.
  - apply E_guard. apply Res_bind. intros. apply Res_defer, E_args. intros. apply E_stmt_exec.
  - apply E_args. intros. apply E_query.
  - apply E_stmt_exec.
  - apply E_stmt_exec_pipeline.
  - apply E_stmt_query.
  - apply E_stmt_query_pipeline.
  - apply E_args. intros. apply E_stmt_exec.
  - apply E_args. intros. apply E_stmt_query.
Qed.
End Steps.
