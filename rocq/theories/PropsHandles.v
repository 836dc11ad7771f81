(** Property C89: what comes with an error. *)
From Coq Require Import ZArith List Bool Lia.
From Verif Require Import GoPrims Value Errors Misc Session SessionGen Handles.
Import ListNotations.
Open Scope Z_scope.

(** * C89 (false: nil pointers in interfaces)
    A call that fails returns no result and no object besides the error; a call that does not
    fail returns one.  For every network, in every state. *)
Theorem C89_answers_partial : forall N (ops : netops N) mk f o w a w', step ops mk f o w = (Ok a, w') -> answered a.
Proof. intros N ops mk f o w a w' E. exact (step_answered ops mk f o w a w' E). Qed.
Print Assumptions C89_answers_partial.

Definition error_of (a : out) : option gerr :=
  match a with
  | OErr e | OHandle _ e | OResult _ e | OResults _ e | ONext _ _ e | OAll _ _ e | OQueryAll _ _ _ e | OPipe _ _ _ e | OCells _ e => e
  | OUnit | OMeta _ => None
  end.
(** The calls for which the comparison of the handle with nil agrees with the error. *)
Definition plain (o : op) : bool :=
  match o with CPreparePipeline _ | CBegin | CQueryPipeline _ _ | SQueryPipeline _ _ => true | _ => false end.
Definition wrapped (o : op) : bool :=
  match o with CPrepare _ | CQuery _ _ | SQuery _ _ => true | _ => false end.
Lemma handle_ops N (ops : netops N) mk f o w a w' : step ops mk f o w = (Ok a, w') -> plain o = true \/ wrapped o = true ->
  exists h e, a = OHandle h e.
Proof.
  intros E P. destruct o; try (destruct P; discriminate); cbn [step step_body] in E; unfold bind in E;
    match type of E with (match ?m w with _ => _ end) = _ => destruct (m w) as [[[h e]| |] w1] end; try discriminate; injection E as <- _; eauto.
Qed.
Theorem C89_nil_partial : forall N (ops : netops N) mk f o w a w', step ops mk f o w = (Ok a, w') -> plain o = true ->
  exists i, handed mk o a = Some i /\ (is_nil i = true <-> error_of a <> None).
Proof.
  intros N ops mk f o w a w' E P. pose proof (C89_answers_partial _ ops mk f o w a w' E) as A.
  destruct (handle_ops _ ops mk f o w a w' E (or_introl P)) as (h & e & ->). cbn [answered error_of] in *.
  exists (literal h). destruct o; try discriminate P; cbn [handed]; (split; [reflexivity|]); destruct h; cbn [literal is_nil];
    split; intros H; try discriminate; try reflexivity; try (now apply A); apply A in H; discriminate.
Qed.
Print Assumptions C89_nil_partial.

(** Prepare, PrepareNeo and QueryNeo of connections and statements: never nil. *)
Theorem C89_refuted : forall N (ops : netops N) mk f o w a w', step ops mk f o w = (Ok a, w') -> wrapped o = true ->
  exists i, handed mk o a = Some i /\ is_nil i = false /\ (error_of a <> None -> i = IPtr None).
Proof.
  intros N ops mk f o w a w' E P. pose proof (C89_answers_partial _ ops mk f o w a w' E) as A.
  destruct (handle_ops _ ops mk f o w a w' E (or_intror P)) as (h & e & ->). cbn [answered error_of] in *.
  exists (IPtr h). destruct o; try discriminate P; cbn [handed]; repeat split; intros H; apply A in H; now subst.
Qed.
Print Assumptions C89_refuted.
(** Open and OpenNeo as well, unlike OpenPool. *)
Theorem C89_refuted_open : forall N (ops : netops N) f user password w e w',
  initialize ops f (close ops f) user password w = (Ok e, w') ->
  is_nil (handed_open e) = false /\ (is_nil (handed_pool e) = true <-> e <> None).
Proof. intros N ops f user password w [e|] w' _; (split; [reflexivity|]); cbn; split; intros H; try discriminate; try now destruct H. reflexivity. Qed.
Print Assumptions C89_refuted_open.

(** The effect on a program that cleans up when it has got something: a method of a nil
    *boltRows reads a field of it (rows.go:122).  [rows, err := c.QueryNeo(q, ps)] and then
    [if rows != nil { rows.Close() }]. *)
Definition query_clean_up {N} (ops : netops N) (mk : bool) (f : nat) (q : str) (ps : md) : M (N := N) (option gerr) :=
  a <- step ops mk f (CQuery q ps) ;;
  match handed mk (CQuery q ps) a with
  | Some (IPtr None) => panic
  | Some (IPtr (Some r)) => rows_close ops f (close ops f) r
  | _ => ret None
  end.
Theorem C89_refuted_clean_up : forall N (ops : netops N) mk f q ps w a w',
  step ops mk f (CQuery q ps) w = (Ok a, w') -> error_of a <> None -> query_clean_up ops mk f q ps w = (Panic, w').
Proof.
  intros N ops mk f q ps w a w' E H. destruct (C89_refuted N ops mk f _ w a w' E eq_refl) as (i & Hi & _ & G).
  unfold query_clean_up, bind. rewrite E, Hi, (G H). reflexivity.
Qed.
Print Assumptions C89_refuted_clean_up.

(** On a network that is down. *)
Definition dead_ops : netops unit :=
  {| n_send := fun n _ _ => (n, SIOErr); n_recv := fun n => (n, RNet); n_close := fun n => (n, false); n_shake := fun n => (n, (true, Some EBadConn)) |}.
Example C89_example : exists e w', step dead_ops true 3 (CQuery [65] []) (fresh false tt) = (Ok (OHandle None (Some e)), w') /\
  query_clean_up dead_ops true 3 [65] [] (fresh false tt) = (Panic, w') /\
  exists e', fst (step dead_ops true 3 CBegin (fresh false tt)) = Ok (OHandle None (Some e')).
Proof. eexists. eexists. split; [reflexivity|]. split; [reflexivity|]. eexists. reflexivity. Qed.
