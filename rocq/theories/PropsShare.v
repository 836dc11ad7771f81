(** Connections that are used by several clients one after the other, through the pool. *)
From Coq Require Import ZArith List Bool Lia.
From Verif Require Import GoPrims Value Errors Misc Session SessionGen SessionTerm SessionFuel ServerSpec SessionSpec SessionBolt SessionRefine SessionUse SessionSends PropsBolt PropsPool PropsWire.
Import ListNotations.
Open Scope Z_scope.

(** * C46: the next user *)
(** One user after another on the same pooled connection: when the first one's Close is
    promised to return nil, it does, and whatever the next one does is answered as on a
    connection that was just opened. *)
Theorem C46_next_user_partial : forall DB (exec : DB -> str -> md -> DB * outcome) sendable mk, controls sendable ->
  forall w db os rs w1 st k, quiet w db -> c_pooled (w_conn w) = true -> calls exec sendable mk w os rs w1 ->
  machine exec sendable mk true (at_rest db PIdle None) os rs = Some st -> expect exec sendable mk true st CClose = Some (ANil, k) ->
  exists w2, calls exec sendable mk w1 [CClose] [OErr None] w2 /\ quiet w2 (sp_db (k O)) /\ c_pooled (w_conn w2) = true /\
  forall next, exists f0, forall f, (f0 <= f)%nat ->
    follows exec sendable mk true (start (sp_db (k O))) next (fst (fst (run (bolt exec sendable) mk f next w2))).
Proof.
  intros DB exec sendable mk Hctl w db os rs w1 st k Hq Hp Hc Hm He.
  destruct (C46_partial exec sendable mk Hctl w db os rs w1 st k Hq Hp Hc Hm He) as (_ & w2 & H2 & Hq2).
  pose proof (quiet_rel w2 _ Hq2) as HR. pose proof H2 as H2'.
  assert (Hp2 : c_pooled (w_conn w2) = true).
  { destruct Hc as (f1 & Hc). destruct H2 as (f2 & H2). specialize (Hc _ (le_n _)). specialize (H2 _ (le_n _)).
    pose proof (mono_run (bolt exec sendable) mk f1 os w) as M1. rewrite Hc in M1.
    pose proof (mono_run (bolt exec sendable) mk f2 [CClose] w1) as M2. rewrite H2 in M2.
    destruct M1 as ((_ & _ & M1) & _). destruct M2 as ((_ & _ & M2) & _). cbn in *. congruence. }
  exists w2. split; [exact H2'|]. split; [exact Hq2|]. split; [exact Hp2|]. intros next. apply refine_run; [exact Hctl|].
  rewrite Hp2 in HR. exact HR.
Qed.
Print Assumptions C46_next_user_partial.
(** The hypotheses hold of the history of [ex_C46] (PropsPool.v); here the next user reads
    the counter that the first one left, from the beginning of the answers. *)
Example C46_next_user_example :
  let first := [CQuery [1] []; RNext 0; RClose 0; CClose] in
  let next := [CExec [4] []; CQuery [1] []] in
  fst (fst (pex_run (first ++ next) 5)) = fst (fst (pex_run first 5)) ++ firstn 1 (fst (fst (pex_run next 6))) ++ [OHandle (Some 1%nat) None] /\
  b_db (w_net (snd (pex_run first 5))) = 6.
Proof. vm_compute. split; reflexivity. Qed.

(** * C69: settings *)
Definition sets_chunk (o : op) : bool := match o with CSetChunkSize _ => true | _ => false end.
(** A user sets the chunk size and returns the connection: everything the next users send,
    on any network and whatever they call, goes in chunks of that size, until one of them
    sets another. *)
Theorem C69_refuted : forall N (ops : netops N) mk f n cs next, existsb sets_chunk next = false ->
  let r := run (noted ops) mk (S f) ([CSetChunkSize cs; CClose] ++ next) (fresh true (n, [])) in
  firstn 2 (fst (fst r)) = [OUnit; OErr None] /\
  forall z v, In (z, v) (snd (w_net (snd r))) -> z = cs.
Proof.
  intros N ops mk f n cs next Hn r.
  set (w2 := Build_world {| c_closed := false; c_err := false; c_tx := None; c_stmt := None; c_pooled := true; c_cs := cs; c_reclaims := [false] |} [] [] [] (n, @nil (Z * goval))).
  assert (E : r = let '(l, x, w') := run (noted ops) mk (S f) next w2 in (OUnit :: OErr None :: l, x, w')).
  { subst r. cbn [app run]. change (step (noted ops) mk (S f) (CSetChunkSize cs) (fresh true (n, []))) with (Ok OUnit, Build_world {| c_closed := false; c_err := false; c_tx := None; c_stmt := None; c_pooled := true; c_cs := cs; c_reclaims := [] |} [] [] [] (n, @nil (Z * goval))).
    cbv beta iota. match goal with |- context [step (noted ops) mk (S f) CClose ?w] => change (step (noted ops) mk (S f) CClose w) with (Ok (OErr None), w2) end.
    cbv beta iota. destruct (run (noted ops) mk (S f) next w2) as [[l x] w']. reflexivity. }
  destruct (run_alike (noted ops) (noted ops) (fun z => z = cs) (fun _ => True) (fun _ => True) (fun _ => True)
    (fun x x' => x = x' /\ Forall (fun y => fst y = cs) (snd x))) with (mk := mk) (f := S f) (os := next) (w := w2) (w' := w2) as (_ & HA).
  - intros [n1 l] n' z v (<- & Hl) -> _. cbn in *. destruct (n_send ops n1 cs v) as [n2 x]. cbn. split; [reflexivity|]. split; [reflexivity|].
    apply Forall_app. split; [exact Hl|]. now constructor.
  - intros [n1 l] n' (<- & Hl). cbn in *. destruct (n_recv ops n1). auto.
  - intros [n1 l] n' (<- & Hl). cbn in *. destruct (n_close ops n1). auto.
  - apply Forall_forall. intros o Ho. split; [destruct o; exact I|]. split; [|split].
    + destruct o; try exact I. exfalso. assert (X : existsb sets_chunk next = true) by (apply existsb_exists; eexists; split; [exact Ho|reflexivity]). congruence.
    + destruct o; cbn; auto; apply Forall_forall; auto.
    + destruct o; cbn; auto; try (apply Forall_forall; auto); destruct (driver_args mk args); auto.
  - repeat split; cbn; auto.
  - rewrite E. destruct (run (noted ops) mk (S f) next w2) as [[l x] w']. cbn [fst snd firstn] in *. split; [reflexivity|].
    intros z v Hi. destruct HA as (_ & _ & _ & _ & _ & _ & _ & HA). rewrite Forall_forall in HA. exact (HA _ Hi).
Qed.
Print Assumptions C69_refuted.
(** Without calls of SetChunkSize every message of every user goes in chunks of 65535. *)
Theorem C69_partial : forall N (ops : netops N) mk f os pooled n, existsb sets_chunk os = false ->
  forall z v, In (z, v) (snd (w_net (snd (run (noted ops) mk f os (fresh pooled (n, [])))))) -> z = 65535.
Proof.
  intros N ops mk f os pooled n Hn z v Hi. destruct (C59_only_what_was_asked N ops mk f os pooled n) as (_ & H).
  destruct (H z v Hi) as ([<-|Hz] & _); [reflexivity|]. exfalso. apply in_flat_map in Hz as (o & Ho & Hz).
  assert (X : existsb sets_chunk os = true) by (apply existsb_exists; exists o; split; [exact Ho|]; destruct o; try contradiction; reflexivity). congruence.
Qed.
Print Assumptions C69_partial.
(** The first user sets 0: the query of the next one is preceded by empty messages, one for
    each write (C15_refuted_zero). *)
Example C69_example :
  snd (w_net (snd (run (noted (bolt toy fine)) true 5 ([CSetChunkSize 0; CClose] ++ [CExec [4] []]) (fresh true (Build_bnet 5 Ready [], []))))) =
    [(0, VRun [4] []); (0, VPullAll)] /\
  concat (fst (Encoder.encode 0 (VRun [4] []))) = [0; 0; 0; 0; 0; 0; 0; 0; 0; 0] ++ [0; 5; 0xB2; 0x10; 0x81; 4; 0xA0; 0; 0].
Proof. vm_compute. split; reflexivity. Qed.
