(** The conversation of a connection as a sequence of events, and the rules of recovery it keeps
    on every network: see [talk]. *)
From Coq Require Import ZArith List Bool Lia.
From Verif Require Import GoPrims Value Errors Misc Session SessionGen.
Import ListNotations.
Open Scope Z_scope.

(** What is sent, with the outcome of sending; what is received. *)
Inductive event := Sent (v : goval) (r : sres) | Got (r : rres).
(** A network that writes down the conversation. *)
Definition taped {N} (ops : netops N) : netops (N * list event) :=
  {| n_send := fun n cs v => let '(n', r) := n_send ops (fst n) cs v in ((n', snd n ++ [Sent v r]), r);
     n_recv := fun n => let '(n', r) := n_recv ops (fst n) in ((n', snd n ++ [Got r]), r);
     n_close := fun n => let '(n', b) := n_close ops (fst n) in ((n', snd n), b);
     n_shake := fun n => let '(n', r) := n_shake ops (fst n) in ((n', snd n), r) |}.

(** Nothing to recover from; a FAILURE has just been received; ACK_FAILURE is on its way; it has been
    answered with a FAILURE; RESET is on its way. *)
Inductive mood := Calm | Owed | Acking | Refused | Resetting.
(** The next event; [None]: against the rules. *)
Definition talk (s : mood) (e : event) : option mood :=
  match s, e with
  | Owed, Sent VAckFailure SOk => Some Acking
  | Owed, Sent VAckFailure _ => Some Calm
  | Refused, Sent VReset SOk => Some Resetting
  | Refused, Sent VReset _ => Some Calm
  | Calm, Sent VAckFailure _ | Calm, Sent VReset _ => None
  | Calm, Sent _ _ => Some Calm
  | Calm, Got (RMsg (VFailure _)) => Some Owed
  | Calm, Got _ => Some Calm
  | Acking, Got (RMsg (VFailure _)) => Some Refused
  | Acking, Got (RMsg VIgnored) => Some Acking
  | Acking, Got _ => Some Calm
  | Resetting, Got (RMsg VIgnored) => Some Resetting
  | Resetting, Got _ => Some Calm
  | _, _ => None
  end.
Fixpoint talks (s : mood) (l : list event) : option mood :=
  match l with [] => Some s | e :: l' => match talk s e with Some s' => talks s' l' | None => None end end.
Lemma talks_app : forall l1 l2 s, talks s (l1 ++ l2) = match talks s l1 with Some s' => talks s' l2 | None => None end.
Proof. induction l1 as [|e l1 IH]; intros l2 s; cbn; [reflexivity|]. destruct (talk s e); auto. Qed.

Section Talk.
Context {N : Type} (ops0 : netops N).
Notation ops := (taped ops0).
Notation W := (world (N * list event)).
Notation M := (M (N := N * list event)).
Definition now (s : mood) (w : W) : Prop := talks Calm (snd (w_net w)) = Some s.
(** From [s] to a state where nothing is left to recover from, if the call ends. *)
Definition From {A} (s : mood) (m : M A) : Prop := forall w, now s w -> match m w with (NoFuel, _) => True | (_, w') => now Calm w' end.
Notation D := (From Calm).

Lemma D_net : forall A (m : M A), (forall w, w_net (snd (m w)) = w_net w) -> D m.
Proof. intros A m H w Hw. specialize (H w). destruct (m w) as [[a| |] w']; cbn in H; auto; unfold now in *; rewrite H; exact Hw. Qed.
Lemma D_ret : forall A (a : A), D (ret a). Proof. intros. apply D_net. reflexivity. Qed.
Lemma D_panic : forall A, D (panic (A := A)). Proof. intros. apply D_net. reflexivity. Qed.
Lemma F_nofuel : forall A s, From s (nofuel (A := A)). Proof. intros A s w H. exact I. Qed.
Lemma F_bind : forall A B s (m : M A) (k : A -> M B), From s m -> (forall a, D (k a)) -> From s (bind m k).
Proof.
  intros A B s m k Hm Hk w Hw. unfold bind. specialize (Hm w Hw). destruct (m w) as [[a| |] w1]; auto. apply Hk. exact Hm.
Qed.
Lemma D_bind : forall A B (m : M A) (k : A -> M B), D m -> (forall a, D (k a)) -> D (bind m k).
Proof. intros. now apply F_bind. Qed.
Lemma D_defer : forall A B (m : M A) (d : M B), D m -> D d -> D (with_defer m d).
Proof.
  intros A B m d Hm Hd w Hw. unfold with_defer. specialize (Hm w Hw). destruct (m w) as [[a| |] w1]; auto;
    specialize (Hd w1 Hm); destruct (d w1) as [[b| |] w2]; auto.
Qed.
Lemma D_getc : D getc. Proof. apply D_net. reflexivity. Qed.
Lemma D_getn : D getn. Proof. apply D_net. reflexivity. Qed.
Lemma D_gets : forall i, D (gets i). Proof. intros. apply D_net. intros w. unfold gets. destruct (nth_error _ _); reflexivity. Qed.
Lemma D_getr : forall i, D (getr i). Proof. intros. apply D_net. intros w. unfold getr. destruct (nth_error _ _); reflexivity. Qed.
Lemma D_gett : forall i, D (gett i). Proof. intros. apply D_net. intros w. unfold gett. destruct (nth_error _ _); reflexivity. Qed.
Lemma D_mods : forall i f, D (mods i f).
Proof. intros. apply D_net. intros w. unfold mods, bind, gets, sets. destruct (nth_error _ _); reflexivity. Qed.
Lemma D_modr : forall i f, D (modr i f).
Proof. intros. apply D_net. intros w. unfold modr, bind, getr, setr. destruct (nth_error _ _); reflexivity. Qed.
Lemma D_need : forall i, D (need_conn i).
Proof. intros. apply D_net. intros w. unfold need_conn, bind, gets. destruct (nth_error _ _); cbn; auto. destruct (s_conn _); reflexivity. Qed.
Lemma D_modc : forall f, D (modc f). Proof. intros. apply D_net. reflexivity. Qed.
Lemma D_sett : forall i t, D (sett i t). Proof. intros. apply D_net. reflexivity. Qed.
Lemma D_newr : forall r, D (newr r). Proof. intros. apply D_net. reflexivity. Qed.
Lemma D_newt : forall r, D (newt r). Proof. intros. apply D_net. reflexivity. Qed.
Lemma D_news : forall r, D (news r). Proof. intros. apply D_net. reflexivity. Qed.

(** Sending and receiving, and what is known afterwards. *)
Lemma enc_talk : forall v (w : W), exists r w', encode_msg ops v w = (Ok (match r with SOk => None | SRejected => Some (enew FEnc 0) | SIOErr => Some (ewrap FEnc 1 EBadConn) end), w') /\
  snd (w_net w') = snd (w_net w) ++ [Sent v r].
Proof.
  intros v w. unfold encode_msg, bind, getc, getn, setn. cbn [n_send taped]. destruct (n_send ops0 (fst (w_net w)) (c_cs (w_conn w)) v) as [n' r].
  exists r. destruct r; (eexists; split; [reflexivity|reflexivity]).
Qed.
Lemma dec_talk : forall (w : W), exists r w', decode_msg ops w = (match r with RMsg v => Ok (Some v, None) | RDec p e => Ok (p, Some e) | RNet => Ok (None, Some (ewrap FDec 45 EBadConn)) | RCrash => Panic end, w') /\
  snd (w_net w') = snd (w_net w) ++ [Got r].
Proof.
  intros w. unfold decode_msg, bind, getn, setn. cbn [n_recv taped]. destruct (n_recv ops0 (fst (w_net w))) as [n' r].
  exists r. destruct r; (eexists; split; [reflexivity|reflexivity]).
Qed.
Lemma now_app : forall s s' e (w w' : W), now s w -> snd (w_net w') = snd (w_net w) ++ [e] -> talk s e = Some s' -> now s' w'.
Proof. intros s s' e w w' H E Ht. unfold now in *. rewrite E, talks_app, H. cbn. now rewrite Ht. Qed.
Definition plain_msg (v : goval) : Prop := v <> VAckFailure /\ v <> VReset.
Lemma D_enc : forall v, plain_msg v -> D (encode_msg ops v).
Proof.
  intros v (H1 & H2) w Hw. destruct (enc_talk v w) as (r & w' & -> & E). eapply now_app; [exact Hw|exact E|]. destruct v; try reflexivity; contradiction.
Qed.

Section Inner.
Variable lf : nat.
Variable cls : M (option gerr).
Hypothesis Hcls : D cls.
Lemma F_reset_loop : forall f, From Resetting (reset_loop ops cls f).
Proof.
  induction f as [|f IH]; cbn [reset_loop]; [apply F_nofuel|]. intros w Hw. unfold bind at 1. destruct (dec_talk w) as (r & w' & -> & E).
  assert (Hc : forall s, talk Resetting (Got r) = Some s -> now s w') by (intros s Hs; eapply now_app; eauto).
  destruct r as [v|p e| |]; cbv beta iota; try (apply Hc; reflexivity).
  destruct v; try (apply Hc; reflexivity); try (apply IH; apply Hc; reflexivity).
  all: match goal with |- match ?m ?w1 with _ => _ end => assert (HD : D m); [|apply HD, Hc; reflexivity] end.
  all: repeat (apply D_bind; [first [exact Hcls|apply D_modc]|intros ?]); apply D_ret.
Qed.
Lemma F_reset : From Refused (reset ops lf cls).
Proof.
  unfold reset. intros w Hw. unfold bind at 1. destruct (enc_talk VReset w) as (r & w' & -> & E).
  destruct r; cbv beta iota; [apply F_reset_loop| |]; eapply now_app; eauto; reflexivity.
Qed.
Lemma F_ack_loop : forall f, From Acking (ack_loop ops lf cls f).
Proof.
  induction f as [|f IH]; cbn [ack_loop]; [apply F_nofuel|]. intros w Hw. unfold bind at 1. destruct (dec_talk w) as (r & w' & -> & E).
  assert (Hc : forall s, talk Acking (Got r) = Some s -> now s w') by (intros s Hs; eapply now_app; eauto).
  destruct r as [v|p e| |]; cbv beta iota; try (apply Hc; reflexivity).
  destruct v; try (apply Hc; reflexivity); try (apply IH; apply Hc; reflexivity); try (apply F_reset; apply Hc; reflexivity).
  all: match goal with |- match ?m ?w1 with _ => _ end => assert (HD : D m); [|apply HD, Hc; reflexivity] end.
  all: repeat (apply D_bind; [first [exact Hcls|apply D_modc]|intros ?]); apply D_ret.
Qed.
Lemma F_ack : From Owed (ack_failure ops lf cls).
Proof.
  unfold ack_failure. intros w Hw. unfold bind at 1. destruct (enc_talk VAckFailure w) as (r & w' & -> & E).
  destruct r; cbv beta iota; [apply F_ack_loop| |]; eapply now_app; eauto; reflexivity.
Qed.
Lemma D_consume : D (consume ops lf cls).
Proof.
  unfold consume. intros w Hw. unfold bind at 1. destruct (dec_talk w) as (r & w' & -> & E).
  assert (Hc : forall s, talk Calm (Got r) = Some s -> now s w') by (intros s Hs; eapply now_app; eauto).
  destruct r as [v|p e| |]; cbv beta iota; try (apply Hc; reflexivity).
  destruct v; try (apply Hc; reflexivity).
  match goal with |- match ?m ?w1 with _ => _ end => assert (HD : From Owed m); [|apply HD, Hc; reflexivity] end.
  apply F_bind; [apply F_ack|]. intros [e|]; apply D_ret.
Qed.

Ltac d1 :=
  cbv beta iota;
  match goal with
  | |- From _ (ret _) => apply D_ret
  | |- From _ panic => apply D_panic
  | |- From _ nofuel => apply F_nofuel
  | |- From _ getc => apply D_getc
  | |- From _ getn => apply D_getn
  | |- From _ (gets _) => apply D_gets
  | |- From _ (getr _) => apply D_getr
  | |- From _ (gett _) => apply D_gett
  | |- From _ (need_conn _) => apply D_need
  | |- From _ (modc _) => apply D_modc
  | |- From _ (mods _ _) => apply D_mods
  | |- From _ (modr _ _) => apply D_modr
  | |- From _ (sett _ _) => apply D_sett
  | |- From _ (newr _) => apply D_newr
  | |- From _ (newt _) => apply D_newt
  | |- From _ (news _) => apply D_news
  | |- From _ (encode_msg _ _) => apply D_enc; split; discriminate
  | |- From _ (consume _ _ _) => apply D_consume
  | H : From _ ?m |- From _ ?m => exact H
  | H : forall x, From _ (?m x) |- From _ (?m _) => apply H
  | H : forall x y, From _ (?m x y) |- From _ (?m _ _) => apply H
  | H : forall x y z, From _ (?m x y z) |- From _ (?m _ _ _) => apply H
  | |- From _ (with_defer _ _) => apply D_defer
  | |- From _ (match ?x with _ => _ end) => destruct x
  | |- From _ (bind _ _) => apply D_bind; [|intro]
  | |- From _ (let '(_, _) := ?x in _) => destruct x
  end.
Ltac d := repeat d1.
Lemma D_consume_all : D (consume_all ops lf cls).
Proof. unfold consume_all. generalize lf at 2 as f. induction f as [|f IH]; cbn [consume_all_loop]; d. Qed.
Lemma D_consume_n : forall n, D (consume_all_n ops lf cls n).
Proof. pose proof D_consume_all. induction n as [|n IH]; cbn [consume_all_n]; d. Qed.
Lemma D_consume_multiple : forall z, D (consume_all_multiple ops lf cls z).
Proof. pose proof D_consume_n. intros z. unfold consume_all_multiple. d. Qed.
Lemma D_send_run : forall q ps, D (send_run ops q ps).
Proof. intros. unfold send_run. d. Qed.
Lemma D_send_pull : D (send_pull_all ops).
Proof. unfold send_pull_all. d. Qed.
Lemma D_send_run_pull : forall q ps, D (send_run_pull_all ops q ps).
Proof. pose proof D_send_run; pose proof D_send_pull. intros. unfold send_run_pull_all. d. Qed.
Lemma D_send_run_consume : forall q ps, D (send_run_consume ops lf cls q ps).
Proof. pose proof D_send_run. intros. unfold send_run_consume. d. Qed.
Lemma D_consume_run : forall q ps, D (send_run_pull_all_consume_run ops lf cls q ps).
Proof. pose proof D_send_run_pull. intros. unfold send_run_pull_all_consume_run. d. Qed.
Lemma D_consume_single : forall q ps, D (send_run_pull_all_consume_single ops lf cls q ps).
Proof. pose proof D_send_run_pull. intros. unfold send_run_pull_all_consume_single. d. Qed.
Lemma D_run_consume_all : forall q ps, D (send_run_pull_all_consume_all ops lf cls q ps).
Proof. pose proof D_send_run_pull; pose proof D_consume_all. intros. unfold send_run_pull_all_consume_all. d. Qed.
Lemma D_discard : D (send_discard_all_consume ops lf cls).
Proof. unfold send_discard_all_consume. d. Qed.
Lemma D_rows_close_body : forall rid, D (rows_close_body ops lf cls rid).
Proof. pose proof D_discard; pose proof D_consume_multiple. intros. unfold rows_close_body. d. Qed.
Lemma D_stmt_close : forall sid, D (stmt_close ops lf cls sid).
Proof. pose proof D_rows_close_body. intros. unfold stmt_close. d. Qed.
Lemma D_rows_close : forall rid, D (rows_close ops lf cls rid).
Proof. pose proof D_rows_close_body; pose proof D_stmt_close. intros. unfold rows_close. d. Qed.
Lemma D_tx_finish : forall q l1 l2 l3 l4 l5 tid, D (tx_finish ops lf cls q l1 l2 l3 l4 l5 tid).
Proof. pose proof D_stmt_close; pose proof D_consume_single. intros. unfold tx_finish. d. Qed.
Lemma D_commit : forall tid, D (commit ops lf cls tid).
Proof. intros. apply D_tx_finish. Qed.
Lemma D_rollback : forall tid, D (rollback ops lf cls tid).
Proof. intros. apply D_tx_finish. Qed.
Lemma D_net_close : D (net_close ops).
Proof.
  intros w Hw. unfold net_close, bind, getn, setn. cbn [n_close taped]. destruct (n_close ops0 (fst (w_net w))) as [n' b]. destruct b; exact Hw.
Qed.
Lemma D_close_body : D (close_body ops lf cls).
Proof.
  pose proof D_stmt_close; pose proof D_rollback; pose proof D_net_close. unfold close_body. fold (net_close ops). d.
Qed.
Lemma D_stmt_exec : forall sid ps, D (stmt_exec ops lf cls sid ps).
Proof. pose proof D_run_consume_all. intros. unfold stmt_exec. d. Qed.
Lemma D_send_queries : forall l qs pss, D (send_queries ops l qs pss).
Proof. pose proof D_send_run_pull. intros l qs. induction qs as [|q qs IH]; intros [|ps pss]; cbn [send_queries]; d. Qed.
Lemma D_exec_results : forall qs, D (exec_results ops lf cls qs).
Proof. pose proof D_consume_all. induction qs as [|q qs IH]; cbn [exec_results]; d. Qed.
Lemma D_stmt_exec_pipeline : forall sid pss, D (stmt_exec_pipeline ops lf cls sid pss).
Proof. pose proof D_send_queries; pose proof D_exec_results. intros. unfold stmt_exec_pipeline. d. Qed.
Lemma D_stmt_query : forall sid ps, D (stmt_query ops lf cls sid ps).
Proof. pose proof D_send_run_consume. intros. unfold stmt_query. d. Qed.
Lemma D_stmt_query_pipeline : forall sid pss, D (stmt_query_pipeline ops lf cls sid pss).
Proof. pose proof D_send_queries. intros. unfold stmt_query_pipeline. d. Qed.
Lemma D_close_cur : D (close_cur_stmt ops lf cls).
Proof. pose proof D_stmt_close. unfold close_cur_stmt. d. Qed.
Lemma D_next_neo : forall rid, D (next_neo ops lf cls rid).
Proof. pose proof D_send_pull. intros. unfold next_neo. d. Qed.
Lemma D_all_rows : forall rid, D (all_rows ops lf cls rid).
Proof.
  pose proof D_next_neo. intros. unfold all_rows. generalize (@nil (list goval)) as acc.
  generalize lf at 2 as f. induction f as [|f IH]; intros acc; cbn [all_loop]; d.
Qed.
Lemma D_next_pipeline : forall rid, D (next_pipeline ops lf cls rid).
Proof. intros. unfold next_pipeline. d. Qed.
Lemma D_next_sql : forall rid n, D (next_sql ops lf cls rid n).
Proof. pose proof D_next_neo. intros. unfold next_sql. d. Qed.
Lemma D_begin : D (begin_tx ops lf cls).
Proof. pose proof D_consume_single. unfold begin_tx, guard_open. d. Qed.
Lemma D_query_neo : forall q ps, D (query_neo ops lf cls q ps).
Proof. pose proof D_consume_run; pose proof D_close_cur. intros. unfold query_neo, guard_open. d. Qed.
Lemma D_query_pipeline : forall q ps, D (query_pipeline ops lf cls q ps).
Proof. pose proof D_stmt_query_pipeline. intros. unfold query_pipeline, guard_open. d. Qed.
Lemma D_query_neo_all : forall q ps, D (query_neo_all ops lf cls q ps).
Proof. pose proof D_query_neo; pose proof D_rows_close; pose proof D_all_rows. intros. unfold query_neo_all. d. Qed.
Lemma D_exec_neo : forall q ps, D (exec_neo ops lf cls q ps).
Proof. pose proof D_stmt_exec; pose proof D_stmt_close. intros. unfold exec_neo, guard_open. d. Qed.
Lemma D_exec_pipeline : forall q ps, D (exec_pipeline ops lf cls q ps).
Proof. pose proof D_stmt_exec_pipeline; pose proof D_stmt_close. intros. unfold exec_pipeline, guard_open. d. Qed.
Lemma D_step_body : forall mk o, D (step_body ops lf cls mk o).
Proof.
  pose proof D_begin; pose proof D_query_neo; pose proof D_query_neo_all; pose proof D_query_pipeline;
  pose proof D_stmt_exec; pose proof D_stmt_exec_pipeline; pose proof D_stmt_query; pose proof D_exec_neo; pose proof D_exec_pipeline;
  pose proof D_stmt_query_pipeline; pose proof D_stmt_close; pose proof D_next_neo; pose proof D_all_rows;
  pose proof D_next_pipeline; pose proof D_next_sql; pose proof D_rows_close; pose proof D_commit; pose proof D_rollback.
  intros mk o. destruct o; cbn [step_body]; unfold prepare, prepare_pipeline, exec_sql, query_sql, stmt_exec_sql, stmt_query_sql, with_args, set_chunk_size, guard_open; d.
Qed.
Lemma D_initialize : forall user password, D (initialize ops lf cls user password).
Proof.
  intros user password w Hw. unfold initialize. unfold bind at 1. unfold getn. cbn [n_shake taped].
  destruct (n_shake ops0 (fst (w_net w))) as [n' [bad e]]. unfold bind at 1. unfold setn.
  match goal with |- match ?m ?w1 with _ => _ end => assert (HD : D m); [|apply (HD w1); exact Hw] end.
  d.
Qed.
End Inner.

Lemma D_close : forall f, D (close ops f).
Proof. induction f as [|f IH]; cbn [close]; [apply F_nofuel|]. apply D_close_body. exact IH. Qed.
Lemma D_step : forall mk f o, D (step ops mk f o).
Proof. intros. unfold step. apply D_step_body, D_close. Qed.
Lemma run_talks : forall mk f os (w : W), now Calm w -> match run ops mk f os w with (_, NoFuel, _) => True | (_, _, w') => now Calm w' end.
Proof.
  intros mk f. induction os as [|o os IH]; intros w Hw; cbn [run]; [exact Hw|]. pose proof (D_step mk f o w Hw) as H.
  destruct (step ops mk f o w) as [[a| |] w1]; auto. specialize (IH w1 H). destruct (run ops mk f os w1) as [[l [| |]] w2]; auto.
Qed.
End Talk.
