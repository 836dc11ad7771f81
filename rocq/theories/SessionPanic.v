(** Where calls can panic: the statements and row sets a program can hold are always
    such that only three things do. *)
From Coq Require Import ZArith List Bool Lia.
From Verif Require Import GoPrims Value Errors Misc Session SessionVoc SessionGen PoolLink.
Import ListNotations.
Open Scope Z_scope.

Section Panic.
Context {N : Type} (ops : netops N).
(** the decoder does not panic *)
Hypothesis no_crash : forall n, snd (n_recv ops n) <> RCrash.
Notation W := (world N).
Notation M := (M (N := N)).

(** ** Weakest preconditions: [R] after a normal end, [B] after a panic *)
Definition wp {A} (w : W) (m : M A) (R : A -> W -> Prop) (B : W -> Prop) : Prop :=
  match m w with (Ok a, w') => R a w' | (Panic, w') => B w' | (NoFuel, _) => True end.
Lemma wp_bind : forall A C w (m : M A) (k : A -> M C) R B, wp w m (fun a w' => wp w' (k a) R B) B -> wp w (bind m k) R B.
Proof. intros A C w m k R B H. unfold wp, bind in *. destruct (m w) as [[a| |] w']; auto. Qed.
Lemma wp_weak : forall A w (m : M A) R B (R' : A -> W -> Prop) (B' : W -> Prop),
  wp w m R B -> (forall a w', R a w' -> R' a w') -> (forall w', B w' -> B' w') -> wp w m R' B'.
Proof. intros A w m R B R' B' H H1 H2. unfold wp in *. destruct (m w) as [[a| |] w']; auto. Qed.
Lemma wp_ret : forall A w (a : A) (R : A -> W -> Prop) B, R a w -> wp w (ret a) R B.
Proof. intros. exact H. Qed.
Lemma wp_nofuel : forall A w (R : A -> W -> Prop) B, wp w (nofuel (A := A)) R B.
Proof. intros. exact I. Qed.
Lemma wp_pres : forall A w (m : M A) R B (K : W -> W -> Prop), Pres K m -> wp w m R B -> wp w m (fun a w' => R a w' /\ K w w') (fun w' => B w' /\ K w w').
Proof. intros A w m R B K H H1. specialize (H w). unfold wp in *. destruct (m w) as [[a| |] w']; auto. Qed.

(** ** The invariant *)
Definition none (_ : W) : Prop := False.
Record WF (w : W) : Prop := {
  f_conn : forall i s, nth_error (w_stmts w) i = Some s -> s_conn s = negb (s_closed s);
  f_rows : forall i s r, nth_error (w_stmts w) i = Some s -> s_rows s = Some r -> exists x, nth_error (w_rows w) r = Some x /\ r_stmt x = i;
  f_stmt : forall r x, nth_error (w_rows w) r = Some x -> exists s, nth_error (w_stmts w) (r_stmt x) = Some s /\ 0 <= r_pidx x /\ (s_queries s = [] \/ r_pidx x < zlen (s_queries s));
  f_cur : forall i, c_stmt (w_conn w) = Some i -> exists s, nth_error (w_stmts w) i = Some s;
  f_tx : c_tx (w_conn w) = None }.

(** nothing but connErr and the network changed *)
Definition calm (w w' : W) : Prop :=
  w_stmts w' = w_stmts w /\ w_rows w' = w_rows w /\ w_txs w' = w_txs w /\ c_stmt (w_conn w') = c_stmt (w_conn w) /\ c_tx (w_conn w') = c_tx (w_conn w) /\
  c_closed (w_conn w') = c_closed (w_conn w) /\ c_reclaims (w_conn w') = c_reclaims (w_conn w).
Lemma calm_refl : forall w, calm w w. Proof. repeat split. Qed.
Lemma calm_trans : forall w1 w2 w3, calm w1 w2 -> calm w2 w3 -> calm w1 w3.
Proof. unfold calm. intros. intuition congruence. Qed.
Lemma calm_WF : forall w w', calm w w' -> WF w -> WF w'.
Proof.
  intros w w' (E1 & E2 & E3 & E4 & E5 & _) [A1 A2 A3 A4 A5]. split; rewrite ?E1, ?E2, ?E4, ?E5; auto.
Qed.
(** the driver closed the connection: it became closed or went back to the pool *)
Definition shut (w w' : W) : Prop :=
  c_closed (w_conn w) = false /\ c_closed (w_conn w') = true \/ (length (c_reclaims (w_conn w)) < length (c_reclaims (w_conn w')))%nat.
(** what every call does *)
Definition grow (w w' : W) : Prop := mono w w' /\ Recl w w'.
Lemma grow_refl : forall w, grow w w. Proof. intros. split; [apply mono_refl|apply Recl_refl]. Qed.
Lemma grow_trans : forall w1 w2 w3, grow w1 w2 -> grow w2 w3 -> grow w1 w3.
Proof. intros w1 w2 w3 (A & B) (C & D). split; [eapply mono_trans; eauto|eapply Recl_trans; eauto]. Qed.
Lemma grow_closed : forall w w', grow w w' -> c_closed (w_conn w) = true -> c_closed (w_conn w') = true.
Proof. intros w w' (((A & _) & _) & _). exact A. Qed.
Lemma grow_reclaims : forall w w', grow w w' -> (length (c_reclaims (w_conn w)) <= length (c_reclaims (w_conn w')))%nat.
Proof. intros w w' (_ & (_ & _ & es & E & _)). rewrite E, app_length. lia. Qed.
Lemma shut_later : forall w1 w2 w3, shut w1 w2 -> grow w2 w3 -> shut w1 w3.
Proof.
  intros w1 w2 w3 H G. pose proof (grow_closed _ _ G). pose proof (grow_reclaims _ _ G). destruct H as [(A & B)|A]; [left; auto|right; lia].
Qed.
Lemma shut_before : forall w1 w2 w3, grow w1 w2 -> shut w2 w3 -> shut w1 w3.
Proof.
  intros w1 w2 w3 G H. pose proof (grow_closed _ _ G) as X. pose proof (grow_reclaims _ _ G). destruct H as [(A & B)|A]; [left|right; lia].
  split; [|exact B]. destruct (c_closed (w_conn w1)); [rewrite X in A by auto; discriminate|reflexivity].
Qed.
(** c.statement is as before and no statement was closed *)
Definition flat (w w' : W) : Prop :=
  c_stmt (w_conn w') = c_stmt (w_conn w) /\ forall i s, nth_error (w_stmts w) i = Some s -> exists s', nth_error (w_stmts w') i = Some s' /\ s_closed s' = s_closed s.
Lemma flat_same : forall w w', c_stmt (w_conn w') = c_stmt (w_conn w) -> w_stmts w' = w_stmts w -> flat w w'.
Proof. intros w w' H1 H2. split; [exact H1|]. intros i s E. rewrite H2. eauto. Qed.
Lemma flat_trans : forall w1 w2 w3, flat w1 w2 -> flat w2 w3 -> flat w1 w3.
Proof.
  intros w1 w2 w3 (A1 & B1) (A2 & B2). split; [congruence|]. intros i s E. destruct (B1 i s E) as (s' & E' & H'). destruct (B2 i s' E') as (s'' & E'' & H''). exists s''. split; congruence.
Qed.
Definition soft (w w' : W) : Prop := WF w' /\ grow w w' /\ (flat w w' \/ shut w w').
Lemma soft_refl : forall w, WF w -> soft w w. Proof. intros w H. split; [exact H|]. split; [apply grow_refl|]. left. apply flat_same; auto. Qed.
Lemma soft_trans : forall w1 w2 w3, soft w1 w2 -> soft w2 w3 -> soft w1 w3.
Proof.
  intros w1 w2 w3 (A1 & B1 & C1) (A2 & B2 & C2). split; [exact A2|]. split; [eapply grow_trans; eauto|].
  destruct C1 as [C1|C1]; [|right; eapply shut_later; eauto]. destruct C2 as [C2|C2]; [left; eapply flat_trans; eauto|right; eapply shut_before; eauto].
Qed.
Lemma calm_soft : forall w w', calm w w' -> grow w w' -> WF w -> soft w w'.
Proof. intros w w' H G F. split; [eapply calm_WF; eauto|]. split; [exact G|]. left. apply flat_same; apply H. Qed.

(** ** Messages *)
Lemma Pres_grow : forall A (m : M A), Pres mono m -> Pres Recl m -> Pres grow m.
Proof. intros A m H1 H2 w. split; [apply H1|apply H2]. Qed.
Lemma enc_grow : forall v, Pres grow (encode_msg ops v). Proof. intros. apply Pres_grow; [apply mono_enc|apply recl_enc]. Qed.
Lemma dec_grow : Pres grow (decode_msg ops). Proof. apply Pres_grow; [apply mono_dec|apply recl_dec]. Qed.
Lemma wp_enc : forall w v, WF w -> wp w (encode_msg ops v) (fun _ w' => calm w w' /\ soft w w') none.
Proof.
  intros w v F. eapply wp_weak.
  - eapply (wp_pres _ w (encode_msg ops v) (fun _ w' => calm w w') none grow (enc_grow v)). unfold wp, encode_msg, bind, getc, getn.
    destruct (n_send ops (w_net w) (c_cs (w_conn w)) v) as [n' []]; cbn; repeat split.
  - intros a w' (A & B). split; [exact A|]. apply calm_soft; auto.
  - intros w' (A & _). exact A.
Qed.
Lemma wp_dec : forall w, WF w -> wp w (decode_msg ops) (fun _ w' => calm w w' /\ soft w w') none.
Proof.
  intros w F. eapply wp_weak.
  - eapply (wp_pres _ w (decode_msg ops) (fun _ w' => calm w w') none grow dec_grow). unfold wp, decode_msg, bind, getn.
    pose proof (no_crash (w_net w)) as X. destruct (n_recv ops (w_net w)) as [n' []]; cbn in *; repeat split. congruence.
  - intros a w' (A & B). split; [exact A|]. apply calm_soft; auto.
  - intros w' (A & _). exact A.
Qed.

Section Inner.
Variable lf : nat.
Variable cls : M (option gerr).
Hypothesis Hcls : forall w, WF w -> wp w cls (fun _ w' => soft w w') none.

(** an error, or nothing happened *)
Definition told {A} (bad : A -> Prop) (w : W) (a : A) (w' : W) : Prop := soft w w' /\ (bad a \/ calm w w').
Definition is_err (e : option gerr) : Prop := exists x, e = Some x /\ x <> EEOF.
Definition is_err2 {A} (p : A * option gerr) : Prop := is_err (snd p).
Lemma told_bad : forall A (bad : A -> Prop) w w' a, soft w w' -> bad a -> told bad w a w'. Proof. intros; split; auto. Qed.
Lemma told_calm : forall A (bad : A -> Prop) w w' a, soft w w' -> calm w w' -> told bad w a w'. Proof. intros; split; auto. Qed.

Ltac bnd L := apply wp_bind; eapply wp_weak; [apply L; auto|cbv beta|let w := fresh in intros w []].
Lemma wp_err : forall w, WF w -> wp w (modc (N := N) c_set_err) (fun _ w' => calm w w' /\ soft w w') none.
Proof.
  intros w F. cbn. assert (C : calm w (Build_world (c_set_err (w_conn w)) (w_stmts w) (w_rows w) (w_txs w) (w_net w))) by (repeat split).
  split; [exact C|]. apply calm_soft; auto. split; [apply mono_conn; unfold conn_mono; cbn; auto|]. unfold Recl; cbn. apply recl_same; auto.
Qed.
Lemma wp_angry : forall w0 w a, soft w0 w -> is_err a -> wp w (modc c_set_err ;; cls ;; ret a) (told is_err w0) none.
Proof.
  intros w0 w a S E. bnd wp_err. { apply S. } intros _ w1 (_ & S1). bnd Hcls. { apply S1. } intros _ w2 S2. cbn. apply told_bad; [|exact E].
  eapply soft_trans; [exact S|]. eapply soft_trans; eauto.
Qed.
Lemma wrapped : forall f l e, is_err (Some (ewrap f l e)). Proof. intros. eexists. split; [reflexivity|discriminate]. Qed.
Lemma made : forall f l, is_err (Some (enew f l)). Proof. intros. eexists. split; [reflexivity|discriminate]. Qed.
Lemma badconn : is_err (Some EBadConn). Proof. eexists. split; [reflexivity|discriminate]. Qed.
Lemma wp_reset_loop : forall f w0 w, calm w0 w -> soft w0 w -> wp w (reset_loop ops cls f) (told is_err w0) none.
Proof.
  induction f as [|f IH]; intros w0 w C S; cbn [reset_loop]; [apply wp_nofuel|]. bnd wp_dec. { apply S. } intros [v e] w1 (C1 & S1).
  assert (S2 : soft w0 w1) by (eapply soft_trans; eauto). assert (C2 : calm w0 w1) by (eapply calm_trans; eauto).
  destruct e as [e|]; [apply wp_ret, told_bad; auto using wrapped|].
  destruct v as [v|]; [|apply wp_angry; auto using badconn].
  destruct v; try (apply wp_angry; solve [auto using badconn]); [apply wp_ret, told_calm; auto| |apply IH; auto].
  bnd Hcls. { apply S2. } intros _ w2 S3. apply wp_ret, told_bad; [eapply soft_trans; eauto|apply wrapped].
Qed.
Lemma wp_reset : forall w0 w, calm w0 w -> soft w0 w -> wp w (reset ops lf cls) (told is_err w0) none.
Proof.
  intros w0 w C S. unfold reset. bnd wp_enc. { apply S. } intros e w1 (C1 & S1).
  assert (S2 : soft w0 w1) by (eapply soft_trans; eauto). assert (C2 : calm w0 w1) by (eapply calm_trans; eauto).
  destruct e as [e|]; [apply wp_ret, told_bad; auto using wrapped|]. apply wp_reset_loop; auto.
Qed.
Lemma wp_ack_loop : forall f w0 w, calm w0 w -> soft w0 w -> wp w (ack_loop ops lf cls f) (told is_err w0) none.
Proof.
  induction f as [|f IH]; intros w0 w C S; cbn [ack_loop]; [apply wp_nofuel|]. bnd wp_dec. { apply S. } intros [v e] w1 (C1 & S1).
  assert (S2 : soft w0 w1) by (eapply soft_trans; eauto). assert (C2 : calm w0 w1) by (eapply calm_trans; eauto).
  destruct e as [e|]; [apply wp_ret, told_bad; auto using wrapped|].
  destruct v as [v|]; [|apply wp_angry; auto using badconn].
  destruct v; try (apply wp_angry; solve [auto using badconn]); [apply wp_ret, told_calm; auto|apply wp_reset; auto|apply IH; auto].
Qed.
Lemma wp_ack : forall w0 w, calm w0 w -> soft w0 w -> wp w (ack_failure ops lf cls) (told is_err w0) none.
Proof.
  intros w0 w C S. unfold ack_failure. bnd wp_enc. { apply S. } intros e w1 (C1 & S1).
  assert (S2 : soft w0 w1) by (eapply soft_trans; eauto). assert (C2 : calm w0 w1) by (eapply calm_trans; eauto).
  destruct e as [e|]; [apply wp_ret, told_bad; auto using wrapped|]. apply wp_ack_loop; auto.
Qed.
Lemma wp_consume : forall w0 w, calm w0 w -> soft w0 w -> wp w (consume ops lf cls) (told is_err2 w0) none.
Proof.
  intros w0 w C S. unfold consume. bnd wp_dec. { apply S. } intros [v e] w1 (C1 & S1).
  assert (S2 : soft w0 w1) by (eapply soft_trans; eauto). assert (C2 : calm w0 w1) by (eapply calm_trans; eauto).
  destruct e as [e|]; [apply wp_ret, told_calm; auto|].
  destruct v as [v|]; [|apply wp_ret, told_calm; auto].
  destruct v; try (apply wp_ret, told_calm; solve [auto]).
  bnd (wp_ack w0). intros e w2 (S3 & T). destruct e as [e|].
  - apply wp_ret. split; [exact S3|]. destruct T as [T|T]; auto.
  - apply wp_ret, told_bad; [exact S3|]. apply wrapped.
Qed.
(** errors of the higher layers: whether io.EOF is among them does not matter *)
Definition fails (e : option gerr) : Prop := e <> None.
Definition fails2 {A} (p : A * option gerr) : Prop := fails (snd p).
Lemma err_fails : forall e, is_err e -> fails e. Proof. intros e (x & -> & _). discriminate. Qed.
Lemma told_weak : forall A (b1 b2 : A -> Prop) w a w', told b1 w a w' -> (b1 a -> b2 a) -> told b2 w a w'.
Proof. intros A b1 b2 w a w' (S & T) H. split; [exact S|]. destruct T; auto. Qed.
Lemma some_fails : forall e, fails (Some e). Proof. discriminate. Qed.
Hint Resolve some_fails : core.
(** after a told computation that did not fail, the state is as before *)
Lemma told_none : forall A (bad : A -> Prop) w a w', told bad w a w' -> ~ bad a -> calm w w' /\ soft w w'.
Proof. intros A bad w a w' (S & [T|T]) H; [contradiction|auto]. Qed.
Lemma not_err : ~ is_err None. Proof. intros (x & E & _). discriminate. Qed.
Lemma not_fails : ~ fails None. Proof. intros H. apply H. reflexivity. Qed.

Lemma wp_consume_all : forall w0 w, calm w0 w -> soft w0 w -> wp w (consume_all ops lf cls) (told fails2 w0) none.
Proof.
  unfold consume_all. generalize lf at 2 as f. intros f w0. induction f as [|f IH]; intros w C S; cbn [consume_all_loop]; [apply wp_nofuel|].
  bnd (wp_consume w0). intros [v e] w1 T. destruct e as [e|]; [apply wp_ret; eapply told_bad; [apply T|apply some_fails]|].
  destruct (told_none _ _ _ _ _ T not_err) as (C1 & S1).
  destruct v as [v|]; [|apply IH; auto]. destruct v; try (apply IH; solve [auto]). apply wp_ret, told_calm; auto.
Qed.
Lemma wp_consume_n : forall n w0 w, calm w0 w -> soft w0 w -> wp w (consume_all_n ops lf cls n) (told fails w0) none.
Proof.
  induction n as [|n IH]; intros w0 w C S; cbn [consume_all_n]; [apply wp_ret, told_calm; auto|].
  bnd (wp_consume_all w0). intros [v e] w1 T. destruct e as [e|]; [apply wp_ret; eapply told_bad; [apply T|apply some_fails]|].
  destruct (told_none _ _ _ _ _ T not_fails) as (C1 & S1). apply IH; auto.
Qed.
Lemma wp_send_run : forall q ps w0 w, calm w0 w -> soft w0 w -> wp w (send_run ops q ps) (told fails w0) none.
Proof.
  intros q ps w0 w C S. unfold send_run. bnd wp_enc. { apply S. } intros e w1 (C1 & S1).
  assert (S2 : soft w0 w1) by (eapply soft_trans; eauto). assert (C2 : calm w0 w1) by (eapply calm_trans; eauto).
  destruct e; apply wp_ret, told_calm; auto.
Qed.
Lemma wp_send_pull : forall w0 w, calm w0 w -> soft w0 w -> wp w (send_pull_all ops) (told fails w0) none.
Proof.
  intros w0 w C S. unfold send_pull_all. bnd wp_enc. { apply S. } intros e w1 (C1 & S1).
  assert (S2 : soft w0 w1) by (eapply soft_trans; eauto). assert (C2 : calm w0 w1) by (eapply calm_trans; eauto).
  destruct e; apply wp_ret, told_calm; auto.
Qed.
Lemma wp_send_run_pull : forall q ps w0 w, calm w0 w -> soft w0 w -> wp w (send_run_pull_all ops q ps) (told fails w0) none.
Proof.
  intros q ps w0 w C S. unfold send_run_pull_all. bnd (wp_send_run q ps w0). intros e w1 T.
  destruct e as [e|]; [apply wp_ret; exact T|]. destruct (told_none _ _ _ _ _ T not_fails) as (C1 & S1). apply wp_send_pull; auto.
Qed.
Lemma consume_fails : forall w0 w, calm w0 w -> soft w0 w -> wp w (consume ops lf cls) (told fails2 w0) none.
Proof. intros w0 w C S. eapply wp_weak; [apply (wp_consume w0); auto| |auto]. intros a w' T. eapply told_weak; [exact T|]. apply err_fails. Qed.
Lemma wp_send_run_consume : forall q ps w0 w, calm w0 w -> soft w0 w -> wp w (send_run_consume ops lf cls q ps) (told fails2 w0) none.
Proof.
  intros q ps w0 w C S. unfold send_run_consume. bnd (wp_send_run q ps w0). intros e w1 T.
  destruct e as [e|]; [apply wp_ret; exact T|]. destruct (told_none _ _ _ _ _ T not_fails) as (C1 & S1). apply consume_fails; auto.
Qed.
Lemma wp_consume_run : forall q ps w0 w, calm w0 w -> soft w0 w -> wp w (send_run_pull_all_consume_run ops lf cls q ps) (told fails2 w0) none.
Proof.
  intros q ps w0 w C S. unfold send_run_pull_all_consume_run. bnd (wp_send_run_pull q ps w0). intros e w1 T.
  destruct e as [e|]; [apply wp_ret; exact T|]. destruct (told_none _ _ _ _ _ T not_fails) as (C1 & S1). apply consume_fails; auto.
Qed.
Lemma wp_consume_single : forall q ps w0 w, calm w0 w -> soft w0 w -> wp w (send_run_pull_all_consume_single ops lf cls q ps) (told fails2 w0) none.
Proof.
  intros q ps w0 w C S. unfold send_run_pull_all_consume_single. bnd (wp_send_run_pull q ps w0). intros e w1 T.
  destruct e as [e|]; [apply wp_ret; exact T|]. destruct (told_none _ _ _ _ _ T not_fails) as (C1 & S1).
  bnd (consume_fails w0). intros [v e] w2 T2. destruct e as [e|]; [apply wp_ret; exact T2|]. destruct (told_none _ _ _ _ _ T2 not_fails) as (C2 & S2).
  bnd (consume_fails w0). intros [v' e] w3 T3. apply wp_ret. exact T3.
Qed.
Lemma wp_run_consume_all : forall q ps w0 w, calm w0 w -> soft w0 w -> wp w (send_run_pull_all_consume_all ops lf cls q ps) (told fails2 w0) none.
Proof.
  intros q ps w0 w C S. unfold send_run_pull_all_consume_all. bnd (wp_send_run_pull q ps w0). intros e w1 T.
  destruct e as [e|]; [apply wp_ret; exact T|]. destruct (told_none _ _ _ _ _ T not_fails) as (C1 & S1).
  bnd (consume_fails w0). intros [v e] w2 T2. destruct e as [e|]; [apply wp_ret; exact T2|]. destruct (told_none _ _ _ _ _ T2 not_fails) as (C2 & S2).
  bnd (wp_consume_all w0). intros [v' e] w3 T3. apply wp_ret. exact T3.
Qed.
Lemma wp_discard : forall w0 w, calm w0 w -> soft w0 w -> wp w (send_discard_all_consume ops lf cls) (told fails2 w0) none.
Proof.
  intros w0 w C S. unfold send_discard_all_consume. bnd wp_enc. { apply S. } intros e w1 (C1 & S1).
  assert (S2 : soft w0 w1) by (eapply soft_trans; eauto). assert (C2 : calm w0 w1) by (eapply calm_trans; eauto).
  destruct e as [e|]; [apply wp_ret, told_calm; auto|]. apply consume_fails; auto.
Qed.

(** ** The heap *)
Definition set_r i x (w : W) : W := Build_world (w_conn w) (w_stmts w) (upd i x (w_rows w)) (w_txs w) (w_net w).
Definition set_s i x (w : W) : W := Build_world (w_conn w) (upd i x (w_stmts w)) (w_rows w) (w_txs w) (w_net w).
Definition set_c c (w : W) : W := Build_world c (w_stmts w) (w_rows w) (w_txs w) (w_net w).
Lemma modr_eq : forall (w : W) i f x, nth_error (w_rows w) i = Some x -> modr i f w = (Ok tt, set_r i (f x) w).
Proof. intros. unfold modr, bind, getr, setr. rewrite H. reflexivity. Qed.
Lemma mods_eq : forall (w : W) i f x, nth_error (w_stmts w) i = Some x -> mods i f w = (Ok tt, set_s i (f x) w).
Proof. intros. unfold mods, bind, gets, sets. rewrite H. reflexivity. Qed.
Lemma modc_eq : forall (w : W) f, modc f w = (Ok tt, set_c (f (w_conn w)) w). Proof. reflexivity. Qed.
Lemma nth_upd : forall A (l : list A) i j x y, nth_error (upd i x l) j = Some y -> i = j /\ y = x /\ (exists z, nth_error l i = Some z) \/ i <> j /\ nth_error l j = Some y.
Proof.
  induction l as [|a l IH]; intros [|i] [|j] x y H; cbn in *; try discriminate.
  - left. injection H as ->. eauto. - right. split; [lia|auto]. - right. split; [lia|auto]. - destruct (IH _ _ _ _ H) as [(-> & -> & X)|(X & Y)]; [left|right]; auto.
Qed.
Lemma WF_set_r : forall w i x y, WF w -> nth_error (w_rows w) i = Some x -> r_stmt y = r_stmt x -> r_pidx y = r_pidx x -> WF (set_r i y w).
Proof.
  intros w i x y [A1 A2 A3 A4 A5] E H1 H2. split; cbn; auto.
  - intros j s r Ej Er. destruct (A2 j s r Ej Er) as (z & Ez & Hz). destruct (Nat.eq_dec i r) as [->|Hn].
    + exists y. split; [eapply nth_upd_same; eauto|]. congruence.
    + exists z. rewrite nth_upd_other by auto. auto.
  - intros r z Ez. apply nth_upd in Ez. destruct Ez as [(<- & -> & _)|(_ & Ez)]; [|eauto]. rewrite H1, H2. eauto.
Qed.
Lemma WF_set_s : forall w i x y, WF w -> nth_error (w_stmts w) i = Some x -> s_queries y = s_queries x -> s_conn y = negb (s_closed y) ->
  (forall r, s_rows y = Some r -> exists z, nth_error (w_rows w) r = Some z /\ r_stmt z = i) -> WF (set_s i y w).
Proof.
  intros w i x y [A1 A2 A3 A4 A5] E H1 H2 H3. split; cbn; auto.
  - intros j s Ej. apply nth_upd in Ej. destruct Ej as [(<- & -> & _)|(_ & Ej)]; eauto.
  - intros j s r Ej Er. apply nth_upd in Ej. destruct Ej as [(<- & -> & _)|(_ & Ej)]; eauto.
  - intros r z Ez. destruct (A3 r z Ez) as (s & Es & Hp). destruct (Nat.eq_dec i (r_stmt z)) as [Hi|Hn].
    + exists y. rewrite <- Hi. split; [eapply nth_upd_same; eauto|]. rewrite H1. rewrite <- Hi in Es. rewrite Es in E. injection E as ->. exact Hp.
    + exists s. rewrite nth_upd_other by auto. auto.
  - intros j Ej. destruct (A4 j Ej) as (s & Es). destruct (Nat.eq_dec i j) as [->|Hn]; [exists y; eapply nth_upd_same; eauto|exists s; rewrite nth_upd_other by auto; auto].
Qed.
Lemma WF_set_c : forall w c, WF w -> c_tx c = None -> (forall i, c_stmt c = Some i -> exists s, nth_error (w_stmts w) i = Some s) -> WF (set_c c w).
Proof. intros w c [A1 A2 A3 A4 A5] H1 H2. split; cbn; auto. Qed.
Lemma grow_conn : forall w w', w_conn w' = w_conn w -> mono w w' -> grow w w'.
Proof. intros w w' E H. split; [exact H|]. apply recl_conn. exact E. Qed.
Lemma grow_set_r : forall w i x y, nth_error (w_rows w) i = Some x -> rows_mono x y -> grow w (set_r i y w).
Proof.
  intros w i x y E H. apply grow_conn; [reflexivity|]. destruct (mono_refl _ w) as (A & B & C & D). split; [|split; [|split]]; auto. cbn. eapply keeps_upd; eauto using rows_mono_refl.
Qed.
Lemma grow_set_s : forall w i x y, nth_error (w_stmts w) i = Some x -> stmt_mono x y -> grow w (set_s i y w).
Proof.
  intros w i x y E H. apply grow_conn; [reflexivity|]. destruct (mono_refl _ w) as (A & B & C & D). split; [|split; [|split]]; auto. cbn. eapply keeps_upd; eauto using stmt_mono_refl.
Qed.
Lemma grow_set_c : forall w c, conn_mono (w_conn w) c -> recl (w_conn w) c -> grow w (set_c c w).
Proof. intros w c H1 H2. split; [apply mono_conn; exact H1|exact H2]. Qed.
Lemma wp_eq : forall A (w : W) (m : M A) a w' (R : A -> W -> Prop) B, m w = (Ok a, w') -> R a w' -> wp w m R B.
Proof. intros A w m a w' R B E H. unfold wp. rewrite E. exact H. Qed.
Lemma wp_bind_eq : forall A C (w : W) (m : M A) (k : A -> M C) a w' R B, m w = (Ok a, w') -> wp w' (k a) R B -> wp w (bind m k) R B.
Proof. intros. apply wp_bind. eapply wp_eq; eauto. Qed.
Lemma getr_eq : forall (w : W) i x, nth_error (w_rows w) i = Some x -> getr i w = (Ok x, w). Proof. intros. unfold getr. now rewrite H. Qed.
Lemma gets_eq : forall (w : W) i x, nth_error (w_stmts w) i = Some x -> gets i w = (Ok x, w). Proof. intros. unfold gets. now rewrite H. Qed.
Lemma need_eq : forall (w : W) i x, WF w -> nth_error (w_stmts w) i = Some x -> s_closed x = false -> need_conn i w = (Ok tt, w).
Proof. intros w i x F E H. unfold need_conn, bind. rewrite (gets_eq _ _ _ E). rewrite (f_conn _ F _ _ E), H. reflexivity. Qed.

Lemma soft_rows : forall w w' i x, soft w w' -> nth_error (w_rows w) i = Some x -> exists x', nth_error (w_rows w') i = Some x' /\ rows_mono x x'.
Proof. intros w w' i x (_ & (((_ & _ & H & _) & _) & _)) E. eauto. Qed.
Lemma soft_stmts : forall w w' i x, soft w w' -> nth_error (w_stmts w) i = Some x -> exists x', nth_error (w_stmts w') i = Some x' /\ stmt_mono x x'.
Proof. intros w w' i x (_ & (((_ & H & _) & _) & _)) E. eauto. Qed.
Definition usable (w : W) (r : nat) : Prop :=
  exists x s, nth_error (w_rows w) r = Some x /\ nth_error (w_stmts w) (r_stmt x) = Some s /\ (r_consumed x && r_finished x = true \/ s_closed s = false).
Lemma calm_nth : forall w w', calm w w' -> w_rows w' = w_rows w /\ w_stmts w' = w_stmts w. Proof. intros w w' H. split; apply H. Qed.
Lemma wp_rows_close_body : forall w r, WF w -> usable w r ->
  wp w (rows_close_body ops lf cls r) (fun e w' => soft w w' /\ (fails e \/ flat w w')) none.
Proof.
  intros w r F (x & s & Ex & Es & U). unfold rows_close_body. eapply wp_bind_eq; [apply getr_eq; exact Ex|].
  assert (Inner : wp w (if negb (r_consumed x) then
          need_conn (r_stmt x) ;;
          '(v, e) <- send_discard_all_consume ops lf cls ;;
          match e with
          | Some e => ret (Some (ewrap FRows 130 e))
          | None => match v with Some (VSuccess _) => ret None | _ => ret (Some (enew FRows 137)) end
          end
        else if negb (r_finished x) then
          s <- gets (r_stmt x) ;;
          need_conn (r_stmt x) ;;
          e <- consume_all_multiple ops lf cls (if zlen (s_queries s) =? 0 then 1 else (zlen (s_queries s) - r_pidx x) * 2 - 1) ;;
          match e with Some e => ret (Some (ewrap FRows 159 e)) | None => ret None end
        else ret None) (told fails w) none).
  { destruct (r_consumed x) eqn:Hc; cbn [negb].
    - destruct (r_finished x) eqn:Hf; cbn [negb]; [apply wp_ret, told_calm; [apply soft_refl; auto|apply calm_refl]|].
      destruct U as [U|U]; [discriminate|]. eapply wp_bind_eq; [apply gets_eq; exact Es|]. eapply wp_bind_eq; [eapply need_eq; eauto|].
      apply wp_bind. unfold consume_all_multiple. destruct (f_stmt _ F _ _ Ex) as (s' & Es' & Hp & Hq). rewrite Es in Es'. injection Es' as <-.
      replace (_ <? 0) with false.
      2:{ symmetry. apply Z.ltb_ge. destruct (Z.eqb_spec (zlen (s_queries s)) 0); [lia|]. destruct Hq as [Hq|Hq]; [rewrite Hq in n; unfold zlen in n; cbn in n; lia|lia]. }
      eapply wp_weak; [apply (wp_consume_n _ w); [apply calm_refl|apply soft_refl; auto]| |auto]. intros e w1 T. destruct e as [e|]; apply wp_ret; auto.
      eapply told_bad; [apply T|auto].
    - destruct U as [U|U]; [discriminate|]. eapply wp_bind_eq; [eapply need_eq; eauto|]. bnd (wp_discard w); [apply calm_refl|apply soft_refl; auto|]. intros [v e] w1 T.
      destruct e as [e|]; [apply wp_ret; eapply told_bad; [apply T|auto]|]. destruct (told_none _ _ _ _ _ T not_fails) as (C1 & S1).
      destruct v as [v|]; [|apply wp_ret, told_calm; auto]. destruct v; apply wp_ret, told_calm; auto. }
  apply wp_bind. eapply wp_weak; [exact Inner| |auto]. intros e w1 T. cbv beta. destruct e as [e|]; [apply wp_ret; split; [apply T|auto]|].
  destruct (told_none _ _ _ _ _ T not_fails) as (C1 & S1). destruct (calm_nth _ _ C1) as (Er1 & Es1).
  assert (Ex1 : nth_error (w_rows w1) r = Some x) by (rewrite Er1; exact Ex). assert (Es1' : nth_error (w_stmts w1) (r_stmt x) = Some s) by (rewrite Es1; exact Es).
  assert (F1 : WF w1) by apply S1. assert (F2 : WF (set_r r (r_set_closed x) w1)) by (eapply WF_set_r; eauto).
  assert (Fl : flat w1 (set_s (r_stmt x) (s_set_rows None s) (set_r r (r_set_closed x) w1))).
  { split; [reflexivity|]. intros i t Et. cbn. destruct (Nat.eq_dec (r_stmt x) i) as [<-|Hn].
    - exists (s_set_rows None s). split; [eapply nth_upd_same; eauto|]. rewrite Et in Es1'. injection Es1' as <-. reflexivity.
    - exists t. rewrite nth_upd_other by auto. auto. }
  eapply wp_bind_eq; [apply modr_eq; exact Ex1|]. eapply wp_bind_eq; [apply mods_eq; cbn; exact Es1'|]. apply wp_ret. split.
  - eapply soft_trans; [exact S1|]. split; [|split].
    + eapply WF_set_s; eauto. { cbn. apply (f_conn _ F1 _ _ Es1'). } cbn. discriminate.
    + eapply grow_trans; [eapply (grow_set_r _ _ _ (r_set_closed x)); [exact Ex1|unfold rows_mono; cbn; intuition]|]. eapply grow_set_s; [cbn; exact Es1'|unfold stmt_mono; cbn; intuition].
    + left. exact Fl.
  - right. eapply flat_trans; [apply flat_same; apply C1|exact Fl].
Qed.
Lemma wp_stmt_close : forall w i, WF w -> (exists s, nth_error (w_stmts w) i = Some s) ->
  wp w (stmt_close ops lf cls i) (fun e w' => WF w' /\ grow w w' /\ (fails e -> soft w w')) none.
Proof.
  intros w i F (s & Es). unfold stmt_close. eapply wp_bind_eq; [apply gets_eq; exact Es|]. destruct (s_closed s) eqn:Hc.
  { apply wp_ret. split; [exact F|]. split; [apply grow_refl|]. intros _. apply soft_refl; auto. }
  assert (Inner : wp w match s_rows s with
         | None => ret None
         | Some rid =>
             r <- getr rid ;;
             if r_closeStmt r then ret None
             else if r_closed r then ret None
             else rows_close_body ops lf cls rid
         end (fun e w' => soft w w' /\ (fails e \/ flat w w')) none).
  { assert (Nil : wp w (ret None) (fun (e : option gerr) w' => soft w w' /\ (fails e \/ flat w w')) none).
    { apply wp_ret. split; [apply soft_refl; auto|]. right. split; [reflexivity|]. eauto. }
    destruct (s_rows s) as [r|] eqn:Hr; [|exact Nil]. destruct (f_rows _ F _ _ _ Es Hr) as (x & Ex & Hx). eapply wp_bind_eq; [apply getr_eq; exact Ex|].
    destruct (r_closeStmt x); [exact Nil|]. destruct (r_closed x); [exact Nil|]. apply wp_rows_close_body; auto. exists x, s. rewrite Hx. auto. }
  apply wp_bind. eapply wp_weak; [exact Inner| |auto]. intros e w1 (S1 & T). cbv beta.
  destruct e as [e|]; [apply wp_ret; split; [apply S1|]; split; [apply S1|auto]|]. destruct T as [T|(Hcs & Hfl)]; [exfalso; apply T; reflexivity|].
  destruct (Hfl _ _ Es) as (s1 & Es1 & Hs1). rewrite Hc in Hs1. assert (F1 : WF w1) by apply S1.
  eapply wp_bind_eq; [eapply need_eq; eauto|]. eapply wp_bind_eq; [apply modc_eq|]. eapply wp_bind_eq; [apply mods_eq; cbn; exact Es1|]. apply wp_ret.
  split; [|split].
  - eapply WF_set_s; [apply WF_set_c; [exact F1|cbn; apply (f_tx _ F1)|cbn; discriminate]|cbn; exact Es1|reflexivity|reflexivity|]. cbn. intros r Hr. apply (f_rows _ F1 _ _ _ Es1 Hr).
  - eapply grow_trans; [apply S1|]. eapply grow_trans; [apply (grow_set_c w1 (c_set_stmt None (w_conn w1))); [unfold conn_mono; cbn; auto|apply recl_same; auto]|]. eapply grow_set_s; [cbn; exact Es1|unfold stmt_mono; cbn; intuition].
  - intros X. exfalso. apply X. reflexivity.
Qed.
Lemma wp_rows_close : forall w r, WF w -> (exists x, nth_error (w_rows w) r = Some x /\ (r_closed x = true \/ usable w r)) ->
  wp w (rows_close ops lf cls r) (fun _ w' => WF w' /\ grow w w') none.
Proof.
  intros w r F (x & Ex & U). unfold rows_close. eapply wp_bind_eq; [apply getr_eq; exact Ex|]. destruct (r_closed x) eqn:Hc.
  { apply wp_ret. split; [exact F|apply grow_refl]. }
  destruct U as [U|U]; [discriminate|]. bnd wp_rows_close_body. intros e w1 (S1 & T). destruct e as [e|]; [apply wp_ret; split; apply S1|].
  destruct (r_closeStmt x); [|apply wp_ret; split; apply S1]. destruct (f_stmt _ F _ _ Ex) as (s & Es & _). destruct (soft_stmts _ _ _ _ S1 Es) as (s1 & Es1 & _).
  eapply wp_weak; [apply wp_stmt_close; [apply S1|eauto]| |auto]. intros a w2 (F2 & G2 & _). split; [exact F2|]. eapply grow_trans; [apply S1|exact G2].
Qed.
Lemma wp_tx_finish : forall w q l1 l2 l3 l4 l5 t, WF w -> (exists x, nth_error (w_txs w) t = Some x) ->
  wp w (tx_finish ops lf cls q l1 l2 l3 l4 l5 t) (fun _ w' => WF w' /\ grow w w') none.
Proof.
  intros w q l1 l2 l3 l4 l5 t F (x & Ex). unfold tx_finish. eapply wp_bind_eq; [unfold gett; rewrite Ex; reflexivity|]. destruct (t_closed x).
  { apply wp_ret. split; [exact F|apply grow_refl]. }
  eapply wp_bind_eq; [reflexivity|].
  apply wp_bind. eapply (wp_weak _ _ _ (fun _ w' => WF w' /\ grow w w') none); [|cbv beta|auto].
  { destruct (c_stmt (w_conn w)) as [i|] eqn:Hc; [|apply wp_ret; split; [exact F|apply grow_refl]].
    eapply wp_weak; [apply wp_stmt_close; [exact F|apply (f_cur _ F _ Hc)]| |auto]. intros a w2 (F2 & G2 & _). auto. }
  intros e w1 (F1 & G1). destruct e as [e|]; [apply wp_ret; auto|].
  bnd (wp_consume_single q [] w1); [apply calm_refl|apply soft_refl; auto|]. intros [[run pull] e] w2 T.
  assert (FG : WF w2 /\ grow w w2). { split; [apply T|]. eapply grow_trans; [exact G1|apply T]. } destruct FG as (F2 & G2).
  destruct e as [e|]; [apply wp_ret; auto|]. destruct run as [run|]; [|apply wp_ret; auto]. destruct run; try (apply wp_ret; solve [auto]).
  destruct pull as [pull|]; [|apply wp_ret; auto]. destruct pull; try (apply wp_ret; solve [auto]).
  eapply wp_bind_eq; [apply modc_eq|]. eapply wp_bind_eq; [reflexivity|]. apply wp_ret. split.
  - destruct F2 as [A1 A2 A3 A4 A5]. split; cbn; auto.
  - eapply grow_trans; [exact G2|]. eapply grow_trans; [apply (grow_set_c w2 (c_set_tx None (w_conn w2))); [unfold conn_mono; cbn; auto|apply recl_same; auto]|].
    apply grow_conn; [reflexivity|]. pose proof (mono_sett (N := N) t (set_c (c_set_tx None (w_conn w2)) w2)) as X. exact X.
Qed.
Lemma wp_close_body : forall w, WF w -> wp w (close_body ops lf cls) (fun _ w' => soft w w') none.
Proof.
  intros w F. unfold close_body. eapply wp_bind_eq; [reflexivity|]. destruct (c_closed (w_conn w)) eqn:Hc; [apply wp_ret, soft_refl; auto|].
  apply wp_bind. eapply (wp_weak _ _ _ (fun e w' => WF w' /\ grow w w' /\ (fails e -> soft w w')) none); [|cbv beta|auto].
  { destruct (c_stmt (w_conn w)) as [i|] eqn:Hi; [apply wp_stmt_close; [exact F|apply (f_cur _ F _ Hi)]|]. apply wp_ret. split; [exact F|]. split; [apply grow_refl|]. intros _. apply soft_refl; auto. }
  intros e w1 (F1 & G1 & S1). destruct e as [e|]; [apply wp_ret; apply S1; discriminate|]. clear S1.
  eapply wp_bind_eq; [reflexivity|]. rewrite (f_tx _ F1). eapply wp_bind_eq; [reflexivity|]. cbv beta iota. eapply wp_bind_eq; [reflexivity|].
  destruct (c_pooled (w_conn w1)) eqn:Hp.
  - eapply wp_bind_eq; [apply modc_eq|]. apply wp_ret.
    assert (G2 : grow w1 (set_c (c_reclaimed (w_conn w1)) w1)).
    { apply grow_set_c; [unfold conn_mono; cbn; auto|]. split; [auto|]. split; [reflexivity|]. exists [c_err (w_conn w1)]. split; [reflexivity|]. split; [intros; congruence|]. intros e [<-|[]]. auto. }
    split; [|split].
    + apply WF_set_c; [exact F1|cbn; apply (f_tx _ F1)|cbn; apply (f_cur _ F1)].
    + eapply grow_trans; eauto.
    + right. right. cbn. rewrite app_length. cbn. pose proof (grow_reclaims _ _ G1). lia.
  - eapply wp_bind_eq; [reflexivity|]. destruct (n_close ops (w_net w1)) as [n' bad].
    eapply wp_bind_eq; [reflexivity|]. eapply wp_bind_eq; [apply modc_eq|].
    assert (Fin : forall c, c_tx c = None -> c_stmt c = c_stmt (w_conn w1) -> conn_mono (w_conn w1) c -> recl (w_conn w1) c -> c_closed c = true ->
      soft w (Build_world c (w_stmts w1) (w_rows w1) (w_txs w1) n')).
    { intros c H1 H2 H3 H4 H5. split; [|split].
      - destruct F1 as [A1 A2 A3 A4 A5]. split; cbn; auto. rewrite H2. auto.
      - eapply grow_trans; [exact G1|]. split; [|exact H4]. destruct (mono_conn w1 c H3) as (X1 & X2). split; [exact X1|exact X2].
      - right. left. split; [exact Hc|exact H5]. }
    destruct bad.
    + eapply wp_bind_eq; [apply modc_eq|]. apply wp_ret. apply Fin; cbn; auto; [apply (f_tx _ F1)|unfold conn_mono; cbn; auto|apply recl_same; auto].
    + apply wp_ret. apply Fin; cbn; auto; [apply (f_tx _ F1)|unfold conn_mono; cbn; auto|apply recl_same; auto].
Qed.

(** ** Calls *)
Definition add_s x (w : W) : W := Build_world (w_conn w) (w_stmts w ++ [x]) (w_rows w) (w_txs w) (w_net w).
Definition add_r x (w : W) : W := Build_world (w_conn w) (w_stmts w) (w_rows w ++ [x]) (w_txs w) (w_net w).
Lemma nth_app_old : forall A (l m : list A) i x, nth_error l i = Some x -> nth_error (l ++ m) i = Some x.
Proof. intros A l m i x E. rewrite nth_error_app1; auto. apply nth_error_Some. congruence. Qed.
Lemma nth_app_last : forall A (l : list A) x, nth_error (l ++ [x]) (length l) = Some x.
Proof. intros. rewrite nth_error_app2, Nat.sub_diag by auto. reflexivity. Qed.
Lemma nth_app_inv : forall A (l : list A) x i y, nth_error (l ++ [x]) i = Some y -> nth_error l i = Some y \/ i = length l /\ y = x.
Proof.
  intros A l x i y E. destruct (Nat.lt_ge_cases i (length l)) as [H|H]; [left; rewrite nth_error_app1 in E by auto; exact E|]. right.
  rewrite nth_error_app2 in E by auto. destruct (i - length l)%nat as [|k] eqn:K; cbn in E; [|destruct k; discriminate]. injection E as ->. split; [lia|reflexivity].
Qed.
Lemma WF_add_s : forall w x, WF w -> s_conn x = negb (s_closed x) -> s_rows x = None -> WF (add_s x w).
Proof.
  intros w x [A1 A2 A3 A4 A5] H1 H2. split; cbn; auto.
  - intros i s E. apply nth_app_inv in E. destruct E as [E|(_ & ->)]; eauto.
  - intros i s r E Er. apply nth_app_inv in E. destruct E as [E|(_ & ->)]; [eauto|congruence].
  - intros r y E. destruct (A3 r y E) as (s & Es & X). exists s. split; [apply nth_app_old; exact Es|exact X].
  - intros i E. destruct (A4 i E) as (s & Es). exists s. apply nth_app_old; exact Es.
Qed.
Lemma WF_add_r : forall w x s, WF w -> nth_error (w_stmts w) (r_stmt x) = Some s -> 0 <= r_pidx x -> (s_queries s = [] \/ r_pidx x < zlen (s_queries s)) -> WF (add_r x w).
Proof.
  intros w x s [A1 A2 A3 A4 A5] Es H1 H2. split; cbn; auto.
  - intros i t r E Er. destruct (A2 i t r E Er) as (z & Ez & Hz). exists z. split; [apply nth_app_old; exact Ez|exact Hz].
  - intros r y E. apply nth_app_inv in E. destruct E as [E|(_ & ->)]; eauto.
Qed.
Lemma grow_add_s : forall w x, grow w (add_s x w).
Proof. intros. apply grow_conn; [reflexivity|]. apply (mono_news x w). Qed.
Lemma grow_add_r : forall w x, grow w (add_r x w).
Proof. intros. apply grow_conn; [reflexivity|]. apply (mono_newr x w). Qed.
Definition fine (w : W) {A} (_ : A) (w' : W) : Prop := WF w' /\ grow w w'.
Lemma fine_refl : forall A w (a : A), WF w -> fine w a w. Proof. intros. split; [exact H|apply grow_refl]. Qed.
Lemma soft_fine : forall A w w' (a : A), soft w w' -> fine w a w'. Proof. intros A w w' a S. split; apply S. Qed.
Lemma fine_trans : forall A C w1 w2 w3 (a : A) (c : C), fine w1 a w2 -> fine w2 c w3 -> fine w1 c w3.
Proof. intros A C w1 w2 w3 a c (A1 & B1) (A2 & B2). split; [exact A2|eapply grow_trans; eauto]. Qed.
Lemma wp_guard : forall A w l1 l2 (bad : gerr -> A) (k : M A) (R : A -> W -> Prop) B,
  (forall e, R (bad e) w) -> (c_stmt (w_conn w) = None -> c_closed (w_conn w) = false -> wp w k R B) -> wp w (guard_open l1 l2 bad k) R B.
Proof.
  intros A w l1 l2 bad k R B H1 H2. unfold guard_open. eapply wp_bind_eq; [reflexivity|]. destruct (c_stmt (w_conn w)); [apply wp_ret; auto|].
  destruct (c_closed (w_conn w)); [apply wp_ret; auto|]. auto.
Qed.
(** a new statement becomes c.statement *)
Definition with_new x (w : W) : W := set_c (c_set_stmt (Some (length (w_stmts w))) (w_conn w)) (add_s x w).
Lemma WF_with_new : forall w x, WF w -> s_conn x = negb (s_closed x) -> s_rows x = None -> WF (with_new x w).
Proof.
  intros w x F H1 H2. unfold with_new. apply WF_set_c; [apply WF_add_s; auto|cbn; apply (f_tx _ F)|]. cbn. intros i [= <-]. eexists. apply nth_app_last.
Qed.
Lemma grow_with_new : forall w x, grow w (with_new x w).
Proof.
  intros w x. eapply grow_trans; [apply (grow_add_s w x)|]. unfold with_new. apply grow_set_c; [unfold conn_mono; cbn; auto|apply recl_same; auto].
Qed.
Lemma wp_prepare : forall w q, WF w -> wp w (prepare q) (fine w) none.
Proof.
  intros w q F. unfold prepare. apply wp_guard; [intros; apply fine_refl; auto|]. intros _ _. eapply wp_bind_eq; [reflexivity|]. eapply wp_bind_eq; [apply modc_eq|].
  apply wp_ret. split; [apply (WF_with_new w (new_stmt q)); auto|apply (grow_with_new w (new_stmt q))].
Qed.
Lemma wp_prepare_pipeline : forall w q, WF w -> wp w (prepare_pipeline q) (fine w) none.
Proof.
  intros w q F. unfold prepare_pipeline. apply wp_guard; [intros; apply fine_refl; auto|]. intros _ _. eapply wp_bind_eq; [reflexivity|]. eapply wp_bind_eq; [apply modc_eq|].
  apply wp_ret. split; [apply (WF_with_new w (new_pipe_stmt q)); auto|apply (grow_with_new w (new_pipe_stmt q))].
Qed.
Lemma wp_begin : forall w, WF w -> wp w (begin_tx ops lf cls) (fine w) none.
Proof.
  intros w F. unfold begin_tx. eapply wp_bind_eq; [reflexivity|]. rewrite (f_tx _ F). apply wp_guard; [intros; apply fine_refl; auto|]. intros _ _.
  bnd (wp_consume_single s_begin [] w); [apply calm_refl|apply soft_refl; auto|]. intros [[run pull] e] w1 (S1 & _).
  destruct e as [e|]; [apply wp_ret, soft_fine; auto|]. destruct run as [run|]; [|apply wp_ret, soft_fine; auto]. destruct run; try (apply wp_ret, soft_fine; solve [auto]).
  destruct pull as [pull|]; [|apply wp_ret, soft_fine; auto]. destruct pull; try (apply wp_ret, soft_fine; solve [auto]).
  eapply wp_bind_eq; [reflexivity|]. apply wp_ret. split.
  - destruct S1 as ([A1 A2 A3 A4 A5] & _). split; cbn; auto.
  - eapply grow_trans; [apply S1|]. apply grow_conn; [reflexivity|]. apply (mono_newt {| t_closed := false |} w1).
Qed.
Definition has_stmt (w : W) (i : nat) : Prop := exists s, nth_error (w_stmts w) i = Some s.
Lemma wp_stmt_exec : forall w i ps, WF w -> has_stmt w i -> wp w (stmt_exec ops lf cls i ps) (fun _ w' => soft w w') none.
Proof.
  intros w i ps F (s & Es). unfold stmt_exec. eapply wp_bind_eq; [apply gets_eq; exact Es|]. destruct (s_closed s) eqn:Hc; [apply wp_ret, soft_refl; auto|].
  destruct (s_rows s); [apply wp_ret, soft_refl; auto|]. eapply wp_bind_eq; [eapply need_eq; eauto|].
  bnd (wp_run_consume_all (s_query s) ps w); [apply calm_refl|apply soft_refl; auto|]. intros [[run pull] e] w1 (S1 & _).
  destruct e as [e|]; [apply wp_ret; auto|]. destruct run as [run|]; [|apply wp_ret; auto]. destruct run; try (apply wp_ret; solve [auto]).
  destruct pull as [pull|]; [|apply wp_ret; auto]. destruct pull; apply wp_ret; auto.
Qed.
Lemma wp_send_queries : forall l qs pss w0 w, calm w0 w -> soft w0 w -> wp w (send_queries ops l qs pss) (told fails w0) none.
Proof.
  intros l. induction qs as [|q qs IH]; intros [|ps pss] w0 w C S; cbn [send_queries]; try (apply wp_ret, told_calm; solve [auto]).
  bnd (wp_send_run_pull q ps w0). intros e w1 T. destruct e as [e|]; [apply wp_ret, told_bad; [apply T|auto]|]. destruct (told_none _ _ _ _ _ T not_fails) as (C1 & S1). apply IH; auto.
Qed.
Lemma wp_exec_results : forall qs w0 w, calm w0 w -> soft w0 w -> wp w (exec_results ops lf cls qs) (told fails2 w0) none.
Proof.
  induction qs as [|q qs IH]; intros w0 w C S; cbn [exec_results]; [apply wp_ret, told_calm; auto|].
  bnd (consume_fails w0). intros [v e] w1 T. destruct e as [e|]; [apply wp_ret, told_bad; [apply T|apply some_fails]|]. destruct (told_none _ _ _ _ _ T not_fails) as (C1 & S1).
  destruct v as [v|]; [|apply wp_ret, told_calm; auto]. destruct v; try (apply wp_ret, told_calm; solve [auto]).
  bnd (wp_consume_all w0). intros [v e] w2 T2. destruct e as [e|]; [apply wp_ret, told_bad; [apply T2|apply some_fails]|]. destruct (told_none _ _ _ _ _ T2 not_fails) as (C2 & S2).
  destruct v as [v|]; [|apply wp_ret, told_calm; auto]. destruct v; try (apply wp_ret, told_calm; solve [auto]).
  bnd (IH w0). intros [ms e] w3 T3. destruct e as [e|]; apply wp_ret; [apply told_bad; [apply T3|apply some_fails]|].
  destruct (told_none _ _ _ _ _ T3 not_fails) as (C3 & S3). apply told_calm; auto.
Qed.
Lemma wp_stmt_exec_pipeline : forall w i pss, WF w -> has_stmt w i -> wp w (stmt_exec_pipeline ops lf cls i pss) (fun _ w' => soft w w') none.
Proof.
  intros w i pss F (s & Es). unfold stmt_exec_pipeline. eapply wp_bind_eq; [apply gets_eq; exact Es|]. destruct (s_closed s) eqn:Hc; [apply wp_ret, soft_refl; auto|].
  destruct (s_rows s); [apply wp_ret, soft_refl; auto|]. destruct (negb _); [apply wp_ret, soft_refl; auto|].
  eapply (wp_bind_eq _ _ _ _ _ tt w). { destruct (s_queries s); [reflexivity|eapply need_eq; eauto]. }
  bnd (wp_send_queries 137 (s_queries s) pss w); [apply calm_refl|apply soft_refl; auto|]. intros e w1 T. destruct e as [e|]; [apply wp_ret; apply T|]. destruct (told_none _ _ _ _ _ T not_fails) as (C1 & S1).
  bnd (wp_exec_results (s_queries s) w). intros [ms e] w2 T2. destruct e; apply wp_ret; apply T2.
Qed.
(** new rows of a statement, as its open rows *)
Lemma wp_add_rows : forall A w0 w i s x (a : nat -> A) B, soft w0 w -> nth_error (w_stmts w) i = Some s -> r_stmt x = i -> 0 <= r_pidx x -> (s_queries s = [] \/ r_pidx x < zlen (s_queries s)) ->
  wp w (rid <- newr x ;; mods i (s_set_rows (Some rid)) ;; ret (a rid))
    (fun b w' => soft w0 w' /\ exists r y, b = a r /\ nth_error (w_rows w') r = Some y /\ r_stmt y = i /\ y = x /\ w_stmts w' = upd i (s_set_rows (Some r) s) (w_stmts w)) B.
Proof.
  intros A w0 w i s x a B S Es Hx Hp Hq. assert (F : WF w) by apply S.
  eapply wp_bind_eq; [reflexivity|]. eapply wp_bind_eq; [apply mods_eq; cbn; exact Es|]. apply wp_ret.
  assert (F1 : WF (add_r x w)) by (eapply WF_add_r; eauto; rewrite Hx; exact Es). split.
  - eapply soft_trans; [exact S|]. split; [|split].
    + eapply (WF_set_s (add_r x w)); [exact F1|cbn; exact Es|reflexivity|cbn; apply (f_conn _ F _ _ Es)|]. cbn. intros r [= <-]. exists x. split; [apply nth_app_last|exact Hx].
    + eapply grow_trans; [apply (grow_add_r w x)|]. eapply (grow_set_s (add_r x w)); [cbn; exact Es|unfold stmt_mono; cbn; intuition].
    + left. split; [reflexivity|]. intros j t Et. cbn. destruct (Nat.eq_dec i j) as [->|Hn].
      * eexists. split; [eapply nth_upd_same; eauto|]. rewrite Et in Es. injection Es as <-. reflexivity.
      * exists t. rewrite nth_upd_other by auto. auto.
  - exists (length (w_rows w)), x. split; [reflexivity|]. cbn. split; [apply nth_app_last|]. auto.
Qed.
Lemma queries_some : forall (s : stmt), s_queries s = [] \/ 0 < zlen (s_queries s).
Proof. intros s. destruct (s_queries s); [auto|right]. unfold zlen. cbn [length]. lia. Qed.
(** a handle comes with rows of an open statement *)
Definition gives (i : nat) (p : option nat * option gerr) (w' : W) : Prop :=
  match p with
  | (_, Some _) => True
  | (None, None) => False
  | (Some r, None) => exists y s, nth_error (w_rows w') r = Some y /\ r_stmt y = i /\ nth_error (w_stmts w') i = Some s /\ s_closed s = false
  end.
Lemma wp_stmt_query : forall w i ps, WF w -> has_stmt w i -> wp w (stmt_query ops lf cls i ps) (fun p w' => soft w w' /\ gives i p w') none.
Proof.
  intros w i ps F (s & Es). unfold stmt_query. eapply wp_bind_eq; [apply gets_eq; exact Es|]. destruct (s_closed s) eqn:Hc; [apply wp_ret; split; [apply soft_refl; auto|exact I]|].
  destruct (s_rows s); [apply wp_ret; split; [apply soft_refl; auto|exact I]|]. eapply wp_bind_eq; [eapply need_eq; eauto|].
  bnd (wp_send_run_consume (s_query s) ps w); [apply calm_refl|apply soft_refl; auto|]. intros [v e] w1 T. destruct e as [e|]; [apply wp_ret; split; [apply T|exact I]|].
  destruct (told_none _ _ _ _ _ T not_fails) as (C1 & S1). destruct (calm_nth _ _ C1) as (_ & Es1). assert (Es' : nth_error (w_stmts w1) i = Some s) by (rewrite Es1; exact Es).
  destruct v as [v|]; [|apply wp_ret; split; [apply S1|exact I]]. destruct v; try (apply wp_ret; split; [apply S1|exact I]).
  eapply wp_weak; [apply (wp_add_rows (option nat * option gerr) w w1 i s (new_rows i md) (fun rid => (Some rid, None)) none); auto using queries_some; cbn; lia| |auto].
  intros p w2 (S2 & r & y & -> & Ey & Hy & _ & Hw). split; [exact S2|]. exists y, (s_set_rows (Some r) s). split; [exact Ey|]. split; [exact Hy|]. rewrite Hw. split; [eapply nth_upd_same; eauto|exact Hc].
Qed.
Lemma wp_stmt_query_pipeline : forall w i pss, WF w -> has_stmt w i -> wp w (stmt_query_pipeline ops lf cls i pss) (fun p w' => soft w w' /\ gives i p w') none.
Proof.
  intros w i pss F (s & Es). unfold stmt_query_pipeline. eapply wp_bind_eq; [apply gets_eq; exact Es|]. destruct (s_closed s) eqn:Hc; [apply wp_ret; split; [apply soft_refl; auto|exact I]|].
  destruct (s_rows s); [apply wp_ret; split; [apply soft_refl; auto|exact I]|]. destruct (negb _); [apply wp_ret; split; [apply soft_refl; auto|exact I]|]. eapply wp_bind_eq; [eapply need_eq; eauto|].
  bnd (wp_send_queries 225 (s_queries s) pss w); [apply calm_refl|apply soft_refl; auto|]. intros e w1 T. destruct e as [e|]; [apply wp_ret; split; [apply T|exact I]|]. destruct (told_none _ _ _ _ _ T not_fails) as (C1 & S1).
  bnd (consume_fails w). intros [v e] w2 T2. destruct e as [e|]; [apply wp_ret; split; [apply T2|exact I]|].
  destruct (told_none _ _ _ _ _ T2 not_fails) as (C2 & S2). destruct (calm_nth _ _ C2) as (_ & Es2). assert (Es' : nth_error (w_stmts w2) i = Some s) by (rewrite Es2; exact Es).
  destruct v as [v|]; [|apply wp_ret; split; [apply S2|exact I]]. destruct v; try (apply wp_ret; split; [apply S2|exact I]).
  eapply wp_weak; [apply (wp_add_rows (option nat * option gerr) w w2 i s (new_pipeline_rows i md 0) (fun rid => (Some rid, None)) none); auto using queries_some; cbn; lia| |auto].
  intros p w3 (S3 & r & y & -> & Ey & Hy & _ & Hw). split; [exact S3|]. exists y, (s_set_rows (Some r) s). split; [exact Ey|]. split; [exact Hy|]. rewrite Hw. split; [eapply nth_upd_same; eauto|exact Hc].
Qed.

Lemma wp_close_cur : forall w0 w, WF w -> (c_stmt (w_conn w) = None -> shut w0 w) -> wp w (close_cur_stmt ops lf cls) (fine w) (shut w0).
Proof.
  intros w0 w F H. unfold close_cur_stmt. eapply wp_bind_eq; [reflexivity|]. destruct (c_stmt (w_conn w)) as [i|] eqn:E; [|exact (H eq_refl)].
  apply wp_bind. eapply wp_weak; [apply wp_stmt_close; [exact F|apply (f_cur _ F _ E)]| |intros w' []]. intros e w1 (F1 & G1 & _). apply wp_ret. split; auto.
Qed.
Lemma wp_query_neo : forall w q ps, WF w -> wp w (query_neo ops lf cls q ps) (fun p w' => fine w p w' /\ gives (length (w_stmts w)) p w') (shut w).
Proof.
  intros w q ps F. unfold query_neo. apply wp_guard; [intros; split; [apply fine_refl; auto|exact I]|]. intros Hs _.
  eapply wp_bind_eq; [reflexivity|]. eapply wp_bind_eq; [apply modc_eq|].
  set (w1 := with_new (new_stmt q) w). change (set_c _ _) with w1. assert (F1 : WF w1) by (apply WF_with_new; auto). assert (G1 : grow w w1) by apply grow_with_new.
  assert (Sh : forall w2, soft w1 w2 -> c_stmt (w_conn w2) = None -> shut w w2).
  { intros w2 S2 E. destruct S2 as (_ & _ & [(X & _)|X]); [rewrite E in X; discriminate|]. eapply shut_before; eauto. }
  assert (Fin : forall e w2, soft w1 w2 -> wp w2 (close_cur_stmt ops lf cls ;; ret (@None nat, Some e)) (fun p w' => fine w p w' /\ gives (length (w_stmts w)) p w') (shut w)).
  { intros e w2 S2. apply wp_bind. eapply wp_weak; [apply (wp_close_cur w); [apply S2|apply Sh; auto]| |auto]. intros u w3 F3. apply wp_ret. split; [|exact I].
    split; [apply F3|]. eapply grow_trans; [exact G1|]. eapply grow_trans; [apply S2|apply F3]. }
  bnd (wp_consume_run q ps w1); [apply calm_refl|apply soft_refl; auto|]. intros [v e] w2 T. destruct e as [e|]; [apply Fin, T|].
  destruct (told_none _ _ _ _ _ T not_fails) as (C2 & S2). destruct v as [v|]; [|apply Fin, S2]. destruct v; try (apply Fin, S2).
  eapply wp_bind_eq; [reflexivity|]. assert (Hc : c_stmt (w_conn w2) = Some (length (w_stmts w))). { destruct C2 as (_ & _ & _ & X & _). rewrite X. reflexivity. }
  rewrite Hc. destruct (calm_nth _ _ C2) as (_ & Es2).
  assert (Es : nth_error (w_stmts w2) (length (w_stmts w)) = Some (new_stmt q)). { rewrite Es2. cbn. apply nth_app_last. }
  eapply wp_weak; [apply (wp_add_rows (option nat * option gerr) w1 w2 _ (new_stmt q) (new_query_rows (length (w_stmts w)) md) (fun rid => (Some rid, None)) none); cbn; auto; lia| |intros w' []].
  intros p w3 (S3 & r & y & -> & Ey & Hy & _ & Hw). split; [split; [apply S3|]; eapply grow_trans; [exact G1|apply S3]|].
  exists y, (s_set_rows (Some r) (new_stmt q)). split; [exact Ey|]. split; [exact Hy|]. rewrite Hw. split; [eapply nth_upd_same; eauto|reflexivity].
Qed.
Lemma wp_query_pipeline : forall w qs pss, WF w -> wp w (query_pipeline ops lf cls qs pss) (fine w) none.
Proof.
  intros w qs pss F. unfold query_pipeline. apply wp_guard; [intros; apply fine_refl; auto|]. intros _ _.
  eapply wp_bind_eq; [reflexivity|]. eapply wp_bind_eq; [apply modc_eq|].
  set (w1 := with_new (new_pipe_stmt qs) w). change (set_c _ _) with w1. assert (F1 : WF w1) by (apply WF_with_new; auto). assert (G1 : grow w w1) by apply grow_with_new.
  bnd wp_stmt_query_pipeline. { eexists. cbn. apply nth_app_last. } intros [r e] w2 (S2 & Gv). destruct e as [e|]; [apply wp_ret; split; [apply S2|eapply grow_trans; [exact G1|apply S2]]|].
  destruct r as [r|]; [|destruct Gv]. destruct Gv as (y & t & Ey & Hy & _). eapply wp_bind_eq; [apply modr_eq; exact Ey|]. apply wp_ret. split.
  - eapply WF_set_r; eauto. apply S2.
  - eapply grow_trans; [exact G1|]. eapply grow_trans; [apply S2|]. eapply grow_set_r; [exact Ey|unfold rows_mono; cbn; intuition].
Qed.
(** [defer] after something that does not panic *)
Lemma wp_defer : forall A C w (m : M A) (d : M C) R B, wp w m (fun a w' => wp w' d (fun _ w'' => R a w'') B) none -> wp w (with_defer m d) R B.
Proof.
  intros A C w m d R B H. unfold wp, with_defer in *. destruct (m w) as [[a| |] w']; [|destruct H|].
  - destruct (d w') as [[c| |] w'']; auto.
  - destruct (d w') as [[c| |] w'']; cbn; auto.
Qed.
Lemma wp_temp : forall A w l1 l2 (bad : gerr -> A) x (m : nat -> M A), WF w -> s_conn x = negb (s_closed x) -> s_rows x = None ->
  (forall w1 i, WF w1 -> has_stmt w1 i -> wp w1 (m i) (fun _ w' => soft w1 w') none) ->
  wp w (guard_open l1 l2 bad (sid <- news x ;; with_defer (m sid) (stmt_close ops lf cls sid))) (fine w) none.
Proof.
  intros A w l1 l2 bad x m F H1 H2 Hm. apply wp_guard; [intros; apply fine_refl; auto|]. intros _ _. eapply wp_bind_eq; [reflexivity|].
  assert (F1 : WF (add_s x w)) by (apply WF_add_s; auto). assert (Hx : nth_error (w_stmts (add_s x w)) (length (w_stmts w)) = Some x) by apply nth_app_last.
  apply wp_defer. change (Build_world _ _ _ _ _) with (add_s x w). eapply wp_weak; [apply Hm; [exact F1|eexists; exact Hx]| |auto]. intros a w2 S2. cbv beta.
  destruct (soft_stmts _ _ _ _ S2 Hx) as (x2 & Ex2 & _). eapply wp_weak; [apply wp_stmt_close; [apply S2|eexists; exact Ex2]| |auto].
  intros e w3 (F3 & G3 & _). split; [exact F3|]. eapply grow_trans; [apply (grow_add_s w x)|]. eapply grow_trans; [apply S2|exact G3].
Qed.
Lemma wp_exec_neo : forall w q ps, WF w -> wp w (exec_neo ops lf cls q ps) (fine w) none.
Proof. intros w q ps F. unfold exec_neo. apply (wp_temp _ w _ _ _ (new_stmt q) (fun i => stmt_exec ops lf cls i ps)); auto. intros. apply wp_stmt_exec; auto. Qed.
Lemma wp_exec_pipeline : forall w q ps, WF w -> wp w (exec_pipeline ops lf cls q ps) (fine w) none.
Proof. intros w q ps F. unfold exec_pipeline. apply (wp_temp _ w _ _ _ (new_pipe_stmt q) (fun i => stmt_exec_pipeline ops lf cls i ps)); auto. intros. apply wp_stmt_exec_pipeline; auto. Qed.
Lemma wp_exec_sql : forall w mk q args, WF w -> driver_args mk args <> APanic -> wp w (exec_sql ops lf cls mk q args) (fine w) none.
Proof.
  intros w mk q args F Ha. unfold exec_sql. apply (wp_temp _ w _ _ _ (new_stmt q) (fun i => stmt_exec_sql ops lf cls mk i args)); auto. intros w1 i F1 H1.
  unfold stmt_exec_sql, with_args. destruct (driver_args mk args); [apply wp_stmt_exec; auto|apply wp_ret, soft_refl; auto|congruence].
Qed.

(** ** Rows *)
(** rows whose statement is open *)
Definition lives (w : W) (r : nat) : Prop := exists x s, nth_error (w_rows w) r = Some x /\ nth_error (w_stmts w) (r_stmt x) = Some s /\ s_closed s = false.
Lemma lives_flat : forall w w' r, lives w r -> soft w w' -> flat w w' -> lives w' r.
Proof.
  intros w w' r (x & s & Ex & Es & Hs) S (_ & Fl). destruct (soft_rows _ _ _ _ S Ex) as (x' & Ex' & (_ & Hst & _)). destruct (Fl _ _ Es) as (s' & Es' & Hs').
  exists x', s'. rewrite Hst. split; [exact Ex'|]. split; [exact Es'|]. congruence.
Qed.
Lemma soft_set_r : forall w i x y, WF w -> nth_error (w_rows w) i = Some x -> rows_mono x y -> soft w (set_r i y w).
Proof.
  intros w i x y F E H. split; [|split].
  - eapply WF_set_r; eauto; apply H.
  - eapply grow_set_r; eauto.
  - left. apply flat_same; reflexivity.
Qed.
Definition row_err (p : option (list goval) * option md * option gerr) : Prop := fails (snd p).
Lemma wp_next_neo : forall w r, WF w -> (exists x, nth_error (w_rows w) r = Some x /\ r_closed x = true) \/ lives w r ->
  wp w (next_neo ops lf cls r) (fun p w' => soft w w' /\ (row_err p \/ flat w w')) none.
Proof.
  intros w r F H. unfold next_neo. destruct H as [(x & Ex & Hc)|(x & s & Ex & Es & Hs)].
  { eapply wp_bind_eq; [apply getr_eq; exact Ex|]. rewrite Hc. apply wp_ret. split; [apply soft_refl; auto|left; discriminate]. }
  eapply wp_bind_eq; [apply getr_eq; exact Ex|]. destruct (r_closed x); [apply wp_ret; split; [apply soft_refl; auto|left; discriminate]|].
  apply wp_bind. eapply (wp_weak _ _ _ (fun e w' => soft w w' /\ (fails e \/ flat w w')) none); [|cbv beta|auto].
  { destruct (r_consumed x) eqn:Hc; cbn [negb]; [apply wp_ret; split; [apply soft_refl; auto|right; apply flat_same; auto]|].
    eapply wp_bind_eq; [apply modr_eq; exact Ex|]. set (w1 := set_r r (r_set_consumed x) w).
    assert (S1 : soft w w1) by (eapply soft_set_r; [exact F|exact Ex|unfold rows_mono; cbn; intuition]). eapply wp_bind_eq; [eapply need_eq; [apply S1|cbn; exact Es|exact Hs]|].
    bnd (wp_send_pull w1); [apply calm_refl|apply soft_refl; apply S1|]. intros e w2 T. assert (S2 : soft w w2) by (eapply soft_trans; [exact S1|apply T]). destruct e as [e|].
    - destruct (soft_rows _ _ _ _ S2 Ex) as (x2 & Ex2 & _). eapply wp_bind_eq; [apply modr_eq; exact Ex2|]. apply wp_ret. split; [|left; auto].
      eapply soft_trans; [exact S2|]. eapply soft_set_r; [apply S2|exact Ex2|unfold rows_mono; cbn; intuition].
    - destruct (told_none _ _ _ _ _ T not_fails) as (C2 & _). apply wp_ret. split; [exact S2|right]. apply flat_same; [cbn; destruct C2 as (_ & _ & _ & X & _); exact X|cbn; apply C2]. }
  intros e w1 (S1 & T1). destruct e as [e|]; [apply wp_ret; split; [exact S1|left; discriminate]|]. destruct T1 as [T1|Fl]; [exfalso; apply T1; reflexivity|].
  destruct (proj2 Fl _ _ Es) as (s1 & Es1 & Hs1). eapply wp_bind_eq; [eapply need_eq; [apply S1|exact Es1|congruence]|].
  bnd (consume_fails w1); [apply calm_refl|apply soft_refl; apply S1|]. intros [v e] w2 T2. assert (S2 : soft w w2) by (eapply soft_trans; [exact S1|apply T2]).
  destruct e as [e|]; [apply wp_ret; split; [exact S2|left; discriminate]|]. destruct (told_none _ _ _ _ _ T2 not_fails) as (C2 & _).
  assert (Fl2 : flat w w2) by (eapply flat_trans; [exact Fl|]; apply flat_same; apply C2).
  destruct v as [v|]; [|apply wp_ret; split; [exact S2|auto]]. destruct v; try (apply wp_ret; split; [exact S2|auto]).
  destruct (soft_rows _ _ _ _ S2 Ex) as (x2 & Ex2 & _). eapply wp_bind_eq; [apply modr_eq; exact Ex2|]. apply wp_ret. split; [|left; discriminate].
  eapply soft_trans; [exact S2|]. eapply soft_set_r; [apply S2|exact Ex2|unfold rows_mono; cbn; intuition].
Qed.
Definition has_rows (w : W) (r : nat) : Prop := exists x, nth_error (w_rows w) r = Some x.
Lemma wp_all_rows : forall w r, WF w -> (exists x, nth_error (w_rows w) r = Some x /\ r_closed x = true) \/ lives w r -> wp w (all_rows ops lf cls r) (fun _ w' => soft w w') none.
Proof.
  intros w r F H. unfold all_rows. generalize (@nil (list goval)) as acc. generalize lf at 2 as f. intros f.
  assert (X : forall f acc w1, soft w w1 -> ((exists x, nth_error (w_rows w1) r = Some x /\ r_closed x = true) \/ lives w1 r) -> wp w1 (all_loop ops lf cls f r acc) (fun _ w' => soft w w') none).
  { clear f. induction f as [|f IH]; intros acc w1 S1 H1; cbn [all_loop]; [apply wp_nofuel|]. apply wp_bind. eapply wp_weak; [apply wp_next_neo; [apply S1|exact H1]| |auto].
    intros [[row m] e] w2 (S2 & T). cbv beta. assert (S3 : soft w w2) by (eapply soft_trans; eauto).
    destruct e as [e|]; [destruct e; apply wp_ret; exact S3|]. destruct row as [row|]; [|apply wp_ret; exact S3]. apply IH; [exact S3|].
    destruct T as [T|Fl]; [exfalso; apply T; reflexivity|]. destruct H1 as [(x & Ex & Hc)|L]; [left|right; eapply lives_flat; eauto].
    destruct (soft_rows _ _ _ _ S2 Ex) as (x2 & Ex2 & Hm). exists x2. split; [exact Ex2|]. apply Hm. exact Hc. }
  intros acc. apply X; auto. apply soft_refl; auto.
Qed.
(** closing rows whatever their state: panics only when the statement is closed and answers
    are left *)
Lemma wp_rows_close_any : forall w0 w r, WF w -> has_rows w r -> shut w0 w \/ lives w r -> wp w (rows_close ops lf cls r) (fine w) (shut w0).
Proof.
  intros w0 w r F (x & Ex) H. destruct (f_stmt _ F _ _ Ex) as (s & Es & _).
  destruct (r_closed x) eqn:Hc. { eapply wp_weak; [apply wp_rows_close; [exact F|exists x; auto]|auto|intros w' []]. }
  destruct (s_closed s) eqn:Hs; [|eapply wp_weak; [apply wp_rows_close; [exact F|exists x; split; [exact Ex|right; exists x, s; auto]]|auto|intros w' []]].
  destruct (r_consumed x && r_finished x) eqn:Hd. { eapply wp_weak; [apply wp_rows_close; [exact F|exists x; split; [exact Ex|right; exists x, s; auto]]|auto|intros w' []]. }
  assert (Hw : shut w0 w). { destruct H as [H|(x' & s' & Ex' & Es' & Hs')]; [exact H|]. rewrite Ex in Ex'. injection Ex' as <-. congruence. }
  unfold rows_close. eapply wp_bind_eq; [apply getr_eq; exact Ex|]. rewrite Hc. unfold rows_close_body. apply wp_bind, wp_bind. eapply wp_eq; [apply getr_eq; exact Ex|].
  assert (Hn : forall A (k : unit -> M A) R, wp w (bind (need_conn (r_stmt x)) k) R (shut w0)).
  { intros A k R. unfold wp, bind, need_conn, bind. rewrite (gets_eq _ _ _ Es). rewrite (f_conn _ F _ _ Es), Hs. cbn. exact Hw. }
  apply wp_bind. destruct (r_consumed x); cbn [negb andb] in *; [rewrite Hd; cbn [negb]; eapply wp_bind_eq; [apply gets_eq; exact Es|]|]; apply Hn.
Qed.
Lemma wp_query_neo_all : forall w q ps, WF w -> wp w (query_neo_all ops lf cls q ps) (fun _ w' => WF w') (shut w).
Proof.
  intros w q ps F. unfold query_neo_all. apply wp_bind. eapply wp_weak; [apply wp_query_neo; exact F| |auto]. intros [r e] w1 ((F1 & G1) & Gv). cbv beta.
  destruct e as [e|]; [apply wp_ret; exact F1|]. destruct r as [r|]; [|destruct Gv]. destruct Gv as (y & s & Ey & Hy & Es & Hs).
  assert (L : lives w1 r) by (exists y, s; rewrite Hy; auto). apply wp_defer. apply wp_bind. eapply wp_weak; [apply wp_all_rows; auto| |auto].
  intros [[data m] e] w2 S2. cbv beta. destruct (soft_rows _ _ _ _ S2 Ey) as (y2 & Ey2 & _). eapply wp_bind_eq; [apply getr_eq; exact Ey2|]. apply wp_ret.
  eapply wp_weak; [apply (wp_rows_close_any w); [apply S2|exists y2; exact Ey2|]| |auto].
  - destruct S2 as (A & B & [Fl|Sh]); [right; eapply lives_flat; [exact L|split; eauto|exact Fl]|left; eapply shut_before; eauto].
  - intros a w3 (F3 & _). exact F3.
Qed.
Lemma wp_next_pipeline : forall w r, WF w -> (exists x, nth_error (w_rows w) r = Some x /\ r_closed x = true) \/ lives w r -> wp w (next_pipeline ops lf cls r) (fun _ w' => WF w') none.
Proof.
  intros w r F H. unfold next_pipeline. destruct H as [(x & Ex & Hc)|(x & s & Ex & Es & Hs)].
  { eapply wp_bind_eq; [apply getr_eq; exact Ex|]. rewrite Hc. apply wp_ret. exact F. }
  eapply wp_bind_eq; [apply getr_eq; exact Ex|]. destruct (r_closed x); [apply wp_ret; exact F|]. eapply wp_bind_eq; [eapply need_eq; eauto|].
  bnd (consume_fails w); [apply calm_refl|apply soft_refl; auto|]. intros [v e] w1 T1. assert (F1 : WF w1) by apply T1. destruct e as [e|]; [apply wp_ret; exact F1|]. destruct (told_none _ _ _ _ _ T1 not_fails) as (C1 & S1).
  destruct (calm_nth _ _ C1) as (Er1 & Es1). assert (Ex1 : nth_error (w_rows w1) r = Some x) by (rewrite Er1; exact Ex). assert (Es1' : nth_error (w_stmts w1) (r_stmt x) = Some s) by (rewrite Es1; exact Es).
  destruct v as [v|]; [|apply wp_ret; exact F1]. destruct v; try (apply wp_ret; exact F1).
  eapply wp_bind_eq; [apply gets_eq; exact Es1'|]. destruct (Z.eqb_spec (r_pidx x) (zlen (s_queries s) - 1)) as [Hl|Hl].
  { eapply wp_bind_eq; [apply modr_eq; exact Ex1|]. apply wp_ret. eapply WF_set_r; eauto. }
  eapply wp_bind_eq; [eapply need_eq; eauto|]. bnd (wp_consume w1); [apply calm_refl|apply soft_refl; auto|]. intros [v e] w2 T2. assert (F2 : WF w2) by apply T2.
  destruct (match e with Some EEOF => None | _ => e end) as [e'|] eqn:He; [apply wp_ret; exact F2|].
  assert (C2 : calm w1 w2). { destruct T2 as (_ & [(z & Hz & Hn)|C2]); [|exact C2]. cbn in Hz. subst e. destruct z; try discriminate; contradiction. }
  destruct v as [v|]; [|apply wp_ret; exact F2]. destruct v; try (apply wp_ret; exact F2).
  destruct (calm_nth _ _ C2) as (Er2 & Es2). assert (Es2' : nth_error (w_stmts w2) (r_stmt x) = Some s) by (rewrite Es2; exact Es1').
  destruct (f_stmt _ F _ _ Ex) as (s' & Es' & Hp & Hq). rewrite Es in Es'. injection Es' as <-.
  eapply wp_weak; [apply (wp_add_rows (option (list goval) * option (list (str * goval)) * option nat * option gerr) w2 w2 (r_stmt x) s _ (fun rid => (None, Some md0, Some rid, None)) none); auto; cbn; [apply soft_refl; auto|lia|]| |auto].
  - destruct Hq as [Hq|Hq]; [left; exact Hq|right; lia].
  - intros p w3 (S3 & _). apply S3.
Qed.
End Inner.

Lemma wp_close : forall f w, WF w -> wp w (close ops f) (fun _ w' => soft w w') none.
Proof. induction f as [|f IH]; intros w F; cbn [close]; [apply wp_nofuel|]. apply wp_close_body; auto. Qed.

(** ** The calls *)
Definition excuse (mk : bool) (f : nat) (w : W) (o : op) (w' : W) : Prop :=
  match o with
  | CQuery _ _ | CQueryAll _ _ | CQuerySql _ _ => dropped w w'
  | RNext r | RAll r | RNextPipeline r | RClose r => lost w r
  | RNextSql r n => lost w r \/ exists row m, step ops mk f (RNext r) w = (Ok (ONext (Some row) m None), w') /\ n < zlen row
  | _ => False
  end.
Lemma fill_panics : forall row n ds, fill n row = (ds, NPanic) -> n < zlen row.
Proof.
  induction row as [|v row IH]; intros n ds E; cbn [fill] in E; [discriminate|]. unfold zlen in *. cbn [length].
  destruct (convert v); destruct (Z.leb_spec n 0); try discriminate; try lia.
  destruct (fill (n - 1) row) as [ds' e] eqn:E2. injection E as _ ->. apply IH in E2. lia.
Qed.
Lemma lost_or : forall w r x, WF w -> nth_error (w_rows w) r = Some x -> lost w r \/ (exists y, nth_error (w_rows w) r = Some y /\ r_closed y = true) \/ lives w r.
Proof.
  intros w r x F E. destruct (f_stmt _ F _ _ E) as (s & Es & _). destruct (r_closed x) eqn:Hc; [eauto|]. destruct (s_closed s) eqn:Hs.
  - left. exists x. split; [exact E|]. split; [exact Hc|]. exists s. auto.
  - right. right. exists x, s. auto.
Qed.
Lemma wp_bad : forall A w (m : M A) (R : A -> W -> Prop), wp w m R none -> forall B, wp w m R B.
Proof. intros. eapply wp_weak; eauto. intros w' []. Qed.

Lemma bnd_ok : forall A C (w : W) (m : M A) (k : A -> M C) a w', m w = (Ok a, w') -> bind m k w = k a w'.
Proof. intros A C w m k a w' E. unfold bind. rewrite E. reflexivity. Qed.
Lemma need_closed : forall (w : W) i s, WF w -> nth_error (w_stmts w) i = Some s -> s_closed s = true -> need_conn i w = (Panic, w).
Proof. intros w i s F Es Hs. unfold need_conn, bind. rewrite (gets_eq _ _ _ Es). rewrite (f_conn _ F _ _ Es), Hs. reflexivity. Qed.
Lemma lost_next : forall lf cls w r, WF w -> lost w r -> exists w', next_neo ops lf cls r w = (Panic, w').
Proof.
  intros lf cls w r F (x & Ex & Hc & s & Es & Hs). unfold next_neo. rewrite (bnd_ok _ _ _ _ _ _ _ (getr_eq _ _ _ Ex)). rewrite Hc. destruct (r_consumed x) eqn:Hd; cbn [negb].
  - erewrite bnd_ok by reflexivity. exists w. unfold bind at 1. rewrite (need_closed _ _ _ F Es Hs). reflexivity.
  - exists (set_r r (r_set_consumed x) w). unfold bind at 1. rewrite (bnd_ok _ _ _ _ _ _ _ (modr_eq _ _ _ _ Ex)). unfold bind at 1.
    rewrite (need_closed (set_r r (r_set_consumed x) w) _ s); auto. eapply WF_set_r; eauto.
Qed.
Lemma lost_all : forall lf cls w r, WF w -> lost w r -> forall R, wp w (all_rows ops lf cls r) R (fun _ => True).
Proof.
  intros lf cls w r F H R. unfold all_rows. destruct (lost_next lf cls w r F H) as (w' & E). unfold wp. destruct lf as [|f]; [exact I|].
  cbn [all_loop]. unfold bind. rewrite E. exact I.
Qed.
Lemma lost_pipe : forall lf cls w r, WF w -> lost w r -> next_pipeline ops lf cls r w = (Panic, w).
Proof.
  intros lf cls w r F (x & Ex & Hc & s & Es & Hs). unfold next_pipeline. rewrite (bnd_ok _ _ _ _ _ _ _ (getr_eq _ _ _ Ex)). rewrite Hc.
  unfold bind at 1. rewrite (need_closed _ _ _ F Es Hs). reflexivity.
Qed.
Lemma lost_close : forall lf cls w r, (forall w, WF w -> wp w cls (fun _ w' => soft w w') none) -> WF w -> has_rows w r -> wp w (rows_close ops lf cls r) (fine w) (fun _ => lost w r).
Proof.
  intros lf cls w r Hcls F (x & Ex). destruct (f_stmt _ F _ _ Ex) as (s & Es & _).
  destruct (lost_or _ _ _ F Ex) as [H|[(y & Ey & Hy)|H]].
  - destruct (r_consumed x && r_finished x) eqn:Hd.
    + eapply wp_weak; [apply wp_rows_close; auto; exists x; split; [exact Ex|right; exists x, s; auto]|auto|intros w' []].
    + destruct H as (x' & Ex' & Hc & s' & Es' & Hs'). rewrite Ex in Ex'. injection Ex' as <-. 
      unfold rows_close. eapply wp_bind_eq; [apply getr_eq; exact Ex|]. rewrite Hc. unfold rows_close_body. apply wp_bind, wp_bind. eapply wp_eq; [apply getr_eq; exact Ex|].
      assert (Hn : forall A (k : unit -> M A) R, wp w (bind (need_conn (r_stmt x)) k) R (fun _ => lost w r)).
      { intros A k R. unfold wp, bind. rewrite (need_closed _ _ _ F Es' Hs'). exists x. split; [exact Ex|]. split; [exact Hc|]. exists s'. auto. }
      apply wp_bind. destruct (r_consumed x); cbn [negb andb] in *; [rewrite Hd; cbn [negb]; eapply wp_bind_eq; [apply gets_eq; exact Es|]|]; apply Hn.
  - eapply wp_weak; [apply wp_rows_close; auto; exists y; auto|auto|intros w' []].
  - eapply wp_weak; [apply wp_rows_close; auto; exists x; split; [exact Ex|right]|auto|intros w' []].
    destruct H as (x' & s' & Ex' & Es' & Hs'). rewrite Ex in Ex'. injection Ex' as <-. exists x, s'. auto.
Qed.
Lemma wp_out : forall A w (m : M A) (g : A -> out) (R : A -> W -> Prop) (B : W -> Prop), wp w m R B -> (forall a w', R a w' -> WF w') -> wp w (bind m (fun a => ret (g a))) (fun _ w' => WF w') B.
Proof. intros A w m g R B H HR. apply wp_bind. eapply wp_weak; [exact H| |auto]. intros a w' X. apply wp_ret. eapply HR; eauto. Qed.
Lemma wp_outs : forall A w (m : M A) (g : A -> M out) (R : A -> W -> Prop) (B : W -> Prop), wp w m R B -> (forall a, exists b, g a = ret b) -> (forall a w', R a w' -> WF w') -> wp w (bind m g) (fun _ w' => WF w') B.
Proof. intros A w m g R B H Hg HR. apply wp_bind. eapply wp_weak; [exact H| |auto]. intros a w' X. destruct (Hg a) as (b & ->). apply wp_ret. eapply HR; eauto. Qed.
Ltac hnd := let Hk := fresh in intros Hk; match type of Hk with (_ < length ?l)%nat => let x := fresh "x" in let E := fresh "E" in destruct (nth_error l _) as [x|] eqn:E; [|exfalso; apply nth_error_None in E; lia] end.
Theorem step_panics : forall mk f o w, WF w -> known w o -> args_ok mk o -> wp w (step ops mk f o) (fun _ w' => WF w') (excuse mk f w o).
Proof.
  intros mk f o w F Hk Ha. pose proof (wp_close f) as Hcls. unfold step. 
  assert (Nth : forall A (l : list A) i, (i < length l)%nat -> exists x, nth_error l i = Some x). { intros A l i H. destruct (nth_error l i) as [x|] eqn:E; [eauto|]. apply nth_error_None in E. lia. }
  assert (S2W : forall A (a : A) w', soft w w' -> WF w') by (intros A a w' S; apply S).
  assert (F2W : forall A (a : A) w', fine w a w' -> WF w') by (intros A a w' S; apply S).
  Ltac out1 R := eapply (wp_outs _ _ _ _ R); [|intros; repeat match goal with p : (_ * _)%type |- _ => destruct p end; eexists; reflexivity|try solve [let X := fresh in intros ? ? X; first [exact (proj1 X)|apply X]]].
  destruct o; cbn [step_body excuse]; cbn [known] in Hk; cbn [args_ok] in Ha; try (apply Nth in Hk; destruct Hk as (hx & Hk)).
  - out1 (@fine w (option nat * option gerr)). apply wp_bad, wp_prepare; auto.
  - out1 (@fine w (option nat * option gerr)). apply wp_bad, wp_prepare_pipeline; auto.
  - out1 (@fine w (option nat * option gerr)). apply wp_bad, wp_begin; auto.
  - unfold set_chunk_size. out1 (fun (_ : unit) w' => WF w'). eapply wp_eq; [apply modc_eq|]. eapply WF_set_c; eauto; cbn; apply F.
  - out1 (fun (_ : option gerr) w' => soft w w'). apply wp_bad, Hcls; auto.
  - out1 (@fine w (option md * option gerr)). apply wp_bad, wp_exec_neo; auto.
  - out1 (@fine w (option (list md) * option gerr)). apply wp_bad, wp_exec_pipeline; auto.
  - out1 (fun (p : option nat * option gerr) w' => fine w p w' /\ gives (length (w_stmts w)) p w'). apply wp_query_neo; auto.
  - out1 (fun (p : option (list (list goval)) * option md * option md * option gerr) w' => WF w'). apply wp_query_neo_all; auto.
  - out1 (@fine w (option nat * option gerr)). apply wp_bad, wp_query_pipeline; auto.
  - out1 (@fine w (option md * option gerr)). apply wp_bad, wp_exec_sql; auto.
  - out1 (fun (p : option nat * option gerr) w' => WF w'). unfold query_sql, with_args. destruct (driver_args mk args); [|apply wp_ret; auto|congruence].
    eapply wp_weak; [apply wp_query_neo; auto| |auto]. intros p w' (X & _). eauto.
  - out1 (fun (_ : option md * option gerr) w' => soft w w'). apply wp_bad, wp_stmt_exec; auto. exists hx; auto.
  - out1 (fun (_ : option (list md) * option gerr) w' => soft w w'). apply wp_bad, wp_stmt_exec_pipeline; auto. exists hx; auto.
  - out1 (fun (p : option nat * option gerr) w' => soft w w' /\ gives s p w'). apply wp_bad, wp_stmt_query; auto. exists hx; auto.
  - out1 (fun (p : option nat * option gerr) w' => soft w w' /\ gives s p w'). apply wp_bad, wp_stmt_query_pipeline; auto. exists hx; auto.
  - out1 (fun (e : option gerr) w' => WF w' /\ grow w w' /\ (fails e -> soft w w')). apply wp_bad, wp_stmt_close; auto. exists hx; auto.
  - out1 (fun (_ : option md * option gerr) w' => soft w w'). unfold stmt_exec_sql, with_args. destruct (driver_args mk args); [|apply wp_ret, soft_refl; auto|congruence]. apply wp_bad, wp_stmt_exec; auto. exists hx; auto.
  - out1 (fun (_ : option nat * option gerr) w' => soft w w'). unfold stmt_query_sql, with_args. destruct (driver_args mk args); [|apply wp_ret, soft_refl; auto|congruence].
    eapply wp_weak; [apply wp_stmt_query; auto; exists hx; auto|intros p w' X; apply X|intros w' []].
  - destruct (lost_or _ _ _ F Hk) as [H|H].
    + unfold wp, bind. destruct (lost_next f (close ops f) _ _ F H) as (w' & ->). exact H.
    + out1 (fun p w' => soft w w' /\ (row_err p \/ flat w w')). apply wp_bad, wp_next_neo; auto.
  - destruct (lost_or _ _ _ F Hk) as [H|H].
    + apply wp_bind. eapply wp_weak; [apply (lost_all f (close ops f) _ _ F H (fun _ _ => False))|intros a w' []|auto].
    + out1 (fun (p : list (list goval) * option md * option gerr) w' => soft w w'). apply wp_bad, wp_all_rows; auto.
  - destruct (lost_or _ _ _ F Hk) as [H|H].
    + unfold wp, bind. rewrite (lost_pipe f (close ops f) _ _ F H). exact H.
    + out1 (fun (p : option (list goval) * option md * option nat * option gerr) w' => WF w'). apply wp_bad, wp_next_pipeline; auto.
  - destruct (lost_or _ _ _ F Hk) as [H|H].
    + unfold wp, next_sql, bind. destruct (lost_next f (close ops f) _ _ F H) as (w' & ->). left. exact H.
    + out1 (fun (p : list dval * option gerr) w' => WF w'). unfold next_sql.
      pose proof (wp_next_neo f (close ops f) Hcls w r F H) as X. unfold wp, bind in *. destruct (next_neo ops f (close ops f) r w) as [[[[row m] e]| |] w'] eqn:En; [|destruct X|exact I].
      destruct X as (X & Y). destruct e as [e|]; [cbn; apply X|]. destruct (fill n _) as [ds [ | | ]] eqn:Ef; [cbn; apply X|cbn; apply X|]. cbn.
      right. destruct row as [row|]; [|discriminate]. exists row, m. split; [|eapply fill_panics; eauto].
      unfold step. cbn [step_body]. unfold bind. rewrite En. reflexivity.
  - out1 (fun (a : option gerr) w' => fine w a w'). apply lost_close; auto. exists hx; auto.
  - out1 (fun (_ : rows) w' => WF w'). eapply wp_eq; [apply getr_eq; exact Hk|exact F].
  - out1 (fun (_ : option gerr) w' => WF w' /\ grow w w'). apply wp_bad, wp_tx_finish; auto. exists hx; auto.
  - out1 (fun (_ : option gerr) w' => WF w' /\ grow w w'). apply wp_bad, wp_tx_finish; auto. exists hx; auto.
Qed.

(** ** Histories *)
Lemma WF_fresh : forall pooled n, WF (fresh pooled n).
Proof. intros pooled n. constructor; cbn; try reflexivity; try discriminate; intros []; discriminate. Qed.
Lemma run_panics : forall mk f os w, WF w -> legal ops mk f os w ->
  match run ops mk f os w with
  | (_, Ok _, w') => WF w'
  | (outs, Panic, w') => exists os1 o os2 w1, os = os1 ++ o :: os2 /\ run ops mk f os1 w = (outs, Ok tt, w1) /\ step ops mk f o w1 = (Panic, w') /\ excuse mk f w1 o w'
  | (_, NoFuel, _) => True
  end.
Proof.
  intros mk f os. induction os as [|o os IH]; intros w F L; cbn [run]; [exact F|]. destruct L as (Hk & Ha & L).
  pose proof (step_panics mk f o w F Hk Ha) as X. unfold wp in X. destruct (step ops mk f o w) as [[a| |] w1] eqn:E; [| |exact I].
  - specialize (IH w1 X L). destruct (run ops mk f os w1) as [[l [u| |]] w2]; [exact IH| |exact I].
    destruct IH as (os1 & o1 & os2 & w3 & -> & Hr & Hs & Hx). exists (o :: os1), o1, os2, w3. split; [reflexivity|]. split; [|auto]. cbn [run]. rewrite E, Hr. reflexivity.
  - exists [], o, os, w. cbn. auto.
Qed.
End Panic.
