(** Further facts about the pool: connections handed out have a network connection, what
    can wait for ever and what cannot. *)
From Coq Require Import List Bool Arith Lia.
From Verif Require Import Session SessionGen Pool PoolInv PoolMore.
Import ListNotations.

(** connections handed out, or about to be, have a network connection; a goroutine that puts
    connections back has at least one to put back *)
Record InvN (s : pool) : Prop := {
  n_net : forall x ob, G s x + H s x > 0 -> nth_error (p_heap s) x = Some ob -> o_net ob <> None;
  n_put : forall t, nth_error (p_pcs s) t <> Some (OPut []) /\ nth_error (p_pcs s) t <> Some (CPut []) }.
Lemma put_ne : forall s t c, (forall t, nth_error (p_pcs s) t <> Some (OPut []) /\ nth_error (p_pcs s) t <> Some (CPut [])) -> c <> OPut [] -> c <> CPut [] ->
  forall t', nth_error (upd t c (p_pcs s)) t' <> Some (OPut []) /\ nth_error (upd t c (p_pcs s)) t' <> Some (CPut []).
Proof.
  intros s t c Hs H1 H2 t'. split; intros E; apply pc_upd in E; destruct E as [(-> & E)|(_ & E)]; try contradiction; apply Hs in E; auto.
Qed.
Lemma InvN_new max n : InvN (new_pool max n).
Proof.
  split; cbn.
  - intros x ob Hx. exfalso. unfold G, PoolInv.H, gives in Hx. cbn in Hx. replace (flat_map give (repeat Idle n)) with (@nil nat) in Hx; [unfold cn in Hx; cbn in Hx; lia|].
    clear. induction n; cbn; auto.
  - intros t. split; intros E; apply nth_error_In, repeat_spec in E; discriminate.
Qed.
Lemma InvN_step : forall s a s', InvB s -> InvN s -> pstep s a = Some s' -> InvN s'.
Proof.
  intros s a s' IB [I1 I2] T. apply pstep_inv in T.
  split.
  2:{ destruct T; cbn; try (apply put_ne; [exact I2|..]); try discriminate; auto.
      - destruct (p_closed s); discriminate. - destruct (p_closed s); discriminate.
      - destruct os; discriminate. - destruct os; discriminate. - destruct os; discriminate. - destruct os; discriminate.
      - destruct es as [|e es]; [congruence|]. cbn. destruct (put_back _ es _). discriminate. }
  assert (Hg : forall t c c' x, nth_error (p_pcs s) t = Some c -> cn x (flat_map give (upd t c' (p_pcs s))) + cn x (give c) = G s x + cn x (give c')) by (intros; apply cn_upd; auto).
  assert (Old : forall x ob', G s x + H s x > 0 -> forall o ob ob1, nth_error (p_heap s) o = Some ob -> (o_net ob <> None -> o_net ob1 <> None) -> nth_error (upd o ob1 (p_heap s)) x = Some ob' -> o_net ob' <> None).
  { intros x ob' Hx o ob ob1 Eo Hn E. destruct (hl_upd _ _ _ _ _ _ Eo E) as [(-> & ->)|(Hne & E')]; eauto. }
  assert (Lt : forall x, G s x + PoolInv.H s x > 0 -> x < length (p_heap s)) by (intros x Hx; apply IB; lia).
  assert (Have : forall t o x ob0 ob1 l ob, nth_error (p_pcs s) t = Some (OHave o) -> nth_error (p_heap s) o = Some ob0 -> G s x + PoolInv.H s x > 0 ->
     nth_error (upd o ob1 (p_heap s) ++ l) x = Some ob -> o_net ob <> None).
  { intros t o x ob0 ob1 l ob Et Eo Hx E. rewrite nth_error_app1 in E by (rewrite length_upd; auto). destruct (hl_upd _ _ _ _ _ _ Eo E) as [(-> & _)|(_ & E')]; eauto.
    exfalso. apply have_kept in Et. pose proof (b_one _ IB o). lia. }
  intros x ob Hx Ex.
  destruct T as [t E|t E|t E L|t E L|t o q E C|t r o ob0 n E Eo En|t d o ob0 E Eo|t d o ob0 E Eo|t d o ob0 e E Eo|t d o ob0 e1 e2 E Eo|t o os E L|t o os E L
     |t o E|t E|t ok E|t o m es ob0 E Eo Hh Hk Hc|t o m es ob0 E Eo Hh Hk Hes Hc Hp|t o m es ob0 E Eo Hh Hk Hes Hc Hp|t r E|t r o os ob0 E Eo Hc|t o os ob0 E Eo Hc|t o os ob0 E Eo Hc|t o os ob0 E Eo Hc];
  unfold G, PoolInv.H, gives in Hx; cbn [p_pcs p_handed with_pc with_lock with_closed with_chan with_refs with_heap with_nets with_out with_handed with_event p_heap] in Hx, Ex;
  try match type of Hx with context [upd t ?c' (p_pcs s)] => pose proof (Hg t _ c' x E) as Hgg; cbn [give] in Hgg; rewrite ?cn_cons, ?cn_nil in Hgg; rewrite ?cn_cons, ?cn_nil in Hx end;
  try (assert (Hx' : G s x + PoolInv.H s x > 0) by (unfold PoolInv.H; lia));
  try solve [eauto].
  all: try (eapply (Old x ob Hx'); [exact Eo| |exact Ex]; destruct ob0; cbn; auto; fail).
  - destruct (p_closed s); cbn [give] in Hgg; rewrite cn_nil in Hgg; (eapply I1; [|exact Ex]; unfold PoolInv.H; lia).
  - revert Hgg; destruct (Nat.eq_dec o x) as [->|Hn]; intros Hgg; [rewrite Eo in Ex; injection Ex as <-; congruence|]. eapply I1; [|exact Ex]; unfold PoolInv.H; lia.
  - destruct (hl_upd _ _ _ _ _ _ Eo Ex) as [(-> & ->)|(Hne & E')]; [discriminate|]. eapply I1; [|exact E']. revert Hgg; destruct (Nat.eq_dec o x); [congruence|]; intros Hgg. unfold PoolInv.H; lia.
  - destruct os; cbn [give] in Hgg; rewrite cn_nil in Hgg; (eapply I1; [|exact Ex]; unfold PoolInv.H; lia).
  - destruct os; cbn [give] in Hgg; rewrite cn_nil in Hgg; (eapply I1; [|exact Ex]; unfold PoolInv.H; lia).
  - eapply (Old x ob Hx); [exact Eo| |exact Ex]; destruct m, ob0; cbn; auto.
  - rewrite put_back_heap in Ex. rewrite nth_error_app1 in Ex by (rewrite length_upd; auto).
    eapply (Old x ob Hx'); [exact Eo| |exact Ex]; destruct m, ob0; cbn; auto.
  - eapply (Old x ob Hx); [exact Eo| |exact Ex]; destruct m, ob0; cbn; auto.
Qed.
Lemma InvN_reach : forall P s, reach P s -> InvN s.
Proof. intros P s R. induction R; [apply InvN_new|]. eapply InvN_step; eauto. eapply InvB_reach; eauto. Qed.

(** ** A pool that is jammed: a goroutine holds the lock and waits for room in a full channel
    while nobody has a connection *)
Definition waiting (c : pc) : bool := match c with Idle | OWait | PWait => true | _ => false end.
Definition jammed (s : pool) (t : nat) : Prop :=
  p_lock s = Some t /\ (exists os, nth_error (p_pcs s) t = Some (OPut os)) /\ p_max s <= length (p_chan s) /\ p_handed s = [] /\
  forall t' c, nth_error (p_pcs s) t' = Some c -> t' = t \/ waiting c = true.
Lemma jammed_step : forall s t a s', jammed s t -> pstep s a = Some s' -> jammed s' t /\ p_log s' = p_log s.
Proof.
  intros s t a s' (Hl & (os & Et) & Hc & Hh & Ho) T. apply pstep_inv in T.
  assert (Hw : forall t' c, nth_error (p_pcs s) t' = Some c -> waiting c = false -> t' = t /\ c = OPut os).
  { intros t' c E W. destruct (Ho _ _ E) as [->|X]; [|congruence]. split; congruence. }
  assert (Hkeep : forall t' c c', nth_error (p_pcs s) t' = Some c -> waiting c = true -> waiting c' = true ->
     jammed (with_pc t' c' s) t).
  { intros t' c c' E W W'. assert (Hn : t' <> t) by (intros ->; rewrite Et in E; injection E as <-; discriminate). repeat split; cbn; auto.
    - exists os. rewrite nth_upd_other by auto. exact Et.
    - intros t2 c2 E2. apply pc_upd in E2. destruct E2 as [(-> & <-)|(_ & E2)]; [right; exact W'|eauto]. }
  destruct T; try (match goal with E : nth_error (p_pcs s) _ = Some _ |- _ => destruct (Hw _ _ E eq_refl) as (-> & X); try discriminate X end); try congruence; try lia.
  - split; [|reflexivity]. eapply Hkeep; eauto.
  - split; [|reflexivity]. eapply Hkeep; eauto.
  - rewrite Hh in *. contradiction.
  - rewrite Hh in *. contradiction.
  - rewrite Hh in *. contradiction.
Qed.
Lemma jammed_forever : forall l s t s', jammed s t -> pruns s l = Some s' -> jammed s' t /\ p_log s' = p_log s.
Proof.
  induction l as [|a l IH]; intros s t s' J E; cbn in E; [injection E as <-; auto|]. destruct (pstep s a) as [s1|] eqn:E1; [|discriminate].
  destruct (jammed_step _ _ _ _ J E1) as (J1 & L1). destruct (IH _ _ _ J1 E) as (J2 & L2). split; [exact J2|congruence].
Qed.

(** ** Taking all the connections *)
Definition open1 : list action := [AOpen 0; ALock 0; ARecv 0; AInit 0 false IReady; ARet 0].
Fixpoint opens (k : nat) : list action := match k with 0 => [] | S k => opens k ++ open1 end.
Lemma pruns_app : forall l1 l2 s, pruns s (l1 ++ l2) = match pruns s l1 with Some s' => pruns s' l2 | None => None end.
Proof. induction l1 as [|a l1 IH]; intros l2 s; cbn; auto. destruct (pstep s a); auto. Qed.
Lemma all_runs_app : forall P l1 l2 s, all_runs P s l1 = true -> match pruns s l1 with Some s' => all_runs P s' l2 = true | None => True end -> all_runs P s (l1 ++ l2) = true.
Proof.
  intros P. induction l1 as [|a l1 IH]; intros l2 s; cbn; auto. intros A B. apply andb_prop in A. destruct A as (A1 & A2). rewrite A1. cbn. destruct (pstep s a); auto.
Qed.
Definition taken (s : pool) (max n k : nat) : Prop :=
  p_max s = max /\ p_lock s = None /\ p_closed s = false /\ p_pcs s = repeat Idle n /\ p_chan s = seq k (max - k) /\ length (p_out s) = k /\
  (forall o, k <= o < max -> nth_error (p_heap s) o = Some blank).
Lemma upd_upd : forall A (l : list A) i x y, upd i x (upd i y l) = upd i x l.
Proof. induction l as [|a l IH]; intros [|i] x y; cbn; auto. now rewrite IH. Qed.
Lemma take_one : forall s max n k, taken s max (S n) k -> k < max -> exists s', pruns s open1 = Some s' /\ taken s' max (S n) (S k) /\ all_runs flawless s open1 = true.
Proof.
  intros s max n k (E1 & E2 & E3 & E4 & E5 & E6 & E7) Hk. replace (max - k) with (S (max - S k)) in E5 by lia. cbn [seq] in E5.
  destruct s as [mx lk cl ch rf hp nt pcs ou ha lg]. cbn [p_max p_lock p_closed p_chan p_refs p_heap p_nets p_pcs p_out p_handed p_log] in *. subst.
  pose proof (E7 (length ou) ltac:(lia)) as Eb.
  unfold open1. cbn [pruns all_runs flawless orderly careful polite prompt andb].
  cbn [pstep p_max p_lock p_closed p_chan p_refs p_heap p_nets p_pcs p_out p_handed p_log repeat nth_error upd with_pc with_lock with_chan with_heap with_nets with_refs].
  rewrite Eb. cbn [blank o_net]. cbn [pstep p_max p_lock p_closed p_chan p_refs p_heap p_nets p_pcs p_out p_handed p_log repeat nth_error upd with_pc with_lock with_chan with_heap with_nets with_refs].
  eexists. split; [reflexivity|]. split; [|reflexivity]. repeat split; cbn; auto.
  intros o Ho. rewrite nth_upd_other by lia. apply E7. lia.
Qed.
Lemma take_all : forall max n k, k <= max -> exists s, pruns (new_pool max (S n)) (opens k) = Some s /\ taken s max (S n) k /\ all_runs flawless (new_pool max (S n)) (opens k) = true.
Proof.
  intros max n. induction k as [|k IH]; intros Hk.
  - exists (new_pool max (S n)). split; [reflexivity|]. split; [|reflexivity]. repeat split; cbn; auto. { now rewrite Nat.sub_0_r. }
    intros o Ho. rewrite (nth_error_nth' _ blank) by (rewrite repeat_length; lia). f_equal. apply nth_repeat.
  - destruct (IH ltac:(lia)) as (s & R & T & A). destruct (take_one s max n k T ltac:(lia)) as (s' & R' & T' & A'). exists s'. cbn [opens]. rewrite pruns_app, R. split; [exact R'|]. split; [exact T'|].
    apply all_runs_app; [exact A|]. rewrite R. exact A'.
Qed.

(** ** Waiting for a connection with the lock held *)
Definition starved (s : pool) (t : nat) : Prop :=
  p_lock s = Some t /\ nth_error (p_pcs s) t = Some ORecv /\ p_chan s = [] /\ forall t' c, nth_error (p_pcs s) t' = Some c -> t' = t \/ waiting c = true.
(** a call that gives its connection back *)
Definition returns (a : action) : bool := match a with ACall _ _ _ (_ :: _) => true | _ => false end.
Lemma starved_step : forall s t a s', starved s t -> returns a = false -> pstep s a = Some s' -> starved s' t /\ p_log s' = p_log s.
Proof.
  intros s t a s' (Hl & Et & Hc & Ho) Ha T. apply pstep_inv in T.
  assert (Hw : forall t' c, nth_error (p_pcs s) t' = Some c -> waiting c = false -> t' = t /\ c = ORecv).
  { intros t' c E W. destruct (Ho _ _ E) as [->|X]; [|congruence]. split; congruence. }
  assert (Hkeep : forall t' c c', nth_error (p_pcs s) t' = Some c -> waiting c = true -> waiting c' = true -> starved (with_pc t' c' s) t).
  { intros t' c c' E W W'. assert (Hn : t' <> t) by (intros ->; rewrite Et in E; injection E as <-; discriminate). repeat split; cbn; auto.
    - rewrite nth_upd_other by auto. exact Et.
    - intros t2 c2 E2. apply pc_upd in E2. destruct E2 as [(-> & <-)|(_ & E2)]; [right; exact W'|eauto]. }
  destruct T; try (match goal with E : nth_error (p_pcs s) _ = Some _ |- _ => destruct (Hw _ _ E eq_refl) as (-> & X); try discriminate X end); try congruence;
    try (destruct es; [contradiction|discriminate Ha]).
  - split; [|reflexivity]. eapply Hkeep; eauto.
  - split; [|reflexivity]. eapply Hkeep; eauto.
  - split; [|reflexivity]. repeat split; cbn; auto.
Qed.
Lemma starved_on : forall l s t s', starved s t -> forallb (fun a => negb (returns a)) l = true -> pruns s l = Some s' -> starved s' t /\ p_log s' = p_log s.
Proof.
  induction l as [|a l IH]; intros s t s' J A E; cbn in *; [injection E as <-; auto|]. apply andb_prop in A. destruct A as (A1 & A2). destruct (pstep s a) as [s1|] eqn:E1; [|discriminate].
  destruct (starved_step _ _ _ _ J (proj1 (negb_true_iff _) A1) E1) as (J1 & L1). destruct (IH _ _ _ J1 A2 E) as (J2 & L2). split; [exact J2|congruence].
Qed.
(** two goroutines: one has all the connections and closes the pool, the other waits for a
    connection: neither can continue *)
Lemma standstill : forall max, exists l s, all_runs flawless (new_pool max 2) l = true /\ pruns (new_pool max 2) l = Some s /\
  p_pcs s = [PWait; ORecv] /\ forall a, pstep s a = None.
Proof.
  intros max. destruct (take_all max 1 max (le_n _)) as (s & R & (E1 & E2 & E3 & E4 & E5 & E6 & E7) & A).
  set (l := [AOpen 1; ALock 1; APool 0]).
  assert (R' : exists s', pruns s l = Some s' /\ p_pcs s' = [PWait; ORecv] /\ p_chan s' = [] /\ p_lock s' = Some 1 /\ all_runs flawless s l = true).
  { destruct s as [mx lk cl ch rf hp nt pcs ou ha lg]. cbn [p_max p_lock p_closed p_chan p_refs p_heap p_nets p_pcs p_out p_handed p_log] in *. subst. rewrite Nat.sub_diag. eexists.
    split; [reflexivity|]. repeat split. }
  destruct R' as (s' & R' & F1 & F2 & F3 & F4). exists (opens max ++ l), s'. split; [apply all_runs_app; [exact A|]; rewrite R; exact F4|]. split; [rewrite pruns_app, R; exact R'|]. split; [exact F1|].
  intros a. destruct (pstep s' a) as [s2|] eqn:T; [|reflexivity]. apply pstep_inv in T. exfalso.
  assert (Hp : forall t c, nth_error (p_pcs s') t = Some c -> c = PWait \/ c = ORecv). { rewrite F1. intros [|[|[|t]]] c E; cbn in E; try discriminate; injection E as <-; auto. }
  destruct T; try congruence; match goal with E : nth_error (p_pcs s') _ = Some _ |- _ => destruct (Hp _ _ E); discriminate end.
Qed.

(** ** The pool's Close, once it has the lock, returns *)
Lemma loop_runs : forall os s t, nth_error (p_pcs s) t = Some (PLoop os) -> (forall o, In o os -> o < length (p_heap s)) ->
  exists s', pruns s (repeat (AShut t ShOk) (S (length os)) ++ [ARet t]) = Some s' /\ In (PoolClosed t true) (p_log s').
Proof.
  induction os as [|o os IH]; intros s t E Hh.
  - cbn [length repeat app pruns pstep]. rewrite E. cbn [pstep with_closed with_pc p_pcs]. erewrite nth_upd_same by exact E. cbn. eexists. split; [reflexivity|]. apply in_or_app. right. left. reflexivity.
  - cbn [length repeat app]. cbn [pruns pstep]. rewrite E. destruct (nth_error (p_heap s) o) as [ob|] eqn:Eo; [|apply nth_error_None in Eo; specialize (Hh o (or_introl eq_refl)); lia].
    destruct (o_closed ob) eqn:Ec.
    + apply (IH (with_heap (upd o (o_unpooled ob) (p_heap s)) (with_pc t (PLoop os) s)) t); cbn; [eapply nth_upd_same; exact E|]. intros x Hx. rewrite length_upd. apply Hh. now right.
    + apply (IH (with_nets (shut_net (o_net ob) (p_nets s)) (with_heap (upd o (o_with_closed (o_unpooled ob)) (p_heap s)) (with_pc t (PLoop os) s))) t); cbn; [eapply nth_upd_same; exact E|].
      intros x Hx. rewrite length_upd. apply Hh. now right.
Qed.
