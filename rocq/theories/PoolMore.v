(** Further invariants of the pool machine: which network connections are initialised,
    broken or closed; the lock. *)
From Coq Require Import List Bool Arith Lia.
From Verif Require Import Session SessionGen Pool PoolInv.
Import ListNotations.

(** ** Network connections *)
Definition later (c c' : netc) : Prop := n_ready c' = n_ready c /\ (n_shut c = true -> n_shut c' = true) /\ (n_broken c = true -> n_broken c' = true).
Definition grows (ns ns' : list netc) : Prop := forall i c, nth_error ns i = Some c -> exists c', nth_error ns' i = Some c' /\ later c c'.
Lemma later_refl c : later c c. Proof. now repeat split. Qed.
Lemma grows_refl ns : grows ns ns. Proof. intros i c H. exists c. split; auto using later_refl. Qed.
Lemma grows_trans a b c : grows a b -> grows b c -> grows a c.
Proof.
  intros H1 H2 i x E. destruct (H1 _ _ E) as (y & E2 & A1 & A2 & A3). destruct (H2 _ _ E2) as (z & E3 & B1 & B2 & B3).
  exists z. repeat split; auto. congruence.
Qed.
Lemma grows_app ns l : grows ns (ns ++ l).
Proof. intros i c H. exists c. split; auto using later_refl. rewrite nth_error_app1; auto. apply nth_error_Some. congruence. Qed.
Lemma grows_upd ns i c c' : nth_error ns i = Some c -> later c c' -> grows ns (upd i c' ns).
Proof.
  intros E L j d H. destruct (Nat.eq_dec i j) as [->|N].
  - rewrite E in H. injection H as <-. exists c'. split; auto. eapply nth_upd_same; eauto.
  - exists d. split; auto using later_refl. rewrite nth_upd_other; auto.
Qed.
Lemma grows_shut n ns : grows ns (shut_net n ns).
Proof. unfold shut_net. destruct n as [n|]; auto using grows_refl. destruct (nth_error ns n) eqn:E; auto using grows_refl. eapply grows_upd; eauto. now repeat split. Qed.
Lemma grows_break n ns : grows ns (break_net n ns).
Proof. unfold break_net. destruct n as [n|]; auto using grows_refl. destruct (nth_error ns n) eqn:E; auto using grows_refl. eapply grows_upd; eauto. now repeat split. Qed.
Lemma grows_met m ob ns : grows ns (met_nets m ob ns).
Proof. destruct m; cbn; auto using grows_refl, grows_break. Qed.
Lemma step_grows : forall s a s', pstep s a = Some s' -> grows (p_nets s) (p_nets s').
Proof.
  intros s a s' T. apply pstep_inv in T. destruct T; cbn; auto using grows_refl, grows_app, grows_shut, grows_met.
  eapply grows_trans; [apply grows_met|apply grows_shut].
Qed.
Lemma shut_shut n ns c : nth_error ns n = Some c -> exists c', nth_error (shut_net (Some n) ns) n = Some c' /\ n_shut c' = true.
Proof. intros E. unfold shut_net. rewrite E. exists (n_with_shut c). split; auto. eapply nth_upd_same; eauto. Qed.
(** whether a network connection is broken changes only for the one that breaks *)
Lemma broken_shut : forall n ns i c, nth_error (shut_net n ns) i = Some c -> n_broken c = true -> exists c', nth_error ns i = Some c' /\ n_broken c' = true.
Proof.
  intros n ns i c E B. unfold shut_net in E. destruct n as [n|]; eauto. destruct (nth_error ns n) as [d|] eqn:En; eauto.
  destruct (Nat.eq_dec n i) as [->|N]; [rewrite (nth_upd_same _ _ _ _ _ En) in E; injection E as <-; eauto|rewrite nth_upd_other in E by auto; eauto].
Qed.
Lemma broken_break : forall n ns i c, nth_error (break_net n ns) i = Some c -> n_broken c = true -> n = Some i \/ exists c', nth_error ns i = Some c' /\ n_broken c' = true.
Proof.
  intros n ns i c E B. unfold break_net in E. destruct n as [n|]; eauto. destruct (nth_error ns n) as [d|] eqn:En; eauto.
  destruct (Nat.eq_dec n i) as [->|N]; [auto|rewrite nth_upd_other in E by auto; eauto].
Qed.

(** ** Initialised connections *)
Definition S' s x := K s x + G s x + H s x.
Definition ready_net (s : pool) (n : nat) : Prop := exists c, nth_error (p_nets s) n = Some c /\ n_ready c = true.
Definition InvR (s : pool) : Prop := forall x ob n, S' s x > 0 -> nth_error (p_heap s) x = Some ob -> o_net ob = Some n -> ready_net s n.

Lemma ready_step : forall s a s' n, pstep s a = Some s' -> ready_net s n -> ready_net s' n.
Proof. intros s a s' n T (c & E & R). destruct (step_grows _ _ _ T _ _ E) as (c' & E' & R' & _). exists c'. split; auto. congruence. Qed.

(** where the connections that exist after a step come from *)
Lemma step_source : forall s a s', InvB s -> pstep s a = Some s' -> forall x ob, S' s' x > 0 -> nth_error (p_heap s') x = Some ob ->
  o_net ob = None \/
  (exists y ob', S' s y > 0 /\ nth_error (p_heap s) y = Some ob' /\ o_net ob' = o_net ob) \/
  (o_net ob = Some (length (p_nets s)) /\ (p_nets s' = p_nets s ++ [Netc true false false] \/ marked a = false)).
Proof.
  intros s a s' I T x ob Hx Ex. pose proof T as T0. pose proof (InvB_step _ _ _ I T) as I'. apply pstep_inv in T. destruct I as [I1 I2 I3 I4 I5 I6]. destruct I' as [J1 J2 J3 J4 J5 J6].
  assert (Low : forall t c c', nth_error (p_pcs s) t = Some c -> p_pcs s' = upd t c' (p_pcs s) -> p_chan s' = p_chan s -> p_handed s' = p_handed s ->
     forall y, S' s' y + cn y (mid c) + cn y (give c) = S' s y + cn y (mid c') + cn y (give c')).
  { intros t c c' E Ep Ec Eh y. unfold S', K, G, H, kept, gives. rewrite Ep, Ec, Eh, !cn_app. pose proof (cn_upd mid _ _ _ c' y E). pose proof (cn_upd give _ _ _ c' y E). lia. }
  assert (Old : S' s x > 0 -> nth_error (p_heap s) x = Some ob -> o_net ob = None \/
  (exists y ob', S' s y > 0 /\ nth_error (p_heap s) y = Some ob' /\ o_net ob' = o_net ob) \/
  (o_net ob = Some (length (p_nets s)) /\ (p_nets s' = p_nets s ++ [Netc true false false] \/ marked a = false))) by (intros A B; right; left; exists x, ob; auto).
  destruct T as [t E|t E|t E L|t E L|t o q E C|t r o b n E Eo En|t d o b E Eo|t d o b E Eo|t d o b e E Eo|t d o b e1 e2 E Eo|t o os E L|t o os E L
     |t o E|t E|t ok E|t o m es b E Eo Hh Hk Hc|t o m es b E Eo Hh Hk Hes Hc Hp|t o m es b E Eo Hh Hk Hes Hc Hp|t r E|t r o os b E Eo Hc|t o os b E Eo Hc|t o os b E Eo Hc|t o os b E Eo Hc].
  - apply Old; auto. pose proof (Low _ _ _ E eq_refl eq_refl eq_refl x) as X. cbn in X. lia.
  - apply Old; auto. pose proof (Low _ _ _ E eq_refl eq_refl eq_refl x) as X. cbn in X. lia.
  - apply Old; auto. pose proof (Low _ _ _ E eq_refl eq_refl eq_refl x) as X. destruct (p_closed s); cbn in X; lia.
  - apply Old; auto. pose proof (Low _ _ _ E eq_refl eq_refl eq_refl x) as X. cbn in X. lia.
  - apply Old; auto. unfold S' in *. pose proof (cn_upd mid _ _ _ (OHave o) x E). pose proof (cn_upd give _ _ _ (OHave o) x E). cbn [mid give] in *. counting'. all: rewrite C in *; counting'.
  - apply Old; auto. pose proof (Low _ _ _ E eq_refl eq_refl eq_refl x) as X. cbn in X. lia.
  - cbn in Ex. apply (hl_upd _ _ _ _ _ _ Eo) in Ex. destruct Ex as [[-> ->]|[N Ex]].
    + right. right. cbn. auto.
    + apply Old; auto. pose proof (Low _ _ _ E eq_refl eq_refl eq_refl x) as X. cbn [mid give] in X. lia.
  - pose proof (have_kept _ _ _ E) as Ko. pose proof (I1 o) as Io. pose proof (Low _ _ _ E eq_refl eq_refl eq_refl x) as X. cbn [mid give] in X. rewrite !cn_cons, !cn_nil in X.
    cbn in Ex. apply hl_app in Ex. rewrite length_upd in Ex. destruct Ex as [[-> ->]|[Lx Ex]].
    + left. destruct (reclaimed_net (o_with_net None b)) as [Z|Z]; rewrite Z; auto.
    + apply (hl_upd _ _ _ _ _ _ Eo) in Ex. unfold S' in *. destruct (Nat.eq_dec (length (p_heap s)) x); [lia|]. destruct (Nat.eq_dec o x) as [->|N2]; [exfalso; lia|].
      destruct Ex as [[-> _]|[N Ex]]; [congruence|]. apply Old; auto. lia.
  - pose proof (have_kept _ _ _ E) as Ko. pose proof (I1 o) as Io. pose proof (Low _ _ _ E eq_refl eq_refl eq_refl x) as X. cbn [mid give] in X. rewrite !cn_cons, !cn_nil in X.
    cbn in Ex. apply hl_app in Ex. rewrite length_upd in Ex. destruct Ex as [[-> ->]|[Lx Ex]].
    + destruct e; [left; reflexivity|right; right]. destruct (I6 o b Ko Eo) as (B1 & B2 & B3). unfold reclaimed. cbn. rewrite B2. cbn. auto.
    + apply (hl_upd _ _ _ _ _ _ Eo) in Ex. unfold S' in *. destruct (Nat.eq_dec (length (p_heap s)) x); [lia|]. destruct (Nat.eq_dec o x) as [->|N2]; [exfalso; lia|].
      destruct Ex as [[-> _]|[N Ex]]; [congruence|]. apply Old; auto. lia.
  - pose proof (have_kept _ _ _ E) as Ko. pose proof (I1 o) as Io. pose proof (Low _ _ _ E eq_refl eq_refl eq_refl x) as X. cbn [mid give] in X. rewrite !cn_cons, !cn_nil in X.
    destruct (I6 o b Ko Eo) as (B1 & B2 & B3).
    cbn in Ex. change [reclaimed (o_with_err e1 (o_with_net (Some (length (p_nets s))) b)); reclaimed (o_with_err e2 (o_with_net (Some (length (p_nets s))) b))]
      with ([reclaimed (o_with_err e1 (o_with_net (Some (length (p_nets s))) b))] ++ [reclaimed (o_with_err e2 (o_with_net (Some (length (p_nets s))) b))]) in Ex. rewrite app_assoc in Ex.
    apply hl_app in Ex. rewrite app_length, length_upd in Ex. cbn [length] in Ex. destruct Ex as [[-> ->]|[Lx Ex]].
    { destruct e2; [left; reflexivity|right; right]. unfold reclaimed. cbn. rewrite B2. cbn. rewrite andb_false_r. auto. }
    apply hl_app in Ex. rewrite length_upd in Ex. destruct Ex as [[-> ->]|[Lx' Ex]].
    + destruct e1; [left; reflexivity|right; right]. unfold reclaimed. cbn. rewrite B2. cbn. auto.
    + apply (hl_upd _ _ _ _ _ _ Eo) in Ex. unfold S' in *. destruct (Nat.eq_dec (length (p_heap s)) x); [lia|]. destruct (Nat.eq_dec (S (length (p_heap s))) x); [lia|]. destruct (Nat.eq_dec o x) as [->|N2]; [exfalso; lia|].
      destruct Ex as [[-> _]|[N Ex]]; [congruence|]. apply Old; auto. lia.
  - apply Old; auto. unfold S' in *. destruct os as [|n os];
      [pose proof (cn_upd mid _ _ _ OFail x E); pose proof (cn_upd give _ _ _ OFail x E)|pose proof (cn_upd mid _ _ _ (OPut (n :: os)) x E); pose proof (cn_upd give _ _ _ (OPut (n :: os)) x E)]; cbn [mid give] in *; counting'.
  - apply Old; auto. unfold S' in *. destruct os as [|n os];
      [pose proof (cn_upd mid _ _ _ Idle x E); pose proof (cn_upd give _ _ _ Idle x E)|pose proof (cn_upd mid _ _ _ (CPut (n :: os)) x E); pose proof (cn_upd give _ _ _ (CPut (n :: os)) x E)]; cbn [mid give] in *; counting'.
  - apply Old; auto. unfold S' in *. pose proof (cn_upd mid _ _ _ Idle x E); pose proof (cn_upd give _ _ _ Idle x E). cbn [mid give] in *. counting'.
  - apply Old; auto. pose proof (Low _ _ _ E eq_refl eq_refl eq_refl x) as X. cbn in X. lia.
  - apply Old; auto. pose proof (Low _ _ _ E eq_refl eq_refl eq_refl x) as X. cbn in X. lia.
  - cbn in Ex. apply (hl_upd _ _ _ _ _ _ Eo) in Ex. destruct Ex as [[-> ->]|[N Ex]]; [|apply Old; auto].
    right. left. exists o, b. repeat split; auto. now destruct m.
  - apply cn_in in Hh. cbn in Ex. rewrite put_back_heap in Ex. rewrite put_back_ids in *. rewrite length_upd in *.
    destruct (Nat.lt_ge_cases x (length (p_heap s))) as [Lx|Lx].
    + rewrite nth_error_app1 in Ex by (now rewrite length_upd). apply (hl_upd _ _ _ _ _ _ Eo) in Ex. destruct Ex as [[-> ->]|[N Ex]].
      * right. left. exists o, b. repeat split; auto; [unfold S', H; lia|now destruct m].
      * apply Old; auto. pose proof (Low _ _ _ E eq_refl eq_refl eq_refl x) as X. cbn [mid give] in X. rewrite cn_seq, !cn_nil in X.
        destruct (Nat.leb_spec (length (p_heap s)) x); [lia|]. cbn [andb] in X. lia.
    + rewrite nth_error_app2 in Ex by (rewrite length_upd; auto). apply nth_error_In, in_map_iff in Ex. destruct Ex as (e & <- & _).
      destruct (reclaimed_net (o_with_err e (met_obj m b))) as [Z|Z]; rewrite Z; auto. right. left. exists o, b. repeat split; auto; [unfold S', H; lia|now destruct m].
  - cbn in Ex. apply (hl_upd _ _ _ _ _ _ Eo) in Ex. destruct Ex as [[-> ->]|[N Ex]]; [|apply Old; auto].
    right. left. exists o, b. repeat split; auto. now destruct m.
  - apply Old; auto. pose proof (Low _ _ _ E eq_refl eq_refl eq_refl x) as X. cbn in X. lia.
  - pose proof (Low _ _ _ E eq_refl eq_refl eq_refl x) as X. cbn [mid give] in X. rewrite ?cn_nil in X. cbn in Ex. apply (hl_upd _ _ _ _ _ _ Eo) in Ex. destruct Ex as [[-> ->]|[N Ex]]; [|apply Old; auto; lia].
    right. left. exists o, b. repeat split; auto. lia.
  - pose proof (Low _ _ _ E eq_refl eq_refl eq_refl x) as X. cbn [mid give] in X. rewrite ?cn_nil in X. cbn in Ex. apply (hl_upd _ _ _ _ _ _ Eo) in Ex. destruct Ex as [[-> ->]|[N Ex]]; [|apply Old; auto; lia].
    right. left. exists o, b. repeat split; auto. lia.
  - pose proof (Low _ _ _ E eq_refl eq_refl eq_refl x) as X. cbn [mid give] in X. rewrite ?cn_nil in X. cbn in Ex. apply (hl_upd _ _ _ _ _ _ Eo) in Ex. destruct Ex as [[-> ->]|[N Ex]]; [|apply Old; auto; lia].
    right. left. exists o, b. repeat split; auto. lia.
  - pose proof (Low _ _ _ E eq_refl eq_refl eq_refl x) as X. cbn [mid give] in X. rewrite ?cn_nil in X. cbn in Ex. apply (hl_upd _ _ _ _ _ _ Eo) in Ex. destruct Ex as [[-> ->]|[N Ex]]; [|apply Old; auto; lia].
    right. left. exists o, b. repeat split; auto. lia.
Qed.

Lemma InvR_new max n : InvR (new_pool max n).
Proof. intros x ob m _ H Hn. cbn in H. apply nth_error_In, repeat_spec in H. subst. discriminate. Qed.
Lemma InvR_step : forall s a s', InvB s -> InvR s -> marked a = true -> pstep s a = Some s' -> InvR s'.
Proof.
  intros s a s' I R M T x ob n Hx Ex En. destruct (step_source _ _ _ I T x ob Hx Ex) as [Z|[(y & ob' & Hy & Ey & Z)|(Z & D)]].
  - congruence.
  - eapply ready_step; eauto. eapply (R y); eauto. congruence.
  - destruct D as [D|D]; [|congruence]. rewrite En in Z. injection Z as ->. unfold ready_net. rewrite D, nth_error_app2, Nat.sub_diag by auto. cbn. eauto.
Qed.
Lemma InvR_reach : forall s, reach (fun _ a => marked a) s -> InvR s.
Proof. intros s R. induction R; [apply InvR_new|eapply InvR_step; eauto]. eapply InvB_reach; eauto. Qed.

(** ** The lock *)
Definition locked (c : pc) : bool := match c with ORecv | OHave _ | OPut _ | OGive _ | OFail | PLoop _ | PRet _ => true | _ => false end.
(** inside OpenPool, past the test of closed *)
Definition opening (c : pc) : bool := match c with ORecv | OHave _ | OPut _ | OGive _ => true | _ => false end.
Record InvL (s : pool) : Prop := {
  l_lock : forall t c, nth_error (p_pcs s) t = Some c -> (locked c = true <-> p_lock s = Some t);
  l_closed : p_closed s = true -> forall t c, nth_error (p_pcs s) t = Some c -> opening c = false }.
Lemma InvL_pcs : forall s s' t c c', InvL s -> nth_error (p_pcs s) t = Some c -> p_pcs s' = upd t c' (p_pcs s) ->
  (p_lock s' = p_lock s /\ locked c' = locked c \/ p_lock s = None /\ p_lock s' = Some t /\ locked c' = true \/ locked c = true /\ p_lock s' = None /\ locked c' = false) ->
  (p_closed s' = p_closed s \/ locked c = true) ->
  (p_closed s' = true -> opening c' = false) -> InvL s'.
Proof.
  intros s s' t c c' [L1 L2] E Ep HL HC HO. split.
  - intros t' d Ed. rewrite Ep in Ed. apply pc_upd in Ed. pose proof (L1 _ _ E) as Lt. destruct Ed as [[-> <-]|[N Ed]].
    + destruct HL as [[-> ->]|[(_ & -> & ->)|(_ & -> & ->)]]; [exact Lt| |]; split; intros; congruence.
    + pose proof (L1 _ _ Ed) as Ld. destruct HL as [[-> _]|[(Z & -> & _)|(Z & -> & _)]]; auto.
      * rewrite Z in Ld. split; intros X; [apply Ld in X; discriminate|congruence].
      * apply Lt in Z. rewrite Z in Ld. split; intros X; [apply Ld in X; congruence|discriminate].
  - intros C t' d Ed. rewrite Ep in Ed. apply pc_upd in Ed. destruct Ed as [[-> <-]|[N Ed]]; auto.
    destruct HC as [HC|HC]; [apply L2 with t'; congruence|]. apply L1 in E. apply E in HC.
    destruct (opening d) eqn:Od; auto. exfalso. assert (locked d = true) by (destruct d; auto; discriminate).
    apply (L1 _ _ Ed) in H. congruence.
Qed.
Lemma InvL_new max n : InvL (new_pool max n).
Proof. split; [|discriminate]. intros t c H. cbn in *. apply nth_error_In, repeat_spec in H. subst. split; discriminate. Qed.
Lemma InvL_step : forall s a s', InvL s -> pstep s a = Some s' -> InvL s'.
Proof.
  intros s a s' I T. apply pstep_inv in T. pose proof I as [L1 L2].
  destruct T as [t E|t E|t E L|t E L|t o q E C|t r o b n E Eo En|t d o b E Eo|t d o b E Eo|t d o b e E Eo|t d o b e1 e2 E Eo|t o os E L|t o os E L
     |t o E|t E|t ok E|t o m es b E Eo Hh Hk Hc|t o m es b E Eo Hh Hk Hes Hc Hp|t o m es b E Eo Hh Hk Hes Hc Hp|t r E|t r o os b E Eo Hc|t o os b E Eo Hc|t o os b E Eo Hc|t o os b E Eo Hc];
  try (match goal with |- InvL ?s' => refine (InvL_pcs s s' t _ _ I E eq_refl _ _ _) end; cbn;
       try destruct os; cbn; auto 6; try (destruct (p_closed s) eqn:Z; cbn; auto 6; intros; discriminate);
       intros Z; try discriminate; pose proof (L2 Z _ _ E); discriminate).
  - split; cbn; auto.
  - split; cbn; auto.
Qed.
Lemma InvL_reach : forall P s, reach P s -> InvL s.
Proof. intros P s R. induction R; [apply InvL_new|eapply InvL_step; eauto]. Qed.
Lemma lock_unique : forall s t1 t2 c1 c2, InvL s -> nth_error (p_pcs s) t1 = Some c1 -> nth_error (p_pcs s) t2 = Some c2 -> locked c1 = true -> locked c2 = true -> t1 = t2.
Proof. intros s t1 t2 c1 c2 [L1 _] E1 E2 H1 H2. apply (L1 _ _ E1) in H1. apply (L1 _ _ E2) in H2. congruence. Qed.

(** ** Closed for good *)
Lemma closed_stays : forall s a s', pstep s a = Some s' -> p_closed s = true -> p_closed s' = true.
Proof. intros s a s' T C. apply pstep_inv in T. destruct T; cbn; auto. Qed.
Lemma closed_step_log : forall s a s', InvL s -> p_closed s = true -> pstep s a = Some s' -> p_log s' = p_log s \/ exists e, p_log s' = p_log s ++ [e] /\ forall t o, e <> Got t o.
Proof.
  intros s a s' [L1 L2] C T. apply pstep_inv in T. destruct T; cbn; auto.
  - exfalso. specialize (L2 C _ _ H). discriminate.
  - right. eexists. split; eauto. discriminate.
  - right. eexists. split; eauto. discriminate.
Qed.
Lemma closed_runs_log : forall l s s', InvL s -> p_closed s = true -> pruns s l = Some s' -> exists es, p_log s' = p_log s ++ es /\ forall t o, ~ In (Got t o) es.
Proof.
  induction l as [|a l IH]; intros s s' I C R; cbn in R.
  - injection R as <-. exists []. rewrite app_nil_r. auto.
  - destruct (pstep s a) as [s1|] eqn:E; [|discriminate]. destruct (IH s1 s') as (es & Hes & Hn); eauto using InvL_step, closed_stays.
    destruct (closed_step_log _ _ _ I C E) as [Z|(e & Z & Ne)]; rewrite Z in Hes.
    + eauto.
    + exists (e :: es). rewrite Hes, <- app_assoc. split; auto. intros t o [X|X]; [now apply (Ne t o)|now apply (Hn t o)].
Qed.
Definition log_ok (s : pool) : Prop := (forall t ok, In (PoolClosed t ok) (p_log s) -> p_closed s = true) /\ (forall t ok, nth_error (p_pcs s) t = Some (PRet ok) -> p_closed s = true).
Lemma log_ok_step : forall s a s', log_ok s -> pstep s a = Some s' -> log_ok s'.
Proof.
  intros s a s' [A B] T. split.
  - intros t ok X. assert (C : In (PoolClosed t ok) (p_log s) \/ exists t, nth_error (p_pcs s) t = Some (PRet ok)).
    { pose proof T as T'. apply pstep_inv in T'. destruct T'; cbn in X; auto; apply in_app_or in X; destruct X as [X|[X|[]]]; auto; try discriminate.
      injection X as <- <-. eauto. }
    eapply closed_stays; eauto. destruct C as [C|(t' & C)]; eauto.
  - intros t ok X. pose proof T as T'. apply pstep_inv in T'.
    destruct T'; cbn in X |- *; auto; try (eapply B; now eauto);
      try (apply pc_upd in X; destruct X as [[_ X]|[_ X]]; [try discriminate X; try (destruct (p_closed s); discriminate X); destruct os; discriminate X|eapply B; eauto]).
Qed.
Lemma log_ok_reach : forall P s, reach P s -> log_ok s.
Proof.
  intros P s R. induction R; [|eapply log_ok_step; eauto]. split; cbn; [intros t ok []|]. intros t ok X. apply nth_error_In, repeat_spec in X. discriminate.
Qed.

(** ** Network connections that were opened get closed *)
Record InvS (s : pool) : Prop := {
  s_ref : forall n c, nth_error (p_nets s) n = Some c -> n_ready c = true -> exists r ob, In r (p_refs s) /\ nth_error (p_heap s) r = Some ob /\ o_net ob = Some n;
  s_shut : forall r ob n, In r (p_refs s) -> nth_error (p_heap s) r = Some ob -> o_closed ob = true -> o_net ob = Some n -> exists c, nth_error (p_nets s) n = Some c /\ n_shut c = true;
  s_bound : forall r ob n, In r (p_refs s) -> nth_error (p_heap s) r = Some ob -> o_net ob = Some n -> n < length (p_nets s);
  s_loop : forall t os, nth_error (p_pcs s) t = Some (PLoop os) -> forall r ob, In r (p_refs s) -> nth_error (p_heap s) r = Some ob -> In r os \/ o_closed ob = true;
  s_done : (exists t, nth_error (p_pcs s) t = Some (PRet true)) \/ (exists t, In (PoolClosed t true) (p_log s)) ->
     forall r ob, In r (p_refs s) -> nth_error (p_heap s) r = Some ob -> o_closed ob = true }.

(** what a step does to connections that are referenced *)
Lemma step_refd : forall s a s', InvB s -> pstep s a = Some s' -> forall r ob, In r (p_refs s) -> nth_error (p_heap s) r = Some ob ->
  exists ob', nth_error (p_heap s') r = Some ob' /\ o_net ob' = o_net ob /\ (o_closed ob = true -> o_closed ob' = true) /\
    (o_closed ob = false -> o_closed ob' = true -> forall n c, o_net ob = Some n -> nth_error (p_nets s) n = Some c -> exists c', nth_error (p_nets s') n = Some c' /\ n_shut c' = true).
Proof.
  intros s a s' I T r ob Hr Er. apply pstep_inv in T. pose proof I as [I1 I2 I3 I4 I5 I6]. pose proof (I3 r Hr) as Gr. pose proof (I1 r) as Sr.
  assert (NK : K s r = 0) by lia. assert (Lr : r < length (p_heap s)) by (apply nth_error_Some; congruence).
  assert (Same : forall s', p_heap s' = p_heap s -> exists ob', nth_error (p_heap s') r = Some ob' /\ o_net ob' = o_net ob /\ (o_closed ob = true -> o_closed ob' = true) /\
    (o_closed ob = false -> o_closed ob' = true -> forall n c, o_net ob = Some n -> nth_error (p_nets s) n = Some c -> exists c', nth_error (p_nets s') n = Some c' /\ n_shut c' = true)).
  { intros s'' ->. exists ob. repeat split; auto. congruence. }
  assert (Other : forall o b b' l s', nth_error (p_heap s) o = Some b -> K s o > 0 -> p_heap s' = upd o b' (p_heap s) ++ l -> exists ob', nth_error (p_heap s') r = Some ob' /\ o_net ob' = o_net ob /\ (o_closed ob = true -> o_closed ob' = true) /\
    (o_closed ob = false -> o_closed ob' = true -> forall n c, o_net ob = Some n -> nth_error (p_nets s) n = Some c -> exists c', nth_error (p_nets s') n = Some c' /\ n_shut c' = true)).
  { intros o b b' l s'' Eo Ko ->. exists ob. repeat split; auto; [|congruence]. rewrite nth_error_app1 by (now rewrite length_upd). rewrite nth_upd_other; auto. intros ->. lia. }
  assert (Upd : forall o b b' l s', nth_error (p_heap s) o = Some b -> p_heap s' = upd o b' (p_heap s) ++ l -> o_net b' = o_net b -> (o_closed b = true -> o_closed b' = true) ->
    (o_closed b = false -> o_closed b' = true -> forall n c, o_net b = Some n -> nth_error (p_nets s) n = Some c -> exists c', nth_error (p_nets s') n = Some c' /\ n_shut c' = true) ->
    exists ob', nth_error (p_heap s') r = Some ob' /\ o_net ob' = o_net ob /\ (o_closed ob = true -> o_closed ob' = true) /\
    (o_closed ob = false -> o_closed ob' = true -> forall n c, o_net ob = Some n -> nth_error (p_nets s) n = Some c -> exists c', nth_error (p_nets s') n = Some c' /\ n_shut c' = true)).
  { intros o b b' l s'' Eo -> Hn Hc Hs. destruct (Nat.eq_dec r o) as [->|N].
    - rewrite Eo in Er. injection Er as ->. exists b'. rewrite nth_error_app1 by (now rewrite length_upd). rewrite (nth_upd_same _ _ _ _ _ Eo). auto.
    - exists ob. repeat split; auto; [|congruence]. rewrite nth_error_app1 by (now rewrite length_upd). rewrite nth_upd_other; auto. }
  assert (Shut : forall n ns c, grows (p_nets s) ns -> nth_error (p_nets s) n = Some c -> exists c', nth_error (shut_net (Some n) ns) n = Some c' /\ n_shut c' = true).
  { intros n ns c Gn En. destruct (Gn _ _ En) as (c1 & E1 & _). eapply shut_shut; eauto. }
  destruct T as [t E|t E|t E L|t E L|t o q E C|t r0 o b n E Eo En|t d o b E Eo|t d o b E Eo|t d o b e E Eo|t d o b e1 e2 E Eo|t o os E L|t o os E L
     |t o E|t E|t ok E|t o m es b E Eo Hh Hk Hc|t o m es b E Eo Hh Hk Hes Hc Hp|t o m es b E Eo Hh Hk Hes Hc Hp|t r0 E|t r0 o os b E Eo Hc|t o os b E Eo Hc|t o os b E Eo Hc|t o os b E Eo Hc];
    try (apply Same; reflexivity);
    try (eapply (Other o b); [eauto|now apply (have_kept _ _ _ E)|cbn; try reflexivity; symmetry; apply app_nil_r]).
  - eapply (Upd o b _ []); [eauto|cbn; symmetry; apply app_nil_r|now destruct m|now destruct m|]. destruct m; cbn; intros; congruence.
  - eapply (Upd o b _ _); [eauto|cbn; apply put_back_heap|now destruct m|now destruct m|]. destruct m; cbn; intros; congruence.
  - eapply (Upd o b _ []); [eauto|cbn; symmetry; apply app_nil_r|now destruct m|now destruct m|]. cbn. intros _ _ n c En Ec. rewrite En. eapply Shut; eauto using grows_met.
  - eapply (Upd o b _ []); [eauto|cbn; symmetry; apply app_nil_r|auto|auto|]. cbn. intros; congruence.
  - eapply (Upd o b _ []); [eauto|cbn; symmetry; apply app_nil_r|auto|auto|]. cbn. intros _ _ n c En Ec. rewrite En. eapply Shut; eauto using grows_refl.
  - eapply (Upd o b _ []); [eauto|cbn; symmetry; apply app_nil_r|auto|auto|]. cbn. intros; congruence.
  - eapply (Upd o b _ []); [eauto|cbn; symmetry; apply app_nil_r|auto|auto|]. cbn. intros _ _ n c En Ec. rewrite En. eapply Shut; eauto using grows_refl.
Qed.

Lemma step_refs : forall s a s', pstep s a = Some s' ->
  p_refs s' = p_refs s \/ exists t o ob, nth_error (p_pcs s) t = Some (OHave o) /\ nth_error (p_heap s) o = Some ob /\ p_refs s' = p_refs s ++ [o] /\
    p_heap s' = upd o (o_with_net (Some (length (p_nets s))) ob) (p_heap s) /\ p_nets s' = p_nets s ++ [Netc true false false] /\ p_closed s' = p_closed s /\ p_log s' = p_log s /\ p_pcs s' = upd t (OGive o) (p_pcs s).
Proof. intros s a s' T. apply pstep_inv in T. destruct T; cbn; auto. right. exists t, o, ob. repeat split; auto. Qed.
(** network connections whose INIT succeeded after a step *)
Lemma step_ready : forall s a s', pstep s a = Some s' -> forall n c, nth_error (p_nets s') n = Some c -> n_ready c = true ->
  (exists c0, nth_error (p_nets s) n = Some c0 /\ n_ready c0 = true) \/ n = length (p_nets s) /\ p_nets s' = p_nets s ++ [Netc true false false].
Proof.
  intros s a s' T n c E R. pose proof (step_grows _ _ _ T) as Gr. destruct (nth_error (p_nets s) n) as [c0|] eqn:E0.
  - destruct (Gr _ _ E0) as (c' & E' & R' & _). left. exists c0. split; auto. congruence.
  - right. apply pstep_inv in T. apply nth_error_None in E0. assert (L : n < length (p_nets s')) by (apply nth_error_Some; congruence).
    destruct T; cbn in *; rewrite ?length_shut, ?length_met, ?app_length in L; cbn in L; try lia; (split; [lia|]); auto;
      rewrite nth_error_app2 in E by lia; replace (n - length (p_nets s)) with 0 in E by lia; cbn in E; injection E as <-; discriminate.
Qed.
Lemma InvS_new max n : InvS (new_pool max n).
Proof.
  split; try (cbn; intros; contradiction).
  intros m c E. cbn in E. destruct m; discriminate.
Qed.
Lemma step_ploop : forall s a s', pstep s a = Some s' -> forall t os, nth_error (p_pcs s') t = Some (PLoop os) ->
  (nth_error (p_pcs s) t = Some (PLoop os)) \/ (os = p_refs s /\ p_refs s' = p_refs s) \/
  (exists o, nth_error (p_pcs s) t = Some (PLoop (o :: os)) /\ exists ob, nth_error (p_heap s') o = Some ob /\ o_closed ob = true).
Proof.
  intros s a s' T t' os' X. apply pstep_inv in T.
  destruct T as [t E|t E|t E L|t E L|t o q E C|t r o b n E Eo En|t d o b E Eo|t d o b E Eo|t d o b e E Eo|t d o b e1 e2 E Eo|t o os E L|t o os E L
     |t o E|t E|t ok E|t o m es b E Eo Hh Hk Hc|t o m es b E Eo Hh Hk Hes Hc Hp|t o m es b E Eo Hh Hk Hes Hc Hp|t r E|t r o os b E Eo Hc|t o os b E Eo Hc|t o os b E Eo Hc|t o os b E Eo Hc];
    cbn in X; auto; apply pc_upd in X; (destruct X as [[-> X]|[_ X]]; [|auto]); try discriminate X; try (destruct (p_closed s); discriminate X); try (destruct os; discriminate X).
  - injection X as <-. auto.
  - injection X as <-. right. right. exists o. split; auto. eexists. cbn. rewrite (nth_upd_same _ _ _ _ _ Eo). split; eauto.
  - injection X as <-. right. right. exists o. split; auto. eexists. cbn. rewrite (nth_upd_same _ _ _ _ _ Eo). split; eauto.
Qed.
Lemma InvS_step : forall s a s', InvB s -> InvL s -> log_ok s -> InvS s -> pstep s a = Some s' -> InvS s'.
Proof.
  intros s a s' I L LO [S1 S2 S3 S4 S5] T. pose proof (InvB_step _ _ _ I T) as I'. pose proof (InvL_step _ _ _ L T) as L'.
  pose proof (step_refd _ _ _ I T) as D. pose proof (step_grows _ _ _ T) as Gr.
  assert (Back : forall r, In r (p_refs s) -> exists ob, nth_error (p_heap s) r = Some ob).
  { intros r Hr. assert (Lr : r < length (p_heap s)) by (apply (b_in _ I); pose proof (b_refs _ I r Hr); lia).
    destruct (nth_error (p_heap s) r) eqn:E; eauto. apply nth_error_None in E. lia. }
  (* a reference after the step is old, with an old object, or the connection just initialised *)
  assert (Ref : forall r ob', In r (p_refs s') -> nth_error (p_heap s') r = Some ob' ->
     (In r (p_refs s) /\ exists ob, nth_error (p_heap s) r = Some ob /\ o_net ob' = o_net ob /\ (o_closed ob = true -> o_closed ob' = true) /\
        (o_closed ob = false -> o_closed ob' = true -> forall n c, o_net ob = Some n -> nth_error (p_nets s) n = Some c -> exists c', nth_error (p_nets s') n = Some c' /\ n_shut c' = true)) \/
     (o_net ob' = Some (length (p_nets s)) /\ p_nets s' = p_nets s ++ [Netc true false false] /\ o_closed ob' = false /\ p_closed s' = false /\ exists t, nth_error (p_pcs s') t = Some (OGive r))).
  { intros r ob' Hr Er.
    assert (Q : In r (p_refs s) \/ exists t ob, nth_error (p_pcs s) t = Some (OHave r) /\ nth_error (p_heap s) r = Some ob /\
      p_heap s' = upd r (o_with_net (Some (length (p_nets s))) ob) (p_heap s) /\ p_nets s' = p_nets s ++ [Netc true false false] /\ p_closed s' = p_closed s /\ p_pcs s' = upd t (OGive r) (p_pcs s)).
    { destruct (step_refs _ _ _ T) as [Z|(t & o & ob & Ep & Eo & Z & Zh & Zn & Zc & Zl & Zp)]; rewrite Z in Hr; auto.
      apply in_app_or in Hr. destruct Hr as [Hr|[<-|[]]]; auto. right. exists t, ob. auto 7. }
    destruct Q as [Hr0|(t & ob & Ep & Eo & Zh & Zn & Zc & Zp)].
    { destruct (Back _ Hr0) as (ob & Eb). destruct (D r ob Hr0 Eb) as (ob2 & E2 & N2 & C2 & X2). rewrite Er in E2. injection E2 as <-.
      left. split; auto. exists ob. split; [exact Eb|split; [exact N2|split; [exact C2|exact X2]]]. }
    right.
    rewrite Zh, (nth_upd_same _ _ _ _ _ Eo) in Er. injection Er as <-. cbn. repeat split; auto.
    - apply (b_good _ I r ob); auto. eapply have_kept; eauto.
    - rewrite Zc. destruct (p_closed s) eqn:C; auto. pose proof (l_closed _ L C _ _ Ep). discriminate.
    - exists t. rewrite Zp. eapply nth_upd_same; eauto. }
  split.
  - intros n c E R. destruct (step_ready _ _ _ T n c E R) as [(c0 & E0 & R0)|[-> Zn]].
    + destruct (S1 _ _ E0 R0) as (r & ob & Hr & Eb & En). destruct (D r ob Hr Eb) as (ob' & E' & N' & _). exists r, ob'. repeat split; auto; [|congruence].
      destruct (step_refs _ _ _ T) as [Z|(t & o & b & _ & _ & Z & _)]; rewrite Z; auto. apply in_or_app. auto.
    + destruct (step_refs _ _ _ T) as [Z|(t & o & ob & Ep & Eo & Z & Zh & _)].
      * exfalso. pose proof T as T'. apply pstep_inv in T'.
        destruct T'; cbn in Zn, Z; try (apply (f_equal (@length netc)) in Zn; rewrite ?length_shut, ?length_met, ?app_length in Zn; cbn in Zn; lia).
        -- apply (f_equal (@length nat)) in Z. rewrite app_length in Z. cbn in Z. lia.
        -- apply app_inv_head in Zn. discriminate.
        -- apply app_inv_head in Zn. discriminate.
      * exists o. eexists. rewrite Z, Zh, (nth_upd_same _ _ _ _ _ Eo). repeat split; eauto. apply in_or_app. cbn. auto.
  - intros r ob' n Hr Er Cl En. destruct (Ref r ob' Hr Er) as [(Hr0 & ob & Eb & N' & C' & X')|(N' & _ & Z & _)]; [|congruence].
    rewrite N' in En. destruct (o_closed ob) eqn:Cob.
    + destruct (S2 r ob n Hr0 Eb Cob En) as (c & Ec & Sc). destruct (Gr _ _ Ec) as (c' & Ec' & _ & Q & _). eauto.
    + pose proof (S3 r ob n Hr0 Eb En) as Ln. destruct (nth_error (p_nets s) n) as [c|] eqn:Ec; [|apply nth_error_None in Ec; lia]. eapply X'; eauto.
  - intros r ob' n Hr Er En. assert (Len : length (p_nets s) <= length (p_nets s')).
    { destruct (Nat.le_gt_cases (length (p_nets s)) (length (p_nets s'))) as [|B]; auto. exfalso.
      destruct (nth_error (p_nets s) (length (p_nets s'))) as [c|] eqn:Ec; [|apply nth_error_None in Ec; lia].
      destruct (Gr _ _ Ec) as (c' & Ec' & _). assert (length (p_nets s') < length (p_nets s')) by (apply nth_error_Some; congruence). lia. }
    destruct (Ref r ob' Hr Er) as [(Hr0 & ob & Eb & N' & _)|(N' & Zn & _)].
    + assert (n < length (p_nets s)) by (eapply S3; eauto; congruence). lia.
    + rewrite N' in En. injection En as <-. rewrite Zn, app_length. cbn. lia.
  - intros t os E r ob' Hr Er. destruct (Ref r ob' Hr Er) as [(Hr0 & ob & Eb & N' & C' & _)|(_ & _ & _ & _ & t2 & E2)].
    + destruct (step_ploop _ _ _ T _ _ E) as [Z|[[-> Z]|(o & Z & b & Ez & Cz)]].
      * destruct (S4 _ _ Z r ob Hr0 Eb); auto.
      * auto.
      * destruct (S4 _ _ Z r ob Hr0 Eb) as [[->|?]|?]; auto. right. congruence.
    + exfalso. assert (t = t2) by (apply (lock_unique _ _ _ _ _ L' E E2); auto). subst. congruence.
  - intros X r ob' Hr Er. destruct (Ref r ob' Hr Er) as [(Hr0 & ob & Eb & N' & C' & _)|(_ & _ & _ & Z & _)].
    + apply C'. destruct (o_closed ob) eqn:Cob; auto. exfalso.
      assert (Y : ((exists t, nth_error (p_pcs s) t = Some (PRet true)) \/ (exists t, In (PoolClosed t true) (p_log s))) \/ exists t, nth_error (p_pcs s) t = Some (PLoop [])).
      { pose proof T as T'. apply pstep_inv in T'. destruct X as [[t X]|[t X]].
        - destruct T'; cbn in X; eauto 6; apply pc_upd in X; (destruct X as [[-> X]|[_ X]]; [|eauto 6]); try discriminate X; try (destruct (p_closed s); discriminate X); try (destruct os; discriminate X).
        - destruct T'; cbn in X; eauto 6; apply in_app_or in X; destruct X as [X|[X|[]]]; eauto 6; try discriminate. injection X as -> ->. eauto 6. }
      destruct Y as [Y|[t Y]].
      * pose proof (S5 Y r ob Hr0 Eb). congruence.
      * destruct (S4 _ _ Y r ob Hr0 Eb) as [[]|]; congruence.
    + exfalso. destruct (log_ok_step _ _ _ LO T) as [A B]. destruct X as [[t X]|[t X]]; [apply B in X|apply A in X]; congruence.
Qed.
Lemma InvS_reach : forall P s, reach P s -> InvS s.
Proof. intros P s R. induction R; [apply InvS_new|eapply InvS_step; eauto using InvB_reach, InvL_reach, log_ok_reach]. Qed.

(** ** Broken connections, for careful callers and when no call meets the end of the stream *)
Definition broken_net (s : pool) (n : nat) : Prop := exists c, nth_error (p_nets s) n = Some c /\ n_broken c = true.
Definition InvW (s : pool) : Prop := forall x ob n, sum s x > 0 -> nth_error (p_heap s) x = Some ob -> o_net ob = Some n -> broken_net s n -> O s x > 0 /\ o_err ob = true.

Definition flawless (s : pool) (a : action) : bool := orderly s a && prompt a.
Lemma InvW_new max n : InvW (new_pool max n).
Proof. intros x ob m _ H Hn. cbn in H. apply nth_error_In, repeat_spec in H. subst. discriminate. Qed.
Lemma InvW_step : forall s a s', Inv s -> InvW s -> flawless s a = true -> pstep s a = Some s' -> InvW s'.
Proof.
  intros s a s' I W A T x ob n Hx Ex En B. apply andb_prop in A. destruct A as [A Pr]. pose proof (Inv_step _ _ _ I A T) as I'. apply pstep_inv in T.
  pose proof I as [I1 I2 I3 I4 I5 I6 I7 I8].
  assert (Low : forall t c c', nth_error (p_pcs s) t = Some c -> p_pcs s' = upd t c' (p_pcs s) -> p_chan s' = p_chan s -> p_out s' = p_out s ->
     forall y, sum s' y + cn y (mid c) + cn y (give c) = sum s y + cn y (mid c') + cn y (give c') /\ O s' y = O s y).
  { intros t c c' E Ep Ec Eh y. unfold sum, K, G, O, kept, gives. rewrite Ep, Ec, Eh, !cn_app. pose proof (cn_upd mid _ _ _ c' y E). pose proof (cn_upd give _ _ _ c' y E). lia. }
  assert (Keep : forall ob0, sum s x > 0 -> O s x <= O s' x -> nth_error (p_heap s) x = Some ob0 -> o_net ob = o_net ob0 -> (o_err ob0 = true -> o_err ob = true) -> broken_net s n -> O s' x > 0 /\ o_err ob = true).
  { intros ob0 Sx Ox E0 N0 Er B0. destruct (W x ob0 n) as [W1 W2]; auto; [congruence|]. split; auto. lia. }
  assert (App : forall l, p_nets s' = p_nets s ++ l -> n < length (p_nets s) -> broken_net s n).
  { intros l Z Ln. destruct B as (c & Ec & Bc). rewrite Z, nth_error_app1 in Ec by auto. exists c. auto. }
  assert (Fresh : forall b, p_nets s' = p_nets s ++ [Netc b false false] -> n = length (p_nets s) -> False).
  { intros b Z ->. destruct B as (c & Ec & Bc). rewrite Z, nth_error_app2, Nat.sub_diag in Ec by auto. cbn in Ec. injection Ec as <-. discriminate. }
  destruct T as [t E|t E|t E L|t E L|t o q E C|t r o b n0 E Eo En0|t d o b E Eo|t d o b E Eo|t d o b e E Eo|t d o b e1 e2 E Eo|t o os E L|t o os E L
     |t o E|t E|t ok E|t o m es b E Eo Hh Hk Hc|t o m es b E Eo Hh Hk Hes Hc Hp|t o m es b E Eo Hh Hk Hes Hc Hp|t r E|t r o os b E Eo Hc|t o os b E Eo Hc|t o os b E Eo Hc|t o os b E Eo Hc].
  - destruct (Low _ _ _ E eq_refl eq_refl eq_refl x) as [X Y]. cbn [mid give] in X. rewrite ?cn_nil in X. eapply Keep; eauto; lia.
  - destruct (Low _ _ _ E eq_refl eq_refl eq_refl x) as [X Y]. cbn [mid give] in X. rewrite ?cn_nil in X. eapply Keep; eauto; lia.
  - destruct (Low _ _ _ E eq_refl eq_refl eq_refl x) as [X Y]. destruct (p_closed s); cbn [mid give] in X; rewrite ?cn_nil in X; eapply Keep; eauto; lia.
  - destruct (Low _ _ _ E eq_refl eq_refl eq_refl x) as [X Y]. cbn [mid give] in X. rewrite ?cn_nil in X. eapply Keep; eauto; lia.
  - eapply Keep; eauto. pose proof (cn_upd mid _ _ _ (OHave o) x E). pose proof (cn_upd give _ _ _ (OHave o) x E). cbn [mid give] in *. counting; rewrite C in *; counting.
  - destruct (Low _ _ _ E eq_refl eq_refl eq_refl x) as [X Y]. cbn [mid give] in X. rewrite ?cn_nil in X. eapply Keep; eauto; lia.
  - destruct (Low _ _ _ E eq_refl eq_refl eq_refl x) as [X Y]. cbn [mid give] in X. rewrite ?cn_nil in X. cbn in Ex. apply (hl_upd _ _ _ _ _ _ Eo) in Ex. destruct Ex as [[-> ->]|[N Ex]].
    + exfalso. cbn in En. injection En as <-. eapply Fresh; eauto. reflexivity.
    + eapply Keep; eauto; try lia. eapply App; [reflexivity|]. eapply (I7 x); eauto. unfold sum in *. lia.
  - destruct (Low _ _ _ E eq_refl eq_refl eq_refl x) as [X Y]. cbn [mid give] in X. rewrite ?cn_nil, ?cn_cons in X. pose proof (have_kept _ _ _ E) as Ko. pose proof (I1 o) as Io.
    cbn in Ex. apply hl_app in Ex. rewrite length_upd in Ex. destruct Ex as [[-> ->]|[Lx Ex]].
    + exfalso. destruct (reclaimed_net (o_with_net None b)) as [Z|Z]; rewrite Z in En; discriminate.
    + apply (hl_upd _ _ _ _ _ _ Eo) in Ex. destruct (Nat.eq_dec (length (p_heap s)) x); [lia|]. destruct (Nat.eq_dec o x) as [->|N2]; [exfalso; unfold sum in *; lia|].
      destruct Ex as [[-> _]|[N Ex]]; [congruence|]. eapply Keep; eauto; try lia.
  - destruct (Low _ _ _ E eq_refl eq_refl eq_refl x) as [X Y]. cbn [mid give] in X. rewrite ?cn_nil, ?cn_cons in X. pose proof (have_kept _ _ _ E) as Ko. pose proof (I1 o) as Io.
    cbn in Ex. apply hl_app in Ex. rewrite length_upd in Ex. destruct Ex as [[-> ->]|[Lx Ex]].
    + exfalso. destruct (reclaimed_net (o_with_err e (o_with_net (Some (length (p_nets s))) b))) as [Z|Z]; rewrite Z in En; [discriminate|]. cbn in En. injection En as <-. eapply Fresh; reflexivity.
    + apply (hl_upd _ _ _ _ _ _ Eo) in Ex. destruct (Nat.eq_dec (length (p_heap s)) x); [lia|]. destruct (Nat.eq_dec o x) as [->|N2]; [exfalso; unfold sum in *; lia|].
      destruct Ex as [[-> _]|[N Ex]]; [congruence|]. eapply Keep; eauto; try lia. eapply App; [reflexivity|]. eapply (I7 x); eauto. unfold sum in *. lia.
  - cbn in A. discriminate.
  - eapply Keep; eauto. destruct os as [|n0 os];
      [pose proof (cn_upd mid _ _ _ OFail x E); pose proof (cn_upd give _ _ _ OFail x E)|pose proof (cn_upd mid _ _ _ (OPut (n0 :: os)) x E); pose proof (cn_upd give _ _ _ (OPut (n0 :: os)) x E)]; cbn [mid give] in *; counting.
  - eapply Keep; eauto. destruct os as [|n0 os];
      [pose proof (cn_upd mid _ _ _ Idle x E); pose proof (cn_upd give _ _ _ Idle x E)|pose proof (cn_upd mid _ _ _ (CPut (n0 :: os)) x E); pose proof (cn_upd give _ _ _ (CPut (n0 :: os)) x E)]; cbn [mid give] in *; counting.
  - eapply Keep; eauto; pose proof (cn_upd mid _ _ _ Idle x E); pose proof (cn_upd give _ _ _ Idle x E); cbn [mid give] in *; counting.
  - destruct (Low _ _ _ E eq_refl eq_refl eq_refl x) as [X Y]. cbn [mid give] in X. rewrite ?cn_nil in X. eapply Keep; eauto; lia.
  - destruct (Low _ _ _ E eq_refl eq_refl eq_refl x) as [X Y]. cbn [mid give] in X. rewrite ?cn_nil in X. eapply Keep; eauto; lia.
  - unfold orderly in A. cbn in A. rewrite andb_true_r in A. apply andb_prop in A. destruct A as [A1 _]. apply existsb_in, cn_in in A1. fold (O s o) in A1.
    change (sum s x > 0) in Hx. change (O s x > 0 /\ o_err ob = true).
    cbn in Ex. apply (hl_upd _ _ _ _ _ _ Eo) in Ex. destruct Ex as [[-> ->]|[N Ex]].
    + destruct m; cbn in *; try discriminate; [eapply W; eauto|auto].
    + eapply W; eauto. destruct m; cbn in Pr; try discriminate; [exact B|]. destruct B as (c & Ec & Bc). cbn in Ec. apply broken_break in Ec; auto. destruct Ec as [Z|Z]; [|exact Z].
      exfalso. apply N. eapply (I8 x o ob b n); eauto; unfold sum in *; lia.
  - unfold orderly in A. cbn in A. rewrite andb_true_r in A. apply andb_prop in A. destruct A as [A1 A2]. apply existsb_in, cn_in in A1. fold (O s o) in A1.
    apply Nat.leb_le in A2. destruct es as [|e [|e2 es]]; try congruence; [|cbn in A2; lia]. cbn [put_back fst snd] in Ex, Hx |- *. rewrite length_upd in Ex, Hx |- *.
    pose proof (I1 o) as Io. pose proof (cn_upd mid _ _ _ (CPut [length (p_heap s)]) x E) as X1. pose proof (cn_upd give _ _ _ (CPut [length (p_heap s)]) x E) as X2. cbn [mid give] in X1, X2.
    assert (X : (if Nat.eq_dec (length (p_heap s)) x then 1 else 0) + (if Nat.eq_dec x o then 0 else sum s x) = sum (with_nets (met_nets m b (p_nets s)) (with_heap (upd o (met_obj m b) (p_heap s) ++ [reclaimed (o_with_err e (met_obj m b))])
          (with_out (remove_nat o (p_out s)) (with_pc t (CPut [length (p_heap s)]) s)))) x).
    { clear - X1 X2 Io A1. unfold sum, K, G, O, kept, gives in *. cbn. rewrite !cn_app, cn_remove in *. rewrite !cn_cons, !cn_nil in *. destruct (Nat.eq_dec x o); subst; destruct (Nat.eq_dec (length (p_heap s)) _); lia. }
    cbn in Ex. apply hl_app in Ex. rewrite length_upd in Ex. destruct Ex as [[-> ->]|[Lx Ex]].
    + exfalso. destruct e; [discriminate|]. destruct m; cbn in Pr; try discriminate. cbn in Hk. destruct (o_err b) eqn:Eb; [discriminate|].
      unfold reclaimed in En. cbn in En. rewrite Hc in En. cbn in En.
      destruct (W o b n) as [_ W2]; auto; [unfold sum; lia|congruence].
    + apply (hl_upd _ _ _ _ _ _ Eo) in Ex. destruct (Nat.eq_dec x o) as [->|No]; [exfalso; destruct (Nat.eq_dec (length (p_heap s)) o); lia|].
      destruct Ex as [[? _]|[_ Ex]]; [congruence|]. destruct (Nat.eq_dec (length (p_heap s)) x); [lia|]. rewrite <- X in Hx. cbn in Hx.
      assert (Bs : broken_net s n). { destruct m; cbn in Pr; try discriminate; [exact B|]. destruct B as (c & Ec & Bc). cbn in Ec. apply broken_break in Ec; auto. destruct Ec as [Z|Z]; [|exact Z].
        exfalso. apply No. eapply (I8 x o ob b n); eauto; unfold sum in *; lia. }
      destruct (W x ob n) as [W1 W2]; auto. split; auto. unfold O. cbn. rewrite cn_remove. destruct (Nat.eq_dec x o); [congruence|exact W1].
  - unfold orderly in A. cbn in A. rewrite andb_true_r in A. apply andb_prop in A. destruct A as [A1 A2]. apply existsb_in, cn_in in A1. fold (O s o) in A1. pose proof (I1 o) as Io.
    assert (X : sum (with_nets (shut_net (o_net b) (met_nets m b (p_nets s))) (with_heap (upd o (o_with_closed (met_obj m b)) (p_heap s)) (with_out (remove_nat o (p_out s)) s))) x = if Nat.eq_dec x o then 0 else sum s x).
    { clear - Io A1. unfold sum, K, G, O, kept, gives in *. cbn. rewrite cn_remove. destruct (Nat.eq_dec x o); subst; lia. }
    rewrite X in Hx. destruct (Nat.eq_dec x o) as [->|No]; [lia|]. cbn in Ex. apply (hl_upd _ _ _ _ _ _ Eo) in Ex. destruct Ex as [[? _]|[_ Ex]]; [congruence|].
    assert (Bs : broken_net s n). { destruct B as (c & Ec & Bc). cbn in Ec. apply broken_shut in Ec; auto. clear c Bc. destruct Ec as (c & Ec & Bc). destruct m; cbn in Pr; try discriminate; [exists c; auto|]. cbn in Ec. apply broken_break in Ec; auto. destruct Ec as [Z|Z]; [|exact Z].
        exfalso. apply No. eapply (I8 x o ob b n); eauto; unfold sum in *; lia. }
    destruct (W x ob n) as [W1 W2]; auto. split; auto. unfold O. cbn. rewrite cn_remove. destruct (Nat.eq_dec x o); [congruence|exact W1].
  - destruct (Low _ _ _ E eq_refl eq_refl eq_refl x) as [X Y]. cbn [mid give] in X. rewrite ?cn_nil in X. eapply Keep; eauto; lia.
  - destruct (Low _ _ _ E eq_refl eq_refl eq_refl x) as [X Y]. cbn [mid give] in X. rewrite ?cn_nil in X. cbn in Ex. apply (hl_upd _ _ _ _ _ _ Eo) in Ex. destruct Ex as [[-> ->]|[N Ex]]; eapply Keep; eauto; lia.
  - destruct (Low _ _ _ E eq_refl eq_refl eq_refl x) as [X Y]. cbn [mid give] in X. rewrite ?cn_nil in X. assert (Bs : broken_net s n) by (destruct B as (c & Ec & Bc); exact (broken_shut _ _ _ _ Ec Bc)).
    cbn in Ex. apply (hl_upd _ _ _ _ _ _ Eo) in Ex. destruct Ex as [[-> ->]|[N Ex]]; eapply Keep; eauto; lia.
  - destruct (Low _ _ _ E eq_refl eq_refl eq_refl x) as [X Y]. cbn [mid give] in X. rewrite ?cn_nil in X. cbn in Ex. apply (hl_upd _ _ _ _ _ _ Eo) in Ex. destruct Ex as [[-> ->]|[N Ex]]; eapply Keep; eauto; lia.
  - destruct (Low _ _ _ E eq_refl eq_refl eq_refl x) as [X Y]. cbn [mid give] in X. rewrite ?cn_nil in X. assert (Bs : broken_net s n) by (destruct B as (c & Ec & Bc); exact (broken_shut _ _ _ _ Ec Bc)).
    cbn in Ex. apply (hl_upd _ _ _ _ _ _ Eo) in Ex. destruct Ex as [[-> ->]|[N Ex]]; eapply Keep; eauto; lia.
Qed.
Lemma InvW_reach : forall s, reach flawless s -> InvW s.
Proof.
  intros s R. induction R; [apply InvW_new|eapply InvW_step; eauto].
  apply Inv_reach. eapply reach_weaken; [|eassumption]. intros s0 a0 X. now apply andb_prop in X.
Qed.
