(** C80: the places of a pool.  What is in the channel, what is in use and what calls have in
    their hands add up to the size of the pool, so no goroutine waits while there is something to
    do; but a connection whose Close fails is not put back. *)
From Coq Require Import ZArith List Bool Arith Lia.
From Verif Require Import GoPrims Value Errors Misc Session SessionVoc SessionGen SessionUse Pool PoolInv PoolMore PoolLink PoolLive PropsSession PropsPool.
Import ListNotations.
Open Scope nat_scope.

(** ** Nothing is lost while the pool is open *)
(** the pool has not been closed, and no goroutine is closing it *)
Definition unshut (s : pool) : Prop := p_closed s = false /\ forall t os, nth_error (p_pcs s) t <> Some (PLoop os).
Definition good (ob : obj) : Prop := o_pool ob = true /\ o_closed ob = false.
Record InvQ (s : pool) : Prop := {
  q_len : length (toks s) = p_max s;
  q_pool : forall x ob, sum s x > 0 -> nth_error (p_heap s) x = Some ob -> good ob }.

Lemma unshut_back : forall s a s', pstep s a = Some s' -> unshut s' -> unshut s.
Proof.
  intros s a s' T (U1 & U2). split; [destruct (p_closed s) eqn:C; auto; rewrite <- U1; symmetry; eapply closed_stays; eauto|].
  intros t os0 E. apply pstep_inv in T.
  destruct T; cbn in *; try discriminate U1;
    try solve [eapply U2; exact E];
    match goal with A : nth_error (p_pcs s) ?u = Some _ |- _ => destruct (Nat.eq_dec u t) as [->|Hn] end;
    try solve [rewrite E in *; discriminate];
    try solve [eapply (U2 t); rewrite nth_upd_other by auto; exact E];
    try solve [eapply (U2 t); eapply nth_upd_same; exact E].
Qed.

Lemma InvQ_move : forall s s', InvQ s -> p_max s' = p_max s -> length (toks s') = length (toks s) -> (forall x, sum s' x = sum s x) -> p_heap s' = p_heap s -> InvQ s'.
Proof. intros s s' [Q1 Q2] M L S Hh. split; [congruence|]. intros x ob X E. rewrite S in X. rewrite Hh in E. eauto. Qed.
(** one connection changes *)
Lemma InvQ_upd : forall s s' o ob ob', InvQ s -> p_max s' = p_max s -> length (toks s') = length (toks s) -> (forall x, sum s' x = sum s x) ->
  nth_error (p_heap s) o = Some ob -> p_heap s' = upd o ob' (p_heap s) -> sum s o > 0 -> (good ob -> good ob') -> InvQ s'.
Proof.
  intros s s' o ob ob' [Q1 Q2] M L S Eo Hh Hs G. split; [congruence|]. intros x b X E. rewrite S in X. rewrite Hh in E. apply (hl_upd _ _ _ _ _ _ Eo) in E.
  destruct E as [(-> & ->)|(N & E)]; eauto.
Qed.
(** one connection is replaced by a new one *)
Lemma InvQ_swap : forall s s' o ob ob' nb, InvQ s -> p_max s' = p_max s -> length (toks s') = length (toks s) ->
  nth_error (p_heap s) o = Some ob -> p_heap s' = upd o ob' (p_heap s) ++ [nb] -> sum s o > 0 -> (good ob -> good nb) ->
  sum s' o = 0 -> (forall x, x <> length (p_heap s) -> sum s' x <= sum s x) -> InvQ s'.
Proof.
  intros s s' o ob ob' nb [Q1 Q2] M L Eo Hh Hs G S0 Sx. split; [congruence|]. intros x b X E. rewrite Hh in E. apply hl_app in E. rewrite length_upd in E. destruct E as [(-> & ->)|(Lt & E)]; [eauto|].
  apply (hl_upd _ _ _ _ _ _ Eo) in E. destruct E as [(-> & ->)|(N & E)]; [lia|]. specialize (Sx x ltac:(lia)). eapply (Q2 x); eauto. lia.
Qed.

Lemma InvQ_step : forall s a s', Inv s -> InvQ s -> orderly s a = true -> pstep s a = Some s' -> unshut s' -> InvQ s'.
Proof.
  intros s a s' I Q A T (U1 & U2). pose proof (i_one _ I) as I1. pose proof Q as [Q1 Q2]. apply pstep_inv in T.
  assert (OutK : forall o, In o (p_out s) -> K s o = 0 /\ G s o = 0 /\ O s o = 1).
  { intros o Ho. apply cn_in in Ho. specialize (I1 o). unfold O in *. lia. }
  assert (L0 : sum s (length (p_heap s)) = 0). { pose proof (i_in _ I (length (p_heap s))) as X. unfold sum. lia. }
  destruct T as [t E|t E|t E L|t E L|t o q E C|t r o ob n E Eo En|t d o ob E Eo|t d o ob E Eo|t d o ob e E Eo|t d o ob e1 e2 E Eo|t o os E L|t o os E L
     |t o E|t E|t ok E|t o m es ob E Eo Hh Hk Hc|t o m es ob E Eo Hh Hk Hes Hc Hp|t o m es ob E Eo Hh Hk Hes Hc Hp|t r E|t r o os ob E Eo Hc|t o os ob E Eo Hc|t o os ob E Eo Hc|t o os ob E Eo Hc].
  - apply (InvQ_move s); auto; at_pc E OWait; counting.
  - apply (InvQ_move s); auto; at_pc E PWait; counting.
  - apply (InvQ_move s); auto; destruct (p_closed s); try solve [at_pc E OFail; counting]; at_pc E ORecv; counting.
  - exfalso. eapply (U2 t). cbn. eapply nth_upd_same; eauto.
  - apply (InvQ_move s); auto; at_pc E (OHave o); counting; rewrite C in *; counting.
  - apply (InvQ_move s); auto; at_pc E (OGive o); counting.
  - pose proof (have_kept _ _ _ E) as Ko. match goal with |- InvQ ?s1 => refine (InvQ_upd s s1 o ob _ Q eq_refl _ _ Eo eq_refl _ _) end; try solve [at_pc E (OGive o); counting]; try (unfold sum; lia). intros X. exact X.
  - pose proof (have_kept _ _ _ E) as Ko. specialize (I1 o). assert (o <> length (p_heap s)) by (intros ->; unfold sum in *; lia).
    destruct (reclaimed_good (o_with_net None ob)) as (R1 & R2 & R3).
    match goal with |- InvQ ?s1 => refine (InvQ_swap s s1 o ob _ _ Q eq_refl _ Eo eq_refl _ _ _ _) end; try solve [at_pc E (OPut [length (p_heap s)]); counting]; try (unfold sum; lia).
    + intros (X & _). split; auto.
    + pose proof (cn_upd mid _ _ _ (OPut [length (p_heap s)]) o E). pose proof (cn_upd give _ _ _ (OPut [length (p_heap s)]) o E). cbn [mid give] in *. counting.
  - pose proof (have_kept _ _ _ E) as Ko. specialize (I1 o). assert (o <> length (p_heap s)) by (intros ->; unfold sum in *; lia).
    destruct (reclaimed_good (o_with_err e (o_with_net (Some (length (p_nets s))) ob))) as (R1 & R2 & R3).
    match goal with |- InvQ ?s1 => refine (InvQ_swap s s1 o ob _ _ Q eq_refl _ Eo eq_refl _ _ _ _) end; try solve [at_pc E (OPut [length (p_heap s)]); counting]; try (unfold sum; lia).
    + intros (X & _). split; auto.
    + pose proof (cn_upd mid _ _ _ (OPut [length (p_heap s)]) o E). pose proof (cn_upd give _ _ _ (OPut [length (p_heap s)]) o E). cbn [mid give] in *. counting.
  - cbn in A. discriminate.
  - apply (InvQ_move s); auto; destruct os; try solve [at_pc E OFail; counting]; at_pc E (OPut (n :: os)); counting.
  - apply (InvQ_move s); auto; destruct os; try solve [at_pc E Idle; counting]; at_pc E (CPut (n :: os)); counting.
  - apply (InvQ_move s); auto; at_pc E Idle; counting.
  - apply (InvQ_move s); auto; at_pc E Idle; counting.
  - apply (InvQ_move s); auto; at_pc E Idle; counting.
  - unfold orderly in A. cbn in A. rewrite andb_true_r in A. apply andb_prop in A. destruct A as [A1 A2]. apply existsb_in in A1.
    destruct (OutK _ A1) as (O1 & O2 & O3).
    match goal with |- InvQ ?s1 => refine (InvQ_upd s s1 o ob _ Q eq_refl _ _ Eo eq_refl _ _) end; try solve [unfold sum; lia]; try reflexivity; try (intros; reflexivity). unfold good. destruct m; auto.
  - unfold orderly in A. cbn in A. rewrite andb_true_r in A. apply andb_prop in A. destruct A as [A1 A2]. apply existsb_in in A1.
    destruct (OutK _ A1) as (O1 & O2 & O3). apply Nat.leb_le in A2. destruct es as [|e [|e2 es]]; try congruence; [|cbn in A2; lia].
    cbn [put_back fst snd]. rewrite length_upd. assert (o <> length (p_heap s)) by (intros ->; unfold sum in *; lia).
    destruct (reclaimed_good (o_with_err e (met_obj m ob))) as (R1 & R2 & R3). pose proof (len_remove o (p_out s)) as LR.
    match goal with |- InvQ ?s1 => refine (InvQ_swap s s1 o ob _ _ Q eq_refl _ Eo eq_refl _ _ _ _) end; try solve [at_pc E (CPut [length (p_heap s)]); counting]; try (unfold sum; lia).
    + intros (X & _). split; auto. apply R3. destruct m; auto.
    + pose proof (cn_upd mid _ _ _ (CPut [length (p_heap s)]) o E). pose proof (cn_upd give _ _ _ (CPut [length (p_heap s)]) o E). cbn [mid give] in *. counting; rewrite ?cn_remove in *; counting.
    + intros x Hx. pose proof (cn_upd mid _ _ _ (CPut [length (p_heap s)]) x E). pose proof (cn_upd give _ _ _ (CPut [length (p_heap s)]) x E). cbn [mid give] in *. counting; rewrite ?cn_remove in *; counting.
  - unfold orderly in A. cbn in A. rewrite andb_true_r in A. apply andb_prop in A. destruct A as [A1 A2]. apply existsb_in in A1.
    destruct (OutK _ A1) as (O1 & O2 & O3). destruct (Q2 o ob ltac:(unfold sum; lia) Eo) as (X & _). congruence.
  - discriminate U1.
  - exfalso. eapply (U2 t). cbn. eapply nth_upd_same; eauto.
  - exfalso. eapply (U2 t). cbn. eapply nth_upd_same; eauto.
  - discriminate U1.
  - discriminate U1.
Qed.
Lemma InvQ_new max n : InvQ (new_pool max n).
Proof.
  assert (E : forall f, (forall c, c = Idle -> f c = []) -> flat_map f (repeat Idle n) = @nil nat).
  { intros f Hf. induction n; auto. cbn. rewrite Hf; auto. }
  split.
  - unfold toks, kept, gives. cbn. rewrite !E by now intros c ->. rewrite !app_nil_r, seq_length. reflexivity.
  - intros x ob _ H. cbn in H. apply nth_error_In, repeat_spec in H. subst. split; reflexivity.
Qed.
Lemma InvQ_reach : forall s, reach orderly s -> unshut s -> InvQ s.
Proof.
  intros s R. induction R as [|s a s' R IH A T]; intros U; [apply InvQ_new|]. eapply InvQ_step; eauto using Inv_reach, unshut_back.
Qed.

Lemma holder_step : forall s a s', pstep s a = Some s' -> (forall t, p_lock s = Some t -> t < length (p_pcs s)) -> forall t, p_lock s' = Some t -> t < length (p_pcs s').
Proof.
  intros s a s' T I t0. apply pstep_inv in T.
  destruct T; cbn; rewrite ?length_upd; try discriminate; auto; intros [= <-]; apply nth_error_Some; congruence.
Qed.
Lemma holder : forall P s, reach P s -> forall t, p_lock s = Some t -> t < length (p_pcs s).
Proof. intros P s R. induction R as [|s a s' R IH A T]; [discriminate|]. eapply holder_step; eauto. Qed.

(** ** C80 *)
(** connections a goroutine in OpenPool or reclaim has in its hands *)
Definition held (c : pc) : nat := match c with OHave _ | OGive _ => 1 | OPut os | CPut os => length os | _ => 0 end.
Fixpoint all_held (l : list pc) : nat := match l with [] => 0 | c :: l => held c + all_held l end.
Lemma held_toks : forall l, all_held l = length (flat_map mid l) + length (flat_map give l).
Proof. induction l as [|c l IH]; cbn; auto. rewrite !app_length, IH. destruct c; cbn; lia. Qed.

(** Careful callers, no connection put back twice by initialize: as long as nobody closes the pool, no place is lost. *)
Theorem C80_partial : forall s, reach orderly s -> p_closed s = false -> (forall t os, nth_error (p_pcs s) t <> Some (PLoop os)) ->
  length (p_chan s) + length (p_out s) + all_held (p_pcs s) = p_max s.
Proof.
  intros s R C U. pose proof (q_len _ (InvQ_reach _ R (conj C U))) as L. unfold toks, kept, gives in L. rewrite !app_length in L. rewrite held_toks. lia.
Qed.
Print Assumptions C80_partial.

(** A step inside OpenPool, the pool's Close or reclaim, as opposed to a call by the program *)
Definition inside (a : action) : bool := match a with AOpen _ | APool _ | ACall _ _ _ _ => false | _ => true end.
Lemma all_held_pos : forall l, all_held l > 0 -> exists t c, nth_error l t = Some c /\ held c > 0.
Proof.
  induction l as [|c l IH]; cbn; [lia|]. intros L. destruct (Nat.eq_dec (held c) 0) as [Z|Z]; [|exists 0, c; split; [reflexivity|lia]].
  destruct IH as (t & d & E & P); [lia|]. exists (S t), d. auto.
Qed.
Lemma locked_moves : forall s t c, reach orderly s -> nth_error (p_pcs s) t = Some c -> locked c = true ->
  (exists a s', inside a = true /\ pstep s a = Some s') \/ c = ORecv /\ length (p_out s) = p_max s.
Proof.
  intros s t c R E Lk. pose proof (Inv_reach _ R) as I. pose proof (InvL_reach _ _ R) as IL.
  destruct c; try discriminate Lk.
  - destruct (p_chan s) as [|o q] eqn:C; [|left; exists (ARecv t); eexists; split; [reflexivity|]; cbn; rewrite E, C; reflexivity].
    assert (Cl : p_closed s = false). { destruct (p_closed s) eqn:Cl; auto. pose proof (l_closed _ IL Cl _ _ E). discriminate. }
    assert (U : forall t1 os, nth_error (p_pcs s) t1 <> Some (PLoop os)).
    { intros t1 os E1. pose proof (lock_unique _ _ _ _ _ IL E E1 eq_refl eq_refl). subst. congruence. }
    pose proof (C80_partial _ R Cl U) as Sm. rewrite C in Sm. cbn [length] in Sm.
    destruct (Nat.eq_dec (all_held (p_pcs s)) 0) as [Z|Z]; [right; split; auto; lia|]. left.
    destruct (all_held_pos (p_pcs s)) as (u & d & Eu & P); [lia|].
    assert (D : exists os, d = CPut os).
    { destruct d; cbn in P; try lia; try (pose proof (lock_unique _ _ _ _ _ IL E Eu eq_refl eq_refl); subst; congruence). eauto. }
    destruct D as (os & ->). destruct (C41_partial_no_blocking s u os R (or_introl Eu)) as (s' & T). exists (ASend u), s'. auto.
  - assert (o < length (p_heap s)) by (apply (i_in _ I); pose proof (have_kept _ _ _ E); lia). left. exists (AInit t false IReady). cbn. rewrite E.
    destruct (nth_error (p_heap s) o) as [ob|] eqn:Eo; [|apply nth_error_None in Eo; lia]. destruct (o_net ob); eexists; split; reflexivity.
  - left. destruct (C41_partial_no_blocking s t os R (or_intror E)) as (s' & T). exists (ASend t), s'. auto.
  - left. exists (ARet t). cbn. rewrite E. eexists; split; reflexivity.
  - left. exists (ARet t). cbn. rewrite E. eexists; split; reflexivity.
  - left. destruct (C45_partial_never_held_up _ s t os ShOk R E) as (s' & T). exists (AShut t ShOk), s'. auto.
  - left. exists (ARet t). cbn. rewrite E. eexists; split; reflexivity.
Qed.
(** No deadlock: if any goroutine is in OpenPool, in the pool's Close or returning a connection, then one of them
    can take a step, unless an OpenPool waits and all places of the pool are in use. *)
Theorem C80_progress_partial : forall s t c, reach orderly s -> nth_error (p_pcs s) t = Some c -> c <> Idle ->
  (exists a s', inside a = true /\ pstep s a = Some s') \/
  length (p_out s) = p_max s /\ exists u, nth_error (p_pcs s) u = Some ORecv.
Proof.
  intros s t c R E Hc.
  assert (Hl : forall u, p_lock s = Some u -> (exists a s', inside a = true /\ pstep s a = Some s') \/ length (p_out s) = p_max s /\ exists u, nth_error (p_pcs s) u = Some ORecv).
  { intros u L. pose proof (holder _ _ R _ L) as Lu. destruct (nth_error (p_pcs s) u) as [d|] eqn:Eu; [|apply nth_error_None in Eu; lia].
    assert (Lk : locked d = true) by (apply (l_lock _ (InvL_reach _ _ R) _ _ Eu); exact L).
    destruct (locked_moves _ _ _ R Eu Lk) as [X|(-> & X)]; eauto. }
  assert (Hw : c = OWait \/ c = PWait -> p_lock s = None -> exists a s', inside a = true /\ pstep s a = Some s').
  { intros [->| ->] L; exists (ALock t); cbn; rewrite E, L; eexists; split; reflexivity. }
  destruct (locked c) eqn:Lk; [destruct (locked_moves _ _ _ R E Lk) as [X|(-> & X)]; eauto|].
  destruct c; try discriminate Lk; try congruence.
  - destruct (p_lock s) eqn:L; eauto.
  - left. destruct (C41_partial_no_blocking s t os R (or_introl E)) as (s' & T). exists (ASend t), s'. auto.
  - destruct (p_lock s) eqn:L; eauto.
Qed.
Print Assumptions C80_progress_partial.
(** And then one Close that works is enough: the waiting OpenPool can return a connection. *)
Theorem C80_served_partial : forall s t u x, reach orderly s -> nth_error (p_pcs s) t = Some ORecv -> nth_error (p_pcs s) u = Some Idle -> In x (p_out s) ->
  exists e y s', pruns s [ACall u x MNothing [e]; ASend u; ARecv t; AInit t false IReady; ARet t] = Some s' /\ p_log s' = p_log s ++ [Got t y].
Proof.
  intros s t u x R Et Eu Hx. pose proof (Inv_reach _ R) as I. pose proof (InvL_reach _ _ R) as IL.
  assert (Cl : p_closed s = false). { destruct (p_closed s) eqn:Cl; auto. pose proof (l_closed _ IL Cl _ _ Et). discriminate. }
  assert (U : forall t1 os, nth_error (p_pcs s) t1 <> Some (PLoop os)).
  { intros t1 os E1. pose proof (lock_unique _ _ _ _ _ IL Et E1 eq_refl eq_refl). subst. congruence. }
  pose proof (InvQ_reach _ R (conj Cl U)) as Q.
  assert (Sx : sum s x > 0) by (apply cn_in in Hx; unfold sum, O; lia).
  assert (Lx : x < length (p_heap s)) by (apply (i_in _ I); exact Sx).
  destruct (nth_error (p_heap s) x) as [ob|] eqn:Ex; [|apply nth_error_None in Ex; lia].
  destruct (q_pool _ Q _ _ Sx Ex) as (Gp & Gc).
  assert (Hh : In x (p_handed s)) by (apply cn_in; pose proof (b_out _ (InvB_reach _ _ R) x); apply cn_in in Hx; unfold PoolInv.H, O in *; lia).
  assert (Nut : u <> t) by (intros ->; congruence).
  assert (Lc : length (p_chan s) < p_max s).
  { pose proof (C80_partial _ R Cl U) as Sm. destruct (p_out s); [contradiction|]. cbn [length] in Sm. lia. }
  exists (o_err ob). set (nb := reclaimed (o_with_err (o_err ob) ob)). set (h1 := upd x ob (p_heap s) ++ [nb]).
  assert (T1 : pstep s (ACall u x MNothing [o_err ob]) =
    Some (with_heap h1 (with_pc u (CPut [length (p_heap s)]) (with_out (remove_nat x (p_out s)) (with_nets (p_nets s) s))))).
  { cbn [pstep]. rewrite Eu, Ex, Gp, Gc. apply in_existsb in Hh. rewrite Hh. cbn [errs_ok forallb andb put_back]. rewrite eqb_reflx. cbn [andb]. rewrite length_upd. reflexivity. }
  cbn [pruns]. rewrite T1. clear T1. set (s1 := with_heap _ _).
  assert (T2 : pstep s1 (ASend u) = Some (with_chan (p_chan s ++ [length (p_heap s)]) (with_pc u Idle s1))).
  { cbn [pstep]. apply Nat.ltb_lt in Lc. unfold s1. cbn [p_chan p_max p_pcs with_heap with_pc with_out with_nets]. rewrite Lc, (nth_upd_same _ _ _ _ _ Eu). reflexivity. }
  rewrite T2. clear T2. set (s2 := with_chan _ _).
  assert (Et2 : nth_error (p_pcs s2) t = Some ORecv).
  { unfold s2, s1. cbn. rewrite upd_upd, nth_upd_other by auto. exact Et. }
  assert (Y : exists y q, p_chan s2 = y :: q /\ y < length (p_heap s2)).
  { unfold s2, s1, h1. cbn. rewrite app_length, length_upd. cbn. destruct (p_chan s) as [|y q] eqn:Ec; cbn; [exists (length (p_heap s)), []; split; auto; lia|].
    exists y, (q ++ [length (p_heap s)]). split; auto. assert (y < length (p_heap s)); [|lia]. apply (i_in _ I). unfold K, kept. rewrite Ec. cbn [app]. rewrite cn_cons. destruct (Nat.eq_dec y y); [lia|congruence]. }
  destruct Y as (y & q & Ey & Ly). exists y.
  assert (T3 : pstep s2 (ARecv t) = Some (with_chan q (with_pc t (OHave y) s2))) by (cbn [pstep]; rewrite Et2, Ey; reflexivity).
  rewrite T3. clear T3. set (s3 := with_chan q _).
  assert (Et3 : nth_error (p_pcs s3) t = Some (OHave y)) by (unfold s3; cbn [p_pcs with_chan with_pc]; eapply nth_upd_same; exact Et2).
  assert (T4 : exists s4, pstep s3 (AInit t false IReady) = Some s4 /\ nth_error (p_pcs s4) t = Some (OGive y) /\ p_log s4 = p_log s).
  { cbn [pstep]. rewrite Et3. change (p_heap s3) with (p_heap s2). destruct (nth_error (p_heap s2) y) as [oy|] eqn:Eo; [|apply nth_error_None in Eo; lia].
    destruct (o_net oy); eexists; (split; [reflexivity|split; [cbn [p_pcs with_pc with_nets with_heap with_refs]; eapply nth_upd_same; exact Et3|reflexivity]]). }
  destruct T4 as (s4 & T4 & E4 & L4). rewrite T4. cbn [pstep]. rewrite E4. eexists. split; [reflexivity|]. cbn. now rewrite L4.
Qed.
Print Assumptions C80_served_partial.

(** ** When the place comes back *)
(** A Close that returns nil on a pooled connection (still open) has put it back. *)
Theorem C80_closed_partial : forall N (ops : netops N) mk f w w', c_closed (w_conn w) = false -> c_pooled (w_conn w) = true ->
  step ops mk f CClose w = (Ok (OErr None), w') -> exists es, es <> [] /\ c_reclaims (w_conn w') = c_reclaims (w_conn w) ++ es.
Proof.
  intros N ops mk f w w' Hc Hp E. unfold step, step_body, bind in E. destruct (close ops f w) as [[e| |] w1] eqn:Ec; try discriminate. injection E as -> ->.
  destruct f as [|f]; [discriminate|]. cbn [close] in Ec. unfold close_body in Ec.
  unfold bind at 1, getc at 1 in Ec. cbv beta iota in Ec. rewrite Hc in Ec.
  unfold bind at 1 in Ec.
  assert (A : Recl w (snd (match c_stmt (w_conn w) with None => ret None | Some sid => stmt_close ops f (close ops f) sid end w))).
  { destruct (c_stmt (w_conn w)); [apply recl_stmt_close, recl_close|apply Recl_refl]. }
  match type of A with Recl _ (snd ?m) => destruct m as [[e| |] w2] end; try discriminate. cbn [snd] in A. destruct e as [e|]; [discriminate|].
  unfold bind at 1, getc at 1 in Ec. cbv beta iota in Ec. unfold bind at 1 in Ec.
  assert (B : Recl w2 (snd (match c_tx (w_conn w2) with None => ret None | Some sid => rollback ops f (close ops f) sid end w2))).
  { destruct (c_tx (w_conn w2)); [apply recl_rollback, recl_close|apply Recl_refl]. }
  match type of B with Recl _ (snd ?m) => destruct m as [[e| |] w3] end; try discriminate. cbn [snd] in B. destruct e as [e|]; [discriminate|].
  pose proof (Recl_trans _ _ _ _ A B) as (_ & P & es & C & _).
  unfold bind at 1, getc at 1 in Ec. cbv beta iota in Ec. rewrite P, Hp in Ec. cbn in Ec. injection Ec as <-. cbn. rewrite C, <- app_assoc.
  eexists. split; [|reflexivity]. destruct es; discriminate.
Qed.
Print Assumptions C80_closed_partial.

(** A network that is down: whatever writing does, reading fails. *)
Definition down {N} (ops : netops N) (D : N -> Prop) : Prop := forall n, D n ->
  (forall cs v, D (fst (n_send ops n cs v))) /\ snd (n_recv ops n) = RNet /\ D (fst (n_recv ops n)).
(** A connection (of a pool: [p]) with open rows of a prepared statement: some results not yet read, or none requested. *)
Definition unread {N} (p : bool) (w : world N) : Prop := exists i j s r, c_closed (w_conn w) = false /\ c_pooled (w_conn w) = p /\
  c_stmt (w_conn w) = Some i /\ nth_error (w_stmts w) i = Some s /\ s_closed s = false /\ s_conn s = true /\ s_queries s = [] /\ s_rows s = Some j /\
  nth_error (w_rows w) j = Some r /\ r_closed r = false /\ r_closeStmt r = false /\ r_stmt r = i /\ r_finished r = false.
Definition only_err {N} (w w' : world N) : Prop :=
  w_stmts w' = w_stmts w /\ w_rows w' = w_rows w /\ (w_conn w' = w_conn w \/ w_conn w' = c_set_err (w_conn w)).
Section Down.
Context {N : Type} (ops : netops N) (D : N -> Prop).
Lemma unread_keeps : forall p (w w' : world N), only_err w w' -> unread p w -> unread p w'.
Proof.
  intros p w w' (A & B & C) (i & j & s & r & H). exists i, j, s, r. rewrite A, B. destruct C as [-> | ->]; exact H.
Qed.
Lemma only_err_trans : forall w1 w2 w3 : world N, only_err w1 w2 -> only_err w2 w3 -> only_err w1 w3.
Proof.
  intros w1 w2 w3 (A & B & C) (A' & B' & C'). split; [congruence|]. split; [congruence|]. destruct C as [C|C], C' as [C'|C']; rewrite C', C; auto.
Qed.
Lemma down_dec : down ops D -> forall w, D (w_net w) -> exists e w', decode_msg ops w = (Ok (None, Some e), w') /\ only_err w w' /\ D (w_net w').
Proof.
  intros Hd w Hw. destruct (Hd _ Hw) as (_ & R & Dr). unfold decode_msg, bind, getn. destruct (n_recv ops (w_net w)) as [n' r]. cbn in *. subst r. cbn.
  do 2 eexists. split; [reflexivity|]. split; [|exact Dr]. repeat split; auto.
Qed.
Lemma down_enc : down ops D -> forall v w, D (w_net w) -> exists e w', encode_msg ops v w = (Ok e, w') /\ only_err w w' /\ D (w_net w').
Proof.
  intros Hd v w Hw. destruct (Hd _ Hw) as (S & _). specialize (S (c_cs (w_conn w)) v). unfold encode_msg, bind, getn, getc. destruct (n_send ops (w_net w) (c_cs (w_conn w)) v) as [n' r].
  cbn in *. destruct r; cbn; do 2 eexists; (split; [reflexivity|]; split; [repeat split; auto|exact S]).
Qed.
Lemma down_close : down ops D -> forall p mk f w, D (w_net w) -> unread p w ->
  exists e w', step ops mk (S (S f)) CClose w = (Ok (OErr (Some e)), w') /\ only_err w w' /\ D (w_net w').
Proof.
  intros Hd p mk f w Hw (i & j & s & r & H1 & H2 & H3 & H4 & H5 & H6 & H7 & H8 & H9 & H10 & H11 & H12 & H13).
  unfold step, step_body. unfold bind at 1.
  assert (X : exists e w', close ops (S (S f)) w = (Ok (Some e), w') /\ only_err w w' /\ D (w_net w')).
  { set (lf := S f). change (close ops (S lf)) with (close_body ops lf (close ops lf)). unfold close_body. unfold bind at 1, getc at 1. cbv beta iota. rewrite H1, H3.
    assert (Y : exists e w', stmt_close ops lf (close ops lf) i w = (Ok (Some e), w') /\ only_err w w' /\ D (w_net w')).
    { unfold stmt_close. unfold bind at 1, gets at 1. rewrite H4, H5, H8. unfold bind at 1. unfold bind at 1. unfold getr at 1. rewrite H9, H11, H10.
      assert (Z : exists e w', rows_close_body ops lf (close ops lf) j w = (Ok (Some e), w') /\ only_err w w' /\ D (w_net w')).
      { unfold rows_close_body. unfold bind at 1, getr at 1. rewrite H9, H12, H13. unfold bind at 1. destruct (r_consumed r); cbn [negb].
        - unfold need_conn, bind, gets, ret. rewrite !H4, H6, H7. cbn [zlen length Z.of_nat Z.eqb].
          unfold consume_all_multiple. cbn [Z.ltb Z.compare Z.to_nat Pos.to_nat Pos.iter_op Z.eqb]. change (Pos.to_nat 1) with 1. cbn [consume_all_n]. unfold consume_all, lf. cbn [consume_all_loop]. unfold consume, bind.
          destruct (down_dec Hd w Hw) as (e & w1 & -> & A & B). cbn. do 2 eexists. split; [reflexivity|]. split; assumption.
        - unfold need_conn, bind, gets, ret. rewrite !H4, H6. unfold send_discard_all_consume, bind.
          destruct (down_enc Hd VDiscardAll w Hw) as (e & w1 & -> & A & B). destruct e as [e|].
          + cbn. do 2 eexists. split; [reflexivity|]. split; assumption.
          + unfold consume, bind. destruct (down_dec Hd w1 B) as (e & w2 & -> & A2 & B2). cbn. do 2 eexists. split; [reflexivity|]. split; [eapply only_err_trans; eauto|assumption]. }
      destruct Z as (e & w1 & -> & A & B). cbn. do 2 eexists. split; [reflexivity|]. split; assumption. }
    unfold bind at 1. destruct Y as (e & w1 & -> & A & B). cbn. do 2 eexists. split; [reflexivity|]. split; assumption. }
  destruct X as (e & w1 & -> & A & B). cbn. do 2 eexists. split; [reflexivity|]. split; assumption.
Qed.
End Down.
(** With rows of a prepared statement open and the network down, Close fails however often it is called, and the
    connection never goes back to the pool. *)
Theorem C80_refuted_close : forall N (ops : netops N) D mk f k w, down ops D -> D (w_net w) -> unread true w ->
  exists rs w', run ops mk (S (S f)) (repeat CClose k) w = (rs, Ok tt, w') /\ length rs = k /\ (forall r, In r rs -> exists e, r = OErr (Some e)) /\
    c_reclaims (w_conn w') = c_reclaims (w_conn w).
Proof.
  intros N ops D mk f k. induction k as [|k IH]; intros w Hd Hw Hu.
  - exists [], w. repeat split; auto. intros r [].
  - destruct (down_close ops D Hd true mk f w Hw Hu) as (e & w1 & E & A & B). destruct (IH w1 Hd B (unread_keeps _ _ _ A Hu)) as (rs & w2 & E2 & L & F & C).
    exists (OErr (Some e) :: rs), w2. cbn [repeat run]. rewrite E, E2. split; [reflexivity|]. split; [cbn; congruence|]. split.
    + intros r [<-|Hr]; eauto.
    + rewrite C. destruct A as (_ & _ & [-> | ->]); reflexivity.
Qed.
Print Assumptions C80_refuted_close.
(** A query through a prepared statement, and then nothing comes from the server any more. *)
Example C80_example : forall mk m q ps k, exists w rs w', run script mk 5 [CPrepare q; SQuery 0 ps] (fresh true [succ m]) = ([OHandle (Some 0) None; OHandle (Some 0) None], Ok tt, w) /\
  unread true w /\ w_net w = [] /\ down script (fun n => n = []) /\ run script mk 5 (repeat CClose k) w = (rs, Ok tt, w') /\ c_reclaims (w_conn w') = [].
Proof.
  intros mk m q ps k.
  assert (E : exists w, run script mk 5 [CPrepare q; SQuery 0 ps] (fresh true [succ m]) = ([OHandle (Some 0) None; OHandle (Some 0) None], Ok tt, w) /\ unread true w /\ w_net w = [] /\ c_reclaims (w_conn w) = []).
  { eexists. split; [lazy; reflexivity|]. split; [|split; reflexivity]. do 4 eexists. repeat split. }
  destruct E as (w & E1 & E2 & E3 & E4).
  assert (Hd : down script (fun n => n = [])) by (intros n ->; repeat split).
  destruct (C80_refuted_close _ script _ mk 3 k w Hd E3 E2) as (rs & w' & F1 & _ & _ & F2). exists w, rs, w'. split; [exact E1|]. split; [exact E2|]. split; [exact E3|]. split; [exact Hd|]. split; [exact F1|]. congruence.
Qed.
(** For the pool: all connections are taken, then each is closed once and Close fails; the next OpenPool waits for
    ever, as does everything after it, unless a later call gives a connection back. *)
Lemma calls_run : forall l s, incl l (p_out s) -> incl (p_out s) (p_handed s) -> (forall x, In x (p_out s) -> x < length (p_heap s)) -> nth_error (p_pcs s) 0 = Some Idle ->
  exists s', pruns s (map (fun x => ACall 0 x MErr []) l) = Some s' /\ all_runs flawless s (map (fun x => ACall 0 x MErr []) l) = true /\
    p_max s' = p_max s /\ p_lock s' = p_lock s /\ p_closed s' = p_closed s /\ p_chan s' = p_chan s /\ p_pcs s' = p_pcs s /\ p_out s' = p_out s /\ p_log s' = p_log s.
Proof.
  induction l as [|x l IH]; intros s Hl Ho Hx Hp.
  - exists s. repeat split.
  - assert (Ix : In x (p_out s)) by (apply Hl; now left). pose proof (Hx _ Ix) as Lx. destruct (nth_error (p_heap s) x) as [ob|] eqn:Ex; [|apply nth_error_None in Ex; lia].
    assert (T : exists s1, pstep s (ACall 0 x MErr []) = Some s1 /\ p_max s1 = p_max s /\ p_lock s1 = p_lock s /\ p_closed s1 = p_closed s /\ p_chan s1 = p_chan s /\ p_pcs s1 = p_pcs s /\
      p_out s1 = p_out s /\ p_log s1 = p_log s /\ p_handed s1 = p_handed s /\ length (p_heap s1) = length (p_heap s)).
    { cbn [pstep]. rewrite Hp, Ex, (in_existsb _ _ (Ho _ Ix)). cbn [errs_ok forallb andb]. destruct (o_closed ob); (eexists; split; [reflexivity|]); cbn; rewrite length_upd; repeat split. }
    destruct T as (s1 & T & E1 & E2 & E3 & E4 & E5 & E6 & E7 & E8 & E9).
    destruct (IH s1) as (s' & R & A & F1 & F2 & F3 & F4 & F5 & F6 & F7); rewrite ?E5, ?E6, ?E8, ?E9; auto; [intros y Hy; apply Hl; now right|].
    exists s'. cbn [map pruns all_runs]. rewrite T. split; [exact R|]. split; [|repeat split; congruence].
    rewrite A. unfold flawless, orderly. cbn [careful polite prompt length forallb]. rewrite (in_existsb _ _ Ix). reflexivity.
Qed.
Theorem C80_refuted : forall max, exists l s, all_runs flawless (new_pool max 2) l = true /\ pruns (new_pool max 2) l = Some s /\ length (p_out s) = max /\
  (forall x, In x (p_out s) -> In (ACall 0 x MErr []) l) /\ nth_error (p_pcs s) 1 = Some ORecv /\
  forall l' s', forallb (fun a => negb (returns a)) l' = true -> pruns s l' = Some s' -> p_log s' = p_log s.
Proof.
  intros max. destruct (take_all max 1 max (le_n _)) as (s & R & (E1 & E2 & E3 & E4 & E5 & E6 & E7) & A).
  assert (Rs : reach flawless s) by (eapply pruns_reach; [apply R_new|exact R|exact A]).
  assert (Ro : reach orderly s) by (eapply reach_weaken; [|exact Rs]; unfold flawless; intros s0 a X; apply andb_prop in X; apply X).
  destruct (calls_run (p_out s) s) as (s1 & R1 & A1 & F1 & F2 & F3 & F4 & F5 & F6 & F7); [apply incl_refl| | |now rewrite E4|].
  { intros x Hx. apply cn_in in Hx. apply cn_in. pose proof (b_out _ (InvB_reach _ _ Ro) x). unfold O, PoolInv.H in *. lia. }
  { intros x Hx. apply cn_in in Hx. apply (i_in _ (Inv_reach _ Ro)). unfold O. lia. }
  set (l1 := map (fun x => ACall 0 x MErr []) (p_out s)) in *. set (l2 := [AOpen 1; ALock 1]).
  assert (R2 : exists s2, pruns s1 l2 = Some s2 /\ p_pcs s2 = [Idle; ORecv] /\ p_chan s2 = [] /\ p_lock s2 = Some 1 /\ p_out s2 = p_out s /\ all_runs flawless s1 l2 = true).
  { destruct s1 as [mx lk cl ch rf hp nt pcs ou ha lg]. cbn [p_max p_lock p_closed p_chan p_refs p_heap p_nets p_pcs p_out p_handed p_log] in *. rewrite E4 in F5. rewrite E5, Nat.sub_diag in F4. subst pcs ch.
    rewrite E2 in F2. rewrite E3 in F3. subst lk cl ou. eexists. split; [reflexivity|]. repeat split. }
  destruct R2 as (s2 & R2 & G1 & G2 & G3 & G4 & A2). exists (opens max ++ l1 ++ l2), s2.
  split. { apply all_runs_app; [exact A|]. rewrite R. apply all_runs_app; [exact A1|]. rewrite R1. exact A2. }
  split. { rewrite pruns_app, R, pruns_app, R1. exact R2. }
  split; [now rewrite G4|]. split.
  { intros x Hx. apply in_or_app. right. apply in_or_app. left. unfold l1. rewrite G4 in Hx. apply in_map_iff. eauto. }
  split; [now rewrite G1|]. intros l' s' Hr R'. refine (C45_refuted_while_waiting s2 1 l' s' _ Hr R'). split; [exact G3|]. split; [now rewrite G1|]. split; [exact G2|].
  rewrite G1. intros [|[|[|t]]] c E; cbn in E; try discriminate; injection E as <-; auto.
Qed.
Print Assumptions C80_refuted.
Example C80_pool_example : reach orderly ex_pool /\ p_closed ex_pool = false /\ p_max ex_pool = 3 /\ p_out ex_pool = [] /\ all_held (p_pcs ex_pool) = 1 /\ length (p_chan ex_pool) = 2.
Proof. split; [apply reach_after; vm_compute; reflexivity|]. vm_compute. repeat split. Qed.
(** one waits for the only connection, which the other has *)
Example C80_served_example : let s := after 1 2 (open1 ++ [AOpen 1; ALock 1]) in reach orderly s /\
  nth_error (p_pcs s) 1 = Some ORecv /\ nth_error (p_pcs s) 0 = Some Idle /\ p_out s = [0] /\ p_max s = 1.
Proof. split; [apply reach_after; vm_compute; reflexivity|]. vm_compute. repeat split. Qed.
