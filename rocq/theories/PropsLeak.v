(** How many network connections a pool has open. *)
From Coq Require Import List Bool Arith Lia.
From Verif Require Import Session SessionGen Pool PoolInv PoolMore PropsPool.
Import ListNotations.

(** network connections that the driver has not closed *)
Definition live (s : pool) : list nat := filter (fun n => match nth_error (p_nets s) n with Some c => negb (n_shut c) | None => false end) (seq 0 (length (p_nets s))).
(** Nothing goes wrong on the network: no call meets an error or the end of the stream, the check
    of a connection does not find it dead, and INIT succeeds whenever dialling does. *)
Definition calm (a : action) : bool :=
  match a with
  | ACall _ _ m _ => match m with MNothing => true | _ => false end
  | AInit _ dead r => negb dead && match r with IHalf _ => false | _ => true end
  | _ => true
  end.
Definition serene (s : pool) (a : action) : bool := orderly s a && calm a.

(** ** Open network connections belong to connections in use or in the pool *)
Record InvL (s : pool) : Prop := {
  l_held : forall n c, nth_error (p_nets s) n = Some c -> n_shut c = false -> exists x ob, sum s x > 0 /\ nth_error (p_heap s) x = Some ob /\ o_net ob = Some n;
  l_err : forall x ob, sum s x > 0 -> nth_error (p_heap s) x = Some ob -> o_closed ob = false -> o_err ob = false }.

Lemma shut_later : forall n ns i c, nth_error (shut_net n ns) i = Some c -> n_shut c = false -> nth_error ns i = Some c /\ n <> Some i.
Proof.
  intros [n|] ns i c H Hs; cbn in H; [|split; [exact H|discriminate]]. destruct (nth_error ns n) as [x|] eqn:E.
  - destruct (Nat.eq_dec i n) as [->|N].
    + rewrite (nth_upd_same _ _ _ _ _ E) in H. injection H as <-. discriminate.
    + rewrite nth_upd_other in H by congruence. split; [exact H|congruence].
  - split; [exact H|]. intros [= ->]. congruence.
Qed.
Lemma InvL_keep : forall s s', InvL s -> (forall x, sum s' x = sum s x) ->
  (forall x ob, nth_error (p_heap s) x = Some ob -> sum s x > 0 -> exists ob', nth_error (p_heap s') x = Some ob' /\
     (o_net ob' = o_net ob) /\ (o_closed ob' = false -> o_closed ob = false /\ o_err ob' = o_err ob)) ->
  (forall x ob', nth_error (p_heap s') x = Some ob' -> sum s x > 0 -> exists ob, nth_error (p_heap s) x = Some ob) ->
  (forall n c, nth_error (p_nets s') n = Some c -> n_shut c = false -> nth_error (p_nets s) n = Some c) -> InvL s'.
Proof.
  intros s s' [L1 L2] Hs Hh Hb Hn. split.
  - intros n c En Ec. destruct (L1 n c (Hn n c En Ec) Ec) as (x & ob & S1 & E1 & N1). destruct (Hh x ob E1 S1) as (ob' & E2 & N2 & _).
    exists x, ob'. rewrite Hs. split; [exact S1|]. split; [exact E2|congruence].
  - intros x ob' Sx E Ec. rewrite Hs in Sx. destruct (Hb x ob' E Sx) as (ob & E0). destruct (Hh x ob E0 Sx) as (ob2 & E2 & _ & X). rewrite E in E2. injection E2 as <-.
    destruct (X Ec) as (X1 & X2). rewrite X2. eapply L2; eauto.
Qed.
Lemma InvL_same : forall s s', InvL s -> (forall x, sum s' x = sum s x) -> p_heap s' = p_heap s ->
  (forall n c, nth_error (p_nets s') n = Some c -> n_shut c = false -> nth_error (p_nets s) n = Some c) -> InvL s'.
Proof. intros s s' L Hs Hh Hn. apply (InvL_keep s); auto; rewrite Hh; intros x ob E; eauto. Qed.
Lemma InvL_upd : forall s s' o ob ob', InvL s -> (forall x, sum s' x = sum s x) -> nth_error (p_heap s) o = Some ob -> p_heap s' = upd o ob' (p_heap s) ->
  o_net ob' = o_net ob -> (o_closed ob' = false -> o_closed ob = false /\ o_err ob' = o_err ob) ->
  (forall n c, nth_error (p_nets s') n = Some c -> n_shut c = false -> nth_error (p_nets s) n = Some c) -> InvL s'.
Proof.
  intros s s' o ob ob' L Hs Ho Hh N C Hn. apply (InvL_keep s); auto; rewrite Hh.
  - intros x b E _. destruct (Nat.eq_dec x o) as [->|X].
    + rewrite (nth_upd_same _ _ _ _ _ Ho). exists ob'. assert (b = ob) by congruence. subst. auto.
    + rewrite nth_upd_other by congruence. eauto.
  - intros x b E _. destruct (Nat.eq_dec x o) as [->|X]; [eauto|]. rewrite nth_upd_other in E by congruence. eauto.
Qed.
Lemma sum_have : forall s t o, nth_error (p_pcs s) t = Some (OHave o) -> sum s o > 0.
Proof. intros s t o E. pose proof (have_kept _ _ _ E). unfold sum. lia. Qed.

Lemma InvL_step : forall s a s', Inv s -> InvL s -> serene s a = true -> pstep s a = Some s' -> InvL s'.
Proof.
  intros s a s' I L A P. pose proof P as H. apply pstep_inv in H. pose proof I as [I1 I2 I3 I4 I5 I6 I7 I8]. pose proof L as [L1 L2].
  apply andb_prop in A. destruct A as [A A'].
  assert (OutK : forall o, In o (p_out s) -> K s o = 0 /\ G s o = 0 /\ O s o = 1).
  { intros o Ho. apply cn_in in Ho. specialize (I1 o). unfold O in *. lia. }
  destruct H as [t E|t E|t E L0|t E L0|t o q E C|t r o ob n E Eo En|t d o ob E Eo|t d o ob E Eo|t d o ob e E Eo|t d o ob e1 e2 E Eo|t o os E L0|t o os E L0
     |t o E|t E|t ok E|t o m es ob E Eo Hh Hk Hc|t o m es ob E Eo Hh Hk Hes Hc Hp|t o m es ob E Eo Hh Hk Hes Hc Hp|t r E|t r o os ob E Eo Hc|t o os ob E Eo Hc|t o os ob E Eo Hc|t o os ob E Eo Hc];
    try (cbn in A'; rewrite andb_false_r in A'; discriminate A').
  - apply (InvL_same s); auto. at_pc E OWait; counting.
  - apply (InvL_same s); auto. at_pc E PWait; counting.
  - apply (InvL_same s); auto. destruct (p_closed s); [at_pc E OFail|at_pc E ORecv]; counting.
  - apply (InvL_same s); auto. at_pc E (PLoop (p_refs s)); counting.
  - apply (InvL_same s); auto. at_pc E (OHave o); counting; rewrite C in *; counting.
  - apply (InvL_same s); auto. at_pc E (OGive o); counting.
  - (* a new network connection *)
    cbn in A'. destruct d; [discriminate|]. destruct (o_net ob) as [n0|] eqn:En0.
    { cbn [pstep] in P. rewrite E, Eo, En0 in P. injection P as P _ _. apply (f_equal (@length _)) in P. rewrite app_length in P. cbn in P. lia. }
    assert (Hs : forall x, sum (with_nets (p_nets s ++ [Netc true false false]) (with_heap (upd o (o_with_net (Some (length (p_nets s))) ob) (p_heap s)) (with_refs (p_refs s ++ [o]) (with_pc t (OGive o) s)))) x = sum s x).
    { at_pc E (OGive o); counting. }
    split.
    + intros n c Ec Hc. cbn [p_nets p_heap with_nets with_heap] in *. destruct (Nat.lt_ge_cases n (length (p_nets s))) as [Hl|Hl].
      * rewrite nth_error_app1 in Ec by exact Hl. destruct (L1 n c Ec Hc) as (x & ob0 & S1 & E1 & N1). exists x, ob0. rewrite Hs. split; [exact S1|]. split; [|exact N1].
        rewrite nth_upd_other; [exact E1|]. intros <-. congruence.
      * assert (n = length (p_nets s)). { assert (n < length (p_nets s ++ [Netc true false false])) by (apply nth_error_Some; rewrite Ec; discriminate). rewrite app_length in *. cbn in *. lia. }
        subst n. exists o. eexists. rewrite Hs. split; [exact (sum_have _ _ _ E)|]. split; [eapply nth_upd_same; exact Eo|reflexivity].
    + intros x b Sx Ex Hc. rewrite Hs in Sx. cbn [p_heap with_nets with_heap] in Ex. apply (hl_upd _ _ _ _ _ _ Eo) in Ex. destruct Ex as [[-> ->]|[_ Ex]]; [|eapply L2; eauto].
      cbn. eapply L2; eauto.
  - (* dialling failed *)
    cbn in A'. destruct d; [discriminate|]. destruct (o_net ob) as [n0|] eqn:En0.
    { cbn [pstep] in P. rewrite E, Eo, En0 in P. injection P as P _. apply (f_equal (@length _)) in P. rewrite app_length, length_upd in P. cbn in P. lia. }
    pose proof (have_kept _ _ _ E) as Ko. pose proof (I1 o) as Io.
    assert (Z : sum s (length (p_heap s)) = 0). { unfold sum. destruct (K s (length (p_heap s)) + G s (length (p_heap s)) + O s (length (p_heap s))) eqn:X; auto. assert (length (p_heap s) < length (p_heap s)) by (apply I3; lia). lia. }
    match goal with |- InvL ?s1 => assert (Hs : forall x, sum s1 x = (if Nat.eq_dec x (length (p_heap s)) then 1 else 0) + if Nat.eq_dec x o then 0 else sum s x) end.
    { assert (sum s o = 1) by (unfold sum in *; lia). at_pc E (OPut [length (p_heap s)]); counting. }
    split.
    + intros n c Ec Hc. cbn [p_nets p_heap with_nets with_heap with_pc] in *. destruct (L1 n c Ec Hc) as (x & ob0 & S1 & E1 & N1). exists x, ob0. rewrite Hs.
      destruct (Nat.eq_dec x o) as [->|Hx]; [congruence|]. split; [lia|]. split; [|exact N1]. assert (x < length (p_heap s)) by (apply nth_error_Some; rewrite E1; discriminate).
      rewrite nth_error_app1 by (now rewrite length_upd). now rewrite nth_upd_other by congruence.
    + intros x b Sx Ex Hc. rewrite Hs in Sx. cbn [p_heap with_heap with_pc] in Ex. apply hl_app in Ex. rewrite length_upd in Ex. destruct Ex as [[-> ->]|[Lx Ex]].
      * apply reclaimed_good.
      * apply (hl_upd _ _ _ _ _ _ Eo) in Ex. destruct Ex as [[-> ->]|[Nx Ex]].
        -- destruct (Nat.eq_dec o (length (p_heap s))), (Nat.eq_dec o o); try lia; congruence.
        -- eapply L2; eauto. destruct (Nat.eq_dec x (length (p_heap s))), (Nat.eq_dec x o); try lia; congruence.
  - apply (InvL_same s); auto. destruct os; [at_pc E OFail|at_pc E (OPut (n :: os))]; counting.
  - apply (InvL_same s); auto. destruct os; [at_pc E Idle|at_pc E (CPut (n :: os))]; counting.
  - apply (InvL_same s); auto. at_pc E Idle; counting.
  - apply (InvL_same s); auto. at_pc E Idle; counting.
  - apply (InvL_same s); auto. at_pc E Idle; counting.
  - destruct m; try discriminate A'. cbn [met_obj met_nets]. rewrite (upd_self _ _ _ _ Eo). apply (InvL_same s); auto.
  - destruct m; try discriminate A'. cbn [met_obj met_nets] in *. rewrite (upd_self _ _ _ _ Eo). unfold orderly in A. cbn in A. rewrite andb_true_r in A. apply andb_prop in A. destruct A as [A1 A2]. apply existsb_in in A1.
    destruct (OutK _ A1) as (O1 & O2 & O3). apply Nat.leb_le in A2. destruct es as [|e [|e2 es]]; try congruence; [|cbn in A2; lia]. cbn [put_back fst snd].
    assert (So : sum s o = 1) by (unfold sum; lia). assert (Ee : e = false).
    { cbn in Hk. rewrite andb_true_r in Hk. apply eqb_prop in Hk. rewrite Hk. eapply L2; eauto. lia. }
    subst e. assert (Er : reclaimed (o_with_err false ob) = ob).
    { assert (o_err ob = false) by (eapply L2; eauto; lia). destruct ob as [n1 e1 c1 p1]. cbn in *. subst. reflexivity. }
    rewrite Er. pose proof (len_remove o (p_out s)) as LR.
    assert (Z : sum s (length (p_heap s)) = 0). { unfold sum. destruct (K s (length (p_heap s)) + G s (length (p_heap s)) + O s (length (p_heap s))) eqn:X; auto. assert (length (p_heap s) < length (p_heap s)) by (apply I3; lia). lia. }
    match goal with |- InvL ?s1 => assert (Hs : forall x, sum s1 x = (if Nat.eq_dec x (length (p_heap s)) then 1 else 0) + if Nat.eq_dec x o then 0 else sum s x) end.
    { at_pc E (CPut [length (p_heap s)]); counting; rewrite ?cn_remove in *; counting. }
    split.
    + intros n c Ec Hn. cbn [p_nets p_heap with_nets with_heap with_pc with_out] in *. destruct (L1 n c Ec Hn) as (x & ob0 & S1 & E1 & N1). destruct (Nat.eq_dec x o) as [->|Hx].
      * exists (length (p_heap s)), ob. rewrite Hs. destruct (Nat.eq_dec (length (p_heap s)) (length (p_heap s))); [|congruence]. split; [lia|]. split; [|congruence].
        rewrite nth_error_app2, Nat.sub_diag by auto. reflexivity.
      * exists x, ob0. rewrite Hs. destruct (Nat.eq_dec x o); [congruence|]. split; [lia|]. split; [|exact N1].
        rewrite nth_error_app1; [exact E1|]. apply nth_error_Some. rewrite E1. discriminate.
    + intros x b Sx Ex Hn. rewrite Hs in Sx. cbn [p_heap with_nets with_heap with_pc with_out] in Ex. apply hl_app in Ex. destruct Ex as [[-> ->]|[Lx Ex]].
      * eapply L2; eauto. lia.
      * eapply L2; eauto. destruct (Nat.eq_dec x (length (p_heap s))), (Nat.eq_dec x o); try lia.
  - (* Close on a connection that has been taken from the pool *)
    destruct m; try discriminate A'. cbn [met_obj met_nets] in *. unfold orderly in A. cbn in A. rewrite andb_true_r in A. apply andb_prop in A. destruct A as [A1 A2]. apply existsb_in in A1.
    destruct (OutK _ A1) as (O1 & O2 & O3). assert (So : sum s o = 1) by (unfold sum; lia).
    match goal with |- InvL ?s1 => assert (Hs : forall x, sum s1 x = if Nat.eq_dec x o then 0 else sum s x) end.
    { intros x. counting; rewrite ?cn_remove in *; counting. }
    split.
    + intros n c Ec Hn. cbn [p_nets p_heap with_nets with_heap with_pc with_out] in *. destruct (shut_later _ _ _ _ Ec Hn) as (Ec' & Hne). destruct (L1 n c Ec' Hn) as (x & ob0 & S1 & E1 & N1).
      exists x, ob0. rewrite Hs. destruct (Nat.eq_dec x o) as [->|Hx]; [congruence|]. split; [exact S1|]. split; [|exact N1]. now rewrite nth_upd_other by congruence.
    + intros x b Sx Ex Hn. rewrite Hs in Sx. destruct (Nat.eq_dec x o) as [->|Hx]; [lia|]. cbn [p_heap with_nets with_heap with_pc with_out] in Ex. rewrite nth_upd_other in Ex by congruence. eapply L2; eauto.
  - apply (InvL_same s); auto. at_pc E (PRet true); counting.
  - apply (InvL_upd s _ o ob (o_unpooled ob)); auto. at_pc E (PLoop os); counting.
  - apply (InvL_upd s _ o ob (o_with_closed (o_unpooled ob))); auto; try discriminate. + at_pc E (PLoop os); counting. + intros n c X Y. now apply (shut_later _ _ _ _ X Y).
  - apply (InvL_upd s _ o ob (o_unpooled ob)); auto. at_pc E (PRet false); counting.
  - apply (InvL_upd s _ o ob (o_with_err true (o_with_closed (o_unpooled ob)))); auto; try discriminate. + at_pc E (PRet false); counting. + intros n c X Y. now apply (shut_later _ _ _ _ X Y).
Qed.
Lemma InvL_reach : forall s, reach serene s -> InvL s.
Proof.
  assert (RO : forall s, reach serene s -> reach orderly s).
  { intros s R. eapply reach_weaken; [|exact R]. intros s0 a0 X. now apply andb_prop in X. }
  intros s R. induction R.
  - split; [intros m c E; destruct m; discriminate E|]. intros x ob _ E _. cbn in E. apply nth_error_In in E. apply repeat_spec in E. now subst.
  - eapply InvL_step; eauto. apply Inv_reach. auto.
Qed.

(** * C73: open network connections *)
(** As long as nothing goes wrong on the network and every connection is closed at most once,
    a pool of n has at most n network connections open. *)
Theorem C73_partial : forall s, reach serene s -> length (live s) <= p_max s.
Proof.
  intros s R. pose proof (InvL_reach s R) as L. assert (I : Inv s). { apply Inv_reach. eapply reach_weaken; [|exact R]. intros s0 a0 X. now apply andb_prop in X. }
  etransitivity; [|exact (i_max _ I)].
  set (nt := fun x => match nth_error (p_heap s) x with Some ob => o_net ob | None => None end).
  rewrite <- (map_length (@Some nat) (live s)), <- (map_length nt (toks s)). apply NoDup_incl_length.
  - apply FinFun.Injective_map_NoDup; [intros a b [= ->]; reflexivity|]. apply NoDup_filter, seq_NoDup.
  - intros y Hy. apply in_map_iff in Hy. destruct Hy as (n & <- & Hn). apply filter_In in Hn. destruct Hn as (_ & Hn).
    destruct (nth_error (p_nets s) n) as [c|] eqn:Ec; [|discriminate]. destruct (l_held _ L n c Ec) as (x & ob & Sx & Ex & Nx); [now destruct (n_shut c)|].
    apply in_map_iff. exists x. split; [unfold nt; now rewrite Ex|]. unfold sum, K, G, O in Sx. unfold toks. apply cn_in. rewrite !cn_app. lia.
Qed.
Print Assumptions C73_partial.

Definition take0 : list action := [AOpen 0; ALock 0; ARecv 0; AInit 0 false IReady; ARet 0].
(** One goroutine takes the only connection, meets a network error on it, and closes it; then
    the same again. *)
Definition round (o : nat) : list action := [AOpen 0; ALock 0; ARecv 0; AInit 0 false IReady; ARet 0; ACall 0 o MErr [true]; ASend 0].
Fixpoint rounds (o k : nat) : list action := match k with 0 => [] | S k => round o ++ rounds (S o) k end.
Lemma pruns_app : forall l1 l2 s, pruns s (l1 ++ l2) = match pruns s l1 with Some s1 => pruns s1 l2 | None => None end.
Proof. induction l1 as [|a l1 IH]; intros l2 s; [reflexivity|]. cbn [app pruns]. destruct (pstep s a); auto. Qed.
Lemma all_runs_app : forall P l1 l2 s s1, pruns s l1 = Some s1 -> all_runs P s (l1 ++ l2) = all_runs P s l1 && all_runs P s1 l2.
Proof.
  induction l1 as [|a l1 IH]; intros l2 s s1 X; cbn [app pruns all_runs] in *; [injection X as <-; reflexivity|].
  destruct (pstep s a); [|discriminate]. rewrite (IH _ _ _ X). now rewrite andb_assoc.
Qed.
Lemma upd_last : forall A (h : list A) a b, upd (length h) b (h ++ [a]) = h ++ [b].
Proof. intros A h a b. induction h as [|y h IH]; cbn; [reflexivity|now rewrite IH]. Qed.
Lemma nth_last : forall A (h : list A) a, nth_error (h ++ [a]) (length h) = Some a.
Proof. intros. rewrite nth_error_app2, Nat.sub_diag by auto. reflexivity. Qed.
Lemma round_open : forall o h ns refs hd lg b0, nth_error h o = Some b0 -> o_net b0 = None ->
  pruns (Pool 1 None false [o] refs h ns [Idle] [] hd lg) [AOpen 0; ALock 0; ARecv 0; AInit 0 false IReady; ARet 0] =
  Some (Pool 1 None false [] (refs ++ [o]) (upd o (o_with_net (Some (length ns)) b0) h) (ns ++ [Netc true false false]) [Idle] [o] (o :: hd) (lg ++ [Got 0 o])) /\
  all_runs flawless (Pool 1 None false [o] refs h ns [Idle] [] hd lg) [AOpen 0; ALock 0; ARecv 0; AInit 0 false IReady; ARet 0] = true.
Proof.
  intros o h ns refs hd lg b0 E N.
  set (s3 := Pool 1 (Some 0) false [] refs h ns [OHave o] [] hd lg).
  assert (P : pstep s3 (AInit 0 false IReady) = Some (Pool 1 (Some 0) false [] (refs ++ [o]) (upd o (o_with_net (Some (length ns)) b0) h) (ns ++ [Netc true false false]) [OGive o] [] hd lg)).
  { unfold s3. cbn [pstep p_pcs nth_error p_heap]. rewrite E, N. reflexivity. }
  assert (Q : pruns (Pool 1 None false [o] refs h ns [Idle] [] hd lg) [AOpen 0; ALock 0; ARecv 0] = Some s3) by reflexivity.
  change ([AOpen 0; ALock 0; ARecv 0; AInit 0 false IReady; ARet 0]) with ([AOpen 0; ALock 0; ARecv 0] ++ [AInit 0 false IReady; ARet 0]).
  split; [rewrite pruns_app, Q; cbn [pruns]; rewrite P; reflexivity|].
  rewrite (all_runs_app _ _ _ _ _ Q). cbn [all_runs]. rewrite P. reflexivity.
Qed.
Lemma round_error : forall o h ns refs hd lg b0 n c, nth_error h o = Some b0 -> o_net b0 = Some n -> o_err b0 = false -> o_closed b0 = false -> o_pool b0 = true -> nth_error ns n = Some c ->
  pruns (Pool 1 None false [] refs h ns [Idle] [o] (o :: hd) lg) [ACall 0 o MErr [true]; ASend 0] =
  Some (Pool 1 None false [length h] refs (upd o (o_with_err true b0) h ++ [blank]) (upd n (n_with_broken c) ns) [Idle] [] (o :: hd) lg) /\
  all_runs flawless (Pool 1 None false [] refs h ns [Idle] [o] (o :: hd) lg) [ACall 0 o MErr [true]; ASend 0] = true.
Proof.
  intros o h ns refs hd lg b0 n c E N H1 H2 H3 Hn.
  assert (P : pstep (Pool 1 None false [] refs h ns [Idle] [o] (o :: hd) lg) (ACall 0 o MErr [true]) =
    Some (Pool 1 None false [] refs (upd o (o_with_err true b0) h ++ [blank]) (upd n (n_with_broken c) ns) [CPut [length h]] [] (o :: hd) lg)).
  { cbn [pstep p_pcs p_heap nth_error p_handed existsb p_nets]. rewrite E, Nat.eqb_refl. cbn [orb andb errs_ok forallb]. rewrite H1, H2, H3, N. cbn [implb andb break_net]. rewrite Hn.
    cbn [put_back]. rewrite length_upd. unfold reclaimed. cbn [o_err o_with_err orb]. unfold with_heap, with_pc, with_out, with_nets, remove_nat. cbn [p_max p_lock p_closed p_chan p_refs p_pcs p_out p_handed p_log filter upd p_nets].
    rewrite Nat.eqb_refl. reflexivity. }
  split; [cbn [pruns]; rewrite P; reflexivity|]. cbn [all_runs]. rewrite P. unfold flawless, orderly, careful. cbn [existsb p_out]. rewrite Nat.eqb_refl. reflexivity.
Qed.
Lemma round_runs : forall h ns refs hd lg,
  pruns (Pool 1 None false [length h] refs (h ++ [blank]) ns [Idle] [] hd lg) (round (length h)) =
  Some (Pool 1 None false [S (length h)] (refs ++ [length h]) ((h ++ [Obj (Some (length ns)) true false true]) ++ [blank]) (ns ++ [Netc true false true]) [Idle] [] (length h :: hd) (lg ++ [Got 0 (length h)])) /\
  all_runs flawless (Pool 1 None false [length h] refs (h ++ [blank]) ns [Idle] [] hd lg) (round (length h)) = true.
Proof.
  intros h ns refs hd lg. destruct (round_open (length h) (h ++ [blank]) ns refs hd lg blank (nth_last _ _ _) eq_refl) as (A1 & A2).
  rewrite upd_last in A1. cbn [o_with_net blank o_err o_closed o_pool] in A1.
  destruct (round_error (length h) (h ++ [Obj (Some (length ns)) false false true]) (ns ++ [Netc true false false]) (refs ++ [length h]) hd (lg ++ [Got 0 (length h)])
    _ (length ns) _ (nth_last _ _ _) eq_refl eq_refl eq_refl eq_refl (nth_last _ _ _)) as (B1 & B2).
  rewrite !upd_last in B1. rewrite app_length, Nat.add_1_r in B1. cbn [o_with_err n_with_broken o_net o_closed o_pool n_ready n_shut length] in B1.
  change (round (length h)) with ([AOpen 0; ALock 0; ARecv 0; AInit 0 false IReady; ARet 0] ++ [ACall 0 (length h) MErr [true]; ASend 0]).
  split; [rewrite pruns_app, A1; exact B1|]. rewrite (all_runs_app _ _ _ _ _ A1), A2. exact B2.
Qed.
Lemma rounds_run : forall k h ns refs hd lg, exists s', pruns (Pool 1 None false [length h] refs (h ++ [blank]) ns [Idle] [] hd lg) (rounds (length h) k) = Some s' /\
  all_runs flawless (Pool 1 None false [length h] refs (h ++ [blank]) ns [Idle] [] hd lg) (rounds (length h) k) = true /\
  p_nets s' = ns ++ repeat (Netc true false true) k /\ length (p_refs s') = k + length refs /\ p_max s' = 1.
Proof.
  induction k as [|k IH]; intros h ns refs hd lg; [eexists; split; [reflexivity|]; cbn; rewrite app_nil_r; auto|].
  destruct (round_runs h ns refs hd lg) as (R1 & R2).
  destruct (IH (h ++ [Obj (Some (length ns)) true false true]) (ns ++ [Netc true false true]) (refs ++ [length h]) (length h :: hd) (lg ++ [Got 0 (length h)])) as (s' & X1 & X2 & X3 & X4 & X5).
  rewrite app_length in X1, X2. cbn [length] in X1, X2. rewrite Nat.add_1_r in X1, X2. exists s'. cbn [rounds].
  split; [rewrite pruns_app, R1; exact X1|]. split; [rewrite (all_runs_app _ _ _ _ _ R1), R2; exact X2|]. split; [rewrite X3, <- app_assoc; reflexivity|]. split; [rewrite X4, app_length; cbn; lia|exact X5].
Qed.
Lemma live_all : forall k s, p_nets s = repeat (Netc true false true) k -> length (live s) = k.
Proof.
  intros k s E. unfold live. rewrite E, repeat_length. transitivity (length (seq 0 k)); [|apply seq_length]. f_equal.
  rewrite (filter_ext_in _ (fun _ => true)); [induction (seq 0 k); cbn; congruence|]. intros n Hn. apply in_seq in Hn.
  destruct (nth_error (repeat (Netc true false true) k) n) as [c|] eqn:X.
  - apply nth_error_In in X. apply repeat_spec in X. now subst.
  - apply nth_error_None in X. rewrite repeat_length in X. lia.
Qed.
(** With a pool of one and a single goroutine that closes everything it takes, network errors
    leave any number of network connections open, and the list of connections that the pool's
    Close goes through grows with them. *)
Theorem C73_refuted : forall k, exists l s, pruns (new_pool 1 1) l = Some s /\ all_runs flawless (new_pool 1 1) l = true /\
  p_max s = 1 /\ length (live s) = k /\ length (p_refs s) = k.
Proof.
  intros k. destruct (rounds_run k [] [] [] [] []) as (s & R1 & R2 & R3 & R4 & R5). exists (rounds 0 k), s. split; [exact R1|]. split; [exact R2|]. split; [exact R5|].
  split; [now apply live_all|]. cbn in R4. now rewrite Nat.add_0_r in R4.
Qed.
Print Assumptions C73_refuted.
(** Nothing is lost: the pool's Close closes them all (C57_partial), here ten. *)
Example C73_closed : match pruns (new_pool 1 1) (rounds 0 10 ++ [APool 0; ALock 0] ++ repeat (AShut 0 ShOk) 11 ++ [ARet 0]) with
  | Some s => live s = [] /\ length (p_nets s) = 10 /\ last (p_log s) (Refused 0) = PoolClosed 0 true | None => False end.
Proof. vm_compute. auto. Qed.
Example C73_example : exists s, pruns (new_pool 2 2) (take0 ++ take0 ++ [ACall 0 0 MNothing [false]; ASend 0] ++ take0) = Some s /\ reach serene s /\ live s = [0; 1] /\ p_max s = 2.
Proof.
  eexists. split; [vm_compute; reflexivity|]. split; [|vm_compute; auto].
  eapply (pruns_reach serene (take0 ++ take0 ++ [ACall 0 0 MNothing [false]; ASend 0] ++ take0)); [apply (R_new _ 2 2)|vm_compute; reflexivity|vm_compute; reflexivity].
Qed.

(** * C57: after the pool's Close has failed *)
(** Closing the pool stops at the first connection that cannot be closed.  If that was because of
    an open statement, the connection no longer belongs to the pool: its user's Close closes
    the network connection and puts nothing back. *)
Theorem C57_stopped_partial : forall s t o os ob s1 s2 u m es s3, nth_error (p_pcs s) t = Some (PLoop (o :: os)) -> nth_error (p_heap s) o = Some ob -> o_closed ob = false ->
  pstep s (AShut t ShStmt) = Some s1 -> pstep s1 (ARet t) = Some s2 -> es <> [] -> pstep s2 (ACall u o m es) = Some s3 ->
  p_chan s3 = p_chan s /\ p_pcs s3 = p_pcs s2 /\ p_out s3 = remove_nat o (p_out s) /\
  (exists ob3, nth_error (p_heap s3) o = Some ob3 /\ o_closed ob3 = true) /\
  forall n c, o_net ob = Some n -> nth_error (p_nets s) n = Some c -> exists c', nth_error (p_nets s3) n = Some c' /\ n_shut c' = true.
Proof.
  intros s t o os ob s1 s2 u m es s3 E Eo Ec P1 P2 Hes P3.
  cbn [pstep] in P1. rewrite E, Eo, Ec in P1. injection P1 as <-.
  cbn [pstep p_pcs with_closed with_heap with_pc] in P2. rewrite (nth_upd_same _ _ _ _ _ E) in P2. injection P2 as <-.
  cbn [pstep p_pcs p_heap p_handed p_nets p_out with_closed with_heap with_pc with_lock with_event] in P3. rewrite (nth_upd_same _ _ _ _ _ Eo) in P3.
  destruct (nth_error (upd t Idle (upd t (PRet false) (p_pcs s))) u) as [[]|]; try discriminate. destruct (existsb _ _ && _); [|discriminate].
  cbn [o_unpooled o_closed o_pool o_net] in P3. rewrite Ec in P3. destruct es as [|e es]; [congruence|]. injection P3 as <-.
  split; [reflexivity|]. split; [reflexivity|]. split; [reflexivity|]. split.
  - eexists. split; [cbn; eapply nth_upd_same, nth_upd_same; exact Eo|destruct m; reflexivity].
  - intros n c En Enn. rewrite En. cbn. destruct m.
    + apply (shut_shut n _ c Enn).
    + unfold break_net. rewrite Enn. eapply shut_shut, nth_upd_same. exact Enn.
    + unfold break_net. rewrite Enn. eapply shut_shut, nth_upd_same. exact Enn.
Qed.
Print Assumptions C57_stopped_partial.
Example C57_stopped_example : match pruns (new_pool 1 1) (take0 ++ [APool 0; ALock 0; AShut 0 ShStmt; ARet 0; ACall 0 0 MNothing [false]]) with
  | Some s => p_log s = [Got 0 0; PoolClosed 0 false] /\ p_nets s = [Netc true true false] /\ p_chan s = [] | None => False end.
Proof. vm_compute. auto. Qed.
