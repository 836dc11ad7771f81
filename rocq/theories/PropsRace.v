(** Property C88: a pool shared between goroutines. *)
From Coq Require Import List Bool Arith Lia.
From Verif Require Import Session SessionGen Pool PoolInv PoolMore PoolRace.
Import ListNotations.

(** * C88 (false: the pool's Close is not synchronised with calls on connections)
    However many goroutines share a pool, with any discipline of their own: two accesses to
    the same memory that are not both reads are ordered, unless they are two calls on one
    connection, or a call on a connection and the pool's Close. *)
Theorem C88_partial_kinds : forall max n l m, mruns (mach0 max n) l = Some m -> received max (m_t m) ->
  forall i j k k', race max (m_t m) i j k k' -> k = KCall /\ k' = KCall \/ k = KCall /\ k' = KShut \/ k = KShut /\ k' = KCall.
Proof. exact races. Qed.
Print Assumptions C88_partial_kinds.

(** ** Goroutines that keep the connections they are given to themselves *)
Definition owned (T : list ev) : Prop :=
  forall n t o w, nth_error T n = Some (t, Acc (LObj o) w KCall) -> exists j, j < n /\ nth_error T j = Some (t, Ret o).
Definition closes_pool (x : xact) : bool := match x with Do (APool _) => true | _ => false end.

Fixpoint rets (T : list ev) : list nat := match T with [] => [] | (_, Ret o) :: T => o :: rets T | _ :: T => rets T end.
Lemma rets_app T T' : rets (T ++ T') = rets T ++ rets T'.
Proof. induction T as [|[t []] T IH]; cbn; auto. now rewrite IH. Qed.
Lemma rets_in T j t o : nth_error T j = Some (t, Ret o) -> In o (rets T).
Proof. revert j. induction T as [|[u a] T IH]; intros [|j] E; try discriminate; cbn in E; [injection E as -> ->; now left|]. destruct a; cbn; eauto. Qed.
Lemma rets_one T : NoDup (rets T) -> forall i j t u o, nth_error T i = Some (t, Ret o) -> nth_error T j = Some (u, Ret o) -> i = j.
Proof.
  induction T as [|[v a] T IH]; intros N [|i] [|j] t u o Ei Ej; try discriminate; cbn in Ei, Ej; auto.
  - injection Ei as -> ->. cbn in N. inversion N; subst. exfalso. eauto using rets_in.
  - injection Ej as -> ->. cbn in N. inversion N; subst. exfalso. eauto using rets_in.
  - f_equal. destruct a; cbn in N; try (eapply IH; eassumption). inversion N; subst. eapply IH; eassumption.
Qed.
Lemma rets_labels t ls : (forall o, ~ In (Ret o) ls) -> rets (map (pair t) ls) = [].
Proof. induction ls as [|[] ls IH]; intros H; cbn; auto; try (apply IH; intros o Ho; apply (H o); now right). exfalso. apply (H o). now left. Qed.
Lemma news_noret s s' o : ~ In (Ret o) (news s s').
Proof. unfold news. rewrite in_map_iff. intros (x & E & _). discriminate. Qed.

Lemma rets_step s cur a s' : pstep s a = Some s' -> p_handed s' = rev (rets (map (pair (actor a)) (labels s cur a s'))) ++ p_handed s.
Proof.
  intros T. apply pstep_inv in T.
  destruct T; cbn [actor labels]; repeat match goal with E : nth_error (p_pcs _) _ = _ |- _ => rewrite E end;
    try reflexivity; rewrite rets_labels; try reflexivity; intros x Hin;
    repeat match goal with
    | H : In _ (_ ++ _) |- _ => apply in_app_or in H; destruct H
    | H : In _ (_ :: _) |- _ => destruct H; [discriminate|]
    | H : In _ [] |- _ => destruct H
    | H : In _ (news _ _) |- _ => now apply news_noret in H
    | H : In _ (if ?b then _ else _) |- _ => destruct b
    | H : In _ (match ?b with _ => _ end) |- _ => destruct b
    end.
Qed.
Lemma rets_run : forall l m m', mruns m l = Some m' -> p_handed (m_s m) = rev (rets (m_t m)) -> p_handed (m_s m') = rev (rets (m_t m')).
Proof.
  induction l as [|x l IH]; intros m m' E H; cbn in E; [now injection E as <-|].
  destruct (mstep m x) as [m1|] eqn:Em; [|discriminate]. apply (IH m1 m' E). destruct x as [a|t k|t k]; cbn in Em.
  - destruct (pstep (m_s m) a) as [s'|] eqn:Ep; [|discriminate]. injection Em as <-. cbn [m_s m_t].
    rewrite (rets_step _ (m_cur m) _ _ Ep), rets_app, rev_app_distr, H. reflexivity.
  - destruct (idle (m_s m) t); [|discriminate]. injection Em as <-. cbn [m_s m_t]. now rewrite rets_app, app_nil_r.
  - destruct (idle (m_s m) t); [|discriminate]. injection Em as <-. cbn [m_s m_t]. now rewrite rets_app, app_nil_r.
Qed.
Lemma mruns_reach : forall l m m', mruns m l = Some m' -> reach anyhow (m_s m) -> reach anyhow (m_s m').
Proof.
  induction l as [|x l IH]; intros m m' E R; cbn in E; [now injection E as <-|].
  destruct (mstep m x) as [m1|] eqn:Em; [|discriminate]. apply (IH m1 m' E). destruct x as [a|t k|t k]; cbn in Em.
  - destruct (pstep (m_s m) a) as [s'|] eqn:Ep; [|discriminate]. injection Em as <-. eapply R_step; eauto.
  - destruct (idle (m_s m) t); [|discriminate]. now injection Em as <-.
  - destruct (idle (m_s m) t); [|discriminate]. now injection Em as <-.
Qed.
(** Every connection is handed out once. *)
Lemma rets_nodup max n l m : mruns (mach0 max n) l = Some m -> NoDup (rets (m_t m)).
Proof.
  intros R. pose proof (rets_run _ _ _ R eq_refl) as H. pose proof (mruns_reach _ _ _ R (R_new _ _ _)) as RR.
  rewrite <- (rev_involutive (rets (m_t m))), <- H. apply NoDup_rev. apply (NoDup_count_occ Nat.eq_dec). intros x.
  pose proof (b_one _ (InvB_reach _ _ RR) x) as B. unfold PoolInv.H, cn in B. lia.
Qed.

Definition no_closer (s : pool) : Prop := forall t c, nth_error (p_pcs s) t = Some c -> match c with PWait | PLoop _ | PRet _ => False | _ => True end.
Lemma noclose_step s cur a s' : no_closer s -> (forall t, a <> APool t) -> pstep s a = Some s' ->
  no_closer s' /\ forall l w, ~ In (Acc l w KShut) (labels s cur a s').
Proof.
  intros N A T. apply pstep_inv in T.
  assert (U : forall t c' s', p_pcs s' = upd t c' (p_pcs s) -> match c' with PWait | PLoop _ | PRet _ => False | _ => True end -> no_closer s').
  { intros t c' s1 E1 H1 u d Ed. rewrite E1 in Ed. destruct (pc_upd _ _ _ _ _ Ed) as [[-> <-]|[_ Ed']]; [exact H1|exact (N _ _ Ed')]. }
  assert (W : forall x y l w, ~ In (Acc l w KShut) (news x y)).
  { intros x y lc w. unfold news. rewrite in_map_iff. intros (z & E & _). discriminate. }
  destruct T as [t E|t E|t E L|t E L|t o q E C|t r o b n E Eo En|t d o b E Eo|t d o b E Eo|t d o b e E Eo|t d o b e1 e2 E Eo|t o os E L|t o os E L
     |t o E|t E|t ok E|t o m es b E Eo Hh Hk Hc|t o m es b E Eo Hh Hk Hes Hc Hp|t o m es b E Eo Hh Hk Hes Hc Hp|t r E|t r o os b E Eo Hc|t o os b E Eo Hc|t o os b E Eo Hc|t o os b E Eo Hc];
    try (exfalso; exact (N _ _ E)); try (now destruct (A t));
    (split; [try (eapply U; [reflexivity|]; try destruct os; try destruct (p_closed s); exact I); try exact N
            |cbn [labels]; rewrite ?E; intros lc w Hin;
    repeat match goal with
    | H : In _ (_ ++ _) |- _ => apply in_app_or in H; destruct H
    | H : In _ (_ :: _) |- _ => destruct H; [discriminate|]
    | H : In _ [] |- _ => destruct H
    | H : In _ (news _ _) |- _ => now apply W in H
    | H : In _ (if ?b then _ else _) |- _ => destruct b
    | H : In _ (match ?b with _ => _ end) |- _ => destruct b
    end]).
Qed.
Lemma noclose_run : forall l m m', mruns m l = Some m' -> existsb closes_pool l = false -> no_closer (m_s m) ->
  (forall t lc w, ~ In (t, Acc lc w KShut) (m_t m)) -> forall t lc w, ~ In (t, Acc lc w KShut) (m_t m').
Proof.
  induction l as [|x l IH]; intros m m' E C N H; cbn in E; [now injection E as <-|].
  cbn in C. apply orb_false_iff in C. destruct C as [C1 C2].
  destruct (mstep m x) as [m1|] eqn:Em; [|discriminate]. destruct x as [a|t k|t k]; cbn in Em.
  - destruct (pstep (m_s m) a) as [s'|] eqn:Ep; [|discriminate]. injection Em as <-.
    destruct (noclose_step (m_s m) (m_cur m) a s' N) as [N' L]; auto; [intros t ->; discriminate|].
    apply (IH _ _ E C2 N'). cbn [m_t]. intros t lc w Hin. apply in_app_or in Hin. destruct Hin as [Hin|Hin]; [eapply H; eauto|].
    apply in_map_iff in Hin. destruct Hin as (y & Ey & Hy). injection Ey as _ ->. eapply L; eauto.
  - destruct (idle (m_s m) t); [|discriminate]. injection Em as <-. apply (IH _ _ E C2 N). cbn [m_t]. intros u lc w Hin.
    apply in_app_or in Hin. destruct Hin as [Hin|[Hin|[]]]; [eapply H; eauto|discriminate].
  - destruct (idle (m_s m) t); [|discriminate]. injection Em as <-. apply (IH _ _ E C2 N). cbn [m_t]. intros u lc w Hin.
    apply in_app_or in Hin. destruct Hin as [Hin|[Hin|[]]]; [eapply H; eauto|discriminate].
Qed.

(** As long as the pool is not closed, goroutines that use only the connections they were
    given themselves do not race. *)
Theorem C88_partial_open : forall max n l m, mruns (mach0 max n) l = Some m -> owned (m_t m) -> existsb closes_pool l = false ->
  forall i j k k', ~ race max (m_t m) i j k k'.
Proof.
  intros max n l m R OW NC i j k k' RA.
  assert (RC : received max (m_t m)).
  { intros p t o w E. destruct (OW p t o w E) as (g & Lg & Eg). exists g, t. split; [exact Eg|]. eapply hb_po; eassumption. }
  assert (NS : forall t lc w, ~ In (t, Acc lc w KShut) (m_t m)).
  { apply (noclose_run l (mach0 max n) m R NC); [|intros t lc w []]. intros t c E. cbn in E. apply nth_error_In, repeat_spec in E. now subst. }
  pose proof (races max n l m R RC i j k k' RA) as K. destruct RA as [_ (t & u & lc & w & w' & Ei & Ej & Ne & _) _].
  destruct K as [[-> ->]|[[-> ->]|[-> ->]]].
  - destruct lc as [| |o].
    + destruct (mruns_mics l (mach0 max n) m (view0 max) (R_new _ _ _) (abs_new max n) R) as (T & v & Et & M). cbn in Et. rewrite Et in *.
      pose proof (mics_RI max T [] (view0 max) v) as Q. rewrite app_nil_r in Q. specialize (Q RC M (RI_new _ _)).
      assert (Li : i < length T) by (apply nth_error_Some; congruence). destruct (r_obj _ _ _ _ Q _ _ _ _ _ Li Ei); discriminate.
    + destruct (mruns_mics l (mach0 max n) m (view0 max) (R_new _ _ _) (abs_new max n) R) as (T & v & Et & M). cbn in Et. rewrite Et in *.
      pose proof (mics_RI max T [] (view0 max) v) as Q. rewrite app_nil_r in Q. specialize (Q RC M (RI_new _ _)).
      assert (Li : i < length T) by (apply nth_error_Some; congruence). destruct (r_obj _ _ _ _ Q _ _ _ _ _ Li Ei); discriminate.
    + destruct (OW _ _ _ _ Ei) as (g & _ & Eg). destruct (OW _ _ _ _ Ej) as (g' & _ & Eg').
      pose proof (rets_one _ (rets_nodup _ _ _ _ R) _ _ _ _ _ Eg Eg') as <-. congruence.
  - apply nth_error_In in Ej. eapply NS; eauto.
  - apply nth_error_In in Ei. eapply NS; eauto.
Qed.
Print Assumptions C88_partial_open.

(** ** The pool's Close races with a connection's Close that has returned before it is called *)
Definition give_back : list xact :=
  [Do (AOpen 0); Do (ALock 0); Do (ARecv 0); Do (AInit 0 false IReady); Do (ARet 0); Do (ACall 0 0 MNothing [false]); Do (ASend 0)].
Definition close_pool : list xact := [Do (APool 1); Do (ALock 1); Do (AShut 1 ShOk)].
Definition trace_of (l : list xact) : list ev := match mruns (mach0 1 2) l with Some m => m_t m | None => [] end.
Definition raced : list ev := Eval vm_compute in trace_of (give_back ++ close_pool).

(** Nothing that goroutine 0 does from position 7 on is ordered with goroutine 1. *)
Lemma raced_apart i j : hb 1 raced i j -> 7 <= i <= 10 -> 7 <= j <= 10.
Proof.
  intros H. induction H as [i j t a b L Ei Ej|i j t u L Ei Ej|i j t u L Ei Ej _|i j t u L Ei Ej _|i j t u k L Ei Ej|i j k H1 IH1 H2 IH2]; intros B;
    try (apply IH2, IH1, B).
  - assert (Et : t = 0) by (unfold raced in Ei; do 7 (destruct i as [|i]; [lia|]); do 4 (destruct i as [|i]; [cbn in Ei; congruence|]); lia).
    subst t. split; [lia|]. unfold raced in Ej. do 11 (destruct j as [|j]; [lia|]). do 3 (destruct j as [|j]; [discriminate Ej|]). now destruct j.
  - exfalso. unfold raced in Ei. do 7 (destruct i as [|i]; [lia|]). do 4 (destruct i as [|i]; [discriminate Ei|]). lia.
  - exfalso. unfold raced in Ej. do 8 (destruct j as [|j]; [lia|]). do 6 (destruct j as [|j]; [discriminate Ej|]). now destruct j.
  - exfalso. unfold raced in Ei. do 7 (destruct i as [|i]; [lia|]). do 4 (destruct i as [|i]; [discriminate Ei|]). lia.
  - exfalso. unfold raced in Ei. do 7 (destruct i as [|i]; [lia|]). do 4 (destruct i as [|i]; [discriminate Ei|]). lia.
Qed.

Theorem C88_refuted : ~ forall max n l m, mruns (mach0 max n) l = Some m -> owned (m_t m) -> forall i j k k', ~ race max (m_t m) i j k k'.
Proof.
  intros H.
  destruct (mruns (mach0 1 2) (give_back ++ close_pool)) as [m|] eqn:E; [|vm_compute in E; discriminate].
  assert (T : m_t m = raced). { change raced with (trace_of (give_back ++ close_pool)). unfold trace_of. now rewrite E. }
  apply (H 1 2 _ m E) with (i := 10) (j := 13) (k := KCall) (k' := KShut); rewrite T.
  - intros p t o w Ep. unfold raced in Ep.
    do 14 (destruct p as [|p]; [cbn in Ep; first [discriminate Ep|injection Ep as <- <- <-; exists 5; split; [lia|reflexivity]]|]). now destruct p.
  - constructor; [lia| |].
    + exists 0, 1, (LObj 0), true, true. repeat split. discriminate.
    + intros B. apply raced_apart in B; lia.
Qed.
Print Assumptions C88_refuted.

(** ** Examples *)
(** In that run the connection has gone back, and no call is under way, when the pool's Close
    begins. *)
Example C88_example_refuted : match mruns (mach0 1 2) give_back with
  | Some m => p_out (m_s m) = [] /\ p_pcs (m_s m) = [Idle; Idle] /\ p_lock (m_s m) = None /\ p_refs (m_s m) = [0]
  | None => False
  end.
Proof. vm_compute. repeat split. Qed.

(** With synchronisation of the callers' own between the two the accesses are ordered. *)
Definition ordered : list ev := Eval vm_compute in trace_of (give_back ++ [XOut 0 0; XGet 1 0] ++ close_pool).
Example C88_example_ordered : nth_error ordered 10 = Some (0, Acc (LObj 0) true KCall) /\ nth_error ordered 15 = Some (1, Acc (LObj 0) true KShut) /\ hb 1 ordered 10 15.
Proof.
  split; [reflexivity|]. split; [reflexivity|].
  apply hb_trans with 11; [apply hb_po with 0 (Acc (LObj 0) true KCall) (Out 0); [lia|reflexivity..]|].
  apply hb_trans with 12; [apply hb_own with 0 1 0; [lia|reflexivity..]|].
  apply hb_po with 1 (Get 0) (Acc (LObj 0) true KShut); [lia|reflexivity..].
Qed.

(** Goroutine 1 is given the connection that goroutine 0 has handed back: its first access to
    the new boltConn comes after the writing of it, through the channel. *)
Definition pass_on : list xact := give_back ++ [Do (AOpen 1); Do (ALock 1); Do (ARecv 1); Do (AInit 1 false IReady); Do (ARet 1); Do (ACall 1 1 MNothing [])].
Definition passed : list ev := Eval vm_compute in trace_of pass_on.
Example C88_example : owned passed /\ existsb closes_pool pass_on = false /\
  nth_error passed 8 = Some (0, Acc (LObj 1) true KNew) /\ nth_error passed 17 = Some (1, Acc (LObj 1) true KCall) /\ hb 1 passed 8 17.
Proof.
  split; [|split; [reflexivity|split; [reflexivity|split; [reflexivity|]]]].
  - intros p t o w Ep. unfold passed in Ep.
    do 18 (destruct p as [|p]; [cbn in Ep; first [discriminate Ep|injection Ep as <- <- <-; solve [exists 5; split; [lia|reflexivity]|exists 15; split; [lia|reflexivity]]]|]). now destruct p.
  - apply hb_trans with 9; [apply hb_po with 0 (Acc (LObj 1) true KNew) Send; [lia|reflexivity..]|].
    apply hb_trans with 13; [apply (hb_chan _ _ _ _ 0 1); [lia|reflexivity..]|].
    apply hb_po with 1 Recv (Acc (LObj 1) true KCall); [lia|reflexivity..].
Qed.
