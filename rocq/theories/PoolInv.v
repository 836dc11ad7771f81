(** Invariants of the pool machine. *)
From Coq Require Import List Bool Arith Lia.
From Verif Require Import Session SessionGen Pool.
Import ListNotations.

(** ** Counting *)
Definition cn (x : nat) (l : list nat) : nat := count_occ Nat.eq_dec l x.
Lemma cn_nil x : cn x [] = 0. Proof. reflexivity. Qed.
Lemma cn_cons x y l : cn x (y :: l) = (if Nat.eq_dec y x then 1 else 0) + cn x l.
Proof. unfold cn. cbn. destruct (Nat.eq_dec y x); auto. Qed.
Lemma cn_app x a b : cn x (a ++ b) = cn x a + cn x b. Proof. apply count_occ_app. Qed.
Lemma cn_in x l : In x l <-> cn x l > 0. Proof. apply count_occ_In. Qed.
Lemma cn_remove x o l : cn x (remove_nat o l) = if Nat.eq_dec x o then 0 else cn x l.
Proof.
  induction l as [|y l IH]; [cbn; now destruct (Nat.eq_dec x o)|]. unfold remove_nat in *. cbn [filter].
  destruct (Nat.eqb_spec y o); cbn [negb]; rewrite ?cn_cons, IH; destruct (Nat.eq_dec x o), (Nat.eq_dec y x); subst; try lia; congruence.
Qed.
Lemma len_remove o l : length (remove_nat o l) + cn o l = length l.
Proof.
  induction l as [|y l IH]; auto. unfold remove_nat in *. cbn [filter length]. rewrite cn_cons.
  destruct (Nat.eqb_spec y o); cbn [negb length]; destruct (Nat.eq_dec y o); try congruence; lia.
Qed.
Lemma upd_split : forall A (l : list A) t c, nth_error l t = Some c ->
  exists a b, l = a ++ c :: b /\ forall c', upd t c' l = a ++ c' :: b.
Proof.
  induction l as [|x l IH]; intros [|t] c H; try discriminate; cbn in H.
  - injection H as ->. exists [], l. auto.
  - destruct (IH _ _ H) as (a & b & -> & E). exists (x :: a), b. split; auto. intros c'. cbn. now rewrite E.
Qed.
Lemma cn_upd : forall (f : pc -> list nat) l t c c' x, nth_error l t = Some c ->
  cn x (flat_map f (upd t c' l)) + cn x (f c) = cn x (flat_map f l) + cn x (f c').
Proof.
  intros f l t c c' x H. destruct (upd_split _ _ _ _ H) as (a & b & -> & E). rewrite E, !flat_map_app. cbn [flat_map].
  rewrite !cn_app. lia.
Qed.
Lemma len_upd : forall (f : pc -> list nat) l t c c', nth_error l t = Some c ->
  length (flat_map f (upd t c' l)) + length (f c) = length (flat_map f l) + length (f c').
Proof.
  intros f l t c c' H. destruct (upd_split _ _ _ _ H) as (a & b & -> & E). rewrite E, !flat_map_app. cbn [flat_map].
  rewrite !app_length. lia.
Qed.

(** ** Connections goroutines hold *)
Definition mid (c : pc) : list nat := match c with OHave o => [o] | OPut os | CPut os => os | _ => [] end.
Definition give (c : pc) : list nat := match c with OGive o => [o] | _ => [] end.
(** in the pool or on the way there or being initialised *)
Definition kept (s : pool) : list nat := p_chan s ++ flat_map mid (p_pcs s).
Definition gives (s : pool) : list nat := flat_map give (p_pcs s).
Definition toks (s : pool) : list nat := kept s ++ gives s ++ p_out s.

(** ** The steps, one case each *)
Definition met_obj (m : met) (ob : obj) : obj := match m with MErr => o_with_err true ob | _ => ob end.
Definition met_nets (m : met) (ob : obj) (ns : list netc) : list netc := match m with MNothing => ns | _ => break_net (o_net ob) ns end.
Inductive pst (s : pool) : action -> pool -> Prop :=
| T_open t : nth_error (p_pcs s) t = Some Idle -> pst s (AOpen t) (with_pc t OWait s)
| T_pool t : nth_error (p_pcs s) t = Some Idle -> pst s (APool t) (with_pc t PWait s)
| T_olock t : nth_error (p_pcs s) t = Some OWait -> p_lock s = None ->
    pst s (ALock t) (with_lock (Some t) (with_pc t (if p_closed s then OFail else ORecv) s))
| T_plock t : nth_error (p_pcs s) t = Some PWait -> p_lock s = None ->
    pst s (ALock t) (with_lock (Some t) (with_pc t (PLoop (p_refs s)) s))
| T_recv t o q : nth_error (p_pcs s) t = Some ORecv -> p_chan s = o :: q ->
    pst s (ARecv t) (with_chan q (with_pc t (OHave o) s))
| T_alive t r o ob n : nth_error (p_pcs s) t = Some (OHave o) -> nth_error (p_heap s) o = Some ob -> o_net ob = Some n ->
    pst s (AInit t false r) (with_pc t (OGive o) s)
| T_ready t d o ob : nth_error (p_pcs s) t = Some (OHave o) -> nth_error (p_heap s) o = Some ob ->
    pst s (AInit t d IReady) (with_nets (p_nets s ++ [Netc true false false])
                         (with_heap (upd o (o_with_net (Some (length (p_nets s))) ob) (p_heap s))
                         (with_refs (p_refs s ++ [o]) (with_pc t (OGive o) s))))
| T_nodial t d o ob : nth_error (p_pcs s) t = Some (OHave o) -> nth_error (p_heap s) o = Some ob ->
    pst s (AInit t d INoDial) (with_heap (upd o (o_with_net None ob) (p_heap s) ++ [reclaimed (o_with_net None ob)])
       (with_pc t (OPut [length (p_heap s)]) s))
| T_half1 t d o ob e : nth_error (p_pcs s) t = Some (OHave o) -> nth_error (p_heap s) o = Some ob ->
    pst s (AInit t d (IHalf [e])) (with_nets (p_nets s ++ [Netc false false false])
       (with_heap (upd o (o_with_net (Some (length (p_nets s))) ob) (p_heap s) ++ [reclaimed (o_with_err e (o_with_net (Some (length (p_nets s))) ob))])
       (with_pc t (OPut [length (p_heap s)]) s)))
| T_half2 t d o ob e1 e2 : nth_error (p_pcs s) t = Some (OHave o) -> nth_error (p_heap s) o = Some ob ->
    pst s (AInit t d (IHalf [e1; e2])) (with_nets (p_nets s ++ [Netc false false false])
       (with_heap (upd o (o_with_net (Some (length (p_nets s))) ob) (p_heap s) ++ [reclaimed (o_with_err e1 (o_with_net (Some (length (p_nets s))) ob)); reclaimed (o_with_err e2 (o_with_net (Some (length (p_nets s))) ob))])
       (with_pc t (OPut [length (p_heap s); S (length (p_heap s))]) s)))
| T_osend t o os : nth_error (p_pcs s) t = Some (OPut (o :: os)) -> length (p_chan s) < p_max s ->
    pst s (ASend t) (with_chan (p_chan s ++ [o]) (with_pc t (match os with [] => OFail | _ => OPut os end) s))
| T_csend t o os : nth_error (p_pcs s) t = Some (CPut (o :: os)) -> length (p_chan s) < p_max s ->
    pst s (ASend t) (with_chan (p_chan s ++ [o]) (with_pc t (match os with [] => Idle | _ => CPut os end) s))
| T_give t o : nth_error (p_pcs s) t = Some (OGive o) ->
    pst s (ARet t) (with_event (Got t o) (with_handed (o :: p_handed s) (with_out (o :: p_out s) (with_lock None (with_pc t Idle s)))))
| T_fail t : nth_error (p_pcs s) t = Some OFail ->
    pst s (ARet t) (with_event (Refused t) (with_lock None (with_pc t Idle s)))
| T_pret t ok : nth_error (p_pcs s) t = Some (PRet ok) ->
    pst s (ARet t) (with_event (PoolClosed t ok) (with_lock None (with_pc t Idle s)))
| T_call t o m es ob : nth_error (p_pcs s) t = Some Idle -> nth_error (p_heap s) o = Some ob -> In o (p_handed s) ->
    errs_ok (o_err ob) m es = true -> o_closed ob = true \/ es = [] ->
    pst s (ACall t o m es) (with_nets (met_nets m ob (p_nets s)) (with_heap (upd o (met_obj m ob) (p_heap s)) s))
| T_back t o m es ob : nth_error (p_pcs s) t = Some Idle -> nth_error (p_heap s) o = Some ob -> In o (p_handed s) ->
    errs_ok (o_err ob) m es = true -> es <> [] -> o_closed ob = false -> o_pool ob = true ->
    pst s (ACall t o m es)
      (with_nets (met_nets m ob (p_nets s)) (with_heap (snd (put_back (met_obj m ob) es (upd o (met_obj m ob) (p_heap s))))
         (with_out (remove_nat o (p_out s)) (with_pc t (CPut (fst (put_back (met_obj m ob) es (upd o (met_obj m ob) (p_heap s))))) s))))
| T_quit t o m es ob : nth_error (p_pcs s) t = Some Idle -> nth_error (p_heap s) o = Some ob -> In o (p_handed s) ->
    errs_ok (o_err ob) m es = true -> es <> [] -> o_closed ob = false -> o_pool ob = false ->
    pst s (ACall t o m es)
      (with_nets (shut_net (o_net ob) (met_nets m ob (p_nets s))) (with_heap (upd o (o_with_closed (met_obj m ob)) (p_heap s))
         (with_out (remove_nat o (p_out s)) s)))
| T_done t r : nth_error (p_pcs s) t = Some (PLoop []) -> pst s (AShut t r) (with_closed (with_pc t (PRet true) s))
| T_skip t r o os ob : nth_error (p_pcs s) t = Some (PLoop (o :: os)) -> nth_error (p_heap s) o = Some ob -> o_closed ob = true ->
    pst s (AShut t r) (with_heap (upd o (o_unpooled ob) (p_heap s)) (with_pc t (PLoop os) s))
| T_shut t o os ob : nth_error (p_pcs s) t = Some (PLoop (o :: os)) -> nth_error (p_heap s) o = Some ob -> o_closed ob = false ->
    pst s (AShut t ShOk) (with_nets (shut_net (o_net ob) (p_nets s))
                         (with_heap (upd o (o_with_closed (o_unpooled ob)) (p_heap s)) (with_pc t (PLoop os) s)))
| T_stmt t o os ob : nth_error (p_pcs s) t = Some (PLoop (o :: os)) -> nth_error (p_heap s) o = Some ob -> o_closed ob = false ->
    pst s (AShut t ShStmt) (with_closed (with_heap (upd o (o_unpooled ob) (p_heap s)) (with_pc t (PRet false) s)))
| T_net t o os ob : nth_error (p_pcs s) t = Some (PLoop (o :: os)) -> nth_error (p_heap s) o = Some ob -> o_closed ob = false ->
    pst s (AShut t ShNet) (with_closed (with_nets (shut_net (o_net ob) (p_nets s))
                         (with_heap (upd o (o_with_err true (o_with_closed (o_unpooled ob))) (p_heap s)) (with_pc t (PRet false) s)))).

Lemma o_with_err_self o : o_with_err (o_err o) o = o. Proof. now destruct o. Qed.
Lemma existsb_in o l : existsb (Nat.eqb o) l = true -> In o l.
Proof. rewrite existsb_exists. intros (x & H & E). apply Nat.eqb_eq in E. now subst. Qed.
Lemma in_existsb o l : In o l -> existsb (Nat.eqb o) l = true.
Proof. intros H. apply existsb_exists. exists o. split; auto. apply Nat.eqb_refl. Qed.

Lemma pstep_inv : forall s a s', pstep s a = Some s' -> pst s a s'.
Proof.
  intros s a s' H. destruct a as [t|t|t|t d r|t|t|t o m es|t|t r]; cbn [pstep] in H.
  - destruct (nth_error (p_pcs s) t) as [[]|] eqn:E; try discriminate. injection H as <-. now constructor.
  - destruct (nth_error (p_pcs s) t) as [[]|] eqn:E; try discriminate; destruct (p_lock s) eqn:L; try discriminate; injection H as <-; [now constructor|now apply T_plock].
  - destruct (nth_error (p_pcs s) t) as [[]|] eqn:E; try discriminate. destruct (p_chan s) as [|o q] eqn:C; try discriminate. injection H as <-. now constructor.
  - destruct (nth_error (p_pcs s) t) as [[]|] eqn:E; try discriminate. destruct (nth_error (p_heap s) o) as [ob|] eqn:Eo; try discriminate.
    assert (D : forall d', match r with
         | IReady => Some (with_nets (p_nets s ++ [Netc true false false]) (with_heap (upd o (o_with_net (Some (length (p_nets s))) ob) (p_heap s)) (with_refs (p_refs s ++ [o]) (with_pc t (OGive o) s))))
         | INoDial => let '(os, h) := put_back (o_with_net None ob) [o_err ob] (upd o (o_with_net None ob) (p_heap s)) in Some (with_heap h (with_pc t (OPut os) s))
         | IHalf es => let '(os, h) := put_back (o_with_net (Some (length (p_nets s))) ob) es (upd o (o_with_net (Some (length (p_nets s))) ob) (p_heap s)) in
               if (length es =? 1) || (length es =? 2) then Some (with_nets (p_nets s ++ [Netc false false false]) (with_heap h (with_pc t (OPut os) s))) else None
         end = Some s' -> pst s (AInit t d' r) s').
    { clear H. intros d' H. destruct r as [| |es].
      - injection H as <-. eapply T_ready; eauto.
      - cbn in H. injection H as <-. rewrite length_upd. change (o_err ob) with (o_err (o_with_net None ob)). rewrite o_with_err_self. eapply T_nodial; eauto.
      - destruct es as [|e1 [|e2 [|e3 es]]].
        + cbn in H. discriminate.
        + cbn in H. injection H as <-. rewrite length_upd. eapply T_half1; eauto.
        + cbn in H. injection H as <-. rewrite !app_length, length_upd, <- app_assoc. cbn [length app]. rewrite Nat.add_1_r. eapply T_half2; eauto.
        + destruct (put_back _ _ _). cbn in H. discriminate. }
    destruct (o_net ob) as [n|] eqn:En; [destruct d|].
    + now apply D.
    + injection H as <-. eapply T_alive; eauto.
    + now apply D.
  - destruct (length (p_chan s) <? p_max s) eqn:L; [|discriminate]. apply Nat.ltb_lt in L.
    destruct (nth_error (p_pcs s) t) as [[]|] eqn:E; try discriminate; destruct os as [|o os]; try discriminate; injection H as <-; [now apply T_osend|now apply T_csend].
  - destruct (nth_error (p_pcs s) t) as [[]|] eqn:E; try discriminate; injection H as <-; [now constructor|now apply T_fail|now apply T_pret].
  - destruct (nth_error (p_pcs s) t) as [[]|] eqn:E; try discriminate. destruct (nth_error (p_heap s) o) as [ob|] eqn:Eo; try discriminate.
    destruct (existsb (Nat.eqb o) (p_handed s)) eqn:X; try discriminate. apply existsb_in in X. cbn [andb] in H.
    destruct (errs_ok (o_err ob) m es) eqn:Ek; try discriminate. change (match m with MErr => o_with_err true ob | _ => ob end) with (met_obj m ob) in H.
    change (match m with MNothing => p_nets s | _ => break_net (o_net ob) (p_nets s) end) with (met_nets m ob (p_nets s)) in H.
    destruct (o_closed ob) eqn:Ec.
    { injection H as <-. change (with_heap ?h (with_nets ?n s)) with (with_nets n (with_heap h s)). eapply T_call; eauto. }
    destruct es as [|e es].
    { injection H as <-. change (with_heap ?h (with_nets ?n s)) with (with_nets n (with_heap h s)). eapply T_call; eauto. }
    destruct (o_pool ob) eqn:Ep.
    + pose proof (T_back s t o m (e :: es) ob E Eo X Ek ltac:(discriminate) Ec Ep) as K.
      destruct (put_back _ _ _) as [os h]. injection H as <-. exact K.
    + injection H as <-. exact (T_quit s t o m (e :: es) ob E Eo X Ek ltac:(discriminate) Ec Ep).
  - destruct (nth_error (p_pcs s) t) as [[]|] eqn:E; try discriminate. injection H as <-. now constructor.
  - destruct (nth_error (p_pcs s) t) as [[]|] eqn:E; try discriminate. destruct os as [|o os].
    + injection H as <-. now constructor.
    + destruct (nth_error (p_heap s) o) as [ob|] eqn:Eo; try discriminate. destruct (o_closed ob) eqn:Ec.
      * injection H as <-. eapply T_skip; eauto.
      * destruct r; injection H as <-; [eapply T_shut|eapply T_stmt|eapply T_net]; eauto.
Qed.

(** ** Reaching states *)
(** [s] is reached from a new pool by a run all of whose actions satisfy [P]. *)
Inductive reach (P : pool -> action -> bool) : pool -> Prop :=
| R_new max n : reach P (new_pool max n)
| R_step s a s' : reach P s -> P s a = true -> pstep s a = Some s' -> reach P s'.
Definition anyhow (_ : pool) (_ : action) : bool := true.
Lemma reach_weaken : forall (P Q : pool -> action -> bool) s, (forall s a, P s a = true -> Q s a = true) -> reach P s -> reach Q s.
Proof. intros P Q s H R. induction R; [apply R_new|eapply R_step; eauto]. Qed.
Lemma pruns_reach : forall P l s s', reach P s -> pruns s l = Some s' -> all_runs P s l = true -> reach P s'.
Proof.
  induction l as [|a l IH]; intros s s' R H A; cbn in *; [injection H as <-; auto|].
  apply andb_prop in A. destruct A as [A1 A2]. destruct (pstep s a) as [s1|] eqn:E; [|discriminate]. apply (IH s1 s'); auto. eapply R_step; eauto.
Qed.

(** ** Counting and ownership, for careful callers and a polite server *)
Definition orderly (s : pool) (a : action) : bool := careful s a && polite a.
Definition K s x := cn x (kept s).
Definition G s x := cn x (gives s).
Definition O s x := cn x (p_out s).
Record Inv (s : pool) : Prop := {
  i_one : forall x, K s x + G s x + O s x <= 1;
  i_max : length (toks s) <= p_max s;
  i_in : forall x, K s x + G s x + O s x > 0 -> x < length (p_heap s);
  i_refs : forall x, In x (p_refs s) -> x < length (p_heap s) /\ K s x = 0;
  i_loop : forall t os, nth_error (p_pcs s) t = Some (PLoop os) -> incl os (p_refs s);
  i_good : forall x ob, K s x > 0 -> nth_error (p_heap s) x = Some ob -> o_err ob = false /\ o_closed ob = false /\ o_pool ob = true;
  i_nets : forall x ob n, K s x + G s x + O s x > 0 -> nth_error (p_heap s) x = Some ob -> o_net ob = Some n -> n < length (p_nets s);
  i_excl : forall x y ob ob' n, K s x + G s x + O s x > 0 -> K s y + G s y + O s y > 0 ->
     nth_error (p_heap s) x = Some ob -> nth_error (p_heap s) y = Some ob' -> o_net ob = Some n -> o_net ob' = Some n -> x = y }.

Arguments cn : simpl never.
Arguments K : simpl never.
Arguments G : simpl never.
Arguments O : simpl never.
Definition sum s x := K s x + G s x + O s x.

Lemma hl_upd : forall (h : list obj) o a b x c, nth_error h o = Some a -> nth_error (upd o b h) x = Some c ->
  (x = o /\ c = b) \/ (x <> o /\ nth_error h x = Some c).
Proof.
  intros h o a b x c H E. destruct (Nat.eq_dec x o) as [->|N].
  - rewrite (nth_upd_same _ _ _ _ _ H) in E. injection E as <-. auto.
  - rewrite nth_upd_other in E by congruence. auto.
Qed.
Lemma hl_app : forall (h : list obj) b x c, nth_error (h ++ [b]) x = Some c -> (x = length h /\ c = b) \/ (x < length h /\ nth_error h x = Some c).
Proof.
  intros h b x c H. destruct (Nat.lt_ge_cases x (length h)) as [L|L].
  - rewrite nth_error_app1 in H by auto. auto.
  - rewrite nth_error_app2 in H by auto. destruct (x - length h) as [|k] eqn:D; [|destruct k; discriminate].
    injection H as <-. left. split; auto. lia.
Qed.

(** a step that changes at most one connection, not one in the pool *)
Lemma Inv_upd : forall s s' o ob ob', Inv s -> nth_error (p_heap s) o = Some ob -> p_heap s' = upd o ob' (p_heap s) ->
  p_max s' = p_max s -> (forall x, sum s' x <= sum s x) -> (forall x, K s' x <= K s x) -> length (toks s') <= length (toks s) ->
  ob' = ob \/ K s' o = 0 ->
  (forall x, In x (p_refs s') -> In x (p_refs s) \/ x = o /\ K s' o = 0) ->
  (forall t os, nth_error (p_pcs s') t = Some (PLoop os) -> incl os (p_refs s')) ->
  length (p_nets s) <= length (p_nets s') ->
  o_net ob' = o_net ob \/ o_net ob' = Some (length (p_nets s)) /\ length (p_nets s) < length (p_nets s') ->
  Inv s'.
Proof.
  intros s s' o ob ob' [I1 I2 I3 I4 I5 I6 I7 I8] Ho Hh Hm Hs HK Hl HKo Hr Hp Hn Hf. fold (sum s) in *. unfold sum in Hs.
  assert (L : o < length (p_heap s)) by (apply nth_error_Some; rewrite Ho; discriminate).
  split; rewrite ?Hh, ?length_upd.
  - intros x. specialize (Hs x). specialize (I1 x). lia.
  - lia.
  - intros x Hx. apply I3. specialize (Hs x). lia.
  - intros x Hx. apply Hr in Hx. destruct Hx as [Hx|[-> Hx]]; [|auto]. destruct (I4 x Hx). specialize (HK x). split; auto. lia.
  - exact Hp.
  - intros x b Hx E. apply (hl_upd _ _ _ _ _ _ Ho) in E. specialize (HK x). destruct E as [[-> ->]|[N E]].
    + destruct HKo as [->|HKo]; [|lia]. eapply I6; eauto. lia.
    + eapply I6; eauto. lia.
  - intros x b n Hx E En. apply (hl_upd _ _ _ _ _ _ Ho) in E. specialize (Hs x). destruct E as [[-> ->]|[N E]].
    + destruct Hf as [Hf|[Hf1 Hf2]]; [|congruence]. rewrite Hf in En. assert (n < length (p_nets s)) by (eapply I7; eauto; lia). lia.
    + assert (n < length (p_nets s)) by (eapply I7; eauto; lia). lia.
  - intros x y b b' n Hx Hy Ex Ey Nx Ny. pose proof (Hs x) as Sx. pose proof (Hs y) as Sy.
    apply (hl_upd _ _ _ _ _ _ Ho) in Ex. apply (hl_upd _ _ _ _ _ _ Ho) in Ey.
    destruct Hf as [Hf|[Hf1 Hf2]].
    + destruct Ex as [[-> ->]|[N1 Ex]], Ey as [[-> ->]|[N2 Ey]]; auto; try rewrite Hf in *; eapply (I8 _ _ _ _ n); eauto; lia.
    + assert (F : forall z bz, sum s z > 0 -> nth_error (p_heap s) z = Some bz -> o_net bz = Some n -> n <> length (p_nets s)).
      { intros z bz Sz Ez Nz. assert (n < length (p_nets s)) by (eapply I7; eauto). lia. }
      destruct Ex as [[-> ->]|[N1 Ex]], Ey as [[-> ->]|[N2 Ey]]; auto.
      * exfalso. apply (F y b'); unfold sum; auto; try lia; congruence.
      * exfalso. apply (F x b); unfold sum; auto; try lia; congruence.
      * eapply (I8 _ _ _ _ n); eauto; lia.
Qed.
(** a step that moves connections only *)
Lemma Inv_move : forall s s', Inv s -> p_heap s' = p_heap s -> p_nets s' = p_nets s -> p_refs s' = p_refs s ->
  p_max s' = p_max s -> (forall x, sum s' x <= sum s x) -> (forall x, K s' x <= K s x) -> length (toks s') <= length (toks s) ->
  (forall t os, nth_error (p_pcs s') t = Some (PLoop os) -> incl os (p_refs s')) -> Inv s'.
Proof.
  intros s s' [I1 I2 I3 I4 I5 I6 I7 I8] Hh Hn Hr Hm Hs HK Hl Hp. unfold sum in Hs.
  split; rewrite ?Hh, ?Hn, ?Hr.
  - intros x. specialize (Hs x). specialize (I1 x). lia.
  - lia.
  - intros x Hx. apply I3. specialize (Hs x). lia.
  - intros x Hx. destruct (I4 x Hx). specialize (HK x). split; auto. lia.
  - rewrite <- Hr. exact Hp.
  - intros x b Hx E. specialize (HK x). eapply I6; eauto. lia.
  - intros x b n Hx E En. specialize (Hs x). eapply I7; eauto. lia.
  - intros x y b b' n Hx Hy Ex Ey Nx Ny. pose proof (Hs x) as Sx. pose proof (Hs y) as Sy. eapply (I8 _ _ _ _ n); eauto; lia.
Qed.
(** a step that exchanges connection [o] for a new one *)
Lemma Inv_swap : forall s s' o ob ob' nb, Inv s -> nth_error (p_heap s) o = Some ob -> p_heap s' = upd o ob' (p_heap s) ++ [nb] ->
  p_max s' = p_max s -> sum s o = 1 ->
  (forall x, K s' x = (if Nat.eq_dec x (length (p_heap s)) then 1 else 0) + if Nat.eq_dec x o then 0 else K s x) ->
  (forall x, G s' x + O s' x = if Nat.eq_dec x o then 0 else G s x + O s x) ->
  length (toks s') <= length (toks s) -> p_refs s' = p_refs s ->
  (forall t os, nth_error (p_pcs s') t = Some (PLoop os) -> incl os (p_refs s')) ->
  length (p_nets s) <= length (p_nets s') ->
  o_err nb = false -> o_closed nb = false -> o_pool nb = true ->
  o_net nb = None \/ o_net nb = o_net ob \/ o_net nb = Some (length (p_nets s)) /\ length (p_nets s) < length (p_nets s') ->
  Inv s'.
Proof.
  intros s s' o ob ob' nb [I1 I2 I3 I4 I5 I6 I7 I8] Ho Hh Hm So HK HG Hl Hr Hp Hn E1 E2 E3 Hf. unfold sum in So.
  assert (L : o < length (p_heap s)) by (apply nth_error_Some; rewrite Ho; discriminate).
  assert (Z : K s (length (p_heap s)) + G s (length (p_heap s)) + O s (length (p_heap s)) = 0).
  { destruct (K s (length (p_heap s)) + G s (length (p_heap s)) + O s (length (p_heap s))) eqn:E; auto. assert (length (p_heap s) < length (p_heap s)) by (apply I3; lia). lia. }
  assert (D : forall x b, sum s' x > 0 -> nth_error (p_heap s') x = Some b -> x = length (p_heap s) /\ b = nb \/ x <> o /\ x <> length (p_heap s) /\ nth_error (p_heap s) x = Some b /\ sum s x = sum s' x).
  { intros x b Hx E. rewrite Hh in E. unfold sum in *. specialize (HK x). specialize (HG x). apply hl_app in E. rewrite length_upd in E. destruct E as [[-> ->]|[Lx E]]; auto.
    right. apply (hl_upd _ _ _ _ _ _ Ho) in E. destruct (Nat.eq_dec x (length (p_heap s))); [lia|]. destruct (Nat.eq_dec x o); [lia|]. destruct E as [[? ?]|[N E]]; [congruence|].
    repeat split; auto. lia. }
  split; rewrite ?Hr, ?Hm.
  - intros x. specialize (HK x). specialize (HG x). specialize (I1 x). destruct (Nat.eq_dec x (length (p_heap s))), (Nat.eq_dec x o); subst; lia.
  - lia.
  - intros x Hx. rewrite Hh, app_length, length_upd. cbn. specialize (HK x). specialize (HG x). specialize (I3 x). destruct (Nat.eq_dec x (length (p_heap s))), (Nat.eq_dec x o); subst; try lia.
  - intros x Hx. destruct (I4 x Hx). rewrite Hh, app_length, length_upd. specialize (HK x). destruct (Nat.eq_dec x (length (p_heap s))), (Nat.eq_dec x o); subst; lia.
  - rewrite <- Hr. exact Hp.
  - intros x b Hx E. destruct (D x b) as [[-> ->]|(N1 & N2 & E' & S)]; auto; [unfold sum; lia|].
    eapply I6; eauto. specialize (HK x). destruct (Nat.eq_dec x (length (p_heap s))), (Nat.eq_dec x o); subst; try lia; congruence.
  - intros x b n Hx E En. destruct (D x b) as [[-> ->]|(N1 & N2 & E' & S)]; auto.
    + destruct Hf as [Hf|[Hf|[Hf1 Hf2]]]; try congruence. rewrite Hf in En. assert (n < length (p_nets s)) by (eapply (I7 o); eauto; lia). lia.
    + assert (n < length (p_nets s)) by (eapply (I7 x); eauto; unfold sum in *; lia). lia.
  - intros x y b b' n Hx Hy Ex Ey Nx Ny.
    assert (F : forall z bz, z <> o -> sum s z > 0 -> nth_error (p_heap s) z = Some bz -> o_net bz = Some n -> o_net nb = Some n -> False).
    { intros z bz Nz Sz Ez Nz' Nb. destruct Hf as [Hf|[Hf|[Hf1 Hf2]]].
      - congruence.
      - apply Nz. eapply (I8 _ _ _ _ n); eauto; try lia; congruence.
      - assert (n < length (p_nets s)) by (eapply (I7 z); eauto). rewrite Hf1 in Nb. injection Nb as <-. lia. }
    destruct (D x b) as [[-> ->]|(N1 & N2 & Ex' & Sx)]; auto; destruct (D y b') as [[-> ->]|(N3 & N4 & Ey' & Sy)]; auto.
    + exfalso. eapply (F y b'); eauto. unfold sum in *; lia.
    + exfalso. eapply (F x b); eauto. unfold sum in *; lia.
    + eapply (I8 _ _ _ _ n); eauto; unfold sum in *; lia.
Qed.

Lemma pc_upd : forall (l : list pc) t c t' c', nth_error (upd t c l) t' = Some c' -> t' = t /\ c = c' \/ t' <> t /\ nth_error l t' = Some c'.
Proof.
  intros l t c t' c' H. destruct (Nat.eq_dec t' t) as [->|N].
  - left. split; auto. destruct (nth_error l t) eqn:E; [rewrite (nth_upd_same _ _ _ _ _ E) in H; congruence|].
    exfalso. assert (X : length (upd t c l) <= t) by (rewrite length_upd; now apply nth_error_None). apply nth_error_None in X. congruence.
  - rewrite nth_upd_other in H by congruence. auto.
Qed.
Lemma loop_upd : forall s t c refs, (forall t os, nth_error (p_pcs s) t = Some (PLoop os) -> incl os (p_refs s)) -> incl (p_refs s) refs ->
  (forall os, c = PLoop os -> incl os refs) -> forall t' os, nth_error (upd t c (p_pcs s)) t' = Some (PLoop os) -> incl os refs.
Proof. intros s t c refs H R Hc t' os E. apply pc_upd in E. destruct E as [[-> E]|[_ E]]; [auto|]. eapply incl_tran; eauto. Qed.
Lemma length_shut n ns : length (shut_net n ns) = length ns.
Proof. unfold shut_net. destruct n; auto. destruct (nth_error ns n); auto. apply length_upd. Qed.
Lemma length_break n ns : length (break_net n ns) = length ns.
Proof. unfold break_net. destruct n; auto. destruct (nth_error ns n); auto. apply length_upd. Qed.
Lemma length_met m ob ns : length (met_nets m ob ns) = length ns.
Proof. destruct m; cbn; auto using length_break. Qed.
Lemma upd_self : forall A (l : list A) i a, nth_error l i = Some a -> upd i a l = l.
Proof. induction l as [|x l IH]; intros [|i] a H; try discriminate; cbn in *; [congruence|f_equal; auto]. Qed.

Ltac at_pc H c' :=
  let x := fresh "x" in
  match goal with
  | |- forall x : nat, _ => intros x;
      pose proof (cn_upd mid _ _ _ c' x H); pose proof (cn_upd give _ _ _ c' x H)
  | |- _ => pose proof (len_upd mid _ _ _ c' H); pose proof (len_upd give _ _ _ c' H)
  end; cbn [mid give length] in *.
Ltac counting :=
  unfold sum, K, G, O, toks, kept, gives in *;
  cbn [p_chan p_pcs p_out with_pc with_lock with_closed with_chan with_refs with_heap with_nets with_out with_handed with_event] in *;
  rewrite ?app_length, ?cn_app, ?cn_cons, ?cn_nil in *; cbn [length] in *;
  repeat match goal with |- context [Nat.eq_dec ?a ?b] => destruct (Nat.eq_dec a b) | H : context [Nat.eq_dec ?a ?b] |- _ => destruct (Nat.eq_dec a b) end;
  subst; try congruence; try lia.

Lemma Inv_new : forall max n, Inv (new_pool max n).
Proof.
  intros max n. assert (E : forall f, (forall c, c = Idle -> f c = []) -> flat_map f (repeat Idle n) = @nil nat).
  { intros f Hf. induction n; auto. cbn. rewrite Hf; auto. }
  assert (Kx : forall x, K (new_pool max n) x = if x <? max then 1 else 0).
  { intros x. unfold K, kept. cbn [p_chan p_pcs new_pool]. rewrite E, app_nil_r by now intros c ->. destruct (Nat.ltb_spec x max).
    - apply NoDup_count_occ'; [apply seq_NoDup|apply in_seq; lia].
    - apply count_occ_not_In. intros Hi. apply in_seq in Hi. lia. }
  assert (Gx : forall x, G (new_pool max n) x = 0). { intros x. unfold G, gives. cbn. rewrite E; auto. now intros c ->. }
  assert (Ox : forall x, O (new_pool max n) x = 0) by reflexivity.
  assert (B : forall x ob, nth_error (p_heap (new_pool max n)) x = Some ob -> ob = blank).
  { intros x ob H. cbn in H. apply nth_error_In in H. now apply repeat_spec in H. }
  split.
  - intros x; rewrite Kx, Gx, Ox. destruct (x <? max); lia.
  - unfold toks, kept, gives. cbn. rewrite !E by now intros c ->. rewrite !app_nil_r, seq_length. lia.
  - intros x; rewrite Kx, Gx, Ox. destruct (Nat.ltb_spec x max); cbn [p_heap new_pool]; rewrite repeat_length; lia.
  - intros x [].
  - intros t os H. cbn in H. apply nth_error_In in H. apply repeat_spec in H. discriminate.
  - intros x ob _ H. apply B in H. now subst.
  - intros x ob m _ H Hn. apply B in H. subst. discriminate.
  - intros x y b b' m _ _ H _ Hn. apply B in H. subst. discriminate.
Qed.

Lemma reclaimed_good : forall ob, o_err (reclaimed ob) = false /\ o_closed (reclaimed ob) = false /\ (o_pool ob = true -> o_pool (reclaimed ob) = true).
Proof. intros [n [] [] p]; cbn; auto. Qed.
Lemma reclaimed_net : forall ob, o_net (reclaimed ob) = None \/ o_net (reclaimed ob) = o_net ob.
Proof. intros ob. unfold reclaimed. destruct (_ || _); auto. Qed.
Lemma have_kept : forall s t o, nth_error (p_pcs s) t = Some (OHave o) -> K s o > 0.
Proof.
  intros s t o H. unfold K, kept. rewrite cn_app. pose proof (cn_upd mid _ _ _ Idle o H) as E. cbn [mid] in E. rewrite cn_cons, cn_nil in E.
  destruct (Nat.eq_dec o o); [lia|congruence].
Qed.

Ltac easy_one := solve [reflexivity|assumption|now left|now right|cbn; intros; now left|lia|unfold sum; lia|match goal with R : _ -> o_pool _ = true |- _ => exact (R ltac:(assumption)) end].
Ltac by_upd s o ob I Eo := match goal with |- Inv ?s' => refine (Inv_upd s s' o ob _ I Eo eq_refl eq_refl _ _ _ _ _ _ _ _) end; try easy_one.
Ltac by_swap s o ob I Eo := match goal with |- Inv ?s' => refine (Inv_swap s s' o ob _ _ I Eo eq_refl eq_refl _ _ _ _ eq_refl _ _ _ _ _ _) end; try easy_one.

Lemma Inv_step : forall s a s', Inv s -> orderly s a = true -> pstep s a = Some s' -> Inv s'.
Proof.
  intros s a s' I A H. apply pstep_inv in H. pose proof I as [I1 I2 I3 I4 I5 I6 I7 I8].
  assert (OutK : forall o, In o (p_out s) -> K s o = 0 /\ G s o = 0 /\ O s o = 1).
  { intros o Ho. apply cn_in in Ho. specialize (I1 o). unfold O in *. lia. }
  destruct H as [t E|t E|t E L|t E L|t o q E C|t r o ob n E Eo En|t d o ob E Eo|t d o ob E Eo|t d o ob e E Eo|t d o ob e1 e2 E Eo|t o os E L|t o os E L
     |t o E|t E|t ok E|t o m es ob E Eo Hh Hk Hc|t o m es ob E Eo Hh Hk Hes Hc Hp|t o m es ob E Eo Hh Hk Hes Hc Hp|t r E|t r o os ob E Eo Hc|t o os ob E Eo Hc|t o os ob E Eo Hc|t o os ob E Eo Hc].
  - apply (Inv_move s); auto; try solve [at_pc E OWait; counting]. cbn. apply loop_upd; auto using incl_refl; discriminate.
  - apply (Inv_move s); auto; try solve [at_pc E PWait; counting]. cbn. apply loop_upd; auto using incl_refl; discriminate.
  - apply (Inv_move s); auto; destruct (p_closed s); try solve [at_pc E OFail; counting]; try solve [at_pc E ORecv; counting];
    cbn; apply loop_upd; auto using incl_refl; discriminate.
  - apply (Inv_move s); auto; try solve [at_pc E (PLoop (p_refs s)); counting]. cbn. apply loop_upd; auto using incl_refl. intros os [= <-]. apply incl_refl.
  - apply (Inv_move s); auto; try solve [at_pc E (OHave o); counting; rewrite C in *; counting]. cbn. apply loop_upd; auto using incl_refl; discriminate.
  - apply (Inv_move s); auto; try solve [at_pc E (OGive o); counting]. cbn. apply loop_upd; auto using incl_refl; discriminate.
  - pose proof (have_kept _ _ _ E) as Ko. pose proof (I1 o) as Io.
    assert (K0 : cn o (flat_map mid (upd t (OGive o) (p_pcs s))) + cn o (p_chan s) = 0).
    { pose proof (cn_upd mid _ _ _ (OGive o) o E). cbn [mid] in *. counting. }
    by_upd s o ob I Eo; try solve [at_pc E (OGive o); counting].
    + cbn. intros x Hx. apply in_app_or in Hx. destruct Hx as [Hx|[<-|[]]]; auto. right. split; auto. counting.
    + cbn. apply loop_upd; auto; [apply incl_appl, incl_refl|discriminate].
    + cbn. rewrite app_length. lia.
    + right. cbn. rewrite app_length. cbn. split; auto. lia.
  - pose proof (have_kept _ _ _ E) as Ko. pose proof (I1 o) as Io. destruct (I6 o ob Ko Eo) as (B1 & B2 & B3).
    destruct (reclaimed_good (o_with_net None ob)) as (R1 & R2 & R3).
    by_swap s o ob I Eo; try solve [at_pc E (OPut [length (p_heap s)]); counting].
    + cbn. apply loop_upd; auto using incl_refl; discriminate.
    + left. destruct (reclaimed_net (o_with_net None ob)) as [X|X]; rewrite X; auto.
  - pose proof (have_kept _ _ _ E) as Ko. pose proof (I1 o) as Io. destruct (I6 o ob Ko Eo) as (B1 & B2 & B3).
    destruct (reclaimed_good (o_with_err e (o_with_net (Some (length (p_nets s))) ob))) as (R1 & R2 & R3).
    by_swap s o ob I Eo; try solve [at_pc E (OPut [length (p_heap s)]); counting].
    + cbn. apply loop_upd; auto using incl_refl; discriminate.
    + cbn. rewrite app_length. lia.
    + destruct (reclaimed_net (o_with_err e (o_with_net (Some (length (p_nets s))) ob))) as [X|X]; rewrite X; auto. right. right. split; auto.
      cbn. rewrite app_length. cbn. lia.
  - cbn in A. discriminate.
  - apply (Inv_move s); auto; destruct os; try solve [at_pc E OFail; counting]; try solve [at_pc E (OPut (n :: os)); counting];
    cbn; apply loop_upd; auto using incl_refl; discriminate.
  - apply (Inv_move s); auto; destruct os; try solve [at_pc E Idle; counting]; try solve [at_pc E (CPut (n :: os)); counting];
    cbn; apply loop_upd; auto using incl_refl; discriminate.
  - apply (Inv_move s); auto; try solve [at_pc E Idle; counting]. cbn. apply loop_upd; auto using incl_refl; discriminate.
  - apply (Inv_move s); auto; try solve [at_pc E Idle; counting]. cbn. apply loop_upd; auto using incl_refl; discriminate.
  - apply (Inv_move s); auto; try solve [at_pc E Idle; counting]. cbn. apply loop_upd; auto using incl_refl; discriminate.
  - unfold orderly in A. cbn in A. rewrite andb_true_r in A. apply andb_prop in A. destruct A as [A1 A2]. apply existsb_in in A1.
    destruct (OutK _ A1) as (O1 & O2 & O3).
    by_upd s o ob I Eo; try solve [intros; counting].
    + cbn. rewrite length_met. auto.
    + left. destruct m; auto.
  - unfold orderly in A. cbn in A. rewrite andb_true_r in A. apply andb_prop in A. destruct A as [A1 A2]. apply existsb_in in A1.
    destruct (OutK _ A1) as (O1 & O2 & O3). apply Nat.leb_le in A2. destruct es as [|e [|e2 es]]; try congruence; [|cbn in A2; lia].
    cbn [put_back fst snd]. rewrite length_upd.
    destruct (reclaimed_good (o_with_err e (met_obj m ob))) as (R1 & R2 & R3).
    pose proof (len_remove o (p_out s)) as LR.
    by_swap s o ob I Eo; try solve [at_pc E (CPut [length (p_heap s)]); counting; rewrite ?cn_remove in *; counting].
    + cbn. apply loop_upd; auto using incl_refl; discriminate.
    + cbn. rewrite length_met. auto.
    + apply R3. destruct m; auto.
    + destruct (reclaimed_net (o_with_err e (met_obj m ob))) as [X|X]; rewrite X; auto. right. left. destruct m; auto.
  - unfold orderly in A. cbn in A. rewrite andb_true_r in A. apply andb_prop in A. destruct A as [A1 A2]. apply existsb_in in A1.
    destruct (OutK _ A1) as (O1 & O2 & O3). pose proof (len_remove o (p_out s)) as LR.
    by_upd s o ob I Eo; try solve [intros; counting; rewrite ?cn_remove in *; counting].
    + cbn. rewrite length_shut, length_met. auto.
    + left. destruct m; auto.
  - apply (Inv_move s); auto; try solve [at_pc E (PRet true); counting]. cbn. apply loop_upd; auto using incl_refl; discriminate.
  - assert (Ro : In o (p_refs s)) by (apply (I5 _ _ E); now left). destruct (I4 o Ro) as [_ K0].
    by_upd s o ob I Eo; try solve [at_pc E (PLoop os); counting].
    + right. at_pc E (PLoop os); pose proof (cn_upd mid _ _ _ (PLoop os) o E); counting.
    + cbn. apply loop_upd; auto using incl_refl. intros os' [= <-]. intros z Hz. apply (I5 _ _ E). now right.
  - assert (Ro : In o (p_refs s)) by (apply (I5 _ _ E); now left). destruct (I4 o Ro) as [_ K0].
    by_upd s o ob I Eo; try solve [at_pc E (PLoop os); counting].
    + right. at_pc E (PLoop os); pose proof (cn_upd mid _ _ _ (PLoop os) o E); counting.
    + cbn. apply loop_upd; auto using incl_refl. intros os' [= <-]. intros z Hz. apply (I5 _ _ E). now right.
    + cbn. rewrite length_shut. auto.
  - assert (Ro : In o (p_refs s)) by (apply (I5 _ _ E); now left). destruct (I4 o Ro) as [_ K0].
    by_upd s o ob I Eo; try solve [at_pc E (PRet false); counting].
    + right. at_pc E (PRet false); pose proof (cn_upd mid _ _ _ (PRet false) o E); cbn [mid] in *; counting.
    + cbn. apply loop_upd; auto using incl_refl. discriminate.
  - assert (Ro : In o (p_refs s)) by (apply (I5 _ _ E); now left). destruct (I4 o Ro) as [_ K0].
    by_upd s o ob I Eo; try solve [at_pc E (PRet false); counting].
    + right. at_pc E (PRet false); pose proof (cn_upd mid _ _ _ (PRet false) o E); cbn [mid] in *; counting.
    + cbn. apply loop_upd; auto using incl_refl. discriminate.
    + cbn. rewrite length_shut. auto.
Qed.
Lemma Inv_reach : forall s, reach orderly s -> Inv s.
Proof. intros s R. induction R; [apply Inv_new|eapply Inv_step; eauto]. Qed.

(** ** Whatever the callers and the server do *)
Definition H s x := cn x (p_handed s).
Arguments H : simpl never.
Record InvB (s : pool) : Prop := {
  b_one : forall x, K s x + G s x + H s x <= 1;
  b_in : forall x, K s x + G s x + H s x > 0 -> x < length (p_heap s);
  b_refs : forall x, In x (p_refs s) -> G s x + H s x > 0;
  b_loop : forall t os, nth_error (p_pcs s) t = Some (PLoop os) -> incl os (p_refs s);
  b_out : forall x, O s x <= H s x;
  b_good : forall x ob, K s x > 0 -> nth_error (p_heap s) x = Some ob -> o_err ob = false /\ o_closed ob = false /\ o_pool ob = true }.

Lemma InvB_upd : forall s s' h', InvB s -> p_heap s' = p_heap s \/ (exists o ob, nth_error (p_heap s) o = Some ob /\ p_heap s' = upd o h' (p_heap s) /\ K s' o = 0) ->
  (forall x, K s' x + G s' x + H s' x = K s x + G s x + H s x) -> (forall x, K s' x <= K s x) -> (forall x, O s' x + H s x <= O s x + H s' x) ->
  (forall x, In x (p_refs s') -> In x (p_refs s) \/ G s' x + H s' x > 0) ->
  (forall t os, nth_error (p_pcs s') t = Some (PLoop os) -> incl os (p_refs s')) -> InvB s'.
Proof.
  intros s s' h' [I1 I2 I3 I4 I5 I6] Hh Hs HK HO Hr Hp.
  assert (L : length (p_heap s') = length (p_heap s)) by (destruct Hh as [->|(o & ob & E & -> & _)]; auto; apply length_upd).
  split; auto.
  - intros x. specialize (Hs x). specialize (I1 x). lia.
  - intros x. rewrite L, Hs. auto.
  - intros x Hx. apply Hr in Hx. destruct Hx as [Hx|Hx]; auto. specialize (I3 x Hx). specialize (Hs x). specialize (HK x). lia.
  - intros x. specialize (HO x). specialize (I5 x). lia.
  - intros x ob Hx E. specialize (HK x). destruct Hh as [Hh|(o & b & E' & Hh & HKo)]; rewrite Hh in E; [eapply I6; eauto; lia|].
    apply (hl_upd _ _ _ _ _ _ E') in E. destruct E as [[-> ->]|[N E]]; [lia|]. eapply I6; eauto. lia.
Qed.
Lemma put_back_ids : forall o es h, fst (put_back o es h) = seq (length h) (length es).
Proof.
  intros o es. induction es as [|e es IH]; intros h; auto. cbn [put_back]. specialize (IH (h ++ [reclaimed (o_with_err e o)])).
  destruct (put_back o es (h ++ [reclaimed (o_with_err e o)])) as [os h']. cbn in *. rewrite IH, app_length. cbn. now rewrite Nat.add_1_r.
Qed.
Lemma put_back_heap : forall o es h, snd (put_back o es h) = h ++ map (fun e => reclaimed (o_with_err e o)) es.
Proof.
  intros o es. induction es as [|e es IH]; intros h; [cbn; now rewrite app_nil_r|]. cbn [put_back]. specialize (IH (h ++ [reclaimed (o_with_err e o)])).
  destruct (put_back o es (h ++ [reclaimed (o_with_err e o)])) as [os h']. cbn in *. rewrite IH, <- app_assoc. reflexivity.
Qed.
Lemma cn_seq : forall x a n, cn x (seq a n) = if (a <=? x) && (x <? a + n) then 1 else 0.
Proof.
  intros x a n. destruct ((a <=? x) && (x <? a + n)) eqn:E.
  - apply andb_prop in E. destruct E as [E1 E2]. apply Nat.leb_le in E1. apply Nat.ltb_lt in E2. apply NoDup_count_occ'; [apply seq_NoDup|apply in_seq; lia].
  - apply count_occ_not_In. intros Hi. apply in_seq in Hi. apply andb_false_iff in E. rewrite Nat.leb_gt, Nat.ltb_ge in E. lia.
Qed.
Lemma InvB_put : forall s s' o ob ob' es, InvB s -> nth_error (p_heap s) o = Some ob -> p_heap s' = upd o ob' (p_heap s) ++ map (fun e => reclaimed (o_with_err e ob')) es ->
  (K s o > 0 /\ (forall x, K s' x + (if Nat.eq_dec o x then 1 else 0) = K s x + cn x (seq (length (p_heap s)) (length es))) \/
   H s o > 0 /\ (forall x, K s' x = K s x + cn x (seq (length (p_heap s)) (length es)))) ->
  (forall x, G s' x = G s x) -> p_handed s' = p_handed s -> (forall x, O s' x <= O s x) -> p_refs s' = p_refs s ->
  (forall t os, nth_error (p_pcs s') t = Some (PLoop os) -> incl os (p_refs s')) -> o_pool ob' = true -> InvB s'.
Proof.
  intros s s' o ob ob' es [I1 I2 I3 I4 I5 I6] Ho Hh HK HG HH HO Hr Hp Hpool.
  assert (L : length (p_heap s') = length (p_heap s) + length es) by (rewrite Hh, app_length, length_upd, map_length; auto).
  assert (Lo : o < length (p_heap s)) by (apply nth_error_Some; rewrite Ho; discriminate).
  assert (HHx : forall x, H s' x = H s x) by (intros x; unfold H; now rewrite HH).
  assert (Hlow : forall x, K s x + G s x + H s x > 0 -> cn x (seq (length (p_heap s)) (length es)) = 0).
  { intros x Hx. apply I2 in Hx. rewrite cn_seq. destruct (Nat.leb_spec (length (p_heap s)) x); auto; lia. }
  assert (Hhigh : forall x, cn x (seq (length (p_heap s)) (length es)) = 0 \/ cn x (seq (length (p_heap s)) (length es)) = 1 /\ length (p_heap s) <= x < length (p_heap s) + length es /\ K s x + G s x + H s x = 0).
  { intros x. destruct (cn x (seq (length (p_heap s)) (length es))) eqn:C; auto. right. rewrite cn_seq in C.
    destruct (Nat.leb_spec (length (p_heap s)) x), (Nat.ltb_spec x (length (p_heap s) + length es)); cbn in C; try lia. split; [lia|split; [lia|]].
    destruct (K s x + G s x + H s x) eqn:Z; auto. assert (x < length (p_heap s)) by (apply I2; lia). lia. }
  assert (HK1 : forall x, K s' x <= K s x + cn x (seq (length (p_heap s)) (length es))).
  { intros x. destruct HK as [[_ HK]|[_ HK]]; specialize (HK x); lia. }
  split; auto.
  - intros x. rewrite HG, HHx. specialize (HK1 x). specialize (I1 x). destruct (Hhigh x) as [C|(C & _ & Z)]; lia.
  - intros x Hx. rewrite HG, HHx in Hx. rewrite L. specialize (HK1 x). destruct (Hhigh x) as [C|(C & B & Z)]; [|lia].
    assert (x < length (p_heap s)) by (apply I2; lia). lia.
  - intros x Hx. rewrite HG, HHx. apply I3. now rewrite <- Hr.
  - intros x. rewrite HHx. specialize (HO x). specialize (I5 x). lia.
  - intros x b Hx E. rewrite Hh in E. destruct (Nat.lt_ge_cases x (length (p_heap s))) as [Lx|Lx].
    + rewrite nth_error_app1 in E by (now rewrite length_upd). assert (C : cn x (seq (length (p_heap s)) (length es)) = 0) by (destruct (Hhigh x) as [?|(? & ? & ?)]; lia).
      apply (hl_upd _ _ _ _ _ _ Ho) in E. destruct E as [[-> ->]|[N E]].
      * exfalso. pose proof (I1 o). destruct HK as [[K1 HK]|[K1 HK]]; specialize (HK o); destruct (Nat.eq_dec o o); try congruence; lia.
      * eapply I6; eauto. specialize (HK1 x). lia.
    + rewrite nth_error_app2 in E by (rewrite length_upd; auto). apply nth_error_In, in_map_iff in E. destruct E as (e & <- & _).
      destruct (reclaimed_good (o_with_err e ob')) as (R1 & R2 & R3). auto.
Qed.

Lemma InvB_new : forall max n, InvB (new_pool max n).
Proof.
  intros max n. destruct (Inv_new max n) as [I1 I2 I3 I4 I5 I6 I7 I8]. change (H (new_pool max n)) with (O (new_pool max n)).
  split; auto. intros x [].
Qed.
Ltac by_same s I h := match goal with |- InvB ?s' => refine (InvB_upd s s' h I _ _ _ _ _ _) end; try solve [now left|cbn; intros; now left|lia].
Ltac counting' := unfold H in *; cbn [p_handed with_pc with_lock with_closed with_chan with_refs with_heap with_nets with_out with_handed with_event] in *; counting.
Lemma InvB_step : forall s a s', InvB s -> pstep s a = Some s' -> InvB s'.
Proof.
  intros s a s' I T. apply pstep_inv in T. pose proof I as [I1 I2 I3 I4 I5 I6].
  destruct T as [t E|t E|t E L|t E L|t o q E C|t r o ob n E Eo En|t d o ob E Eo|t d o ob E Eo|t d o ob e E Eo|t d o ob e1 e2 E Eo|t o os E L|t o os E L
     |t o E|t E|t ok E|t o m es ob E Eo Hh Hk Hc|t o m es ob E Eo Hh Hk Hes Hc Hp|t o m es ob E Eo Hh Hk Hes Hc Hp|t r E|t r o os ob E Eo Hc|t o os ob E Eo Hc|t o os ob E Eo Hc|t o os ob E Eo Hc].
  - by_same s I blank; try solve [at_pc E OWait; counting']. cbn. apply loop_upd; auto using incl_refl; discriminate.
  - by_same s I blank; try solve [at_pc E PWait; counting']. cbn. apply loop_upd; auto using incl_refl; discriminate.
  - by_same s I blank; destruct (p_closed s); try solve [at_pc E OFail; counting']; try solve [at_pc E ORecv; counting'];
    cbn; apply loop_upd; auto using incl_refl; discriminate.
  - by_same s I blank; try solve [at_pc E (PLoop (p_refs s)); counting']. cbn. apply loop_upd; auto using incl_refl. intros os [= <-]. apply incl_refl.
  - by_same s I blank; try solve [at_pc E (OHave o); counting'; rewrite C in *; counting']. cbn. apply loop_upd; auto using incl_refl; discriminate.
  - by_same s I blank; try solve [at_pc E (OGive o); counting']. cbn. apply loop_upd; auto using incl_refl; discriminate.
  - pose proof (have_kept _ _ _ E) as Ko. pose proof (I1 o) as Io.
    assert (K0 : cn o (flat_map mid (upd t (OGive o) (p_pcs s))) + cn o (p_chan s) = 0).
    { pose proof (cn_upd mid _ _ _ (OGive o) o E). cbn [mid] in *. counting'. }
    by_same s I (o_with_net (Some (length (p_nets s))) ob); try solve [at_pc E (OGive o); counting'].
    + right. exists o, ob. repeat split; auto. counting'.
    + cbn. intros x Hx. apply in_app_or in Hx. destruct Hx as [Hx|[<-|[]]]; auto. right. pose proof (cn_upd give _ _ _ (OGive o) o E) as X. cbn [give] in X. counting'.
    + cbn. apply loop_upd; auto; [apply incl_appl, incl_refl|discriminate].
  - pose proof (have_kept _ _ _ E) as Ko. destruct (I6 o ob Ko Eo) as (B1 & B2 & B3).
    match goal with |- InvB ?s' => refine (InvB_put s s' o ob (o_with_net None ob) [o_err ob] I Eo _ _ _ eq_refl _ eq_refl _ _) end; auto.
    + left. split; auto. at_pc E (OPut [length (p_heap s)]); cbn [seq length]; counting'.
    + at_pc E (OPut [length (p_heap s)]); counting'.
    + cbn. apply loop_upd; auto using incl_refl; discriminate.
  - pose proof (have_kept _ _ _ E) as Ko. destruct (I6 o ob Ko Eo) as (B1 & B2 & B3).
    match goal with |- InvB ?s' => refine (InvB_put s s' o ob (o_with_net (Some (length (p_nets s))) ob) [e] I Eo eq_refl _ _ eq_refl _ eq_refl _ _) end; auto.
    + left. split; auto. at_pc E (OPut [length (p_heap s)]); cbn [seq length]; counting'.
    + at_pc E (OPut [length (p_heap s)]); counting'.
    + cbn. apply loop_upd; auto using incl_refl; discriminate.
  - pose proof (have_kept _ _ _ E) as Ko. destruct (I6 o ob Ko Eo) as (B1 & B2 & B3).
    match goal with |- InvB ?s' => refine (InvB_put s s' o ob (o_with_net (Some (length (p_nets s))) ob) [e1; e2] I Eo eq_refl _ _ eq_refl _ eq_refl _ _) end; auto.
    + left. split; auto. at_pc E (OPut [length (p_heap s); S (length (p_heap s))]); cbn [seq length]; counting'.
    + at_pc E (OPut [length (p_heap s); S (length (p_heap s))]); counting'.
    + cbn. apply loop_upd; auto using incl_refl; discriminate.
  - by_same s I blank; destruct os; try solve [at_pc E OFail; counting']; try solve [at_pc E (OPut (n :: os)); counting'];
    cbn; apply loop_upd; auto using incl_refl; discriminate.
  - by_same s I blank; destruct os; try solve [at_pc E Idle; counting']; try solve [at_pc E (CPut (n :: os)); counting'];
    cbn; apply loop_upd; auto using incl_refl; discriminate.
  - by_same s I blank; try solve [at_pc E Idle; counting']. cbn. apply loop_upd; auto using incl_refl; discriminate.
  - by_same s I blank; try solve [at_pc E Idle; counting']. cbn. apply loop_upd; auto using incl_refl; discriminate.
  - by_same s I blank; try solve [at_pc E Idle; counting']. cbn. apply loop_upd; auto using incl_refl; discriminate.
  - apply cn_in in Hh. pose proof (I1 o) as Io.
    by_same s I (met_obj m ob); try solve [intros; counting']; auto.
    right. exists o, ob. repeat split; auto. change (K s o = 0). unfold H in Io. lia.
  - apply cn_in in Hh. rewrite put_back_ids, put_back_heap, length_upd.
    match goal with |- InvB ?s' => refine (InvB_put s s' o ob (met_obj m ob) es I Eo eq_refl _ _ eq_refl _ eq_refl _ _) end.
    + right. split; auto. at_pc E (CPut (seq (length (p_heap s)) (length es))). counting'.
    + at_pc E (CPut (seq (length (p_heap s)) (length es))). counting'.
    + intros x. unfold O. cbn. rewrite cn_remove. destruct (Nat.eq_dec x o); lia.
    + cbn. apply loop_upd; auto using incl_refl; discriminate.
    + destruct m; auto.
  - apply cn_in in Hh. pose proof (I1 o) as Io.
    by_same s I (o_with_closed (met_obj m ob)); try solve [intros; counting']; auto.
    + right. exists o, ob. repeat split; auto. change (K s o = 0). unfold H in Io. lia.
    + intros x. unfold O, H. cbn. rewrite cn_remove. destruct (Nat.eq_dec x o); lia.
  - by_same s I blank; try solve [at_pc E (PRet true); counting']. cbn. apply loop_upd; auto using incl_refl; discriminate.
  - assert (Ro : In o (p_refs s)) by (apply (I4 _ _ E); now left). pose proof (I3 o Ro) as Go. pose proof (I1 o) as Io.
    by_same s I (o_unpooled ob); try solve [at_pc E (PLoop os); counting'].
    + right. exists o, ob. repeat split; auto. pose proof (cn_upd mid _ _ _ (PLoop os) o E). counting'.
    + cbn. apply loop_upd; auto using incl_refl. intros os' [= <-]. intros z Hz. apply (I4 _ _ E). now right.
  - assert (Ro : In o (p_refs s)) by (apply (I4 _ _ E); now left). pose proof (I3 o Ro) as Go. pose proof (I1 o) as Io.
    by_same s I (o_with_closed (o_unpooled ob)); try solve [at_pc E (PLoop os); counting'].
    + right. exists o, ob. repeat split; auto. pose proof (cn_upd mid _ _ _ (PLoop os) o E). counting'.
    + cbn. apply loop_upd; auto using incl_refl. intros os' [= <-]. intros z Hz. apply (I4 _ _ E). now right.
  - assert (Ro : In o (p_refs s)) by (apply (I4 _ _ E); now left). pose proof (I3 o Ro) as Go. pose proof (I1 o) as Io.
    by_same s I (o_unpooled ob); try solve [at_pc E (PRet false); counting'].
    + right. exists o, ob. repeat split; auto. pose proof (cn_upd mid _ _ _ (PRet false) o E). cbn [mid] in *. counting'.
    + cbn. apply loop_upd; auto using incl_refl. discriminate.
  - assert (Ro : In o (p_refs s)) by (apply (I4 _ _ E); now left). pose proof (I3 o Ro) as Go. pose proof (I1 o) as Io.
    by_same s I (o_with_err true (o_with_closed (o_unpooled ob))); try solve [at_pc E (PRet false); counting'].
    + right. exists o, ob. repeat split; auto. pose proof (cn_upd mid _ _ _ (PRet false) o E). cbn [mid] in *. counting'.
    + cbn. apply loop_upd; auto using incl_refl. discriminate.
Qed.
Lemma InvB_reach : forall P s, reach P s -> InvB s.
Proof. intros P s R. induction R; [apply InvB_new|eapply InvB_step; eauto]. Qed.
