(** The timeout of a connection. *)
From Coq Require Import ZArith List Bool Lia ZifyBool.
From Verif Require Import GoPrims Value PrimLemmas PackSpec Encoder Decoder Framing ReadFaults Errors Misc Session SessionNet Timed PropsMisc PropsFault.
Import ListNotations.
Open Scope Z_scope.

(** * C70 *)
(** A timeout of zero or less is accepted ... *)
Theorem C70_refuted_accepted : forall scheme host t n, eq_ci scheme s_bolt -> t <> [] -> IntText t n -> - 9223372036 <= n <= 0 ->
  exists c, parse_url {| u_scheme := scheme; u_user := None; u_host := host; u_query := [(s_timeout, t)] |} = POk c /\ cf_timeout c = n * 10 ^ 9.
Proof.
  intros scheme host t n Hs Ht Hi Hn.
  exists {| cf_user := []; cf_password := []; cf_timeout := n * 10 ^ 9; cf_tls := false; cf_cert := []; cf_key := []; cf_ca := []; cf_noverify := false |}.
  split; [|reflexivity]. apply C23_conn_string. constructor; cbn; auto.
  - destruct t as [|a t]; [easy|]. exists n. split; [exact Hi|]. split; [lia|]. symmetry. apply wraps_id; lia.
  - split; [discriminate|]. intros (v & E & _). discriminate.
  - split; [discriminate|]. intros (E & _). discriminate.
Qed.
Print Assumptions C70_refuted_accepted.
(** ... and then, whatever the server does, opening fails before a byte has been sent. *)
Theorem C70_refuted : forall T (io : transport T) mk timeout f user password t, timeout <= 0 ->
  let net := bytenet (deadlined timeout io) mk in
  exists w, initialize net (S f) (close net (S f)) user password (fresh false t) = (Ok (Some (ewrap FConn 244 EBadConn)), w) /\
    w_net w = fst (t_close io t) /\ c_closed (w_conn w) = true.
Proof.
  intros T io mk timeout f user password t H net. subst net. unfold deadlined. destruct (timeout <=? 0) eqn:E; [|lia].
  destruct (t_close io t) as [t' b] eqn:Ec. eexists. split; [|split].
  - unfold initialize, bind, getn, setn. cbn -[close]. cbn [close]. unfold close_body, bind, getc, getn, setn, modc, ret. cbn. rewrite Ec. destruct b; reflexivity.
  - reflexivity.
  - destruct b; reflexivity.
Qed.
Print Assumptions C70_refuted.
(** Dialling with TLS has no timeout: what is dialled is the same whatever the string says. *)
Definition with_timeout (t : str) (u : urlinfo) : urlinfo :=
  {| u_scheme := u_scheme u; u_user := u_user u; u_host := u_host u; u_query := (s_timeout, t) :: u_query u |}.
Theorem C70_refuted_tls : forall fs u t1 t2 n2 h c, create_conn fs (with_timeout t1 u) = DialTLS h c ->
  IntText t2 n2 -> - 2 ^ 63 <= n2 < 2 ^ 63 -> create_conn fs (with_timeout t2 u) = DialTLS h c.
Proof.
  intros fs u t1 t2 n2 h c E I R.
  assert (Q : forall t k, str_eqb k s_timeout = false -> qget k (with_timeout t u) = qget k u).
  { intros t k Hk. unfold qget. cbn [with_timeout u_query mget]. now rewrite Hk. }
  assert (Hn : t2 <> []) by (inversion I; subst; congruence).
  assert (A : exists c2, parse_url (with_timeout t2 u) = POk c2).
  { unfold create_conn in E. destruct (parse_url (with_timeout t1 u)) as [c1|] eqn:P; [|discriminate]. apply C23_conn_string in P. destruct P as [A1 A2 A3 A4 A5 A6].
    exists {| cf_user := cf_user c1; cf_password := cf_password c1; cf_timeout := wraps 64 (n2 * 10 ^ 9); cf_tls := cf_tls c1;
              cf_cert := cf_cert c1; cf_key := cf_key c1; cf_ca := cf_ca c1; cf_noverify := cf_noverify c1 |}.
    apply C23_conn_string. constructor; cbn [cf_user cf_password cf_timeout cf_tls cf_cert cf_key cf_ca cf_noverify]; auto.
    - cbn [with_timeout u_query mget]. replace (str_eqb s_timeout s_timeout) with true by reflexivity. destruct t2 as [|a t2]; [easy|]. exists n2. auto. }
  destruct A as (c2 & P2). unfold create_conn in *. rewrite P2. destruct (parse_url (with_timeout t1 u)) as [c1|] eqn:P1; [|discriminate].
  apply C23_conn_string in P1, P2. destruct P1 as [_ _ _ B1 B2 B3], P2 as [_ _ _ D1 D2 D3]. cbn [with_timeout u_query u_host mget] in *.
  change (str_eqb s_tls s_timeout) with false in *. change (str_eqb s_noverify s_timeout) with false in *. cbv iota in *.
  assert (cf_tls c2 = cf_tls c1) as X by (destruct (cf_tls c1), (cf_tls c2); intuition congruence).
  assert (cf_noverify c2 = cf_noverify c1) as Y by (rewrite X in D3; destruct (cf_noverify c1), (cf_noverify c2); intuition congruence).
  rewrite X in *. destruct (cf_tls c1); [|discriminate]. destruct B2 as (B21 & B22 & B23), D2 as (D21 & D22 & D23).
  rewrite Q in B21, B22, B23, D21, D22, D23 by reflexivity.
  assert (tls_config fs c2 = tls_config fs c1) as -> by (unfold tls_config; now rewrite Y, B21, B22, B23, D21, D22, D23). exact E.
Qed.
Print Assumptions C70_refuted_tls.

(** What holds: with a positive timeout, the [i]-th read of a call returns at most [i + 1]
    timeouts after the call began ... *)
Theorem C70_wait_partial : forall timeout i now k e t, 0 < timeout ->
  nth_error (arrive timeout now i) k = Some (e, t) -> now <= t <= now + (Z.of_nat k + 1) * timeout.
Proof.
  intros timeout i. induction i as [|[a b] i IH]; intros now k e t H; cbn [arrive]; destruct (timeout <=? 0) eqn:E; try lia.
  - now destruct k.
  - destruct (a <=? now + timeout) eqn:Ea; destruct k as [|k]; cbn [nth_error]; intros X.
    + injection X as <- <-. lia.
    + apply IH in X; [|exact H]. lia.
    + injection X as <- <-. lia.
    + now destruct k.
Qed.
Print Assumptions C70_wait_partial.
(** ... a server that never pauses for longer than the timeout is never given up: reading
    gives what it gives without any timeout ... *)
Definition punctual (timeout now : Z) (i : inbox) : Prop :=
  forall i1 a b i2, i = i1 ++ (a, b) :: i2 -> a <= last (map fst i1) now + timeout.
Theorem C70_punctual_partial : forall mk timeout now i, 0 < timeout -> punctual timeout now i ->
  Decode mk (map fst (arrive timeout now i)) = Decode mk (map (fun s => RData (snd s)) i).
Proof.
  intros mk timeout now i H P. f_equal.
  assert (G : forall i now lst, lst <= now -> (forall i1 a b i2, i = i1 ++ (a, b) :: i2 -> a <= last (map fst i1) lst + timeout) ->
    map fst (arrive timeout now i) = map (fun s => RData (snd s)) i).
  { clear now i P. induction i as [|[a b] i IH]; intros now lst Hl P; cbn [arrive]; destruct (timeout <=? 0) eqn:E; try lia; [reflexivity|].
    pose proof (P [] a b i eq_refl) as Pa. cbn in Pa. destruct (a <=? now + timeout) eqn:Ea; [|lia]. cbn [map fst snd]. f_equal.
    apply (IH _ a); [lia|]. intros i1 a1 b1 i2 ->. specialize (P ((a, b) :: i1) a1 b1 i2 eq_refl). cbn [map fst] in P.
    destruct i1 as [|x i1]; [exact P|]. replace (last (map fst (x :: i1)) a) with (last (a :: map fst (x :: i1)) lst); [exact P|].
    clear. cbn [map last]. generalize (fst x) as y. induction (map fst i1) as [|z l IHl]; intros y; [reflexivity|]. apply IHl. }
  exact (G i now now (Z.le_refl _) P).
Qed.
Print Assumptions C70_punctual_partial.
Lemma Took_fail : forall r l r', Took r l r' -> forall s, r = s ++ [RFail] -> exists s', r' = s' ++ [RFail].
Proof.
  induction 1 as [r|r l r' T IH|b r l r' T IH|b c d r l r' T IH]; intros s E; eauto.
  - destruct s as [|x s]; [discriminate|]. injection E as _ E. eauto.
  - destruct s as [|x s]; [discriminate|]. injection E as _ E. eauto.
  - destruct s as [|x s]; [discriminate|]. injection E as _ E. apply (IH (RData (c :: d) :: s)). cbn. now rewrite E.
Qed.
Definition full_segment (e : rev) : Prop := match e with RData [] => False | _ => True end.
Lemma Took_full : forall r l r', Took r l r' -> Forall full_segment r -> Forall full_segment r'.
Proof. induction 1 as [r|r l r' T IH|b r l r' T IH|b c d r l r' T IH]; intros F; auto; inversion F; subst; auto. Qed.
Lemma Took_size : forall r l r', Took r l r' -> (length (filter (fun e => match e with RFail => true | _ => false end) r') = length (filter (fun e => match e with RFail => true | _ => false end) r))%nat.
Proof. induction 1; cbn in *; auto. Qed.
(** ... and one that pauses for longer in the middle of a message is: the call ends with
    driver.ErrBadConn, one timeout after the last segment in time. *)
Theorem C70_late_partial : forall mk timeout now i a b i', 0 < timeout -> punctual timeout now i ->
  Forall (fun s => snd s <> [] /\ Forall is_byte (snd s)) i -> (forall m rest, ~ Receives (flat_map snd i) m rest) ->
  (forall t, In t (now :: map fst i) -> t + timeout < a) ->
  Decode mk (map fst (arrive timeout now (i ++ (a, b) :: i'))) = (DFail (DEStream RBad), []) /\
  exists t, In t (now :: map fst i) /\ last (map snd (arrive timeout now (i ++ (a, b) :: i'))) now = t + timeout.
Proof.
  intros mk timeout now i a b i' H P F N L.
  assert (G : forall i now lst, lst <= now -> (forall i1 a b i2, i = i1 ++ (a, b) :: i2 -> a <= last (map fst i1) lst + timeout) ->
    (forall t, In t (now :: map fst i) -> t + timeout < a) ->
    map fst (arrive timeout now (i ++ (a, b) :: i')) = map (fun s => RData (snd s)) i ++ [RFail] /\
    exists t, In t (now :: map fst i) /\ forall d, last (map snd (arrive timeout now (i ++ (a, b) :: i'))) d = t + timeout).
  { clear now i P F N L. induction i as [|[x y] i IH]; intros now lst Hl P L; cbn [arrive app]; destruct (timeout <=? 0) eqn:E; try lia.
    - pose proof (L now (or_introl eq_refl)). destruct (a <=? now + timeout) eqn:Ea; [lia|]. split; [reflexivity|]. exists now. split; [now left|reflexivity].
    - pose proof (P [] x y i eq_refl) as Pa. cbn in Pa. destruct (x <=? now + timeout) eqn:Ex; [|lia]. cbn [map fst snd].
      destruct (IH (Z.max now x) x) as (E1 & t & Ht & E2).
      + lia.
      + intros i1 a1 b1 i2 ->. specialize (P ((x, y) :: i1) a1 b1 i2 eq_refl). cbn [map fst] in P.
        destruct i1 as [|z i1]; [exact P|]. replace (last (map fst (z :: i1)) x) with (last (x :: map fst (z :: i1)) lst); [exact P|].
        clear. cbn [map last]. generalize (fst z) as v. induction (map fst i1) as [|v2 l IHl]; intros v; [reflexivity|]. apply IHl.
      + intros t [<-|Ht].
        * destruct (Z.max_spec now x) as [(_ & ->)|(_ & ->)]; apply L; cbn; auto.
        * apply L. cbn. auto.
      + split; [cbn [app]; now rewrite E1|]. exists t. split.
        * destruct Ht as [<-|Ht]; [|cbn; auto]. destruct (Z.max_spec now x) as [(_ & ->)|(_ & ->)]; cbn; auto.
        * intros d. specialize (E2 (Z.max now x)). destruct (arrive timeout (Z.max now x) (i ++ (a, b) :: i')) as [|z l] eqn:El.
          -- exfalso. destruct i; discriminate.
          -- cbn [map last] in *. rewrite <- E2. clear. generalize (snd z) as v. induction (map snd l) as [|v2 l2 IHl]; intros v; [reflexivity|]. apply IHl. }
  destruct (G i now now (Z.le_refl _) P L) as (E1 & t & Ht & E2). split; [|exists t; auto].
  rewrite E1. clear G E1 E2 L P t Ht.
  set (r := map (fun s => RData (snd s)) i ++ [RFail]).
  assert (EB : rbytes r = flat_map snd i).
  { unfold r. clear. induction i as [|s i IH]; [reflexivity|]. cbn [map app rbytes flat_map]. now rewrite IH. }
  assert (HB : Forall is_byte (rbytes r)).
  { rewrite EB. clear - F. induction F as [|s i [_ Hs] F IH]; [constructor|]. cbn. apply Forall_app. auto. }
  destruct (C61_read_faults mk r HB) as [(m & w & r' & T & Fr & _)|(bb & l & r1 & e & r' & T & _ & Fa & E)].
  - exfalso. apply (N m (rbytes r')). exists w. split; [|exact Fr]. rewrite <- EB. now apply Took_bytes.
  - destruct (Took_fail _ _ _ T _ eq_refl) as (s' & E').
    assert (FF : Forall full_segment r1).
    { eapply Took_full; [exact T|]. unfold r. apply Forall_app. split; [|now repeat constructor]. apply Forall_map. eapply Forall_impl; [|exact F]. intros [z [|c d]] [Hs _]; cbn in *; auto. }
    pose proof (Took_size _ _ _ T) as Sz. destruct Fa as [b0|b0 r0|r0].
    + now destruct s'.
    + assert (r0 = []) as ->; [|exact E]. destruct s' as [|x s']; [now injection E' as ->|]. exfalso. injection E' as <- ->.
      assert (X : forall l, length (filter (fun e => match e with RFail => true | _ => false end) (map (fun s : Z * bytes => RData (snd s)) l ++ [RFail])) = 1%nat) by (intros k; induction k; cbn in *; auto).
      unfold r in Sz. rewrite X in Sz. cbn in Sz. rewrite filter_app in Sz. cbn in Sz. rewrite app_length in Sz. cbn in Sz. lia.
    + inversion FF; subst. contradiction.
Qed.
Print Assumptions C70_late_partial.
(** SUCCESS {} in two pieces, 5 and 12 seconds after the call, with a timeout of 10 seconds;
    and with the second piece at 16 seconds. *)
Example C70_example :
  Decode false (map fst (arrive 10 0 [(5, [0; 3; 0xB1]); (12, [0x70; 0xA0; 0; 0])])) = (DVal (VSuccess []), []) /\
  arrive 10 0 [(5, [0; 3; 0xB1]); (16, [0x70; 0xA0; 0; 0])] = [(RData [0; 3; 0xB1], 5); (RFail, 15)] /\
  (exists c, parse_url (ex_url [(s_timeout, [48])]) = POk c /\ cf_timeout c = 0).
Proof. split; [reflexivity|]. split; [reflexivity|]. eexists. split; reflexivity. Qed.
Example C70_punctual_example : punctual 10 0 [(5, [0; 3; 0xB1]); (12, [0x70; 0xA0; 0; 0])].
Proof. intros [|x [|y [|z i1]]] a b i2 E; inversion E; subst; cbn; lia. Qed.
