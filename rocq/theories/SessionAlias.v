(** Slices and maps that the driver shares with its caller: which calls look at them.
    stmt.go:52-54 newPipelineStmt keeps the slice of queries it is given; rows.go:116-118 Metadata returns the map
    that the rows keep. *)
From Coq Require Import ZArith List Bool Arith Lia.
From Verif Require Import GoPrims Value Errors Misc Session SessionGen.
Import ListNotations.
Open Scope nat_scope.

(** Two statements that differ at most in the queries of their pipelines, not in the number of them. *)
Definition like_s (b : bool) (s s' : stmt) : Prop :=
  s_query s = s_query s' /\ s_conn s = s_conn s' /\ s_closed s = s_closed s' /\ s_rows s = s_rows s' /\
  length (s_queries s) = length (s_queries s') /\ (b = false -> s_queries s = s_queries s').
(** Two row sets that differ at most in their metadata. *)
Definition like_r (b : bool) (r r' : rows) : Prop :=
  r_stmt r = r_stmt r' /\ r_closed r = r_closed r' /\ r_consumed r = r_consumed r' /\ r_finished r = r_finished r' /\
  r_pidx r = r_pidx r' /\ r_closeStmt r = r_closeStmt r' /\ (b = false -> r_md r = r_md r').
Definition each {A} (P : nat -> A -> A -> Prop) (l l' : list A) : Prop :=
  length l = length l' /\ forall i a a', nth_error l i = Some a -> nth_error l' i = Some a' -> P i a a'.

Lemma like_s_refl b s : like_s b s s. Proof. repeat split. Qed.
Lemma like_r_refl b r : like_r b r r. Proof. repeat split. Qed.
Lemma each_refl A (P : nat -> A -> A -> Prop) l : (forall i a, P i a a) -> each P l l.
Proof. intros H. split; [reflexivity|]. intros i a a' E E'. rewrite E in E'. injection E' as <-. apply H. Qed.
Lemma each_app A (P : nat -> A -> A -> Prop) l l' x : (forall i a, P i a a) -> each P l l' -> each P (l ++ [x]) (l' ++ [x]).
Proof.
  intros HR (HL & H). split; [now rewrite !app_length, HL|]. intros i a a' E E'.
  destruct (Nat.lt_ge_cases i (length l)) as [Hi|Hi].
  - rewrite nth_error_app1 in E by exact Hi. rewrite nth_error_app1 in E' by lia. eauto.
  - rewrite nth_error_app2 in E by exact Hi. rewrite nth_error_app2 in E' by lia. rewrite <- HL in E'. rewrite E in E'. injection E' as <-. apply HR.
Qed.
Lemma nth_upd A (l : list A) i x j a : nth_error (upd i x l) j = Some a -> i = j /\ a = x \/ i <> j /\ nth_error l j = Some a.
Proof.
  revert l j. induction i as [|i IH]; intros [|y l] [|j] E; cbn in *; try discriminate.
  - injection E as <-. auto.
  - right. auto.
  - right. auto.
  - destruct (IH l j E) as [(-> & ->)|(H & E')]; [left; auto|right; split; [congruence|exact E']].
Qed.
Lemma len_upd A (l : list A) i x : length (upd i x l) = length l.
Proof. revert l. induction i as [|i IH]; intros [|y l]; cbn; auto. Qed.
Lemma each_upd A (P : nat -> A -> A -> Prop) l l' i x x' : each P l l' -> P i x x' -> each P (upd i x l) (upd i x' l').
Proof.
  intros (HL & H) HP. split; [now rewrite !len_upd|]. intros j a a' E E'.
  destruct (nth_upd _ _ _ _ _ _ E) as [(-> & ->)|(Hn & E1)], (nth_upd _ _ _ _ _ _ E') as [(Hj & Ea)|(Hn' & E1')]; subst; try congruence; eauto.
Qed.
Lemma each_nth A (P : nat -> A -> A -> Prop) l l' i : each P l l' ->
  match nth_error l i, nth_error l' i with Some a, Some a' => P i a a' | None, None => True | _, _ => False end.
Proof.
  intros (HL & H). destruct (nth_error l i) as [a|] eqn:E, (nth_error l' i) as [a'|] eqn:E'; auto; eauto.
  - apply nth_error_None in E'. assert (i < length l) by (apply nth_error_Some; congruence). lia.
  - apply nth_error_None in E. assert (i < length l') by (apply nth_error_Some; congruence). lia.
Qed.

Section Alias.
Context {N : Type} (ops : netops N).
Notation W := (world N).
(** [B]: statements whose queries, [D]: rows whose metadata may have been changed.  They exist already. *)
Variables B D : nat -> bool.
Definition RA (w w' : W) : Prop :=
  w_conn w = w_conn w' /\ w_txs w = w_txs w' /\ w_net w = w_net w' /\
  each (fun i => like_s (B i)) (w_stmts w) (w_stmts w') /\ each (fun i => like_r (D i)) (w_rows w) (w_rows w') /\
  (forall i, B i = true -> i < length (w_stmts w)) /\ (forall i, D i = true -> i < length (w_rows w)).
Definition AlP {A} (P : A -> Prop) (m m' : M (N := N) A) : Prop :=
  forall w w', RA w w' -> fst (m w) = fst (m' w') /\ RA (snd (m w)) (snd (m' w')) /\ (forall a, fst (m w) = Ok a -> P a).
Definition Al {A} (m m' : M (N := N) A) : Prop := AlP (fun _ => True) m m'.

Ltac ra := unfold RA; cbn; repeat (split; [solve [reflexivity|assumption|congruence]|]); first [assumption | congruence | idtac].
Lemma Al_ret A (a : A) : Al (ret a) (ret a). Proof. intros w w' H. cbn. auto. Qed.
Lemma AlP_ret A (P : A -> Prop) a : P a -> AlP P (ret a) (ret a).
Proof. intros HP w w' H. cbn. split; [reflexivity|split; [exact H|]]. intros b E. injection E as <-. exact HP. Qed.
Lemma AlP_panic A (P : A -> Prop) : AlP P (panic (A := A)) panic. Proof. intros w w' H. cbn. split; [reflexivity|split; [exact H|discriminate]]. Qed.
Lemma AlP_nofuel A (P : A -> Prop) : AlP P (nofuel (A := A)) nofuel. Proof. intros w w' H. cbn. split; [reflexivity|split; [exact H|discriminate]]. Qed.
Lemma Al_getc : Al getc getc. Proof. intros w w' H. cbn. pose proof H as (-> & _). auto. Qed.
Lemma Al_gett i : Al (gett i) (gett i). Proof. intros w w' H. unfold gett. pose proof H as (_ & -> & _). destruct (nth_error _ _); cbn; auto. Qed.
Lemma AlP_bind A C (P : A -> Prop) (Q : C -> Prop) (m m' : M A) (k k' : A -> M C) :
  AlP P m m' -> (forall a, P a -> AlP Q (k a) (k' a)) -> AlP Q (bind m k) (bind m' k').
Proof.
  intros Hm Hk w w' H. unfold bind. destruct (Hm w w' H) as (E & HR & HP).
  destruct (m w) as [[a| |] w1], (m' w') as [x w1']; cbn [fst snd] in *; subst x; cbn [fst snd]; try (split; [reflexivity|split; [exact HR|discriminate]]).
  apply Hk; [apply HP; reflexivity|exact HR].
Qed.
Lemma Al_bind A C (Q : C -> Prop) (m m' : M A) (k k' : A -> M C) : Al m m' -> (forall a, AlP Q (k a) (k' a)) -> AlP Q (bind m k) (bind m' k').
Proof. intros Hm Hk. eapply AlP_bind; [exact Hm|]. intros a _. apply Hk. Qed.
Lemma AlP_any A (P : A -> Prop) m m' : AlP P m m' -> Al m m'.
Proof. intros H w w' HR. destruct (H w w' HR) as (? & ? & ?). split; [assumption|]. split; auto. Qed.
Lemma Al_gets_bind C (Q : C -> Prop) i (k k' : stmt -> M C) : (forall s s', like_s (B i) s s' -> AlP Q (k s) (k' s')) -> AlP Q (bind (gets i) k) (bind (gets i) k').
Proof.
  intros Hk w w' H. unfold bind, gets. pose proof H as (_ & _ & _ & HS & _). apply (each_nth _ _ _ _ i) in HS.
  destruct (nth_error (w_stmts w) i) as [s|], (nth_error (w_stmts w') i) as [s'|]; try contradiction; [apply Hk; assumption|].
  cbn. split; [reflexivity|]. split; [exact H|discriminate].
Qed.
Lemma Al_getr_bind C (Q : C -> Prop) i (k k' : rows -> M C) : (forall s s', like_r (D i) s s' -> AlP Q (k s) (k' s')) -> AlP Q (bind (getr i) k) (bind (getr i) k').
Proof.
  intros Hk w w' H. unfold bind, getr. pose proof H as (_ & _ & _ & _ & HS & _). apply (each_nth _ _ _ _ i) in HS.
  destruct (nth_error (w_rows w) i) as [s|], (nth_error (w_rows w') i) as [s'|]; try contradiction; [apply Hk; assumption|].
  cbn. split; [reflexivity|]. split; [exact H|discriminate].
Qed.
Lemma Al_setc c : Al (setc c) (setc c).
Proof. intros w w' (H1 & H2 & H3 & H4 & H5 & H6 & H7). cbn. split; [reflexivity|split; [ra|auto]]. Qed.
Lemma Al_sets i s s' : like_s (B i) s s' -> Al (sets i s) (sets i s').
Proof.
  intros HL w w' (H1 & H2 & H3 & H4 & H5 & H6 & H7). cbn. unfold RA. cbn. split; [reflexivity|]. split; [|auto].
  repeat (split; [assumption|]). split; [now apply each_upd|]. split; [assumption|]. split; [|assumption]. intros j Hj. rewrite len_upd. auto.
Qed.
Lemma Al_setr i s s' : like_r (D i) s s' -> Al (setr i s) (setr i s').
Proof.
  intros HL w w' (H1 & H2 & H3 & H4 & H5 & H6 & H7). cbn. unfold RA. cbn. split; [reflexivity|]. split; [|auto].
  repeat (split; [assumption|]). split; [now apply each_upd|]. split; [assumption|]. intros j Hj. rewrite len_upd. auto.
Qed.
Lemma Al_sett i t : Al (sett i t) (sett i t).
Proof. intros w w' (H1 & H2 & H3 & H4 & H5 & H6 & H7). cbn. split; [reflexivity|split; [ra|auto]]. Qed.
Lemma Al_newt t : Al (newt t) (newt t).
Proof. intros w w' (H1 & H2 & H3 & H4 & H5 & H6 & H7). cbn. split; [now rewrite H2|split; [ra|auto]]. Qed.
Lemma Al_news s : AlP (fun i => B i = false) (news s) (news s).
Proof.
  intros w w' (H1 & H2 & H3 & H4 & H5 & H6 & H7). cbn. pose proof (proj1 H4) as HL. split; [now rewrite HL|]. split.
  - unfold RA. cbn. repeat (split; [assumption|]). split; [apply each_app; [intros; apply like_s_refl|exact H4]|]. split; [assumption|]. split; [|assumption].
    intros i Hi. rewrite app_length. specialize (H6 i Hi). lia.
  - intros i E. injection E as <-. destruct (B (length (w_stmts w))) eqn:E; [|reflexivity]. specialize (H6 _ E). lia.
Qed.
Lemma Al_newr s : AlP (fun i => D i = false) (newr s) (newr s).
Proof.
  intros w w' (H1 & H2 & H3 & H4 & H5 & H6 & H7). cbn. pose proof (proj1 H5) as HL. split; [now rewrite HL|]. split.
  - unfold RA. cbn. repeat (split; [assumption|]). split; [apply each_app; [intros; apply like_r_refl|exact H5]|]. split; [assumption|].
    intros i Hi. rewrite app_length. specialize (H7 i Hi). lia.
  - intros i E. injection E as <-. destruct (D (length (w_rows w))) eqn:E; [|reflexivity]. specialize (H7 _ E). lia.
Qed.
Lemma Al_defer A C (m m' : M A) (d d' : M C) : Al m m' -> Al d d' -> Al (with_defer m d) (with_defer m' d').
Proof.
  intros Hm Hd w w' H. unfold with_defer. destruct (Hm w w' H) as (E & HR & _). destruct (m w) as [x w1], (m' w') as [x' w1']. cbn [fst snd] in *. subst x'.
  destruct (Hd w1 w1' HR) as (E & HR1 & _). destruct (d w1) as [y w2], (d' w1') as [y' w2']. cbn [fst snd] in *. subst y'. destruct x, y; cbn; auto.
Qed.
Lemma Al_modc f : Al (modc f) (modc f). Proof. apply Al_bind; [apply Al_getc|]. intros c. apply Al_setc. Qed.
Lemma Al_mods i f : (forall b s s', like_s b s s' -> like_s b (f s) (f s')) -> Al (mods i f) (mods i f).
Proof. intros H. apply Al_gets_bind. intros s s' HL. apply Al_sets. auto. Qed.
Lemma Al_modr i f : (forall b s s', like_r b s s' -> like_r b (f s) (f s')) -> Al (modr i f) (modr i f).
Proof. intros H. apply Al_getr_bind. intros s s' HL. apply Al_setr. auto. Qed.
Lemma Al_need i : Al (need_conn i) (need_conn i).
Proof. apply Al_gets_bind. intros s s' (_ & E & _). rewrite E. destruct (s_conn s'); [apply Al_ret|apply AlP_panic]. Qed.
Lemma Al_encode v : Al (encode_msg ops v) (encode_msg ops v).
Proof.
  intros w w' (H1 & H2 & H3 & H4 & H5 & H6 & H7). unfold encode_msg, bind, getc, getn, setn, modc, setc, ret. cbn. rewrite H1, H3.
  destruct (n_send ops _ _ _) as [n' []]; cbn; (split; [reflexivity|]); (split; [|auto]); ra.
Qed.
Lemma Al_decode : Al (decode_msg ops) (decode_msg ops).
Proof.
  intros w w' (H1 & H2 & H3 & H4 & H5 & H6 & H7). unfold decode_msg, bind, getc, getn, setn, modc, setc, ret, panic. cbn. rewrite H3.
  destruct (n_recv ops _) as [n' []]; cbn; rewrite ?H1; (split; [reflexivity|]); (split; [|auto]); ra.
Qed.
Lemma Al_netclose A (k k' : bool -> M A) : (forall b, Al (k b) (k' b)) ->
  Al (n <- getn ;; let '(n', b) := n_close ops n in setn n' ;; k b) (n <- getn ;; let '(n', b) := n_close ops n in setn n' ;; k' b).
Proof.
  intros Hk w w' (H1 & H2 & H3 & H4 & H5 & H6 & H7). unfold bind, getn, setn. rewrite H3. destruct (n_close ops _) as [n' b]. apply Hk. ra.
Qed.

Section Inner.
Variables (lf : nat) (cls : M (N := N) (option gerr)).
Hypothesis Hcls : Al cls cls.

Lemma zlen_len A B0 (l : list A) (l' : list B0) : length l = length l' -> zlen l = zlen l'.
Proof. unfold zlen. congruence. Qed.
Ltac flds := let H := fresh in intros ? ? ? H; destruct H as (? & ? & ? & ? & ? & ?); unfold like_s; cbn; repeat (split; [solve [reflexivity|assumption]|]); assumption.
Ltac fldr := let H := fresh in intros ? ? ? H; destruct H as (? & ? & ? & ? & ? & ? & ?); unfold like_r; cbn; repeat (split; [solve [reflexivity|assumption]|]); assumption.
Ltac al1 := match goal with
  | |- AlP (fun _ => True) ?m ?m' => change (Al m m')
  | |- AlP _ (ret _) (ret _) => apply AlP_ret; try exact I
  | |- Al (ret _) (ret _) => apply Al_ret
  | |- Al panic panic => apply AlP_panic
  | |- AlP _ panic panic => apply AlP_panic
  | |- Al nofuel nofuel => apply AlP_nofuel
  | |- AlP _ nofuel nofuel => apply AlP_nofuel
  | |- Al getc getc => apply Al_getc
  | |- Al (gett _) _ => apply Al_gett
  | |- Al (sett _ _) _ => apply Al_sett
  | |- Al (newt _) _ => apply Al_newt
  | |- Al (modc _) _ => apply Al_modc
  | |- Al (mods _ _) _ => apply Al_mods; flds
  | |- Al (modr _ _) _ => apply Al_modr; fldr
  | |- Al (need_conn _) _ => apply Al_need
  | |- Al (encode_msg _ _) _ => apply Al_encode
  | |- Al (decode_msg _) _ => apply Al_decode
  | |- Al (with_defer _ _) (with_defer _ _) => apply Al_defer
  | |- Al (bind getn _) (bind getn _) => apply Al_netclose; intro
  | |- _ (bind (gets ?i) _) (bind (gets ?i) _) => apply Al_gets_bind; let H := fresh "L" in intros ? ? H; pose proof H as (? & ? & ? & ? & ? & _)
  | |- _ (bind (getr ?i) _) (bind (getr ?i) _) => apply Al_getr_bind; let H := fresh "L" in intros ? ? H; pose proof H as (? & ? & ? & ? & ? & ? & _)
  | |- _ (bind (news _) _) _ => eapply AlP_bind; [apply Al_news|intros ? ?]
  | |- _ (bind (newr _) _) _ => eapply AlP_bind; [apply Al_newr|intros ? ?]
  | |- _ (bind _ _) (bind _ _) => apply Al_bind; [|intros ?]
  | H : length ?a = length ?b |- context [zlen ?a] => rewrite (zlen_len _ _ _ _ H)
  | H : ?f ?a = ?f ?b |- context [?f ?a] => rewrite H
  | |- _ (match ?x with _ => _ end) (match ?x with _ => _ end) => destruct x
  | |- Al _ _ => solve [auto]
  end.
Ltac al := repeat al1.

Lemma Al_send_run q ps : Al (send_run ops q ps) (send_run ops q ps). Proof. unfold send_run. al. Qed.
Lemma Al_send_pull : Al (send_pull_all ops) (send_pull_all ops). Proof. unfold send_pull_all. al. Qed.
Lemma Al_run_pull q ps : Al (send_run_pull_all ops q ps) (send_run_pull_all ops q ps).
Proof. pose proof Al_send_run. pose proof Al_send_pull. unfold send_run_pull_all. al. Qed.
Lemma Al_send_queries l qs : forall pss, Al (send_queries ops l qs pss) (send_queries ops l qs pss).
Proof. pose proof Al_run_pull. induction qs as [|q qs IH]; intros [|ps pss]; cbn [send_queries]; al. Qed.
Lemma Al_reset_loop f : Al (reset_loop ops cls f) (reset_loop ops cls f).
Proof. induction f as [|f IH]; cbn [reset_loop]; al. Qed.
Lemma Al_reset : Al (reset ops lf cls) (reset ops lf cls).
Proof. pose proof Al_reset_loop. unfold reset. al. Qed.
Lemma Al_ack_loop f : Al (ack_loop ops lf cls f) (ack_loop ops lf cls f).
Proof. pose proof Al_reset. induction f as [|f IH]; cbn [ack_loop]; al. Qed.
Lemma Al_ack : Al (ack_failure ops lf cls) (ack_failure ops lf cls).
Proof. pose proof Al_ack_loop. unfold ack_failure. al. Qed.
Lemma Al_consume : Al (consume ops lf cls) (consume ops lf cls).
Proof. pose proof Al_ack. unfold consume. al. Qed.
Lemma Al_consume_all_loop f : Al (consume_all_loop ops lf cls f) (consume_all_loop ops lf cls f).
Proof. pose proof Al_consume. induction f as [|f IH]; cbn [consume_all_loop]; al. Qed.
Lemma Al_consume_all : Al (consume_all ops lf cls) (consume_all ops lf cls).
Proof. apply Al_consume_all_loop. Qed.
Lemma Al_consume_all_n n : Al (consume_all_n ops lf cls n) (consume_all_n ops lf cls n).
Proof. pose proof Al_consume_all. induction n as [|n IH]; cbn [consume_all_n]; al. Qed.
Lemma Al_consume_all_multiple n : Al (consume_all_multiple ops lf cls n) (consume_all_multiple ops lf cls n).
Proof. pose proof Al_consume_all_n. unfold consume_all_multiple. al. Qed.
Lemma Al_send_run_consume q ps : Al (send_run_consume ops lf cls q ps) (send_run_consume ops lf cls q ps).
Proof. pose proof Al_send_run. pose proof Al_consume. unfold send_run_consume. al. Qed.
Lemma Al_run_pull_run q ps : Al (send_run_pull_all_consume_run ops lf cls q ps) (send_run_pull_all_consume_run ops lf cls q ps).
Proof. pose proof Al_run_pull. pose proof Al_consume. unfold send_run_pull_all_consume_run. al. Qed.
Lemma Al_run_pull_single q ps : Al (send_run_pull_all_consume_single ops lf cls q ps) (send_run_pull_all_consume_single ops lf cls q ps).
Proof. pose proof Al_run_pull. pose proof Al_consume. unfold send_run_pull_all_consume_single. al. Qed.
Lemma Al_run_pull_all q ps : Al (send_run_pull_all_consume_all ops lf cls q ps) (send_run_pull_all_consume_all ops lf cls q ps).
Proof. pose proof Al_run_pull. pose proof Al_consume. pose proof Al_consume_all. unfold send_run_pull_all_consume_all. al. Qed.
Lemma Al_discard : Al (send_discard_all_consume ops lf cls) (send_discard_all_consume ops lf cls).
Proof. pose proof Al_consume. unfold send_discard_all_consume. al. Qed.
Lemma Al_rows_close_body r : Al (rows_close_body ops lf cls r) (rows_close_body ops lf cls r).
Proof. pose proof Al_discard. pose proof Al_consume_all_multiple. unfold rows_close_body. al. Qed.
Lemma Al_stmt_close s : Al (stmt_close ops lf cls s) (stmt_close ops lf cls s).
Proof. pose proof Al_rows_close_body. unfold stmt_close. al. Qed.
Lemma Al_rows_close r : Al (rows_close ops lf cls r) (rows_close ops lf cls r).
Proof. pose proof Al_rows_close_body. pose proof Al_stmt_close. unfold rows_close. al. Qed.
Lemma Al_tx_finish q l1 l2 l3 l4 l5 t : Al (tx_finish ops lf cls q l1 l2 l3 l4 l5 t) (tx_finish ops lf cls q l1 l2 l3 l4 l5 t).
Proof. pose proof Al_stmt_close. pose proof Al_run_pull_single. unfold tx_finish. al. Qed.
Lemma Al_close_body : Al (close_body ops lf cls) (close_body ops lf cls).
Proof. pose proof Al_stmt_close. pose proof Al_tx_finish. unfold close_body, rollback. al. Qed.
Lemma Al_begin : Al (begin_tx ops lf cls) (begin_tx ops lf cls).
Proof. pose proof Al_run_pull_single. unfold begin_tx, guard_open. al. Qed.
Lemma Al_stmt_exec s ps : Al (stmt_exec ops lf cls s ps) (stmt_exec ops lf cls s ps).
Proof. pose proof Al_run_pull_all. unfold stmt_exec. al. Qed.
Lemma Al_exec_results qs : Al (exec_results ops lf cls qs) (exec_results ops lf cls qs).
Proof. pose proof Al_consume. pose proof Al_consume_all. induction qs as [|q qs IH]; cbn [exec_results]; al. Qed.
(** The two calls that look at the queries of a pipeline. *)
Lemma Al_stmt_exec_pipeline s ps : B s = false -> Al (stmt_exec_pipeline ops lf cls s ps) (stmt_exec_pipeline ops lf cls s ps).
Proof.
  intros HB. pose proof Al_send_queries. pose proof Al_exec_results. unfold stmt_exec_pipeline. apply Al_gets_bind. intros s1 s2 (E1 & E2 & E3 & E4 & E5 & E6).
  rewrite E3, E4, (E6 HB). al.
Qed.
Lemma Al_stmt_query s ps : Al (stmt_query ops lf cls s ps) (stmt_query ops lf cls s ps).
Proof. pose proof Al_send_run_consume. unfold stmt_query. al. Qed.
Lemma Al_stmt_query_pipeline s ps : B s = false -> Al (stmt_query_pipeline ops lf cls s ps) (stmt_query_pipeline ops lf cls s ps).
Proof.
  intros HB. pose proof Al_send_queries. pose proof Al_consume. unfold stmt_query_pipeline. apply Al_gets_bind. intros s1 s2 (E1 & E2 & E3 & E4 & E5 & E6).
  rewrite E3, E4, (E6 HB). al.
Qed.
Lemma Al_close_cur : Al (close_cur_stmt ops lf cls) (close_cur_stmt ops lf cls).
Proof. pose proof Al_stmt_close. unfold close_cur_stmt. al. Qed.
Definition new_rid (x : option nat * option gerr) : Prop := forall i, fst x = Some i -> D i = false.
Lemma Al_query_neo q ps : AlP new_rid (query_neo ops lf cls q ps) (query_neo ops lf cls q ps).
Proof.
  pose proof Al_close_cur. pose proof Al_run_pull_run. unfold query_neo, guard_open. al; intros i Hi; try discriminate. injection Hi as <-. assumption.
Qed.
Lemma Al_query_neo' q ps : Al (query_neo ops lf cls q ps) (query_neo ops lf cls q ps).
Proof. eapply AlP_any. apply Al_query_neo. Qed.
Lemma Al_query_pipeline q ps : Al (query_pipeline ops lf cls q ps) (query_pipeline ops lf cls q ps).
Proof. pose proof Al_stmt_query_pipeline. unfold query_pipeline, guard_open. al. Qed.
Lemma Al_exec_neo q ps : Al (exec_neo ops lf cls q ps) (exec_neo ops lf cls q ps).
Proof. pose proof Al_stmt_exec. pose proof Al_stmt_close. unfold exec_neo, guard_open. al. Qed.
Lemma Al_exec_pipeline q ps : Al (exec_pipeline ops lf cls q ps) (exec_pipeline ops lf cls q ps).
Proof. pose proof Al_stmt_exec_pipeline. pose proof Al_stmt_close. unfold exec_pipeline, guard_open. al. Qed.
Lemma Al_next_neo r : Al (next_neo ops lf cls r) (next_neo ops lf cls r).
Proof. pose proof Al_send_pull. pose proof Al_consume. unfold next_neo. al. Qed.
Lemma Al_all_loop f r : forall acc, Al (all_loop ops lf cls f r acc) (all_loop ops lf cls f r acc).
Proof. pose proof Al_next_neo. induction f as [|f IH]; intros acc; cbn [all_loop]; al. Qed.
Lemma Al_all r : Al (all_rows ops lf cls r) (all_rows ops lf cls r).
Proof. apply Al_all_loop. Qed.
Lemma Al_query_neo_all q ps : Al (query_neo_all ops lf cls q ps) (query_neo_all ops lf cls q ps).
Proof.
  pose proof Al_all. pose proof Al_rows_close. unfold query_neo_all. eapply AlP_bind; [apply Al_query_neo|]. intros (r & e) HD.
  destruct e as [e|]; [al|]. destruct r as [rid|]; [|al]. specialize (HD rid eq_refl). apply Al_defer; [|auto].
  apply Al_bind; [auto|]. intros ((d & m) & e). apply Al_getr_bind. intros r1 r2 (_ & _ & _ & _ & _ & _ & Hm). rewrite (Hm HD). al.
Qed.
Lemma Al_next_pipeline r : Al (next_pipeline ops lf cls r) (next_pipeline ops lf cls r).
Proof. pose proof Al_consume. unfold next_pipeline. al. Qed.
(** What a call looks at. *)
Definition blind (o : op) : Prop :=
  match o with SExecPipeline s _ | SQueryPipeline s _ => B s = false | RMeta r => D r = false | _ => True end.
Lemma Al_step_body mk o : blind o -> Al (step_body ops lf cls mk o) (step_body ops lf cls mk o).
Proof.
  intros HB. pose proof Al_begin. pose proof Al_exec_neo. pose proof Al_exec_pipeline. pose proof Al_query_neo'. pose proof Al_query_neo_all. pose proof Al_query_pipeline.
  pose proof Al_stmt_exec. pose proof Al_stmt_exec_pipeline. pose proof Al_stmt_query. pose proof Al_stmt_query_pipeline. pose proof Al_stmt_close.
  pose proof Al_rows_close. pose proof Al_next_neo. pose proof Al_all. pose proof Al_next_pipeline. pose proof Al_tx_finish.
  destruct o; cbn [step_body blind] in *; unfold prepare, prepare_pipeline, exec_sql, query_sql, stmt_exec_sql, stmt_query_sql, with_args, set_chunk_size, next_sql, commit, rollback, guard_open; al.
  destruct L as (_ & _ & _ & _ & _ & _ & L). rewrite (L HB). al.
Qed.
End Inner.
Lemma Al_close f : Al (close ops f) (close ops f).
Proof. induction f as [|f IH]; cbn [close]; [apply AlP_nofuel|]. apply Al_close_body. exact IH. Qed.
Theorem Al_step mk f o : blind o -> Al (step ops mk f o) (step ops mk f o).
Proof. intros. apply Al_step_body; [apply Al_close|assumption]. Qed.
End Alias.
