(** C83: connections of a pool, end to end. *)
From Coq Require Import ZArith List Bool Arith Lia.
From Verif Require Import GoPrims Value Errors Misc Session SessionVoc SessionGen SessionFuel SessionSim SessionRaw SessionStay ServerSpec SessionSpec SessionBolt SessionRefine
  Pool PoolInv PoolLink PropsBolt PropsSql PropsSystem PoolSystem PoolSysInv.
Import ListNotations.
Open Scope nat_scope.

Section PoolSys.
Context {DB : Type}.
Variable exec : DB -> str -> md -> DB * outcome.
Variable sendable : goval -> bool.
Variable mk : bool.
Hypothesis Hctl : controls sendable.
Notation server := (@server DB).
Notation troubled := (@troubled DB).
Notation noisy := (noisy exec sendable).
Notation psys := (@psys DB).

Definition ZInv (z : psys) (db : DB) (us : nat -> use) : Prop := ZI (z_pool z) (z_sides z) (z_srv z) db us.

Lemma ZInv_new : forall max n sess faults db, ZInv (new_system max n sess faults db) db (fun _ => Away).
Proof.
  intros max n sess faults db. unfold ZInv. cbn.
  assert (Gx : forall x, G (new_pool max n) x = 0).
  { intros x. unfold G, gives. cbn. induction n; auto. }
  split; [apply Inv_new|reflexivity| | |reflexivity].
  - intros x ob _ H. cbn in H. apply nth_error_In in H. apply repeat_spec in H. subst ob.
    split; [repeat split|]. split; [|intros X; unfold O in X; cbn in X; rewrite cn_nil in X; lia]. intros _. split; [reflexivity|]. split; [reflexivity|]. intros m [=].
  - intros x ob H. rewrite Gx in H. lia.
Qed.

Ltac shift E c' x := pose proof (cn_upd mid _ _ _ c' x E); pose proof (cn_upd give _ _ _ c' x E); cbn [mid give] in *.
Ltac mvc := match goal with
  | H1 : cn _ (flat_map mid (upd _ _ _)) + _ = _, H2 : cn _ (flat_map give (upd _ _ _)) + _ = _ |- _ => revert H1 H2 end;
  repeat match goal with H : _ |- _ => match type of H with
    | nat => fail 1 | list nat => fail 1 | pool => fail 1 | _ <> _ => fail 1 | _ > _ => fail 1 | _ < _ => fail 1 | _ = Some _ => fail 1
    | cn _ _ = _ => fail 1 | K _ _ + _ + _ <= _ => fail 1 | _ => clear H end end; intros; counting.
Ltac slia := repeat match goal with H : ?T |- _ => match T with nat => fail 1 | @eq nat _ _ => fail 1 | _ <> _ => fail 1 | _ > _ => fail 1 | _ < _ => fail 1 | _ >= _ => fail 1 | _ <= _ => fail 1 | _ => clear H end end; lia.
Ltac mvs := split; [|split; [|split; [|auto]]]; mvc.
Ltac mv E c' := match goal with HZ : ZI ?p _ _ _ _ |- ZI ?p' _ _ _ _ => apply (ZI_move p); [exact HZ|assumption|reflexivity| |reflexivity|];
  [intros x; shift E c' x; mvc|intros x ob Hx _; left; shift E c' x; mvc] end.
Lemma allowed_orderly : forall p a, allowed a = true -> orderly p a = true.
Proof. intros p [ | | |t d r| | | | |] H; try reflexivity; try discriminate. unfold orderly. cbn [careful]. unfold allowed in H. apply andb_prop in H. destruct H as [-> _]. reflexivity. Qed.

Lemma init_cases : forall s t d r s', pstep s (AInit t d r) = Some s' -> exists o ob, nth_error (p_pcs s) t = Some (OHave o) /\ nth_error (p_heap s) o = Some ob /\ holds s t = Some (o, ob) /\
  (dials ob d = false /\ o_net ob <> None /\ s' = with_pc t (OGive o) s \/ dials ob d = true /\ pst s (AInit t true r) s').
Proof.
  intros s t d r s' H. assert (H' := H). cbn [pstep] in H. unfold holds.
  destruct (nth_error (p_pcs s) t) as [[]|] eqn:E; try discriminate. destruct (nth_error (p_heap s) o) as [ob|] eqn:Eo; try discriminate.
  exists o, ob. split; [reflexivity|]. split; [exact Eo|]. split; [reflexivity|]. fold (dials ob d) in H. destruct (dials ob d) eqn:Ed.
  - right. split; [reflexivity|]. apply pstep_inv. cbn [pstep]. rewrite E, Eo. replace (match o_net ob with Some _ => true | None => true end) with true by (destruct (o_net ob); reflexivity). exact H.
  - left. split; [reflexivity|]. injection H as <-. split; [|reflexivity]. unfold dials in Ed. destruct (o_net ob); discriminate.
Qed.
Lemma start_ok : forall (d : side) (srv : server) n, c_stmt (d_conn d) = None -> c_tx (d_conn d) = None -> c_closed (d_conn d) = false -> c_pooled (d_conn d) = true ->
  v_sess srv n = (Ready, []) -> Rel true (own_at d srv n) (start (v_db srv)).
Proof.
  intros d srv n H1 H2 H3 H4 H5. unfold own_at. rewrite H5. split; [exact H2|]. split; [exact H4|]. split; [intros i []|]. split; [intros i []|]. split; [intros i []|].
  split; [discriminate|]. cbn. auto.
Qed.
Lemma pool_step : forall z db us a p', ZInv z db us -> allowed a = true -> pstep (z_pool z) a = Some p' ->
  match seen (DB := DB) (z_pool z) a with
  | Given t o :: _ => us o = Away /\ ZI p' (init_sides z a) (init_srv z a) db (put us o (Run (start db)))
  | _ => ZI p' (init_sides z a) (init_srv z a) db us
  end.
Proof.
  intros z db us a p' HZ Ha Hp. unfold ZInv in HZ. pose proof (z_inv _ _ _ _ _ HZ) as HI. pose proof (Inv_step _ _ _ HI (allowed_orderly _ _ Ha) Hp) as HI'.
  destruct z as [p sides srv faults]. cbn [z_pool z_sides z_srv z_faults] in *.
  destruct a as [t|t|t|t d r|t|t|t o m es|t|t r]; try discriminate Ha.
  - apply pstep_inv in Hp. inversion Hp as [t0 E| | | | | | | | | | | | | | | | | | | | | |]; subst. cbn [seen init_sides init_srv z_pool z_sides z_srv]. mv E OWait.
  - apply pstep_inv in Hp. inversion Hp as [| |t0 E L|t0 E L| | | | | | | | | | | | | | | | | | |]; subst; cbn [seen init_sides init_srv z_pool z_sides z_srv].
    + destruct (p_closed p); [mv E OFail|mv E ORecv].
    + mv E (PLoop (p_refs p)).
  - apply pstep_inv in Hp. inversion Hp as [| | | |t0 o q E C| | | | | | | | | | | | | | | | | |]; subst; cbn [seen init_sides init_srv z_pool z_sides z_srv].
    apply (ZI_move p); [exact HZ|exact HI'|reflexivity| |reflexivity|].
    + intros x. shift E (OHave o) x. assert (C' : cn x (p_chan p) = cn x (o :: q)) by now rewrite C. rewrite cn_cons in C'. mvc.
    + intros x ob Hx _. left. shift E (OHave o) x. mvc.
  - destruct (init_cases _ _ _ _ _ Hp) as (o & ob & E & Eo & Eh & [(Ed & En & ->)|(Ed & Hst)]); cbn [seen init_sides init_srv z_pool z_sides z_srv]; rewrite Eh, Ed.
    { replace (match r with IReady => srv | _ => srv end) with srv by (destruct r; reflexivity).
      apply (ZI_move p); [exact HZ|exact HI'|reflexivity| |reflexivity|].
      - intros x. shift E (OGive o) x. mvc.
      - intros x b Hx Eb. shift E (OGive o) x. destruct (Nat.eq_dec x o) as [->|Nx]; [right; congruence|left]. mvc. }
    pose proof (have_kept _ _ _ E) as Ko. pose proof (i_one p HI o) as Io.
    assert (So : sum p o > 0) by (unfold sum; lia).
    destruct (z_good _ _ _ _ _ HZ o ob So Eo) as (Lk & Rs & _). specialize (Rs ltac:(lia)).
    destruct Lk as (L1 & L2 & L3 & L4 & L5). destruct Rs as (R1 & R2 & R3). pose proof (z_db _ _ _ _ _ HZ) as Hdb.
    assert (Fz : forall x, x >= length (p_heap p) -> us x = Away).
    { intros x Hx. apply (z_away _ _ _ _ _ HZ). destruct (O p x) eqn:Eox; [reflexivity|]. pose proof (i_in p HI x ltac:(lia)). lia. }
    assert (Fo : us o = Away) by (apply (z_away _ _ _ _ _ HZ); lia).
    inversion Hst; subst; match goal with H : nth_error (p_pcs p) t = Some (OHave ?a) |- _ => rewrite E in H; injection H as <- end;
      try (match goal with H : nth_error (p_heap p) o = Some ?a |- _ => rewrite Eo in H; injection H as <- end).
    + (* a new network connection *)
      refine (ZI_upd p sides srv (v_db srv) us _ sides _ _ us o ob _ HZ HI' _ Eo So eq_refl _ _ _ _ _); [reflexivity| | | | |].
      * intros x Nx. shift E (OGive o) x. mvs.
      * intros n _ Hn. cbn [v_sess]. apply put_other. lia.
      * shift E (OGive o) o. split; [repeat split; auto|]. split.
        { intros _. split; [exact R1|]. split; [exact R2|]. cbn [o_net o_with_net v_sess]. intros n [= <-]. apply put_same. }
        { intros X. exfalso. clear - X Ko Io. unfold O in *. cbn [p_out with_nets with_heap with_refs with_pc] in X. lia. }
      * discriminate.
      * intros _. exact Fo.
    + (* no dialling *)
      refine (ZI_swap p sides srv (v_db srv) us _ _ srv _ us o ob _ _ HZ HI' _ Eo So eq_refl _ _ _ _ Fo _ _ _ _ _); auto.
      * intros x. shift E (OPut [length (p_heap p)]) x. mvc.
      * intros x. shift E (OPut [length (p_heap p)]) x. mvc.
      * intros x. shift E (OPut [length (p_heap p)]) x. mvc.
      * intros x Nx Lx. split; [|reflexivity]. cbn [put_sides]. apply put_other. lia.
      * cbn [put_sides]. rewrite put_same. unfold given_back, reclaimed. cbn [o_with_net o_err o_closed]. rewrite L4, L2. destruct (o_err ob) eqn:Ee; [repeat split|]. cbn. split; [cbn; congruence|]. repeat split; auto.
      * cbn [put_sides]. rewrite put_same. unfold given_back, reclaimed. cbn [o_with_net o_err o_closed]. rewrite L4, L2. destruct (o_err ob) eqn:Ee; cbn; (split; [auto|]); (split; [auto|]); discriminate.
      * intros x Hx. apply Fz. lia.
    + (* a failure after dialling *)
      assert (e = true) as -> by (unfold allowed in Ha; cbn in Ha; destruct e; [reflexivity|discriminate]).
      refine (ZI_swap p sides srv (v_db srv) us _ _ srv _ us o ob _ _ HZ HI' _ Eo So eq_refl _ _ _ _ Fo _ _ _ _ _); auto.
      * intros x. shift E (OPut [length (p_heap p)]) x. mvc.
      * intros x. shift E (OPut [length (p_heap p)]) x. mvc.
      * intros x. shift E (OPut [length (p_heap p)]) x. mvc.
      * intros x Nx Lx. split; [|reflexivity]. cbn [put_sides]. apply put_other. lia.
      * cbn [put_sides]. rewrite put_same. repeat split.
      * cbn [put_sides]. rewrite put_same. split; [reflexivity|]. split; [reflexivity|]. discriminate.
      * intros x Hx. apply Fz. lia.
    + unfold allowed in Ha. cbn in Ha. discriminate.
  - apply pstep_inv in Hp. inversion Hp as [| | | | | | | | | |t0 o os E L|t0 o os E L| | | | | | | | | | |]; subst; cbn [seen init_sides init_srv z_pool z_sides z_srv].
    + destruct os as [|o' os]; [mv E OFail|mv E (OPut (o' :: os))].
    + destruct os as [|o' os]; [mv E Idle|mv E (CPut (o' :: os))].
  - apply pstep_inv in Hp. inversion Hp as [| | | | | | | | | | | |t0 o E|t0 E|t0 ok E| | | | | | | |]; subst; cbn [seen init_sides init_srv z_pool z_sides z_srv]; rewrite E; [|mv E Idle|mv E Idle].
    pose proof (i_one p HI o) as Io. assert (Go : G p o > 0). { unfold G, gives. shift E Idle o. clear - H H0. mvc. }
    assert (So : sum p o > 0) by (unfold sum; lia). assert (Fo : us o = Away) by (apply (z_away _ _ _ _ _ HZ); lia). split; [exact Fo|].
    assert (Ex : exists ob, nth_error (p_heap p) o = Some ob).
    { destruct (nth_error (p_heap p) o) eqn:X; [eauto|]. apply nth_error_None in X. pose proof (i_in p HI o ltac:(lia)). lia. }
    destruct Ex as (ob & Eo). destruct (z_good _ _ _ _ _ HZ o ob So Eo) as (Lk & Rs & _). specialize (Rs ltac:(lia)).
    pose proof (z_db _ _ _ _ _ HZ) as Hdb. pose proof (z_give _ _ _ _ _ HZ o ob Go Eo) as Hn.
    refine (ZI_upd p sides srv db us _ sides srv _ _ o ob ob HZ HI' Hdb Eo So _ _ _ _ _ _); cbn [p_heap with_event with_handed with_out with_lock with_pc].
    + symmetry. now apply upd_self.
    + intros x Nx. rewrite put_other by exact Nx. shift E Idle x. mvs.
    + reflexivity.
    + rewrite put_same. split; [exact Lk|]. split; [intros _; exact Rs|]. intros _. destruct Lk as (L1 & L2 & L3 & L4 & L5), Rs as (R1 & R2 & R3).
      destruct (o_net ob) as [n|] eqn:En; [|contradiction]. exists n. split; [exact En|]. rewrite (R3 n eq_refl). split; [left; constructor|]. cbn [usable]. subst db.
      apply start_ok; auto.
    + intros _. exact Hn.
    + intros X. exfalso. clear - X. unfold O in X. cbn [p_out with_event with_handed with_out] in X. rewrite cn_cons in X. destruct (Nat.eq_dec o o); [lia|congruence].
Qed.

Lemma expect_close : forall (s : sst DB) a k, expect exec sendable mk true s CClose = Some (a, k) -> conforms a (OErr None) -> forall h, sp_phase (k h) = PClosed.
Proof.
  intros s a k H Hc h. cbn in H. unfold close_op in H. destruct (sp_phase s) as [|i ki|[[i ki]|] r hh x|b|] eqn:Ep; cbn in H; try discriminate; destruct (sp_tx s); try discriminate.
  - unfold close_open in H. rewrite Ep in H. injection H as <- <-. reflexivity.
  - unfold close_open in H. rewrite Ep in H. injection H as <- <-. reflexivity.
  - unfold close_open in H. rewrite Ep in H. destruct (drain x); injection H as <- <-; [contradiction Hc|reflexivity].
  - destruct x; try discriminate. injection H as <- <-. reflexivity.
  - unfold close_open in H. rewrite Ep in H. destruct b; [|discriminate]. injection H as <- <-. reflexivity.
Qed.

(** What a call on a connection in use leaves behind. *)
Lemma call_moves : forall z db us t o c ob k f x w' es p', ZInv z db us -> us o <> Away ->
  nth_error (p_heap (z_pool z)) o = Some ob -> o_net ob = Some k ->
  step (noisy k) mk f c (at_conn z o) = (x, w') ->
  c_reclaims (w_conn w') = c_reclaims (d_conn (z_sides z o)) ++ es ->
  pstep (z_pool z) (ACall t o (met_of (c_err (d_conn (z_sides z o))) (c_err (w_conn w'))) es) = Some p' ->
  let sides' := put_sides (side_of w') es (length (p_heap (z_pool z))) (put (z_sides z) o (side_of w')) in
  let srv' := s_srv (w_net w') in
  (c_err (d_conn (z_sides z o)) = true -> c_err (w_conn w') = true) /\ (s_hit (w_net w') = true -> c_err (w_conn w') = true) /\
  usable (z_sides z o) (z_srv z) k db (us o) /\
  (ended c x = false /\ (forall u, usable (side_of w') srv' k (v_db srv') u -> ZI p' sides' srv' (v_db srv') (put us o u)) \/
   c = CClose /\ ended c x = true /\
     ((c_err (w_conn w') = false -> c_stmt (w_conn w') = None /\ c_tx (w_conn w') = None /\ v_sess srv' k = (Ready, [])) ->
      ZI p' sides' srv' (v_db srv') (put us o Away))).
Proof.
  intros z db us t o c ob k f x w' es p' HZ Hu Eo Ek Es Er Hp sides' srv'. unfold ZInv in HZ. destruct z as [p sides srv faults]. cbn [z_pool z_sides z_srv z_faults] in *.
  pose proof (z_inv _ _ _ _ _ HZ) as HI.
  assert (Oo : O p o > 0). { destruct (O p o) eqn:X; [|lia]. exfalso. apply Hu. apply (z_away _ _ _ _ _ HZ). exact X. }
  assert (So : sum p o > 0) by (unfold sum; lia). pose proof (i_one p HI o) as Io.
  destruct (z_good _ _ _ _ _ HZ o ob So Eo) as ((L1 & L2 & L3 & L4 & L5) & _ & Hw). destruct (Hw Oo) as (n & W1 & W2 & W3). rewrite Ek in W1. injection W1 as <-.
  assert (Q0 : q_i (v_sess srv) k (w_net (at_conn {| z_pool := p; z_sides := sides; z_srv := srv; z_faults := faults |} o))) by (split; [exact W2|intros j _; reflexivity]).
  destruct (call_facts exec sendable mk (v_sess srv) k f c _ x w' Q0 eq_refl L4 L5 Es) as (Q1 & C1 & C2 & C3 & C4 & es' & Er' & Hout).
  cbn [at_conn w_conn z_sides] in Er', C3. rewrite Er in Er'. apply app_inv_head in Er'. subst es'.
  split; [exact C3|]. split; [exact C4|]. split; [exact W3|].
  assert (Hor : orderly p (ACall t o (met_of (c_err (d_conn (sides o))) (c_err (w_conn w'))) es) = true).
  { unfold orderly. cbn [careful polite]. rewrite in_existsb by (apply cn_in; exact Oo). destruct Hout as [(-> & _)|(-> & _)]; reflexivity. }
  pose proof (Inv_step _ _ _ HI Hor Hp) as HI'. destruct Q1 as (Q1 & Q2).
  assert (Fz : forall y, y >= length (p_heap p) -> us y = Away).
  { intros y Hy. apply (z_away _ _ _ _ _ HZ). destruct (O p y) eqn:Eox; [reflexivity|]. pose proof (i_in p HI y ltac:(lia)). slia. }
  assert (Lo : o < length (p_heap p)) by (apply nth_error_Some; congruence).
  set (m := met_of (c_err (d_conn (sides o))) (c_err (w_conn w'))) in *.
  assert (Hm : o_err (met_obj m ob) = c_err (w_conn w')).
  { subst m. unfold met_of. destruct (c_err (w_conn w')) eqn:E1, (c_err (d_conn (sides o))) eqn:E2; cbn; auto; try (rewrite L1; exact E2). exfalso. specialize (C3 eq_refl). discriminate. }
  assert (Hm' : o_closed (met_obj m ob) = false /\ o_pool (met_obj m ob) = true /\ o_net (met_obj m ob) = Some k) by (destruct m; cbn; auto).
  destruct Hm' as (M1 & M2 & M3). clearbody m.
  assert (Hnet : forall n, (forall k0, o_net ob = Some k0 -> n <> k0) -> n < length (p_nets p) -> v_sess srv' n = v_sess srv n).
  { intros n Hn _. apply Q2. auto. }
  apply pstep_inv in Hp. inversion Hp as [| | | | | | | | | | | | | | |t0 o0 m0 es0 ob0 E Eo' Hh Hk Hc|t0 o0 m0 es0 ob0 E Eo' Hh Hk Hes Hc Hpl|t0 o0 m0 es0 ob0 E Eo' Hh Hk Hes Hc Hpl| | | | |]; subst t0 o0 m0 es0;
    rewrite Eo in Eo'; injection Eo' as <-; [| |congruence].
  - left. destruct Hc as [Hc|Hc]; [congruence|]. destruct Hout as [(_ & Hend)|(X & _)]; [|congruence]. split; [exact Hend|]. intros u Hus. subst p' es. subst sides'. cbn [put_sides].
    refine (ZI_upd p sides srv db us _ _ srv' _ _ o ob (met_obj m ob) HZ HI' eq_refl Eo So eq_refl _ Hnet _ _ _).
    + intros y Ny. rewrite !put_other by exact Ny. repeat split; reflexivity.
    + unfold good; rewrite !put_same. split; [repeat split; auto|]. split.
      * intros X. exfalso. clear - X Oo Io. unfold K, G, O, kept, gives in *. cbn [p_chan p_pcs with_nets with_heap] in X. lia.
      * intros _. exists k. split; [exact M3|]. split; [exact Q1|exact Hus].
    + intros _. congruence.
    + intros X. exfalso. clear - X Oo. unfold O in *. cbn [p_out with_nets with_heap] in X. lia.
  - right. destruct Hout as [(X & _)|(-> & -> & Hend)]; [congruence|]. split; [reflexivity|]. split; [exact Hend|]. intros Hq. subst p' sides'.
    cbn [put_sides put_back fst snd] in *. rewrite length_upd in *.
    refine (ZI_swap p sides srv db us _ _ srv' _ _ o ob (met_obj m ob) (reclaimed (o_with_err (c_err (w_conn w')) (met_obj m ob))) HZ HI' eq_refl Eo So eq_refl _ _ _ _ _ _ Hnet _ _ _).
    + intros y. shift E (CPut [length (p_heap p)]) y. mvc.
    + intros y. shift E (CPut [length (p_heap p)]) y. mvc.
    + intros y. unfold O. cbn [p_out with_nets with_heap with_out]. apply cn_remove.
    + intros y Ny Ly. rewrite !put_other by slia. auto.
    + apply put_same.
    + rewrite put_other by slia. apply Fz; slia.
    + rewrite put_same. unfold given_back, reclaimed. cbn [o_with_err o_err o_closed side_of d_conn]. rewrite C1, M1. destruct (c_err (w_conn w')) eqn:Ee; [repeat split|].
      cbn. split; [cbn; congruence|]. repeat split; auto.
    + rewrite put_same. unfold given_back, reclaimed. cbn [o_with_err o_err o_closed side_of d_conn]. rewrite C1, M1. destruct (c_err (w_conn w')) eqn:Ee; cbn.
      * split; [reflexivity|]. split; [reflexivity|]. discriminate.
      * destruct (Hq eq_refl) as (X1 & X2 & X3). split; [exact X1|]. split; [exact X2|]. intros n Hn. cbn in Hn. rewrite M3 in Hn. injection Hn as <-. exact X3.
    + intros y Hy. rewrite put_other by slia. apply Fz; slia.
Qed.

Lemma run_serves : forall z l z', goes exec sendable mk z l z' -> forall db us, ZInv z db us ->
  serves exec sendable mk db us l /\ match after exec sendable mk db us l with Some (db', us') => ZInv z' db' us' | None => True end.
Proof.
  intros z l z' H. induction H as [z|z l z1 l' z2 Hs Hg IH]; intros db us HZ; [split; [exact I|exact HZ]|]. inversion Hs; subst; clear Hs.
  - pose proof (pool_step z db us a p' HZ H H0) as HP. destruct (seen (z_pool z) a) as [|h tl] eqn:Ese.
    + cbn [app]. apply IH. exact HP.
    + assert (exists t o, h = Given t o /\ tl = []) as (t & o & -> & ->).
      { unfold seen in Ese. destruct a; try discriminate. destruct (nth_error _ _) as [[]|]; try discriminate. injection Ese as <- <-. eauto. }
      destruct HP as (HA & HP). cbn [app serves after]. destruct (IH _ _ HP) as (X & Y). auto.
  - cbn [app serves after]. destruct (us o) as [|s| |] eqn:Eu; [split; exact I|..].
    all: assert (Hu : us o <> Away) by congruence.
    all: destruct (call_moves z db us t o c ob k f x w' es p' HZ Hu H H0 H1 H3 H4) as (C1 & C2 & HU & HM); rewrite Eu in HU; cbn [usable] in HU.
    all: assert (Hbr : c_err (w_conn w') = true -> serves exec sendable mk (v_db (s_srv (w_net w'))) (put us o (if ended c x then Away else Broken)) l' /\
      match after exec sendable mk (v_db (s_srv (w_net w'))) (put us o (if ended c x then Away else Broken)) l' with Some (db', us') => ZInv z2 db' us' | None => True end).
    1,3,5: intros He; apply IH; destruct HM as [(-> & HM)|(_ & -> & HM)]; [apply HM; exact He|apply HM; intros X; congruence].
    + destruct (s_hit (w_net w')) eqn:Eh; [auto|].
      destruct (expect exec sendable mk true (with_db db s) c) as [[a kk]|] eqn:Ee.
      * destruct (sim_noisy exec sendable mk (v_sess (z_srv z)) k f c) as (_ & HS). specialize (HS (at_conn z o) (own_at (z_sides z o) (z_srv z) k)).
        rewrite H1 in HS. cbn [fst snd] in HS. destruct HS as [HS|(HS1 & HS2)]; [|congruence|].
        { repeat split; cbn; auto. now destruct (v_sess (z_srv z) k). }
        destruct (step (bolt exec sendable) mk f c (own_at (z_sides z o) (z_srv z) k)) as [xb wb] eqn:Eb. cbn [fst snd] in *. subst xb.
        destruct (refine_step exec sendable mk true Hctl _ _ c a kk HU Ee) as (r & w2 & (f2 & Hd) & Hc & HR).
        destruct (step_eq mk _ _ _ _ _ _ _ _ _ _ Eb Hd H2 ltac:(discriminate)) as (-> & ->).
        destruct HS2 as (E1 & E2 & E3 & E4 & E5 & E6 & E7). cbn in E5, E6.
        assert (Eo : own_at (side_of w') (s_srv (w_net w')) k = w2).
        { unfold own_at, side_of. cbn. rewrite E1, E2, E3, E4, E5, E6. destruct w2 as [? ? ? ? []]. reflexivity. }
        assert (Hdb : v_db (s_srv (w_net w')) = sp_db (kk (handle_of r))) by (rewrite E5; eapply rel_b_db; exact HR).
        assert (HN : ZI p' (put_sides (side_of w') es (length (p_heap (z_pool z))) (put (z_sides z) o (side_of w'))) (s_srv (w_net w')) (v_db (s_srv (w_net w')))
          (put us o (if ended c (Ok r) then Away else Run (kk (handle_of r))))).
        2: { destruct (IH _ _ HN) as (X & Y). split; [|exact Y]. exists r. auto. }
        destruct HM as [(-> & HM)|(-> & Hend & HM)].
        { apply HM. cbn [usable]. rewrite Eo, Hdb, with_db_same. exact HR. }
        { rewrite Hend. apply HM. intros _. assert (r = OErr None) as -> by (destruct r; try discriminate Hend; match type of Hend with context [OErr ?e] => destruct e end; [discriminate Hend|reflexivity]).
          pose proof (expect_close _ _ _ Ee Hc (handle_of (OErr None))) as Hph. destruct HR as (R1 & _ & _ & _ & _ & _ & R7). rewrite Hph in R7. destruct R7 as (_ & _ & R7).
          destruct (R7 eq_refl) as (R8 & R9 & R10). rewrite E1. split; [exact R9|]. split; [exact R1|]. rewrite E6, R10. reflexivity. }
      * destruct HM as [(_ & HM)|(-> & _)]; [|split; exact I]. destruct c; try (split; exact I); apply IH; apply HM; exact I.
    + auto.
    + destruct (s_hit (w_net w')) eqn:Eh; [auto|]. destruct HM as [(_ & HM)|(-> & _)]; [|split; exact I]. destruct c; try (split; exact I); apply IH; apply HM; exact I.
Qed.

(** ** Promised calls return *)
Definition clean (sess : nat -> sstate * list goval) (me : nat) (n : troubled) (b : bnet DB) : Prop := same sess me (s_srv n) b /\ s_faults n = [] /\ s_hit n = false.
Lemma sim_clean : forall sess me f o, Sim (clean sess me) (fun _ => False) (step (noisy me) mk f o) (step (bolt exec sendable) mk f o).
Proof.
  intros sess me f o. apply Sim_step; try (intros; contradiction).
  - intros [srv l h] b cs v ((H1 & H2 & H3) & E1 & E2). right. cbn in *. subst l h. unfold fault_now. cbn. rewrite H2. cbn [fst snd]. rewrite H1.
    destruct (sendable v); [destruct (serve exec (b_db b) (b_st b) v) as [[db st] rs]|]; cbn; (split; [reflexivity|]); (split; [|split; reflexivity]); cbn; [|repeat split; auto].
    split; [reflexivity|]. split; [apply put_same|]. intros j Hj. cbn. rewrite put_other by exact Hj. auto.
  - intros [srv l h] b ((H1 & H2 & H3) & E1 & E2). right. cbn in *. subst l h. unfold fault_now. cbn. rewrite H2. cbn [fst snd]. destruct (b_q b) as [|v q] eqn:Eq; cbn; (split; [reflexivity|]); (split; [|split; reflexivity]); cbn.
    + split; [exact H1|]. split; [congruence|exact H3].
    + split; [exact H1|]. split; [apply put_same|]. intros j Hj. cbn. rewrite put_other by exact Hj. auto.
  - intros n b H. right. split; [reflexivity|exact H].
Qed.
Lemma goes_reach : forall z l z', goes exec sendable mk z l z' -> reach anyhow (z_pool z) -> reach anyhow (z_pool z').
Proof.
  intros z l z' H. induction H as [|z l z1 l' z2 Hs Hg IH]; intros R; [exact R|]. apply IH. inversion Hs; subst; cbn; eapply R_step; eauto; reflexivity.
Qed.
Lemma can_call : forall z db us t o s c a k, ZInv z db us -> InvB (z_pool z) -> us o = Run s -> expect exec sendable mk true (with_db db s) c = Some (a, k) ->
  nth_error (p_pcs (z_pool z)) t = Some Idle -> z_faults z = [] ->
  exists r db' z', zstep exec sendable mk z [Answer t o c (Ok r) db' false] z'.
Proof.
  intros z db us t o s c a k HZ HB Hu He Ht Hf. unfold ZInv in HZ. pose proof (z_inv _ _ _ _ _ HZ) as HI.
  assert (Oo : O (z_pool z) o > 0). { destruct (O (z_pool z) o) eqn:X; [|lia]. pose proof (z_away _ _ _ _ _ HZ o X). congruence. }
  assert (So : sum (z_pool z) o > 0) by (unfold sum; lia).
  assert (Ex : exists ob, nth_error (p_heap (z_pool z)) o = Some ob).
  { destruct (nth_error (p_heap (z_pool z)) o) eqn:X; [eauto|]. apply nth_error_None in X. pose proof (i_in _ HI o ltac:(unfold sum in So; lia)). lia. }
  destruct Ex as (ob & Eo). destruct (z_good _ _ _ _ _ HZ o ob So Eo) as ((L1 & L2 & L3 & L4 & L5) & _ & Hw). destruct (Hw Oo) as (n & W1 & W2 & W3).
  rewrite Hu in W3. cbn [usable] in W3. destruct (refine_step exec sendable mk true Hctl _ _ c a k W3 He) as (r & w2 & (f & Hd) & _ & _).
  destruct (sim_clean (v_sess (z_srv z)) n f c) as (_ & HS). specialize (HS (at_conn z o) (own_at (z_sides z o) (z_srv z) n)).
  rewrite Hd in HS. destruct (step (noisy n) mk f c (at_conn z o)) as [x w'] eqn:Es. cbn [fst snd] in HS. destruct HS as [[]|(-> & HS)].
  { split; [reflexivity|]. split; [reflexivity|]. split; [reflexivity|]. split; [reflexivity|]. split; [|split; [exact Hf|reflexivity]]. split; [reflexivity|]. split; [cbn; now destruct (v_sess (z_srv z) n)|auto]. }
  destruct HS as (_ & _ & _ & _ & _ & _ & Hh).
  destruct (call_matches _ _ _ _ _ _ _ _ Es) as (es & Er & _ & Hok & _). cbn [at_conn w_conn] in Er, Hok.
  assert (Hp : exists p', pstep (z_pool z) (ACall t o (met_of (c_err (d_conn (z_sides z o))) (c_err (w_conn w'))) es) = Some p').
  { cbn [pstep]. rewrite Ht, Eo. rewrite in_existsb by (apply cn_in; pose proof (b_out _ HB o) as Y; unfold O, PoolInv.H in *; lia). rewrite L1, Hok. cbn [andb]. rewrite L2, L3.
    destruct es; [eauto|]. destruct (put_back _ _ _). eauto. }
  destruct Hp as (p' & Hp). exists r. eexists. eexists. rewrite <- Hh. eapply Z_call; eauto. discriminate.
Qed.

(** * C83
    Goroutines take connections from the pool, use them and close them, in any order, and the network
    fails now and then (while dialling, in the handshake, in INIT, in calls).  What happens is what the
    specification [serves] says: OpenPool hands out a connection nobody has, every connection it
    hands out behaves like a new one whatever its earlier users did, calls get the answers the
    abstract machine promises from the one database, and a failure of the network on one connection
    changes nothing on the others nor for the next user. *)
Theorem C83_pool_serves : forall max n sess faults db l z, goes exec sendable mk (new_system max n sess faults db) l z -> serves exec sendable mk db (fun _ => Away) l.
Proof. intros max n sess faults db l z H. apply (run_serves _ _ _ H). apply ZInv_new. Qed.
(** And a promised call returns, when no more faults come. *)
Theorem C83_returns : forall max n sess faults db l z db' us t o s c a k, goes exec sendable mk (new_system max n sess faults db) l z ->
  after exec sendable mk db (fun _ => Away) l = Some (db', us) -> us o = Run s -> expect exec sendable mk true (with_db db' s) c = Some (a, k) ->
  nth_error (p_pcs (z_pool z)) t = Some Idle -> z_faults z = [] ->
  exists r z', zstep exec sendable mk z [Answer t o c (Ok r) (sp_db (k (handle_of r))) false] z' /\ conforms a r.
Proof.
  intros max n sess faults db l z db' us t o s c a k H Ha Hu He Ht Hf.
  destruct (run_serves _ _ _ H db (fun _ => Away) (ZInv_new _ _ _ _ _)) as (_ & HZ). rewrite Ha in HZ.
  assert (HB : InvB (z_pool z)) by (apply (InvB_reach anyhow); eapply goes_reach; [exact H|apply R_new]).
  destruct (can_call z db' us t o s c a k HZ HB Hu He Ht Hf) as (r & db1 & z1 & Hs).
  destruct (run_serves z [Answer t o c (Ok r) db1 false] z1) with (db := db') (us := us) as (HS & _); [|exact HZ|].
  { change [Answer t o c (Ok r) db1 false] with ([Answer t o c (Ok r) db1 false] ++ []). eapply goes_step; [exact Hs|apply goes_nil]. }
  cbn [serves] in HS. rewrite Hu, He in HS. destruct HS as (r' & Er & Hc & -> & _). injection Er as <-. exists r, z1. auto.
Qed.

(** ** Runs by computation, for the examples *)
Inductive move := Do (a : action) | Use (t o : nat) (c : op).
Definition zmove (f : nat) (z : psys) (m : move) : option (list (@happening DB) * psys) :=
  match m with
  | Do a =>
      match allowed a, pstep (z_pool z) a with
      | true, Some p' => Some (seen (z_pool z) a, {| z_pool := p'; z_sides := init_sides z a; z_srv := init_srv z a; z_faults := z_faults z |})
      | _, _ => None
      end
  | Use t o c =>
      match nth_error (p_heap (z_pool z)) o with
      | Some ob =>
          match o_net ob with
          | Some k =>
              let '(x, w') := step (noisy k) mk f c (at_conn z o) in
              let es := skipn (length (c_reclaims (d_conn (z_sides z o)))) (c_reclaims (w_conn w')) in
              match x, pstep (z_pool z) (ACall t o (met_of (c_err (d_conn (z_sides z o))) (c_err (w_conn w'))) es) with
              | NoFuel, _ => None
              | _, Some p' => Some ([Answer t o c x (v_db (s_srv (w_net w'))) (s_hit (w_net w'))],
                  {| z_pool := p'; z_sides := put_sides (side_of w') es (length (p_heap (z_pool z))) (put (z_sides z) o (side_of w'));
                     z_srv := s_srv (w_net w'); z_faults := s_faults (w_net w') |})
              | _, None => None
              end
          | None => None
          end
      | None => None
      end
  end.
Fixpoint zmoves (f : nat) (z : psys) (l : list move) : option (list (@happening DB) * psys) :=
  match l with
  | [] => Some ([], z)
  | m :: l' => match zmove f z m with Some (h, z1) => match zmoves f z1 l' with Some (h', z2) => Some (h ++ h', z2) | None => None end | None => None end
  end.
Lemma zmove_ok : forall f z m h z', zmove f z m = Some (h, z') -> zstep exec sendable mk z h z'.
Proof.
  intros f z [a|t o c] h z' H; cbn [zmove] in H.
  - destruct (allowed a) eqn:Ea; [|discriminate]. destruct (pstep (z_pool z) a) as [p'|] eqn:Ep; [|discriminate]. injection H as <- <-. now apply Z_pool.
  - destruct (nth_error (p_heap (z_pool z)) o) as [ob|] eqn:Eo; [|discriminate]. destruct (o_net ob) as [k|] eqn:Ek; [|discriminate].
    destruct (step (noisy k) mk f c (at_conn z o)) as [x w'] eqn:Es.
    destruct (call_matches _ _ _ _ _ _ _ _ Es) as (es & Er & _). cbn [at_conn w_conn] in Er.
    assert (X : skipn (length (c_reclaims (d_conn (z_sides z o)))) (c_reclaims (w_conn w')) = es) by (rewrite Er, skipn_app, skipn_all, Nat.sub_diag; reflexivity).
    cbv zeta in H. rewrite X in H.
    destruct (pstep (z_pool z) _) as [p'|] eqn:Ep; [|destruct x; discriminate].
    assert (Hx : x <> NoFuel) by (intros ->; discriminate).
    destruct x; try contradiction; injection H as <- <-; eapply Z_call; eauto.
Qed.
Lemma zmoves_ok : forall f l z h z', zmoves f z l = Some (h, z') -> goes exec sendable mk z h z'.
Proof.
  intros f l. induction l as [|m l IH]; intros z h z' H; cbn [zmoves] in H; [injection H as <- <-; apply goes_nil|].
  destruct (zmove f z m) as [[h1 z1]|] eqn:E1; [|discriminate]. destruct (zmoves f z1 l) as [[h2 z2]|] eqn:E2; [|discriminate]. injection H as <- <-.
  eapply goes_step; [eapply zmove_ok; eauto|apply IH; exact E2].
Qed.
End PoolSys.
Print Assumptions C83_pool_serves.
Print Assumptions C83_returns.

Open Scope Z_scope.
Definition open_with (t : nat) (dead : bool) (r : init_out) : list move := [Do (AOpen t); Do (ALock t); Do (ARecv t); Do (AInit t dead r); Do (ARet t)].
Definition open (t : nat) : list move := open_with t false IReady.
Definition close_of (t o : nat) : list move := [Use t o CClose; Do (ASend t)].
Definition c83_moves : list move :=
  open 0 ++ open 1 ++ [Use 0 0 (CExec [1] []); Use 1 1 (CQuery [1] []); Use 0 0 (CExec [2] []); Use 1 1 (RNext 0); Use 1 1 (RNext 0)] ++ close_of 1 1 ++
  [Use 0 0 (CExec [1] [])] ++ close_of 0 0 ++
  [Do (AOpen 1); Do (ALock 1); Do (ARecv 1); Do (AInit 1 false INoDial); Do (ASend 1); Do (ARet 1)] ++
  open 0 ++ [Use 0 3 (CPrepare [1]); Use 0 3 (SExec 3 [])] ++ close_of 0 3 ++ open 1 ++ [Use 1 4 (CExec [1] [])].
(** Two users; the network fails under the second one, who closes the connection; the first one has a
    query refused, goes on and closes; then dialling fails once; then the connection of the first
    one is handed out again, and a new one is dialled. *)
Definition c83_start := new_system 2 2 (fun _ => (Ready, [])) (repeat Good 15 ++ [Lost]) 5.
Example C83_example : exists l z, goes toy fine true c83_start l z /\
  map (fun h => match h with Given t o => (Z.of_nat t, Z.of_nat o, 0, false) | Answer t o _ _ db hit => (Z.of_nat t, Z.of_nat o, db, hit) end) l =
    [(0, 0, 0, false); (1, 1, 0, false); (0, 0, 6, false); (1, 1, 7, false); (0, 0, 7, false); (1, 1, 7, true); (1, 1, 7, false); (1, 1, 7, false);
     (0, 0, 8, false); (0, 0, 8, false); (0, 3, 0, false); (0, 3, 8, false); (0, 3, 9, false); (0, 3, 9, false); (1, 4, 0, false); (1, 4, 10, false)] /\
  nth_error l 15 = Some (Answer 1 4 (CExec [1] []) (Ok (OResult (Some (bad 9)) None)) 10 false) /\
  option_map (fun x => (fst x, map (snd x) [0; 1; 3]%nat)) (after toy fine true 5 (fun _ => Away) l) = Some (10, [Away; Away; Away]) /\
  exists s, option_map (fun x => snd x 4%nat) (after toy fine true 5 (fun _ => Away) l) = Some (Run s) /\ sp_phase s = PIdle.
Proof.
  destruct (zmoves toy fine true 20 c83_start c83_moves) as [[l z]|] eqn:E; [|vm_compute in E; discriminate]. exists l, z. split; [eapply zmoves_ok; exact E|].
  assert (X : Some l = option_map fst (zmoves toy fine true 20 c83_start c83_moves)) by now rewrite E. vm_compute in X. injection X as ->. clear E.
  split; [reflexivity|]. split; [reflexivity|]. split; [vm_compute; reflexivity|]. eexists. split; vm_compute; reflexivity.
Qed.
(** Close promises nothing while rows are unread (C46), and this is why [serves] stops there: the query
    of the next user is run, but the call reads what was left of the answers to the query of the last one, and
    returns an error. *)
Example C83_unread : exists l z, goes toy fine true (new_system 1 2 (fun _ => (Ready, [])) [] 5) l z /\
  l = [Given 0 0; Answer 0 0 (CQuery [1] []) (Ok (OHandle (Some 0%nat) None)) 6 false; Answer 0 0 CClose (Ok (OErr None)) 6 false;
       Given 1 1; Answer 1 1 (CExec [1] []) (Ok (OResult None (Some (EDrv FStmt 106 None)))) 7 false].
Proof.
  destruct (zmoves toy fine true 20 (new_system 1 2 (fun _ => (Ready, [])) [] 5) (open 0 ++ [Use 0 0 (CQuery [1] [])] ++ close_of 0 0 ++ open 1 ++ [Use 1 1 (CExec [1] [])])) as [[l z]|] eqn:E; [|vm_compute in E; discriminate].
  exists l, z. split; [eapply zmoves_ok; exact E|]. match type of E with ?a = _ => assert (X : Some l = option_map fst a) by now rewrite E end. vm_compute in X. injection X as ->. reflexivity.
Qed.
