(** The session over bytes behaves as the session over messages. *)
From Coq Require Import ZArith List Bool Lia.
From Coq Require Import ZifyBool.
From Verif Require Import GoPrims Value PackSpec PrimLemmas Encoder EncoderProofs PackProofs
  Decoder DecoderProofs RoundTrip Framing CodecProofs Errors Misc Session SessionSends ServerSpec SessionNet WireSpec WireBytes.
Import ListNotations.
Open Scope Z_scope.

(** ** Cutting a stream into messages *)
Lemma BE_val2 n h : BE 2 n h -> zlen h = 2 /\ be_value h = n.
Proof. intros (H1 & _ & H3). auto. Qed.
Lemma unframe_chunks chs w : Chunks chs w -> forall f acc rest, (length chs < f)%nat ->
  unframe f acc (w ++ rest) = Some (acc ++ concat chs, rest).
Proof.
  induction 1 as [|c h cs wire Hc Hh HC IH]; intros f acc rest Hf; (destruct f as [|f]; [cbn in Hf; lia|]); cbn [unframe concat].
  - change ([0; 0] ++ rest) with ([0; 0] ++ rest). rewrite prd_app by reflexivity. now rewrite app_nil_r.
  - destruct (BE_val2 _ _ Hh) as (L & V). rewrite <- !app_assoc. rewrite (prd_app 2 h) by exact L. rewrite V.
    replace (zlen c =? 0) with false by lia. rewrite prd_app by reflexivity. cbn [length] in Hf. rewrite IH by lia. now rewrite <- app_assoc.
Qed.
Lemma prd_mono n b a r x : prd n b = Some (a, r) -> prd n (b ++ x) = Some (a, r ++ x).
Proof.
  unfold prd. zl. pose proof (zlen_nonneg x). destruct (zlen b <? n) eqn:C; [discriminate|]. intros H1. injection H1 as <- <-.
  replace (zlen b + zlen x <? n) with false by lia. now rewrite ztake_app_l, zdrop_app_l by lia.
Qed.
Lemma unframe_mono x : forall f f' acc b m r, (f <= f')%nat -> unframe f acc b = Some (m, r) -> unframe f' acc (b ++ x) = Some (m, r ++ x).
Proof.
  induction f as [|f IH]; intros f' acc b m r Hf H; [discriminate|]. destruct f' as [|f']; [lia|]. cbn [unframe] in *.
  destruct (prd 2 b) as [[h r1]|] eqn:E1; [|discriminate]. rewrite (prd_mono _ _ _ _ x E1).
  destruct (be_value h =? 0); [injection H as <- <-; reflexivity|].
  destruct (prd (be_value h) r1) as [[c r2]|] eqn:E2; [|discriminate]. rewrite (prd_mono _ _ _ _ x E2). apply IH; [lia|exact H].
Qed.
Lemma Chunks_short chs w : Chunks chs w -> (length chs < length w)%nat.
Proof. intros H. destruct (Chunks_len _ _ H) as (L & _). pose proof (zlen_nonneg (concat chs)). unfold zlen in *. lia. Qed.
Lemma first_message_frame b w rest : Frame b w -> first_message (w ++ rest) = Some (b, rest).
Proof.
  intros (chs & H & <-). unfold first_message. pose proof (Chunks_short _ _ H). rewrite (unframe_chunks chs w H); [reflexivity|].
  rewrite app_length. lia.
Qed.
Lemma first_message_part b w p x : Frame b w -> w = p ++ x -> x <> [] -> first_message p = None.
Proof.
  intros F E N. destruct (first_message p) as [[m r]|] eqn:H; [|reflexivity]. exfalso. unfold first_message in H.
  apply (unframe_mono x _ (length w)) in H; [|subst w; rewrite app_length; lia].
  pose proof (first_message_frame b w [] F) as G. rewrite app_nil_r in G. unfold first_message in G. rewrite <- E, G in H.
  injection H as _ H. destruct r; [cbn in H; congruence|discriminate].
Qed.
Lemma Frame_nonnil b w : Frame b w -> w <> [].
Proof. intros (chs & H & _). destruct H; [discriminate|]. destruct H0 as (L & _). destruct h; discriminate. Qed.
Lemma parse_ok p b : PS p b -> parse b = Some p.
Proof.
  intros H. unfold parse. pose proof (proj1 (pdec_complete false) p b H (S (2 * length b)) [] ltac:(lia)) as D.
  rewrite app_nil_r in D. now rewrite D.
Qed.

(** ** Reading *)
Lemma read_full_more x : forall r n l r', read_full n r = (l, ROk, r') -> read_full n (r ++ x) = (l, ROk, r' ++ x).
Proof.
  induction r as [|[a|] r IH]; intros n l r' H; cbn [read_full app] in *; try discriminate.
  destruct (zlen a <? n).
  - destruct (read_full (n - zlen a) r) as [[m st] rest] eqn:E. injection H as <- -> <-. now rewrite (IH _ _ _ E).
  - destruct (zlen a =? n); injection H as <- <-; reflexivity.
Qed.
Lemma read_data_more x : forall r ml t o l r', read_data ml t o r = (inl l, r') -> read_data ml t o (r ++ x) = (inl l, r' ++ x).
Proof.
  induction r as [|[a|] r IH]; intros ml t o l r' H.
  - cbn [read_data] in H. destruct (t <? ml) eqn:C; [discriminate|]. injection H as <- <-. destruct x as [|e x]; cbn [app read_data]; rewrite C; reflexivity.
  - cbn [read_data app] in *. destruct (t <? ml); [|injection H as <- <-; reflexivity].
    destruct (zlen (ztake (ml - t) a) =? 0); [discriminate|]. destruct (ml - t <? zlen a); [injection H as <- <-; reflexivity|]. now apply IH.
  - cbn [read_data app] in *. destruct (t <? ml); [discriminate|]. injection H as <- <-. reflexivity.
Qed.
Lemma read_full_len : forall r n l st r', 0 < n -> read_full n r = (l, st, r') -> zlen l = n -> st = ROk.
Proof.
  induction r as [|[a|] r IH]; intros n l st r' Hn H L; cbn [read_full] in H.
  - injection H as <- <- <-. rewrite zlen_nil in L. lia.
  - destruct (zlen a <? n) eqn:C.
    + destruct (read_full (n - zlen a) r) as [[m st'] rest] eqn:E. injection H as <- <- <-. rewrite zlen_app in L. eapply IH; [|exact E|]; lia.
    + destruct (zlen a =? n); injection H as _ <- _; reflexivity.
  - injection H as <- <- <-. rewrite zlen_nil in L. lia.
Qed.
Lemma read_chunks_more x : forall f o r m r', read_chunks f o r = FOk m r' -> read_chunks f o (r ++ x) = FOk m (r' ++ x).
Proof.
  induction f as [|f IH]; intros o r m r' H; cbn [read_chunks] in *; [discriminate|].
  destruct (read_full 2 r) as [[h st] r1] eqn:E. destruct (zlen h =? 2) eqn:L; cbn [negb] in H; [|discriminate].
  assert (st = ROk) as -> by (apply (read_full_len _ 2 _ _ _ eq_refl E); lia). rewrite (read_full_more x _ _ _ _ E), L. cbn [negb].
  destruct (ube h =? 0); [injection H as <- <-; reflexivity|].
  destruct (read_data (ube h) 0 (repeat 0 (Z.to_nat (ube h))) r1) as [[d|e] r2] eqn:E2; [|discriminate].
  rewrite (read_data_more x _ _ _ _ _ _ E2). now apply IH.
Qed.
Lemma rbytes_app a b : rbytes (a ++ b) = rbytes a ++ rbytes b.
Proof. induction a as [|[l|] a IH]; cbn; [reflexivity| |]; now rewrite IH, ?app_assoc. Qed.
Lemma rbytes_data l : rbytes (map RData l) = concat l.
Proof. induction l as [|a l IH]; cbn; congruence. Qed.
Lemma segs_data l : ~ In [] l -> segs_ok (map RData l).
Proof. intros H. apply Forall_forall. intros e He. apply in_map_iff in He. destruct He as (a & <- & Ha). exists a. split; [reflexivity|]. intros ->. auto. Qed.
(** A complete message at the front of the stream is what Decode returns. *)
Lemma read_front segs b w rest : ~ In [] segs -> concat segs = w ++ rest -> Forall is_byte (w ++ rest) -> Frame b w ->
  exists r, read_msg (map RData segs ++ [RFail]) = FOk b r /\ rbytes r = rest.
Proof.
  intros HN HC HB HF. pose proof (segs_data _ HN) as HS. set (r0 := map RData segs) in *.
  assert (Er : rbytes r0 = w ++ rest) by (unfold r0; now rewrite rbytes_data).
  assert (HR : Receives (rbytes r0) b rest) by (rewrite Er; exists w; auto).
  destruct (read_msg_receives r0 b rest HS ltac:(rewrite Er; exact HB) HR) as (r' & E & _ & E').
  exists (r' ++ [RFail]). rewrite rbytes_app, E'. cbn [rbytes]. rewrite app_nil_r. split; [|reflexivity].
  unfold read_msg in *. rewrite rbytes_app. cbn [rbytes]. rewrite app_nil_r. now apply read_chunks_more.
Qed.
Lemma recv_message mk segs v b w rest : ~ In [] segs -> concat segs = w ++ rest -> Forall is_byte (w ++ rest) -> Frame b w -> PS_half (denote v) b ->
  decodable v -> wt v -> exists r, recv mk (map RData segs ++ [RFail]) = (r, RMsg v) /\ rbytes r = rest.
Proof.
  intros HN HC HB HF HP HD HW. destruct (read_front segs b w rest HN HC HB HF) as (r & E & Er). exists r. split; [|exact Er]. unfold recv. rewrite E.
  pose proof (decode_accepts mk v b [] HD HW HP) as D. rewrite app_nil_r in D. now rewrite D.
Qed.
Lemma recv_nothing mk : recv mk [RFail] = ([], RNet). Proof. reflexivity. Qed.

(** ** The server *)
Definition is_request (v : goval) : Prop :=
  match v with VRun _ _ | VPullAll | VDiscardAll | VAckFailure | VReset => True | _ => False end.
(** Encoding [v] in chunks of [cs] bytes puts a correctly framed PackStream encoding of it
    on the wire, or the value is refused before anything is written. *)
Definition travels (cs : Z) (v : goval) : Prop :=
  match snd (encode cs v) with
  | None => exists b, PS (denote v) b /\ Frame b (concat (fst (encode cs v)))
  | Some _ => concat (fst (encode cs v)) = []
  end.
Definition takes (v : goval) : bool := match snd (enc v) with None => true | Some _ => false end.

Section Wire.
Context {DB : Type}.
Variable pexec : DB -> str -> list (str * pval) -> DB * outcome.
Variable ser : nat -> goval -> bytes.
Variable cut : nat -> bytes -> list bytes.
Variable mk : bool.
Hypothesis Hexec : forall db q ps, outcome_ok (snd (pexec db q ps)).
Hypothesis Hser : ser_ok ser.
Hypothesis Hcut : cut_ok cut.
(** the same server, at the level of messages *)
Definition vexec (db : DB) (q : str) (ps : md) : DB * outcome :=
  pexec db q (map (fun kv : str * goval => (fst kv, denote (snd kv))) ps).
Notation io := (stream pexec ser cut).
Notation bnet_ := (bytenet io mk).
Notation mnet := (bolt vexec takes).

Lemma serve_answer : forall db st v, is_request v -> serve vexec db st v = answer pexec db st (request_of (denote v)).
Proof.
  intros db st v H. destruct v; try contradiction; cbn [denote request_of]; destruct st; reflexivity.
Qed.

Lemma digest_idle f s : y_phase s <> Hello -> y_in s = [] -> digest pexec ser f s = s.
Proof. intros Hp Hi. destruct f; [reflexivity|]. cbn [digest]. rewrite Hi. destruct (y_phase s); [congruence|reflexivity|reflexivity]. Qed.
Definition with_in (s : srv DB) (b : bytes) : srv DB := Build_srv (y_phase s) (y_db s) (y_st s) b (y_out s) (y_n s).
Lemma received_in s p o : received pexec ser (with_in s p) o = digest pexec ser (length (p ++ o)) (with_in s (p ++ o)).
Proof. reflexivity. Qed.
Lemma with_in_same s b : y_in s = b -> with_in s b = s.
Proof. destruct s. cbn. intros <-. reflexivity. Qed.

Lemma puts_nothing s outs : y_phase s <> Hello -> y_in s = [] -> concat outs = [] -> puts io s outs = (s, true).
Proof.
  intros Hp Hi. induction outs as [|o outs IH]; intros H; cbn [puts]; [reflexivity|]. cbn [concat] in H. apply app_eq_nil in H. destruct H as [-> H].
  cbn [t_put stream wc_err]. rewrite <- (with_in_same s [] Hi). rewrite received_in. cbn [app length digest]. rewrite (with_in_same s [] Hi). now apply IH.
Qed.
Lemma handle_up s b : y_phase s <> Hello -> y_phase (handle pexec ser s b []) <> Hello /\ y_in (handle pexec ser s b []) = [].
Proof.
  intros H. unfold handle. cbv zeta. destruct (y_phase s); [congruence| |].
  - destruct (match parse b with Some p => request_of p | None => QUnknown end); (split; [discriminate|reflexivity]).
  - destruct (answer pexec _ _ _) as [[? ?] ?]. split; [discriminate|reflexivity].
Qed.
Lemma puts_frame s b w : y_phase s <> Hello -> Frame b w -> forall outs p, p ++ concat outs = w -> concat outs <> [] ->
  puts io (with_in s p) outs = (handle pexec ser s b [], true).
Proof.
  intros Hp F. assert (HH : forall p, handle pexec ser (with_in s p) b [] = handle pexec ser s b []).
  { intros p. unfold handle, with_in. cbn. reflexivity. }
  induction outs as [|o outs IH]; intros p E N; [now contradiction N|]. cbn [puts t_put stream wc_err concat] in *.
  rewrite received_in. destruct (concat outs) as [|z zs] eqn:EC.
  - rewrite app_nil_r in *. rewrite E. pose proof (Frame_nonnil _ _ F) as Nw. destruct (length w) as [|n] eqn:L; [now destruct w|].
    cbn [digest]. change (y_phase (with_in s w)) with (y_phase s); change (y_in (with_in s w)) with w. pose proof (first_message_frame b w [] F) as G. rewrite app_nil_r in G. rewrite G.
    rewrite HH. destruct (handle_up s b Hp) as (H1 & H2). rewrite digest_idle by assumption.
    destruct (y_phase s); [congruence| |]; apply puts_nothing; auto.
  - rewrite app_assoc in E. assert (E2 : digest pexec ser (length (p ++ o)) (with_in s (p ++ o)) = with_in s (p ++ o)).
    { destruct (length (p ++ o)); [reflexivity|]. cbn [digest]. change (y_phase (with_in s (p ++ o))) with (y_phase s); change (y_in (with_in s (p ++ o))) with (p ++ o).
      rewrite (first_message_part b w (p ++ o) (z :: zs) F); [|now rewrite E|discriminate]. destruct (y_phase s); [congruence|reflexivity|reflexivity]. }
    rewrite E2. apply IH; [exact E|discriminate].
Qed.

(** ** Simulation *)
Definition waiting (v : goval) (w : bytes) : Prop := exists b, PS_half (denote v) b /\ Frame b w /\ Forall is_byte w /\ decodable v /\ wt v.
Definition RN (s : srv DB) (n : bnet DB) : Prop :=
  y_phase s = Up /\ y_in s = [] /\ y_db s = b_db n /\ y_st s = b_st n /\
  (match b_st n with Streaming recs fin => Forall (fun r => answers_ok (VRecord r)) recs /\ answers_ok (final fin) | _ => True end) /\
  exists ws, Forall2 waiting (b_q n) ws /\ y_out s = concat ws.

Lemma ok_success : answers_ok (VSuccess []).
Proof.
  split; [constructor; constructor|]. split; [constructor; constructor; constructor|]. exists (penc (denote (VSuccess []))). apply penc_PS. cbn. unfold sz_ok, is_byte. lia.
Qed.
Lemma ok_failure : answers_ok (VFailure []).
Proof.
  split; [constructor; constructor|]. split; [constructor; constructor; constructor|]. exists (penc (denote (VFailure []))). apply penc_PS. cbn. unfold sz_ok, is_byte. lia.
Qed.
Lemma ok_ignored : answers_ok VIgnored.
Proof. split; [constructor|]. split; [constructor|]. exists (penc (denote VIgnored)). apply penc_PS. cbn. unfold sz_ok, is_byte. lia. Qed.
Definition stream_ok (st : sstate) : Prop :=
  match st with Streaming recs fin => Forall (fun r => answers_ok (VRecord r)) recs /\ answers_ok (final fin) | _ => True end.
Lemma answer_ok db st r : stream_ok st -> Forall answers_ok (snd (answer pexec db st r)) /\ stream_ok (snd (fst (answer pexec db st r))).
Proof.
  intros H. pose proof ok_success. pose proof ok_failure. pose proof ok_ignored.
  assert (Hrun : forall q ps, Forall answers_ok (snd (answer pexec db Ready (QRun q ps))) /\ stream_ok (snd (fst (answer pexec db Ready (QRun q ps))))).
  { intros q ps. cbn [answer]. pose proof (Hexec db q ps) as X. destruct (pexec db q ps) as [db' [m|h recs fin]]; cbn in *.
    - split; [constructor; [exact X|constructor]|exact I].
    - destruct X as (X1 & X2 & X3). split; [constructor; auto|auto]. }
  destruct r; destruct st as [|recs fin|]; try apply Hrun; cbn [answer snd fst stream_ok]; try (split; [constructor; [assumption|constructor]|exact I]).
  - cbn in H. destruct H as (H3 & H4). split; [|destruct fin; exact I]. apply Forall_app. split; [|constructor; auto]. apply Forall_map. exact H3.
  - cbn in H. destruct H as (H3 & H4). split; [|destruct fin; exact I]. constructor; auto.
Qed.
Lemma sers_waiting : forall vs n, Forall answers_ok vs -> exists ws, Forall2 waiting vs ws /\ sers ser n vs = concat ws.
Proof.
  induction vs as [|v vs IH]; intros n H; inversion H; subst; [exists []; split; [constructor|reflexivity]|].
  destruct (IH (S n) H3) as (ws & H4 & H5). destruct (Hser n v H2) as (b & Hb1 & Hb2). exists (ser n v :: ws). cbn [sers concat]. rewrite H5. split; [|reflexivity].
  constructor; [|exact H4]. exists b. pose proof H2 as (D & W & _). repeat split; auto. eapply answer_bytes; eassumption.
Qed.
Lemma sim_send : forall s n cs v, RN s n -> is_request v -> travels cs v ->
  snd (n_send bnet_ s cs v) = snd (n_send mnet n cs v) /\ RN (fst (n_send bnet_ s cs v)) (fst (n_send mnet n cs v)).
Proof.
  intros s n cs v (Hp & Hi & Hdb & Hst & Hok & ws & Hws & Hout) Hr Ht. cbn [n_send bytenet bolt]. unfold travels in Ht. unfold takes.
  assert (Ee : snd (encode cs v) = snd (enc v)).
  { unfold encode. destruct (enc v) as [w e]. destruct (chunk cs [] w) as [o bf]. destruct e; reflexivity. }
  assert (Hp' : y_phase s <> Hello) by congruence.
  rewrite Ee in Ht. destruct (encode cs v) as [outs e] eqn:E. cbn [fst snd] in *. subst e. destruct (snd (enc v)) as [e|].
  - rewrite (puts_nothing s outs Hp' Hi Ht). cbn. split; [reflexivity|]. repeat split; auto. eauto.
  - destruct Ht as (b & HP & HF). rewrite <- (with_in_same s [] Hi). rewrite (puts_frame s b (concat outs) Hp' HF outs [] eq_refl (Frame_nonnil _ _ HF)).
    rewrite (serve_answer _ _ v Hr). unfold handle. rewrite Hp, (parse_ok _ _ HP), Hdb, Hst.
    pose proof (answer_ok (b_db n) (b_st n) (request_of (denote v)) Hok) as (Ha & Hs).
    destruct (answer pexec (b_db n) (b_st n) (request_of (denote v))) as [[db st] vs]. cbn [fst snd] in *. split; [reflexivity|].
    repeat split; auto; cbn. destruct (sers_waiting vs (y_n s) Ha) as (ws2 & H1 & H2). exists (ws ++ ws2). split; [now apply Forall2_app|].
    now rewrite Hout, H2, concat_app.
Qed.
Lemma waiting_bytes : forall q ws, Forall2 waiting q ws -> Forall is_byte (concat ws).
Proof. induction 1; cbn; [constructor|]. apply Forall_app. split; [|assumption]. destruct H as (b & _ & _ & H & _). exact H. Qed.
Lemma sim_recv : forall s n, RN s n -> snd (n_recv bnet_ s) = snd (n_recv mnet n) /\ RN (fst (n_recv bnet_ s)) (fst (n_recv mnet n)).
Proof.
  intros s n (Hp & Hi & Hdb & Hst & Hok & ws & Hws & Hout). cbn [n_recv bytenet bolt t_in t_left stream].
  destruct (Hcut (y_n s) (y_out s)) as (C1 & C2). destruct (b_q n) as [|v q] eqn:Eq.
  - inversion Hws; subst ws. cbn in Hout. rewrite Hout in *. destruct (cut (y_n s) []) as [|a l].
    + cbn [map app]. rewrite recv_nothing. cbn. split; [reflexivity|]. repeat split; auto. exists []. rewrite Eq. split; [constructor|reflexivity].
    + exfalso. cbn in C1. apply app_eq_nil in C1. destruct C1 as [-> _]. apply C2. now left.
  - inversion Hws as [|? w ? ws' Hw Hws']; subst. pose proof (waiting_bytes _ _ Hws) as HB. destruct Hw as (b & HP & HF & _ & HD & HW). cbn [concat] in *.
    rewrite Hout in *. destruct (recv_message mk (cut (y_n s) (w ++ concat ws')) v b w (concat ws') C2 C1 HB HF HP HD HW) as (r & E & Er).
    rewrite E. cbn. split; [reflexivity|]. repeat split; auto. cbn. exists ws'. auto.
Qed.

(** ** Histories *)
Theorem wire_run : forall (CS : Z -> Prop) (Q : str -> Prop) (P : md -> Prop) (T : str -> Prop) f os w w',
  (forall cs v, CS cs -> may_send Q P T v -> travels cs v) ->
  Forall (op_within CS Q P T mk) os -> Alike CS Q RN w w' ->
  fst (run bnet_ mk f os w) = fst (run mnet mk f os w') /\ Alike CS Q RN (snd (run bnet_ mk f os w)) (snd (run mnet mk f os w')).
Proof.
  intros CS Q P T f os w w' Ht Ho Ha. apply (run_alike bnet_ mnet CS Q P T RN); auto using sim_recv.
  intros n n' cs v HR Hc Hv. apply sim_send; [exact HR| |now apply Ht]. destruct v; try contradiction; exact I.
Qed.

(** ** Opening *)
Definition listening (db : DB) (n : nat) : srv DB := Build_srv Hello db Ready [] [] n.
Definition ready (db : DB) (n : nat) : srv DB := Build_srv Up db Ready [] [] n.
Lemma ready_RN db n : RN (ready db n) (Build_bnet db Ready []).
Proof. repeat split. exists []. split; [constructor|reflexivity]. Qed.
Definition greeted (db : DB) (n : nat) (out : bytes) : srv DB := Build_srv Auth db Ready [] out n.
Definition INIT (user password : str) : goval := init_message client_id user password.
Lemma init_sent db n out user password b : PS (denote (INIT user password)) b -> Frame b (concat (fst (encode 65535 (INIT user password)))) ->
  snd (encode 65535 (INIT user password)) = None ->
  n_send bnet_ (greeted db n out) 65535 (INIT user password) = (Build_srv Up db Ready [] (out ++ ser n (VSuccess [])) (S n), SOk).
Proof.
  intros HP HF He. cbn [n_send bytenet]. set (iv := INIT user password) in *. destruct (encode 65535 iv) as [outs e]. cbn [fst snd] in *. subst e.
  change (greeted db n out) with (with_in (greeted db n out) []). rewrite (puts_frame (greeted db n out) b (concat outs) ltac:(discriminate) HF outs [] eq_refl (Frame_nonnil _ _ HF)).
  unfold handle. rewrite (parse_ok _ _ HP). unfold iv, INIT, init_message. cbn. now rewrite app_nil_r.
Qed.
Lemma encode_iv w iv s s3 x : w_net w = s -> c_cs (w_conn w) = 65535 -> n_send bnet_ s 65535 iv = (s3, SOk) -> x = Build_world (w_conn w) (w_stmts w) (w_rows w) (w_txs w) s3 ->
  encode_msg bnet_ iv w = (Ok None, x).
Proof. intros Hn Hcs E ->. unfold encode_msg, bind, getc, getn, setn, ret. rewrite Hn, Hcs, E. reflexivity. Qed.
Lemma shaken db n : t_put io (listening db n) handshake_bytes = (greeted db n [0; 0; 0; 1], {| wc_n := 20; wc_err := false |}).
Proof. vm_compute. reflexivity. Qed.

Theorem wire_open : forall pooled db n f cls user password,
  cut n [0; 0; 0; 1] = [[0; 0; 0; 1]] ->
  (exists b, PS (denote (INIT user password)) b /\ Frame b (concat (fst (encode 65535 (INIT user password))))) ->
  snd (encode 65535 (INIT user password)) = None ->
  initialize bnet_ f cls user password (fresh pooled (listening db n)) = (Ok None, fresh pooled (ready db (S n))).
Proof.
  intros pooled db n f cls user password Hc (b & HP & HF) He. unfold initialize, bind at 1, getn. cbn [n_shake bytenet w_net fresh]. rewrite shaken.
  assert (E2 : t_in io (greeted db n [0; 0; 0; 1]) = [RData [0; 0; 0; 1]; RFail]) by (cbn [t_in stream greeted y_n y_out]; rewrite Hc; reflexivity).
  rewrite E2.
  change (handshake {| wc_n := 20; wc_err := false |} [RData [0; 0; 0; 1]; RFail]) with (@None gerr, [RFail]). cbn [wc_n wc_err Z.eqb Pos.eqb orb].
  change (t_left io (greeted db n [0; 0; 0; 1]) [RFail]) with (greeted db n []). cbn [read_once]. unfold zlen. cbn [length Z.of_nat Pos.of_succ_nat Pos.succ Z.leb Z.compare Pos.compare Pos.compare_cont snd fst].
  fold (INIT user password). pose proof (init_sent db n [] user password b HP HF He) as E3. cbn [app] in E3.
  set (s3 := Build_srv Up db Ready [] (ser n (VSuccess [])) (S n)) in *.
  assert (E4 : n_recv bnet_ s3 = (ready db (S n), RMsg (VSuccess []))).
  { cbn [n_recv bytenet t_in stream s3 y_out y_n]. destruct (Hcut (S n) (ser n (VSuccess []))) as (C1 & C2). destruct ok_success as (HD & HW & _).
    destruct (Hser n (VSuccess []) ok_success) as (b' & HP' & HF'). pose proof (answer_bytes _ _ _ HW HP' HF') as HB.
    destruct (recv_message mk _ (VSuccess []) b' (ser n (VSuccess [])) [] C2 ltac:(now rewrite app_nil_r) ltac:(now rewrite app_nil_r) HF' HP' HD HW) as (r & E & Er).
    rewrite E. cbn. now rewrite Er. }
  assert (E6 : forall w, w_net w = s3 -> decode_msg bnet_ w = (Ok (Some (VSuccess []), None), Build_world (w_conn w) (w_stmts w) (w_rows w) (w_txs w) (ready db (S n)))).
  { intros w Hn. unfold decode_msg, bind, getn, setn, ret. rewrite Hn, E4. reflexivity. }
  unfold bind, setn, ret. erewrite encode_iv by (try eassumption; reflexivity). unfold consume, bind. rewrite E6 by reflexivity. reflexivity.
Qed.
(** When the first Read returns only the first byte of the server's choice of version,
    the other three are taken for the beginning of the answer to INIT. *)
Theorem wire_open_late : forall pooled db n f cls user password rest,
  cut n [0; 0; 0; 1] = [0] :: rest ->
  (exists b, PS (denote (INIT user password)) b /\ Frame b (concat (fst (encode 65535 (INIT user password))))) ->
  snd (encode 65535 (INIT user password)) = None ->
  initialize bnet_ f cls user password (fresh pooled (listening db n)) =
    (cls ;; ret (Some (gerr_of DEMarkerEOF))) (fresh pooled (Build_srv Up db Ready [] (1 :: ser n (VSuccess [])) (S n))).
Proof.
  intros pooled db n f cls user password rest Hc (b & HP & HF) He. unfold initialize, bind at 1, getn. cbn [n_shake bytenet w_net fresh]. rewrite shaken.
  assert (E2 : t_in io (greeted db n [0; 0; 0; 1]) = RData [0] :: map RData rest ++ [RFail]) by (cbn [t_in stream greeted y_n y_out]; rewrite Hc; reflexivity).
  rewrite E2. assert (Er : concat rest = [0; 0; 1]) by (destruct (Hcut n [0; 0; 0; 1]) as (C1 & _); rewrite Hc in C1; cbn in C1; now injection C1).
  change (handshake {| wc_n := 20; wc_err := false |} (RData [0] :: map RData rest ++ [RFail])) with (@None gerr, map RData rest ++ [RFail]). cbn [wc_n wc_err Z.eqb Pos.eqb orb].
  assert (E1 : t_left io (greeted db n [0; 0; 0; 1]) (map RData rest ++ [RFail]) = greeted db n [0; 0; 1]).
  { cbn [t_left stream]. rewrite rbytes_app, rbytes_data, Er. reflexivity. }
  rewrite E1. cbn [read_once]. unfold zlen. cbn [length Z.of_nat Pos.of_succ_nat Pos.succ Z.leb Z.compare Pos.compare Pos.compare_cont snd fst].
  fold (INIT user password). pose proof (init_sent db n [0; 0; 1] user password b HP HF He) as E3.
  set (s3 := Build_srv Up db Ready [] ([0; 0; 1] ++ ser n (VSuccess [])) (S n)) in *. set (s4 := Build_srv Up db Ready [] (1 :: ser n (VSuccess [])) (S n)).
  assert (E4 : n_recv bnet_ s3 = (s4, RDec None (gerr_of DEMarkerEOF))).
  { cbn [n_recv bytenet t_in stream s3 y_out y_n]. set (o := [0; 0; 1] ++ ser n (VSuccess [])). destruct (Hcut (S n) o) as (C1 & C2). destruct ok_success as (HD & HW & _).
    destruct (Hser n (VSuccess []) ok_success) as (b' & HP' & HF'). pose proof (answer_bytes _ _ _ HW HP' HF') as HB.
    assert (HBo : Forall is_byte o) by (apply Forall_app; split; [repeat constructor; unfold is_byte; lia|exact HB]).
    destruct (read_front (cut (S n) o) [] [0; 0] (1 :: ser n (VSuccess [])) C2 C1 HBo) as (r & E & Er').
    { exists []. split; [constructor|reflexivity]. }
    unfold recv. rewrite E. cbn. now rewrite Er'. }
  assert (E6 : forall w, w_net w = s3 -> decode_msg bnet_ w = (Ok (None, Some (gerr_of DEMarkerEOF)), Build_world (w_conn w) (w_stmts w) (w_rows w) (w_txs w) s4)).
  { intros w Hn. unfold decode_msg, bind, getn, setn, ret. rewrite Hn, E4. reflexivity. }
  unfold bind, setn, ret. erewrite encode_iv by (try eassumption; reflexivity). unfold consume, bind. rewrite E6 by reflexivity. reflexivity.
Qed.
End Wire.
