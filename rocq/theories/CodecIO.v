(** Failing writers, rejected values and the size of chunks. *)
From Coq Require Import ZArith List Bool Lia.
From Coq Require Import ZifyBool.
From Verif Require Import GoPrims Value PackSpec PrimLemmas Encoder EncoderProofs PackProofs
  Decoder DecoderProofs RoundTrip Framing CodecProofs.
Import ListNotations.
Open Scope Z_scope.

(** ** A writer that fails *)
Definition prefix (a b : bytes) : Prop := exists c, b = a ++ c.

Lemma sputs_app a b s : sputs (a ++ b) s = let '(s1, ok) := sputs a s in if ok then sputs b s1 else (s1, false).
Proof.
  revert s. induction a as [|p a IH]; intros s; cbn [sputs app]; [reflexivity|].
  destruct (sput p s) as [s1 [|]]; [apply IH|reflexivity].
Qed.

Lemma chunk_io_sputs cs ws : forall buf s, exists b,
  chunk_io cs buf ws s = (b, fst (sputs (fst (chunk cs buf ws)) s), snd (sputs (fst (chunk cs buf ws)) s)) /\
  (snd (sputs (fst (chunk cs buf ws)) s) = true -> b = snd (chunk cs buf ws)).
Proof.
  induction ws as [|p ws IH]; intros buf s; cbn [chunk_io chunk].
  - exists buf. cbn. now split.
  - unfold ewrite_io. destruct (ewrite cs buf p) as [o1 b1] eqn:E1.
    destruct (chunk cs b1 ws) as [o2 b2] eqn:E2. cbn [fst snd].
    rewrite sputs_app. destruct (sputs o1 s) as [s1 [|]].
    + destruct (IH b1 s1) as (b & Eb & Hb). rewrite E2 in Eb, Hb. cbn [fst snd] in *. exists b. split; assumption.
    + exists b1. cbn. split; [reflexivity|discriminate].
Qed.

Lemma encode_io_sputs cs v s : encode_io cs v s =
  (fst (sputs (fst (encode cs v)) s),
   if snd (sputs (fst (encode cs v)) s) then match snd (encode cs v) with None => EncOk | Some e => EncRejected e end
   else EncIOError).
Proof.
  unfold encode_io, encode. destruct (enc v) as [ws e].
  destruct (chunk_io_sputs cs ws [] s) as (b & Eb & Hb). rewrite Eb.
  destruct (chunk cs [] ws) as [out buf] eqn:EC. cbn [fst snd] in *.
  destruct e as [e|].
  - cbn [fst snd]. destruct (sputs out s) as [s1 [|]]; reflexivity.
  - cbn [fst snd]. rewrite sputs_app. destruct (sputs out s) as [s1 [|]]; cbn [fst snd] in *.
    + rewrite (Hb eq_refl). destruct (sputs (flush buf) s1) as [s2 [|]]; reflexivity.
    + reflexivity.
Qed.

(** What the oracle said about the first [n] calls. *)
Definition all_fine (o : woracle) (n : Z) : Prop := forall i, 0 <= i < n -> nth (Z.to_nat i) o None = None.

Lemma sputs_spec ps : forall s, let '(s', ok) := sputs ps s in
  exists n, calls s' = calls s + n /\ 0 <= n <= zlen ps /\
  exists sent, wire s' = wire s ++ sent /\ prefix sent (concat ps) /\
  if ok then sent = concat ps /\ n = zlen ps /\ all_fine (orc s) n
  else 1 <= n /\ all_fine (orc s) (n - 1) /\ exists k, nth (Z.to_nat (n - 1)) (orc s) None = Some k.
Proof.
  induction ps as [|p ps IH]; intros s; cbn [sputs].
  - exists 0. split; [lia|]. split; [cbn; lia|]. exists []. rewrite app_nil_r. split; [reflexivity|].
    split; [now exists []|]. split; [reflexivity|]. split; [reflexivity|]. intros i Hi. lia.
  - pose proof (zlen_nonneg ps) as Hz. unfold sput. destruct (orc s) as [|[k|] o] eqn:EO.
    + specialize (IH {| wire := wire s ++ p; orc := []; calls := calls s + 1 |}).
      destruct (sputs ps _) as [s' ok]. cbn [wire orc calls] in IH.
      destruct IH as (n & EC & Hn & sent & EW & (c & EP) & R). exists (n + 1). zl. split; [lia|]. split; [lia|].
      exists (p ++ sent). split; [rewrite EW; now rewrite <- app_assoc|].
      split; [exists c; cbn [concat]; rewrite EP; now rewrite <- app_assoc|].
      destruct ok.
      * destruct R as (-> & -> & R). split; [reflexivity|]. split; [lia|]. intros i Hi. now destruct (Z.to_nat i).
      * destruct R as (_ & _ & k & Ek). destruct (Z.to_nat (n - 1)); discriminate.
    + exists 1. cbn [calls wire]. zl. split; [lia|]. split; [lia|]. exists (ztake (Z.max 0 k) p). split; [reflexivity|].
      split.
      * exists (zdrop (Z.max 0 k) p ++ concat ps). cbn [concat]. rewrite app_assoc. f_equal. symmetry. apply ztake_zdrop.
      * split; [lia|]. split; [intros i Hi; lia|]. exists k. reflexivity.
    + specialize (IH {| wire := wire s ++ p; orc := o; calls := calls s + 1 |}).
      destruct (sputs ps _) as [s' ok]. cbn [wire orc calls] in IH.
      destruct IH as (n & EC & Hn & sent & EW & (c & EP) & R). exists (n + 1). zl. split; [lia|]. split; [lia|].
      exists (p ++ sent). split; [rewrite EW; now rewrite <- app_assoc|].
      split; [exists c; cbn [concat]; rewrite EP; now rewrite <- app_assoc|].
      assert (SH : forall i, 0 < i -> nth (Z.to_nat i) (None :: o) None = nth (Z.to_nat (i - 1)) o None).
      { intros i Hi. replace (Z.to_nat i) with (S (Z.to_nat (i - 1))) by lia. reflexivity. }
      assert (AF : forall m, all_fine o (m - 1) -> all_fine (None :: o) m).
      { intros m H i Hi. destruct (Z.eq_dec i 0) as [->|]; [reflexivity|]. rewrite SH by lia. apply H. lia. }
      destruct ok.
      * destruct R as (-> & -> & R). split; [reflexivity|]. split; [lia|]. apply AF. now replace (zlen ps + 1 - 1) with (zlen ps) by lia.
      * destruct R as (H1 & R & k & Ek). split; [lia|]. split; [apply AF; now replace (n + 1 - 1 - 1) with (n - 1) by lia|].
        exists k. rewrite SH by lia. now replace (n + 1 - 1 - 1) with (n - 1) by lia.
Qed.

(** C17 *)
Lemma encode_io_spec cs v o s' r : encode_io cs v {| wire := []; orc := o; calls := 0 |} = (s', r) ->
  prefix (wire s') (concat (fst (encode cs v))) /\
  0 <= calls s' <= zlen (fst (encode cs v)) /\
  match r with
  | EncOk => snd (encode cs v) = None /\ wire s' = concat (fst (encode cs v)) /\ all_fine o (calls s')
  | EncRejected e => snd (encode cs v) = Some e /\ wire s' = concat (fst (encode cs v)) /\ all_fine o (calls s')
  | EncIOError => 1 <= calls s' /\ all_fine o (calls s' - 1) /\ exists k, nth (Z.to_nat (calls s' - 1)) o None = Some k
  end.
Proof.
  rewrite encode_io_sputs. intros E. pose proof (sputs_spec (fst (encode cs v)) {| wire := []; orc := o; calls := 0 |}) as H.
  destruct (sputs (fst (encode cs v)) _) as [s1 ok]. cbn [wire orc calls fst snd] in *.
  destruct H as (n & EC & Hn & sent & EW & EP & R). cbn [app] in EW.
  injection E as E1 E2. subst s1. rewrite EW. replace (calls s') with n by lia. split; [exact EP|]. split; [lia|].
  destruct ok.
  - destruct R as (-> & -> & R). destruct (snd (encode cs v)); cbn in E2; subst r; (split; [reflexivity|]; split; [reflexivity|exact R]).
  - subst r. exact R.
Qed.

(** ** Rejected values *)
Lemma chunk_silent cs ws : 1 <= cs -> forall buf, zlen buf < cs ->
  (fst (chunk cs buf ws) = [] <-> zlen buf + zlen (concat ws) < cs).
Proof.
  intros Hcs. induction ws as [|p ws IH]; intros buf Hb; cbn [chunk concat].
  - cbn. split; [intros _; lia|reflexivity].
  - zl. pose proof (zlen_nonneg (concat ws)). unfold ewrite. zl. destruct (Z.leb_spec cs (zlen buf + zlen p)).
    + destruct (chunk cs (zdrop cs (buf ++ p)) ws). cbn. split; [discriminate|lia].
    + specialize (IH (buf ++ p)). zl. destruct (chunk cs (buf ++ p) ws). cbn [fst app] in *. rewrite IH by lia. lia.
Qed.

Lemma chunk_out_nonempty cs ws : 1 <= cs -> forall buf, concat (fst (chunk cs buf ws)) = [] -> fst (chunk cs buf ws) = [].
Proof.
  intros Hcs. induction ws as [|p ws IH]; intros buf; cbn [chunk]; [reflexivity|].
  unfold ewrite. destruct (cs <=? zlen (buf ++ p)).
  - destruct (chunk cs (zdrop cs (buf ++ p)) ws). cbn. discriminate.
  - specialize (IH (buf ++ p)). destruct (chunk cs (buf ++ p) ws). exact IH.
Qed.

(** C18 *)
Lemma rejected_silent_iff cs v : 1 <= cs -> ~ accepted (enc v) ->
  (concat (fst (encode cs v)) = [] <-> zlen (wbytes (enc v)) < cs).
Proof.
  intros Hcs A. unfold encode, wbytes. unfold accepted in A. destruct (enc v) as [ws [e|]]; [|now destruct A]. cbn [fst].
  pose proof (chunk_silent cs ws Hcs [] ltac:(cbn; lia)) as H. pose proof (chunk_out_nonempty cs ws Hcs []) as N.
  destruct (chunk cs [] ws) as [out buf]. cbn [fst] in *. change (zlen (@nil Z)) with 0 in H.
  rewrite Z.add_0_l in H. rewrite <- H. split; [exact N|intros ->; reflexivity].
Qed.

Lemma wire_of_open chs : Forall (fun c => 0 < zlen c < 65536) chs -> forall m r, ~ Receives (wire_of chs) m r.
Proof.
  intros F m r (w & E & cs & C & _). revert w r cs C E. induction F as [|c chs Hc F IH]; intros w r cs C E.
  - unfold wire_of in E. cbn in E. symmetry in E. apply app_eq_nil in E. destruct E as [-> ->].
    destruct (Chunks_len _ _ C) as [L _]. pose proof (zlen_nonneg (concat cs)). pose proof (zlen_nonneg cs).
    change (zlen (@nil Z)) with 0 in L. lia.
  - unfold wire_of in E. cbn [map concat] in E. rewrite <- !app_assoc in E. inversion C; subst.
    + assert (EH : be 2 (zlen c) = [0; 0]). { apply (f_equal (firstn 2)) in E. exact E. }
      assert (B : BE 2 (zlen c) (be 2 (zlen c))) by (apply (BE_small 2); lia).
      rewrite EH in B. destruct B as (_ & _ & B). cbn in B. lia.
    + rewrite <- !app_assoc in E.
      assert (B : BE 2 (zlen c) (be 2 (zlen c))) by (apply (BE_small 2); lia).
      apply app_len_inv in E; [|destruct B as [-> _]; destruct H0 as [-> _]; reflexivity].
      destruct E as [EH E]. subst h. pose proof (BE_val_inj _ _ _ _ B H0) as L.
      apply app_len_inv in E; [|assumption]. destruct E as [_ E]. eapply IH; [eassumption|]. exact E.
Qed.

(** The bytes a rejected value leaves on the wire are complete chunks without a
    terminator, and they become part of whatever message follows. *)
Lemma rejected_merges cs v ws : 1 <= cs <= 65535 -> ~ accepted (enc v) -> zlen (backlog cs ws) < 65536 ->
  (forall m r, ~ Receives (concat (fst (encode cs v))) m r) /\
  exists part, zlen part <= zlen (wbytes (enc v)) /\ (part = [] <-> concat (fst (encode cs v)) = []) /\
    Frame (part ++ concat ws) (concat (fst (encode cs v)) ++ framed cs ws).
Proof.
  intros Hcs A HB. unfold encode, wbytes. unfold accepted in A. destruct (enc v) as [ws0 [e|]]; [|now destruct A]. cbn [fst].
  destruct (chunk cs [] ws0) as [out buf] eqn:E. cbn [fst].
  destruct (chunk_spec cs ws0 ltac:(lia) _ _ _ E) as (chs & F & W & C). cbn [app] in C.
  assert (F' : Forall (fun c => 0 < zlen c < 65536) chs) by (revert F; apply Forall_impl; intros; lia).
  rewrite W. split; [now apply wire_of_open|]. exists (concat chs). split; [|split].
  - rewrite C. zl. pose proof (zlen_nonneg buf). lia.
  - destruct chs as [|c chs]; [split; reflexivity|]. inversion F'; subst. split; intros H.
    + apply (f_equal zlen) in H. cbn [concat] in H. zl. pose proof (zlen_nonneg (concat chs)). lia.
    + apply (f_equal zlen) in H. unfold wire_of in H. cbn [map concat] in H. zl.
      pose proof (zlen_nonneg (be 2 (zlen c))). pose proof (zlen_nonneg (concat (map (fun c => be 2 (zlen c) ++ c) chs))). lia.
  - destruct (framed_ok cs ws Hcs HB) as (chs2 & _ & HC & EC).
    exists (chs ++ chs2 ++ flush_chunks (backlog cs ws)). split; [now apply Chunks_app|].
    rewrite concat_app, EC. reflexivity.
Qed.

(** ** Bounds on the backlog *)
Lemma chunk_backlog_bounds cs ws : 0 <= cs -> forall buf,
  zlen buf + zlen (concat ws) - zlen ws * cs <= zlen (snd (chunk cs buf ws)) <= zlen buf + zlen (concat ws).
Proof.
  intros Hcs. induction ws as [|p ws IH]; intros buf; cbn [chunk concat].
  - unfold zlen; cbn. lia.
  - unfold ewrite. destruct (Z.leb_spec cs (zlen (buf ++ p))) as [H|H].
    + specialize (IH (zdrop cs (buf ++ p))). destruct (chunk cs (zdrop cs (buf ++ p)) ws). cbn [snd] in *.
      rewrite zlen_zdrop in IH by lia. zl. unfold bytes in *. lia.
    + specialize (IH (buf ++ p)). destruct (chunk cs (buf ++ p) ws). cbn [snd] in *. zl. unfold bytes in *. lia.
Qed.
Lemma backlog_le cs ws : 0 <= cs -> zlen (backlog cs ws) <= zlen (concat ws).
Proof. intros H. pose proof (chunk_backlog_bounds cs ws H []) as B. unfold backlog. change (zlen (@nil Z)) with 0 in B. lia. Qed.

Definition zeros (n : Z) : bytes := repeat 0 (Z.to_nat n).
Lemma zlen_zeros n : 0 <= n -> zlen (zeros n) = n.
Proof. intros. unfold zeros, zlen. rewrite repeat_length. lia. Qed.
Lemma zeros_bytes n : Forall is_byte (zeros n).
Proof. unfold zeros. induction (Z.to_nat n); cbn; constructor; trivial. unfold is_byte; lia. Qed.
Lemma wt_zeros n : wt (VStr (zeros n)).
Proof. constructor. apply zeros_bytes. Qed.

Lemma enc_str16 s : 256 <= zlen s <= 65535 -> enc (VStr s) = wok [[0xD1]; be 2 (wraps 16 (zlen s)); s].
Proof.
  intros H. cbn [enc]. unfold enc_str. unfold maxUint8, maxUint16.
  replace (zlen s <=? 15) with false by lia. replace ((15 <? zlen s) && (zlen s <=? 2 ^ 8 - 1)) with false by lia.
  replace ((2 ^ 8 - 1 <? zlen s) && (zlen s <=? 2 ^ 16 - 1)) with true by lia. reflexivity.
Qed.
Lemma enc_str32 s : 65536 <= zlen s < 2 ^ 32 -> enc (VStr s) = wok [[0xD2]; be 4 (wraps 32 (zlen s)); s].
Proof.
  intros H. cbn [enc]. unfold enc_str. unfold maxUint8, maxUint16, maxUint32.
  replace (zlen s <=? 15) with false by lia. replace ((15 <? zlen s) && (zlen s <=? 2 ^ 8 - 1)) with false by lia.
  replace ((2 ^ 8 - 1 <? zlen s) && (zlen s <=? 2 ^ 16 - 1)) with false by lia.
  replace ((2 ^ 16 - 1 <? zlen s) && (zlen s <=? 2 ^ 32 - 1)) with true by lia. reflexivity.
Qed.

(** The backlog after a long string, for chunk sizes above the header. *)
Lemma backlog_str32 cs s : 6 <= cs -> 65536 <= zlen s < 2 ^ 32 -> cs <= zlen s ->
  exists b, chunk cs [] (fst (enc (VStr s))) = ([be 2 cs; ztake cs (0xD2 :: be 4 (zlen s) ++ s)], b) /\
            b = zdrop cs (0xD2 :: be 4 (zlen s) ++ s) /\ zlen b = zlen s + 5 - cs.
Proof.
  intros Hcs Hs Hc. rewrite enc_str32 by assumption. rewrite be4_wraps.
  assert (HL : zlen (be 4 (zlen s)) = 4) by apply zlen_be.
  cbn [fst wok chunk]. unfold ewrite. cbn [app].
  replace (cs <=? zlen [0xD2]) with false by (zl; cbn; lia). cbn [app].
  replace (cs <=? zlen (0xD2 :: be 4 (zlen s))) with false by (zl; lia).
  change ((0xD2 :: be 4 (zlen s)) ++ s) with (0xD2 :: be 4 (zlen s) ++ s).
  replace (cs <=? zlen (0xD2 :: be 4 (zlen s) ++ s)) with true by (zl; lia).
  eexists. split; [reflexivity|]. split; [reflexivity|]. rewrite zlen_zdrop by (zl; lia). zl. lia.
Qed.

(** C14: for every chunk size below the maximum there is a message with a
    larger chunk. *)
Lemma chunk_too_big cs : 1 <= cs <= 65534 ->
  exists v chs c, wt v /\ accepted (enc v) /\ Chunks chs (concat (fst (encode cs v))) /\ In c chs /\ cs < zlen c.
Proof.
  intros Hcs.
  assert (K : forall v, wt v -> accepted (enc v) -> cs < zlen (backlog cs (fst (enc v))) < 65536 ->
     exists v chs c, wt v /\ accepted (enc v) /\ Chunks chs (concat (fst (encode cs v))) /\ In c chs /\ cs < zlen c).
  { intros v W A HB. destruct (framed_ok cs (fst (enc v)) ltac:(lia) ltac:(lia)) as (chs & _ & HC & _).
    exists v, (chs ++ flush_chunks (backlog cs (fst (enc v)))), (backlog cs (fst (enc v))).
    repeat split; trivial; [|apply in_app_iff; right|lia].
    - rewrite encode_framed by assumption. cbn [fst]. rewrite concat_app. exact HC.
    - destruct (backlog cs (fst (enc v))); [cbn in HB; lia|]. now left. }
  destruct (Z.le_gt_cases cs 16000) as [H|H].
  - assert (S : exists s, zlen s = 65000 /\ wt (VStr s)).
    { exists (zeros 65000). split; [now apply zlen_zeros|apply wt_zeros]. }
    destruct S as (s & L & W). apply (K (VStr s) W).
    + rewrite enc_str16 by lia. reflexivity.
    + pose proof (chunk_backlog_bounds cs (fst (enc (VStr s))) ltac:(lia) []) as B.
      rewrite enc_str16 in * by lia. unfold backlog. cbn [fst wok concat] in *.
      rewrite app_nil_r in B. zl. rewrite zlen_be, L in *. unfold bytes in *. cbn [length Z.of_nat] in B.
      lia.
  - apply (K (VStr (zeros (cs + 65530))) (wt_zeros _)).
    + rewrite enc_str32 by (rewrite zlen_zeros; lia). reflexivity.
    + destruct (backlog_str32 cs (zeros (cs + 65530))) as (b & E & _ & L); rewrite ?zlen_zeros by lia; try lia.
      unfold backlog. rewrite E. cbn [snd]. rewrite L, zlen_zeros by lia. lia.
Qed.

(** C15: chunk size 0 *)
Lemma enc_some_write v : accepted (enc v) -> fst (enc v) <> [].
Proof.
  intros A E. assert (W : wbytes (enc v) = []) by (unfold wbytes; now rewrite E). clear E.
  assert (S : forall tiny ws b, wseq (wok [[tiny]]) b = (ws, None) -> ws <> []).
  { intros. unfold wseq in H. cbn in H. destruct b. inversion H. discriminate. }
  revert W. assert (L : 0 < zlen (wbytes (enc v))); [|intros W; rewrite W in L; cbn in L; lia].
  assert (HW : forall b c w, accepted (wseq (wok (([b] :: c))) w) -> 0 < zlen (wbytes (wseq (wok ([b] :: c)) w))).
  { intros b c w Hw. rewrite wseq_bytes by reflexivity. unfold wbytes. cbn [fst wok concat]. zl.
    pose proof (zlen_nonneg (concat c)). pose proof (zlen_nonneg (concat (fst w))). lia. }
  assert (HI : forall z, accepted (enc_int z) -> 0 < zlen (wbytes (enc_int z))).
  { intros z. unfold enc_int. repeat match goal with |- context [if ?c then _ else _] => destruct c end;
      intros Hz; try (now apply werr_accepted in Hz); unfold wbytes; cbn [fst wok concat]; zl; rewrite ?zlen_be; cbn; lia. }
  assert (HL : forall l, accepted (enc_slice l) -> 0 < zlen (wbytes (enc_slice l))).
  { intros l. unfold enc_slice. repeat match goal with |- context [if ?c then _ else _] => destruct c end;
      intros Hz; try (now apply werr_accepted in Hz); now apply HW. }
  assert (HM : forall l, accepted (enc_map l) -> 0 < zlen (wbytes (enc_map l))).
  { intros l. unfold enc_map. repeat match goal with |- context [if ?c then _ else _] => destruct c end;
      intros Hz; try (now apply werr_accepted in Hz); now apply HW. }
  assert (HS : forall g l, accepted (enc_structure g l) -> 0 < zlen (wbytes (enc_structure g l))).
  { intros g l. unfold enc_structure. repeat match goal with |- context [if ?c then _ else _] => destruct c end;
      intros Hz; try (now apply werr_accepted in Hz); now apply HW. }
  assert (HT : forall s, accepted (enc_str s) -> 0 < zlen (wbytes (enc_str s))).
  { intros s. unfold enc_str. repeat match goal with |- context [if ?c then _ else _] => destruct c end;
      intros Hz; try (now apply werr_accepted in Hz); unfold wbytes; cbn [fst wok concat]; zl; rewrite ?zlen_be;
      pose proof (zlen_nonneg s); lia. }
  destruct v; cbn [enc] in *; auto; try (apply HS; assumption).
  - reflexivity.
  - destruct b; reflexivity.
  - destruct k; cbn [enc_kint] in *; auto. unfold enc_kint in *. destruct (maxInt64 <? z); auto. now apply werr_accepted in A.
  - reflexivity.
  - reflexivity.
  - now apply werr_accepted in A.
Qed.

Lemma zero_chunk v : accepted (enc v) -> exists rest, rest <> [] /\ Receives (concat (fst (encode 0 v))) [] rest.
Proof.
  intros A. pose proof (enc_some_write v A) as N. rewrite encode_framed by assumption. cbn [fst].
  destruct (fst (enc v)) as [|p ws]; [contradiction|]. unfold backlog. cbn [chunk]. unfold ewrite.
  replace (0 <=? zlen ([] ++ p)) with true by (pose proof (zlen_nonneg ([] ++ p)); lia).
  destruct (chunk 0 (zdrop 0 ([] ++ p)) ws) as [o b]. cbn [fst snd app concat].
  replace (ztake 0 p) with (@nil Z) by (unfold ztake; pose proof (zlen_nonneg p); rewrite Z.min_l by lia; reflexivity).
  exists (concat (o ++ flush b)). split.
  - rewrite concat_app. unfold flush. destruct (0 <? zlen b); intros E; apply app_eq_nil in E; destruct E as [_ E];
      rewrite concat_app in E; apply app_eq_nil in E; destruct E as [_ E]; discriminate.
  - exists [0; 0]. split; [reflexivity|]. exists []. split; [exact Ch_end|reflexivity].
Qed.

(** C15: a backlog of 65536 bytes announces itself as the end of the message *)
Lemma early_terminator cs : 6 <= cs <= 65535 ->
  exists v msg rest, wt v /\ accepted (enc v) /\ Receives (concat (fst (encode cs v))) msg rest /\
    rest <> [] /\ zlen msg = cs /\ zlen (wbytes (enc v)) = cs + 65536.
Proof.
  intros Hcs. set (s := zeros (cs + 65531)). assert (L : zlen s = cs + 65531) by (apply zlen_zeros; lia).
  assert (E : enc (VStr s) = wok [[0xD2]; be 4 (wraps 32 (zlen s)); s]) by (apply enc_str32; lia).
  assert (A : accepted (enc (VStr s))) by (rewrite E; reflexivity).
  destruct (backlog_str32 cs s) as (b & EC & Eb & Lb); try lia.
  exists (VStr s), (ztake cs (0xD2 :: be 4 (zlen s) ++ s)), (b ++ [0; 0]).
  split; [apply wt_zeros|]. split; [assumption|].
  assert (LT : zlen (ztake cs (0xD2 :: be 4 (zlen s) ++ s)) = cs).
  { rewrite zlen_ztake by lia. zl. rewrite zlen_be. lia. }
  split; [|split; [|split]].
  - rewrite encode_framed by assumption. unfold backlog. rewrite EC. cbn [fst snd].
    unfold flush. replace (0 <? zlen b) with true by lia.
    replace (be 2 (zlen b)) with [0; 0] by (replace (zlen b) with 65536 by lia; reflexivity).
    exists (be 2 cs ++ ztake cs (0xD2 :: be 4 (zlen s) ++ s) ++ [0; 0]). split.
    + cbn [app concat]. rewrite <- !app_assoc. cbn [app]. reflexivity.
    + exists [ztake cs (0xD2 :: be 4 (zlen s) ++ s)]. split; [|cbn; now rewrite app_nil_r].
      apply Ch_chunk; [lia| |exact Ch_end]. rewrite LT. apply (BE_small 2); lia.
  - intros H. apply app_eq_nil in H. destruct H. discriminate.
  - exact LT.
  - rewrite E. unfold wbytes. cbn [fst wok concat]. rewrite app_nil_r. zl. rewrite zlen_be. lia.
Qed.
