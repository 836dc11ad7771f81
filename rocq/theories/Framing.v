(** Chunked framing: encoder side, decoder side, and both together. *)
From Coq Require Import ZArith List Bool Lia.
From Coq Require Import ZifyBool.
From Verif Require Import GoPrims Value PackSpec PrimLemmas Encoder EncoderProofs Decoder.
Import ListNotations.
Open Scope Z_scope.

(** ** The specification is unambiguous *)
Lemma BE2_zero : BE 2 0 [0; 0].
Proof. repeat split; repeat constructor; unfold is_byte; lia. Qed.

Lemma app_len_inv {A} (a a' b b' : list A) : zlen a = zlen a' -> a ++ b = a' ++ b' -> a = a' /\ b = b'.
Proof.
  revert a'. induction a as [|x a IH]; intros [|y a'] L E; zl; try (pose proof (zlen_nonneg a); pose proof (zlen_nonneg a'); lia).
  - now split.
  - pose proof (zlen_nonneg a'). lia.
  - pose proof (zlen_nonneg a). lia.
  - injection E as -> E. destruct (IH a') as [-> ->]; [lia|assumption|]. now split.
Qed.

Lemma Chunks_unique cs w : Chunks cs w -> forall cs' w' r r', Chunks cs' w' ->
  w ++ r = w' ++ r' -> cs = cs' /\ w = w' /\ r = r'.
Proof.
  induction 1 as [|c h cs w Hc Hh H IH]; intros cs' w' r r' H' E; destruct H' as [|c' h' cs' w' Hc' Hh' H'].
  - injection E as ->. now repeat split.
  - rewrite <- app_assoc in E.
    destruct (app_len_inv [0; 0] h' r ((c' ++ w') ++ r')) as [E1 _]; [rewrite (BE_len _ _ _ Hh'); reflexivity|assumption|].
    subst h'. pose proof (BE_val_inj _ _ _ _ BE2_zero Hh'). lia.
  - rewrite <- app_assoc in E.
    destruct (app_len_inv h [0; 0] ((c ++ w) ++ r) r') as [E1 _]; [rewrite (BE_len _ _ _ Hh); reflexivity|assumption|].
    subst h. pose proof (BE_val_inj _ _ _ _ BE2_zero Hh). lia.
  - rewrite <- !app_assoc in E.
    destruct (app_len_inv h h' (c ++ w ++ r) (c' ++ w' ++ r')) as [E1 E2];
      [rewrite (BE_len _ _ _ Hh), (BE_len _ _ _ Hh'); reflexivity|assumption|]. subst h'.
    pose proof (BE_val_inj _ _ _ _ Hh Hh') as EL.
    destruct (app_len_inv c c' (w ++ r) (w' ++ r') EL E2) as [-> E3].
    destruct (IH cs' w' r r' H' E3) as (-> & -> & ->). now repeat split.
Qed.

Lemma Receives_unique wire m m' r r' : Receives wire m r -> Receives wire m' r' -> m = m' /\ r = r'.
Proof.
  intros (w & -> & cs & HC & <-) (w' & E & cs' & HC' & <-).
  destruct (Chunks_unique _ _ HC _ _ _ _ HC' E) as (-> & -> & ->). now split.
Qed.

Lemma Chunks_len cs w : Chunks cs w -> zlen w = zlen (concat cs) + 2 * zlen cs + 2 /\ Forall (fun c => 0 < zlen c < 65536) cs.
Proof.
  induction 1 as [|c h cs w Hc Hh H [IH1 IH2]]; [split; [reflexivity|constructor]|]. cbn [concat]. zl.
  rewrite (BE_len _ _ _ Hh). split; [lia|]. constructor; [|assumption].
  pose proof (BE_bound _ _ _ Hh). cbn in *. lia.
Qed.

(** ** Encoder side *)
Definition wire_of (chs : list bytes) : bytes := concat (map (fun c => be 2 (zlen c) ++ c) chs).

(** What is left in the buffer when the message is flushed. *)
Definition backlog (cs : Z) (ws : list bytes) : bytes := snd (chunk cs [] ws).
(** Everything sent for a message written by the calls [ws]. *)
Definition framed (cs : Z) (ws : list bytes) : bytes :=
  concat (fst (chunk cs [] ws)) ++ concat (flush (backlog cs ws)).

Lemma chunk_spec cs ws : 0 <= cs -> forall buf out buf', chunk cs buf ws = (out, buf') ->
  exists chs, Forall (fun c => zlen c = cs) chs /\ concat out = wire_of chs /\
              buf ++ concat ws = concat chs ++ buf'.
Proof.
  intros Hcs. induction ws as [|p ws IH]; intros buf out buf' E; cbn [chunk] in E.
  - injection E as <- <-. exists []. repeat split; [constructor|]. cbn. now rewrite app_nil_r.
  - unfold ewrite in E. destruct (cs <=? zlen (buf ++ p)) eqn:C.
    + destruct (chunk cs (zdrop cs (buf ++ p)) ws) as [o2 b2] eqn:E2. injection E as <- <-.
      destruct (IH _ _ _ E2) as (chs & F & W & A).
      assert (L : zlen (ztake cs (buf ++ p)) = cs) by (rewrite zlen_ztake; lia).
      exists (ztake cs (buf ++ p) :: chs). split; [now constructor|]. split.
      * unfold wire_of. cbn [app map concat]. rewrite L, W. unfold wire_of. now rewrite <- app_assoc.
      * cbn [concat]. rewrite <- app_assoc, <- A, !app_assoc, ztake_zdrop. now rewrite <- !app_assoc.
    + destruct (chunk cs (buf ++ p) ws) as [o2 b2] eqn:E2. injection E as <- <-.
      destruct (IH _ _ _ E2) as (chs & F & W & A). exists chs. cbn [app]. repeat split; trivial.
      rewrite <- A. cbn [concat]. now rewrite app_assoc.
Qed.

Lemma Chunks_app chs cs w : Forall (fun c => 0 < zlen c < 65536) chs -> Chunks cs w ->
  Chunks (chs ++ cs) (wire_of chs ++ w).
Proof.
  induction 1 as [|c chs Hc HF IH]; intros H; [exact H|]. unfold wire_of. cbn [map concat app].
  rewrite <- !app_assoc. apply Ch_chunk; [lia|apply (BE_small 2); lia|]. now apply IH.
Qed.

Definition flush_chunks (buf : bytes) : list bytes := match buf with [] => [] | _ => [buf] end.

Lemma flush_ok buf : zlen buf < 65536 -> Chunks (flush_chunks buf) (concat (flush buf)).
Proof.
  intros H. unfold flush, flush_chunks. destruct buf as [|b buf]; [exact Ch_end|].
  pose proof (zlen_nonneg buf). replace (0 <? zlen (b :: buf)) with true by (zl; lia).
  cbn [app concat]. apply (Ch_chunk (b :: buf)); [zl; lia|apply (BE_small 2); zl; lia|exact Ch_end].
Qed.

Lemma concat_flush_chunks buf : concat (flush_chunks buf) = buf.
Proof. destruct buf; [reflexivity|]. cbn. now rewrite app_nil_r. Qed.

Lemma framed_ok cs ws : 1 <= cs <= 65535 -> zlen (backlog cs ws) < 65536 ->
  exists chs, Forall (fun c => zlen c = cs) chs /\
    Chunks (chs ++ flush_chunks (backlog cs ws)) (framed cs ws) /\
    concat (chs ++ flush_chunks (backlog cs ws)) = concat ws.
Proof.
  intros Hcs HB. unfold framed, backlog in *. destruct (chunk cs [] ws) as [out buf] eqn:E. cbn [fst snd] in *.
  destruct (chunk_spec cs ws ltac:(lia) _ _ _ E) as (chs & F & W & A). cbn [app] in A.
  exists chs. split; [exact F|]. split.
  - rewrite W. apply Chunks_app; [|now apply flush_ok]. revert F. apply Forall_impl. intros; lia.
  - rewrite concat_app, concat_flush_chunks. now symmetry.
Qed.

(** C13: the message is reassembled exactly iff the backlog fits a chunk. *)
Lemma wire_of_strip' chs : Forall (fun c => 0 < zlen c < 65536) chs -> forall cs' w r x,
  Chunks cs' w -> wire_of chs ++ x = w ++ r -> (exists b, b <> [] /\ concat cs' = concat chs ++ b) ->
  exists cs2 w2, cs' = chs ++ cs2 /\ w = wire_of chs ++ w2 /\ Chunks cs2 w2.
Proof.
  intros HF. induction HF as [|c chs Hc HF IH]; intros cs' w r x HC E (b & Hb & A).
  - exists cs', w. now repeat split.
  - destruct HC as [|c' h' cs2 w2 Hc' Hh' HC].
    + symmetry in A. apply app_eq_nil in A. tauto.
    + unfold wire_of in E. cbn [map concat] in E. rewrite <- !app_assoc in E.
      apply app_len_inv in E; [|rewrite zlen_be, (BE_len _ _ _ Hh'); reflexivity]. destruct E as [EH E2].
      assert (EL : zlen c = zlen c').
      { apply (BE_val_inj 2 _ _ h'); [|exact Hh']. rewrite <- EH. apply (BE_small 2); lia. }
      destruct (app_len_inv _ _ _ _ EL E2) as [-> E3]. cbn [concat] in *.
      rewrite <- app_assoc in A. apply app_inv_head in A.
      destruct (IH cs2 w2 r x HC E3 ltac:(exists b; now split)) as (cs3 & w3 & -> & -> & HC3).
      exists cs3, w3. repeat split; trivial.
      unfold wire_of. cbn [map concat]. rewrite <- EH, ?EL. now rewrite <- !app_assoc.
Qed.

Lemma framed_iff cs ws : 1 <= cs <= 65535 ->
  ((exists rest, Receives (framed cs ws) (concat ws) rest) <-> zlen (backlog cs ws) < 65536).
Proof.
  intros Hcs. split.
  - intros (rest & w & E & cs' & HC & A).
    destruct (Z_lt_le_dec (zlen (backlog cs ws)) 65536) as [|L]; [assumption|exfalso].
    unfold framed, backlog in *. destruct (chunk cs [] ws) as [out buf] eqn:EC. cbn [fst snd] in *.
    destruct (chunk_spec cs ws ltac:(lia) _ _ _ EC) as (chs & F & W & A2). cbn [app] in A2.
    rewrite W in E. rewrite A2 in A.
    assert (NB : buf <> []) by (intros ->; cbn in L; lia).
    destruct (wire_of_strip' chs) with (cs' := cs') (w := w) (r := rest) (x := concat (flush buf)) as (cs2 & w2 & -> & -> & HC2);
      trivial.
    { revert F. apply Forall_impl. intros; lia. }
    { exists buf. now split. }
    rewrite <- app_assoc in E. apply app_inv_head in E. rewrite concat_app in A. apply app_inv_head in A.
    unfold flush in E. replace (0 <? zlen buf) with true in E by lia. cbn [app concat] in E.
    destruct (Chunks_len _ _ HC2) as [L2 F2].
    assert (LE : zlen w2 <= zlen buf + 4).
    { assert (zlen (be 2 (zlen buf) ++ buf ++ [0; 0]) = zlen (w2 ++ rest)) by (now rewrite <- E).
      zl. rewrite zlen_be in *. pose proof (zlen_nonneg rest). lia. }
    rewrite A in L2. unfold bytes in *.
    destruct cs2 as [|c [|c2 cs2]]; [now subst| |rewrite !zlen_cons in *; pose proof (zlen_nonneg cs2); lia].
    cbn in A. rewrite app_nil_r in A. subst c. inversion F2; subst. lia.
  - intros HB. destruct (framed_ok cs ws Hcs HB) as (chs & _ & HC & A).
    exists [], (framed cs ws). split; [now rewrite app_nil_r|]. eexists; split; eassumption.
Qed.

(** With no write longer than the chunk size the backlog stays below it. *)
Lemma chunk_backlog cs ws : 1 <= cs -> Forall (fun p => zlen p <= cs) ws ->
  forall buf, zlen buf < cs -> zlen (snd (chunk cs buf ws)) < cs.
Proof.
  intros Hcs. induction 1 as [|p ws Hp HF IH]; intros buf Hb; cbn [chunk]; [exact Hb|].
  unfold ewrite. destruct (cs <=? zlen (buf ++ p)) eqn:C.
  - specialize (IH (zdrop cs (buf ++ p))). destruct (chunk cs (zdrop cs (buf ++ p)) ws). cbn [snd] in *.
    apply IH. rewrite zlen_zdrop by lia. zl. lia.
  - specialize (IH (buf ++ p)). destruct (chunk cs (buf ++ p) ws). cbn [snd] in *. apply IH. lia.
Qed.
Lemma backlog_small cs ws : 1 <= cs -> Forall (fun p => zlen p <= cs) ws -> zlen (backlog cs ws) < cs.
Proof. intros H HF. apply chunk_backlog; trivial. zl. lia. Qed.

(** C14/C15 where they hold. *)
Lemma framed_small cs ws : 1 <= cs <= 65535 -> Forall (fun p => zlen p <= cs) ws ->
  exists chs, Chunks chs (framed cs ws) /\ concat chs = concat ws /\ Forall (fun c => zlen c <= cs) chs.
Proof.
  intros Hcs HF. pose proof (backlog_small cs ws ltac:(lia) HF) as HB.
  destruct (framed_ok cs ws Hcs ltac:(lia)) as (chs & F & HC & A).
  eexists; split; [exact HC|]. split; [exact A|]. apply Forall_app. split.
  - revert F. apply Forall_impl. intros; lia.
  - unfold flush_chunks. destruct (backlog cs ws); constructor; [|constructor]. lia.
Qed.

(** ** Decoder side *)
Definition seg_ok (e : rev) : Prop := exists l, e = RData l /\ l <> [].
Definition segs_ok (r : reader) : Prop := Forall seg_ok r.

Lemma zlen_pos {A} (l : list A) : l <> [] -> 0 < zlen l.
Proof. destruct l; [easy|]. intros _. zl. pose proof (zlen_nonneg l). lia. Qed.
Lemma pos_nonnil {A} (l : list A) : 0 < zlen l -> l <> [].
Proof. intros H ->. cbn in H. lia. Qed.

Lemma read_full_spec r : segs_ok r -> forall n, 0 < n ->
  if n <=? zlen (rbytes r)
  then exists r', read_full n r = (ztake n (rbytes r), ROk, r') /\ segs_ok r' /\ rbytes r' = zdrop n (rbytes r)
  else read_full n r = (rbytes r, REof, []).
Proof.
  induction 1 as [|e r (l & -> & Hl) HF IH]; intros n Hn.
  - cbn. replace (n <=? 0) with false by lia. reflexivity.
  - cbn [rbytes read_full]. apply zlen_pos in Hl. pose proof (zlen_nonneg (rbytes r)).
    destruct (zlen l <? n) eqn:C1.
    + specialize (IH (n - zlen l) ltac:(lia)). zl.
      destruct (n <=? zlen l + zlen (rbytes r)) eqn:C.
      * replace (n - zlen l <=? zlen (rbytes r)) with true in IH by lia.
        destruct IH as (r' & E & S & B). exists r'. rewrite E.
        rewrite ztake_app_r, zdrop_app_r by lia. repeat split; trivial.
      * replace (n - zlen l <=? zlen (rbytes r)) with false in IH by lia. now rewrite IH.
    + zl. replace (n <=? zlen l + zlen (rbytes r)) with true by lia.
      destruct (zlen l =? n) eqn:C2.
      * exists r. rewrite ztake_app', zdrop_app' by lia. repeat split; trivial.
      * exists (RData (zdrop n l) :: r). rewrite ztake_app_l, zdrop_app_l by lia. repeat split.
        constructor; [|assumption]. eexists; split; [reflexivity|]. apply pos_nonnil. rewrite zlen_zdrop by lia. lia.
Qed.

Lemma read_data_spec r : segs_ok r -> forall mlen total out, 0 <= total <= mlen -> zlen out = mlen ->
  if mlen - total <=? zlen (rbytes r)
  then exists r', read_data mlen total out r = (inl (ztake total out ++ ztake (mlen - total) (rbytes r)), r') /\
                  segs_ok r' /\ rbytes r' = zdrop (mlen - total) (rbytes r)
  else read_data mlen total out r = (inr (DEStream REof), []).
Proof.
  induction 1 as [|e r (l & -> & Hl) HF IH]; intros mlen total out Ht Ho.
  - cbn [read_data rbytes]. zl. destruct (total <? mlen) eqn:C.
    + replace (mlen - total <=? 0) with false by lia. reflexivity.
    + replace (mlen - total <=? 0) with true by lia. exists []. replace (mlen - total) with 0 by lia.
      rewrite ztake_0, zdrop_0, app_nil_r. rewrite ztake_all by lia. repeat split. constructor.
  - cbn [read_data rbytes]. apply zlen_pos in Hl. pose proof (zlen_nonneg (rbytes r)).
    destruct (total <? mlen) eqn:C.
    + set (want := mlen - total) in *. assert (Hw : 0 < want) by lia. zl.
      assert (LG : zlen (ztake want l) = Z.min want (zlen l)) by (apply zlen_ztake; lia).
      replace (zlen (ztake want l) =? 0) with false by lia.
      set (out' := ztake total out ++ ztake want l ++ repeat 0 (Z.to_nat (want - zlen (ztake want l)))).
      destruct (want <? zlen l) eqn:C2.
      * replace (want <=? zlen l + zlen (rbytes r)) with true by lia.
        exists (RData (zdrop want l) :: r). unfold out'. rewrite LG, Z.min_l by lia. rewrite Z.sub_diag. cbn [Z.to_nat repeat].
        rewrite app_nil_r. rewrite ztake_app_l, zdrop_app_l by lia. repeat split.
        constructor; [|assumption]. eexists; split; [reflexivity|]. apply pos_nonnil. rewrite zlen_zdrop by lia. lia.
      * assert (Ll : zlen (ztake want l) = zlen l) by lia. rewrite Ll.
        assert (Lo : zlen out' = mlen).
        { unfold out'. zl. rewrite zlen_repeat, zlen_ztake by lia. lia. }
        specialize (IH mlen (total + zlen l) out' ltac:(lia) Lo).
        replace (mlen - (total + zlen l)) with (want - zlen l) in IH by lia.
        destruct (want <=? zlen l + zlen (rbytes r)) eqn:C3.
        -- replace (want - zlen l <=? zlen (rbytes r)) with true in IH by lia.
           destruct IH as (r' & E & S & B). exists r'. rewrite E. split; [|split; [assumption|]].
           ++ do 2 f_equal. rewrite (ztake_app_r want) by lia. rewrite app_assoc. f_equal.
              unfold out'. rewrite app_assoc. rewrite ztake_app'.
              ** f_equal. apply ztake_all. lia.
              ** zl. rewrite zlen_ztake by lia. lia.
           ++ rewrite zdrop_app_r by lia. exact B.
        -- replace (want - zlen l <=? zlen (rbytes r)) with false in IH by lia. exact IH.
    + assert (total = mlen) by lia. subst total. rewrite Z.sub_diag.
      replace (0 <=? zlen (l ++ rbytes r)) with true by (zl; lia).
      exists (RData l :: r). rewrite ztake_0, zdrop_0, app_nil_r, ztake_all by lia. repeat split.
      constructor; [|assumption]. eexists; split; [reflexivity|]. now apply pos_nonnil.
Qed.

(** Reading from a flat byte string: the reference result. *)
Inductive flat_ok : bytes -> bytes -> bytes -> Prop :=
| flat_intro cs w rest : Chunks cs w -> flat_ok (w ++ rest) (concat cs) rest.

Lemma two_bytes (h : bytes) : Forall is_byte h -> zlen h = 2 -> BE 2 (ube h) h.
Proof. intros F L. repeat split; trivial. now rewrite ube_be_value. Qed.

Lemma read_chunks_spec fuel : forall r out, segs_ok r -> Forall is_byte (rbytes r) ->
  (length (rbytes r) < fuel)%nat ->
  (exists msg rest r', Receives (rbytes r) msg rest /\ read_chunks fuel out r = FOk (out ++ msg) r' /\
                       segs_ok r' /\ rbytes r' = rest) \/
  ((forall msg rest, ~ Receives (rbytes r) msg rest) /\ read_chunks fuel out r = FErr (DEStream REof) []).
Proof.
  induction fuel as [|fuel IH]; intros r out HS HB HF; [lia|]. cbn [read_chunks].
  pose proof (read_full_spec r HS 2 ltac:(lia)) as RF.
  destruct (2 <=? zlen (rbytes r)) eqn:C.
  - destruct RF as (r1 & E1 & S1 & B1). rewrite E1.
    destruct (zsplit 2 (rbytes r) ltac:(lia)) as (h & x & Er & Lh & Th & Dx). rewrite Th, Dx in *. rewrite Lh.
    cbn [negb Z.eqb Pos.eqb].
    assert (HBh : Forall is_byte h) by (rewrite Er in HB; apply Forall_app in HB; tauto).
    assert (HBx : Forall is_byte x) by (rewrite Er in HB; apply Forall_app in HB; tauto).
    pose proof (two_bytes h HBh Lh) as HE.
    destruct (ube h =? 0) eqn:Z0.
    + left. exists [], x, r1. rewrite app_nil_r. repeat split; trivial.
      exists [0; 0]. split.
      * rewrite Er. f_equal. apply (BE_inj 2 0); [|exact BE2_zero]. now replace 0 with (ube h) by lia.
      * exists []. split; [exact Ch_end|reflexivity].
    + pose proof (BE_bound _ _ _ HE) as BB.
      pose proof (read_data_spec r1 S1 (ube h) 0 (repeat 0 (Z.to_nat (ube h))) ltac:(lia) ltac:(rewrite zlen_repeat; lia)) as RD.
      rewrite Z.sub_0_r, B1 in RD.
      destruct (ube h <=? zlen x) eqn:C2.
      * destruct RD as (r2 & E2 & S2 & B2). rewrite E2. rewrite ztake_0. cbn [app].
        destruct (zsplit (ube h) x ltac:(lia)) as (c & y & Ex & Lc & Tc & Dy). rewrite Tc, Dy in *.
        destruct (IH r2 (out ++ c)) as [(msg & rest & r' & R & E3 & S3 & B3)|[N E3]]; trivial.
        -- rewrite B2. rewrite Ex in HBx. apply Forall_app in HBx. tauto.
        -- rewrite B2. rewrite Er, Ex in HF. rewrite !app_length in HF. unfold zlen in *. lia.
        -- left. exists (c ++ msg), rest, r'. rewrite E3, app_assoc. repeat split; trivial.
           destruct R as (w & Ew & cs & HC & Em). exists (h ++ c ++ w). split.
           ++ rewrite Er, Ex, <- B2, Ew. now rewrite <- !app_assoc.
           ++ exists (c :: cs). split; [|cbn; now rewrite Em]. apply Ch_chunk; trivial; [lia|]. now rewrite Lc.
        -- right. split; [|exact E3]. intros msg rest (w & Ew & cs & HC & Em).
           rewrite Er, Ex in Ew. destruct HC as [|c' h' cs w Hc' Hh' HC].
           ++ destruct (app_len_inv h [0; 0] (c ++ y) rest) as [-> _]; [rewrite Lh; reflexivity|assumption|].
              cbn in Z0. discriminate.
           ++ rewrite <- !app_assoc in Ew.
              destruct (app_len_inv h h' (c ++ y) (c' ++ w ++ rest)) as [-> Ew2];
                [rewrite Lh, (BE_len _ _ _ Hh'); reflexivity|assumption|].
              pose proof (BE_val_inj _ _ _ _ HE Hh') as EL. rewrite EL in Lc.
              destruct (app_len_inv c c' y (w ++ rest) Lc Ew2) as [-> Ew3].
              apply (N (concat cs) rest). exists w. rewrite B2. split; [assumption|]. eexists; split; [eassumption|reflexivity].
      * rewrite RD. right. split; [|reflexivity]. intros msg rest (w & Ew & cs & HC & Em).
        rewrite Er in Ew. destruct HC as [|c' h' cs w Hc' Hh' HC].
        -- destruct (app_len_inv h [0; 0] x rest) as [-> _]; [rewrite Lh; reflexivity|assumption|].
           cbn in Z0. discriminate.
        -- rewrite <- !app_assoc in Ew.
           destruct (app_len_inv h h' x (c' ++ w ++ rest)) as [-> ->];
             [rewrite Lh, (BE_len _ _ _ Hh'); reflexivity|assumption|].
           pose proof (BE_val_inj _ _ _ _ HE Hh') as EL. rewrite EL in C2. zl.
           pose proof (zlen_nonneg w). pose proof (zlen_nonneg rest). lia.
  - rewrite RF. right. replace (zlen (rbytes r) =? 2) with false by lia. cbn [negb].
    split; [|reflexivity]. intros msg rest (w & Ew & cs & HC & Em). apply Chunks_len in HC.
    rewrite Ew in C. zl. pose proof (zlen_nonneg (concat cs)). pose proof (zlen_nonneg cs). pose proof (zlen_nonneg rest). lia.
Qed.

(** C16 *)
Lemma read_msg_spec r : segs_ok r -> Forall is_byte (rbytes r) ->
  (exists msg rest r', Receives (rbytes r) msg rest /\ read_msg r = FOk msg r' /\ segs_ok r' /\ rbytes r' = rest) \/
  ((forall msg rest, ~ Receives (rbytes r) msg rest) /\ read_msg r = FErr (DEStream REof) []).
Proof.
  intros HS HB. unfold read_msg.
  destruct (read_chunks_spec (S (length (rbytes r))) r [] HS HB ltac:(lia)) as [H|H]; [left|right]; exact H.
Qed.

Lemma read_msg_receives r msg rest : segs_ok r -> Forall is_byte (rbytes r) ->
  Receives (rbytes r) msg rest -> exists r', read_msg r = FOk msg r' /\ segs_ok r' /\ rbytes r' = rest.
Proof.
  intros HS HB HR. destruct (read_msg_spec r HS HB) as [(m' & rest' & r' & R & E & S & B)|[N _]].
  - destruct (Receives_unique _ _ _ _ _ HR R) as [-> ->]. now exists r'.
  - now apply N in HR.
Qed.
