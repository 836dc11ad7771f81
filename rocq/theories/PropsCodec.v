(** Properties C01-C19: the codec.

    [Sent v b]: encoding [v] succeeds and [b] are the message bytes written,
    before they are cut into chunks.  [wire cs v] is what [Encoder.Encode] with
    chunk size [cs] writes to the connection.  The specification is in
    PackSpec.v. *)
From Coq Require Import ZArith List Bool Lia Permutation.
From Coq Require Import ZifyBool.
From Verif Require Import GoPrims Value PackSpec PrimLemmas Encoder EncoderProofs PackProofs
  Decoder DecoderProofs RoundTrip Truncate Framing CodecProofs CodecIO CodecRefute CodecOrder.
Import ListNotations.
Open Scope Z_scope.

Definition Sent (v : goval) (b : bytes) : Prop := exists ws, enc v = (ws, None) /\ b = concat ws.
Definition Accepted (v : goval) : Prop := exists b, Sent v b.
Definition wire_bytes (cs : Z) (v : goval) : bytes := concat (fst (encode cs v)).
(** Every uint in the value fits the signed 64 bit type. *)
Definition uints_fit (v : goval) : Prop := forall z, Sub (VInt KUint z) v -> z < 2 ^ 63.

Lemma Accepted_iff v : Accepted v <-> accepted (enc v).
Proof.
  unfold Accepted, Sent, accepted. destruct (enc v) as [ws e]. cbn. split.
  - intros (b & ws' & E & _). now inversion E.
  - intros ->. now exists (concat ws), ws.
Qed.
Lemma Sent_iff v b : Sent v b <-> accepted (enc v) /\ b = wbytes (enc v).
Proof.
  unfold Sent, accepted, wbytes. destruct (enc v) as [ws e]. cbn. split.
  - intros (ws' & E & ->). inversion E; subst. now split.
  - intros [-> ->]. now exists ws.
Qed.

(** A value used as a witness throughout: every kind of collection and a node. *)
Definition ex_v : goval :=
  VMap [([107], VSlice [VInt KInt (-129); VInt KUint8 200; VF64 0; VStr [104; 105]; VNil; VBool true]);
        ([110], VNode 7 [[76]] [([112], VTSlice [VInt KInt16 300])])].
Lemma ex_wt : wt ex_v.
Proof.
  repeat match goal with
    | |- wtm _ => apply wtm_intro | |- NoDup _ => constructor | |- Forall _ _ => constructor
    | |- wt _ => constructor | |- bytes_ok _ => unfold bytes_ok | |- is_byte _ => unfold is_byte; lia
    | |- ~ In _ _ => cbn; intuition discriminate
    | |- _ = true => reflexivity | |- _ <= _ < _ => lia end.
Qed.
Fixpoint subs (v : goval) {struct v} : list goval := 
  let sm := fix sm (m : list (str * goval)) := match m with [] => [] | (_, x) :: m' => subs x ++ sm m' end in
  let sl := fix sl (l : list goval) := match l with [] => [] | x :: l' => subs x ++ sl l' end in
  v :: match v with
       | VSlice l | VTSlice l => sl l
       | VMap m => sm m
       | VNode id ls m => vint64 id :: VSlice (map vstr ls) :: map vstr ls ++ VMap m :: sm m
       | _ => []
       end.
Lemma ex_subs w : Sub w ex_v -> In w (subs ex_v).
Proof.
  unfold ex_v. intros H. apply Sub_map_inv in H. destruct H as [->|(k & x & HI & H)]; [now left|].
  destruct HI as [HI|[HI|[]]]; injection HI as <- <-.
  - apply Sub_slice_inv in H. destruct H as [->|(x & HI & H)]; [cbn; tauto|].
    repeat (destruct HI as [<-|HI]; [inversion H; subst; try discriminate; cbn; tauto|]). destruct HI.
  - eapply Sub_struct_inv in H; [|reflexivity]. destruct H as [->|(x & HI & H)]; [cbn; tauto|].
    destruct HI as [<-|[<-|[<-|[]]]].
    + inversion H; subst; try discriminate. cbn; tauto.
    + apply Sub_slice_inv in H. destruct H as [->|(x & [<-|[]] & H)]; [cbn; tauto|].
      inversion H; subst; try discriminate. cbn; tauto.
    + apply Sub_map_inv in H. destruct H as [->|(k & x & [HI|[]] & H)]; [cbn; tauto|]. injection HI as <- <-.
      apply Sub_tslice_inv in H. destruct H as [->|(x & [<-|[]] & H)]; [cbn; tauto|].
      inversion H; subst; try discriminate. cbn; tauto.
Qed.
Lemma ex_uints : uints_fit ex_v.
Proof.
  intros z H. apply ex_subs in H. cbn in H.
  repeat (destruct H as [H|H]; [discriminate|]). destruct H.
Qed.
Lemma ex_trans : Transmissible ex_v.
Proof.
  intros w H. apply ex_subs in H. cbn in H.
  repeat (destruct H as [<-|H]; [cbn; unfold signed_size, zlen; cbn; intuition (try lia);
    repeat match goal with H : _ = (_, _) |- _ => injection H as <- <-; cbn; lia end|]). destruct H.
Qed.
Lemma ex_strings n : 8 <= n -> strings_le n ex_v.
Proof.
  intros Hn w H. apply ex_subs in H. cbn in H.
  repeat (destruct H as [<-|H]; [cbn; unfold zlen; cbn; intuition (try lia);
    repeat match goal with H : _ = (_, _) |- _ => injection H as <- <-; cbn; lia end|]). destruct H.
Qed.

(** * C01 *)
Theorem C01_conformance : forall v b, wt v -> uints_fit v -> Sent v b -> PS (denote v) b.
Proof. intros v b W N S. apply Sent_iff in S. destruct S as [A ->]. now apply enc_conforms. Qed.
Print Assumptions C01_conformance.
Example C01_example : wt ex_v /\ uints_fit ex_v /\ exists b, Sent ex_v b /\ zlen b = 39.
Proof. split; [exact ex_wt|]. split; [exact ex_uints|]. eexists. split; [eexists; split; reflexivity|reflexivity]. Qed.

(** * C02 *)
Theorem C02_minimal : forall v b b', wt v -> uints_fit v -> Sent v b -> PS (denote v) b' -> zlen b <= zlen b'.
Proof. intros v b b' W N S H. apply Sent_iff in S. destruct S as [A ->]. now apply enc_minimal. Qed.
Print Assumptions C02_minimal.
(** 1 can be encoded in nine bytes; the encoder uses one. *)
Example C02_example : Sent (VInt KInt 1) [1] /\ PS (denote (VInt KInt 1)) [0xCB; 0; 0; 0; 0; 0; 0; 0; 1].
Proof.
  split; [eexists; split; reflexivity|]. apply PS_int64. split; [lia|]. split; [reflexivity|].
  split; [repeat (apply Forall_cons; [unfold is_byte; lia|]); apply Forall_nil|reflexivity].
Qed.

(** * C03 *)
Theorem C03_rejects_iff : forall v, wt v -> (~ Accepted v <-> exists w, Sub w v /\ Unrepresentable w).
Proof. intros v W. rewrite Accepted_iff. now apply enc_rejects_iff. Qed.
Print Assumptions C03_rejects_iff.
Example C03_example : wt (VSlice [ex_v; VInt KUint64 (2 ^ 63)]) /\ ~ Accepted (VSlice [ex_v; VInt KUint64 (2 ^ 63)]) /\ Accepted ex_v.
Proof.
  split; [|split].
  - constructor. constructor; [exact ex_wt|]. constructor; [constructor; reflexivity|constructor].
  - rewrite Accepted_iff. intros H. discriminate H.
  - eexists. eexists. split; reflexivity.
Qed.

(** * C04 (false for uint) *)
Theorem C04_int_kinds_partial : forall k z b, krange k z = true -> (k = KUint -> z < 2 ^ 63) ->
  Sent (VInt k z) b -> PS (PInt z) b.
Proof. intros k z b K N S. apply Sent_iff in S. destruct S as [A ->]. apply kint_wire; trivial. now constructor. Qed.
Print Assumptions C04_int_kinds_partial.
(** Every uint above MaxInt64 is accepted and sent as another number. *)
Theorem C04_refuted : forall z, 2 ^ 63 <= z < 2 ^ 64 ->
  krange KUint z = true /\ exists b, Sent (VInt KUint z) b /\ PS (PInt (z - 2 ^ 64)) b /\ ~ PS (PInt z) b.
Proof.
  intros z H. split; [cbn; lia|]. destruct (big_uint_wire z H) as [A P]. exists (wbytes (enc (VInt KUint z))).
  split; [now apply Sent_iff|]. split; [exact P|]. intros P'.
  destruct (PS_unique _ _ _ _ _ _ [] [] P P' eq_refl) as (E & _). injection E as E. lia.
Qed.
Print Assumptions C04_refuted.
Example C04_example : krange KInt8 (-128) = true /\ Sent (VInt KInt8 (-128)) [0xC8; 0x80] /\ Sent (VInt KUint (2 ^ 64 - 1)) [0xFF].
Proof. split; [reflexivity|]. split; eexists; split; reflexivity. Qed.

(** * C05 *)
Theorem C05_prefix_free : forall v w b c r r', wt v -> uints_fit v -> Sent v b -> wt w -> uints_fit w -> Sent w c ->
  b ++ r = c ++ r' -> denote v = denote w /\ r = r'.
Proof.
  intros v w b c r r' W N S W' N' S' E. apply Sent_iff in S, S'. destruct S as [A ->], S' as [A' ->].
  now apply enc_prefix_free.
Qed.
Print Assumptions C05_prefix_free.
Example C05_example : exists b, Sent (VInt KInt8 5) b /\ Sent (VInt KUint32 5) b /\ b ++ [1] = b ++ [1].
Proof. exists [5]. repeat split; eexists; split; reflexivity. Qed.

(** * C06 *)
Theorem C06_round_trip : forall mk v, wt v -> Transmissible v -> strings_le 65535 v ->
  snd (marshal v) = None /\ unmarshal mk (fst (marshal v)) = DVal (canon v).
Proof. exact roundtrip. Qed.
Print Assumptions C06_round_trip.
Example C06_example : wt ex_v /\ Transmissible ex_v /\ strings_le 65535 ex_v /\
  canon ex_v <> ex_v /\ unmarshal true (fst (marshal ex_v)) = DVal (canon ex_v).
Proof.
  split; [exact ex_wt|]. split; [exact ex_trans|]. split; [apply ex_strings; lia|]. split; [discriminate|].
  vm_compute. reflexivity.
Qed.

(** * C07 (false) *)
Theorem C07_refuted_strings : forall mk s, bytes_ok s -> 128 <= zlen s <= 255 \/ 32768 <= zlen s <= 65535 ->
  snd (marshal (VStr s)) = None /\ unmarshal mk (fst (marshal (VStr s))) = DCrash.
Proof.
  intros mk s H L. apply str_not_roundtrip; [now constructor|unfold bad_size; lia|lia].
Qed.
Print Assumptions C07_refuted_strings.
Theorem C07_refuted_long_strings : forall mk s, bytes_ok s -> 131066 <= zlen s < 2 ^ 32 ->
  snd (marshal (VStr s)) = None /\ unmarshal mk (fst (marshal (VStr s))) <> DVal (VStr s).
Proof. intros mk s H L. apply long_str_not_roundtrip; [now constructor|exact L]. Qed.
Print Assumptions C07_refuted_long_strings.
Theorem C07_refuted_lists : forall mk l, wt (VSlice l) -> uints_fit (VSlice l) -> Accepted (VSlice l) ->
  bad_size (zlen l) -> strings_le 65535 (VSlice l) ->
  snd (marshal (VSlice l)) = None /\ unmarshal mk (fst (marshal (VSlice l))) = DCrash.
Proof.
  intros mk l W N A B S. apply list_not_roundtrip; trivial; [now apply Accepted_iff|].
  pose proof (framed_backlog 65535 (VSlice l) ltac:(lia) S). lia.
Qed.
Print Assumptions C07_refuted_lists.
Theorem C07_refuted_maps : forall mk m, wt (VMap m) -> uints_fit (VMap m) -> Accepted (VMap m) ->
  bad_size (zlen m) -> strings_le 65535 (VMap m) ->
  snd (marshal (VMap m)) = None /\ unmarshal mk (fst (marshal (VMap m))) = if mk then DCrash else DVal (VMap []).
Proof.
  intros mk m W N A B S. apply map_not_roundtrip; trivial; [now apply Accepted_iff|].
  pose proof (framed_backlog 65535 (VMap m) ltac:(lia) S). lia.
Qed.
Print Assumptions C07_refuted_maps.
Example C07_example : let l := repeat VNil 200 in
  wt (VSlice l) /\ uints_fit (VSlice l) /\ Accepted (VSlice l) /\ bad_size (zlen l) /\ strings_le 65535 (VSlice l) /\
  unmarshal true (fst (marshal (VSlice l))) = DCrash.
Proof.
  cbv zeta.
  assert (S : forall w, Sub w (VSlice (repeat VNil 200)) -> w = VSlice (repeat VNil 200) \/ w = VNil).
  { intros w H. apply Sub_slice_inv in H. destruct H as [->|(x & HI & H)]; [now left|right].
    apply repeat_spec in HI. subst. now inversion H. }
  split; [|split; [|split; [|split; [|split]]]].
  - constructor. apply Forall_forall. intros x H. apply repeat_spec in H. subst. constructor.
  - intros z H. apply S in H. destruct H; discriminate.
  - eexists. eexists. split; reflexivity.
  - unfold bad_size. left. vm_compute. split; discriminate.
  - intros w H. apply S in H. destruct H; subst; exact I.
  - vm_compute. reflexivity.
Qed.

(** * C08 *)
Theorem C08_accepts_all : forall mk v b r, decodable v -> wt v -> PS_half (denote v) b -> decode mk (b ++ r) = DOk v r.
Proof. exact decode_accepts. Qed.
Print Assumptions C08_accepts_all.
(** A list of one integer, with a two byte size and a nine byte integer. *)
Example C08_example : let v := VSlice [VInt KInt64 1] in let b := [0xD5; 0; 1; 0xCB; 0; 0; 0; 0; 0; 0; 0; 1] in
  decodable v /\ wt v /\ PS_half (denote v) b /\ decode true (b ++ [0xC0]) = DOk v [0xC0].
Proof.
  cbv zeta. assert (B : forall l, forallb (fun z => (0 <=? z) && (z <? 256)) l = true -> Forall is_byte l).
  { intros l H. apply Forall_forall. intros x Hx. rewrite forallb_forall in H. specialize (H x Hx). unfold is_byte. lia. }
  split; [repeat constructor|]. split; [constructor; constructor; [now constructor|constructor]|]. split; [|reflexivity].
  apply (PS_list _ [PInt 1] [0xD5; 0; 1] [0xCB; 0; 0; 0; 0; 0; 0; 0; 1]).
  - apply H_16; [vm_compute; split; [discriminate|reflexivity]|]. split; [reflexivity|]. split; [now apply B|reflexivity].
  - apply (PSs_cons _ (PInt 1) [] [0xCB; 0; 0; 0; 0; 0; 0; 0; 1] []); [|constructor].
    apply PS_int64. split; [lia|]. split; [reflexivity|]. split; [now apply B|reflexivity].
Qed.

(** * C09 (last sentence false) *)
Theorem C09_terminates_partial : forall mk b, decode mk b <> DFuel /\
  forall v r, decode mk b = DOk v r -> exists c, c <> [] /\ b = c ++ r.
Proof. intros mk b. split; [apply decode_total|apply decode_consumes]. Qed.
Print Assumptions C09_terminates_partial.
(** Crashes: a string or list size with the top bit set, or a node (relationship)
    whose id is not an integer, followed by anything. *)
Theorem C09_refuted : forall mk n r, 128 <= n <= 255 ->
  decode mk ([0xD0; n] ++ r) = DPanic /\ decode mk ([0xD4; n] ++ r) = DPanic /\
  decode mk ([0xB3; 0x4E; 0xC0] ++ r) = DPanic /\ decode mk ([0xB5; 0x52; 0xC0] ++ r) = DPanic.
Proof.
  intros mk n r H. unfold decode, decode_fuel.
  assert (E : forall r, rd_int 1 (n :: r) = DOk (n - 256) r).
  { intros x. pose proof (rd_int_be 1 n x ltac:(lia) ltac:(lia)) as E. 
    change (Z.to_nat 1) with 1%nat in E. rewrite be1_tiny in E by lia. exact E. }
  cbn [app length]. replace (3 * S (S (length r)) + 3)%nat with (S (S (3 * length r + 7))) by lia.
  replace (3 * S (S (S (length r))) + 3)%nat with (S (S (S (3 * length r + 9)))) by lia.
  split; [|split; [|split]].
  - rewrite dec_S. cbv zeta iota beta. change (dec mk (S ?f) (0xD0 :: n :: r)) with (dbind (rd_int 1 (n :: r)) next_str).
    cbn -[rd_int next_str]. rewrite E. cbn [dbind]. unfold next_str. now replace (n - 256 <? 0) with true by lia.
  - rewrite dec_S. cbn -[rd_int dec_slice]. rewrite E. cbn [dbind]. rewrite dec_slice_S. now replace (n - 256 <? 0) with true by lia.
  - rewrite dec_S. cbn -[dec_struct]. rewrite dec_struct_S. cbn -[dec]. rewrite dec_S. reflexivity.
  - rewrite dec_S. cbn -[dec_struct]. rewrite dec_struct_S. cbn -[dec]. rewrite dec_S. reflexivity.
Qed.
Print Assumptions C09_refuted.

(** * C10 (false for values ending in a string)
    Exactly: the cut is accepted when it removes no more than the string with
    which the encoding ends, and what is returned is the value with that string
    cut short by as many bytes. *)
Theorem C10_truncation_partial : forall mk v c d, decodable v -> wt v -> PS_half (denote v) (c ++ d) -> d <> [] ->
  match tail_str (denote v) with
  | Some s => if zlen d <=? zlen s then decode mk c = DOk (shorten (zlen d) v) [] else exists e, decode mk c = DErr e
  | None => exists e, decode mk c = DErr e
  end.
Proof. exact decode_cut. Qed.
Print Assumptions C10_truncation_partial.
(** Any string cut anywhere is accepted as a shorter string. *)
Theorem C10_refuted : forall mk s k, bytes_ok s -> signed_size (zlen s) -> 0 <= k < zlen s ->
  exists b c, Sent (VStr s) (b ++ c) /\ c <> [] /\ decode mk b = DOk (VStr (ztake k s)) [].
Proof.
  intros mk s k H HS Hk. exists (ztake (zlen (pstr s) - zlen s + k) (pstr s)), (zdrop (zlen (pstr s) - zlen s + k) (pstr s)).
  assert (HL : zlen s <= zlen (pstr s)) by (unfold pstr; zl; pose proof (zlen_nonneg (phdr 128 208 209 210 (zlen s))); lia).
  assert (B : zlen s < 2 ^ 32) by (unfold signed_size in HS; lia).
  split; [|split].
  - apply Sent_iff. cbn [enc]. rewrite ztake_zdrop, enc_str_bytes by assumption. split; [now apply enc_str_accepted|reflexivity].
  - intros E. apply (f_equal zlen) in E. rewrite zlen_zdrop in E by lia. zl. lia.
  - now apply str_truncated.
Qed.
Print Assumptions C10_refuted.
Example C10_example : decode true [0x92; 0x82; 104; 105; 1] = DOk (VSlice [VStr [104; 105]; VInt KInt64 1]) [] /\
  decode true [0x92; 0x82; 104; 105] = DErr DEMarkerEOF /\ decode true [0x91; 0x82; 104] = DOk (VSlice [VStr [104]]) [] /\
  shorten 1 (VSlice [VInt KInt64 1; VStr [104; 105]]) = VSlice [VInt KInt64 1; VStr [104]].
Proof. repeat split; reflexivity. Qed.

(** * C11 *)
Theorem C11_types : forall mk b v r, Forall is_byte b -> decode mk b = DOk v r -> decodable v /\ wt v.
Proof. exact decode_typed. Qed.
Print Assumptions C11_types.
Example C11_example : Forall is_byte [0xA1; 0x81; 107; 0xC8; 0x80] /\
  decode true [0xA1; 0x81; 107; 0xC8; 0x80] = DOk (VMap [([107], VInt KInt64 (-128))]) [].
Proof. split; [repeat (apply Forall_cons; [unfold is_byte; lia|]); apply Forall_nil|reflexivity]. Qed.

(** * C12 *)
Theorem C12_map_order : forall mk v v', wt v -> reorder v v' ->
  (Accepted v <-> Accepted v') /\
  (Transmissible v -> strings_le 65535 v ->
   snd (marshal v') = None /\ exists u, unmarshal mk (fst (marshal v')) = DVal u /\ reorder (canon v) u).
Proof.
  intros mk v v' W R. split.
  - rewrite !Accepted_iff. now apply reorder_accepted.
  - intros T S. now apply roundtrip_any_order.
Qed.
Print Assumptions C12_map_order.
(** In reordered maps every key finds the same value, up to the order inside it. *)
Theorem C12_lookup : forall m m' k, wtm m -> reorderm m m' ->
  match mget k m, mget k m' with None, None => True | Some a, Some b => reorder a b | _, _ => False end.
Proof. intros m m' k W R. destruct W. now apply reorderm_lookup. Qed.
Print Assumptions C12_lookup.
Example C12_example : exists v', reorder ex_v v' /\ v' <> ex_v /\ fst (marshal v') <> fst (marshal ex_v).
Proof.
  exists (VMap [([110], VNode 7 [[76]] [([112], VTSlice [VInt KInt16 300])]);
        ([107], VSlice [VInt KInt (-129); VInt KUint8 200; VF64 0; VStr [104; 105]; VNil; VBool true])]).
  split; [|split; [discriminate|vm_compute; discriminate]].
  apply ro_map. eapply ro_intro; [apply perm_swap|]. repeat constructor.
Qed.

(** * C13 *)
Theorem C13_framing : forall cs ws, 1 <= cs <= 65535 ->
  ((exists rest, Receives (framed cs ws) (concat ws) rest) <-> zlen (backlog cs ws) < 65536) /\
  (zlen (backlog cs ws) < 65536 -> Frame (concat ws) (framed cs ws)) /\
  (Forall (fun p => zlen p <= cs) ws -> zlen (backlog cs ws) < 65536).
Proof.
  intros cs ws H. split; [|split].
  - now apply framed_iff.
  - intros B. destruct (framed_ok cs ws H B) as (chs & _ & C & E). eexists. split; eassumption.
  - intros F. pose proof (backlog_small cs ws ltac:(lia) F). lia.
Qed.
Print Assumptions C13_framing.
(** [framed] and [backlog] are what Encode writes and has left before flush. *)
Theorem C13_framing_encode : forall cs v b, Sent v b -> 1 <= cs <= 65535 ->
  ((exists rest, Receives (wire_bytes cs v) b rest) <-> zlen (backlog cs (fst (enc v))) < 65536).
Proof.
  intros cs v b S H. apply Sent_iff in S. destruct S as [A ->]. unfold wire_bytes. rewrite encode_framed by assumption.
  cbn [fst]. rewrite concat_app. apply framed_iff. exact H.
Qed.
Print Assumptions C13_framing_encode.
Example C13_example : framed 3 [[1]; [2; 3; 4]; [5]] = [0; 3; 1; 2; 3; 0; 2; 4; 5; 0; 0] /\
  backlog 3 [[1]; [2; 3; 4]; [5]] = [4; 5].
Proof. split; reflexivity. Qed.

(** How many bytes are waiting in the buffer after writes of these lengths: each Write sends
    at most one chunk. *)
Fixpoint waiting_from (cs b : Z) (ls : list Z) : Z :=
  match ls with [] => b | l :: ls => waiting_from cs (if cs <=? b + l then b + l - cs else b + l) ls end.
Definition waiting (cs : Z) (ls : list Z) : Z := waiting_from cs 0 ls.
Lemma waiting_backlog cs ws : 0 <= cs -> zlen (backlog cs ws) = waiting cs (map zlen ws).
Proof.
  intros H. unfold backlog, waiting. change 0 with (zlen (@nil Z)). generalize (@nil Z) as buf.
  induction ws as [|p ws IH]; intros buf; cbn [chunk map waiting_from]; [reflexivity|].
  unfold ewrite. rewrite zlen_app. destruct (Z.leb_spec cs (zlen buf + zlen p)) as [L|L].
  - destruct (chunk cs (zdrop cs (buf ++ p)) ws) as [o b] eqn:E. cbn [snd]. change b with (snd (o, b)). rewrite <- E, IH. f_equal.
    rewrite zlen_zdrop by lia. rewrite zlen_app. lia.
  - destruct (chunk cs (buf ++ p) ws) as [o b] eqn:E. cbn [snd]. change b with (snd (o, b)). rewrite <- E, IH. f_equal. now rewrite zlen_app.
Qed.

(** * C14 (false below the maximal chunk size)
    All chunks are full ones, except the last, which is what was waiting: exactly when the
    bound holds. *)
Theorem C14_exact_partial : forall cs v b, 1 <= cs <= 65535 -> Sent v b ->
  ((exists chs, Chunks chs (wire_bytes cs v) /\ concat chs = b /\ Forall (fun c => zlen c <= cs) chs) <->
   waiting cs (map zlen (fst (enc v))) <= cs).
Proof.
  intros cs v b H S. rewrite <- waiting_backlog by lia. destruct (C13_framing_encode cs v b S H) as [R _].
  apply Sent_iff in S. destruct S as [A ->]. unfold wire_bytes in *. rewrite encode_framed in * by assumption. cbn [fst] in *. rewrite concat_app in *.
  change (concat (fst (chunk cs [] (fst (enc v)))) ++ concat (flush (snd (chunk cs [] (fst (enc v)))))) with (framed cs (fst (enc v))) in *.
  split.
  - intros (chs & C & E & F). assert (B : zlen (backlog cs (fst (enc v))) < 65536).
    { apply R. exists []. exists (framed cs (fst (enc v))). split; [now rewrite app_nil_r|]. now exists chs. }
    destruct (framed_ok cs _ H B) as (chs' & _ & C' & _).
    destruct (Chunks_unique _ _ C _ _ [] [] C' eq_refl) as [-> _]. apply Forall_app in F. destruct F as [_ F].
    unfold flush_chunks in F. destruct (backlog cs (fst (enc v))) as [|x l]; [change (zlen []) with 0; lia|]. now inversion F.
  - intros L. destruct (framed_ok cs (fst (enc v)) H ltac:(lia)) as (chs & F & C & E). eexists. split; [exact C|]. split; [exact E|].
    apply Forall_app. split; [revert F; apply Forall_impl; intros; lia|].
    unfold flush_chunks. destruct (backlog cs (fst (enc v))); constructor; [lia|constructor].
Qed.
Print Assumptions C14_exact_partial.
Theorem C14_chunk_bound_partial : forall cs v, 8 <= cs <= 65535 -> Accepted v -> strings_le cs v ->
  exists chs, Chunks chs (wire_bytes cs v) /\ Forall (fun c => zlen c <= cs) chs.
Proof.
  intros cs v H A S. apply Accepted_iff in A. unfold wire_bytes. rewrite encode_framed by assumption. cbn [fst]. rewrite concat_app.
  destruct (framed_small cs (fst (enc v)) ltac:(lia) (enc_short_writes cs v ltac:(lia) S)) as (chs & C & _ & F). now exists chs.
Qed.
Print Assumptions C14_chunk_bound_partial.
Theorem C14_refuted : forall cs, 1 <= cs <= 65534 ->
  exists v chs c, wt v /\ Accepted v /\ Chunks chs (wire_bytes cs v) /\ In c chs /\ cs < zlen c.
Proof.
  intros cs H. destruct (chunk_too_big cs H) as (v & chs & c & W & A & R). exists v, chs, c. rewrite Accepted_iff. tauto.
Qed.
Print Assumptions C14_refuted.
Example C14_example : Accepted ex_v /\ strings_le 8 ex_v /\ zlen (wire_bytes 8 ex_v) = 51.
Proof. split; [eexists; eexists; split; reflexivity|]. split; [apply ex_strings; lia|reflexivity]. Qed.

(** * C15 (false)
    One frame for the message, and nothing else: exactly when what was waiting fits a chunk. *)
Theorem C15_exact_partial : forall cs v b, 1 <= cs <= 65535 -> Sent v b ->
  (Frame b (wire_bytes cs v) <-> waiting cs (map zlen (fst (enc v))) < 65536).
Proof.
  intros cs v b H S. rewrite <- waiting_backlog by lia. destruct (C13_framing_encode cs v b S H) as [R _]. split.
  - intros F. apply R. exists []. exists (wire_bytes cs v). split; [now rewrite app_nil_r|exact F].
  - intros B. apply Sent_iff in S. destruct S as [A ->]. unfold wire_bytes. rewrite encode_framed by assumption. cbn [fst]. rewrite concat_app.
    now apply (C13_framing cs (fst (enc v)) H).
Qed.
Print Assumptions C15_exact_partial.
(** Chunk size 2 and a string of five bytes: the last chunk is twice as long. *)
Example C15_example_exact : map zlen (fst (enc (VStr [1; 2; 3; 4; 5]))) = [1; 5] /\ waiting 3 [1; 5] = 3 /\ waiting 2 [1; 5] = 4 /\
  wire_bytes 2 (VStr [1; 2; 3; 4; 5]) = [0; 2; 0x85; 1; 0; 4; 2; 3; 4; 5; 0; 0].
Proof. vm_compute. repeat split. Qed.
Theorem C15_terminator_partial : forall cs v b, 8 <= cs <= 65535 -> Sent v b -> strings_le cs v -> Frame b (wire_bytes cs v).
Proof.
  intros cs v b H S L. apply Sent_iff in S. destruct S as [A ->]. unfold wire_bytes. rewrite encode_framed by assumption. cbn [fst].
  rewrite concat_app. destruct (framed_small cs (fst (enc v)) ltac:(lia) (enc_short_writes cs v ltac:(lia) L)) as (chs & C & E & _).
  exists chs. now split.
Qed.
Print Assumptions C15_terminator_partial.
(** Chunk size 0: the receiver sees an empty message first, whatever is sent. *)
Theorem C15_refuted_zero : forall v, Accepted v -> exists rest, rest <> [] /\ Receives (wire_bytes 0 v) [] rest.
Proof. intros v A. apply zero_chunk. now apply Accepted_iff. Qed.
Print Assumptions C15_refuted_zero.
(** Any useful chunk size: some message appears to end after its first chunk. *)
Theorem C15_refuted : forall cs, 6 <= cs <= 65535 ->
  exists v b msg rest, wt v /\ Sent v b /\ Receives (wire_bytes cs v) msg rest /\ rest <> [] /\
    zlen msg = cs /\ zlen b = cs + 65536.
Proof.
  intros cs H. destruct (early_terminator cs H) as (v & msg & rest & W & A & R & N & L & E).
  exists v, (wbytes (enc v)), msg, rest. rewrite Sent_iff. tauto.
Qed.
Print Assumptions C15_refuted.
Example C15_example : Sent (VStr [104; 105]) [0x82; 104; 105] /\ wire_bytes 65535 (VStr [104; 105]) = [0; 3; 0x82; 104; 105; 0; 0].
Proof. split; [eexists; split; reflexivity|reflexivity]. Qed.

(** * C16 *)
Theorem C16_segmentation : forall mk r1 r2, segs_ok r1 -> segs_ok r2 -> Forall is_byte (rbytes r1) -> rbytes r1 = rbytes r2 ->
  fst (Decode mk r1) = fst (Decode mk r2) /\ rbytes (snd (Decode mk r1)) = rbytes (snd (Decode mk r2)).
Proof. exact decode_segmentation. Qed.
Print Assumptions C16_segmentation.
Theorem C16_messages_in_order : forall mk cs vs rest r, 8 <= cs <= 65535 ->
  Forall (fun v => wt v /\ Transmissible v /\ strings_le cs v) vs -> Forall is_byte rest ->
  segs_ok r -> rbytes r = concat (map (wire_bytes cs) vs) ++ rest ->
  fst (Decodes mk (length vs) r) = map (fun v => DVal (canon v)) vs /\
  rbytes (snd (Decodes mk (length vs) r)) = rest.
Proof. intros. now apply (decode_stream mk cs). Qed.
Print Assumptions C16_messages_in_order.
Example C16_example :
  let r1 := [RData [0]; RData [3; 0x82]; RData [104]; RData [105; 0]; RData [0; 9]] in
  let r2 := [RData [0; 3; 0x82; 104; 105; 0; 0; 9]] in
  segs_ok r1 /\ segs_ok r2 /\ rbytes r1 = rbytes r2 /\ Decode true r1 = (DVal (VStr [104; 105]), [RData [9]]).
Proof.
  cbv zeta. assert (K : forall x l, seg_ok (RData (x :: l))) by (intros; eexists; split; [reflexivity|discriminate]).
  split; [repeat constructor; apply K|]. split; [repeat constructor; apply K|]. split; reflexivity.
Qed.

(** * C17 *)
Theorem C17_write_failure : forall cs v o s' r,
  encode_io cs v {| wire := []; orc := o; calls := 0 |} = (s', r) ->
  (exists more, wire_bytes cs v = wire s' ++ more) /\
  match r with
  | EncOk => snd (encode cs v) = None /\ wire s' = wire_bytes cs v /\ all_fine o (calls s')
  | EncRejected e => snd (encode cs v) = Some e /\ wire s' = wire_bytes cs v /\ all_fine o (calls s')
  | EncIOError => (* the last write attempted is the first that failed *)
      1 <= calls s' /\ all_fine o (calls s' - 1) /\ exists k, nth (Z.to_nat (calls s' - 1)) o None = Some k
  end.
Proof. intros cs v o s' r E. destruct (encode_io_spec cs v o s' r E) as (P & _ & R). split; [exact P|exact R]. Qed.
Print Assumptions C17_write_failure.
Example C17_example : encode_io 65535 (VStr [104; 105]) {| wire := []; orc := [None; Some 1]; calls := 0 |} =
  ({| wire := [0; 3; 0x82]; orc := []; calls := 2 |}, EncIOError).
Proof. reflexivity. Qed.

(** * C18 (true below one chunk, false above) *)
Theorem C18_rejected_partial : forall cs v, 1 <= cs -> ~ Accepted v ->
  (wire_bytes cs v = [] <-> zlen (concat (fst (enc v))) < cs).
Proof. intros cs v H A. rewrite Accepted_iff in A. now apply rejected_silent_iff. Qed.
Print Assumptions C18_rejected_partial.
(** For every chunk size some rejected value leaves an unterminated message on
    the wire, which swallows the next message [ws]. *)
Theorem C18_refuted : forall cs, 1 <= cs <= 65535 ->
  exists v, wt v /\ ~ Accepted v /\ wire_bytes cs v <> [] /\
    (forall m r, ~ Receives (wire_bytes cs v) m r) /\
    forall v2 b2, 8 <= cs -> Sent v2 b2 -> strings_le cs v2 ->
      exists part, part <> [] /\ Frame (part ++ b2) (wire_bytes cs v ++ wire_bytes cs v2).
Proof.
  intros cs H. set (v := VSlice [VStr (zeros cs); VOther]). exists v.
  assert (L : zlen (zeros cs) = cs) by (apply zlen_zeros; lia).
  assert (R : ~ accepted (enc v)).
  { unfold v. cbn [enc map]. rewrite enc_slice_accepted. intros [_ F]. inversion F as [|? ? _ F2]; subst. inversion F2 as [|? ? F3 _]; subst.
    now apply werr_accepted in F3. }
  assert (AS : accepted (enc_str (zeros cs))) by (apply enc_str_accepted; lia).
  assert (LB : cs <= zlen (wbytes (enc v))).
  { change (enc v) with (wseq (wok [[wrapu 8 (0x90 + 2)]]) (wseqs [enc_str (zeros cs); werr EUnrecognized])).
    rewrite wseq_bytes by reflexivity. cbn [wseqs]. rewrite wseq_bytes by assumption. rewrite enc_str_bytes by lia.
    unfold pstr. rewrite !zlen_app, L.
    repeat match goal with |- context [zlen ?x] => pose proof (zlen_nonneg x); generalize dependent (zlen x); intros end.
    lia. }
  split; [|split; [|split; [|split]]].
  - constructor. constructor; [apply wt_zeros|]. repeat constructor.
  - now rewrite Accepted_iff.
  - intros E. apply rejected_silent_iff in E; [lia|lia|assumption].
  - destruct (rejected_merges cs v [] H R ltac:(cbn; lia)) as [N _]. exact N.
  - intros v2 b2 H8 S2 L2. apply Sent_iff in S2. destruct S2 as [A2 ->].
    destruct (rejected_merges cs v (fst (enc v2)) H R) as (_ & part & _ & P & F).
    + pose proof (framed_backlog cs v2 H8 L2). lia.
    + exists part. split.
      * intros E. apply P in E. apply rejected_silent_iff in E; [lia|lia|assumption].
      * unfold wire_bytes at 2. rewrite encode_framed by assumption. cbn [fst]. rewrite concat_app. exact F.
Qed.
Print Assumptions C18_refuted.
Example C18_example : let v := VSlice [VStr [104; 105]; VOther] in
  ~ Accepted v /\ wire_bytes 65535 v = [] /\ wire_bytes 4 v = [0; 4; 0x92; 0x82; 104; 105].
Proof. cbv zeta. split; [|split; reflexivity]. rewrite Accepted_iff. intros H. discriminate H. Qed.

(** * C19 *)
Theorem C19_chunk_size_independent : forall mk cs1 cs2 v r1 r2 rest1 rest2,
  wt v -> Transmissible v -> 1 <= cs1 <= 65535 -> 1 <= cs2 <= 65535 ->
  zlen (backlog cs1 (fst (enc v))) < 65536 -> zlen (backlog cs2 (fst (enc v))) < 65536 ->
  segs_ok r1 -> segs_ok r2 -> Forall is_byte rest1 -> Forall is_byte rest2 ->
  rbytes r1 = wire_bytes cs1 v ++ rest1 -> rbytes r2 = wire_bytes cs2 v ++ rest2 ->
  fst (Decode mk r1) = DVal (canon v) /\ fst (Decode mk r2) = DVal (canon v) /\
  rbytes (snd (Decode mk r1)) = rest1 /\ rbytes (snd (Decode mk r2)) = rest2.
Proof.
  intros mk cs1 cs2 v r1 r2 x1 x2 W T H1 H2 B1 B2 S1 S2 F1 F2 E1 E2.
  assert (A : accepted (enc v)) by now apply trans_accepted.
  unfold wire_bytes in *. rewrite encode_framed in E1, E2 by assumption. cbn [fst] in *. rewrite concat_app in E1, E2.
  destruct (receive_framed mk cs1 v r1 x1 W T H1 B1 S1 F1 E1) as (r1' & D1 & _ & Q1).
  destruct (receive_framed mk cs2 v r2 x2 W T H2 B2 S2 F2 E2) as (r2' & D2 & _ & Q2).
  rewrite D1, D2. now repeat split.
Qed.
Print Assumptions C19_chunk_size_independent.
Theorem C19_same_message : forall cs1 cs2 v b, Sent v b -> 1 <= cs1 <= 65535 -> 1 <= cs2 <= 65535 ->
  zlen (backlog cs1 (fst (enc v))) < 65536 -> zlen (backlog cs2 (fst (enc v))) < 65536 ->
  Frame b (wire_bytes cs1 v) /\ Frame b (wire_bytes cs2 v).
Proof.
  intros cs1 cs2 v b S H1 H2 B1 B2. apply Sent_iff in S. destruct S as [A ->]. unfold wire_bytes.
  rewrite !encode_framed by assumption. cbn [fst]. rewrite !concat_app. split; now apply C13_framing.
Qed.
Print Assumptions C19_same_message.
Example C19_example : wire_bytes 2 (VStr [104; 105]) = [0; 2; 0x82; 104; 0; 1; 105; 0; 0] /\
  Decode true [RData (wire_bytes 2 (VStr [104; 105]))] = Decode true [RData (wire_bytes 9 (VStr [104; 105]))].
Proof. split; reflexivity. Qed.

(** * C53 float32 values keep their value *)
Theorem C53_float32 : forall b, 0 <= b < 2 ^ 32 ->
  exists x, denote (VF32 b) = PFloat x /\ 0 <= x < 2 ^ 64 /\
  (f32_finite b -> f64_finite x /\ f64_value x = f32_value b /\ x / 2 ^ 63 = b / 2 ^ 31) /\
  (~ f32_finite b -> ~ f64_finite x /\ x / 2 ^ 63 = b / 2 ^ 31 /\ (x mod 2 ^ 52 = 0 <-> b mod 2 ^ 23 = 0)).
Proof.
  intros b H. exists (f32_to_f64 b). split; [reflexivity|]. split; [now apply f32_range|]. split; intros F.
  - now apply f32_exact.
  - now apply f32_special.
Qed.
Print Assumptions C53_float32.
(** 1.5 as float32 is sent as 1.5. *)
Example C53_example : f32_finite 0x3FC00000 /\ f32_to_f64 0x3FC00000 = 0x3FF8000000000000 /\
  f32_value 0x3FC00000 = 3 * 2 ^ 1073.
Proof. split; [vm_compute; discriminate|]. split; vm_compute; reflexivity. Qed.
