(** Values that do not survive the round trip, integers that change, inputs
    that crash; exactness of the float32 conversion. *)
From Coq Require Import ZArith List Bool Lia.
From Coq Require Import ZifyBool.
From Verif Require Import GoPrims Value PackSpec PrimLemmas Encoder EncoderProofs PackProofs
  Decoder DecoderProofs RoundTrip Framing CodecProofs CodecIO.
Import ListNotations.
Open Scope Z_scope.

Definition of_dres (x : dres goval) : dout :=
  match x with DOk v _ => DVal v | DErr e => DFail e | DPanic => DCrash | DFuel => DHang end.

Lemma delivered mk v : wt v -> accepted (enc v) -> zlen (backlog 65535 (fst (enc v))) < 65536 ->
  unmarshal mk (fst (marshal v)) = of_dres (decode mk (wbytes (enc v))).
Proof.
  intros W A HB. rewrite marshal_framed by assumption. cbn [fst]. unfold unmarshal, Decode.
  destruct (framed_ok 65535 _ ltac:(lia) HB) as (chs & _ & HC & EC).
  destruct (read_msg_receives [RData (framed 65535 (fst (enc v)))] (concat (fst (enc v))) []) as (r' & ER & _).
  - constructor; [|constructor]. eexists; split; [reflexivity|]. apply framed_nonempty.
  - unfold rbytes. rewrite app_nil_r. apply framed_bytes. now apply enc_is_bytes.
  - exists (framed 65535 (fst (enc v))). split; [reflexivity|]. eexists; split; eassumption.
  - rewrite ER. unfold wbytes. destruct (decode mk (concat (fst (enc v)))); reflexivity.
Qed.

Lemma rd_int_be k n r : 0 < k -> 2 ^ (8 * k - 1) <= n < 2 ^ (8 * k) ->
  rd_int k (be (Z.to_nat k) n ++ r) = DOk (n - 2 ^ (8 * k)) r.
Proof.
  intros Hk Hn. assert (P : 0 < 2 ^ (8 * k - 1)) by (apply Z.pow_pos_nonneg; lia).
  assert (B : BE k n (be (Z.to_nat k) n)) by (apply BE_small; [lia|rewrite pow256 by lia; lia]).
  unfold rd_int. rewrite rd_app by (apply (BE_len _ _ _ B)). cbn [dbind]. unfold sbe.
  rewrite (BE_len _ _ _ B), (BE_ube _ _ _ B). rewrite wraps_high by lia. reflexivity.
Qed.

Section Mk.
Variable mk : bool.


Ltac neg_hdr H f x n :=
  unfold bad_size in H; unfold phdr; replace (n <=? 15) with false by lia;
  destruct (Z.leb_spec n 255); [|destruct (Z.leb_spec n 65535)]; cbn [app]; rewrite dec_S; cbv zeta beta iota;
  [ exists (n - 2 ^ (8 * 1)) | exists (n - 2 ^ (8 * 2)) | exists (n - 2 ^ (8 * 4)) ]; (split; [lia|]);
  [ change (be 1 n) with (be (Z.to_nat 1) n) | change (be 2 n) with (be (Z.to_nat 2) n) | change (be 4 n) with (be (Z.to_nat 4) n) ];
  rewrite rd_int_be by lia; reflexivity.

Lemma str_neg f n x : bad_size n -> exists size, size < 0 /\
  dec mk (S f) (phdr 0x80 0xD0 0xD1 0xD2 n ++ x) = next_str size x.
Proof. intros H. neg_hdr H f x n. Qed.
Lemma list_neg f n x : bad_size n -> exists size, size < 0 /\
  dec mk (S f) (phdr 0x90 0xD4 0xD5 0xD6 n ++ x) = dec_slice mk f size x.
Proof. intros H. neg_hdr H f x n. Qed.
Lemma map_neg f n x : bad_size n -> exists size, size < 0 /\
  dec mk (S f) (phdr 0xA0 0xD8 0xD9 0xDA n ++ x) = dec_map mk f size x.
Proof. intros H. neg_hdr H f x n. Qed.

Lemma str_crash s r : bad_size (zlen s) -> decode mk (pstr s ++ r) = DPanic.
Proof.
  intros H. unfold decode, decode_fuel. replace (3 * length (pstr s ++ r) + 3)%nat with (S (3 * length (pstr s ++ r) + 2)) by lia.
  unfold pstr at 2. rewrite <- app_assoc.
  destruct (str_neg (3 * length (pstr s ++ r) + 2) (zlen s) (s ++ r) H) as (size & Hs & ->).
  unfold next_str. now replace (size <? 0) with true by lia.
Qed.

Lemma list_crash l r : bad_size (zlen l) -> decode mk (penc (PList l) ++ r) = DPanic.
Proof.
  intros H. unfold decode, decode_fuel.
  replace (3 * length (penc (PList l) ++ r) + 3)%nat with (S (S (3 * length (penc (PList l) ++ r) + 1))) by lia.
  generalize (3 * length (penc (PList l) ++ r) + 1)%nat. intros f. cbn [penc]. rewrite <- app_assoc.
  destruct (list_neg (S f) (zlen l) (concat (map penc l) ++ r) H) as (size & Hs & ->).
  rewrite dec_slice_S. now replace (size <? 0) with true by lia.
Qed.

Lemma map_crash m r : bad_size (zlen m) ->
  decode mk (penc (PMap m) ++ r) =
  if mk then DPanic else DOk (VMap []) (concat (map (fun kv => pstr (fst kv) ++ penc (snd kv)) m) ++ r).
Proof.
  intros H. unfold decode, decode_fuel.
  replace (3 * length (penc (PMap m) ++ r) + 3)%nat with (S (S (S (3 * length (penc (PMap m) ++ r))))) by lia.
  generalize (3 * length (penc (PMap m) ++ r))%nat. intros f. cbn [penc]. rewrite <- app_assoc.
  destruct (map_neg (S (S f)) (zlen m) (concat (map (fun kv => pstr (fst kv) ++ penc (snd kv)) m) ++ r) H) as (size & Hs & ->).
  rewrite dec_map_S. replace (size <? 0) with true by lia. cbn [andb]. destruct mk; [reflexivity|].
  rewrite dec_m_S. now replace (size <=? 0) with true by lia.
Qed.

(** C07 *)
Lemma sub_ints_str s : no_big_uint (VStr s).
Proof. intros z H. inversion H; subst; discriminate. Qed.

Lemma str_not_roundtrip s : wt (VStr s) -> bad_size (zlen s) -> zlen s <= 65535 ->
  snd (marshal (VStr s)) = None /\ unmarshal mk (fst (marshal (VStr s))) = DCrash.
Proof.
  intros W H HL. assert (A : accepted (enc (VStr s))) by (cbn [enc]; apply enc_str_accepted; lia).
  split; [now rewrite marshal_framed|]. rewrite delivered; trivial.
  - rewrite enc_penc by (trivial; apply sub_ints_str). cbn [denote penc].
    pose proof (str_crash s [] H) as E. rewrite app_nil_r in E. now rewrite E.
  - pose proof (backlog_small 65535 (fst (enc (VStr s))) ltac:(lia)) as B.
    assert (F : Forall (fun p => zlen p <= 65535) (fst (enc (VStr s)))); [|specialize (B F); lia].
    apply enc_short_writes; [lia|]. intros w Hw. inversion Hw; subst; try discriminate. exact HL.
Qed.

Lemma list_not_roundtrip l : wt (VSlice l) -> no_big_uint (VSlice l) -> accepted (enc (VSlice l)) ->
  bad_size (zlen l) -> zlen (backlog 65535 (fst (enc (VSlice l)))) < 65536 ->
  snd (marshal (VSlice l)) = None /\ unmarshal mk (fst (marshal (VSlice l))) = DCrash.
Proof.
  intros W N A H HB. split; [now rewrite marshal_framed|]. rewrite delivered by trivial.
  rewrite enc_penc by trivial. cbn [denote].
  pose proof (list_crash (map denote l) []) as E. rewrite zlen_map, app_nil_r in E. now rewrite E.
Qed.

Lemma map_not_roundtrip m : wt (VMap m) -> no_big_uint (VMap m) -> accepted (enc (VMap m)) ->
  bad_size (zlen m) -> zlen (backlog 65535 (fst (enc (VMap m)))) < 65536 ->
  snd (marshal (VMap m)) = None /\
  unmarshal mk (fst (marshal (VMap m))) = if mk then DCrash else DVal (VMap []).
Proof.
  intros W N A H HB. split; [now rewrite marshal_framed|]. rewrite delivered by trivial.
  rewrite enc_penc by trivial. cbn [denote].
  pose proof (map_crash (map (fun kv => (fst kv, denote (snd kv))) m) []) as E. rewrite zlen_map, app_nil_r in E.
  rewrite E by assumption. now destruct mk.
Qed.

(** A string of 64 KiB or more needs a five byte header. *)
Lemma struct_not_str d sig r s r' : (forall b v x, d b = DOk v x -> True) -> struct_body d sig r <> DOk (VStr s) r'.
Proof.
  intros _. unfold struct_body.
  repeat match goal with |- context [if ?c then _ else _] => destruct c end;
    unfold dbind, as_int64, as_str, as_map, as_slice;
    repeat match goal with |- context [match ?x with _ => _ end] => destruct x end; discriminate.
Qed.

Lemma next_str_ok n b v r : next_str n b = DOk v r -> exists s, v = VStr s /\ zlen s <= n /\ zlen s <= zlen b.
Proof.
  unfold next_str. destruct (Z.ltb_spec n 0); [discriminate|]. intros E. injection E as <- <-. eexists. split; [reflexivity|].
  rewrite zlen_ztake by lia. lia.
Qed.
Lemma rd_int_next k b v r : 0 < k -> dbind (rd_int k b) next_str = DOk v r -> exists s, v = VStr s /\ zlen s < 2 ^ (8 * k - 1) /\ zlen s + k <= zlen b.
Proof.
  intros Hk. unfold rd_int, rd. destruct (Z.ltb_spec (zlen b) k); [discriminate|]. cbn [dbind]. intros E.
  apply next_str_ok in E. destruct E as (s & -> & H1 & H2). exists s. split; [reflexivity|].
  rewrite zlen_zdrop in H2 by lia. split; [|lia]. unfold sbe in H1. rewrite zlen_ztake in H1 by lia.
  rewrite Z.min_l in H1 by lia. pose proof (wraps_range (8 * k) (ube (ztake k b)) ltac:(lia)). lia.
Qed.

Lemma decode_long_str b s r : decode mk b = DOk (VStr s) r -> 65536 <= zlen s -> zlen s + 5 <= zlen b.
Proof.
  unfold decode, decode_fuel. replace (3 * length b + 3)%nat with (S (S (S (3 * length b)))) by lia.
  generalize (3 * length b)%nat. intros f. rewrite dec_S. destruct b as [|m b]; [discriminate|]. cbv zeta.
  assert (SL : forall g n b, dec_slice mk g n b <> DOk (VStr s) r).
  { intros [|g] n b'; [discriminate|]. rewrite dec_slice_S. destruct (n <? 0); [discriminate|].
    destruct (dec_n mk g n b'); discriminate. }
  assert (SM : forall g n b, dec_map mk g n b <> DOk (VStr s) r).
  { intros [|g] n b'; [discriminate|]. rewrite dec_map_S. destruct ((n <? 0) && mk); [discriminate|].
    destruct (dec_m mk g n [] b'); discriminate. }
  assert (SS : forall g b, dec_struct mk g b <> DOk (VStr s) r).
  { intros [|g] b'; [discriminate|]. destruct b' as [|x b']; [rewrite dec_struct_nil; discriminate|].
    rewrite dec_struct_S. apply struct_not_str. trivial. }
  zl. intros E HL.
  assert (RI : forall k (g : Z -> bytes -> dres goval), (forall z x, g z x <> DOk (VStr s) r) -> dbind (rd_int k b) g <> DOk (VStr s) r).
  { intros k g Hg. destruct (rd_int k b); cbn; try discriminate. apply Hg. }
  assert (RC : forall k (g : Z -> bytes -> dres goval), (forall z x, g z x <> DOk (VStr s) r) -> dbind (rd_int_scalar k b) g <> DOk (VStr s) r).
  { intros k g Hg. destruct (rd_int_scalar k b); cbn; try discriminate. apply Hg. }
  repeat match type of E with (if ?c then _ else _) = _ => destruct c eqn:? end; try discriminate;
    try (exfalso; revert E; apply RC; discriminate); try (now apply SL in E); try (now apply SM in E); try (now apply SS in E);
    try (exfalso; revert E; apply RI; intros; first [apply SL|apply SM|apply SS|discriminate]).
  - exfalso. revert E. unfold rd_scalar, rd. destruct (zlen b =? 0), (zlen b <? 8); discriminate.
  - injection E as <- _. cbn in HL. lia.
  - apply next_str_ok in E. destruct E as (s' & E & H1 & _). injection E as <-. lia.
  - apply rd_int_next in E; [|lia]. destruct E as (s' & E & H1 & _). injection E as <-. lia.
  - apply rd_int_next in E; [|lia]. destruct E as (s' & E & H1 & _). injection E as <-. lia.
  - apply rd_int_next in E; [|lia]. destruct E as (s' & E & H1 & H2). injection E as <-. lia.
Qed.

(** C07: long strings *)
Lemma long_str_not_roundtrip s : wt (VStr s) -> 131066 <= zlen s < 2 ^ 32 ->
  snd (marshal (VStr s)) = None /\ unmarshal mk (fst (marshal (VStr s))) <> DVal (VStr s).
Proof.
  intros W H. assert (A : accepted (enc (VStr s))) by (cbn [enc]; apply enc_str_accepted; lia).
  rewrite marshal_framed by assumption. split; [reflexivity|]. cbn [fst].
  set (w := framed 65535 (fst (enc (VStr s)))).
  assert (LW : zlen w = zlen s + 11).
  { unfold w, framed, backlog. destruct (backlog_str32 65535 s) as (b & E & _ & L); try lia. rewrite E. cbn [fst snd].
    unfold flush. replace (0 <? zlen b) with true by lia. cbn [concat app]. rewrite !app_nil_r. zl. rewrite !zlen_be.
    rewrite zlen_ztake by lia. zl. rewrite zlen_be. lia. }
  unfold unmarshal, Decode.
  destruct (read_msg_spec [RData w]) as [(msg & rest & r' & HR & ER & _)|[_ ER]].
  - constructor; [|constructor]. eexists; split; [reflexivity|]. apply framed_nonempty.
  - unfold rbytes. rewrite app_nil_r. apply framed_bytes. now apply enc_is_bytes.
  - rewrite ER. destruct (decode mk msg) as [v x|e| |] eqn:ED; cbn [fst]; try discriminate. intros EV. injection EV as ->.
    apply decode_long_str in ED; [|lia].
    destruct HR as (w1 & E1 & chs & HC & EM). unfold rbytes in E1. rewrite app_nil_r in E1.
    destruct (Chunks_len _ _ HC) as [HL HF]. rewrite EM in HL.
    assert (HW1 : zlen w1 <= zlen s + 11) by (rewrite <- LW, E1; zl; pose proof (zlen_nonneg rest); lia).
    destruct (Z.le_gt_cases 3 (zlen chs)) as [H3|H3]; [lia|].
    assert (zlen msg <= 131070); [|lia]. rewrite <- EM.
    destruct chs as [|c1 [|c2 [|c3 chs]]]; zl.
    + cbn. lia.
    + inversion HF; subst. cbn [concat]. zl. cbn. lia.
    + inversion HF as [|? ? F1 F2]; subst. inversion F2; subst. cbn [concat]. zl. lia.
    + pose proof (zlen_nonneg chs). lia.
  - rewrite ER. discriminate.
Qed.
End Mk.

(** C04 *)
Lemma kint_wire k z : wt (VInt k z) -> accepted (enc (VInt k z)) -> (k = KUint -> z < 2 ^ 63) ->
  PS (PInt z) (wbytes (enc (VInt k z))).
Proof.
  intros W A H. change (PInt z) with (denote (VInt k z)). apply enc_conforms; trivial.
  intros z' Hz. inversion Hz; subst; [now apply H|discriminate].
Qed.

Lemma big_uint_wire z : 2 ^ 63 <= z < 2 ^ 64 ->
  accepted (enc (VInt KUint z)) /\ PS (PInt (z - 2 ^ 64)) (wbytes (enc (VInt KUint z))).
Proof.
  intros H. cbn [enc]. unfold enc_kint. rewrite wraps_high by lia.
  destruct (enc_int_ok (z - 2 ^ 64)) as [A B]; [lia|]. split; [exact A|]. rewrite B. apply pint_PS. lia.
Qed.

Lemma bits64 s e m : 0 <= s < 2 -> 0 <= e < 2048 -> 0 <= m < 2 ^ 52 ->
  let b := s * 2 ^ 63 + (e * 2 ^ 52 + m) in
  b / 2 ^ 63 = s /\ (b / 2 ^ 52) mod 2 ^ 11 = e /\ b mod 2 ^ 52 = m.
Proof.
  intros Hs He Hm b. unfold b. split; [|split].
  - symmetry. apply (Z.div_unique _ _ s (e * 2 ^ 52 + m)); lia.
  - replace ((s * 2 ^ 63 + (e * 2 ^ 52 + m)) / 2 ^ 52) with (s * 2 ^ 11 + e).
    + symmetry. apply (Z.mod_unique _ _ s e); lia.
    + apply (Z.div_unique _ _ _ m); lia.
  - symmetry. apply (Z.mod_unique _ _ (s * 2 ^ 11 + e) m); lia.
Qed.

Lemma f32_exact b : 0 <= b < 2 ^ 32 -> f32_finite b ->
  f64_finite (f32_to_f64 b) /\ f64_value (f32_to_f64 b) = f32_value b /\ f32_to_f64 b / 2 ^ 63 = b / 2 ^ 31.
Proof.
  intros Hb HF. unfold f64_finite, f64_value, f32_value, f32_finite, f32_to_f64 in *. cbv zeta.
  assert (Hs : 0 <= b / 2 ^ 31 < 2) by (split; [apply Z.div_pos; lia|apply Z.div_lt_upper_bound; lia]).
  assert (He : 0 <= (b / 2 ^ 23) mod 2 ^ 8 < 256) by (apply Z.mod_pos_bound; lia).
  assert (Hm : 0 <= b mod 2 ^ 23 < 2 ^ 23) by (apply Z.mod_pos_bound; lia).
  set (s := b / 2 ^ 31) in *. set (e := (b / 2 ^ 23) mod 2 ^ 8) in *. set (m := b mod 2 ^ 23) in *.
  clearbody s e m. clear Hb b.
  replace (e =? 255) with false by lia. destruct (Z.eqb_spec e 0) as [->|Ne].
  - destruct (Z.eqb_spec m 0) as [->|Nm].
    + destruct (bits64 s 0 0) as (E1 & E2 & E3); try lia. cbv zeta in *. change (0 * 2 ^ 52 + 0) with 0 in *.
      rewrite E1, E2, E3. split; [lia|]. split; [|reflexivity]. change (0 =? 0) with true. cbv iota. lia.
    + assert (Hk : 0 <= Z.log2 m <= 22).
      { split; [apply Z.log2_nonneg|]. assert (Z.log2 m < 23); [|lia]. apply Z.log2_lt_pow2; lia. }
      pose proof (Z.log2_spec m ltac:(lia)) as HS. set (k := Z.log2 m) in *. clearbody k.
      rewrite Z.pow_succ_r in HS by lia.
      assert (HP : 2 ^ k * 2 ^ (52 - k) = 2 ^ 52) by (rewrite <- Z.pow_add_r by lia; f_equal; lia).
      assert (HPos : 0 < 2 ^ (52 - k)) by (apply Z.pow_pos_nonneg; lia).
      destruct (bits64 s (k + 874) ((m - 2 ^ k) * 2 ^ (52 - k))) as (E1 & E2 & E3); try lia; [nia|]. cbv zeta in *.
      rewrite E1, E2, E3. split; [lia|]. split; [|reflexivity].
      replace (k + 874 =? 0) with false by lia.
      replace (2 ^ 52 + (m - 2 ^ k) * 2 ^ (52 - k)) with (m * 2 ^ (52 - k)) by nia.
      rewrite <- !Z.mul_assoc. f_equal. f_equal. rewrite <- Z.pow_add_r by lia. f_equal. lia.
  - destruct (bits64 s (e + 896) (m * 2 ^ 29)) as (E1 & E2 & E3); try lia. cbv zeta in *.
    rewrite E1, E2, E3. split; [lia|]. split; [|reflexivity].
    replace (e + 896 =? 0) with false by lia.
    replace (2 ^ 52 + m * 2 ^ 29) with ((2 ^ 23 + m) * 2 ^ 29) by lia.
    rewrite <- !Z.mul_assoc. f_equal. f_equal. rewrite <- !Z.pow_add_r by lia. f_equal. lia.
Qed.

(** Infinities stay infinities with their sign and NaNs stay NaNs. *)
Lemma f32_special b : 0 <= b < 2 ^ 32 -> ~ f32_finite b ->
  let x := f32_to_f64 b in
  ~ f64_finite x /\ x / 2 ^ 63 = b / 2 ^ 31 /\ (x mod 2 ^ 52 = 0 <-> b mod 2 ^ 23 = 0).
Proof.
  intros Hb HF. unfold f64_finite, f32_finite, f32_to_f64 in *. cbv zeta.
  assert (Hs : 0 <= b / 2 ^ 31 < 2) by (split; [apply Z.div_pos; lia|apply Z.div_lt_upper_bound; lia]).
  assert (Hm : 0 <= b mod 2 ^ 23 < 2 ^ 23) by (apply Z.mod_pos_bound; lia).
  assert (He : (b / 2 ^ 23) mod 2 ^ 8 = 255) by lia. rewrite He.
  set (s := b / 2 ^ 31) in *. set (m := b mod 2 ^ 23) in *. clearbody s m.
  change (255 =? 255) with true. cbv iota. destruct (Z.eqb_spec m 0) as [->|Nm].
  - destruct (bits64 s 2047 0) as (E1 & E2 & E3); try lia. cbv zeta in *. rewrite Z.add_0_r in *. rewrite E1, E2, E3. lia.
  - set (x := Z.lor (2 ^ 51) (m * 2 ^ 29)).
    assert (Hx : 0 < x < 2 ^ 52).
    { assert (0 <= x) by (apply Z.lor_nonneg; lia).
      assert (x <> 0) by (intros E; apply Z.lor_eq_0_iff in E; lia). split; [lia|].
      apply Z.log2_lt_pow2; [lia|]. unfold x. rewrite Z.log2_lor by lia.
      apply Z.max_lub_lt; [rewrite Z.log2_pow2; lia|]. apply Z.log2_lt_pow2; lia. }
    destruct (bits64 s 2047 x) as (E1 & E2 & E3); cbv zeta in *; try lia.
Qed.

(** C10: a string cut short is returned as if complete. *)
Lemma str_truncated mk s k : signed_size (zlen s) -> 0 <= k < zlen s ->
  decode mk (ztake (zlen (pstr s) - zlen s + k) (pstr s)) = DOk (VStr (ztake k s)) [].
Proof.
  intros HS Hk. unfold pstr. zl. replace (zlen (phdr 128 208 209 210 (zlen s)) + zlen s - zlen s + k)
    with (zlen (phdr 128 208 209 210 (zlen s)) + k) by lia.
  rewrite ztake_app_r by lia. replace (zlen (phdr 128 208 209 210 (zlen s)) + k - zlen (phdr 128 208 209 210 (zlen s))) with k by lia.
  unfold decode, decode_fuel. 
  replace (3 * length (phdr 128 208 209 210 (zlen s) ++ ztake k s) + 3)%nat
    with (S (3 * length (phdr 128 208 209 210 (zlen s) ++ ztake k s) + 2)) by lia.
  rewrite (dec_str_hdr mk _ (zlen s)).
  - unfold next_str. replace (zlen s <? 0) with false by lia. rewrite ztake_all, zdrop_all; [reflexivity|..];
      rewrite zlen_ztake by lia; lia.
  - apply phdr_header. exact HS.
Qed.

(** C16 *)
Lemma decode_segmentation mk r1 r2 : segs_ok r1 -> segs_ok r2 -> Forall is_byte (rbytes r1) -> rbytes r1 = rbytes r2 ->
  fst (Decode mk r1) = fst (Decode mk r2) /\ rbytes (snd (Decode mk r1)) = rbytes (snd (Decode mk r2)).
Proof.
  intros S1 S2 B E. assert (B2 : Forall is_byte (rbytes r2)) by now rewrite <- E. unfold Decode.
  destruct (read_msg_spec r1 S1 B) as [(m1 & x1 & r1' & R1 & E1 & T1 & Q1)|[N1 E1]];
  destruct (read_msg_spec r2 S2 B2) as [(m2 & x2 & r2' & R2 & E2 & T2 & Q2)|[N2 E2]].
  - rewrite E in R1. destruct (Receives_unique _ _ _ _ _ R1 R2) as [-> ->]. rewrite E1, E2.
    destruct (decode mk m2); cbn [fst snd]; split; congruence.
  - rewrite E in R1. now apply N2 in R1.
  - rewrite <- E in R2. now apply N1 in R2.
  - rewrite E1, E2. now split.
Qed.

(** Reading a stream message after message. *)
Fixpoint Decodes mk (n : nat) (r : reader) : list dout * reader :=
  match n with
  | O => ([], r)
  | S n => let '(x, r') := Decode mk r in let '(xs, r'') := Decodes mk n r' in (x :: xs, r'')
  end.

Lemma framed_backlog cs v : 8 <= cs -> strings_le cs v -> zlen (backlog cs (fst (enc v))) < cs.
Proof. intros H S. apply backlog_small; [lia|]. apply enc_short_writes; [lia|assumption]. Qed.

Lemma decode_stream mk cs vs rest : 8 <= cs <= 65535 ->
  Forall (fun v => wt v /\ Transmissible v /\ strings_le cs v) vs -> Forall is_byte rest ->
  forall r, segs_ok r -> rbytes r = concat (map (fun v => concat (fst (encode cs v))) vs) ++ rest ->
  fst (Decodes mk (length vs) r) = map (fun v => DVal (canon v)) vs /\
  rbytes (snd (Decodes mk (length vs) r)) = rest.
Proof.
  intros Hcs F HB. induction F as [|v vs (W & T & S) F IH]; intros r HS E; [split; [reflexivity|exact E]|].
  cbn [map concat] in E. rewrite <- app_assoc in E.
  rewrite encode_framed in E by now apply trans_accepted. cbn [fst] in E. rewrite concat_app in E.
  destruct (receive_framed mk cs v r (concat (map (fun v => concat (fst (encode cs v))) vs) ++ rest) W T)
    as (r' & ED & S' & B'); trivial.
  - lia.
  - pose proof (framed_backlog cs v ltac:(lia) S). lia.
  - apply Forall_app. split; [|assumption]. apply concat_bytes. rewrite Forall_map. revert F. apply Forall_impl.
    intros x (Wx & Tx & _). rewrite encode_framed by now apply trans_accepted. cbn [fst]. rewrite concat_app.
    apply (framed_bytes cs). now apply enc_is_bytes.
  - cbn [length Decodes]. rewrite ED. destruct (IH r' S' B') as [I1 I2].
    destruct (Decodes mk (length vs) r') as [xs r'']. cbn [fst snd] in *. rewrite I1. now split.
Qed.
