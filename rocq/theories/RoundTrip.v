(** The decoder on valid encodings: acceptance (C08), round trip (C06),
    truncation (C10), iteration order (C12). *)
From Coq Require Import ZArith List Bool Lia Permutation.
From Coq Require Import ZifyBool.
From Verif Require Import GoPrims Value PackSpec PrimLemmas Encoder EncoderProofs PackProofs Decoder DecoderProofs.
Import ListNotations.
Open Scope Z_scope.

Lemma BE_sbe k n bs : 0 < k -> 0 <= n < 2 ^ (8 * k - 1) -> BE k n bs -> sbe bs = n.
Proof.
  intros Hk Hn HB. unfold sbe. rewrite (BE_len _ _ _ HB), (BE_ube _ _ _ HB). apply wraps_id; lia.
Qed.
Lemma marker_neg m : 0x80 <= m < 0xF0 -> (-16 <=? wraps 8 m) && (wraps 8 m <=? 127) = false.
Proof. intros H. rewrite wraps_high by lia. change (2 ^ 8) with 256. lia. Qed.
Lemma marker_pos m : 0 <= m < 0x80 -> wraps 8 m = m.
Proof. intros H. apply wraps_id; lia. Qed.
Lemma marker_tneg m : 0xF0 <= m < 0x100 -> wraps 8 m = m - 256.
Proof. intros H. rewrite wraps_high by lia. reflexivity. Qed.

Section D.
Variable mk : bool.
Local Notation dec := (dec mk). Local Notation dec_slice := (dec_slice mk).
Local Notation dec_n := (dec_n mk). Local Notation dec_map := (dec_map mk).
Local Notation dec_m := (dec_m mk). Local Notation dec_struct := (dec_struct mk).
Local Notation decode := (decode mk).

Lemma rd_app n a r : zlen a = n -> rd n (a ++ r) = DOk a r.
Proof.
  intros H. unfold rd. zl. pose proof (zlen_nonneg r).
  replace (zlen a + zlen r <? n) with false by lia. now rewrite ztake_app', zdrop_app'.
Qed.
Lemma rd_scalar_app n a r : 0 < n -> zlen a = n -> rd_scalar n (a ++ r) = DOk a r.
Proof.
  intros Hn H. unfold rd_scalar. zl. pose proof (zlen_nonneg r). replace (zlen a + zlen r =? 0) with false by lia. now apply rd_app.
Qed.
Lemma rd_int_BE k n bs r : 0 < k -> 0 <= n < 2 ^ (8 * k - 1) -> BE k n bs -> rd_int k (bs ++ r) = DOk n r.
Proof.
  intros Hk Hn HB. unfold rd_int. rewrite rd_app by (eapply BE_len; eassumption). cbn.
  now rewrite (BE_sbe k n).
Qed.
Lemma rd_int_TC k z bs r : 0 < k -> TC k z bs -> rd_int_scalar k (bs ++ r) = DOk z r.
Proof.
  intros Hk HT. unfold rd_int_scalar. rewrite rd_scalar_app by (trivial; eapply TC_len; eassumption). cbn.
  now rewrite (TC_sbe k z).
Qed.

Ltac pick2 := rewrite ?marker_neg by lia; repeat match goal with
  | |- context [if ?c then _ else _] =>
      first [ replace c with true by lia | replace c with false by lia ]; cbv iota end.

Ltac hdrs := intros H; unfold StrHeader, ListHeader, MapHeader, StructHeader in H;
  destruct H as [Hn|bs Hn HB|bs Hn HB|m bs Hm Hn HB]; try discriminate; try (injection Hm as <-);
  cbn [limit] in *; cbn [app]; rewrite dec_S; cbv zeta; pick2.

Lemma dec_str_hdr f n h x : StrHeader true n h -> dec (S f) (h ++ x) = next_str n x.
Proof.
  hdrs.
  - destruct (128 + n - 128 =? 0) eqn:E.
    + assert (n = 0) by lia. subst. unfold next_str. replace (0 <? 0) with false by lia.
      now rewrite ztake_0, zdrop_0.
    + f_equal. lia.
  - rewrite (rd_int_BE 1 n) by (trivial; lia). reflexivity.
  - rewrite (rd_int_BE 2 n) by (trivial; lia). reflexivity.
  - rewrite (rd_int_BE 4 n) by (trivial; lia). reflexivity.
Qed.
Lemma dec_list_hdr f n h x : ListHeader true n h -> dec (S f) (h ++ x) = dec_slice f n x.
Proof.
  hdrs.
  - f_equal. lia.
  - rewrite (rd_int_BE 1 n) by (trivial; lia). reflexivity.
  - rewrite (rd_int_BE 2 n) by (trivial; lia). reflexivity.
  - rewrite (rd_int_BE 4 n) by (trivial; lia). reflexivity.
Qed.
Lemma dec_map_hdr f n h x : MapHeader true n h -> dec (S f) (h ++ x) = dec_map f n x.
Proof.
  hdrs.
  - f_equal. lia.
  - rewrite (rd_int_BE 1 n) by (trivial; lia). reflexivity.
  - rewrite (rd_int_BE 2 n) by (trivial; lia). reflexivity.
  - rewrite (rd_int_BE 4 n) by (trivial; lia). reflexivity.
Qed.
Lemma dec_struct_hdr f n h x : StructHeader n h -> dec (S f) (h ++ x) = dec_struct f x.
Proof.
  hdrs.
  - reflexivity.
  - unfold rd_int. rewrite rd_app by (eapply BE_len; eassumption). reflexivity.
  - unfold rd_int. rewrite rd_app by (eapply BE_len; eassumption). reflexivity.
Qed.

(** ** Acceptance of every valid encoding *)
Definition okdec (v : goval) (b : bytes) : Prop :=
  forall f r, (3 * length b + 1 <= f)%nat -> dec f (b ++ r) = DOk v r.

Lemma okdec_n vs bss : Forall2 okdec vs bss -> Forall (fun b => (0 < length b)%nat) bss ->
  forall f r, (3 * length (concat bss) + 2 <= f)%nat -> dec_n f (zlen vs) (concat bss ++ r) = DOk vs r.
Proof.
  intros H. induction H as [|v b vs bss Hv H IH]; intros NE f r L.
  - destruct f; [cbn in L; lia|reflexivity].
  - inversion NE as [|? ? NEb NE']; subst. cbn [concat] in *. rewrite app_length in L. destruct f; [lia|].
    rewrite dec_n_S. zl. pose proof (zlen_nonneg vs). replace (1 + zlen vs <=? 0) with false by lia.
    rewrite <- app_assoc. rewrite Hv by lia. cbn [dbind].
    replace (1 + zlen vs - 1) with (zlen vs) by lia. rewrite IH by (trivial; lia). reflexivity.
Qed.

Definition mputs (m acc : list (str * goval)) : list (str * goval) :=
  fold_left (fun a kv => mput (fst kv) (snd kv) a) m acc.

Lemma okdec_m m bss :
  Forall2 (fun kv bb => okdec (VStr (fst kv)) (fst bb) /\ okdec (snd kv) (snd bb) /\ (0 < length (fst bb))%nat) m bss ->
  forall f acc r, (3 * length (concat (map (fun bb => fst bb ++ snd bb) bss)) + 2 <= f)%nat ->
  dec_m f (zlen m) acc (concat (map (fun bb => fst bb ++ snd bb) bss) ++ r) = DOk (mputs m acc) r.
Proof.
  induction 1 as [|[k v] [kb vb] m bss (Hk & Hv & Hl) H IH]; intros f acc r L.
  - destruct f; [cbn in L; lia|reflexivity].
  - cbn [concat map fst snd] in *. rewrite !app_length in L. destruct f; [lia|].
    rewrite dec_m_S. zl. pose proof (zlen_nonneg m). replace (1 + zlen m <=? 0) with false by lia.
    rewrite <- !app_assoc. rewrite Hk by lia. cbn [dbind]. rewrite Hv by lia. cbn [dbind].
    replace (1 + zlen m - 1) with (zlen m) by lia. rewrite IH by lia. reflexivity.
Qed.

Lemma mputs_nodup m acc : NoDup (map fst m) -> (forall k, In k (map fst m) -> ~ In k (map fst acc)) ->
  mputs m acc = acc ++ m.
Proof.
  revert acc; induction m as [|[k v] m IH]; intros acc ND D; cbn [mputs fold_left fst snd].
  - now rewrite app_nil_r.
  - inversion ND as [|? ? Hn HN]; subst. fold (mputs m (mput k v acc)).
    rewrite mput_fresh by (apply D; now left). rewrite IH.
    + now rewrite <- app_assoc.
    + assumption.
    + intros k' Hk'. rewrite map_app, in_app_iff. cbn. intros [Hin|[<-|[]]]; [|tauto].
      apply (D k'); [now right|assumption].
Qed.

(** The fields of a structure, in the form in which they are received. *)
Lemma app_eq_cons_inv {A} (x : A) l l' m : x :: l = m -> m = x :: l' -> l = l'.
Proof. intros <- [= ->]. reflexivity. Qed.

Ltac od := repeat (match goal with H : okdec _ ?b |- context [Decoder.dec _ _ (?b ++ _)] =>
  rewrite H by lia; cbn [dbind as_int64 as_str as_map as_slice vint64] end).

Lemma okdec_struct v sig bs fs bss :
  decodable v -> wt v ->
  (match v with
   | VNode id ls ps => sig = 0x4E /\ fs = [vint64 id; VSlice (map vstr ls); VMap ps]
   | VRel id s e ty ps => sig = 0x52 /\ fs = [vint64 id; vint64 s; vint64 e; VStr ty; VMap ps]
   | VURel id ty ps => sig = 0x72 /\ fs = [vint64 id; VStr ty; VMap ps]
   | VPath ns rs seq => sig = 0x50 /\ fs = [VSlice ns; VSlice rs; VSlice (map vint64 seq)]
   | VRecord l => sig = 0x71 /\ fs = [VSlice l]
   | VSuccess md => sig = 0x70 /\ fs = [VMap md]
   | VFailure md => sig = 0x7F /\ fs = [VMap md]
   | VIgnored => sig = 0x7E /\ fs = []
   | VPullAll => sig = 0x3F /\ fs = []
   | VDiscardAll => sig = 0x2F /\ fs = []
   | VAckFailure => sig = 0x0E /\ fs = []
   | VReset => sig = 0x0F /\ fs = []
   | _ => False end) ->
  bs = concat bss -> Forall2 okdec fs bss ->
  forall f r, (3 * length bs + 2 <= f)%nat -> dec_struct f (sig :: bs ++ r) = DOk v r.
Proof.
  intros DC WT HV -> HF f r L. destruct f; [lia|]. rewrite dec_struct_S.
  destruct v; try contradiction; destruct HV as [-> ->];
    repeat match goal with H : Forall2 _ (_ :: _) _ |- _ => inversion H; subst; clear H
                         | H : Forall2 _ [] _ |- _ => inversion H; subst; clear H end;
    cbn [concat app] in *; rewrite ?app_length in L; cbn [length] in L; rewrite <- ?app_assoc; cbn [app];
    unfold struct_body;
    repeat match goal with |- context [if ?c =? ?d then _ else _] => replace (c =? d) with true by reflexivity
                         | |- context [if ?c =? ?d then _ else _] => replace (c =? d) with false by reflexivity end;
    od.
  1: replace (to_strings (map vstr labels)) with (Some labels) by (symmetry; now apply to_strings_spec).
  all: od.
  all: try reflexivity.
  inversion WT; subst.
  replace (forallb is_node nodes) with true.
  - replace (forallb is_urel rels) with true.
    + od.
      replace (to_ints (map vint64 seq)) with (Some seq) by (symmetry; now apply to_ints_spec). reflexivity.
    + symmetry. apply forallb_forall. rewrite Forall_forall in *. intros x Hx.
      match goal with H : forall x, In x rels -> exists _, _ |- _ => destruct (H x Hx) as (? & ? & ? & ->) end. reflexivity.
  - symmetry. apply forallb_forall. rewrite Forall_forall in *. intros x Hx.
      match goal with H : forall x, In x nodes -> exists _, _ |- _ => destruct (H x Hx) as (? & ? & ? & ->) end. reflexivity.
Qed.

Lemma ok_of_TC k z bs m : 0 < k -> TC k z bs ->
  (forall f r, dec (S f) (m :: r) = dbind (rd_int_scalar k r) (fun z r => DOk (VInt KInt64 z) r)) ->
  okdec (VInt KInt64 z) (m :: bs).
Proof.
  intros Hk HT HD f r L. destruct f; [cbn in L; lia|]. cbn [app]. rewrite HD.
  rewrite (rd_int_TC k z) by assumption. reflexivity.
Qed.

Definition dmap (m : list (str * goval)) : list (str * pval) := map (fun kv => (fst kv, denote (snd kv))) m.

(** The fields as received denote the same and are themselves receivable. *)
Lemma recv_fields v sig l : decodable v -> wt v -> denote v = PStruct sig l ->
  exists fs, l = map denote fs /\ Forall decodable fs /\ Forall wt fs /\
  (match v with
   | VNode id ls ps => sig = 0x4E /\ fs = [vint64 id; VSlice (map vstr ls); VMap ps]
   | VRel id s e ty ps => sig = 0x52 /\ fs = [vint64 id; vint64 s; vint64 e; VStr ty; VMap ps]
   | VURel id ty ps => sig = 0x72 /\ fs = [vint64 id; VStr ty; VMap ps]
   | VPath ns rs seq => sig = 0x50 /\ fs = [VSlice ns; VSlice rs; VSlice (map vint64 seq)]
   | VRecord l => sig = 0x71 /\ fs = [VSlice l]
   | VSuccess md => sig = 0x70 /\ fs = [VMap md]
   | VFailure md => sig = 0x7F /\ fs = [VMap md]
   | VIgnored => sig = 0x7E /\ fs = []
   | VPullAll => sig = 0x3F /\ fs = []
   | VDiscardAll => sig = 0x2F /\ fs = []
   | VAckFailure => sig = 0x0E /\ fs = []
   | VReset => sig = 0x0F /\ fs = []
   | _ => False end).
Proof.
  intros DC WT E.
  destruct v; cbn [denote] in E; inversion E; subst; clear E; try (inversion DC; fail);
    inversion DC; subst; inversion WT; subst.
  1: exists [vint64 id; VSlice (map vstr labels); VMap props].
  2: exists [vint64 id; vint64 startId; vint64 endId; VStr ty; VMap props].
  3: exists [vint64 id; VStr ty; VMap props].
  4: exists [VSlice nodes; VSlice rels; VSlice (map vint64 seq)].
  5: exists [VSlice fields].
  6: exists [VMap md].
  7: exists [VMap md].
  8-12: exists [].
  all: (split; [cbn [map denote vint64]; rewrite ?map_map; reflexivity|]).
  all: split; [|split; [|split; reflexivity]].
  all: repeat first [apply Forall_nil | apply Forall_cons].
  all: try solve [constructor; assumption].
  all: constructor; rewrite Forall_map; apply Forall_forall; rewrite ?Forall_forall in *; intros; constructor; auto.
  now apply H8.
Qed.

Lemma dec_accepts :
  (forall p b, PSg true p b -> forall v, decodable v -> wt v -> denote v = p -> okdec v b) /\
  (forall l bs, PSs true l bs -> forall vs, Forall decodable vs -> Forall wt vs -> map denote vs = l ->
     exists bss, bs = concat bss /\ Forall2 okdec vs bss /\ Forall (fun b => (0 < length b)%nat) bss) /\
  (forall m bs, PSm true m bs -> forall kvs, Forall (fun kv => decodable (snd kv)) kvs -> Forall (fun kv => wt (snd kv)) kvs ->
     Forall (fun kv => bytes_ok (fst kv)) kvs -> dmap kvs = m ->
     exists bss, bs = concat (map (fun bb => fst bb ++ snd bb) bss) /\
     Forall2 (fun kv bb => okdec (VStr (fst kv)) (fst bb) /\ okdec (snd kv) (snd bb) /\ (0 < length (fst bb))%nat) kvs bss).
Proof.
  apply PS_mutind; intros.
  - destruct v; try discriminate; try (inversion H; fail). intros f r L. destruct f; [cbn in L; lia|reflexivity].
  - destruct v; try discriminate. injection H1 as ->. intros f r L. destruct f; [cbn in L; lia|reflexivity].
  - destruct v; try discriminate. injection H1 as ->. intros f r L. destruct f; [cbn in L; lia|reflexivity].
  - destruct v; try discriminate. inversion H; subst. injection H1 as ->. intros f r L. destruct f; [cbn in L; lia|].
    cbn [app]. rewrite dec_S. cbv zeta. rewrite marker_pos by lia. pick2. reflexivity.
  - destruct v; try discriminate. inversion H; subst. injection H1 as ->. intros f r L. destruct f; [cbn in L; lia|].
    cbn [app]. rewrite dec_S. cbv zeta. rewrite marker_tneg by lia. pick2. do 2 f_equal. lia.
  - destruct v; try discriminate. inversion H; subst. injection H1 as ->. eapply (ok_of_TC 1); [lia|eassumption|].
    intros. rewrite dec_S. cbv zeta. pick2. reflexivity.
  - destruct v; try discriminate. inversion H; subst. injection H1 as ->. eapply (ok_of_TC 2); [lia|eassumption|].
    intros. rewrite dec_S. cbv zeta. pick2. reflexivity.
  - destruct v; try discriminate. inversion H; subst. injection H1 as ->. eapply (ok_of_TC 4); [lia|eassumption|].
    intros. rewrite dec_S. cbv zeta. pick2. reflexivity.
  - destruct v; try discriminate. inversion H; subst. injection H1 as ->. eapply (ok_of_TC 8); [lia|eassumption|].
    intros. rewrite dec_S. cbv zeta. pick2. reflexivity.
  - destruct v; try discriminate; [inversion H|]. injection H1 as ->. intros f r L. destruct f; [cbn in L; lia|].
    cbn [app]. rewrite dec_S. cbv zeta. pick2. rewrite rd_scalar_app by (try lia; eapply BE_len; eassumption). cbn [dbind].
    erewrite BE_ube by eassumption. reflexivity.
  - destruct v; try discriminate. injection H1 as ->. intros f r L. destruct f; [lia|].
    rewrite <- app_assoc. rewrite (dec_str_hdr _ _ _ _ s0). unfold next_str. pose proof (zlen_nonneg s).
    replace (zlen s <? 0) with false by lia. now rewrite ztake_app, zdrop_app.
  - destruct v; try discriminate; [|inversion H0]. injection H2 as <-. inversion H0; inversion H1; subst.
    destruct (H l1) as (bss & -> & HF & HN); trivial.
    intros f r L. rewrite app_length in L. pose proof (PSg_nonempty true (PList (map denote l1)) _ (PS_list _ _ _ _ l0 p)) as NE.
    assert (0 < length h)%nat by (destruct l0; cbn; lia).
    destruct f as [|[|f]]; [lia|lia|]. rewrite <- app_assoc. rewrite (dec_list_hdr _ _ _ _ l0). rewrite dec_slice_S.
    pose proof (zlen_nonneg l1). zl. replace (zlen l1 <? 0) with false by lia.
    rewrite (okdec_n l1 bss) by (trivial; lia). reflexivity.
  - destruct v; try discriminate. cbn [denote] in H2. injection H2 as H2. inversion H0; inversion H1; subst.
    match goal with H : wtm _ |- _ => destruct H as [kvs HD HK HV] end.
    destruct (H kvs) as (bss & -> & HF); trivial.
    intros f r L. rewrite app_length in L.
    assert (0 < length h)%nat by (destruct m0; cbn; lia).
    destruct f as [|[|f]]; [lia|lia|]. rewrite <- app_assoc. rewrite (dec_map_hdr _ _ _ _ m0). rewrite dec_map_S.
    pose proof (zlen_nonneg kvs). zl. replace (zlen kvs <? 0) with false by lia. cbn [andb].
    rewrite (okdec_m kvs bss) by (trivial; lia). cbn [dbind]. rewrite mputs_nodup; [reflexivity|assumption|].
    cbn. tauto.
  - destruct (recv_fields v sig l H0 H1 H2) as (fs & -> & FD & FW & HV).
    destruct (H fs FD FW eq_refl) as (bss & EB & HF & HN).
    intros f r L. rewrite app_length in L. cbn [length] in L.
    assert (0 < length h)%nat by (destruct s; cbn; lia).
    destruct f as [|f]; [lia|]. rewrite <- app_assoc. cbn [app]. rewrite (dec_struct_hdr _ _ _ _ s).
    eapply okdec_struct; try eassumption. lia.
  - destruct vs; [|discriminate]. exists []. repeat split; constructor.
  - destruct vs as [|v vs]; [discriminate|]. cbn [map] in *. injection H3 as E1 E2.
    inversion H1; inversion H2; subst. destruct (H0 vs) as (bss & -> & HF & HN); trivial.
    exists (b :: bss). repeat split; constructor; auto. eapply PSg_nonempty; eassumption.
  - destruct kvs; [|discriminate]. exists []. repeat split; constructor.
  - destruct kvs as [|[k' v] kvs]; [discriminate|]. cbn [map dmap fst snd] in *. injection H5 as E0 E1 E2.
    inversion H2; inversion H3; inversion H4; subst. destruct (H1 kvs) as (bss & -> & HF); trivial.
    exists ((kb, b) :: bss). cbn [map concat fst snd]. rewrite <- app_assoc. split; [reflexivity|].
    constructor; [|assumption]. cbn [fst snd] in *. repeat split.
    + apply H; [constructor|now constructor|reflexivity].
    + apply H0; auto.
    + eapply PSg_nonempty; eassumption.
Qed.

(** C08 *)
Lemma decode_accepts v b r : decodable v -> wt v -> PS_half (denote v) b -> decode (b ++ r) = DOk v r.
Proof.
  intros D W H. unfold decode, Decoder.decode. apply (proj1 dec_accepts _ _ H); trivial.
  unfold decode_fuel. rewrite app_length. lia.
Qed.

(** ** Truncation (C10) *)
Definition tailL (l : list pval) : option str :=
  (fix go l := match l with [] => None | [x] => tail_str x | _ :: l' => go l' end) l.
Definition tailM (m : list (str * pval)) : option str :=
  (fix go m := match m with [] => None | [(_, x)] => tail_str x | _ :: m' => go m' end) m.
Lemma tailL_cons x y l : tailL (x :: y :: l) = tailL (y :: l).  Proof. reflexivity. Qed.
Lemma tailM_cons x y l : tailM (x :: y :: l) = tailM (y :: l).  Proof. destruct x. reflexivity. Qed.

(** Decoding the proper prefix [c] of an encoding [c ++ d] fails, or the cut
    is inside the final string. *)
Definition cutres {A} (t : option str) (d : bytes) (x : dres A) : Prop :=
  (exists e, x = DErr e) \/ (exists a s, x = DOk a [] /\ t = Some s /\ zlen d <= zlen s).

Definition truncP (v : goval) (b : bytes) : Prop :=
  forall c d, b = c ++ d -> d <> [] -> forall f, (3 * length c + 1 <= f)%nat ->
  cutres (tail_str (denote v)) d (dec f c).

Lemma cut_cases (a b c d : bytes) : a ++ b = c ++ d -> d <> [] ->
  (exists l, l <> [] /\ a = c ++ l /\ d = l ++ b) \/ (exists c2, c = a ++ c2 /\ b = c2 ++ d).
Proof.
  intros E Hd. destruct (app_eq_app _ _ _ _ E) as (l & [[-> ->]|[-> ->]]).
  - destruct l as [|x l]; [right; exists []; now rewrite !app_nil_r|]. left. now exists (x :: l).
  - right. now exists l.
Qed.

Lemma dec_nil f : (1 <= f)%nat -> dec f [] = DErr DEMarkerEOF.
Proof. destruct f; [lia|reflexivity]. Qed.

Lemma okdec_nonempty v b : okdec v b -> (0 < length b)%nat.
Proof.
  intros H. destruct b; [|cbn; lia]. specialize (H 1%nat [] ltac:(cbn; lia)). discriminate H.
Qed.

Lemma dec_ok_nonempty f c a r : dec f c = DOk a r -> (0 < length c)%nat.
Proof. destruct c; [|cbn; lia]. destruct f; discriminate. Qed.

Lemma trunc_n vs bss : Forall2 okdec vs bss -> Forall2 truncP vs bss ->
  forall c d, concat bss = c ++ d -> d <> [] -> forall f, (3 * length c + 2 <= f)%nat ->
  cutres (tailL (map denote vs)) d (dec_n f (zlen vs) c).
Proof.
  intros HO. induction HO as [|v b vs bss Hv HO IH]; intros HT c d E Hd f L.
  - cbn in E. destruct c; [|discriminate]. now destruct d.
  - inversion HT as [|? ? ? ? Tv HT']; subst. cbn [concat] in E. pose proof (okdec_nonempty _ _ Hv).
    destruct f as [|f]; [lia|]. rewrite dec_n_S. zl. pose proof (zlen_nonneg vs).
    replace (1 + zlen vs <=? 0) with false by lia. replace (1 + zlen vs - 1) with (zlen vs) by lia.
    destruct (cut_cases _ _ _ _ E Hd) as [(l & Hl & -> & ->)|(c2 & -> & E2)].
    + destruct (Tv c l eq_refl Hl f ltac:(lia)) as [[e He]|(a & s & Ha & Ht & Hs)].
      * left. exists e. now rewrite He.
      * rewrite Ha. apply dec_ok_nonempty in Ha. cbn [dbind]. destruct vs as [|v2 vs].
        -- inversion HO; subst. right. exists [a], s. cbn [concat]. rewrite app_nil_r.
           destruct f; [lia|]. repeat split; trivial.
        -- left. destruct f as [|f]; [lia|]. rewrite dec_n_S. zl. pose proof (zlen_nonneg vs).
           replace (1 + zlen vs <=? 0) with false by lia. rewrite dec_nil by lia. eexists; reflexivity.
    + rewrite app_length in L. rewrite Hv by lia. cbn [dbind].
      destruct vs as [|v2 vs].
      * inversion HO; subst. cbn in E2. destruct c2; [|discriminate]. now destruct d.
      * specialize (IH HT' c2 d E2 Hd f ltac:(lia)). destruct IH as [[e He]|(a & s & Ha & Ht & Hs)].
        -- left. exists e. now rewrite He.
        -- right. exists (v :: a), s. rewrite Ha. cbn [map]. rewrite tailL_cons. repeat split; trivial.
Qed.

Lemma trunc_m m bss :
  Forall2 (fun kv bb => (okdec (VStr (fst kv)) (fst bb) /\ truncP (VStr (fst kv)) (fst bb)) /\
                        (okdec (snd kv) (snd bb) /\ truncP (snd kv) (snd bb))) m bss ->
  forall c d, concat (map (fun bb => fst bb ++ snd bb) bss) = c ++ d -> d <> [] ->
  forall f acc, (3 * length c + 2 <= f)%nat ->
  cutres (tailM (dmap m)) d (dec_m f (zlen m) acc c).
Proof.
  induction 1 as [|[k v] [kb vb] m bss [[Ok Tk] [Ov Tv]] H IH]; intros c d E Hd f acc L.
  - cbn in E. destruct c; [|discriminate]. now destruct d.
  - cbn [concat map fst snd] in *. pose proof (okdec_nonempty _ _ Ok). destruct f as [|f]; [lia|]. rewrite dec_m_S. zl. pose proof (zlen_nonneg m).
    replace (1 + zlen m <=? 0) with false by lia. replace (1 + zlen m - 1) with (zlen m) by lia.
    rewrite <- app_assoc in E.
    destruct (cut_cases _ _ _ _ E Hd) as [(l & Hl & -> & ->)|(c2 & -> & E2)].
    { left. destruct (Tk c l eq_refl Hl f ltac:(lia)) as [[e He]|(a & s & Ha & Ht & Hs)].
      - exists e. now rewrite He.
      - rewrite Ha. apply dec_ok_nonempty in Ha. cbn [dbind]. rewrite dec_nil by lia. eexists; reflexivity. }
    rewrite app_length in L. rewrite Ok by lia. cbn [dbind]. clear E.
    destruct (cut_cases _ _ _ _ E2 Hd) as [(l & Hl & -> & ->)|(c3 & -> & E3)].
    + destruct (Tv c2 l eq_refl Hl f ltac:(lia)) as [[e He]|(a & s & Ha & Ht & Hs)].
      * left. exists e. now rewrite He.
      * rewrite Ha. apply dec_ok_nonempty in Ha. cbn [dbind]. destruct m as [|kv2 m].
        -- inversion H; subst. right. cbn [concat map dmap]. rewrite app_nil_r. 
           destruct f; [lia|]. eexists; exists s. repeat split; trivial.
        -- left. destruct f as [|f]; [lia|]. rewrite dec_m_S. zl. pose proof (zlen_nonneg m).
           replace (1 + zlen m <=? 0) with false by lia. rewrite dec_nil by lia. eexists; reflexivity.
    + rewrite app_length in L. rewrite Ov by lia. cbn [dbind].
      destruct m as [|kv2 m].
      * inversion H; subst. cbn in E3. destruct c3; [|discriminate]. now destruct d.
      * specialize (IH c3 d E3 Hd f (mput k v acc) ltac:(lia)). destruct IH as [[e He]|(a & s & Ha & Ht & Hs)].
        -- left. exists e. now rewrite He.
        -- right. exists a, s. rewrite Ha. unfold dmap. cbn [map]. rewrite tailM_cons. repeat split; trivial.
Qed.

(** Field-by-field decoding of a truncated structure. *)
Inductive seqcut (f : nat) (d : bytes) : list goval -> bytes -> Prop :=
| sc_err v fs c e : dec f c = DErr e -> seqcut f d (v :: fs) c
| sc_eof v fs c a s : dec f c = DOk a [] -> tail_str (denote v) = Some s -> fs <> [] -> seqcut f d (v :: fs) c
| sc_last v c a s : dec f c = DOk a [] -> tail_str (denote v) = Some s -> zlen d <= zlen s -> seqcut f d [v] c
| sc_step v fs c c2 : dec f c = DOk v c2 -> seqcut f d fs c2 -> seqcut f d (v :: fs) c.

Lemma seqcut_of fs bss : Forall2 okdec fs bss -> Forall2 truncP fs bss ->
  forall c d, concat bss = c ++ d -> d <> [] -> forall f, (3 * length c + 1 <= f)%nat ->
  seqcut f d fs c.
Proof.
  intros HO. induction HO as [|v b fs bss Hv HO IH]; intros HT c d E Hd f L.
  - cbn in E. destruct c; [|discriminate]. now destruct d.
  - inversion HT as [|? ? ? ? Tv HT']; subst. cbn [concat] in E. pose proof (okdec_nonempty _ _ Hv).
    destruct (cut_cases _ _ _ _ E Hd) as [(l & Hl & -> & ->)|(c2 & -> & E2)].
    + destruct (Tv c l eq_refl Hl f ltac:(lia)) as [[e He]|(a & s & Ha & Ht & Hs)].
      * eapply sc_err; eassumption.
      * destruct fs as [|v2 fs].
        -- inversion HO; subst. cbn [concat]. rewrite app_nil_r. eapply sc_last; eassumption.
        -- eapply sc_eof; try eassumption. discriminate.
    + rewrite app_length in L. eapply sc_step; [apply Hv; lia|]. apply IH; trivial. lia.
Qed.

Lemma tail_ints seq : tailL (map denote (map vint64 seq)) = None.
Proof.
  induction seq as [|x [|y seq] IH]; [reflexivity|reflexivity|]. cbn [map] in *. now rewrite tailL_cons.
Qed.

Lemma trunc_struct v sig bss fs :
  decodable v -> wt v ->
  (match v with
   | VNode id ls ps => sig = 0x4E /\ fs = [vint64 id; VSlice (map vstr ls); VMap ps]
   | VRel id s e ty ps => sig = 0x52 /\ fs = [vint64 id; vint64 s; vint64 e; VStr ty; VMap ps]
   | VURel id ty ps => sig = 0x72 /\ fs = [vint64 id; VStr ty; VMap ps]
   | VPath ns rs seq => sig = 0x50 /\ fs = [VSlice ns; VSlice rs; VSlice (map vint64 seq)]
   | VRecord l => sig = 0x71 /\ fs = [VSlice l]
   | VSuccess md => sig = 0x70 /\ fs = [VMap md]
   | VFailure md => sig = 0x7F /\ fs = [VMap md]
   | VIgnored => sig = 0x7E /\ fs = []
   | VPullAll => sig = 0x3F /\ fs = []
   | VDiscardAll => sig = 0x2F /\ fs = []
   | VAckFailure => sig = 0x0E /\ fs = []
   | VReset => sig = 0x0F /\ fs = []
   | _ => False end) ->
  Forall2 okdec fs bss -> Forall2 truncP fs bss ->
  forall c d, concat bss = c ++ d -> d <> [] -> forall f, (3 * length c + 2 <= f)%nat ->
  cutres (tailL (map denote fs)) d (dec_struct f (sig :: c)).
Proof.
  intros DC WT HV HO HT c d E Hd f L. destruct f; [lia|]. rewrite dec_struct_S.
  assert (SC : seqcut f d fs c) by (eapply seqcut_of; try eassumption; lia).
  assert (NIL : dec f [] = DErr DEMarkerEOF) by (apply dec_nil; lia).
  clear HO HT E L Hd.
  assert (NI : forall z s, tail_str (denote (vint64 z)) = Some s -> False) by discriminate.
  assert (NS : forall q s, tail_str (denote (VSlice (map vint64 q))) = Some s -> False).
  { intros q s H. change (tailL (map denote (map vint64 q)) = Some s) in H. rewrite tail_ints in H. discriminate. }
  destruct v; try contradiction; destruct HV as [-> ->].
  all: repeat match goal with H : seqcut _ _ (_ :: _) _ |- _ => inversion H; subst; clear H
                            | H : seqcut _ _ [] _ |- _ => inversion H end.
  all: try solve [exfalso; eauto].
  all: unfold struct_body;
    repeat match goal with |- context [if ?c =? ?d then _ else _] => replace (c =? d) with true by reflexivity
                         | |- context [if ?c =? ?d then _ else _] => replace (c =? d) with false by reflexivity end;
    cbv iota.
  all: repeat match goal with H : Decoder.dec _ _ _ = _ |- _ => rewrite H; clear H; cbn [dbind as_int64 as_str as_slice as_map vint64]; cbv iota
              | |- context [to_strings (map vstr ?l)] => replace (to_strings (map vstr l)) with (Some l) by (symmetry; now apply to_strings_spec); cbv iota
       end.
  all: try (left; eexists; reflexivity).
  all: repeat match goal with |- context [as_slice ?a _] => destruct a; cbn [as_slice]
       | |- context [as_map ?a _] => destruct a; cbn [as_map] | |- context [as_str ?a _] => destruct a; cbn [as_str] end.
  all: try (left; eexists; reflexivity).
  all: try solve [right; eexists; eexists; split; [reflexivity|split; eassumption]].
  all: repeat match goal with
       | |- context [match to_strings ?l with _ => _ end] => destruct (to_strings l)
       | |- context [if forallb ?g ?l then _ else _] => destruct (forallb g l)
       | H : Decoder.dec _ _ _ = _ |- _ => rewrite H; clear H; cbn [dbind as_int64 as_str as_slice as_map vint64]; cbv iota
       | |- context [as_slice ?a _] => destruct a; cbn [as_slice]
       end; try (left; eexists; reflexivity).
Qed.

Lemma rd_short k bs c d : zlen bs = k -> bs = c ++ d -> d <> [] -> rd k c = DErr DEShort.
Proof.
  intros Hk -> Hd. unfold rd. zl.
  assert (0 < zlen d). { destruct d; [easy|]. zl. pose proof (zlen_nonneg d). lia. }
  replace (zlen c <? k) with true by lia. reflexivity.
Qed.
Lemma rd_int_short k bs c d : zlen bs = k -> bs = c ++ d -> d <> [] -> rd_int k c = DErr DEShort.
Proof. intros H1 H2 H3. unfold rd_int. now rewrite (rd_short k bs c d). Qed.

Lemma rd_scalar_short k bs c d : zlen bs = k -> bs = c ++ d -> d <> [] -> exists e, rd_scalar k c = DErr e.
Proof.
  intros H1 H2 H3. unfold rd_scalar. destruct (zlen c =? 0); [eexists; reflexivity|]. exists DEShort. now apply (rd_short k bs c d).
Qed.

Ltac hcut := intros H E Hd; unfold StrHeader, ListHeader, MapHeader, StructHeader in H;
  match goal with c : bytes |- _ => destruct c as [|m c]; [eexists; reflexivity|] end;
  destruct H as [Hn|bs Hn HB|bs Hn HB|mm bs Hm Hn HB]; try discriminate; try (injection Hm as <-);
  cbn [app] in E; injection E as <- E;
  [ match goal with d : bytes |- _ => destruct d; [easy|] end;
    match goal with H : [] = ?l ++ _ |- _ => now destruct l end
  | .. ];
  rewrite dec_S; cbv zeta; pick2; (erewrite rd_int_short; [|eapply BE_len; eassumption|eassumption|assumption]);
  eexists; reflexivity.

Lemma cut_str_hdr f n h (c d : bytes) : StrHeader true n h -> h = c ++ d -> d <> [] -> exists e, dec (S f) c = DErr e.
Proof. hcut. Qed.
Lemma cut_list_hdr f n h (c d : bytes) : ListHeader true n h -> h = c ++ d -> d <> [] -> exists e, dec (S f) c = DErr e.
Proof. hcut. Qed.
Lemma cut_map_hdr f n h (c d : bytes) : MapHeader true n h -> h = c ++ d -> d <> [] -> exists e, dec (S f) c = DErr e.
Proof. hcut. Qed.
Lemma cut_struct_hdr f n h (c d : bytes) : StructHeader n h -> h = c ++ d -> d <> [] -> exists e, dec (S f) c = DErr e.
Proof. hcut. Qed.

Lemma trunc_byte v x : truncP v [x].
Proof.
  intros c d E Hd f L. destruct c as [|y c].
  - left. rewrite dec_nil by lia. eexists; reflexivity.
  - injection E as <- E. destruct c; [|discriminate]. now destruct d.
Qed.
Lemma trunc_TC k z bs m v : TC k z bs ->
  (forall f r, dec (S f) (m :: r) = dbind (rd_int_scalar k r) (fun z r => DOk (VInt KInt64 z) r)) -> truncP v (m :: bs).
Proof.
  intros HT HD c d E Hd f L. destruct f; [lia|]. left. destruct c as [|y c]; [eexists; reflexivity|].
  injection E as <- E. rewrite HD.
  destruct (rd_scalar_short k bs c d (TC_len _ _ _ HT) E Hd) as [e He]. unfold rd_int_scalar. rewrite He. eexists; reflexivity.
Qed.

Lemma dec_trunc :
  (forall p b, PSg true p b -> forall v, decodable v -> wt v -> denote v = p -> truncP v b) /\
  (forall l bs, PSs true l bs -> forall vs, Forall decodable vs -> Forall wt vs -> map denote vs = l ->
     exists bss, bs = concat bss /\ Forall2 okdec vs bss /\ Forall2 truncP vs bss) /\
  (forall m bs, PSm true m bs -> forall kvs, Forall (fun kv => decodable (snd kv)) kvs -> Forall (fun kv => wt (snd kv)) kvs ->
     Forall (fun kv => bytes_ok (fst kv)) kvs -> dmap kvs = m ->
     exists bss, bs = concat (map (fun bb => fst bb ++ snd bb) bss) /\
     Forall2 (fun kv bb => (okdec (VStr (fst kv)) (fst bb) /\ truncP (VStr (fst kv)) (fst bb)) /\
                        (okdec (snd kv) (snd bb) /\ truncP (snd kv) (snd bb))) kvs bss).
Proof.
  apply PS_mutind; intros; try apply trunc_byte.
  - eapply (trunc_TC 1); [eassumption|]. intros. rewrite dec_S. cbv zeta. pick2. reflexivity.
  - eapply (trunc_TC 2); [eassumption|]. intros. rewrite dec_S. cbv zeta. pick2. reflexivity.
  - eapply (trunc_TC 4); [eassumption|]. intros. rewrite dec_S. cbv zeta. pick2. reflexivity.
  - eapply (trunc_TC 8); [eassumption|]. intros. rewrite dec_S. cbv zeta. pick2. reflexivity.
  - intros c d E Hd f L. destruct f; [lia|]. left. destruct c as [|y c]; [eexists; reflexivity|].
    injection E as <- E. rewrite dec_S. cbv zeta. pick2.
    match goal with H : BE _ _ _ |- _ => destruct (rd_scalar_short _ _ c d (BE_len _ _ _ H) E Hd) as [e He] end. rewrite He. eexists; reflexivity.
  - intros c d E Hd f L. rewrite H1. destruct f; [lia|].
    destruct (cut_cases _ _ _ _ E Hd) as [(l & Hl & -> & ->)|(c2 & -> & ->)].
    + left. eapply cut_str_hdr; [eassumption|reflexivity|assumption].
    + rewrite (dec_str_hdr _ _ _ _ s0). right. unfold next_str. zl.
      pose proof (zlen_nonneg c2). pose proof (zlen_nonneg d).
      replace (zlen c2 + zlen d <? 0) with false by lia. rewrite ztake_all, zdrop_all by lia.
      exists (VStr c2), (c2 ++ d). repeat split. zl. lia.
  - destruct v; try discriminate; [|inversion H0]. injection H2 as <-. inversion H0; inversion H1; subst.
    destruct (H l1) as (bss & -> & HO & HT); trivial.
    intros c d E Hd f L. destruct f as [|f]; [lia|].
    destruct (cut_cases _ _ _ _ E Hd) as [(l & Hl & -> & ->)|(c2 & -> & EC)].
    + left. eapply cut_list_hdr; [eassumption|reflexivity|assumption].
    + rewrite (dec_list_hdr _ _ _ _ l0). rewrite app_length in L. assert (0 < length h)%nat by (destruct l0; cbn; lia).
      destruct f as [|f]; [lia|]. rewrite dec_slice_S. zl. pose proof (zlen_nonneg l1).
      replace (zlen l1 <? 0) with false by lia.
      destruct (trunc_n l1 bss HO HT c2 d EC Hd f ltac:(lia)) as [[e He]|(a & s & Ha & Ht & Hs)].
      * left. rewrite He. eexists; reflexivity.
      * right. rewrite Ha. exists (VSlice a), s. repeat split; trivial.
  - destruct v; try discriminate. cbn [denote] in H2. injection H2 as H2. inversion H0; inversion H1; subst.
    match goal with H : wtm _ |- _ => destruct H as [kvs HD HK HV] end.
    destruct (H kvs) as (bss & -> & HF); trivial.
    intros c d E Hd f L. destruct f as [|f]; [lia|].
    destruct (cut_cases _ _ _ _ E Hd) as [(l & Hl & -> & ->)|(c2 & -> & EC)].
    + left. eapply cut_map_hdr; [eassumption|reflexivity|assumption].
    + rewrite (dec_map_hdr _ _ _ _ m0). rewrite app_length in L. assert (0 < length h)%nat by (destruct m0; cbn; lia).
      destruct f as [|f]; [lia|]. rewrite dec_map_S. zl. pose proof (zlen_nonneg kvs).
      replace (zlen kvs <? 0) with false by lia. cbn [andb].
      destruct (trunc_m kvs bss HF c2 d EC Hd f [] ltac:(lia)) as [[e He]|(a & s & Ha & Ht & Hs)].
      * left. rewrite He. eexists; reflexivity.
      * right. rewrite Ha. exists (VMap a), s. repeat split; trivial.
  - destruct (recv_fields v sig l H0 H1 H2) as (fs & -> & FD & FW & HV).
    destruct (H fs FD FW eq_refl) as (bss & -> & HO & HT).
    intros c d E Hd f L. rewrite H2. destruct f as [|f]; [lia|].
    destruct (cut_cases _ _ _ _ E Hd) as [(l & Hl & -> & ->)|(c2 & -> & EC)].
    + left. eapply cut_struct_hdr; [eassumption|reflexivity|assumption].
    + rewrite (dec_struct_hdr _ _ _ _ s). rewrite app_length in L. assert (0 < length h)%nat by (destruct s; cbn; lia).
      destruct f as [|f]; [lia|].
      destruct c2 as [|y c2]; [left; eexists; reflexivity|].
      injection EC as <- EC. cbn [length] in L.
      exact (trunc_struct v sig bss fs H0 H1 HV HO HT c2 d EC Hd (S f) ltac:(lia)).
  - destruct vs; [|discriminate]. exists []. repeat split; constructor.
  - destruct vs as [|v vs]; [discriminate|]. cbn [map] in *. injection H3 as E1 E2.
    inversion H1; inversion H2; subst. destruct (H0 vs) as (bss & -> & HO & HT); trivial.
    exists (b :: bss). repeat split; constructor; auto. eapply (proj1 dec_accepts); trivial. eassumption.
  - destruct kvs; [|discriminate]. exists []. repeat split; constructor.
  - destruct kvs as [|[k' v] kvs]; [discriminate|]. cbn [map dmap fst snd] in *. injection H5 as E0 E1 E2.
    inversion H2; inversion H3; inversion H4; subst. destruct (H1 kvs) as (bss & -> & HF); trivial.
    exists ((kb, b) :: bss). cbn [map concat fst snd]. rewrite <- app_assoc. split; [reflexivity|].
    constructor; [|assumption]. cbn [fst snd] in *. repeat split.
    + eapply (proj1 dec_accepts); [eassumption|constructor|now constructor|reflexivity].
    + apply H; [constructor|now constructor|reflexivity].
    + eapply (proj1 dec_accepts); trivial. eassumption.
    + apply H0; auto.
Qed.

(** C10: a truncated message is an error unless the cut is inside the string
    with which the message ends. *)
Lemma decode_truncated v c d : decodable v -> wt v -> PS_half (denote v) (c ++ d) -> d <> [] ->
  (exists e, decode c = DErr e) \/
  (exists a s, decode c = DOk a [] /\ tail_str (denote v) = Some s /\ zlen d <= zlen s).
Proof.
  intros D W H Hd. unfold decode, Decoder.decode.
  eapply (proj1 dec_trunc _ _ H v D W eq_refl c d eq_refl Hd). unfold decode_fuel. lia.
Qed.

End D.
