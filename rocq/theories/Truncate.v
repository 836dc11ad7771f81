(** What a decoder makes of a truncated encoding (C10): exactly which cuts are
    accepted, and the value that is returned for them. *)
From Coq Require Import ZArith List Bool Lia Permutation.
From Coq Require Import ZifyBool.
From Verif Require Import GoPrims Value PackSpec PrimLemmas Encoder EncoderProofs PackProofs Decoder DecoderProofs RoundTrip.
Import ListNotations.
Open Scope Z_scope.

(** The value with the string that ends its encoding cut short by [n] bytes. *)
Fixpoint shorten (n : Z) (v : goval) : goval :=
  let sl := fix go l := match l with [] => [] | [x] => [shorten n x] | x :: l' => x :: go l' end in
  let sm := fix go m := match m with [] => [] | [(k, x)] => [(k, shorten n x)] | kv :: m' => kv :: go m' end in
  match v with
  | VStr s => VStr (ztake (zlen s - n) s)
  | VSlice l => VSlice (sl l)
  | VMap m => VMap (sm m)
  | VNode id ls ps => VNode id ls (sm ps)
  | VRel id s e ty ps => VRel id s e ty (sm ps)
  | VURel id ty ps => VURel id ty (sm ps)
  | VRecord fs => VRecord (sl fs)
  | VSuccess md => VSuccess (sm md)
  | VFailure md => VFailure (sm md)
  | _ => v
  end.

Definition shortenL (n : Z) : list goval -> list goval :=
  fix go l := match l with [] => [] | [x] => [shorten n x] | x :: l' => x :: go l' end.
Definition shortenM (n : Z) : list (str * goval) -> list (str * goval) :=
  fix go m := match m with [] => [] | [(k, x)] => [(k, shorten n x)] | kv :: m' => kv :: go m' end.
Lemma shortenL_cons n x y l : shortenL n (x :: y :: l) = x :: shortenL n (y :: l).
Proof. reflexivity. Qed.
Lemma shortenM_cons n x y m : shortenM n (x :: y :: m) = x :: shortenM n (y :: m).
Proof. destruct x. reflexivity. Qed.
Lemma shortenM_keys n m : map fst (shortenM n m) = map fst m.
Proof. induction m as [|[k v] [|kv m] IH]; [reflexivity..|]. rewrite shortenM_cons. cbn [map] in *. now rewrite IH. Qed.

Lemma cut_at (a b c d : bytes) : a ++ b = c ++ d -> zlen d <= zlen b -> exists c2, c = a ++ c2 /\ b = c2 ++ d.
Proof.
  intros E L. destruct d as [|x d]; [exists b; now rewrite app_nil_r in *|].
  destruct (cut_cases a b c (x :: d) E) as [(l & Hl & -> & Ed)|H]; [discriminate| |exact H].
  exfalso. rewrite Ed in L. rewrite zlen_app in L. destruct l; [easy|]. rewrite zlen_cons in L. pose proof (zlen_nonneg l). lia.
Qed.

Section D.
Variable mk : bool.
Local Notation dec := (dec mk). Local Notation dec_slice := (dec_slice mk).
Local Notation dec_n := (dec_n mk). Local Notation dec_map := (dec_map mk).
Local Notation dec_m := (dec_m mk). Local Notation dec_struct := (dec_struct mk).
Local Notation decode := (decode mk).
Local Notation okdec := (okdec mk).

Definition cutdec (v : goval) (b : bytes) : Prop :=
  forall s, tail_str (denote v) = Some s -> zlen s <= zlen b /\
  forall c d, b = c ++ d -> zlen d <= zlen s -> forall f, (3 * length c + 1 <= f)%nat ->
  dec f c = DOk (shorten (zlen d) v) [].

Lemma cut_n vs bss : Forall2 okdec vs bss -> Forall2 cutdec vs bss ->
  forall s, tailL (map denote vs) = Some s -> zlen s <= zlen (concat bss) /\
  forall c d, concat bss = c ++ d -> zlen d <= zlen s -> forall f, (3 * length c + 2 <= f)%nat ->
  dec_n f (zlen vs) c = DOk (shortenL (zlen d) vs) [].
Proof.
  intros HO. induction HO as [|v b vs bss Hv HO IH]; intros HT s Es; [discriminate|].
  inversion HT as [|? ? ? ? Tv HT']; subst. cbn [concat].
  destruct vs as [|v2 vs].
  - inversion HO; subst. cbn [concat]. rewrite app_nil_r. destruct (Tv s Es) as [LE K]. split; [exact LE|].
    intros c d E Hd f L. destruct f as [|[|f]]; [lia|lia|]. rewrite dec_n_S. change (zlen [v] <=? 0) with false. cbv iota.
    rewrite (K c d E Hd) by lia. reflexivity.
  - cbn [map] in Es. rewrite tailL_cons in Es. destruct (IH HT' s Es) as [LE K].
    split; [rewrite zlen_app; pose proof (zlen_nonneg b); lia|].
    intros c d E Hd f L. destruct (cut_at _ _ _ _ E) as (c2 & -> & E2); [lia|].
    pose proof (okdec_nonempty _ _ _ Hv). rewrite app_length in L. destruct f as [|f]; [lia|].
    rewrite dec_n_S. rewrite (zlen_cons v). pose proof (zlen_nonneg (v2 :: vs)).
    replace (1 + zlen (v2 :: vs) <=? 0) with false by lia.
    replace (1 + zlen (v2 :: vs) - 1) with (zlen (v2 :: vs)) by lia.
    rewrite Hv by lia. cbn [dbind]. rewrite (K c2 d E2 Hd) by lia. reflexivity.
Qed.

Lemma cut_m m bss :
  Forall2 (fun kv bb => okdec (VStr (fst kv)) (fst bb) /\ okdec (snd kv) (snd bb) /\ cutdec (snd kv) (snd bb)) m bss ->
  forall s, tailM (dmap m) = Some s -> zlen s <= zlen (concat (map (fun bb => fst bb ++ snd bb) bss)) /\
  forall c d, concat (map (fun bb => fst bb ++ snd bb) bss) = c ++ d -> zlen d <= zlen s ->
  forall f acc, (3 * length c + 2 <= f)%nat ->
  dec_m f (zlen m) acc c = DOk (mputs (shortenM (zlen d) m) acc) [].
Proof.
  induction 1 as [|[k v] [kb vb] m bss (Ok & Ov & Tv) H IH]; intros s Es; [discriminate|].
  cbn [concat map fst snd] in *. pose proof (okdec_nonempty _ _ _ Ok).
  destruct m as [|kv2 m].
  - inversion H; subst. cbn [concat map]. rewrite app_nil_r. destruct (Tv s Es) as [LE K].
    split; [rewrite zlen_app; pose proof (zlen_nonneg kb); lia|].
    intros c d E Hd f acc L. destruct (cut_at _ _ _ _ E) as (c2 & -> & E2); [lia|]. rewrite app_length in L.
    destruct f as [|[|f]]; [lia|lia|]. rewrite dec_m_S. change (zlen [(k, v)] <=? 0) with false. cbv iota.
    rewrite Ok by lia. cbn [dbind]. rewrite (K c2 d E2 Hd) by lia. reflexivity.
  - unfold dmap in Es. cbn [map] in Es. rewrite tailM_cons in Es. destruct (IH s Es) as [LE K].
    split; [rewrite zlen_app; pose proof (zlen_nonneg (kb ++ vb)); lia|].
    intros c d E Hd f acc L. destruct (cut_at _ _ _ _ E) as (c2 & -> & E2); [lia|]. rewrite !app_length in L.
    destruct f as [|f]; [lia|]. rewrite dec_m_S. rewrite (zlen_cons (k, v)). pose proof (zlen_nonneg (kv2 :: m)).
    replace (1 + zlen (kv2 :: m) <=? 0) with false by lia.
    replace (1 + zlen (kv2 :: m) - 1) with (zlen (kv2 :: m)) by lia.
    rewrite <- app_assoc. rewrite Ok by lia. cbn [dbind]. rewrite Ov by lia. cbn [dbind].
    rewrite (K c2 d E2 Hd) by lia. rewrite shortenM_cons. reflexivity.
Qed.

Lemma cut_struct v sig bss fs :
  decodable v -> wt v ->
  (match v with
   | VNode id ls ps => sig = 0x4E /\ fs = [vint64 id; VSlice (map vstr ls); VMap ps]
   | VRel id s e ty ps => sig = 0x52 /\ fs = [vint64 id; vint64 s; vint64 e; VStr ty; VMap ps]
   | VURel id ty ps => sig = 0x72 /\ fs = [vint64 id; VStr ty; VMap ps]
   | VPath ns rs seq => sig = 0x50 /\ fs = [VSlice ns; VSlice rs; VSlice (map vint64 seq)]
   | VRecord l => sig = 0x71 /\ fs = [VSlice l]
   | VSuccess md => sig = 0x70 /\ fs = [VMap md]
   | VFailure md => sig = 0x7F /\ fs = [VMap md]
   | VIgnored => sig = 0x7E /\ fs = []
   | VPullAll => sig = 0x3F /\ fs = []
   | VDiscardAll => sig = 0x2F /\ fs = []
   | VAckFailure => sig = 0x0E /\ fs = []
   | VReset => sig = 0x0F /\ fs = []
   | _ => False end) ->
  Forall2 okdec fs bss -> Forall2 cutdec fs bss ->
  forall s, tailL (map denote fs) = Some s -> zlen s <= zlen (concat bss) /\
  forall c d, concat bss = c ++ d -> zlen d <= zlen s -> forall f, (3 * length c + 2 <= f)%nat ->
  dec_struct f (sig :: c) = DOk (shorten (zlen d) v) [].
Proof.
  intros DC WT HV HO HT s Es.
  split; [exact (proj1 (cut_n fs bss HO HT s Es))|].
  intros c d E Hd f L.
  assert (NS : forall q, tailL (map denote (map vint64 q)) = None) by apply tail_ints.
  destruct f; [lia|]. rewrite dec_struct_S.
  destruct v; try contradiction; destruct HV as [-> ->]; try discriminate Es;
    repeat match goal with H : Forall2 _ (_ :: _) _ |- _ => inversion H; subst; clear H
                         | H : Forall2 _ [] _ |- _ => inversion H; subst; clear H end;
    try match goal with q : list Z |- _ =>
      change (tailL (map denote (map vint64 q)) = Some s) in Es; rewrite NS in Es; discriminate Es end.
  all: repeat match goal with H : cutdec (VSlice (map vstr _)) _ |- _ => clear H
                            | H : cutdec (VStr _) _ |- _ => clear H
                            | H : cutdec (vint64 _) _ |- _ => clear H
                            | H : okdec ?v ?b, H' : cutdec ?v ?b |- _ => clear H; rename H' into K end.
  all: destruct (K s Es) as [LE K2]; clear K Es.
  all: cbn [concat] in E; rewrite ?app_nil_r in E.
  all: rewrite ?app_assoc in E.
  all: try (destruct (cut_at _ _ _ _ E) as (c2 & -> & E2); [lia|]; rewrite !app_length in L; rewrite <- !app_assoc).
  all: unfold struct_body;
    repeat match goal with |- context [if ?c =? ?d then _ else _] => replace (c =? d) with true by reflexivity
                         | |- context [if ?c =? ?d then _ else _] => replace (c =? d) with false by reflexivity end;
    cbv iota.
  all: repeat (match goal with
    | H : okdec _ ?b |- context [Decoder.dec _ _ (?b ++ _)] => rewrite H by lia
    | H : forall c d, ?b = c ++ d -> _ |- context [Decoder.dec _ _ ?c2] => rewrite (H c2 d) by (trivial; lia)
    | |- context [to_strings (map vstr ?l)] => replace (to_strings (map vstr l)) with (Some l) by (symmetry; now apply to_strings_spec); cbv iota
    end; cbn [dbind as_int64 as_str as_map as_slice vint64 shorten]; cbv iota).
  all: reflexivity.
Qed.

Lemma cut_none v b : tail_str (denote v) = None -> cutdec v b.
Proof. intros H s E. congruence. Qed.

Lemma dec_cut :
  (forall p b, PSg true p b -> forall v, decodable v -> wt v -> denote v = p -> cutdec v b) /\
  (forall l bs, PSs true l bs -> forall vs, Forall decodable vs -> Forall wt vs -> map denote vs = l ->
     exists bss, bs = concat bss /\ Forall2 okdec vs bss /\ Forall2 cutdec vs bss) /\
  (forall m bs, PSm true m bs -> forall kvs, Forall (fun kv => decodable (snd kv)) kvs -> Forall (fun kv => wt (snd kv)) kvs ->
     Forall (fun kv => bytes_ok (fst kv)) kvs -> dmap kvs = m ->
     exists bss, bs = concat (map (fun bb => fst bb ++ snd bb) bss) /\
     Forall2 (fun kv bb => okdec (VStr (fst kv)) (fst bb) /\ okdec (snd kv) (snd bb) /\ cutdec (snd kv) (snd bb)) kvs bss).
Proof.
  apply PS_mutind; intros.
  1-10: apply cut_none; match goal with H : denote _ = _ |- _ => rewrite H end; reflexivity.
  - destruct v; try discriminate. injection H1 as ->. intros s1 [= <-]. split; [rewrite zlen_app; pose proof (zlen_nonneg h); lia|].
    intros c d E Hd f L. destruct f; [lia|].
    destruct (cut_at _ _ _ _ E Hd) as (c2 & -> & ->). rewrite (dec_str_hdr _ _ _ _ _ s0). unfold next_str. cbn [shorten]. zl.
    pose proof (zlen_nonneg c2). pose proof (zlen_nonneg d).
    replace (zlen c2 + zlen d <? 0) with false by lia. rewrite ztake_all, zdrop_all by lia.
    now rewrite ztake_app' by lia.
  - destruct v; try discriminate; [|inversion H0]. injection H2 as <-. inversion H0; inversion H1; subst.
    destruct (H l1) as (bss & -> & HO & HT); trivial.
    intros s Es. destruct (cut_n l1 bss HO HT s Es) as [LE K]. split; [rewrite zlen_app; pose proof (zlen_nonneg h); lia|].
    intros c d E Hd f L. destruct f as [|f]; [lia|].
    destruct (cut_at _ _ _ _ E) as (c2 & -> & E2); [lia|].
    rewrite (dec_list_hdr _ _ _ _ _ l0). rewrite app_length in L. assert (0 < length h)%nat by (destruct l0; cbn; lia).
    destruct f as [|f]; [lia|]. rewrite dec_slice_S. zl. pose proof (zlen_nonneg l1).
    replace (zlen l1 <? 0) with false by lia. rewrite (K c2 d E2 Hd) by lia. reflexivity.
  - destruct v; try discriminate. cbn [denote] in H2. injection H2 as H2. inversion H0; inversion H1; subst.
    match goal with H : wtm _ |- _ => destruct H as [kvs HD HK HV] end.
    destruct (H kvs) as (bss & -> & HF); trivial.
    intros s Es. destruct (cut_m kvs bss HF s Es) as [LE K]. split; [rewrite zlen_app; pose proof (zlen_nonneg h); lia|].
    intros c d E Hd f L. destruct f as [|f]; [lia|].
    destruct (cut_at _ _ _ _ E) as (c2 & -> & E2); [lia|].
    rewrite (dec_map_hdr _ _ _ _ _ m0). rewrite app_length in L. assert (0 < length h)%nat by (destruct m0; cbn; lia).
    destruct f as [|f]; [lia|]. rewrite dec_map_S. zl. pose proof (zlen_nonneg kvs).
    replace (zlen kvs <? 0) with false by lia. cbn [andb]. rewrite (K c2 d E2 Hd) by lia. cbn [dbind].
    rewrite mputs_nodup; [reflexivity|now rewrite shortenM_keys|cbn; tauto].
  - destruct (recv_fields v sig l H0 H1 H2) as (fs & -> & FD & FW & HV).
    destruct (H fs FD FW eq_refl) as (bss & -> & HO & HT).
    intros s1 Es. rewrite H2 in Es. destruct (cut_struct v sig bss fs H0 H1 HV HO HT s1 Es) as [LE K].
    split; [rewrite zlen_app, zlen_cons; pose proof (zlen_nonneg h); lia|].
    intros c d E Hd f L. destruct f as [|f]; [lia|].
    change (h ++ sig :: concat bss) with (h ++ [sig] ++ concat bss) in E. rewrite app_assoc in E.
    destruct (cut_at _ _ _ _ E) as (c2 & -> & E2); [lia|]. rewrite <- app_assoc.
    rewrite (dec_struct_hdr _ _ _ _ _ s). rewrite !app_length in L. assert (0 < length h)%nat by (destruct s; cbn; lia).
    apply (K c2 d E2 Hd). cbn [length] in L. lia.
  - destruct vs; [|discriminate]. exists []. repeat split; constructor.
  - destruct vs as [|v vs]; [discriminate|]. cbn [map] in *. injection H3 as E1 E2.
    inversion H1; inversion H2; subst. destruct (H0 vs) as (bss & -> & HO & HT); trivial.
    exists (b :: bss). repeat split; constructor; auto. eapply (proj1 (dec_accepts mk)); trivial. eassumption.
  - destruct kvs; [|discriminate]. exists []. repeat split; constructor.
  - destruct kvs as [|[k' v] kvs]; [discriminate|]. cbn [map dmap fst snd] in *. injection H5 as E0 E1 E2.
    inversion H2; inversion H3; inversion H4; subst. destruct (H1 kvs) as (bss & -> & HF); trivial.
    exists ((kb, b) :: bss). cbn [map concat fst snd]. rewrite <- app_assoc. split; [reflexivity|].
    constructor; [|assumption]. cbn [fst snd] in *. split; [|split].
    + eapply (proj1 (dec_accepts mk)); [eassumption|constructor|now constructor|reflexivity].
    + eapply (proj1 (dec_accepts mk)); trivial. eassumption.
    + now apply H0.
Qed.

(** C10, exactly: the cut is accepted when it removes no more than the string
    with which the encoding ends, and what is returned is the value with that
    string cut short. *)
Lemma decode_cut v c d : decodable v -> wt v -> PS_half (denote v) (c ++ d) -> d <> [] ->
  match tail_str (denote v) with
  | Some s => if zlen d <=? zlen s then decode c = DOk (shorten (zlen d) v) [] else exists e, decode c = DErr e
  | None => exists e, decode c = DErr e
  end.
Proof.
  intros D W H Hd. pose proof (decode_truncated mk v c d D W H Hd) as T.
  destruct (tail_str (denote v)) as [s|] eqn:Es.
  - destruct (zlen d <=? zlen s) eqn:El.
    + unfold decode, Decoder.decode. apply (proj2 (proj1 dec_cut _ _ H v D W eq_refl s Es) c d eq_refl); [lia|]. unfold decode_fuel. lia.
    + destruct T as [T|(a & s' & _ & [= <-] & L)]; [exact T|]. lia.
  - destruct T as [T|(a & s' & _ & E & L)]; [exact T|discriminate].
Qed.

End D.
